(** * C33, C41: JSON documents *)
From Verif Require Export FlowRun PropNode PropScalar.
Open Scope nat_scope.

(** ** Specification *)

Inductive json : Type :=
| JNull
| JBool (b : bool)
| JInt (z : Z)
| JFloat (t : str)                       (* a number with a fraction or an exponent, as it is written *)
| JStr (s : str)
| JArr (l : list json)
| JObj (m : list (str * json)).

(** The value a document stands for.  Of members with the same key the last
    one counts. *)
Fixpoint last_wins {A} (m : list (str * A)) : list (str * A) :=
  match m with
  | [] => []
  | (k, v) :: r => if existsb (fun p => str_eqb k (fst p)) r then last_wins r else (k, v) :: last_wins r
  end.
(** The text of a float without its final [.0]. *)
Definition drop_dot0 (t : str) : str :=
  match rev t with
  | y :: x :: r => if N.eqb x 46 && N.eqb y 48 then rev r else t
  | _ => t
  end.
Fixpoint value (j : json) : yaml :=
  match j with
  | JNull => YNull
  | JBool b => YBool b
  | JInt z => YInt (show_Z z)
  | JFloat t => YFloat (drop_dot0 t)
  | JStr s => YStr s
  | JArr l => YSeq (List.map (fun x => Node 0 [] (value x)) l)
  | JObj m => YMap (List.map (fun p => (Node 0 [] (YStr (fst p)), snd p))
                (last_wins (List.map (fun p => (fst p, Node 0 [] (value (snd p)))) m)))
  end.
(** Forget where the nodes of a tree stood (tags are kept). *)
Fixpoint erase (n : node) : node :=
  match n with
  | Node _ t y =>
    Node 0 t (match y with
              | YSeq l => YSeq (List.map erase l)
              | YMap m => YMap (List.map (fun p => match p with (k, v) => (erase k, erase v) end) m)
              | y => y
              end)
  end.

(** The texts of a JSON value.  White space (space, tab, line breaks, form
    feed) may stand wherever the parser allows it: after [[], [{] and [,],
    before the closing bracket, in arrays before [,]; after [:] a space and
    then blanks.  Strings are written with the escapes of JSON ([json_char]);
    one that ends in a backslash is left out: the parser never ends on it
    (C12_trailing_backslash_refuted). *)
Definition wide (w : str) : Prop := Forall (fun c => In c [32; 9; 10; 12; 13]%N) w.
Definition blanks_after_colon (b : str) : Prop :=
  b = [] \/ exists b', b = 32%N :: b' /\ Forall (fun c => In c [32; 9; 12]%N) b'.
Definition str_ok (s : str) : Prop := valid s /\ last s 0%N <> 92%N.
Definition quote (s : str) : str := [34%N] ++ flat_map json_char s ++ [34%N].

(** A float is written as digits, a point and digits, or as digits and an exponent
    (PropFloat; not both).  White space behind it is restricted: the blanks before a line break, a
    comma or a bracket end in a space, if there are any. *)
Definition number_ok (t : str) : Prop := float_literal t \/ sci_literal t.
Definition trails (j : json) (w : str) : Prop :=
  wide w /\ ((exists t, j = JFloat t) -> exists b r, w = b ++ r
    /\ (b = [] \/ exists b', b = b' ++ [32%N] /\ Forall (fun c => In c [32; 9; 12]%N) b')
    /\ (r = [] \/ exists c r', r = c :: r' /\ In c [10; 13]%N)).
Inductive jtext : json -> str -> Prop :=
| TNull : jtext JNull (lit "null")
| TTrue : jtext (JBool true) (lit "true")
| TFalse : jtext (JBool false) (lit "false")
| TInt z : jtext (JInt z) (show_Z z)
| TFloat t : number_ok t -> jtext (JFloat t) t
| TStr s : str_ok s -> jtext (JStr s) (quote s)
| TArr l t : jitems l t -> jtext (JArr l) (lit "[" ++ t)
| TObj m t : jmembers m t -> jtext (JObj m) (lit "{" ++ t)
with jitems : list json -> str -> Prop :=
| INone w : wide w -> jitems [] (w ++ lit "]")
| IOne w j t w' : wide w -> jtext j t -> trails j w' -> jitems [j] (w ++ t ++ w' ++ lit "]")
| IMore w j t w' js u : wide w -> jtext j t -> trails j w' -> jitems js u -> jitems (j :: js) (w ++ t ++ w' ++ lit "," ++ u)
with jmembers : list (str * json) -> str -> Prop :=
| MNone w : wide w -> jmembers [] (w ++ lit "}")
| MOne w k b j t w' : wide w -> str_ok k -> blanks_after_colon b -> jtext j t -> trails j w' ->
    jmembers [(k, j)] (w ++ quote k ++ lit ":" ++ b ++ t ++ w' ++ lit "}")
| MMore w k b j t ms u : wide w -> str_ok k -> blanks_after_colon b -> jtext j t -> jmembers ms u ->
    jmembers ((k, j) :: ms) (w ++ quote k ++ lit ":" ++ b ++ t ++ lit "," ++ u).
Scheme jtext_mut := Minimality for jtext Sort Prop
with jitems_mut := Minimality for jitems Sort Prop
with jmembers_mut := Minimality for jmembers Sort Prop.
Combined Scheme jtext_all from jtext_mut, jitems_mut, jmembers_mut.

(** The compact text. *)
Fixpoint joined (ts : list str) : str :=
  match ts with
  | [] => []
  | [t] => t
  | t :: r => t ++ lit "," ++ joined r
  end.
Fixpoint render (j : json) : str :=
  match j with
  | JNull => lit "null"
  | JBool true => lit "true"
  | JBool false => lit "false"
  | JInt z => show_Z z
  | JFloat t => t
  | JStr s => quote s
  | JArr l => lit "[" ++ joined (List.map render l) ++ lit "]"
  | JObj m => lit "{" ++ joined (List.map (fun p => quote (fst p) ++ lit ":" ++ render (snd p)) m) ++ lit "}"
  end.
Inductive json_ok : json -> Prop :=
| OkNull : json_ok JNull
| OkBool b : json_ok (JBool b)
| OkInt z : json_ok (JInt z)
| OkFloat t : number_ok t -> json_ok (JFloat t)
| OkStr s : str_ok s -> json_ok (JStr s)
| OkArr l : (forall x, In x l -> json_ok x) -> json_ok (JArr l)
| OkObj m : (forall p, In p m -> str_ok (fst p)) -> (forall p, In p m -> json_ok (snd p)) -> json_ok (JObj m).

(** ** Proofs *)
Lemma wide_wsl w : wide w -> wsl w.
Proof.
  unfold wide. intros H. unfold wsl. apply forallb_forall. intros c Hc. rewrite Forall_forall in H. specialize (H c Hc).
  simpl in H. destruct H as [<-|[<-|[<-|[<-|[<-|[]]]]]]; reflexivity.
Qed.
Lemma wsl_encode w : wsl w -> utf8_encode w = w.
Proof. intros H. apply encode_asciis. now apply wsl_ascii. Qed.

(** text heads *)
Lemma show_Z_literal z : int_literal (show_Z z).
Proof.
  destruct (show_Z_dec z) as (neg & ds & E & Hn & Hd). rewrite E.
  assert (F : Forall digit ds) by now apply digits_forallb. destruct neg; [now apply NegLit|now apply DecLit].
Qed.
Lemma head_ok b r : In b ([34; 91; 123; 110; 116; 102]%N) \/ digit b \/ (b = 45%N /\ exists d r', r = d :: r' /\ digit d) ->
  hd_ok (b :: r) = true /\ b <> 93%N /\ b <> 125%N /\ is_ascii_ws b = false /\ b <> 37%N /\ starts_with (lit "---") (b :: r) = false.
Proof.
  intros [H|[H|(-> & d & r' & -> & H)]].
  - simpl in H. repeat (destruct H as [<-|H]; [repeat split; try discriminate|]). destruct H.
  - unfold digit in H. split; [|split; [lia|split; [lia|split; [|split; [lia|]]]]].
    + cbn [hd_ok]. apply andb_true_iff. split.
      * apply not_in_spec. intros K. simpl in K. lia.
      * replace (is_in [45; 63]%N b) with false; [reflexivity|]. symmetry.
        destruct (is_in [45; 63]%N b) eqn:E; [|reflexivity]. apply is_in_spec in E. simpl in E. lia.
    + unfold is_ascii_ws. rewrite !(proj2 (N.eqb_neq b _)) by lia. reflexivity.
    + cbn [starts_with]. rewrite (proj2 (N.eqb_neq 45 b)) by lia. reflexivity.
  - unfold digit in H. repeat split; try discriminate.
    + cbn [hd_ok]. apply andb_true_iff. split; [reflexivity|]. unfold at_bound.
      replace (is_in bound_set d) with false; [now rewrite andb_false_r|]. symmetry.
      destruct (is_in bound_set d) eqn:E; [|reflexivity]. apply is_in_spec in E. simpl in E. lia.
    + cbn [starts_with]. rewrite (proj2 (N.eqb_neq 45 d)) by lia. now rewrite andb_false_r.
Qed.
Definition good_head (l : bytes) : Prop :=
  hd_ok l = true /\ starts_with (lit "---") l = false
  /\ exists b r, l = b :: r /\ b <> 93%N /\ b <> 125%N /\ is_ascii_ws b = false /\ b <> 37%N.
Lemma head_good b r : In b ([34; 91; 123; 110; 116; 102]%N) \/ digit b \/ (b = 45%N /\ exists d r', r = d :: r' /\ digit d) ->
  good_head (b :: r).
Proof.
  intros H. destruct (head_ok b r H) as (H1 & H2 & H3 & H4 & H5 & H6). split; [exact H1|]. split; [exact H6|]. exists b, r. auto.
Qed.
Lemma number_ascii t : number_ok t -> forallb (fun c => N.ltb c 128) t = true.
Proof. apply float_literal_ascii. Qed.
Lemma number_head t : number_ok t -> (exists d r, t = d :: r /\ digit d) \/ (exists d r, t = 45%N :: d :: r /\ digit d).
Proof.
  assert (K : forall neg ds u, ds <> [] -> Forall digit ds -> (exists d r, sign neg ++ ds ++ u = d :: r /\ digit d) \/ (exists d r, sign neg ++ ds ++ u = 45%N :: d :: r /\ digit d)).
  { intros neg ds u Hn Hd. destruct Hd as [|d ds Hd _]; [congruence|]. destruct neg; [right|left]; exists d, (ds ++ u); auto. }
  intros [H|H]; destruct H; now apply K.
Qed.
Lemma jtext_head j t : jtext j t -> forall rest, good_head (utf8_encode t ++ rest).
Proof.
  intros H rest. destruct H as [| | |z|t Ht|s Hs|l t Hl|m t Hm].
  - apply head_good. left. simpl. auto 10.
  - apply head_good. left. simpl. auto 10.
  - apply head_good. left. simpl. auto 10.
  - pose proof (show_Z_literal z) as Hz. rewrite (encode_asciis _ (int_literal_ascii _ Hz)).
    destruct (show_Z_dec z) as (neg & ds & E & Hn & Hd). rewrite E. apply digits_forallb in Hd.
    destruct Hd as [|d ds Hd Hds]; [congruence|].
    destruct neg; apply head_good; [|now right; left]. right. right. split; [reflexivity|]. exists d, (ds ++ rest). auto.
  - rewrite (encode_asciis _ (number_ascii t Ht)). destruct (number_head t Ht) as [(d & r & -> & Hd)|(d & r & -> & Hd)]; apply head_good.
    + now right; left.
    + right. right. split; [reflexivity|]. exists d, (r ++ rest). auto.
  - unfold quote. cbn [app]. rewrite encode_cons_ascii by lia. apply head_good. left. simpl. auto.
  - change (lit "[" ++ t) with (91%N :: t). rewrite encode_cons_ascii by lia. apply head_good. left. simpl. auto.
  - change (lit "{" ++ t) with (123%N :: t). rewrite encode_cons_ascii by lia. apply head_good. left. simpl. auto.
Qed.
Lemma jtext_nonempty j t : jtext j t -> 1 <= List.length t.
Proof.
  intros H. destruct t; [|simpl; lia]. destruct (jtext_head j [] H []) as (E & _). discriminate.
Qed.

(** the environment of a run *)
Record env (s s' : st) : Prop := {
  env_doc : p_doc s' = p_doc s;
  env_hash : p_hash s' = p_hash s;
  env_in : in_doc s';
  env_depth : 0 < depth (p_indent s') 1
}.
Lemma env_trans a b c : env a b -> env b c -> env a c.
Proof. intros [A1 A2 A3 A4] [B1 B2 B3 B4]. constructor; congruence || assumption. Qed.
Lemma env_eaten a b k : env a b -> env a (set_eaten k b).
Proof. intros [A1 A2 A3 A4]. now constructor. Qed.
Lemma env_pos a b k : env a b -> k <= List.length (rem b) -> env a (set_pos (p_pos b + k) b).
Proof. intros [A1 A2 A3 A4] Hk. constructor; try assumption. now apply in_doc_add. Qed.
Lemma depth_pos tb L : 1 <= L -> 0 < depth tb 1 -> 0 < depth tb L.
Proof. intros H1 H2. pose proof (depth_mono tb 1 L H1). lia. Qed.

(** *** keywords *)
Lemma string_plain_ws L s t w c r : in_doc s -> valid t -> t <> [] -> trim_end t = t ->
  forallb (not_in (plain_patt true)) t = true -> rem s = utf8_encode t ++ w ++ c :: r -> wsl w -> closer c ->
  0 < depth (p_indent s) L ->
  exists k tb, string_plain L true s = (ROk t, set_pos (p_pos s + List.length (utf8_encode t) + k) (set_indent tb s))
    /\ k <= List.length w /\ tb_ok L (p_indent s) tb.
Proof.
  intros H Hv Hn Ht Hp Er Hw Hc Hd. unfold string_plain, context. set (s0 := set_eaten (p_pos s) s).
  unfold bind, gets.
  set (n := List.length (p_doc s0)). assert (Ef : loop_fuel s0 = S (S n)) by reflexivity. rewrite Ef.
  set (s1 := set_pos (p_pos s0 + List.length (utf8_encode t)) s0).
  assert (D0 : in_doc s0) by exact H. assert (R0 : rem s0 = utf8_encode t ++ w ++ c :: r) by exact Er.
  assert (D1 : in_doc s1) by (apply in_doc_add; [rewrite R0, app_length; lia|exact D0]).
  assert (R1 : rem s1 = w ++ c :: r) by (unfold s1; rewrite rem_add, R0; apply skipn_app_len).
  (* skip the text *)
  assert (SK : plain_loop (S (S n)) L true [] false s0 = plain_loop (S (S n)) L true t false s1).
  { assert (SP : exists t0 tl, w ++ c :: r = t0 ++ tl /\ forallb (not_in (plain_patt true)) t0 = true
               /\ starts_in (plain_patt true) tl /\ wsl t0).
    { clear - Hw Hc. induction w as [|x w IHw].
      - exists [], (c :: r). split; [reflexivity|]. split; [reflexivity|]. split; [|reflexivity].
        apply is_in_spec. rewrite in_patt. destruct Hc as [<-|[<-|[<-|[]]]]; reflexivity.
      - apply wsl_cons in Hw as [Hx Hw]. destruct (IHw Hw) as (t0 & tl & E & A & B & C).
        destruct (is_in (plain_patt true) x) eqn:Ex.
        + exists [], (x :: w ++ c :: r). split; [reflexivity|]. split; [reflexivity|]. split; [|reflexivity]. now apply is_in_spec.
        + exists (x :: t0), tl. cbn [app]. rewrite E. split; [reflexivity|]. cbn [forallb]. rewrite not_in_is, Ex, A. split; [reflexivity|].
          split; [exact B|]. apply wsl_cons. auto. }
    destruct SP as (t0 & tl & E & Ht0 & St & W0).
    assert (V0 : valid t0).
    { unfold valid. eapply forallb_impl; [|exact W0]. intros x Hx. apply ascii_ws_in in Hx. simpl in Hx.
      destruct Hx as [<-|[<-|[<-|[<-|[<-|[]]]]]]; reflexivity. }
    rewrite E in R0, R1. rewrite <- (wsl_encode t0 W0) in R0, R1. rewrite app_assoc, <- encode_app in R0.
    destruct (plain_step (S n) L true t false s1 t0 tl D1 V0 Ht0 St R1) as (E1 & _ & _).
    assert (Va : valid (t ++ t0)) by now apply valid_app.
    destruct (plain_step (S n) L true [] false s0 (t ++ t0) tl D0 Va) as (E2 & _ & _); [now rewrite forallb_app, Hp, Ht0|exact St|exact R0|].
    rewrite E1, E2. f_equal. unfold s1, at_pos, set_pos, set_eaten. cbn. rewrite encode_app, app_length. f_equal; lia. }
  rewrite SK.
  assert (Ln : List.length w < S (S n)).
  { unfold n. cbn. pose proof (rem_length s) as RL. rewrite Er, !app_length in RL. lia. }
  destruct (plain_ws L (List.length w) w (S (S n)) t false s1 c r (le_n _) Ln D1 Hw Hc R1 Hd) as (v' & k & s' & EE & T & Hk & tb & E & -> & Htb).
  rewrite EE, T, Ht. destruct t as [|x t]; [congruence|]. unfold ret.
  exists k, tb. split; [|split; [exact Hk|exact Htb]].
  unfold s1, s0. clear. destruct s; reflexivity.
Qed.
(** what follows a value *)
Definition tail_ok (fl : bool) (rest : bytes) : Prop :=
  (fl = true /\ exists w c r, rest = w ++ c :: r /\ wsl w /\ closer c) \/ (fl = false /\ rest = [10%N]).
Definition got (L : nat) (fl : bool) (N : nat) (s : st) (rest : bytes) (y : yaml) : Prop :=
  exists s' yy a, reads N L fl s yy s' /\ erase (Node 0 [] yy) = Node 0 [] y
    /\ env s s' /\ rest = a ++ rem s' /\ wsl a.
Lemma reads_mono N N' L fl s y s' : N <= N' -> reads N L fl s y s' -> reads N' L fl s y s'.
Proof. intros H R n Hn. apply R. lia. Qed.
Lemma leaf_erase y : (match y with YSeq _ | YMap _ => False | _ => True end) -> erase (Node 0 [] y) = Node 0 [] y.
Proof. destruct y; intros H; try reflexivity; destruct H. Qed.
Lemma keyword_got t L fl s rest : In t [lit "null"; lit "true"; lit "false"] -> 1 <= L -> in_doc s -> AT s -> 0 < depth (p_indent s) 1 ->
  rem s = t ++ rest -> tail_ok fl rest -> got L fl 1 s rest (plain_value t).
Proof.
  intros Ht HL H A Hd Er Hr.
  assert (C : valid t /\ t <> [] /\ trim_end t = t /\ forallb (not_in (plain_patt true)) t = true /\ utf8_encode t = t
              /\ plainb false true t = true /\ (match plain_value t with YSeq _ | YMap _ => False | _ => True end)
              /\ nonum (rem s) /\ (match rem s with x :: _ => ~ In x [42; 39; 34]%N | [] => True end)).
  { rewrite Er. simpl in Ht. destruct Ht as [<-|[<-|[<-|[]]]]; (split; [reflexivity|]; split; [discriminate|]; split; [reflexivity|]; split; [reflexivity|];
      split; [reflexivity|]; split; [reflexivity|]; split; [exact Logic.I|]; split; [now apply no_num_head_nonum|]; intros K; simpl in K;
      repeat (destruct K as [K|K]; [discriminate|]); exact K). }
  destruct C as (C1 & C2 & C3 & C4 & C5 & C6 & C7 & C8 & C9).
  assert (Hd' : 0 < depth (p_indent s) L) by now apply depth_pos.
  destruct Hr as [(-> & w & c & r & -> & Hw & Hc)|(-> & ->)].
  - assert (Er' : rem s = utf8_encode t ++ w ++ c :: r) by now rewrite C5.
    destruct (string_plain_ws L s t w c r H C1 C2 C3 C4 Er' Hw Hc Hd') as (k & tb & E & Hk & Htb). rewrite C5 in E.
    set (s' := set_pos _ _) in E. exists s', (plain_value t), (firstn k w).
    assert (Rs : rem s' = skipn k w ++ c :: r).
    { unfold s'. change (skipn (p_pos s + List.length t + k) (p_doc s) = skipn k w ++ c :: r).
      rewrite <- !skipn_add. change (skipn (p_pos s) (p_doc s)) with (rem s). rewrite Er, skipn_app_len, skipn_app.
      replace (k - List.length w) with 0 by lia. reflexivity. }
    split; [|split; [now apply leaf_erase|split; [|split]]].
    + intros n Hn. destruct n as [|n]; [lia|]. rewrite (term_nonum n L true s H A C8).
      assert (Hx : forall c, In c [42; 39; 34]%N -> match rem s with x :: _ => x <> c | [] => True end).
      { intros z Hz. destruct (rem s); [exact Logic.I|]. intros ->. now apply C9. }
      unfold term2. unfold bind at 1, anchor_use. rewrite (ok_miss _ _ s H A) by (apply Hx; simpl; auto).
      unfold bind at 1. rewrite (quoted_miss _ _ s H A) by (apply Hx; simpl; auto).
      unfold bind at 1. rewrite (quoted_miss _ _ s H A) by (apply Hx; simpl; auto).
      unfold bind at 1. rewrite (ok_eq _ _ _ E). reflexivity.
    + constructor; [reflexivity|reflexivity| |].
      * unfold in_doc, s'. cbn. pose proof (rem_length s) as RL. rewrite Er, !app_length in RL. simpl in RL. lia.
      * unfold s'. cbn [p_indent set_pos set_indent]. now rewrite (tb_ok_depth L _ tb 1 HL Htb).
    + rewrite Rs, app_assoc, firstn_skipn. reflexivity.
    + rewrite <- (firstn_skipn k w) in Hw. now apply wsl_app in Hw as [Hw _].
  - destruct (term_plain L false s t [10%N] H A C1 C2 C3 C6) as (s' & E & Ha); [now rewrite C5| |exact C8|exact C9|].
    + right. left. split; [exact Hd'|]. split; [discriminate|]. exists 1, 1. split; [reflexivity|]. exact Hd'.
    + rewrite C5 in Ha. pose proof Ha as Ha'. apply after_props in Ha' as (D' & R' & P'); [|exact H|rewrite Er, app_length; lia].
      exists s', (plain_value t), []. split; [exact E|]. split; [now apply leaf_erase|]. split; [|split; [|reflexivity]].
      * destruct Ha as (tb & Es & Htb). constructor; [now rewrite Es|now rewrite Es|exact D'|].
        rewrite Es. cbn [p_indent set_pos set_indent]. now rewrite (tb_ok_depth L _ tb 1 HL Htb).
      * rewrite R', Er. now rewrite skipn_app_len.
Qed.
Definition float_tail_ok (rest : bytes) : Prop := exists a tl, rest = a ++ tl /\ wsl a /\ float_end a tl.
Definition tails (j : json) (fl : bool) (rest : bytes) : Prop := tail_ok fl rest /\ ((exists t, j = JFloat t) -> float_tail_ok rest).
Lemma drop_dot0_spec t : without_dot0 t (drop_dot0 t).
Proof.
  assert (R : forall u l : str, rev u = l -> u = rev l) by (intros u l <-; now rewrite rev_involutive).
  unfold drop_dot0. destruct (rev t) as [|a [|b r]] eqn:E; apply R in E.
  - apply NoDot0. intros u Hu. subst t. now destruct u.
  - apply NoDot0. intros u Hu. rewrite E in Hu. destruct u as [|x [|y u]]; discriminate.
  - destruct (N.eqb_spec b 46) as [->|Hb]; [destruct (N.eqb_spec a 48) as [->|Ha]|]; cbn [andb].
    + rewrite E. cbn [rev]. rewrite <- app_assoc. apply DropDot0.
    + apply NoDot0. intros u Hu. rewrite E in Hu. cbn [rev] in Hu. change [46; 48]%N with ([46] ++ [48])%N in Hu. rewrite app_assoc in Hu. apply app_inj_tail in Hu as [_ Hu]. congruence.
    + apply NoDot0. intros u Hu. rewrite E in Hu. cbn [rev] in Hu. change [46; 48]%N with ([46] ++ [48])%N in Hu. rewrite app_assoc in Hu. apply app_inj_tail in Hu as [Hu _]. apply app_inj_tail in Hu as [_ Hu]. congruence.
Qed.
Lemma drop_sci t : sci_literal t -> drop_dot0 t = t.
Proof.
  intros H. destruct (drop_dot0_spec t) as [u|u Hu]; [|reflexivity]. exfalso. remember (u ++ [46; 48]%N) as t eqn:E.
  destruct H as [neg ds e sg es Hne Hd He Hsg Hen Hes].
  assert (X : In 46%N (sign neg ++ ds ++ e :: sg ++ es)) by (rewrite E; apply in_app_iff; right; now left).
  rewrite Forall_forall in Hd, Hes.
  apply in_app_iff in X as [X|X]; [destruct neg; cbn in X; intuition discriminate|].
  apply in_app_iff in X as [X|X]; [specialize (Hd _ X); unfold digit in Hd; lia|].
  destruct X as [X|X]; [destruct He; subst; discriminate|].
  apply in_app_iff in X as [X|X]; [destruct Hsg as [->|[->| ->]]; cbn in X; intuition discriminate|].
  specialize (Hes _ X). unfold digit in Hes. lia.
Qed.
Lemma float_got t L fl s rest : number_ok t -> in_doc s -> AT s -> 0 < depth (p_indent s) 1 ->
  rem s = t ++ rest -> float_tail_ok rest -> got L fl 1 s rest (YFloat (drop_dot0 t)).
Proof.
  intros Ht H A0 Hd Er (a & tl & -> & Hw & He).
  set (s' := set_pos (p_pos s + List.length t + List.length a) s). exists s', (YFloat (drop_dot0 t)), a.
  split; [|split; [reflexivity|split; [|split; [|exact Hw]]]].
  - intros n Hn. destruct n as [|n]; [lia|]. cbn [scalar_term]. destruct Ht as [Ht|Ht].
    + assert (E : float s = (ROk (drop_dot0 t), s')).
      { apply (proj1 (C09_float_language s H A0)). exists t, a, tl. split; [exact Er|]. split; [exact Ht|]. split; [exact He|].
        split; [apply drop_dot0_spec|reflexivity]. }
      unfold bind at 1. now rewrite (ok_eq _ _ _ E).
    + assert (E : sci_float s = (ROk t, s')).
      { apply (proj1 (C09_sci_language s H A0)). exists a, tl. split; [exact Er|]. split; [exact Ht|]. split; [exact He|reflexivity]. }
      rewrite (drop_sci t Ht).
      assert (F : float_f (rem s) = None).
      { rewrite Er. destruct Ht as [neg ds e sg es Hne Hdd Hx Hsg Hes Hf].
        assert (A : (sign neg ++ ds ++ e :: sg ++ es) ++ a ++ tl = (sign neg ++ ds) ++ e :: (sg ++ es) ++ a ++ tl)
          by (rewrite <- !app_assoc; cbn [app]; now rewrite <- !app_assoc).
        rewrite A. unfold float_f, float_len. cbv zeta. pose proof (sign_dec neg ds Hne Hdd) as HD.
        assert (Ee : is_digit e = false) by (destruct Hx as [->| ->]; reflexivity).
        rewrite (num_len_dec _ _ HD) by exact Ee. rewrite skipn_app_len.
        replace (N.eqb e 46) with false by (destruct Hx as [->| ->]; reflexivity).
        destruct (Nat.eqb (List.length (sign neg ++ ds)) 0); reflexivity. }
      unfold bind at 1. rewrite (ok_eq _ _ _ (float_exec s H A0)), F.
      unfold bind at 1. now rewrite (ok_eq _ _ _ E).
  - constructor; try reflexivity; [|exact Hd]. unfold in_doc, s'. cbn. pose proof (rem_length s) as RL. rewrite Er, !app_length in RL.
    unfold in_doc in H. lia.
  - f_equal. unfold s'. change (tl = skipn (p_pos s + List.length t + List.length a) (p_doc s)).
    rewrite <- !skipn_add. change (skipn (p_pos s) (p_doc s)) with (rem s). rewrite Er, skipn_app_len. now rewrite skipn_app_len.
Qed.
Lemma int_got t L fl s rest : int_literal t -> in_doc s -> AT s -> 0 < depth (p_indent s) 1 ->
  rem s = t ++ rest -> tail_ok fl rest -> got L fl 1 s rest (YInt t).
Proof.
  intros Ht H A Hd Er Hr.
  assert (K : exists a tl, rest = a ++ tl /\ wsl a /\ int_end a tl).
  { destruct Hr as [(-> & w & c & r & -> & Hw & Hc)|(-> & ->)].
    - destruct (ws_split_list w Hw) as (a & b & -> & Ha & Hb). exists a, (b ++ c :: r). rewrite <- app_assoc. split; [reflexivity|].
      split; [now apply wsl_app in Hw|]. split.
      + apply Forall_forall. intros x Hx. rewrite forallb_forall in Ha. specialize (Ha x Hx). unfold is_ws in Ha.
        apply andb_true_iff in Ha as [Ha H13]. apply andb_true_iff in Ha as [Ha H10]. apply ascii_ws_in in Ha. unfold blank.
        simpl in Ha. destruct Ha as [<-|[<-|[<-|[<-|[<-|[]]]]]]; try discriminate; auto.
      + destruct b as [|x b]; cbn [app].
        * exists c, r. split; [reflexivity|]. destruct Hc as [<-|[<-|[<-|[]]]]; (split; [unfold bound_char; simpl; auto 12|unfold blank; lia]).
        * exists x, (b ++ c :: r). split; [reflexivity|]. destruct Hb as [-> | ->]; (split; [unfold bound_char; simpl; auto 12|unfold blank; lia]).
    - exists [], [10%N]. split; [reflexivity|]. split; [reflexivity|]. split; [constructor|]. exists 10%N, []. split; [reflexivity|].
      split; [unfold bound_char; simpl; auto 12|unfold blank; lia]. }
  destruct K as (a & tl & -> & Hw & Hi).
  set (s' := set_pos (p_pos s + List.length t + List.length a) s). exists s', (YInt t), a.
  split; [|split; [reflexivity|split; [|split; [|exact Hw]]]].
  - intros n Hn. destruct n as [|n]; [lia|]. now apply (term_int n L fl s t a tl).
  - constructor; try reflexivity; [|exact Hd]. unfold in_doc, s'. cbn. pose proof (rem_length s) as RL. rewrite Er, !app_length in RL.
    unfold in_doc in H. lia.
  - f_equal. unfold s'. change (tl = skipn (p_pos s + List.length t + List.length a) (p_doc s)).
    rewrite <- !skipn_add. change (skipn (p_pos s) (p_doc s)) with (rem s). rewrite Er, skipn_app_len. now rewrite skipn_app_len.
Qed.
Lemma str_got b L fl s rest : str_ok b -> in_doc s -> AT s -> 0 < depth (p_indent s) 1 ->
  rem s = utf8_encode (quote b) ++ rest -> got L fl 1 s rest (YStr b)
  /\ exists s', reads 1 L fl s (YStr b) s' /\ env s s' /\ rem s' = rest.
Proof.
  intros (Hv & Hl) H A Hd Er.
  assert (Er' : rem s = 34%N :: utf8_encode (json_str b) ++ 34%N :: rest).
  { rewrite Er. unfold quote. fold (json_str b). cbn [app]. rewrite encode_cons_ascii by lia. rewrite encode_app.
    change (utf8_encode [34%N]) with [34%N]. cbn [app]. now rewrite <- app_assoc. }
  assert (K : exists s', reads 1 L fl s (YStr b) s' /\ env s s' /\ rem s' = rest).
  { exists (set_pos (p_pos s + List.length (utf8_encode (json_str b)) + 2) s). split; [|split].
    - intros n Hn. destruct n as [|n]; [lia|].
      rewrite (term_double n L fl s (json_str b) rest H A (json_valid b Hv) (json_qok b Hl) Er'). now rewrite json_escape.
    - constructor; try reflexivity; [|exact Hd]. unfold in_doc. cbn. pose proof (rem_length s) as RL. rewrite Er' in RL. cbn [List.length] in RL.
      rewrite app_length in RL. cbn [List.length] in RL. lia.
    - replace (p_pos s + List.length (utf8_encode (json_str b)) + 2) with (p_pos s + (1 + (List.length (utf8_encode (json_str b)) + 1))) by lia.
      rewrite rem_add, Er', <- !skipn_add. cbn [skipn]. now rewrite skipn_app_len. }
  split; [|exact K]. destruct K as (s' & K1 & K2 & K3). exists s', (YStr b), []. split; [exact K1|]. split; [reflexivity|].
  split; [exact K2|]. split; [now rewrite K3|reflexivity].
Qed.

(** *** brackets *)
Lemma plain_bracket L fl s b r : in_doc s -> AT s -> rem s = b :: r -> b = 91%N \/ b = 123%N -> 0 < depth (p_indent s) L ->
  ok (string_plain L fl) s = (ROk None, set_indent (ind_norm L (p_indent s)) s).
Proof.
  intros H A R Hb Hd. unfold string_plain, context, ok. rewrite (set_eaten_AT s A).
  assert (E : plain_loop (loop_fuel s) L fl [] false s = (ROk [], set_indent (ind_norm L (p_indent s)) s)).
  { assert (Hp : is_in (plain_patt fl) b = true) by (rewrite in_patt; destruct Hb as [-> | ->]; reflexivity).
    unfold loop_fuel. rewrite (proj1 (plain_step _ L fl [] false s [] (b :: r) H eq_refl eq_refl ltac:(now apply is_in_spec) R)).
    change (List.length (utf8_encode [])) with 0. change (@nil N ++ []) with (@nil N). rewrite Nat.add_0_r. unfold at_pos. rewrite (set_eaten_AT s A), set_pos_id.
    assert (F : stop_f (rem s) = false) by (rewrite R; destruct Hb as [-> | ->]; reflexivity).
    destruct (plain_stop_exec s H A) as (q & Ep & Hq). rewrite (Hq F), set_pos_id in Ep.
    unfold plain_rest. rewrite (bind_ok _ _ _ _ _ Ep), F. unfold bind at 1, forward at 1, modify at 1. rewrite (set_eaten_AT s A).
    unfold bind at 1. rewrite (is_ok_eq _ _ _ (sym_set_exec (lit ": ") s H)), R.
    replace (is_in (lit ": ") b) with false by (destruct Hb as [-> | ->]; reflexivity). rewrite A, set_pos_id.
    cbn [negb]. rewrite andb_false_r. unfold bind at 1, ret at 1. cbv iota.
    assert (S0 : sp_len (rem s) = 0) by (rewrite R; unfold sp_len; apply span_zero; destruct Hb as [-> | ->]; reflexivity).
    unfold bind at 1. rewrite (ind_fail L s H A) by (rewrite S0; exact Hd). cbv iota.
    set (s1 := set_indent _ s). assert (H1 : in_doc s1) by exact H.
    unfold bind at 1. rewrite (ok_eq _ _ _ (gap_exec true s1 H1)). change (rem s1) with (rem s). rewrite R.
    unfold gap_f. cbv zeta. unfold gap_head. rewrite comment_head by (destruct Hb as [-> | ->]; simpl; auto 10). cbn [skipn].
    replace (nl_len (b :: r)) with 0 by (destruct Hb as [-> | ->]; reflexivity).
    cbn [Nat.eqb]. rewrite Nat.add_0_r, set_pos_id. reflexivity. }
  unfold bind, gets. rewrite E. cbn [trim_end]. unfold fail. f_equal.
Qed.
Lemma term_bracket n L fl s b r : in_doc s -> AT s -> rem s = b :: r -> b = 91%N \/ b = 123%N -> 0 < depth (p_indent s) L ->
  scalar_term (S n) L fl s = or_else (or_else (seq_flow n L) (map_flow n L)) (ret YNull) (set_indent (ind_norm L (p_indent s)) s).
Proof.
  intros H A R Hb Hd. rewrite term_nonum; [|assumption..|apply no_num_head_nonum; rewrite R; destruct Hb as [-> | ->]; reflexivity].
  assert (Hx : forall c, In c [42; 39; 34]%N -> match rem s with x :: _ => x <> c | [] => True end).
  { rewrite R. intros z Hz ->. simpl in Hz. lia. }
  unfold term2. unfold bind at 1, anchor_use. rewrite (ok_miss _ _ s H A) by (apply Hx; simpl; auto).
  unfold bind at 1. rewrite (quoted_miss _ _ s H A) by (apply Hx; simpl; auto).
  unfold bind at 1. rewrite (quoted_miss _ _ s H A) by (apply Hx; simpl; auto).
  unfold bind at 1. now rewrite (plain_bracket L fl s b r H A R Hb Hd).
Qed.

(** *** objects *)
Definition erase2 (p : node * node) : node * node := match p with (k, v) => (erase k, erase v) end.
Definition strkey (p : str * node) : node * node := (Node 0 [] (YStr (fst p)), snd p).
Lemma erase_str n s : erase n = Node 0 [] (YStr s) -> n_yaml n = YStr s.
Proof. destruct n as [p t y]. cbn. destruct y; intros [=]; subst; reflexivity. Qed.
Lemma same_str a b : same (YStr a) (YStr b) <-> a = b.
Proof. split; [intros H; now inversion H|intros ->; constructor]. Qed.
Lemma kept_last l m0 : kept l m0 -> forall ks, List.map erase2 l = List.map strkey ks ->
  List.map erase2 m0 = List.map strkey (last_wins ks).
Proof.
  assert (EX : forall k s (l : list (node * node)) ks, erase k = Node 0 [] (YStr s) -> List.map erase2 l = List.map strkey ks ->
     (exists kv, In kv l /\ same_key k (fst kv)) <-> existsb (fun p => str_eqb s (fst p)) ks = true).
  { intros k s l0 ks0 Hk. revert ks0. induction l0 as [|[k1 v1] l0 IH]; intros [|[s1 w1] ks0] E; try discriminate.
    - split; [intros (kv & [] & _)|discriminate].
    - cbn in E. injection E as E1 E2 E3. apply erase_str in Hk as Hk'. apply erase_str in E1 as E1'.
      cbn [existsb fst]. rewrite orb_true_iff, <- (IH ks0 E3). split.
      + intros (kv & [<-|Hin] & S).
        * left. unfold same_key in S. cbn [fst] in S. rewrite Hk', E1' in S. apply same_str in S. subst. apply str_eqb_refl.
        * right. exists kv. auto.
      + intros [S|(kv & Hin & S)].
        * apply str_eqb_eq in S. subst s1. exists (k1, v1). split; [now left|]. unfold same_key. cbn [fst]. rewrite Hk', E1'. constructor.
        * exists kv. split; [now right|exact S]. }
  induction 1 as [|k v l m He HK IH|k v l m Hno HK IH]; intros [|[s w] ks] E; try discriminate.
  - reflexivity.
  - cbn in E. injection E as E1 E2 E3. cbn [last_wins]. rewrite (proj1 (EX k s l ks E1 E3) He). now apply IH.
  - cbn in E. injection E as E1 E2 E3. cbn [last_wins].
    destruct (existsb (fun p => str_eqb s (fst p)) ks) eqn:B.
    + exfalso. apply (EX k s l ks E1 E3) in B as (kv & Hin & S). exact (Hno kv Hin S).
    + cbn [List.map]. rewrite (IH ks E3). unfold strkey at 2. cbn. now rewrite E1, E2.
Qed.
Lemma collect_last hk l ks : List.map erase2 l = List.map strkey ks ->
  exists m, map_collect hk l = Some m /\ List.map erase2 m = List.map strkey (last_wins ks).
Proof.
  intros E.
  assert (KS : forall k, In k (List.map fst l) -> exists s, erase k = Node 0 [] (YStr s)).
  { revert ks E. induction l as [|[k1 v1] l IH]; intros [|[s1 w1] ks] E k Hk; try discriminate; [destruct Hk|].
    cbn in E. injection E as E1 E2 E3. destruct Hk as [<-|Hk]; [exists s1; exact E1|]. exact (IH ks E3 k Hk). }
  assert (LW : lawful_keys (List.map fst l)).
  { apply C30_plain_keys_lawful. intros k Hk. destruct (KS k Hk) as (s & Es). rewrite (erase_str _ _ Es). constructor. }
  destruct LW as [LR LL].
  destruct (collect_spec hk (fun k => In k (List.map fst l)) LR LL l) as (m & m0 & Hc & HKm & HD & Hk & HF).
  { intros kv Hkv. apply in_map. exact Hkv. }
  exists m. split; [exact Hc|]. rewrite <- (kept_last l m0 Hk ks E).
  assert (K0 : forall p, In p m0 -> In p l).
  { clear - Hk. induction Hk as [|? ? ? ? ? ? IH|? ? ? ? ? ? IH]; intros p Hp; [destruct Hp|right; auto|].
    destruct Hp as [<-|Hp]; [now left|right; auto]. }
  clear Hk Hc HD. induction HF as [|[k v] [k0 v0] m m0 [Sk Sv] HF IH]; [reflexivity|]. cbn [List.map].
  rewrite IH; [|intros p Hp; apply HKm; now right|intros p Hp; apply K0; now right]. f_equal.
  cbn [fst snd] in *. subst v0. cbn. f_equal.
  destruct (KS k) as (s & Es); [apply (HKm (k, v)); now left|]. destruct (KS k0) as (s0 & Es0); [apply in_map_iff; exists (k0, v); split; [reflexivity|]; apply K0; now left|].
  rewrite Es, Es0. unfold same_key in Sk. rewrite (erase_str _ _ Es), (erase_str _ _ Es0) in Sk. apply same_str in Sk. now subst.
Qed.

Lemma ctx_bound s : in_doc s -> context (unwrap_or tt bound) s = (ROk tt, set_pos (p_pos s + doc_ws (rem s)) s).
Proof.
  intros H. unfold context. assert (H0 : in_doc (set_eaten (p_pos s) s)) by exact H.
  rewrite (unwrap_or_eq _ _ _ _ (bound_exec _ H0)). change (rem (set_eaten (p_pos s) s)) with (rem s).
  unfold doc_ws. destruct (at_bound (rem s)); destruct s; cbn; [reflexivity|]. now rewrite Nat.add_0_r.
Qed.
Lemma inv_tail w c r s : in_doc s -> wsl w -> is_ascii_ws c = false -> rem s = w ++ c :: r ->
  inv (More 0) s = (ROk tt, set_pos (p_pos s + List.length w) s)
  /\ rem (set_pos (p_pos s + List.length w) s) = c :: r /\ in_doc (set_pos (p_pos s + List.length w) s).
Proof.
  intros H Hw Hc R. unfold inv. rewrite more0_exec by exact H. rewrite R, (span_ws w c r Hw Hc). split; [reflexivity|].
  split; [rewrite rem_add, R; apply skipn_app_len|]. apply in_doc_add; [rewrite R, app_length; lia|exact H].
Qed.

(** *** The induction *)
Definition Ptext (j : json) (t : str) : Prop :=
  forall L fl s rest, 1 <= L -> in_doc s -> AT s -> 0 < depth (p_indent s) 1 ->
    rem s = utf8_encode t ++ rest -> tails j fl rest -> got L fl (6 * List.length t) s rest (value j).
Definition Pitems (js : list json) (u : str) : Prop :=
  forall L s rest v, 1 <= L -> in_doc s -> 0 < depth (p_indent s) 1 -> rem s = utf8_encode u ++ rest ->
    exists s' ns, (forall n, 6 * List.length u <= n -> seq_flow_loop n L v s = (ROk (YSeq (v ++ ns)), s'))
      /\ List.map erase ns = List.map (fun j => Node 0 [] (value j)) js /\ env s s' /\ rem s' = rest.
Definition Pmembers (ms : list (str * json)) (u : str) : Prop :=
  forall L s rest v vs, 1 <= L -> in_doc s -> 0 < depth (p_indent s) 1 -> rem s = utf8_encode u ++ rest ->
    List.map erase2 v = List.map strkey vs ->
    exists s' m, (forall n, 6 * List.length u <= n -> map_flow_loop n L v s = (ROk (YMap m), s'))
      /\ List.map erase2 m = List.map strkey (last_wins (vs ++ List.map (fun p => (fst p, Node 0 [] (value (snd p)))) ms))
      /\ env s s' /\ rem s' = rest.

(** one item *)
Lemma item_run j t L s rest : Ptext j t -> jtext j t -> 1 <= L -> in_doc s -> AT s -> 0 < depth (p_indent s) 1 ->
  rem s = utf8_encode t ++ rest -> tails j true rest ->
  exists s1 nd a, (forall n, 6 * List.length t + 4 <= n -> scalar n L false true s = (ROk nd, s1))
    /\ erase nd = Node 0 [] (value j) /\ env s s1 /\ AT s1 /\ rest = a ++ rem s1 /\ wsl a.
Proof.
  intros P J HL H A Hd Er Ht. destruct (P (L + 1) true s rest ltac:(lia) H A Hd Er Ht) as (s' & yy & a & R1 & R2 & R3 & R4 & R5).
  destruct (jtext_head j t J rest) as (HH & _).
  exists (set_eaten (p_pos s') s'), (Node (indicator_of s) [] yy), a. split; [|split; [|split; [|split; [reflexivity|split; [exact R4|exact R5]]]]].
  - intros n Hn. apply (scalar_leaf_false (6 * List.length t)); try assumption.
    + rewrite Er. exact HH.
    + exact (env_in _ _ R3).
    + intros r Ec. exfalso. destruct Ht as [[(_ & w & c & r0 & -> & Hw & Hc)|(K & _)] _]; [|discriminate].
      rewrite Ec in R4. assert (In 58%N (w ++ [c])).
      { clear - R4 R5 Hc. revert a R5 R4. induction w as [|x w IH]; intros [|y a] R5 R4; cbn [app] in *.
        - injection R4 as -> _. now left.
        - injection R4 as -> _. apply wsl_cons in R5 as [R5 _]. apply closer_not in Hc as [Hc _]. congruence.
        - injection R4 as -> _. now left.
        - injection R4 as -> R4. apply wsl_cons in R5 as [_ R5]. right. exact (IH a R5 R4). }
      apply in_app_iff in H0 as [H0|[->|[]]].
      * unfold wsl in Hw. rewrite forallb_forall in Hw. specialize (Hw _ H0). discriminate.
      * now apply closer_not in Hc.
  - exact R2.
  - now apply env_eaten.
Qed.
Lemma suffix_closer w c r a l : wsl w -> closer c -> wsl a -> w ++ c :: r = a ++ l ->
  exists w', wsl w' /\ l = w' ++ c :: r.
Proof.
  revert a. induction w as [|x w IH]; intros [|y a] Hw Hc Ha E; cbn [app] in E.
  - exists []. auto.
  - injection E as -> _. apply wsl_cons in Ha as [Ha _]. apply closer_not in Hc as [Hc _]. congruence.
  - subst l. exists (x :: w). auto.
  - injection E as -> E. apply wsl_cons in Hw as [_ Hw]. apply wsl_cons in Ha as [_ Ha]. exact (IH a Hw Hc Ha E).
Qed.
Lemma env_refl s : in_doc s -> 0 < depth (p_indent s) 1 -> env s s.
Proof. now constructor. Qed.
(** the part of the array loop after an item *)
Definition seq_after (n L : nat) (v : list node) : M yaml :=
  inv (More 0) ;;;
  e <- is_err (sym (chr ",")) ;;
  if (e : bool) then
    inv (More 0) ;;;
    sym (chr "]") ;;;
    forward ;;;
    ret (YSeq v)
  else seq_flow_loop n L v.
Lemma seq_item w j t L s rest : Ptext j t -> jtext j t -> 1 <= L -> in_doc s -> 0 < depth (p_indent s) 1 -> wsl w ->
  rem s = w ++ utf8_encode t ++ rest -> tails j true rest ->
  exists s1 nd a, (forall n v, 6 * List.length t + 4 <= n -> seq_flow_loop (S n) L v s = seq_after n L (v ++ [nd]) s1)
    /\ erase nd = Node 0 [] (value j) /\ env s s1 /\ AT s1 /\ rest = a ++ rem s1 /\ wsl a.
Proof.
  intros P J HL H Hd Hw Er Ht. destruct (jtext_head j t J rest) as (HH & _ & b & r & Eb & Hb1 & Hb2 & Hb3 & _).
  rewrite Eb in Er. destruct (inv_tail w b r s H Hw Hb3 Er) as (E1 & R1 & D1).
  set (s0 := set_pos (p_pos s + List.length w) s) in *.
  set (s1 := set_eaten (p_pos s0) s0). assert (D1' : in_doc s1) by exact D1.
  assert (R1' : rem s1 = utf8_encode t ++ rest) by (rewrite Eb; exact R1).
  destruct (item_run j t (L + 1) s1 rest P J ltac:(lia) D1' eq_refl Hd R1' Ht) as (s2 & nd & a & X1 & X2 & X3 & X4 & X5 & X6).
  exists s2, nd, a. split; [|split; [exact X2|split; [|split; [exact X4|split; [exact X5|exact X6]]]]].
  - intros n v Hn. cbn [seq_flow_loop]. unfold bind at 1. rewrite E1. unfold bind at 1, forward at 1, modify at 1. fold s1.
    unfold bind at 1. rewrite sym_no; [|exact D1'|reflexivity|rewrite R1', Eb; exact Hb1].
    cbv iota beta. unfold bind at 1, forward at 1, modify at 1. rewrite (set_eaten_AT s1 eq_refl).
    unfold bind at 1, or_else. rewrite (X1 n Hn). reflexivity.
  - destruct X3 as [Y1 Y2 Y3 Y4]. now constructor.
Qed.
Lemma seq_close n L v s w r : in_doc s -> AT s -> wsl w -> rem s = w ++ 93%N :: r ->
  seq_after n L v s = (ROk (YSeq v), at_pos (p_pos s + S (List.length w)) s).
Proof.
  intros H A Hw R. unfold seq_after. destruct (inv_tail w 93%N r s H Hw eq_refl R) as (E1 & R1 & D1).
  unfold bind at 1. rewrite E1. unfold bind at 1. rewrite (is_err_eq _ _ _ (sym_exec (chr ",") _ D1)), R1.
  change (N.eqb 93 (chr ",")) with false. cbv iota beta. cbn [p_eaten set_pos]. rewrite set_pos_pos, A, set_pos_id.
  unfold bind at 1. rewrite E1. unfold bind at 1. rewrite (sym_exec (chr "]") _ D1), R1.
  change (N.eqb 93 (chr "]")) with true. unfold bind, forward, modify, ret. f_equal.
  unfold at_pos, set_pos, set_eaten. cbn. f_equal; lia.
Qed.
Lemma seq_comma n L v s w r : in_doc s -> AT s -> wsl w -> rem s = w ++ 44%N :: r ->
  seq_after n L v s = seq_flow_loop n L v (set_pos (p_pos s + S (List.length w)) s).
Proof.
  intros H A Hw R. unfold seq_after. destruct (inv_tail w 44%N r s H Hw eq_refl R) as (E1 & R1 & D1).
  unfold bind at 1. rewrite E1. unfold bind at 1. rewrite (is_err_eq _ _ _ (sym_exec (chr ",") _ D1)), R1.
  change (N.eqb 44 (chr ",")) with true. cbv iota beta. f_equal. unfold set_pos. cbn. f_equal. lia.
Qed.
Lemma rem_S s w (c : N) r : rem s = w ++ c :: r -> rem (set_pos (p_pos s + S (List.length w)) s) = r.
Proof.
  intros R. rewrite rem_add, R. replace (S (List.length w)) with (List.length (w ++ [c])) by (rewrite app_length; simpl; lia).
  change (c :: r) with ([c] ++ r). rewrite app_assoc. apply skipn_app_len.
Qed.
Lemma env_S s s1 w (c : N) r : env s s1 -> rem s1 = w ++ c :: r -> env s (set_pos (p_pos s1 + S (List.length w)) s1).
Proof. intros E R. apply env_pos; [exact E|]. rewrite R, app_length. simpl. lia. Qed.
Lemma close_tail j c w r : closer c -> trails j w -> tails j true (w ++ c :: r).
Proof.
  intros Hc [Hw Hf]. split; [left; split; [reflexivity|]; exists w, c, r; auto using wide_wsl|].
  intros Hj. destruct (Hf Hj) as (b & u & -> & Hb & Hu). exists b, (u ++ c :: r). rewrite <- app_assoc. split; [reflexivity|].
  split; [apply wide_wsl in Hw; now apply wsl_app in Hw as [Hw _]|].
  assert (NB : exists c' r', u ++ c :: r = c' :: r' /\ bound_char c' /\ ~ blank c').
  { destruct Hu as [->|(c' & r' & -> & Hc')].
    - exists c, r. split; [reflexivity|]. destruct Hc as [<-|[<-|[<-|[]]]]; (split; [unfold bound_char; simpl; auto 12|unfold blank; lia]).
    - exists c', (r' ++ c :: r). split; [reflexivity|]. destruct Hc' as [<-|[<-|[]]]; (split; [unfold bound_char; simpl; auto 12|unfold blank; lia]). }
  destruct NB as (c' & r' & -> & B1 & B2). destruct Hb as [->|(b' & -> & Hb)].
  - split; [constructor|]. split; [intros ? ? [= <- <-]; exact B2|]. left. split; [reflexivity|]. eauto.
  - split; [|split; [intros ? ? [= <- <-]; exact B2|right; eauto]]. apply Forall_app. split; [|repeat constructor].
    + eapply Forall_impl; [|exact Hb]. intros x Hx. unfold blank. simpl in Hx. intuition.
Qed.

Lemma trails_nil j : trails j [].
Proof. split; [constructor|]. intros _. exists [], []. auto. Qed.
Lemma items_none w : wide w -> Pitems [] (w ++ lit "]").
Proof.
  intros Hw L s rest v HL H Hd Er. apply wide_wsl in Hw. rewrite encode_app, (wsl_encode w Hw), <- app_assoc in Er.
  change (utf8_encode (lit "]") ++ rest) with (93%N :: rest) in Er.
  destruct (inv_tail w 93%N rest s H Hw eq_refl Er) as (E1 & R1 & D1).
  exists (at_pos (p_pos s + S (List.length w)) s), []. split; [|split; [reflexivity|split]].
  - intros n Hn. destruct n as [|n]; [rewrite app_length in Hn; simpl in Hn; lia|]. cbn [seq_flow_loop].
    unfold bind at 1. rewrite E1. unfold bind at 1, forward at 1, modify at 1.
    unfold bind at 1. rewrite (sym_yes 93%N _ rest); [|exact D1|exact R1].
    cbv iota beta. unfold bind, forward, modify, ret. rewrite app_nil_r. f_equal.
    unfold at_pos, set_pos, set_eaten. cbn. f_equal; lia.
  - constructor; try reflexivity; [|exact Hd]. unfold in_doc, at_pos. cbn. pose proof (rem_length s) as RL. rewrite Er, app_length in RL. simpl in RL. unfold in_doc in H. lia.
  - exact (rem_S s w 93%N rest Er).
Qed.
Lemma items_one w j t w' : wide w -> jtext j t -> Ptext j t -> trails j w' -> Pitems [j] (w ++ t ++ w' ++ lit "]").
Proof.
  intros Hw J P Hw' L s rest v HL H Hd Er. apply wide_wsl in Hw. pose proof Hw' as Tw'. destruct Hw' as [Hw' _]. apply wide_wsl in Hw'.
  rewrite !encode_app, (wsl_encode w Hw), (wsl_encode w' Hw'), <- !app_assoc in Er.
  change (utf8_encode (lit "]") ++ rest) with (93%N :: rest) in Er.
  assert (C93 : closer 93) by (right; left; reflexivity).
  destruct (seq_item w j t L s _ P J HL H Hd Hw Er (close_tail j 93%N w' rest C93 Tw')) as (s1 & nd & a & X1 & X2 & X3 & X4 & X5 & X6).
  destruct (suffix_closer w' 93%N rest a _ Hw' C93 X6 X5) as (w2 & Hw2 & R2).
  exists (at_pos (p_pos s1 + S (List.length w2)) s1), [nd]. split; [|split; [cbn; now rewrite X2|split]].
  - intros n Hn. rewrite !app_length in Hn. cbn [List.length] in Hn. pose proof (jtext_nonempty j t J).
    destruct n as [|n]; [lia|]. rewrite X1 by (cbn in Hn; lia). now apply (seq_close _ _ _ _ _ rest (env_in _ _ X3) X4 Hw2 R2).
  - pose proof (env_S s s1 w2 93%N rest X3 R2) as [Y1 Y2 Y3 Y4]. now constructor.
  - exact (rem_S s1 w2 93%N rest R2).
Qed.
Lemma items_more w j t w' js u : wide w -> jtext j t -> Ptext j t -> trails j w' -> Pitems js u -> Pitems (j :: js) (w ++ t ++ w' ++ lit "," ++ u).
Proof.
  intros Hw J P Hw' PU L s rest v HL H Hd Er. apply wide_wsl in Hw. pose proof Hw' as Tw'. destruct Hw' as [Hw' _]. apply wide_wsl in Hw'.
  rewrite !encode_app, (wsl_encode w Hw), (wsl_encode w' Hw'), <- !app_assoc in Er.
  change (utf8_encode (lit ",") ++ utf8_encode u ++ rest) with (44%N :: utf8_encode u ++ rest) in Er.
  assert (C44 : closer 44) by (left; reflexivity).
  destruct (seq_item w j t L s _ P J HL H Hd Hw Er (close_tail j 44%N w' _ C44 Tw')) as (s1 & nd & a & X1 & X2 & X3 & X4 & X5 & X6).
  destruct (suffix_closer w' 44%N _ a _ Hw' C44 X6 X5) as (w2 & Hw2 & R2).
  pose proof (env_S s s1 w2 44%N _ X3 R2) as EV. pose proof (rem_S s1 w2 44%N _ R2) as R3.
  destruct (PU L _ rest (v ++ [nd]) HL (env_in _ _ EV) (env_depth _ _ EV) R3) as (s' & ns & Y1 & Y2 & Y3 & Y4).
  exists s', (nd :: ns). split; [|split; [cbn; now rewrite X2, Y2|split; [eapply env_trans; eassumption|exact Y4]]].
  intros n Hn. rewrite !app_length in Hn. pose proof (jtext_nonempty j t J).
  destruct n as [|n]; [lia|]. rewrite X1 by (cbn in Hn; lia).
  rewrite (seq_comma _ _ _ _ _ _ (env_in _ _ X3) X4 Hw2 R2). rewrite Y1 by (cbn in Hn; lia). now rewrite <- app_assoc.
Qed.

(** objects *)
Definition map_after (n L : nat) (m : list (node * node)) : M yaml :=
  e <- is_err (sym (chr ",")) ;;
  if (e : bool) then
    inv (More 0) ;;;
    sym (chr "}") ;;;
    forward ;;;
    build_map m
  else map_flow_loop n L m.
Lemma blanks_ws b : blanks_after_colon b -> wsl b /\ forallb is_ws b = true.
Proof.
  intros [-> |(b' & -> & Hb)]; [split; reflexivity|].
  assert (K : wsl b' /\ forallb is_ws b' = true).
  { induction Hb as [|x b' Hx Hb [I1 I2]]; [split; reflexivity|]. simpl in Hx. unfold wsl in *. cbn [forallb]. rewrite I1, I2.
    destruct Hx as [<-|[<-|[<-|[]]]]; split; reflexivity. }
  destruct K as [K1 K2]. unfold wsl in *. cbn [forallb]. now rewrite K1, K2.
Qed.
Lemma doc_ws_blanks b c r : blanks_after_colon b -> is_ascii_ws c = false -> doc_ws (b ++ c :: r) = List.length b.
Proof.
  intros Hb Hc. assert (W : ws_len (b ++ c :: r) = List.length b).
  { unfold ws_len. apply span_app; [now apply blanks_ws|]. unfold is_ws. now rewrite Hc. }
  unfold doc_ws. rewrite W. destruct Hb as [-> |(b' & -> & Hb)].
  - cbn. match goal with |- (if ?x then _ else _) = _ => now destruct x end.
  - reflexivity.
Qed.
Lemma map_item w k b j t L s rest : Ptext j t -> jtext j t -> str_ok k -> blanks_after_colon b -> 1 <= L -> in_doc s ->
  0 < depth (p_indent s) 1 -> wsl w ->
  rem s = w ++ utf8_encode (quote k) ++ 58%N :: b ++ utf8_encode t ++ rest -> tails j true rest ->
  exists s1 kn nd a, (forall n v, 6 * List.length t + 4 <= n -> map_flow_loop (S n) L v s = map_after n L (v ++ [(kn, nd)]) s1)
    /\ erase kn = Node 0 [] (YStr k) /\ erase nd = Node 0 [] (value j) /\ env s s1 /\ AT s1 /\ rest = a ++ rem s1 /\ wsl a.
Proof.
  intros P J Hk Hb HL H Hd Hw Er Ht.
  assert (EQ : exists q, utf8_encode (quote k) = 34%N :: q).
  { unfold quote. cbn [app]. rewrite encode_cons_ascii by lia. eauto. }
  destruct EQ as (q & EQ).
  assert (Er' : rem s = w ++ 34%N :: q ++ 58%N :: b ++ utf8_encode t ++ rest) by (rewrite Er, EQ; reflexivity).
  destruct (inv_tail w 34%N _ s H Hw eq_refl Er') as (E1 & R1 & D1).
  set (s0 := set_pos (p_pos s + List.length w) s) in *.
  set (s1 := set_eaten (p_pos s0) s0). assert (D1' : in_doc s1) by exact D1.
  assert (R1' : rem s1 = utf8_encode (quote k) ++ 58%N :: b ++ utf8_encode t ++ rest) by (rewrite EQ; exact R1).
  destruct (str_got k (L + 1) true s1 _ Hk D1' eq_refl Hd R1') as (_ & s2 & K1 & K2 & K3).
  set (s3 := set_eaten (p_pos s2) s2).
  assert (D3 : in_doc s3) by exact (env_in _ _ K2).
  assert (R3 : rem s3 = 58%N :: b ++ utf8_encode t ++ rest) by exact K3.
  set (s4 := set_pos (p_pos s3 + 1) s3).
  assert (D4 : in_doc s4) by (apply in_doc_add; [rewrite R3; simpl; lia|exact D3]).
  assert (R4 : rem s4 = b ++ utf8_encode t ++ rest) by (unfold s4; rewrite rem_add, R3; reflexivity).
  destruct (jtext_head j t J rest) as (HH & _ & x & r & Eb & Hb1 & Hb2 & Hb3 & _).
  set (s5 := at_pos (p_pos s4 + List.length b) s4).
  assert (D5 : in_doc s5) by (change (in_doc (set_pos (p_pos s4 + List.length b) s4)); apply in_doc_add; [rewrite R4, app_length; lia|exact D4]).
  assert (R5 : rem s5 = utf8_encode t ++ rest).
  { change (rem (set_pos (p_pos s4 + List.length b) s4) = utf8_encode t ++ rest). rewrite rem_add, R4. apply skipn_app_len. }
  destruct (item_run j t (L + 1) s5 rest P J ltac:(lia) D5 eq_refl (env_depth _ _ K2) R5 Ht) as (s6 & nd & a & X1 & X2 & X3 & X4 & X5 & X6).
  exists s6, (Node (indicator_of s1) [] (YStr k)), nd, a.
  split; [|split; [reflexivity|split; [exact X2|split; [|split; [exact X4|split; [exact X5|exact X6]]]]]].
  - intros n v Hn. cbn [map_flow_loop]. unfold bind at 1. rewrite E1. unfold bind at 1, forward at 1, modify at 1. fold s1.
    unfold bind at 1. rewrite sym_no; [|exact D1'|reflexivity|rewrite R1', EQ; discriminate].
    cbv iota beta. unfold bind at 1, forward at 1, modify at 1. rewrite (set_eaten_AT s1 eq_refl).
    assert (HQ : hd_ok (rem s1) = true) by (rewrite R1', EQ; reflexivity).
    unfold bind at 1. rewrite (complex_miss s1 D1' eq_refl HQ). cbv iota beta.
    unfold bind at 1, or_else. rewrite (scalar_flow_exec 1 (L + 1) true s1 (YStr k) s2 D1' eq_refl (hd_props s1 HQ) K1 n) by lia.
    fold s3. unfold bind at 1. rewrite (is_err_eq _ _ _ (sym_exec (chr ":") s3 D3)), R3. change (N.eqb 58 (chr ":")) with true. cbv iota beta.
    cbn [negb]. fold s4. unfold bind at 1. rewrite (ctx_bound s4 D4). rewrite R4, Eb, (doc_ws_blanks b x r Hb Hb3).
    unfold bind at 1, forward at 1, modify at 1.
    change (set_eaten (p_pos (set_pos (p_pos s4 + List.length b) s4)) (set_pos (p_pos s4 + List.length b) s4)) with s5.
    unfold bind at 1. rewrite (X1 n Hn). reflexivity.
  - destruct K2 as [A1 A2 A3 A4]. destruct X3 as [B1 B2 B3 B4]. constructor; [|..]; try assumption.
    + rewrite B1. change (p_doc s2 = p_doc s). exact A1.
    + rewrite B2. exact A2.
Qed.
Lemma build_run s v vs : List.map erase2 v = List.map strkey vs ->
  exists m, build_map v s = (ROk (YMap m), s) /\ List.map erase2 m = List.map strkey (last_wins vs) /\ map_collect (p_hash s) v = Some m.
Proof.
  intros E. destruct (collect_last (p_hash s) v vs E) as (m & C & M1). exists m. split; [|auto]. unfold build_map. now rewrite C.
Qed.
Lemma members_none w : wide w -> Pmembers [] (w ++ lit "}").
Proof.
  intros Hw L s rest v vs HL H Hd Er Ev. apply wide_wsl in Hw. rewrite encode_app, (wsl_encode w Hw), <- app_assoc in Er.
  change (utf8_encode (lit "}") ++ rest) with (125%N :: rest) in Er.
  destruct (inv_tail w 125%N rest s H Hw eq_refl Er) as (E1 & R1 & D1).
  set (s' := at_pos (p_pos s + S (List.length w)) s).
  destruct (build_run s' v vs Ev) as (m & B1 & B2 & _).
  exists s', m. split; [|split; [cbn [List.map]; now rewrite app_nil_r|split]].
  - intros n Hn. destruct n as [|n]; [rewrite app_length in Hn; simpl in Hn; lia|]. cbn [map_flow_loop].
    unfold bind at 1. rewrite E1. unfold bind at 1, forward at 1, modify at 1.
    unfold bind at 1. rewrite (sym_yes 125%N _ rest); [|exact D1|exact R1].
    cbv iota beta. unfold bind, forward, modify. rewrite <- B1. f_equal.
    unfold s', at_pos, set_pos, set_eaten. cbn. f_equal; lia.
  - constructor; try reflexivity; [|exact Hd]. unfold in_doc, s', at_pos. cbn. pose proof (rem_length s) as RL. rewrite Er, app_length in RL. simpl in RL. unfold in_doc in H. lia.
  - exact (rem_S s w 125%N rest Er).
Qed.
Lemma ev_app v vs kn nd k j : List.map erase2 v = List.map strkey vs -> erase kn = Node 0 [] (YStr k) -> erase nd = Node 0 [] (value j) ->
  List.map erase2 (v ++ [(kn, nd)]) = List.map strkey (vs ++ [(k, Node 0 [] (value j))]).
Proof. intros E1 E2 E3. rewrite !map_app, E1. cbn. now rewrite E2, E3. Qed.
Lemma members_one w k b j t w' : wide w -> str_ok k -> blanks_after_colon b -> jtext j t -> Ptext j t -> trails j w' ->
  Pmembers [(k, j)] (w ++ quote k ++ lit ":" ++ b ++ t ++ w' ++ lit "}").
Proof.
  intros Hw Hk Hb J P Hw' L s rest v vs HL H Hd Er Ev. apply wide_wsl in Hw. pose proof Hw' as Tw'. destruct Hw' as [Hw' _]. apply wide_wsl in Hw'.
  destruct (blanks_ws b Hb) as [Wb _].
  rewrite !encode_app, (wsl_encode w Hw), (wsl_encode w' Hw'), (wsl_encode b Wb), <- !app_assoc in Er.
  change (utf8_encode (lit "}") ++ rest) with (125%N :: rest) in Er.
  change (utf8_encode (lit ":") ++ ?x) with (58%N :: x) in Er.
  assert (C : closer 125) by (right; right; left; reflexivity).
  destruct (map_item w k b j t L s _ P J Hk Hb HL H Hd Hw Er (close_tail j 125%N w' rest C Tw')) as (s1 & kn & nd & a & X1 & X0 & X2 & X3 & X4 & X5 & X6).
  destruct (suffix_closer w' 125%N rest a _ Hw' C X6 X5) as (w2 & Hw2 & R2).
  set (s' := at_pos (p_pos s1 + S (List.length w2)) s1).
  destruct (build_run s' _ _ (ev_app v vs kn nd k j Ev X0 X2)) as (m & B1 & B2 & _).
  exists s', m. split; [|split; [exact B2|split]].
  - intros n Hn. rewrite !app_length in Hn. pose proof (jtext_nonempty j t J).
    destruct n as [|n]; [lia|]. rewrite X1 by (cbn in Hn; lia).
    unfold map_after. destruct (inv_tail w2 125%N rest s1 (env_in _ _ X3) Hw2 eq_refl R2) as (E1 & R1 & D1).
    assert (NC : is_err (sym (chr ",")) s1 = (ROk true, s1)).
    { rewrite (is_err_eq _ _ _ (sym_exec (chr ",") s1 (env_in _ _ X3))), R2.
      assert (exists x y, w2 ++ 125%N :: rest = x :: y /\ x <> 44%N) as (x & y & -> & Hx).
      { destruct w2 as [|x w2]; [exists 125%N, rest; split; [reflexivity|discriminate]|]. exists x, (w2 ++ 125%N :: rest).
        split; [reflexivity|]. intros ->. apply wsl_cons in Hw2 as [Hx _]. discriminate. }
      change (chr ",") with 44%N. rewrite (proj2 (N.eqb_neq x 44) Hx). now rewrite X4, set_pos_id. }
    unfold bind at 1. rewrite NC. cbv iota. unfold bind at 1. rewrite E1.
    unfold bind at 1. rewrite (sym_exec (chr "}") _ D1), R1. change (N.eqb 125 (chr "}")) with true. cbv iota.
    unfold bind, forward, modify. rewrite <- B1. f_equal. unfold s', at_pos, set_pos, set_eaten. cbn. f_equal; lia.
  - pose proof (env_S s s1 w2 125%N rest X3 R2) as [Y1 Y2 Y3 Y4]. now constructor.
  - exact (rem_S s1 w2 125%N rest R2).
Qed.
Lemma members_more w k b j t ms u : wide w -> str_ok k -> blanks_after_colon b -> jtext j t -> Ptext j t -> Pmembers ms u ->
  Pmembers ((k, j) :: ms) (w ++ quote k ++ lit ":" ++ b ++ t ++ lit "," ++ u).
Proof.
  intros Hw Hk Hb J P PU L s rest v vs HL H Hd Er Ev. apply wide_wsl in Hw.
  destruct (blanks_ws b Hb) as [Wb _].
  rewrite !encode_app, (wsl_encode w Hw), (wsl_encode b Wb), <- !app_assoc in Er.
  change (utf8_encode (lit ",") ++ ?x) with (44%N :: x) in Er.
  change (utf8_encode (lit ":") ++ ?x) with (58%N :: x) in Er.
  assert (C : closer 44) by (left; reflexivity).
  destruct (map_item w k b j t L s _ P J Hk Hb HL H Hd Hw Er (close_tail j 44%N [] _ C (trails_nil j))) as (s1 & kn & nd & a & X1 & X0 & X2 & X3 & X4 & X5 & X6).
  destruct (suffix_closer [] 44%N _ a _ eq_refl C X6 X5) as (w2 & Hw2 & R2).
  assert (w2 = []).
  { assert (List.length (44%N :: utf8_encode u ++ rest) = List.length a + List.length (w2 ++ 44%N :: utf8_encode u ++ rest)) by (rewrite <- R2, <- app_length; now f_equal).
    rewrite app_length in H0. destruct w2; [reflexivity|]. simpl in H0. lia. }
  subst w2. cbn [app] in R2.
  pose proof (env_S s s1 [] 44%N _ X3 R2) as EV. pose proof (rem_S s1 [] 44%N _ R2) as R3.
  destruct (PU L _ rest (v ++ [(kn, nd)]) (vs ++ [(k, Node 0 [] (value j))]) HL (env_in _ _ EV) (env_depth _ _ EV) R3 (ev_app v vs kn nd k j Ev X0 X2)) as (s' & m & Y1 & Y2 & Y3 & Y4).
  exists s', m. split; [|split; [rewrite Y2, <- app_assoc; reflexivity|split; [eapply env_trans; eassumption|exact Y4]]].
  intros n Hn. rewrite !app_length in Hn. pose proof (jtext_nonempty j t J).
  destruct n as [|n]; [lia|]. rewrite X1 by (cbn in Hn; lia).
  unfold map_after. unfold bind at 1. rewrite (is_err_eq _ _ _ (sym_exec (chr ",") s1 (env_in _ _ X3))), R2.
  change (N.eqb 44 (chr ",")) with true. cbv iota beta. cbn [negb]. apply Y1. cbn in Hn. lia.
Qed.

Lemma arr_text l t : Pitems l t -> Ptext (JArr l) (lit "[" ++ t).
Proof.
  intros P L fl s rest HL H A Hd Er Ht. change (lit "[" ++ t) with (91%N :: t) in *. rewrite encode_cons_ascii in Er by lia. cbn [app] in Er.
  assert (Hd' : 0 < depth (p_indent s) L) by now apply depth_pos.
  set (s1 := set_indent (ind_norm L (p_indent s)) s).
  assert (D1 : in_doc s1) by exact H. assert (R1 : rem s1 = 91%N :: utf8_encode t ++ rest) by exact Er.
  assert (Z1 : 0 < depth (p_indent s1) 1) by (unfold s1; cbn [p_indent set_indent]; rewrite depth_norm by exact HL; exact Hd).
  set (s2 := set_pos (p_pos s1 + 1) s1).
  assert (D2 : in_doc s2) by (apply in_doc_add; [rewrite R1; simpl; lia|exact D1]).
  assert (R2 : rem s2 = utf8_encode t ++ rest) by (unfold s2; rewrite rem_add, R1; reflexivity).
  destruct (P L s2 rest [] HL D2 Z1 R2) as (s' & ns & Y1 & Y2 & Y3 & Y4).
  exists s', (YSeq ns), []. split; [|split; [cbn; rewrite Y2; reflexivity|split; [|split; [now rewrite Y4|reflexivity]]]].
  - intros n Hn. cbn [List.length] in Hn. destruct n as [|[|n]]; [lia|lia|].
    rewrite (term_bracket (S n) L fl s 91%N _ H A Er (or_introl eq_refl) Hd'). fold s1.
    unfold or_else. cbn [seq_flow]. unfold bind. rewrite (sym_exec (chr "[") s1 D1), R1. change (N.eqb 91 (chr "[")) with true. cbv iota.
    fold s2. rewrite Y1 by lia. reflexivity.
  - destruct Y3 as [A1 A2 A3 A4]. now constructor.
Qed.
Lemma obj_text m t : Pmembers m t -> Ptext (JObj m) (lit "{" ++ t).
Proof.
  intros P L fl s rest HL H A Hd Er Ht. change (lit "{" ++ t) with (123%N :: t) in *. rewrite encode_cons_ascii in Er by lia. cbn [app] in Er.
  assert (Hd' : 0 < depth (p_indent s) L) by now apply depth_pos.
  set (s1 := set_indent (ind_norm L (p_indent s)) s).
  assert (D1 : in_doc s1) by exact H. assert (R1 : rem s1 = 123%N :: utf8_encode t ++ rest) by exact Er.
  assert (Z1 : 0 < depth (p_indent s1) 1) by (unfold s1; cbn [p_indent set_indent]; rewrite depth_norm by exact HL; exact Hd).
  set (s2 := set_pos (p_pos s1 + 1) s1).
  assert (D2 : in_doc s2) by (apply in_doc_add; [rewrite R1; simpl; lia|exact D1]).
  assert (R2 : rem s2 = utf8_encode t ++ rest) by (unfold s2; rewrite rem_add, R1; reflexivity).
  destruct (P L s2 rest [] [] HL D2 Z1 R2 eq_refl) as (s' & mm & Y1 & Y2 & Y3 & Y4).
  exists s', (YMap mm), []. split; [|split; [|split; [|split; [now rewrite Y4|reflexivity]]]].
  - intros n Hn. cbn [List.length] in Hn. destruct n as [|[|n]]; [lia|lia|].
    rewrite (term_bracket (S n) L fl s 123%N _ H A Er (or_intror eq_refl) Hd'). fold s1.
    unfold or_else. cbn [seq_flow map_flow].
    assert (E1 : (sym (chr "[") ;;; seq_flow_loop n L []) s1 = (RErr Mismatch, s1)).
    { apply miss; [exact D1|exact A|]. rewrite R1. discriminate. }
    rewrite E1. unfold bind. rewrite (sym_exec (chr "{") s1 D1), R1. change (N.eqb 123 (chr "{")) with true. cbv iota.
    fold s2. rewrite Y1 by lia. reflexivity.
  - cbn. cbn [app] in Y2. unfold erase2 in Y2. rewrite Y2. reflexivity.
  - destruct Y3 as [A1 A2 A3 A4]. now constructor.
Qed.
Lemma json_all :
  (forall j t, jtext j t -> Ptext j t) /\ (forall l t, jitems l t -> Pitems l t) /\ (forall m t, jmembers m t -> Pmembers m t).
Proof.
  assert (ONE : forall L fl s rest y N, 1 <= N -> got L fl 1 s rest y -> got L fl N s rest y).
  { intros L fl s rest y N HN (s' & yy & a & G1 & G2). exists s', yy, a. split; [|exact G2]. eapply reads_mono; eassumption. }
  assert (KW : forall t v, In t [lit "null"; lit "true"; lit "false"] -> value v = plain_value t -> Ptext v t).
  { intros t v Ht Ev L fl s rest HL H A Hd Er Hr. rewrite Ev.
    assert (utf8_encode t = t) by (simpl in Ht; destruct Ht as [<-|[<-|[<-|[]]]]; reflexivity). rewrite H0 in Er.
    apply ONE; [simpl in Ht; destruct Ht as [<-|[<-|[<-|[]]]]; cbn; lia|]. destruct Hr as [Hr _]. now apply keyword_got. }
  assert (K : forall j t, jtext j t -> Ptext j t /\ jtext j t).
  { apply (jtext_mut (fun j t => Ptext j t /\ jtext j t) Pitems Pmembers).
    - split; [apply KW; simpl; auto|constructor].
    - split; [apply KW; simpl; auto|constructor].
    - split; [apply KW; simpl; auto|constructor].
    - intros z. split; [|constructor]. intros L fl s rest HL H A Hd Er Hr. pose proof (show_Z_literal z) as Hz.
      rewrite (encode_asciis _ (int_literal_ascii _ Hz)) in Er.
      apply ONE; [pose proof (jtext_nonempty _ _ (TInt z)); lia|]. destruct Hr as [Hr _]. now apply int_got.
    - intros t Ht. split; [|now constructor]. intros L fl s rest HL H A Hd Er [_ Hr]. rewrite (encode_asciis _ (number_ascii _ Ht)) in Er.
      apply ONE; [pose proof (jtext_nonempty _ _ (TFloat t Ht)); lia|]. apply float_got; try assumption. apply Hr. eauto.
    - intros s Hs. split; [|now constructor]. intros L fl s0 rest HL H A Hd Er Hr.
      apply ONE; [unfold quote; simpl; lia|]. now apply str_got.
    - intros l t Hl P. split; [now apply arr_text|now constructor].
    - intros m t Hm P. split; [now apply obj_text|now constructor].
    - apply items_none.
    - intros w j t w' Hw _ [P J] Hw'. now apply items_one.
    - intros w j t w' js u Hw _ [P J] Hw' _ PU. now apply items_more.
    - apply members_none.
    - intros w k b j t w' Hw Hk Hb _ [P J] Hw'. now apply members_one.
    - intros w k b j t ms u Hw Hk Hb _ [P J] _ PU. now apply members_more. }
  split; [intros j t J; now apply K|]. split.
  - induction 1; [now apply items_none|apply items_one|apply items_more]; try assumption; now apply K.
  - induction 1; [now apply members_none|apply members_one|apply members_more]; try assumption; now apply K.
Qed.

Lemma parse_value hk d (Q : yaml -> Prop) N : hd_ok d = true -> (match d with x :: _ => x <> 37%N | [] => True end) ->
  starts_with (lit "---") d = false -> N + 6 <= 20 * (List.length d + 2) ->
  (forall s, in_doc s -> AT s -> rem s = d -> p_indent s = [0] ->
     exists y s', Q y /\ reads N 1 false s y s' /\ in_doc s' /\ (rem s' = [10%N] \/ rem s' = [])) ->
  exists y, Q y /\ parse_bytes hk d = ROk [Node 0 [] y].
Proof.
  intros Hh Hp Hm HN HR. unfold parse_bytes, load. fold (start hk d).
  assert (EF : exists n, fuel_doc (start hk d) = S n /\ N + 4 <= S n).
  { unfold fuel_doc, start. cbn [p_doc new_st]. exists (20 * (List.length d + 2) - 1). lia. }
  destruct EF as (n & -> & Hn). set (s0 := with_doc (start hk d)).
  assert (W : doc_ws d = 0).
  { unfold doc_ws. destruct (at_bound d); [|reflexivity]. apply hd_ok_cons in Hh as (b & r & -> & Hb & _).
    unfold ws_len. apply span_zero. destruct (is_ws b) eqn:E; [|reflexivity]. exfalso. apply Hb.
    unfold is_ws, is_ascii_ws in E. repeat (apply andb_true_iff in E as [E ?]).
    repeat (apply orb_true_iff in E as [E|E]); apply N.eqb_eq in E; subst b; simpl; auto 12. }
  assert (E0 : p_pos s0 = 0) by (unfold s0, with_doc; cbn [p_pos set_anchors at_pos set_pos set_eaten]; cbn; exact W).
  assert (D0 : in_doc s0) by (unfold in_doc; rewrite E0; lia).
  assert (R0 : rem s0 = d) by (unfold rem; rewrite E0; reflexivity).
  destruct (HR s0 D0 eq_refl R0 eq_refl) as (y & s' & Hq & Hr & D' & R'). exists y. split; [exact Hq|].
  apply (parse_one hk d n _ (set_eaten (p_pos s') s')).
  - exact Hp.
  - unfold gap_len. destruct (hd_gap d Hh) as [-> _]. exact Hm.
  - intros _. destruct (hd_gap d Hh) as [_ ->]. exact Hm.
  - fold s0. replace 0%N with (indicator_of s0) by (unfold indicator_of; rewrite E0; reflexivity).
    apply (scalar_leaf_false N); try assumption; try reflexivity.
    + now rewrite R0.
    + intros r E. destruct R' as [R'|R']; rewrite R' in E; discriminate.
  - exact D'.
  - reflexivity.
  - change (rem (set_eaten (p_pos s') s')) with (rem s'). destruct R' as [R'|R']; now rewrite R'.
Qed.

(** ** C33 *)

(** Every JSON text of a value, with white space as described above, followed
    by a line break, is one document, and the node is the value. *)
Theorem C33_json_document : forall (hk : hasher) (j : json) (t : str), jtext j t ->
  exists nd, parse hk (t ++ [10%N]) = ROk [nd] /\ erase nd = Node 0 [] (value j).
Proof.
  intros hk j t J. unfold parse. rewrite encode_app. change (utf8_encode [10%N]) with [10%N].
  destruct (jtext_head j t J [10%N]) as (H1 & H2 & b & r & Eb & _ & _ & _ & H3).
  destruct (parse_value hk (utf8_encode t ++ [10%N]) (fun y => erase (Node 0 [] y) = Node 0 [] (value j)) (6 * List.length t)) as (y & Hy & E).
  - exact H1.
  - rewrite Eb. exact H3.
  - exact H2.
  - rewrite app_length. pose proof (encode_length t). cbn. lia.
  - intros s D A R I. destruct (proj1 json_all j t J 1 false s [10%N] (le_n _) D A) as (s' & yy & a & G1 & G2 & G3 & G4 & G5).
    + rewrite I. cbn. lia.
    + exact R.
    + split; [right; auto|]. intros _. exists [], [10%N]. split; [reflexivity|]. split; [reflexivity|]. split; [constructor|].
      split; [intros ? ? [= <- <-]; unfold blank; lia|]. left. split; [reflexivity|]. exists 10%N, []. split; [reflexivity|]. unfold bound_char. simpl. auto 12.
    + exists yy, s'. split; [exact G2|]. split; [exact G1|]. split; [exact (env_in _ _ G3)|].
      destruct a as [|x a]; [left; now symmetry|]. right. cbn in G4. injection G4 as _ G4. symmetry in G4. now apply app_eq_nil in G4.
  - eexists. split; [exact E|]. exact Hy.
Qed.

