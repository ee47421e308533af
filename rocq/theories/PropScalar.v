(** * C10: what an unquoted scalar becomes *)
From Verif Require Export DocRun.
Open Scope nat_scope.

(** ** Specification *)

(** A scalar on one line that YAML reads as plain text. *)
Record plain_line (t : str) : Prop := {
  pl_valid : valid t;
  pl_first : exists c r, t = c :: r
    /\ ~ In c (lit "&!|>[]{}*'#% " ++ [34; 9; 12]%N)
    /\ (c = 45%N \/ c = 63%N -> exists d r', r = d :: r' /\ ~ In d (lit ":{}[] ,"));
  pl_one_line : ~ In 10%N t /\ ~ In 13%N t;
  pl_no_key : forall a b, t <> a ++ lit ": " ++ b;
  pl_no_key_end : forall a, t <> a ++ lit ":";
  pl_no_comment : forall a b, t <> a ++ lit " #" ++ b;
  pl_trimmed : forall a c, t = a ++ [c] -> is_uni_ws c = false;
  pl_no_marker : forall b, t <> lit "---" ++ b
}.
(** The line begins with a number literal that ends where a scalar may end. *)
Definition number_line (l : bytes) : Prop :=
  exists t w rest, l = t ++ w ++ rest
    /\ ((int_literal t /\ int_end w rest) \/ ((float_literal t \/ sci_literal t) /\ float_end w rest)).
(** The keyword table. *)
Definition keywords : list (str * yaml) :=
  [(lit "~", YNull); (lit "null", YNull); (lit "Null", YNull); (lit "NULL", YNull);
   (lit "true", YBool true); (lit "True", YBool true); (lit "TRUE", YBool true);
   (lit "false", YBool false); (lit "False", YBool false); (lit "FALSE", YBool false);
   (lit ".nan", YFloat (lit "NaN")); (lit ".NaN", YFloat (lit "NaN")); (lit ".NAN", YFloat (lit "NaN"));
   (lit ".inf", YFloat (lit "inf")); (lit ".Inf", YFloat (lit "inf")); (lit ".INF", YFloat (lit "inf"));
   (lit "-.inf", YFloat (lit "-inf")); (lit "-.Inf", YFloat (lit "-inf")); (lit "-.INF", YFloat (lit "-inf"))].
Inductive meaning (t : str) : yaml -> Prop :=
| MKey y : In (t, y) keywords -> meaning t y
| MText : (forall y, ~ In (t, y) keywords) -> meaning t (YStr t).

(** ** Proofs *)
Lemma if_or {A} (a b : bool) (x y : A) : (if a || b then x else y) = if a then x else if b then x else y.
Proof. destruct a, b; reflexivity. Qed.
Lemma plain_value_meaning t : meaning t (plain_value t).
Proof.
  assert (K : forall k y, str_eqb t k = true -> In (k, y) keywords -> meaning t y).
  { intros k y E Hi. apply str_eqb_eq in E. subst k. now apply MKey. }
  unfold plain_value.
  repeat match goal with
  | |- context [if (?a || ?b)%bool then ?x else ?y] => rewrite (if_or a b x y)
  end.
  repeat match goal with
  | |- meaning _ (if str_eqb _ ?k then _ else _) =>
    let E := fresh "E" in destruct (str_eqb t k) eqn:E; [apply (K k); [exact E|cbn; repeat ((left; reflexivity) || right)]|]
  end.
  apply MText. intros y Hy. cbn in Hy.
  repeat match goal with H : str_eqb t _ = false |- _ => apply str_eqb_neq in H end.
  repeat (destruct Hy as [Hy|Hy]; [injection Hy as Hy _; symmetry in Hy; contradiction|]). destruct Hy.
Qed.
Lemma not_number_nonum l : ~ number_line l -> nonum l.
Proof.
  intros H. unfold nonum. split; [|split].
  - destruct (float_f l) as [[a k]|] eqn:E; [|reflexivity]. exfalso. apply H. unfold float_f in E.
    destruct (Nat.eqb_spec (float_len l) 0) as [|N0]; [discriminate|].
    assert (a = float_len l) by (unfold float_tail in E; destruct (at_bound _); now inversion E). subst a.
    destruct (float_tail_spec _ _ _ (float_len_le l) E) as (w & rest & El & Hw & _).
    exists (firstn (float_len l) l), w, rest. split; [exact El|]. right. split; [|exact Hw]. left. now apply float_len_literal.
  - destruct (sci_f l) as [[a k]|] eqn:E; [|reflexivity]. exfalso. apply H. unfold sci_f in E.
    destruct (Nat.eqb_spec (sci_len l) 0) as [|N0]; [discriminate|].
    assert (a = sci_len l) by (unfold float_tail in E; destruct (at_bound _); now inversion E). subst a.
    destruct (float_tail_spec _ _ _ (sci_len_le l) E) as (w & rest & El & Hw & _).
    exists (firstn (sci_len l) l), w, rest. split; [exact El|]. right. split; [|exact Hw]. right. now apply sci_len_literal.
  - destruct (int_f l) as [[a k]|] eqn:E; [|reflexivity]. exfalso. apply H.
    destruct (int_f_spec _ _ _ E) as (w & rest & El & Hl & Hw & _). exists (firstn a l), w, rest. auto.
Qed.
Lemma trim_end_last t : (forall a c, t = a ++ [c] -> is_uni_ws c = false) -> trim_end t = t.
Proof.
  induction t as [|c t IH]; intros H; [reflexivity|]. cbn [trim_end].
  destruct t as [|d t].
  - cbn. now rewrite (H [] c eq_refl).
  - rewrite IH; [reflexivity|]. intros a x E. apply (H (c :: a) x). now rewrite E.
Qed.
Lemma plainb_line t first : (~ In 10%N t /\ ~ In 13%N t) -> (forall a b, t <> a ++ lit ": " ++ b) -> (forall a, t <> a ++ lit ":") ->
  (forall a b, t <> a ++ lit " #" ++ b) -> (forall a c, t = a ++ [c] -> is_uni_ws c = false) ->
  (first = true -> match t with c :: _ => ~ In c (lit "[]{}") | [] => True end) -> plainb false first t = true.
Proof.
  revert first. induction t as [|c t IH]; intros first Hn Hk Hke Hc Ht Hf; [reflexivity|]. cbn [plainb].
  rewrite (IH false).
  - rewrite andb_true_r.
    destruct (is_in [10; 13]%N c) eqn:E1. { apply is_in_spec in E1. simpl in *. intuition. }
    destruct (is_in (lit "[]{}") c) eqn:E2.
    { destruct first; [|reflexivity]. apply is_in_spec in E2. now destruct (Hf eq_refl). }
    destruct (N.eqb c 44); [reflexivity|].
    destruct (N.eqb_spec c 58) as [->|].
    { destruct t as [|d t]; [now destruct (Hke [])|]. apply not_in_spec. intros [<-|[<-|[<-|[]]]].
      - now apply (Hk [] t). - simpl in Hn. intuition. - simpl in Hn; intuition. }
    destruct (N.eqb_spec c 32) as [->|]; [|reflexivity].
    destruct t as [|d t]; [specialize (Ht [] 32%N eq_refl); discriminate|].
    destruct (N.eqb_spec d 35) as [->|]; [|reflexivity]. now destruct (Hc [] t).
  - simpl in Hn. tauto.
  - intros a b E. apply (Hk (c :: a) b). now rewrite E.
  - intros a E. apply (Hke (c :: a)). now rewrite E.
  - intros a b E. apply (Hc (c :: a) b). now rewrite E.
  - intros a x E. apply (Ht (c :: a) x). now rewrite E.
  - discriminate.
Qed.

Lemma starts_encode p t rest : forallb (fun b => N.ltb b 128) p = true -> starts_with p (utf8_encode t ++ rest) = true ->
  (exists r, t = p ++ r) \/ exists a b, p = a ++ b /\ b <> [] /\ t = a /\ starts_with b rest = true.
Proof.
  revert t. induction p as [|x p IH]; intros t Hp H; [left; exists t; reflexivity|].
  cbn [forallb] in Hp. apply andb_true_iff in Hp as [Hx Hp]. apply N.ltb_lt in Hx.
  destruct t as [|c t]; [right; exists [], (x :: p); repeat split; [discriminate|exact H]|].
  assert (E : exists r, utf8_encode (c :: t) ++ rest = x :: r).
  { destruct (utf8_encode (c :: t) ++ rest) as [|y r]; [discriminate|]. cbn [starts_with] in H.
    apply andb_true_iff in H as [H _]. apply N.eqb_eq in H. subst y. eauto. }
  destruct E as (r & E). destruct (encode_next _ _ _ _ E ltac:(discriminate) Hx) as (c' & t' & [= <- <-] & ->).
  rewrite encode_cons_ascii in H by exact Hx. cbn [app starts_with] in H. rewrite N.eqb_refl in H.
  destruct (IH t Hp H) as [(r' & ->)|(a & b & -> & Hb & -> & Hs)]; [left; exists r'; reflexivity|].
  right. exists (x :: a), b. auto.
Qed.
Lemma line_gap : gap_f true [10%N] = Some (1, 1). Proof. reflexivity. Qed.
Lemma fuel_doc_S hk d : exists n, fuel_doc (start hk d) = S n /\ 39 <= n.
Proof. exists (fuel_doc (start hk d) - 1). unfold fuel_doc, start. cbn [p_doc new_st]. lia. Qed.
Lemma first_byte c t : exists b r, utf8_encode (c :: t) = b :: r /\ ((c < 128)%N /\ b = c /\ r = utf8_encode t \/ (128 <= c)%N /\ (128 <= b)%N).
Proof.
  destruct (N.lt_ge_cases c 128) as [L|L].
  - exists c, (utf8_encode t). split; [now apply encode_cons_ascii|left; auto].
  - rewrite encode_cons. destruct (encode_char c) as [|b r] eqn:K; [destruct (encode_head c []) as (b' & r & K' & _); rewrite K in K'; discriminate|].
    exists b, (r ++ utf8_encode t). split; [reflexivity|]. right. split; [exact L|].
    apply (encode_multi c); [exact L|rewrite K; now left].
Qed.

(** a document that is one leaf and a line break *)
Lemma parse_leaf hk d y : hd_ok d = true -> (match d with x :: _ => x <> 37%N | [] => True end) ->
  starts_with (lit "---") d = false ->
  (forall s, in_doc s -> AT s -> rem s = d -> p_indent s = [0] ->
     exists s', reads 1 1 false s y s' /\ in_doc s' /\ rem s' = [10%N]) ->
  parse_bytes hk d = ROk [Node 0 [] y].
Proof.
  intros Hh Hp Hm HR. unfold parse_bytes, load. fold (start hk d).
  destruct (fuel_doc_S hk d) as (n & -> & Hn). set (s0 := with_doc (start hk d)).
  assert (W : doc_ws d = 0).
  { unfold doc_ws. destruct (at_bound d); [|reflexivity]. apply hd_ok_cons in Hh as (b & r & -> & Hb & _).
    unfold ws_len. apply span_zero. destruct (is_ws b) eqn:E; [|reflexivity]. exfalso. apply Hb.
    unfold is_ws, is_ascii_ws in E. repeat (apply andb_true_iff in E as [E ?]).
    repeat (apply orb_true_iff in E as [E|E]); apply N.eqb_eq in E; subst b; simpl; auto 12. }
  assert (E0 : p_pos s0 = 0) by (unfold s0, with_doc; cbn [p_pos set_anchors at_pos set_pos set_eaten]; cbn; exact W).
  assert (D0 : in_doc s0) by (unfold in_doc; rewrite E0; lia).
  assert (R0 : rem s0 = d) by (unfold rem; rewrite E0; reflexivity).
  destruct (HR s0 D0 eq_refl R0 eq_refl) as (s' & Hr & D' & R').
  apply (parse_one hk d n _ (set_eaten (p_pos s') s')).
  - exact Hp.
  - unfold gap_len. destruct (hd_gap d Hh) as [-> _]. exact Hm.
  - intros _. destruct (hd_gap d Hh) as [_ ->]. exact Hm.
  - fold s0. replace 0%N with (indicator_of s0) by (unfold indicator_of; rewrite E0; reflexivity).
    apply (scalar_leaf_false 1); try assumption; try reflexivity.
    + now rewrite R0.
    + rewrite R'. intros r [=].
    + lia.
  - exact D'.
  - reflexivity.
  - change (rem (set_eaten (p_pos s') s')) with (rem s'). now rewrite R'.
Qed.

(** ** C10 *)

(** Unquoted: the keyword table decides, every other text is a string. *)
Theorem C10_plain_document : forall (hk : hasher) (t : str),
  plain_line t -> ~ number_line (utf8_encode t ++ [10%N]) ->
  exists y, meaning t y /\ parse hk (t ++ [10%N]) = ROk [Node 0 [] y].
Proof.
  intros hk t [Hv Hf Hn Hk Hke Hc Ht Hm] Hnum. exists (plain_value t). split; [apply plain_value_meaning|].
  unfold parse. rewrite encode_app. change (utf8_encode [10%N]) with [10%N].
  destruct Hf as (c & r & Et & Hc0 & Hdash). set (d := utf8_encode t ++ [10%N]) in *.
  destruct (first_byte c r) as (b & rb & Eb & Hb). rewrite <- Et in Eb.
  assert (Hb0 : ~ In b (lit "&!|>[]{}*'#% " ++ [34; 9; 12; 10; 13]%N)).
  { destruct Hb as [(L & -> & _)|(_ & L)].
    - intros K. apply in_app_iff in K as [K|K]; [apply Hc0, in_app_iff; now left|].
      destruct Hn as [Hn1 Hn2]. destruct K as [<-|[<-|[<-|[<-|[<-|[]]]]]]; try (apply Hc0, in_app_iff; right; simpl; auto; fail).
      + apply Hn1. rewrite Et. now left.
      + apply Hn2. rewrite Et. now left.
    - intros K. simpl in K. repeat (destruct K as [<-|K]; [lia|]). destruct K. }
  apply parse_leaf.
  - unfold d. rewrite Eb. cbn [app hd_ok]. apply andb_true_iff. split.
    + apply not_in_spec. intros K. apply Hb0. simpl in K |- *. tauto.
    + destruct (is_in [45; 63]%N b) eqn:Ei; [|reflexivity]. cbn [andb]. apply is_in_spec in Ei. simpl in Ei.
      destruct Hb as [(L & -> & ->)|(_ & L)]; [|destruct Ei as [<-|[<-|[]]]; lia].
      destruct (Hdash ltac:(destruct Ei as [<-|[<-|[]]]; auto)) as (x & r' & -> & Hx).
      destruct (next_not (x :: r') [10%N] bound_set ltac:(discriminate) ltac:(reflexivity)) as (b' & r'' & Eb' & Hb').
      { apply not_in_spec. unfold bound_set. intros K. apply in_app_iff in K as [K|K]; [now apply Hx|].
        destruct Hn as [Hn1 Hn2]. destruct K as [<-|[<-|[]]]; [apply Hn1|apply Hn2]; rewrite Et; right; now left. }
      rewrite Eb'. unfold at_bound. rewrite not_in_is in Hb'. now destruct (is_in bound_set b').
  - unfold d. rewrite Eb. cbn [app]. intros ->. apply Hb0. simpl. tauto.
  - destruct (starts_with (lit "---") d) eqn:E; [|reflexivity]. exfalso.
    destruct (starts_encode (lit "---") t [10%N] ltac:(reflexivity) E) as [(r' & K)|(x & y & Exy & Hy & _ & K)]; [now apply (Hm r')|].
    destruct y as [|y0 y]; [congruence|]. cbn [starts_with] in K. apply andb_true_iff in K as [K _]. apply N.eqb_eq in K. subst y0.
    assert (K : In 10%N (lit "---")) by (rewrite Exy; apply in_or_app; right; now left). simpl in K. intuition discriminate.
  - intros s D A0 R I0.
    assert (Hne : t <> []) by (rewrite Et; discriminate).
    destruct (term_plain 1 false s t [10%N] D A0 Hv Hne (trim_end_last t Ht)) as (s' & E & Ha).
    + apply plainb_line; try assumption. intros _. rewrite Et. intros K. apply Hc0. simpl in K |- *. tauto.
    + exact R.
    + rewrite I0. right. left. split; [cbn; lia|]. split; [discriminate|]. exists 1, 1. split; [reflexivity|cbn; lia].
    + rewrite R. now apply not_number_nonum.
    + rewrite R. unfold d. rewrite Eb. cbn [app]. intros K. apply Hb0. simpl in K |- *. tauto.
    + exists s'. split; [exact E|]. apply after_props in Ha as (D' & R' & _); [|exact D|rewrite R; unfold d; rewrite app_length; lia].
      split; [exact D'|]. rewrite R', R. apply skipn_app_len.
Qed.
(** the hypotheses can be met, for a text and for a keyword *)
Lemma no_split (p t : list N) : (forall k, k <= List.length t -> firstn (List.length p) (skipn k t) <> p) ->
  forall a b, t <> a ++ p ++ b.
Proof.
  intros H a b E. apply (H (List.length a)); [rewrite E, app_length; lia|].
  rewrite E, skipn_app_len. apply firstn_app_len.
Qed.
Ltac no_split := apply no_split; let k := fresh in intros k; cbn [List.length]; intros;
  do 20 (destruct k as [|k]; [discriminate|]); lia.
Ltac plain_line_auto := constructor;
  [ reflexivity
  | eexists _, _; split; [reflexivity|]; split;
    [ let K := fresh in intros K; simpl in K; repeat (destruct K as [K|K]; [discriminate|]); exact K
    | first [ solve [let K := fresh in intros K; destruct K; discriminate] | intros _; eexists _, _; split; [reflexivity|];
      let K' := fresh in intros K'; simpl in K'; repeat (destruct K' as [K'|K']; [discriminate|]); exact K' ] ]
  | split; let K := fresh in intros K; simpl in K; repeat (destruct K as [K|K]; [discriminate|]); exact K
  | no_split
  | let a := fresh in let E := fresh in intros a E; apply (f_equal (@rev N)) in E; rewrite rev_app_distr in E; discriminate
  | no_split
  | let a := fresh in let c := fresh in let E := fresh in intros a c E; apply (f_equal (@rev N)) in E; rewrite rev_app_distr in E;
    injection E as <- _; reflexivity
  | discriminate ].
Example C10_plain_example : forall hk,
  parse hk (lit "a [b]:#c, d-e" ++ [10%N]) = ROk [Node 0 [] (YStr (lit "a [b]:#c, d-e"))]
  /\ parse hk (lit "-.inf" ++ [10%N]) = ROk [Node 0 [] (YFloat (lit "-inf"))].
Proof.
  intros hk. split.
  - destruct (C10_plain_document hk (lit "a [b]:#c, d-e")) as (y & Hy & ->).
    + plain_line_auto.
    + intros (t & w & rest & E & K). assert (F : nonum (utf8_encode (lit "a [b]:#c, d-e") ++ [10%N])) by (apply no_num_head_nonum; reflexivity).
      rewrite E in F. destruct F as (F1 & F2 & F3). destruct K as [[K1 K2]|[[K1|K1] K2]].
      * now rewrite (int_f_complete t w rest K1 K2) in F3.
      * destruct K1 as [[] ds fs Hne Hd Hf]; [discriminate|]. destruct Hd; [congruence|]. injection E as <- _. unfold digit in H. lia.
      * destruct K1 as [[] ds e sg es Hne Hd He Hsg Hes Hf]; [discriminate|]. destruct Hd; [congruence|]. injection E as <- _. unfold digit in H. lia.
    + destruct Hy as [y Hy|]; [|reflexivity]. exfalso. simpl in Hy. repeat (destruct Hy as [Hy|Hy]; [discriminate|]). exact Hy.
  - destruct (C10_plain_document hk (lit "-.inf")) as (y & Hy & ->).
    + plain_line_auto.
    + intros (t & w & rest & E & K). assert (F : nonum (utf8_encode (lit "-.inf") ++ [10%N])) by (apply no_num_head_nonum; reflexivity).
      rewrite E in F. destruct F as (F1 & F2 & F3). destruct K as [[K1 K2]|[[K1|K1] K2]].
      * now rewrite (int_f_complete t w rest K1 K2) in F3.
      * destruct K1 as [[] ds fs Hne Hd Hf]; destruct Hd; try congruence; cbn in E; injection E; intros; unfold digit in *; lia.
      * destruct K1 as [[] ds e sg es Hne Hd He Hsg Hes Hf]; destruct Hd; try congruence; cbn in E; injection E; intros; unfold digit in *; lia.
    + destruct Hy as [y Hy|Hy].
      * simpl in Hy. repeat (destruct Hy as [Hy|Hy]; [try discriminate; now injection Hy as <-|]). destruct Hy.
      * exfalso. apply (Hy (YFloat (lit "-inf"))). simpl. auto 30.
Qed.
(** Quoted: always a string. *)
Theorem C10_double_quoted_document : forall (hk : hasher) (b : str),
  valid b -> last b 0%N <> 92%N ->
  parse hk (34%N :: flat_map json_char b ++ [34; 10]%N) = ROk [Node 0 [] (YStr b)].
Proof.
  intros hk b Hv Hl. unfold parse. fold (json_str b).
  assert (Ed : utf8_encode (34%N :: json_str b ++ [34; 10]%N) = 34%N :: utf8_encode (json_str b) ++ 34%N :: [10%N])
    by (rewrite encode_cons_ascii by lia; now rewrite encode_app).
  rewrite Ed. apply parse_leaf; try reflexivity; [discriminate|].
  intros s D A0 R _. exists (set_pos (p_pos s + List.length (utf8_encode (json_str b)) + 2) s). split; [|split].
  - intros n Hn. destruct n as [|n]; [lia|].
    rewrite (term_double n 1 false s (json_str b) [10%N] D A0 (json_valid b Hv) (json_qok b Hl) R). now rewrite json_escape.
  - unfold in_doc. cbn. pose proof (rem_length s) as RL. rewrite R in RL. cbn [List.length] in RL. rewrite app_length in RL.
    cbn [List.length] in RL. lia.
  - replace (p_pos s + List.length (utf8_encode (json_str b)) + 2) with (p_pos s + (1 + (List.length (utf8_encode (json_str b)) + 1))) by lia.
    rewrite rem_add, R, <- !skipn_add. cbn [skipn]. now rewrite skipn_app_len.
Qed.
Theorem C10_single_quoted_document : forall (hk : hasher) (b : str),
  valid b -> ~ In 10%N b -> ~ In 13%N b ->
  parse hk (39%N :: flat_map (fun c => if N.eqb c 39 then [39; 39]%N else [c]) b ++ [39; 10]%N) = ROk [Node 0 [] (YStr b)].
Proof.
  intros hk b Hv H1 H2. unfold parse. fold (dq b).
  assert (Ed : utf8_encode (39%N :: dq b ++ [39; 10]%N) = 39%N :: utf8_encode (dq b) ++ 39%N :: [10%N])
    by (rewrite encode_cons_ascii by lia; now rewrite encode_app).
  rewrite Ed. apply parse_leaf; try reflexivity; [discriminate|].
  intros s D A0 R _. exists (set_pos (p_pos s + List.length (utf8_encode (dq b)) + 2) s). split; [|split].
  - intros n Hn. destruct n as [|n]; [lia|].
    rewrite (term_single n 1 false s b [10%N] D A0 Hv); [reflexivity| | |exact R].
    + apply forallb_forall. intros c Hc. apply not_in_spec. intros [<-|[<-|[]]]; contradiction.
    + intros (r & [=]).
  - unfold in_doc. cbn. pose proof (rem_length s) as RL. rewrite R in RL. cbn [List.length] in RL. rewrite app_length in RL.
    cbn [List.length] in RL. lia.
  - replace (p_pos s + List.length (utf8_encode (dq b)) + 2) with (p_pos s + (1 + (List.length (utf8_encode (dq b)) + 1))) by lia.
    rewrite rem_add, R, <- !skipn_add. cbn [skipn]. now rewrite skipn_app_len.
Qed.
(** A number literal on a line of its own is a number (with C07 and C09). *)
Theorem C07_int_document : forall (hk : hasher) (t : bytes), int_literal t ->
  parse hk (t ++ [10%N]) = ROk [Node 0 [] (YInt t)].
Proof.
  intros hk t Ht. unfold parse. rewrite encode_app, (encode_asciis t (int_literal_ascii t Ht)).
  change (utf8_encode [10%N]) with [10%N].
  assert (Hd : exists c r, t = c :: r /\ (digit c \/ c = 45%N /\ exists x y, r = x :: y /\ digit x)).
  { destruct Ht as [ds Hn Hd|ds Hn Hd|ds Hn Hd|ds Hn Hd].
    - destruct Hd as [|c ds Hc Hd]; [congruence|]. eauto 8.
    - destruct Hd as [|c ds Hc Hd]; [congruence|]. exists 45%N, (c :: ds). split; [reflexivity|]. right. eauto.
    - exists 48%N. eexists. split; [reflexivity|]. left. unfold digit. lia.
    - exists 48%N. eexists. split; [reflexivity|]. left. unfold digit. lia. }
  destruct Hd as (c & r & Et & Hd).
  apply parse_leaf.
  - rewrite Et. cbn [app hd_ok]. apply andb_true_iff. unfold digit in Hd. split.
    + apply not_in_spec. intros K. simpl in K. lia.
    + destruct Hd as [Hd|(-> & x & y & -> & Hx)].
      * replace (is_in [45; 63]%N c) with false; [reflexivity|]. symmetry.
        destruct (is_in [45; 63]%N c) eqn:E; [|reflexivity]. apply is_in_spec in E. simpl in E. lia.
      * cbn [app]. unfold at_bound. replace (is_in bound_set x) with false; [now rewrite andb_false_r|]. symmetry.
        destruct (is_in bound_set x) eqn:E; [|reflexivity]. apply is_in_spec in E. simpl in E. lia.
  - rewrite Et. cbn [app]. unfold digit in Hd. lia.
  - rewrite Et. destruct Hd as [Hd|(-> & x & y & -> & Hx)]; unfold digit in *; cbn [app starts_with].
    + rewrite (proj2 (N.eqb_neq 45 c)) by lia. reflexivity.
    + rewrite (proj2 (N.eqb_neq 45 x)) by lia. now rewrite andb_false_r.
  - intros s D A0 R _. exists (set_pos (p_pos s + List.length t + 0) s). split; [|split].
    + intros n Hn. destruct n as [|n]; [lia|]. apply (term_int n 1 false s t [] [10%N] D A0 Ht); [|exact R].
      split; [constructor|]. exists 10%N, []. split; [reflexivity|]. split; [unfold bound_char; simpl; tauto|].
      intros [K|[K|K]]; discriminate.
    + unfold in_doc. cbn. pose proof (rem_length s) as RL. rewrite R, app_length in RL. cbn in RL. lia.
    + rewrite Nat.add_0_r, rem_add, R. apply skipn_app_len.
Qed.
