(** * Block collections: the texts, and how the loader reads them *)
From Verif Require Export PropJson2 PropDirective.
Open Scope nat_scope.

(** ** Specification: the texts of a block node *)

(** A scalar on one line. *)
Inductive leaf : yaml -> str -> Prop :=
| LWord t y : plain_line t -> (forall b, t <> lit "..." ++ b) ->
    ~ number_line (utf8_encode t ++ [10%N]) -> ~ number_line (utf8_encode t ++ [58%N]) ->
    meaning t y -> leaf y t
| LInt t : int_literal t -> leaf (YInt t) t
| LFloat t : float_literal t \/ sci_literal t -> (forall u, t <> u ++ lit ".0") -> leaf (YFloat t) t
| LQuoted b : str_ok b -> leaf (YStr b) (quote b).
(** Empty lines and comment lines. *)
Inductive filler : str -> Prop :=
| FNone : filler []
| FEmpty g : filler g -> filler (10%N :: g)
| FComment w c g : Forall blank w -> ~ In 10%N c -> ~ In 13%N c -> filler g ->
    filler (w ++ lit "#" ++ c ++ 10%N :: g).
Definition indent (c : nat) : str := repeat 32%N c.
(** No two keys are the same data. *)
Definition distinct (m : list (node * node)) : Prop :=
  ForallOrdPairs (fun a b => ~ same (n_yaml (fst a)) (n_yaml (fst b))) m.
(** [node_at c y t]: the text of a node that begins in column [c]. *)
Inductive node_at : nat -> yaml -> str -> Prop :=
| NLeaf c y t : leaf y t -> node_at c y t
| NSeq c v t : items c v t -> node_at c (YSeq v) (lit "- " ++ t)
| NMap c m t : entries c m t -> distinct m -> node_at c (YMap m) t
(** an item of a sequence, or a document: here or on the next line *)
with item_at : nat -> yaml -> str -> Prop :=
| IHere c y t : node_at c y t -> item_at c y t
| INext c y t g : filler g -> node_at c y t -> item_at c y (10%N :: g ++ indent c ++ t)
(** the items of a sequence with its dashes in column [c], after the first dash *)
with items : nat -> list node -> str -> Prop :=
| SOne c x t : item_at (c + 2) (n_yaml x) t -> items c [x] t
| SMore c x t g v u : item_at (c + 2) (n_yaml x) t -> filler g -> items c v u ->
    items c (x :: v) (t ++ 10%N :: g ++ indent c ++ lit "- " ++ u)
(** the value of a key in column [c] *)
with value_at : nat -> yaml -> str -> Prop :=
| VHere c y t : leaf y t -> value_at c y (lit " " ++ t)
| VNext c c' y t g : c < c' -> filler g -> node_at c' y t -> value_at c y (10%N :: g ++ indent c' ++ t)
| VFlush c v t g : filler g -> items c v t -> value_at c (YSeq v) (10%N :: g ++ indent c ++ lit "- " ++ t)
(** the entries of a map with its keys in column [c] *)
with entries : nat -> list (node * node) -> str -> Prop :=
| EOne c k v kt vt : leaf (n_yaml k) kt -> value_at c (n_yaml v) vt -> readable (n_yaml k) ->
    entries c [(k, v)] (kt ++ lit ":" ++ vt)
| EMore c k v kt vt g m u : leaf (n_yaml k) kt -> value_at c (n_yaml v) vt -> readable (n_yaml k) -> filler g ->
    entries c m u -> entries c ((k, v) :: m) (kt ++ lit ":" ++ vt ++ 10%N :: g ++ indent c ++ u).

Scheme node_at_mut := Induction for node_at Sort Prop
with item_at_mut := Induction for item_at Sort Prop
with items_mut := Induction for items Sort Prop
with value_at_mut := Induction for value_at Sort Prop
with entries_mut := Induction for entries Sort Prop.

(** ** Leaves *)
Lemma encode_no c t : (c < 128)%N -> ~ In c t -> ~ In c (utf8_encode t).
Proof.
  intros Hc. induction t as [|x t IH]; intros H; [exact H|]. rewrite encode_cons. intros K. apply in_app_iff in K as [K|K].
  - destruct (N.lt_ge_cases x 128) as [L|L].
    + rewrite encode_ascii in K by exact L. destruct K as [<-|[]]. apply H. now left.
    + apply (encode_multi x) in K; [lia|exact L].
  - apply IH; [|exact K]. intros K'. apply H. now right.
Qed.
(** a number line ends before the first line break or colon *)
Lemma cut_prefix (b : N) p : forall a rest r, a ++ b :: r = p ++ rest -> ~ In b p -> exists a', a = p ++ a' /\ rest = a' ++ b :: r.
Proof.
  induction p as [|x p IH]; intros a rest r E H; [exists a; auto|]. destruct a as [|y a]; cbn [app] in E; injection E as -> E.
  - exfalso. apply H. now left.
  - destruct (IH a rest r E) as (a' & -> & ->); [intros K; apply H; now right|]. exists a'. auto.
Qed.
Lemma literal_chars t x : int_literal t \/ float_literal t \/ sci_literal t -> In x t -> x <> 10%N /\ x <> 58%N.
Proof.
  assert (D : forall ds, Forall digit ds -> In x ds -> x <> 10%N /\ x <> 58%N).
  { intros ds H K. rewrite Forall_forall in H. specialize (H x K). unfold digit in H. lia. }
  assert (S : forall neg, In x (sign neg) -> x <> 10%N /\ x <> 58%N) by (intros [] K; simpl in K; [destruct K as [<-|[]]; lia|destruct K]).
  intros [[ds Hn Hd|ds Hn Hd|ds Hn Hd|ds Hn Hd]|[[neg ds fs Hn Hd Hf]|[neg ds e sg es Hn Hd He Hs Hes Hd']]] K.
  - eauto.
  - destruct K as [<-|K]; [lia|eauto].
  - destruct K as [<-|[<-|K]]; [lia|lia|]. rewrite Forall_forall in Hd. specialize (Hd x K). unfold oct_char, digit in Hd. lia.
  - destruct K as [<-|[<-|K]]; [lia|lia|]. rewrite Forall_forall in Hd. specialize (Hd x K). unfold hex_char, digit in Hd. lia.
  - rewrite !in_app_iff in K. destruct K as [K|[K|[<-|K]]]; eauto. lia.
  - rewrite !in_app_iff in K. destruct K as [K|[K|[<-|K]]]; eauto; [lia|]. apply in_app_iff in K as [K|K]; eauto.
    destruct Hs as [->|[->| ->]]; simpl in K; intuition lia.
Qed.
Lemma number_line_cut b a r : b = 10%N \/ b = 58%N -> number_line (a ++ b :: r) -> number_line (a ++ [b]).
Proof.
  intros Hb (t & w & rest & E & K). rewrite app_assoc in E.
  assert (W : Forall blank w) by (destruct K as [[_ [K _]]|[_ [K _]]]; exact K).
  destruct (cut_prefix b (t ++ w) a rest r E) as (a' & -> & ->).
  { intros H. apply in_app_iff in H as [H|H].
    - apply literal_chars in H; [lia|tauto].
    - rewrite Forall_forall in W. specialize (W b H). unfold blank in W. lia. }
  exists t, w, (a' ++ [b]). split; [now rewrite <- !app_assoc|].
  assert (HD : forall P : N -> Prop, (exists c q, a' ++ b :: r = c :: q /\ P c) -> exists c q, a' ++ [b] = c :: q /\ P c).
  { intros P (c & q & Eq & Hc). destruct a' as [|x a']; injection Eq as -> _; cbn [app]; eauto. }
  destruct K as [[K1 K2]|[K1 K2]]; [left|right]; (split; [exact K1|]).
  - destruct K2 as (_ & K2). split; [exact W|].
    apply (HD (fun c => bound_char c /\ ~ blank c)). exact K2.
  - destruct K2 as (_ & K2 & K3). split; [exact W|]. split.
    + intros c q Eq. destruct a' as [|x a']; injection Eq as -> _; eapply K2; reflexivity.
    + destruct K3 as [[-> K3]|K3]; [left|right; exact K3]. split; [reflexivity|]. now apply (HD bound_char).
Qed.

(** ** Line breaks *)
(** what follows a node: a line break, empty and comment lines, then [k] spaces
    and [r], which is empty or begins with a visible character *)
Definition visible (c : N) : Prop := ~ In c [32; 9; 12; 10; 13; 35]%N.
Definition shown (r : bytes) : Prop := exists c q, r = c :: q /\ visible c.
Definition brk (rest : bytes) (g : str) (k : nat) (r : bytes) : Prop :=
  filler g /\ rest = 10%N :: utf8_encode g ++ repeat 32%N k ++ r /\ (r = [] /\ k = 0 \/ shown r).
Lemma visible_ws c : visible c -> is_ws c = false /\ is_ascii_ws c = false /\ c <> 35%N /\ c <> 10%N /\ c <> 13%N /\ c <> 32%N.
Proof.
  intros H. assert (W : is_ascii_ws c = false).
  { destruct (is_ascii_ws c) eqn:E; [|reflexivity]. apply ascii_ws_in in E. exfalso. apply H. simpl in *. tauto. }
  repeat split; try (intros ->; apply H; simpl; tauto); [|exact W]. unfold is_ws. now rewrite W.
Qed.
Lemma nl_len_head b r : b <> 10%N -> b <> 13%N -> nl_len (b :: r) = 0.
Proof.
  intros H1 H2. rewrite nl_len_alt. unfold nl_len'. cbn [starts_with].
  rewrite (proj2 (N.eqb_neq 13 b)), (proj2 (N.eqb_neq 10 b)) by congruence. cbn [andb].
  rewrite (proj2 (N.eqb_neq b 13)), (proj2 (N.eqb_neq b 10)) by congruence. reflexivity.
Qed.
Definition no_cr (r : bytes) : Prop := match r with x :: _ => x <> 13%N | [] => True end.
Lemma no_cr_lf r : no_cr r -> nl_len (10%N :: r) = 1.
Proof.
  intros H. rewrite nl_len_alt. unfold nl_len'. destruct r as [|x r]; [reflexivity|]. cbn [starts_with].
  rewrite (proj2 (N.eqb_neq 13 x)) by (cbn in H; congruence). reflexivity.
Qed.
Lemma spaces_shown k r : r = [] /\ k = 0 \/ shown r ->
  nl_len (repeat 32%N k ++ r) = 0 /\ comment_len (repeat 32%N k ++ r) = 0 /\ sp_len (repeat 32%N k ++ r) = k /\ no_cr (repeat 32%N k ++ r)
  /\ ws_len (repeat 32%N k ++ r) = k /\ span is_ascii_ws (repeat 32%N k ++ r) = k.
Proof.
  intros [[-> ->]|(c & q & -> & Hc)]; [repeat split; reflexivity|]. apply visible_ws in Hc as (H1 & H1' & H2 & H3 & H4 & H5).
  assert (S : forall f : N -> bool, f 32%N = true -> f c = false -> span f (repeat 32%N k ++ c :: q) = k).
  { intros f F1 F2. rewrite span_app; [apply repeat_length| |exact F2]. clear -F1. induction k; [reflexivity|]. cbn. now rewrite F1. }
  repeat split.
  - destruct k; cbn [repeat app]; apply nl_len_head; try assumption; discriminate.
  - unfold comment_len. replace (ws_len (repeat 32%N k ++ c :: q)) with k by (symmetry; now apply S).
    rewrite skipn_app, repeat_length, Nat.sub_diag, skipn_all2 by (rewrite repeat_length; lia). cbn [app skipn].
    now rewrite (proj2 (N.eqb_neq c 35) H2).
  - apply S; [reflexivity|]. now apply N.eqb_neq.
  - destruct k; cbn; [exact H4|discriminate].
  - now apply S.
  - now apply S.
Qed.
Lemma filler_no_cr g l : filler g -> no_cr l -> no_cr (utf8_encode g ++ l).
Proof.
  intros F H; destruct F as [| |w c g' Hw _ _ _]; [exact H|cbn; discriminate|]. rewrite !encode_app.
  destruct w as [|x w]; [cbn; discriminate|]. inversion Hw as [|? ? Hx _]; subst.
  rewrite encode_cons_ascii by (unfold blank in Hx; lia). cbn. unfold blank in Hx. lia.
Qed.
Lemma blanks_encode w : Forall blank w -> utf8_encode w = w.
Proof.
  intros H. apply encode_asciis, forallb_forall. intros x Hx. rewrite Forall_forall in H. specialize (H x Hx). apply N.ltb_lt. unfold blank in H. lia.
Qed.
Lemma blanks_ws_all w : Forall blank w -> forallb is_ws w = true.
Proof. intros H. apply forallb_forall. intros x Hx. rewrite Forall_forall in H. now apply is_ws_blank, H. Qed.
Lemma filler_lines g : filler g -> forall l n, nl_len l = 0 -> comment_len l = 0 -> no_cr l ->
  List.length (utf8_encode g ++ l) < n -> snd (gap_lines n true (utf8_encode g ++ l)) = List.length (utf8_encode g).
Proof.
  induction 1 as [|g Hg IH|w c g Hw H1 H2 Hg IH]; intros l n N0 C0 NC Hn; (destruct n as [|n]; [lia|]).
  - cbn [utf8_encode flat_map app gap_lines]. unfold line_skip. rewrite C0. cbn [skipn]. cbv zeta. now rewrite N0.
  - rewrite encode_cons_ascii in * by lia. cbn [app List.length] in *. cbn [gap_lines]. unfold line_skip.
    change (comment_len (10%N :: utf8_encode g ++ l)) with 0. cbn [skipn]. cbv zeta.
    rewrite no_cr_lf by now apply filler_no_cr. cbn [Nat.eqb Nat.add skipn snd].
    rewrite IH; [reflexivity|assumption..|lia].
  - set (X := w ++ 35%N :: utf8_encode c ++ 10%N :: utf8_encode g ++ l).
    assert (EX : utf8_encode (w ++ lit "#" ++ c ++ 10%N :: g) ++ l = X).
    { unfold X. rewrite !encode_app, encode_cons_ascii by lia. change (utf8_encode (lit "#")) with [35%N].
      rewrite (blanks_encode w Hw), <- !app_assoc. reflexivity. }
    assert (EL : List.length (utf8_encode (w ++ lit "#" ++ c ++ 10%N :: g)) = List.length w + 1 + List.length (utf8_encode c) + 1 + List.length (utf8_encode g)).
    { rewrite !encode_app, !encode_cons_ascii by lia. rewrite (blanks_encode w Hw), !app_length. cbn [List.length].
      change (List.length (utf8_encode [])) with 0. lia. }
    rewrite EX, EL. rewrite EX in Hn.
    assert (CL : comment_len X = List.length w + 1 + List.length (utf8_encode c)).
    { assert (WL : ws_len X = List.length w).
      { unfold ws_len, X. apply span_app; [now apply blanks_ws_all|reflexivity]. }
      unfold comment_len. rewrite WL. unfold X at 1. rewrite skipn_app_len. cbn [N.eqb Pos.eqb]. f_equal. apply span_app; [|reflexivity].
      apply forallb_forall. intros x Hx. apply not_in_spec. intros [<-|[<-|[]]]; revert Hx; apply encode_no; auto; lia. }
    cbn [gap_lines]. unfold line_skip. rewrite CL. cbv zeta.
    assert (SK : skipn (List.length w + 1 + List.length (utf8_encode c)) X = 10%N :: utf8_encode g ++ l).
    { unfold X. rewrite <- !skipn_add. rewrite skipn_app_len. cbn [skipn]. apply skipn_app_len. }
    rewrite SK, no_cr_lf by now apply filler_no_cr. cbn [Nat.eqb].
    rewrite <- (skipn_add _ 1), SK. cbn [skipn snd].
    rewrite IH; [lia|assumption..|].
    unfold X in Hn. rewrite !app_length in Hn. cbn [List.length] in Hn. rewrite app_length in Hn. cbn [List.length] in Hn. lia.
Qed.
Lemma brk_gap rest g k r : brk rest g k r -> exists t, gap_f true rest = Some (t, 1 + List.length (utf8_encode g)).
Proof.
  intros (Hg & -> & Hr). destruct (spaces_shown k r Hr) as (S1 & S2 & _ & S3 & _).
  unfold gap_f, gap_head. change (comment_len (10%N :: _)) with 0. cbn [skipn]. rewrite no_cr_lf by now apply filler_no_cr.
  cbn [Nat.eqb Nat.add skipn]. rewrite (filler_lines g Hg _ _ S1 S2 S3) by lia. eauto.
Qed.

(** *** How a leaf begins and ends *)
Definition good (l : bytes) : Prop :=
  hd_ok l = true /\ starts_with (lit "---") l = false /\ starts_with (lit "...") l = false
  /\ exists b q, l = b :: q /\ b <> 37%N.
Definition cut (rest : bytes) : Prop := exists b q, rest = b :: q /\ (b = 10%N \/ b = 58%N).
Lemma literal_head t : int_literal t \/ float_literal t \/ sci_literal t ->
  exists b r, t = b :: r /\ (digit b \/ b = 45%N /\ exists d r', r = d :: r' /\ digit d).
Proof.
  assert (D : forall ds neg (tl : bytes), ds <> [] -> Forall digit ds -> exists b r, sign neg ++ ds ++ tl = b :: r /\ (digit b \/ b = 45%N /\ exists d r', r = d :: r' /\ digit d)).
  { intros ds neg tl Hn Hd. destruct Hd as [|d ds Hd _]; [congruence|]. destruct neg; cbn [sign app].
    - exists 45%N, (d :: ds ++ tl). split; [reflexivity|]. right. split; [reflexivity|]. eauto.
    - exists d, (ds ++ tl). auto. }
  intros [[ds Hn Hd|ds Hn Hd|ds Hn Hd|ds Hn Hd]|[[neg ds fs Hn Hd Hf]|[neg ds e sg es Hn Hd He Hs Hes Hd']]].
  - destruct (D ds false [] Hn Hd) as (b & r & E & K). rewrite app_nil_r in E. exists b, r. auto.
  - destruct (D ds true [] Hn Hd) as (b & r & E & K). rewrite app_nil_r in E. exists b, r. auto.
  - exists 48%N, (111%N :: ds). split; [reflexivity|]. left. unfold digit. lia.
  - exists 48%N, (120%N :: ds). split; [reflexivity|]. left. unfold digit. lia.
  - now apply D.
  - now apply D.
Qed.
Lemma literal_ascii t : int_literal t \/ float_literal t \/ sci_literal t -> utf8_encode t = t.
Proof. intros [H|H]; apply encode_asciis; [now apply int_literal_ascii|now apply float_literal_ascii]. Qed.
Lemma literal_good t rest : int_literal t \/ float_literal t \/ sci_literal t -> good (utf8_encode t ++ rest).
Proof.
  intros H. rewrite (literal_ascii t H). destruct (literal_head t H) as (b & r & -> & K). cbn [app].
  assert (K' : digit b \/ b = 45%N /\ exists d r', r ++ rest = d :: r' /\ digit d).
  { destruct K as [K|(-> & d & r' & -> & K)]; [auto|]. right. split; [reflexivity|]. exists d, (r' ++ rest). auto. }
  destruct (PropJson.head_ok b (r ++ rest) ltac:(tauto)) as (G1 & _ & _ & _ & G2 & G3).
  split; [exact G1|]. split; [exact G3|]. split; [|eauto]. cbn [starts_with].
  rewrite (proj2 (N.eqb_neq 46 b)); [reflexivity|]. unfold digit in K'. destruct K' as [K'|[-> _]]; lia.
Qed.
Lemma no_start p t rest : forallb (fun b => N.ltb b 128 && negb (is_in [10; 58]%N b)) p = true -> (forall b, t <> p ++ b) -> cut rest ->
  starts_with p (utf8_encode t ++ rest) = false.
Proof.
  intros Hp Ht (b & q & -> & Hb). destruct (starts_with p _) eqn:E; [|reflexivity]. exfalso.
  assert (Hp' : forallb (fun b => N.ltb b 128) p = true).
  { eapply forallb_impl; [|exact Hp]. intros x Hx. now apply andb_true_iff in Hx. }
  destruct (starts_encode p t (b :: q) Hp' E) as [(r & K)|(x & y & Exy & Hy & _ & K)]; [now apply (Ht r)|].
  destruct y as [|y0 y]; [congruence|]. cbn [starts_with] in K. apply andb_true_iff in K as [K _]. apply N.eqb_eq in K. subst y0.
  rewrite Exy, forallb_app in Hp. cbn [forallb] in Hp.
  assert (I : is_in [10; 58]%N b = true) by (destruct Hb as [-> | ->]; reflexivity). rewrite I in Hp.
  rewrite andb_false_r in Hp. cbn [andb] in Hp. rewrite andb_false_r in Hp. discriminate.
Qed.
Lemma word_head t : plain_line t -> exists b rb, utf8_encode t = b :: rb
  /\ ~ In b (lit "&!|>[]{}*'#% " ++ [34; 9; 12; 10; 13]%N).
Proof.
  intros [Hv (c & r & Et & Hc0 & Hdash) Hn Hk Hke Hc Ht Hm].
  destruct (first_byte c r) as (b & rb & Eb & Hb). rewrite <- Et in Eb. exists b, rb. split; [exact Eb|].
  destruct Hb as [(L & -> & _)|(_ & L)].
  - intros K. apply in_app_iff in K as [K|K]; [apply Hc0, in_app_iff; now left|].
    destruct Hn as [Hn1 Hn2]. destruct K as [<-|[<-|[<-|[<-|[<-|[]]]]]]; try (apply Hc0, in_app_iff; right; simpl; auto; fail).
    + apply Hn1. rewrite Et. now left.
    + apply Hn2. rewrite Et. now left.
  - intros K. simpl in K. repeat (destruct K as [<-|K]; [lia|]). destruct K.
Qed.
Lemma word_good t rest : plain_line t -> (forall b, t <> lit "..." ++ b) -> cut rest -> good (utf8_encode t ++ rest).
Proof.
  intros P Hd3 Hr. destruct (word_head t P) as (b & rb & Eb & Hb0). destruct P as [Hv (c & r & Et & Hc0 & Hdash) Hn Hk Hke Hc Ht Hm].
  split; [|split; [|split]].
  - rewrite Eb. cbn [app hd_ok]. apply andb_true_iff. split.
    + apply not_in_spec. intros K. apply Hb0. simpl in K |- *. tauto.
    + destruct (is_in [45; 63]%N b) eqn:Ei; [|reflexivity]. cbn [andb]. apply is_in_spec in Ei. simpl in Ei.
      rewrite Et in Eb. destruct (first_byte c r) as (b' & rb' & Eb' & Hb). rewrite Eb in Eb'. injection Eb' as <- <-.
      destruct Hb as [(L & -> & ->)|(_ & L)]; [|destruct Ei as [<-|[<-|[]]]; lia].
      destruct (Hdash ltac:(destruct Ei as [<-|[<-|[]]]; auto)) as (x & r' & -> & Hx).
      destruct (next_not (x :: r') rest bound_set ltac:(discriminate) ltac:(reflexivity)) as (b' & r'' & Eb' & Hb').
      { apply not_in_spec. unfold bound_set. intros K. apply in_app_iff in K as [K|K]; [now apply Hx|].
        destruct Hn as [Hn1 Hn2]. destruct K as [<-|[<-|[]]]; [apply Hn1|apply Hn2]; rewrite Et; right; now left. }
      rewrite Eb'. unfold at_bound. rewrite not_in_is in Hb'. now destruct (is_in bound_set b').
  - now apply no_start.
  - now apply no_start.
  - exists b, (rb ++ rest). rewrite Eb. split; [reflexivity|]. intros ->. apply Hb0. simpl. tauto.
Qed.
Lemma leaf_good y t rest : leaf y t -> cut rest -> good (utf8_encode t ++ rest).
Proof.
  intros H Hr. destruct H as [t y P H3 _ _ _|t H|t H _|b Hb].
  - now apply word_good.
  - apply literal_good. auto.
  - apply literal_good. tauto.
  - unfold quote. change ([34%N] ++ ?x) with (34%N :: x). rewrite encode_cons_ascii by lia. cbn [app].
    split; [reflexivity|]. split; [reflexivity|]. split; [reflexivity|]. eexists _, _. split; [reflexivity|discriminate].
Qed.

(** *** Reading a leaf *)
Lemma term_float L fl s t rest : in_doc s -> AT s -> float_literal t \/ sci_literal t -> (forall u, t <> u ++ lit ".0") ->
  float_end [] rest -> rem s = t ++ rest -> reads 1 L fl s (YFloat t) (set_pos (p_pos s + List.length t) s).
Proof.
  intros H A0 Ht H0 He Er n Hn. destruct n as [|n]; [lia|]. cbn [scalar_term]. destruct Ht as [Ht|Ht].
  - assert (E : float s = (ROk t, set_pos (p_pos s + List.length t + 0) s)).
    { apply (proj1 (C09_float_language s H A0)). exists t, [], rest. split; [exact Er|]. split; [exact Ht|]. split; [exact He|].
      split; [now apply NoDot0|reflexivity]. }
    unfold bind at 1. rewrite (ok_eq _ _ _ E). unfold ret. now rewrite Nat.add_0_r.
  - assert (E : sci_float s = (ROk t, set_pos (p_pos s + List.length t + 0) s)).
    { apply (proj1 (C09_sci_language s H A0)). exists [], rest. split; [exact Er|]. split; [exact Ht|]. split; [exact He|reflexivity]. }
    assert (F : float_f (rem s) = None).
    { rewrite Er. destruct Ht as [neg ds e sg es Hne Hd Hx Hsg Hes Hf].
      assert (A : (sign neg ++ ds ++ e :: sg ++ es) ++ rest = (sign neg ++ ds) ++ e :: (sg ++ es) ++ rest)
        by (rewrite <- !app_assoc; cbn [app]; now rewrite <- !app_assoc).
      rewrite A. unfold float_f, float_len. cbv zeta. pose proof (sign_dec neg ds Hne Hd) as HD.
      assert (Ee : is_digit e = false) by (destruct Hx as [->| ->]; reflexivity).
      rewrite (num_len_dec _ _ HD) by exact Ee. rewrite skipn_app_len.
      replace (N.eqb e 46) with false by (destruct Hx as [->| ->]; reflexivity).
      destruct (Nat.eqb (List.length (sign neg ++ ds)) 0); reflexivity. }
    unfold bind at 1. rewrite (ok_eq _ _ _ (float_exec s H A0)), F.
    unfold bind at 1. rewrite (ok_eq _ _ _ E). unfold ret. now rewrite Nat.add_0_r.
Qed.
(** what ends a leaf: a line break with a smaller indentation, or the colon of a key *)
Definition leaf_end (w : nat) (rest : bytes) : Prop :=
  (exists g k r, brk rest g k r /\ k < w) \/ (exists x q, rest = 58%N :: x :: q /\ (x = 32%N \/ x = 10%N)).
Lemma brk_cons rest g k r : brk rest g k r -> exists q, rest = 10%N :: q.
Proof. intros (_ & -> & _). eauto. Qed.
Lemma leaf_end_cut w rest : leaf_end w rest -> cut rest.
Proof.
  intros [(g & k & r & B & _)|(x & q & -> & _)]; [|exists 58%N; eauto]. apply brk_cons in B as (q & ->). exists 10%N. eauto.
Qed.
Lemma leaf_end_ends w rest : leaf_end w rest -> ends false w rest.
Proof.
  intros [(g & k & r & B & Hk)|(x & q & -> & Hx)].
  - right. left. split; [lia|]. destruct (brk_gap _ _ _ _ B) as (t & G). destruct B as (Hg & -> & Hr).
    destruct (spaces_shown k r Hr) as (_ & _ & S & NC & _). split.
    + rewrite no_cr_lf; [discriminate|]. now apply filler_no_cr.
    + eexists _, _. split; [exact G|]. cbn [Nat.add skipn]. rewrite skipn_app_len, S. exact Hk.
  - left. destruct Hx as [-> | ->]; [reflexivity|]. unfold stop_f.
    replace (negb (Nat.eqb (nl_len (skipn 1 (58%N :: 10%N :: q))) 0)) with true; [cbn; rewrite ?orb_true_r; reflexivity|].
    cbn [skipn]. rewrite nl_len_alt. unfold nl_len'. destruct q as [|z q]; [reflexivity|]. cbn [starts_with]. now destruct (N.eqb 13 z).
Qed.
Lemma cut_stop rest : cut rest -> exists c r, rest = c :: r /\ bound_char c /\ ~ blank c.
Proof.
  intros (b & q & -> & H). exists b, q. split; [reflexivity|]. unfold bound_char, blank. destruct H as [-> | ->]; simpl; lia.
Qed.
Lemma after_same L k s : after L k s (set_pos (p_pos s + k) s).
Proof. exists (p_indent s). split; [now rewrite set_indent_id|auto]. Qed.
Lemma meaning_unique t a b : meaning t a -> meaning t b -> a = b.
Proof.
  intros [y Ha|Ha] Hb; inversion Hb as [y' Hb'|Hb']; subst.
  - unfold keywords in *. simpl in Ha, Hb'.
    repeat (destruct Ha as [Ha|Ha]; [injection Ha as <- <-; repeat (destruct Hb' as [Hb'|Hb']; [try discriminate; now injection Hb'|]); destruct Hb'|]). destruct Ha.
  - exfalso. eapply Hb'; eassumption.
  - exfalso. eapply Ha; eassumption.
  - reflexivity.
Qed.
Lemma leaf_reads L s y t rest : leaf y t -> in_doc s -> AT s -> rem s = utf8_encode t ++ rest ->
  leaf_end (depth (p_indent s) L) rest ->
  exists s', reads 1 L false s y s' /\ after L (List.length (utf8_encode t)) s s'.
Proof.
  intros Hl H A0 Er He. pose proof (leaf_end_cut _ _ He) as Hcut. destruct (cut_stop rest Hcut) as (c & r & Ec & Hc1 & Hc2).
  destruct Hl as [t y P H3 N1 N2 Hm|t Ht|t Ht H0|b Hb].
  - assert (NN : nonum (rem s)).
    { apply not_number_nonum. rewrite Er. intros K. destruct Hcut as (b & q & -> & Hb).
      apply number_line_cut in K; [|exact Hb]. destruct Hb as [-> | ->]; contradiction. }
    destruct (word_head t P) as (b & rb & Eb & Hb0).
    pose proof P as [Hv (c0 & r0 & Et & Hc0 & Hdash) Hn Hk Hke Hcm Htr Hmk].
    assert (Hne : t <> []) by (rewrite Et; discriminate).
    destruct (term_plain L false s t rest H A0 Hv Hne (PropScalar.trim_end_last t Htr)) as (s' & E & Ha).
    + apply plainb_line; try assumption. intros _. rewrite Et. intros K. apply Hc0. simpl in K |- *. tauto.
    + exact Er.
    + now apply leaf_end_ends.
    + exact NN.
    + rewrite Er, Eb. cbn [app]. intros K. apply Hb0. simpl in K |- *. tauto.
    + exists s'. split; [|exact Ha]. replace y with (plain_value t); [exact E|].
      eapply meaning_unique; [apply plain_value_meaning|exact Hm].
  - rewrite (literal_ascii t (or_introl Ht)) in *. exists (set_pos (p_pos s + List.length t) s). split; [|apply after_same].
    intros n Hn. destruct n as [|n]; [lia|]. rewrite (term_int n L false s t [] rest H A0 Ht); [cbn [List.length]; now rewrite Nat.add_0_r| |exact Er].
    split; [constructor|]. eauto.
  - rewrite (literal_ascii t (or_intror Ht)) in *. exists (set_pos (p_pos s + List.length t) s). split; [|apply after_same].
    apply (term_float L false s t rest); try assumption. split; [constructor|]. rewrite Ec. split; [intros c' r' [= <- <-]; exact Hc2|]. left. eauto.
  - destruct Hb as (Hv & Hl).
    assert (Eq : utf8_encode (quote b) = 34%N :: utf8_encode (json_str b) ++ [34%N]).
    { unfold quote. fold (json_str b). change ([34%N] ++ ?x) with (34%N :: x). rewrite encode_cons_ascii by lia. now rewrite encode_app. }
    assert (Er' : rem s = 34%N :: utf8_encode (json_str b) ++ 34%N :: rest) by (rewrite Er, Eq; cbn [app]; now rewrite <- app_assoc).
    exists (set_pos (p_pos s + List.length (utf8_encode (quote b))) s). split; [|apply after_same].
    intros n Hn. destruct n as [|n]; [lia|].
    rewrite (term_double n L false s (json_str b) rest H A0 (json_valid b Hv) (json_qok b Hl) Er'), json_escape.
    f_equal. f_equal. rewrite Eq. cbn [List.length]. rewrite app_length. cbn [List.length]. lia.
Qed.
