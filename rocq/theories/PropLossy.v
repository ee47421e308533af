(** * C27: text from any bytes *)
From Verif Require Export PropUtf8.
From Coq Require Import ZifyN Lia.
Open Scope N_scope.
Ltac Zify.zify_post_hook ::= Z.div_mod_to_equations.
Inductive shape : bytes -> Prop :=
| Sh1 a : a < 128 -> shape [a]
| Sh2 a b : 194 <= a <= 223 -> is_cont b = true -> shape [a; b]
| Sh3 a b c : 224 <= a <= 239 -> ok3 a b = true -> is_cont c = true -> shape [a; b; c]
| Sh4 a b c e : 240 <= a <= 244 -> ok4 a b = true -> is_cont c = true -> is_cont e = true -> shape [a; b; c; e].
Lemma cont_spec b : is_cont b = true <-> 128 <= b <= 191.
Proof. unfold is_cont. rewrite andb_true_iff, !N.leb_le. tauto. Qed.
Lemma ok3_spec a b : 224 <= a <= 239 -> ok3 a b = true <-> 128 <= b <= 191 /\ (a = 224 -> 160 <= b) /\ (a = 237 -> b <= 159).
Proof. intros Ha. unfold ok3. destruct (N.eqb_spec a 224); [|destruct (N.eqb_spec a 237)]; rewrite ?cont_spec, ?andb_true_iff, ?N.leb_le; lia. Qed.
Lemma ok4_spec a b : 240 <= a <= 244 -> ok4 a b = true <-> 128 <= b <= 191 /\ (a = 240 -> 144 <= b) /\ (a = 244 -> b <= 143).
Proof. intros Ha. unfold ok4. destruct (N.eqb_spec a 240); [|destruct (N.eqb_spec a 244)]; rewrite ?cont_spec, ?andb_true_iff, ?N.leb_le; lia. Qed.
Lemma char_shape c : valid_char c = true -> shape (encode_char c).
Proof.
  intros H. apply valid_char_spec in H. unfold encode_char.
  destruct (N.ltb_spec c 128); [now constructor|]. destruct (N.ltb_spec c 2048); [constructor; rewrite ?cont_spec; lia|].
  destruct (N.ltb_spec c 65536).
  - assert (224 <= 224 + c / 4096 <= 239) by lia. constructor; [assumption|rewrite ok3_spec by assumption|rewrite cont_spec]; lia.
  - assert (240 <= 240 + c / 262144 <= 244) by lia. constructor; [assumption|rewrite ok4_spec by assumption|rewrite cont_spec|rewrite cont_spec]; lia.
Qed.
Lemma shape_char p : shape p -> exists c, valid_char c = true /\ encode_char c = p.
Proof.
  intros [a Ha|a b Ha Hb|a b c Ha Hb Hc|a b c e Ha Hb Hc He].
  - exists a. split; [unfold valid_char; rewrite orb_true_iff, N.ltb_lt; lia|]. unfold encode_char. now rewrite (proj2 (N.ltb_lt a 128)).
  - apply cont_spec in Hb. exists ((a - 192) * 64 + (b - 128)).
    split; [unfold valid_char; rewrite orb_true_iff, N.ltb_lt; lia|]. unfold encode_char.
    rewrite (proj2 (N.ltb_ge _ 128)), (proj2 (N.ltb_lt _ 2048)) by lia. f_equal; [lia|]. f_equal. lia.
  - apply cont_spec in Hc. rewrite ok3_spec in Hb by exact Ha. exists ((a - 224) * 4096 + (b - 128) * 64 + (c - 128)).
    split; [unfold valid_char; rewrite orb_true_iff, andb_true_iff, !N.ltb_lt, N.leb_le; lia|]. unfold encode_char.
    rewrite (proj2 (N.ltb_ge _ 128)), (proj2 (N.ltb_ge _ 2048)), (proj2 (N.ltb_lt _ 65536)) by lia. f_equal; [lia|]. f_equal; [lia|]. f_equal. lia.
  - apply cont_spec in Hc, He. rewrite ok4_spec in Hb by exact Ha. exists ((a - 240) * 262144 + (b - 128) * 4096 + (c - 128) * 64 + (e - 128)).
    split; [unfold valid_char; rewrite orb_true_iff, andb_true_iff, !N.ltb_lt, N.leb_le; lia|]. unfold encode_char.
    rewrite (proj2 (N.ltb_ge _ 128)), (proj2 (N.ltb_ge _ 2048)), (proj2 (N.ltb_ge _ 65536)) by lia. f_equal; [lia|]. f_equal; [lia|]. f_equal; [lia|]. f_equal. lia.
Qed.
(** ** Bytes that are no text *)
(** [p] begins a character *)
Definition begins (p : bytes) : Prop := exists c q, valid_char c = true /\ encode_char c = p ++ q.
(** what a reader that puts U+FFFD for damage makes of bytes: characters as they
    are, and one U+FFFD for a damaged part that is as long as it can be (as much of
    a character as there is), or for a byte that begins no character *)
Inductive lossy : bytes -> str -> Prop :=
| LossyEnd : lossy [] []
| LossyChar c r t : valid_char c = true -> lossy r t -> lossy (encode_char c ++ r) (c :: t)
| LossyBad p r t : p <> [] -> (forall c q, valid_char c = true -> p ++ r <> encode_char c ++ q) ->
    begins p \/ List.length p = 1%nat -> (forall x r', r = x :: r' -> ~ begins (p ++ [x])) -> lossy r t -> lossy (p ++ r) (65533 :: t).
Lemma begins_shape p : begins p <-> exists q, shape (p ++ q).
Proof.
  split.
  - intros (c & q & H & E). exists q. rewrite <- E. now apply char_shape.
  - intros (q & H). destruct (shape_char _ H) as (c & Hc & E). exists c, q. auto.
Qed.
Ltac no_char := intros c0 q0 Hv0 E0; pose proof (char_shape c0 Hv0) as S0; remember (encode_char c0) as w0 eqn:Ew0; clear Ew0;
  destruct S0; cbn [app] in E0; injection E0; intros; subst; try discriminate; try congruence; try lia.
Ltac no_more := intros x0 r0 Er0; try discriminate Er0; try (injection Er0 as -> ->); intros B0; apply begins_shape in B0 as (q0 & S0); cbn [app] in S0; inversion S0; subst; try congruence; try lia.
Lemma lossy_decode : forall n l, (List.length l <= n)%nat -> lossy l (utf8_lossy l).
Proof.
  induction n as [|n IH]; intros [|a r] Hn; try (constructor; fail); [cbn in Hn; lia|]. cbn [List.length] in Hn.
  assert (CH : forall p q, shape p -> a :: r = p ++ q -> lossy (a :: r) (utf8_lossy (a :: r))).
  { intros p q Hp E. destruct (shape_char p Hp) as (c & Hc & Ec). subst p. rewrite E, lossy_char by exact Hc. constructor; [exact Hc|]. apply IH.
    assert (List.length (a :: r) = List.length (encode_char c) + List.length q)%nat by (rewrite E; apply app_length).
    assert (List.length (encode_char c) <> 0)%nat by (intros K; destruct Hp; discriminate K). cbn [List.length] in *. lia. }
  destruct (N.ltb_spec a 128) as [L1|L1]; [apply (CH [a] r); [now constructor|reflexivity]|].
  cbn [utf8_lossy]. rewrite (proj2 (N.ltb_ge a 128) L1).
  destruct (andb _ _) eqn:A2.
  { apply andb_true_iff in A2 as [X Y]. apply N.leb_le in X, Y. destruct r as [|b r1].
    - apply (LossyBad [a] [] []); [discriminate|no_char|right; reflexivity|no_more|constructor].
    - destruct (is_cont b) eqn:Cb.
      + specialize (CH [a; b] r1 ltac:(now constructor) eq_refl). cbn [utf8_lossy] in CH. rewrite (proj2 (N.ltb_ge a 128) L1), (proj2 (N.leb_le _ _) X), (proj2 (N.leb_le _ _) Y), Cb in CH. exact CH.
      + apply (LossyBad [a] (b :: r1)); [discriminate|no_char|right; reflexivity|no_more|apply IH; lia]. }
  destruct (andb (N.leb 224 a) _) eqn:A3.
  { apply andb_true_iff in A3 as [X Y]. apply N.leb_le in X, Y. destruct r as [|b r1].
    - apply (LossyBad [a] [] []); [discriminate|no_char|right; reflexivity|no_more|constructor].
    - destruct (ok3 a b) eqn:Ob.
      + destruct r1 as [|c r2].
        * apply (LossyBad [a; b] [] []); [discriminate|no_char|left; apply begins_shape; exists [128]; now constructor|no_more|constructor].
        * destruct (is_cont c) eqn:Cc.
          -- specialize (CH [a; b; c] r2 ltac:(now constructor) eq_refl). cbn [utf8_lossy] in CH.
             rewrite (proj2 (N.ltb_ge a 128) L1), A2, (proj2 (N.leb_le _ _) X), (proj2 (N.leb_le _ _) Y), Ob, Cc in CH. exact CH.
          -- apply (LossyBad [a; b] (c :: r2)); [discriminate|no_char|left; apply begins_shape; exists [128]; now constructor|no_more|apply IH; cbn in Hn |- *; lia].
      + apply (LossyBad [a] (b :: r1)); [discriminate|no_char|right; reflexivity|no_more|apply IH; lia]. }
  destruct (andb (N.leb 240 a) _) eqn:A4.
  { apply andb_true_iff in A4 as [X Y]. apply N.leb_le in X, Y. destruct r as [|b r1].
    - apply (LossyBad [a] [] []); [discriminate|no_char|right; reflexivity|no_more|constructor].
    - destruct (ok4 a b) eqn:Ob.
      + destruct r1 as [|c r2].
        * apply (LossyBad [a; b] [] []); [discriminate|no_char|left; apply begins_shape; exists [128; 128]; now constructor|no_more|constructor].
        * destruct (is_cont c) eqn:Cc.
          -- destruct r2 as [|e r3].
             ++ apply (LossyBad [a; b; c] [] []); [discriminate|no_char|left; apply begins_shape; exists [128]; now constructor|no_more|constructor].
             ++ destruct (is_cont e) eqn:Ce.
                ** specialize (CH [a; b; c; e] r3 ltac:(now constructor) eq_refl). cbn [utf8_lossy] in CH.
                   rewrite (proj2 (N.ltb_ge a 128) L1), A2, A3, (proj2 (N.leb_le _ _) X), (proj2 (N.leb_le _ _) Y), Ob, Cc, Ce in CH. exact CH.
                ** apply (LossyBad [a; b; c] (e :: r3)); [discriminate|no_char|left; apply begins_shape; exists [128]; now constructor|no_more|apply IH; cbn in Hn |- *; lia].
          -- apply (LossyBad [a; b] (c :: r2)); [discriminate|no_char|left; apply begins_shape; exists [128; 128]; now constructor|no_more|apply IH; cbn in Hn |- *; lia].
      + apply (LossyBad [a] (b :: r1)); [discriminate|no_char|right; reflexivity|no_more|apply IH; lia]. }
  rewrite andb_false_iff, !N.leb_gt in A2, A3, A4.
  apply (LossyBad [a] r); [discriminate|no_char|right; reflexivity|no_more|apply IH; lia].
Qed.
Lemma prefix_len (a b r r' : bytes) : a ++ r = b ++ r' -> (List.length a < List.length b)%nat -> exists x q q', r = x :: q /\ b = a ++ [x] ++ q'.
Proof.
  revert b. induction a as [|x a IH]; intros [|y b] E L; cbn in E, L; try lia.
  - exists y, (b ++ r'), b. auto.
  - injection E as -> E. destruct (IH b E ltac:(lia)) as (z & q & q' & -> & ->). exists z, q, q'. auto.
Qed.
Lemma lossy_det l t : lossy l t -> forall l' t', lossy l' t' -> l = l' -> t = t'.
Proof.
  assert (MX : forall p r p' r', (forall x q, r = x :: q -> ~ begins (p ++ [x])) -> begins p' \/ List.length p' = 1%nat -> p <> [] -> p ++ r = p' ++ r' -> (List.length p' <= List.length p)%nat).
  { intros p r p' r' H H' Hp E. destruct (Nat.le_gt_cases (List.length p') (List.length p)) as [|L]; [assumption|]. exfalso.
    destruct (prefix_len p p' r r' E L) as (x & q & q' & Er & Ep). apply (H x q Er). destruct H' as [(c & w & Hc & Ec)|H'].
    - exists c, (q' ++ w). split; [exact Hc|]. now rewrite Ec, Ep, <- !app_assoc.
    - destruct p; [congruence|cbn in L; lia]. }
  induction 1 as [|c r t Hc _ IH|p r t Hp NC B MB _ IH]; intros l' t' [|c' r' t0 Hc' L'|p' r' t0 Hp' NC' B' MB' L'] E.
  - reflexivity.
  - pose proof (char_shape c' Hc') as S'. destruct S'; discriminate.
  - destruct p'; [congruence|discriminate].
  - pose proof (char_shape c Hc) as S'. destruct S'; discriminate.
  - assert (K : c = c' /\ r = r').
    { assert (EC : utf8_lossy (encode_char c ++ r) = utf8_lossy (encode_char c' ++ r')) by now rewrite E. rewrite !lossy_char in EC by assumption.
      injection EC as -> _. split; [reflexivity|]. now apply app_inv_head in E. }
    destruct K as [-> ->]. f_equal. now apply (IH r').
  - exfalso. now apply (NC' c r Hc).
  - destruct p; [congruence|discriminate].
  - exfalso. now apply (NC c' r' Hc').
  - assert (EL : List.length p = List.length p').
    { apply Nat.le_antisymm; [apply (MX p' r' p r MB' B Hp'); now symmetry|apply (MX p r p' r' MB B' Hp E)]. }
    assert (K : p = p' /\ r = r').
    { clear - E EL. revert p' E EL. induction p as [|x p IH]; intros [|y p'] E EL; try discriminate; [auto|]. injection E as -> E. injection EL as EL.
      destruct (IH p' E EL) as [-> ->]. auto. }
    destruct K as [-> ->]. f_equal. now apply (IH r').
Qed.
(** C27: whatever the bytes, text taken from them is what such a reader makes of
    them. *)
Theorem C27_lossy_exact : forall l t, utf8_lossy l = t <-> lossy l t.
Proof.
  intros l t. pose proof (lossy_decode _ l (le_n _)) as D. split; [intros <-; exact D|intros H]. now apply (lossy_det l _ D l t H).
Qed.
Example C27_lossy_witness : utf8_lossy [97; 240; 159; 152; 98; 255; 226; 130; 172] = [97; 65533; 98; 65533; 8364].
Proof. reflexivity. Qed.
