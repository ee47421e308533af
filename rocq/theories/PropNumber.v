(** * C31: integers read as numbers *)
From Verif Require Import PropMisc PropFloat3 Serde.
Open Scope Z_scope.

Lemma rounds_exactly neg n x m e : rounds neg n 1 x -> canonical m e -> n * scale = units m e -> x = FFin neg m e.
Proof.
  intros R C E. apply (rounds_unique neg n 1 x _ R); [|lia]. apply rounds_exact; [lia|exact C|lia].
Qed.
(** every magnitude up to 2^53 is one of the binary64 numbers *)
Lemma small_canonical n : 0 <= n <= 2 ^ 53 -> exists m e, canonical m e /\ n * scale = units m e.
Proof.
  intros H. destruct (Z.eq_dec n 0) as [->|N0].
  { exists 0%N, (-1074). split; [unfold canonical; lia|reflexivity]. }
  destruct (Z.eq_dec n (2 ^ 53)) as [->|N1].
  { exists (2 ^ 52)%N, 1. split; [unfold canonical; lia|]. unfold units. rewrite scale_add by lia.
    change (Z.of_N (2 ^ 52)) with (2 ^ 52). change (2 ^ 53) with (2 ^ 52 * 2). change (2 ^ 1) with 2. ring. }
  set (l := Z.log2 n). assert (L : 2 ^ l <= n < 2 ^ (Z.succ l)) by (apply Z.log2_spec; lia).
  assert (L0 : 0 <= l) by apply Z.log2_nonneg.
  assert (L1 : l <= 52) by (assert (l < 53); [apply Z.log2_lt_pow2; lia|lia]).
  exists (Z.to_N (n * 2 ^ (52 - l))), (l - 52).
  assert (P : 0 < 2 ^ (52 - l)) by (apply Z.pow_pos_nonneg; lia).
  assert (B : 2 ^ 52 <= n * 2 ^ (52 - l) < 2 ^ 53).
  { replace (2 ^ 52) with (2 ^ l * 2 ^ (52 - l)) by (rewrite <- Z.pow_add_r by lia; f_equal; lia).
    replace (2 ^ 53) with (2 ^ (Z.succ l) * 2 ^ (52 - l)) by (rewrite <- Z.pow_add_r by lia; f_equal; lia).
    split; [apply Z.mul_le_mono_nonneg_r; lia|apply Z.mul_lt_mono_pos_r; lia]. }
  split.
  - unfold canonical. change (2 ^ 53)%N with (Z.to_N (2 ^ 53)). change (2 ^ 52)%N with (Z.to_N (2 ^ 52)). split; [lia|]. split; [lia|]. left. lia.
  - unfold units. rewrite Z2N.id by lia. replace (l - 52 + 1074) with (1074 - (52 - l)) by lia.
    rewrite <- Z.mul_assoc. f_equal. rewrite <- Z.pow_add_r by lia. replace (52 - l + (1074 - (52 - l))) with 1074 by lia. now rewrite scale_def.
Qed.

(** as_number of an integer is the binary64 number nearest to it (ties to even),
    exactly it up to 2^53; and that is what it is as a float of a record. *)
Theorem C31_integer_as_number : forall p t s z, to_i64 s = Some z ->
  exists x, as_number (Node p t (YInt s)) = inl x /\ rounds (z <? 0) (Z.abs z) 1 x
   /\ (forall y, rounds (z <? 0) (Z.abs z) 1 y -> y = x)
   /\ (Z.abs z <= 2 ^ 53 -> exists m e, x = FFin (z <? 0) m e /\ units m e = Z.abs z * scale)
   /\ forall show_f hk, de show_f hk TF64 (Node p t (YInt s)) = DOk (VFloat x).
Proof.
  intros p t s z H. exists (f64_of_Z z).
  assert (R : rounds (z <? 0) (Z.abs z) 1 (f64_of_Z z)).
  { pose proof (mk_f64_rounds (z <? 0) (Z.abs z) 0 ltac:(lia)) as R. rewrite Z.pow_0_r, Z.mul_1_r in R. exact R. }
  split; [unfold as_number; cbn [n_yaml]; now rewrite H|]. split; [exact R|].
  split; [intros y Y; exact (rounds_unique _ _ _ _ _ Y R ltac:(lia))|]. split.
  - intros B. destruct (small_canonical (Z.abs z) ltac:(lia)) as (m & e & C & E). exists m, e. split; [|lia].
    now apply (rounds_exactly _ (Z.abs z)).
  - intros show_f hk. cbn [de]. unfold de_f64. cbn [n_yaml]. now rewrite H.
Qed.
Example C31_integer_witness :
  as_number (node_from (YInt (lit "-3"))) = inl (FFin true 6755399441055744 (-51))
  /\ as_number (node_from (YInt (lit "9007199254740993"))) = inl (FFin false 4503599627370496 1)
  /\ to_i64 (lit "9007199254740993") = Some 9007199254740993.
Proof. split; [vm_compute; reflexivity|]. split; vm_compute; reflexivity. Qed.
