(** * C63: single-precision numbers *)
From Verif Require Import PropFloat2 PropFloat3 Single.
Open Scope Z_scope.

(** The lemmas on rounding are those of PropFloat2 and PropFloat3 with the constants
    of binary32: 24 for 53 bits, -149 for -1074, 104 for 971. *)
Definition fits32 (num den e : Z) : bool :=
  let '(n, d) := scaled num den e in (n <? d * 2 ^ 24)%Z.

Lemma fits_iff32 n d e K : 0 <= K -> 0 <= K + e -> 
  fits32 n d e = true <-> n * 2 ^ K < d * 2 ^ (K + e) * 2 ^ 24.
Proof.
  intros HK HE. unfold fits32, scaled. destruct (Z.leb_spec 0 e) as [He|He].
  - rewrite Z.ltb_lt, (Z.pow_add_r 2 K e) by lia. pose proof (Z.pow_pos_nonneg 2 K eq_refl HK) as P.
    replace (d * (2 ^ K * 2 ^ e) * 2 ^ 24) with ((d * 2 ^ e * 2 ^ 24) * 2 ^ K) by ring.
    rewrite <- Z.mul_lt_mono_pos_r by exact P. reflexivity.
  - rewrite Z.ltb_lt. replace K with ((K + e) + - e) at 1 by lia. rewrite (Z.pow_add_r 2 (K + e) (- e)) by lia.
    pose proof (Z.pow_pos_nonneg 2 (K + e) eq_refl HE) as P.
    replace (n * (2 ^ (K + e) * 2 ^ (- e))) with ((n * 2 ^ (- e)) * 2 ^ (K + e)) by ring.
    replace (d * 2 ^ (K + e) * 2 ^ 24) with ((d * 2 ^ 24) * 2 ^ (K + e)) by ring.
    rewrite <- Z.mul_lt_mono_pos_r by exact P. reflexivity.
Qed.
Lemma fits_mono32 n d e e' : 0 < n -> 0 < d -> e <= e' -> fits32 n d e = true -> fits32 n d e' = true.
Proof.
  intros Hn Hd He H.
  apply (proj1 (fits_iff32 n d e (Z.abs e + Z.abs e') ltac:(lia) ltac:(lia))) in H.
  apply (proj2 (fits_iff32 n d e' (Z.abs e + Z.abs e') ltac:(lia) ltac:(lia))).
  eapply Z.lt_le_trans; [exact H|]. apply Z.mul_le_mono_nonneg_r; [lia|].
  apply Z.mul_le_mono_nonneg_l; [lia|]. apply Z.pow_le_mono_r; lia.
Qed.
Lemma fits_scale32 n d k e : 0 < k -> fits32 (k * n) (k * d) e = fits32 n d e.
Proof.
  intros Hk. unfold fits32, scaled. destruct (0 <=? e)%Z.
  - replace (k * d * 2 ^ e * 2 ^ 24) with (k * (d * 2 ^ e * 2 ^ 24)) by ring.
    apply eq_true_iff_eq. rewrite !Z.ltb_lt. rewrite <- Z.mul_lt_mono_pos_l by exact Hk. reflexivity.
  - replace (k * n * 2 ^ (- e)) with (k * (n * 2 ^ (- e))) by ring.
    replace (k * d * 2 ^ 24) with (k * (d * 2 ^ 24)) by ring.
    apply eq_true_iff_eq. rewrite !Z.ltb_lt. rewrite <- Z.mul_lt_mono_pos_l by exact Hk. reflexivity.
Qed.
Definition expo32 (n d : Z) : Z :=
  let e0 := Z.log2 n - Z.log2 d - 24 in if fits32 n d e0 then e0 else e0 + 1.

Lemma expo_spec32 n d : 0 < n -> 0 < d ->
  fits32 n d (expo32 n d) = true /\ fits32 n d (expo32 n d - 1) = false.
Proof.
  intros Hn Hd. unfold expo32. set (e0 := Z.log2 n - Z.log2 d - 24).
  pose proof (Z.log2_spec n Hn) as [N1 N2]. pose proof (Z.log2_spec d Hd) as [D1 D2].
  pose proof (Z.log2_nonneg n). pose proof (Z.log2_nonneg d).
  assert (UP : fits32 n d (e0 + 1) = true).
  { set (K := Z.abs e0 + 1). apply (proj2 (fits_iff32 n d (e0 + 1) K ltac:(lia) ltac:(lia))).
    rewrite <- Z.mul_assoc, <- Z.pow_add_r by lia.
    replace (K + (e0 + 1) + 24) with (K + (1 + Z.log2 n - Z.log2 d)) by lia.
    apply Z.lt_le_trans with (2 ^ Z.succ (Z.log2 n) * 2 ^ K).
    { apply Z.mul_lt_mono_pos_r; [apply Z.pow_pos_nonneg; lia|exact N2]. }
    rewrite <- Z.pow_add_r by lia.
    apply Z.le_trans with (2 ^ Z.log2 d * 2 ^ (K + (1 + Z.log2 n - Z.log2 d))).
    { rewrite <- Z.pow_add_r by lia. apply Z.pow_le_mono_r; lia. }
    apply Z.mul_le_mono_nonneg_r; [apply Z.pow_nonneg; lia|exact D1]. }
  assert (LO : fits32 n d (e0 - 1) = false).
  { apply not_true_iff_false. intros F. set (K := Z.abs e0 + 1).
    apply (proj1 (fits_iff32 n d (e0 - 1) K ltac:(lia) ltac:(lia))) in F.
    rewrite <- Z.mul_assoc, <- Z.pow_add_r in F by lia.
    replace (K + (e0 - 1) + 24) with (K + (Z.log2 n - Z.log2 d - 1)) in F by lia.
    assert (G : d * 2 ^ (K + (Z.log2 n - Z.log2 d - 1)) <= n * 2 ^ K); [|lia].
    apply Z.le_trans with (2 ^ Z.succ (Z.log2 d) * 2 ^ (K + (Z.log2 n - Z.log2 d - 1))).
    { apply Z.mul_le_mono_nonneg_r; [apply Z.pow_nonneg; lia|lia]. }
    rewrite <- Z.pow_add_r by lia.
    apply Z.le_trans with (2 ^ Z.log2 n * 2 ^ K).
    { rewrite <- Z.pow_add_r by lia. apply Z.pow_le_mono_r; lia. }
    apply Z.mul_le_mono_nonneg_r; [apply Z.pow_nonneg; lia|exact N1]. }
  destruct (fits32 n d e0) eqn:E; [split; assumption|]. split; [assumption|].
  now replace (e0 + 1 - 1) with e0 by lia.
Qed.
Lemma expo_scale32 n d k : 0 < n -> 0 < d -> 0 < k -> expo32 (k * n) (k * d) = expo32 n d.
Proof.
  intros Hn Hd Hk. destruct (expo_spec32 n d Hn Hd) as [A B].
  destruct (expo_spec32 (k * n) (k * d) ltac:(lia) ltac:(lia)) as [A' B'].
  rewrite fits_scale32 in A', B' by exact Hk.
  destruct (Z.lt_trichotomy (expo32 (k * n) (k * d)) (expo32 n d)) as [L|[L|L]]; [|exact L|].
  - apply (fits_mono32 n d _ (expo32 n d - 1)) in A'; [congruence|lia..].
  - apply (fits_mono32 n d _ (expo32 (k * n) (k * d) - 1)) in A; [congruence|lia..].
Qed.
Lemma round_pos_alt32 n d : round_pos32 n d =
  let e := Z.max (expo32 n d) (-149) in
  let '(n, d) := scaled n d e in
  let m := round_half_even n d in
  let '(m, e) := if (m =? 2 ^ 24)%Z then (2 ^ 23, e + 1) else (m, e) in
  if (104 <? e)%Z then None else Some (Z.to_N m, e).
Proof. reflexivity. Qed.
(** The finite binary32 magnitudes m * 2^e, each once. *)
Definition canonical32 (m : N) (e : Z) : Prop :=
  (m < 2 ^ 24)%N /\ -149 <= e <= 104 /\ ((2 ^ 23 <= m)%N \/ e = -149).
Definition scale32 : Z := 2 ^ 149.
Definition top32 : Z := 2 ^ 253.
(** m * 2^e in units32 of the smallest positive number, 2^-149. *)
Definition units32 (m : N) (e : Z) : Z := Z.of_N m * 2 ^ (e + 149).
(** The distance from n/d to m * 2^e, times d * 2^149. *)
Definition dist32 (n d : Z) (m : N) (e : Z) : Z := Z.abs (n * scale32 - d * units32 m e).

(** [rounds32 neg n d x]: [x] is (-1)^neg * n/d, rounded.  No finite number is
    closer, of two that are equally close the one with even m is taken, and from
    (2^24 - 1/2) * 2^104 = (2^25 - 1) * 2^103 on the result is infinite. *)
Inductive rounds32 (neg : bool) (n d : Z) : f32 -> Prop :=
| RoundFin32 m e : canonical32 m e ->
    (forall m' e', canonical32 m' e' -> dist32 n d m e <= dist32 n d m' e'
       /\ (dist32 n d m e = dist32 n d m' e' -> (m', e') = (m, e) \/ N.even m = true)) ->
    2 * (n * scale32) < d * ((2 ^ 25 - 1) * top32) ->
    rounds32 neg n d (SFin neg m e)
| RoundInf32 : d * ((2 ^ 25 - 1) * top32) <= 2 * (n * scale32) -> rounds32 neg n d (SInf neg).


Lemma scale_split32 e : -149 <= e -> e <= 0 -> scale32 = 2 ^ (- e) * 2 ^ (e + 149).
Proof. intros H1 H2. rewrite <- Z.pow_add_r by lia. replace (- e + (e + 149)) with 149 by lia. reflexivity. Qed.
Lemma scale_add32 e : 0 <= e -> 2 ^ (e + 149) = 2 ^ e * scale32.
Proof. intros H. rewrite Z.pow_add_r by lia. reflexivity. Qed.
Lemma scale_pos32 : 0 < scale32. Proof. unfold scale32. now apply PropFloat3.pow_pos. Qed.
Lemma top_pos32 : 0 < top32. Proof. unfold top32. now apply PropFloat3.pow_pos. Qed.
Lemma top_le32 k : 0 <= k <= 253 -> 2 ^ k <= top32.
Proof. intros H. change top32 with (2 ^ 253). apply Z.pow_le_mono_r; lia. Qed.
Lemma le_top32 k : 253 <= k -> top32 <= 2 ^ k.
Proof. intros H. change top32 with (2 ^ 253). apply Z.pow_le_mono_r; lia. Qed.
Lemma top_eq32 k : k = 253 -> 2 ^ k = top32.
Proof. intros ->. reflexivity. Qed.
Lemma scale_def32 : 2 ^ 149 = scale32. Proof. reflexivity. Qed.
Opaque scale32 top32.

(** each magnitude once *)
Lemma canonical_unique32 m e m' e' : canonical32 m e -> canonical32 m' e' -> units32 m e = units32 m' e' -> (m, e) = (m', e').
Proof.
  assert (G : forall m e m' e', canonical32 m e -> canonical32 m' e' -> e <= e' -> units32 m e = units32 m' e' -> (m, e) = (m', e')).
  { clear. intros m e m' e' (A1 & A2 & A3) (B1 & B2 & B3) L E. unfold units32 in E.
    replace (e' + 149) with ((e' - e) + (e + 149)) in E by lia. rewrite (Z.pow_add_r 2 (e' - e)) in E by lia.
    pose proof (PropFloat3.pow_pos (e + 149) ltac:(lia)) as P. rewrite Z.mul_assoc in E. apply Z.mul_reg_r in E; [|lia].
    destruct (Z.eq_dec e e') as [->|Ne]; [rewrite Z.sub_diag in E; change (2 ^ 0) with 1 in E; f_equal; lia|].
    exfalso. destruct B3 as [B3|B3]; [|lia].
    assert (2 ^ 1 <= 2 ^ (e' - e)) by (apply Z.pow_le_mono_r; lia).
    change (2 ^ 1) with 2 in *. change (2 ^ 23)%N with (Z.to_N (2 ^ 23)) in *. change (2 ^ 24)%N with (Z.to_N (2 ^ 24)) in *.
    assert (Z.of_N m' * 2 <= Z.of_N m' * 2 ^ (e' - e)) by (apply Z.mul_le_mono_nonneg_l; lia). lia. }
  intros A B E. destruct (Z.le_ge_cases e e'); [now apply G|]. symmetry. now apply G.
Qed.

Lemma scaled_eq32 n d e A B : 0 < n -> 0 < d -> -149 <= e -> scaled n d e = (A, B) ->
  0 < B /\ 0 < A /\ A * (d * 2 ^ (e + 149)) = n * scale32 * B.
Proof.
  intros Hn Hd He. unfold scaled. destruct (Z.leb_spec 0 e) as [L|L]; intros [= <- <-].
  - pose proof (PropFloat3.pow_pos e L). rewrite scale_add32 by lia. split; [apply Z.mul_pos_pos; lia|]. split; [lia|ring].
  - pose proof (PropFloat3.pow_pos (- e) ltac:(lia)). replace (scale32) with (2 ^ (- e) * 2 ^ (e + 149)) by (symmetry; apply scale_split32; lia).
    split; [lia|]. split; [apply Z.mul_pos_pos; lia|ring].
Qed.

Lemma grid_dist32 n d e A B k : 0 < n -> 0 < d -> -149 <= e -> scaled n d e = (A, B) ->
  B * Z.abs (n * scale32 - d * (k * 2 ^ (e + 149))) = (d * 2 ^ (e + 149)) * Z.abs (A - k * B).
Proof.
  intros Hn Hd He S. destruct (scaled_eq32 n d e A B Hn Hd He S) as (HB & HA & E).
  pose proof (PropFloat3.pow_pos (e + 149) ltac:(lia)) as P.
  rewrite <- (Z.abs_eq B) at 1 by lia. rewrite <- (Z.abs_eq (d * 2 ^ (e + 149))) by (apply Z.mul_nonneg_nonneg; lia).
  rewrite <- !Z.abs_mul. f_equal. rewrite !Z.mul_sub_distr_l. rewrite (Z.mul_comm B (n * scale32)), <- E. ring.
Qed.

Section Round32.
  Variables n d : Z.
  Hypothesis Hn : 0 < n.
  Hypothesis Hd : 0 < d.
  Let e := Z.max (expo32 n d) (-149).
  Let v := n * scale32.

  Lemma v_lt32 : v < d * (2 ^ 24 * 2 ^ (e + 149)).
  Proof.
    destruct (expo_spec32 n d Hn Hd) as [F _]. apply (fits_mono32 n d (expo32 n d) e Hn Hd ltac:(unfold e; lia)) in F.
    apply (proj1 (fits_iff32 n d e 149 ltac:(lia) ltac:(unfold e; lia))) in F. rewrite (Z.add_comm 149 e), scale_def32 in F.
    unfold v. rewrite Z.mul_assoc, <- (Z.mul_assoc d), (Z.mul_comm (2 ^ 24)), Z.mul_assoc in *. lia.
  Qed.
  Lemma v_ge32 : -149 < e -> d * (2 ^ 23 * 2 ^ (e + 149)) <= v.
  Proof.
    intros He. destruct (expo_spec32 n d Hn Hd) as [_ F].
    assert (Ee : expo32 n d = e) by (unfold e in *; lia). rewrite Ee in F. apply not_true_iff_false in F.
    destruct (Z.le_gt_cases (d * (2 ^ 23 * 2 ^ (e + 149))) v) as [|G]; [assumption|]. exfalso. apply F.
    apply (proj2 (fits_iff32 n d (e - 1) 149 ltac:(lia) ltac:(lia))). rewrite scale_def32. fold v.
    replace (d * 2 ^ (149 + (e - 1)) * 2 ^ 24) with (d * (2 ^ 23 * 2 ^ (e + 149))); [exact G|].
    rewrite <- Z.mul_assoc, <- !Z.pow_add_r by lia. f_equal. f_equal. lia.
  Qed.

  Variables A B m : Z.
  Hypothesis S : scaled n d e = (A, B).
  Hypothesis Hm : m = round_half_even A B.

  Let He : -149 <= e. Proof. unfold e. lia. Qed.
  Let HAB := scaled_eq32 n d e A B Hn Hd He S.
  Let U := 2 ^ (e + 149).
  Let HU : 0 < U. Proof. apply PropFloat3.pow_pos. lia. Qed.

  Lemma grid32 k : Z.abs (v - d * (m * U)) <= Z.abs (v - d * (k * U))
    /\ (Z.abs (v - d * (m * U)) = Z.abs (v - d * (k * U)) -> k = m \/ Z.even m = true).
  Proof.
    destruct HAB as (HB & HA & E). destruct (rhe_spec A B m HB Hm k) as [R1 R2].
    pose proof (grid_dist32 n d e A B m Hn Hd He S) as G1. pose proof (grid_dist32 n d e A B k Hn Hd He S) as G2.
    fold v U in G1, G2. assert (X : 0 < d * U) by (apply Z.mul_pos_pos; lia). split.
    - apply (Z.mul_le_mono_pos_l _ _ B HB). rewrite G1, G2. now apply Z.mul_le_mono_pos_l.
    - intros Q. apply R2. apply (f_equal (Z.mul B)) in Q. rewrite G1, G2 in Q. apply Z.mul_reg_l in Q; [exact Q|lia].
  Qed.

  Lemma m_bounds32 : 0 <= m <= 2 ^ 24 /\ (-149 < e -> 2 ^ 23 <= m).
  Proof.
    destruct HAB as (HB & HA & E). fold v in E.
    pose proof (Z.div_mod A B ltac:(lia)) as Q. pose proof (Z.mod_pos_bound A B HB) as R.
    assert (W : A / B <= m <= A / B + 1).
    { subst m. unfold round_half_even. cbv zeta. repeat (match goal with |- context [if ?c then _ else _] => destruct c end); lia. }
    pose proof v_lt32 as L. fold U in E, L.
    assert (A < 2 ^ 24 * B).
    { apply (Z.mul_lt_mono_pos_r (d * U)); [apply Z.mul_pos_pos; lia|]. rewrite E. 
      replace (2 ^ 24 * B * (d * U)) with (d * (2 ^ 24 * U) * B) by ring. apply Z.mul_lt_mono_pos_r; assumption. }
    assert (0 <= A / B) by (apply Z.div_pos; lia).
    assert (A / B < 2 ^ 24) by (apply Z.div_lt_upper_bound; lia).
    split; [lia|]. intros G. apply v_ge32 in G. fold U in G.
    assert (2 ^ 23 * B <= A).
    { apply (Z.mul_le_mono_pos_r _ _ (d * U)); [apply Z.mul_pos_pos; lia|]. rewrite E.
      replace (2 ^ 23 * B * (d * U)) with (d * (2 ^ 23 * U) * B) by ring. apply Z.mul_le_mono_pos_r; assumption. }
    assert (2 ^ 23 <= A / B) by (apply Z.div_le_lower_bound; lia). lia.
  Qed.

  (** nearest32 among all floats, for m before the carry *)
  Lemma nearest32 m' e' : canonical32 m' e' ->
    Z.abs (v - d * (m * U)) <= dist32 n d m' e'
    /\ (Z.abs (v - d * (m * U)) = dist32 n d m' e' -> units32 m' e' = m * U \/ Z.even m = true).
  Proof.
    intros (C1 & C2 & C3). unfold dist32. fold v. destruct (Z.le_gt_cases e e') as [L|L].
    - assert (Eu : units32 m' e' = Z.of_N m' * 2 ^ (e' - e) * U).
      { unfold units32, U. rewrite <- Z.mul_assoc, <- Z.pow_add_r by lia. do 2 f_equal. lia. }
      rewrite Eu. destruct (grid32 (Z.of_N m' * 2 ^ (e' - e))) as [G1 G2]. split; [exact G1|]. intros Q.
      destruct (G2 Q) as [<-|]; auto.
    - assert (Hlow : units32 m' e' < 2 ^ 23 * U).
      { unfold units32, U. replace (e + 149) with ((e - e' - 1) + (1 + (e' + 149))) by lia.
        rewrite (Z.pow_add_r 2 (e - e' - 1)) by lia. rewrite (Z.pow_add_r 2 1) by lia.
        pose proof (PropFloat3.pow_pos (e' + 149) ltac:(lia)). pose proof (PropFloat3.pow_pos (e - e' - 1) ltac:(lia)).
        change (2 ^ 24)%N with (Z.to_N (2 ^ 24)) in C1. set (X := 2 ^ (e' + 149)) in *. set (Y := 2 ^ (e - e' - 1)) in *.
        change (2 ^ 1) with 2. apply Z.lt_le_trans with (2 ^ 23 * (1 * (2 * X))).
        - replace (2 ^ 23 * (1 * (2 * X))) with (2 ^ 24 * X) by lia. apply Z.mul_lt_mono_pos_r; lia.
        - apply Z.mul_le_mono_nonneg_l; [lia|]. apply Z.mul_le_mono_nonneg_r; lia. }
      pose proof (v_ge32 ltac:(lia)) as G. fold U in G. destruct (grid32 (2 ^ 23)) as [G1 _].
      assert (d * units32 m' e' < d * (2 ^ 23 * U)) by (apply Z.mul_lt_mono_pos_l; assumption).
      split; [lia|]. intros Q. lia.
  Qed.
End Round32.

Lemma round_pos_rounds32 neg n d : 0 < n -> 0 < d ->
  rounds32 neg n d (match round_pos32 n d with Some (m, e) => SFin neg m e | None => SInf neg end).
Proof.
  intros Hn Hd. rewrite round_pos_alt32. cbv zeta. set (e := Z.max (expo32 n d) (-149)).
  destruct (scaled n d e) as [A B] eqn:S. set (m := round_half_even A B).
  pose proof (m_bounds32 n d Hn Hd A B m S eq_refl) as [M1 M2]. fold e in M2.
  pose proof (nearest32 n d Hn Hd A B m S eq_refl) as NR. fold e in NR.
  pose proof (grid32 n d Hn Hd A B m S eq_refl) as GR. fold e in GR.
  pose proof (v_lt32 n d Hn Hd) as VL. pose proof (v_ge32 n d Hn Hd) as VG. fold e in VL, VG.
  assert (He : -149 <= e) by (subst e; lia).
  set (v := n * scale32) in *. set (U := 2 ^ (e + 149)) in *. assert (HU : 0 < U) by (apply PropFloat3.pow_pos; lia).
  (* the result is m * 2^e before the carry *)
  assert (T : exists m1 e1, (if m =? 2 ^ 24 then (2 ^ 23, e + 1) else (m, e)) = (m1, e1)
     /\ units32 (Z.to_N m1) e1 = m * U /\ (m1 < 2 ^ 24) /\ (0 <= m1) /\ -149 <= e1 /\ (2 ^ 23 <= m1 \/ e1 = -149)
     /\ (Z.even m = true -> Z.even m1 = true) /\ (104 < e1 <-> 104 < e \/ (e = 104 /\ m = 2 ^ 24))).
  { destruct (Z.eqb_spec m (2 ^ 24)) as [Em|Em].
    - exists (2 ^ 23), (e + 1). repeat split; try lia.
      unfold units32, U. rewrite Z2N.id, Em by lia. replace (e + 1 + 149) with (1 + (e + 149)) by lia. rewrite (Z.pow_add_r 2 1) by lia.
      change (2 ^ 1) with 2. lia.
    - exists m, e. repeat split; try lia; try (intros K; exact K).
      unfold units32, U. rewrite Z2N.id by lia. reflexivity. }
  destruct T as (m1 & e1 & -> & EU & T1 & T2 & T3 & T4 & T5 & T6).
  assert (OV : d * ((2 ^ 25 - 1) * top32) <= 2 * v <-> 104 < e1).
  { rewrite T6. destruct (Z.lt_trichotomy e 104) as [L|[L|L]].
    - split; [|lia]. intros G. exfalso.
      assert (U * 2 <= top32).
      { unfold U. rewrite <- (Z.pow_1_r 2) at 2. rewrite <- Z.pow_add_r by lia. apply top_le32; lia. }
      assert (d * (2 ^ 24 * U) <= d * (2 ^ 24 * (top32) )) by (apply Z.mul_le_mono_nonneg_l; [lia|]; apply Z.mul_le_mono_nonneg_l; lia).
      assert (d * (2 ^ 25 * U) <= d * (2 ^ 24 * top32)).
      { apply Z.mul_le_mono_nonneg_l; [lia|]. replace (2 ^ 25 * U) with (2 ^ 24 * (U * 2)) by ring. apply Z.mul_le_mono_nonneg_l; lia. }
      assert (d * (2 ^ 24 * top32) < d * ((2 ^ 25 - 1) * top32)).
      { apply Z.mul_lt_mono_pos_l; [assumption|]. apply Z.mul_lt_mono_pos_r; [apply top_pos32|lia]. }
      replace (d * (2 ^ 25 * U)) with (2 * (d * (2 ^ 24 * U))) in * by ring. lia.
    - assert (EU' : U = top32) by (unfold U; apply top_eq32; lia). rewrite <- EU'.
      destruct (Z.eq_dec m (2 ^ 24)) as [E53|E53].
      + split; [auto|]. intros _. destruct (GR (2 ^ 24 - 1)) as [G1 G2]. rewrite E53 in *.
        replace (d * ((2 ^ 25 - 1) * U)) with (d * (2 ^ 24 * U) + d * ((2 ^ 24 - 1) * U)) by ring.
        assert (d * ((2 ^ 24 - 1) * U) < d * (2 ^ 24 * U)) by (apply Z.mul_lt_mono_pos_l; [assumption|]; apply Z.mul_lt_mono_pos_r; lia). lia.
      + split; [|lia]. intros G. exfalso. destruct (GR (2 ^ 24)) as [G1 G2].
        replace (d * ((2 ^ 25 - 1) * U)) with (d * (2 ^ 24 * U) + d * ((2 ^ 24 - 1) * U)) in G by ring.
        assert (d * (m * U) <= d * ((2 ^ 24 - 1) * U)) by (apply Z.mul_le_mono_nonneg_l; [lia|]; apply Z.mul_le_mono_nonneg_r; lia).
        assert (Q : Z.abs (v - d * (m * U)) = Z.abs (v - d * (2 ^ 24 * U)) /\ d * (m * U) = d * ((2 ^ 24 - 1) * U)) by lia.
        destruct Q as [Q1 Q2]. apply Z.mul_reg_l in Q2; [|lia]. apply Z.mul_reg_r in Q2; [|lia].
        destruct (G2 Q1) as [|Ev]; [lia|]. rewrite Q2 in Ev. discriminate Ev.
    - split; [auto|]. intros _. specialize (VG ltac:(lia)).
      assert (2 * top32 <= U).
      { unfold U. replace (e + 149) with (1 + (e + 148)) by lia. rewrite (Z.pow_add_r 2 1) by lia. change (2 ^ 1) with 2. apply Z.mul_le_mono_nonneg_l; [lia|]. apply le_top32; lia. }
      assert (d * (2 ^ 24 * (2 * top32)) <= d * (2 ^ 24 * U)) by (apply Z.mul_le_mono_nonneg_l; [lia|]; apply Z.mul_le_mono_nonneg_l; lia).
      assert (d * ((2 ^ 25 - 1) * top32) <= d * (2 ^ 25 * top32)).
      { apply Z.mul_le_mono_nonneg_l; [lia|]. apply Z.mul_le_mono_nonneg_r; [apply Z.lt_le_incl, top_pos32|lia]. }
      replace (d * (2 ^ 24 * (2 * top32))) with (d * (2 ^ 25 * top32)) in * by ring.
      replace (d * (2 ^ 24 * U)) with (2 * (d * (2 ^ 23 * U))) in * by ring. lia. }
  destruct (Z.ltb_spec 104 e1) as [L|L].
  - apply RoundInf32. fold v. now apply OV.
  - assert (C : canonical32 (Z.to_N m1) e1).
    { split; [change (2 ^ 24)%N with (Z.to_N (2 ^ 24)); lia|]. split; [lia|]. destruct T4; [left; change (2 ^ 23)%N with (Z.to_N (2 ^ 23)); lia|now right]. }
    apply RoundFin32; [exact C| |fold v; lia].
    intros m' e' C'. destruct (NR m' e' C') as [N1 N2].
    assert (ED : dist32 n d (Z.to_N m1) e1 = Z.abs (v - d * (m * U))) by (unfold dist32; fold v; now rewrite EU).
    rewrite ED. split; [exact N1|]. intros Q. destruct (N2 Q) as [Q'|Ev].
    + left. apply canonical_unique32; [assumption..|]. congruence.
    + right. apply T5 in Ev. rewrite <- (Z2N.id m1) in Ev by lia. destruct (Z.to_N m1) as [|[]]; exact Ev || reflexivity.
Qed.

Lemma rounds_unique32 neg n d x y : rounds32 neg n d x -> rounds32 neg n d y -> 0 < d -> x = y.
Proof.
  intros X Y Hd. destruct X as [m e C N L|L], Y as [m' e' C' N' L'|L']; try reflexivity; try lia.
  destruct (N m' e' C') as [A1 A2]. destruct (N' m e C) as [B1 B2].
  assert (E : dist32 n d m e = dist32 n d m' e') by lia.
  destruct (A2 E) as [[= <- <-]|Ev]; [reflexivity|]. destruct (B2 (eq_sym E)) as [[= <- <-]|Ev']; [reflexivity|].
  destruct (Z.eq_dec (units32 m e) (units32 m' e')) as [Q0|Q0]; [apply canonical_unique32 in Q0; [congruence|assumption..]|].
  (* two even mantissas at the same distance: the odd one between is closer *)
  assert (G : forall m e m' e', canonical32 m e -> canonical32 m' e' -> N.even m = true -> N.even m' = true ->
     units32 m e < units32 m' e' -> dist32 n d m e = dist32 n d m' e' ->
     (forall m' e', canonical32 m' e' -> dist32 n d m e <= dist32 n d m' e'
       /\ (dist32 n d m e = dist32 n d m' e' -> (m', e') = (m, e) \/ N.even m = true)) -> False).
  { clear - Hd. intros m e m' e' C C' Ev Ev' L E N. pose proof C as (C1 & C2 & C3). pose proof C' as (D1 & D2 & D3).
    assert (O : (m <> 2 ^ 24 - 1)%N) by (intros ->; discriminate Ev).
    assert (C'' : canonical32 (m + 1) e) by (split; [change (2 ^ 24)%N with (Z.to_N (2 ^ 24)) in *; lia|]; split; [lia|]; destruct C3; [left; lia|now right]).
    pose proof (PropFloat3.pow_pos (e + 149) ltac:(lia)) as HU.
    assert (Le : e <= e').
    { destruct (Z.le_gt_cases e e') as [|Lt]; [assumption|]. exfalso. destruct C3 as [C3|C3]; [|lia].
      unfold units32 in L. replace (e + 149) with ((e - e' - 1) + (1 + (e' + 149))) in L by lia.
      rewrite (Z.pow_add_r 2 (e - e' - 1)), (Z.pow_add_r 2 1) in L by lia.
      pose proof (PropFloat3.pow_pos (e' + 149) ltac:(lia)). pose proof (PropFloat3.pow_pos (e - e' - 1) ltac:(lia)).
      change (2 ^ 24)%N with (Z.to_N (2 ^ 24)) in D1. change (2 ^ 23)%N with (Z.to_N (2 ^ 23)) in C3.
      set (X := 2 ^ (e' + 149)) in *. set (Y := 2 ^ (e - e' - 1)) in *. change (2 ^ 1) with 2 in L.
      assert (2 ^ 23 * (1 * (2 * X)) <= Z.of_N m * (Y * (2 * X))).
      { apply Z.mul_le_mono_nonneg; try lia. apply Z.mul_le_mono_nonneg_r; lia. }
      assert (Z.of_N m' * X <= 2 ^ 24 * X) by (apply Z.mul_le_mono_nonneg_r; lia). lia. }
    assert (Eu : units32 m' e' = Z.of_N m' * 2 ^ (e' - e) * 2 ^ (e + 149)).
    { unfold units32. rewrite <- Z.mul_assoc, <- Z.pow_add_r by lia. f_equal. f_equal. lia. }
    assert (L' : Z.of_N m < Z.of_N m' * 2 ^ (e' - e)).
    { rewrite Eu in L. unfold units32 in L. now apply Z.mul_lt_mono_pos_r in L. }
    assert (S1 : units32 m e < units32 (m + 1) e) by (unfold units32; apply Z.mul_lt_mono_pos_r; lia).
    assert (S2 : units32 (m + 1) e <= units32 m' e') by (rewrite Eu; unfold units32; apply Z.mul_le_mono_nonneg_r; lia).
    assert (S3 : units32 (m + 1) e <> units32 m' e').
    { intros Q. apply canonical_unique32 in Q; [|assumption..]. injection Q as <- <-. rewrite N.even_add in Ev'. rewrite Ev in Ev'. discriminate Ev'. }
    destruct (N _ _ C'') as [N1 _]. unfold dist32 in *.
    assert (d * units32 m e < d * units32 (m + 1) e) by (apply Z.mul_lt_mono_pos_l; assumption).
    assert (d * units32 (m + 1) e < d * units32 m' e') by (apply Z.mul_lt_mono_pos_l; lia). lia. }
  exfalso. destruct (Z.lt_trichotomy (units32 m e) (units32 m' e')) as [Q|[Q|Q]].
  - exact (G m e m' e' C C' Ev Ev' Q E N).
  - exact (Q0 Q).
  - exact (G m' e' m e C' C Ev' Ev Q (eq_sym E) N').
Qed.

Lemma rounds_exact32 neg n d m e : 0 < d -> canonical32 m e -> n * scale32 = d * units32 m e -> rounds32 neg n d (SFin neg m e).
Proof.
  intros Hd C E. apply RoundFin32; [exact C| |].
  - intros m' e' C'. unfold dist32. rewrite E, Z.sub_diag, Z.abs_0. split; [lia|]. intros Q. left.
    apply canonical_unique32; [assumption..|]. apply (Z.mul_reg_l _ _ d); lia.
  - rewrite E. destruct C as (C1 & C2 & _). change (2 ^ 24)%N with (Z.to_N (2 ^ 24)) in C1. unfold units32.
    replace (2 * (d * (Z.of_N m * 2 ^ (e + 149)))) with (d * ((2 * Z.of_N m) * 2 ^ (e + 149))) by ring.
    apply Z.mul_lt_mono_pos_l; [assumption|].
    assert (2 ^ (e + 149) <= top32) by (apply top_le32; lia).
    pose proof (PropFloat3.pow_pos (e + 149) ltac:(lia)). set (X := 2 ^ (e + 149)) in *. set (Y := top32) in *. 
    apply Z.le_lt_trans with (2 * Z.of_N m * Y).
    + apply Z.mul_le_mono_nonneg_l; lia.
    + apply Z.mul_lt_mono_pos_r; lia.
Qed.

Lemma rounds_exactly32 neg n x m e : rounds32 neg n 1 x -> canonical32 m e -> n * scale32 = units32 m e -> x = SFin neg m e.
Proof.
  intros R C E. apply (rounds_unique32 neg n 1 x _ R); [|lia]. apply rounds_exact32; [lia|exact C|lia].
Qed.
(** every magnitude up to 2^24 is one of the binary32 numbers *)
Lemma small_canonical32 n : 0 <= n <= 2 ^ 24 -> exists m e, canonical32 m e /\ n * scale32 = units32 m e.
Proof.
  intros H. destruct (Z.eq_dec n 0) as [->|N0].
  { exists 0%N, (-149). split; [unfold canonical32; lia|reflexivity]. }
  destruct (Z.eq_dec n (2 ^ 24)) as [->|N1].
  { exists (2 ^ 23)%N, 1. split; [unfold canonical32; lia|]. unfold units32. rewrite scale_add32 by lia.
    change (Z.of_N (2 ^ 23)) with (2 ^ 23). change (2 ^ 24) with (2 ^ 23 * 2). change (2 ^ 1) with 2. ring. }
  set (l := Z.log2 n). assert (L : 2 ^ l <= n < 2 ^ (Z.succ l)) by (apply Z.log2_spec; lia).
  assert (L0 : 0 <= l) by apply Z.log2_nonneg.
  assert (L1 : l <= 23) by (assert (l < 24); [apply Z.log2_lt_pow2; lia|lia]).
  exists (Z.to_N (n * 2 ^ (23 - l))), (l - 23).
  assert (P : 0 < 2 ^ (23 - l)) by (apply Z.pow_pos_nonneg; lia).
  assert (B : 2 ^ 23 <= n * 2 ^ (23 - l) < 2 ^ 24).
  { replace (2 ^ 23) with (2 ^ l * 2 ^ (23 - l)) by (rewrite <- Z.pow_add_r by lia; f_equal; lia).
    replace (2 ^ 24) with (2 ^ (Z.succ l) * 2 ^ (23 - l)) by (rewrite <- Z.pow_add_r by lia; f_equal; lia).
    split; [apply Z.mul_le_mono_nonneg_r; lia|apply Z.mul_lt_mono_pos_r; lia]. }
  split.
  - unfold canonical32. change (2 ^ 24)%N with (Z.to_N (2 ^ 24)). change (2 ^ 23)%N with (Z.to_N (2 ^ 23)). split; [lia|]. split; [lia|]. left. lia.
  - unfold units32. rewrite Z2N.id by lia. replace (l - 23 + 149) with (149 - (23 - l)) by lia.
    rewrite <- Z.mul_assoc. f_equal. rewrite <- Z.pow_add_r by lia. replace (23 - l + (149 - (23 - l))) with 149 by lia. now rewrite scale_def32.
Qed.


(** ** Conversions *)
(** The binary32 numbers, each once. *)
Definition real32 (x : f32) : Prop := match x with SFin _ m e => canonical32 m e | _ => True end.
(** [x] is the binary32 number nearest to [y]: infinities and NaN stay, and m * 2^e
    is the fraction [m * 2^(max e 0) / 2^(max (-e) 0)]. *)
Definition nearest_single (y : f64) (x : f32) : Prop :=
  match y with
  | FNaN => x = SNaN
  | FInf neg => x = SInf neg
  | FFin neg m e => rounds32 neg (Z.of_N m * 2 ^ Z.max e 0) (2 ^ Z.max (- e) 0) x
  end.

Lemma mk_f32_rounds neg n d : 0 <= n -> 0 < d -> rounds32 neg n d (mk_f32 neg n d).
Proof.
  intros Hn Hd. unfold mk_f32. destruct (Z.eqb_spec n 0) as [->|N0]; [|apply round_pos_rounds32; lia].
  apply rounds_exact32; [exact Hd|unfold canonical32; lia|unfold units32; cbn; lia].
Qed.
Lemma nearest_single_cast y : nearest_single y (f64_to_f32 y).
Proof.
  destruct y as [|neg|neg m e]; [reflexivity..|]. apply mk_f32_rounds; [|apply PropFloat3.pow_pos; lia].
  apply Z.mul_nonneg_nonneg; [lia|]. apply Z.pow_nonneg. lia.
Qed.
Lemma nearest_single_unique y x x' : nearest_single y x -> nearest_single y x' -> x = x'.
Proof.
  destruct y as [|neg|neg m e]; cbn [nearest_single]; [congruence..|]. intros A B.
  apply (rounds_unique32 _ _ _ _ _ A B). apply PropFloat3.pow_pos. lia.
Qed.
Lemma rounds32_real neg n d x : rounds32 neg n d x -> real32 x.
Proof. intros [m e C _ _|]; [exact C|exact I]. Qed.

(** m * 2^e, written with another mantissa, in units of 2^-149 *)
Lemma same_number m e k : -149 <= e -> 0 <= k ->
  (Z.of_N m * 2 ^ k) * 2 ^ Z.max (e - k) 0 * scale32 = 2 ^ Z.max (- (e - k)) 0 * units32 m e.
Proof.
  intros He Hk. unfold units32. rewrite <- scale_def32.
  replace (Z.of_N m * 2 ^ k * 2 ^ Z.max (e - k) 0 * 2 ^ 149) with (Z.of_N m * (2 ^ k * (2 ^ Z.max (e - k) 0 * 2 ^ 149))) by ring.
  replace (2 ^ Z.max (- (e - k)) 0 * (Z.of_N m * 2 ^ (e + 149))) with (Z.of_N m * (2 ^ Z.max (- (e - k)) 0 * 2 ^ (e + 149))) by ring.
  f_equal. rewrite <- !Z.pow_add_r by lia. f_equal. lia.
Qed.
Lemma widen_k m : (m < 2 ^ 24)%N -> m <> 0%N ->
  let k := 52 - Z.log2 (Z.of_N m) in
  29 <= k <= 52 /\ 2 ^ 52 <= Z.of_N m * 2 ^ k < 2 ^ 53.
Proof.
  intros L N0 k. pose proof (Z.log2_spec (Z.of_N m) ltac:(lia)) as [L1 L2]. pose proof (Z.log2_nonneg (Z.of_N m)) as L0.
  change (2 ^ 24)%N with (Z.to_N (2 ^ 24)) in L.
  assert (B : Z.log2 (Z.of_N m) < 24) by (apply Z.log2_lt_pow2; lia).
  assert (P : 0 < 2 ^ k) by (apply PropFloat3.pow_pos; lia).
  split; [lia|].
  replace (2 ^ 52) with (2 ^ Z.log2 (Z.of_N m) * 2 ^ k) by (rewrite <- Z.pow_add_r by lia; f_equal; lia).
  replace (2 ^ 53) with (2 ^ (Z.succ (Z.log2 (Z.of_N m))) * 2 ^ k) by (rewrite <- Z.pow_add_r by lia; f_equal; lia).
  split; [apply Z.mul_le_mono_nonneg_r; lia|apply Z.mul_lt_mono_pos_r; lia].
Qed.
Lemma widen_real x : real32 x -> real (f32_to_f64 x).
Proof.
  destruct x as [|neg|neg m e]; cbn [real32 f32_to_f64 real]; [exact (fun _ => I)..|]. intros (C1 & C2 & _).
  destruct (N.eqb_spec m 0) as [->|N0]; [unfold real, canonical; lia|].
  destruct (widen_k m C1 N0) as [K1 K2]. set (k := 52 - Z.log2 (Z.of_N m)) in *. cbv zeta. cbn [real].
  unfold canonical. change (2 ^ 53)%N with (Z.to_N (2 ^ 53)). change (2 ^ 52)%N with (Z.to_N (2 ^ 52)).
  split; [lia|]. split; [lia|]. left. lia.
Qed.
Lemma cast_widen x : real32 x -> f64_to_f32 (f32_to_f64 x) = x.
Proof.
  intros R. apply (nearest_single_unique (f32_to_f64 x)); [apply nearest_single_cast|].
  destruct x as [|neg|neg m e]; [reflexivity..|]. cbn [real32] in R. unfold f32_to_f64.
  destruct (N.eqb_spec m 0) as [->|N0].
  - assert (e = -149) as -> by (destruct R as (_ & _ & [R|R]); lia).
    apply rounds_exact32; [apply PropFloat3.pow_pos; lia|exact R|reflexivity].
  - destruct (widen_k m (proj1 R) N0) as [K1 K2]. set (k := 52 - Z.log2 (Z.of_N m)) in *. cbv zeta. cbn [nearest_single].
    apply rounds_exact32; [apply PropFloat3.pow_pos; lia|exact R|]. rewrite Z2N.id by lia.
    apply same_number; [destruct R as (_ & R & _); lia|lia].
Qed.

(** ** Theorems *)
(** An integer is read as the f32 nearest to it (ties to even), exactly it up to
    2^24. *)
Theorem C63_integer : forall p t s z, to_i64 s = Some z ->
  exists x, de_f32 (Node p t (YInt s)) = DOk x /\ rounds32 (z <? 0) (Z.abs z) 1 x
   /\ (forall y, rounds32 (z <? 0) (Z.abs z) 1 y -> y = x)
   /\ (Z.abs z <= 2 ^ 24 -> exists m e, x = SFin (z <? 0) m e /\ units32 m e = Z.abs z * scale32).
Proof.
  intros p t s z H. exists (f32_of_Z z).
  assert (R : rounds32 (z <? 0) (Z.abs z) 1 (f32_of_Z z)) by (apply mk_f32_rounds; lia).
  split; [unfold de_f32; cbn [n_yaml]; now rewrite H|]. split; [exact R|].
  split; [intros y Y; exact (rounds_unique32 _ _ _ _ _ Y R ltac:(lia))|].
  intros B. destruct (small_canonical32 (Z.abs z) ltac:(lia)) as (m & e & C & E). exists m, e. split; [|lia].
  now apply (rounds_exactly32 _ (Z.abs z)).
Qed.

(** A float is read as the f32 nearest to the f64 its text is nearest to (C09 says
    which one that is). *)
Theorem C63_float : forall p t s y, to_f64 s = Some y ->
  exists x, de_f32 (Node p t (YFloat s)) = DOk x /\ nearest_single y x
    /\ (forall x', nearest_single y x' -> x' = x) /\ real32 x.
Proof.
  intros p t s y H. exists (f64_to_f32 y). split; [unfold de_f32; cbn [n_yaml]; now rewrite H|].
  split; [apply nearest_single_cast|]. split.
  - intros x' X. exact (nearest_single_unique y _ _ X (nearest_single_cast y)).
  - pose proof (nearest_single_cast y) as R. destruct y as [|neg|neg m e]; [exact I..|]. exact (rounds32_real _ _ _ _ R).
Qed.

(** Anything else is an error at the position of the node: nothing is guessed from a
    string or a boolean.  There is no other error. *)
Theorem C63_nothing_else : forall n,
  (forall k, de_f32 n = DErr k -> k = n_pos n)
  /\ ((exists k, de_f32 n = DErr k) <-> (forall s, n_yaml n <> YInt s) /\ (forall s, n_yaml n <> YFloat s))
  /\ (de_f32 n = DPanic -> exists s, (n_yaml n = YInt s /\ to_i64 s = None) \/ (n_yaml n = YFloat s /\ to_f64 s = None)).
Proof.
  intros [p t y]. unfold de_f32, unexpected. cbn [n_yaml n_pos].
  destruct y as [|b|s|s|s|l|m|a]; (split; [|split; [split|]]);
  repeat match goal with |- context [match ?o with _ => _ end] => destruct o eqn:? end;
  try (intros; congruence); try (intros [k K]; congruence); try (intros [A B]; exfalso; now (apply (A s) + apply (B s)));
  try (intros _; split; congruence); try (intros _; now exists p); intros _; exists s; auto.
Qed.

(** Writing and reading: a float that is written with a text that reads as it, exactly,
    comes back; there is such a text for every one of them. *)
Theorem C63_round_trip : forall (show32 : f32 -> str) x, real32 x ->
  (to_f64 (show32 x) = Some (f32_to_f64 x) -> de_f32 (ser_f32 show32 x) = DOk x)
  /\ to_f64 (show_exact (f32_to_f64 x)) = Some (f32_to_f64 x).
Proof.
  intros show32 x R. split.
  - intros H. unfold de_f32, ser_f32, node_from. cbn [n_yaml]. rewrite H. f_equal. now apply cast_widen.
  - exact (exact_text_real _ (widen_real x R)).
Qed.

(** What one would expect and does not get: the result is not always the f32 nearest
    to the text, because a decimal is rounded to an f64 first and then again.  And so
    a float does not always come back: [show32] may write it with the shortest text
    that reads as it (as an f32), as Rust does, and the next one is read. *)
Theorem C63_float_refuted :
  let text := lit "0.00000000000000000000000007038531" in
  let x := SFin false 11420669 (-107) in
  rounds32 false 7038531 (10 ^ 32) x
  /\ (forall y, rounds32 false 7038531 (10 ^ 32) y -> y = x)
  /\ de_f32 (node_from (YFloat text)) = DOk (SFin false 11420670 (-107))
  /\ (forall show32, show32 x = text -> de_f32 (ser_f32 show32 x) <> DOk x)
  /\ exists m e, to_f64 text = Some (FFin false m e) /\ rounds false 7038531 (10 ^ 32) (FFin false m e)
      /\ 2 * units m e = (2 * 11420669 + 1) * 2 ^ (-107 + 1074).
Proof.
  cbv zeta. assert (E : de_f32 (node_from (YFloat (lit "0.00000000000000000000000007038531"))) = DOk (SFin false 11420670 (-107))) by (vm_compute; reflexivity).
  assert (R : rounds32 false 7038531 (10 ^ 32) (SFin false 11420669 (-107))).
  { pose proof (mk_f32_rounds false 7038531 (10 ^ 32) ltac:(lia) ltac:(lia)) as R.
    replace (mk_f32 false 7038531 (10 ^ 32)) with (SFin false 11420669 (-107)) in R by (vm_compute; reflexivity). exact R. }
  split; [exact R|]. split; [intros y Y; exact (rounds_unique32 _ _ _ _ _ Y R ltac:(lia))|]. split; [exact E|].
  split; [intros show32 H; unfold ser_f32; rewrite H, E; intros K; discriminate K|].
  exists 6131425250115584%N, (-136). split; [vm_compute; reflexivity|]. split; [|vm_compute; reflexivity].
  pose proof (mk_f64_rounds false 7038531 (-32) ltac:(lia)) as Q.
  replace (mk_f64 false 7038531 (-32)) with (FFin false 6131425250115584 (-136)) in Q by (vm_compute; reflexivity).
  exact Q.
Qed.

(** ** When the double rounding does not show *)
(** [y] lies half-way between two neighbouring f32 numbers m * 2^e and (m+1) * 2^e
    (or between the largest one and 2^128). *)
Definition halfway (y : f64) : Prop :=
  match y with
  | FFin _ m0 e0 => exists m e, canonical32 m e /\ 2 * units m0 e0 = (2 * Z.of_N m + 1) * 2 ^ (e + 1074)
  | _ => False
  end.

Lemma units_wide m e : -149 <= e -> units m e = units32 m e * 2 ^ 925.
Proof. intros H. unfold units, units32. rewrite <- Z.mul_assoc, <- Z.pow_add_r by lia. do 2 f_equal. lia. Qed.
Lemma scale_wide : scale = scale32 * 2 ^ 925.
Proof. rewrite <- scale_def, <- scale_def32, <- Z.pow_add_r by lia. f_equal. Qed.
Lemma dist_wide n d m e : -149 <= e -> dist32 n d m e * 2 ^ 925 = Z.abs (n * scale - d * units m e).
Proof.
  intros H. unfold dist32. rewrite (units_wide m e H), scale_wide.
  assert (P : 0 < 2 ^ 925) by (apply PropFloat3.pow_pos; lia). set (Q := 2 ^ 925) in *.
  replace (n * (scale32 * Q) - d * (units32 m e * Q)) with ((n * scale32 - d * units32 m e) * Q) by ring.
  rewrite Z.abs_mul, (Z.abs_eq Q) by lia. reflexivity.
Qed.

(** the next binary32 number *)
Lemma next_le m e m' e' : canonical32 m e -> canonical32 m' e' -> units m e < units m' e' ->
  units m e + 2 ^ (e + 1074) <= units m' e'.
Proof.
  intros (A1 & A2 & A3) (B1 & B2 & B3) L. unfold units in *. change (2 ^ 24)%N with (Z.to_N (2 ^ 24)) in *. change (2 ^ 23)%N with (Z.to_N (2 ^ 23)) in *.
  destruct (Z.le_gt_cases e e') as [G|G].
  - replace (e' + 1074) with ((e' - e) + (e + 1074)) in * by lia. rewrite (Z.pow_add_r 2 (e' - e)) in * by lia.
    assert (P : 0 < 2 ^ (e + 1074)) by (apply PropFloat3.pow_pos; lia). set (U := 2 ^ (e + 1074)) in *.
    rewrite Z.mul_assoc in *. apply Z.mul_lt_mono_pos_r in L; [|exact P].
    replace (Z.of_N m * U + U) with ((Z.of_N m + 1) * U) by ring. apply Z.mul_le_mono_nonneg_r; lia.
  - exfalso. replace (e + 1074) with (1 + (e - e' - 1) + (e' + 1074)) in L by lia. rewrite !Z.pow_add_r in L by lia. change (2 ^ 1) with 2 in L.
    assert (P : 0 < 2 ^ (e' + 1074)) by (apply PropFloat3.pow_pos; lia). set (U := 2 ^ (e' + 1074)) in *.
    assert (P1 : 1 <= 2 ^ (e - e' - 1)) by (pose proof (PropFloat3.pow_pos (e - e' - 1)); lia). set (W := 2 ^ (e - e' - 1)) in *.
    rewrite Z.mul_assoc in L. apply Z.mul_lt_mono_pos_r in L; [|exact P].
    assert (Z.of_N m * (2 * 1) <= Z.of_N m * (2 * W)) by (apply Z.mul_le_mono_nonneg_l; lia). lia.
Qed.
Lemma next_real m e : canonical32 m e -> ~ (m = (2 ^ 24 - 1)%N /\ e = 104) ->
  exists m' e', canonical32 m' e' /\ units m' e' = units m e + 2 ^ (e + 1074).
Proof.
  intros (A1 & A2 & A3) Nm. change (2 ^ 24)%N with (Z.to_N (2 ^ 24)) in *. change (2 ^ 23)%N with (Z.to_N (2 ^ 23)) in *.
  destruct (N.eq_dec m (2 ^ 24 - 1)) as [->|Nq].
  - exists (2 ^ 23)%N, (e + 1). split.
    + unfold canonical32. split; [lia|]. split; [|left; lia]. split; [lia|]. destruct (Z.eq_dec e 104) as [->|]; [exfalso; apply Nm; auto|lia].
    + unfold units. replace (e + 1 + 1074) with (1 + (e + 1074)) by lia. rewrite (Z.pow_add_r 2 1) by lia. change (2 ^ 1) with 2.
      change (Z.of_N (2 ^ 23)) with (2 ^ 23). change (Z.of_N (2 ^ 24 - 1)) with (2 ^ 24 - 1). set (U := 2 ^ (e + 1074)). lia.
  - exists (m + 1)%N, e. split.
    + unfold canonical32. change (2 ^ 24)%N with (Z.to_N (2 ^ 24)). change (2 ^ 23)%N with (Z.to_N (2 ^ 23)).
      change (2 ^ 24 - 1)%N with (Z.to_N (2 ^ 24 - 1)) in Nq. split; [lia|]. split; [lia|]. destruct A3; [left; lia|now right].
    + unfold units. rewrite N2Z.inj_add. change (Z.of_N 1) with 1. ring.
Qed.
(** the half-way points are binary64 numbers *)
Lemma middle_real m e : canonical32 m e ->
  exists m' e', canonical m' e' /\ 2 * units m' e' = (2 * Z.of_N m + 1) * 2 ^ (e + 1074).
Proof.
  intros (A1 & A2 & A3). change (2 ^ 24)%N with (Z.to_N (2 ^ 24)) in *. set (q := 2 * Z.of_N m + 1).
  pose proof (Z.log2_spec q ltac:(lia)) as [L1 L2]. pose proof (Z.log2_nonneg q) as L0.
  assert (B : Z.log2 q < 25) by (apply Z.log2_lt_pow2; lia). set (k := 52 - Z.log2 q).
  assert (P : 0 < 2 ^ k) by (apply PropFloat3.pow_pos; lia).
  assert (R : 2 ^ 52 <= q * 2 ^ k < 2 ^ 53).
  { replace (2 ^ 52) with (2 ^ Z.log2 q * 2 ^ k) by (rewrite <- Z.pow_add_r by lia; f_equal; lia).
    replace (2 ^ 53) with (2 ^ (Z.succ (Z.log2 q)) * 2 ^ k) by (rewrite <- Z.pow_add_r by lia; f_equal; lia).
    split; [apply Z.mul_le_mono_nonneg_r; lia|apply Z.mul_lt_mono_pos_r; lia]. }
  exists (Z.to_N (q * 2 ^ k)), (e - 1 - k). split.
  - unfold canonical. change (2 ^ 53)%N with (Z.to_N (2 ^ 53)). change (2 ^ 52)%N with (Z.to_N (2 ^ 52)).
    split; [lia|]. split; [lia|]. left. lia.
  - unfold units. rewrite Z2N.id by lia. replace (2 * (q * 2 ^ k * 2 ^ (e - 1 - k + 1074))) with (q * (2 ^ 1 * (2 ^ k * 2 ^ (e - 1 - k + 1074)))) by (change (2 ^ 1) with 2; ring).
    rewrite <- !Z.pow_add_r by lia. do 2 f_equal. lia.
Qed.
Definition limit : Z := (2 ^ 25 - 1) * 2 ^ 1178.
Lemma limit_wide : (2 ^ 25 - 1) * top32 * 2 ^ 925 = limit.
Proof. unfold limit. rewrite <- (top_eq32 253 eq_refl), <- Z.mul_assoc, <- Z.pow_add_r by lia. reflexivity. Qed.
Lemma limit_middle : limit = (2 * Z.of_N (2 ^ 24 - 1) + 1) * 2 ^ (104 + 1074).
Proof. unfold limit. f_equal. Qed.
Opaque limit.

(** rounding, seen from the f64 side: in units of 2^-1074 *)
Definition near (v d : Z) (x : f32) : Prop :=
  match x with
  | SFin _ m e => canonical32 m e /\ 2 * v < d * limit /\ forall m' e', canonical32 m' e' -> Z.abs (v - d * units m e) <= Z.abs (v - d * units m' e')
  | SInf _ => d * limit <= 2 * v
  | SNaN => False
  end.
Lemma rounds32_near neg n d x : rounds32 neg n d x -> near (n * scale) d x.
Proof.
  assert (P : 0 < 2 ^ 925) by (apply PropFloat3.pow_pos; lia).
  intros [m e C H B|B]; cbn [near].
  - split; [exact C|]. split.
    + rewrite <- limit_wide, scale_wide. set (Q := 2 ^ 925) in *. set (K := 2 ^ 25 - 1) in *.
      replace (2 * (n * (scale32 * Q))) with (2 * (n * scale32) * Q) by ring. replace (d * (K * top32 * Q)) with (d * (K * top32) * Q) by ring.
      now apply Z.mul_lt_mono_pos_r.
    + intros m' e' C'. destruct (H m' e' C') as [L _]. rewrite <- !dist_wide by (apply C || apply C'). apply Z.mul_le_mono_nonneg_r; [lia|exact L].
  - rewrite <- limit_wide, scale_wide. set (Q := 2 ^ 925) in *. set (K := 2 ^ 25 - 1) in *.
      replace (2 * (n * (scale32 * Q))) with (2 * (n * scale32) * Q) by ring. replace (d * (K * top32 * Q)) with (d * (K * top32) * Q) by ring.
      apply Z.mul_le_mono_nonneg_r; [lia|exact B].
Qed.
(** a number that rounds to two f32 numbers by two ways *)
Lemma near_same v d w x x'' : 0 < d ->
  (forall m e, canonical m e -> Z.abs (v - d * w) <= Z.abs (v - d * units m e)) ->
  (forall m e, canonical32 m e -> 2 * w <> (2 * Z.of_N m + 1) * 2 ^ (e + 1074)) ->
  near w 1 x -> near v d x'' ->
  match x, x'' with
  | SFin _ m e, SFin _ m' e' => m = m' /\ e = e'
  | SInf _, SInf _ => True
  | _, _ => False
  end.
Proof.
  intros Hd H64 NH X X''.
  assert (MID : forall m e M, canonical32 m e -> M = (2 * Z.of_N m + 1) * 2 ^ (e + 1074) ->
     (2 * w <= M -> d * M <= 2 * v -> False) /\ (M <= 2 * w -> 2 * v <= d * M -> False)).
  { intros m e M C ->. specialize (NH m e C). destruct (middle_real m e C) as (mm & ee & CM & EM). specialize (H64 mm ee CM).
    rewrite <- EM in *. set (T := units mm ee) in *. assert (w < T \/ T < w) as D by lia.
    assert (d * w < d * T \/ d * T < d * w) as D' by (destruct D; [left|right]; apply Z.mul_lt_mono_pos_l; lia).
    replace (d * (2 * T)) with (2 * (d * T)) by ring.
    split; intros A B; [destruct D as [D|D]; [|lia]|destruct D as [D|D]; [lia|]].
    - assert (d * w < d * T) by (apply Z.mul_lt_mono_pos_l; lia). lia.
    - assert (d * T < d * w) by (apply Z.mul_lt_mono_pos_l; lia). lia. }
  assert (TOP : canonical32 (2 ^ 24 - 1) 104) by (unfold canonical32; lia).
  destruct (MID _ _ limit TOP limit_middle) as [T1 T2].
  assert (LAST : forall m e m' e', canonical32 m e -> canonical32 m' e' -> units m e < units m' e' -> ~ (m = (2 ^ 24 - 1)%N /\ e = 104)).
  { intros m e m' e' C C' L [-> ->]. pose proof (next_le _ _ _ _ C C' L) as Q. destruct C' as (B1 & B2 & _). unfold units in Q.
    change (2 ^ 24)%N with (Z.to_N (2 ^ 24)) in B1. change (Z.of_N (2 ^ 24 - 1)) with (2 ^ 24 - 1) in Q.
    assert (2 ^ (e' + 1074) <= 2 ^ (104 + 1074)) by (apply Z.pow_le_mono_r; lia). assert (0 < 2 ^ (e' + 1074)) by (apply PropFloat3.pow_pos; lia).
    set (U := 2 ^ (104 + 1074)) in *. set (U' := 2 ^ (e' + 1074)) in *.
    assert (Z.of_N m' * U' <= (2 ^ 24 - 1) * U) by (apply Z.mul_le_mono_nonneg; lia). lia. }
  destruct x as [|s|s m e]; destruct x'' as [|s''|s'' m'' e'']; cbn [near] in *; try contradiction; [exact I| | |].
  - destruct X'' as (_ & L & _). apply T2; lia.
  - destruct X as (_ & L & _). apply T1; lia.
  - destruct X as (C & _ & X). destruct X'' as (C'' & _ & X'').
    destruct (Z.lt_trichotomy (units m e) (units m'' e'')) as [L|[L|L]].
    + exfalso. destruct (next_real m e C (LAST _ _ _ _ C C'' L)) as (ms & es & CS & ES).
      pose proof (next_le _ _ _ _ C C'' L) as NL. specialize (X ms es CS). specialize (X'' m e C). rewrite ES in X.
      assert (PU : 0 < 2 ^ (e + 1074)) by (apply PropFloat3.pow_pos; destruct C; lia).
      destruct (MID m e _ C eq_refl) as [M1 _]. set (U := 2 ^ (e + 1074)) in *. fold (units m e) in *.
      assert (EM : (2 * Z.of_N m + 1) * U = 2 * units m e + U) by (unfold units; fold U; ring). rewrite EM in M1.
      set (x := units m e) in *. set (y := units m'' e'') in *.
      assert (d * x < d * y) by (apply Z.mul_lt_mono_pos_l; lia).
      assert (d * (x + U) <= d * y) by (apply Z.mul_le_mono_nonneg_l; lia).
      apply M1; [lia|]. replace (d * (2 * x + U)) with (d * x + d * (x + U)) by ring. lia.
    + pose proof (canonical_unique32 m e m'' e'' C C'') as Q. rewrite !units_wide in L by (apply C || apply C''). apply Z.mul_reg_r in L; [|intros K; pose proof (PropFloat3.pow_pos 925 ltac:(lia)); lia].
      specialize (Q L). injection Q as -> ->. auto.
    + exfalso. destruct (next_real m'' e'' C'' (LAST _ _ _ _ C'' C L)) as (ms & es & CS & ES).
      pose proof (next_le _ _ _ _ C'' C L) as NL. specialize (X'' ms es CS). specialize (X m'' e'' C''). rewrite ES in X''.
      assert (PU : 0 < 2 ^ (e'' + 1074)) by (apply PropFloat3.pow_pos; destruct C''; lia).
      destruct (MID m'' e'' _ C'' eq_refl) as [_ M1]. set (U := 2 ^ (e'' + 1074)) in *.
      assert (EM : (2 * Z.of_N m'' + 1) * U = 2 * units m'' e'' + U) by (unfold units; fold U; ring). rewrite EM in M1.
      set (x := units m e) in *. set (y := units m'' e'') in *.
      assert (d * y < d * (y + U)) by (apply Z.mul_lt_mono_pos_l; lia).
      apply M1; [lia|]. replace (d * (2 * y + U)) with (d * y + d * (y + U)) by ring. lia.
Qed.

(** The result is the f32 nearest to the number in the text (n/d), unless the f64 in
    between is half-way between two f32 numbers. *)
Theorem C63_float_nearest : forall neg n d y x, 0 <= n -> 0 < d ->
  rounds neg n d y -> nearest_single y x -> ~ halfway y -> rounds32 neg n d x.
Proof.
  intros neg n d y x Hn Hd R S NH.
  pose proof (mk_f32_rounds neg n d Hn Hd) as R''. remember (mk_f32 neg n d) as z eqn:Ez. clear Ez.
  pose proof (rounds32_near _ _ _ _ R'') as N''.
  assert (P9 : 0 < 2 ^ 925) by (apply PropFloat3.pow_pos; lia).
  destruct R as [m e C H B|B]; cbn [nearest_single halfway] in *.
  - pose proof (rounds32_near _ _ _ _ S) as N1.
    assert (N2 : near (units m e) 1 x).
    { assert (E : Z.of_N m * 2 ^ Z.max e 0 * scale = 2 ^ Z.max (- e) 0 * units m e).
      { unfold units. rewrite <- scale_def. replace (2 ^ Z.max (- e) 0 * (Z.of_N m * 2 ^ (e + 1074))) with (Z.of_N m * (2 ^ Z.max (- e) 0 * 2 ^ (e + 1074))) by ring.
        rewrite <- Z.mul_assoc. f_equal. destruct C as (_ & C & _). rewrite <- !Z.pow_add_r by lia. f_equal. lia. }
      rewrite E in N1. assert (P : 0 < 2 ^ Z.max (- e) 0) by (apply PropFloat3.pow_pos; lia). set (Q := 2 ^ Z.max (- e) 0) in *. set (w := units m e) in *.
      destruct x as [|s|s m1 e1]; cbn [near] in *; [exact N1| |].
      - replace (2 * (Q * w)) with (Q * (2 * w)) in N1 by ring. apply Z.mul_le_mono_pos_l in N1; [lia|exact P].
      - destruct N1 as (C1 & L & N1). split; [exact C1|]. split.
        + replace (2 * (Q * w)) with (Q * (2 * w)) in L by ring. apply Z.mul_lt_mono_pos_l in L; [lia|exact P].
        + intros m' e' C'. specialize (N1 m' e' C'). rewrite <- !Z.mul_sub_distr_l, !Z.abs_mul, (Z.abs_eq Q) in N1 by lia.
          apply Z.mul_le_mono_pos_l in N1; [lia|exact P]. }
    pose proof (near_same (n * scale) d (units m e) x z Hd) as G.
    assert (G' : match x, z with SFin _ m e, SFin _ m' e' => m = m' /\ e = e' | SInf _, SInf _ => True | _, _ => False end).
    { refine (G _ _ N2 N''); [|intros m' e' C' E; apply NH; exists m', e'; split; assumption].
      intros m' e' C'. destruct (H m' e' C') as [L _]. exact L. }
    clear G. destruct S as [m1 e1 C1 H1 B1|B1]; destruct z as [|s2|s2 m2 e2]; try contradiction.
    + destruct G' as [-> ->]. inversion R''; subst. now apply RoundFin32.
    + inversion R''; subst. now apply RoundInf32.
  - subst x. apply RoundInf32. apply (Z.mul_le_mono_pos_r _ _ (2 ^ 925) P9).
    rewrite <- Z.mul_assoc, limit_wide. replace (2 * (n * scale32) * 2 ^ 925) with (2 * (n * scale)) by (rewrite scale_wide; ring).
    etransitivity; [|exact B]. apply Z.mul_le_mono_nonneg_l; [lia|]. rewrite <- limit_wide.
    rewrite <- (top_eq 2045 eq_refl), <- (top_eq32 253 eq_refl). rewrite <- Z.mul_assoc. apply Z.mul_le_mono_nonneg; [lia|lia|apply Z.mul_nonneg_nonneg; apply Z.pow_nonneg; lia|].
    rewrite <- Z.pow_add_r by lia. apply Z.pow_le_mono_r; lia.
Qed.

(** So a float comes back when its text denotes a number n/d that is nearest to it --
    what Rust promises of the text -- and that does not hit a half-way point. *)
Theorem C63_shortest_text : forall (show32 : f32 -> str) neg n d x y, 0 <= n -> 0 < d ->
  to_f64 (show32 x) = Some y -> rounds neg n d y -> rounds32 neg n d x -> ~ halfway y ->
  de_f32 (ser_f32 show32 x) = DOk x.
Proof.
  intros show32 neg n d x y Hn Hd H R R3 NH. unfold de_f32, ser_f32, node_from. cbn [n_yaml]. rewrite H. f_equal.
  apply (rounds_unique32 neg n d); [|exact R3|exact Hd].
  exact (C63_float_nearest neg n d y _ Hn Hd R (nearest_single_cast y) NH).
Qed.

(** A [Stringify] that holds a float holds this f32. *)
Theorem C63_stringify : forall show_f hk n x,
  de_stringify show_f hk n = DOk (TLFloat x) -> de_f32 n = DOk (f32_number x).
Proof.
  intros show_f hk [p t y] x. unfold de_stringify, de_f32, buffer_node. cbn [n_yaml n_pos].
  assert (G : forall c, buffer p y = DOk c ->
    match c with
    | CF64 v => exists s, y = YFloat s /\ to_f64 s = Some v
    | CI64 z => exists s, y = YInt s /\ to_i64 s = Some z
    | _ => True
    end).
  { intros c. destruct y as [|b|s|s|s|l|m|a]; cbn [buffer];
    unfold dbind; repeat match goal with |- match ?o with _ => _ end = _ -> _ => destruct o eqn:? end;
    intros H; inversion H; subst; eauto. }
  destruct (buffer p y) as [c| |]; [|discriminate..]. cbn [dbind]. specialize (G c eq_refl).
  destruct c; cbn [from_buffer]; try discriminate.
  - destruct (in_range true 32 z); [discriminate|]. intros H. injection H as <-. destruct G as (s & -> & E). now rewrite E.
  - intros H. injection H as <-. destruct G as (s & -> & E). now rewrite E.
Qed.

Example C63_witness :
  de_f32 (node_from (YFloat (lit "0.1"))) = DOk (SFin false 13421773 (-27))
  /\ de_f32 (node_from (YInt (lit "-16777217"))) = DOk (SFin true 8388608 1)
  /\ de_f32 (node_from (YFloat (lit "1e39"))) = DOk (SInf false)
  /\ de_f32 (node_from (YFloat (lit "-1e-46"))) = DOk (SFin true 0 (-149))
  /\ de_f32 (node_from (YStr (lit "0.1"))) = DErr 0
  /\ f32_to_f64 (SFin false 13421773 (-27)) = FFin false 7205759511166976 (-56)
  /\ to_f64 (lit "0.100000001490116119384765625") = Some (f32_to_f64 (SFin false 13421773 (-27)))
  /\ real32 (SFin false 13421773 (-27)).
Proof. repeat split; try (vm_compute; reflexivity); try (vm_compute; congruence). left. vm_compute. congruence. Qed.
