(** * C09: decimal numbers are rounded to the nearest binary64 number *)
From Verif Require Import PropFloat2.
Open Scope Z_scope.

(** ** Specification: IEEE 754 round-to-nearest, ties-to-even *)

(** The finite binary64 magnitudes m * 2^e, each once. *)
Definition canonical (m : N) (e : Z) : Prop :=
  (m < 2 ^ 53)%N /\ -1074 <= e <= 971 /\ ((2 ^ 52 <= m)%N \/ e = -1074).
Definition scale : Z := 2 ^ 1074.
Definition top : Z := 2 ^ 2045.
(** m * 2^e in units of the smallest positive number, 2^-1074. *)
Definition units (m : N) (e : Z) : Z := Z.of_N m * 2 ^ (e + 1074).
(** The distance from n/d to m * 2^e, times d * 2^1074. *)
Definition dist (n d : Z) (m : N) (e : Z) : Z := Z.abs (n * scale - d * units m e).

(** [rounds neg n d x]: [x] is (-1)^neg * n/d, rounded.  No finite number is
    closer, of two that are equally close the one with even m is taken, and from
    (2^53 - 1/2) * 2^971 = (2^54 - 1) * 2^970 on the result is infinite. *)
Inductive rounds (neg : bool) (n d : Z) : f64 -> Prop :=
| RoundFin m e : canonical m e ->
    (forall m' e', canonical m' e' -> dist n d m e <= dist n d m' e'
       /\ (dist n d m e = dist n d m' e' -> (m', e') = (m, e) \/ N.even m = true)) ->
    2 * (n * scale) < d * ((2 ^ 54 - 1) * top) ->
    rounds neg n d (FFin neg m e)
| RoundInf : d * ((2 ^ 54 - 1) * top) <= 2 * (n * scale) -> rounds neg n d (FInf neg).

(** ** Proof *)

Lemma pow_pos k : 0 <= k -> 0 < 2 ^ k.
Proof. intros. apply Z.pow_pos_nonneg; lia. Qed.

Lemma scale_split e : -1074 <= e -> e <= 0 -> scale = 2 ^ (- e) * 2 ^ (e + 1074).
Proof. intros H1 H2. rewrite <- Z.pow_add_r by lia. replace (- e + (e + 1074)) with 1074 by lia. reflexivity. Qed.
Lemma scale_add e : 0 <= e -> 2 ^ (e + 1074) = 2 ^ e * scale.
Proof. intros H. rewrite Z.pow_add_r by lia. reflexivity. Qed.
Lemma scale_pos : 0 < scale. Proof. apply pow_pos. lia. Qed.
Lemma top_pos : 0 < top. Proof. apply pow_pos. lia. Qed.
Lemma top_le k : 0 <= k <= 2045 -> 2 ^ k <= top.
Proof. intros H. change top with (2 ^ 2045). apply Z.pow_le_mono_r; lia. Qed.
Lemma le_top k : 2045 <= k -> top <= 2 ^ k.
Proof. intros H. change top with (2 ^ 2045). apply Z.pow_le_mono_r; lia. Qed.
Lemma top_eq k : k = 2045 -> 2 ^ k = top.
Proof. intros ->. reflexivity. Qed.
Lemma scale_def : 2 ^ 1074 = scale. Proof. reflexivity. Qed.
Opaque scale top.

(** each magnitude once *)
Lemma canonical_unique m e m' e' : canonical m e -> canonical m' e' -> units m e = units m' e' -> (m, e) = (m', e').
Proof.
  assert (G : forall m e m' e', canonical m e -> canonical m' e' -> e <= e' -> units m e = units m' e' -> (m, e) = (m', e')).
  { clear. intros m e m' e' (A1 & A2 & A3) (B1 & B2 & B3) L E. unfold units in E.
    replace (e' + 1074) with ((e' - e) + (e + 1074)) in E by lia. rewrite (Z.pow_add_r 2 (e' - e)) in E by lia.
    pose proof (pow_pos (e + 1074) ltac:(lia)) as P. rewrite Z.mul_assoc in E. apply Z.mul_reg_r in E; [|lia].
    destruct (Z.eq_dec e e') as [->|Ne]; [rewrite Z.sub_diag in E; change (2 ^ 0) with 1 in E; f_equal; lia|].
    exfalso. destruct B3 as [B3|B3]; [|lia].
    assert (2 ^ 1 <= 2 ^ (e' - e)) by (apply Z.pow_le_mono_r; lia).
    change (2 ^ 1) with 2 in *. change (2 ^ 52)%N with (Z.to_N (2 ^ 52)) in *. change (2 ^ 53)%N with (Z.to_N (2 ^ 53)) in *.
    assert (Z.of_N m' * 2 <= Z.of_N m' * 2 ^ (e' - e)) by (apply Z.mul_le_mono_nonneg_l; lia). lia. }
  intros A B E. destruct (Z.le_ge_cases e e'); [now apply G|]. symmetry. now apply G.
Qed.

(** nearest integer *)
Lemma rhe_spec A B m : 0 < B -> m = round_half_even A B ->
  forall k, Z.abs (A - m * B) <= Z.abs (A - k * B)
    /\ (Z.abs (A - m * B) = Z.abs (A - k * B) -> k = m \/ Z.even m = true).
Proof.
  intros HB Hm k. pose proof (Z.div_mod A B ltac:(lia)) as E. pose proof (Z.mod_pos_bound A B HB) as R.
  set (q := A / B) in *. set (r := A mod B) in *.
  assert (Er : A - q * B = r) by lia.
  assert (W : (2 * r < B /\ m = q) \/ (B < 2 * r /\ m = q + 1) \/ (2 * r = B /\ Z.even m = true /\ (m = q \/ m = q + 1))).
  { subst m. unfold round_half_even. fold q. cbv zeta. rewrite Er.
    destruct (Z.ltb_spec (2 * r) B); [now left|]. destruct (Z.ltb_spec B (2 * r)); [now right; left|].
    right; right. split; [lia|]. destruct (Z.even q) eqn:Q; [auto|]. split; [|auto].
    replace (q + 1) with (Z.succ q) by lia. rewrite Z.even_succ, <- Z.negb_even, Q. reflexivity. }
  assert (K : forall j, A - j * B = (q - j) * B + r) by (intros; lia).
  clear Hm. destruct W as [[W ->]|[[W ->]|(W & Ev & W')]]; rewrite !K.
  - replace ((q - q) * B + r) with r by lia.
    destruct (Z.lt_trichotomy k q) as [L|[->|L]]; [|split; [lia|now left]|].
    + assert (1 * B <= (q - k) * B) by (apply Z.mul_le_mono_nonneg_r; lia). split; lia.
    + assert ((q - k) * B <= -1 * B) by (apply Z.mul_le_mono_nonneg_r; lia). split; lia.
  - replace ((q - (q + 1)) * B + r) with (r - B) by lia.
    destruct (Z.lt_trichotomy k (q + 1)) as [L|[->|L]]; [|split; [lia|now left]|].
    + assert (0 * B <= (q - k) * B) by (apply Z.mul_le_mono_nonneg_r; lia). split; lia.
    + assert ((q - k) * B <= -2 * B) by (apply Z.mul_le_mono_nonneg_r; lia). split; lia.
  - assert (Em : Z.abs ((q - m) * B + r) = r) by (destruct W' as [->| ->]; lia). rewrite Em. split; [|auto].
    destruct (Z.le_gt_cases k q) as [L|L].
    + assert (0 * B <= (q - k) * B) by (apply Z.mul_le_mono_nonneg_r; lia). lia.
    + assert ((q - k) * B <= -1 * B) by (apply Z.mul_le_mono_nonneg_r; lia). lia.
Qed.

Lemma scaled_eq n d e A B : 0 < n -> 0 < d -> -1074 <= e -> scaled n d e = (A, B) ->
  0 < B /\ 0 < A /\ A * (d * 2 ^ (e + 1074)) = n * scale * B.
Proof.
  intros Hn Hd He. unfold scaled. destruct (Z.leb_spec 0 e) as [L|L]; intros [= <- <-].
  - pose proof (pow_pos e L). rewrite scale_add by lia. split; [apply Z.mul_pos_pos; lia|]. split; [lia|ring].
  - pose proof (pow_pos (- e) ltac:(lia)). replace (scale) with (2 ^ (- e) * 2 ^ (e + 1074)) by (symmetry; apply scale_split; lia).
    split; [lia|]. split; [apply Z.mul_pos_pos; lia|ring].
Qed.

Lemma grid_dist n d e A B k : 0 < n -> 0 < d -> -1074 <= e -> scaled n d e = (A, B) ->
  B * Z.abs (n * scale - d * (k * 2 ^ (e + 1074))) = (d * 2 ^ (e + 1074)) * Z.abs (A - k * B).
Proof.
  intros Hn Hd He S. destruct (scaled_eq n d e A B Hn Hd He S) as (HB & HA & E).
  pose proof (pow_pos (e + 1074) ltac:(lia)) as P.
  rewrite <- (Z.abs_eq B) at 1 by lia. rewrite <- (Z.abs_eq (d * 2 ^ (e + 1074))) by (apply Z.mul_nonneg_nonneg; lia).
  rewrite <- !Z.abs_mul. f_equal. rewrite !Z.mul_sub_distr_l. rewrite (Z.mul_comm B (n * scale)), <- E. ring.
Qed.

Section Round.
  Variables n d : Z.
  Hypothesis Hn : 0 < n.
  Hypothesis Hd : 0 < d.
  Let e := Z.max (expo n d) (-1074).
  Let v := n * scale.

  Lemma v_lt : v < d * (2 ^ 53 * 2 ^ (e + 1074)).
  Proof.
    destruct (expo_spec n d Hn Hd) as [F _]. apply (fits_mono n d (expo n d) e Hn Hd ltac:(unfold e; lia)) in F.
    apply (proj1 (fits_iff n d e 1074 ltac:(lia) ltac:(unfold e; lia))) in F. rewrite (Z.add_comm 1074 e), scale_def in F.
    unfold v. rewrite Z.mul_assoc, <- (Z.mul_assoc d), (Z.mul_comm (2 ^ 53)), Z.mul_assoc in *. lia.
  Qed.
  Lemma v_ge : -1074 < e -> d * (2 ^ 52 * 2 ^ (e + 1074)) <= v.
  Proof.
    intros He. destruct (expo_spec n d Hn Hd) as [_ F].
    assert (Ee : expo n d = e) by (unfold e in *; lia). rewrite Ee in F. apply not_true_iff_false in F.
    destruct (Z.le_gt_cases (d * (2 ^ 52 * 2 ^ (e + 1074))) v) as [|G]; [assumption|]. exfalso. apply F.
    apply (proj2 (fits_iff n d (e - 1) 1074 ltac:(lia) ltac:(lia))). rewrite scale_def. fold v.
    replace (d * 2 ^ (1074 + (e - 1)) * 2 ^ 53) with (d * (2 ^ 52 * 2 ^ (e + 1074))); [exact G|].
    rewrite <- Z.mul_assoc, <- !Z.pow_add_r by lia. f_equal. f_equal. lia.
  Qed.

  Variables A B m : Z.
  Hypothesis S : scaled n d e = (A, B).
  Hypothesis Hm : m = round_half_even A B.

  Let He : -1074 <= e. Proof. unfold e. lia. Qed.
  Let HAB := scaled_eq n d e A B Hn Hd He S.
  Let U := 2 ^ (e + 1074).
  Let HU : 0 < U. Proof. apply pow_pos. lia. Qed.

  Lemma grid k : Z.abs (v - d * (m * U)) <= Z.abs (v - d * (k * U))
    /\ (Z.abs (v - d * (m * U)) = Z.abs (v - d * (k * U)) -> k = m \/ Z.even m = true).
  Proof.
    destruct HAB as (HB & HA & E). destruct (rhe_spec A B m HB Hm k) as [R1 R2].
    pose proof (grid_dist n d e A B m Hn Hd He S) as G1. pose proof (grid_dist n d e A B k Hn Hd He S) as G2.
    fold v U in G1, G2. assert (X : 0 < d * U) by (apply Z.mul_pos_pos; lia). split.
    - apply (Z.mul_le_mono_pos_l _ _ B HB). rewrite G1, G2. now apply Z.mul_le_mono_pos_l.
    - intros Q. apply R2. apply (f_equal (Z.mul B)) in Q. rewrite G1, G2 in Q. apply Z.mul_reg_l in Q; [exact Q|lia].
  Qed.

  Lemma m_bounds : 0 <= m <= 2 ^ 53 /\ (-1074 < e -> 2 ^ 52 <= m).
  Proof.
    destruct HAB as (HB & HA & E). fold v in E.
    pose proof (Z.div_mod A B ltac:(lia)) as Q. pose proof (Z.mod_pos_bound A B HB) as R.
    assert (W : A / B <= m <= A / B + 1).
    { subst m. unfold round_half_even. cbv zeta. repeat (match goal with |- context [if ?c then _ else _] => destruct c end); lia. }
    pose proof v_lt as L. fold U in E, L.
    assert (A < 2 ^ 53 * B).
    { apply (Z.mul_lt_mono_pos_r (d * U)); [apply Z.mul_pos_pos; lia|]. rewrite E. 
      replace (2 ^ 53 * B * (d * U)) with (d * (2 ^ 53 * U) * B) by ring. apply Z.mul_lt_mono_pos_r; assumption. }
    assert (0 <= A / B) by (apply Z.div_pos; lia).
    assert (A / B < 2 ^ 53) by (apply Z.div_lt_upper_bound; lia).
    split; [lia|]. intros G. apply v_ge in G. fold U in G.
    assert (2 ^ 52 * B <= A).
    { apply (Z.mul_le_mono_pos_r _ _ (d * U)); [apply Z.mul_pos_pos; lia|]. rewrite E.
      replace (2 ^ 52 * B * (d * U)) with (d * (2 ^ 52 * U) * B) by ring. apply Z.mul_le_mono_pos_r; assumption. }
    assert (2 ^ 52 <= A / B) by (apply Z.div_le_lower_bound; lia). lia.
  Qed.

  (** nearest among all floats, for m before the carry *)
  Lemma nearest m' e' : canonical m' e' ->
    Z.abs (v - d * (m * U)) <= dist n d m' e'
    /\ (Z.abs (v - d * (m * U)) = dist n d m' e' -> units m' e' = m * U \/ Z.even m = true).
  Proof.
    intros (C1 & C2 & C3). unfold dist. fold v. destruct (Z.le_gt_cases e e') as [L|L].
    - assert (Eu : units m' e' = Z.of_N m' * 2 ^ (e' - e) * U).
      { unfold units, U. rewrite <- Z.mul_assoc, <- Z.pow_add_r by lia. do 2 f_equal. lia. }
      rewrite Eu. destruct (grid (Z.of_N m' * 2 ^ (e' - e))) as [G1 G2]. split; [exact G1|]. intros Q.
      destruct (G2 Q) as [<-|]; auto.
    - assert (Hlow : units m' e' < 2 ^ 52 * U).
      { unfold units, U. replace (e + 1074) with ((e - e' - 1) + (1 + (e' + 1074))) by lia.
        rewrite (Z.pow_add_r 2 (e - e' - 1)) by lia. rewrite (Z.pow_add_r 2 1) by lia.
        pose proof (pow_pos (e' + 1074) ltac:(lia)). pose proof (pow_pos (e - e' - 1) ltac:(lia)).
        change (2 ^ 53)%N with (Z.to_N (2 ^ 53)) in C1. set (X := 2 ^ (e' + 1074)) in *. set (Y := 2 ^ (e - e' - 1)) in *.
        change (2 ^ 1) with 2. apply Z.lt_le_trans with (2 ^ 52 * (1 * (2 * X))).
        - replace (2 ^ 52 * (1 * (2 * X))) with (2 ^ 53 * X) by lia. apply Z.mul_lt_mono_pos_r; lia.
        - apply Z.mul_le_mono_nonneg_l; [lia|]. apply Z.mul_le_mono_nonneg_r; lia. }
      pose proof (v_ge ltac:(lia)) as G. fold U in G. destruct (grid (2 ^ 52)) as [G1 _].
      assert (d * units m' e' < d * (2 ^ 52 * U)) by (apply Z.mul_lt_mono_pos_l; assumption).
      split; [lia|]. intros Q. lia.
  Qed.
End Round.

Lemma round_pos_rounds neg n d : 0 < n -> 0 < d ->
  rounds neg n d (match round_pos n d with Some (m, e) => FFin neg m e | None => FInf neg end).
Proof.
  intros Hn Hd. rewrite round_pos_alt. cbv zeta. set (e := Z.max (expo n d) (-1074)).
  destruct (scaled n d e) as [A B] eqn:S. set (m := round_half_even A B).
  pose proof (m_bounds n d Hn Hd A B m S eq_refl) as [M1 M2]. fold e in M2.
  pose proof (nearest n d Hn Hd A B m S eq_refl) as NR. fold e in NR.
  pose proof (grid n d Hn Hd A B m S eq_refl) as GR. fold e in GR.
  pose proof (v_lt n d Hn Hd) as VL. pose proof (v_ge n d Hn Hd) as VG. fold e in VL, VG.
  assert (He : -1074 <= e) by (subst e; lia).
  set (v := n * scale) in *. set (U := 2 ^ (e + 1074)) in *. assert (HU : 0 < U) by (apply pow_pos; lia).
  (* the result is m * 2^e before the carry *)
  assert (T : exists m1 e1, (if m =? 2 ^ 53 then (2 ^ 52, e + 1) else (m, e)) = (m1, e1)
     /\ units (Z.to_N m1) e1 = m * U /\ (m1 < 2 ^ 53) /\ (0 <= m1) /\ -1074 <= e1 /\ (2 ^ 52 <= m1 \/ e1 = -1074)
     /\ (Z.even m = true -> Z.even m1 = true) /\ (971 < e1 <-> 971 < e \/ (e = 971 /\ m = 2 ^ 53))).
  { destruct (Z.eqb_spec m (2 ^ 53)) as [Em|Em].
    - exists (2 ^ 52), (e + 1). repeat split; try lia.
      unfold units, U. rewrite Z2N.id, Em by lia. replace (e + 1 + 1074) with (1 + (e + 1074)) by lia. rewrite (Z.pow_add_r 2 1) by lia.
      change (2 ^ 1) with 2. lia.
    - exists m, e. repeat split; try lia; try (intros K; exact K).
      unfold units, U. rewrite Z2N.id by lia. reflexivity. }
  destruct T as (m1 & e1 & -> & EU & T1 & T2 & T3 & T4 & T5 & T6).
  assert (OV : d * ((2 ^ 54 - 1) * top) <= 2 * v <-> 971 < e1).
  { rewrite T6. destruct (Z.lt_trichotomy e 971) as [L|[L|L]].
    - split; [|lia]. intros G. exfalso.
      assert (U * 2 <= top).
      { unfold U. rewrite <- (Z.pow_1_r 2) at 2. rewrite <- Z.pow_add_r by lia. apply top_le; lia. }
      assert (d * (2 ^ 53 * U) <= d * (2 ^ 53 * (top) )) by (apply Z.mul_le_mono_nonneg_l; [lia|]; apply Z.mul_le_mono_nonneg_l; lia).
      assert (d * (2 ^ 54 * U) <= d * (2 ^ 53 * top)).
      { apply Z.mul_le_mono_nonneg_l; [lia|]. replace (2 ^ 54 * U) with (2 ^ 53 * (U * 2)) by ring. apply Z.mul_le_mono_nonneg_l; lia. }
      assert (d * (2 ^ 53 * top) < d * ((2 ^ 54 - 1) * top)).
      { apply Z.mul_lt_mono_pos_l; [assumption|]. apply Z.mul_lt_mono_pos_r; [apply top_pos|lia]. }
      replace (d * (2 ^ 54 * U)) with (2 * (d * (2 ^ 53 * U))) in * by ring. lia.
    - assert (EU' : U = top) by (unfold U; apply top_eq; lia). rewrite <- EU'.
      destruct (Z.eq_dec m (2 ^ 53)) as [E53|E53].
      + split; [auto|]. intros _. destruct (GR (2 ^ 53 - 1)) as [G1 G2]. rewrite E53 in *.
        replace (d * ((2 ^ 54 - 1) * U)) with (d * (2 ^ 53 * U) + d * ((2 ^ 53 - 1) * U)) by ring.
        assert (d * ((2 ^ 53 - 1) * U) < d * (2 ^ 53 * U)) by (apply Z.mul_lt_mono_pos_l; [assumption|]; apply Z.mul_lt_mono_pos_r; lia). lia.
      + split; [|lia]. intros G. exfalso. destruct (GR (2 ^ 53)) as [G1 G2].
        replace (d * ((2 ^ 54 - 1) * U)) with (d * (2 ^ 53 * U) + d * ((2 ^ 53 - 1) * U)) in G by ring.
        assert (d * (m * U) <= d * ((2 ^ 53 - 1) * U)) by (apply Z.mul_le_mono_nonneg_l; [lia|]; apply Z.mul_le_mono_nonneg_r; lia).
        assert (Q : Z.abs (v - d * (m * U)) = Z.abs (v - d * (2 ^ 53 * U)) /\ d * (m * U) = d * ((2 ^ 53 - 1) * U)) by lia.
        destruct Q as [Q1 Q2]. apply Z.mul_reg_l in Q2; [|lia]. apply Z.mul_reg_r in Q2; [|lia].
        destruct (G2 Q1) as [|Ev]; [lia|]. rewrite Q2 in Ev. discriminate Ev.
    - split; [auto|]. intros _. specialize (VG ltac:(lia)).
      assert (2 * top <= U).
      { unfold U. replace (e + 1074) with (1 + (e + 1073)) by lia. rewrite (Z.pow_add_r 2 1) by lia. change (2 ^ 1) with 2. apply Z.mul_le_mono_nonneg_l; [lia|]. apply le_top; lia. }
      assert (d * (2 ^ 53 * (2 * top)) <= d * (2 ^ 53 * U)) by (apply Z.mul_le_mono_nonneg_l; [lia|]; apply Z.mul_le_mono_nonneg_l; lia).
      assert (d * ((2 ^ 54 - 1) * top) <= d * (2 ^ 54 * top)).
      { apply Z.mul_le_mono_nonneg_l; [lia|]. apply Z.mul_le_mono_nonneg_r; [apply Z.lt_le_incl, top_pos|lia]. }
      replace (d * (2 ^ 53 * (2 * top))) with (d * (2 ^ 54 * top)) in * by ring.
      replace (d * (2 ^ 53 * U)) with (2 * (d * (2 ^ 52 * U))) in * by ring. lia. }
  destruct (Z.ltb_spec 971 e1) as [L|L].
  - apply RoundInf. fold v. now apply OV.
  - assert (C : canonical (Z.to_N m1) e1).
    { split; [change (2 ^ 53)%N with (Z.to_N (2 ^ 53)); lia|]. split; [lia|]. destruct T4; [left; change (2 ^ 52)%N with (Z.to_N (2 ^ 52)); lia|now right]. }
    apply RoundFin; [exact C| |fold v; lia].
    intros m' e' C'. destruct (NR m' e' C') as [N1 N2].
    assert (ED : dist n d (Z.to_N m1) e1 = Z.abs (v - d * (m * U))) by (unfold dist; fold v; now rewrite EU).
    rewrite ED. split; [exact N1|]. intros Q. destruct (N2 Q) as [Q'|Ev].
    + left. apply canonical_unique; [assumption..|]. congruence.
    + right. apply T5 in Ev. rewrite <- (Z2N.id m1) in Ev by lia. destruct (Z.to_N m1) as [|[]]; exact Ev || reflexivity.
Qed.

(** The rounding is the nearest one, ... *)
Lemma mk_f64_rounds neg mant ex : 0 <= mant ->
  rounds neg (mant * 10 ^ Z.max ex 0) (10 ^ Z.max (- ex) 0) (mk_f64 neg mant ex).
Proof.
  intros Hm. assert (P : forall k, 0 <= k -> 0 < 10 ^ k) by (intros; apply Z.pow_pos_nonneg; lia).
  unfold mk_f64. destruct (Z.eqb_spec mant 0) as [->|N0].
  - rewrite Z.mul_0_l. pose proof (P (Z.max (- ex) 0) ltac:(lia)) as D. apply RoundFin.
    + repeat split; try lia; try (now right).
    + intros m' e' _. unfold dist. replace (units 0 (-1074)) with 0 by reflexivity. split; [lia|now right].
    + rewrite Z.mul_0_l, Z.mul_0_r. apply Z.mul_pos_pos; [assumption|]. apply Z.mul_pos_pos; [lia|]. apply top_pos.
  - destruct (Z.leb_spec 0 ex).
    + rewrite Z.max_l, (Z.max_r (- ex)), Z.pow_0_r by lia. apply round_pos_rounds; [|lia]. apply Z.mul_pos_pos; [lia|auto].
    + rewrite Z.max_r, (Z.max_l (- ex)), Z.pow_0_r, Z.mul_1_r by lia. apply round_pos_rounds; [lia|]. apply P. lia.
Qed.

(** ... and there is only one. *)
Lemma rounds_unique neg n d x y : rounds neg n d x -> rounds neg n d y -> 0 < d -> x = y.
Proof.
  intros X Y Hd. destruct X as [m e C N L|L], Y as [m' e' C' N' L'|L']; try reflexivity; try lia.
  destruct (N m' e' C') as [A1 A2]. destruct (N' m e C) as [B1 B2].
  assert (E : dist n d m e = dist n d m' e') by lia.
  destruct (A2 E) as [[= <- <-]|Ev]; [reflexivity|]. destruct (B2 (eq_sym E)) as [[= <- <-]|Ev']; [reflexivity|].
  destruct (Z.eq_dec (units m e) (units m' e')) as [Q0|Q0]; [apply canonical_unique in Q0; [congruence|assumption..]|].
  (* two even mantissas at the same distance: the odd one between is closer *)
  assert (G : forall m e m' e', canonical m e -> canonical m' e' -> N.even m = true -> N.even m' = true ->
     units m e < units m' e' -> dist n d m e = dist n d m' e' ->
     (forall m' e', canonical m' e' -> dist n d m e <= dist n d m' e'
       /\ (dist n d m e = dist n d m' e' -> (m', e') = (m, e) \/ N.even m = true)) -> False).
  { clear - Hd. intros m e m' e' C C' Ev Ev' L E N. pose proof C as (C1 & C2 & C3). pose proof C' as (D1 & D2 & D3).
    assert (O : (m <> 2 ^ 53 - 1)%N) by (intros ->; discriminate Ev).
    assert (C'' : canonical (m + 1) e) by (split; [change (2 ^ 53)%N with (Z.to_N (2 ^ 53)) in *; lia|]; split; [lia|]; destruct C3; [left; lia|now right]).
    pose proof (pow_pos (e + 1074) ltac:(lia)) as HU.
    assert (Le : e <= e').
    { destruct (Z.le_gt_cases e e') as [|Lt]; [assumption|]. exfalso. destruct C3 as [C3|C3]; [|lia].
      unfold units in L. replace (e + 1074) with ((e - e' - 1) + (1 + (e' + 1074))) in L by lia.
      rewrite (Z.pow_add_r 2 (e - e' - 1)), (Z.pow_add_r 2 1) in L by lia.
      pose proof (pow_pos (e' + 1074) ltac:(lia)). pose proof (pow_pos (e - e' - 1) ltac:(lia)).
      change (2 ^ 53)%N with (Z.to_N (2 ^ 53)) in D1. change (2 ^ 52)%N with (Z.to_N (2 ^ 52)) in C3.
      set (X := 2 ^ (e' + 1074)) in *. set (Y := 2 ^ (e - e' - 1)) in *. change (2 ^ 1) with 2 in L.
      assert (2 ^ 52 * (1 * (2 * X)) <= Z.of_N m * (Y * (2 * X))).
      { apply Z.mul_le_mono_nonneg; try lia. apply Z.mul_le_mono_nonneg_r; lia. }
      assert (Z.of_N m' * X <= 2 ^ 53 * X) by (apply Z.mul_le_mono_nonneg_r; lia). lia. }
    assert (Eu : units m' e' = Z.of_N m' * 2 ^ (e' - e) * 2 ^ (e + 1074)).
    { unfold units. rewrite <- Z.mul_assoc, <- Z.pow_add_r by lia. f_equal. f_equal. lia. }
    assert (L' : Z.of_N m < Z.of_N m' * 2 ^ (e' - e)).
    { rewrite Eu in L. unfold units in L. now apply Z.mul_lt_mono_pos_r in L. }
    assert (S1 : units m e < units (m + 1) e) by (unfold units; apply Z.mul_lt_mono_pos_r; lia).
    assert (S2 : units (m + 1) e <= units m' e') by (rewrite Eu; unfold units; apply Z.mul_le_mono_nonneg_r; lia).
    assert (S3 : units (m + 1) e <> units m' e').
    { intros Q. apply canonical_unique in Q; [|assumption..]. injection Q as <- <-. rewrite N.even_add in Ev'. rewrite Ev in Ev'. discriminate Ev'. }
    destruct (N _ _ C'') as [N1 _]. unfold dist in *.
    assert (d * units m e < d * units (m + 1) e) by (apply Z.mul_lt_mono_pos_l; assumption).
    assert (d * units (m + 1) e < d * units m' e') by (apply Z.mul_lt_mono_pos_l; lia). lia. }
  exfalso. destruct (Z.lt_trichotomy (units m e) (units m' e')) as [Q|[Q|Q]].
  - exact (G m e m' e' C C' Ev Ev' Q E N).
  - exact (Q0 Q).
  - exact (G m' e' m e C' C Ev' Ev Q (eq_sym E) N').
Qed.

(** ** Theorems *)
Lemma rounds_neg neg ds k : Forall digit ds -> rounds neg (positional 10 ds) (10 ^ Z.of_nat k) (mk_f64 neg (positional 10 ds) (- Z.of_nat k)).
Proof.
  intros H. pose proof (mk_f64_rounds neg _ (- Z.of_nat k) (positional_nonneg ds H)) as R.
  rewrite Z.max_r, Z.opp_involutive, Z.max_l, Z.pow_0_r, Z.mul_1_r in R by lia. exact R.
Qed.

(** A float literal is read as the binary64 number nearest to its decimal value:
    DS.FS is the fraction DSFS / 10^|FS|, and DSeX is DS * 10^X.  The rounding is
    determined by its specification. *)
Theorem C09_float_nearest :
  (forall neg ds fs, ds <> [] -> Forall digit ds -> Forall digit fs ->
     exists x, to_f64 (sign neg ++ ds ++ 46%N :: fs) = Some x
       /\ rounds neg (positional 10 (ds ++ fs)) (10 ^ Z.of_nat (List.length fs)) x)
  /\ (forall neg ds e (sneg : option bool) es, ds <> [] -> Forall digit ds -> e = 101%N \/ e = 69%N ->
       es <> [] -> Forall digit es ->
       exists x, to_f64 (sign neg ++ ds ++ e :: (match sneg with Some true => [45%N] | Some false => [43%N] | None => [] end) ++ es) = Some x
         /\ match sneg with
            | Some true => rounds neg (positional 10 ds) (10 ^ positional 10 es) x
            | _ => rounds neg (positional 10 ds * 10 ^ positional 10 es) 1 x
            end)
  /\ (forall neg n d x y, 0 < d -> rounds neg n d x -> rounds neg n d y -> x = y).
Proof.
  destruct C09_float_value as (V1 & _ & V3). split; [|split].
  - intros neg ds fs Hne Hd Hf. eexists. split; [now apply V1|]. apply rounds_neg. apply Forall_app; auto.
  - intros neg ds e sneg es Hne Hd He Hes Hf. eexists. split; [now apply V3|].
    pose proof (positional_nonneg ds Hd) as P1. pose proof (positional_nonneg es Hf) as P2.
    destruct sneg as [[]|].
    + pose proof (mk_f64_rounds neg _ (- positional 10 es) P1) as R.
      rewrite Z.max_r, Z.opp_involutive, Z.max_l, Z.pow_0_r, Z.mul_1_r in R by lia. exact R.
    + pose proof (mk_f64_rounds neg _ (positional 10 es) P1) as R.
      rewrite Z.max_l, Z.max_r, Z.pow_0_r in R by lia. exact R.
    + pose proof (mk_f64_rounds neg _ (positional 10 es) P1) as R.
      rewrite Z.max_l, Z.max_r, Z.pow_0_r in R by lia. exact R.
  - intros neg n d x y Hd X Y. exact (rounds_unique neg n d x y X Y Hd).
Qed.

(** ** An exact formatter *)

(** A decimal text of a binary64 number, with all its digits: m * 2^e for e >= 0,
    and m * 5^k with exponent -k for e = -k. *)
Definition show_exact (x : f64) : str :=
  match x with
  | FNaN => lit "NaN"
  | FInf neg => sign neg ++ lit "inf"
  | FFin neg m e =>
    if 0 <=? e then sign neg ++ show_N (m * 2 ^ Z.to_N e)%N
    else sign neg ++ show_N (m * 5 ^ Z.to_N (- e))%N ++ lit "e-" ++ show_N (Z.to_N (- e))
  end.

Definition real (x : f64) : Prop := match x with FFin _ m e => canonical m e | _ => True end.

Lemma dec_val_nonneg ds : 0 <= dec_val ds.
Proof.
  unfold dec_val. assert (G : forall ds a z, 0 <= a -> digits_val 10 a ds = Some z -> 0 <= z).
  { clear. induction ds as [|c ds IH]; intros a z Ha; cbn [digits_val]; [intros [= <-]; exact Ha|].
    destruct (digit_val 10 c) as [v|] eqn:E; [|discriminate]. apply IH.
    assert (0 <= v).
    { revert E. unfold digit_val. destruct (is_digit c) eqn:D.
      - cbv beta iota zeta. apply is_digit_spec in D. unfold digit in D. destruct (_ <? 10); [|discriminate]. intros [= <-]. lia.
      - destruct ((97 <=? c) && (c <=? 102))%N eqn:D2.
        + apply andb_prop in D2 as [D2 D3]. apply N.leb_le in D2, D3. cbv beta iota zeta. destruct (_ <? 10); [|discriminate]. intros [= <-]. lia.
        + destruct ((65 <=? c) && (c <=? 70))%N eqn:D3; [|discriminate].
          apply andb_prop in D3 as [D3 D4]. apply N.leb_le in D3, D4. cbv beta iota zeta. destruct (_ <? 10); [|discriminate]. intros [= <-]. lia. }
    lia. }
  destruct (digits_val 10 0 ds) eqn:E; [|lia]. eapply G; [|exact E]. lia.
Qed.
Lemma mk_f64_real neg mant ex : 0 <= mant -> real (mk_f64 neg mant ex).
Proof. intros H. destruct (mk_f64_rounds neg mant ex H); [assumption|exact I]. Qed.

(** every text reads as a binary64 number *)
Lemma to_f64_real s x : to_f64 s = Some x -> real x.
Proof.
  assert (G : forall neg t, f64_number neg t = Some x -> real x).
  { intros neg t. unfold f64_number. destruct (span_digits t) as [ip r].
    assert (K : forall fp r', match ip with [] => match fp with [] => None | _ :: _ => match exp_val r' with Some e => Some (mk_f64 neg (dec_val (ip ++ fp)) (e - Z.of_nat (List.length fp))) | None => None end end
                 | _ :: _ => match exp_val r' with Some e => Some (mk_f64 neg (dec_val (ip ++ fp)) (e - Z.of_nat (List.length fp))) | None => None end end = Some x -> real x).
    { intros fp r'. destruct ip, fp; try discriminate; (destruct (exp_val r'); [|discriminate]); intros [= <-]; apply mk_f64_real, dec_val_nonneg. }
    destruct (match r with 46%N :: t0 => span_digits t0 | _ => ([], r) end) as [fp r']. intros H. apply (K fp r'). destruct ip, fp; exact H. }
  assert (K : forall neg t, f_body neg t = Some x -> real x).
  { intros neg t. unfold f_body. cbv zeta. destruct (_ || _); [intros [= <-]; exact I|]. destruct (str_eqb _ _); [intros [= <-]; exact I|]. apply G. }
  destruct s as [|c s]; [discriminate|]. intros H.
  destruct (N.eq_dec c 45) as [->|N1]; [exact (K true s H)|]. destruct (N.eq_dec c 43) as [->|N2]; [exact (K false s H)|].
  rewrite to_f64_unsigned in H by assumption. exact (K _ _ H).
Qed.

Lemma rounds_exact neg n d m e : 0 < d -> canonical m e -> n * scale = d * units m e -> rounds neg n d (FFin neg m e).
Proof.
  intros Hd C E. apply RoundFin; [exact C| |].
  - intros m' e' C'. unfold dist. rewrite E, Z.sub_diag, Z.abs_0. split; [lia|]. intros Q. left.
    apply canonical_unique; [assumption..|]. apply (Z.mul_reg_l _ _ d); lia.
  - rewrite E. destruct C as (C1 & C2 & _). change (2 ^ 53)%N with (Z.to_N (2 ^ 53)) in C1. unfold units.
    replace (2 * (d * (Z.of_N m * 2 ^ (e + 1074)))) with (d * ((2 * Z.of_N m) * 2 ^ (e + 1074))) by ring.
    apply Z.mul_lt_mono_pos_l; [assumption|].
    assert (2 ^ (e + 1074) <= top) by (apply top_le; lia).
    pose proof (pow_pos (e + 1074) ltac:(lia)). set (X := 2 ^ (e + 1074)) in *. set (Y := top) in *. 
    apply Z.le_lt_trans with (2 * Z.of_N m * Y).
    + apply Z.mul_le_mono_nonneg_l; lia.
    + apply Z.mul_lt_mono_pos_r; lia.
Qed.

Lemma show_N_pos n : Forall digit (show_N n) /\ show_N n <> [] /\ positional 10 (show_N n) = Z.of_N n.
Proof.
  assert (D : Forall digit (show_N n)) by (apply digits_forallb, show_N_digits).
  split; [exact D|]. split; [apply show_N_nonempty|]. rewrite <- dec_val_positional by exact D. unfold dec_val. now rewrite digits_show_N.
Qed.

Lemma exact_text_real x : real x -> to_f64 (show_exact x) = Some x.
Proof.
  intros H. destruct x as [|[]|neg m e]; [reflexivity..|]. cbn [real] in H.
  destruct C09_float_nearest as (_ & V3 & U). cbn [show_exact]. pose proof H as (C1 & C2 & _).
  destruct (Z.leb_spec 0 e) as [L|L].
  - destruct (show_N_pos (m * 2 ^ Z.to_N e)) as (D & Ne & Ev).
    pose proof (to_f64_digits neg _ [] Ne D) as T. rewrite app_nil_r in T. rewrite T, number_int by assumption. f_equal.
    pose proof (mk_f64_rounds neg _ 0 (positional_nonneg _ D)) as R. rewrite Z.pow_0_r, Z.mul_1_r in R.
    apply (U neg _ 1 _ _ ltac:(lia) R). apply rounds_exact; [lia|exact H|]. rewrite Ev. unfold units.
    rewrite N2Z.inj_mul, N2Z.inj_pow, Z2N.id by lia. rewrite scale_add by lia. change (Z.of_N 2) with 2. generalize (scale) (2 ^ e). intros. ring.
  - destruct (show_N_pos (m * 5 ^ Z.to_N (- e))) as (D & Ne & Ev). destruct (show_N_pos (Z.to_N (- e))) as (D' & Ne' & Ev').
    destruct (V3 neg _ 101%N (Some true) _ Ne D ltac:(auto) Ne' D') as (y & T & R). 
    change (lit "e-" ++ show_N (Z.to_N (- e))) with (101%N :: [45%N] ++ show_N (Z.to_N (- e))). rewrite T. f_equal.
    assert (P : 0 < 10 ^ (- e)) by (apply Z.pow_pos_nonneg; lia).
    rewrite Ev', Z2N.id in R by lia. apply (U neg _ _ _ _ P R). apply rounds_exact; [exact P|exact H|].
    rewrite Ev. unfold units. rewrite N2Z.inj_mul, N2Z.inj_pow, Z2N.id by lia. change (Z.of_N 5) with 5.
    replace 10 with (2 * 5) by reflexivity. rewrite Z.pow_mul_l.
    replace (scale) with (2 ^ (- e) * 2 ^ (e + 1074)) by (symmetry; apply scale_split; lia).
    generalize (2 ^ (- e)) (2 ^ (e + 1074)) (5 ^ (- e)). intros. ring.
Qed.
(** Every number that is read can be written so that it reads back. *)
Theorem C09_exact_text : forall text x, to_f64 text = Some x -> to_f64 (show_exact x) = Some x.
Proof. intros text x H. exact (exact_text_real x (to_f64_real text x H)). Qed.

(** Both sides of a tie, an overflow, and the smallest number. *)
Example C09_nearest_witness :
  to_f64 (lit "9007199254740993.0") = Some (FFin false 4503599627370496 1)
  /\ to_f64 (lit "9007199254740995.0") = Some (FFin false 4503599627370498 1)
  /\ rounds false 9007199254740993 1 (FFin false 4503599627370496 1)
  /\ to_f64 (lit "1e309") = Some (FInf false)
  /\ to_f64 (lit "5e-324") = Some (FFin false 1 (-1074))
  /\ show_exact (FFin true 3 (-1)) = lit "-15e-1".
Proof.
  repeat split; try (vm_compute; reflexivity).
  change (FFin false 4503599627370496 1) with (mk_f64 false 9007199254740993 0).
  pose proof (mk_f64_rounds false 9007199254740993 0 ltac:(lia)) as R. exact R.
Qed.
