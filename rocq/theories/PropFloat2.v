(** * PropFloat2: the value of a float literal (C09). *)
From Verif Require Export PropFloat.
Open Scope Z_scope.

(** ** Rounding depends only on the ratio *)
Definition scaled (num den e : Z) : Z * Z :=
  if (0 <=? e)%Z then (num, den * 2 ^ e) else (num * 2 ^ (- e), den).
Definition fits (num den e : Z) : bool :=
  let '(n, d) := scaled num den e in (n <? d * 2 ^ 53)%Z.

Lemma fits_iff n d e K : 0 <= K -> 0 <= K + e -> 
  fits n d e = true <-> n * 2 ^ K < d * 2 ^ (K + e) * 2 ^ 53.
Proof.
  intros HK HE. unfold fits, scaled. destruct (Z.leb_spec 0 e) as [He|He].
  - rewrite Z.ltb_lt, (Z.pow_add_r 2 K e) by lia. pose proof (Z.pow_pos_nonneg 2 K eq_refl HK) as P.
    replace (d * (2 ^ K * 2 ^ e) * 2 ^ 53) with ((d * 2 ^ e * 2 ^ 53) * 2 ^ K) by ring.
    rewrite <- Z.mul_lt_mono_pos_r by exact P. reflexivity.
  - rewrite Z.ltb_lt. replace K with ((K + e) + - e) at 1 by lia. rewrite (Z.pow_add_r 2 (K + e) (- e)) by lia.
    pose proof (Z.pow_pos_nonneg 2 (K + e) eq_refl HE) as P.
    replace (n * (2 ^ (K + e) * 2 ^ (- e))) with ((n * 2 ^ (- e)) * 2 ^ (K + e)) by ring.
    replace (d * 2 ^ (K + e) * 2 ^ 53) with ((d * 2 ^ 53) * 2 ^ (K + e)) by ring.
    rewrite <- Z.mul_lt_mono_pos_r by exact P. reflexivity.
Qed.
Lemma fits_mono n d e e' : 0 < n -> 0 < d -> e <= e' -> fits n d e = true -> fits n d e' = true.
Proof.
  intros Hn Hd He H.
  apply (proj1 (fits_iff n d e (Z.abs e + Z.abs e') ltac:(lia) ltac:(lia))) in H.
  apply (proj2 (fits_iff n d e' (Z.abs e + Z.abs e') ltac:(lia) ltac:(lia))).
  eapply Z.lt_le_trans; [exact H|]. apply Z.mul_le_mono_nonneg_r; [lia|].
  apply Z.mul_le_mono_nonneg_l; [lia|]. apply Z.pow_le_mono_r; lia.
Qed.
Lemma fits_scale n d k e : 0 < k -> fits (k * n) (k * d) e = fits n d e.
Proof.
  intros Hk. unfold fits, scaled. destruct (0 <=? e)%Z.
  - replace (k * d * 2 ^ e * 2 ^ 53) with (k * (d * 2 ^ e * 2 ^ 53)) by ring.
    apply eq_true_iff_eq. rewrite !Z.ltb_lt. rewrite <- Z.mul_lt_mono_pos_l by exact Hk. reflexivity.
  - replace (k * n * 2 ^ (- e)) with (k * (n * 2 ^ (- e))) by ring.
    replace (k * d * 2 ^ 53) with (k * (d * 2 ^ 53)) by ring.
    apply eq_true_iff_eq. rewrite !Z.ltb_lt. rewrite <- Z.mul_lt_mono_pos_l by exact Hk. reflexivity.
Qed.
Definition expo (n d : Z) : Z :=
  let e0 := Z.log2 n - Z.log2 d - 53 in if fits n d e0 then e0 else e0 + 1.

Lemma expo_spec n d : 0 < n -> 0 < d ->
  fits n d (expo n d) = true /\ fits n d (expo n d - 1) = false.
Proof.
  intros Hn Hd. unfold expo. set (e0 := Z.log2 n - Z.log2 d - 53).
  pose proof (Z.log2_spec n Hn) as [N1 N2]. pose proof (Z.log2_spec d Hd) as [D1 D2].
  pose proof (Z.log2_nonneg n). pose proof (Z.log2_nonneg d).
  assert (UP : fits n d (e0 + 1) = true).
  { set (K := Z.abs e0 + 1). apply (proj2 (fits_iff n d (e0 + 1) K ltac:(lia) ltac:(lia))).
    rewrite <- Z.mul_assoc, <- Z.pow_add_r by lia.
    replace (K + (e0 + 1) + 53) with (K + (1 + Z.log2 n - Z.log2 d)) by lia.
    apply Z.lt_le_trans with (2 ^ Z.succ (Z.log2 n) * 2 ^ K).
    { apply Z.mul_lt_mono_pos_r; [apply Z.pow_pos_nonneg; lia|exact N2]. }
    rewrite <- Z.pow_add_r by lia.
    apply Z.le_trans with (2 ^ Z.log2 d * 2 ^ (K + (1 + Z.log2 n - Z.log2 d))).
    { rewrite <- Z.pow_add_r by lia. apply Z.pow_le_mono_r; lia. }
    apply Z.mul_le_mono_nonneg_r; [apply Z.pow_nonneg; lia|exact D1]. }
  assert (LO : fits n d (e0 - 1) = false).
  { apply not_true_iff_false. intros F. set (K := Z.abs e0 + 1).
    apply (proj1 (fits_iff n d (e0 - 1) K ltac:(lia) ltac:(lia))) in F.
    rewrite <- Z.mul_assoc, <- Z.pow_add_r in F by lia.
    replace (K + (e0 - 1) + 53) with (K + (Z.log2 n - Z.log2 d - 1)) in F by lia.
    assert (G : d * 2 ^ (K + (Z.log2 n - Z.log2 d - 1)) <= n * 2 ^ K); [|lia].
    apply Z.le_trans with (2 ^ Z.succ (Z.log2 d) * 2 ^ (K + (Z.log2 n - Z.log2 d - 1))).
    { apply Z.mul_le_mono_nonneg_r; [apply Z.pow_nonneg; lia|lia]. }
    rewrite <- Z.pow_add_r by lia.
    apply Z.le_trans with (2 ^ Z.log2 n * 2 ^ K).
    { rewrite <- Z.pow_add_r by lia. apply Z.pow_le_mono_r; lia. }
    apply Z.mul_le_mono_nonneg_r; [apply Z.pow_nonneg; lia|exact N1]. }
  destruct (fits n d e0) eqn:E; [split; assumption|]. split; [assumption|].
  now replace (e0 + 1 - 1) with e0 by lia.
Qed.
Lemma expo_scale n d k : 0 < n -> 0 < d -> 0 < k -> expo (k * n) (k * d) = expo n d.
Proof.
  intros Hn Hd Hk. destruct (expo_spec n d Hn Hd) as [A B].
  destruct (expo_spec (k * n) (k * d) ltac:(lia) ltac:(lia)) as [A' B'].
  rewrite fits_scale in A', B' by exact Hk.
  destruct (Z.lt_trichotomy (expo (k * n) (k * d)) (expo n d)) as [L|[L|L]]; [|exact L|].
  - apply (fits_mono n d _ (expo n d - 1)) in A'; [congruence|lia..].
  - apply (fits_mono n d _ (expo (k * n) (k * d) - 1)) in A; [congruence|lia..].
Qed.
Lemma rhe_scale n d k : 0 < d -> 0 < k -> round_half_even (k * n) (k * d) = round_half_even n d.
Proof.
  intros Hd Hk. unfold round_half_even. rewrite Z.div_mul_cancel_l by lia.
  set (q := n / d).
  replace (k * n - q * (k * d)) with (k * (n - q * d)) by ring.
  replace (2 * (k * (n - q * d))) with (k * (2 * (n - q * d))) by ring.
  assert (C : forall a b, (k * a <? k * b) = (a <? b)).
  { intros a b. apply eq_true_iff_eq. rewrite !Z.ltb_lt, <- Z.mul_lt_mono_pos_l by exact Hk. reflexivity. }
  now rewrite !C.
Qed.
Lemma round_pos_alt n d : round_pos n d =
  let e := Z.max (expo n d) (-1074) in
  let '(n, d) := scaled n d e in
  let m := round_half_even n d in
  let '(m, e) := if (m =? 2 ^ 53)%Z then (2 ^ 52, e + 1) else (m, e) in
  if (971 <? e)%Z then None else Some (Z.to_N m, e).
Proof. reflexivity. Qed.
Lemma round_pos_scale n d k : 0 < n -> 0 < d -> 0 < k -> round_pos (k * n) (k * d) = round_pos n d.
Proof.
  intros Hn Hd Hk. rewrite !round_pos_alt, expo_scale by assumption. cbv zeta.
  set (e := Z.max (expo n d) (-1074)). unfold scaled. destruct (Z.leb_spec 0 e) as [He|He].
  - rewrite <- Z.mul_assoc, rhe_scale; [reflexivity| |assumption].
    apply Z.mul_pos_pos; [assumption|]. now apply Z.pow_pos_nonneg.
  - rewrite <- Z.mul_assoc, rhe_scale by assumption. reflexivity.
Qed.
Lemma mk_f64_tenth neg m : 0 <= m -> mk_f64 neg (m * 10) (-1) = mk_f64 neg m 0.
Proof.
  intros Hm. unfold mk_f64. destruct (Z.eqb_spec m 0) as [->|H0]; [reflexivity|].
  rewrite (proj2 (Z.eqb_neq (m * 10) 0)) by lia.
  replace (0 <=? -1)%Z with false by reflexivity. replace (0 <=? 0)%Z with true by reflexivity.
  change (10 ^ - -1) with (10 * 1). rewrite (Z.mul_comm m 10), round_pos_scale by lia.
  rewrite Z.pow_0_r, Z.mul_1_r. reflexivity.
Qed.

(** ** Reading *)
Lemma span_digits_app ds r : Forall digit ds ->
  (match r with [] => True | x :: _ => is_digit x = false end) ->
  span_digits (ds ++ r) = (ds, r).
Proof.
  intros H Hr. induction H as [|c ds Hc _ IH].
  - destruct r as [|x r]; [reflexivity|]. cbn [app span_digits]. now rewrite Hr.
  - cbn [app span_digits]. rewrite (proj2 (is_digit_spec c) Hc), IH. reflexivity.
Qed.
Lemma dec_val_positional ds : Forall digit ds -> dec_val ds = positional 10 ds.
Proof.
  intros H. unfold dec_val, positional.
  rewrite (digits_val_positional 10 ds); [reflexivity|]. eapply Forall_impl; [|exact H]. apply dv10.
Qed.
Lemma positional_nonneg ds : Forall digit ds -> 0 <= positional 10 ds.
Proof.
  intros H. unfold positional. assert (G : forall a, 0 <= a -> 0 <= fold_left (fun a c => a * 10 + digit_num c) ds a).
  { induction H as [|c ds Hc _ IH]; intros a Ha; cbn [fold_left]; [exact Ha|]. apply IH.
    unfold digit, digit_num in *. destruct (N.leb_spec c 57); lia. }
  apply G. lia.
Qed.
Lemma positional_snoc ds c : positional 10 (ds ++ [c]) = positional 10 ds * 10 + digit_num c.
Proof. unfold positional. now rewrite fold_left_app. Qed.

Lemma lower_digit c : digit c -> lower c = c.
Proof.
  intros H. unfold lower, digit in *. destruct (N.leb_spec 65 c); [lia|]. reflexivity.
Qed.
Definition f_body (neg : bool) (t : str) : option f64 :=
  let l := map lower t in
  if str_eqb l (lit "inf") || str_eqb l (lit "infinity") then Some (FInf neg)
  else if str_eqb l (lit "nan") then Some FNaN
  else f64_number neg t.
Lemma to_f64_unsigned x t : x <> 45%N -> x <> 43%N -> to_f64 (x :: t) = f_body false (x :: t).
Proof.
  intros H1 H2. destruct x as [|[[[[[[]|[]|]|[[]|[]|]|]|[[[]|[]|]|[[]|[]|]|]|]|[[[[]|[]|]|[[]|[]|]|]|[[[]|[]|]|[[]|[]|]|]|]|]|[[[[[]|[]|]|[[]|[]|]|]|[[[]|[]|]|[[]|[]|]|]|]|[[[[]|[]|]|[[]|[]|]|]|[[[]|[]|]|[[]|[]|]|]|]|]|]];
    try reflexivity; congruence.
Qed.
Lemma to_f64_digits neg ds r : ds <> [] -> Forall digit ds ->
  to_f64 (sign neg ++ ds ++ r) = f64_number neg (ds ++ r).
Proof.
  intros Hne Hd. destruct ds as [|x ds]; [congruence|]. inversion Hd as [|? ? Hx _]; subst.
  assert (P : to_f64 (sign neg ++ (x :: ds) ++ r) = f_body neg ((x :: ds) ++ r)).
  { destruct neg; [reflexivity|]. unfold digit in Hx. apply to_f64_unsigned; lia. }
  rewrite P. unfold f_body. cbv zeta. cbn [app map]. rewrite (lower_digit x Hx). unfold digit in Hx.
  cbn [str_eqb]. rewrite (proj2 (N.eqb_neq x 105)) by lia. rewrite (proj2 (N.eqb_neq x 110)) by lia.
  cbn [andb orb]. reflexivity.
Qed.
Lemma exp_val_unsigned e y es : e = 101%N \/ e = 69%N -> y <> 45%N -> y <> 43%N ->
  exp_val (e :: y :: es) = if forallb is_digit (y :: es) then Some (dec_val (y :: es)) else None.
Proof.
  intros [->| ->] H1 H2; destruct y as [|[[[[[[]|[]|]|[[]|[]|]|]|[[[]|[]|]|[[]|[]|]|]|]|[[[[]|[]|]|[[]|[]|]|]|[[[]|[]|]|[[]|[]|]|]|]|]|[[[[[]|[]|]|[[]|[]|]|]|[[[]|[]|]|[[]|[]|]|]|]|[[[[]|[]|]|[[]|[]|]|]|[[[]|[]|]|[[]|[]|]|]|]|]|]];
    try reflexivity; congruence.
Qed.
Lemma number_float neg ds fs : ds <> [] -> Forall digit ds -> Forall digit fs ->
  f64_number neg (ds ++ 46%N :: fs)
  = Some (mk_f64 neg (positional 10 (ds ++ fs)) (- Z.of_nat (List.length fs))).
Proof.
  intros Hne Hd Hf. unfold f64_number. rewrite (span_digits_app ds (46%N :: fs)) by (assumption || reflexivity).
  pose proof (span_digits_app fs [] Hf I) as E. rewrite app_nil_r in E. rewrite E.
  destruct ds as [|x ds]; [congruence|]. cbn [exp_val].
  rewrite dec_val_positional by (apply Forall_app; auto). reflexivity.
Qed.
Lemma number_int neg ds : ds <> [] -> Forall digit ds ->
  f64_number neg ds = Some (mk_f64 neg (positional 10 ds) 0).
Proof.
  intros Hne Hd. unfold f64_number.
  pose proof (span_digits_app ds [] Hd I) as E. rewrite app_nil_r in E. rewrite E.
  destruct ds as [|x ds]; [congruence|]. cbn [exp_val]. rewrite app_nil_r.
  rewrite dec_val_positional by auto. reflexivity.
Qed.

(** The value of a float literal is the binary64 number nearest to its decimal
    value ([mk_f64 neg m e] is the rounding of (-1)^neg * m * 10^e); dropping a
    final [.0] does not change it; and there always is one. *)
Theorem C09_float_value :
  (forall neg ds fs, ds <> [] -> Forall digit ds -> Forall digit fs ->
     to_f64 (sign neg ++ ds ++ 46%N :: fs)
     = Some (mk_f64 neg (positional 10 (ds ++ fs)) (- Z.of_nat (List.length fs))))
  /\ (forall t v, float_literal t -> without_dot0 t v -> to_f64 v = to_f64 t)
  /\ (forall neg ds e (sneg : option bool) es, ds <> [] -> Forall digit ds -> e = 101%N \/ e = 69%N ->
       es <> [] -> Forall digit es ->
       to_f64 (sign neg ++ ds ++ e :: (match sneg with Some true => [45%N] | Some false => [43%N] | None => [] end) ++ es)
       = Some (mk_f64 neg (positional 10 ds)
                (match sneg with Some true => - positional 10 es | _ => positional 10 es end))).
Proof.
  split; [|split].
  - intros neg ds fs Hne Hd Hf. rewrite to_f64_digits by assumption. now apply number_float.
  - intros t v [neg ds fs Hne Hd Hf] Hw.
    assert (K : sign neg ++ ds ++ 46%N :: fs = v ++ [46; 48]%N \/ v = sign neg ++ ds ++ 46%N :: fs).
    { inversion Hw; subst; [now left; symmetry|now right]. }
    destruct K as [K|K]; [|now rewrite K].
    destruct (float_no_second_dot _ _ _ _ Hd Hf K) as [-> ->].
    rewrite to_f64_digits by assumption. rewrite number_float by assumption.
    pose proof (to_f64_digits neg ds [] Hne Hd) as T. rewrite app_nil_r in T. rewrite T.
    rewrite number_int by assumption. rewrite positional_snoc.
    change (digit_num 48) with 0. rewrite Z.add_0_r. cbn [List.length].
    change (- Z.of_nat 1) with (-1). rewrite mk_f64_tenth; [reflexivity|]. now apply positional_nonneg.
  - intros neg ds e sneg es Hne Hd He Hes Hf. rewrite to_f64_digits by assumption.
    unfold f64_number.
    assert (Ee : is_digit e = false) by (destruct He as [->| ->]; reflexivity).
    rewrite span_digits_app by assumption.
    assert (E1 : e <> 46%N) by (destruct He as [->| ->]; discriminate).
    assert (EV : exp_val (e :: (match sneg with Some true => [45%N] | Some false => [43%N] | None => [] end) ++ es)
            = Some (match sneg with Some true => - positional 10 es | _ => positional 10 es end)).
    { destruct es as [|y es]; [congruence|]. inversion Hf as [|? ? Hy _]; subst.
      assert (FD : forallb is_digit (y :: es) = true) by now apply digits_forallb.
      destruct sneg as [[]|]; cbn [app].
      - transitivity (if forallb is_digit (y :: es) then Some (- dec_val (y :: es)) else None);
          [destruct He as [->| ->]; reflexivity|]. rewrite FD, dec_val_positional by assumption. reflexivity.
      - transitivity (if forallb is_digit (y :: es) then Some (dec_val (y :: es)) else None);
          [destruct He as [->| ->]; reflexivity|]. rewrite FD, dec_val_positional by assumption. reflexivity.
      - unfold digit in Hy. rewrite exp_val_unsigned by (assumption || lia).
        rewrite FD, dec_val_positional by assumption. reflexivity. }
    destruct ds as [|x ds]; [congruence|].
    destruct He as [->| ->]; cbv iota beta; rewrite EV; rewrite app_nil_r, dec_val_positional by assumption;
      cbn [List.length]; now rewrite Z.sub_0_r.
Qed.
Theorem C09_always_readable : forall s v s',
  (p_pos s <= List.length (p_doc s))%nat -> p_eaten s = p_pos s ->
  float s = (ROk v, s') \/ sci_float s = (ROk v, s') ->
  exists x, to_f64 v = Some x /\ forall n p t, as_float (Node p t (YFloat v)) = inl x
    /\ yaml_eq (YFloat v) (YFloat v) = Some true /\ (n = Node p t (YFloat v) -> as_number n = inl x).
Proof.
  intros s v s' H E K.
  assert (R : exists x, to_f64 v = Some x).
  { destruct C09_float_value as (V1 & V2 & V3). destruct K as [K|K].
    - apply (C09_float_language s H E) in K as (t & w & rest & _ & Hl & _ & Hv & _).
      rewrite (V2 t v Hl Hv). destruct Hl as [neg ds fs Hne Hd Hf]. rewrite V1 by assumption. eauto.
    - apply (C09_sci_language s H E) in K as (w & rest & _ & Hl & _ & _).
      destruct Hl as [neg ds e sg es Hne Hd He Hsg Hes Hf].
      destruct Hsg as [->|[->| ->]].
      + rewrite (V3 neg ds e None es) by assumption. eauto.
      + rewrite (V3 neg ds e (Some false) es) by assumption. eauto.
      + rewrite (V3 neg ds e (Some true) es) by assumption. eauto. }
  destruct R as [x Hx]. exists x. split; [exact Hx|]. intros n p t. split; [|split].
  - unfold as_float. cbn [n_yaml]. now rewrite Hx.
  - cbn [yaml_eq]. rewrite Hx. f_equal. exact (feq_refl x).
  - intros ->. unfold as_number. cbn [n_yaml]. now rewrite Hx.
Qed.
(** What one would expect and does not get: a tab after the literal, and a sign
    before an exponent form with a fraction, are not accepted, and after a space
    anything goes. *)
Theorem C09_float_refuted : forall hk,
  fst (float (new_st hk false (lit "1.5" ++ [9; 10]%N))) = RErr Mismatch
  /\ fst (float (new_st hk false (lit "1.5"))) = RErr Mismatch
  /\ (let s := new_st hk false (lit "1.5e3" ++ [10]%N) in
      fst (float s) = RErr Mismatch /\ fst (sci_float s) = RErr Mismatch)
  /\ fst (float (new_st hk false (lit "1.5 abc"))) = ROk (lit "1.5").
Proof. intros hk. repeat split; vm_compute; reflexivity. Qed.
Example C09_witness :
  let s := new_st (fun _ => 0%N) false (lit "-12.50 ,x") in
  float s = (ROk (lit "-12.50"), set_pos 7 s)
  /\ float (new_st (fun _ => 0%N) false (lit "3.0,"))
     = (ROk (lit "3"), set_pos 3 (new_st (fun _ => 0%N) false (lit "3.0,")))
  /\ float_literal (lit "-12.50") /\ float_end (lit " ") (lit ",x")
  /\ to_f64 (lit "-12.50") = Some (FFin true (25 * 2 ^ 48) (-49)).
Proof.
  cbv zeta. repeat split; try (vm_compute; reflexivity).
  - apply (FloatLit true (lit "12") (lit "50")); [discriminate|repeat constructor; unfold digit; lia..].
  - repeat constructor.
  - intros c r [= <- <-]. unfold blank. lia.
  - right. exists []. reflexivity.
Qed.
