(** * NodeFacts: induction over nodes, and facts on numbers, equality, hashing
    and maps (lemmas; the property theorems are in the Prop*.v files). *)
From Verif Require Export Scan2.
Open Scope N_scope.

(** ** Induction over the nested type [yaml] *)
Section YamlInd.
  Variable P : yaml -> Prop.
  Hypothesis Hnull : P YNull.
  Hypothesis Hbool : forall b, P (YBool b).
  Hypothesis Hint : forall s, P (YInt s).
  Hypothesis Hfloat : forall s, P (YFloat s).
  Hypothesis Hstr : forall s, P (YStr s).
  Hypothesis Hseq : forall l, Forall (fun n => P (n_yaml n)) l -> P (YSeq l).
  Hypothesis Hmap : forall m,
    Forall (fun kv => P (n_yaml (fst kv)) /\ P (n_yaml (snd kv))) m -> P (YMap m).
  Hypothesis Halias : forall a, P (YAlias a).

  Fixpoint yaml_ind2 (y : yaml) : P y :=
    match y with
    | YNull => Hnull
    | YBool b => Hbool b
    | YInt s => Hint s
    | YFloat s => Hfloat s
    | YStr s => Hstr s
    | YSeq l =>
      Hseq l ((fix go (l : list node) : Forall (fun n => P (n_yaml n)) l :=
                 match l with
                 | [] => Forall_nil _
                 | Node p t x :: r =>
                   Forall_cons (Node p t x) (yaml_ind2 x) (go r)
                 end) l)
    | YMap m =>
      Hmap m ((fix go (m : list (node * node))
                 : Forall (fun kv => P (n_yaml (fst kv)) /\ P (n_yaml (snd kv))) m :=
                 match m with
                 | [] => Forall_nil _
                 | (Node p t x, Node p' t' x') :: r =>
                   Forall_cons (Node p t x, Node p' t' x')
                     (conj (yaml_ind2 x) (yaml_ind2 x')) (go r)
                 end) m)
    | YAlias a => Halias a
    end.
End YamlInd.

(** ** Unfolded loops of [yaml_eq] and [hash_stream] *)
Fixpoint seq_eq (l l' : list node) : may_panic bool :=
  match l, l' with
  | x :: r, y :: r' =>
    match node_eq x y with
    | None => None
    | Some false => Some false
    | Some true => seq_eq r r'
    end
  | _, _ => Some true
  end.
Fixpoint ents_eq (l l' : list (node * node)) : may_panic bool :=
  match l, l' with
  | (k, x) :: r, (k', y) :: r' =>
    match node_eq k k' with
    | None => None
    | Some false => Some false
    | Some true =>
      match node_eq x y with
      | None => None
      | Some false => Some false
      | Some true => ents_eq r r'
      end
    end
  | _, _ => Some true
  end.
Lemma yaml_eq_seq l l' :
  yaml_eq (YSeq l) (YSeq l')
  = if Nat.eqb (List.length l) (List.length l') then seq_eq l l' else Some false.
Proof.
  cbn [yaml_eq]. destruct (Nat.eqb _ _); [|reflexivity].
  revert l'; induction l as [|[p t x] l IH]; intros [|[p' t' y] l']; try reflexivity.
  cbn [seq_eq node_eq n_yaml]. unfold node_eq. cbn [n_yaml].
  destruct (yaml_eq x y) as [[]|]; try reflexivity. apply IH.
Qed.
Lemma yaml_eq_map m m' :
  yaml_eq (YMap m) (YMap m')
  = if Nat.eqb (List.length m) (List.length m') then ents_eq m m' else Some false.
Proof.
  cbn [yaml_eq]. destruct (Nat.eqb _ _); [|reflexivity].
  revert m'; induction m as [|[[p t k] [p1 t1 x]] m IH];
    intros [|[[p' t' k'] [p2 t2 y]] m']; try reflexivity.
  cbn [ents_eq]. unfold node_eq. cbn [n_yaml].
  destruct (yaml_eq k k') as [[]|]; try reflexivity.
  destruct (yaml_eq x y) as [[]|]; try reflexivity. apply IH.
Qed.

Lemma hash_seq l :
  hash_stream (YSeq l)
  = 6 :: N.of_nat (List.length l) :: flat_map (fun n => hash_stream (n_yaml n)) l.
Proof.
  cbn [hash_stream]. do 2 f_equal.
  induction l as [|[p t x] l IH]; [reflexivity|]. cbn [flat_map n_yaml]. now rewrite <- IH.
Qed.
Lemma hash_map m :
  hash_stream (YMap m)
  = 7 :: flat_map (fun kv => hash_stream (n_yaml (fst kv)) ++ hash_stream (n_yaml (snd kv))) m.
Proof.
  cbn [hash_stream]. f_equal.
  induction m as [|[[p t x] [p' t' x']] m IH]; [reflexivity|].
  cbn [flat_map n_yaml fst snd]. now rewrite <- IH, app_assoc.
Qed.

(** ** Floating point equality *)
Lemma f_eqb_sym x y : f_eqb x y = f_eqb y x.
Proof.
  destruct x as [|a|a m e], y as [|b|b m' e']; simpl; try reflexivity.
  - now destruct a, b.
  - rewrite (andb_comm (m =? 0)). rewrite (N.eqb_sym m' m), (Z.eqb_sym e' e).
    now destruct a, b.
Qed.
Definition feq (x y : f64) : bool := if f_is_nan x && f_is_nan y then true else f_eqb x y.
Lemma feq_refl x : feq x x = true.
Proof.
  destruct x as [|a|a m e]; unfold feq; simpl; [reflexivity|now destruct a|].
  rewrite N.eqb_refl, Z.eqb_refl. destruct a; simpl; now rewrite orb_true_r.
Qed.
Lemma feq_sym x y : feq x y = feq y x.
Proof. unfold feq. rewrite (andb_comm (f_is_nan x)), f_eqb_sym. reflexivity. Qed.
Lemma feq_trans x y z : feq x y = true -> feq y z = true -> feq x z = true.
Proof.
  unfold feq. destruct x as [|a|a m e], y as [|b|b m' e'], z as [|c|c m'' e''];
    simpl; try discriminate; try reflexivity.
  - destruct a, b, c; simpl; congruence.
  - rewrite !orb_true_iff, !andb_true_iff, !N.eqb_eq, !Z.eqb_eq.
    intros H1 H2.
    destruct H1 as [[-> ->]|[[E1 ->] ->]], H2 as [[? ->]|[[E2 <-] <-]]; auto.
    right. repeat split. apply eqb_prop in E1. apply eqb_prop in E2. subst. now destruct c.
Qed.

(** ** Decimal text of integers *)
Lemma digits_uint d : forall acc,
  digits_val 10 (Zpos acc) (uint_str d) = Some (Zpos (Pos.of_uint_acc d acc)).
Proof.
  induction d; intros acc; cbn [uint_str digits_val]; [reflexivity|..];
    match goal with |- match digit_val 10 ?c with _ => _ end = _ =>
      let v := eval vm_compute in (digit_val 10 c) in
      change (digit_val 10 c) with v; cbv iota beta
    end;
    cbn [Pos.of_uint_acc]; rewrite <- IHd; f_equal; lia.
Qed.
Lemma digits_uint0 d : digits_val 10 0 (uint_str d) = Some (Z.of_N (Pos.of_uint d)).
Proof.
  induction d; cbn [uint_str digits_val]; [reflexivity|..];
    match goal with |- match digit_val 10 ?c with _ => _ end = _ =>
      let v := eval vm_compute in (digit_val 10 c) in
      change (digit_val 10 c) with v; cbv iota beta
    end; cbn [Pos.of_uint].
  - exact IHd.
  - exact (digits_uint d 1).
  - exact (digits_uint d 2).
  - exact (digits_uint d 3).
  - exact (digits_uint d 4).
  - exact (digits_uint d 5).
  - exact (digits_uint d 6).
  - exact (digits_uint d 7).
  - exact (digits_uint d 8).
  - exact (digits_uint d 9).
Qed.
Lemma uint_str_digits d : forallb is_digit (uint_str d) = true.
Proof. induction d; simpl; auto. Qed.
Lemma show_N_digits n : forallb is_digit (show_N n) = true.
Proof. apply uint_str_digits. Qed.
Lemma show_N_nonempty n : show_N n <> [].
Proof.
  unfold show_N. destruct n as [|p]; [discriminate|].
  pose proof (DecimalPos.Unsigned.to_uint_nonnil p) as H.
  cbn [N.to_uint]. destruct (Pos.to_uint p); simpl; congruence.
Qed.
Lemma digits_show_N n : digits_val 10 0 (show_N n) = Some (Z.of_N n).
Proof.
  unfold show_N. rewrite digits_uint0. do 2 f_equal. apply DecimalN.Unsigned.of_to.
Qed.

Lemma starts_digits a b l : forallb is_digit l = true -> is_digit b = false ->
  starts_with [a; b] l = false.
Proof.
  intros H Hb. destruct l as [|x [|y l]]; simpl; try reflexivity.
  - now rewrite andb_false_r.
  - simpl in H. apply andb_true_iff in H as [_ H]. apply andb_true_iff in H as [Hy _].
    destruct (N.eqb_spec b y) as [->|]; [congruence|]. now rewrite andb_false_r.
Qed.
Lemma contains_digits a b l : forallb is_digit l = true -> is_digit b = false ->
  contains [a; b] l = false.
Proof.
  intros H Hb. induction l as [|x l IH].
  - reflexivity.
  - cbn [contains]. rewrite starts_digits by assumption. cbn [forallb] in H.
    apply andb_true_iff in H as [_ H]. now rewrite IH.
Qed.

(** an optional minus and decimal digits *)
Definition dec_text (s : str) : Prop :=
  exists neg ds, s = (if (neg : bool) then 45 :: ds else ds) /\ ds <> [] /\ forallb is_digit ds = true.

Lemma contains_dec b s : dec_text s -> is_digit b = false -> b <> 45 ->
  contains [48; b] s = false.
Proof.
  intros (neg & ds & -> & _ & Hd) Hb Hb'. destruct neg; [|now apply contains_digits].
  cbn [contains starts_with]. change (48 =? 45) with false. cbn [andb orb].
  now apply contains_digits.
Qed.

Lemma digits_not_sign ds : ds <> [] -> forallb is_digit ds = true ->
  match ds with
  | [] => None
  | 43 :: [] => None
  | 45 :: [] => None
  | 43 :: ds => digits_val 10 0 ds
  | 45 :: ds => option_map Z.opp (digits_val 10 0 ds)
  | ds => digits_val 10 0 ds
  end = digits_val 10 0 ds.
Proof.
  intros Hne H. destruct ds as [|x ds]; [congruence|]. simpl in H.
  apply andb_true_iff in H as [Hx _].
  destruct (N.eq_dec x 43) as [->|]; [discriminate|].
  destruct (N.eq_dec x 45) as [->|]; [discriminate|].
  destruct x as [|[[[[[[]|[]|]|[[]|[]|]|]|[[[]|[]|]|[[]|[]|]|]|]|[[[[]|[]|]|[[]|[]|]|]|[[[]|[]|]|[[]|[]|]|]|]|]|[[[[[]|[]|]|[[]|[]|]|]|[[[]|[]|]|[[]|[]|]|]|]|[[[[]|[]|]|[[]|[]|]|]|[[[]|[]|]|[[]|[]|]|]|]|]|]];
    try reflexivity; congruence.
Qed.

Lemma from_str_radix_digits ds : ds <> [] -> forallb is_digit ds = true ->
  from_str_radix 10 ds =
  match digits_val 10 0 ds with
  | Some z => if in_i64 z then Some z else None
  | None => None
  end.
Proof.
  intros Hne Hd. unfold from_str_radix. now rewrite digits_not_sign.
Qed.
Lemma from_str_radix_neg ds : ds <> [] ->
  from_str_radix 10 (45 :: ds) =
  match digits_val 10 0 ds with
  | Some z => if in_i64 (- z) then Some (- z)%Z else None
  | None => None
  end.
Proof.
  intros Hne. unfold from_str_radix. destruct ds as [|x ds]; [congruence|].
  now destruct (digits_val 10 0 (x :: ds)).
Qed.

Lemma show_Z_dec z : dec_text (show_Z z).
Proof.
  unfold dec_text. destruct z as [|p|p].
  - exists false, [48]. repeat split; discriminate.
  - exists false, (show_N (Npos p)). repeat split; [apply show_N_nonempty|apply show_N_digits].
  - exists true, (show_N (Npos p)). repeat split; [apply show_N_nonempty|apply show_N_digits].
Qed.

Lemma to_i64_dec s : dec_text s -> to_i64 s = from_str_radix 10 s.
Proof.
  intros H. unfold to_i64.
  rewrite (contains_dec 120 s H eq_refl) by discriminate.
  rewrite (contains_dec 111 s H eq_refl) by discriminate. reflexivity.
Qed.

Lemma to_i64_show z : in_i64 z = true -> to_i64 (show_Z z) = Some z.
Proof.
  intros H. rewrite to_i64_dec by apply show_Z_dec.
  destruct z as [|p|p].
  - reflexivity.
  - cbn [show_Z]. rewrite from_str_radix_digits by (apply show_N_nonempty || apply show_N_digits).
    rewrite digits_show_N. cbn [Z.of_N]. now rewrite H.
  - cbn [show_Z]. rewrite from_str_radix_neg by apply show_N_nonempty.
    rewrite digits_show_N. cbn [Z.of_N Z.opp]. now rewrite H.
Qed.

Lemma show_Z_inj a b : show_Z a = show_Z b -> a = b.
Proof.
  intros H.
  assert (D : forall p q, show_N p = show_N q -> p = q).
  { intros p q E. pose proof (digits_show_N p) as Hp. rewrite E, digits_show_N in Hp.
    injection Hp as Hp. lia. }
  assert (Nm : forall p q, show_N p <> 45 :: q).
  { intros p q E. pose proof (show_N_digits p) as Hp. rewrite E in Hp. discriminate. }
  destruct a as [|p|p], b as [|q|q]; cbn [show_Z] in H; try reflexivity;
    try (exfalso; eapply Nm; symmetry; exact H); try (exfalso; eapply Nm; exact H);
    try discriminate.
  - change [48] with (show_N 0) in H. apply D in H. discriminate.
  - change [48] with (show_N 0) in H. apply D in H. discriminate.
  - apply D in H. congruence.
  - injection H as H. apply D in H. congruence.
Qed.
