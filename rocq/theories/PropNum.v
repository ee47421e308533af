(** * PropNum: integer and float literals (C07, C09). *)
From Verif Require Export PropScan2.
Open Scope nat_scope.

(** ** Specification *)
Definition bound_char (c : N) : Prop := In c (lit ":{}[] ," ++ [10; 13])%N.

(** What may follow an integer literal: blanks, then a boundary byte. *)
Definition int_end (w rest : bytes) : Prop :=
  Forall blank w /\ exists c r, rest = c :: r /\ bound_char c /\ ~ blank c.

Definition digit (c : N) : Prop := (48 <= c <= 57)%N.
(** the letters the parser takes for octal and hexadecimal digits *)
Definition oct_char (c : N) : Prop := digit c \/ (98 <= c <= 104)%N \/ (66 <= c <= 72)%N.
Definition hex_char (c : N) : Prop := digit c \/ (98 <= c <= 112)%N \/ (66 <= c <= 80)%N.

Inductive int_literal : bytes -> Prop :=
| DecLit ds : ds <> [] -> Forall digit ds -> int_literal ds
| NegLit ds : ds <> [] -> Forall digit ds -> int_literal (45%N :: ds)
| OctLit ds : ds <> [] -> Forall oct_char ds -> int_literal (lit "0o" ++ ds)
| HexLit ds : ds <> [] -> Forall hex_char ds -> int_literal (lit "0x" ++ ds).

(** ** Lemmas *)
Lemma is_digit_spec c : is_digit c = true <-> digit c.
Proof. unfold is_digit, digit. now rewrite andb_true_iff, !N.leb_le. Qed.
Lemma digits_forallb ds : forallb is_digit ds = true <-> Forall digit ds.
Proof.
  rewrite forallb_forall, Forall_forall. split; intros H c Hc; apply is_digit_spec; auto.
Qed.
Lemma oct_spec c : ascii_digit 8 c = true <-> oct_char c.
Proof.
  unfold ascii_digit, oct_char. rewrite !orb_true_iff, !andb_true_iff, is_digit_spec, !N.ltb_lt.
  change (97 + 8)%N with 105%N. change (65 + 8)%N with 73%N. intuition lia.
Qed.
Lemma hex_spec c : ascii_digit 16 c = true <-> hex_char c.
Proof.
  unfold ascii_digit, hex_char. rewrite !orb_true_iff, !andb_true_iff, is_digit_spec, !N.ltb_lt.
  change (97 + 16)%N with 113%N. change (65 + 16)%N with 81%N. intuition lia.
Qed.
Lemma at_bound_spec l : at_bound l = true <-> exists c r, l = c :: r /\ bound_char c.
Proof.
  unfold at_bound, bound_char. destruct l as [|c r].
  - split; [discriminate|intros (? & ? & [=] & _)].
  - rewrite is_in_spec. split; [eauto|intros (? & ? & [= <- <-] & K); exact K].
Qed.

(** a byte that ends a number: a blank or a boundary *)
Definition stopper (l : bytes) : Prop :=
  exists c r, l = c :: r /\ (blank c \/ bound_char c).
Lemma stop_char c : blank c \/ bound_char c ->
  is_digit c = false /\ ascii_digit 8 c = false /\ ascii_digit 16 c = false
  /\ c <> 111%N /\ c <> 120%N /\ c <> 45%N /\ c <> 46%N /\ c <> 101%N /\ c <> 69%N.
Proof.
  intros [[->|[->| ->]]|K]; [repeat split; (reflexivity || discriminate)..|].
  unfold bound_char in K. simpl in K.
  repeat (destruct K as [<-|K]; [repeat split; (reflexivity || discriminate)|]). destruct K.
Qed.

Lemma num_len_dec t r : dec_text t -> (match r with [] => True | x :: _ => is_digit x = false end) ->
  num_len (t ++ r) = List.length t.
Proof.
  intros (neg & ds & -> & Hne & Hd) Hr. unfold num_len. destruct neg.
  - cbn [app]. rewrite N.eqb_refl. cbn [skipn]. cbv zeta.
    rewrite (span_app is_digit ds r Hd Hr). cbn [List.length].
    destruct (Nat.eqb_spec (List.length ds) 0) as [E|E]; [destruct ds; [congruence|discriminate]|].
    reflexivity.
  - destruct ds as [|x ds]; [congruence|]. cbn [app].
    assert (Hx : is_digit x = true) by (cbn [forallb] in Hd; apply andb_true_iff in Hd; tauto).
    rewrite (proj2 (N.eqb_neq x 45)) by (intros ->; discriminate). cbn [skipn]. cbv zeta.
    rewrite app_comm_cons, (span_app is_digit (x :: ds) r Hd Hr). reflexivity.
Qed.
Lemma dec_num_len l : num_len l <> 0 ->
  dec_text (firstn (num_len l) l)
  /\ match skipn (num_len l) l with [] => True | x :: _ => is_digit x = false end.
Proof.
  unfold num_len. cbv zeta.
  set (m := match l with x :: _ => if N.eqb x 45 then 1 else 0 | [] => 0 end).
  destruct (Nat.eqb_spec (span is_digit (skipn m l)) 0) as [D0|D0]; [congruence|]. intros _.
  split.
  - destruct l as [|x r]; [simpl in D0; subst m; simpl in D0; congruence|].
    subst m. destruct (N.eqb_spec x 45) as [->|Hx].
    + exists true, (firstn (span is_digit r) r). cbn [skipn] in *.
      split; [reflexivity|]. split; [|apply span_forall].
      intros K. apply D0. pose proof (firstn_length_le r (span_le is_digit r)) as HL.
      rewrite K in HL. simpl in HL. congruence.
    + exists false, (firstn (span is_digit (x :: r)) (x :: r)). cbn [skipn] in *.
      split; [reflexivity|]. split; [|apply span_forall].
      intros K. apply D0. pose proof (firstn_length_le (x :: r) (span_le is_digit (x :: r))) as HL.
      rewrite K in HL. simpl in HL. simpl. congruence.
  - rewrite <- skipn_add. destruct (skipn (span is_digit (skipn m l)) (skipn m l)) eqn:E; [exact I|].
    eapply span_next. exact E.
Qed.

Lemma dec_text_literal t : dec_text t -> int_literal t.
Proof.
  intros (neg & ds & -> & Hne & Hd). apply digits_forallb in Hd. destruct neg; constructor; assumption.
Qed.

Lemma radix_len_lit c i ds r : ds <> [] -> forallb (ascii_digit i) ds = true ->
  (match r with [] => True | x :: _ => ascii_digit i x = false end) ->
  radix_len c i (c :: ds ++ r) = S (List.length ds).
Proof.
  intros Hne Hd Hr. cbn [radix_len]. rewrite N.eqb_refl. cbv zeta.
  rewrite (span_app _ ds r Hd Hr).
  destruct (Nat.eqb_spec (List.length ds) 0) as [E|E]; [destruct ds; [congruence|discriminate]|reflexivity].
Qed.
Lemma radix_lit_len c i l : radix_len c i l <> 0 ->
  exists ds, firstn (radix_len c i l) l = c :: ds /\ ds <> [] /\ forallb (ascii_digit i) ds = true.
Proof.
  destruct l as [|x r]; cbn [radix_len]; [congruence|].
  destruct (N.eqb_spec x c) as [->|]; [|congruence]. cbv zeta.
  destruct (Nat.eqb_spec (span (ascii_digit i) r) 0) as [E|E]; [congruence|]. intros _.
  exists (firstn (span (ascii_digit i) r) r). cbn [firstn]. split; [reflexivity|].
  split; [|apply span_forall]. intros K.
  pose proof (firstn_length_le r (span_le (ascii_digit i) r)) as HL. rewrite K in HL. simpl in HL. congruence.
Qed.
Lemma forall_oct ds : forallb (ascii_digit 8) ds = true <-> Forall oct_char ds.
Proof. rewrite forallb_forall, Forall_forall. split; intros H c Hc; apply oct_spec; auto. Qed.
Lemma forall_hex ds : forallb (ascii_digit 16) ds = true <-> Forall hex_char ds.
Proof. rewrite forallb_forall, Forall_forall. split; intros H c Hc; apply hex_spec; auto. Qed.

Lemma is_zero_spec l : is_zero l = true <-> l = [48%N].
Proof. rewrite is_zero_eq. apply str_eqb_eq. Qed.

Lemma num_len_literal_pos t r : int_literal t -> stopper r ->
  num_len (t ++ r) <> 0 /\ int_len (t ++ r) = List.length t.
Proof.
  intros Ht (c & r' & -> & Hc). destruct (stop_char c Hc) as (S1 & S2 & S3 & S4 & S5 & _).
  assert (DEC : forall t, dec_text t -> num_len (t ++ c :: r') <> 0 /\ int_len (t ++ c :: r') = List.length t).
  { clear Ht t. intros t Ht. pose proof (num_len_dec t (c :: r') Ht S1) as HN.
    assert (HP : List.length t <> 0).
    { destruct Ht as ([] & ds & -> & Hne & _); [discriminate|]. destruct ds; [congruence|discriminate]. }
    split; [lia|]. unfold int_len. cbv zeta. rewrite HN.
    destruct (is_zero (firstn (List.length t) (t ++ c :: r'))); [|reflexivity].
    rewrite skipn_exact. cbn [radix_len].
    rewrite (proj2 (N.eqb_neq c 111) S4), (proj2 (N.eqb_neq c 120) S5). simpl. lia. }
  destruct Ht as [ds Hne Hd|ds Hne Hd|ds Hne Hd|ds Hne Hd].
  - apply DEC. exists false, ds. repeat split; auto. now apply digits_forallb.
  - apply DEC. exists true, ds. repeat split; auto. now apply digits_forallb.
  - apply forall_oct in Hd.
    assert (HN : num_len ((lit "0o" ++ ds) ++ c :: r') = 1).
    { apply (num_len_dec [48%N] (111%N :: ds ++ c :: r')); [|reflexivity].
      exists false, [48%N]. repeat split; discriminate. }
    split; [lia|]. unfold int_len. cbv zeta. rewrite HN. cbn [app firstn skipn].
    rewrite (proj2 (is_zero_spec _) eq_refl).
    rewrite (radix_len_lit 111 8 ds (c :: r') Hne Hd S2). cbn. reflexivity.
  - apply forall_hex in Hd.
    assert (HN : num_len ((lit "0x" ++ ds) ++ c :: r') = 1).
    { apply (num_len_dec [48%N] (120%N :: ds ++ c :: r')); [|reflexivity].
      exists false, [48%N]. repeat split; discriminate. }
    split; [lia|]. unfold int_len. cbv zeta. rewrite HN. cbn [app firstn skipn].
    rewrite (proj2 (is_zero_spec _) eq_refl).
    replace (radix_len 111 8 (120%N :: ds ++ c :: r')) with 0 by reflexivity.
    rewrite (radix_len_lit 120 16 ds (c :: r') Hne Hd S3). cbn. reflexivity.
Qed.

Lemma int_len_literal l : num_len l <> 0 -> int_literal (firstn (int_len l) l).
Proof.
  intros HN. destruct (dec_num_len l HN) as [HD _]. unfold int_len. cbv zeta.
  destruct (is_zero (firstn (num_len l) l)) eqn:EZ; [|now apply dec_text_literal].
  apply is_zero_spec in EZ.
  destruct (Nat.eqb_spec (radix_len 111 8 (skipn (num_len l) l)) 0) as [O0|O0].
  - destruct (Nat.eq_dec (radix_len 120 16 (skipn (num_len l) l)) 0) as [X0|X0].
    + rewrite X0, Nat.add_0_r. now apply dec_text_literal.
    + rewrite firstn_add, EZ. destruct (radix_lit_len _ _ _ X0) as (ds & -> & Hne & Hd).
      apply (HexLit ds Hne). now apply forall_hex.
  - rewrite firstn_add, EZ. destruct (radix_lit_len _ _ _ O0) as (ds & -> & Hne & Hd).
    apply (OctLit ds Hne). now apply forall_oct.
Qed.

Lemma int_literal_ascii t : int_literal t -> forallb (fun c => N.ltb c 128) t = true.
Proof.
  intros H. apply forallb_forall. intros c Hc. apply N.ltb_lt.
  destruct H as [ds _ F|ds _ F|ds _ F|ds _ F]; rewrite Forall_forall in F.
  - apply F in Hc. unfold digit in Hc. lia.
  - destruct Hc as [<-|Hc]; [lia|]. apply F in Hc. unfold digit in Hc. lia.
  - apply in_app_or in Hc as [Hc|Hc]; [destruct Hc as [<-|[<-|[]]]; lia|].
    apply F in Hc. unfold oct_char, digit in Hc. lia.
  - apply in_app_or in Hc as [Hc|Hc]; [destruct Hc as [<-|[<-|[]]]; lia|].
    apply F in Hc. unfold hex_char, digit in Hc. lia.
Qed.

Lemma int_f_spec l t k : int_f l = Some (t, k) ->
  exists w rest, l = firstn t l ++ w ++ rest /\ int_literal (firstn t l) /\ int_end w rest
    /\ k = t + List.length w /\ t <= List.length l.
Proof.
  unfold int_f. cbv zeta. destruct (Nat.eqb_spec (num_len l) 0) as [|HN]; [discriminate|].
  set (a := int_len l). set (w := ws_len (skipn a l)).
  destruct (at_bound (skipn (a + w) l)) eqn:B; [|discriminate]. intros [= <- <-].
  exists (firstn w (skipn a l)), (skipn w (skipn a l)).
  assert (Ha : a <= List.length l) by apply int_len_le.
  split; [now rewrite !firstn_skipn|]. split; [now apply int_len_literal|].
  split; [|split; [rewrite firstn_length_le by apply span_le; reflexivity|exact Ha]].
  split.
  - eapply Forall_impl; [|apply firstn_span_forall]. intros c. apply is_ws_blank.
  - rewrite <- skipn_add in B. apply at_bound_spec in B as (c & r & E & Hc).
    exists c, r. split; [exact E|]. split; [exact Hc|]. intros K. apply is_ws_blank in K.
    unfold w in E. apply span_next in E. congruence.
Qed.
Lemma int_f_complete t w rest : int_literal t -> int_end w rest ->
  int_f (t ++ w ++ rest) = Some (List.length t, List.length t + List.length w).
Proof.
  intros Ht (Hw & c & r & -> & Hc & Hnb).
  assert (ST : stopper (w ++ c :: r)).
  { destruct w as [|x w]; [exists c, r; auto|]. inversion Hw; subst. exists x, (w ++ c :: r). auto. }
  destruct (num_len_literal_pos _ _ Ht ST) as [HN HI].
  unfold int_f. cbv zeta. rewrite (proj2 (Nat.eqb_neq _ 0) HN), HI, skipn_exact.
  rewrite (ws_len_app w (c :: r) Hw Hnb).
  rewrite <- skipn_add, skipn_exact, skipn_exact.
  rewrite (proj2 (at_bound_spec (c :: r))) by eauto. reflexivity.
Qed.

(** ** C07 *)
(** From a checkpoint, int() accepts exactly a literal followed by blanks and a
    boundary byte; it returns the literal and stops at the boundary; otherwise
    nothing changes. *)
Theorem C07_int_language : forall s,
  p_pos s <= List.length (p_doc s) -> p_eaten s = p_pos s ->
  (forall t s', int s = (ROk t, s') <->
     exists w rest, skipn (p_pos s) (p_doc s) = t ++ w ++ rest /\ int_literal t /\ int_end w rest
       /\ s' = set_pos (p_pos s + List.length t + List.length w) s)
  /\ ((exists t s', int s = (ROk t, s')) \/ int s = (RErr Mismatch, s)).
Proof.
  intros s H E. rewrite (int_exec s H E). fold (rem s).
  destruct (int_f (rem s)) as [[a k]|] eqn:F.
  - destruct (int_f_spec _ _ _ F) as (w & rest & El & Hl & He & -> & Ha).
    rewrite utf8_lossy_ascii by now apply int_literal_ascii.
    split; [|left; eauto]. intros t s'. split.
    + intros [= <- <-]. exists w, rest. repeat split; auto; try apply He.
      rewrite firstn_length_le by exact Ha. now rewrite Nat.add_assoc.
    + intros (w' & rest' & El' & Hl' & He' & ->).
      rewrite El', (int_f_complete _ _ _ Hl' He') in F. injection F as <- EW.
      rewrite El', firstn_app, firstn_all, Nat.sub_diag, app_nil_r.
      match goal with |- (_, set_pos ?a _) = (_, set_pos ?b _) => replace a with b by lia end.
      reflexivity.
  - split; [|now right]. intros t s'. split; [discriminate|].
    intros (w' & rest' & El' & Hl' & He' & ->).
    rewrite El', (int_f_complete _ _ _ Hl' He') in F. discriminate.
Qed.

(** Positional value of a digit string. *)
Definition digit_num (c : N) : Z :=
  (if N.leb c 57 then Z.of_N c - 48 else if N.leb c 70 then Z.of_N c - 55 else Z.of_N c - 87)%Z.
Definition positional (radix : Z) (ds : bytes) : Z :=
  fold_left (fun a c => (a * radix + digit_num c)%Z) ds 0%Z.
Definition octal_digit (c : N) : Prop := (48 <= c <= 55)%N.
Definition hexa_digit (c : N) : Prop := digit c \/ (97 <= c <= 102)%N \/ (65 <= c <= 70)%N.

Lemma digits_val_positional radix ds :
  Forall (fun c => digit_val radix c = Some (digit_num c)) ds -> forall acc,
  digits_val radix acc ds = Some (fold_left (fun a c => (a * radix + digit_num c)%Z) ds acc).
Proof.
  induction 1 as [|c ds Hc _ IH]; intros acc; cbn [digits_val fold_left]; [reflexivity|].
  rewrite Hc. apply IH.
Qed.
Lemma dv10 c : digit c -> digit_val 10 c = Some (digit_num c).
Proof.
  intros H. unfold digit_val. rewrite (proj2 (is_digit_spec c) H). cbv zeta.
  unfold digit, digit_num in *. destruct (Z.ltb_spec (Z.of_N c - 48) 10); [|lia].
  destruct (N.leb_spec c 57); [reflexivity|lia].
Qed.
Lemma dv8 c : octal_digit c -> digit_val 8 c = Some (digit_num c).
Proof.
  intros H. unfold octal_digit in H. unfold digit_val.
  rewrite (proj2 (is_digit_spec c)) by (unfold digit; lia). cbv zeta.
  unfold digit_num. destruct (Z.ltb_spec (Z.of_N c - 48) 8); [|lia].
  destruct (N.leb_spec c 57); [reflexivity|lia].
Qed.
Lemma dv16 c : hexa_digit c -> digit_val 16 c = Some (digit_num c).
Proof.
  intros [H|[H|H]]; unfold digit_val, digit_num; cbv zeta.
  - rewrite (proj2 (is_digit_spec c) H). unfold digit in H.
    destruct (Z.ltb_spec (Z.of_N c - 48) 16); [|lia]. destruct (N.leb_spec c 57); [reflexivity|lia].
  - destruct (is_digit c) eqn:D; [apply is_digit_spec in D; unfold digit in D; lia|].
    rewrite (proj2 (N.leb_le 97 c)), (proj2 (N.leb_le c 102)) by lia. cbn [andb].
    destruct (Z.ltb_spec (Z.of_N c - 87) 16); [|lia].
    destruct (N.leb_spec c 57); [lia|]. destruct (N.leb_spec c 70); [lia|reflexivity].
  - destruct (is_digit c) eqn:D; [apply is_digit_spec in D; unfold digit in D; lia|].
    rewrite (proj2 (N.leb_gt 97 c)) by lia. cbn [andb].
    rewrite (proj2 (N.leb_le 65 c)), (proj2 (N.leb_le c 70)) by lia. cbn [andb].
    destruct (Z.ltb_spec (Z.of_N c - 55) 16); [|lia].
    destruct (N.leb_spec c 57); [lia|reflexivity].
Qed.

Lemma remove2_none a b l : ~ In b l -> remove2 a b l = l.
Proof.
  induction l as [|x l IH]; intros H; [reflexivity|].
  destruct l as [|y l]; [reflexivity|].
  cbn [remove2]. rewrite (proj2 (N.eqb_neq y b)) by (intros ->; apply H; right; now left).
  rewrite andb_false_r. f_equal. apply IH. intros K. apply H. now right.
Qed.
Lemma contains_none a b l : ~ In b l -> contains [a; b] l = false.
Proof.
  induction l as [|x l IH]; intros H; [reflexivity|]. cbn [contains].
  rewrite IH by (intros K; apply H; now right). rewrite orb_false_r.
  destruct l as [|y l]; cbn [starts_with]; [now rewrite andb_false_r|].
  rewrite (proj2 (N.eqb_neq b y)) by (intros ->; apply H; right; now left).
  now rewrite andb_false_r.
Qed.
Lemma radix_nosign radix ds : ds <> [] -> Forall hexa_digit ds ->
  match ds with
  | [] => None
  | 43%N :: [] => None
  | 45%N :: [] => None
  | 43%N :: ds => digits_val radix 0 ds
  | 45%N :: ds => option_map Z.opp (digits_val radix 0 ds)
  | ds => digits_val radix 0 ds
  end = digits_val radix 0 ds.
Proof.
  intros Hne H. destruct ds as [|x ds]; [congruence|]. inversion H as [|? ? Hx _]; subst.
  assert (x <> 43%N /\ x <> 45%N) as [H1 H2] by (unfold hexa_digit, digit in Hx; lia).
  destruct x as [|[[[[[[]|[]|]|[[]|[]|]|]|[[[]|[]|]|[[]|[]|]|]|]|[[[[]|[]|]|[[]|[]|]|]|[[[]|[]|]|[[]|[]|]|]|]|]|[[[[[]|[]|]|[[]|[]|]|]|[[[]|[]|]|[[]|[]|]|]|]|[[[[]|[]|]|[[]|[]|]|]|[[[]|[]|]|[[]|[]|]|]|]|]|]];
    try reflexivity; congruence.
Qed.

(** The value of a literal is its positional value, and there is none exactly
    when that is outside i64. *)
Theorem C07_int_value : forall ds, ds <> [] ->
  (Forall digit ds ->
     to_i64 ds = (if in_i64 (positional 10 ds) then Some (positional 10 ds) else None)
     /\ to_i64 (45%N :: ds)
        = (if in_i64 (- positional 10 ds) then Some (- positional 10 ds)%Z else None))
  /\ (Forall octal_digit ds ->
     to_i64 (lit "0o" ++ ds) = if in_i64 (positional 8 ds) then Some (positional 8 ds) else None)
  /\ (Forall hexa_digit ds ->
     to_i64 (lit "0x" ++ ds) = if in_i64 (positional 16 ds) then Some (positional 16 ds) else None).
Proof.
  intros ds Hne. split; [|split].
  - intros Hd. pose proof (proj2 (digits_forallb ds) Hd) as Hd'.
    assert (V : digits_val 10 0 ds = Some (positional 10 ds)).
    { apply digits_val_positional. eapply Forall_impl; [|exact Hd]. apply dv10. }
    split.
    + rewrite to_i64_dec by (exists false, ds; auto).
      rewrite from_str_radix_digits by assumption. now rewrite V.
    + rewrite to_i64_dec by (exists true, ds; auto).
      rewrite from_str_radix_neg by assumption. now rewrite V.
  - intros Hd. unfold to_i64.
    assert (Hx : forall c, In c ds -> octal_digit c) by (now apply Forall_forall).
    assert (N1 : ~ In 120%N (lit "0o" ++ ds)).
    { intros K. apply in_app_or in K as [[K|[K|[]]]|K]; try discriminate.
      apply Hx in K. unfold octal_digit in K. lia. }
    rewrite (contains_none _ _ _ N1).
    replace (contains (lit "0o") (lit "0o" ++ ds)) with true by reflexivity.
    replace (remove2 48 111 (lit "0o" ++ ds)) with ds.
    2:{ cbn [app remove2]. cbn [N.eqb Pos.eqb andb]. symmetry. apply remove2_none.
        intros K. apply Hx in K. unfold octal_digit in K. lia. }
    unfold from_str_radix. rewrite radix_nosign.
    + rewrite (digits_val_positional 8) by (eapply Forall_impl; [|exact Hd]; apply dv8). reflexivity.
    + assumption.
    + eapply Forall_impl; [|exact Hd]. intros c. unfold octal_digit, hexa_digit, digit. lia.
  - intros Hd. unfold to_i64.
    assert (Hx : forall c, In c ds -> hexa_digit c) by (now apply Forall_forall).
    replace (contains (lit "0x") (lit "0x" ++ ds)) with true by reflexivity.
    replace (remove2 48 120 (lit "0x" ++ ds)) with ds.
    2:{ cbn [app remove2]. cbn [N.eqb Pos.eqb andb]. symmetry. apply remove2_none.
        intros K. apply Hx in K. unfold hexa_digit, digit in K. lia. }
    unfold from_str_radix. rewrite radix_nosign by assumption.
    rewrite (digits_val_positional 16) by (eapply Forall_impl; [|exact Hd]; apply dv16). reflexivity.
Qed.

(** What a user would expect and does not get: a literal at the end of the input
    is not accepted, hexadecimal digits a/A are not accepted, and non-digits are
    accepted, giving an integer node without value. *)
Theorem C07_int_refuted :
  (forall hk t, int_literal t -> int (new_st hk false t) = (RErr Mismatch, new_st hk false t))
  /\ (forall hk, fst (int (new_st hk false (lit "0xa" ++ [10%N]))) = RErr Mismatch)
  /\ (forall hk, fst (int (new_st hk false (lit "0xg" ++ [10%N]))) = ROk (lit "0xg"))
  /\ to_i64 (lit "0xg") = None.
Proof.
  split; [|repeat split; vm_compute; reflexivity].
  intros hk t Ht.
  destruct (C07_int_language (new_st hk false t)) as [HL [(t' & s' & E)|E]];
    [simpl; lia|reflexivity| |exact E].
  exfalso. apply HL in E as (w & rest & El & Hl & (Hw & c & r & -> & Hc & _) & _).
  cbn [p_pos p_doc new_st skipn] in El.
  assert (Hin : In c t) by (rewrite El; apply in_or_app; right; apply in_or_app; right; now left).
  unfold bound_char in Hc. simpl in Hc.
  destruct Ht as [ds _ F|ds _ F|ds _ F|ds _ F]; rewrite Forall_forall in F;
    unfold digit, oct_char, hex_char, digit in F.
  - apply F in Hin. lia.
  - destruct Hin as [<-|Hin]; [lia|]. apply F in Hin. lia.
  - apply in_app_or in Hin as [[<-|[<-|[]]]|Hin]; [lia..|]. apply F in Hin. lia.
  - apply in_app_or in Hin as [[<-|[<-|[]]]|Hin]; [lia..|]. apply F in Hin. lia.
Qed.
Example C07_witness :
  let s := new_st (fun _ => 0%N) false (lit "-42  ,x") in
  int s = (ROk (lit "-42"), set_pos 5 s) /\ to_i64 (lit "-42") = Some (-42)%Z
  /\ int_literal (lit "-42") /\ int_end (lit "  ") (lit ",x").
Proof.
  cbv zeta. split; [vm_compute; reflexivity|]. split; [vm_compute; reflexivity|]. split.
  - apply (NegLit (lit "42")); [discriminate|]. repeat constructor; unfold digit; lia.
  - split; [repeat constructor|]. exists 44%N, (lit "x"). repeat split; [|unfold blank; lia].
    unfold bound_char. simpl. tauto.
Qed.
