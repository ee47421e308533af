(** * PropFloat: float literals (C09). *)
From Verif Require Export PropNum.
Open Scope nat_scope.

(** ** Specification *)
Definition sign (neg : bool) : bytes := if neg then [45%N] else [].

(** [-] digit+ . digit* *)
Inductive float_literal : bytes -> Prop :=
| FloatLit neg ds fs : ds <> [] -> Forall digit ds -> Forall digit fs ->
    float_literal (sign neg ++ ds ++ 46%N :: fs).
(** [-] digit+ (e|E) [+|-] digit+ *)
Inductive sci_literal : bytes -> Prop :=
| SciLit neg ds e sg es : ds <> [] -> Forall digit ds -> e = 101%N \/ e = 69%N ->
    sg = [] \/ sg = [43%N] \/ sg = [45%N] -> es <> [] -> Forall digit es ->
    sci_literal (sign neg ++ ds ++ e :: sg ++ es).

(** What may follow a float literal: a boundary byte, or blanks the last of
    which is a space (then anything that is not a blank). *)
Definition float_end (w rest : bytes) : Prop :=
  Forall blank w /\ (forall c r, rest = c :: r -> ~ blank c)
  /\ ((w = [] /\ exists c r, rest = c :: r /\ bound_char c)
      \/ exists w', w = w' ++ [32%N]).

(** The literal without its final [.0], if it ends so. *)
Inductive without_dot0 : bytes -> bytes -> Prop :=
| DropDot0 t : without_dot0 (t ++ [46; 48]%N) t
| NoDot0 t : (forall u, t <> u ++ [46; 48]%N) -> without_dot0 t t.

(** ** The tail *)
Lemma blank_at_bound w rest : w <> [] ->
  at_bound (skipn (List.length w - 1) (w ++ rest)) = true ->
  Forall blank w -> exists w', w = w' ++ [32%N].
Proof.
  intros Hne HB Hw. destruct (exists_last Hne) as (w' & x & ->). exists w'.
  rewrite app_length in HB. simpl in HB. replace (List.length w' + 1 - 1) with (List.length w') in HB by lia.
  rewrite <- app_assoc, skipn_exact in HB. cbn [app at_bound] in HB.
  apply Forall_app in Hw as [_ Hx]. inversion Hx as [|? ? Hb _]; subst.
  apply is_in_spec in HB. f_equal. f_equal. destruct Hb as [->|[->| ->]]; [reflexivity|..];
    simpl in HB; repeat (destruct HB as [HB|HB]; [discriminate|]); destruct HB.
Qed.

Lemma float_tail_spec a l k : a <= List.length l -> float_tail a l = Some (a, k) ->
  exists w rest, l = firstn a l ++ w ++ rest /\ float_end w rest /\ k = a + List.length w.
Proof.
  intros Ha. unfold float_tail. cbv zeta. set (w := ws_len (skipn a l)).
  destruct (at_bound _) eqn:B; [|discriminate]. intros [= <-].
  assert (Hw : w <= List.length (skipn a l)) by apply span_le.
  exists (firstn w (skipn a l)), (skipn w (skipn a l)).
  assert (FB : Forall blank (firstn w (skipn a l))).
  { eapply Forall_impl; [|apply firstn_span_forall]. intros c. apply is_ws_blank. }
  assert (LW : List.length (firstn w (skipn a l)) = w) by now apply firstn_length_le.
  split; [now rewrite !firstn_skipn|]. split; [|now rewrite LW].
  split; [exact FB|]. split.
  { intros c r E K. apply is_ws_blank in K. unfold w in E. apply span_next in E. congruence. }
  destruct (Nat.eq_dec w 0) as [W0|W0].
  - left. rewrite W0 in B |- *. cbn [firstn skipn]. split; [reflexivity|].
    simpl in B. rewrite Nat.add_0_r in B. now apply at_bound_spec.
  - right. eapply (blank_at_bound _ (skipn w (skipn a l))); [|  |exact FB].
    + intros K. rewrite K in LW. simpl in LW. congruence.
    + rewrite LW, firstn_skipn. now rewrite skipn_add.
Qed.
Lemma float_tail_complete t w rest : float_end w rest ->
  float_tail (List.length t) (t ++ w ++ rest) = Some (List.length t, List.length t + List.length w).
Proof.
  intros (Hw & Hn & H). unfold float_tail. cbv zeta. rewrite skipn_exact.
  assert (W : ws_len (w ++ rest) = List.length w).
  { unfold ws_len. apply span_app.
    - apply forallb_forall. intros c Hc. apply is_ws_blank. rewrite Forall_forall in Hw. auto.
    - destruct rest as [|c r]; [exact I|]. specialize (Hn c r eq_refl).
      destruct (is_ws c) eqn:E; [|reflexivity]. now apply is_ws_blank in E. }
  rewrite W, <- skipn_add, skipn_exact.
  destruct H as [(-> & c & r & -> & Hc)|(w' & ->)].
  - cbn [List.length Nat.sub skipn app]. now rewrite (proj2 (at_bound_spec (c :: r))) by eauto.
  - rewrite app_length. cbn [List.length].
    replace (List.length w' + 1 - 1) with (List.length w') by lia.
    rewrite <- app_assoc, skipn_exact. reflexivity.
Qed.
Lemma float_end_stop w rest : float_end w rest -> exists c r, w ++ rest = c :: r /\ (blank c \/ bound_char c).
Proof.
  intros (Hw & _ & [(-> & c & r & -> & Hc)|(w' & ->)]); [exists c, r; auto|].
  destruct w' as [|x w']; [exists 32%N, rest; split; [reflexivity|left; now left]|].
  inversion Hw; subst. exists x, ((w' ++ [32%N]) ++ rest). auto.
Qed.

(** ** The literal *)
Lemma sign_dec neg ds : ds <> [] -> Forall digit ds -> dec_text (sign neg ++ ds).
Proof.
  intros Hne Hd. exists neg, ds. split; [now destruct neg|]. split; [exact Hne|]. now apply digits_forallb.
Qed.
Lemma dec_sign t : dec_text t -> exists neg ds, t = sign neg ++ ds /\ ds <> [] /\ Forall digit ds.
Proof.
  intros (neg & ds & -> & Hne & Hd). exists neg, ds.
  split; [now destruct neg|]. split; [exact Hne|]. now apply digits_forallb.
Qed.
Lemma sign_ds_pos neg (ds : bytes) : ds <> [] -> List.length (sign neg ++ ds) <> 0.
Proof. destruct neg, ds; simpl; congruence. Qed.

Lemma float_len_literal l : float_len l <> 0 -> float_literal (firstn (float_len l) l).
Proof.
  unfold float_len. cbv zeta. destruct (skipn (num_len l) l) as [|x r] eqn:E; [congruence|].
  destruct (Nat.eqb_spec (num_len l) 0) as [N0|N0]; [congruence|].
  destruct (N.eqb_spec x 46) as [->|]; [|congruence]. intros _.
  destruct (dec_num_len l N0) as [HD _].
  rewrite <- Nat.add_assoc, firstn_add, E. cbn [Nat.add firstn].
  destruct (dec_sign _ HD) as (neg & ds & -> & Hne & Hd).
  rewrite <- app_assoc. constructor; auto. apply digits_forallb. apply span_forall.
Qed.
Lemma float_len_complete t c r : float_literal t -> blank c \/ bound_char c ->
  float_len (t ++ c :: r) = List.length t.
Proof.
  intros [neg ds fs Hne Hd Hf] Hc. destruct (stop_char c Hc) as (S1 & _).
  unfold float_len. cbv zeta.
  assert (A : (sign neg ++ ds ++ 46%N :: fs) ++ c :: r = (sign neg ++ ds) ++ 46%N :: fs ++ c :: r)
    by (rewrite <- !app_assoc; reflexivity).
  rewrite A. pose proof (sign_dec neg ds Hne Hd) as HD.
  rewrite (num_len_dec _ _ HD) by reflexivity. rewrite skipn_exact.
  rewrite (proj2 (Nat.eqb_neq _ 0)) by now apply sign_ds_pos. rewrite N.eqb_refl.
  rewrite (span_app is_digit fs (c :: r)); [|now apply digits_forallb|exact S1].
  rewrite !app_length. cbn [List.length]. lia.
Qed.

Lemma is_in_sg x : is_in (lit "+-") x = true <-> x = 43%N \/ x = 45%N.
Proof. rewrite is_in_spec. simpl. intuition. Qed.
Lemma sci_len_literal l : sci_len l <> 0 -> sci_literal (firstn (sci_len l) l).
Proof.
  unfold sci_len. cbv zeta. destruct (Nat.eqb_spec (num_len l) 0) as [N0|N0]; [congruence|].
  destruct (skipn (num_len l) l) as [|x r] eqn:E; [congruence|].
  destruct (is_in (lit "eE") x) eqn:Ex; [|congruence].
  set (g := Nat.min 1 (span (is_in (lit "+-")) r)).
  destruct (Nat.eqb_spec (span is_digit (skipn g r)) 0) as [D0|D0]; [congruence|]. intros _.
  destruct (dec_num_len l N0) as [HD _].
  replace (num_len l + 1 + g + span is_digit (skipn g r))
    with (num_len l + (1 + (g + span is_digit (skipn g r)))) by lia.
  rewrite firstn_add, E. cbn [Nat.add firstn]. rewrite firstn_add.
  destruct (dec_sign _ HD) as (neg & ds & -> & Hne & Hd).
  rewrite <- app_assoc. constructor; auto.
  - apply is_in_spec in Ex. simpl in Ex. intuition.
  - subst g. destruct r as [|y r']; [now left|]. cbn [span].
    destruct (is_in (lit "+-") y) eqn:Ey; [|now left]. right.
    change (Nat.min 1 (S (span (is_in (lit "+-")) r'))) with 1. cbn [firstn].
    apply is_in_sg in Ey as [->| ->]; auto.
  - intros K. pose proof (firstn_length_le _ (span_le is_digit (skipn g r))) as HL.
    rewrite K in HL. simpl in HL. congruence.
  - apply digits_forallb. apply span_forall.
Qed.
Lemma sci_len_complete t c r : sci_literal t -> blank c \/ bound_char c ->
  sci_len (t ++ c :: r) = List.length t.
Proof.
  intros [neg ds e sg es Hne Hd He Hsg Hes Hf] Hc. destruct (stop_char c Hc) as (S1 & _).
  unfold sci_len. cbv zeta.
  assert (A : (sign neg ++ ds ++ e :: sg ++ es) ++ c :: r = (sign neg ++ ds) ++ e :: sg ++ es ++ c :: r)
    by (rewrite <- !app_assoc; cbn [app]; now rewrite <- !app_assoc).
  rewrite A. pose proof (sign_dec neg ds Hne Hd) as HD.
  assert (Ee : is_digit e = false) by (destruct He as [->| ->]; reflexivity).
  rewrite (num_len_dec _ _ HD) by exact Ee. rewrite skipn_exact.
  rewrite (proj2 (Nat.eqb_neq _ 0)) by now apply sign_ds_pos.
  assert (Ei : is_in (lit "eE") e = true) by (apply is_in_spec; simpl; intuition).
  rewrite Ei.
  destruct es as [|y es]; [congruence|].
  assert (Hy : digit y) by (inversion Hf; assumption).
  assert (G : Nat.min 1 (span (is_in (lit "+-")) (sg ++ (y :: es) ++ c :: r)) = List.length sg).
  { assert (Y : is_in (lit "+-") y = false).
    { destruct (is_in (lit "+-") y) eqn:Y; [|reflexivity]. apply is_in_sg in Y. unfold digit in Hy. lia. }
    destruct Hsg as [->|[->| ->]]; cbn [app span].
    - now rewrite Y.
    - replace (is_in (lit "+-") 43) with true by reflexivity. reflexivity.
    - replace (is_in (lit "+-") 45) with true by reflexivity. reflexivity. }
  rewrite G, skipn_exact.
  rewrite (span_app is_digit (y :: es) (c :: r)); [|now apply digits_forallb|exact S1].
  cbn [List.length Nat.eqb]. rewrite !app_length. cbn [List.length]. rewrite app_length. cbn [List.length]. lia.
Qed.

Lemma float_literal_ascii t : float_literal t \/ sci_literal t ->
  forallb (fun c => N.ltb c 128) t = true.
Proof.
  intros H. apply forallb_forall. intros c Hc. apply N.ltb_lt.
  assert (D : forall l, Forall digit l -> In c l -> (c < 128)%N).
  { intros l Hl Hin. rewrite Forall_forall in Hl. apply Hl in Hin. unfold digit in Hin. lia. }
  assert (SG : forall neg, In c (sign neg) -> (c < 128)%N).
  { intros [] Hin; simpl in Hin; [|tauto]. destruct Hin as [<-|[]]. lia. }
  destruct H as [H|H]; [destruct H as [neg ds fs _ Hd Hf]|destruct H as [neg ds e sg es _ Hd He Hsg _ Hf]].
  - apply in_app_or in Hc as [Hc|Hc]; [eauto|]. apply in_app_or in Hc as [Hc|Hc]; [eauto|].
    destruct Hc as [<-|Hc]; [lia|eauto].
  - apply in_app_or in Hc as [Hc|Hc]; [eauto|]. apply in_app_or in Hc as [Hc|Hc]; [eauto|].
    destruct Hc as [<-|Hc]; [destruct He as [->| ->]; lia|].
    apply in_app_or in Hc as [Hc|Hc]; [|eauto].
    destruct Hsg as [->|[->| ->]]; simpl in Hc; intuition lia.
Qed.

(** ** Dropping [.0] *)
Lemma dot0_cases t : (exists u, t = u ++ [46; 48]%N) \/ forall u, t <> u ++ [46; 48]%N.
Proof.
  rewrite <- (rev_involutive t). destruct (rev t) as [|x [|y r]].
  - right. intros u E. destruct u; discriminate.
  - right. intros u E. simpl in E. destruct u as [|? [|? ?]]; discriminate.
  - cbn [rev]. destruct (N.eq_dec x 48) as [->|H1].
    + destruct (N.eq_dec y 46) as [->|H2].
      * left. exists (rev r). now rewrite <- app_assoc.
      * right. intros u E. apply (f_equal (@rev N)) in E; rewrite !rev_app_distr in E; simpl in E; injection E as E; congruence.
    + right. intros u E. apply (f_equal (@rev N)) in E. rewrite !rev_app_distr in E.
      simpl in E. injection E as E _ _. congruence.
Qed.
Lemma strip_none r : (forall v, r <> 48%N :: 46%N :: v) -> strip_rev_dot0 r = r.
Proof.
  intros H. destruct r as [|x [|y r]]; try reflexivity. cbn [strip_rev_dot0].
  destruct (N.eqb_spec x 48) as [->|]; [|reflexivity].
  destruct (N.eqb_spec y 46) as [->|]; [|reflexivity]. destruct (H r eq_refl).
Qed.
Lemma trim_none t : (forall u, t <> u ++ [46; 48]%N) -> trim_end_dot0 t = t.
Proof.
  intros H. unfold trim_end_dot0. rewrite strip_none; [apply rev_involutive|].
  intros v E. apply (f_equal (@rev N)) in E. rewrite rev_involutive in E. cbn [rev] in E.
  rewrite <- app_assoc in E. exact (H _ E).
Qed.
Lemma trim_one t : (forall u, t <> u ++ [46; 48]%N) -> trim_end_dot0 (t ++ [46; 48]%N) = t.
Proof.
  intros H. rewrite <- (trim_none t H) at 2. unfold trim_end_dot0.
  rewrite rev_app_distr. reflexivity.
Qed.
Lemma float_no_second_dot neg ds fs u : Forall digit ds -> Forall digit fs ->
  sign neg ++ ds ++ 46%N :: fs = u ++ [46; 48]%N -> fs = [48%N] /\ u = sign neg ++ ds.
Proof.
  intros Hd Hf E. destruct (exists_last (l := 46%N :: fs)) as (v & z & Ez); [discriminate|].
  destruct fs as [|f fs].
  - exfalso. assert (E' : (sign neg ++ ds) ++ [46%N] = (u ++ [46%N]) ++ [48%N])
      by (rewrite <- !app_assoc; exact E).
    apply app_inj_tail in E' as [_ E']. discriminate.
  - destruct (exists_last (l := f :: fs)) as (fs' & z' & Ef); [discriminate|]. rewrite Ef in *.
    assert (E' : (sign neg ++ ds ++ 46%N :: fs') ++ [z'] = (u ++ [46%N]) ++ [48%N]).
    { rewrite <- !app_assoc. cbn [app]. exact E. }
    apply app_inj_tail in E' as [E' ->].
    destruct fs' as [|g gs]; [|exfalso].
    + rewrite app_assoc in E'. apply app_inj_tail in E' as [<- _]. auto.
    + destruct (exists_last (l := g :: gs)) as (gs' & z'' & Eg); [discriminate|]. rewrite Eg in *.
      assert (E2 : (sign neg ++ ds ++ 46%N :: gs') ++ [z''] = u ++ [46%N]).
      { rewrite <- !app_assoc. cbn [app]. exact E'. }
      apply app_inj_tail in E2 as [_ ->].
      rewrite Forall_forall in Hf. assert (K : digit 46%N).
      { apply Hf. apply in_or_app. left. apply in_or_app. right. now left. }
      unfold digit in K. lia.
Qed.
Lemma trim_float t : float_literal t -> without_dot0 t (trim_end_dot0 t).
Proof.
  intros [neg ds fs Hne Hd Hf].
  destruct (dot0_cases (sign neg ++ ds ++ 46%N :: fs)) as [(u & E)|H].
  - destruct (float_no_second_dot _ _ _ _ Hd Hf E) as [-> ->]. rewrite E. rewrite trim_one; [constructor|].
    intros u E'. assert (K : In 46%N (sign neg ++ ds)) by (rewrite E'; apply in_or_app; right; now left).
    apply in_app_or in K as [K|K]; [destruct neg; simpl in K; [destruct K as [K|[]]; discriminate|destruct K]|].
    rewrite Forall_forall in Hd. apply Hd in K. unfold digit in K. lia.
  - rewrite trim_none by exact H. now constructor.
Qed.

Lemma without_unique t v v' : without_dot0 t v -> without_dot0 t v' -> v = v'.
Proof.
  assert (K : forall t v, without_dot0 t v -> t = v ++ [46; 48]%N \/ (t = v /\ forall u, t <> u ++ [46; 48]%N)).
  { intros t0 v0 [u|u Hu]; [now left|now right]. }
  intros H H'. apply K in H as [H|[<- H]]; apply K in H' as [H'|[<- H']].
  - rewrite H in H'. now apply app_inv_tail in H'.
  - now destruct (H' v).
  - now destruct (H v').
  - reflexivity.
Qed.

(** ** Accepted language *)
Lemma float_like_language (m : M str) (len : bytes -> nat) (tr : str -> str) (isl : bytes -> Prop) :
  (forall s, in_doc s -> p_eaten s = p_pos s -> m s =
     match (if Nat.eqb (len (rem s)) 0 then None else float_tail (len (rem s)) (rem s)) with
     | Some (a, k) => (ROk (tr (utf8_lossy (firstn a (rem s)))), set_pos (p_pos s + k) s)
     | None => (RErr Mismatch, s)
     end) ->
  (forall l, len l <= List.length l) ->
  (forall l, len l <> 0 -> isl (firstn (len l) l)) ->
  (forall t c r, isl t -> blank c \/ bound_char c -> len (t ++ c :: r) = List.length t) ->
  (forall t, isl t -> forallb (fun c => N.ltb c 128) t = true) ->
  (forall t, isl t -> List.length t <> 0) ->
  forall s, p_pos s <= List.length (p_doc s) -> p_eaten s = p_pos s ->
  (forall v s', m s = (ROk v, s') <->
     exists t w rest, skipn (p_pos s) (p_doc s) = t ++ w ++ rest /\ isl t /\ float_end w rest
       /\ v = tr t /\ s' = set_pos (p_pos s + List.length t + List.length w) s)
  /\ ((exists v s', m s = (ROk v, s')) \/ m s = (RErr Mismatch, s)).
Proof.
  intros EX LE SND CMP ASC POS s H E. rewrite (EX s H E). fold (rem s).
  assert (COMP : forall t w rest, rem s = t ++ w ++ rest -> isl t -> float_end w rest ->
    (if Nat.eqb (len (rem s)) 0 then None else float_tail (len (rem s)) (rem s))
    = Some (List.length t, List.length t + List.length w)).
  { intros t w rest El Hl He. rewrite El. destruct (float_end_stop w rest He) as (c & r & Ec & Hc).
    rewrite Ec, (CMP _ _ _ Hl Hc), <- Ec, (proj2 (Nat.eqb_neq _ 0)) by now apply POS.
    now apply float_tail_complete. }
  destruct (if Nat.eqb (len (rem s)) 0 then None else float_tail (len (rem s)) (rem s)) as [[a k]|] eqn:F.
  - split; [|left; eauto]. intros v s'. split.
    + intros [= <- <-]. destruct (Nat.eqb_spec (len (rem s)) 0) as [|L0]; [discriminate|].
      assert (a = len (rem s)) as ->.
      { unfold float_tail in F. cbv zeta in F. destruct (at_bound _); [|discriminate]. congruence. }
      destruct (float_tail_spec _ _ _ (LE _) F) as (w & rest & El & He & ->).
      exists (firstn (len (rem s)) (rem s)), w, rest.
      split; [exact El|]. split; [now apply SND|]. split; [exact He|].
      split; [now rewrite utf8_lossy_ascii by (now apply ASC, SND)|].
      rewrite firstn_length_le by apply LE. now rewrite Nat.add_assoc.
    + intros (t & w & rest & El & Hl & He & -> & ->).
      specialize (COMP _ _ _ El Hl He). injection COMP as -> ->.
      rewrite El, firstn_app, firstn_all, Nat.sub_diag. cbn [firstn]. rewrite app_nil_r.
      rewrite utf8_lossy_ascii by now apply ASC. now rewrite Nat.add_assoc.
  - split; [|now right]. intros v s'. split; [discriminate|].
    intros (t & w & rest & El & Hl & He & _).
    specialize (COMP _ _ _ El Hl He). discriminate.
Qed.

(** From a checkpoint, float() accepts exactly a literal and an admissible end;
    it returns the literal without its final [.0] and stops after the blanks;
    otherwise nothing changes.  The same for sci_float(), which returns the
    literal itself. *)
Theorem C09_float_language : forall s,
  p_pos s <= List.length (p_doc s) -> p_eaten s = p_pos s ->
  (forall v s', float s = (ROk v, s') <->
     exists t w rest, skipn (p_pos s) (p_doc s) = t ++ w ++ rest
       /\ float_literal t /\ float_end w rest /\ without_dot0 t v
       /\ s' = set_pos (p_pos s + List.length t + List.length w) s)
  /\ ((exists v s', float s = (ROk v, s')) \/ float s = (RErr Mismatch, s)).
Proof.
  intros s H E.
  assert (POS : forall t, float_literal t -> List.length t <> 0).
  { intros t [neg ds fs Hne _ _]. rewrite !app_length. cbn [List.length]. lia. }
  destruct (float_like_language float float_len trim_end_dot0 float_literal float_exec
              float_len_le float_len_literal float_len_complete
              (fun t Ht => float_literal_ascii t (or_introl Ht)) POS s H E) as [A B].
  split; [|exact B]. intros v s'. rewrite A. split.
  - intros (t & w & rest & El & Hl & He & -> & ->). exists t, w, rest.
    repeat split; auto; try apply He. now apply trim_float.
  - intros (t & w & rest & El & Hl & He & Hv & ->). exists t, w, rest.
    repeat split; auto; try apply He. pose proof (trim_float t Hl) as Ht.
    eapply without_unique; eassumption.
Qed.
Theorem C09_sci_language : forall s,
  p_pos s <= List.length (p_doc s) -> p_eaten s = p_pos s ->
  (forall v s', sci_float s = (ROk v, s') <->
     exists w rest, skipn (p_pos s) (p_doc s) = v ++ w ++ rest
       /\ sci_literal v /\ float_end w rest
       /\ s' = set_pos (p_pos s + List.length v + List.length w) s)
  /\ ((exists v s', sci_float s = (ROk v, s')) \/ sci_float s = (RErr Mismatch, s)).
Proof.
  intros s H E.
  assert (POS : forall t, sci_literal t -> List.length t <> 0).
  { intros t [neg ds e sg es Hne _ _ _ _ _]. rewrite !app_length. cbn [List.length]. lia. }
  destruct (float_like_language sci_float sci_len (fun t => t) sci_literal sci_float_exec
              sci_len_le sci_len_literal sci_len_complete
              (fun t Ht => float_literal_ascii t (or_intror Ht)) POS s H E) as [A B].
  split; [|exact B]. intros v s'. rewrite A. split.
  - intros (t & w & rest & El & Hl & He & -> & ->). exists w, rest. repeat split; auto; apply He.
  - intros (w & rest & El & Hl & He & ->). exists v, w, rest. repeat split; auto; apply He.
Qed.
