(** * TermBase: the sub-parsers of src/parser/base terminate (used by PropTerm). *)
From Verif Require Export TermQuote.
Open Scope nat_scope.

Section TermBase.
Variable d : bytes.
Local Notation J := (J d).
Local Notation ts := (ts d).
Local Notation tb := (tb d).
Local Notation len := (List.length d).

(** ** Progress *)
Lemma ts_sym_set K (Q : st -> Prop) p T l : steady Q ->
  ts K (fun s => Q s /\ p <= p_pos s) T (fun _ s => Q s /\ p + 1 <= p_pos s) Q (sym_set l).
Proof.
  intros HQ s Hs [Qs Ps]. unfold sym_set. rewrite (one_exec _ s (J_in d s Hs)).
  assert (X : J (set_pos (p_eaten s) s) /\ mv K s (set_pos (p_eaten s) s) /\ Q (set_pos (p_eaten s) s)).
  { split; [apply J_pos; [exact Hs|lia|destruct Hs as (_ & ? & ? & _); lia]|]. split; [now apply mv_same|].
    eapply HQ; [|exact Qs]. now apply mv_same. }
  destruct (rem s) as [|x r] eqn:E; [exact X|]. destruct (is_in l x); [|exact X].
  split; [apply J_adv; [exact Hs|rewrite E; simpl; lia]|]. split; [now apply mv_same|].
  split; [eapply HQ; [|exact Qs]; now apply mv_same|]. cbn. lia.
Qed.
Lemma ts_sym K (Q : st -> Prop) p T c : steady Q ->
  ts K (fun s => Q s /\ p <= p_pos s) T (fun _ s => Q s /\ p + 1 <= p_pos s) Q (sym c).
Proof. apply ts_sym_set. Qed.
Lemma ts_nl K (Q : st -> Prop) p T : steady Q ->
  ts K (fun s => Q s /\ p <= p_pos s) T (fun _ s => Q s /\ p + 1 <= p_pos s) (fun s => Q s /\ p <= p_pos s) nl.
Proof.
  intros HQ s Hs [Qs Ps]. rewrite (nl_exec s (J_in d s Hs)). destruct (Nat.eqb_spec (nl_len (rem s)) 0) as [E|E].
  - split; [exact Hs|]. split; [apply mv_refl|auto].
  - split; [apply J_adv; [exact Hs|apply nl_len_le]|]. split; [now apply mv_same|].
    split; [eapply HQ; [|exact Qs]; now apply mv_same|]. cbn. lia.
Qed.
Lemma ts_gap K (Q : st -> Prop) p T c : steady Q ->
  ts K (fun s => Q s /\ p <= p_pos s) T (fun _ s => Q s /\ p + 1 <= p_pos s) (fun s => Q s /\ p <= p_pos s) (gap c).
Proof.
  intros HQ s Hs [Qs Ps]. rewrite (gap_exec c s (J_in d s Hs)). destruct (gap_f c (rem s)) as [[t k]|] eqn:G.
  - apply gap_f_le in G as (G & G1 & _). split; [now apply J_adv|]. split; [now apply mv_same|].
    split; [eapply HQ; [|exact Qs]; now apply mv_same|]. cbn. lia.
  - split; [apply J_adv; [exact Hs|apply gap_head_le]|]. split; [now apply mv_same|].
    split; [eapply HQ; [|exact Qs]; now apply mv_same|]. cbn. lia.
Qed.
Lemma ts_bound K (Q : st -> Prop) p T : steady Q ->
  ts K (fun s => Q s /\ p <= p_pos s) T (fun _ s => Q s /\ p <= p_pos s) Q bound.
Proof.
  intros HQ s Hs [Qs Ps]. rewrite (bound_exec s (J_in d s Hs)). destruct (at_bound (rem s)).
  - split; [apply J_adv; [exact Hs|apply span_le]|]. split; [now apply mv_same|].
    split; [eapply HQ; [|exact Qs]; now apply mv_same|]. cbn. lia.
  - split; [apply J_pos; [exact Hs|lia|destruct Hs as (_ & ? & ? & _); lia]|]. split; [now apply mv_same|].
    eapply HQ; [|exact Qs]. now apply mv_same.
Qed.
Lemma ts_more0 K (Q E : st -> Prop) p T f : steady Q ->
  ts K (fun s => Q s /\ p <= p_pos s) T (fun _ s => Q s /\ p <= p_pos s) E (take_while f (More 0)).
Proof.
  intros HQ s Hs [Qs Ps]. rewrite (more0_exec f s (J_in d s Hs)).
  split; [apply J_adv; [exact Hs|apply span_le]|]. split; [now apply mv_same|].
  split; [eapply HQ; [|exact Qs]; now apply mv_same|]. cbn. lia.
Qed.
Lemma ts_forward K (Q E : st -> Prop) p T : steady Q ->
  ts K (fun s => Q s /\ p <= p_pos s) T (fun _ s => Q s /\ p <= p_eaten s /\ AT s) E forward.
Proof.
  intros HQ s Hs [Qs Ps]. simpl.
  split; [unfold Term.J in *; simpl; intuition|].
  split; [apply mv_same; [apply Hs|reflexivity]|].
  split; [eapply HQ; [|exact Qs]; apply mv_same; [apply Hs|reflexivity]|]. split; [exact Ps|reflexivity].
Qed.
Lemma ts_ind_adv K (Q : st -> Prop) p T k : steady Q ->
  ts K (fun s => Q s /\ p <= p_pos s) T (fun _ s => (Q s /\ Z (k + 1) s) /\ p <= p_pos s) (fun s => Q s /\ Z (k + 1) s) (ind k).
Proof.
  intros HQ s Hs [Qs Ps]. pose proof (ts_ind d K Q T k HQ s Hs Qs) as X.
  rewrite (ind_exec k s (J_in d s Hs)) in *. destruct (Nat.leb _ _); [|exact X].
  destruct X as (? & ? & ?). split; [assumption|]. split; [assumption|]. split; [assumption|cbn; lia].
Qed.
Lemma ts_ind_pos K (Q : st -> Prop) p T k : steady Q -> (forall s, Q s -> Z k s) ->
  ts K (fun s => Q s /\ p <= p_pos s) T (fun _ s => Q s /\ p + 1 <= p_pos s) Q (ind k).
Proof.
  intros HQ HZ s Hs [Qs Ps]. pose proof (ts_ind d K Q T k HQ s Hs Qs) as X. pose proof (HZ s Qs) as Zk. unfold Z in Zk.
  rewrite (ind_exec k s (J_in d s Hs)) in *. rewrite ind_width_depth in *. destruct (Nat.leb _ _).
  - destruct X as (? & ? & ? & ?). split; [assumption|]. split; [assumption|]. split; [assumption|cbn; lia].
  - destruct X as (? & ? & ? & ?). auto.
Qed.

(** ** Steps that cannot fail *)
Lemma tq_text K (Q : st -> Prop) T E : ts K Q T (fun _ => Q) E text.
Proof. intros s Hs Qs. rewrite (text_exec s (J_in d s Hs)). split; [exact Hs|]. split; [apply mv_refl|exact Qs]. Qed.
Lemma tq_food K (Q : st -> Prop) T E : ts K Q T (fun r s => Q s /\ r = rem s) E food.
Proof. intros s Hs Qs. rewrite (food_exec s (J_in d s Hs)). split; [exact Hs|]. split; [apply mv_refl|auto]. Qed.
Lemma tq_forward K (Q E : st -> Prop) T : steady Q -> ts K Q T (fun _ s => Q s /\ AT s) E forward.
Proof.
  intros HQ. eapply ts_weaken; [apply (ts_forward K Q E 0 T HQ)|..]; auto.
  - intros s _ H. split; [exact H|lia].
  - intros a s _ (A & _ & B). auto.
Qed.
Lemma tq_more0 K (Q E : st -> Prop) T f : steady Q -> ts K Q T (fun _ => Q) E (take_while f (More 0)).
Proof.
  intros HQ. eapply ts_weaken; [apply (ts_more0 K Q E 0 T f HQ)|..]; auto.
  - intros s _ H. split; [exact H|lia].
  - intros a s _ (A & _). auto.
Qed.
Lemma tq_backward K (Q E : st -> Prop) T : steady Q -> ts K Q T (fun _ s => Q s /\ AT s) E backward.
Proof.
  intros HQ s Hs Qs. simpl. split; [apply J_pos; [exact Hs|lia|destruct Hs as (_ & ? & ? & _); lia]|].
  split; [now apply mv_same|]. split; [|reflexivity]. eapply HQ; [|exact Qs]. now apply mv_same.
Qed.
Lemma tq_fwd K (Q E : st -> Prop) T : steady Q -> ts K Q T (fun _ => Q) E forward.
Proof. intros HQ. eapply ts_post; [apply (tq_forward K Q E T HQ)|..]; [intros a s _ [H _]; exact H|auto]. Qed.

(** ** Plain scalars below an indented level *)
Lemma tb_sym_set l : tb (sym_set l). Proof. apply tb_take. Qed.
Lemma ts_plain_loop K T level inner : forall n p v b, len < n + p ->
  ts K (fun s => Z level s /\ p <= p_pos s) T (fun _ => tany) tany (plain_loop n level inner v b).
Proof.
  induction n as [|n IH]; intros p v b Hn; cbn [plain_loop].
  { intros s Hs [_ Ps]. destruct Hs as (_ & _ & ? & _). lia. }
  pose (Q := fun s : st => Z level s /\ p <= p_eaten s).
  assert (HQ : steady Q) by (apply steady_and; [apply steady_Z|apply steady_from]).
  assert (QP : forall s, J s -> Q s -> Q s /\ p <= p_pos s) by (intros s (_ & ? & _) [A B]; unfold Q; intuition lia).
  assert (next : forall v b, ts K (fun s => Q s /\ p + 1 <= p_pos s) T (fun _ => tany) tany (plain_loop n level inner v b)).
  { intros v' b'. eapply ts_pre; [apply (IH (p + 1)); lia|]. intros s _ [[A _] B]. auto. }
  eapply ts_bind with (G1 := fun _ => Q).
  { eapply ts_post; [apply (ts_forward K (Z level) tany p T (steady_Z level))|..]; [intros a s _ (A & B & _); split; assumption|auto]. }
  intros ?. eapply ts_bind; [apply (tq_more0 K Q tany T _ HQ)|intros ?].
  eapply ts_bind; [apply tq_text|intros tx]. cbv zeta.
  eapply ts_bind; [apply (tq_fwd K Q tany T HQ)|intros ?].
  eapply ts_bind with (G1 := fun _ => Q).
  { apply ts_orM with (G1 := fun _ => Q); [|auto|].
    { eapply ts_bind; [apply tq_food|intros fd; apply ts_ret; intros s _ [H _]; exact H]. }
    apply ts_orM with (G1 := fun _ => Q); [|auto|].
    { apply tb_is_ok; [apply tb_sym_seq|exact HQ]. }
    apply ts_orM with (G1 := fun _ => Q); [|auto|].
    { apply ts_andM with (G1 := fun _ => Q); [|auto|].
      - apply tb_is_ok; [apply tb_sym|exact HQ].
      - apply tb_is_ok; [apply tb_nl|exact HQ]. }
    apply tb_is_ok; [apply tb_sym_seq|exact HQ]. }
  intros []. { eapply ts_bind; [apply (tq_backward K Q tany T HQ)|intros ?; apply ts_ret; intros; exact I]. }
  eapply ts_bind; [apply (tq_fwd K Q tany T HQ)|intros ?].
  eapply ts_bind.
  { eapply ts_is_ok with (G' := fun s => Q s /\ p + 1 <= p_pos s) (E := Q);
      [eapply ts_pre; [apply (ts_sym_set K Q p False _ HQ)|exact QP]|intros ? ? _ H; exact H]. }
  intros []. { eapply ts_bind; [apply tq_text|intros t2]. cbv zeta. apply next. }
  eapply ts_bind with (G1 := fun (b : bool) s => if b then Q s /\ p + 1 <= p_pos s else Q s).
  { destruct (negb inner && negb _).
    - eapply ts_is_ok; [eapply ts_pre; [apply (ts_sym_set K Q p False _ HQ)|exact QP]|intros ? ? _ H; exact H].
    - apply ts_ret. auto. }
  intros []. { eapply ts_bind; [apply tq_text|intros t2]. cbv zeta. apply next. }
  eapply ts_bind.
  { eapply ts_is_err with (G' := fun s => Q s /\ p + 1 <= p_pos s) (E := Q);
      [eapply ts_pre; [apply (ts_ind_pos K Q p False level HQ); intros s [H _]; exact H|exact QP]|intros ? ? _ H; exact H]. }
  intros []; [|apply next].
  eapply ts_bind.
  { eapply ts_ok. eapply ts_pre; [apply (ts_gap K Q p False _ HQ)|exact QP]. }
  intros [t|]; [|apply ts_ret; intros; exact I]. cbv zeta.
  eapply ts_bind.
  { eapply ts_is_err with (G' := fun s => Q s /\ p + 1 <= p_pos s); [apply (ts_ind_adv K Q (p + 1) False level HQ)|].
    intros ? ? _ [[A _] B]. auto. }
  intros []; [|apply next]. apply ts_ret; intros; exact I.
Qed.
Lemma ts_plain K T level inner : ts K (Z level) T (fun _ => tany) tany (string_plain level inner).
Proof.
  unfold string_plain. intros s Hs Ps.
  assert (X : ts K (fun s' => s' = set_eaten (p_pos s) s) T (fun _ => tany) tany (n <- gets loop_fuel ;;
    v <- plain_loop n level inner [] false ;; match trim_end v with [] => fail Mismatch | _ => ret (trim_end v) end)).
  { eapply ts_bind; [apply ts_gets|intros n]. cbv beta.
    eapply ts_bind with (G1 := fun _ => tany); [eapply ts_pre with (P := fun s => (Z level s /\ 0 <= p_pos s) /\ n = S (S len))|].
    - intros s1 H1 [P1 ->]. apply (ts_plain_loop K T level inner (S (S len)) 0 [] false); [lia|exact H1|exact P1].
    - intros s1 H1 [-> ->]. split; [split; [exact Ps|lia]|]. unfold loop_fuel. cbn. destruct Hs as (-> & _). reflexivity.
    - intros v. destruct (trim_end v); [apply ts_fail|apply ts_ret]; intros; exact I. }
  eapply ts_context with (P := fun s' => s' = s) (G := fun _ => tany) (E := tany) in X; try (intros; exact I).
  - apply (X s Hs eq_refl).
  - intros s' _ ->. reflexivity.
Qed.

(** ** Block scalars *)
Lemma tb_chomp : tb chomp.
Proof.
  unfold chomp. apply tb_context.
  eapply ts_bind; [apply tb_is_ok; [apply tb_sym|apply steady_any]|intros []]; [apply tb_ret|].
  eapply ts_bind; [apply tb_is_ok; [apply tb_sym|apply steady_any]|intros []]; apply tb_ret.
Qed.
Lemma good_line s : J s -> good d (p_pos s + span not_nl (rem s)).
Proof.
  intros Hs. destruct (skipn (span not_nl (rem s)) (rem s)) as [|y q] eqn:Es.
  - apply good_empty. rewrite (rem_d d s Hs), skipn_add in Es. now rewrite <- (rem_d d s Hs) in Es.
  - pose proof Es as E. apply span_next in Es. rewrite (rem_d d s Hs), skipn_add in E. rewrite <- (rem_d d s Hs) in E.
    apply (good_other d _ y q E). intros [<-|[<-|[<-|[<-|[]]]]]; discriminate Es.
Qed.
Lemma ts_line K (Q E : st -> Prop) T : steady Q -> ts K Q T (fun _ s => Q s /\ good d (p_pos s)) E (take_while (not_in [10; 13]%N) (More 0)).
Proof.
  intros HQ s Hs Qs. rewrite (more0_exec _ s (J_in d s Hs)). split; [apply J_adv; [exact Hs|apply span_le]|]. split; [now apply mv_same|].
  split; [eapply HQ; [|exact Qs]; now apply mv_same|]. exact (good_line s Hs).
Qed.
Lemma ts_wrapped_loop (o : Prop) sep leading level : forall n p v, len < n + p ->
  ts yes (fun s => (o -> good d (p_pos s)) /\ p <= p_pos s) False (fun _ s => p + 1 <= p_eaten s) (fun s => (o -> good d (p_pos s))) (wrapped_loop n level sep leading v).
Proof.
  induction n as [|n IH]; intros p v Hn; cbn [wrapped_loop].
  { intros s Hs [_ Ps]. destruct Hs as (_ & _ & ? & _). lia. }
  pose (Q := fun s : st => p + 1 <= p_eaten s).
  assert (HQ : steady Q) by apply steady_from.
  eapply ts_bind with (G1 := fun _ s => tany s /\ p + 1 <= p_pos s).
  { intros s Hs [Gs Ps]. pose proof (ts_nl yes tany p False steady_any s Hs (conj I Ps)) as X. rewrite (nl_exec s (J_in d s Hs)) in *.
    destruct (Nat.eqb _ 0); [|exact X]. destruct X as (X1 & X2 & _). auto. }
  intros ?. eapply ts_bind with (G1 := fun _ => Q).
  { eapply ts_post; [apply (ts_forward yes tany (fun s => (o -> good d (p_pos s))) (p + 1) False steady_any)|..]; [intros ? ? _ (A & B & _); exact B|auto]. }
  intros ?. eapply ts_bind; [apply (tb_is_err d yes Q _ False _ (tb_ind d level) HQ)|intros e].
  eapply ts_bind with (G1 := fun _ => Q).
  { destruct e; [|apply ts_ret; auto].
    eapply ts_bind; [apply (tb_ok d yes Q _ False _ (tb_gap d false) HQ)|intros [t|]]; [|apply ts_ret; auto]. cbv zeta.
    eapply ts_bind; [apply (tb_is_err d yes Q _ False _ (tb_ind d level) HQ)|intros e]. apply ts_ret. auto. }
  intros [v' stop]. destruct stop; [apply ts_ret; auto|].
  eapply ts_bind; [apply (tq_fwd yes Q _ False HQ)|intros ?].
  eapply ts_bind; [apply (ts_line yes Q _ False HQ)|intros ?].
  eapply ts_bind; [apply tq_text|intros t]. cbv zeta.
  eapply ts_weaken; [apply (IH (p + 1)); lia|..]; auto.
  - intros s (_ & ? & _) [Qs Gs]. split; [intros _; exact Gs|]. unfold Q in Qs. lia.
  - intros ? s _ H. cbn in H. lia.
Qed.
Lemma ts_wrapped (o : Prop) level sep leading : ts yes (fun s => (o -> good d (p_pos s))) False (fun _ => tany) (fun s => (o -> good d (p_pos s))) (string_wrapped level sep leading).
Proof.
  intros s Hs Gs. unfold string_wrapped, context. set (s1 := set_eaten (p_pos s) s).
  assert (H1 : J s1) by (unfold Term.J, s1 in *; simpl; intuition).
  assert (F : loop_fuel s1 = S (S len)) by (unfold loop_fuel, s1; cbn; destruct Hs as (-> & _); reflexivity).
  unfold bind at 1, gets at 1. rewrite F.
  pose proof (ts_wrapped_loop o sep leading level (S (S len)) (p_pos s) [] ltac:(lia) s1 H1 (conj Gs (le_n _))) as HW.
  unfold bind. destruct (wrapped_loop (S (S len)) level sep leading [] s1) as [[v|[|nm msg]| |] s']; try exact HW.
  - destruct HW as (HJ & HM & HE). unfold back, ret. pose proof HJ as (Ed & K1 & K2 & K3). pose proof Hs as (_ & HsE & _).
    rewrite (proj2 (Nat.leb_le 1 (p_pos s'))) by lia.
    split; [unfold Term.J; cbn; intuition lia|]. split; [|exact I]. destruct HM as [_ HM]. split; [cbn; lia|exact HM].
  - destruct HW as (HJ & HM & HE). pose proof HJ as (Ed & K1 & K2 & K3). destruct HM as [HM1 HM]. cbn in HM1. pose proof Hs as (_ & HsE & _).
    split; [unfold Term.J; cbn; intuition lia|]. split; [|exact HE]. split; [cbn; lia|exact HM].
Qed.
Lemma tb_wrapped level sep leading : tb (string_wrapped level sep leading).
Proof. eapply ts_weaken; [apply (ts_wrapped False)|..]; auto; try (intros; exact I). intros s _ _ []. Qed.
Lemma tb_literal level : tb (string_literal level).
Proof.
  unfold string_literal. apply tb_bind; [apply tb_sym|intros _]. apply tb_bind; [apply tb_chomp|intros c].
  apply tb_bind; [apply tb_take|intros _]. apply tb_bind; [apply tb_wrapped|intros x]. apply tb_ret.
Qed.
Lemma tb_folded level : tb (string_folded level).
Proof.
  unfold string_folded. apply tb_bind; [apply tb_sym|intros _]. apply tb_bind; [apply tb_chomp|intros c].
  apply tb_bind; [apply tb_take|intros _]. apply tb_bind; [apply tb_wrapped|intros x]. apply tb_ret.
Qed.
Lemma tb_identifier : tb identifier.
Proof. apply tb_bind; intros; apply tb_take. Qed.
Lemma tb_anchor_use : tb anchor_use.
Proof. apply tb_bind; [apply tb_sym|intros _]. apply tb_context, tb_bind; [apply tb_identifier|intros _; apply tb_text]. Qed.
Lemma tb_int : tb int. Proof. apply tb_gb, at_int. Qed.
Lemma tb_float : tb float. Proof. apply tb_gb, at_float. Qed.
Lemma tb_sci : tb sci_float. Proof. apply tb_gb, at_sci. Qed.
Lemma tb_doc_end : tb doc_end.
Proof.
  apply tb_bind; [apply tb_food|intros [|x r]]; [apply tb_ret|]. apply tb_context.
  eapply ts_bind with (G1 := fun _ => tany).
  { apply ts_orM with (G1 := fun _ => tany); [apply tb_is_ok; [apply tb_sym_seq|apply steady_any]|auto|apply tb_is_ok; [apply tb_sym_seq|apply steady_any]]. }
  intros b. apply tb_bind; [destruct b; [apply tb_backward|apply tb_ret]|intros _; apply tb_ret].
Qed.
Lemma tq_doc_end K (Q E : st -> Prop) T : steady Q -> ts K Q T (fun _ => Q) E doc_end.
Proof.
  intros HQ. unfold doc_end. eapply ts_bind with (G1 := fun _ => Q).
  { eapply ts_post; [apply tq_food|intros a s _ [H _]; exact H|]. intros s _ H. exact H. }
  intros [|x r]; [apply ts_ret; auto|].
  intros s Hs Qs.
  assert (X : ts yes tany T (fun _ => tany) (fun _ => False) (context (
      b <- orM (is_ok (sym_seq (lit "---"))) (is_ok (sym_seq (lit "..."))) ;; (if (b : bool) then backward else ret tt) ;;; ret b))).
  { eapply ts_context with (P' := tany) (G' := fun _ => tany) (E' := fun _ => False); try (intros; exact I); [|intros; contradiction].
    eapply ts_bind with (G1 := fun _ => tany).
    { apply ts_orM with (G1 := fun _ => tany); [apply tb_is_ok; [apply tb_sym_seq|apply steady_any]|auto|apply tb_is_ok; [apply tb_sym_seq|apply steady_any]]. }
    intros b. eapply ts_bind with (G1 := fun _ => tany); [destruct b; [|apply ts_ret; intros; exact I]|intros _; apply ts_ret; intros; exact I].
    eapply ts_post; [apply (tq_backward yes tany (fun _ => False) T steady_any)|intros; exact I|auto]. }
  specialize (X s Hs I). destruct (context _ s) as [[b|[|nm msg]| |] s']; try exact X.
  - destruct X as (X1 & X2 & _). split; [exact X1|]. split; [eapply mv_less; [|exact X2]; intros; exact I|]. eapply HQ; eassumption.
  - destruct X as (_ & _ & []).
Qed.

Lemma J_back s : J s -> J (set_pos (p_eaten s) s).
Proof. intros Hs. apply J_pos; [exact Hs|lia|destruct Hs as (_ & ? & ? & _); lia]. Qed.

(** ** Anchors and tags *)
Lemma limit_plain x : limit x -> is_alnum x = false /\ ~ In x [45; 33; 60]%N.
Proof. intros H. cbv in H. intuition (subst; try reflexivity; cbv in *; intuition discriminate). Qed.
Lemma limit_bound x r : limit x -> at_bound (x :: r) = true.
Proof. intros H. cbv in H. intuition (subst; reflexivity). Qed.
Lemma limit_id x : limit x -> ~ id_char x.
Proof. intros H E. cbv in H. unfold id_char in E. intuition (subst; discriminate). Qed.

Section Props.
Hypothesis fits : forall e, led d e -> good d e.
(** what reading an anchor or a tag does: nothing, a few bytes passed, a panic *)
Definition passes (m : M str) : Prop := forall s, J s -> good d (p_pos s) ->
  match m s with
  | (ROk a, s') => exists k, s' = set_pos (p_pos s + k) s /\ J s' /\ at_bound (rem s') = true
  | (RErr Mismatch, s') => s' = set_pos (p_eaten s) s \/ exists k r, s' = set_pos (p_pos s + k) s /\ J s' /\ rem s = 38%N :: r /\ at_bound (rem s') = true
  | (RPanic, _) => True
  | _ => False
  end /\ ((match rem s with x :: _ => x <> 38%N /\ x <> 33%N | [] => True end) -> m s = (RErr Mismatch, set_pos (p_eaten s) s)).
Lemma passes_anchor : passes anchor.
Proof.
  intros s Hs Hg. pose proof (J_in d s Hs) as H. unfold anchor. unfold bind. rewrite (sym_exec _ s H). change (chr "&") with 38%N.
  destruct (rem s) as [|x r] eqn:Er; [split; [now left|reflexivity]|]. destruct (N.eqb_spec x 38) as [->|Nx]; [|split; [now left|reflexivity]].
  split; [|intros [X _]; congruence]. destruct (proj1 (proj2 Hg) r ltac:(now rewrite <- (rem_d d s Hs))) as (n & z & r' & -> & Hn & Hz).
  set (s1 := set_pos (p_pos s + 1) s). set (u := set_eaten (p_pos s1) s1).
  assert (J1 : J s1) by (apply J_adv; [exact Hs|rewrite Er; cbn; lia]).
  assert (R1 : rem u = n ++ z :: r') by (change (rem u) with (rem s1); unfold s1; rewrite rem_add, Er; reflexivity).
  assert (U : in_doc u) by exact (J_in d s1 J1).
  unfold context. fold u. rewrite (identifier_exec u U), R1. destruct Hn as [->|Hn].
  - cbn [app]. destruct (limit_plain z Hz) as [Z1 _]. rewrite (id_none z r' Z1). cbn [Nat.eqb]. right. exists 1, (z :: r').
    assert (E : set_eaten (p_eaten s1) (set_pos (p_eaten u) u) = s1) by (unfold u, s1; apply st_ext; reflexivity).
    rewrite E. split; [reflexivity|]. split; [exact J1|]. split; [reflexivity|]. change (rem s1) with (rem u). rewrite R1. now apply limit_bound.
  - assert (NA : name_at n (z :: r')) by (split; [exact Hn|exact (limit_id z Hz)]). rewrite (ident_len_name _ _ NA).
    assert (NL : Nat.eqb (List.length n) 0 = false) by (destruct Hn as (? & ? & -> & _); reflexivity). rewrite NL.
    assert (LR : 1 + List.length n <= List.length (rem s)) by (rewrite Er; cbn [List.length]; rewrite app_length; lia).
    assert (VI : in_doc (set_pos (p_pos u + List.length n) u)) by (apply moved_in; [exact U|rewrite R1, app_length; lia]).
    rewrite (text_exec _ VI). exists (1 + List.length n). split; [unfold u, s1; apply st_ext; try reflexivity; cbn; lia|].
    assert (E : set_eaten (p_eaten s1) (set_pos (p_pos u + List.length n) u) = set_pos (p_pos s + (1 + List.length n)) s) by (unfold u, s1; apply st_ext; try reflexivity; cbn; lia).
    rewrite E. split; [now apply J_adv|]. rewrite rem_add, Er. cbn [skipn plus]. rewrite skipn_app, skipn_all, Nat.sub_diag. now apply limit_bound.
Qed.
Lemma passes_tag : passes tag.
Proof.
  intros s Hs Hg. pose proof (J_in d s Hs) as H.
  assert (NO : (match rem s with x :: _ => x <> 33%N | [] => True end) -> tag s = (RErr Mismatch, set_pos (p_eaten s) s)).
  { intros X. unfold tag. unfold bind at 1. rewrite (sym_exec _ s H). change (chr "!") with 33%N.
    destruct (rem s) as [|x r]; [reflexivity|]. rewrite (proj2 (N.eqb_neq x 33) X). reflexivity. }
  split; [|intros X; apply NO; destruct (rem s); [exact I|apply X]].
  destruct (rem s) as [|x r] eqn:Er; [rewrite (NO I); now left|]. destruct (N.eq_dec x 33) as [->|Nx]; [|rewrite (NO Nx); now left].
  destruct (proj2 (proj2 Hg) r ltac:(now rewrite <- (rem_d d s Hs))) as (t & z & r' & Et & Ht & Hz). destruct (limit_plain z Hz) as [Z1 Z2].
  pose proof (tag_exec_z z t s r' Z1 Z2 H Ht ltac:(now rewrite Er)) as X. destruct (resolve_tab _ t).
  - rewrite X. exists (ref_len t). split; [reflexivity|]. unfold ref_len. split.
    + apply J_adv; [exact Hs|]. rewrite Er, Et, app_length. lia.
    + rewrite rem_add, Er, Et, skipn_app, skipn_all, Nat.sub_diag. now apply limit_bound.
  - destruct (tag s) as [o s']. cbn in X. subst o. exact I.
Qed.
(** a line break comes next *)
Definition opens (s : st) : Prop := gap_f true (rem s) <> None.
(** the start of a node: [C] holds, or, if [o], a line break comes next; a quote here is closed *)
Definition start (p : nat) (C : st -> Prop) (o : Prop) (s : st) : Prop :=
  p <= p_eaten s /\ (C s \/ (o /\ AT s /\ opens s)) /\ good d (p_pos s).
Lemma opens_prop s x r : opens s -> rem s = x :: r -> x <> 38%N /\ x <> 33%N.
Proof. unfold opens. intros H E. rewrite E in H. split; intros ->; apply H; reflexivity. Qed.
Lemma good_ws s : J s -> at_bound (rem s) = true -> good d (p_pos s + ws_len (rem s)).
Proof.
  intros Hs B. pose proof (span_le is_ws (rem s)) as KL. change (span is_ws (rem s)) with (ws_len (rem s)) in KL.
  pose proof (blank_span is_ws (rem s) ws_ascii) as Bw. change (span is_ws (rem s)) with (ws_len (rem s)) in Bw.
  revert KL Bw. generalize (ws_len (rem s)) as k. intros k KL Bw.
  destruct (Nat.eq_dec k 0) as [->|K0]; [rewrite Nat.add_0_r; now apply good_bound|].
  apply fits. destruct (nth_error (rem s) (k - 1)) as [x|] eqn:E; [|apply nth_error_None in E; lia].
  assert (K1 : 1 <= k) by lia. apply (led_after d s k x Hs K1 E). apply ws_before. unfold blank_run in Bw. rewrite Forall_forall in Bw. apply Bw.
  apply (nth_error_In _ (k - 1)). rewrite <- E. rewrite <- (firstn_skipn k (rem s)) at 2.
  rewrite nth_error_app1; [reflexivity|]. rewrite firstn_length. lia.
Qed.
Lemma ts_prop K p (C : st -> Prop) o T m : steady C -> passes m ->
  ts K (fun s => start p C o s /\ AT s) T (fun a s => start p C o s /\ (a <> [] -> C s /\ at_bound (rem s) = true)) (fun _ => False) (unwrap_or [] m).
Proof.
  intros HC Hm s Hs [(F & En & Gs) A0]. destruct (Hm s Hs Gs) as [X0 X1].
  assert (B0 : set_pos (p_eaten s) s = s) by (unfold AT in A0; rewrite A0; apply set_pos_id).
  destruct En as [Cs|(Ho & A & O)].
  - assert (STAY : forall q, C (set_pos q s)) by (intros q; eapply HC; [|exact Cs]; now apply mv_same).
    unfold unwrap_or, bind, Parser.ok. destruct (m s) as [[a|[|nm msg]| |] s']; try contradiction; unfold ret.
    + destruct X0 as (k & E & J1 & B). subst s'. split; [exact J1|]. split; [apply mv_same; [cbn; lia|reflexivity]|].
      split; [split; [exact F|]; split; [now left|now apply good_bound]|]. auto.
    + destruct X0 as [->|(k & r & -> & J1 & _ & B)].
      * rewrite B0. split; [exact Hs|]. split; [apply mv_refl|]. split; [split; [exact F|]; auto|]. intros []; reflexivity.
      * split; [exact J1|]. split; [apply mv_same; [cbn; lia|reflexivity]|].
        split; [split; [exact F|]; split; [now left|now apply good_bound]|]. intros []; reflexivity.
    + exact I.
  - assert (E : m s = (RErr Mismatch, s)).
    { rewrite X1; [now rewrite B0|destruct (rem s) as [|x r] eqn:Er; [exact I|now apply (opens_prop s x r)]]. }
    unfold unwrap_or, bind, Parser.ok. rewrite E. unfold ret. split; [exact Hs|]. split; [apply mv_refl|].
    split; [split; [exact F|split; [right; auto|exact Gs]]|]. intros []; reflexivity.
Qed.
Lemma ts_prop_bound K p (C : st -> Prop) o T (a : str) : steady C ->
  ts K (fun s => start p C o s /\ (a <> [] -> C s /\ at_bound (rem s) = true)) T (fun _ => start p C o) (fun _ => False)
    (if is_nil a then ret tt else bound).
Proof.
  intros HC s Hs [St Hb]. destruct a as [|c a]; cbn [is_nil].
  - split; [exact Hs|]. split; [apply mv_refl|exact St].
  - destruct (Hb ltac:(discriminate)) as (Cs & B). rewrite (bound_exec s (J_in d s Hs)), B.
    assert (M : mv yes s (set_pos (p_pos s + ws_len (rem s)) s)) by (apply mv_same; [cbn; lia|reflexivity]).
    split; [apply J_adv; [exact Hs|apply span_le]|]. split; [eapply mv_less; [|exact M]; intros; exact I|].
    split; [apply St|]. split; [left; eapply HC; [exact M|exact Cs]|]. cbn. now apply good_ws.
Qed.
Lemma ts_start_fwd K p (C : st -> Prop) o T : steady C -> ts K (start p C o) T (fun _ s => start p C o s /\ AT s) (fun _ => False) forward.
Proof.
  intros HC s Hs (F & En & Gs). cbn. assert (M : mv yes s (set_eaten (p_pos s) s)) by (apply mv_same; [apply Hs|reflexivity]).
  split; [unfold Term.J in *; cbn; intuition|]. split; [eapply mv_less; [|exact M]; intros; exact I|]. split; [|reflexivity].
  split; [destruct M; lia|]. split; [|exact Gs]. destruct En as [Cs|(Ho & A & O)]; [left; eapply HC; [exact M|exact Cs]|right].
  unfold AT in A. rewrite <- A, set_eaten_id. auto.
Qed.
(** a node is its anchor and tag, and its content *)
Lemma ts_node K p (C G : st -> Prop) o f : steady C ->
  (forall s, G s -> G (set_eaten (p_pos s) s)) -> (forall s t, G s -> G (set_anchors t s)) ->
  ts K (fun s => start p C o s /\ AT s) True (fun _ => G) (fun _ => False) f ->
  ts K (fun s => start p C o s /\ AT s) True (fun _ s => G s /\ AT s) (fun _ => False) (scalar_node f).
Proof.
  intros HC HG1 HG2 Hf. unfold scalar_node.
  eapply ts_bind; [apply (ts_prop K p C o True anchor HC passes_anchor)|intros a1].
  eapply ts_bind; [apply (ts_prop_bound K p C o True a1 HC)|intros ?].
  eapply ts_bind; [apply (ts_start_fwd K p C o True HC)|intros ?].
  eapply ts_bind; [apply (ts_prop K p C o True tag HC passes_tag)|intros tg].
  eapply ts_bind; [apply (ts_prop_bound K p C o True tg HC)|intros ?].
  eapply ts_bind; [apply (ts_start_fwd K p C o True HC)|intros ?].
  eapply ts_bind; [apply (ts_prop K p C o True anchor HC passes_anchor)|intros b2].
  eapply ts_bind with (G1 := fun _ => start p C o).
  { pose proof (ts_prop_bound K p C o True b2 HC) as X. destruct b2 as [|c b2]; cbn [is_nil] in *.
    - eapply ts_pre; [apply ts_ret|]; [intros s _ H; exact H|intros s _ [H _]; exact H].
    - destruct (is_nil a1); [|apply ts_err; exact I]. eapply ts_bind; [exact X|intros ?]. apply ts_ret. auto. }
  intros an. eapply ts_bind; [apply (ts_start_fwd K p C o True HC)|intros ?].
  eapply ts_bind with (G1 := fun _ s => start p C o s /\ AT s); [eapply ts_post with (E := fun _ => False); [apply ts_gets|intros ? s _ [H _]; exact H|auto]|intros q].
  eapply ts_bind; [exact Hf|intros y].
  eapply ts_bind with (G1 := fun _ s => G s /\ AT s).
  { intros s Hs Gs. cbn. split; [unfold Term.J in *; cbn; intuition|]. split; [apply mv_same; [apply Hs|reflexivity]|]. split; [now apply HG1|reflexivity]. }
  intros ?. destruct (is_nil an); [apply ts_ret; auto|].
  eapply ts_bind with (G1 := fun _ s => G s /\ AT s).
  { intros s Hs [Gs A]. unfold anchor_insert. 
    destruct (nth_error (l_anchors s) (l_doc_ind s)) as [mp|]; [|exact I].
    split; [exact Hs|]. split; [apply mv_same; [cbn; lia|reflexivity]|]. split; [now apply HG2|exact A]. }
  intros []; [apply ts_err; exact I|apply ts_ret; auto].
Qed.
End Props.
End TermBase.
