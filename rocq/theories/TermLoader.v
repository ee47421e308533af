(** * TermLoader: the recursive sub-parsers terminate (used by PropTerm).

    Fuel of eight per byte left, plus the number of calls that may follow before
    the next byte is consumed, is enough. *)
From Verif Require Export TermBase.
Open Scope nat_scope.

Section TermLoader.
Variable d : bytes.
Hypothesis fits : forall e, led d e -> good d e.
Local Notation J := (J d).
Local Notation ts := (ts d).
Local Notation tb := (tb d).
Local Notation len := (List.length d).

(** the levels a node at [L] leaves alone *)
Definition Kn (L : nat) (map : bool) (j : nat) : Prop := j < L \/ (j = L /\ map = false).
Definition Kf (L j : nat) : Prop := j <= L.
(** what is known where a node at [L] begins *)
Definition entry (L : nat) (map : bool) (s : st) : Prop :=
  (if map then Z L s else Z (L + 1) s) \/ (AT s /\ opens s).
Definition from (p : nat) (s : st) : Prop := p <= p_eaten s.

Lemma ts_keep {A} K (P Q : st -> Prop) T (G : A -> st -> Prop) E m :
  ts K P T G E m -> (forall s s', mv K s s' -> Q s -> Q s') ->
  ts K (fun s => P s /\ Q s) T (fun a s => G a s /\ Q s) (fun s => E s /\ Q s) m.
Proof.
  intros Hm HQ s Hs [Ps Qs]. specialize (Hm s Hs Ps).
  destruct (m s) as [[a|[|nm msg]| |] s']; try exact Hm.
  - destruct Hm as (? & M & ?). split; [assumption|]. split; [exact M|]. eauto.
  - destruct Hm as (? & M & ?). split; [assumption|]. split; [exact M|]. eauto.
Qed.
Lemma from_pos p s : J s -> from p s -> p <= p_pos s.
Proof. intros (_ & ? & _). unfold from. lia. Qed.
Lemma AT_back s : AT s -> set_pos (p_eaten s) s = s.
Proof. intros A. unfold AT in A. rewrite A. apply set_pos_id. Qed.
Lemma AT_forward s : AT s -> set_eaten (p_pos s) s = s.
Proof. intros A. unfold AT in A. rewrite <- A. apply set_eaten_id. Qed.
(** ** Where a quote may be met *)
(** predicates that do not depend on the cursor *)
Definition posfree (Q : st -> Prop) : Prop := forall s p, Q s -> Q (set_pos p s).
Lemma free_steady Q : steady Q -> posfree Q.
Proof. intros H s p. apply H. now apply mv_same. Qed.
Lemma free_and Q1 Q2 : posfree Q1 -> posfree Q2 -> posfree (fun s => Q1 s /\ Q2 s).
Proof. intros H1 H2 s p [A B]. auto. Qed.
Lemma free_eaten (R : nat -> Prop) : posfree (fun s => R (p_eaten s)).
Proof. intros s p H. exact H. Qed.
Lemma px_sym K (Q : st -> Prop) p T c : posfree Q ->
  ts K (fun s => Q s /\ p <= p_pos s) T (fun _ s => Q s /\ p + 1 <= p_pos s /\ (In c before -> led d (p_pos s))) (fun s => Q s /\ AT s) (sym c).
Proof.
  intros HQ s Hs [Qs Ps]. rewrite (sym_exec c s (J_in d s Hs)).
  assert (X : J (set_pos (p_eaten s) s) /\ mv K s (set_pos (p_eaten s) s) /\ Q (set_pos (p_eaten s) s) /\ AT (set_pos (p_eaten s) s)).
  { split; [now apply J_back|]. split; [now apply mv_same|]. split; [now apply HQ|reflexivity]. }
  destruct (rem s) as [|x r] eqn:E; [exact X|]. destruct (N.eqb_spec x c) as [->|]; [|exact X].
  split; [apply J_adv; [exact Hs|rewrite E; simpl; lia]|]. split; [now apply mv_same|].
  split; [now apply HQ|]. split; [cbn; lia|]. intros Hc. apply (led_after d s 1 c Hs (le_n 1)); [now rewrite E|exact Hc].
Qed.
Lemma px_bound K (Q : st -> Prop) p T : posfree Q ->
  ts K (fun s => Q s /\ p <= p_pos s) T (fun _ s => Q s /\ p <= p_pos s /\ good d (p_pos s)) (fun s => Q s /\ AT s) bound.
Proof.
  intros HQ s Hs [Qs Ps]. rewrite (bound_exec s (J_in d s Hs)). destruct (at_bound (rem s)) eqn:B.
  - split; [apply J_adv; [exact Hs|apply span_le]|]. split; [now apply mv_same|]. split; [now apply HQ|]. split; [cbn; lia|]. cbn. now apply good_ws.
  - split; [now apply J_back|]. split; [now apply mv_same|]. split; [now apply HQ|reflexivity].
Qed.
Lemma px_blank K (Q E : st -> Prop) p T f : posfree Q -> (forall c, f c = true -> is_ascii_ws c = true) ->
  ts K (fun s => Q s /\ p <= p_pos s /\ led d (p_pos s)) T (fun _ s => Q s /\ p <= p_pos s /\ led d (p_pos s)) E (take_while f (More 0)).
Proof.
  intros HQ Hf s Hs (Qs & Ps & Ls). rewrite (more0_exec f s (J_in d s Hs)).
  split; [apply J_adv; [exact Hs|apply span_le]|]. split; [now apply mv_same|]. split; [now apply HQ|]. split; [cbn; lia|]. cbn.
  apply led_blank; [exact Hs|now apply blank_span|apply span_le|exact Ls].
Qed.
Lemma px_forward K (Q E : st -> Prop) (R : nat -> Prop) p T : steady Q ->
  ts K (fun s => Q s /\ p <= p_pos s /\ R (p_pos s)) T (fun _ s => Q s /\ p <= p_eaten s /\ AT s /\ R (p_pos s)) E forward.
Proof.
  intros HQ s Hs (Qs & Ps & Rs). simpl. split; [unfold Term.J in *; simpl; intuition|].
  split; [apply mv_same; [apply Hs|reflexivity]|].
  split; [eapply HQ; [|exact Qs]; apply mv_same; [apply Hs|reflexivity]|]. split; [exact Ps|]. split; [reflexivity|exact Rs].
Qed.
(** nothing happens where the cursor is at the checkpoint *)
Lemma px_forward_at K (Q E : st -> Prop) T : ts K (fun s => Q s /\ AT s) T (fun _ s => Q s /\ AT s) E forward.
Proof. intros s Hs [Qs A]. change (forward s) with (ROk tt, set_eaten (p_pos s) s). rewrite (AT_forward s A). split; [exact Hs|]. split; [apply mv_refl|auto]. Qed.
Lemma good_comment s : J s -> good d (p_pos s) -> good d (p_pos s + comment_len (rem s)).
Proof.
  intros Hs Gs. unfold comment_len. destruct (skipn (ws_len (rem s)) (rem s)) as [|x r] eqn:E; [now rewrite Nat.add_0_r|].
  destruct (N.eqb_spec x 35) as [->|]; [|now rewrite Nat.add_0_r].
  assert (K : ws_len (rem s) + 1 <= List.length (rem s)).
  { apply (f_equal (@List.length N)) in E. rewrite skipn_length in E. cbn in E. lia. }
  pose proof (J_adv d s _ Hs K) as J1. set (s1 := set_pos (p_pos s + (ws_len (rem s) + 1)) s) in *.
  assert (R1 : rem s1 = r) by (unfold s1; rewrite rem_add, <- skipn_add, E; reflexivity).
  pose proof (good_line d s1 J1) as X. rewrite R1 in X. cbn in X.
  replace (p_pos s + (ws_len (rem s) + 1 + span not_nl r)) with (p_pos s + (ws_len (rem s) + 1) + span not_nl r) by lia. exact X.
Qed.
(** ** Where a key may have ended *)
Definition colonb (l : bytes) : bool := match l with x :: r => N.eqb x 58 && at_bound r | [] => false end.
(** there is a line break, or no colon *)
Definition ends_at (e : nat) : Prop := gap_f true (skipn e d) <> None \/ colonb (skipn e d) = false.
Lemma J_rem_d s : J s -> rem s = skipn (p_pos s) d.
Proof. intros (E & _). unfold rem. now rewrite E. Qed.
Lemma colon_exec s : in_doc s -> orM (is_err (sym (chr ":"))) (is_err bound) s =
  if colonb (rem s) then (ROk false, set_pos (p_pos s + 1 + ws_len (skipn 1 (rem s))) s) else (ROk true, set_pos (p_eaten s) s).
Proof.
  intros H. unfold orM. unfold bind at 1. rewrite (is_err_eq _ _ _ (sym_exec _ s H)). change (chr ":") with 58%N. unfold colonb.
  destruct (rem s) as [|x r] eqn:Er; [reflexivity|]. destruct (N.eqb_spec x 58) as [->|]; [|reflexivity]. cbn [andb skipn].
  set (s1 := set_pos (p_pos s + 1) s). assert (H1 : in_doc s1) by (apply in_doc_add; [rewrite Er; cbn; lia|exact H]).
  assert (R1 : rem s1 = r) by (unfold s1; rewrite rem_add, Er; reflexivity).
  rewrite (is_err_eq _ _ _ (bound_exec s1 H1)), R1. destruct (at_bound r); reflexivity.
Qed.
Lemma comment_colon l : comment_len l <> 0 -> colonb l = false /\ colonb (skipn (comment_len l) l) = false.
Proof.
  unfold comment_len. intros H. destruct (skipn (ws_len l) l) as [|x r] eqn:E; [lia|].
  destruct (N.eqb_spec x 35) as [->|]; [|lia]. split.
  - destruct l as [|y l]; [reflexivity|]. unfold colonb. destruct (N.eqb_spec y 58) as [->|]; [|reflexivity]. cbn in E. discriminate.
  - rewrite <- Nat.add_assoc, <- skipn_add, E, <- skipn_add. cbn [skipn].
    destruct (skipn (span not_nl r) r) as [|y q] eqn:Es; [reflexivity|]. apply span_next in Es.
    unfold colonb. destruct (N.eqb_spec y 58) as [->|]; [discriminate Es|reflexivity].
Qed.
Lemma ts_fact {A} K (P : st -> Prop) T (G H : A -> st -> Prop) E m :
  ts K P T G E m -> (forall s a s', J s -> P s -> m s = (ROk a, s') -> H a s') -> ts K P T (fun a s => G a s /\ H a s) E m.
Proof.
  intros Hm HH s Hs Ps. specialize (Hm s Hs Ps). specialize (HH s). destruct (m s) as [[a|[|nm msg]| |] s']; try exact Hm.
  destruct Hm as (? & ? & ?). split; [assumption|]. split; [assumption|]. split; [assumption|]. now apply (HH a s').
Qed.
(** sub-parsers that leave the checkpoint *)
Definition stays {A} (m : M A) : Prop := forall s a s', J s -> m s = (ROk a, s') -> p_eaten s' = p_eaten s.
Lemma stays_is_err_sym c : stays (is_err (sym c)).
Proof.
  intros s a s' Hs. rewrite (is_err_eq _ _ _ (sym_exec c s (J_in d s Hs))). destruct (rem s) as [|x r]; [now intros [= <- <-]|].
  destruct (N.eqb x c); now intros [= <- <-].
Qed.
Lemma stays_is_err_bound : stays (is_err bound).
Proof. intros s a s' Hs. rewrite (is_err_eq _ _ _ (bound_exec s (J_in d s Hs))). destruct (at_bound _); now intros [= <- <-]. Qed.
Lemma stays_is_err_ind k : stays (is_err (ind k)).
Proof. intros s a s' Hs. rewrite (is_err_eq _ _ _ (ind_exec k s (J_in d s Hs))). destruct (Nat.leb _ _); now intros [= <- <-]. Qed.
Lemma stays_doc_end : stays doc_end.
Proof. intros s a s' Hs. destruct (C05_doc_end_lookahead s (J_in d s Hs)) as (b & E & _). rewrite E. now intros [= <- <-]. Qed.
Lemma stays_orM a b : stays a -> (forall s x s', J s -> a s = (ROk x, s') -> J s') -> stays b -> stays (orM a b).
Proof.
  intros Ha Ja Hb s x s' Hs. unfold orM, bind. destruct (a s) as [[c|e| |] s1] eqn:E1; try discriminate. destruct c.
  - intros [= <- <-]. now apply (Ha s true).
  - intros E2. rewrite (Hb s1 x s' (Ja s false s1 Hs E1) E2). now apply (Ha s false).
Qed.
Lemma tb_J {A} (m : M A) : tb m -> forall s x s', J s -> m s = (ROk x, s') -> J s'.
Proof. intros Hm s x s' Hs E. specialize (Hm s Hs I). rewrite E in Hm. apply Hm. Qed.
Lemma line_over s x s' : J s -> AT s -> andM (is_err (gap true)) (notM doc_end) s = (ROk x, s') ->
  J s' /\ p_eaten s' = p_eaten s /\ (x = false -> ends_at (p_eaten s') /\ (led d (p_pos s') \/ doc_end s' = (ROk true, s'))).
Proof.
  intros Hs A. unfold andM, bind at 1. rewrite (is_err_eq _ _ _ (gap_exec true s (J_in d s Hs))).
  destruct (gap_f true (rem s)) as [[t k]|] eqn:G.
  - intros [= <- <-]. apply gap_f_le in G as G'. destruct G' as (G1 & _). split; [now apply J_adv|]. split; [reflexivity|]. intros _. split; [|left; exact (led_gap d s _ _ _ Hs G)]. left.
    cbn. unfold AT in A. rewrite A, <- (J_rem_d s Hs), G. discriminate.
  - cbn [gap_head]. pose proof (J_adv d s _ Hs (comment_len_le (rem s))) as J1. set (s1 := set_pos (p_pos s + comment_len (rem s)) s) in *.
    unfold notM, bind. destruct (C05_doc_end_lookahead s1 (J_in d s1 J1)) as (b & E & K). rewrite E. intros [= <- <-].
    split; [exact J1|]. split; [reflexivity|]. intros Hb. apply Bool.negb_false_iff in Hb. split; [|right; now rewrite E, Hb]. apply K in Hb. fold (rem s1) in Hb. right.
    cbn. unfold AT in A. rewrite A, <- (J_rem_d s Hs). destruct (Nat.eq_dec (comment_len (rem s)) 0) as [Z0|Z0]; [|now apply comment_colon].
    assert (R1 : rem s1 = rem s) by (unfold s1; rewrite rem_add, Z0; reflexivity). rewrite R1 in Hb.
    destruct Hb as [Hb|[Hb|Hb]]; [now rewrite Hb|..]; first [destruct Hb as [q Hb]|apply starts_with_app in Hb as [q Hb]]; rewrite Hb; reflexivity.
Qed.
Lemma blank_sp k l : k <= sp_len l -> blank_run k l.
Proof.
  intros H. unfold blank_run. apply Forall_forall. intros c Hc. pose proof (span_forall (fun c => N.eqb c 32) l) as X. rewrite forallb_forall in X.
  assert (I : In c (firstn (span (fun c => N.eqb c 32) l) l)).
  { unfold sp_len in H. rewrite <- (firstn_skipn k (firstn (span (fun c => N.eqb c 32) l) l)), firstn_firstn, Nat.min_l by exact H. apply in_or_app. now left. }
  specialize (X c I). apply N.eqb_eq in X. now subst.
Qed.
Lemma led_ind s k : J s -> led d (p_pos s) -> k <= sp_len (rem s) -> led d (p_pos s + k).
Proof. intros Hs Hl Hk. apply led_blank; [exact Hs|now apply blank_sp| |exact Hl]. pose proof (span_le (fun c => N.eqb c 32) (rem s)). unfold sp_len in Hk. lia. Qed.
Lemma next_line L s s' : J s -> (led d (p_pos s) \/ doc_end s = (ROk true, s)) -> orM doc_end (is_err (ind L)) s = (ROk false, s') -> led d (p_pos s').
Proof.
  intros Hs H. unfold orM, bind at 1. destruct (C05_doc_end_lookahead s (J_in d s Hs)) as (b & E & _). rewrite E in *. destruct b; [discriminate|].
  destruct H as [H|H]; [|discriminate]. rewrite (is_err_eq _ _ _ (ind_exec L s (J_in d s Hs))).
  destruct (Nat.leb_spec (ind_width L s) (sp_len (rem s))) as [W|W]; [|discriminate]. intros [= <-]. cbn. now apply led_ind.
Qed.
Lemma ts_complex K (Q E : st -> Prop) p T : steady Q -> (forall s, Q s -> from p s) ->
  ts K (fun s => Q s /\ AT s /\ good d (p_pos s)) T
    (fun (b : bool) s => if b then Q s /\ p + 1 <= p_pos s /\ good d (p_pos s) else Q s /\ AT s /\ good d (p_pos s)) E (is_ok complex_mapping).
Proof.
  intros HQ HF. pose (Q' := fun s => Q s /\ good d (p_eaten s)).
  assert (HQ' : posfree Q') by (apply free_and; [now apply free_steady|apply (free_eaten (good d))]).
  assert (BAD : forall s, J s -> Q' s /\ AT s -> Q s /\ AT s /\ good d (p_pos s)) by (intros s _ [[H1 H2] A]; split; [exact H1|]; split; [exact A|]; unfold AT in A; now rewrite <- A).
  eapply ts_post; [eapply ts_is_ok with (G := fun _ s => Q' s /\ p + 1 <= p_pos s /\ good d (p_pos s)) (G' := fun s => Q' s /\ p + 1 <= p_pos s /\ good d (p_pos s)) (E := fun s => Q' s /\ AT s); [|auto]|..].
  - unfold complex_mapping. eapply ts_bind; [eapply ts_pre; [apply (px_sym K Q' p False (chr "?") HQ')|]|intros ?; eapply ts_pre; [apply (px_bound K Q' (p + 1) False HQ')|]].
    + intros s Hs (H & A & Gs). split; [split; [exact H|unfold AT in A; now rewrite A]|]. apply from_pos; [exact Hs|now apply HF].
    + intros s _ (H & P & _). auto.
  - intros [] s Hs H; [|now apply BAD]. destruct H as ((H1 & _) & H2 & H3). auto.
  - intros s _ H. exact H.
Qed.
Lemma ts_both {A} K (P P' : st -> Prop) T (G G' : A -> st -> Prop) (E E' : st -> Prop) K' T' m :
  ts K P T G E m -> ts K' P' T' G' E' m -> ts K (fun s => P s /\ P' s) T (fun a s => G a s /\ G' a s) (fun s => E s /\ E' s) m.
Proof.
  intros H H' s Hs [Ps Ps']. specialize (H s Hs Ps). specialize (H' s Hs Ps'). destruct (m s) as [[a|[|nm msg]| |] s']; tauto.
Qed.
(** sub-parsers that leave the checkpoint, matched or not *)
Definition keeps {A} (m : M A) : Prop := forall s, J s -> match m s with (ROk _, s') | (RErr Mismatch, s') => p_eaten s' = p_eaten s | _ => True end.
Lemma keeps_gb {A} (m : M A) : gb_at m -> keeps m.
Proof.
  intros Hm s Hs. pose proof Hs as (Ed & H1 & H2 & _). destruct (Hm s H1 ltac:(now rewrite Ed)) as [(a & q & -> & _)| ->]; reflexivity.
Qed.
Lemma keeps_context {A} (m : M A) : keeps (context m).
Proof. intros s _. unfold context. destruct (m _) as [[a|[|nm msg]| |] s']; try exact I; reflexivity. Qed.
Lemma keeps_bind {A B} (m : M A) (f : A -> M B) : tb m -> keeps m -> (forall a, keeps (f a)) -> keeps (bind m f).
Proof.
  intros Tm Hm Hf s Hs. unfold bind. specialize (Tm s Hs I). specialize (Hm s Hs). destruct (m s) as [[a|[|nm msg]| |] s']; try exact I; try exact Hm.
  destruct Tm as (J1 & _). specialize (Hf a s' J1). destruct (f a s') as [[b|[|nm msg]| |] s'']; try exact I; congruence.
Qed.
Lemma keeps_ret {A} (a : A) : keeps (ret a). Proof. intros s _. reflexivity. Qed.
Lemma keeps_literal L : keeps (string_literal L).
Proof.
  unfold string_literal. apply keeps_bind; [apply tb_sym|apply keeps_gb, at_take|intros _]. apply keeps_bind; [apply tb_chomp|apply keeps_context|intros c].
  apply keeps_bind; [apply tb_take|apply keeps_gb, at_take|intros _]. apply keeps_bind; [apply tb_wrapped|apply keeps_context|intros x]. apply keeps_ret.
Qed.
Lemma ts_eaten {A} K (P : st -> Prop) T (G : A -> st -> Prop) E (R : nat -> Prop) m : ts K P T G E m -> keeps m ->
  ts K (fun s => P s /\ R (p_eaten s)) T (fun a s => G a s /\ R (p_eaten s)) (fun s => E s /\ R (p_eaten s)) m.
Proof.
  intros H Hk s Hs [Ps Rs]. specialize (H s Hs Ps). specialize (Hk s Hs). destruct (m s) as [[a|[|nm msg]| |] s']; try exact H; rewrite Hk; tauto.
Qed.
(** a folded scalar that is none leaves the cursor where a quote is closed *)
Lemma ts_folded_good L : ts yes (fun s => good d (p_eaten s)) False (fun _ => tany) (fun s => good d (p_pos s)) (string_folded L).
Proof.
  unfold string_folded. pose (R := fun s : st => led d (p_pos s)). pose (E := fun s : st => good d (p_pos s)).
  eapply ts_bind with (G1 := fun _ => R).
  { eapply ts_weaken; [apply (px_sym yes (fun s => good d (p_eaten s)) 0 False (chr ">") (free_eaten (good d)))|..]; auto.
    - intros s _ H. split; [exact H|lia].
    - intros ? s _ (_ & _ & H). apply H. cbn. tauto.
    - intros s _ [H A]. unfold AT in A. now rewrite <- A. }
  intros ?. eapply ts_bind with (G1 := fun _ => R).
  { unfold chomp. eapply ts_context with (P' := fun s => R s /\ AT s) (G' := fun _ => R) (E' := fun _ => False).
    - assert (SY : forall c, In c before -> ts yes (fun s => R s /\ AT s) False (fun (b : bool) s => R s /\ (b = false -> AT s)) (fun _ => False) (is_ok (sym c))).
      { intros c Hc. eapply ts_post; [eapply ts_is_ok with (G := fun _ s => R s) (G' := R) (E := fun s => R s /\ AT s) (E' := fun _ => False); [|auto]|..].
        - eapply ts_weaken; [apply (px_sym yes (fun s => led d (p_eaten s)) 0 False c (free_eaten (led d)))|..]; auto.
          + intros s _ [H A]. split; [|lia]. unfold AT in A. now rewrite A.
          + intros ? s _ (_ & _ & H). now apply H.
          + intros s _ [H A]. split; [|exact A]. unfold R. unfold AT in A. now rewrite <- A.
        - intros [] s _ H; [split; [exact H|discriminate]|]. destruct H as [H A]. auto.
        - auto. }
      eapply ts_bind; [apply (SY (chr "-")); cbn; tauto|intros []]; [apply ts_ret; intros s _ [H _]; exact H|].
      eapply ts_bind; [eapply ts_pre; [apply (SY (chr "+")); cbn; tauto|intros s _ [H A]; auto]|intros []]; apply ts_ret; intros s _ [H _]; exact H.
    - intros s _ H. split; [exact H|reflexivity].
    - intros ? s s' _ _ _ _ H. exact H.
    - intros s s' _ _ _ _ []. }
  intros c. eapply ts_bind with (G1 := fun _ => R).
  { eapply ts_weaken; [apply (px_blank yes tany E 0 False is_ws (free_steady _ steady_any) ws_ascii)|..]; auto.
    - intros s _ H. split; [exact I|]. split; [lia|exact H].
    - intros ? s _ (_ & _ & H). exact H. }
  intros ?. eapply ts_bind with (G1 := fun _ => tany).
  { eapply ts_weaken; [apply (ts_wrapped d True)|..]; auto. intros s _ H _. now apply fits. }
  intros x. apply ts_ret. auto.
Qed.
Lemma ts_build K (Q E : st -> Prop) T m : ts K Q T (fun _ => Q) E (build_map m).
Proof. intros s Hs Qs. unfold build_map. destruct (map_collect _ _); [split; [exact Hs|]; split; [apply mv_refl|exact Qs]|exact I]. Qed.
Lemma ts_alias K (Q E : st -> Prop) a : ts K Q True (fun _ => Q) E (alias_value a).
Proof.
  intros s Hs Qs. unfold alias_value. destruct (l_cyclic s); [split; [exact Hs|]; split; [apply mv_refl|exact Qs]|].
  destruct (nth_error _ _); [|exact I]. destruct (bt_get _ _); [split; [exact Hs|]; split; [apply mv_refl|exact Qs]|].
  unfold err. destruct (indicated_msg _ _); exact I.
Qed.

(** ** The head of a block collection *)
Definition head (map : bool) (L : nat) : M unit :=
  if map then gap true ;;; ind_define L else g <- is_ok (gap true) ;; if (g : bool) then ind L else ret tt.
Lemma gap_head_at c s : J s -> J (set_pos (p_pos s + gap_head c (rem s)) s).
Proof. intros H. apply J_adv; [exact H|apply gap_head_le]. Qed.
Lemma ts_head (K : nat -> Prop) map L T : (map = true -> 1 <= L) -> (forall j, K j -> Kn L map j) ->
  ts K (fun s => AT s /\ entry L map s /\ good d (p_pos s)) T
    (fun _ s => ((Z (L + 1) s /\ (map = true -> opens (set_pos (p_eaten s) s))) /\ good d (p_eaten s)) /\ good d (p_pos s))
    (fun s => Z L s /\ good d (p_eaten s) /\ good d (p_pos s)) (head map L).
Proof.
  intros HL HK s Hs (A & En & Gp). assert (Ge : good d (p_eaten s)) by (unfold AT in A; now rewrite A).
  unfold head. destruct map.
  - specialize (HL eq_refl). unfold bind. rewrite (gap_exec true s (J_in d s Hs)).
    destruct (gap_f true (rem s)) as [[t k]|] eqn:G.
    + pose proof (gap_f_le _ _ _ _ G) as (G1 & G2 & _). pose proof (J_adv d s k Hs G1) as J1.
      pose proof (led_gap d s _ _ _ Hs G) as Lg.
      set (s1 := set_pos (p_pos s + k) s) in *. change (p_pos s + k) with (p_pos s1) in Lg.
      destruct (le_lt_dec (depth (p_indent s1) (L - 1)) (sp_len (rem s1))) as [W|W].
      * rewrite (ind_define_ok L s1 (J_in d s1 J1) HL W). set (w := depth (p_indent s1) (L - 1)) in *.
        set (i := span is_ascii_ws (skipn w (rem s1))).
        assert (WL : w + i <= List.length (rem s1)).
        { assert (X1 : sp_len (rem s1) <= List.length (rem s1)) by apply span_le.
          assert (X2 : i <= List.length (skipn w (rem s1))) by apply span_le. rewrite skipn_length in X2. lia. }
        pose proof (J_rem d s1 (w + i) J1 WL) as PL.
        assert (LN : List.length (ind_norm (L - 1) (p_indent s1) ++ [i]) = L + 1) by (rewrite app_length, ind_norm_length; simpl; lia).
        assert (LD : led d (p_pos s1 + w + i)).
        { rewrite <- Nat.add_assoc. apply led_blank; [exact J1| |exact WL|exact Lg]. apply blank_add; [now apply blank_sp|now apply blank_span]. }
        split; [|split; [|split; [split; [split|]|]]].
        -- unfold Term.J in *. cbn. destruct J1 as (E1 & E2 & E3 & E4). split; [exact E1|]. split; [cbn in *; lia|]. split; [cbn in *; lia|].
           intros X. apply (f_equal (@List.length nat)) in X. rewrite app_length in X. simpl in X. lia.
        -- split; [cbn; lia|]. intros j Kj Zj. apply HK in Kj. destruct Kj as [Kj|[_ X]]; [|discriminate].
           unfold Z in *. cbn. erewrite depth_ext; [exact Zj|]. intros x Hx. unfold width. rewrite app_nth1 by (rewrite ind_norm_length; lia).
           apply (ind_norm_width (L - 1) (p_indent s1) x). lia.
        -- unfold Z. apply (Nat.lt_le_trans _ 2); [lia|]. apply (depth_beyond (ind_norm (L - 1) (p_indent s1) ++ [i]) L (L + 1)); lia.
        -- intros _. unfold opens. cbn. unfold rem. cbn. unfold AT in A. rewrite A. fold (rem s). now rewrite G.
        -- exact Ge.
        -- now apply fits.
      * unfold ind_define. rewrite (proj2 (Nat.ltb_lt 0 L)) by lia. unfold bind at 1.
        rewrite (ind_exec (L - 1) s1 (J_in d s1 J1)), ind_width_depth, (proj2 (Nat.leb_gt _ _) W).
        split; [|split; [|split; [|split; exact Ge]]].
        -- unfold Term.J in *. cbn in *. destruct Hs as (E1 & E2 & E3 & _). split; [exact E1|]. split; [lia|]. split; [lia|]. apply InvBase.ind_norm_ne.
        -- split; [cbn; lia|]. intros j Kj Zj. unfold Z, ind_table in *. cbn. destruct (le_lt_dec j (L - 1)); [now rewrite depth_norm|now apply norm_deep].
        -- unfold Z, ind_table. cbn. apply norm_deep. lia.
    + split; [now apply gap_head_at|]. split; [now apply mv_same|]. split; [|split; [exact Ge|now apply good_comment]].
      destruct En as [En|[_ En]]; [exact En|]. unfold opens in En. congruence.
  - unfold bind. rewrite (is_ok_eq _ _ _ (gap_exec true s (J_in d s Hs))).
    destruct (gap_f true (rem s)) as [[t k]|] eqn:G.
    + pose proof (gap_f_le _ _ _ _ G) as (G1 & G2 & _). pose proof (J_adv d s k Hs G1) as J1.
      pose proof (led_gap d s _ _ _ Hs G) as Lg.
      set (s1 := set_pos (p_pos s + k) s) in *. change (p_pos s + k) with (p_pos s1) in Lg.
      pose proof (ts_ind d K tany T L steady_any s1 J1 I) as X.
      rewrite (ind_exec L s1 (J_in d s1 J1)) in *. destruct (Nat.leb_spec (ind_width L s1) (sp_len (rem s1))) as [W|W].
      * destruct X as (X1 & X2 & _ & X3). split; [exact X1|]. split; [exact X2|]. split; [split; [split; [exact X3|discriminate]|exact Ge]|].
        apply fits. exact (led_ind s1 _ J1 Lg W).
      * destruct X as (X1 & X2 & _ & X3). split; [exact X1|]. split; [exact X2|]. split; [|split; exact Ge]. unfold Z. cbn.
        rewrite ind_width_depth in W. unfold ind_table. rewrite depth_norm by lia. cbn in W |- *. lia.
    + split; [now apply gap_head_at|]. split; [now apply mv_same|]. split; [split; [split; [|discriminate]|exact Ge]|now apply good_comment].
      destruct En as [En|[_ En]]; [exact En|]. unfold opens in En. congruence.
Qed.

(** A block scalar does not begin at a line break. *)
Lemma opens_head s x r : opens s -> rem s = x :: r -> x <> 124%N /\ x <> 62%N.
Proof.
  unfold opens. intros H E. rewrite E in H. split; intros ->; apply H; reflexivity.
Qed.
Lemma ts_block (m : M str) c (k : unit -> M str) L map : tb m -> (forall s, m s = bind (sym c) k s) -> (c = 124%N \/ c = 62%N) ->
  ts yes (entry L map) False (fun _ s => if map then Z L s else Z (L + 1) s) (entry L map) m.
Proof.
  intros Hm Hf Hc s Hs [En|[A En]].
  - pose proof (tb_use d yes (fun s => if map then Z L s else Z (L + 1) s) False m Hm) as X.
    assert (HQ : steady (fun s => if map then Z L s else Z (L + 1) s)) by (destruct map; apply steady_Z).
    specialize (X HQ s Hs En). destruct (m s) as [[a|[|nm msg]| |] s']; try exact X.
    + destruct X as (X1 & X2 & X3). split; [exact X1|]. split; [exact X2|now left].
  - assert (E : m s = (RErr Mismatch, s)).
    { rewrite Hf. unfold bind. rewrite (sym_exec c s (J_in d s Hs)). pose proof (AT_back s A) as B.
      destruct (rem s) as [|x r] eqn:Er; [now rewrite B|]. destruct (opens_head s x r En Er) as [N1 N2].
      destruct (N.eqb_spec x c) as [->|]; [destruct Hc; contradiction|now rewrite B]. }
    rewrite E. split; [exact Hs|]. split; [apply mv_refl|]. right. auto.
Qed.

Record all_ts (n : nat) : Prop := {
  a_scalar : forall L map flow p, 8 * len + 8 <= n + 8 * p -> (map = true -> 1 <= L) ->
    ts (Kn L map) (fun s => from p s /\ AT s /\ entry L map s /\ good d (p_pos s)) True (fun _ s => (map = true -> Z L s \/ ends_at (p_pos s)) /\ AT s) (fun _ => False) (scalar n L map flow);
  a_flow : forall L flow p, 8 * len + 5 <= n + 8 * p ->
    ts (Kf L) (fun s => (from p s /\ Z L s) /\ AT s /\ good d (p_pos s)) True (fun _ => AT) (fun _ => False) (scalar_flow n L flow);
  a_term : forall L flow p, 8 * len + 4 <= n + 8 * p ->
    ts (Kf L) (fun s => (from p s /\ Z L s) /\ good d (p_eaten s)) True (fun _ => tany) (fun _ => False) (scalar_term n L flow);
  a_seqf : forall L p, 8 * len + 3 <= n + 8 * p ->
    ts (Kf L) (fun s => from p s /\ Z L s) True (fun _ => tany) tany (seq_flow n L);
  a_seqfl : forall L p v, 8 * len + 9 <= n + 8 * p ->
    ts (Kf L) (fun s => Z L s /\ p <= p_pos s /\ led d (p_pos s)) True (fun _ => tany) tany (seq_flow_loop n L v);
  a_mapf : forall L p, 8 * len + 3 <= n + 8 * p ->
    ts (Kf L) (fun s => from p s /\ Z L s) True (fun _ => tany) tany (map_flow n L);
  a_mapfl : forall L p v, 8 * len + 9 <= n + 8 * p ->
    ts (Kf L) (fun s => Z L s /\ p <= p_pos s /\ led d (p_pos s)) True (fun _ => tany) tany (map_flow_loop n L v);
  a_seq : forall L map p, 8 * len + 7 <= n + 8 * p -> (map = true -> 1 <= L) ->
    ts (Kn L map) (fun s => from p s /\ entry L map s /\ good d (p_pos s)) True (fun _ s => ends_at (p_pos s)) (fun s => entry L map s /\ good d (p_pos s)) (Loader.seq n L map);
  a_seql : forall L map p v, 8 * len + 6 <= n + 8 * p -> (map = true -> 1 <= L) ->
    ts (Kn L map) (fun s => from p s /\ (v = [] -> entry L map s /\ good d (p_pos s))) True (fun _ s => ends_at (p_pos s)) (fun s => entry L map s /\ good d (p_pos s)) (seq_loop n L map v);
  a_map : forall L map flow p, 8 * len + 7 <= n + 8 * p -> (map = true -> 1 <= L) ->
    ts (Kn L map) (fun s => from p s /\ entry L map s /\ good d (p_pos s)) True (fun _ s => ends_at (p_pos s)) (fun s => Z L s /\ good d (p_eaten s)) (map_ n L map flow);
  a_mapl : forall L map flow p m, 8 * len + 6 <= n + 8 * p -> (map = true -> 1 <= L) ->
    ts (Kn L map) (fun s => from p s /\ (m = [] -> entry L map s /\ good d (p_pos s))) True (fun _ s => ends_at (p_pos s)) (fun s => Z L s /\ good d (p_eaten s)) (map_loop n L map flow m)
}.

Lemma no_room {A} K (P : st -> Prop) T (G : A -> st -> Prop) E m :
  (forall s, J s -> P s -> False) -> ts K P T G E m.
Proof. intros H s Hs Ps. destruct (H s Hs Ps). Qed.
Lemma ts_no_mismatch {A} K P T (G : A -> st -> Prop) (E : st -> Prop) m :
  ts K P T G (fun _ => False) m -> ts K P T G E m.
Proof. intros H. eapply ts_post; [exact H|auto|intros s _ []]. Qed.
Lemma ts_item {A} K (P : st -> Prop) (G : A -> st -> Prop) (E : st -> Prop) m nm :
  ts K P True G (fun _ => False) m -> ts K P True G E (or_else m (err nm)).
Proof. intros H. eapply ts_or_else; [exact H|]. apply ts_err. exact I. Qed.
Lemma entry_deep L s : Z (L + 1) s -> entry (L + 1) false s.
Proof. intros H. left. eapply Z_mono; [|exact H]. lia. Qed.
Lemma ts_opt_ok {A} K (Q E' : st -> Prop) T (m : M A) : ts K Q False (fun _ => Q) Q m -> ts K Q T (fun _ => Q) E' (Parser.ok m).
Proof. intros H. eapply ts_post; [eapply ts_ok; exact H|..]; [intros [a|] s _ X; exact X|intros s _ X; exact X]. Qed.

Lemma steady_fz p j : steady (fun s => from p s /\ Z j s).
Proof. apply steady_and; [apply steady_from|apply steady_Z]. Qed.

(** a block collection ends where its last item ended *)
Lemma stop_line {A} nm (k : M A) s a s' : J s -> AT s ->
  (bad <- andM (is_err (gap true)) (notM doc_end) ;; if (bad : bool) then err nm else k) s = (ROk a, s') ->
  exists s1, J s1 /\ ends_at (p_eaten s1) /\ k s1 = (ROk a, s').
Proof.
  intros Hs A0. unfold bind at 1. destruct (andM _ _ s) as [[b|e| |] s1] eqn:E1; try discriminate. destruct b.
  { unfold err. destruct (indicated_msg _ _); discriminate. }
  destruct (line_over s false s1 Hs A0 E1) as (J1 & _ & H). intros E. exists s1. split; [exact J1|]. split; [now apply H|exact E].
Qed.
Lemma stay_step {A B} (m : M A) (k : A -> M B) s a s' : stays m -> (forall s x s', J s -> m s = (ROk x, s') -> J s') ->
  J s -> ends_at (p_eaten s) -> bind m k s = (ROk a, s') -> exists x s1, J s1 /\ ends_at (p_eaten s1) /\ k x s1 = (ROk a, s').
Proof.
  intros Hm Hj Hs He. unfold bind. destruct (m s) as [[x|e| |] s1] eqn:E1; try discriminate. intros E. exists x, s1.
  split; [now apply (Hj s x)|]. split; [|exact E]. now rewrite (Hm s x s1 Hs E1).
Qed.
Lemma stays_end L : stays (orM doc_end (is_err (ind L))).
Proof. apply stays_orM; [apply stays_doc_end|apply tb_J, tb_doc_end|apply stays_is_err_ind]. Qed.
Lemma tb_end L : tb (orM doc_end (is_err (ind L))).
Proof.
  apply ts_orM with (G1 := fun _ => tany); [apply tb_doc_end|auto|]. apply tb_is_err; [apply tb_ind|apply steady_any].
Qed.
Lemma stays_mark c : stays (orM (is_err (sym c)) (is_err bound)).
Proof. apply stays_orM; [apply stays_is_err_sym|apply tb_J, tb_is_err; [apply tb_sym|apply steady_any]|apply stays_is_err_bound]. Qed.
Lemma tb_mark c : tb (orM (is_err (sym c)) (is_err bound)).
Proof.
  apply ts_orM with (G1 := fun _ => tany); [apply tb_is_err; [apply tb_sym|apply steady_any]|auto|]. apply tb_is_err; [apply tb_bound|apply steady_any].
Qed.

Lemma all_ts_S n : all_ts n -> all_ts (S n).
Proof.
  intros IH. split.
  - (* scalar *)
    intros L map flow p Hn HL. cbn [scalar].
    pose (C := fun s => if map then Z L s else Z (L + 1) s). assert (HC : steady C) by (unfold C; destruct map; apply steady_Z).
    pose (G := fun s => map = true -> Z L s \/ ends_at (p_pos s)).
    eapply ts_pre with (P := fun s => start d p C True s /\ AT s); [|intros s _ (F & A & En & Gs); split; [|exact A]; split; [exact F|]; split; [|exact Gs]; destruct En as [En|[A' En]]; [now left|right; auto]].
    eapply ts_node with (G := G); [exact fits|exact HC|intros s H; exact H|intros s ? H; exact H|].
    eapply ts_pre with (P := fun s => (entry L map s /\ good d (p_eaten s)) /\ from p s).
    2: { intros s _ [(F & En & Gs) A]. split; [|exact F]. split; [destruct En as [En|(_ & En)]; [now left|now right]|]. unfold AT in A. now rewrite A. }
    assert (CG : forall s, C s -> G s) by (intros s Cs E; left; unfold C in Cs; now rewrite E in Cs).
    eapply ts_bind with (G1 := fun o s => match o with Some _ => C s | None => (entry L map s /\ good d (p_eaten s)) /\ from p s end).
    { assert (X : ts yes (entry L map) False (fun _ => C) (entry L map) (string_literal L)) by (eapply ts_block; [apply tb_literal|reflexivity|now left]).
      apply (ts_eaten yes _ False _ _ (good d)) in X; [|apply keeps_literal]. apply (ts_steady d yes _ (from p)) in X; [|apply steady_from].
      eapply ts_weaken; [eapply ts_ok with (E' := fun _ => False) (T := True); exact X|..]; auto.
      - intros; exact I.
      - intros [a|] s _ H; [apply H|exact H]. }
    intros [x|]; [apply ts_ret; intros s _ H; now apply CG|].
    eapply ts_bind with (G1 := fun o s => match o with Some _ => C s | None => from p s /\ entry L map s /\ good d (p_pos s) end).
    { assert (X : ts yes (entry L map) False (fun _ => C) (entry L map) (string_folded L)) by (eapply ts_block; [apply tb_folded|reflexivity|now right]).
      pose proof (ts_both _ _ _ _ _ _ _ _ _ _ _ X (ts_folded_good L)) as X'. apply (ts_steady d yes _ (from p)) in X'; [|apply steady_from].
      eapply ts_weaken; [eapply ts_ok with (E' := fun _ => False) (T := True); exact X'|..]; auto.
      - intros; exact I.
      - intros [a|] s _ H; [apply H|]. destruct H as [[H1 H2] H3]. auto. }
    intros [x|]; [apply ts_ret; intros s _ H; now apply CG|].
    eapply ts_or_else with (E1 := fun s => (from p s /\ Z L s) /\ good d (p_eaten s)).
    + eapply ts_or_else with (E1 := fun s => from p s /\ entry L map s /\ good d (p_pos s)).
      * eapply ts_weaken; [apply (ts_keep (Kn L map) _ (from p) True _ _ _ (a_seq n IH L map p ltac:(lia) HL)); intros s s' [M _]; unfold from; lia|..]; auto.
        -- intros s _ H. split; [exact H|apply H].
        -- intros a s _ [H _] _. now right.
        -- intros s _ [En F]. split; [exact F|exact En].
      * eapply ts_weaken; [apply (ts_keep (Kn L map) _ (from p) True _ _ _ (a_map n IH L map flow p ltac:(lia) HL)); intros s s' [M _]; unfold from; lia|..]; auto.
        -- intros s _ H. split; [exact H|apply H].
        -- intros a s _ [H _] _. now right.
        -- intros s _ [[Zs Gs] F]. auto.
    + eapply ts_weaken; [apply (ts_keep (Kf L) _ (Z L) True _ _ _ (a_term n IH L flow p ltac:(lia)))|..]; auto.
      * intros s s' [_ M]. apply M. unfold Kf. lia.
      * intros j [K|[-> _]]; unfold Kf; lia.
      * intros s _ [[F Zs] Gs]. auto.
      * intros ? s _ [_ Zs] _. now left.
      * intros s _ [[] _].
  - (* scalar_flow *)
    intros L flow p Hn. cbn [scalar_flow].
    eapply ts_pre with (P := fun s => start d p (Z L) False s /\ AT s); [|intros s _ ([F Zs] & A & Gs); split; [|exact A]; split; [exact F|]; split; [now left|exact Gs]].
    eapply ts_post; [eapply ts_node with (G := tany); [exact fits|apply steady_Z|intros; exact I|intros; exact I|]|intros ? s _ [_ H]; exact H|auto].
    eapply ts_pre; [apply (a_term n IH L flow p ltac:(lia))|]. intros s _ [(F & [Zs|[[] _]] & Gs) A]. split; [split; assumption|]. unfold AT in A. now rewrite A.
  - (* scalar_term *)
    intros L flow p Hn. cbn [scalar_term]. pose (Q := fun s => from p s /\ Z L s).
    assert (HQ : steady Q) by apply steady_fz. pose (QE := fun s => Q s /\ good d (p_eaten s)). pose (QG := fun s => Q s /\ good d (p_pos s)).
    assert (NUM : forall m : M str, gb_at m -> ts (Kf L) QE True (fun (o : option str) s => match o with Some _ => tany s | None => QE s /\ AT s end) (fun _ => False) (Parser.ok m)).
    { intros m Hm s Hs [Qs Gs]. unfold Parser.ok. pose proof Hs as (Ed & H1 & H2 & _). destruct (Hm s H1 ltac:(now rewrite Ed)) as [(a & q & -> & Hq & Hl)| ->].
      - split; [apply J_pos; [exact Hs|exact Hq|now rewrite <- Ed]|]. split; [now apply mv_same|exact I].
      - split; [now apply J_back|]. split; [now apply mv_same|]. split; [|reflexivity]. split; [eapply HQ; [|exact Qs]; now apply mv_same|exact Gs]. }
    assert (NUM' : forall m : M str, gb_at m -> ts (Kf L) (fun s => QE s /\ AT s) True (fun (o : option str) s => match o with Some _ => tany s | None => QE s /\ AT s end) (fun _ => False) (Parser.ok m)).
    { intros m Hm. eapply ts_pre; [apply NUM, Hm|]. intros s _ [H _]. exact H. }
    eapply ts_bind; [apply (NUM _ (at_float))|intros [x|]]; [apply ts_ret; intros; exact I|].
    eapply ts_bind; [apply (NUM' _ (at_sci))|intros [x|]]; [apply ts_ret; intros; exact I|].
    eapply ts_bind; [apply (NUM' _ (at_int))|intros [x|]]; [apply ts_ret; intros; exact I|].
    eapply ts_bind with (G1 := fun o s => match o with Some _ => tany s | None => QG s end).
    { eapply ts_pre with (P := QE); [|intros s _ [H _]; exact H]. eapply ts_post; [eapply ts_ok with (G := fun _ => tany) (E := QG) (E' := fun _ => False)|auto|auto].
      unfold anchor_use. eapply ts_bind with (G1 := fun _ s => Q s /\ led d (p_pos s)).
      - eapply ts_weaken; [apply (px_sym (Kf L) QE 0 False (chr "*")); apply free_and; [now apply free_steady|apply (free_eaten (good d))]|..]; auto.
        + intros s _ H. split; [exact H|lia].
        + intros ? s _ (H & _ & H'). split; [apply H|apply H'; cbn; tauto].
        + intros s _ [[H Gs] A]. split; [exact H|]. unfold AT in A. now rewrite <- A.
      - intros ?. intros s Hs [Qs Ls]. set (u := set_eaten (p_pos s) s). assert (Ju : J u) by (unfold Term.J, u in *; cbn; intuition).
        unfold context. fold u. unfold bind. rewrite (identifier_exec u (J_in d u Ju)). destruct (Nat.eqb _ 0).
        + assert (E : set_eaten (p_eaten s) (set_pos (p_eaten u) u) = s) by (unfold u; apply st_ext; reflexivity). rewrite E.
          split; [exact Hs|]. split; [apply mv_refl|]. split; [exact Qs|now apply fits].
        + pose proof (J_adv d u _ Ju (ident_len_le (rem u))) as J1. rewrite (text_exec _ (J_in d _ J1)).
          split; [|split; [|exact I]].
          * destruct J1 as (E1 & E2 & E3 & E4). destruct Hs as (_ & ? & _). unfold Term.J. cbn in *. intuition lia.
          * apply mv_same; [cbn; lia|reflexivity]. }
    intros [x|]; [eapply ts_post; [apply (ts_alias (Kf L) tany (fun _ => False))|intros; exact I|auto]|].
    assert (QUO : forall q ig, quote q ig -> ts (Kf L) QG True (fun (o : option str) s => match o with Some _ => tany s | None => QG s end) (fun _ => False) (Parser.ok (string_quoted q ig))).
    { intros q ig Hq s Hs [Qs Gs]. unfold Parser.ok. pose proof (quoted_end d q ig s Hq Hs Gs) as X. destruct (string_quoted q ig s) as [[a|[|nm msg]| |] s']; try contradiction.
      - destruct X as (X1 & X2 & X3). split; [exact X1|]. split; [apply mv_same; [lia|exact X2]|exact I].
      - subst s'. split; [exact Hs|]. split; [apply mv_refl|split; assumption]. }
    eapply ts_bind; [apply QUO; right; split; reflexivity|intros [x|]]; [apply ts_ret; intros; exact I|].
    eapply ts_bind; [apply QUO; left; split; reflexivity|intros [x|]]; [apply ts_ret; intros; exact I|].
    eapply ts_bind with (G1 := fun _ => Q).
    { eapply ts_pre with (P := Q); [|intros s _ [H _]; exact H].
      eapply ts_opt_ok. eapply ts_weaken; [apply (ts_keep yes (Z L) Q False _ _ _ (ts_plain d yes False L flow)); exact HQ|..]; auto.
      - intros; exact I.
      - intros s _ H. split; [apply H|exact H].
      - intros ? s _ [_ H]. exact H.
      - intros s _ [_ H]. exact H. }
    intros [x|]; [apply ts_ret; intros; exact I|].
    assert (KQ : forall s s', mv (Kf L) s s' -> Q s -> Q s').
    { intros s s' [M1 M2] [F Zs]. split; [unfold from in *; lia|]. apply M2; [unfold Kf; lia|exact Zs]. }
    eapply ts_or_else with (E1 := Q); [eapply ts_or_else with (E1 := Q)|apply ts_ret; intros; exact I].
    + eapply ts_weaken; [apply (ts_keep (Kf L) _ Q True _ _ _ (a_seqf n IH L p ltac:(lia)) KQ)|..]; auto.
      * intros s _ H. split; exact H.
      * intros ? s _ _. exact I.
      * intros s _ [_ H]. exact H.
    + eapply ts_weaken; [apply (ts_keep (Kf L) _ Q True _ _ _ (a_mapf n IH L p ltac:(lia)) KQ)|..]; auto.
      * intros s _ H. split; exact H.
      * intros ? s _ _. exact I.
      * intros s _ [_ H]. exact H.
  - (* seq_flow *)
    intros L p Hn. cbn [seq_flow].
    eapply ts_bind with (G1 := fun _ s => Z L s /\ p + 1 <= p_pos s /\ led d (p_pos s)).
    + eapply ts_weaken; [apply (px_sym (Kf L) (Z L) p True (chr "[") (free_steady _ (steady_Z L)))|..]; auto.
      * intros s Hs [F Zs]. split; [exact Zs|now apply from_pos].
      * intros ? s _ (H1 & H2 & H3). split; [exact H1|]. split; [exact H2|]. apply H3. cbn. tauto.
      * intros; exact I.
    + intros _. apply (a_seqfl n IH L (p + 1)). lia.
  - (* seq_flow_loop *)
    intros L p v Hn. cbn [seq_flow_loop].
    pose (Q := fun s => from p s /\ Z L s). assert (HQ : steady Q) by apply steady_fz. pose (QL := fun s => (Q s /\ led d (p_eaten s)) /\ AT s).
    eapply ts_bind; [apply (px_blank (Kf L) (Z L) tany p True _ (free_steady _ (steady_Z L)) (fun c H => H))|intros ?].
    eapply ts_bind with (G1 := fun _ => QL).
    { eapply ts_post; [apply (px_forward (Kf L) (Z L) tany (led d) p True (steady_Z L))|..]; [intros ? s _ (X & Y & A & Ls); split; [split; [split; assumption|]|exact A]|auto]. unfold AT in A. now rewrite A. }
    intros ?. eapply ts_bind with (G1 := fun (b : bool) s => if b then Q s else QL s).
    { eapply ts_is_ok with (G := fun _ => Q) (E := QL); [|intros ? ? _ H; exact H].
      eapply ts_weaken; [apply (px_sym (Kf L) (fun s => Q s /\ led d (p_eaten s)) 0 False (chr "]") (free_and _ _ (free_steady _ HQ) (free_eaten (led d))))|..]; auto.
      - intros s _ [H _]. split; [exact H|lia].
      - intros ? s _ [[H _] _]. exact H. }
    intros []. { eapply ts_bind; [apply (tq_fwd d (Kf L) Q tany True HQ)|intros ?; apply ts_ret; intros; exact I]. }
    eapply ts_bind; [apply (px_forward_at (Kf L) (fun s => Q s /\ led d (p_eaten s)) tany True)|intros ?].
    eapply ts_bind with (G1 := fun _ => Q).
    { eapply ts_item. eapply ts_weaken; [apply (ts_keep (Kn (L + 1) false) _ Q True _ _ _ (a_scalar n IH (L + 1) false true p ltac:(lia) ltac:(discriminate)))|..]; auto.
      - intros s s' [M1 M2] [F Zs]. split; [unfold from in *; lia|]. apply M2; [left; lia|exact Zs].
      - intros j Kj. unfold Kf, Kn in *. lia.
      - intros s _ [[[F Zs] Ls] A]. split; [split; [exact F|]; split; [exact A|]; split; [apply entry_deep; eapply Z_mono; [|exact Zs]; lia|apply fits; unfold AT in A; now rewrite <- A]|split; assumption].
      - intros ? s _ [_ H]. exact H.
      - intros s _ [[] _]. }
    intros x. cbv zeta. eapply ts_bind; [apply (tq_more0 d (Kf L) Q tany True _ HQ)|intros ?].
    eapply ts_bind.
    { eapply ts_is_err with (G := fun _ s => Q s /\ p + 1 <= p_pos s /\ led d (p_pos s)) (G' := fun s => Q s /\ p + 1 <= p_pos s /\ led d (p_pos s)) (E := Q).
      - eapply ts_weaken; [apply (px_sym (Kf L) Q p False (chr ",") (free_steady _ HQ))|..]; auto.
        + intros s Hs H. split; [exact H|]. apply from_pos; [exact Hs|apply H].
        + intros ? s _ (H1 & H2 & H3). split; [exact H1|]. split; [exact H2|]. apply H3. cbn. tauto.
        + intros s _ [H _]. exact H.
      - intros ? ? _ H; exact H. }
    intros [].
    + eapply ts_bind; [apply (tq_more0 d (Kf L) Q tany True _ HQ)|intros ?].
      eapply ts_bind; [eapply ts_post; [apply (tb_use d (Kf L) Q True _ (tb_sym d _) HQ)|intros ? ? _ H; exact H|intros; exact I]|intros ?].
      eapply ts_bind; [apply (tq_fwd d (Kf L) Q tany True HQ)|intros ?; apply ts_ret; intros; exact I].
    + eapply ts_pre; [apply (a_seqfl n IH L (p + 1)); lia|]. intros s _ ([_ X] & Y & W). auto.
  - (* map_flow *)
    intros L p Hn. cbn [map_flow].
    eapply ts_bind with (G1 := fun _ s => Z L s /\ p + 1 <= p_pos s /\ led d (p_pos s)).
    + eapply ts_weaken; [apply (px_sym (Kf L) (Z L) p True (chr "{") (free_steady _ (steady_Z L)))|..]; auto.
      * intros s Hs [F Zs]. split; [exact Zs|now apply from_pos].
      * intros ? s _ (H1 & H2 & H3). split; [exact H1|]. split; [exact H2|]. apply H3. cbn. tauto.
      * intros; exact I.
    + intros _. apply (a_mapfl n IH L (p + 1)). lia.
  - (* map_flow_loop *)
    intros L p v Hn. cbn [map_flow_loop].
    pose (Q := fun s => from p s /\ Z L s). assert (HQ : steady Q) by apply steady_fz. pose (QL := fun s => (Q s /\ led d (p_eaten s)) /\ AT s).
    pose (QN := fun s => Q s /\ AT s /\ good d (p_pos s)).
    assert (ITEM : ts (Kf L) QN True (fun _ => Q) (fun _ => False) (scalar n (L + 1) false true)).
    { eapply ts_weaken; [apply (ts_keep (Kn (L + 1) false) _ Q True _ _ _ (a_scalar n IH (L + 1) false true p ltac:(lia) ltac:(discriminate)))|..]; auto.
      - intros s s' [M1 M2] [F Zs]. split; [unfold from in *; lia|]. apply M2; [left; lia|exact Zs].
      - intros j Kj. unfold Kf, Kn in *. lia.
      - intros s _ ([F Zs] & A & Gs). split; [split; [exact F|]; split; [exact A|]; split; [apply entry_deep; eapply Z_mono; [|exact Zs]; lia|exact Gs]|split; assumption].
      - intros ? s _ [_ H]. exact H.
      - intros s _ [[] _]. }
    assert (KEY : ts (Kf L) QN True (fun _ => Q) (fun _ => False) (scalar_flow n (L + 1) true)).
    { eapply ts_weaken; [apply (ts_keep (Kf (L + 1)) _ Q True _ _ _ (a_flow n IH (L + 1) true p ltac:(lia)))|..]; auto.
      - intros s s' [M1 M2] [F Zs]. split; [unfold from in *; lia|]. apply M2; [unfold Kf; lia|exact Zs].
      - intros j Kj. unfold Kf in *. lia.
      - intros s _ ([F Zs] & A & Gs). split; [split; [split; [exact F|eapply Z_mono; [|exact Zs]; lia]|split; assumption]|split; assumption].
      - intros ? s _ [_ H]. exact H.
      - intros s _ [[] _]. }
    assert (COMMA : forall c, In c before -> ts (Kf L) Q True (fun (b : bool) s => if b then Q s else Q s /\ p + 1 <= p_pos s /\ led d (p_pos s)) tany (is_err (sym c))).
    { intros c Hc. eapply ts_is_err with (G := fun _ s => Q s /\ p + 1 <= p_pos s /\ led d (p_pos s)) (G' := fun s => Q s /\ p + 1 <= p_pos s /\ led d (p_pos s)) (E := Q).
      - eapply ts_weaken; [apply (px_sym (Kf L) Q p False c (free_steady _ HQ))|..]; auto.
        + intros s Hs H. split; [exact H|]. apply from_pos; [exact Hs|apply H].
        + intros ? s _ (H1 & H2 & H3). auto.
        + intros s _ [H _]. exact H.
      - intros ? ? _ H; exact H. }
    assert (FWD : ts (Kf L) (fun s => Q s /\ good d (p_pos s)) True (fun _ => QN) tany forward).
    { eapply ts_weaken; [apply (px_forward (Kf L) Q tany (good d) 0 True HQ)|..]; auto.
      - intros s _ [H1 H2]. split; [exact H1|]. split; [lia|exact H2].
      - intros ? s _ (H1 & _ & H2). split; assumption. }
    eapply ts_bind; [apply (px_blank (Kf L) (Z L) tany p True _ (free_steady _ (steady_Z L)) (fun c H => H))|intros ?].
    eapply ts_bind with (G1 := fun _ => QL).
    { eapply ts_post; [apply (px_forward (Kf L) (Z L) tany (led d) p True (steady_Z L))|..]; [intros ? s _ (X & Y & A & Ls); split; [split; [split; assumption|]|exact A]|auto]. unfold AT in A. now rewrite A. }
    intros ?. eapply ts_bind with (G1 := fun (b : bool) s => if b then Q s else QL s).
    { eapply ts_is_ok with (G := fun _ => Q) (E := QL); [|intros ? ? _ H; exact H].
      eapply ts_weaken; [apply (px_sym (Kf L) (fun s => Q s /\ led d (p_eaten s)) 0 False (chr "}") (free_and _ _ (free_steady _ HQ) (free_eaten (led d))))|..]; auto.
      - intros s _ [H _]. split; [exact H|lia].
      - intros ? s _ [[H _] _]. exact H. }
    intros []. { eapply ts_bind; [apply (tq_fwd d (Kf L) Q tany True HQ)|intros ?]. eapply ts_post; [apply (ts_build (Kf L) Q tany)|intros; exact I|auto]. }
    eapply ts_bind; [apply (px_forward_at (Kf L) (fun s => Q s /\ led d (p_eaten s)) tany True)|intros ?].
    eapply ts_bind; [eapply ts_pre; [apply (ts_complex (Kf L) Q tany p True HQ); intros s H; apply H|]|intros c].
    { intros s _ [[H Ls] A]. split; [exact H|]. split; [exact A|]. apply fits. unfold AT in A. now rewrite <- A. }
    eapply ts_bind with (G1 := fun _ => Q).
    { destruct c; [|apply ts_item; exact KEY].
      eapply ts_bind; [eapply ts_pre; [exact FWD|intros s _ (H1 & _ & H2); auto]|intros ?].
      eapply ts_bind; [apply ts_item; exact ITEM|intros k].
      eapply ts_bind; [apply (tb_is_ok d (Kf L) Q tany True _ (tb_gap d true) HQ)|intros g].
      eapply ts_bind with (G1 := fun _ => Q); [|intros ?; apply ts_ret; auto].
      destruct g; [|apply ts_ret; auto]. eapply ts_post; [apply (tb_use d (Kf L) Q True _ (tb_ind d L) HQ)|auto|intros; exact I]. }
    intros k. eapply ts_bind; [apply COMMA; cbn; tauto|intros []]; [apply ts_err; exact I|].
    eapply ts_bind with (G1 := fun _ s => Q s /\ good d (p_pos s)).
    { eapply ts_pre with (P := fun s => Q s /\ led d (p_pos s)); [|intros s _ (H1 & _ & H2); auto].
      eapply ts_context with (P' := fun s => (Q s /\ led d (p_eaten s))) (G' := fun _ s => Q s /\ good d (p_pos s)) (E' := fun _ => False) (T := True).
      - eapply ts_unwrap with (E := fun s => (Q s /\ led d (p_eaten s)) /\ AT s).
        + eapply ts_weaken; [apply (px_bound (Kf L) (fun s => Q s /\ led d (p_eaten s)) 0 False (free_and _ _ (free_steady _ HQ) (free_eaten (led d))))|..]; auto.
          * intros s _ H. split; [exact H|lia].
          * intros ? s _ ((H1 & _) & _ & H2). auto.
        + intros s _ [[H1 H2] A]. split; [exact H1|]. apply fits. unfold AT in A. now rewrite <- A.
      - intros s Hs [[F Zs] Ls]. split; [|exact Ls]. split; [unfold from in *; cbn; destruct Hs as (_ & ? & _); lia|exact Zs].
      - intros ? s s' _ [[F _] _] _ _ [[_ Zs] Gs]. split; [split; [exact F|exact Zs]|exact Gs].
      - intros s s' _ _ _ _ []. }
    intros ?. eapply ts_bind; [exact FWD|intros ?].
    eapply ts_bind with (G1 := fun _ => Q); [apply ts_item; exact ITEM|].
    intros x. cbv zeta. eapply ts_bind; [apply COMMA; cbn; tauto|intros []].
    + eapply ts_bind; [apply (tq_more0 d (Kf L) Q tany True _ HQ)|intros ?].
      eapply ts_bind; [eapply ts_post; [apply (tb_use d (Kf L) Q True _ (tb_sym d _) HQ)|intros ? ? _ H; exact H|intros; exact I]|intros ?].
      eapply ts_bind; [apply (tq_fwd d (Kf L) Q tany True HQ)|intros ?]. eapply ts_post; [apply (ts_build (Kf L) Q tany)|intros; exact I|auto].
    + eapply ts_pre; [apply (a_mapfl n IH L (p + 1)); lia|]. intros s _ ([_ X] & Y & W). auto.
  - (* seq *)
    intros L map p Hn HL. cbn [Loader.seq]. eapply ts_pre; [apply (a_seql n IH L map p []); [lia|exact HL]|]. intros s _ [F En]. auto.
  - (* seq_loop *)
    intros L map p v Hn HL. cbn [seq_loop].
    pose (Q := from p). assert (HQ : steady Q) by apply steady_from.
    pose (K := Kn L map). pose (EE := fun s => entry L map s /\ good d (p_pos s)).
    assert (FE : ts K (fun s => from p s /\ (v = [] -> EE s)) True (fun _ s => Q s /\ AT s /\ (v = [] -> EE s)) EE forward).
    { intros s Hs [F En]. simpl. assert (M : mv yes s (set_eaten (p_pos s) s)) by (apply mv_same; [apply Hs|reflexivity]).
      split; [unfold Term.J in *; cbn; intuition|]. split; [apply mv_same; [apply Hs|reflexivity]|]. split; [eapply HQ; [exact M|exact F]|].
      split; [reflexivity|]. intros E. destruct (En E) as [X Gs]. split; [|exact Gs]. destruct X as [X|[A X]]; [left; destruct map; exact X|]. right. rewrite AT_forward by exact A. auto. }
    eapply ts_bind; [exact FE|intros ?]. clear FE.
    eapply ts_bind with (G1 := fun (b : bool) s => (Q s /\ if b then Z (L + 1) s /\ p + 1 <= p_pos s /\ good d (p_pos s) else True) /\ (b = false -> ends_at (p_eaten s))).
    { apply ts_fact.
      2: { intros s a0 s' Hs (_ & A0 & _) E ->. destruct v as [|y v].
        - exfalso. revert E. unfold bind. repeat match goal with |- context [match ?x with _ => _ end] => destruct x; try discriminate end.
        - apply stop_line in E as (s1 & J1 & N1 & E); [|exact Hs|exact A0].
          apply (stay_step _ _ _ _ _ (stays_end L) (tb_J _ (tb_end L)) J1 N1) in E as (x1 & s2 & J2 & N2 & E).
          destruct x1; [now injection E as <-|].
          apply (stay_step _ _ _ _ _ (stays_mark _) (tb_J _ (tb_mark _)) J2 N2) in E as (x2 & s3 & J3 & N3 & E).
          destruct x2; [now injection E as <-|discriminate]. }
      destruct v as [|y v].
      - pose (QS := fun s => ((Z (L + 1) s /\ (map = true -> opens (set_pos (p_eaten s) s))) /\ good d (p_eaten s)) /\ Q s).
        assert (HS : posfree QS) by (intros s q H; exact H).
        assert (BAD : forall s, J s -> QS s /\ AT s -> EE s).
        { intros s _ [[[[Zs Os] Ge] F] A]. split; [|unfold AT in A; now rewrite <- A]. destruct map; [right; split; [exact A|]|left; exact Zs].
          specialize (Os eq_refl). now rewrite (AT_back s A) in Os. }
        eapply ts_bind with (G1 := fun _ => QS).
        { eapply ts_weaken; [apply (ts_keep K _ Q True _ _ _ (ts_head K map L True HL (fun j H => H))); intros s s' [M _]; unfold Q, from; lia|..]; auto.
          - intros s _ (F & A & En). destruct (En eq_refl). split; [split; [exact A|split; assumption]|exact F].
          - intros ? s _ [[H _] F]. split; assumption.
          - intros s _ [(H & _ & Gs) _]. split; [|exact Gs]. left. destruct map; [exact H|]. eapply Z_mono; [|exact H]. lia. }
        intros ?. eapply ts_bind.
        { eapply ts_weaken; [apply (px_sym K QS p True (chr "-") HS)|..]; auto.
          - intros s Hs H. split; [exact H|]. apply from_pos; [exact Hs|apply H].
          - intros ? s _ H. exact H. }
        intros ?. eapply ts_bind.
        { eapply ts_weaken; [apply (px_bound K QS (p + 1) True HS)|..]; auto.
          - intros s _ (H1 & H2 & _). auto.
          - intros ? s _ H. exact H. }
        intros ?. apply ts_ret. intros s _ ([[[Zs _] _] F] & Hp & Gs). auto.
      - eapply ts_bind with (G1 := fun _ => Q).
        { eapply ts_pre with (P := Q); [|intros s _ [H _]; exact H].
          apply ts_andM with (G1 := fun _ => Q); [apply (tb_is_err d K Q _ True _ (tb_gap d true) HQ)|auto|].
          unfold notM. eapply ts_bind with (G1 := fun _ => Q); [|intros b; apply ts_ret; auto].
          apply (tq_doc_end d K Q _ True HQ). }
        intros []; [apply ts_err; exact I|].
        eapply ts_bind with (G1 := fun (b : bool) s => Q s /\ if b then True else Z (L + 1) s).
        { apply ts_orM with (G1 := fun _ => Q); [apply (tq_doc_end d K Q _ True HQ)|auto|].
          eapply ts_post; [eapply ts_is_err with (G' := fun s => Q s /\ Z (L + 1) s); [apply (ts_ind d K Q False L HQ)|intros ? ? _ H; exact H]|..].
          - intros [] s _ [X Y]; auto.
          - intros s _ H. exact H. }
        intros []; [apply ts_ret; intros s _ [H _]; auto|].
        pose (Q1 := fun s => from p s /\ Z (L + 1) s). assert (HQ1 : steady Q1) by apply steady_fz.
        eapply ts_bind with (G1 := fun (b : bool) s => Q1 s /\ if b then True else p + 1 <= p_pos s /\ good d (p_pos s)).
        { apply ts_orM with (G1 := fun (b : bool) s => if b then Q1 s else Q1 s /\ p + 1 <= p_pos s).
          - eapply ts_is_err with (G' := fun s => Q1 s /\ p + 1 <= p_pos s) (E := Q1).
            + eapply ts_pre; [apply (ts_sym d K Q1 p False (chr "-") HQ1)|]. intros s Hs H. split; [exact H|]. apply from_pos; [exact Hs|apply H].
            + intros ? ? _ H; exact H.
          - auto.
          - eapply ts_post; [eapply ts_is_err with (G' := fun s => Q1 s /\ p + 1 <= p_pos s /\ good d (p_pos s)) (E := fun s => Q1 s /\ AT s); [apply (px_bound K Q1 (p + 1) False (free_steady _ HQ1))|intros ? ? _ H; exact H]|..].
            + intros [] s _ H; [destruct H; auto|exact H].
            + intros s _ H. exact H. }
        intros []; [apply ts_ret; intros s _ [[H _] _]; auto|].
        eapply ts_bind; [apply (px_forward K Q1 _ (good d) (p + 1) True HQ1)|intros ?].
        apply ts_ret. intros s Hs ([F Zs] & Hp & _ & Gs). split; [exact F|]. split; [exact Zs|]. split; [apply from_pos; [exact Hs|exact Hp]|exact Gs]. }
    intros [].
    + pose (Q2 := fun s => (from (p + 1) s /\ Z (L + 1) s) /\ AT s /\ good d (p_pos s)).
      eapply ts_bind with (G1 := fun _ => Q2).
      { eapply ts_weaken; [apply (px_forward K (Z (L + 1)) EE (good d) (p + 1) True (steady_Z _))|..]; auto.
        - intros s _ [[_ H] _]. exact H.
        - intros ? s _ (X & Y & A & Gs). split; [split; assumption|split; assumption]. }
      intros ?. eapply ts_bind with (G1 := fun _ => from (p + 1)).
      { apply ts_item. eapply ts_weaken; [apply (ts_keep (Kn (L + 1) false) _ (from (p + 1)) True _ _ _ (a_scalar n IH (L + 1) false false (p + 1) ltac:(lia) ltac:(discriminate)))|..]; auto.
        - intros s s' [M1 M2]. unfold from. lia.
        - intros j Kj. unfold K, Kn in *. lia.
        - intros s _ ([F Zs] & A & Gs). split; [split; [exact F|]; split; [exact A|]; split; [now apply entry_deep|exact Gs]|exact F].
        - intros ? s _ [_ H]. exact H.
        - intros s _ [[] _]. }
      intros x. eapply ts_pre; [apply (a_seql n IH L map (p + 1) (v ++ [x])); [lia|exact HL]|].
      intros s _ F. split; [exact F|]. intros X. destruct v; discriminate.
    + eapply ts_bind with (G1 := fun _ s => ends_at (p_pos s)); [|intros ?; apply ts_ret; auto].
      intros s Hs [_ H]. cbn. split; [now apply J_back|]. split; [now apply mv_same|now apply H].
  - (* map_ *)
    intros L map flow p Hn HL. cbn [map_]. eapply ts_pre; [apply (a_mapl n IH L map flow p []); [lia|exact HL]|]. intros s _ [F En]. auto.
  - (* map_loop *)
    intros L map flow p m Hn HL. cbn [map_loop].
    pose (Q := from p). assert (HQ : steady Q) by apply steady_from.
    pose (K := Kn L map). pose (EE := fun s => Z L s /\ good d (p_eaten s)).
    assert (FE : ts K (fun s => from p s /\ (m = [] -> entry L map s /\ good d (p_pos s))) True (fun _ s => Q s /\ AT s /\ (m = [] -> entry L map s /\ good d (p_pos s))) EE forward).
    { intros s Hs [F En]. simpl. assert (M : mv yes s (set_eaten (p_pos s) s)) by (apply mv_same; [apply Hs|reflexivity]).
      split; [unfold Term.J in *; cbn; intuition|]. split; [apply mv_same; [apply Hs|reflexivity]|]. split; [eapply HQ; [exact M|exact F]|].
      split; [reflexivity|]. intros E. destruct (En E) as [X Gs]. split; [|exact Gs]. destruct X as [X|[A X]]; [left; destruct map; exact X|]. right. rewrite AT_forward by exact A. auto. }
    eapply ts_bind; [exact FE|intros ?]. clear FE.
    pose (Q1 := fun s => from p s /\ Z (L + 1) s). assert (HQ1 : steady Q1) by apply steady_fz.
    pose (KP := fun s => (Q1 s \/ (Q s /\ colonb (rem s) = false)) /\ (AT s \/ ends_at (p_eaten s))).
    assert (KEY : ts K (fun s => Q1 s /\ AT s /\ good d (p_pos s)) True (fun _ => KP) (fun _ => False) (scalar_flow n (L + 1) flow)).
    { eapply ts_weaken; [apply (ts_keep (Kf (L + 1)) _ Q1 True _ _ _ (a_flow n IH (L + 1) flow p ltac:(lia)))|..]; auto.
      - intros s s' [M1 M2] [F Zs]. split; [unfold from in *; lia|]. apply M2; [unfold Kf; lia|exact Zs].
      - intros j Kj. unfold K, Kf, Kn in *. lia.
      - intros s _ H. split; [exact H|apply H].
      - intros ? s _ [A0 H]. split; left; assumption.
      - intros s _ [[] _]. }
    assert (COLON : forall E, ts K KP True (fun (b : bool) s => if b then Q s /\ ends_at (p_pos s) else Q1 s /\ p + 1 <= p_pos s /\ good d (p_pos s)) E (orM (is_err (sym (chr ":"))) (is_err bound))).
    { intros E s Hs [H1 H2]. rewrite (colon_exec s (J_in d s Hs)). destruct (colonb (rem s)) eqn:Ec.
      - destruct H1 as [H1|[_ H1]]; [|discriminate].
        assert (X : 1 + ws_len (skipn 1 (rem s)) <= List.length (rem s)).
        { destruct (rem s) as [|y r]; [discriminate|]. cbn [skipn List.length]. pose proof (span_le is_ws r). unfold ws_len. lia. }
        rewrite <- Nat.add_assoc. split; [now apply J_adv|]. split; [now apply mv_same|]. split; [exact H1|].
        destruct H1 as [F _]. apply from_pos in F; [|exact Hs]. split; [cbn; lia|].
        assert (J1 : J (set_pos (p_pos s + 1) s)) by (apply J_adv; [exact Hs|lia]).
        assert (R1 : rem (set_pos (p_pos s + 1) s) = skipn 1 (rem s)) by apply rem_add.
        pose proof (good_ws d fits _ J1) as X1. rewrite R1 in X1. cbn [p_pos set_pos] in X1 |- *. rewrite Nat.add_assoc. apply X1.
        destruct (rem s) as [|y r]; [discriminate|]. unfold colonb in Ec. now apply andb_true_iff in Ec.
      - split; [now apply J_back|]. split; [now apply mv_same|]. split; [destruct H1 as [[F _]|[F _]]; exact F|]. cbn.
        destruct H2 as [A0|H2]; [|exact H2]. right. unfold AT in A0. rewrite A0, <- (J_rem_d s Hs). exact Ec. }
    assert (KEYC : ts K (fun s => Q1 s /\ p + 1 <= p_pos s /\ good d (p_pos s)) True (fun _ => KP) EE
      (forward ;;; k <- or_else (scalar n (L + 1) true flow) (err (lit "map key")) ;;
       g <- is_ok (gap true) ;; (if (g : bool) then ind L else ret tt) ;;; ret k)).
    { pose (Q2 := fun s => (from (p + 1) s /\ Z (L + 1) s) /\ AT s /\ good d (p_pos s)).
      eapply ts_bind with (G1 := fun _ => Q2).
      { eapply ts_post; [eapply ts_pre; [apply (px_forward K (Z (L + 1)) EE (good d) (p + 1) True (steady_Z _))|]|..]; auto.
        - intros s _ ([_ X] & Y & W). auto.
        - intros ? s _ (X & Y & A & Gs). split; [split; assumption|split; assumption]. }
      intros ?. eapply ts_bind with (G1 := fun _ s => from p s /\ AT s /\ (Z (L + 1) s \/ ends_at (p_pos s))).
      { apply ts_item. eapply ts_weaken; [apply (ts_keep (Kn (L + 1) true) _ (from (p + 1)) True _ _ _ (a_scalar n IH (L + 1) true flow (p + 1) ltac:(lia) ltac:(lia)))|..]; auto.
        - intros s s' [M1 M2]. unfold from. lia.
        - intros j Kj. unfold K, Kn in *. lia.
        - intros s _ ([F Zs] & A & Gs). split; [split; [exact F|]; split; [exact A|]; split; [left; exact Zs|exact Gs]|exact F].
        - intros ? s _ [[H A0] F]. split; [unfold from in *; lia|]. split; [exact A0|now apply H].
        - intros s _ [[] _]. }
      intros k s Hs (F & A0 & H). unfold bind at 1. rewrite (is_ok_eq _ _ _ (gap_exec true s (J_in d s Hs))).
      destruct (gap_f true (rem s)) as [[t k']|] eqn:G.
      - assert (Ge : good d (p_eaten s)) by (unfold AT in A0; rewrite A0; apply (good_opens d s true Hs); rewrite G; discriminate).
        pose proof (gap_f_le _ _ _ _ G) as (G1 & G2 & _). pose proof (J_adv d s k' Hs G1) as J1.
        set (s1 := set_pos (p_pos s + k') s) in *. cbv beta iota.
        assert (N1 : ends_at (p_eaten s)) by (left; unfold AT in A0; rewrite A0, <- (J_rem_d s Hs), G; discriminate).
        pose proof (ts_ind d K tany True L steady_any s1 J1 I) as X. unfold bind at 1.
        rewrite (ind_exec L s1 (J_in d s1 J1)) in *. destruct (Nat.leb_spec (ind_width L s1) (sp_len (rem s1))) as [W|W].
        + destruct X as (X1 & X2 & _ & X3). unfold ret. split; [exact X1|]. split; [exact X2|]. split; [left; split; [exact F|exact X3]|right; exact N1].
        + destruct X as (X1 & X2 & _ & X3). split; [exact X1|]. split; [exact X2|]. split; [|exact Ge]. unfold Z. cbn.
          rewrite ind_width_depth in W. unfold ind_table. rewrite depth_norm by lia. cbn in W |- *. lia.
      - cbn [gap_head]. unfold bind, ret. pose proof (J_adv d s _ Hs (comment_len_le (rem s))) as J1.
        split; [exact J1|]. split; [now apply mv_same|].
        destruct (Nat.eq_dec (comment_len (rem s)) 0) as [Z0|Z0].
        + rewrite Z0, Nat.add_0_r, set_pos_id. split; [|now left]. destruct H as [H|[H|H]]; [left; split; assumption|..].
          * rewrite <- (J_rem_d s Hs) in H. congruence.
          * right. split; [exact F|]. now rewrite (J_rem_d s Hs).
        + destruct (comment_colon (rem s) Z0) as [C1 C2]. split.
          * right. split; [exact F|]. now rewrite rem_add.
          * right. right. cbn. unfold AT in A0. now rewrite A0, <- (J_rem_d s Hs). }
    assert (FWD : ts K (fun s => Q1 s /\ good d (p_pos s)) True (fun _ s => Q1 s /\ AT s /\ good d (p_pos s)) EE forward).
    { eapply ts_weaken; [apply (px_forward K Q1 EE (good d) 0 True HQ1)|..]; auto.
      - intros s _ [H1 H2]. split; [exact H1|]. split; [lia|exact H2].
      - intros ? s _ (H1 & _ & H2). split; assumption. }
    eapply ts_bind with (G1 := fun (ko : node + option yaml) s => Q s /\ match ko with inl _ => Z (L + 1) s /\ p + 1 <= p_pos s /\ good d (p_pos s) | inr (Some _) => ends_at (p_pos s) | inr None => ends_at (p_eaten s) end).
    { destruct m as [|y m].
      - eapply ts_bind with (G1 := fun _ s => Q1 s /\ good d (p_pos s)).
        { eapply ts_weaken; [apply (ts_keep K _ Q True _ _ _ (ts_head K map L True HL (fun j H => H))); intros s s' [M _]; unfold Q, from; lia|..]; auto.
          - intros s _ (F & A & En). destruct (En eq_refl). split; [split; [exact A|split; assumption]|exact F].
          - intros ? s _ [[[[H _] _] Gs] F]. split; [split; assumption|exact Gs].
          - intros s _ [(H & Ge & _) _]. split; assumption. }
        intros ?. eapply ts_bind; [exact FWD|intros ?].
        eapply ts_bind; [apply (ts_complex K Q1 EE p True HQ1); intros s H; apply H|intros c].
        eapply ts_bind with (G1 := fun _ => KP).
        { destruct c; [exact KEYC|]. apply ts_no_mismatch. exact KEY. }
        intros k. eapply ts_bind; [apply COLON|intros []]; apply ts_ret.
        + intros s _ H. exact H.
        + intros s _ ([F Zs] & Hp & Gs). auto.
      - eapply ts_bind with (G1 := fun (b : bool) s => Q s /\ (b = false -> ends_at (p_eaten s) /\ (led d (p_pos s) \/ doc_end s = (ROk true, s)))).
        { apply ts_fact.
          - eapply ts_pre with (P := Q); [|intros s _ [H _]; exact H].
            apply ts_andM with (G1 := fun _ => Q); [apply (tb_is_err d K Q _ True _ (tb_gap d true) HQ)|auto|].
            unfold notM. eapply ts_bind with (G1 := fun _ => Q); [|intros b; apply ts_ret; auto].
            apply (tq_doc_end d K Q _ True HQ).
          - intros s b s' Hs (_ & A0 & _) E. now apply (line_over s b s' Hs A0). }
        intros []; [apply ts_err; exact I|].
        eapply ts_bind with (G1 := fun (b : bool) s => (Q s /\ if b then True else Z (L + 1) s) /\ ends_at (p_eaten s) /\ (b = false -> led d (p_pos s))).
        { eapply ts_fact.
          - eapply ts_pre with (P := fun s => Q s /\ (ends_at (p_eaten s) /\ (led d (p_pos s) \/ doc_end s = (ROk true, s)))); [|intros s _ [F H]; auto].
            eapply ts_pre with (P := Q); [|intros s _ [H _]; exact H].
            apply ts_orM with (G1 := fun _ => Q); [apply (tq_doc_end d K Q _ True HQ)|auto|].
            eapply ts_post; [eapply ts_is_err with (G' := fun s => Q s /\ Z (L + 1) s) (E' := EE); [apply (ts_ind d K Q False L HQ)|intros ? ? _ H; exact H]|..].
            + intros [] s _ [X Y]; auto.
            + auto.
          - intros s b s' Hs [_ H] E. destruct (H eq_refl) as [H1 H2]. split; [rewrite (stays_end L s b s' Hs E); exact H1|]. intros ->. now apply (next_line L s s' Hs H2). }
        intros []; [apply ts_ret; intros s _ [[H _] [X _]]; auto|].
        eapply ts_bind; [eapply ts_pre; [exact FWD|intros s _ [[H1 H2] [_ H3]]; split; [split; assumption|apply fits; now apply H3]]|intros ?].
        eapply ts_bind; [apply (ts_complex K Q1 EE p True HQ1); intros s H; apply H|intros c].
        eapply ts_bind with (G1 := fun _ => KP).
        { destruct c; [exact KEYC|]. apply ts_item. exact KEY. }
        intros k. eapply ts_bind; [apply COLON|intros []]; [apply ts_err; exact I|apply ts_ret].
        intros s _ ([F Zs] & Hp & Gs). auto. }
    intros [k|[y|]].
    + pose (Q2 := fun s => (from (p + 1) s /\ Z (L + 1) s) /\ AT s /\ good d (p_pos s)).
      eapply ts_bind with (G1 := fun _ => Q2).
      { eapply ts_weaken; [apply (px_forward K (Z (L + 1)) EE (good d) (p + 1) True (steady_Z _))|..]; auto.
        - intros s _ [_ H]. exact H.
        - intros ? s _ (X & Y & A & Gs). split; [split; assumption|split; assumption]. }
      intros ?. eapply ts_bind with (G1 := fun _ => from (p + 1)).
      { apply ts_item. eapply ts_weaken; [apply (ts_keep (Kn (L + 1) true) _ (from (p + 1)) True _ _ _ (a_scalar n IH (L + 1) true false (p + 1) ltac:(lia) ltac:(lia)))|..]; auto.
        - intros s s' [M1 M2]. unfold from. lia.
        - intros j Kj. unfold K, Kn in *. lia.
        - intros s _ ([F Zs] & A & Gs). split; [split; [exact F|]; split; [exact A|]; split; [left; exact Zs|exact Gs]|exact F].
        - intros ? s _ [_ H]. exact H.
        - intros s _ [[] _]. }
      intros x. eapply ts_pre; [apply (a_mapl n IH L map flow (p + 1) (m ++ [(k, x)])); [lia|exact HL]|].
      intros s _ F. split; [exact F|]. intros X. destruct m; discriminate.
    + apply ts_ret. intros s _ [_ H]. exact H.
    + eapply ts_bind with (G1 := fun _ s => ends_at (p_pos s)); [|intros ?; eapply ts_post; [apply (ts_build K (fun s => ends_at (p_pos s)) EE)|auto|auto]].
      intros s Hs [_ H]. cbn. split; [now apply J_back|]. split; [now apply mv_same|exact H].
Qed.
Lemma all_ts_all n : all_ts n.
Proof.
  induction n as [|n IH]; [|now apply all_ts_S].
  split; intros; apply no_room; intros s0 (_ & E1 & E2 & _) HH; unfold from in *; lia.
Qed.
End TermLoader.
