(** * PropFuel: C49, an answer comes soon or never.

    In the model the loops and the calls of the parser are counted down ([fuel]).
    These theorems say that the count does not matter: with more fuel than a
    bound linear in the length of the document nothing changes, and an answer got
    with less is the same answer. *)
From Verif Require Export Fuel FuelLoops.
Open Scope nat_scope.

(** ** Whole documents *)
Section Docs.
Variable d : bytes.
Variable cyc : bool.
Variable hk : hasher.
Local Notation len := (List.length d).
Local Notation Iw := (Iw d cyc hk).
Local Notation rt := (rt d cyc hk).
Local Notation rq := (rq d cyc hk).
Local Notation LT := (fun (_ : N) (_ : yaml) => True).

Lemma rt_ctx_bound p : rt (N1 p) (fun _ => N1 p) (Q p) (context (unwrap_or tt bound)) (context (unwrap_or tt bound)).
Proof.
  intros s Hs [Qs Ps]. split; [reflexivity|]. unfold context. pose proof (bound_exec (set_eaten (p_pos s) s) (Iw_in d cyc hk s Hs)) as B.
  rewrite (unwrap_or_eq tt _ _ _ B). destruct Hs as (E1 & E2 & E3 & E4 & E5 & E6 & E7 & _).
  assert (W : ws_len (rem s) <= len - p_pos s) by (rewrite <- E1, <- rem_length; apply span_le).
  assert (K : forall w, w <= len - p_pos s -> Iw (set_eaten (p_eaten s) (set_pos (p_pos s + w) (set_eaten (p_pos s) s)))).
  { intros w Hw. unfold Fuel.Iw, Iv. cbn. destruct E5 as [E5 _]. repeat split; try assumption; try lia. intros x []. }
  destruct (at_bound _).
  - split; [apply (K (ws_len (rem s)) W)|]. split; [cbn; lia|]. split; [exact Qs|cbn; lia].
  - specialize (K 0 (Nat.le_0_l _)). rewrite Nat.add_0_r in K. split; [exact K|]. split; [cbn; lia|]. split; [exact Qs|cbn; lia].
Qed.
Lemma rq_ctx_bound p : rq p (context (unwrap_or tt bound)) (context (unwrap_or tt bound)).
Proof.
  eapply rq_leaf with (T := noT) (G := fun _ => any) (E := any). apply sb_ctx_any, sb_unwrap_any, sb_bound_any.
Qed.
Lemma rq_sym_seq p cs : rq p (sym_seq cs) (sym_seq cs).
Proof. eapply rq_leaf, (sb_sym_seq d cyc hk LT True [] Wild any noT). Qed.
Lemma rq_modify p f : (forall s, Iw s -> Iw (f s)) -> (forall s, p_eaten (f s) = p_eaten s) -> rq p (modify f) (modify f).
Proof.
  intros H1 H2 s Hs Qs. split; [reflexivity|]. simpl. unfold Q in *. rewrite H2. auto.
Qed.
Lemma rq_doc_rest n n' p : n <= n' -> 8 * len + 8 <= n + 8 * p -> rq p
  (modify (fun s => set_anchors (l_anchors s ++ [[]]) s) ;;; r <- scalar n 0 false false ;; unwrap_or 0 (gap true) ;;;
   unwrap_or tt (sym_seq (lit "...")) ;;; forward ;;; modify (fun s => set_doc_ind (l_doc_ind s + 1) s) ;;; ret r)
  (modify (fun s => set_anchors (l_anchors s ++ [[]]) s) ;;; r <- scalar n' 0 false false ;; unwrap_or 0 (gap true) ;;;
   unwrap_or tt (sym_seq (lit "...")) ;;; forward ;;; modify (fun s => set_doc_ind (l_doc_ind s + 1) s) ;;; ret r).
Proof.
  intros Hn Hp. apply rq_bind; [apply rq_modify; auto|intros _].
  apply rq_bind; [apply (f_scalar _ _ _ _ _ (all_rt_all d cyc hk n n' Hn)); exact Hp|intros r].
  apply rq_bind; [apply rq_unwrap, rq_gap|intros _]. apply rq_bind; [apply rq_unwrap, rq_sym_seq|intros _].
  apply rq_bind; [apply rq_forward|intros _]. apply rq_bind; [apply rq_modify; auto|intros _]. apply rq_ret.
Qed.
Lemma rq_doc n n' p : n <= n' -> 8 * len + 8 <= n + 8 * p -> rq p (doc n) (doc n').
Proof.
  intros Hn Hp. unfold doc. apply rq_bind; [apply rq_ctx_bound|intros _]. apply rq_bind; [apply rq_forward|intros _]. now apply rq_doc_rest.
Qed.
Lemma rt_doc n n' p : n <= n' -> 8 * len + 8 <= n + 8 * p -> rt (N1 p) (fun _ => Q (p + 1)) (Q p) (doc n) (doc n').
Proof.
  intros Hn Hp. unfold doc. eapply rt_bind; [apply rt_ctx_bound|intros ?]. eapply rt_bind; [apply rt_forward|intros ?].
  eapply rt_post; [apply rq_doc_rest; [exact Hn|lia]|auto|unfold Q; intros; lia].
Qed.
Lemma rq_docs n n' : n <= n' -> 8 * len + 8 <= n -> forall k k' p v, k <= k' -> len < k + p -> rq p (docs_loop k n v) (docs_loop k' n' v).
Proof.
  intros Hn Hl. induction k as [|k IH]; intros k' p v Hk Hp.
  { apply rt_void. intros s Hs Qs. apply (void_Q d cyc hk p s); [lia|exact Hs|exact Qs]. }
  destruct k' as [|k']; [lia|]. cbn [docs_loop]. apply rq_bind; [apply rq_unwrap, rq_gap|intros _].
  apply rq_bind; [eapply rq_leaf, (sb_food d cyc hk LT True [] Wild any noT any)|intros [|x r]]; [apply rq_ret|].
  eapply rt_bind with (G1 := fun (b : bool) s => if b then Q p s else N1 p s); [|intros []; [apply rt_err|]].
  { eapply rt_is_err with (G' := N1 p) (G := fun _ => N1 p); [|auto]. intros s Hs Qs.
    destruct (rq_sym_seq p (lit "---") s Hs Qs) as [X Y]. split; [exact X|].
    pose proof (sym_seq_exec (lit "---") s (Iw_in d cyc hk s Hs)) as E. rewrite E in *. pose proof (Q_pos d cyc hk p s Hs Qs).
    destruct (starts_with _ _); [|exact Y]. destruct Y as (? & ? & ?). split; [assumption|]. split; [assumption|]. split; [assumption|cbn; lia]. }
  eapply rt_bind; [apply rt_doc; [exact Hn|lia]|intros nd]. apply rq_more. apply IH; lia.
Qed.

(** ** Directives *)
Lemma directive_moves s s' : Iw s -> context directive s = (ROk tt, s') -> Iw s' /\ p_pos s < p_pos s'.
Proof.
  intros Hs E.
  assert (X : rq 0 (context directive) (context directive)).
  { eapply rq_leaf with (T := version_errors) (G := fun _ => any) (E := any). apply sb_ctx_any, sb_directive. }
  destruct (X s Hs (Nat.le_0_l _)) as [_ Y]. rewrite E in Y. split; [apply Y|]. clear X Y.
  unfold context in E. set (s1 := set_eaten (p_pos s) s) in *.
  assert (H1 : Iw s1) by (apply I_fwd; exact Hs). assert (Q1 : Q (p_pos s) s1) by (unfold Q; cbn; lia).
  set (body := b <- is_ok (sym_seq (lit "YAML")) ;;
    if (b : bool) then directive_yaml
    else b <- is_ok (sym_seq (lit "TAG")) ;;
         if (b : bool) then directive_tag
         else take_while (not_in [10; 13]%N) (More 0)) in *.
  assert (W : rt (Q (p_pos s)) (fun _ => N1 (p_pos s)) any directive directive).
  { unfold directive. eapply rt_bind with (G1 := fun _ => N1 (p_pos s)); [eapply rt_post; [apply rt_sym|auto|intros; exact I]|intros ?].
    eapply rt_bind with (G1 := fun _ => N1 (p_pos s)).
    - fold body. intros t Ht [Qt Pt]. split; [reflexivity|].
      assert (B : rq 0 body body).
      { eapply rq_leaf with (T := version_errors) (G := fun _ => any) (E := any).
        unfold body. apply sb_bind_any; [apply sb_isok_any, sb_seq_any|]. intros [].
        - unfold directive_yaml. apply sb_bind_any; [apply sb_take_any|intros _].
          apply sb_bind_any; [eapply safe_weaken; [apply (safe_gets d cyc hk LT True [] Wild any version_errors p_version any)|..]; auto; intros; exact Logic.I|].
          intros []; [apply safe_err; now left|]. apply sb_bind_any.
          + apply sb_ctx_any. unfold orM. apply sb_bind_any; [apply sb_isok_any, sb_seq_any|].
            intros []; [apply sb_ret_any|apply sb_isok_any, sb_seq_any].
          + intros b. destruct (negb b); [apply safe_err; now right|]. apply sb_modify; [intros x H; exact H|auto].
        - apply sb_bind_any; [apply sb_isok_any, sb_seq_any|]. intros []; [|apply sb_take_any].
          unfold directive_tag. apply sb_bind_any; [apply sb_take_any|intros _].
          apply sb_bind_any; [apply sb_sym_any|intros _]. apply sb_ctx_any.
          apply sb_bind_any; [apply sb_isok_any, sb_ident_any|]. intros b.
          apply sb_bind_any.
          + destruct b.
            * apply sb_bind_any; [apply sb_text_any|]. intros x. apply sb_bind_any; [apply sb_sym_any|intros; apply sb_ret_any].
            * apply sb_bind_any; [apply sb_isok_any, sb_sym_any|]. intros []; apply sb_ret_any.
          + intros tg. apply sb_bind_any; [apply sb_take_any|intros _].
            apply sb_bind_any; [apply sb_ctx_any, sb_bind_any; [apply sb_take_any|intros; apply sb_text_any]|].
            intros x. apply sb_modify; [intros y (Y1 & Y2 & Y3 & Y4 & (Y5 & _) & Y6 & Y7 & _); unfold Iv; cbn; repeat split; try assumption; intros k []|auto]. }
      unfold context. assert (Hf : Iw (set_eaten (p_pos t) t)) by (apply I_fwd; exact Ht).
      destruct (B _ Hf (Nat.le_0_l _)) as [_ Y]. destruct (body (set_eaten (p_pos t) t)) as [[a0|e| |] t']; try exact I.
      + destruct Y as (Y1 & Y2 & _). cbn in Y2. pose proof Y1 as (_ & Y3 & _). pose proof Ht as (_ & Ht2 & _).
        split; [apply (I_ctx d cyc hk LT [] Wild t t'); [exact Ht|exact Y1|exact Y2]|]. split; [cbn; lia|]. split; [exact Qt|cbn; lia].
      + destruct Y as (Y1 & Y2 & _). cbn in Y2. pose proof Y1 as (_ & Y3 & _). pose proof Ht as (_ & Ht2 & _).
        split; [apply (I_ctx d cyc hk LT [] Wild t t'); [exact Ht|exact Y1|exact Y2]|]. split; [cbn; lia|exact I].
    - intros ?. eapply rt_bind with (G1 := fun _ => N1 (p_pos s)); [|intros; apply rt_ret; auto].
      intros t Ht [Qt Pt]. destruct (rq_gap d cyc hk (p_pos s) true t Ht Qt) as [X Y]. split; [exact X|].
      rewrite (gap_exec true t (Iw_in d cyc hk t Ht)) in *. destruct (gap_f true (rem t)) as [[j w]|].
      + destruct Y as (? & ? & ?). split; [assumption|]. split; [assumption|]. split; [assumption|cbn; lia].
      + destruct Y as (? & ? & ?). split; [assumption|]. split; [assumption|exact I]. }
  destruct (W s1 H1 Q1) as [_ Y]. destruct (directive s1) as [[[]|e| |] s2]; try discriminate. injection E as <-.
  destruct Y as (_ & _ & _ & Y). cbn. lia.
Qed.
Lemma directives_same : forall n n' s, n <= n' -> Iw s -> len < n + p_pos s ->
  directives n s = directives n' s /\ match directives n s with (ROk _, s') => Iw s' | _ => True end.
Proof.
  induction n as [|n IH]; intros n' s Hn Hs Hl.
  { destruct Hs as (_ & _ & ? & _). lia. }
  destruct n' as [|n']; [lia|]. cbn [directives].
  assert (X : rq 0 (context directive) (context directive)).
  { eapply rq_leaf with (T := version_errors) (G := fun _ => any) (E := any). apply sb_ctx_any, sb_directive. }
  destruct (X s Hs (Nat.le_0_l _)) as [_ Y]. destruct (context directive s) as [[[]|[|nm msg]| |] s'] eqn:E; try (split; [reflexivity|]; auto; fail).
  - destruct (directive_moves s s' Hs E) as [Hs' L]. apply IH; [lia|exact Hs'|lia].
  - split; [reflexivity|]. apply Y.
Qed.
Lemma new_good : Iw (new_st hk cyc d).
Proof. unfold Fuel.Iw, Iv. cbn. repeat split; try lia; try discriminate; intros k []. Qed.
Lemma parse_same n n' : n <= n' -> 8 * len + 8 <= n -> parse_fuel n (new_st hk cyc d) = parse_fuel n' (new_st hk cyc d).
Proof.
  intros Hn Hl. unfold parse_fuel. pose proof new_good as H0.
  destruct (directives_same n n' _ Hn H0 ltac:(lia)) as [E G]. unfold bind at 1. symmetry. unfold bind at 1. symmetry. rewrite <- E.
  destruct (directives n (new_st hk cyc d)) as [[a|e| |] s1]; try reflexivity.
  assert (X : rq 0
    (unwrap_or 0 (gap true) ;;; unwrap_or tt (sym_seq (lit "---")) ;;; nd <- doc n ;; docs_loop n n [nd])
    (unwrap_or 0 (gap true) ;;; unwrap_or tt (sym_seq (lit "---")) ;;; nd <- doc n' ;; docs_loop n' n' [nd])).
  { apply rq_bind; [apply rq_unwrap, rq_gap|intros _]. apply rq_bind; [apply rq_unwrap, rq_sym_seq|intros _].
    apply rq_bind; [apply rq_doc; lia|intros nd]. apply rq_docs; lia. }
  apply (X s1 G (Nat.le_0_l _)).
Qed.
End Docs.

(** ** Less fuel: the same answer, or none *)
Definition lem {A} (m m' : M A) : Prop := forall s, fst (m s) = RDiv \/ m s = m' s.
Lemma lem_refl {A} (m : M A) : lem m m. Proof. intros s. now right. Qed.
Lemma lem_div {A} (m : M A) : lem diverge m. Proof. intros s. now left. Qed.
Lemma lem_bind {A B} (m m' : M A) (f f' : A -> M B) : lem m m' -> (forall a, lem (f a) (f' a)) -> lem (bind m f) (bind m' f').
Proof.
  intros Hm Hf s. unfold bind. destruct (Hm s) as [X|<-].
  - destruct (m s) as [[a|e| |] s']; cbn in X; try discriminate. now left.
  - destruct (m s) as [[a|e| |] s']; auto. apply Hf.
Qed.
Lemma lem_or_else {A} (m m' f f' : M A) : lem m m' -> lem f f' -> lem (or_else m f) (or_else m' f').
Proof.
  intros Hm Hf s. unfold or_else. destruct (Hm s) as [X|<-].
  - destruct (m s) as [[a|e| |] s']; cbn in X; try discriminate. now left.
  - destruct (m s) as [[a|[|nm msg]| |] s']; auto.
Qed.
Lemma lem_if {A} (b : bool) (m m' f f' : M A) : lem m m' -> lem f f' -> lem (if b then m else f) (if b then m' else f').
Proof. now destruct b. Qed.
Lemma lem_node f f' : lem f f' -> lem (scalar_node f) (scalar_node f').
Proof.
  intros Hf. unfold scalar_node. do 10 (apply lem_bind; [apply lem_refl|intros ?]).
  apply lem_bind; [exact Hf|intros; apply lem_refl].
Qed.

Record all_le (n n' : nat) : Prop := {
  l_scalar : forall L map flow, lem (scalar n L map flow) (scalar n' L map flow);
  l_flow : forall L flow, lem (scalar_flow n L flow) (scalar_flow n' L flow);
  l_term : forall L flow, lem (scalar_term n L flow) (scalar_term n' L flow);
  l_seqf : forall L, lem (seq_flow n L) (seq_flow n' L);
  l_seqfl : forall L v, lem (seq_flow_loop n L v) (seq_flow_loop n' L v);
  l_mapf : forall L, lem (map_flow n L) (map_flow n' L);
  l_mapfl : forall L v, lem (map_flow_loop n L v) (map_flow_loop n' L v);
  l_seq : forall L map, lem (Loader.seq n L map) (Loader.seq n' L map);
  l_seql : forall L map v, lem (seq_loop n L map v) (seq_loop n' L map v);
  l_map : forall L map flow, lem (map_ n L map flow) (map_ n' L map flow);
  l_mapl : forall L map flow m, lem (map_loop n L map flow m) (map_loop n' L map flow m)
}.
Lemma all_le_all : forall n n', n <= n' -> all_le n n'.
Proof.
  induction n as [|n IH]; intros n' Hn; [split; intros; apply lem_div|].
  destruct n' as [|n']; [lia|]. specialize (IH n' ltac:(lia)). destruct IH as [I1 I2 I3 I4 I5 I6 I7 I8 I9 I10 I11].
  assert (SEQ : forall L map flow, lem (or_else (or_else (Loader.seq n L map) (map_ n L map flow)) (scalar_term n L flow))
                                       (or_else (or_else (Loader.seq n' L map) (map_ n' L map flow)) (scalar_term n' L flow))).
  { intros. apply lem_or_else; [apply lem_or_else|]; auto. }
  split.
  - intros L map flow. cbn [scalar]. apply lem_node. apply lem_bind; [apply lem_refl|intros [x|]; [apply lem_refl|]].
    apply lem_bind; [apply lem_refl|intros [x|]; [apply lem_refl|]]. apply SEQ.
  - intros L flow. cbn [scalar_flow]. apply lem_node. auto.
  - intros L flow. cbn [scalar_term]. do 7 (apply lem_bind; [apply lem_refl|intros [x|]; [apply lem_refl|]]).
    apply lem_or_else; [apply lem_or_else; auto|apply lem_refl].
  - intros L. cbn [seq_flow]. apply lem_bind; [apply lem_refl|auto].
  - intros L v. cbn [seq_flow_loop]. do 3 (apply lem_bind; [apply lem_refl|intros ?]). apply lem_if; [apply lem_refl|].
    apply lem_bind; [apply lem_refl|intros ?]. apply lem_bind; [apply lem_or_else; [auto|apply lem_refl]|intros x]. cbv zeta.
    do 2 (apply lem_bind; [apply lem_refl|intros ?]). apply lem_if; [apply lem_refl|auto].
  - intros L. cbn [map_flow]. apply lem_bind; [apply lem_refl|auto].
  - intros L v. cbn [map_flow_loop]. do 3 (apply lem_bind; [apply lem_refl|intros ?]). apply lem_if; [apply lem_refl|].
    do 2 (apply lem_bind; [apply lem_refl|intros ?]). apply lem_bind.
    { apply lem_if; [|apply lem_or_else; [auto|apply lem_refl]]. apply lem_bind; [apply lem_refl|intros ?].
      apply lem_bind; [apply lem_or_else; [auto|apply lem_refl]|intros; apply lem_refl]. }
    intros k. apply lem_bind; [apply lem_refl|intros e]. apply lem_if; [apply lem_refl|].
    do 2 (apply lem_bind; [apply lem_refl|intros ?]). apply lem_bind; [apply lem_or_else; [auto|apply lem_refl]|intros x]. cbv zeta.
    apply lem_bind; [apply lem_refl|intros ?]. apply lem_if; [apply lem_refl|auto].
  - intros L map. cbn [Loader.seq]. auto.
  - intros L map v. cbn [seq_loop]. do 2 (apply lem_bind; [apply lem_refl|intros ?]). apply lem_if; [|apply lem_refl].
    apply lem_bind; [apply lem_refl|intros ?]. apply lem_bind; [apply lem_or_else; [auto|apply lem_refl]|auto].
  - intros L map flow. cbn [map_]. auto.
  - intros L map flow m. cbn [map_loop]. apply lem_bind; [apply lem_refl|intros ?].
    assert (KEY : forall L (m m' : M node), lem m m' -> lem
      (forward ;;; k <- m ;; g <- is_ok (gap true) ;; (if (g : bool) then ind L else ret tt) ;;; ret k)
      (forward ;;; k <- m' ;; g <- is_ok (gap true) ;; (if (g : bool) then ind L else ret tt) ;;; ret k)).
    { intros L0 m0 m1 H. apply lem_bind; [apply lem_refl|intros ?]. apply lem_bind; [exact H|intros; apply lem_refl]. }
    apply lem_bind.
    + destruct m as [|x m].
      * do 3 (apply lem_bind; [apply lem_refl|intros ?]). apply lem_bind; [|intros; apply lem_refl].
        apply lem_if; [apply KEY, lem_or_else; [auto|apply lem_refl]|auto].
      * apply lem_bind; [apply lem_refl|intros e]. apply lem_if; [apply lem_refl|]. apply lem_bind; [apply lem_refl|intros e'].
        apply lem_if; [apply lem_refl|]. do 2 (apply lem_bind; [apply lem_refl|intros ?]). apply lem_bind; [|intros; apply lem_refl].
        apply lem_if; [apply KEY, lem_or_else; [auto|apply lem_refl]|apply lem_or_else; [auto|apply lem_refl]].
    + intros [k|[y|]]; [|apply lem_refl|apply lem_refl]. apply lem_bind; [apply lem_refl|intros ?].
      apply lem_bind; [apply lem_or_else; [auto|apply lem_refl]|auto].
Qed.
Lemma doc_le n n' : n <= n' -> lem (doc n) (doc n').
Proof.
  intros H. unfold doc. do 3 (apply lem_bind; [apply lem_refl|intros ?]).
  apply lem_bind; [apply (l_scalar _ _ (all_le_all n n' H))|intros; apply lem_refl].
Qed.
Lemma docs_le n n' : n <= n' -> forall k k' v, k <= k' -> lem (docs_loop k n v) (docs_loop k' n' v).
Proof.
  intros H. induction k as [|k IH]; intros k' v Hk; [apply lem_div|]. destruct k' as [|k']; [lia|]. cbn [docs_loop].
  apply lem_bind; [apply lem_refl|intros ?]. apply lem_bind; [apply lem_refl|intros [|x r]]; [apply lem_refl|].
  apply lem_bind; [apply lem_refl|intros e]. apply lem_if; [apply lem_refl|]. apply lem_bind; [now apply doc_le|intros nd]. apply IH. lia.
Qed.
Lemma directives_le : forall n n', n <= n' -> lem (directives n) (directives n').
Proof.
  induction n as [|n IH]; intros n' Hn; [apply lem_div|]. destruct n' as [|n']; [lia|]. cbn [directives]. intros s.
  destruct (context directive s) as [[a|[|nm msg]| |] s']; auto. apply IH. lia.
Qed.
Lemma parse_le n n' : n <= n' -> lem (parse_fuel n) (parse_fuel n').
Proof.
  intros H. unfold parse_fuel. apply lem_bind; [now apply directives_le|intros ?].
  do 2 (apply lem_bind; [apply lem_refl|intros ?]). apply lem_bind; [now apply doc_le|intros nd]. now apply docs_le.
Qed.

(** ** The sub-parsers with the rounds of their loops counted from [n] *)
Definition gap_fuel (n : nat) (cmt : bool) : M nat :=
  context (
    (if cmt then unwrap_or tt comment else ret tt) ;;;
    nl ;;;
    gap_loop n cmt 1).
Definition string_wrapped_fuel (n level : nat) (sep : N) (leading : bool) : M str :=
  context (
    v <- wrapped_loop n level sep leading [] ;;
    back 1 ;;;
    ret (v ++ [10%N])).

(** ** C49 *)
(** Within a nesting of calls and a number of rounds of [8 * length + 8], for a
    document of that length, everything that will ever be answered is answered. *)
Theorem C49_enough : forall hk cyc d n,
  8 * List.length d + 8 <= n -> parse_fuel n (new_st hk cyc d) = load (new_st hk cyc d).
Proof.
  intros hk cyc d n Hn. unfold load, fuel_doc. cbn [p_doc new_st].
  destruct (Nat.le_ge_cases n (20 * (List.length d + 2))) as [L|L].
  - apply parse_same; [exact L|exact Hn].
  - symmetry. apply parse_same; [exact L|lia].
Qed.
(** An answer got with whatever fuel - a list of documents, an error, a panic - is
    the answer. *)
Theorem C49_answer : forall hk cyc d n,
  fst (parse_fuel n (new_st hk cyc d)) <> RDiv -> parse_fuel n (new_st hk cyc d) = load (new_st hk cyc d).
Proof.
  intros hk cyc d n H. rewrite <- (C49_enough hk cyc d (n + 8 * List.length d + 8)) by lia.
  destruct (parse_le n (n + 8 * List.length d + 8) ltac:(lia) (new_st hk cyc d)) as [X|X]; [contradiction|exact X].
Qed.
(** So parsing gives no answer exactly if it runs for ever. *)
Theorem C49_never : forall hk cyc d,
  fst (load (new_st hk cyc d)) = RDiv <-> forall n, fst (parse_fuel n (new_st hk cyc d)) = RDiv.
Proof.
  intros hk cyc d. split.
  - intros H n. destruct (parse_fuel n (new_st hk cyc d)) as [[a|e| |] s] eqn:E; try reflexivity;
      exfalso; assert (X : parse_fuel n (new_st hk cyc d) = load (new_st hk cyc d)) by (apply C49_answer; rewrite E; discriminate);
      rewrite <- X, E in H; discriminate.
  - intros H. rewrite <- (C49_enough hk cyc d (8 * List.length d + 8)) by lia. apply H.
Qed.
(** The same for the loops inside the sub-parsers, from any parser whose cursor is
    within its document: they end within as many rounds as there are bytes left,
    or never. *)
Theorem C49_loops : forall s, p_pos s <= List.length (p_doc s) -> forall n, List.length (p_doc s) + 2 <= n ->
  (forall cmt, gap_fuel n cmt s = gap cmt s)
  /\ (string_quoted_fuel n 39 (lit "''") s = string_quoted 39 (lit "''") s)
  /\ (string_quoted_fuel n 34 [92; 34]%N s = string_quoted 34 [92; 34]%N s)
  /\ (forall level inner, string_plain_fuel n level inner s = string_plain level inner s)
  /\ (forall level sep leading, string_wrapped_fuel n level sep leading s = string_wrapped level sep leading s).
Proof.
  intros s Hs n Hn.
  assert (R : forall s', p_doc s' = p_doc s -> List.length (rem s') < n /\ List.length (rem s') < loop_fuel s').
  { intros s' E. rewrite rem_length. unfold loop_fuel. rewrite E. lia. }
  set (s1 := set_eaten (p_pos s) s). assert (H1 : in_doc s1) by exact Hs. assert (D1 : p_doc s1 = p_doc s) by reflexivity.
  assert (QT : forall q ig, ig <> [] -> string_quoted_fuel n q ig s = string_quoted q ig s).
  { intros q ig Hig. unfold string_quoted_fuel, string_quoted, context. fold s1.
    enough (E : (sym q ;;; forward ;;; ws (More 0) ;;; v <- text ;; quoted_loop n q ig v) s1
              = (sym q ;;; forward ;;; ws (More 0) ;;; v <- text ;; n0 <- gets loop_fuel ;; quoted_loop n0 q ig v) s1) by now rewrite E.
    unfold bind at 1. symmetry. unfold bind at 1. symmetry. rewrite (sym_exec q s1 H1). destruct (rem s1) as [|x r] eqn:E1; [reflexivity|].
    destruct (N.eqb x q); [|reflexivity]. set (s2 := set_pos (p_pos s1 + 1) s1). assert (H2 : in_doc s2) by (apply in_doc_add; [rewrite E1; cbn; lia|exact H1]).
    unfold bind at 1. symmetry. unfold bind at 1. symmetry. unfold forward, modify. set (s3 := set_eaten (p_pos s2) s2). assert (H3 : in_doc s3) by exact H2.
    unfold bind at 1. symmetry. unfold bind at 1. symmetry. rewrite (ws0_exec s3 H3). set (s4 := set_pos _ s3).
    assert (H4 : in_doc s4) by (apply in_doc_add; [apply span_le|exact H3]).
    unfold bind at 1. symmetry. unfold bind at 1. symmetry. rewrite (text_exec s4 H4). unfold bind at 1, gets.
    destruct (R s4 eq_refl). now apply quoted_enough. }
  split; [|split; [|split; [|split]]].
  - intros cmt. unfold gap_fuel, gap, context. fold s1.
    enough (E : ((if cmt then unwrap_or tt comment else ret tt) ;;; nl ;;; gap_loop n cmt 1) s1
              = ((if cmt then unwrap_or tt comment else ret tt) ;;; nl ;;; n0 <- gets loop_fuel ;; gap_loop n0 cmt 1) s1) by now rewrite E.
    assert (X : exists k, k <= List.length (rem s1) /\ (if cmt then unwrap_or tt comment else ret tt) s1 = (ROk tt, set_pos (p_pos s1 + k) s1)).
    { destruct cmt; [exists (comment_len (rem s1))|exists 0].
      - split; [apply comment_len_le|]. apply opt_comment_exec; [exact H1|reflexivity].
      - split; [lia|]. rewrite Nat.add_0_r, set_pos_id. reflexivity. }
    destruct X as (k & Hk & X). unfold bind at 1. symmetry. unfold bind at 1. symmetry. rewrite X.
    set (s2 := set_pos (p_pos s1 + k) s1). assert (H2 : in_doc s2) by now apply in_doc_add.
    unfold bind at 1. symmetry. unfold bind at 1. symmetry. rewrite (nl_exec s2 H2). destruct (Nat.eqb _ 0); [reflexivity|].
    set (s3 := set_pos (p_pos s2 + nl_len (rem s2)) s2). assert (H3 : in_doc s3) by (apply in_doc_add; [apply nl_len_le|exact H2]).
    unfold bind at 1, gets. destruct (R s3 eq_refl). now apply gap_enough.
  - apply QT. discriminate.
  - apply QT. discriminate.
  - intros level inner. unfold string_plain_fuel, string_plain, context. fold s1. unfold bind, gets.
    destruct (R s1 eq_refl). now rewrite (plain_enough level inner n (loop_fuel s1) [] false s1).
  - intros level sep leading. unfold string_wrapped_fuel, string_wrapped, context. fold s1. unfold bind, gets.
    destruct (R s1 eq_refl). now rewrite (wrapped_enough level sep leading n (loop_fuel s1) [] s1).
Qed.

(** ** Examples *)
(** an answer with fuel for 30 calls, and a document that is never answered *)
Example C49_example :
  fst (parse_fuel 30 (new_st (fun _ => 0%N) false (lit "a: [1]" ++ [10%N]))) <> RDiv
  /\ fst (load (new_st (fun _ => 0%N) false (lit "'abc"))) = RDiv.
Proof. split; vm_compute; congruence. Qed.
Example C49_loops_example :
  let s := new_st (fun _ => 0%N) false (lit "'it''s'") in
  p_pos s <= List.length (p_doc s) /\ fst (string_quoted_fuel 100 39 (lit "''") s) = ROk (lit "it's").
Proof. split; [vm_compute; lia|reflexivity]. Qed.
