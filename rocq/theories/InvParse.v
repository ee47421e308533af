(** * InvParse: the invariant for whole documents. *)
From Verif Require Export InvLoader.
Open Scope nat_scope.

Lemma bind_unfold {A B} (m : M A) (f : A -> M B) s :
  bind m f s = match m s with
               | (ROk a, s') => f a s'
               | (RErr e, s') => (RErr e, s')
               | (RPanic, s') => (RPanic, s')
               | (RDiv, s') => (RDiv, s')
               end.
Proof. reflexivity. Qed.

Section ParseInv.
Variable d : bytes.
Variable cyc : bool.
Variable hk : hasher.
Variable L : N -> yaml -> Prop.
Variable PN : Prop.
(** the handles that have a prefix after the directives *)
Variable HK : str -> Prop.
Hypothesis PN_tag : forall k, handle_in d k -> ~ HK k -> PN.
Hypothesis L_intro : forall p y, here d p -> shape_ok d cyc y -> L p y.
Hypothesis L_pos : forall p p' y, L p y -> here d p' -> L p' y.
Hypothesis PN_map : forall m, good_pairs L m -> map_collect hk m = None -> PN.

Local Notation Iv := (Iv d cyc hk L).

(** what a whole document, or a list of documents, does to the tables [bt] of the
    documents before it *)
Definition docs_ok {A} (V : A -> list anchors_t -> Prop) (bt : list anchors_t) (r : res A * st) : Prop :=
  match r with
  | (ROk a, s') => exists new, V a new /\ Forall (good_tab L) new /\ Iv (bt ++ new) (Closed HK) s'
  | (RErr Mismatch, s') => True
  | (RErr (Terminate nm msg), s') => T1 nm /\ msg_ok d msg
  | (RPanic, _) => PN
  | (RDiv, _) => True
  end.

Lemma doc_ok n bt s : Iv bt (Closed HK) s ->
  docs_ok (fun nd new => deep L nd /\ List.length new = 1) bt (doc n s).
Proof.
  intros Hs. unfold doc.
  assert (K1 : safe d cyc hk L PN bt (Closed HK) any T1 (fun _ => any) any
    (context (unwrap_or tt bound) ;;; forward)).
  { apply sb_bind_any; [apply sb_ctx_any, sb_unwrap_any, sb_bound_any|intros ?].
    eapply safe_weaken; [apply (safe_forward d cyc hk L PN bt (Closed HK) any T1 any)|auto..]. intros; exact Logic.I. }
  assert (K2 : safe d cyc hk L PN bt (Opened HK) any T1 (fun nd _ => deep L nd) any
    (r <- scalar n 0 false false ;;
     unwrap_or 0%nat (gap true) ;;; unwrap_or tt (sym_seq (lit "...")) ;;; forward ;;; ret r)).
  { eapply safe_bind.
    - eapply safe_weaken; [apply (as_scalar d cyc hk L PN bt (Opened HK) n
        (all_safe_all d cyc hk L PN bt (Opened HK) PN_tag L_intro L_pos (or_introl (ex_intro _ HK eq_refl)) PN_map n) any)|auto..].
      + intros a s0 _ K. exact K.
      + intros; exact Logic.I.
    - intros r. apply (sl_val d cyc hk L PN bt (Opened HK) (deep L r)). intros Hr.
      eapply safe_bind; [eapply safe_unwrap; [apply sb_gap|intros; exact Logic.I]|intros ?].
      eapply safe_bind; [eapply (sb_unwrap_any d cyc hk L PN bt (Opened HK) T1); apply sb_seq_any|intros ?].
      eapply safe_bind; [apply safe_forward|intros ?]. apply safe_ret. auto. }
  specialize (K1 s Hs Logic.I). unfold bind in K1. rewrite bind_unfold.
  destruct (context (unwrap_or tt bound) s) as [[u|[|nm msg]| |] s1];
    [|exact Logic.I|destruct K1 as (_ & _ & K); exact K|exact K1|exact Logic.I].
  change (forward s1) with (ROk tt, set_eaten (p_pos s1) s1) in K1.
  destruct K1 as (K1 & _ & _). rewrite bind_unfold. change (forward s1) with (ROk tt, set_eaten (p_pos s1) s1).
  set (s2 := set_eaten (p_pos s1) s1) in *. cbn beta iota.
  rewrite bind_unfold. set (s3 := set_anchors (l_anchors s2 ++ [[]]) s2).
  change (modify (fun s : st => set_anchors (l_anchors s ++ [[]]) s) s2) with (ROk tt, s3).
  cbn beta iota.
  assert (H3 : Iv bt (Opened HK) s3).
  { unfold Inv.Iv in *. cbn -[s2]. destruct K1 as (A1 & A2 & A3 & A4 & A5 & A6 & A7 & A8 & A9).
    refine (conj A1 (conj A2 (conj A3 (conj A4 (conj A5 (conj A6 (conj A7 (conj A8 _)))))))). exists []. split; [now rewrite A9|split; constructor]. }
  specialize (K2 s3 H3 Logic.I). unfold bind in K2 |- *.
  destruct (scalar n 0 false false s3) as [[r|[|nm msg]| |] s4];
    [|exact Logic.I|destruct K2 as (_ & _ & K2); exact K2|exact K2|exact Logic.I].
  destruct (unwrap_or 0 (gap true) s4) as [[x|[|nm msg]| |] s5];
    [|exact Logic.I|destruct K2 as (_ & _ & K2); exact K2|exact K2|exact Logic.I].
  destruct (unwrap_or tt (sym_seq (lit "...")) s5) as [[y|[|nm msg]| |] s6];
    [|exact Logic.I|destruct K2 as (_ & _ & K2); exact K2|exact K2|exact Logic.I].
  unfold forward, modify, ret in *. destruct K2 as (K & _ & Hr).
  destruct K as (A1 & A2 & A3 & A4 & A5 & A6 & A7 & A8 & cur & A9 & A10).
  exists [cur]. split; [now split|]. split; [now constructor|].
  unfold Inv.Iv. cbn in *. rewrite app_length. simpl. destruct A5 as [A5 A5']. repeat split; try exact A5'; auto; lia.
Qed.

Lemma unwrap_gap_ok bt s : Iv bt (Closed HK) s -> exists t s', unwrap_or 0 (gap true) s = (ROk t, s') /\ Iv bt (Closed HK) s'.
Proof.
  intros Hs. unfold unwrap_or, ok, bind, ret.
  pose proof (sb_gap d cyc hk L PN bt (Closed HK) any T1 true s Hs Logic.I) as K.
  destruct (gap true s) as [[t|[|nm msg]| |] s1] eqn:E; rewrite (gap_exec true s (I_in _ _ _ _ _ _ _ Hs)) in E;
    try (destruct (gap_f true (rem s)) as [[? ?]|]; discriminate).
  - eexists _, _. split; [reflexivity|apply K].
  - eexists _, _. split; [reflexivity|apply K].
Qed.
Lemma seq_is_err_ok bt s cs : Iv bt (Closed HK) s -> exists b s', is_err (sym_seq cs) s = (ROk b, s') /\ Iv bt (Closed HK) s'.
Proof.
  intros Hs.
  pose proof (sb_sym_seq d cyc hk L PN bt (Closed HK) any T1 cs s Hs Logic.I) as K.
  pose proof (sym_seq_exec cs s (I_in _ _ _ _ _ _ _ Hs)) as E.
  unfold is_err, is_ok, bind, ret.
  destruct (starts_with cs (rem s)).
  - rewrite E in *. eexists _, _. split; [reflexivity|apply K].
  - rewrite E in *. eexists _, _. split; [reflexivity|apply K].
Qed.

Lemma docs_loop_ok n : forall k bt v s, Iv bt (Closed HK) s -> Forall (deep L) v ->
  docs_ok (fun v' new => Forall (deep L) v' /\ List.length v' = List.length v + List.length new) bt (docs_loop k n v s).
Proof.
  induction k as [|k IH]; intros bt v s Hs Hv; [exact Logic.I|]. cbn [docs_loop].
  destruct (unwrap_gap_ok bt s Hs) as (t & s1 & E1 & H1). unfold bind at 1. rewrite E1.
  unfold bind at 1. rewrite (food_exec _ (I_in _ _ _ _ _ _ _ H1)).
  destruct (rem s1) as [|c r] eqn:Er.
  { exists []. rewrite app_nil_r. repeat split; auto; try lia; apply H1. }
  destruct (seq_is_err_ok bt s1 (lit "---") H1) as (b & s2 & E2 & H2).
  unfold bind at 1. rewrite E2. destruct b.
  { pose proof (safe_err d cyc hk L PN bt (Closed HK) any T1 (fun (_ : list node) _ => False) (fun _ => False)
      (lit "document splitter") ltac:(named) s2 H2 Logic.I) as K.
    unfold err in *. destruct (indicated_msg _ _) as [msg|]; [|exact K].
    split; [named|apply K]. }
  unfold bind. pose proof (doc_ok n bt s2 H2) as K.
  destruct (doc n s2) as [[nd|[|nm msg]| |] s3]; try exact K.
  destruct K as (new & [Hd Hl] & Hg & H3).
  specialize (IH (bt ++ new) (v ++ [nd]) s3 H3 ltac:(apply Forall_app; auto)).
  destruct (docs_loop k n (v ++ [nd]) s3) as [[v'|[|nm msg]| |] s4]; try exact IH.
  destruct IH as (new' & [Hv' Hl'] & Hg' & H4). exists (new ++ new'). rewrite app_assoc.
  split; [split; [exact Hv'|]|split; [now apply Forall_app|exact H4]].
  rewrite Hl', !app_length. simpl. lia.
Qed.

Lemma directives_ok K0 n : forall s, Iv [] (Closed K0) s ->
  match directives n s with
  | (ROk _, s') => Iv [] (Closed K0) s'
  | (RErr Mismatch, s') => False
  | (RErr (Terminate nm msg), s') => T1 nm /\ msg_ok d msg
  | (RPanic, _) => PN
  | (RDiv, _) => True
  end.
Proof.
  induction n as [|n IH]; intros s Hs; [exact Logic.I|]. cbn [directives].
  assert (K : safe d cyc hk L PN [] (Closed K0) any version_errors (fun _ => any) any (context directive))
    by (apply sb_ctx_any, sb_directive).
  specialize (K s Hs Logic.I). destruct (context directive s) as [[u|[|nm msg]| |] s1]; try exact K.
  - apply IH, K.
  - apply K.
  - destruct K as (_ & _ & K1 & K2). split; [|exact K2]. destruct K1 as [-> | ->]; named.
Qed.

Lemma new_ok (K0 : str -> Prop) : (forall k, K0 k -> bt_get k init_tags <> None) -> Iv [] (Closed K0) (new_st hk cyc d).
Proof. intros H. unfold Inv.Iv. cbn -[init_tags]. repeat split; try discriminate; try lia. exact H. Qed.
(** the handles that have a prefix from the start keep one *)
Lemma directives_keep n s : directives n (new_st hk cyc d) = (ROk tt, s) ->
  forall k, bt_get k init_tags <> None -> bt_get k (p_tag s) <> None.
Proof.
  intros E. pose proof (directives_ok _ n _ (new_ok _ (fun _ H => H))) as K. rewrite E in K.
  exact (proj2 (proj1 (proj2 (proj2 (proj2 (proj2 K)))))).
Qed.
Lemma parse_ok n :
  (forall s, directives n (new_st hk cyc d) = (ROk tt, s) -> forall k, HK k -> bt_get k (p_tag s) <> None) ->
  docs_ok (fun v new => Forall (deep L) v /\ List.length v = List.length new /\ v <> []) []
    (parse_fuel n (new_st hk cyc d)).
Proof.
  intros HT. unfold parse_fuel. pose proof (directives_ok (fun _ => False) n _ (new_ok (fun _ => False) ltac:(tauto))) as K. unfold bind at 1.
  destruct (directives n (new_st hk cyc d)) as [[[]|[|nm msg]| |] s1] eqn:ED; try exact K; [|destruct K].
  assert (K' : Iv [] (Closed HK) s1).
  { destruct K as (A1 & A2 & A3 & A4 & (A5 & _) & A6). exact (conj A1 (conj A2 (conj A3 (conj A4 (conj (conj A5 (HT s1 eq_refl)) A6))))). }
  destruct (unwrap_gap_ok [] s1 K') as (t & s2 & E2 & H2). unfold bind at 1. rewrite E2.
  assert (exists s3, unwrap_or tt (sym_seq (lit "---")) s2 = (ROk tt, s3) /\ Iv [] (Closed HK) s3) as (s3 & E3 & H3).
  { unfold unwrap_or, ok, bind, ret.
    pose proof (sb_sym_seq d cyc hk L PN [] (Closed HK) any T1 (lit "---") s2 H2 Logic.I) as K3.
    pose proof (sym_seq_exec (lit "---") s2 (I_in _ _ _ _ _ _ _ H2)) as E.
    destruct (starts_with (lit "---") (rem s2)); rewrite E in *; (eexists; split; [reflexivity|apply K3]). }
  unfold bind at 1. rewrite E3. unfold bind.
  pose proof (doc_ok n [] s3 H3) as K4.
  destruct (doc n s3) as [[nd|[|nm msg]| |] s4]; try exact K4.
  destruct K4 as (new & [Hd Hl] & Hg & H4).
  pose proof (docs_loop_ok n n new [nd] s4 H4 ltac:(auto)) as K5.
  destruct (docs_loop n n [nd] s4) as [[v'|[|nm msg]| |] s5]; try exact K5.
  destruct K5 as (new' & [Hv Hl'] & Hg' & H5).
  exists (new ++ new'). split; [|split; [now apply Forall_app|exact H5]].
  split; [exact Hv|]. rewrite app_length. simpl in Hl'. split; [lia|]. intros ->. simpl in Hl'. lia.
Qed.
End ParseInv.
