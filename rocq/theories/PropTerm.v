(** * PropTerm: C25, parsing terminates. *)
From Verif Require Export PropTag.
From Verif Require Export TermLoader.
Open Scope nat_scope.

(** ** Specification *)

(** The rest of a line that may follow a document marker: spaces, a comment, and
    a line break. *)
Definition marker_line (b : list N) : Prop :=
  exists w c x r, b = w ++ c ++ x :: r
    /\ Forall (fun y => y = 32%N) w
    /\ (c = [] \/ exists t, c = 35%N :: t /\ ~ In 10%N t /\ ~ In 13%N t)
    /\ (x = 10%N \/ x = 13%N).
(** The characters a node may come behind: white space, [\[], [{], the comma, the
    colon, [-], [*], [>] and [+]; or it is at the beginning of the text. *)
Definition node_may_begin (a : list N) : Prop :=
  a = [] \/ exists a' x, a = a' ++ [x] /\ In x ([9; 10; 12; 13; 32] ++ lit "[{,:-*>+")%N.
(** What may follow a name: a space, a line break or one of [:{}[],]. *)
Definition name_end (x : N) : Prop := In x (lit ":{}[] ," ++ [10; 13])%N.
(** A quote that begins a node is closed by one that is not escaped (by a backslash, or
    by being doubled); an ampersand there begins an anchor (or is followed by no name), an
    exclamation mark a tag [ref_text t] (PropTag), with its end. *)
Definition node_fits (c : N) (r : list N) : Prop :=
  (c = 34%N -> exists b r', r = b ++ 34%N :: r' /\ forall b', b <> b' ++ [92%N])
  /\ (c = 39%N -> exists v r', r = flat_map (fun y => if N.eqb y 39 then [39; 39]%N else [y]) v ++ 39%N :: r' /\ forall t, r' <> 39%N :: t)
  /\ (c = 38%N -> exists n x r', r = n ++ x :: r' /\ (n = [] \/ name_ok n) /\ name_end x)
  /\ (c = 33%N -> exists t x r', c :: r = ref_text t ++ x :: r' /\ ref_ok t /\ name_end x).
(** That is so wherever a node may begin, and every document marker but one at the very
    beginning ends its line. *)
Definition tame (d : list N) : Prop :=
  (forall a c r, d = a ++ c :: r -> node_may_begin a -> node_fits c r)
  /\ (forall a b, d = a ++ lit "---" ++ b -> a = [] \/ marker_line b).

(** ** Documents *)
Section Docs.
Variable d : bytes.
Hypothesis fits : forall e, led d e -> good d e.
Local Notation J := (J d).
Local Notation ts := (ts d).
Local Notation len := (List.length d).
Local Notation Z := Term.Z.

Definition after_bound (s : st) : st := if at_bound (rem s) then set_pos (p_pos s + ws_len (rem s)) s else s.
Definition doc_entry (s : st) : Prop := (Z 1 s \/ opens (after_bound s)) /\ led d (p_pos s).

Lemma ctx_bound s : J s -> context (unwrap_or tt bound) s = (ROk tt, after_bound s).
Proof.
  intros Hs. unfold context. assert (J1 : in_doc (set_eaten (p_pos s) s)) by (apply (J_in d); exact Hs || (unfold Term.J in *; cbn; intuition)).
  rewrite (unwrap_or_eq tt _ _ _ (bound_exec _ J1)). change (rem (set_eaten (p_pos s) s)) with (rem s). unfold after_bound.
  destruct (at_bound (rem s)); f_equal; destruct s; reflexivity.
Qed.
Lemma ts_doc n p : 8 * len + 8 <= n + 8 * p ->
  ts (Kn 0 false) (fun s => p <= p_pos s /\ doc_entry s) True (fun _ s => p <= p_eaten s) (fun _ => False) (doc n).
Proof.
  intros Hn s Hs [Ps [En Ls]]. unfold doc. unfold bind at 1. rewrite (ctx_bound s Hs).
  assert (J1 : J (after_bound s)) by (unfold after_bound; destruct (at_bound (rem s)); [apply J_adv; [exact Hs|apply span_le]|exact Hs]).
  assert (P1 : p <= p_pos (after_bound s)) by (unfold after_bound; destruct (at_bound (rem s)); cbn; lia).
  assert (I1 : p_indent (after_bound s) = p_indent s) by (unfold after_bound; destruct (at_bound (rem s)); reflexivity).
  assert (E1 : p_eaten (after_bound s) = p_eaten s) by (unfold after_bound; destruct (at_bound (rem s)); reflexivity).
  assert (En1 : Z 1 (after_bound s) \/ opens (after_bound s)) by (destruct En as [En|En]; [left; unfold Z; now rewrite I1|now right]).
  assert (G1 : good d (p_pos (after_bound s))) by (unfold after_bound; destruct (at_bound (rem s)) eqn:B; [now apply good_ws|now apply fits]).
  assert (M1 : mv (Kn 0 false) s (after_bound s)) by (apply mv_same; [lia|exact I1]).
  set (s1 := after_bound s) in *. clearbody s1. unfold bind at 1. change (forward s1) with (ROk tt, set_eaten (p_pos s1) s1). cbv beta iota.
  unfold bind at 1. unfold modify at 1. set (s2 := set_anchors _ _).
  assert (J2 : J s2) by (unfold Term.J, s2 in *; cbn; intuition).
  assert (M2 : mv (Kn 0 false) s1 s2) by (apply mv_same; [cbn; apply J1|reflexivity]).
  assert (X : ts (Kn 0 false) (fun s => from p s /\ AT s /\ entry 0 false s /\ good d (p_pos s)) True (fun _ s => p <= p_eaten s) (fun _ => False)
    (r <- scalar n 0 false false ;; unwrap_or 0 (gap true) ;;; unwrap_or tt (sym_seq (lit "...")) ;;; forward ;;;
     modify (fun s => set_doc_ind (l_doc_ind s + 1) s) ;;; ret r)).
  { eapply ts_bind with (G1 := fun _ => from p).
    { eapply ts_weaken; [apply (ts_keep d (Kn 0 false) _ (from p) True _ _ _ (a_scalar d n (all_ts_all d fits n) 0 false false p ltac:(lia) ltac:(discriminate)))|..]; auto.
      - intros a b [M _]. unfold from. lia.
      - intros a _ H. split; [exact H|apply H].
      - intros r a _ [_ F]. exact F.
      - intros a _ [[] _]. }
    intros r. pose proof (steady_from p) as HQ.
    eapply ts_bind; [apply (tb_unwrap d _ (from p) _ True 0 _ (tb_gap d true) HQ)|intros ?].
    eapply ts_bind; [apply (tb_unwrap d _ (from p) _ True tt _ (tb_sym_seq d _) HQ)|intros ?].
    eapply ts_bind; [apply (tq_fwd d _ (from p) _ True HQ)|intros ?].
    eapply ts_bind with (G1 := fun _ => from p); [|intros ?; apply ts_ret; auto].
    intros sa Ha F. cbn. split; [exact Ha|]. split; [apply mv_same; [cbn; lia|reflexivity]|exact F]. }
  assert (En2 : from p s2 /\ AT s2 /\ entry 0 false s2 /\ good d (p_pos s2)).
  { split; [exact P1|]. split; [reflexivity|]. split; [|exact G1]. destruct En1 as [Z1|O1]; [left; exact Z1|right]. split; [reflexivity|exact O1]. }
  specialize (X s2 J2 En2). revert X. destruct (bind _ _ s2) as [[a|[|nm msg]| |] s']; intros X; try exact X.
  destruct X as (X1 & X2 & X3). split; [exact X1|]. split; [|exact X3]. eapply mv_trans; [exact M1|]. eapply mv_trans; [exact M2|exact X2].
  destruct X as (_ & _ & []).
Qed.

(** ** What follows a marker *)
Lemma opens_break c x r : (c = [] \/ exists t, c = 35%N :: t /\ ~ In 10%N t /\ ~ In 13%N t) -> (x = 10 \/ x = 13)%N ->
  gap_f true (c ++ x :: r) <> None.
Proof.
  intros Hc Hx.
  assert (N0 : nl_len (x :: r) <> 0).
  { destruct Hx as [->| ->]; destruct r as [|y r]; try discriminate; rewrite nl_len_alt; unfold nl_len'; cbn;
      destruct y as [|[[[[]|[]|]|[[]|[]|]|]|[[[]|[]|]|[[]|[]|]|]|]]; discriminate. }
  assert (H0 : gap_head true (c ++ x :: r) = List.length c).
  { cbn [gap_head]. unfold comment_len. destruct Hc as [->|(t & -> & T1 & T2)].
    - cbn [app]. unfold ws_len. rewrite (span_zero is_ws (x :: r)) by (destruct Hx as [->| ->]; reflexivity). cbn [skipn].
      destruct Hx as [->| ->]; reflexivity.
    - cbn [app]. unfold ws_len. rewrite (span_zero is_ws (35%N :: t ++ x :: r)) by reflexivity. cbn [skipn]. change (N.eqb 35 35) with true. cbn iota.
      rewrite (span_app not_nl t (x :: r)).
      + cbn. lia.
      + apply forallb_forall. intros y Hy. unfold not_nl. apply not_in_spec. intros [E|[E|[]]]; rewrite <- E in Hy; contradiction.
      + destruct Hx as [->| ->]; reflexivity. }
  unfold gap_f. rewrite H0. cbv zeta. rewrite skipn_app, skipn_all, Nat.sub_diag. cbn [skipn app].
  destruct (Nat.eqb_spec (nl_len (x :: r)) 0) as [E|E]; [contradiction|discriminate].
Qed.
Lemma marker_opens s : marker_line (rem s) -> opens (after_bound s).
Proof.
  intros (w & c & x & r & E & Hw & Hc & Hx). unfold opens, after_bound. destruct w as [|y w].
  - cbn [app] in E. assert (O : gap_f true (rem s) <> None) by (rewrite E; now apply opens_break).
    destruct (at_bound (rem s)); [|exact O]. rewrite rem_add.
    replace (ws_len (rem s)) with 0; [exact O|]. symmetry. rewrite E. unfold ws_len. apply span_zero.
    destruct Hc as [->|(t & -> & _)]; [destruct Hx as [->| ->]; reflexivity|reflexivity].
  - inversion Hw as [|? ? Hy Hw']; subst y. cbn [app] in E.
    assert (AB : at_bound (rem s) = true) by (rewrite E; reflexivity). rewrite AB, rem_add.
    assert (WL : ws_len (rem s) = S (List.length w)).
    { rewrite E. unfold ws_len. rewrite (span_pos is_ws) by reflexivity. f_equal. rewrite span_app.
      - reflexivity.
      - apply forallb_forall. intros y Hy. rewrite Forall_forall in Hw'. rewrite (Hw' y Hy). reflexivity.
      - destruct Hc as [->|(t & -> & _)]; [destruct Hx as [->| ->]; reflexivity|reflexivity]. }
    rewrite WL, E. cbn [skipn]. rewrite skipn_app, skipn_all, Nat.sub_diag. cbn [skipn app]. now apply opens_break.
Qed.

(** ** The stream of documents *)
Hypothesis markers : forall a b, d = a ++ lit "---" ++ b -> a = [] \/ marker_line b.
(** a marker at the very beginning has been passed *)
Definition passed (s : st) : Prop := (exists b, d = lit "---" ++ b) -> 1 <= p_eaten s.
Lemma seq3_ok s s' : J s -> sym_seq (lit "---") s = (ROk tt, s') ->
  exists b, rem s = lit "---" ++ b /\ rem s' = b /\ s' = set_pos (p_pos s + 3) s.
Proof.
  intros Hs. rewrite (sym_seq_exec _ s (J_in d s Hs)). destruct (starts_with (lit "---") (rem s)) eqn:E; [|discriminate].
  intros [= <-]. apply starts_with_app in E as [b E]. exists b. split; [exact E|]. split; [|reflexivity].
  change (String.length "---") with 3. rewrite rem_add, E. reflexivity.
Qed.
Lemma gap_over s : J s -> exists a s1, unwrap_or 0 (gap true) s = (ROk a, s1) /\ J s1 /\ p_eaten s1 = p_eaten s
  /\ p_indent s1 = p_indent s /\ ((exists b, rem s = lit "---" ++ b) -> s1 = s).
Proof.
  intros Hs. rewrite (unwrap_or_eq 0 _ _ _ (gap_exec true s (J_in d s Hs))).
  destruct (gap_f true (rem s)) as [[t j]|] eqn:G; do 2 eexists; (split; [reflexivity|]).
  - split; [apply J_adv; [exact Hs|]; apply gap_f_le in G; apply G|]. repeat (split; [reflexivity|]).
    intros [b H]. rewrite H in G. discriminate.
  - split; [apply J_adv; [exact Hs|apply gap_head_le]|]. repeat (split; [reflexivity|]).
    intros [b H]. rewrite H. change (gap_head true (lit "---" ++ b)) with 0. rewrite Nat.add_0_r. destruct s; reflexivity.
Qed.
Lemma docs_end n : 8 * len + 8 <= n -> forall k p v s, len < k + p -> J s -> p <= p_eaten s -> passed s ->
  fst (docs_loop k n v s) <> RDiv.
Proof.
  intros Hn. induction k as [|k IH]; intros p v s Hk Hs Ps Pa.
  { destruct Hs as (_ & ? & ? & _). lia. }
  cbn [docs_loop]. unfold bind at 1. destruct (gap_over s Hs) as (a & s1 & E1 & J1 & Ea & _). rewrite E1. cbv beta iota.
  unfold bind at 1. rewrite (food_exec s1 (J_in d s1 J1)). destruct (rem s1) as [|x r] eqn:Er; [discriminate|].
  unfold bind at 1. unfold is_err. unfold bind at 1. unfold is_ok.
  destruct (sym_seq (lit "---") s1) as [[[]|e| |] s2] eqn:E2.
  - destruct (seq3_ok s1 s2 J1 E2) as (b & Rb & R2 & ->). cbn [negb]. unfold ret at 1. cbv beta iota.
    assert (L3 : 3 <= List.length (rem s1)) by (rewrite Rb; cbn; lia).
    pose proof (J_adv d s1 3 J1 L3) as J2. set (s2 := set_pos (p_pos s1 + 3) s1) in *.
    assert (En : doc_entry s2).
    { split; [|apply (led_after d s1 3 45%N J1); [lia|now rewrite Rb|cbn; tauto]]. right. apply marker_opens. rewrite R2.
      assert (Ed : d = firstn (p_pos s1) d ++ lit "---" ++ b).
      { rewrite <- Rb. unfold rem. destruct J1 as (E & _). rewrite E. now rewrite firstn_skipn. }
      destruct (markers _ _ Ed) as [X|X]; [|exact X]. exfalso.
      assert (p_pos s1 = 0 \/ len = 0) as [Y|Y].
      { apply (f_equal (@List.length N)) in X. rewrite firstn_length in X. cbn in X. lia. }
      - assert (B : 1 <= p_eaten s) by (apply Pa; exists b; now rewrite X in Ed). destruct J1 as (_ & ? & _). lia.
      - rewrite Ed in Y. rewrite !app_length in Y. cbn in Y. lia. }
    pose proof (ts_doc n (p + 3) ltac:(lia) s2 J2) as D. unfold bind.
    assert (P2 : p + 3 <= p_pos s2) by (unfold s2; cbn; destruct J1 as (_ & ? & _); lia).
    specialize (D (conj P2 En)). destruct (doc n s2) as [[x'|e| |] s3]; try discriminate; [|contradiction].
    destruct D as (J3 & M3 & P3). apply (IH (p + 3)); [lia|exact J3|exact P3|]. intros _. lia.
  - destruct e; cbn [negb]; unfold ret, err; destruct (indicated_msg _ _); discriminate.
  - discriminate.
  - exfalso. pose proof (tb_sym_seq d (lit "---") s1 J1 I) as X. rewrite E2 in X. exact X.
Qed.

(** ** Directives *)
Lemma ts_directive p : ts yes (fun s => tany s /\ p <= p_pos s) True (fun _ s => p + 1 <= p_pos s) tany directive.
Proof.
  unfold directive. eapply ts_bind with (G1 := fun _ s => p + 1 <= p_pos s).
  { eapply ts_post; [apply (ts_sym d yes tany p True (chr "%") steady_any)|intros ? s _ [_ H]; exact H|intros; exact I]. }
  intros ?. eapply ts_bind with (G1 := fun _ s => tany s /\ p + 1 <= p_pos s).
  { eapply ts_context with (P' := tany) (G' := fun _ => tany) (E' := tany); [| |intros ? s s' _ Pp [M _] (_ & Q & _) _; cbn in *; split; [exact I|lia]|intros; exact I]; [|intros; exact I].
    eapply ts_bind; [apply (tb_is_ok d yes tany tany True _ (tb_sym_seq d _) steady_any)|intros []].
    - unfold directive_yaml. eapply ts_bind with (G1 := fun _ => tany); [apply (tb_use d yes tany True); [apply tb_take|apply steady_any]|intros ?].
      eapply ts_bind with (G1 := fun _ => tany); [eapply ts_post with (E := tany); [apply (ts_gets d yes tany)|intros; exact I|auto]|intros []]; [apply ts_err; exact I|].
      eapply ts_bind with (G1 := fun _ => tany).
      { apply (tb_use d yes tany True); [|apply steady_any]. apply tb_context. 
        eapply ts_orM with (G1 := fun _ => tany); [apply tb_is_ok; [apply tb_sym_seq|apply steady_any]|auto|apply tb_is_ok; [apply tb_sym_seq|apply steady_any]]. }
      intros []; cbn [negb]; [|apply ts_err; exact I].
      intros s Hs _. cbn. split; [exact Hs|]. split; [now apply mv_same|exact I].
    - eapply ts_bind; [apply (tb_is_ok d yes tany tany True _ (tb_sym_seq d _) steady_any)|intros []].
      + unfold directive_tag. eapply ts_bind with (G1 := fun _ => tany); [apply (tb_use d yes tany True); [apply tb_take|apply steady_any]|intros ?].
        eapply ts_bind with (G1 := fun _ => tany); [apply (tb_use d yes tany True); [apply tb_sym|apply steady_any]|intros ?].
        apply (tb_use d yes tany True); [|apply steady_any]. apply tb_context.
        apply tb_bind; [apply tb_is_ok; [apply tb_identifier|apply steady_any]|intros b].
        apply tb_bind; [destruct b|intros tg].
        { apply tb_bind; [apply tb_text|intros t]. apply tb_bind; [apply tb_sym|intros _]. apply tb_ret. }
        { apply tb_bind; [apply tb_is_ok; [apply tb_sym|apply steady_any]|intros []]; apply tb_ret. }
        apply tb_bind; [apply tb_take|intros _].
        apply tb_bind; [apply tb_context, tb_bind; [apply tb_take|intros _; apply tb_text]|intros dc].
        intros s Hs _. cbn. split; [exact Hs|]. split; [now apply mv_same|exact I].
      + apply (tb_use d yes tany True); [apply tb_take|apply steady_any]. }
  intros ?. eapply ts_bind; [eapply ts_post; [apply (ts_gap d yes tany (p + 1) True true steady_any)|intros ? s _ H; exact H|intros; exact I]|].
  intros t. apply ts_ret. intros s _ [_ H]. lia.
Qed.
Lemma directives_end : forall n p s, len < n + p -> J s -> p <= p_pos s -> Z 1 s ->
  match directives n s with
  | (ROk _, s') => J s' /\ Z 1 s' /\ p_eaten s' = p_eaten s
  | (RDiv, _) => False
  | _ => True
  end.
Proof.
  induction n as [|n IH]; intros p s Hn Hs Ps Zs.
  { destruct Hs as (_ & _ & ? & _). lia. }
  cbn [directives].
  assert (X : ts yes (fun s => p <= p_pos s) True (fun _ s => p + 1 <= p_pos s) tany (context directive)).
  { eapply ts_context with (P' := fun s => tany s /\ p <= p_pos s); [apply (ts_directive p)|..].
    - intros a _ H. split; [exact I|exact H].
    - intros ? a b _ _ _ _ H. exact H.
    - intros; exact I. }
  specialize (X s Hs Ps). assert (Ee : p_eaten (snd (context directive s)) = p_eaten s).
  { unfold context. destruct (directive _); reflexivity. }
  destruct (context directive s) as [[u|[|nm msg]| |] s']; try exact X; cbn in Ee.
  - destruct X as (J1 & M1 & P1). specialize (IH (p + 1) s' ltac:(lia) J1 P1 (proj2 M1 1 I Zs)).
    destruct (directives n s') as [[u'|e| |] s2]; try exact IH. destruct IH as (? & ? & ?). rewrite <- Ee. auto.
  - destruct X as (J1 & M1 & P1). split; [exact J1|]. split; [apply (proj2 M1 1 I Zs)|exact Ee].
Qed.
Lemma directives_none n s : J s -> AT s -> (exists b, rem s = lit "---" ++ b) -> directives (S n) s = (ROk tt, s).
Proof.
  intros Hs A [b Er]. cbn [directives]. unfold context.
  assert (E : directive (set_eaten (p_pos s) s) = (RErr Mismatch, s)).
  { rewrite (AT_forward s A). unfold directive. unfold bind at 1. rewrite (sym_exec _ s (J_in d s Hs)), Er.
    cbn. now rewrite AT_back. }
  rewrite E. now rewrite set_eaten_id.
Qed.
Lemma load_end hk cyc n : 8 * len + 8 <= n -> fst (parse_fuel n (new_st hk cyc d)) <> RDiv.
Proof.
  intros Hn. unfold parse_fuel. set (s0 := new_st hk cyc d).
  assert (J0 : J s0) by (unfold Term.J, s0; cbn; split; [reflexivity|]; split; [lia|]; split; [lia|discriminate]).
  assert (Z0 : Z 1 s0) by (unfold Z, s0; cbn; lia).
  unfold bind at 1. pose proof (directives_end n 0 s0 ltac:(lia) J0 ltac:(cbn; lia) Z0) as D.
  destruct (directives n s0) as [[u|e| |] s1] eqn:E1; try discriminate; [|contradiction]. destruct D as (J1 & Z1 & Ea).
  assert (B1 : (exists b, d = lit "---" ++ b) -> s1 = s0).
  { intros H. destruct n as [|n]; [lia|]. rewrite (directives_none n s0 J0 eq_refl H) in E1. now injection E1. }
  unfold bind at 1. destruct (gap_over s1 J1) as (a & s2 & E2 & J2 & Ea2 & I2 & B2'). rewrite E2. cbv beta iota.
  assert (Z2 : Z 1 s2) by (unfold Z; rewrite I2; exact Z1).
  assert (B2 : (exists b, d = lit "---" ++ b) -> s2 = s0).
  { intros H. rewrite <- (B1 H). apply B2'. rewrite (B1 H). exact H. }
  unfold bind at 1.
  assert (Y : exists s3, unwrap_or tt (sym_seq (lit "---")) s2 = (ROk tt, s3) /\ J s3 /\ Z 1 s3 /\ ((exists b, d = lit "---" ++ b) -> 1 <= p_pos s3) /\ led d (p_pos s3)).
  { pose proof (tb_sym_seq d (lit "---") s2 J2 I) as X. destruct (sym_seq (lit "---") s2) as [[[]|e| |] s3] eqn:E3.
    - exists s3. rewrite (unwrap_or_eq tt _ _ _ E3). destruct (seq3_ok s2 s3 J2 E3) as (b & Rb & _ & ->).
      destruct X as (X1 & _ & _). split; [reflexivity|]. split; [exact X1|]. split; [exact Z2|]. split; [intros _; cbn; lia|]. apply (led_after d s2 3 45%N J2); [lia|now rewrite Rb|cbn; tauto].
    - exists s3. rewrite (unwrap_or_eq tt _ _ _ E3). rewrite (sym_seq_exec _ s2 (J_in d s2 J2)) in E3.
      destruct (starts_with (lit "---") (rem s2)) eqn:St; [discriminate|]. injection E3 as <- <-.
      destruct X as (X1 & [_ M] & _). split; [reflexivity|]. split; [exact X1|]. split; [apply (M 1 I Z2)|]. split; [|left; cbn; now rewrite Ea2, Ea].
      intros H. exfalso. rewrite (B2 H) in St. destruct H as [b H]. unfold rem, s0 in St. cbn [p_pos p_doc new_st skipn] in St. rewrite H in St. discriminate.
    - exfalso. rewrite (sym_seq_exec _ s2 (J_in d s2 J2)) in E3. destruct (starts_with _ _); discriminate.
    - contradiction. }
  destruct Y as (s3 & E3 & J3 & Z3 & B3 & L3). rewrite E3. cbv beta iota. unfold bind.
  pose proof (ts_doc n (if (p_pos s3 =? 0) then 0 else 1) ltac:(destruct (p_pos s3 =? 0); lia) s3 J3) as D.
  destruct (doc n s3) as [[x|e| |] s4]; try discriminate.
  - apply (docs_end n Hn n (if (p_pos s3 =? 0) then 0 else 1)).
    + lia.
    + destruct D as (D & _); [|exact D]. split; [destruct (Nat.eqb_spec (p_pos s3) 0); lia|split; [now left|exact L3]].
    + destruct D as (_ & _ & D); [|exact D]. split; [destruct (Nat.eqb_spec (p_pos s3) 0); lia|split; [now left|exact L3]].
    + destruct D as (_ & _ & D); [split; [destruct (Nat.eqb_spec (p_pos s3) 0); lia|split; [now left|exact L3]]|].
      intros H. specialize (B3 H). destruct (Nat.eqb_spec (p_pos s3) 0); lia.
  - exfalso. apply D. split; [destruct (Nat.eqb_spec (p_pos s3) 0); lia|split; [now left|exact L3]].
Qed.
End Docs.

(** ** From characters to bytes *)
Lemma ascii_in_char c x : (x < 128)%N -> In x (encode_char c) -> encode_char c = [c] /\ x = c.
Proof.
  intros Hx. unfold encode_char.
  destruct (N.ltb_spec c 128); [intros [->|[]]; auto|].
  destruct (N.ltb_spec c 2048); [|destruct (N.ltb_spec c 65536)]; cbn [In]; intros H'; exfalso;
    repeat match type of H' with _ \/ _ => destruct H' as [H'|H'] end; try exact H'; revert H'; clear -Hx; match goal with |- (_ + ?y)%N = _ -> _ => generalize y end; intros; lia.
Qed.
Lemma ascii_in d x : (x < 128)%N -> In x (utf8_encode d) -> In x d.
Proof.
  intros Hx H. unfold utf8_encode in H. apply in_flat_map in H as (c & Hc & H).
  destruct (ascii_in_char c x Hx H) as [_ ->]. exact Hc.
Qed.
Lemma ascii_cut d : forall a x b, (x < 128)%N -> utf8_encode d = a ++ x :: b ->
  exists d1 d2, d = d1 ++ x :: d2 /\ utf8_encode d1 = a /\ utf8_encode d2 = b.
Proof.
  induction d as [|c d IH]; intros a x b Hx E; [now destruct a|]. rewrite encode_cons in E.
  destruct (app_eq_app _ _ _ _ E) as (l & [[E1 E2]|[E1 E2]]).
  - destruct l as [|y l].
    + rewrite app_nil_r in E1. cbn [app] in E2. symmetry in E2. destruct (IH [] x b Hx E2) as (d1 & d2 & E3 & E4 & E5).
      exists (c :: d1), d2. split; [now rewrite E3|]. split; [|exact E5]. rewrite encode_cons, E4, app_nil_r. exact E1.
    + cbn [app] in E2. injection E2 as <- E2. destruct (ascii_in_char c x Hx) as [Ec Ex].
      { rewrite E1. apply in_app_iff. right. now left. }
      rewrite Ec in E1. destruct a as [|? a]; [|destruct a; discriminate]. injection E1 as _ <-.
      exists [], d. split; [now rewrite Ex|]. split; [reflexivity|]. symmetry. exact E2.
  - destruct (IH l x b Hx E2) as (d1 & d2 & E3 & E4 & E5).
    exists (c :: d1), d2. split; [now rewrite E3|]. split; [|exact E5]. now rewrite encode_cons, E4.
Qed.
Lemma ascii_prefix d : forall t b, Forall (fun x => (x < 128)%N) t -> utf8_encode d = t ++ b ->
  exists d', d = t ++ d' /\ utf8_encode d' = b.
Proof.
  intros t. revert d. induction t as [|x t IH]; intros d b Ht E; [exists d; auto|].
  inversion Ht as [|? ? Hx Ht']; subst. destruct (ascii_cut d [] x (t ++ b) Hx E) as (d1 & d2 & E1 & E2 & E3).
  destruct (IH d2 b Ht' E3) as (d' & E4 & E5). exists d'. split; [|exact E5]. destruct d1 as [|y d1].
  - rewrite E1, E4. reflexivity.
  - exfalso. rewrite encode_cons in E2. destruct (encode_head y (utf8_encode d1)) as (b0 & t0 & H0 & _). rewrite H0 in E2. discriminate.
Qed.
Lemma marker_line_enc d : marker_line d -> marker_line (utf8_encode d).
Proof.
  intros (w & c & x & r & -> & Hw & Hc & Hx).
  assert (Ew : utf8_encode w = w).
  { clear -Hw. induction Hw as [|y w Hy Hw IH]; [reflexivity|]. rewrite encode_cons, IH, Hy. reflexivity. }
  exists w, (utf8_encode c), x, (utf8_encode r). split.
  { rewrite !encode_app, Ew, encode_cons. destruct Hx as [->| ->]; reflexivity. }
  split; [exact Hw|]. split; [|exact Hx].
  destruct Hc as [->|(t & -> & T1 & T2)]; [now left|right]. exists (utf8_encode t). split; [reflexivity|].
  split; intros H; [apply T1|apply T2]; apply ascii_in; try exact H; reflexivity.
Qed.
Lemma limit_ascii x : limit x -> utf8_encode [x] = [x].
Proof. intros H. cbv in H. intuition (subst; reflexivity). Qed.
Lemma encode_none d : utf8_encode d = [] -> d = [].
Proof. destruct d as [|y d]; [reflexivity|]. rewrite encode_cons. destruct (encode_head y (utf8_encode d)) as (b0 & t0 & H0 & _). now rewrite H0. Qed.
Lemma ascii_head d x b : (x < 128)%N -> utf8_encode d = x :: b -> exists d', d = x :: d' /\ utf8_encode d' = b.
Proof.
  intros Hx E. destruct (ascii_cut d [] x b Hx E) as (d1 & d2 & E1 & E2 & E3). apply encode_none in E2. subst d1. exists d2. auto.
Qed.
Lemma shut_34 r' : forall n b, List.length b <= n -> (forall b', b <> b' ++ [92%N]) -> shut 34 [92; 34]%N (b ++ 34%N :: r').
Proof.
  induction n as [|n IH]; intros b Hn Hb.
  { destruct b; [|cbn in Hn; lia]. now apply shut_end. }
  destruct b as [|c b]; [now apply shut_end|]. cbn in Hn. assert (Hb' : forall b', b <> b' ++ [92%N]) by (intros b' ->; now apply (Hb (c :: b'))).
  destruct (N.eq_dec c 34) as [->|N34]; [now apply shut_end|]. destruct (N.eq_dec c 92) as [->|N92].
  - destruct b as [|y b]; [now destruct (Hb [])|]. destruct (N.eq_dec y 34) as [->|M34].
    + apply (shut_pair 34 [92; 34]%N (b ++ 34%N :: r')). apply IH; [cbn in Hn; lia|]. intros b' ->. now apply (Hb' (34%N :: b')).
    + cbn [app]. apply shut_step; [discriminate| |apply (IH (y :: b)); [lia|exact Hb']]. cbn [starts_with]. rewrite (proj2 (N.eqb_neq 34 y)) by congruence. reflexivity.
  - cbn [app]. apply shut_step; [exact N34| |apply IH; [lia|exact Hb']]. cbn [starts_with]. rewrite (proj2 (N.eqb_neq 92 c)) by congruence. reflexivity.
Qed.
Lemma shut_39_text l r : ~ In 39%N l -> shut 39 [39; 39]%N r -> shut 39 [39; 39]%N (l ++ r).
Proof.
  induction l as [|c l IH]; intros Hl Hr; [exact Hr|]. cbn [app]. assert (Hc : c <> 39%N) by (intros ->; apply Hl; now left).
  apply shut_step; [exact Hc| |apply IH; [intros H; apply Hl; now right|exact Hr]]. cbn [starts_with]. rewrite (proj2 (N.eqb_neq 39 c)) by congruence. reflexivity.
Qed.
Lemma shut_39 v r' : (forall t, r' <> 39%N :: t) ->
  shut 39 [39; 39]%N (utf8_encode (flat_map (fun y => if N.eqb y 39 then [39; 39]%N else [y]) v) ++ 39%N :: r').
Proof.
  intros Hr. induction v as [|y v IH].
  - cbn. apply shut_end. cbn [starts_with]. change (N.eqb 39 39) with true. destruct r' as [|z t]; [reflexivity|].
    destruct (N.eqb_spec 39 z) as [<-|]; [now destruct (Hr t)|reflexivity].
  - cbn [flat_map]. rewrite encode_app, <- app_assoc. destruct (N.eqb_spec y 39) as [->|N39].
    + apply (shut_pair 39 [39; 39]%N). exact IH.
    + apply shut_39_text; [|exact IH]. intros H. cbn in H. rewrite app_nil_r in H. apply ascii_in_char in H as [_ H]; [congruence|reflexivity].
Qed.
Lemma fits_good d a c r : node_fits c r -> forall e, d = a ++ c :: r -> e = List.length (utf8_encode a) -> good (utf8_encode d) e.
Proof.
  intros (F1 & F2 & F3 & F4) e Ed Ee.
  assert (SK : skipn e (utf8_encode d) = encode_char c ++ utf8_encode r).
  { rewrite Ed, encode_app, Ee, skipn_app, skipn_all, Nat.sub_diag. cbn [app skipn]. now rewrite encode_cons. }
  assert (HD : forall x r0, (x < 128)%N -> skipn e (utf8_encode d) = x :: r0 -> c = x /\ utf8_encode r = r0).
  { intros x r0 Hx E. rewrite SK in E. destruct (ascii_head (c :: r) x r0 Hx) as (d' & E1 & E2); [now rewrite encode_cons|]. injection E1 as -> ->. auto. }
  split; [|split].
  - intros q ig r0 [[-> ->]|[-> ->]] E; apply HD in E as [-> <-]; try reflexivity.
    + destruct (F1 eq_refl) as (b & r' & -> & Hb). rewrite encode_app, encode_cons. change (encode_char 34) with [34%N]. cbn [app].
      apply (shut_34 _ _ _ (le_n _)). intros b' E. destruct (ascii_cut b b' 92%N [] eq_refl E) as (d1 & d2 & E1 & _ & E3).
      apply encode_none in E3. subst d2. now apply (Hb d1).
    + destruct (F2 eq_refl) as (v & r' & -> & Hv). rewrite encode_app, encode_cons. change (encode_char 39) with [39%N]. cbn [app].
      apply shut_39. intros t E. destruct (ascii_head r' 39%N t eq_refl E) as (d' & E1 & _). now apply (Hv d').
  - intros r0 E. apply HD in E as [-> <-]; [|reflexivity]. destruct (F3 eq_refl) as (n & x & r' & -> & Hn & Hx). exists n, x, (utf8_encode r').
    split; [|split; [exact Hn|exact Hx]]. rewrite encode_app. change (x :: r') with ([x] ++ r'). rewrite encode_app, (limit_ascii x Hx).
    destruct Hn as [->|Hn]; [reflexivity|]. now rewrite (encode_asciis n (name_asciis n Hn)).
  - intros r0 E. apply HD in E as [-> <-]; [|reflexivity]. destruct (F4 eq_refl) as (t & x & r' & Et & Ht & Hx). exists t, x, (utf8_encode r'). split; [|split; [exact Ht|exact Hx]].
    transitivity (utf8_encode (33%N :: r)); [now rewrite encode_cons|].
    rewrite Et, encode_app. change (x :: r') with ([x] ++ r'). now rewrite encode_app, (limit_ascii x Hx).
Qed.
Lemma tame_fits d : tame d -> forall e, led (utf8_encode d) e -> good (utf8_encode d) e.
Proof.
  intros [H _] e [->|(He & x & Hx & Hb)].
  - destruct d as [|c r]; [now apply good_empty|]. apply (fits_good (c :: r) [] c r); [|reflexivity|reflexivity]. apply (H [] c r eq_refl). now left.
  - assert (X : (x < 128)%N) by (cbv in Hb; intuition (subst; reflexivity)).
    apply nth_error_split in Hx as (l1 & l2 & E & El). destruct (ascii_cut d l1 x l2 X E) as (d1 & d2 & E1 & E2 & E3).
    assert (EX : utf8_encode [x] = [x]) by (cbv in Hb; intuition (subst; reflexivity)).
    assert (Le : e = List.length (utf8_encode (d1 ++ [x]))) by (rewrite encode_app, EX, E2, app_length; cbn; lia).
    destruct d2 as [|c r].
    + apply good_empty. rewrite Le, E1. apply skipn_all2. lia.
    + assert (Ed : d = (d1 ++ [x]) ++ c :: r) by (rewrite <- app_assoc; exact E1).
      apply (fits_good d (d1 ++ [x]) c r); [|exact Ed|exact Le]. apply (H (d1 ++ [x]) c r Ed). right. exists d1, x. auto.
Qed.
Lemma tame_markers d : tame d -> forall a b, utf8_encode d = a ++ lit "---" ++ b -> a = [] \/ marker_line b.
Proof.
  intros [_ H] a b E. assert (H45 : (45 < 128)%N) by reflexivity.
  destruct (ascii_cut d a 45%N (lit "--" ++ b) H45 E) as (d1 & d2 & E1 & E2 & E3).
  destruct (ascii_prefix d2 (lit "--") b) as (d' & E4 & E5); [repeat (apply Forall_cons; [reflexivity|]); apply Forall_nil|exact E3|].
  destruct (H d1 d') as [->|M].
  - rewrite E1, E4. reflexivity.
  - left. rewrite <- E2. reflexivity.
  - right. rewrite <- E5. now apply marker_line_enc.
Qed.

(** ** C25 *)
(** Parsing a tame document comes to an end: no loop runs for ever and the calls are
    not nested deeper than 8 times the length of the document plus 8. *)
Theorem C25_steps_are_linear : forall hk cyc d n, tame d ->
  8 * List.length (utf8_encode d) + 8 <= n ->
  fst (parse_fuel n (new_st hk cyc (utf8_encode d))) <> RDiv.
Proof.
  intros hk cyc d n Hd Hn. apply load_end; [now apply tame_fits|now apply tame_markers|exact Hn].
Qed.
Theorem C25_parse_terminates : forall hk d, tame d -> parse hk d <> RDiv.
Proof.
  intros hk d Hd. unfold parse, parse_bytes, load. apply C25_steps_are_linear; [exact Hd|].
  unfold fuel_doc. cbn [p_doc new_st]. lia.
Qed.
Theorem C25_parse_cyclic_terminates : forall hk d, tame d -> parse_cyclic hk d <> RDiv.
Proof.
  intros hk d Hd. unfold parse_cyclic, load.
  pose proof (C25_steps_are_linear hk true d (fuel_doc (new_st hk true (utf8_encode d))) Hd) as H.
  destruct (parse_fuel _ _) as [[v|e| |] s]; try discriminate. intros _. apply H; [|reflexivity].
  unfold fuel_doc. cbn [p_doc new_st]. lia.
Qed.

(** ** What happens outside the class *)
(** [string_plain] with the number of iterations of its loop given. *)
Definition string_plain_fuel (n level : nat) (inner : bool) : M str :=
  context (
    v <- plain_loop n level inner [] false ;;
    let v := trim_end v in
    match v with [] => fail Mismatch | _ => ret v end).
Lemma string_plain_is level inner s : string_plain level inner s = string_plain_fuel (loop_fuel s) level inner s.
Proof. reflexivity. Qed.

Lemma stuck_loop level inner : forall n v b s t r, in_doc s ->
  forallb (not_in (plain_patt inner)) t = true -> rem s = t ++ 10%N :: r -> depth (p_indent s) level = 0 ->
  fst (plain_loop n level inner v b s) = RDiv.
Proof.
  induction n as [|n IH]; intros v b s t r Hs Ht Er Dp; [reflexivity|]. cbn [plain_loop].
  unfold bind at 1. unfold forward at 1, modify at 1. set (s1 := set_eaten (p_pos s) s).
  assert (H1 : in_doc s1) by exact Hs. assert (R1 : rem s1 = t ++ 10%N :: r) by exact Er.
  assert (N10 : not_in (plain_patt inner) 10%N = false) by (destruct inner; reflexivity).
  unfold bind at 1. rewrite (take_while_exec _ (More 0) s1 H1), R1, (span_app _ t (10%N :: r) Ht N10). cbn [cap least Nat.leb]. cbv zeta.
  set (s2 := set_pos _ s1).
  assert (H2 : in_doc s2) by (apply in_doc_add; [rewrite R1, app_length; lia|exact H1]).
  assert (R2 : rem s2 = 10%N :: r) by (unfold s2; rewrite rem_add, R1, skipn_app, skipn_all, Nat.sub_diag; reflexivity).
  unfold bind at 1. rewrite (text_exec s2 H2). unfold bind at 1. unfold forward at 1, modify at 1. set (s3 := set_eaten (p_pos s2) s2).
  assert (H3 : in_doc s3) by exact H2. assert (R3 : rem s3 = 10%N :: r) by exact R2. assert (A3 : AT s3) by reflexivity.
  assert (D3 : depth (p_indent s3) level = 0) by exact Dp.
  set (v1 := v ++ _). clearbody v1 s3.
  assert (Stop : orM (fd <- food ;; ret (match fd with [] => true | _ => false end))
           (orM (is_ok (sym_seq (lit ": ")))
           (orM (andM (is_ok (sym (chr ":"))) (is_ok nl))
                (is_ok (sym_seq (lit " #"))))) s3 = (ROk false, s3)).
  { unfold orM. unfold bind at 1. unfold bind at 1. rewrite (food_exec s3 H3), R3. unfold ret at 1. cbv beta iota.
    unfold bind at 1. rewrite (is_ok_eq _ _ _ (sym_seq_exec _ s3 H3)), R3. cbn [starts_with]. change (N.eqb 58 10) with false. cbn [andb]. cbv beta iota.
    rewrite (AT_back s3 A3). unfold bind at 1, andM at 1, bind at 1. rewrite (is_ok_eq _ _ _ (sym_exec _ s3 H3)), R3.
    change (N.eqb 10 58) with false. cbv beta iota. rewrite (AT_back s3 A3). unfold ret at 1. cbv beta iota.
    rewrite (is_ok_eq _ _ _ (sym_seq_exec _ s3 H3)), R3. cbn. now rewrite (AT_back s3 A3). }
  unfold bind at 1. rewrite Stop. cbv beta iota. unfold bind at 1. unfold forward at 1, modify at 1. rewrite (AT_forward s3 A3).
  unfold bind at 1. rewrite (is_ok_eq _ _ _ (sym_set_exec _ s3 H3)), R3. change (is_in (lit ": ") 10) with false. cbv beta iota. rewrite (AT_back s3 A3).
  unfold bind at 1. match goal with |- context [(if ?c then is_ok (sym_set ?l) else ret false) s3] =>
    assert (Bra : (if c then is_ok (sym_set l) else ret false) s3 = (ROk false, s3)) end.
  { destruct (negb inner && _); [|reflexivity]. rewrite (is_ok_eq _ _ _ (sym_set_exec _ s3 H3)), R3. change (is_in (lit "{}[]") 10) with false. cbv beta iota. now rewrite (AT_back s3 A3). }
  rewrite Bra. cbv beta iota. unfold bind at 1.
  rewrite (is_err_eq _ _ _ (ind_ok level s3 H3 ltac:(rewrite D3; lia))). cbv beta iota. rewrite D3.
  eapply (IH _ _ _ (@nil N) r).
  - unfold in_doc in *. cbn. lia.
  - reflexivity.
  - unfold rem in *. cbn. now rewrite Nat.add_0_r.
  - rewrite <- D3. cbn [p_indent set_pos set_indent]. now apply depth_norm.
Qed.
(** A plain scalar whose level of indentation begins in column 0 is never read to the
    end when a line break follows it. *)
Theorem C25_stale_column_never_returns : forall level inner s t r,
  p_pos s <= List.length (p_doc s) -> skipn (p_pos s) (p_doc s) = t ++ 10%N :: r ->
  (forall c, In c t -> ~ In c (lit "[]{}: ," ++ [10; 13]%N)) ->
  depth (p_indent s) level = 0 ->
  (forall n, fst (string_plain_fuel n level inner s) = RDiv) /\ fst (string_plain level inner s) = RDiv.
Proof.
  intros level inner s t r Hs Er Ht Dp.
  assert (K : forall n, fst (string_plain_fuel n level inner s) = RDiv).
  { intros n. unfold string_plain_fuel, context.
    assert (X : fst (plain_loop n level inner [] false (set_eaten (p_pos s) s)) = RDiv).
    { apply (stuck_loop level inner n [] false (set_eaten (p_pos s) s) t r); [exact Hs| |exact Er|exact Dp].
      apply forallb_forall. intros c Hc. apply not_in_spec. intros H. apply (Ht c Hc). destruct inner; cbn in H; cbn; tauto. }
    unfold bind. destruct (plain_loop _ _ _ _ _ _) as [[x|e| |] s']; try discriminate X. reflexivity. }
  split; [exact K|]. rewrite string_plain_is. apply K.
Qed.

(** Dropping a condition of [tame] is not possible.  Whatever the fuel, parsing these
    documents does not come to an end: a quote that is not closed, ... *)
Theorem C25_open_quote_refuted : forall hk cyc n,
  fst (parse_fuel n (new_st hk cyc (34%N :: lit "abc"))) = RDiv
  /\ fst (parse_fuel n (new_st hk cyc (lit "'abc"))) = RDiv.
Proof. intros. split; do 12 (destruct n as [|n]; [vm_compute; reflexivity|]); vm_compute; reflexivity. Qed.
(** ... a document that begins on the line of its marker when the columns of the one
    before are still remembered, ... *)
Theorem C25_marker_line_refuted : forall hk cyc n,
  fst (parse_fuel n (new_st hk cyc (lit "a:" ++ [10%N] ++ lit "b: 1" ++ [10%N] ++ lit "--- c" ++ [10%N]))) = RDiv.
Proof. intros. do 25 (destruct n as [|n]; [vm_compute; reflexivity|]); vm_compute; reflexivity. Qed.
(** ... a tab behind a tag or an anchor. *)
Theorem C25_property_tab_refuted : forall hk cyc n,
  fst (parse_fuel n (new_st hk cyc (lit "!a !b" ++ [9%N] ++ lit "c" ++ [10%N]))) = RDiv
  /\ fst (parse_fuel n (new_st hk cyc (lit "a:" ++ [10%N] ++ lit "&b" ++ [9%N] ++ lit "c" ++ [10%N]))) = RDiv.
Proof. intros. split; do 25 (destruct n as [|n]; [vm_compute; reflexivity|]); vm_compute; reflexivity. Qed.

(** ** Examples *)
(** two documents with a block sequence, a mapping, a flow sequence, a literal block,
    a comment, a complex key, an anchor, a tag, both kinds of quotes with escapes, and
    characters that are not ASCII are tame; so is text with the special characters inside *)
Definition sample : str :=
  lit "---" ++ [10%N] ++ lit "- a: [1, " ++ [233%N] ++ lit "]" ++ [10%N] ++ lit "  " ++ [34%N] ++ lit "b\" ++ [34%N] ++ lit "!" ++ [34%N] ++ lit ": |" ++ [10%N] ++ lit "    x" ++ [10%N]
  ++ lit "--- # c" ++ [10%N] ++ lit "? &k 'it''s'" ++ [10%N] ++ lit ": !!str Oh! A&B" ++ [10%N].
Lemma begin_not l x : ~ In x ([9; 10; 12; 13; 32] ++ lit "[{,:-*>+")%N -> ~ node_may_begin (l ++ [x]).
Proof.
  intros Hx [E|(a' & y & E & Hy)]; [now destruct l|]. apply app_inj_tail in E as [_ <-]. contradiction.
Qed.
Lemma fits_other c r : ~ In c [34; 39; 38; 33]%N -> node_fits c r.
Proof. intros H. repeat split; intros ->; exfalso; apply H; cbn; tauto. Qed.
Ltac not_special := apply fits_other; cbv; intuition discriminate.
Ltac not_begin B := exfalso; revert B; match goal with |- node_may_begin ?l -> _ => let l' := eval cbv in (removelast l) in let x := eval cbv in (last l 0%N) in change l with (l' ++ [x]); apply begin_not; cbv; intuition discriminate end.
Example C25_example : tame sample.
Proof.
  split.
  - intros a c r E B. unfold sample in E. cbn [app] in E.
    repeat (destruct a as [|? a]; [cbn [app] in E; injection E as <- <-; first [not_special|not_begin B|idtac]|cbn [app] in E; injection E as <- E]).
    + split; [intros _|repeat split; intros X; discriminate X]. exists [98; 92; 34; 33]%N. eexists. split; [reflexivity|]. intros b' X. change [98; 92; 34; 33]%N with ([98; 92; 34] ++ [33])%N in X. apply app_inj_tail in X as [_ X]. discriminate X.
    + split; [intros X; discriminate X|]. split; [intros X; discriminate X|]. split; [intros _|intros X; discriminate X].
      exists (lit "k"), 32%N. eexists. split; [reflexivity|]. split; [|unfold name_end; cbn; tauto]. right. exists 107%N, []. repeat split. constructor.
    + split; [intros X; discriminate X|]. split; [intros _|split; intros X; discriminate X].
      exists (lit "it's"). eexists. split; [reflexivity|]. intros t X. discriminate X.
    + split; [intros X; discriminate X|]. split; [intros X; discriminate X|]. split; [intros X; discriminate X|intros _].
      assert (W : name_ok (lit "str")) by (exists 115%N, (lit "tr"); repeat split; repeat constructor).
      exists (RSecondary (lit "str")), 32%N. eexists. split; [reflexivity|]. split; [right; exact W|unfold name_end; cbn; tauto].
    + exfalso. destruct a; discriminate E.
  - intros a b E. unfold sample in E. cbn [app] in E.
    destruct a as [|c a]; [now left|right]. injection E as _ E.
    assert (M : marker_line (lit " # c" ++ [10%N] ++ lit "? &k 'it''s'" ++ [10%N] ++ lit ": !!str Oh! A&B" ++ [10%N])).
    { exists [32%N], (lit "# c"), 10%N, (lit "? &k 'it''s'" ++ [10%N] ++ lit ": !!str Oh! A&B" ++ [10%N]). split; [reflexivity|]. split; [repeat constructor|].
      split; [|now left]. right. exists (lit " c"). split; [reflexivity|]. split; cbv; intuition congruence. }
    repeat (destruct a as [|? a]; [cbn [app] in E; first [discriminate E | injection E as <-; exact M]|cbn [app] in E; try discriminate E; injection E as _ E]).
Qed.
(** a plain scalar in column 0 of the second level *)
Example C25_stale_example :
  let s := set_indent [0; 0] (set_pos 4 (new_st (fun _ => 0%N) false (lit "--- c" ++ [10%N]))) in
  fst (string_plain 1 false s) = RDiv.
Proof.
  intros s. apply (C25_stale_column_never_returns 1 false s (lit "c") []); try reflexivity.
  - cbn. lia.
  - intros c [<-|[]] H. cbv in H. intuition congruence.
Qed.
