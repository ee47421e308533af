(** * TermQuote: closed quotes are read to the end (used by PropTerm). *)
From Verif Require Export PropTag Term.
Open Scope nat_scope.

(** what may come behind a name *)
Definition limit (x : N) : Prop := In x (lit ":{}[] ," ++ [10; 13])%N.
(** behind [&]: a name, perhaps empty, and its limit *)
Definition anchored (r : list N) : Prop :=
  exists n x r', r = n ++ x :: r' /\ (n = [] \/ name_ok n) /\ limit x.
(** from [!] on: a tag and its limit *)
Definition tagged (enc : list N -> list N) (l : list N) : Prop :=
  exists t x r', l = enc (ref_text t) ++ x :: r' /\ ref_ok t /\ limit x.

(** a quote and what stands for it inside *)
Definition quote (q : N) (ig : bytes) : Prop := (q = 34%N /\ ig = [92; 34]%N) \/ (q = 39%N /\ ig = [39; 39]%N).
(** the quote is closed somewhere in the text behind it *)
Inductive shut (q : N) (ig : bytes) : bytes -> Prop :=
| shut_end r : starts_with ig (q :: r) = false -> shut q ig (q :: r)
| shut_pair r : shut q ig r -> shut q ig (ig ++ r)
| shut_step c r : c <> q -> starts_with ig (c :: r) = false -> shut q ig r -> shut q ig (c :: r).

Lemma starts_self ig r : starts_with ig (ig ++ r) = true.
Proof. induction ig as [|c ig IH]; [reflexivity|]. cbn. now rewrite N.eqb_refl, IH. Qed.
Lemma shut_ig q ig l r : quote q ig -> shut q ig l -> l = ig ++ r -> shut q ig r.
Proof.
  intros Hq H E. assert (St : starts_with ig l = true) by (rewrite E; apply starts_self). destruct H as [r0 H0|r0 H0|c r0 _ H0 _].
  - congruence.
  - apply app_inv_head in E. now subst.
  - congruence.
Qed.
Lemma shut_drop q ig c r : quote q ig -> c <> q -> starts_with ig (c :: r) = false -> shut q ig (c :: r) -> shut q ig r.
Proof.
  intros Hq Hc Hs H. inversion H as [r0 H0 E|r0 H0 E|c0 r0 _ H0 H1 E]; subst; [congruence| |exact H1].
  exfalso. rewrite <- E, starts_self in Hs. discriminate.
Qed.
Lemma shut_nil q ig : quote q ig -> ~ shut q ig [].
Proof. intros Hq H. inversion H as [|r0 H0 E|]. destruct Hq as [[_ ->]|[_ ->]]; discriminate. Qed.
Lemma ig_free q ig c r : quote q ig -> c <> q -> c <> 92%N -> starts_with ig (c :: r) = false.
Proof.
  intros [[-> ->]|[-> ->]] H1 H2; cbn [starts_with].
  - rewrite (proj2 (N.eqb_neq 92 c)) by congruence. reflexivity.
  - rewrite (proj2 (N.eqb_neq 39 c)) by congruence. reflexivity.
Qed.
Lemma shut_skip q ig : quote q ig -> forall k l, Forall (fun c => c <> q /\ c <> 92%N) (firstn k l) -> shut q ig l -> shut q ig (skipn k l).
Proof.
  intros Hq. induction k as [|k IH]; intros l Hf H; [exact H|]. destruct l as [|c l]; [exact H|]. cbn [firstn] in Hf. inversion Hf as [|? ? [H1 H2] Hf']; subst.
  cbn [skipn]. apply IH; [exact Hf'|]. eapply shut_drop; [exact Hq|exact H1| |exact H]. now apply (ig_free q).
Qed.

(** ** White space *)
Definition blank_run (k : nat) (l : bytes) : Prop := Forall (fun c => is_ascii_ws c = true) (firstn k l).
Lemma firstn_add {A} a b (l : list A) : firstn (a + b) l = firstn a l ++ firstn b (skipn a l).
Proof. revert l. induction a as [|a IH]; intros l; [reflexivity|]. destruct l as [|x l]; [now rewrite !firstn_nil|]. cbn. now rewrite IH. Qed.
Lemma blank_add a b l : blank_run a l -> blank_run b (skipn a l) -> blank_run (a + b) l.
Proof. unfold blank_run. rewrite firstn_add. intros. apply Forall_app. auto. Qed.
Lemma blank_span f l : (forall c, f c = true -> is_ascii_ws c = true) -> blank_run (span f l) l.
Proof.
  intros Hf. unfold blank_run. apply Forall_forall. intros c Hc. apply Hf. pose proof (span_forall f l) as X. rewrite forallb_forall in X. auto.
Qed.
Lemma ws_ascii c : is_ws c = true -> is_ascii_ws c = true.
Proof. unfold is_ws. intros H. now apply andb_true_iff in H as [H _]; apply andb_true_iff in H as [H _]. Qed.
Lemma nl_cases l : nl_len l <> 0 -> exists x, nth_error l (nl_len l - 1) = Some x /\ (x = 10%N \/ x = 13%N).
Proof.
  rewrite nl_len_alt. unfold nl_len'. destruct (starts_with [13; 10]%N l) eqn:E1.
  { apply starts_with_app in E1 as [r ->]. cbn. eauto. }
  destruct (starts_with [10; 13]%N l) eqn:E2.
  { apply starts_with_app in E2 as [r ->]. cbn. eauto. }
  destruct l as [|x l]; [lia|]. destruct (N.eqb_spec x 10) as [->|]; [cbn; eauto|]. destruct (N.eqb_spec x 13) as [->|]; [cbn; eauto|cbn; lia].
Qed.
Lemma blank_nl l : blank_run (nl_len l) l.
Proof.
  rewrite nl_len_alt. unfold nl_len', blank_run. destruct (starts_with [13; 10]%N l) eqn:E1.
  { apply starts_with_app in E1 as [r ->]. cbn. repeat constructor. }
  destruct (starts_with [10; 13]%N l) eqn:E2.
  { apply starts_with_app in E2 as [r ->]. cbn. repeat constructor. }
  destruct l as [|x l]; [constructor|]. destruct (N.eqb_spec x 10) as [->|]; [cbn; repeat constructor|]. destruct (N.eqb_spec x 13) as [->|]; [cbn; repeat constructor|constructor].
Qed.
Lemma blank_lines n : forall l, blank_run (snd (gap_lines n false l)) l.
Proof.
  induction n as [|n IH]; intros l; cbn [gap_lines]; [constructor|]. cbv zeta. cbn [line_skip].
  destruct (Nat.eqb _ 0); [constructor|]. cbn [snd]. apply blank_add; [apply blank_add; [apply blank_span, ws_ascii|apply blank_nl]|apply IH].
Qed.
Lemma blank_gap l t k : gap_f false l = Some (t, k) -> blank_run k l.
Proof.
  unfold gap_f. cbn [gap_head skipn plus]. cbv zeta. destruct (Nat.eqb _ 0); [discriminate|]. intros [= <- <-].
  apply blank_add; [apply blank_nl|]. apply (blank_lines (S (List.length (skipn (nl_len l) l)))).
Qed.
(** a gap ends behind a line break *)
Lemma lines_last n c : forall l, snd (gap_lines n c l) <> 0 -> exists x, nth_error l (snd (gap_lines n c l) - 1) = Some x /\ (x = 10%N \/ x = 13%N).
Proof.
  assert (SK : forall (l : bytes) a b, 1 <= b -> nth_error l (a + b - 1) = nth_error (skipn a l) (b - 1)).
  { intros l a b Hb. replace (a + b - 1) with (a + (b - 1)) by lia. revert l. induction a as [|a IH]; intros l; [reflexivity|].
    destruct l as [|x l]; [now destruct (b - 1)|]. cbn. apply IH. }
  induction n as [|n IH]; intros l; cbn [gap_lines]; [cbn; lia|]. cbv zeta. set (k := line_skip c l).
  destruct (Nat.eqb_spec (nl_len (skipn k l)) 0) as [|M0]; [cbn; lia|]. cbn [snd]. intros _. set (m := nl_len (skipn k l)) in *.
  destruct (Nat.eq_dec (snd (gap_lines n c (skipn (k + m) l))) 0) as [Z0|Z0].
  - rewrite Z0, Nat.add_0_r, (SK l k m) by lia. apply (nl_cases (skipn k l)). exact M0.
  - rewrite (SK l (k + m)) by lia. apply IH. exact Z0.
Qed.
Lemma gap_last c l t k : gap_f c l = Some (t, k) -> exists x, nth_error l (k - 1) = Some x /\ (x = 10%N \/ x = 13%N).
Proof.
  assert (SK : forall (l : bytes) a b, 1 <= b -> nth_error l (a + b - 1) = nth_error (skipn a l) (b - 1)).
  { intros l0 a b Hb. replace (a + b - 1) with (a + (b - 1)) by lia. revert l0. induction a as [|a IH]; intros l0; [reflexivity|].
    destruct l0 as [|x l0]; [now destruct (b - 1)|]. cbn. apply IH. }
  unfold gap_f. cbv zeta. set (h := gap_head c l). destruct (Nat.eqb_spec (nl_len (skipn h l)) 0) as [|M0]; [discriminate|]. set (m := nl_len (skipn h l)) in *.
  set (b := S (List.length (skipn (h + m) l))). clearbody b. intros [= <- <-].
  destruct (Nat.eq_dec (snd (gap_lines b c (skipn (h + m) l))) 0) as [Z0|Z0].
  - rewrite Z0, Nat.add_0_r, (SK l h m) by lia. now apply (nl_cases (skipn h l)).
  - rewrite (SK l (h + m)) by lia. now apply lines_last.
Qed.

Section TermQuote.
Variable d : bytes.
Local Notation J := (J d).
Local Notation len := (List.length d).

(** a quote here is closed, an ampersand begins an anchor, an exclamation mark a tag *)
Definition good (e : nat) : Prop :=
  (forall q ig r, quote q ig -> skipn e d = q :: r -> shut q ig r)
  /\ (forall r, skipn e d = 38%N :: r -> anchored r)
  /\ (forall r, skipn e d = 33%N :: r -> tagged utf8_encode (33%N :: r)).
(** the bytes a node may follow *)
Definition before : bytes := [9; 10; 12; 13; 32]%N ++ lit "[{,:-*>+".
Definition led (e : nat) : Prop := e = 0 \/ 1 <= e /\ exists x, nth_error d (e - 1) = Some x /\ In x before.

Lemma ws_before c : is_ascii_ws c = true -> In c before.
Proof. unfold is_ascii_ws. intros H. repeat (apply orb_true_iff in H as [H|H]); apply N.eqb_eq in H; subst; cbn; tauto. Qed.
Lemma nth_rem s i : J s -> nth_error d (p_pos s + i) = nth_error (rem s) i.
Proof.
  intros (E & _). unfold rem. rewrite E. generalize (p_pos s) as a. intros a. revert i. generalize d as l. induction a as [|a IH]; intros l i; [reflexivity|].
  destruct l as [|x l]; [now destruct i|]. cbn. apply IH.
Qed.
Lemma led_after s k x : J s -> 1 <= k -> nth_error (rem s) (k - 1) = Some x -> In x before -> led (p_pos s + k).
Proof.
  intros Hs Hk H Hx. right. split; [lia|]. exists x. split; [|exact Hx]. rewrite <- H, <- (nth_rem s (k - 1) Hs). f_equal. lia.
Qed.
Lemma led_blank s k : J s -> blank_run k (rem s) -> k <= List.length (rem s) -> led (p_pos s) -> led (p_pos s + k).
Proof.
  intros Hs Hb Hk Hl. destruct (Nat.eq_dec k 0) as [->|K0]; [now rewrite Nat.add_0_r|].
  destruct (nth_error (rem s) (k - 1)) as [x|] eqn:E; [|apply nth_error_None in E; lia].
  apply (led_after s k x Hs ltac:(lia) E). apply ws_before. unfold blank_run in Hb. rewrite Forall_forall in Hb. apply Hb.
  apply (nth_error_In _ (k - 1)). rewrite <- E. rewrite <- (firstn_skipn k (rem s)) at 2. rewrite nth_error_app1; [reflexivity|]. rewrite firstn_length. lia.
Qed.
Lemma led_gap s c t k : J s -> gap_f c (rem s) = Some (t, k) -> led (p_pos s + k).
Proof.
  intros Hs G. destruct (gap_last _ _ _ _ G) as (x & E & Hx). apply gap_f_le in G as (_ & G & _).
  apply (led_after s k x Hs G E). cbn. destruct Hx as [->| ->]; tauto.
Qed.
Lemma good_other e x r : skipn e d = x :: r -> ~ In x [34; 39; 38; 33]%N -> good e.
Proof.
  intros E H. split; [|split].
  - intros q ig r' [[-> _]|[-> _]] E'; exfalso; apply H; rewrite E in E'; injection E' as -> _; cbn; tauto.
  - intros r' E'. exfalso. apply H. rewrite E in E'. injection E' as -> _. cbn. tauto.
  - intros r' E'. exfalso. apply H. rewrite E in E'. injection E' as -> _. cbn. tauto.
Qed.
Lemma good_empty e : skipn e d = [] -> good e.
Proof. intros E. split; [intros q ig r' _|split; intros r']; intros E'; congruence. Qed.
Lemma rem_d s : J s -> rem s = skipn (p_pos s) d.
Proof. intros (E & _). unfold rem. now rewrite E. Qed.
Lemma good_bound s : J s -> at_bound (rem s) = true -> good (p_pos s).
Proof.
  intros Hs H. destruct (rem s) as [|x r] eqn:E; [discriminate|]. rewrite (rem_d s Hs) in E.
  apply (good_other _ x r E). intros [<-|[<-|[<-|[<-|[]]]]]; discriminate H.
Qed.
Lemma good_opens s c : J s -> gap_f c (rem s) <> None -> good (p_pos s).
Proof.
  intros Hs H. destruct (rem s) as [|x r] eqn:E; [now apply good_empty; rewrite <- (rem_d s Hs)|]. rewrite (rem_d s Hs) in E.
  apply (good_other _ x r E). intros [<-|[<-|[<-|[<-|[]]]]]; apply H; destruct c; reflexivity.
Qed.

(** ** The loop *)
Lemma quoted_loop_end q ig : quote q ig -> forall n p v s, len < n + p -> p <= p_pos s -> J s -> shut q ig (rem s) ->
  match quoted_loop n q ig v s with
  | (ROk _, s') => J s' /\ p_indent s' = p_indent s /\ p <= p_pos s'
  | _ => False
  end.
Proof.
  intros Hq. induction n as [|n IH]; intros p v s Hn Hp Hs Sh.
  { destruct Hs as (_ & _ & ? & _). lia. }
  cbn [quoted_loop]. unfold bind at 1. change (forward s) with (ROk tt, set_eaten (p_pos s) s). cbv beta iota. set (s1 := set_eaten (p_pos s) s).
  assert (J1 : J s1) by (unfold Term.J, s1 in *; cbn; intuition).
  unfold bind at 1. rewrite (more0_exec _ s1 (J_in d s1 J1)). change (rem s1) with (rem s). set (f := not_in [10; 13; 92; q]%N). set (k := span f (rem s)).
  assert (K : k <= List.length (rem s)) by apply span_le.
  pose proof (J_adv d s1 k J1 K) as J2. set (s2 := set_pos (p_pos s1 + k) s1) in *.
  assert (R2 : rem s2 = skipn k (rem s)) by (unfold s2; rewrite rem_add; reflexivity).
  assert (S2 : shut q ig (rem s2)).
  { rewrite R2. apply (shut_skip q ig Hq); [|exact Sh]. apply Forall_forall. intros c Hc. pose proof (span_forall f (rem s)) as X. rewrite forallb_forall in X.
    specialize (X c Hc). unfold f in X. rewrite not_in_spec in X. split; intros ->; apply X; cbn; tauto. }
  unfold bind at 1. rewrite (text_exec s2 (J_in d s2 J2)). cbv zeta. set (v1 := v ++ _). clearbody v1.
  unfold bind at 1. change (forward s2) with (ROk tt, set_eaten (p_pos s2) s2). cbv beta iota. set (s3 := set_eaten (p_pos s2) s2).
  assert (J3 : J s3) by (unfold Term.J, s3 in *; cbn; intuition).
  assert (R3 : rem s3 = rem s2) by reflexivity. assert (B3 : set_pos (p_eaten s3) s3 = s3) by exact (set_pos_id s3).
  assert (P3 : p <= p_pos s3) by (unfold s3, s2, s1; cbn; lia). assert (I3 : p_indent s3 = p_indent s) by reflexivity.
  destruct (rem s2) as [|c r] eqn:E2; [now destruct (shut_nil q ig Hq)|].
  assert (Hc : In c [10; 13; 92; q]%N).
  { symmetry in R2. apply span_next in R2. unfold f in R2. destruct (in_dec N.eq_dec c [10; 13; 92; q]%N) as [H|H]; [exact H|].
    rewrite (proj2 (not_in_spec _ _) H) in R2. discriminate. }
  clearbody s3. clear s1 s2 J1 J2 K R2 E2.
  unfold bind at 1. rewrite (is_ok_eq _ _ _ (sym_seq_exec _ s3 (J_in d s3 J3))), R3. destruct (starts_with ig (c :: r)) eqn:Sig.
  { cbv beta iota. apply starts_with_app in Sig as [r' Er]. pose proof (shut_ig q ig _ r' Hq S2 Er) as S4.
    assert (L4 : 1 <= List.length ig) by (destruct Hq as [[_ ->]|[_ ->]]; cbn; lia).
    assert (K4 : List.length ig <= List.length (rem s3)) by (rewrite R3, Er, app_length; lia).
    pose proof (J_adv d s3 _ J3 K4) as J4. specialize (IH (p + 1) (v1 ++ [q]) (set_pos (p_pos s3 + List.length ig) s3) ltac:(lia) ltac:(cbn; lia) J4).
    rewrite rem_add, R3, Er, skipn_app, skipn_all, Nat.sub_diag in IH. specialize (IH S4). cbn [p_indent set_pos] in IH. rewrite I3 in IH. destruct (quoted_loop _ _ _ _ _) as [[y|e| |] s']; try exact IH. destruct IH as (? & ? & ?). split; [assumption|]. split; [assumption|lia]. }
  cbv beta iota. rewrite B3. unfold bind at 1. rewrite (ok_eq _ _ _ (gap_exec false s3 (J_in d s3 J3))), R3.
  destruct (gap_f false (c :: r)) as [[t k']|] eqn:G.
  { cbv beta iota zeta. pose proof (blank_gap _ _ _ G) as Bk. apply gap_f_le in G as (G1 & G2 & _). rewrite <- R3 in G1.
    pose proof (J_adv d s3 k' J3 G1) as J4. set (s4 := set_pos (p_pos s3 + k') s3) in *.
    unfold bind at 1, ws at 1. rewrite (more0_exec _ s4 (J_in d s4 J4)). cbv beta iota.
    assert (R4 : rem s4 = skipn k' (c :: r)) by (unfold s4; rewrite rem_add, R3; reflexivity).
    assert (Bw : blank_run (k' + span is_ws (rem s4)) (c :: r)) by (apply blank_add; [exact Bk|rewrite R4; apply blank_span, ws_ascii]).
    pose proof (J_adv d s4 _ J4 (span_le is_ws (rem s4))) as J5.
    match goal with |- context [quoted_loop n q ig ?x ?y] => specialize (IH (p + 1) x y ltac:(lia) ltac:(unfold s4; cbn; lia) J5) end.
    rewrite rem_add, R4, skipn_add, <- R4 in IH.
    assert (S5 : shut q ig (skipn (k' + span is_ws (rem s4)) (c :: r))).
    { apply (shut_skip q ig Hq); [|exact S2]. unfold blank_run in Bw. rewrite Forall_forall in Bw |- *. intros x Hx. specialize (Bw x Hx).
      destruct Hq as [[-> _]|[-> _]]; split; intros ->; discriminate Bw. }
    specialize (IH S5). cbn [p_indent set_pos] in IH. change (p_indent s4) with (p_indent s3) in IH. rewrite I3 in IH. destruct (quoted_loop _ _ _ _ _) as [[y|e| |] s']; try exact IH. destruct IH as (? & ? & ?). split; [assumption|]. split; [assumption|lia]. }
  cbn [gap_head]. cbv beta iota. rewrite Nat.add_0_r, set_pos_id.
  unfold bind at 1. rewrite (is_ok_eq _ _ _ (sym_exec _ s3 (J_in d s3 J3))), R3. destruct (N.eqb_spec c 92) as [->|N92].
  { cbv beta iota. assert (Nq : 92%N <> q) by (destruct Hq as [[-> _]|[-> _]]; discriminate). pose proof (shut_drop q ig _ r Hq Nq Sig S2) as S4.
    assert (K4 : 1 <= List.length (rem s3)) by (rewrite R3; cbn; lia).
    pose proof (J_adv d s3 1 J3 K4) as J4. specialize (IH (p + 1) (v1 ++ [92%N]) (set_pos (p_pos s3 + 1) s3) ltac:(lia) ltac:(cbn; lia) J4).
    rewrite rem_add, R3 in IH. specialize (IH S4). cbn [p_indent set_pos] in IH. rewrite I3 in IH. destruct (quoted_loop _ _ _ _ _) as [[y|e| |] s']; try exact IH. destruct IH as (? & ? & ?). split; [assumption|]. split; [assumption|lia]. }
  cbv beta iota. rewrite B3. unfold bind at 1. rewrite (is_ok_eq _ _ _ (sym_exec _ s3 (J_in d s3 J3))), R3.
  destruct (N.eqb_spec c q) as [->|Nq].
  { cbv beta iota. unfold ret. split; [apply J_adv; [exact J3|rewrite R3; cbn; lia]|]. split; [exact I3|cbn; lia]. }
  exfalso. destruct Hc as [<-|[<-|[<-|[<-|[]]]]]; try contradiction; unfold gap_f in G; cbn [gap_head skipn] in G; cbv zeta in G.
  - pose proof (nl_cases (10%N :: r)) as X. destruct (Nat.eqb_spec (nl_len (10%N :: r)) 0) as [Z0|]; [|discriminate].
    rewrite nl_len_alt in Z0. unfold nl_len' in Z0. cbn in Z0. destruct r; [discriminate|]. cbn in Z0. destruct (_ && _); discriminate.
  - destruct (Nat.eqb_spec (nl_len (13%N :: r)) 0) as [Z0|]; [|discriminate].
    rewrite nl_len_alt in Z0. unfold nl_len' in Z0. cbn in Z0. destruct r as [|y r]; [discriminate|]. cbn in Z0. destruct (_ && _); discriminate.
Qed.
Lemma quoted_end q ig s : quote q ig -> J s -> good (p_pos s) ->
  match string_quoted q ig s with
  | (ROk _, s') => J s' /\ p_indent s' = p_indent s /\ p_eaten s' = p_eaten s
  | (RErr Mismatch, s') => s' = s
  | _ => False
  end.
Proof.
  intros Hq Hs Hg. unfold string_quoted, context. set (s1 := set_eaten (p_pos s) s).
  assert (J1 : J s1) by (unfold Term.J, s1 in *; cbn; intuition).
  unfold bind at 1. rewrite (sym_exec _ s1 (J_in d s1 J1)). change (rem s1) with (rem s).
  assert (B : set_eaten (p_eaten s) (set_pos (p_eaten s1) s1) = s) by (unfold s1; apply st_ext; reflexivity).
  destruct (rem s) as [|c r] eqn:Er; [cbn [fst]; exact B|]. destruct (N.eqb_spec c q) as [->|]; [|exact B].
  cbv beta iota. assert (Sh : shut q ig r) by (apply (proj1 Hg q ig r Hq); rewrite <- (rem_d s Hs); exact Er).
  assert (L2 : 1 <= List.length (rem s1)) by (change (rem s1) with (rem s); rewrite Er; cbn; lia).
  pose proof (J_adv d s1 1 J1 L2) as J2. set (s2 := set_pos (p_pos s1 + 1) s1) in *.
  assert (R2 : rem s2 = r) by (unfold s2; rewrite rem_add; change (rem s1) with (rem s); rewrite Er; reflexivity).
  unfold bind at 1. change (forward s2) with (ROk tt, set_eaten (p_pos s2) s2). cbv beta iota. set (s3 := set_eaten (p_pos s2) s2).
  assert (J3 : J s3) by (unfold Term.J, s3 in *; cbn; intuition).
  unfold bind at 1, ws at 1. rewrite (more0_exec _ s3 (J_in d s3 J3)). cbv beta iota. change (rem s3) with (rem s2). rewrite R2.
  assert (L4 : span is_ws r <= List.length (rem s3)) by (change (rem s3) with (rem s2); rewrite R2; apply span_le).
  pose proof (J_adv d s3 _ J3 L4) as J4. set (s4 := set_pos (p_pos s3 + span is_ws r) s3) in *.
  assert (R4 : rem s4 = skipn (span is_ws r) r) by (unfold s4; rewrite rem_add; change (rem s3) with (rem s2); rewrite R2; reflexivity).
  assert (S4 : shut q ig (rem s4)).
  { rewrite R4. apply (shut_skip q ig Hq); [|exact Sh]. pose proof (blank_span is_ws r ws_ascii) as Bw. unfold blank_run in Bw.
    rewrite Forall_forall in Bw |- *. intros x Hx. specialize (Bw x Hx). destruct Hq as [[-> _]|[-> _]]; split; intros ->; discriminate Bw. }
  unfold bind at 1. rewrite (text_exec s4 (J_in d s4 J4)). unfold bind at 1, gets at 1. cbv beta iota.
  assert (F : loop_fuel s4 = S (S len)) by (unfold loop_fuel; destruct J4 as (-> & _); reflexivity). rewrite F.
  assert (P4 : p_pos s <= p_pos s4) by (unfold s4, s3, s2, s1; cbn; lia).
  match goal with |- context [quoted_loop _ q ig ?x s4] => pose proof (quoted_loop_end q ig Hq (S (S len)) (p_pos s) x s4 ltac:(lia) P4 J4 S4) as X; destruct (quoted_loop (S (S len)) q ig x s4) as [[y|e| |] s5] end; try contradiction.
  destruct X as ((E & X1 & X2 & X3) & X4 & X5). destruct Hs as (_ & Hs & _). split; [|split; [cbn; rewrite X4; reflexivity|reflexivity]].
  unfold Term.J. cbn. repeat split; [exact E|lia|exact X2|exact X3].
Qed.
End TermQuote.
