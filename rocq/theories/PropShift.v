(** * PropShift: C62, what stands before the cursor does not matter. *)
From Verif Require Export PropAnchor Margin Shift.
Open Scope nat_scope.

(** ** The first line of a document *)
(** the indentation left over from the document before *)
Lemma context_eaten {A} (m : M A) e s : context m (set_eaten e s) = (fst (context m s), set_eaten e (snd (context m s))).
Proof.
  unfold context. change (set_eaten (p_pos (set_eaten e s)) (set_eaten e s)) with (set_eaten (p_pos s) s).
  destruct (m (set_eaten (p_pos s) s)) as [r t]. reflexivity.
Qed.
Lemma doc_eaten n e s : context (unwrap_or tt bound) s = (ROk tt, s) -> doc n (set_eaten e s) = doc n s.
Proof. intros E. unfold doc, bind at 1 9. rewrite context_eaten, E. cbn [fst snd]. reflexivity. Qed.
Lemma sym_miss c s x r : in_doc s -> AT s -> rem s = x :: r -> x <> c -> sym c s = (RErr Mismatch, s).
Proof.
  intros I A E N. rewrite sym_exec by exact I. rewrite E. destruct (N.eqb_spec x c); [contradiction|]. rewrite A. now rewrite set_pos_id.
Qed.
Definition breaks (c : N) : Prop := c = 10%N \/ c = 13%N.
Lemma bound_break s c r : in_doc s -> rem s = c :: r -> breaks c -> bound s = (ROk tt, s).
Proof.
  intros I E B. unfold bound, bind. unfold sym_set. rewrite (take_exec _ _ _ I). cbv zeta. rewrite E.
  assert (T : take_loop (is_in (lit ":{}[] ," ++ [10; 13]%N)) One 0 (c :: r) = 1) by (destruct B as [-> | ->]; reflexivity).
  rewrite T. cbn [Nat.eqb take_min]. unfold back. cbn [set_pos p_pos]. rewrite (proj2 (Nat.leb_le 1 _)) by lia.
  assert (S : set_pos (p_pos s + 1 - 1) (set_pos (p_pos s + 1) s) = s).
  { replace (p_pos s + 1 - 1) with (p_pos s) by lia. destruct s; reflexivity. }
  change (mkSt _ _ _ _ _ _ _ _ _ _ _) with (set_pos (p_pos s + 1 - 1) (set_pos (p_pos s + 1) s)) || idtac.
  rewrite S. unfold ws. rewrite (take_exec _ _ _ I). rewrite E.
  assert (T' : take_loop is_ws (More 0) 0 (c :: r) = 0) by (destruct B as [-> | ->]; reflexivity). rewrite T'. cbn. rewrite Nat.add_0_r. now rewrite set_pos_id.
Qed.
Lemma gap_break s c r : in_doc s -> rem s = c :: r -> breaks c -> exists t p, gap true s = (ROk t, set_pos p s).
Proof.
  intros I E B. rewrite gap_exec by exact I. rewrite E. unfold gap_f.
  assert (H : gap_head true (c :: r) = 0) by (destruct B as [-> | ->]; reflexivity). rewrite H. cbv zeta. cbn [skipn].
  assert (K : Nat.eqb (nl_len (c :: r)) 0 = false).
  { rewrite nl_len_alt. unfold nl_len'. destruct B as [-> | ->]; destruct (starts_with _ _); try reflexivity; destruct (starts_with _ _); reflexivity. }
  rewrite K. now eexists _, _.
Qed.
Section Line.
Variable s : st.
Hypothesis s_in : in_doc s.
Hypothesis s_at : AT s.
Variables (c : N) (r : bytes).
Hypothesis s_rem : rem s = c :: r.
Hypothesis c_break : breaks c.
Hypothesis s_flush : flush s.
Local Notation s0 := (set_indent [0] s).
Lemma miss x l : x <> 10%N -> x <> 13%N -> sym x (set_indent l s) = (RErr Mismatch, set_indent l s).
Proof. intros H1 H2. apply (sym_miss x (set_indent l s) c r s_in s_at s_rem). intros K. destruct c_break; congruence. Qed.
Lemma miss_s x : x <> 10%N -> x <> 13%N -> sym x s = (RErr Mismatch, s).
Proof. intros H1 H2. apply (sym_miss x s c r s_in s_at s_rem). intros K. destruct c_break; congruence. Qed.
Lemma s_eaten : set_eaten (p_pos s) s = s.
Proof. pose proof s_at as A. unfold AT in A. rewrite <- A. apply set_eaten_id. Qed.
Lemma ind_flush p : ind 0 (set_pos p s) = ind 0 (set_pos p s0).
Proof.
  unfold ind, bind at 1 3, modify. cbn [set_pos set_indent p_indent].
  assert (E : ind_norm 0 (p_indent s) = [0]).
  { pose proof s_flush as F. unfold flush in F. unfold ind_norm. destruct (p_indent s) as [|a q]; [discriminate|]. cbn in *. now subst a. }
  change (ind_norm 0 (p_indent (set_pos p s))) with (ind_norm 0 (p_indent s)). rewrite E. reflexivity.
Qed.
Lemma seq_line n : Loader.seq (S (S n)) 0 false s = Loader.seq (S (S n)) 0 false s0.
Proof.
  cbn [Loader.seq seq_loop].
  destruct (gap_break s c r s_in s_rem c_break) as (t & p & G). destruct (gap_break s0 c r s_in s_rem c_break) as (t0 & p0 & G0).
  assert (EP : p0 = p).
  { rewrite gap_exec in G, G0 by exact s_in. change (rem s0) with (rem s) in G0. destruct (gap_f true (rem s)) as [[tt kk]|]; [|discriminate].
    injection G as _ G. injection G0 as _ G0. cbn in *. congruence. }
  subst p0. unfold bind at 1, forward at 1, modify at 1. rewrite s_eaten.
  symmetry. unfold bind at 1, forward at 1, modify at 1. change (set_eaten (p_pos s0) s0) with (set_indent [0] (set_eaten (p_pos s) s)). rewrite s_eaten. symmetry.
  assert (Q : forall {A} (f : unit -> M A), bind (bind (is_ok (gap true)) (fun g : bool => if g then ind 0 else ret tt)) f s
     = bind (bind (is_ok (gap true)) (fun g : bool => if g then ind 0 else ret tt)) f s0).
  { intros A f. unfold bind. unfold is_ok. rewrite G, G0. now rewrite ind_flush. }
  unfold bind at 1. symmetry. unfold bind at 1. symmetry. rewrite (Q _ (fun _ => sym 45 ;;; bound ;;; ret true)). reflexivity.
Qed.
Lemma scalar_line n : scalar (S (S (S n))) 0 false false s = scalar (S (S (S n))) 0 false false s0.
Proof.
  cbn [scalar]. set (f := bind _ _).
  assert (F : f s = f s0).
  { unfold f, string_literal, string_folded. unfold bind at 1 2. unfold ok at 1. unfold bind at 1. rewrite (miss_s 124%N) by discriminate.
    symmetry. unfold bind at 1 2. unfold ok at 1. unfold bind at 1. rewrite (miss 124%N) by discriminate.
    unfold bind at 1 2. unfold ok at 1. unfold bind at 1. rewrite (miss 62%N) by discriminate.
    symmetry. unfold bind at 1 2. unfold ok at 1. unfold bind at 1. rewrite (miss_s 62%N) by discriminate.
    unfold or_else. now rewrite seq_line. }
  assert (A1 : forall u, unwrap_or [] anchor (set_indent u s) = (ROk [], set_indent u s)).
  { intros u. unfold unwrap_or, anchor, ok, bind.
    rewrite (sym_miss 38%N (set_indent u s) c r s_in s_at s_rem) by (destruct c_break as [-> | ->]; discriminate). reflexivity. }
  assert (T1 : forall u, unwrap_or [] tag (set_indent u s) = (ROk [], set_indent u s)).
  { intros u. unfold unwrap_or, tag, ok, bind.
    rewrite (sym_miss 33%N (set_indent u s) c r s_in s_at s_rem) by (destruct c_break as [-> | ->]; discriminate). reflexivity. }
  assert (X : forall u, scalar_node f (set_indent u s) = (y <- f ;; forward ;;; ret (Node (indicator_of s) [] y)) (set_indent u s)).
  { intros u. assert (W : forward (set_indent u s) = (ROk tt, set_indent u s)).
    { unfold forward, modify. change (set_eaten (p_pos (set_indent u s)) (set_indent u s)) with (set_indent u (set_eaten (p_pos s) s)). now rewrite s_eaten. }
    unfold scalar_node. unfold bind at 1. rewrite A1. cbn [is_nil].
    do 1 (unfold bind at 1; cbn [ret]). unfold bind at 1, ret at 1. unfold bind at 1. rewrite W. unfold bind at 1. rewrite T1. cbn [is_nil].
    unfold bind at 1, ret at 1. unfold bind at 1. rewrite W. unfold bind at 1. rewrite A1. cbn [is_nil]. unfold bind at 1, ret at 1. unfold bind at 1. rewrite W.
    unfold bind at 1, gets at 1. cbn [is_nil]. reflexivity. }
  pose proof (X (p_indent s)) as Y. replace (set_indent (p_indent s) s) with s in Y by (destruct s; reflexivity). rewrite Y, (X [0]).
  unfold bind at 1 3. now rewrite F.
Qed.
End Line.
(** A document whose marker is followed by a line break is read as with a fresh
    indentation table. *)
Lemma doc_line n s c r : in_doc s -> rem s = c :: r -> breaks c -> flush s -> doc (S (S (S n))) s = doc (S (S (S n))) (set_indent [0] s).
Proof.
  intros I E B F.
  assert (C : forall l, context (unwrap_or tt bound) (set_indent l s) = (ROk tt, set_indent l s)).
  { intros l. pose proof (bound_break (set_eaten (p_pos (set_indent l s)) (set_indent l s)) c r I E B) as X.
    unfold context, unwrap_or, ok, bind. rewrite X. now destruct s. }
  pose proof (C (p_indent s)) as C0. replace (set_indent (p_indent s) s) with s in C0 by (destruct s; reflexivity).
  set (n3 := S (S (S n))). unfold doc. unfold bind at 1. rewrite C0. symmetry. unfold bind at 1. rewrite C. symmetry.
  unfold bind at 1, forward at 1, modify at 1. symmetry. unfold bind at 1, forward at 1, modify at 1. symmetry.
  unfold bind at 1, modify at 1. symmetry. unfold bind at 1, modify at 1. symmetry.
  set (s2 := set_anchors _ (set_eaten (p_pos s) s)).
  change (set_anchors _ (set_eaten _ (set_indent [0] s))) with (set_indent [0] s2).
  unfold bind at 1. symmetry. unfold bind at 1. symmetry. unfold n3.
  rewrite (scalar_line s2 I eq_refl c r E B F n). reflexivity.
Qed.

(** ** The documents of a file *)
Section Split.
Variable d : bytes.
Variable cyc : bool.
Variable hk : hasher.
Variable tg : list (str * str).
Variable vs : bool.
Local Notation Any := (fun (_ : N) (_ : yaml) => True).
Local Notation no := (fun _ : str => False).
Definition facts (bt : list anchors_t) (s : st) : Prop :=
  Iv d cyc hk Any bt (Closed no) s /\ flush s /\ p_tag s = tg /\ p_version s = vs.
Definition same_env (s t : st) : Prop := p_tag t = p_tag s /\ p_version t = p_version s.
Ltac env := unfold same_env; cbn; intuition congruence.
Lemma facts_in bt s : facts bt s -> in_doc s.
Proof. intros (I & _). exact (I_in _ _ _ _ _ _ _ I). Qed.
Lemma facts_pos bt s p : facts bt s -> p_eaten s <= p <= List.length d -> facts bt (set_pos p s).
Proof.
  intros ((I1 & I2 & I3 & I4 & I5 & I6 & I7 & I8) & F & T & V) H. split; [|now repeat split].
  repeat split; cbn in *; try tauto; try lia; now apply I5 || apply I8.
Qed.
Lemma facts_gap bt s : facts bt s -> exists t s', unwrap_or 0 (gap true) s = (ROk t, s') /\ facts bt s'.
Proof.
  intros (I & F & T & V). destruct (unwrap_gap_ok d cyc hk Any True no bt s I) as (t & s' & E & I').
  exists t, s'. split; [exact E|]. split; [exact I'|].
  unfold unwrap_or, ok, bind in E. rewrite (gap_exec true s (I_in _ _ _ _ _ _ _ I)) in E.
  destruct (gap_f true (rem s)) as [[a b]|]; injection E as _ <-; now repeat split.
Qed.
Lemma facts_doc n bt s nd t : facts bt s -> doc n s = (ROk nd, t) -> exists tab, facts (bt ++ [tab]) t.
Proof.
  intros (I & F & T & V) E.
  pose proof (doc_ok d cyc hk Any True no (fun _ _ _ => Logic.I) (fun _ _ _ _ => Logic.I) (fun _ _ _ _ _ => Logic.I) (fun _ _ _ => Logic.I) n bt s I) as K. rewrite E in K. cbn in K.
  destruct K as (new & (_ & Ln) & _ & It). destruct new as [|tab [|]]; try discriminate. exists tab. split; [exact It|].
  pose proof (mg_doc n s F) as Ft. rewrite E in Ft. cbn in Ft. split; [exact Ft|].
  assert (X : same_env s t).
  { pose proof (fr_doc same_env ltac:(env) ltac:(env) ltac:(env) ltac:(env) ltac:(env) ltac:(env) ltac:(env) n s) as X. rewrite E in X. exact X. }
  destruct X as [X1 X2]. split; congruence.
Qed.
Lemma docs_split n : forall j v s bt w t, facts bt s -> docs_loop j n v s = (ROk w, t) ->
  exists r, w = v ++ r /\ forall i, i < List.length r -> exists bt1 s1 j1,
    facts bt1 s1 /\ List.length bt1 = List.length bt + i /\ starts_with (lit "---") (rem s1) = true /\ j1 < j
    /\ bind (doc n) (fun nd => docs_loop j1 n ((v ++ firstn i r) ++ [nd])) (set_pos (p_pos s1 + 3) s1) = (ROk w, t).
Proof.
  induction j as [|j IH]; intros v s bt w t Fs E; [discriminate|]. cbn [docs_loop] in E.
  destruct (facts_gap bt s Fs) as (g & s1 & G & F1). unfold bind at 1 in E. rewrite G in E.
  unfold bind at 1 in E. rewrite (food_exec s1 (facts_in _ _ F1)) in E. destruct (rem s1) as [|c0 r0] eqn:Er.
  - injection E as <- <-. exists []. rewrite app_nil_r. split; [reflexivity|]. cbn. intros i Hi. lia.
  - unfold bind at 1 in E. unfold is_err, is_ok in E. unfold bind at 1 in E.
    rewrite (sym_seq_exec _ _ (facts_in _ _ F1)) in E. rewrite Er in E. destruct (starts_with (lit "---") (c0 :: r0)) eqn:SW; cbn [negb ret] in E.
    2:{ unfold err in E. destruct (indicated_msg _ _) in E; discriminate. }
    assert (B : p_pos s1 + 3 <= List.length d).
    { pose proof SW as SW'. rewrite <- Er in SW'. apply starts_with_app in SW'. destruct SW' as (q & SW'). apply (f_equal (@List.length N)) in SW'. unfold rem in SW'. rewrite skipn_length, app_length in SW'.
      destruct F1 as ((X & _) & _). rewrite X in SW'. cbn in SW'. lia. }
    change (List.length (lit "---")) with 3 in E.
    pose proof (facts_pos _ _ (p_pos s1 + 3) F1 ltac:(destruct F1 as ((_ & X & _) & _); lia)) as F2. pose proof E as E0.
    unfold bind at 1 in E. destruct (doc n (set_pos (p_pos s1 + 3) s1)) as [[nd|e| |] s2] eqn:D; try discriminate.
    destruct (facts_doc _ _ _ _ _ F2 D) as (tab & F3).
    destruct (IH _ _ _ _ _ F3 E) as (r & -> & H). exists (nd :: r). rewrite <- app_assoc. split; [reflexivity|].
    intros [|i] Hi.
    + exists bt, s1, j. split; [exact F1|]. split; [lia|]. split; [rewrite Er; exact SW || exact SW|]. split; [lia|].
      cbn [firstn]. rewrite app_nil_r. rewrite <- app_assoc in E0. exact E0.
    + destruct (H i ltac:(cbn in Hi; lia)) as (bt1 & s3 & j1 & A1 & A2 & A3 & A4 & A5). exists bt1, s3, j1.
      split; [exact A1|]. split; [rewrite A2, app_length; cbn; lia|]. split; [exact A3|]. split; [lia|].
      cbn [firstn]. replace (v ++ nd :: firstn i r) with ((v ++ [nd]) ++ firstn i r) by (now rewrite <- app_assoc).
      etransitivity; [exact A5|now rewrite <- app_assoc].
Qed.
End Split.

(** ** C62: documents stand alone *)
Lemma directives_skip n hk cyc d : hd_error d <> Some 37%N -> directives (S n) (new_st hk cyc d) = (ROk tt, new_st hk cyc d).
Proof.
  intros H. cbn [directives]. unfold context, directive. unfold bind at 1.
  set (s := set_eaten _ (new_st hk cyc d)). assert (I : in_doc s) by (unfold in_doc, s; cbn; lia).
  rewrite (sym_exec _ _ I). change (rem s) with d. destruct d as [|x r]; [reflexivity|].
  destruct (N.eqb_spec x 37); [subst x; now cbn in H|reflexivity].
Qed.
Theorem C62_documents_stand_alone : forall hk cyc d v t,
  hd_error d <> Some 37%N -> load (new_st hk cyc d) = (ROk v, t) ->
  forall i, 0 < i < List.length v ->
  exists k, starts_with (lit "---") (skipn k d) = true
    /\ forall c r, skipn (k + 3) d = c :: r -> c = 10%N \/ c = 13%N ->
       exists w t', load (new_st hk cyc (skipn k d)) = (ROk w, t')
         /\ skipn i v = List.map (move (N.of_nat k)) w
         /\ skipn i (l_anchors t) = List.map (move_table (N.of_nat k)) (l_anchors t').
Proof.
  intros hk cyc d v t H0 E i Hi. unfold load, parse_fuel in E.
  change (fuel_doc (new_st hk cyc d)) with (20 * (List.length d + 2)) in E.
  remember (20 * (List.length d + 2)) as n eqn:En. assert (exists m, n = S (S (S m))) as (m & Em) by (exists (n - 3); lia).
  unfold bind at 1 in E. rewrite Em in E at 1. rewrite (directives_skip _ hk cyc d H0) in E.
  assert (F0 : facts d cyc hk init_tags false [] (new_st hk cyc d)).
  { split; [apply new_ok; intros q []|]. now repeat split. }
  destruct (facts_gap d cyc hk _ _ _ _ F0) as (g & s1 & G & F1). unfold bind at 1 in E. rewrite G in E.
  set (m0 := unwrap_or tt (sym_seq (lit "---"))) in E.
  assert (exists s2, m0 s1 = (ROk tt, s2) /\ facts d cyc hk init_tags false [] s2) as (s2 & M0 & F2).
  { unfold m0, unwrap_or, ok, bind. rewrite (sym_seq_exec _ _ (facts_in _ _ _ _ _ _ _ F1)). destruct (starts_with _ (rem s1)) eqn:SW.
    - eexists. split; [reflexivity|]. apply facts_pos; [exact F1|]. apply starts_with_app in SW. destruct SW as (q & SW).
      apply (f_equal (@List.length N)) in SW. unfold rem in SW. rewrite skipn_length, app_length in SW.
      destruct F1 as ((X & X2 & _) & _). rewrite X in SW. cbn in *. lia.
    - eexists. split; [reflexivity|]. apply facts_pos; [exact F1|]. destruct F1 as ((X & X2 & X3 & _) & _). lia. }
  unfold bind at 1 in E. rewrite M0 in E. unfold bind at 1 in E. destruct (doc n s2) as [[nd|e| |] s3] eqn:D; try discriminate.
  destruct (facts_doc d cyc hk _ _ _ _ _ _ _ F2 D) as (tab & F3).
  destruct (docs_split d cyc hk _ _ n _ _ _ _ _ _ F3 E) as (r & Ev & H).
  assert (Li : i - 1 < List.length r) by (rewrite Ev, app_length in Hi; cbn in Hi; lia).
  destruct (H (i - 1) Li) as (bt1 & s4 & j1 & F4 & Lb & SW & Hj & Q). clear H.
  destruct F4 as ((I1 & I2 & I3 & I4 & (I5 & _) & I6 & I7 & I8 & I9) & Fl & Tg & Vs).
  set (k := p_pos s4) in *. exists k.
  assert (Rk : rem s4 = skipn k d) by (unfold rem; now rewrite I1).
  rewrite Rk in SW. split; [exact SW|]. intros c rr Ec Bc.
  apply starts_with_app in SW. destruct SW as (q & SW).
  assert (Lk : k + 3 <= List.length d).
  { apply (f_equal (@List.length N)) in SW. rewrite skipn_length, app_length in SW. cbn in *. lia. }
  (* the run on the whole document, from a clean state *)
  set (L0 := set_pos (k + 3) s4) in *.
  assert (IL : in_doc L0) by (unfold in_doc, L0; cbn; rewrite I1; lia).
  assert (RL : rem L0 = c :: rr) by (unfold rem, L0; cbn; now rewrite I1).
  assert (DL : doc n L0 = doc n (set_eaten k (set_indent [0] L0))).
  { rewrite doc_eaten.
    - rewrite Em. now apply (doc_line m L0 c rr).
    - pose proof (bound_break (set_eaten (p_pos (set_indent [0] L0)) (set_indent [0] L0)) c rr IL RL Bc) as X.
      unfold context, unwrap_or, ok, bind. rewrite X. now destruct s4. }
  set (LL := set_eaten k (set_indent [0] L0)) in *.
  assert (Q' : bind (doc n) (fun nd0 => docs_loop j1 n (([nd] ++ firstn (i - 1) r) ++ [nd0])) LL = (ROk v, t)).
  { unfold bind in Q |- *. now rewrite DL in Q. }
  (* the run on the rest *)
  set (rs := skipn k d) in *.
  set (RS := set_pos 3 (new_st hk cyc rs)).
  assert (Hn : parse_fuel n (new_st hk cyc rs) = load (new_st hk cyc rs)).
  { apply C49_enough. unfold rs. rewrite skipn_length. lia. }
  assert (P : parse_fuel n (new_st hk cyc rs) = bind (doc n) (fun nd => docs_loop n n [nd]) RS).
  { unfold parse_fuel. unfold bind at 1. rewrite Em at 1. rewrite directives_skip by (rewrite SW; discriminate).
    unfold bind at 1. unfold unwrap_or at 1, ok at 1. unfold bind at 1. rewrite gap_exec by (unfold in_doc; cbn; lia).
    assert (SR : rem (new_st hk cyc rs) = 45%N :: 45%N :: 45%N :: q) by exact SW. rewrite SR.
    unfold gap_f. change (gap_head true (45%N :: 45%N :: 45%N :: q)) with 0. cbv zeta. cbn [skipn].
    change (nl_len (45%N :: 45%N :: 45%N :: q)) with 0. cbn [Nat.eqb].
    cbv beta iota. unfold ret at 1. rewrite Nat.add_0_r. change (set_pos (p_pos (new_st hk cyc rs)) (new_st hk cyc rs)) with (new_st hk cyc rs).
    set (X := fun _ : unit => bind (doc n) _). unfold bind at 1, unwrap_or, ok, bind at 1. rewrite sym_seq_exec by (unfold in_doc; cbn; lia).
    rewrite SR. reflexivity. }
  (* side by side *)
  assert (Z : (0 + N.of_nat k = 0 + N.of_nat k)%N) by reflexivity.
  assert (RR0 : R d k 0 0 (N.of_nat k) bt1 LL RS).
  { exists [0]. split; [|split].
    - unfold over, RS, LL, L0. unfold set_eaten, set_indent, set_pos. cbn [p_doc p_indent p_consumed p_version p_tag p_pos p_eaten l_cyclic l_anchors l_doc_ind p_hash new_st].
      rewrite I1, I5, I6, I7, I8, I9, Tg, Vs, app_nil_r, Nat.add_0_r. f_equal; lia.
    - split; [discriminate|]. split; [discriminate|]. reflexivity.
    - unfold fits, rest, RS. cbn. fold rs. rewrite SW. cbn. repeat split; lia. }
  pose proof (sh_bind False d k 0%N 0%N (N.of_nat k) bt1 (move (N.of_nat k)) (fun w => ([nd] ++ firstn (i - 1) r) ++ List.map (move (N.of_nat k)) w)
    (doc n) (doc n) (fun nd0 => docs_loop j1 n (([nd] ++ firstn (i - 1) r) ++ [nd0])) (fun nd0 => docs_loop j1 n [nd0]) (sh_doc False d k ltac:(lia) 0%N 0%N (N.of_nat k) Z bt1 (or_introl (conj eq_refl eq_refl)) n)
    (fun a => sh_docs False d k ltac:(lia) 0%N 0%N (N.of_nat k) Z bt1 (or_introl (conj eq_refl eq_refl)) n j1 [a] [move (N.of_nat k) a] eq_refl ([nd] ++ firstn (i - 1) r)) LL RS RR0) as S.
  rewrite Q' in S. unfold RR in S. cbn [fst snd] in S.
  destruct (bind (doc n) (fun nd => docs_loop j1 n [nd]) RS) as [rw tw] eqn:ER. cbn [fst snd] in S.
  destruct rw as [w|e| |]; [|destruct S as ((e0 & S & _) & _); discriminate|destruct S as [S|[]]; discriminate|discriminate].
  destruct S as (S1 & l & S2 & _). exists w, tw. split; [|split].
  - rewrite <- Hn, P.
    assert (LE : lem (bind (doc n) (fun nd => docs_loop j1 n [nd])) (bind (doc n) (fun nd => docs_loop n n [nd]))).
    { apply lem_bind; [apply lem_refl|]. intros a. apply docs_le; lia. }
    destruct (LE RS) as [X|X]; [rewrite ER in X; discriminate|]. now rewrite <- X.
  - assert (S1' : v = ([nd] ++ firstn (i - 1) r) ++ List.map (move (N.of_nat k)) w) by congruence. rewrite S1', skipn_app. replace (List.length ([nd] ++ firstn (i - 1) r)) with i.
    + rewrite Nat.sub_diag. rewrite skipn_all2; [reflexivity|]. rewrite app_length, firstn_length. cbn. lia.
    + rewrite app_length, firstn_length. cbn. lia.
  - rewrite S2. cbn [over l_anchors]. rewrite skipn_app. cbn in Lb. rewrite skipn_all2 by lia. replace (i - List.length bt1) with 0 by lia. reflexivity.
Qed.
Corollary C62_parse_bytes : forall hk d v, hd_error d <> Some 37%N -> parse_bytes hk d = ROk v ->
  forall i, 0 < i < List.length v ->
  exists k, starts_with (lit "---") (skipn k d) = true
    /\ forall c r, skipn (k + 3) d = c :: r -> c = 10%N \/ c = 13%N ->
       exists w, parse_bytes hk (skipn k d) = ROk w /\ skipn i v = List.map (move (N.of_nat k)) w.
Proof.
  intros hk d v H E i Hi. unfold parse_bytes in *. destruct (load (new_st hk false d)) as [r t] eqn:El. cbn in E. subst r.
  destruct (C62_documents_stand_alone hk false d v t H El i Hi) as (k & A & B). exists k. split; [exact A|].
  intros c r Ec Bc. destruct (B c r Ec Bc) as (w & t' & E1 & E2 & _). exists w. rewrite E1. now split.
Qed.

(** ** C62: going on with the rest of the document *)
(** The same place: the same position reported, the same rest, the same tag
    handles and the same anchors. *)
Definition same_place (t t2 : st) : Prop :=
  indicator_of t = indicator_of t2 /\ rem t = rem t2 /\ p_tag t = p_tag t2 /\ l_anchors t = l_anchors t2.
(** The same answer, unless the second run cannot report its error. *)
Definition same_answer {A} (m : M A) (s s2 : st) : Prop :=
  match m s2 with
  | (ROk v, t2) => exists t, m s = (ROk v, t) /\ same_place t t2
  | (RErr Mismatch, t2) => exists t, m s = (RErr Mismatch, t) /\ same_place t t2
  | (RErr (Terminate nm _), t2) => exists msg t, m s = (RErr (Terminate nm msg), t) /\ same_place t t2
  | (RPanic, _) => True
  | (RDiv, _) => fst (m s) = RDiv
  end.
Lemma move0_yaml : forall y, move_yaml 0 y = y.
Proof.
  induction y as [| b0 | s | s | s | l IH | m IH | al] using yaml_ind2; try reflexivity.
  - rewrite move_seq. f_equal. induction IH as [|[p t z] r Hz Hr IH]; [reflexivity|]. cbn [List.map]. rewrite IH. f_equal.
    unfold move. cbn [n_yaml] in Hz. now rewrite Hz, N.add_0_r.
  - rewrite move_map. f_equal.
    induction IH as [|[[p t z] [p' t' z']] r [Hz Hz'] Hr IH]; [reflexivity|]. cbn [List.map]. rewrite IH. f_equal.
    unfold move_pair, move. cbn [n_yaml fst snd] in *. now rewrite Hz, Hz', !N.add_0_r.
Qed.
Lemma move0 n : move 0 n = n.
Proof. destruct n as [p t y]. cbn [move]. now rewrite move0_yaml, N.add_0_r. Qed.
Lemma move0_table m : move_table 0 m = m.
Proof. unfold move_table. rewrite <- (map_id m) at 2. apply map_ext. intros [a n]. cbn. now rewrite move0. Qed.
Lemma move0_tables l : List.map (move_table 0) l = l.
Proof. rewrite <- (map_id l) at 2. apply map_ext. apply move0_table. Qed.
(** [consume], and then the rest as the document *)
Definition resume (s : st) : st := attach_doc (rem s) (snd (consume s)).
Section Resume.
Variable s : st.
Hypothesis s_in : in_doc s.
Hypothesis s_indent : p_indent s <> [].
Local Notation d := (p_doc s).
Local Notation k := (p_pos s).
Local Notation b := (p_consumed s).
Local Notation c := (p_consumed s + N.of_nat (p_pos s))%N.
Local Notation shr U m := (sh True d k b c 0 [] U m m).
Lemma resume_R : R d k b c 0 [] (snd (forward s)) (resume s).
Proof.
  exists (p_indent s). split; [|split].
  - unfold over, resume, attach_doc, consume. cbn. rewrite move0_tables. reflexivity.
  - split; [exact s_indent|]. split; [exact s_indent|reflexivity].
  - unfold fits, rest, resume, attach_doc, consume. cbn. repeat split; lia.
Qed.
Lemma answer {A} (U : A -> A) (m : M A) : (forall v, U v = v) -> shr U m -> same_answer m (snd (forward s)) (resume s).
Proof.
  intros HU H. specialize (H _ _ resume_R). unfold same_answer, RR in *. destruct (m (resume s)) as [r t2]. cbn [fst snd] in H.
  assert (P : forall t, R d k b c 0 [] t t2 -> same_place t t2).
  { intros t Rt. destruct (R_in d k s_in b c 0 ltac:(lia) [] _ _ Rt) as (_ & _ & Re). destruct Rt as (l & -> & _ & _ & Co & _). split; [|split; [exact Re|split; [reflexivity|]]].
    - unfold indicator_of. cbn. rewrite Co. lia.
    - cbn. apply move0_tables. }
  destruct (m (snd (forward s))) as [r1 t1]. cbn [fst snd] in H. destruct r as [v|[|nm msg]| |].
  - destruct H as (-> & Rt). exists t1. rewrite HU. split; [reflexivity|now apply P].
  - destruct H as ((e & -> & Al) & Rt). destruct e; [|contradiction]. exists t1. split; [reflexivity|now apply P].
  - destruct H as ((e & -> & Al) & Rt). destruct e as [|nm' msg']; [contradiction|]. cbn in Al. subst nm'. exists msg', t1. split; [reflexivity|now apply P].
  - exact Logic.I.
  - exact H.
Qed.
Lemma cx0 : (b + N.of_nat k = c + 0)%N. Proof. now rewrite N.add_0_r. Qed.
Local Notation arg l := (l True d k s_in b c 0%N cx0 [] (or_intror (conj Logic.I eq_refl))).
Lemma sh_id {A} U (m : M A) : (forall v, U v = v) -> shr U m -> shr (fun v => v) m.
Proof.
  intros HU H a a' Ra. specialize (H a a' Ra). unfold RR in *. destruct (m a') as [r t']. cbn [fst snd] in *. destruct r; try exact H. now rewrite HU in H.
Qed.
Lemma ups0 l : List.map (move 0) l = l.
Proof. rewrite <- (map_id l) at 2. apply map_ext. apply move0. Qed.
Lemma sh_parse n : shr (List.map (move 0)) (parse_fuel n).
Proof.
  unfold parse_fuel. apply si_bind; [apply (arg si_directives)|intros ?].
  apply si_bind; [apply si_unwrap, (arg si_gap)|intros ?]. apply si_bind; [apply si_unwrap, (arg si_sym_seq)|intros ?].
  eapply sh_bind; [apply (arg sh_doc)|]. intros nd. apply ((arg sh_docs) n n [nd] [move 0 nd] eq_refl []).
Qed.
Lemma sh_void {A} U (m : M A) : shr U m -> shr (fun v => v) (void m).
Proof. intros H. unfold void. eapply sh_bind; [exact H|]. intros a. apply si_ret. Qed.
(** a string in quotes is called with something to write a quote inside *)
Fixpoint sound_call (cl : call) : Prop :=
  match cl with
  | CStringQuoted _ ig => ig <> []
  | CContext c' | CCount c' => sound_call c'
  | _ => True
  end.
Lemma sh_call : forall cl, sound_call cl -> shr (fun v => v) (run_call cl).
Proof.
  pose proof (arg all_sh_all) as AL.
  assert (SI := s_in). assert (CX := cx0). assert (ST : (c = 0%N /\ b = 0%N) \/ (True /\ 0%N = 0%N)) by (now right).
  induction cl; intros HS; cbn [run_call sound_call] in *;
    lazymatch goal with |- shr _ (void _) => eapply sh_void | _ => idtac end;
    first [ now apply si_forward | now apply si_backward | now apply si_food | now apply si_text | now apply si_take | now apply si_sym
          | now apply si_sym_set | now apply si_sym_seq | now apply si_ind | now apply si_ind_define | now apply si_bound | now apply si_complex
          | now apply si_int | now apply si_float | now apply si_sci | now apply si_quoted | now apply si_plain | now apply si_literal
          | now apply si_folded | now apply si_chomp | now apply si_wrapped | now apply si_identifier | now apply si_tag | now apply si_anchor
          | now apply si_anchor_use | now apply si_nl | now apply si_gap | now apply si_comment | now apply si_directive | now apply si_doc_end
          | (unfold ws; now apply si_take) | (unfold inv; now apply si_take)
          | apply sh_context; now apply IHcl | (eapply si_count; [exact SI|exact CX|..]; try exact ST; now apply IHcl)
          | apply sh_parse | now apply sh_doc | apply (AL n) ].
Qed.
End Resume.
(** Consuming what was read and attaching the rest is going on at the same place:
    the same position is reported and the same bytes are left; and every call
    answers as before. *)
Theorem C62_resume : forall s, p_pos s <= List.length (p_doc s) -> p_indent s <> [] ->
  let s1 := snd (forward s) in
  let s2 := resume s in
  same_place s s2 /\ fst (food s2) = fst (food s) /\ fst (food_str s2) = fst (food_str s) /\ fst (text s2) = ROk []
  /\ (forall cl, sound_call cl -> same_answer (run_call cl) s1 s2).
Proof.
  intros s H I s1 s2. repeat split.
  - unfold s2, resume, attach_doc, consume, indicator_of. cbn. lia.
  - unfold s2, resume, attach_doc. unfold food. cbn. rewrite (proj2 (Nat.leb_le _ _) H). reflexivity.
  - unfold s2, resume, attach_doc. unfold food_str. cbn. rewrite (proj2 (Nat.leb_le _ _) H). reflexivity.
  - intros cl Hc. now apply (answer s H I (fun v => v)), sh_call.
Qed.
(** and with what it returns *)
Theorem C62_resume_values : forall s, p_pos s <= List.length (p_doc s) -> p_indent s <> [] ->
  let s1 := snd (forward s) in
  let s2 := resume s in
  (forall n level map flow, same_answer (scalar n level map flow) s1 s2)
  /\ (forall n level flow, same_answer (scalar_flow n level flow) s1 s2)
  /\ (forall n level flow, same_answer (scalar_term n level flow) s1 s2)
  /\ (forall n level, same_answer (seq_flow n level) s1 s2)
  /\ (forall n level, same_answer (map_flow n level) s1 s2)
  /\ (forall n level map, same_answer (Loader.seq n level map) s1 s2)
  /\ (forall n level map flow, same_answer (map_ n level map flow) s1 s2)
  /\ (forall n, same_answer (doc n) s1 s2)
  /\ (forall n, same_answer (parse_fuel n) s1 s2)
  /\ same_answer int s1 s2 /\ same_answer float s1 s2 /\ same_answer sci_float s1 s2
  /\ (forall q ig, ig <> [] -> same_answer (string_quoted q ig) s1 s2)
  /\ (forall level inner, same_answer (string_plain level inner) s1 s2)
  /\ (forall level, same_answer (string_literal level) s1 s2)
  /\ (forall level, same_answer (string_folded level) s1 s2)
  /\ same_answer tag s1 s2 /\ same_answer anchor s1 s2 /\ same_answer anchor_use s1 s2
  /\ (forall cmt, same_answer (gap cmt) s1 s2) /\ same_answer doc_end s1 s2.
Proof.
  intros s H I s1 s2. pose proof (cx0 s) as CX.
  assert (ST : ((p_consumed s + N.of_nat (p_pos s))%N = 0%N /\ p_consumed s = 0%N) \/ (True /\ 0%N = 0%N)) by (now right).
  pose proof (all_sh_all True (p_doc s) (p_pos s) H _ _ 0 CX [] ST) as AL.
  repeat match goal with |- _ /\ _ => split end; intros.
  all: first [ apply (answer s H I (move 0) _ move0) | apply (answer s H I (move_yaml 0) _ move0_yaml)
             | apply (answer s H I (List.map (move 0)) _ ups0) | apply (answer s H I (fun v => v) _ (fun v => eq_refl)) ].
  all: first [ now apply si_int | now apply si_float | now apply si_sci | now apply si_quoted | now apply si_plain | now apply si_literal
          | now apply si_folded | now apply si_tag | now apply si_anchor
          | now apply si_anchor_use | now apply si_gap | now apply si_doc_end | now apply sh_parse | now apply sh_doc | apply (AL n) ].
Qed.
(** ** C62: starting in the middle *)
(** what one answer is when all positions are moved by [x] *)
Definition moved {A} (U : A -> A) (x : N) (a a' : res A * st) : Prop :=
  match fst a' with
  | ROk v => fst a = ROk (U v)
  | RErr Mismatch => fst a = RErr Mismatch
  | RErr (Terminate nm _) => exists msg, fst a = RErr (Terminate nm msg)
  | RPanic => fst a = RPanic
  | RDiv => fst a = RDiv
  end
  /\ ((exists v, fst a' = ROk v) \/ (exists e, fst a' = RErr e) ->
      indicator_of (snd a) = (indicator_of (snd a') + x)%N /\ rem (snd a) = rem (snd a')
      /\ l_anchors (snd a) = List.map (move_table x) (l_anchors (snd a')) /\ p_tag (snd a) = p_tag (snd a')).
Section Offset.
Variable hk : hasher.
Variable cyc : bool.
Variable d : bytes.
Variable k : nat.
Hypothesis k_in : k <= List.length d.
Local Notation x := (N.of_nat k).
Local Notation shx U m := (sh False d k 0 0 x [] U m m).
Lemma offset_R : R d k 0 0 x [] (start_at k (new_st hk cyc d)) (new_st hk cyc (skipn k d)).
Proof.
  exists [0]. split; [reflexivity|]. split; [split; [discriminate|]; split; [discriminate|reflexivity]|].
  unfold fits, rest. cbn. repeat split; lia.
Qed.
Lemma offset_moved {A} U (m : M A) : shx U m -> moved U x (m (start_at k (new_st hk cyc d))) (m (new_st hk cyc (skipn k d))).
Proof.
  intros H. specialize (H _ _ offset_R). unfold moved, RR in *.
  destruct (m (start_at k (new_st hk cyc d))) as [r t], (m (new_st hk cyc (skipn k d))) as [r' t']. cbn [fst snd] in *.
  assert (P : R d k 0 0 x [] t t' -> indicator_of t = (indicator_of t' + x)%N /\ rem t = rem t'
      /\ l_anchors t = List.map (move_table x) (l_anchors t') /\ p_tag t = p_tag t').
  { intros Rt. destruct (R_in d k k_in 0 0 x ltac:(reflexivity) [] _ _ Rt) as (_ & _ & Re). destruct Rt as (l & -> & _ & _ & Co & _).
    split; [|split; [exact Re|split; reflexivity]]. unfold indicator_of. cbn. rewrite Co. lia. }
  destruct r' as [v|[|nm msg]| |].
  - destruct H as (-> & Rt). split; [reflexivity|]. intros _. now apply P.
  - destruct H as ((e & -> & Al) & Rt). destruct e; [|contradiction]. split; [reflexivity|]. intros _. now apply P.
  - destruct H as ((e & -> & Al) & Rt). destruct e as [|nm' msg']; [contradiction|]. cbn in Al. subst nm'. split; [now exists msg'|]. intros _. now apply P.
  - destruct H as [->|[]]. split; [reflexivity|]. intros [(? & K)|(? & K)]; discriminate K.
  - subst r. split; [reflexivity|]. intros [(? & K)|(? & K)]; discriminate K.
Qed.
Lemma shx_parse n : shx (List.map (move x)) (parse_fuel n).
Proof.
  assert (Z : (0 + N.of_nat k = 0 + x)%N) by reflexivity.
  assert (ST : (0%N = 0%N /\ 0%N = 0%N) \/ (False /\ x = 0%N)) by (left; now split).
  unfold parse_fuel. apply si_bind; [apply (si_directives False d k k_in 0 0 x Z [] ST)|intros ?].
  apply si_bind; [apply si_unwrap, (si_gap False d k k_in 0 0 x Z [] ST)|intros ?].
  apply si_bind; [apply si_unwrap, (si_sym_seq False d k k_in 0 0 x Z [] ST)|intros ?].
  eapply sh_bind; [apply (sh_doc False d k k_in 0 0 x Z [] ST)|]. intros nd.
  apply (sh_docs False d k k_in 0 0 x Z [] ST n n [nd] [move x nd] eq_refl []).
Qed.
(** Parsing with the starting point set to [k] is parsing the document from byte
    [k] on, with the positions counted from the start of the document; so are
    reading one node and one document. *)
Theorem C62_starting_point :
  moved (List.map (move x)) x (load (start_at k (new_st hk cyc d))) (load (new_st hk cyc (skipn k d)))
  /\ (forall n, moved (move x) x (doc n (start_at k (new_st hk cyc d))) (doc n (new_st hk cyc (skipn k d))))
  /\ (forall n level map flow, moved (move x) x (scalar n level map flow (start_at k (new_st hk cyc d))) (scalar n level map flow (new_st hk cyc (skipn k d)))).
Proof.
  assert (Z : (0 + N.of_nat k = 0 + x)%N) by reflexivity.
  assert (ST : (0%N = 0%N /\ 0%N = 0%N) \/ (False /\ x = 0%N)) by (left; now split).
  split; [|split].
  - rewrite <- (C49_enough hk cyc (skipn k d) (20 * (List.length d + 2))) by (rewrite skipn_length; lia).
    apply (offset_moved _ (parse_fuel (20 * (List.length d + 2)))). apply shx_parse.
  - intros n. apply offset_moved. now apply sh_doc.
  - intros n level map flow. apply offset_moved. now apply (h_scalar _ _ _ _ _ _ _ _ (all_sh_all False d k k_in 0 0 x Z [] ST n)).
Qed.
End Offset.
(** ** Examples *)
Definition C62_three : bytes :=
  lit "a: 1" ++ [10%N] ++ lit "---" ++ [10%N] ++ lit "b: &x [2]" ++ [10%N] ++ lit "---" ++ [10%N] ++ lit "- c" ++ [10%N].
(** three documents; the last two are those of the file from byte 5 on, and so are
    the anchors *)
Example C62_example :
  hd_error C62_three <> Some 37%N
  /\ exists a b c t w t', load (new_st (fun _ => 0%N) true C62_three) = (ROk [a; b; c], t)
     /\ starts_with (lit "---") (skipn 5 C62_three) = true /\ skipn 8 C62_three = 10%N :: skipn 9 C62_three
     /\ load (new_st (fun _ => 0%N) true (skipn 5 C62_three)) = (ROk w, t')
     /\ [b; c] = List.map (move 5) w /\ skipn 1 (l_anchors t) = List.map (move_table 5) (l_anchors t')
     /\ l_anchors t' <> [[]; []] /\ w <> [b; c].
Proof.
  split; [discriminate|]. eexists _, _, _, _, _, _. split; [vm_compute; reflexivity|]. split; [reflexivity|]. split; [reflexivity|].
  split; [vm_compute; reflexivity|]. repeat split; intros K; discriminate K.
Qed.
(** The line break behind the marker is needed: the indentation of the document
    before is still in force on the line of the marker, so that two documents each
    of which is read alone are refused together. *)
Definition C62_first : bytes := lit "a:" ++ [10%N] ++ lit "    b: c" ++ [10%N].
Definition C62_second : bytes := lit "--- - - a" ++ [10%N] ++ lit "  - b" ++ [10%N].
Theorem C62_marker_line_refuted : forall hk,
  (exists v, parse_bytes hk C62_first = ROk v) /\ (exists v, parse_bytes hk C62_second = ROk v)
  /\ exists msg, parse_bytes hk (C62_first ++ C62_second) = RErr (Terminate (lit "document splitter") msg).
Proof. intros hk. split; [eexists; vm_compute; reflexivity|]. split; [eexists; vm_compute; reflexivity|]. eexists; vm_compute; reflexivity. Qed.
(** going on behind [k: ] *)
Example C62_resume_example :
  let s := start_at 3 (new_st (fun _ => 0%N) false (lit "k: [1, 2]" ++ [10%N])) in
  p_pos s <= List.length (p_doc s) /\ p_indent s <> []
  /\ fst (scalar 50 0 false false (resume s)) = ROk (Node 3 [] (YSeq [Node 4 [] (YInt (lit "1")); Node 7 [] (YInt (lit "2"))]))
  /\ p_doc (resume s) = lit "[1, 2]" ++ [10%N].
Proof. cbv zeta. split; [cbn; lia|]. split; [discriminate|]. split; vm_compute; reflexivity. Qed.
(** But an error after the consumed part is not reported: the report looks for the
    position of the whole document in the rest, and panics. *)
Theorem C62_error_after_consume_refuted : forall hk,
  let s := start_at 15 (new_st hk false (lit "abcdefghijklmn &a !t &b x" ++ [10%N])) in
  (exists msg, fst (scalar 50 0 false false (snd (forward s))) = RErr (Terminate (lit "duplicated anchor definition") msg))
  /\ fst (scalar 50 0 false false (resume s)) = RPanic.
Proof. intros hk. cbv zeta. split; [eexists|]; vm_compute; reflexivity. Qed.
(** and once more *)
Example C62_resume_again_example :
  let s := start_at 1 (resume (start_at 3 (new_st (fun _ => 0%N) false (lit "k: [1, 2]" ++ [10%N])))) in
  p_pos s <= List.length (p_doc s) /\ p_indent s <> [] /\ p_consumed s = 3%N
  /\ fst (scalar 50 0 false false (resume s)) = ROk (Node 4 [] (YInt (lit "1"))).
Proof. cbv zeta. split; [cbn; lia|]. split; [discriminate|]. split; [reflexivity|]. vm_compute; reflexivity. Qed.
(** Reading from byte 3 on. *)
Example C62_starting_point_example :
  3 <= List.length (lit "a" ++ [10%N] ++ lit "xb: *c" ++ [10%N])
  /\ fst (load (start_at 3 (new_st (fun _ => 0%N) true (lit "a" ++ [10%N] ++ lit "xb: *c" ++ [10%N]))))
     = ROk [Node 3 [] (YMap [(Node 3 [] (YStr (lit "b")), Node 6 [] (YAlias (lit "c")))])].
Proof. split; [cbn; lia|vm_compute; reflexivity]. Qed.
