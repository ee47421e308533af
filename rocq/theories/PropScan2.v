(** * PropScan2: line breaks, blanks and comments (C04), names (C17), failed
    matches (C03). *)
From Verif Require Export PropScan.
Open Scope nat_scope.

(** ** C04 *)
(** A line break and what follows it: CR LF and LF CR count as one. *)
Inductive line_break : bytes -> bytes -> Prop :=
| BrCRLF r : line_break [13; 10]%N r
| BrLFCR r : line_break [10; 13]%N r
| BrLF r : (forall t, r <> 13%N :: t) -> line_break [10]%N r
| BrCR r : (forall t, r <> 10%N :: t) -> line_break [13]%N r.

(** A blank that is not a line break. *)
Definition blank (c : N) : Prop := c = 32%N \/ c = 9%N \/ c = 12%N.

(** A comment: blanks, #, the rest of the line. *)
Definition comment_text (t : bytes) : Prop :=
  exists w c, t = w ++ 35%N :: c /\ Forall blank w /\ ~ In 10%N c /\ ~ In 13%N c.

(** What may stand before a line break: with comments allowed, nothing or a
    comment; otherwise nothing on the first line, blanks on the next ones. *)
Definition filler (first cmt : bool) (t : bytes) : Prop :=
  if cmt then t = [] \/ comment_text t
  else if first then t = [] else Forall blank t.

(** [n] further lines, as many as there are. *)
Inductive more_lines (cmt : bool) : nat -> bytes -> bytes -> Prop :=
| MoreNone r :
    (forall t b r', filler false cmt t -> r = t ++ b ++ r' -> ~ line_break b r') ->
    more_lines cmt 0 [] r
| MoreLine n t b u r :
    filler false cmt t -> line_break b (u ++ r) -> more_lines cmt n u r ->
    more_lines cmt (S n) (t ++ b ++ u) r.

Lemma is_ws_blank c : is_ws c = true <-> blank c.
Proof.
  unfold is_ws, is_ascii_ws, blank.
  rewrite !andb_true_iff, !orb_true_iff, !negb_true_iff, !N.eqb_eq, !N.eqb_neq.
  intuition (subst; try lia; auto).
Qed.

Lemma nl_len_break l : nl_len l <> 0 ->
  line_break (firstn (nl_len l) l) (skipn (nl_len l) l).
Proof.
  rewrite nl_len_alt. unfold nl_len'.
  destruct (starts_with [13; 10]%N l) eqn:E1.
  { intros _. apply starts_with_app in E1 as [r ->]. constructor. }
  destruct (starts_with [10; 13]%N l) eqn:E2.
  { intros _. apply starts_with_app in E2 as [r ->]. constructor. }
  destruct l as [|x l]; [congruence|].
  destruct (N.eqb_spec x 10) as [->|H1]; cbn [orb].
  { intros _. cbn [firstn skipn]. constructor. intros t ->.
    assert (K : starts_with [10; 13]%N (10 :: 13 :: t)%N = true) by reflexivity. congruence. }
  destruct (N.eqb_spec x 13) as [->|H2]; [|congruence].
  intros _. cbn [firstn skipn]. constructor. intros t ->.
  assert (K : starts_with [13; 10]%N (13 :: 10 :: t)%N = true) by reflexivity. congruence.
Qed.
Lemma break_nl_len b r : line_break b r -> nl_len (b ++ r) = List.length b.
Proof.
  rewrite nl_len_alt. intros H; inversion H as [| |? Hr|? Hr]; subst; unfold nl_len'; try reflexivity.
  - destruct r as [|y r]; [reflexivity|]. cbn [app starts_with].
    rewrite (proj2 (N.eqb_neq 13 y)) by (intros <-; eapply Hr; reflexivity). reflexivity.
  - destruct r as [|y r]; [reflexivity|]. cbn [app starts_with].
    rewrite (proj2 (N.eqb_neq 10 y)) by (intros <-; eapply Hr; reflexivity). reflexivity.
Qed.
Lemma break_nonempty b r : line_break b r -> b <> [].
Proof. intros H; inversion H; discriminate. Qed.
Lemma break_head b r : line_break b r -> exists c t, b = c :: t /\ (c = 10%N \/ c = 13%N).
Proof. intros H; inversion H; subst; eauto. Qed.
Lemma break_len b r : line_break b r -> List.length b <> 0.
Proof. intros H; inversion H; simpl; lia. Qed.

Lemma firstn_span_forall (f : N -> bool) l : Forall (fun c => f c = true) (firstn (span f l) l).
Proof. apply Forall_forall. pose proof (span_forall f l) as F. now rewrite forallb_forall in F. Qed.

Lemma comment_len_spec l : comment_len l <> 0 -> comment_text (firstn (comment_len l) l).
Proof.
  unfold comment_len. destruct (skipn (ws_len l) l) as [|x r] eqn:E; [congruence|].
  destruct (N.eqb_spec x 35) as [->|]; [|congruence]. intros _.
  exists (firstn (ws_len l) l), (firstn (span not_nl r) r).
  split; [|split; [|split]].
  - rewrite <- Nat.add_assoc, firstn_add, E. reflexivity.
  - eapply Forall_impl; [|apply firstn_span_forall]. intros c. apply is_ws_blank.
  - intros K. pose proof (firstn_span_forall not_nl r) as F. rewrite Forall_forall in F.
    apply F in K. unfold not_nl in K. apply not_in_spec in K. apply K. now left.
  - intros K. pose proof (firstn_span_forall not_nl r) as F. rewrite Forall_forall in F.
    apply F in K. unfold not_nl in K. apply not_in_spec in K. apply K. right. now left.
Qed.

Lemma ws_len_app w r : Forall blank w -> (match r with [] => True | x :: _ => ~ blank x end) ->
  ws_len (w ++ r) = List.length w.
Proof.
  intros Hw Hr. unfold ws_len. apply span_app.
  - apply forallb_forall. intros c Hc. rewrite Forall_forall in Hw. now apply is_ws_blank, Hw.
  - destruct r as [|x r]; [exact I|]. destruct (is_ws x) eqn:E; [|reflexivity].
    apply is_ws_blank in E. contradiction.
Qed.

Lemma not_nl_true c : c <> 10%N -> c <> 13%N -> not_nl c = true.
Proof. intros H1 H2. apply not_in_spec. intros [K|[K|[]]]; congruence. Qed.

Lemma comment_len_app t b r : comment_text t -> line_break b r -> comment_len (t ++ b ++ r) = List.length t.
Proof.
  intros (w & c & -> & Hw & Hc1 & Hc2) Hb. unfold comment_len.
  rewrite <- app_assoc. cbn [app].
  rewrite (ws_len_app w) by (auto; unfold blank; intuition discriminate).
  rewrite skipn_app, skipn_all, Nat.sub_diag. cbn [skipn app].
  rewrite (proj2 (N.eqb_eq 35 35) eq_refl).
  destruct (break_head _ _ Hb) as (x & t & -> & Hx).
  rewrite span_app.
  - rewrite app_length. simpl. lia.
  - apply forallb_forall. intros y Hy. apply not_nl_true; intros ->; contradiction.
  - cbn [app]. unfold not_nl. destruct (not_in [10; 13]%N x) eqn:E; [|reflexivity].
    apply not_in_spec in E. exfalso. apply E. destruct Hx as [->| ->]; simpl; auto.
Qed.
Lemma comment_len_break b r : line_break b r -> comment_len (b ++ r) = 0.
Proof.
  intros Hb. destruct (break_head _ _ Hb) as (x & t & -> & Hx). unfold comment_len. cbn [app].
  assert (W : ws_len (x :: t ++ r) = 0) by (destruct Hx as [->| ->]; reflexivity).
  rewrite W. cbn [skipn]. now destruct Hx as [->| ->].
Qed.

Lemma line_skip_filler cmt l :
  filler false cmt (firstn (line_skip cmt l) l).
Proof.
  unfold filler, line_skip. destruct cmt.
  - destruct (Nat.eq_dec (comment_len l) 0) as [->|H]; [now left|right]. now apply comment_len_spec.
  - eapply Forall_impl; [|apply firstn_span_forall]. intros c. apply is_ws_blank.
Qed.
Lemma filler_line_skip cmt t b r : filler false cmt t -> line_break b r ->
  line_skip cmt (t ++ b ++ r) = List.length t.
Proof.
  intros Ht Hb. unfold filler, line_skip in *. destruct cmt.
  - destruct Ht as [->|Ht]; [exact (comment_len_break _ _ Hb)|exact (comment_len_app _ _ _ Ht Hb)].
  - apply ws_len_app; [assumption|]. destruct (break_head _ _ Hb) as (x & t' & -> & Hx).
    cbn. unfold blank. intros K. destruct Hx as [->| ->]; destruct K as [K|[K|K]]; discriminate.
Qed.
Lemma filler_gap_head cmt t b r : filler true cmt t -> line_break b r ->
  gap_head cmt (t ++ b ++ r) = List.length t.
Proof.
  intros Ht Hb. unfold filler, gap_head in *. destruct cmt.
  - destruct Ht as [->|Ht]; [exact (comment_len_break _ _ Hb)|exact (comment_len_app _ _ _ Ht Hb)].
  - subst t. reflexivity.
Qed.
Lemma gap_head_filler cmt l : filler true cmt (firstn (gap_head cmt l) l).
Proof.
  unfold filler, gap_head. destruct cmt; [|reflexivity].
  destruct (Nat.eq_dec (comment_len l) 0) as [->|H]; [now left|right]. now apply comment_len_spec.
Qed.

Lemma skipn_exact {A} (t r : list A) : skipn (List.length t) (t ++ r) = r.
Proof. rewrite skipn_app, skipn_all, Nat.sub_diag. reflexivity. Qed.

Lemma gap_lines_more cmt : forall n l, List.length l < n ->
  let r := gap_lines n cmt l in
  more_lines cmt (fst r) (firstn (snd r) l) (skipn (snd r) l).
Proof.
  induction n as [|n IH]; intros l Hn; [lia|]. cbn [gap_lines]. cbv zeta.
  set (k := line_skip cmt l). set (m := nl_len (skipn k l)).
  destruct (Nat.eqb_spec m 0) as [M0|M0].
  - cbn [fst snd firstn skipn]. constructor. intros t b r' Ht El Hb.
    assert (Ek : k = List.length t) by (unfold k; rewrite El; now apply filler_line_skip).
    assert (Em : m = List.length b).
    { unfold m. rewrite Ek, El, skipn_exact. now apply break_nl_len. }
    pose proof (break_len _ _ Hb). lia.
  - assert (Hm : m <= List.length (skipn k l)) by apply nl_len_le.
    assert (Hk : k <= List.length l) by apply line_skip_le.
    rewrite skipn_length in Hm.
    specialize (IH (skipn (k + m) l)). cbv zeta in IH. rewrite skipn_length in IH.
    specialize (IH ltac:(lia)). cbn [fst snd].
    set (q := gap_lines n cmt (skipn (k + m) l)) in *.
    pose proof (nl_len_break _ M0) as HB. fold m in HB.
    rewrite <- !skipn_add.
    replace (firstn (k + m + snd q) l)
      with (firstn k l ++ firstn m (skipn k l) ++ firstn (snd q) (skipn m (skipn k l))).
    2:{ rewrite <- Nat.add_assoc, firstn_add, firstn_add. reflexivity. }
    apply MoreLine.
    + apply line_skip_filler.
    + rewrite firstn_skipn. exact HB.
    + rewrite !skipn_add. rewrite <- skipn_add in IH. rewrite !skipn_add in IH. exact IH.
Qed.

(** ws, nl: exactly the blanks; exactly one line break. *)
Theorem C04_ws_exact : forall s, p_pos s <= List.length (p_doc s) ->
  exists w r, skipn (p_pos s) (p_doc s) = w ++ r /\ Forall blank w
    /\ match r with [] => True | x :: _ => ~ blank x end
    /\ ws (More 0) s = (ROk tt, set_pos (p_pos s + List.length w) s).
Proof.
  intros s H. exists (firstn (ws_len (rem s)) (rem s)), (skipn (ws_len (rem s)) (rem s)).
  split; [symmetry; apply firstn_skipn|]. split; [|split].
  - eapply Forall_impl; [|apply firstn_span_forall]. intros c. apply is_ws_blank.
  - destruct (skipn (ws_len (rem s)) (rem s)) eqn:E; [exact I|].
    apply span_next in E. intros K. apply is_ws_blank in K. congruence.
  - rewrite (ws0_exec s H). rewrite firstn_length_le by apply span_le. reflexivity.
Qed.
Theorem C04_nl_exact : forall s, p_pos s <= List.length (p_doc s) ->
  (exists b r, skipn (p_pos s) (p_doc s) = b ++ r /\ line_break b r
     /\ nl s = (ROk tt, set_pos (p_pos s + List.length b) s))
  \/ ((forall b r, skipn (p_pos s) (p_doc s) = b ++ r -> ~ line_break b r)
      /\ nl s = (RErr Mismatch, s)).
Proof.
  intros s H. rewrite (nl_exec s H). fold (rem s).
  destruct (Nat.eqb_spec (nl_len (rem s)) 0) as [E|E].
  - right. split; [|reflexivity]. intros b r El Hb. rewrite El, (break_nl_len _ _ Hb) in E.
    now apply break_len in Hb.
  - left. exists (firstn (nl_len (rem s)) (rem s)), (skipn (nl_len (rem s)) (rem s)).
    split; [symmetry; apply firstn_skipn|]. split; [now apply nl_len_break|].
    rewrite firstn_length_le by apply nl_len_le. reflexivity.
Qed.

(** gap(c) succeeds exactly when a line break follows (after a comment if
    allowed); it skips that line break and all further lines that hold nothing
    but blanks or comments (see [filler]), returns their number, and stops at
    the beginning of the next line. *)
Theorem C04_gap_exact : forall cmt s, p_pos s <= List.length (p_doc s) ->
  (exists t b u r n, skipn (p_pos s) (p_doc s) = t ++ b ++ u ++ r
     /\ filler true cmt t /\ line_break b (u ++ r) /\ more_lines cmt n u r
     /\ gap cmt s = (ROk (S n), set_pos (p_pos s + List.length (t ++ b ++ u)) s))
  \/ ((forall t b r, filler true cmt t -> skipn (p_pos s) (p_doc s) = t ++ b ++ r -> ~ line_break b r)
      /\ exists s', gap cmt s = (RErr Mismatch, s') /\ s' = set_pos (p_pos s') s).
Proof.
  intros cmt s H. rewrite (gap_exec cmt s H). fold (rem s). unfold gap_f. cbv zeta.
  set (l := rem s). set (k := gap_head cmt l). set (m := nl_len (skipn k l)).
  assert (Hk : k <= List.length l) by apply gap_head_le.
  destruct (Nat.eqb_spec m 0) as [M0|M0].
  - right. split.
    + intros t b r Ht El Hb.
      assert (Ek : k = List.length t) by (unfold k; rewrite El; now apply filler_gap_head).
      assert (Em : m = List.length b).
      { unfold m. rewrite Ek, El, skipn_exact. now apply break_nl_len. }
      apply break_len in Hb. lia.
    + eexists. split; [reflexivity|]. reflexivity.
  - left. pose proof (nl_len_break _ M0) as HB. fold m in HB.
    assert (Hm : m <= List.length (skipn k l)) by apply nl_len_le.
    pose proof (gap_lines_more cmt (S (List.length (skipn (k + m) l))) (skipn (k + m) l) ltac:(lia)) as HM.
    cbv zeta in HM. set (q := gap_lines _ cmt (skipn (k + m) l)) in *.
    rewrite <- skipn_add in HM.
    exists (firstn k l), (firstn m (skipn k l)), (firstn (snd q) (skipn m (skipn k l))),
      (skipn (snd q) (skipn m (skipn k l))), (fst q).
    split; [now rewrite !firstn_skipn|].
    split; [apply gap_head_filler|].
    split; [rewrite firstn_skipn; exact HB|]. split; [exact HM|].
    f_equal. f_equal. f_equal.
    assert (Hq : snd q <= List.length (skipn m (skipn k l))).
    { rewrite skipn_add. unfold q. apply gap_lines_le. }
    rewrite !app_length, !firstn_length_le by (assumption || lia). lia.
Qed.
Example C04_witness :
  let s := set_pos 1 (new_st (fun _ => 0%N) false (lit "a # c" ++ [13; 10; 10]%N ++ lit "# d" ++ [10%N] ++ lit "  b")) in
  fst (gap true s) = ROk 3 /\ p_pos (snd (gap true s)) = 12.
Proof. vm_compute. auto. Qed.

(** ** C17 *)
Definition id_char (c : N) : Prop := is_alnum c = true \/ c = 45%N.
(** A name: a letter or digit, then letters, digits and dashes, as many as there
    are. *)
Definition name_at (name rest : bytes) : Prop :=
  (exists x t, name = x :: t /\ is_alnum x = true /\ Forall id_char t)
  /\ match rest with [] => True | x :: _ => ~ id_char x end.

Lemma is_idc_spec c : is_idc c = true <-> id_char c.
Proof. unfold is_idc, id_char. rewrite orb_true_iff, N.eqb_eq. reflexivity. Qed.

Lemma ident_len_name name rest : name_at name rest -> ident_len (name ++ rest) = List.length name.
Proof.
  intros ((x & t & -> & Hx & Ht) & Hr). cbn [app ident_len]. rewrite Hx. cbn [List.length]. f_equal.
  apply span_app.
  - apply forallb_forall. intros c Hc. rewrite Forall_forall in Ht. now apply is_idc_spec, Ht.
  - destruct rest as [|y rest]; [exact I|]. destruct (is_idc y) eqn:E; [|reflexivity].
    apply is_idc_spec in E. contradiction.
Qed.
Lemma name_ident_len l : ident_len l <> 0 -> name_at (firstn (ident_len l) l) (skipn (ident_len l) l).
Proof.
  destruct l as [|x l]; cbn [ident_len]; [congruence|].
  destruct (is_alnum x) eqn:E; [|congruence]. intros _. cbn [firstn skipn]. split.
  - exists x, (firstn (span is_idc l) l). repeat split; auto.
    eapply Forall_impl; [|apply firstn_span_forall]. intros c. apply is_idc_spec.
  - destruct (skipn (span is_idc l) l) eqn:E2; [exact I|]. apply span_next in E2.
    intros K. apply is_idc_spec in K. congruence.
Qed.
Lemma alnum_ascii c : is_alnum c = true -> N.ltb c 128 = true.
Proof.
  unfold is_alnum, is_digit. rewrite !orb_true_iff, !andb_true_iff, !N.leb_le, N.ltb_lt. lia.
Qed.
Lemma name_ascii name rest : name_at name rest -> utf8_lossy name = name.
Proof.
  intros ((x & t & -> & Hx & Ht) & _). apply utf8_lossy_ascii. cbn [forallb].
  rewrite (alnum_ascii x Hx). cbn [andb]. apply forallb_forall. intros c Hc.
  rewrite Forall_forall in Ht. destruct (Ht c Hc) as [K| ->]; [now apply alnum_ascii|reflexivity].
Qed.

(** &name and *name: succeed exactly on the indicator followed by a name, return
    the longest name and stop right after it. *)
Theorem C17_names : forall s, p_pos s <= List.length (p_doc s) ->
  let named (c : N) (m : M str) :=
    (forall name s', m s = (ROk name, s') <->
       exists rest, skipn (p_pos s) (p_doc s) = c :: name ++ rest /\ name_at name rest
         /\ s' = set_pos (p_pos s + 1 + List.length name) s)
    /\ ((exists name s', m s = (ROk name, s')) \/ exists s', m s = (RErr Mismatch, s'))
  in named 38%N anchor /\ named 42%N anchor_use.
Proof.
  intros s H named.
  assert (G : forall c, named c (bind (sym c) (fun _ => context (bind identifier (fun _ => text))))).
  { intros c. unfold named. rewrite (named_exec c s H). cbv zeta. fold (rem s).
    unfold anchor_f. destruct (rem s) as [|x r] eqn:E.
    - split; [|right; eexists; reflexivity].
      intros name s'. split; [discriminate|]. intros (rest & [=] & _).
    - destruct (N.eqb_spec x c) as [->|Hx].
      + cbn [skipn]. destruct (Nat.eqb_spec (ident_len r) 0) as [I0|I0].
        * split; [|right; eexists; reflexivity]. intros name s'. split; [discriminate|].
          intros (rest & [= ->] & Hn & _). rewrite (ident_len_name _ _ Hn) in I0.
          destruct Hn as ((y & t & -> & _) & _). discriminate.
        * pose proof (name_ident_len r I0) as Hn. rewrite (name_ascii _ _ Hn).
          split; [|left; eexists; eexists; reflexivity].
          intros name s'. split.
          -- intros [= <- <-]. exists (skipn (ident_len r) r). rewrite firstn_skipn.
             repeat split; try assumption; [apply Hn|apply Hn|].
             rewrite firstn_length_le by apply ident_len_le. reflexivity.
          -- intros (rest & [= ->] & Hn' & ->). rewrite (ident_len_name _ _ Hn').
             rewrite firstn_app, firstn_all, Nat.sub_diag, app_nil_r. reflexivity.
      + cbn [Nat.eqb]. split; [|right; eexists; reflexivity].
        intros name s'. split; [discriminate|]. intros (rest & [= ->] & _). congruence. }
  split; [exact (G 38%N)|exact (G 42%N)].
Qed.
Example C17_witness :
  let s := new_st (fun _ => 0%N) false (lit "&my-id2_ x") in
  fst (anchor s) = ROk (lit "my-id2").
Proof. vm_compute. reflexivity. Qed.
