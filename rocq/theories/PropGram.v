(** * C48: texts of documents are read exactly as they are written *)
From Verif Require Export GramRun2.
From Verif Require PropBlock.
Open Scope nat_scope.

(** ** Specification *)
Section Streams.
Variable cyclic : bool.
Variable tags : tagref -> option str.
Variable eol : str.
(** a node with its content on the line below [---]: for every document after
    the first one *)
Inductive below (o : nat) (nx : bool) : node -> str -> scope -> finish -> Prop :=
| BelowBare b y t e f : break_before eol nx b -> body cyclic tags eol 0 (o + blen b) false [] y t e f ->
    below o nx (Node (N.of_nat o) [] y) (b ++ t) e f.
Inductive below_marked (o : nat) (nx : bool) : node -> str -> scope -> finish -> Prop :=
| BelowNode x t e f : below o nx x t e f -> below_marked o nx x t e f
| BelowProps nx' a tg p b y t e1 e2 f : nx = false -> props tags nx' a tg p -> break_before eol nx' b ->
    body cyclic tags eol 0 (o + blen p + blen b) false [] y t e1 f ->
    named (Node (N.of_nat (o + blen p)) tg y) a e1 e2 -> below_marked o nx (Node (N.of_nat (o + blen p)) tg y) (p ++ b ++ t) e2 f.
(** behind the last document nothing, else a line in column 0 *)
Definition next_line (last : bool) : option nat := if last then None else Some 0.
(** how a document ends: a line break or, if it is the [last] one, the end of
    the file, or [...] on a line of its own *)
Inductive close (f : finish) (last : bool) : str -> Prop :=
| CloseBreak b : break_after eol (next_line last) f b -> close f last b
| CloseDots b b2 : break_after eol (Some 0) f b -> break_after eol (next_line last) Done b2 -> close f last (b ++ lit "..." ++ b2).
(** what follows a node that ends with [f] before byte [o]: the nodes of the
    other documents and the anchors of each *)
Inductive more : nat -> finish -> list node -> list scope -> str -> Prop :=
| MEnd o f z : close f true z -> more o f [] [] z
| MNext o f z nx w x t e f' nds es u : close f false z -> sep_or nx w ->
    below_marked (o + blen z + 3 + List.length w) nx x t e f' ->
    more (o + blen z + 3 + List.length w + blen t) f' nds es u ->
    more o f (x :: nds) (e :: es) (z ++ lit "---" ++ w ++ t ++ u).
End Streams.
(** a whole file: a header of directives, and its documents *)
Inductive stream (cyclic : bool) (eol : str) (ls : list dline) : list node -> list scope -> str -> Prop :=
| StPlain nx x t e f nds es u : ls = [] -> full cyclic (resolve ls) eol false 0 0 nx [] x t e f ->
    more cyclic (resolve ls) eol (blen t) f nds es u -> stream cyclic eol ls (x :: nds) (e :: es) (t ++ u)
| StMark g nx w x t e f nds es u : g = [] \/ ls = [] /\ (exists nx', break_before eol nx' g) -> sep_or nx w ->
    full cyclic (resolve ls) eol false 0 (blen (header ls ++ g) + 3 + List.length w) nx [] x t e f ->
    more cyclic (resolve ls) eol (blen (header ls ++ g) + 3 + List.length w + blen t) f nds es u ->
    stream cyclic eol ls (x :: nds) (e :: es) (header ls ++ g ++ lit "---" ++ w ++ t ++ u).

(** ** Proof *)
Definition after_node : M unit :=
  unwrap_or 0%nat (gap true) ;;;
  unwrap_or tt (sym_seq (lit "...")) ;;;
  forward ;;;
  modify (fun s => set_doc_ind (l_doc_ind s + 1)%nat s).
Lemma doc_start {A} n (k : node -> M A) s x s1 : in_doc s -> scalar n 0 false false (with_doc s) = (ROk x, s1) ->
  bind (doc n) k s = (after_node ;;; k x) s1.
Proof.
  intros H E. unfold doc. rewrite !bind_assoc'. unfold bind at 1. unfold context.
  assert (H0 : in_doc (set_eaten (p_pos s) s)) by exact H.
  rewrite (unwrap_or_eq _ _ _ _ (bound_exec _ H0)). change (rem (set_eaten (p_pos s) s)) with (rem s).
  replace (let '(r, s') := match (if at_bound (rem s) then (@ROk unit tt, set_pos (p_pos (set_eaten (p_pos s) s) + ws_len (rem s)) (set_eaten (p_pos s) s))
              else (RErr Mismatch, set_pos (p_eaten (set_eaten (p_pos s) s)) (set_eaten (p_pos s) s))) with
             | (ROk a, s') => (ROk a, s') | (RErr _, s') => (ROk tt, s') | (RPanic, s') => (RPanic, s') | (RDiv, s') => (RDiv, s') end
           in (r, set_eaten (p_eaten s) s'))
    with (@ROk unit tt, set_pos (p_pos s + doc_ws (rem s)) s).
  2:{ unfold doc_ws. destruct (at_bound (rem s)); destruct s; cbn; [reflexivity|]. now rewrite Nat.add_0_r. }
  rewrite bind_assoc'. unfold bind at 1, forward at 1, modify at 1. rewrite bind_assoc'. unfold bind at 1, modify at 1.
  change (set_anchors (l_anchors (set_eaten (p_pos (set_pos (p_pos s + doc_ws (rem s)) s)) (set_pos (p_pos s + doc_ws (rem s)) s)) ++ [[]])
            (set_eaten (p_pos (set_pos (p_pos s + doc_ws (rem s)) s)) (set_pos (p_pos s + doc_ws (rem s)) s))) with (with_doc s).
  rewrite bind_assoc'. unfold bind at 1. rewrite E. unfold after_node. rewrite !bind_assoc'.
  apply bind_ext. intros a s'. rewrite !bind_assoc'. apply bind_ext. intros a' s''. reflexivity.
Qed.
Lemma gap_brk_len eol b R : eol = [10%N] \/ eol = [13; 10]%N -> brk eol b -> line_start 0 R -> gap_len (utf8_encode b ++ R) = blen b /\ gap_f true (utf8_encode b ++ R) <> None.
Proof.
  intros He Hb HR. destruct (brk_gap eol He b 0 R Hb HR) as (t & E). cbn [repeat app] in E. unfold gap_len. rewrite E. split; [reflexivity|discriminate].
Qed.
Lemma after_bare s b R eol : eol = [10%N] \/ eol = [13; 10]%N -> in_doc s -> AT s -> rem s = utf8_encode b ++ R -> brkr eol R b -> line_start 0 R -> starts_with (lit "...") R = false ->
  after_node s = (ROk tt, set_doc_ind (l_doc_ind s + 1) s).
Proof.
  intros He H A0 R0 Hb HR Hd. unfold after_node. pose proof (gap_no_marker (lit "...") s H A0) as K.
  assert (K' : bind (unwrap_or 0 (gap true)) (fun _ => unwrap_or tt (sym_seq (lit "..."))) s = (ROk tt, s)).
  { destruct Hb as [Hb|[-> ->]].
    - destruct (gap_brk_len eol b R He Hb HR) as [G1 G2]. rewrite R0, G1, skipn_app_len in K. exact (K Hd ltac:(congruence)).
    - rewrite R0 in K. exact (K eq_refl (fun _ => eq_refl)). }
  revert K'. clear K.
  unfold bind at 1. unfold bind at 1. destruct (unwrap_or 0 (gap true) s) as [[g|e| |] s2]; try discriminate.
  intros K. unfold bind at 1. rewrite K. unfold bind, forward, modify. now rewrite (set_eaten_AT s A0).
Qed.
Lemma after_dots s b R eol : eol = [10%N] \/ eol = [13; 10]%N -> in_doc s -> rem s = utf8_encode b ++ lit "..." ++ R -> brk eol b ->
  after_node s = (ROk tt, set_doc_ind (l_doc_ind s + 1) (at_pos (p_pos s + blen b + 3) s)).
Proof.
  intros He H R0 Hb. unfold after_node.
  assert (HR : line_start 0 (lit "..." ++ R)) by (right; eexists _, _; split; [reflexivity|unfold visible; simpl; lia]).
  destruct (brk_gap eol He b 0 _ Hb HR) as (t & E). cbn [repeat] in E. rewrite app_nil_l in E.
  unfold bind at 1. rewrite (unwrap_or_eq _ _ _ _ (gap_exec true s H)), R0, E.
  set (s2 := set_pos (p_pos s + blen b) s).
  assert (H2 : in_doc s2) by (apply in_doc_add; [rewrite R0, app_length; lia|exact H]).
  assert (R2 : rem s2 = lit "..." ++ R) by (unfold s2; rewrite rem_add, R0; apply skipn_app_len).
  unfold bind at 1. rewrite (unwrap_or_eq _ _ _ _ (seq_hit (lit "...") s2 R H2 R2)). reflexivity.
Qed.
Lemma docs_more k n v s b r eol : eol = [10%N] \/ eol = [13; 10]%N -> in_doc s -> rem s = utf8_encode b ++ lit "---" ++ r -> brk eol b ->
  docs_loop (S k) n v s = bind (doc n) (fun d => docs_loop k n (v ++ [d])) (set_pos (p_pos s + blen b + 3) s).
Proof.
  intros He H R0 Hb. cbn [docs_loop].
  assert (HR : line_start 0 (lit "---" ++ r)) by (right; eexists _, _; split; [reflexivity|unfold visible; simpl; lia]).
  destruct (brk_gap eol He b 0 _ Hb HR) as (t & E). cbn [repeat] in E. rewrite app_nil_l in E.
  unfold bind at 1. rewrite (unwrap_or_eq _ _ _ _ (gap_exec true s H)), R0, E.
  set (s2 := set_pos (p_pos s + blen b) s).
  assert (H2 : in_doc s2) by (apply in_doc_add; [rewrite R0, app_length; lia|exact H]).
  assert (R2 : rem s2 = lit "---" ++ r) by (unfold s2; rewrite rem_add, R0; apply skipn_app_len).
  unfold bind at 1. rewrite (food_exec s2 H2), R2. cbn [app].
  unfold bind at 1. rewrite (is_err_eq _ _ _ (sym_seq_exec (lit "---") s2 H2)), R2.
  replace (starts_with (lit "---") (lit "---" ++ r)) with true by (symmetry; apply starts_with_app; eauto).
  cbv iota beta. reflexivity.
Qed.
Lemma upd_last {A} (l : list A) x f : upd_nth (l ++ [x]) (List.length l) f = l ++ [f x].
Proof. induction l as [|y l IH]; [reflexivity|]. cbn. now rewrite IH. Qed.
Lemma with_doc_mk s : l_doc_ind s = List.length (l_anchors s) ->
  with_doc s = mk (with_doc s) (p_pos s + doc_ws (rem s)) (p_pos s + doc_ws (rem s)) (p_indent s) [].
Proof.
  intros H. unfold mk, with_doc. destruct s; cbn in *. subst.
  now rewrite upd_last.
Qed.
Lemma nth_last {A} (l : list A) x : nth_error (l ++ [x]) (List.length l) = Some x.
Proof. now induction l. Qed.

Section Run.
Variable cyclic : bool.
Variable tags : tagref -> option str.
Variable eol : str.
Hypothesis eol_ok : eol = [10%N] \/ eol = [13; 10]%N.
Local Notation body := (body cyclic tags eol).
Local Notation full := (full cyclic tags eol).

(** what does not change *)
Definition fixed (s : st) : Prop := l_cyclic s = cyclic /\ p_consumed s = 0%N /\ (forall r, ref_ok r -> resolve_tab (p_tag s) r = tags r).
(** the node of a document that begins at [o] runs *)
Definition doc_runs (o : nat) (x : node) (t : str) (e : scope) (f : finish) (ok_tb : list nat -> Prop) : Prop :=
  forall B tb b r, fixed B -> nth_error (l_anchors B) (l_doc_ind B) <> None -> ok_tb tb -> break_after eol (here 0 r) f b -> line_start 0 r -> doc_ends r ->
  at_ B o (utf8_encode t ++ utf8_encode b ++ r) ->
  exists j b' tb', left_over eol r b j b' /\ agree 0 tb tb' /\
    forall n, 8 * blen t + 9 <= n -> scalar n 0 false false (mk B o o tb []) = (ROk x, mk B (o + blen t + j) (o + blen t + j) tb' e).
Lemma full_runs o nx x t e f : full false 0 o nx [] x t e f -> doc_runs o x t e f (Wd 0 0).
Proof.
  intros H B tb b r (F1 & F2 & F3) HA W Hb Hr Hd Ha.
  destruct (block_run eol eol_ok cyclic tags B F1 F2 F3 HA) as (_ & P & _).
  apply (P _ _ _ _ _ _ _ _ _ H 0 tb b 0 r W Hb Hr); [right; auto|exact Ha].
Qed.
Lemma below_body B o nx y b t e f : fixed B -> nth_error (l_anchors B) (l_doc_ind B) <> None -> break_before eol nx b -> body 0 (o + blen b) false [] y t e f ->
  forall tb z r, depth tb 0 = 0 -> break_after eol (here 0 r) f z -> line_start 0 r -> doc_ends r -> at_ B o (utf8_encode (b ++ t) ++ utf8_encode z ++ r) ->
  exists j b' tb' q, left_over eol r z j b' /\ agree 0 tb tb' /\
    forall n, 8 * blen (b ++ t) + 8 <= n -> inner n 0 false false (mk B o o tb []) = (ROk y, mk B (o + blen (b ++ t) + j) q tb' e).
Proof.
  intros (F1 & F2 & F3) HA Hbb H tb z r D Hb Hr Hd Ha.
  destruct (block_run eol eol_ok cyclic tags B F1 F2 F3 HA) as (P & _). specialize (P _ _ _ _ _ _ _ _ H).
  rewrite !encode_app, <- !app_assoc in Ha.
  assert (TS : aw (utf8_encode z ++ r)) by (exact (ft_aw f _ (tail_start eol eol_ok f z 0 r Hb Hr))).
  pose proof (body_bstart eol eol_ok cyclic tags B F2 _ _ _ _ _ _ _ _ _ H TS) as HS.
  pose proof (before_brk eol nx b Hbb) as HB.
  pose proof (enters_next eol eol_ok B 0 0 o tb [] b _ Ha HB (bstart_shown _ _ HS) D) as En.
  rewrite Nat.add_0_r in En. pose proof (at_app _ _ _ _ Ha) as Ha1.
  destruct (P 0 false o (blen b) tb (ind_norm 0 tb) z 0 r _ En eq_refl Ha) as (j & b' & tb' & q & H1 & H2 & H3); try assumption.
  { eapply before_first; eassumption. }
  { right. auto. }
  exists j, b', tb', q. split; [exact H1|]. split; [eapply agree_trans; [now apply (agree_norm 0 0)|exact H2]|].
  rewrite !blen_app. intros n Hn. rewrite H3 by lia. f_equal. apply mk_eq; lia.
Qed.
Lemma below_runs o nx x t e f : below_marked cyclic tags eol o nx x t e f -> doc_runs o x t e f (fun tb => depth tb 0 = 0).
Proof.
  intros H B tb z r F HA D Hz Hr Hd Ha. pose proof F as (F1 & F2 & F3).
  destruct H as [x t e f [b y t0 e0 f0 Hbb H]|nx' a tg p b y t e1 e2 f _ Hp Hbb H Hn].
  - destruct (below_body B o nx y b t0 e0 f0 F HA Hbb H tb z r D Hz Hr Hd Ha) as (j & b' & tb' & q & H1 & H2 & H3).
    exists j, b', tb'. split; [exact H1|]. split; [exact H2|]. intros n Hn. destruct n as [|n]; [lia|]. rewrite scalar_inner.
    eapply (node_bare B F2); [exact Ha| |apply H3; lia].
    rewrite encode_app, <- app_assoc. pose proof (before_cstart eol eol_ok B F2 nx b (utf8_encode t0 ++ utf8_encode z ++ r) Hbb) as C. unfold cstart in C. destruct (utf8_encode b ++ _); tauto.
  - rewrite encode_app, <- app_assoc in Ha.
    destruct (below_body B (o + blen p) nx' y b t e1 f F HA Hbb H tb z r D Hz Hr Hd (at_app _ _ _ _ Ha)) as (j & b' & tb' & q & H1 & H2 & H3).
    exists j, b', tb'. split; [exact H1|]. split; [exact H2|]. rewrite (blen_app p). intros n Hn'. destruct n as [|n]; [lia|]. rewrite scalar_inner, Nat.add_assoc.
    eapply (node_props tags B F2 F3 HA); [exact Hp|exact Ha| |apply H3; lia|exact Hn].
    rewrite encode_app, <- app_assoc. pose proof (before_cstart eol eol_ok B F2 nx' b (utf8_encode t ++ utf8_encode z ++ r) Hbb) as C. unfold cstart in C. destruct (utf8_encode b ++ _); tauto.
Qed.

(** ** Documents after the first one *)
Definition ready (o : nat) (s : st) : Prop := in_doc s /\ p_pos s = o /\ fixed s /\ depth (p_indent s) 0 = 0.
Definition P_more (o : nat) (f : finish) (nds : list node) (es : list scope) (u : str) : Prop :=
  exists b R, u = b ++ R /\ break_after eol (here 0 (utf8_encode R)) f b /\ line_start 0 (utf8_encode R) /\ doc_ends (utf8_encode R) /\
  forall j b' s k n v, left_over eol (utf8_encode R) b j b' -> ready (o + j) s -> AT s -> rem s = utf8_encode b' ++ utf8_encode R ->
    l_doc_ind s + 1 = List.length (l_anchors s) -> 8 * blen u + 9 <= n -> blen u < k ->
    exists s', (after_node ;;; docs_loop k n v) s = (ROk (v ++ nds), s') /\ l_anchors s' = l_anchors s ++ List.map table es.
Lemma dots_start R : line_start 0 (lit "..." ++ R) /\ doc_ends (lit "..." ++ R).
Proof.
  split; [right; eexists _, _; split; [reflexivity|unfold visible; simpl; lia]|]. right. right. apply starts_with_app. eauto.
Qed.
Lemma dashes_start R : line_start 0 (lit "---" ++ R) /\ doc_ends (lit "---" ++ R) /\ starts_with (lit "...") (lit "---" ++ R) = false.
Proof.
  split; [right; eexists _, _; split; [reflexivity|unfold visible; simpl; lia]|]. split; [|reflexivity]. right. left. apply starts_with_app. eauto.
Qed.
(** the end of a document in front of [T] *)
Lemma close_run o f last z T : close eol f last z -> (if last then T = [] else exists r, T = lit "---" ++ r) ->
  exists b R, z ++ T = b ++ R /\ break_after eol (here 0 (utf8_encode R)) f b /\ line_start 0 (utf8_encode R) /\ doc_ends (utf8_encode R) /\
  forall j b' s, left_over eol (utf8_encode R) b j b' -> ready (o + j) s -> AT s -> rem s = utf8_encode b' ++ utf8_encode R ->
  exists b2 s2, after_node s = (ROk tt, s2) /\ brkr eol (utf8_encode T) b2 /\ rem s2 = utf8_encode b2 ++ utf8_encode T
    /\ p_pos s2 + blen b2 = o + blen z /\ fixed s2 /\ p_indent s2 = p_indent s /\ l_anchors s2 = l_anchors s /\ l_doc_ind s2 = l_doc_ind s + 1 /\ in_doc s2.
Proof.
  intros H HL. assert (HT : T = [] \/ (exists r, T = lit "---" ++ r)) by (destruct last; auto).
  assert (HN : next_line last = here 0 (utf8_encode T)).
  { destruct last; [subst T; reflexivity|]. destruct HL as (r & ->). rewrite encode_app. reflexivity. }
  assert (KT : line_start 0 (utf8_encode T) /\ doc_ends (utf8_encode T) /\ starts_with (lit "...") (utf8_encode T) = false).
  { destruct HT as [-> |(r & ->)]; [split; [now left|split; [now left|reflexivity]]|]. rewrite encode_app. apply dashes_start. }
  destruct KT as (T1 & T2 & T3). destruct H as [b Hb|b b2 Hb Hb2]; rewrite HN in *.
  - exists b, T. split; [reflexivity|]. split; [exact Hb|]. split; [exact T1|]. split; [exact T2|].
    intros j b' s H1 (I1 & Ip & F & D) A0 R0. pose proof (left_len eol _ b j b' H1). pose proof (left_brkr eol _ b j b' H1).
    exists b', (set_doc_ind (l_doc_ind s + 1) s). split; [eapply after_bare; eassumption|]. split; [assumption|].
    split; [exact R0|]. split; [cbn; lia|]. repeat (split; [assumption||reflexivity|]). exact I1.
  - exists b, (lit "..." ++ b2 ++ T). split; [now rewrite <- !app_assoc|]. split; [exact Hb|]. rewrite !encode_app. change (utf8_encode (lit "...")) with (lit "...").
    split; [apply dots_start|]. split; [apply dots_start|].
    intros j b' s H1 (I1 & Ip & F & D) A0 R0. pose proof (left_len eol _ b j b' H1). pose proof (brkr_brk eol _ _ (left_brkr eol _ b j b' H1) ltac:(discriminate)).
    exists b2, (set_doc_ind (l_doc_ind s + 1) (at_pos (p_pos s + blen b' + 3) s)).
    split; [eapply after_dots; eassumption|].
    split; [eapply after_brkr; eassumption|].
    assert (RR : rem (at_pos (p_pos s + blen b' + 3) s) = utf8_encode b2 ++ utf8_encode T).
    { unfold rem, at_pos. cbn. replace (p_pos s + blen b' + 3) with (p_pos s + (blen b' + 3)) by lia. rewrite <- skipn_add. fold (rem s). rewrite R0, <- skipn_add, skipn_app_len. reflexivity. }
    split; [exact RR|]. split; [rewrite !app_length; cbn [List.length]; cbn; lia|]. repeat (split; [assumption||reflexivity|]).
    unfold in_doc in *. cbn. pose proof (rem_length s) as RL. rewrite R0, !app_length in RL. cbn in RL. lia.
Qed.
Lemma below_start o nx x t e f R : below_marked cyclic tags eol o nx x t e f ->
  nstart nx (utf8_encode t ++ R).
Proof.
  intros H. destruct H as [x t e f [b y t0 e0 f0 Hbb H]|nx' a tg p b y t e1 e2 f -> Hp Hbb H Hn]; rewrite encode_app, <- app_assoc.
  - destruct (before_head eol eol_ok (new_st (fun _ => 0%N) false []) eq_refl nx b Hbb) as (x0 & q & -> & N1 & N2 & _). cbn [app nstart]. auto.
  - destruct (props_opens tags nx' a tg p (utf8_encode (b ++ t) ++ R) Hp) as (x0 & q & -> & N & _). split; [unfold is_ws; now rewrite N|discriminate].
Qed.
(** the bound behind [---] *)
Lemma mark_ws s nx w l : rem s = w ++ l -> sep_or nx w -> nstart nx l -> doc_ws (rem s) = List.length w.
Proof.
  intros R Hw H. destruct (mark_end_ws w l) as [E1 E2].
  { eapply sep_or_mark; [exact Hw|]. exact H. }
  unfold doc_ws. rewrite R, E1. exact E2.
Qed.
(** one document and what follows *)
Lemma doc_then o nx w x t e f okt nds es u k n v s : doc_runs (o + List.length w) x t e f okt -> P_more (o + List.length w + blen t) f nds es u ->
  sep_or nx w \/ w = [] -> doc_ws (rem s) = List.length w -> ready o s -> okt (p_indent s) -> rem s = w ++ utf8_encode t ++ utf8_encode u ->
  l_doc_ind s = List.length (l_anchors s) -> 8 * blen t + 9 <= n -> 8 * blen u + 9 <= n -> blen u < k ->
  exists s', bind (doc n) (fun d => docs_loop k n (v ++ [d])) s = (ROk (v ++ x :: nds), s') /\ l_anchors s' = l_anchors s ++ table e :: List.map table es.
Proof.
  intros HD (b & R & -> & Hb & HR & HE & K) Hw DW (I1 & Ip & F & D) OK R0 HA Hn Hn' Hk.
  set (B := with_doc s). pose proof (with_doc_mk s HA) as EB. rewrite DW, Ip in EB. fold B in EB.
  assert (FB : fixed B) by exact F.
  assert (AB : nth_error (l_anchors B) (l_doc_ind B) <> None).
  { change (l_anchors B) with (l_anchors s ++ [[]]). change (l_doc_ind B) with (l_doc_ind s). rewrite HA, nth_last. discriminate. }
  assert (At : at_ B (o + List.length w) (utf8_encode t ++ utf8_encode b ++ utf8_encode R)).
  { rewrite encode_app in R0. split; [|change (p_doc B) with (p_doc s); rewrite <- skipn_add, <- Ip; fold (rem s); rewrite R0; apply skipn_app_len].
    change (p_doc B) with (p_doc s). pose proof (rem_length s) as RL. rewrite R0, app_length in RL. unfold in_doc in I1. lia. }
  destruct (HD B (p_indent s) b (utf8_encode R) FB AB OK Hb HR HE At) as (j & b' & tb' & H1 & H2 & H3).
  set (p := o + List.length w + blen t + j) in *.
  assert (At2 : at_ B p (utf8_encode b' ++ utf8_encode R)) by (eapply left_at; [exact H1|]; now apply at_app in At).
  rewrite (doc_start n _ s x (mk B p p tb' e) I1) by (pose proof (H3 n Hn) as Z; rewrite <- EB in Z; exact Z).
  assert (LM : l_anchors (mk B p p tb' e) = l_anchors s ++ [table e]) by (cbn; rewrite HA; apply (upd_last _ _ (fun _ => table e))).
  destruct (K j b' (mk B p p tb' e) k n (v ++ [x])) as (s' & E & EA); try assumption.
  - split; [apply (at_in _ _ _ _ _ _ At2)|]. split; [reflexivity|]. split; [exact F|]. exact (eq_trans (agree_depth 0 _ _ 0 (le_n _) H2) D).
  - reflexivity.
  - apply (at_rem _ _ _ _ _ _ At2).
  - rewrite LM, app_length. cbn. lia.
  - exists s'. rewrite E, EA, LM, <- !app_assoc. split; reflexivity.
Qed.
Lemma more_run o f nds es u : more cyclic tags eol o f nds es u -> P_more o f nds es u.
Proof.
  induction 1 as [o f z Hz|o f z nx w x t e f' nds es u Hz Hw Hx _ IH].
  - destruct (close_run o f true z [] Hz eq_refl) as (b & R & E & Hb & HR & HE & K). rewrite app_nil_r in E.
    exists b, R. repeat (split; [assumption|]). intros j b' s k n v H1 Hs A0 R0 _ _ Hk.
    destruct (K j b' s H1 Hs A0 R0) as (b2 & s2 & E2 & Hb2 & R2 & _ & _ & _ & An & _ & I2). rewrite app_nil_r in R2.
    unfold bind. rewrite E2. destruct k as [|k]; [lia|]. rewrite docs_end; [|exact I2|].
    + eexists. rewrite app_nil_r. split; [reflexivity|]. cbn. now rewrite app_nil_r.
    + rewrite R2. destruct Hb2 as [Hb2|[_ ->]]; [|reflexivity]. rewrite <- (app_nil_r (utf8_encode b2)) at 1. now destruct (gap_brk_len eol b2 [] eol_ok Hb2 (or_introl (conj eq_refl eq_refl))).
  - set (T := lit "---" ++ w ++ t ++ u).
    destruct (close_run o f false z T Hz ltac:(eexists; reflexivity)) as (b & R & E & Hb & HR & HE & K).
    exists b, R. repeat (split; [assumption|]). intros j b' s k n v H1 Hs A0 R0 HA Hn Hk.
    destruct (K j b' s H1 Hs A0 R0) as (b2 & s2 & E2 & Hb2 & R2 & Pz & F2 & Ti & An & Di & I2).
    apply brkr_brk in Hb2; [|unfold T; rewrite encode_app; discriminate].
    assert (Ew := sep_or_encode nx w Hw).
    unfold T in Hn, Hk; rewrite !blen_app, Ew in Hn, Hk. change (blen (lit "---")) with 3 in *.
    unfold bind at 1. rewrite E2. destruct k as [|k]; [lia|].
    unfold T in R2. rewrite !encode_app, Ew in R2. change (utf8_encode (lit "---")) with (lit "---") in R2.
    rewrite (docs_more k n v s2 b2 _ eol eol_ok I2 R2 Hb2).
    set (s3 := set_pos (p_pos s2 + blen b2 + 3) s2).
    assert (R3 : rem s3 = w ++ utf8_encode t ++ utf8_encode u).
    { unfold rem, s3. cbn. replace (p_pos s2 + blen b2 + 3) with (p_pos s2 + (blen b2 + 3)) by lia. rewrite <- skipn_add. fold (rem s2). rewrite R2, <- skipn_add, skipn_app_len. reflexivity. }
    assert (P3 : p_pos s3 = o + blen z + 3) by (cbn; lia).
    destruct (doc_then (o + blen z + 3) nx w x t e f' _ nds es u k n v s3 (below_runs _ _ _ _ _ _ Hx) IH (or_introl Hw)) as (s' & E' & A').
    + eapply mark_ws; [exact R3|exact Hw|]. eapply below_start; exact Hx.
    + split; [|split; [exact P3|split; [exact F2|]]].
      * unfold in_doc in *. cbn. pose proof (rem_length s2) as RL. rewrite R2, !app_length in RL. cbn in RL. lia.
      * change (p_indent s3) with (p_indent s2). rewrite Ti. apply Hs.
    + change (p_indent s3) with (p_indent s2). rewrite Ti. apply Hs.
    + exact R3.
    + change (l_doc_ind s3) with (l_doc_ind s2). change (l_anchors s3) with (l_anchors s2). rewrite An, Di. lia.
    + lia.
    + lia.
    + lia.
    + exists s'. rewrite E'. split; [reflexivity|]. rewrite A'. change (l_anchors s3) with (l_anchors s2). now rewrite An.
Qed.
End Run.

(** ** The first document *)
Lemma seq_no_marker nx w R : sep_or nx w -> nstart nx R -> starts_with (lit "---") (45%N :: w ++ R) = false.
Proof.
  intros [(r & -> & _)|[-> ->]] H; [reflexivity|]. destruct R as [|x q]; [discriminate H|]. destruct H as (_ & N). destruct (N eq_refl) as [-> | ->]; reflexivity.
Qed.
Section First.
Variable cyclic : bool.
Variable tags : tagref -> option str.
Variable eol : str.
Hypothesis eol_ok : eol = [10%N] \/ eol = [13; 10]%N.
Let B0 := new_st (fun _ => 0%N) false [].
Lemma body_no_marker c o h e y t e' f R : body cyclic tags eol c o h e y t e' f -> ft f R -> starts_with (lit "---") (utf8_encode t ++ R) = false.
Proof.
  intros H HF. pose proof (ft_aw f R HF) as HR.
  assert (K : forall l, ~ doc_ends l -> starts_with (lit "---") l = false).
  { intros l Hl. destruct (starts_with (lit "---") l) eqn:E; [|reflexivity]. destruct Hl. right. now left. }
  destruct H as [c o h e y t e' f H|c o h e nx w v t e' f Hw H|c o h e m t e' f H _].
  - apply K. now destruct (starts_cons eol eol_ok _ (inline_starts eol eol_ok cyclic tags _ _ _ _ _ _ _ R H HR)) as (x & q & _ & _ & _ & _ & N).
  - rewrite !encode_app, (sep_or_encode nx w Hw), <- !app_assoc. change (utf8_encode (lit "-") ++ ?z) with (45%N :: z).
    apply (seq_no_marker nx w _ Hw). exact (items_nstart eol eol_ok cyclic tags B0 eq_refl _ _ _ _ _ _ _ _ R H HF).
  - apply K. now destruct (entries_estart eol eol_ok cyclic tags B0 eq_refl _ _ _ _ _ _ _ _ R H) as (_ & _ & N).
Qed.
Definition first_ok (d : bytes) : Prop := (match d with x :: _ => x <> 37%N /\ is_ws x = false | [] => True end)
  /\ starts_with (lit "---") (skipn (gap_len d) d) = false
  /\ (gap_f true d = None -> starts_with (lit "---") (skipn (gap_head true d) d) = false).
Lemma shown_first d : shown d -> (match d with x :: _ => x <> 37%N | [] => True end) -> starts_with (lit "---") d = false -> first_ok d.
Proof.
  intros S H1 H2. destruct (shown_no_gap d S) as [G1 G2]. unfold first_ok, gap_len. rewrite G1, G2. cbn [skipn].
  split; [|auto]. destruct S as (x & q & -> & V). split; [exact H1|]. now apply visible_ws.
Qed.
Lemma full_first o nx x t e f R : full cyclic tags eol false 0 o nx [] x t e f -> ft f R -> first_ok (utf8_encode t ++ R).
Proof.
  intros H HF. pose proof (ft_aw f R HF) as HR. inversion H as [m c o' nx0 e0 y t0 e' f0 HC|m c o' nx0 e0 a tg p y t0 e1 e2 f0 Hp HC Hn]; subst.
  - clear H. remember false as m eqn:Em. remember 0 as c eqn:Ec. destruct HC; try discriminate Em; subst; [| |lia|lia].
    + destruct (body_bstart eol eol_ok cyclic tags B0 eq_refl _ _ _ _ _ _ _ _ R H HR) as (z & q & E & V & N1 & N2).
      apply shown_first; [rewrite E; eexists _, _; split; [reflexivity|exact V]|rewrite E; intros ->; apply N1; simpl; tauto|]. eapply body_no_marker; eassumption.
    + cbn [indent repeat app]. rewrite encode_app, <- app_assoc.
      pose proof (body_bstart eol eol_ok cyclic tags B0 eq_refl _ _ _ _ _ _ _ _ R H0 HR) as BS. apply bstart_shown in BS.
      destruct (gap_brk_len eol b (utf8_encode t ++ R) eol_ok (before_brk eol nx b H) ltac:(right; exact BS)) as [G1 G2].
      split; [|split; [|congruence]].
      * destruct (before_head eol eol_ok B0 eq_refl nx b H) as (z & q & E & N1 & _). rewrite E. cbn [app]. split; [|exact N1].
        pose proof (brk_head eol eol_ok b (before_brk eol nx b H)) as (z' & q' & E' & N'). rewrite E in E'. injection E' as <- <-. intros ->. simpl in N'. lia.
      * rewrite G1, skipn_app_len. eapply body_no_marker; eassumption.
  - rewrite encode_app, <- app_assoc. set (l := utf8_encode t0 ++ R). pose proof (opens_shown _ (props_opens tags nx0 a tg p l Hp)) as S.
    assert (HH : exists z q, utf8_encode p ++ l = z :: q /\ (z = 38%N \/ z = 33%N)).
    { destruct Hp as [a w Ha Hw|r tg w Ht Hw|a s r tg w Ha Hs' Ht Hw|a s r tg w Ha Hs' Ht Hw]; rewrite !encode_app, <- !app_assoc.
      - eexists _, _. split; [reflexivity|auto].
      - destruct (tag_head r) as (z & ->). eexists _, _. split; [reflexivity|auto].
      - eexists _, _. split; [reflexivity|auto].
      - destruct (tag_head r) as (z & ->). eexists _, _. split; [reflexivity|auto]. }
    destruct HH as (z & q & E & Hz). rewrite E in *. apply shown_first; [exact S|destruct Hz as [-> | ->]; discriminate|destruct Hz as [-> | ->]; reflexivity].
Qed.
Lemma no_ws_doc l : (match l with x :: _ => is_ws x = false | [] => True end) -> doc_ws l = 0.
Proof. intros H. unfold doc_ws. destruct (at_bound l); [|reflexivity]. unfold ws_len. now apply span_zero. Qed.
End First.
(** up to the first document *)
Lemma before_plain n hk cyclic d : first_ok d -> parse_fuel (S n) (new_st hk cyclic d) = bind (doc (S n)) (fun x => docs_loop (S n) (S n) [x]) (new_st hk cyclic d).
Proof.
  intros (H1 & H2 & H3). set (s0 := new_st hk cyclic d).
  assert (H0 : in_doc s0) by (unfold in_doc; cbn; lia). assert (A0 : AT s0) by reflexivity. assert (R0 : rem s0 = d) by reflexivity.
  unfold parse_fuel. unfold bind at 1. rewrite (DocRun.directives_none n s0 H0 A0) by (rewrite R0; destruct d; [exact I|apply H1]).
  pose proof (gap_no_marker (lit "---") s0 H0 A0) as K. rewrite R0 in K. specialize (K H2 H3). revert K.
  unfold bind. destruct (unwrap_or 0 (gap true) s0) as [[g|e| |] s2]; try discriminate.
  intros K. rewrite K. reflexivity.
Qed.
Lemma run_lines_cyclic ls : forall s, l_cyclic (run_lines ls s) = l_cyclic s.
Proof. induction ls as [|l ls IH]; intros s; [reflexivity|]. cbn. unfold run_lines in IH. now rewrite IH. Qed.
Lemma before_mark n hk cyclic ls g r eol : eol = [10%N] \/ eol = [13; 10]%N -> Forall line_ok ls -> count_yaml ls <= 1 ->
  g = [] \/ ls = [] /\ (exists nx', break_before eol nx' g) -> List.length ls < n ->
  exists s, parse_fuel n (new_st hk cyclic (utf8_encode (header ls ++ g) ++ lit "---" ++ r)) = bind (doc n) (fun x => docs_loop n n [x]) s
   /\ in_doc s /\ p_pos s = blen (header ls ++ g) + 3 /\ l_cyclic s = cyclic /\ p_consumed s = 0%N /\ p_tag s = tab_of ls init_tags
   /\ p_indent s = [0] /\ l_anchors s = [] /\ l_doc_ind s = 0 /\ rem s = r.
Proof.
  intros He Hl Hc Hg Hn. set (d := utf8_encode (header ls ++ g) ++ lit "---" ++ r). set (s0 := new_st hk cyclic d).
  assert (H0 : in_doc s0) by (unfold in_doc; cbn; lia). assert (A0 : AT s0) by reflexivity. assert (R0 : rem s0 = d) by reflexivity.
  assert (Hs : stop_head (lit "---" ++ r)) by (exists 45%N; eexists; split; [reflexivity|]; repeat split; discriminate).
  assert (Q : exists s1, directives n s0 = (ROk tt, s1) /\ in_doc s1 /\ rem s1 = utf8_encode g ++ lit "---" ++ r /\ p_pos s1 = blen (header ls)
     /\ l_cyclic s1 = cyclic /\ p_consumed s1 = 0%N /\ p_tag s1 = tab_of ls init_tags /\ p_indent s1 = [0] /\ l_anchors s1 = [] /\ l_doc_ind s1 = 0).
  { destruct Hg as [-> |[-> (nx & Hg)]].
    - assert (R1 : rem s0 = utf8_encode (header ls) ++ lit "---" ++ r) by (rewrite R0; unfold d; now rewrite app_nil_r).
      destruct (header_run ls (S (n - List.length ls - 1)) s0 (lit "---" ++ r) H0 Hl) as (D1 & D2 & D3 & D4 & D5 & D6 & D7 & D8 & D9 & D10 & D11 & D12 & _); try assumption; [cbn; lia|].
      replace (List.length ls + S (n - List.length ls - 1)) with n in D1 by lia. pose proof (run_lines_cyclic ls s0) as D13.
      set (s' := run_lines ls s0) in *. exists s'.
      split; [|split; [exact D2|split; [exact D3|split; [exact D6|split; [exact D13|split; [exact D10|split; [exact D5|split; [exact D9|split; [exact D11|exact D12]]]]]]]]].
      rewrite D1. cbn [directives].
      assert (DN : context directive s' = (RErr Mismatch, set_pos (p_pos s') s')).
      { unfold context. set (u := set_eaten (p_pos s') s'). assert (U : in_doc u) by exact D2. assert (V : rem u = lit "---" ++ r) by exact D3.
        unfold directive. unfold bind at 1. rewrite (sym_exec (chr "%") u U), V. cbn [app]. change (N.eqb 45 (chr "%")) with false. cbv iota. f_equal. }
      now rewrite DN, set_pos_id.
    - exists s0. destruct n as [|n]; [cbn in Hn; lia|]. rewrite (DocRun.directives_none n s0 H0 A0).
      + repeat (split; [first [reflexivity|assumption]|]). reflexivity.
      + rewrite R0. unfold d. cbn [header flat_map app].
        destruct (brk_head eol He g (before_brk eol nx g Hg)) as (z & q & -> & N). cbn [app]. intros ->. simpl in N. lia. }
  destruct Q as (s1 & E1 & I1 & R1 & P1 & Q1 & Q2 & Q3 & Q4 & Q5 & Q6).
  set (s2 := set_pos (p_pos s1 + blen g) s1).
  assert (E2 : unwrap_or 0 (gap true) s1 = (ROk (match gap_f true (rem s1) with Some (t, _) => t | None => 0 end), s2)).
  { rewrite (unwrap_or_eq _ _ _ _ (gap_exec true s1 I1)), R1. unfold s2. destruct Hg as [-> |[-> (nx & Hg)]].
    - destruct (shown_no_gap (lit "---" ++ r)) as [G1 G2]; [eexists _, _; split; [reflexivity|unfold visible; simpl; lia]|].
      cbn [utf8_encode]. rewrite app_nil_l. rewrite G1, G2. reflexivity.
    - destruct (brk_gap eol He g 0 (lit "---" ++ r) (before_brk eol nx g Hg)) as (t & E).
      { right. eexists _, _; split; [reflexivity|unfold visible; simpl; lia]. }
      cbn [repeat] in E. rewrite app_nil_l in E. rewrite E. reflexivity. }
  assert (I2 : in_doc s2) by (apply in_doc_add; [rewrite R1, app_length; lia|exact I1]).
  assert (R2 : rem s2 = lit "---" ++ r) by (unfold s2; rewrite rem_add, R1; apply skipn_app_len).
  exists (set_pos (p_pos s2 + 3) s2). split.
  - unfold parse_fuel. fold d. fold s0. unfold bind at 1. rewrite E1. unfold bind at 1. rewrite E2. unfold bind at 1.
    rewrite (unwrap_or_eq _ _ _ _ (seq_hit (lit "---") s2 r I2 R2)). reflexivity.
  - split; [apply moved_in; [exact I2|rewrite R2, app_length; cbn; lia]|]. split; [cbn; rewrite blen_app; lia|].
    repeat (split; [first [assumption]|]). rewrite rem_add, R2. reflexivity.
Qed.

(** ** C48 *)
Lemma stream_load hk cyclic eol ls nds es t : eol = [10%N] \/ eol = [13; 10]%N -> Forall line_ok ls -> count_yaml ls <= 1 -> stream cyclic eol ls nds es t ->
  exists s, load (new_st hk cyclic (utf8_encode t)) = (ROk nds, s) /\ l_anchors s = List.map table es.
Proof.
  intros He Hl Hc H. destruct H as [nx x t e f nds es u -> Hf Hm|g nx w x t e f nds es u Hg Hw Hf Hm].
  - rewrite encode_app. set (d := utf8_encode t ++ utf8_encode u). unfold load, fuel_doc. change (p_doc (new_st hk cyclic d)) with d.
    assert (L : List.length d = blen t + blen u) by (unfold d; now rewrite app_length).
    pose proof (more_run cyclic (resolve []) eol He _ _ _ _ _ Hm) as PM.
    assert (HR : ft f (utf8_encode u)).
    { destruct PM as (b & R & -> & Hb & Hs & _). rewrite encode_app. exact (tail_start eol He f b 0 (utf8_encode R) Hb Hs). }
    pose proof (full_first cyclic (resolve []) eol He _ _ _ _ _ _ _ Hf HR) as F1.
    replace (20 * (List.length d + 2)) with (S (20 * (List.length d + 2) - 1)) by lia. rewrite (before_plain _ hk cyclic d F1).
    set (n := S (20 * (List.length d + 2) - 1)). set (s0 := new_st hk cyclic d).
    pose proof (full_runs cyclic (resolve []) eol He _ _ _ _ _ _ Hf) as FR.
    destruct (doc_then cyclic (resolve []) eol 0 false [] x t e f (Wd 0 0) nds es u n n [] s0) as (s' & E & EA); try assumption.
    + now right.
    + cbn [List.length]. apply no_ws_doc. destruct F1 as (F1 & _). change (rem s0) with d. fold d in F1. clearbody d. destruct d; [exact I|apply F1].
    + split; [unfold in_doc; cbn; lia|]. split; [reflexivity|]. split; [|reflexivity]. split; [reflexivity|]. split; [reflexivity|].
      intros r Hr. exact (resolve_ok [] r (Forall_nil _) Hr).
    + split; [reflexivity|]. intros [|[|j]] Hj; [lia|reflexivity|reflexivity].
    + reflexivity.
    + reflexivity.
    + unfold n. lia.
    + unfold n. lia.
    + unfold n. lia.
    + exists s'. split; [exact E|exact EA].
  - assert (Ew := sep_or_encode nx w Hw). rewrite !app_assoc. rewrite <- (app_assoc _ t), <- (app_assoc _ w), <- (app_assoc _ (lit "---")).
    rewrite encode_app, !encode_app, Ew. rewrite <- encode_app. change (utf8_encode (lit "---")) with (lit "---").
    set (r := w ++ utf8_encode t ++ utf8_encode u). set (d := utf8_encode (header ls ++ g) ++ lit "---" ++ r).
    unfold load, fuel_doc. change (p_doc (new_st hk cyclic d)) with d.
    assert (L : List.length d = blen (header ls ++ g) + 3 + List.length w + blen t + blen u) by (unfold d, r; rewrite !app_length; cbn; lia).
    pose proof (more_run cyclic (resolve ls) eol He _ _ _ _ _ Hm) as PM.
    set (n := 20 * (List.length d + 2)).
    destruct (before_mark n hk cyclic ls g r eol He Hl Hc Hg) as (s0 & E0 & I0 & P0 & Q1 & Q2 & Q3 & Q4 & Q5 & Q6 & R0).
    { pose proof (header_length ls). rewrite blen_app in L. unfold n. lia. }
    fold d in E0. rewrite E0.
    pose proof (full_runs cyclic (resolve ls) eol He _ _ _ _ _ _ Hf) as FR.
    assert (HR : ft f (utf8_encode u)).
    { destruct PM as (b & R & -> & Hb & Hs & _). rewrite encode_app. exact (tail_start eol He f b 0 (utf8_encode R) Hb Hs). }
    destruct (doc_then cyclic (resolve ls) eol (blen (header ls ++ g) + 3) nx w x t e f (Wd 0 0) nds es u n n [] s0 FR PM (or_introl Hw)) as (s' & E & EA); try assumption.
    + eapply mark_ws; [exact R0|exact Hw|]. exact (full_nstart eol He cyclic (resolve ls) (new_st hk cyclic []) eq_refl _ _ _ _ _ _ _ _ _ _ Hf HR).
    + split; [exact I0|]. split; [exact P0|]. split; [|rewrite Q4; reflexivity]. split; [exact Q1|]. split; [exact Q2|].
      intros r' Hr. rewrite Q3. now apply resolve_ok.
    + rewrite Q4. split; [reflexivity|]. intros [|[|j]] Hj; [lia|reflexivity|reflexivity].
    + rewrite Q5, Q6. reflexivity.
    + unfold n. lia.
    + unfold n. lia.
    + unfold n. lia.
    + exists s'. split; [exact E|]. rewrite EA, Q5. reflexivity.
Qed.

(** Every text of the grammar is read as the nodes the grammar gives it, with
    their positions, tags and aliases... *)
Theorem C48_parse_exact : forall (hk : hasher) (eol : str) (ls : list dline) (nds : list node) (es : list scope) (t : str),
  eol = [10%N] \/ eol = [13; 10]%N -> Forall line_ok ls -> count_yaml ls <= 1 ->
  stream false eol ls nds es t -> parse hk t = ROk nds.
Proof.
  intros hk eol ls nds es t He Hl Hc H. unfold parse, parse_bytes.
  destruct (stream_load hk false eol ls nds es t He Hl Hc H) as (s & -> & _). reflexivity.
Qed.
(** ... and with aliases kept the anchor table of every document has exactly
    the names defined in it. *)
Theorem C48_cyclic_exact : forall (hk : hasher) (eol : str) (ls : list dline) (nds : list node) (es : list scope) (t : str),
  eol = [10%N] \/ eol = [13; 10]%N -> Forall line_ok ls -> count_yaml ls <= 1 ->
  stream true eol ls nds es t ->
  exists tabs, parse_cyclic hk t = ROk (nds, tabs) /\ Forall2 (fun tab e => forall a, bt_get a tab = lookup a e) tabs es.
Proof.
  intros hk eol ls nds es t He Hl Hc H. unfold parse_cyclic.
  destruct (stream_load hk true eol ls nds es t He Hl Hc H) as (s & -> & E). exists (l_anchors s). split; [reflexivity|].
  rewrite E. clear. induction es as [|e es IH]; constructor; [intros a; apply lookup_table|exact IH].
Qed.

(** ** A witness: directives, two documents, tags, anchors, an alias, a flow
    sequence, an explicit key, an empty item, a block scalar, comments, and an
    empty value at the end of the file *)
Lemma letters_word fl t : t <> [] -> forallb PropBlock.letter t = true -> existsb (fun kv => str_eqb t (fst kv)) keywords = false -> word fl t /\ meaning t (YStr t).
Proof.
  intros Hn Hl Hk. pose proof (PropBlock.letters_leaf t Hn Hl Hk) as H.
  assert (F : forall c, In c t -> (65 <= c <= 90 \/ 97 <= c <= 122)%N).
  { intros c Hc. rewrite forallb_forall in Hl. now apply PropBlock.letter_range, Hl. }
  inversion H as [t' y H1 H2 H3 H4 H5| | |b Hb EY ET]; subst.
  - split; [|exact H5]. split; [exact H1|]. split; [exact H2|]. split; [exact H3|]. intros _ c Hc K. apply F in K. simpl in Hc. lia.
  - exfalso. assert (E : In 34%N (quote t)) by now left. rewrite ET in E. apply F in E. lia.
Qed.
Lemma letters_atom cyc fl e t : t <> [] -> forallb PropBlock.letter t = true -> existsb (fun kv => str_eqb t (fst kv)) keywords = false -> atom cyc fl e (YStr t) t Done.
Proof. intros H1 H2 H3. destruct (letters_word fl t H1 H2 H3). now apply word_atom. Qed.
Ltac watom := apply letters_atom; [discriminate|reflexivity|reflexivity].
Ltac nocr := simpl; intuition discriminate.
Lemma sp : sep (lit " "). Proof. exists []. auto. Qed.
Lemma comment_intro c : ~ In 10%N c -> ~ In 13%N c -> comment_text (35%N :: c).
Proof. intros. exists c. auto. Qed.
Lemma plain_break k f : (forall w, f <> Open w) -> (forall w nx i, f = Void w nx -> k = Some i -> i < w) -> break_after [10%N] k f [10%N].
Proof. intros H HV. left. exists [], []. split; [reflexivity|]. split; [constructor|]. split; [now left|]. split; [intros w K; now destruct (H w)|exact HV]. Qed.
Lemma file_end f : f = Done \/ (exists w, f = Void w false) -> break_after [10%N] None f [].
Proof. intros H. right. auto. Qed.
Lemma open_break k w : break_after [10%N] k (Open w) [10%N].
Proof. left. exists [], []. split; [reflexivity|]. split; [constructor|]. split; [now left|]. split; [|discriminate]. intros w' _. exists 0, []. split; [reflexivity|now left]. Qed.
Lemma comment_break k c : ~ In 10%N c -> ~ In 13%N c -> break_after [10%N] k Done (lit " #" ++ c ++ [10%N]).
Proof. intros H1 H2. left. exists (lit " #" ++ c), []. split; [now rewrite app_nil_r, <- app_assoc|]. split; [constructor|]. split; [|split; discriminate]. right. split; [reflexivity|]. exists 0, (35%N :: c). split; [reflexivity|]. now apply comment_intro. Qed.
Lemma line_before nx : break_before [10%N] nx [10%N].
Proof. exists [], []. split; [reflexivity|]. split; [constructor|now left]. Qed.
Lemma comment_before c : ~ In 10%N c -> ~ In 13%N c -> break_before [10%N] false (35%N :: c ++ [10%N]).
Proof. intros H1 H2. exists (35%N :: c), []. split; [reflexivity|]. split; [constructor|]. right. split; [reflexivity|]. now apply comment_intro. Qed.
Lemma name_intro x t : is_alnum x = true -> Forall id_char t -> name_ok (x :: t).
Proof. intros. exists x, t. auto. Qed.

Definition wls : list dline := [DTag (Named (lit "e")) (lit "x:")].
Definition wtext : str := (List.concat [lit "%TAG !e! x:"; [10]; lit "--- # head"; [10]; lit "a: &q !e!t [1, w] # note"; [10]; lit "? b"; [10]; lit ":"; [10];
   lit "  - *q"; [10]; lit "  -"; [10]; lit "  - |"; [10]; lit "    line"; [10]; lit "..."; [10]; lit "--- &d"; [10]; lit "end: "])%N.
Definition wq : node := Node 34 (lit "x:t") (YSeq [Node 35 [] (YInt (lit "1")); Node 38 [] (YStr (lit "w"))]).
Definition wseq (cyclic : bool) : list node := [Node 58 [] (alias_of cyclic (lit "q") wq); Node 64 [] YNull; Node 69 [] (YStr (lit "line" ++ [10%N]))].
Definition wd : node := Node 90 [] (YMap [(Node 91 [] (YStr (lit "end")), Node 96 [] YNull)]).
Definition wnodes (cyclic : bool) : list node :=
  [Node 16 [] (YMap [(Node 23 [] (YStr (lit "a")), wq); (Node 50 [] (YStr (lit "b")), Node 53 [] (YSeq (wseq cyclic)))]); wd].
Definition wscopes : list scope := [[(lit "q", wq)]; [(lit "d", wd)]].
(** the text of the sequence from its first item on, and from its dash on *)
Definition wi : str := lit "*q" ++ [10%N] ++ lit "  -" ++ [10%N] ++ lit "  - |" ++ [10%N] ++ lit "    line".
Definition wb : str := lit "? b" ++ [10%N] ++ lit ":" ++ [10%N] ++ lit "  - " ++ wi.
Example C48_witness : forall cyclic, Forall line_ok wls /\ count_yaml wls <= 1 /\ stream cyclic [10%N] wls (wnodes cyclic) wscopes wtext.
Proof.
  intros cyc. split; [|split; [cbn; lia|]].
  { constructor; [|constructor]. split; [exists 101%N, []; repeat split; constructor|]. split; [split; [reflexivity|split; nocr]|].
    split; [nocr|]. split; [discriminate|]. split; discriminate. }
  (* the flow sequence *)
  assert (F1 : coll cyc (resolve wls) [10%N] 2 34 [] (n_yaml wq) (lit "[1, w]") []).
  { apply (FSeq cyc (resolve wls) [10%N] 2 34 [] _ (lit "1, w]") []).
    apply (FIMore cyc (resolve wls) [10%N] 2 35 [] [] (Node 35 [] (YInt (lit "1"))) (lit "1") [] [Node 38 [] (YStr (lit "w"))] (lit " w]") [] [] Num).
    - constructor.
    - apply (FBare cyc (resolve wls) [10%N] 6 35 []). apply FAtom. apply int_atom. apply DecLit; [discriminate|]. constructor; [unfold digit; lia|constructor].
    - split; [constructor|]. intros _. split; nocr.
    - apply (FIOne cyc (resolve wls) [10%N] 2 37 [] (lit " ") (Node 38 [] (YStr (lit "w"))) (lit "w") [] [] Done).
      + constructor; [nocr|constructor].
      + apply (FBare cyc (resolve wls) [10%N] 6 38 []). apply FAtom. watom.
      + split; [constructor|discriminate]. }
  assert (P1 : props (resolve wls) false (lit "q") (lit "x:t") (lit "&q !e!t ")).
  { apply (PAnchorTag (resolve wls) false (lit "q") (lit " ") (RNamed (lit "e") (lit "t")) (lit "x:t") (lit " ")).
    - apply name_intro; [reflexivity|constructor].
    - apply sp.
    - split; [|split; [reflexivity|discriminate]]. split; [apply name_intro; [reflexivity|constructor]|right; apply name_intro; [reflexivity|constructor]].
    - left. apply sp. }
  assert (E1 : entry cyc (resolve wls) [10%N] 0 23 false [] (Node 23 [] (YStr (lit "a"))) wq (lit "a: &q !e!t [1, w]") [(lit "q", wq)] Done).
  { apply (ESimple cyc (resolve wls) [10%N] 0 23 false [] _ (lit "a") [] false (lit " ") wq (lit "&q !e!t [1, w]")).
    - apply (KBare cyc (resolve wls) [10%N] 2 23 false [] _ _ _ Done). apply IAtom. watom.
    - left. apply sp.
    - apply (Props cyc (resolve wls) [10%N] true 0 26 false [] (lit "q") (lit "x:t") (lit "&q !e!t ") (n_yaml wq) (lit "[1, w]") [] _ Done P1).
      + apply VHere. apply IColl. exact F1.
      + apply NewName; [discriminate|reflexivity]. }
  assert (I2 : items cyc (resolve wls) [10%N] 2 64 true [(lit "q", wq)] [Node 64 [] YNull; Node 69 [] (YStr (lit "line" ++ [10%N]))]
    ([10%N] ++ lit "  - |" ++ [10%N] ++ lit "    line") [(lit "q", wq)] (Open 4)).
  { apply (SMore cyc (resolve wls) [10%N] 2 64 true _ _ [] [(lit "q", wq)] (Void 4 true) [10%N] false (lit " ") _ (lit "|" ++ [10%N] ++ lit "    line")).
    - apply (Bare cyc (resolve wls) [10%N] false 4 64). apply CEmpty. lia.
    - apply plain_break; [discriminate|]. intros w nx i [= <- _] [= <-]. lia.
    - left. apply sp.
    - apply SOne. apply (Bare cyc (resolve wls) [10%N] false 4 69). apply CLines; [lia|].
      apply (BLiteral [10%N] 4 [10%N] [] [] (lit "line") []); [now left|constructor|discriminate| |].
      + constructor; [|constructor]. split; [reflexivity|repeat constructor; discriminate|cbn; lia].
      + exists 101%N, (lit "lin"). split; reflexivity. }
  assert (I1 : items cyc (resolve wls) [10%N] 2 58 false [(lit "q", wq)] (wseq cyc) wi [(lit "q", wq)] (Open 4)).
  { apply (SMore cyc (resolve wls) [10%N] 2 58 false _ _ (lit "*q") [(lit "q", wq)] Done [10%N] true [] _ ([10%N] ++ lit "  - |" ++ [10%N] ++ lit "    line")).
    - apply (Bare cyc (resolve wls) [10%N] false 4 58). apply CHere. apply BInline. apply IAtom. apply AAlias; [apply name_intro; [reflexivity|constructor]|reflexivity].
    - apply plain_break; discriminate.
    - right. auto.
    - exact I2. }
  assert (E2 : entry cyc (resolve wls) [10%N] 0 48 false [(lit "q", wq)] (Node 50 [] (YStr (lit "b"))) (Node 53 [] (YSeq (wseq cyc))) wb [(lit "q", wq)] (Open 4)).
  { apply (EExplicit cyc (resolve wls) [10%N] 0 48 false _ false (lit " ") _ (lit "b") [(lit "q", wq)] Done [10%N] true [] _ ([10%N] ++ lit "  - " ++ wi)).
    - left. apply sp.
    - apply (Bare cyc (resolve wls) [10%N] true 0 50). apply VHere. apply IAtom. watom.
    - apply plain_break; discriminate.
    - right. auto.
    - apply (Bare cyc (resolve wls) [10%N] true 0 53).
      apply (VNext cyc (resolve wls) [10%N] 0 2 53 true _ [10%N] _ (lit "- " ++ wi)); [lia|apply line_before|].
      apply (BSeq cyc (resolve wls) [10%N] 2 56 false _ false (lit " ") _ wi); [left; apply sp|]. exact I1. }
  apply (StMark cyc [10%N] wls [] false (lit " ") _
    (lit "# head" ++ [10%N] ++ lit "a: &q !e!t [1, w] # note" ++ [10%N] ++ wb)
    _ (Open 4) _ _ ([10%N] ++ lit "..." ++ [10%N] ++ lit "--- &d" ++ [10%N] ++ lit "end: ")).
  - now left.
  - left. apply sp.
  - apply (Bare cyc (resolve wls) [10%N] false 0 16).
    apply (CNext cyc (resolve wls) [10%N] 0 16 false [] (lit "# head" ++ [10%N]) _
      (lit "a: &q !e!t [1, w] # note" ++ [10%N] ++ wb)).
    + apply (comment_before (lit " head")); nocr.
    + apply BMap.
      * apply (EMore cyc (resolve wls) [10%N] 0 23 false [] _ _ (lit "a: &q !e!t [1, w]") _ Done (lit " # note" ++ [10%N]) _ wb _ _ E1).
        -- apply (comment_break _ (lit " note")); nocr.
        -- apply EOne. exact E2.
      * split; [|repeat constructor]. constructor; [|constructor; constructor]. constructor; [|constructor]. cbn. intros K. inversion K.
  - apply (MNext cyc (resolve wls) [10%N] 79 (Open 4) ([10%N] ++ lit "..." ++ [10%N]) false (lit " ") _ (lit "&d" ++ [10%N] ++ lit "end: ") _ (Void 0 false) [] [] []).
    + apply (CloseDots [10%N] (Open 4) false [10%N] [10%N]); [apply open_break|apply plain_break; discriminate].
    + left. apply sp.
    + apply (BelowProps cyc (resolve wls) [10%N] 88 false true (lit "d") [] (lit "&d") [10%N] (n_yaml wd) (lit "end: ") []); [reflexivity| | | |].
      * apply (PAnchor (resolve wls) true (lit "d") []); [apply name_intro; [reflexivity|constructor]|right; auto].
      * apply line_before.
      * apply BMap; [|split; [constructor; constructor|repeat constructor]]. apply EOne.
        apply (ESimple cyc (resolve wls) [10%N] 0 91 false [] _ (lit "end") [] false (lit " ") _ []).
        -- apply (KBare cyc (resolve wls) [10%N] 2 91 false [] _ _ _ Done). apply IAtom. watom.
        -- left. apply sp.
        -- apply (Bare cyc (resolve wls) [10%N] true 0 96). apply VEmpty.
      * apply NewName; [discriminate|reflexivity].
    + apply MEnd. apply CloseBreak. apply file_end. eauto.
Qed.

(** blanks behind a word and behind a number in a flow sequence *)
Example C48_trailing_witness : stream false [10%N] [] [Node 0 [] (YSeq [Node 2 [] (YStr (lit "x")); Node 6 [] (YInt (lit "1"))])] [[]] ([91%N; 32%N] ++ lit "x  ,1   ]" ++ [10%N]).
Proof.
  apply (StPlain false [10%N] [] false _ ([91%N; 32%N] ++ lit "x  ,1   ]") [] Done [] [] [10%N]); [reflexivity| |].
  - apply (Bare false (resolve []) [10%N] false 0 0). apply CHere. apply BInline. apply IColl. apply (FSeq false (resolve []) [10%N] 2 0 [] _ ([32%N] ++ lit "x  ,1   ]") []).
    apply (FIMore false (resolve []) [10%N] 2 1 [] [32%N] _ (lit "x  ") [] [Node 6 [] (YInt (lit "1"))] (lit "1   ]") [] [] Done).
    + repeat constructor.
    + apply (FBare false (resolve []) [10%N] 6 2 []). apply FAtom. destruct (letters_word true (lit "x") ltac:(discriminate) eq_refl eq_refl) as [W M].
      apply (AWord false true [] (lit "x") [32%N; 32%N] _ W); [repeat apply Forall_cons; try apply Forall_nil; unfold blank; auto|exact M].
    + split; [constructor|discriminate].
    + apply (FIOne false (resolve []) [10%N] 2 6 [] [] _ (lit "1   ") [] [] Num).
      * constructor.
      * apply (FBare false (resolve []) [10%N] 6 6 []). apply FAtom. apply (AInt false true [] (lit "1") 3). apply DecLit; [discriminate|]. constructor; [unfold digit; lia|constructor].
      * split; [constructor|]. intros _. split; nocr.
  - apply MEnd. apply CloseBreak. apply plain_break; discriminate.
Qed.
(** Why the grammar says no more: beside its limits other texts are read, but
    not as they are written. An empty value takes the next entry or the end
    marker for its own; a comment behind an integer, or the end of the
    file, makes it a string; a scalar on the line of the second [---] can take
    the parser into a loop (C25_marker_line_refuted). *)
Theorem C48_outside_refuted : forall hk,
  parse hk (lit "a:" ++ [10%N] ++ lit "b: c" ++ [10%N])
    = ROk [Node 0 [] (YMap [(Node 0 [] (YStr (lit "a")), Node 2 [] (YMap [(Node 3 [] (YStr (lit "b")), Node 6 [] (YStr (lit "c")))]))])]
  /\ parse hk (lit "a:" ++ [10%N] ++ lit "..." ++ [10%N]) = ROk [Node 0 [] (YMap [(Node 0 [] (YStr (lit "a")), Node 2 [] (YStr (lit "...")))])]
  /\ parse hk (lit "12 # b" ++ [10%N]) = ROk [Node 0 [] (YStr (lit "12"))]
  /\ parse hk (lit "12") = ROk [Node 0 [] (YStr (lit "12"))]
  /\ (exists m, parse hk (lit "- 'q' " ++ [10%N]) = RErr (Terminate (lit "sequence terminator") m))
  /\ (exists m, parse hk (lit "- [a] " ++ [10%N]) = RErr (Terminate (lit "sequence terminator") m))
  /\ (exists m, parse hk (lit "- x  " ++ [10%N] ++ lit "  " ++ [10%N] ++ lit "- d" ++ [10%N]) = RErr (Terminate (lit "document splitter") m)).
Proof. intros hk. repeat split; try (eexists; vm_compute; reflexivity); vm_compute; reflexivity. Qed.
