(** * C48: states, line breaks and properties *)
From Verif Require Export PropAnchor BlockRun Gram.
Open Scope nat_scope.

(** ** Line breaks *)
Section Breaks.
Variable eol : str.
Hypothesis eol_ok : eol = [10%N] \/ eol = [13; 10]%N.
Let lines := lines eol.

Lemma eol_encode : utf8_encode eol = eol.
Proof. destruct eol_ok as [-> | ->]; reflexivity. Qed.
Lemma eol_ne : eol <> []. Proof. destruct eol_ok as [-> | ->]; discriminate. Qed.
(** the character behind a line break does not join it *)
Definition apart (r : bytes) : Prop := match r with x :: _ => x <> 13%N \/ eol = [13; 10]%N | [] => True end.
Lemma nl_eol r : apart r -> nl_len (eol ++ r) = List.length eol.
Proof.
  intros H. destruct eol_ok as [E|E]; rewrite E.
  - apply no_cr_lf. destruct r; [exact I|]. destruct H as [H|H]; [exact H|rewrite E in H; discriminate].
  - reflexivity.
Qed.
Lemma comment_encode c : comment_text c -> exists r, utf8_encode c = 35%N :: r /\ ~ In 10%N r /\ ~ In 13%N r.
Proof.
  intros (r & -> & H1 & H2). rewrite encode_cons_ascii by lia. exists (utf8_encode r). split; [reflexivity|].
  split; apply encode_no; auto; lia.
Qed.
Lemma comment_text_len w c z : Forall blank w -> comment_text c ->
  comment_len (w ++ utf8_encode c ++ eol ++ z) = List.length w + blen c.
Proof.
  intros Hw Hc. destruct (comment_encode c Hc) as (r & E & H1 & H2). rewrite E. unfold comment_len.
  assert (WL : ws_len (w ++ (35%N :: r) ++ eol ++ z) = List.length w) by (unfold ws_len; apply span_app; [now apply blanks_ws_all|reflexivity]).
  rewrite WL, skipn_app_len. cbn [app N.eqb Pos.eqb List.length]. rewrite span_app.
  - lia.
  - apply forallb_forall. intros x Hx. apply not_in_spec. intros [<-|[<-|[]]]; contradiction.
  - destruct eol_ok as [-> | ->]; reflexivity.
Qed.
Lemma comment_len_eol z : comment_len (eol ++ z) = 0.
Proof. destruct eol_ok as [-> | ->]; reflexivity. Qed.
Lemma lines_apart g l : lines g -> apart l -> apart (utf8_encode g ++ l).
Proof.
  intros F H; destruct F as [|g' _|w c g' Hw Hc _]; [exact H| |].
  - rewrite encode_app, eol_encode. destruct eol_ok as [E|E]; rewrite E; cbn; [left; discriminate|right; exact E].
  - rewrite !encode_app. destruct (comment_encode c Hc) as (r & E & _). rewrite E.
    destruct w as [|x w]; [cbn; left; discriminate|]. inversion Hw as [|? ? Hx _]; subst.
    rewrite encode_cons_ascii by (unfold blank in Hx; lia). cbn. unfold blank in Hx. left. lia.
Qed.
Lemma lines_skip g : lines g -> forall l n, nl_len l = 0 -> comment_len l = 0 -> apart l ->
  List.length (utf8_encode g ++ l) < n -> snd (gap_lines n true (utf8_encode g ++ l)) = blen g.
Proof.
  pose proof eol_ne as EN.
  induction 1 as [|g Hg IH|w c g Hw Hc Hg IH]; intros l n N0 C0 NC Hn; (destruct n as [|n]; [lia|]).
  - cbn [utf8_encode flat_map app gap_lines]. unfold line_skip. rewrite C0. cbn [skipn]. cbv zeta. now rewrite N0.
  - rewrite encode_app, eol_encode, <- app_assoc in *. rewrite !app_length in *.
    assert (Hpos : 0 < List.length eol) by (destruct eol; [congruence|cbn; lia]).
    cbn [gap_lines]. unfold line_skip. rewrite comment_len_eol. cbn [skipn]. cbv zeta.
    rewrite nl_eol by now apply lines_apart. rewrite (proj2 (Nat.eqb_neq _ _)) by lia. cbn [Nat.add snd].
    rewrite skipn_app_len, IH; [reflexivity|assumption..|rewrite app_length; lia].
  - assert (EX : utf8_encode (w ++ c ++ eol ++ g) ++ l = w ++ utf8_encode c ++ eol ++ utf8_encode g ++ l).
    { rewrite !encode_app, eol_encode, (blanks_encode w Hw), <- !app_assoc. reflexivity. }
    rewrite EX in *. assert (Hpos : 0 < List.length eol) by (destruct eol; [congruence|cbn; lia]).
    cbn [gap_lines]. unfold line_skip. rewrite comment_text_len by assumption. cbv zeta.
    assert (SK : skipn (List.length w + blen c) (w ++ utf8_encode c ++ eol ++ utf8_encode g ++ l) = eol ++ utf8_encode g ++ l).
    { rewrite <- skipn_add. now rewrite !skipn_app_len. }
    rewrite SK, nl_eol by now apply lines_apart. rewrite (proj2 (Nat.eqb_neq _ _)) by lia.
    rewrite <- (skipn_add _ (List.length eol)), SK, skipn_app_len. cbn [snd].
    rewrite !app_length in Hn. rewrite IH; [|assumption..|rewrite app_length; lia].
    rewrite !encode_app, eol_encode, (blanks_encode w Hw), !app_length. lia.
Qed.

(** any of the breaks *)
Definition brk (b : str) : Prop :=
  (exists tr g, b = tr ++ eol ++ g /\ lines g /\ (tr = [] \/ exists s c, tr = s ++ c /\ Forall blank s /\ comment_text c))
  \/ (exists g, b = 10%N :: g /\ lines g).
(** ... also what a block scalar leaves of a Windows line break *)
Lemma lf_lines g : lines g -> forall l n, nl_len l = 0 -> comment_len l = 0 -> apart l ->
  List.length (10%N :: utf8_encode g ++ l) < n -> snd (gap_lines n true (10%N :: utf8_encode g ++ l)) = 1 + blen g.
Proof.
  destruct eol_ok as [E|E].
  { intros Hg l n N0 C0 NC Hn. assert (H : lines (eol ++ g)) by now constructor.
    pose proof (lines_skip (eol ++ g) H l n N0 C0 NC) as K. rewrite encode_app, eol_encode, E in K. cbn [app List.length] in K. now apply K. }
  induction 1 as [|g Hg IH|w c g Hw Hc Hg IH]; intros l n N0 C0 NC Hn; (destruct n as [|n]; [lia|]); cbn [gap_lines]; unfold line_skip;
    change (comment_len (10%N :: ?z)) with 0; cbn [skipn]; cbv zeta.
  - cbn [utf8_encode flat_map app] in *. assert (LH : nl_len (10%N :: l) = 1).
    { apply no_cr_lf. destruct l as [|x l]; [exact I|]. intros ->. rewrite nl_len_alt in N0. unfold nl_len' in N0. destruct (starts_with [13; 10]%N (13%N :: l)); discriminate. }
    rewrite LH. cbn [Nat.eqb Nat.add skipn snd List.length]. destruct n as [|n]; [cbn in Hn; lia|]. cbn [gap_lines]. unfold line_skip. rewrite C0. cbn [skipn]. cbv zeta. now rewrite N0.
  - rewrite encode_app, eol_encode, E in *. cbn [app] in *. change (nl_len (10%N :: 13%N :: ?z)) with 2. cbn [Nat.eqb Nat.add skipn snd List.length] in *.
    rewrite IH by (assumption || (cbn [List.length]; lia)). lia.
  - assert (LH : nl_len (10%N :: utf8_encode (w ++ c ++ eol ++ g) ++ l) = 1).
    { apply no_cr_lf. rewrite !encode_app, (blanks_encode w Hw). destruct (comment_encode c Hc) as (q & Ec & _). rewrite Ec.
      destruct w as [|x w]; [cbn; discriminate|]. inversion Hw as [|? ? Hx _]; subst. cbn. unfold blank in Hx. lia. }
    rewrite LH. cbn [Nat.eqb Nat.add skipn snd]. rewrite (lines_skip (w ++ c ++ eol ++ g)); [reflexivity|now constructor|assumption..|cbn [List.length] in Hn; lia].
Qed.
Lemma before_brk nx b : break_before eol nx b -> brk b.
Proof.
  intros (tr & g & E & Hg & K). left. exists tr, g. split; [exact E|]. split; [exact Hg|]. destruct K as [K|[_ K]]; [now left|].
  right. exists [], tr. split; [reflexivity|]. split; [constructor|exact K].
Qed.
Lemma sep_blank s : sep s -> Forall blank s.
Proof. intros (r & -> & H). constructor; [unfold blank; auto|exact H]. Qed.
Lemma after_brk k f b : break_after eol k f b -> brk b \/ k = None /\ b = [].
Proof.
  intros [(tr & g & E & Hg & K & _)|(H1 & H2 & _)]; [left; left|right; auto]. exists tr, g. split; [exact E|]. split; [exact Hg|]. destruct K as [K|(_ & z & c & E' & Hc)]; [now left|].
  right. exists (indent (S z)), c. split; [exact E'|]. split; [|exact Hc]. apply Forall_forall. intros x Hx. apply repeat_spec in Hx as ->. unfold blank. auto.
Qed.
(** [k] spaces and then the end or a visible character *)
Definition line_start (k : nat) (r : bytes) : Prop := r = [] /\ k = 0 \/ shown r.
Lemma start_apart k r : line_start k r -> apart (repeat 32%N k ++ r).
Proof.
  intros H. destruct (spaces_shown k r H) as (_ & _ & _ & S & _). unfold no_cr in S. unfold apart.
  destruct (repeat 32%N k ++ r); [exact I|now left].
Qed.
Lemma brk_gap b k r : brk b -> line_start k r -> exists t, gap_f true (utf8_encode b ++ repeat 32%N k ++ r) = Some (t, blen b).
Proof.
  intros [(tr & g & -> & Hg & Ht)|(g & -> & Hg)] Hr.
  2:{ destruct (spaces_shown k r Hr) as (S1 & S2 & _). pose proof (start_apart k r Hr) as AP. set (z := repeat 32%N k ++ r) in *.
    rewrite encode_cons_ascii by lia. cbn [app List.length]. assert (HM : exists m, List.length (10%N :: utf8_encode g ++ z) < m) by (eexists; apply Nat.lt_succ_diag_r). destruct HM as (m & HM).
    pose proof (lf_lines g Hg z (S m) S1 S2 AP) as K.
    cbn [gap_lines] in K. unfold line_skip in K. change (comment_len (10%N :: utf8_encode g ++ z)) with 0 in K. cbn [skipn Nat.add] in K. cbv zeta in K.
    unfold gap_f, gap_head. change (comment_len (10%N :: utf8_encode g ++ z)) with 0. cbv zeta. cbn [skipn Nat.add].
    destruct (Nat.eqb (nl_len (10%N :: utf8_encode g ++ z)) 0) eqn:Z.
    - exfalso. cbn [snd] in K. specialize (K ltac:(lia)). lia.
    - cbn [snd] in K. specialize (K ltac:(lia)). eexists. f_equal. f_equal. rewrite <- K. f_equal. f_equal. apply gap_lines_fuel; [lia|].  rewrite skipn_length. cbn [List.length] in *. apply Nat.eqb_neq in Z. lia. }
  pose proof eol_ne as EN. assert (Hpos : 0 < List.length eol) by (destruct eol; [congruence|cbn; lia]).
  destruct (spaces_shown k r Hr) as (S1 & S2 & _). pose proof (start_apart k r Hr) as AP.
  set (z := repeat 32%N k ++ r) in *.
  assert (K : exists h, gap_head true (utf8_encode tr ++ eol ++ utf8_encode g ++ z) = h /\ h = blen tr).
  { eexists. split; [reflexivity|]. unfold gap_head. destruct Ht as [->|(s & c & -> & Hs & Hc)].
    - cbn [app utf8_encode flat_map]. apply comment_len_eol.
    - rewrite encode_app, (blanks_encode s Hs), <- app_assoc, app_length. now apply comment_text_len. }
  destruct K as (h & K1 & K2).
  rewrite !encode_app, eol_encode, <- !app_assoc. unfold gap_f. rewrite K1, K2. cbv zeta.
  rewrite skipn_app_len, nl_eol by now apply lines_apart. rewrite (proj2 (Nat.eqb_neq _ _)) by lia.
  rewrite <- skipn_add, !skipn_app_len. eexists. f_equal. f_equal. rewrite !app_length.
  rewrite (lines_skip g Hg z _ S1 S2 AP) by (rewrite app_length; lia). lia.
Qed.
(** the first byte *)
Lemma brk_head b : brk b -> exists x q, utf8_encode b = x :: q /\ In x [10; 13; 32; 9; 12; 35]%N.
Proof.
  intros [(tr & g & -> & Hg & Ht)|(g & -> & Hg)]; [|rewrite encode_cons_ascii by lia; eexists _, _; split; [reflexivity|simpl; auto]].
  rewrite !encode_app, eol_encode. destruct Ht as [->|(s & c & -> & Hs & Hc)].
  - destruct eol_ok as [-> | ->]; cbn [app utf8_encode flat_map]; eexists _, _; (split; [reflexivity|simpl; auto]).
  - rewrite encode_app. destruct (comment_encode c Hc) as (r & E & _). destruct s as [|x s].
    + rewrite E. cbn [app utf8_encode flat_map]. eexists _, _. split; [reflexivity|simpl; auto 10].
    + inversion Hs as [|? ? Hx _]; subst. rewrite encode_cons_ascii by (unfold blank in Hx; lia).
      cbn [app]. eexists _, _. split; [reflexivity|]. unfold blank in Hx. simpl. intuition.
Qed.
(** behind a node: a break, a separator and a comment, or the line break *)
Lemma after_head k f b : break_after eol k f b -> (exists x q, utf8_encode b = x :: q
  /\ (x = 10%N \/ x = 13%N \/ f = Done /\ x = 32%N)) \/ k = None /\ b = [] /\ (f = Done \/ exists w, f = Void w false).
Proof.
  intros [(tr & g & -> & Hg & Ht & _)|H]; [left|right; exact H]. rewrite !encode_app, eol_encode. destruct Ht as [->|(Hf & z & c & -> & Hc)].
  - destruct eol_ok as [-> | ->]; cbn [app utf8_encode flat_map]; eexists _, _; (split; [reflexivity|auto]).
  - unfold indent. cbn [repeat app]. rewrite encode_cons_ascii by lia. cbn [app]. eexists _, _. split; [reflexivity|auto].
Qed.
(** behind a node, the file may end *)
Definition here (k : nat) (r : bytes) : option nat := match r with [] => None | _ => Some k end.
Definition brkr (r : bytes) (b : str) : Prop := brk b \/ r = [] /\ b = [].
Lemma after_brkr k r f b : break_after eol (here k r) f b -> brkr r b.
Proof. intros H. destruct (after_brk _ f b H) as [K|[K1 K2]]; [now left|]. right. split; [|exact K2]. destruct r; [reflexivity|discriminate K1]. Qed.
Lemma brkr_brk r b : brkr r b -> r <> [] -> brk b.
Proof. intros [H|[H _]] K; [exact H|contradiction]. Qed.
(** of the break [b] the node has taken [j] spaces, or all of it *)
Definition left_over (r : bytes) (b : str) (j : nat) (b' : str) : Prop :=
  utf8_encode b = repeat 32%N j ++ utf8_encode b' /\ brk b' \/ r = [] /\ b' = [] /\ j = blen b
  \/ utf8_encode b = 13%N :: utf8_encode b' /\ brk b' /\ j = 1.
Lemma left_none k r f b : break_after eol (here k r) f b -> left_over r b 0 b.
Proof. intros H. destruct (after_brkr k r f b H) as [K|[K1 K2]]; [left; auto|right; left]. subst. auto. Qed.
Lemma left_open k r w b : break_after eol (here k r) (Open w) b -> exists b', left_over r b (List.length eol - 1) b'.
Proof.
  intros H. destruct eol_ok as [E|E].
  - exists b. rewrite E. cbn [List.length Nat.sub]. now apply left_none with (k := k) (f := Open w).
  - destruct H as [(tr & g & -> & Hg & [->|[[=] _]] & _)|(_ & _ & [[=]|(? & [=])])]. exists (10%N :: g). right. right.
    rewrite E. cbn [app]. rewrite !encode_cons_ascii by lia. cbn [app]. split; [reflexivity|]. split; [right; eauto|reflexivity].
Qed.
Lemma left_len r b j b' : left_over r b j b' -> blen b = j + blen b'.
Proof. intros [(-> & _)|[(_ & -> & ->)|(-> & _ & ->)]]; [now rewrite app_length, repeat_length|cbn; lia|reflexivity]. Qed.
Lemma left_brkr r b j b' : left_over r b j b' -> brkr r b'.
Proof. intros [(_ & H)|[(-> & -> & _)|(_ & H & _)]]; [now left|right; auto|now left]. Qed.
End Breaks.

(** ** Anchors *)
Definition table (e : scope) : anchors_t := fold_right (fun x m => bt_insert (fst x) (snd x) m) [] e.
Lemma lookup_table a e : bt_get a (table e) = lookup a e.
Proof.
  induction e as [|[b n] e IH]; [reflexivity|]. cbn [table fold_right fst snd lookup]. fold (table e).
  destruct (str_eqb a b) eqn:E.
  - apply str_eqb_eq in E as ->. apply bt_get_insert.
  - rewrite bt_get_insert_other by exact E. exact IH.
Qed.

(** ** States *)
(** The states met while a document is read: [B] gives the text and all that
    stays the same. *)
Definition mk (B : st) (p q : nat) (tb : list nat) (e : scope) : st :=
  mkSt (p_doc B) tb (p_consumed B) (p_version B) (p_tag B) p q (l_cyclic B)
    (upd_nth (l_anchors B) (l_doc_ind B) (fun _ => table e)) (l_doc_ind B) (p_hash B).
(** at byte [o] stands [l] *)
Definition at_ (B : st) (o : nat) (l : bytes) : Prop := o <= List.length (p_doc B) /\ skipn o (p_doc B) = l.
Lemma at_app B o a l : at_ B o (a ++ l) -> at_ B (o + List.length a) l.
Proof.
  intros [H1 H2]. assert (L : List.length (skipn o (p_doc B)) = List.length a + List.length l) by now rewrite H2, app_length.
  rewrite skipn_length in L. split; [lia|]. rewrite <- skipn_add, H2. apply skipn_app_len.
Qed.
Lemma at_cons B o x l : at_ B o (x :: l) -> at_ B (o + 1) l.
Proof. intros H. apply (at_app B o [x] l H). Qed.
Lemma at_add B o k l : at_ B o l -> k <= List.length l -> at_ B (o + k) (skipn k l).
Proof.
  intros H Hk. rewrite <- (firstn_skipn k l) in H. apply at_app in H. rewrite firstn_length, Nat.min_l in H by exact Hk. exact H.
Qed.
Lemma at_in B o l q tb e : at_ B o l -> in_doc (mk B o q tb e). Proof. intros [H _]. exact H. Qed.
Lemma at_rem B o l q tb e : at_ B o l -> rem (mk B o q tb e) = l. Proof. intros [_ H]. exact H. Qed.
Lemma mk_AT B o tb e : AT (mk B o o tb e). Proof. reflexivity. Qed.
Lemma set_pos_mk B p p' q tb e : set_pos p' (mk B p q tb e) = mk B p' q tb e. Proof. reflexivity. Qed.
Lemma mk_eq B p p' q q' tb e : p = p' -> q = q' -> mk B p q tb e = mk B p' q' tb e. Proof. now intros -> ->. Qed.
Lemma moves_mk B L k o q tb e s' : moves L k (mk B o q tb e) s' -> exists tb' E, s' = mk B (o + k) E tb' e /\ agree L tb tb'.
Proof. intros (tb' & E & -> & H). exists tb', E. split; [reflexivity|exact H]. Qed.
Lemma after_mk B L k o q tb e s' : after L k (mk B o q tb e) s' ->
  exists tb', s' = mk B (o + k) q tb' e /\ (tb' = tb \/ tb' = ind_norm L tb).
Proof. intros (tb' & -> & H). exists tb'. split; [reflexivity|exact H]. Qed.

(** ** Properties *)
Lemma name_encode a : name_ok a -> utf8_encode a = a.
Proof. intros H. apply encode_asciis, name_asciis, H. Qed.
Lemma name_ident a x r : name_ok a -> is_idc x = false -> ident_len (a ++ x :: r) = List.length a.
Proof.
  intros (c & t & -> & Hc & Ht) Hx. cbn [app ident_len]. rewrite Hc. cbn [List.length]. f_equal. apply span_app; [|exact Hx].
  apply forallb_forall. intros y Hy. rewrite Forall_forall in Ht. specialize (Ht y Hy). unfold id_char in Ht. unfold is_idc.
  apply orb_true_iff. destruct Ht as [Ht| ->]; [left; exact Ht|right; reflexivity].
Qed.
Lemma name_length a : name_ok a -> 0 < List.length a.
Proof. intros (c & t & -> & _). cbn. lia. Qed.
Lemma name_ne a : name_ok a -> a <> [].
Proof. intros (c & t & -> & _). discriminate. Qed.
(** an anchor or an alias *)
Lemma mark_exec c a x r s : in_doc s -> name_ok a -> is_idc x = false -> rem s = c :: a ++ x :: r ->
  bind (sym c) (fun _ => context (bind identifier (fun _ => text))) s = (ROk a, set_pos (p_pos s + (1 + List.length a)) s).
Proof.
  intros H Ha Hx R. rewrite (named_exec c s H), R. cbv zeta. unfold anchor_f. rewrite N.eqb_refl, (name_ident a x r Ha Hx).
  pose proof (name_length a Ha). rewrite (proj2 (Nat.eqb_neq _ _)) by lia. cbn [skipn]. rewrite firstn_app_len.
  rewrite utf8_lossy_ascii by now apply name_asciis. f_equal. f_equal. lia.
Qed.

(** a separator, or nothing in front of a line break; then no more blanks *)
Definition mark_end (w : str) (R : bytes) : Prop :=
  (sep w \/ w = [] /\ exists x q, R = x :: q /\ (x = 10%N \/ x = 13%N)) /\ (match R with x :: _ => is_ws x = false | [] => True end).
Lemma mark_end_head w R : mark_end w R -> exists x q, w ++ R = x :: q /\ In x [32; 10; 13]%N.
Proof.
  intros [[(r & -> & _)|(-> & x & q & -> & K)] _]; cbn [app]; eexists _, _; (split; [reflexivity|]); [simpl; auto|].
  destruct K as [-> | ->]; simpl; auto.
Qed.
Lemma mark_end_ws w R : mark_end w R -> at_bound (w ++ R) = true /\ ws_len (w ++ R) = List.length w.
Proof.
  intros H. destruct (mark_end_head w R H) as (x & q & E & K). split.
  - rewrite E. destruct K as [<-|[<-|[<-|[]]]]; reflexivity.
  - destruct H as [H1 H2]. unfold ws_len. apply span_app; [|destruct R; auto].
    destruct H1 as [H1|(-> & _)]; [apply blanks_ws_all, sep_blank, H1|reflexivity].
Qed.
Lemma sep_or_mark nx w R : sep_or nx w -> (match R with x :: _ => is_ws x = false /\ (nx = true -> x = 10%N \/ x = 13%N) | [] => nx = false end) -> mark_end w R.
Proof.
  intros [H|[-> ->]] HR; (split; [|destruct R; tauto]).
  - now left.
  - right. split; [reflexivity|]. destruct R as [|x q]; [discriminate|]. exists x, q. tauto.
Qed.
Lemma sep_encode w : sep w -> utf8_encode w = w.
Proof. intros H. now apply blanks_encode, sep_blank. Qed.
Lemma sep_or_encode nx w : sep_or nx w -> utf8_encode w = w.
Proof. intros [H|[_ ->]]; [now apply sep_encode|reflexivity]. Qed.

Lemma mk_bound B o w R q tb e : at_ B o (w ++ R) -> mark_end w R -> bound (mk B o q tb e) = (ROk tt, mk B (o + List.length w) q tb e).
Proof.
  intros H M. rewrite (bound_exec _ (at_in _ _ _ _ _ _ H)), (at_rem _ _ _ _ _ _ H). destruct (mark_end_ws w R M) as [-> ->]. reflexivity.
Qed.
Lemma mk_anchor B o a w R tb e : at_ B o (38%N :: a ++ w ++ R) -> name_ok a -> mark_end w R ->
  unwrap_or [] anchor (mk B o o tb e) = (ROk a, mk B (o + (1 + List.length a)) o tb e)
  /\ bound (mk B (o + (1 + List.length a)) o tb e) = (ROk tt, mk B (o + (1 + List.length a) + List.length w) o tb e).
Proof.
  intros H Ha M. destruct (mark_end_head w R M) as (x & q & E & K). split.
  - unfold anchor. change (chr "&") with 38%N. assert (X : is_idc x = false) by (destruct K as [<-|[<-|[<-|[]]]]; reflexivity).
    assert (RR : rem (mk B o o tb e) = 38%N :: a ++ x :: q) by now rewrite (at_rem _ _ _ _ _ _ H), E.
    rewrite (unwrap_or_eq _ _ _ _ (mark_exec 38%N a x q (mk B o o tb e) (at_in _ _ _ _ _ _ H) Ha X RR)). reflexivity.
  - apply mk_bound with R; [|exact M]. exact (at_app B o (38%N :: a) (w ++ R) H).
Qed.
Lemma no_anchor B o l tb e : at_ B o l -> (match l with x :: _ => x <> 38%N | [] => True end) -> unwrap_or [] anchor (mk B o o tb e) = (ROk [], mk B o o tb e).
Proof.
  intros H Hx. unfold anchor. change (chr "&") with 38%N. erewrite unwrap_or_eq; [|apply miss].
  - reflexivity.
  - exact (at_in _ _ _ _ _ _ H).
  - reflexivity.
  - now rewrite (at_rem _ _ _ _ _ _ H).
Qed.
Lemma no_tag B o l tb e : at_ B o l -> (match l with x :: _ => x <> 33%N | [] => True end) -> unwrap_or [] tag (mk B o o tb e) = (ROk [], mk B o o tb e).
Proof.
  intros H Hx. unfold tag. change (chr "!") with 33%N. erewrite unwrap_or_eq; [|apply miss].
  - reflexivity.
  - exact (at_in _ _ _ _ _ _ H).
  - reflexivity.
  - now rewrite (at_rem _ _ _ _ _ _ H).
Qed.

Section Props.
Variable tags : tagref -> option str.
Variable B : st.
Hypothesis B_consumed : p_consumed B = 0%N.
Hypothesis B_tags : forall r, ref_ok r -> resolve_tab (p_tag B) r = tags r.
Hypothesis B_doc : nth_error (l_anchors B) (l_doc_ind B) <> None.
Lemma mk_indicator o q tb e : indicator_of (mk B o q tb e) = N.of_nat o.
Proof. unfold indicator_of. cbn. rewrite B_consumed. lia. Qed.
Lemma mk_tag o r t w R tb e : at_ B o (utf8_encode (ref_text r) ++ w ++ R) -> tag_text tags r t -> mark_end w R ->
  unwrap_or [] tag (mk B o o tb e) = (ROk t, mk B (o + blen (ref_text r)) o tb e)
  /\ bound (mk B (o + blen (ref_text r)) o tb e) = (ROk tt, mk B (o + blen (ref_text r) + List.length w) o tb e).
Proof.
  intros H (Hr & Ht & _) M. destruct (mark_end_head w R M) as (x & q & E & K). split.
  - assert (X1 : is_alnum x = false) by (destruct K as [<-|[<-|[<-|[]]]]; reflexivity).
    assert (X2 : ~ In x [45; 33; 60]%N) by (destruct K as [<-|[<-|[<-|[]]]]; simpl; intuition discriminate).
    assert (RR : rem (mk B o o tb e) = utf8_encode (ref_text r) ++ x :: q) by now rewrite (at_rem _ _ _ _ _ _ H), E.
    pose proof (tag_exec_z x r (mk B o o tb e) q X1 X2 (at_in _ _ _ _ _ _ H) Hr RR) as TE.
    change (p_tag (mk B o o tb e)) with (p_tag B) in TE. rewrite (B_tags r Hr), Ht in TE.
    rewrite (unwrap_or_eq _ _ _ _ TE). reflexivity.
  - apply mk_bound with R; [|exact M]. now apply at_app.
Qed.
Lemma upd_upd {A} (l : list A) i f g : upd_nth (upd_nth l i f) i g = upd_nth l i (fun x => g (f x)).
Proof. revert i; induction l as [|x l IH]; intros [|i]; cbn; [reflexivity..|]. now rewrite IH. Qed.
Lemma nth_upd {A} (l : list A) i f : nth_error (upd_nth l i f) i = option_map f (nth_error l i).
Proof. revert i; induction l as [|x l IH]; intros [|i]; cbn; [reflexivity..|]. apply IH. Qed.
Lemma mk_anchors p q tb e : nth_error (l_anchors (mk B p q tb e)) (l_doc_ind (mk B p q tb e)) = Some (table e).
Proof. cbn [mk l_anchors l_doc_ind]. rewrite nth_upd. destruct (nth_error _ _); [reflexivity|congruence]. Qed.
Lemma mk_insert a n p q tb e : lookup a e = None -> anchor_insert a n (mk B p q tb e) = (ROk false, mk B p q tb ((a, n) :: e)).
Proof.
  intros H. unfold anchor_insert. rewrite mk_anchors, lookup_table, H. f_equal. unfold mk, set_anchors. cbn. now rewrite upd_upd.
Qed.
(** the end of a node *)
Lemma name_it nd a p q tb e1 e2 : named nd a e1 e2 ->
  (forward ;;; (if is_nil a then ret nd else
    dup <- anchor_insert a nd ;;
    if (dup : bool) then err (lit "duplicated anchor definition") else ret nd)) (mk B p q tb e1) = (ROk nd, mk B p p tb e2).
Proof.
  intros H. unfold bind at 1, forward at 1, modify at 1. change (set_eaten (p_pos (mk B p q tb e1)) (mk B p q tb e1)) with (mk B p p tb e1).
  destruct H as [e|a e Ha Hl]; [reflexivity|]. destruct a; [congruence|]. cbn [is_nil]. unfold bind. now rewrite mk_insert.
Qed.
Lemma node_bare f o l tb e y p' q' tb' e' : at_ B o l -> (match l with x :: _ => x <> 38%N /\ x <> 33%N | [] => True end) ->
  f (mk B o o tb e) = (ROk y, mk B p' q' tb' e') -> scalar_node f (mk B o o tb e) = (ROk (Node (N.of_nat o) [] y), mk B p' p' tb' e').
Proof.
  intros H Hx F. rewrite (scalar_node_exec f _ (at_in _ _ _ _ _ _ H) (mk_AT _ _ _ _)) by now rewrite (at_rem _ _ _ _ _ _ H).
  now rewrite F, mk_indicator.
Qed.
Ltac fwd := unfold bind at 1, forward at 1, modify at 1; match goal with |- context [set_eaten (p_pos (mk B ?p ?q ?tb ?e)) _] =>
  change (set_eaten (p_pos (mk B p q tb e)) (mk B p q tb e)) with (mk B p p tb e) end.
Lemma node_props nx a tg p f o R tb e y p' q' tb' e1 e2 : props tags nx a tg p -> at_ B o (utf8_encode p ++ R) ->
  (match R with x :: _ => x <> 38%N /\ x <> 33%N /\ is_ws x = false /\ (nx = true -> x = 10%N \/ x = 13%N) | [] => nx = false end) ->
  f (mk B (o + blen p) (o + blen p) tb e) = (ROk y, mk B p' q' tb' e1) ->
  named (Node (N.of_nat (o + blen p)) tg y) a e1 e2 ->
  scalar_node f (mk B o o tb e) = (ROk (Node (N.of_nat (o + blen p)) tg y), mk B p' p' tb' e2).
Proof.
  intros P H HR F Nm.
  assert (ME : forall w, sep_or nx w -> mark_end w R) by (intros w Hw; apply (sep_or_mark nx w R Hw); destruct R; tauto).
  assert (HR' : (match R with x :: _ => x <> 38%N | [] => True end) /\ (match R with x :: _ => x <> 33%N | [] => True end)) by (destruct R; tauto).
  destruct HR' as [HR1 HR2].
  assert (NIL : forall t, t <> [] -> @is_nil N t = false) by (intros [|? ?]; [congruence|reflexivity]).
  assert (FIN : forall z (an : str), z = o + blen p -> an = a ->
     (pos <- gets indicator_of ;;
      y <- f ;;
      forward ;;;
      let nd := Node pos tg y in
      if is_nil an then ret nd
      else
        dup <- anchor_insert an nd ;;
        if (dup : bool) then err (lit "duplicated anchor definition") else ret nd) (mk B z z tb e) = (ROk (Node (N.of_nat (o + blen p)) tg y), mk B p' p' tb' e2)).
  { intros z an -> ->. unfold bind at 1, gets at 1. rewrite mk_indicator. unfold bind at 1. rewrite F. cbv zeta. now apply name_it. }
  destruct P as [a w Ha Hw|r t w Ht Hw|a s r t w Ha Hs Ht Hw|a s r t w Ha Hs Ht Hw]; unfold scalar_node.
  - (* an anchor *)
    rewrite !encode_app, (name_encode a Ha), (sep_or_encode nx w Hw) in *. change (utf8_encode (lit "&")) with [38%N] in *.
    cbn [app] in H. rewrite <- app_assoc in H. destruct (mk_anchor B o a w R tb e H Ha (ME w Hw)) as [E1 E2].
    unfold bind at 1. rewrite E1, (NIL a (name_ne a Ha)). unfold bind at 1. rewrite E2. fwd.
    apply (at_app B o (38%N :: a)) in H. apply at_app in H. cbn [List.length] in H. cbn [Nat.add] in *.
    unfold bind at 1. rewrite (no_tag B _ R tb e H HR2). cbn [is_nil]. unfold bind at 1, ret at 1. fwd.
    unfold bind at 1. rewrite (no_anchor B _ R tb e H HR1). cbn [is_nil]. unfold bind at 1, ret at 1. fwd.
    apply FIN; [|reflexivity]. rewrite app_length. cbn [List.length]. rewrite app_length. lia.
  - (* a tag *)
    rewrite !encode_app, (sep_or_encode nx w Hw) in *. rewrite <- app_assoc in H. destruct (mk_tag o r t w R tb e H Ht (ME w Hw)) as [E1 E2].
    destruct (tag_head r) as [x0 X0]. assert (HH : at_ B o (33%N :: x0 ++ w ++ R)) by (rewrite X0 in H; exact H).
    unfold bind at 1. rewrite (no_anchor B _ _ tb e HH) by discriminate. cbn [is_nil]. unfold bind at 1, ret at 1. fwd.
    unfold bind at 1. rewrite E1, (NIL t (proj2 (proj2 Ht))). unfold bind at 1. rewrite E2. fwd.
    apply at_app in H. apply at_app in H.
    unfold bind at 1. rewrite (no_anchor B _ R tb e H HR1). cbn [is_nil]. unfold bind at 1, ret at 1. fwd.
    apply FIN; [|reflexivity]. rewrite app_length. lia.
  - (* anchor and tag *)
    rewrite !encode_app, (name_encode a Ha), (sep_or_encode nx w Hw), (sep_encode s Hs) in *. change (utf8_encode (lit "&")) with [38%N] in *.
    cbn [app] in H. rewrite <- !app_assoc in H. destruct (tag_head r) as [x0 X0].
    assert (M1 : mark_end s (utf8_encode (ref_text r) ++ w ++ R)) by (split; [now left|rewrite X0; reflexivity]).
    destruct (mk_anchor B o a s _ tb e H Ha M1) as [E1 E2].
    unfold bind at 1. rewrite E1, (NIL a (name_ne a Ha)). unfold bind at 1. rewrite E2. fwd.
    apply (at_app B o (38%N :: a)) in H. apply at_app in H. cbn [List.length] in H. cbn [Nat.add] in *.
    destruct (mk_tag _ r t w R tb e H Ht (ME w Hw)) as [E3 E4]. cbn [Nat.add] in *.
    unfold bind at 1. rewrite E3, (NIL t (proj2 (proj2 Ht))). unfold bind at 1. rewrite E4. fwd.
    apply at_app in H. apply at_app in H.
    unfold bind at 1. rewrite (no_anchor B _ R tb e H HR1). cbn [is_nil]. unfold bind at 1, ret at 1. fwd.
    apply FIN; [|reflexivity]. rewrite !app_length. cbn [List.length]. lia.
  - (* tag and anchor *)
    rewrite !encode_app, (name_encode a Ha), (sep_or_encode nx w Hw), (sep_encode s Hs) in *. change (utf8_encode (lit "&")) with [38%N] in *.
    rewrite <- !app_assoc in H. destruct (tag_head r) as [x0 X0]. cbn [app] in H.
    assert (HH : at_ B o (33%N :: x0 ++ s ++ 38%N :: a ++ w ++ R)) by (rewrite X0 in H; exact H).
    assert (M1 : mark_end s (38%N :: a ++ w ++ R)) by (split; [now left|reflexivity]).
    destruct (mk_tag o r t s _ tb e H Ht M1) as [E1 E2].
    unfold bind at 1. rewrite (no_anchor B _ _ tb e HH) by discriminate. cbn [is_nil]. unfold bind at 1, ret at 1. fwd.
    unfold bind at 1. rewrite E1, (NIL t (proj2 (proj2 Ht))). unfold bind at 1. rewrite E2. fwd.
    apply at_app in H. apply at_app in H. destruct (mk_anchor B _ a w R tb e H Ha (ME w Hw)) as [E3 E4].
    unfold bind at 1. rewrite E3, (NIL a (name_ne a Ha)). unfold bind at 1. cbn [is_nil]. unfold bind at 1. rewrite E4. unfold ret at 1. cbv iota beta. fwd.
    apply FIN; [|reflexivity]. rewrite !app_length; cbn [List.length app]; rewrite ?app_length; lia.
Qed.
End Props.
