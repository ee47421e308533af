(** * C59: how the loop of [string_quoted] folds lines *)
From Verif Require Export FoldSpec.
Open Scope nat_scope.

Lemma blank_ws c : blank c -> is_ws c = true. Proof. intros [->|[->| ->]]; reflexivity. Qed.
Lemma blanks_ws w : Forall blank w -> forallb is_ws w = true.
Proof. intros H. apply forallb_forall. intros c Hc. apply blank_ws. rewrite Forall_forall in H. auto. Qed.
Lemma blanks_uni w : Forall blank w -> forallb is_uni_ws w = true.
Proof. intros H. apply forallb_forall. intros c Hc. rewrite Forall_forall in H. destruct (H c Hc) as [->|[->| ->]]; reflexivity. Qed.
Lemma blanks_enc w : Forall blank w -> utf8_encode w = w.
Proof. intros H. apply encode_ws, blanks_ws, H. Qed.
Lemma blanks_valid w : Forall blank w -> valid w.
Proof. induction 1 as [|c w H _ IH]; [reflexivity|]. apply valid_cons. split; [destruct H as [->|[->| ->]]; reflexivity|exact IH]. Qed.
Lemma break_enc e : line_break e -> utf8_encode e = e. Proof. intros [->|[->| ->]]; reflexivity. Qed.

(** ** One line break *)
Definition not_brk (x : N) : Prop := x <> 10%N /\ x <> 13%N.
(** what follows a line break, when the whole of it is to be one *)
Definition brk_tail (e l : bytes) : Prop := (match l with [] => True | x :: _ => not_brk x end) \/ exists l', l = e ++ l'.
Lemma nl_break e l : line_break e -> brk_tail e l -> nl_len (e ++ l) = List.length e.
Proof.
  intros He Hl. rewrite nl_len_alt. unfold nl_len'.
  destruct He as [->|[->| ->]]; cbn [app starts_with List.length]; [|reflexivity|].
  - destruct l as [|x l]; [reflexivity|]. cbn [starts_with]. destruct Hl as [(H1 & H2)|(l' & El)]; [|injection El as -> ->; reflexivity].
    rewrite (proj2 (N.eqb_neq 13 x)) by congruence. reflexivity.
  - destruct l as [|x l]; [reflexivity|]. cbn [starts_with]. destruct Hl as [(H1 & H2)|(l' & El)]; [|injection El as -> ->; reflexivity].
    rewrite (proj2 (N.eqb_neq 10 x)) by congruence. reflexivity.
Qed.
Lemma blank_not_brk c : blank c -> not_brk c. Proof. intros [->|[->| ->]]; split; discriminate. Qed.
Definition solid (l : bytes) : Prop := match l with x :: _ => not_brk x /\ is_ws x = false | [] => False end.
Lemma empties_tail e n g l : empties e n g -> solid l -> brk_tail e (g ++ l).
Proof.
  intros H Hl. destruct H as [w Hw|w n g Hw H].
  - destruct w as [|c w]; [|left; now apply blank_not_brk, (Forall_inv Hw)]. left. destruct l; [exact Logic.I|exact (proj1 Hl)].
  - destruct w as [|c w]; [right; exists (g ++ l); cbn [app]; now rewrite <- app_assoc|left; now apply blank_not_brk, (Forall_inv Hw)].
Qed.
Lemma ws_len_blanks w l : Forall blank w -> (match l with x :: _ => is_ws x = false | [] => True end) -> ws_len (w ++ l) = List.length w.
Proof. intros Hw Hl. unfold ws_len. now rewrite (span_app is_ws w l (blanks_ws w Hw)). Qed.
Lemma break_not_ws e l : line_break e -> match e ++ l with x :: _ => is_ws x = false | [] => True end.
Proof. intros [->|[->| ->]]; reflexivity. Qed.
(** ** Empty lines *)
Lemma empties_lines e : line_break e -> forall n g, empties e n g -> forall m l, solid l -> List.length (g ++ l) < m ->
  exists w, Forall blank w /\ gap_lines m false (g ++ l) = (n, List.length g - List.length w) /\ List.length w <= List.length g
    /\ skipn (List.length g - List.length w) (g ++ l) = w ++ l.
Proof.
  intros He n g H. induction H as [w Hw|w n g Hw H IH]; intros m l Hl Hm.
  - exists w. destruct m as [|m]; [lia|]. split; [exact Hw|]. rewrite Nat.sub_diag. cbn [gap_lines skipn]. unfold line_skip.
    rewrite ws_len_blanks by first [assumption | destruct l; [exact Logic.I|exact (proj2 Hl)]]. rewrite skipn_app_len.
    split; [|auto]. cbv zeta. destruct l as [|x l]; [destruct Hl|]. destruct Hl as ((H1 & H2) & _).
    rewrite nl_len_alt. unfold nl_len'. cbn [starts_with].
    rewrite !(proj2 (N.eqb_neq _ x)) by congruence. rewrite !(proj2 (N.eqb_neq x _)) by congruence. reflexivity.
  - destruct m as [|m]; [lia|]. rewrite <- app_assoc, !app_length in *. rewrite <- app_assoc in *.
    destruct (IH m l Hl) as (w' & W1 & W2 & W3 & W4); [rewrite !app_length in *; destruct He as [->|[->| ->]]; simpl in *; lia|].
    exists w'. split; [exact W1|]. cbn [gap_lines]. unfold line_skip. rewrite ws_len_blanks by first [assumption | now apply break_not_ws].
    rewrite skipn_app_len, nl_break by first [assumption | now apply empties_tail with n]. cbv zeta.
    assert (E0 : (List.length e =? 0) = false) by (destruct He as [->|[->| ->]]; reflexivity). rewrite E0.
    assert (SK : forall z, skipn (List.length w + List.length e + z) (w ++ e ++ g ++ l) = skipn z (g ++ l)).
    { intros z. rewrite <- !skipn_add, !skipn_app_len. reflexivity. }
    pose proof (SK 0) as SK0. rewrite Nat.add_0_r in SK0. rewrite SK0. cbn [skipn]. rewrite W2. cbn [fst snd].
    split; [f_equal; lia|]. split; [lia|].
    replace (List.length w + (List.length e + List.length g) - List.length w') with (List.length w + List.length e + (List.length g - List.length w')) by lia.
    now rewrite SK.
Qed.
Lemma fold_gap e n g l s : line_break e -> empties e n g -> solid l -> in_doc s -> rem s = e ++ g ++ l ->
  exists w, Forall blank w /\ List.length w <= List.length g
    /\ ok (gap false) s = (ROk (Some (S n)), set_pos (p_pos s + (List.length e + (List.length g - List.length w))) s)
    /\ rem (set_pos (p_pos s + (List.length e + (List.length g - List.length w))) s) = w ++ l.
Proof.
  intros He H Hl Hd Er.
  destruct (empties_lines e He n g H (S (List.length (g ++ l))) l Hl ltac:(lia)) as (w & W1 & W2 & W3 & W4).
  assert (SK : forall z, skipn (List.length e + z) (e ++ g ++ l) = skipn z (g ++ l)).
  { intros z. rewrite <- skipn_add, skipn_app_len. reflexivity. }
  exists w. split; [exact W1|]. split; [exact W3|]. split.
  - rewrite (ok_eq _ _ _ (gap_exec false s Hd)), Er. unfold gap_f, gap_head. cbn [skipn Nat.add].
    rewrite nl_break by first [assumption | now apply empties_tail with n]. cbv zeta.
    assert (E0 : (List.length e =? 0) = false) by (destruct He as [->|[->| ->]]; reflexivity). rewrite E0.
    pose proof (SK 0) as SK0. rewrite Nat.add_0_r in SK0. rewrite SK0. cbn [skipn]. rewrite W2. cbn [fst snd]. reflexivity.
  - rewrite rem_add, Er, SK. exact W4.
Qed.

(** ** A line *)
(** the loop reads the text [raw] as [val] up to a line break or the closing quote *)
Definition stops (q : N) (ig tl : bytes) : Prop :=
  match tl with x :: r => (x = 10%N \/ x = 13%N \/ x = q) /\ starts_with ig tl = false | [] => False end.
Definition seg (q : N) (ig : bytes) (raw val : str) : Prop := forall n v s tl,
  in_doc s -> rem s = utf8_encode raw ++ tl -> stops q ig tl -> List.length raw < n ->
  exists n', quoted_loop n q ig v s = quoted_rest n' q ig (v ++ val) (at_pos (p_pos s + List.length (utf8_encode raw)) s)
    /\ n <= n' + List.length raw + 1
    /\ rem (at_pos (p_pos s + List.length (utf8_encode raw)) s) = tl /\ in_doc (at_pos (p_pos s + List.length (utf8_encode raw)) s).
Lemma stops_in q ig tl : stops q ig tl -> starts_in [10; 13; 92; q]%N tl.
Proof. destruct tl as [|x r]; [intros []|]. intros [[->|[->| ->]] _]; simpl; auto. Qed.
Lemma seg_double raw : valid raw -> qok raw = true -> seg 34 [92; 34]%N raw (qs raw).
Proof.
  remember (List.length raw) as m eqn:Em. revert raw Em.
  induction m as [m IH] using lt_wf_ind. intros e Em Hv Ho n v s tl H Er Hst Hn.
  destruct n as [|n]; [lia|].
  destruct (qok_split e Ho) as (t & e' & -> & Ht & Hq & He & Ho').
  apply valid_app in Hv as [Hvt Hve]. rewrite encode_app, <- app_assoc in Er.
  assert (Hs : starts_in [10; 13; 92; 34]%N (utf8_encode e' ++ tl)).
  { destruct He as [-> |(r & ->)]; [now apply (stops_in _ _ _ Hst)|simpl; auto]. }
  destruct (quoted_step n 34%N [92; 34]%N v s t _ H ltac:(lia) Hvt Ht Hs Er) as (E1 & R1 & D1).
  rewrite E1, Hq, encode_app, app_length. clear E1 Er Hs. rewrite app_assoc.
  set (p := p_pos s + List.length (utf8_encode t)) in *.
  replace (p_pos s + (List.length (utf8_encode t) + List.length (utf8_encode e')))
    with (p + List.length (utf8_encode e')) by (unfold p; lia).
  rewrite app_length in Hn. rewrite app_length in Em. pose proof (AT_at p s) as A1.
  destruct He as [-> |(r & ->)].
  - exists n. simpl. rewrite app_nil_r, !Nat.add_0_r. split; [reflexivity|]. split; [lia|]. split; [exact R1|exact D1].
  - cbn [qok] in Ho'. change (N.eqb 92 92) with true in Ho'. cbn iota in Ho'.
    destruct r as [|x r]; [discriminate|].
    rewrite encode_cons_ascii in R1 by lia. apply valid_cons in Hve as [_ Hve].
    pose proof (proj1 (valid_cons _ _) Hve) as [Hvx Hvr].
    destruct (N.eqb_spec x 34) as [->|Hx].
    + rewrite encode_cons_ascii in R1 by lia. cbn [app] in R1.
      unfold quoted_rest at 1. unfold bind at 1.
      rewrite (seq_yes _ _ D1) by (rewrite R1; reflexivity). cbn iota.
      set (s2 := set_pos _ _).
      assert (R2 : rem s2 = utf8_encode r ++ tl).
      { unfold s2. rewrite rem_add, R1. reflexivity. }
      assert (D2 : in_doc s2). { unfold s2. apply in_doc_add; [rewrite R1; simpl; lia|exact D1]. }
      cbn [List.length] in *.
      destruct (IH (List.length r) ltac:(lia) r eq_refl Hvr Ho' n ((v ++ t) ++ [34%N]) s2 tl D2 R2 Hst ltac:(lia)) as (n' & EE & N' & R' & D').
      exists n'. rewrite EE. rewrite qs_esc, <- app_assoc. rewrite !encode_len_cons by lia.
      assert (EQ : at_pos (p_pos s2 + List.length (utf8_encode r)) s2 = at_pos (p + Datatypes.S (Datatypes.S (List.length (utf8_encode r)))) s).
      { unfold s2, at_pos, set_pos, set_eaten. cbn. f_equal; lia. }
      rewrite EQ in *. rewrite app_length. cbn [List.length]. split; [reflexivity|]. split; [lia|]. split; assumption.
    + destruct (encode_first 34 x r ltac:(lia) Hx) as (b & tl' & Eb & Hb).
      unfold quoted_rest at 1. unfold bind at 1.
      rewrite (seq_no _ _ D1 A1) by (rewrite R1, Eb; cbn [app starts_with]; rewrite N.eqb_refl, (proj2 (N.eqb_neq 34 b)) by congruence; reflexivity).
      unfold bind at 1. rewrite (no_gap_false _ _ _ D1 R1) by discriminate.
      unfold bind at 1. rewrite (sym_yes 92 _ _ D1 R1). cbn iota.
      set (s2 := set_pos _ _).
      assert (R2 : rem s2 = utf8_encode (x :: r) ++ tl).
      { unfold s2. rewrite rem_add, R1. reflexivity. }
      assert (D2 : in_doc s2). { unfold s2. apply in_doc_add; [rewrite R1; simpl; lia|exact D1]. }
      cbn [List.length] in *.
      destruct (IH (List.length (x :: r)) ltac:(simpl; lia) (x :: r) eq_refl Hve Ho' n ((v ++ t) ++ [92%N]) s2 tl D2 R2 Hst ltac:(simpl; lia)) as (n' & EE & N' & R' & D').
      exists n'. rewrite EE. rewrite qs_back by exact Hx. rewrite <- app_assoc. rewrite (encode_len_cons 92) by lia.
      assert (EQ : at_pos (p_pos s2 + List.length (utf8_encode (x :: r))) s2 = at_pos (p + Datatypes.S (List.length (utf8_encode (x :: r)))) s).
      { unfold s2, at_pos, set_pos, set_eaten. cbn -[utf8_encode]. f_equal; lia. }
      rewrite EQ in *. rewrite app_length. cbn [List.length] in *. split; [reflexivity|]. split; [lia|]. split; assumption.
Qed.
Lemma seg_single b : valid b -> forallb (not_in [10; 13]%N) b = true -> seg 39 (lit "''") (dq b) b.
Proof.
  remember (List.length b) as m eqn:Em. revert b Em.
  induction m as [m IH] using lt_wf_ind. intros b Em Hv Ho n v s tl H Er Hst Hn.
  destruct n as [|n]; [lia|].
  destruct (sq_split b Ho) as (t & b' & -> & Ht & He).
  apply valid_app in Hv as [Hvt Hve]. rewrite forallb_app in Ho. apply andb_true_iff in Ho as [_ Ho'].
  assert (Dt : dq t = t).
  { apply dq_plain. eapply forallb_impl; [|exact Ht]. intros x. rewrite !not_in_spec. simpl. tauto. }
  rewrite dq_app, Dt in *. rewrite encode_app, <- app_assoc in Er.
  assert (Hs : starts_in [10; 13; 92; 39]%N (utf8_encode (dq b') ++ tl)).
  { destruct He as [-> |[(r & ->)|(r & ->)]]; [now apply (stops_in _ _ _ Hst)|simpl; auto|simpl; auto]. }
  destruct (quoted_step n 39%N (lit "''") v s t _ H ltac:(lia) Hvt Ht Hs Er) as (E1 & R1 & D1).
  rewrite E1, encode_app, app_length. clear E1 Hs Er. rewrite app_assoc.
  set (p := p_pos s + List.length (utf8_encode t)) in *.
  replace (p_pos s + (List.length (utf8_encode t) + List.length (utf8_encode (dq b'))))
    with (p + List.length (utf8_encode (dq b'))) by (unfold p; lia).
  rewrite app_length in Hn. rewrite app_length in Em. pose proof (AT_at p s) as A1.
  destruct He as [-> |[(r & ->)|(r & ->)]].
  - exists n. simpl. rewrite app_nil_r, !Nat.add_0_r. split; [reflexivity|]. split; [lia|]. split; [exact R1|exact D1].
  - change (dq (92%N :: r)) with (92%N :: dq r) in *. rewrite encode_cons_ascii in R1 by lia.
    apply valid_cons in Hve as [_ Hve]. cbn [forallb] in Ho'. apply andb_true_iff in Ho' as [_ Ho'].
    unfold quoted_rest at 1. unfold bind at 1.
    rewrite (seq_no _ _ D1 A1) by (rewrite R1; reflexivity).
    unfold bind at 1. rewrite (no_gap_false _ _ _ D1 R1) by discriminate.
    unfold bind at 1. rewrite (sym_yes 92 _ _ D1 R1). cbn iota.
    set (s2 := set_pos _ _).
    assert (R2 : rem s2 = utf8_encode (dq r) ++ tl).
    { unfold s2. rewrite rem_add, R1. reflexivity. }
    assert (D2 : in_doc s2). { unfold s2. apply in_doc_add; [rewrite R1; simpl; lia|exact D1]. }
    cbn [List.length] in *.
    destruct (IH (List.length r) ltac:(lia) r eq_refl Hve Ho' n ((v ++ t) ++ [92%N]) s2 tl D2 R2 Hst ltac:(lia)) as (n' & EE & N' & R' & D').
    exists n'. rewrite EE. rewrite <- app_assoc. rewrite (encode_len_cons 92) by lia.
    assert (EQ : at_pos (p_pos s2 + List.length (utf8_encode (dq r))) s2 = at_pos (p + Datatypes.S (List.length (utf8_encode (dq r)))) s).
    { unfold s2, at_pos, set_pos, set_eaten. cbn -[utf8_encode]. f_equal; lia. }
    rewrite EQ in *. rewrite app_length. cbn [List.length]. split; [reflexivity|]. split; [lia|]. split; assumption.
  - change (dq (39%N :: r)) with (39%N :: 39%N :: dq r) in *. rewrite !encode_cons_ascii in R1 by lia.
    apply valid_cons in Hve as [_ Hve]. cbn [forallb] in Ho'. apply andb_true_iff in Ho' as [_ Ho'].
    unfold quoted_rest at 1. unfold bind at 1.
    rewrite (seq_yes _ _ D1) by (rewrite R1; reflexivity). cbn iota.
    set (s2 := set_pos _ _).
    assert (R2 : rem s2 = utf8_encode (dq r) ++ tl).
    { unfold s2. rewrite rem_add, R1. reflexivity. }
    assert (D2 : in_doc s2). { unfold s2. apply in_doc_add; [rewrite R1; simpl; lia|exact D1]. }
    cbn [List.length] in *.
    destruct (IH (List.length r) ltac:(lia) r eq_refl Hve Ho' n ((v ++ t) ++ [39%N]) s2 tl D2 R2 Hst ltac:(lia)) as (n' & EE & N' & R' & D').
    exists n'. rewrite EE. rewrite <- app_assoc. rewrite !(encode_len_cons 39) by lia.
    assert (EQ : at_pos (p_pos s2 + List.length (utf8_encode (dq r))) s2 = at_pos (p + Datatypes.S (Datatypes.S (List.length (utf8_encode (dq r))))) s).
    { unfold s2, at_pos, set_pos, set_eaten. cbn -[utf8_encode]. f_equal; lia. }
    rewrite EQ in *. rewrite app_length. cbn [List.length]. split; [reflexivity|]. split; [lia|]. split; assumption.
Qed.

(** ** What the loop does at the end of a line and at the closing quote *)
Lemma ends_with_app p s : ends_with p s = true <-> exists r, s = r ++ p.
Proof.
  unfold ends_with. rewrite starts_with_app. split; intros (r & E).
  - exists (rev r). apply (f_equal (@rev N)) in E. now rewrite rev_involutive, rev_app_distr, rev_involutive in E.
  - exists (rev r). now rewrite E, rev_app_distr.
Qed.
Lemma ends_with_not p s : (forall r, s <> r ++ p) -> ends_with p s = false.
Proof. intros H. destruct (ends_with p s) eqn:E; [|reflexivity]. apply ends_with_app in E as (r & E). now destruct (H r). Qed.
Lemma rest_close n q ig v s r : in_doc s -> AT s -> rem s = q :: r -> starts_with ig (q :: r) = false -> q <> 10%N -> q <> 13%N -> q <> 92%N ->
  quoted_rest n q ig v s = (ROk v, set_pos (p_pos s + 1) s).
Proof.
  intros H A Er Hi H1 H2 H3. unfold quoted_rest. unfold bind at 1. rewrite (seq_no _ _ H A) by (now rewrite Er).
  unfold bind at 1. rewrite (no_gap_false _ _ _ H Er H1 H2).
  unfold bind at 1. rewrite (sym_no 92 _ H A) by (now rewrite Er).
  unfold bind. now rewrite (sym_yes q _ r H Er).
Qed.
(** the text before a line break: nothing, or a visible character at the end *)
Definition neat (v : str) : Prop := v = [] \/ exists x c, v = x ++ [c] /\ is_uni_ws c = false /\ c <> 92%N /\ ~ (c = 110%N /\ exists y, x = y ++ [92%N]).
Lemma neat_trim v : neat v -> trim_end v = v.
Proof.
  intros [->|(x & c & -> & H & _)]; [reflexivity|]. induction x as [|d x IH]; [cbn; now rewrite H|].
  cbn [app trim_end]. rewrite IH. now destruct x.
Qed.
Lemma neat_no_n v : neat v -> ends_with (lit "\n") v = false.
Proof.
  intros NT. apply ends_with_not. intros r E. change (lit "\n") with ([92%N] ++ [110%N]) in E. rewrite app_assoc in E.
  destruct NT as [->|(x & c & -> & H & H1 & H2)]; [now destruct r|]. apply app_inj_tail in E as [-> ->]. apply H2. eauto.
Qed.
Lemma neat_no_back v w : neat v -> Forall blank w -> ends_with [92%N] (v ++ w) = false.
Proof.
  intros NT W. apply ends_with_not. intros r E. destruct (rev w) as [|d w'] eqn:Ew.
  - apply (f_equal (@rev N)) in Ew. rewrite rev_involutive in Ew. subst w. rewrite app_nil_r in E.
    destruct NT as [->|(x & c & -> & H & H1 & H2)]; [now destruct r|]. apply app_inj_tail in E as [-> ->]. congruence.
  - apply (f_equal (@rev N)) in Ew. rewrite rev_involutive in Ew. cbn [rev] in Ew. subst w. rewrite app_assoc in E.
    apply app_inj_tail in E as [_ ->]. apply Forall_app in W as [_ W]. apply Forall_inv in W as [?|[?|?]]; discriminate.
Qed.
Lemma ws_blanks w l s : in_doc s -> Forall blank w -> (match l with x :: _ => is_ws x = false | [] => True end) -> rem s = w ++ l ->
  ws (More 0) s = (ROk tt, set_pos (p_pos s + List.length w) s).
Proof. intros H W Hl Er. rewrite (ws0_exec s H), Er, ws_len_blanks by assumption. reflexivity. Qed.
Lemma rest_fold n q ig e j v v0 s l : in_doc s -> AT s -> line_break e -> starts_with ig (rem s) = false -> neat v0 -> solid l ->
  (exists w w', Forall blank w /\ Forall blank w' /\ rem s = e ++ w' ++ l /\ v = v0 ++ w /\ j = [32%N])
   \/ (exists k g, empties e (S k) g /\ rem s = e ++ g ++ l /\ v = v0 /\ j = repeat 10%N (S k)) ->
  exists k, rem (set_pos (p_pos s + k) s) = l /\ in_doc (set_pos (p_pos s + k) s)
    /\ p_pos s + k + List.length l = List.length (p_doc s)
    /\ quoted_rest n q ig v s = quoted_loop n q ig (v0 ++ j) (set_pos (p_pos s + k) s).
Proof.
  intros H A He Hi NT Hl HH.
  assert (Hl' : match l with x :: _ => is_ws x = false | [] => True end) by (destruct l; [exact Logic.I|exact (proj2 Hl)]).
  assert (K : exists m g, empties e m g /\ rem s = e ++ g ++ l
    /\ (let t := if ends_with [92%N] v then S m - 1 else S m in
      match t with
        | O => v
        | S O => let v := trim_end v in if ends_with (lit "\n") v then v else v ++ [32%N]
        | S t' => v ++ repeat 10%N t'
        end) = v0 ++ j).
  { destruct HH as [(w & w' & W & W' & Er & -> & ->)|(k & g & G & Er & -> & ->)].
    - exists 0, w'. split; [now constructor|]. split; [exact Er|]. rewrite (neat_no_back v0 w NT W). cbv zeta.
      rewrite (Leaf.trim_end_app _ _ (blanks_uni w W)), (neat_trim v0 NT), (neat_no_n v0 NT). reflexivity.
    - exists (S k), g. split; [exact G|]. split; [exact Er|]. pose proof (neat_no_back v0 [] NT (Forall_nil _)) as NB. rewrite app_nil_r in NB. rewrite NB. reflexivity. }
  destruct K as (m & g & G & Er & V). clear HH.
  destruct (fold_gap e m g l s He G Hl H Er) as (z & Z1 & Z2 & Z3 & Z4).
  pose proof (rem_length s) as RL. rewrite Er, !app_length in RL.
  exists (List.length e + List.length g).
  set (s1 := set_pos (p_pos s + (List.length e + (List.length g - List.length z))) s) in *.
  assert (D1 : in_doc s1) by (unfold in_doc in *; unfold s1; cbn; lia).
  assert (EQ : set_pos (p_pos s1 + List.length z) s1 = set_pos (p_pos s + (List.length e + List.length g)) s).
  { unfold s1, set_pos. cbn. f_equal. lia. }
  split; [|split; [|split]].
  - rewrite <- EQ, rem_add, Z4. apply skipn_app_len.
  - unfold in_doc in *. cbn. lia.
  - unfold in_doc in H. lia.
  - unfold quoted_rest. unfold bind at 1. rewrite (seq_no _ _ H A Hi). unfold bind at 1. rewrite Z3. fold s1. cbv beta iota zeta in V. cbv beta iota zeta. idtac.
    unfold bind at 1. rewrite (ws_blanks z l s1 D1 Z1 Hl' Z4), EQ. exact (f_equal (fun x => quoted_loop n q ig x _) V).
Qed.

(** ** All lines *)
Section Lines.
Variables (q : N) (ig : bytes) (enc dec : str -> str) (good : str -> Prop) (U : str -> str -> Prop) (e : str).
Hypothesis He : line_break e.
Hypothesis q_ok : (q < 128)%N /\ is_ws q = false /\ q <> 10%N /\ q <> 13%N /\ q <> 92%N.
Hypothesis ig_brk : forall x l, x = 10%N \/ x = 13%N -> starts_with ig (x :: l) = false.
Hypothesis enc_seg : forall a w, good a -> Forall blank w -> seg q ig (enc a ++ w) (dec a ++ w).
Hypothesis enc_nil : enc [] = [] /\ dec [] = [].
Hypothesis enc_valid : forall a, good a -> valid (enc a).
Hypothesis enc_head : forall a l, good a -> a <> [] -> line_head false (enc a) -> solid (utf8_encode (enc a) ++ l).
Hypothesis dec_neat : forall a, good a -> a <> [] -> line_tail false a -> neat (dec a) /\ dec a <> [].
Hypothesis U_line : forall a, good a -> U (dec a) a.
Hypothesis U_fold : forall j v, fold_at e j v -> U v v.
Hypothesis U_app : forall a b c d, U a c -> U b d -> U (a ++ b) (c ++ d).

Lemma folded_valid first t u : folded enc good e first t u -> valid t.
Proof.
  induction 1 as [first a G Hh|first a j v t u G Hh Ht J H IH]; [auto|].
  apply valid_app. split; [auto|]. apply valid_app. split; [|exact IH]. clear - J He.
  assert (Ve : valid e) by (destruct He as [->|[->| ->]]; reflexivity).
  assert (EV : forall n g, empties e n g -> valid g).
  { induction 1 as [w W|w n g W G IH]; [now apply blanks_valid|]. apply valid_app. split; [now apply blanks_valid|]. apply valid_app. auto. }
  destruct J as [w w' W W'|n g G]; repeat (apply valid_app; split); auto using blanks_valid. now apply EV with (S n).
Qed.
(** what follows a line break is visible *)
Lemma folded_solid t u r : folded enc good e false t u -> solid (utf8_encode t ++ q :: r).
Proof.
  intros H. inversion H as [first a G Hh E1 E2 E3|first a j v t' u' G Hh Ht J H' E1 E2 E3]; subst.
  - destruct u as [|c u]; [|now apply enc_head].
    rewrite (proj1 enc_nil). cbn. destruct q_ok as (_ & Q2 & Q3 & Q4 & _). split; [split; assumption|assumption].
  - rewrite encode_app, <- app_assoc. apply enc_head; try assumption. destruct Ht as [(K & _)|(x & c & -> & _)]; [discriminate|]. now destruct x.
Qed.
Definition vok (first : bool) (v : str) : Prop :=
  first = true /\ v = [] \/ first = false /\ exists x c, v = x ++ [c] /\ (c = 32%N \/ c = 10%N).
Lemma neat_app first v a : vok first v -> good a -> line_tail first a -> neat (v ++ dec a).
Proof.
  intros V G T. assert (Da : a = [] \/ a <> []) by (destruct a; [now left|now right]). destruct Da as [->|Na].
  - rewrite (proj2 enc_nil), app_nil_r. destruct T as [(-> & _)|(x & c & E & _)]; [|now destruct x].
    destruct V as [(_ & ->)|(K & _)]; [now left|discriminate].
  - assert (T' : line_tail false a) by (destruct T as [(_ & K)|T]; [congruence|now right]).
    destruct (dec_neat a G Na T') as ([K|(x & c & E & H1 & H2 & H3)] & NN); [congruence|].
    right. exists (v ++ x), c. rewrite E, app_assoc. split; [reflexivity|]. split; [exact H1|]. split; [exact H2|].
    intros (-> & y & Ey). destruct (rev x) as [|z x'] eqn:Ex.
    + apply (f_equal (@rev _)) in Ex. rewrite rev_involutive in Ex. cbn in Ex. subst x. rewrite app_nil_r in Ey. subst v.
      destruct V as [(_ & K)|(_ & x0 & c0 & K & C)]; [now destruct y|]. apply app_inj_tail in K as [_ <-]. destruct C; discriminate.
    + apply (f_equal (@rev _)) in Ex. rewrite rev_involutive in Ex. cbn [rev] in Ex. subst x. rewrite app_assoc in Ey.
      apply app_inj_tail in Ey as [_ ->]. apply H3. eauto.
Qed.
Lemma joint_vok j v x : fold_at e j v -> vok false (x ++ v).
Proof.
  intros J. right. split; [reflexivity|]. destruct J as [w w' W W'|n g G]; [exists x, 32%N; auto|].
  exists (x ++ repeat 10%N n), 10%N. split; [|auto]. rewrite <- app_assoc. f_equal. apply repeat_cons.
Qed.
Lemma fold_run first t u : folded enc good e first t u -> forall n v s rest, in_doc s -> vok first v ->
  rem s = utf8_encode t ++ q :: rest -> starts_with ig (q :: rest) = false -> List.length t + 1 < n ->
  exists V E, U V u /\ quoted_loop n q ig v s = (ROk (v ++ V), set_pos (p_pos s + List.length (utf8_encode t) + 1) (set_eaten E s)).
Proof.
  destruct q_ok as (Q1 & Q2 & Q3 & Q4 & Q5).
  induction 1 as [first a G Hh|first a j v0 t u G Hh Ht J H IH]; intros n v s rest Hd V Er Hr Hn.
  - assert (ST : stops q ig (q :: rest)) by (cbn [stops]; auto).
    pose proof (enc_seg a [] G (Forall_nil _)) as SG. rewrite !app_nil_r in SG.
    destruct (SG n v s (q :: rest) Hd Er ST ltac:(lia)) as (n' & E1 & _ & R1 & D1).
    exists (dec a), (p_pos s + List.length (utf8_encode (enc a))). split; [now apply U_line|].
    rewrite E1, (rest_close n' q ig _ _ rest D1 (AT_at _ _) R1 Hr Q3 Q4 Q5). f_equal.
  - assert (SOL : solid (utf8_encode t ++ q :: rest)) by (now apply folded_solid with u).
    assert (K : exists w z, Forall blank w /\ j = w ++ e ++ z /\ utf8_encode z = z /\
      (Forall blank z /\ v0 = [32%N] \/ exists k, empties e (S k) z /\ w = [] /\ v0 = repeat 10%N (S k))).
    { destruct J as [w w' W W'|k g K].
      - exists w, w'. split; [exact W|]. split; [reflexivity|]. split; [now apply blanks_enc|]. auto.
      - exists [], g. split; [constructor|]. split; [reflexivity|]. split; [|right; eauto].
        clear - K He. induction K as [w W|w m g W G IH]; [now apply blanks_enc|]. now rewrite !encode_app, IH, (break_enc e He), (blanks_enc w W). }
    destruct K as (w & z & W & -> & Ez & K). set (tl := utf8_encode t ++ q :: rest) in *.
    assert (Er' : rem s = utf8_encode (enc a ++ w) ++ e ++ z ++ tl).
    { rewrite Er. unfold tl. rewrite !encode_app, (break_enc e He), Ez, <- !app_assoc. reflexivity. }
    assert (ST : stops q ig (e ++ z ++ tl)) by (destruct He as [->|[->| ->]]; cbn [app stops]; split; auto).
    assert (LN : List.length (enc a ++ w) + 1 + List.length t + 1 < n).
    { rewrite !app_length in *. destruct He as [->|[->| ->]]; cbn [List.length] in *; lia. }
    destruct (enc_seg a w G W n v s _ Hd Er' ST ltac:(lia)) as (n' & E1 & N1 & R1 & D1).
    set (s1 := at_pos _ s) in *.
    assert (NT : neat (v ++ dec a)) by (now apply neat_app with first).
    destruct (rest_fold n' q ig e v0 (v ++ dec a ++ w) (v ++ dec a) s1 tl D1 (AT_at _ _) He) as (k & R2 & D2 & L2 & E2).
    { rewrite R1. destruct He as [->|[->| ->]]; cbn [app]; auto. }
    { exact NT. }
    { exact SOL. }
    { destruct K as [(Z & ->)|(k & KE & -> & ->)].
      - left. exists w, z. rewrite <- app_assoc. auto.
      - right. exists k, z. rewrite app_nil_r. auto. }
    set (s2 := set_pos (p_pos s1 + k) s1) in *.
    destruct (IH n' ((v ++ dec a) ++ v0) s2 rest D2) as (V' & E & HU & EE).
    { now apply joint_vok with (w ++ e ++ z). }
    { exact R2. }
    { exact Hr. }
    { lia. }
    exists (dec a ++ v0 ++ V'), E. split; [apply U_app; [now apply U_line|]; apply U_app; [now apply U_fold with (w ++ e ++ z)|exact HU]|].
    rewrite E1, E2, EE, <- !app_assoc. f_equal. unfold s2, s1, set_pos, set_eaten, at_pos. cbn [p_pos p_doc p_eaten]. cbn.
    f_equal. pose proof (rem_length s) as RL. rewrite Er' in RL. unfold s1, at_pos in L2. cbn in L2.
    rewrite !encode_app, (break_enc e He), Ez, !app_length in *. unfold in_doc in *. cbn in *. lia.
Qed.

(** *** from the opening quote *)
Lemma special_split T : exists t T', T = t ++ T' /\ forallb (not_in [10; 13; 92; q]%N) t = true
  /\ match T' with c :: _ => In c [10; 13; 92; q]%N | [] => True end.
Proof.
  induction T as [|c T IH]; [exists [], []; auto|].
  destruct (in_dec N.eq_dec c [10; 13; 92; q]%N) as [C|C]; [exists [], (c :: T); auto|]. apply not_in_spec in C.
  destruct IH as (t & T' & -> & H1 & H2). exists (c :: t), T'. cbn [forallb]. now rewrite C, H1.
Qed.
Lemma open_run n s T rest : in_doc s -> valid T -> 0 < n -> rem s = q :: utf8_encode T ++ q :: rest ->
  string_quoted_fuel n q ig s
  = let '(r, s') := quoted_loop n q ig [] (set_pos (p_pos s + 1) (set_eaten (p_pos s + 1) s)) in (r, set_eaten (p_eaten s) s').
Proof.
  intros H HV Hn Er. destruct q_ok as (Q1 & Q2 & _).
  destruct (ws_split T) as (w & e' & -> & Hw & He').
  destruct (quoted_open n q ig s w e' rest H Q1 Q2 Hw He' Er) as (s2 & R2 & D2 & E2 & ->).
  assert (EQ : quoted_loop n q ig w s2 = quoted_loop n q ig [] (set_pos (p_pos s + 1) (set_eaten (p_pos s + 1) s))); [|now rewrite EQ].
  set (s1 := set_pos (p_pos s + 1) (set_eaten (p_pos s + 1) s)).
  apply valid_app in HV as [Vw Ve].
  destruct (special_split e') as (t & T' & -> & Ht & HT). apply valid_app in Ve as [Vt VT].
  destruct n as [|n]; [lia|].
  assert (ST : starts_in [10; 13; 92; q]%N (utf8_encode T' ++ q :: rest)).
  { destruct T' as [|c T']; [cbn; auto|]. rewrite encode_cons, encode_ascii by (destruct HT as [<-|[<-|[<-|[<-|[]]]]]; lia). exact HT. }
  rewrite encode_app, <- app_assoc in R2.
  destruct (quoted_step n q ig w s2 t _ D2 Q1 Vt Ht ST R2) as (-> & _).
  assert (R1 : rem s1 = utf8_encode (w ++ t) ++ utf8_encode T' ++ q :: rest).
  { change (rem s1) with (rem (set_pos (p_pos s + 1) s)). rewrite rem_add, Er. cbn [skipn]. now rewrite !encode_app, <- !app_assoc. }
  assert (D1 : in_doc s1).
  { unfold in_doc in *. unfold s1. cbn. pose proof (rem_length s) as RL. rewrite Er in RL. cbn in RL. unfold in_doc in *. lia. }
  assert (Hwt : forallb (not_in [10; 13; 92; q]%N) (w ++ t) = true).
  { rewrite forallb_app, Ht, andb_true_r. eapply forallb_impl; [|exact Hw]. intros x Hx. apply not_in_spec.
    intros [<-|[<-|[<-|[<-|[]]]]]; cbn in Hx; congruence. }
  destruct (quoted_step n q ig [] s1 (w ++ t) _ D1 Q1 (proj2 (valid_app _ _) (conj Vw Vt)) Hwt ST R1) as (-> & _).
  cbn [app]. f_equal. subst s2. unfold s1, at_pos, set_pos, set_eaten. cbn. rewrite encode_app, app_length, (encode_ws w Hw). f_equal; lia.
Qed.
Lemma string_folded s t u rest : in_doc s -> folded enc good e true t u -> starts_with ig (q :: rest) = false ->
  rem s = q :: utf8_encode t ++ q :: rest ->
  exists V, U V u /\ string_quoted q ig s = (ROk V, set_pos (p_pos s + List.length (utf8_encode t) + 2) s).
Proof.
  intros H F Hr Er. rewrite string_quoted_is by exact H.
  pose proof (rem_length s) as RL. rewrite Er in RL. cbn [List.length] in RL. rewrite app_length in RL. cbn [List.length] in RL.
  pose proof (encode_length t) as EL. unfold in_doc in H.
  rewrite (open_run (loop_fuel s) s t rest H (folded_valid true t u F)) by (try exact Er; unfold loop_fuel; lia).
  set (s1 := set_pos (p_pos s + 1) (set_eaten (p_pos s + 1) s)).
  assert (R1 : rem s1 = utf8_encode t ++ q :: rest).
  { change (rem s1) with (rem (set_pos (p_pos s + 1) s)). now rewrite rem_add, Er. }
  assert (D1 : in_doc s1) by (unfold in_doc; unfold s1; cbn; lia).
  destruct (fold_run true t u F (loop_fuel s) [] s1 rest D1 (or_introl (conj eq_refl eq_refl)) R1 Hr) as (V & E & HU & ->).
  { unfold loop_fuel. lia. }
  exists V. split; [exact HU|]. cbn [app]. f_equal. unfold s1, set_pos, set_eaten. destruct s; cbn. f_equal. lia.
Qed.
End Lines.

(** ** Between double quotes *)
Definition qj (b : str) : str := flat_map (fun c => if N.eqb c 34 then [34%N] else json_char c) b.
Lemma qs_json b : qs (json_str b) = qj b.
Proof.
  induction b as [|c b IH]; [reflexivity|]. cbn [json_str qj flat_map]. fold (json_str b) (qj b). unfold json_char.
  pose proof (json_head b) as Hh.
  destruct (N.eqb_spec c 92) as [->|N1].
  { cbn [app]. rewrite qs_back by discriminate. rewrite qs_back' by apply Hh. cbn [N.eqb Pos.eqb app]. now rewrite IH. }
  destruct (N.eqb_spec c 34) as [->|N2]; [cbn; now rewrite IH|].
  destruct (N.eqb_spec c 10) as [->|N3]; [cbn; now rewrite IH|].
  destruct (N.eqb_spec c 13) as [->|N4]; [cbn; now rewrite IH|].
  destruct (N.eqb_spec c 9) as [->|N5]; [cbn; now rewrite IH|].
  destruct (N.eqb_spec c 8) as [->|N6]; [cbn; now rewrite IH|].
  destruct (N.eqb_spec c 12) as [->|N7]; [cbn; now rewrite IH|].
  cbn [app]. rewrite qs_cons by exact N1. now rewrite IH.
Qed.
Lemma qj_app a b : qj (a ++ b) = qj a ++ qj b. Proof. apply flat_map_app. Qed.
Lemma qj_escape b x : escape (qj b ++ x) = b ++ escape x.
Proof.
  unfold escape. induction b as [|c b IH]; [reflexivity|]. cbn [qj flat_map]. fold (qj b). unfold json_char.
  destruct (N.eqb_spec c 92) as [->|N1]; [cbn; now rewrite IH|].
  destruct (N.eqb_spec c 34) as [->|N2]; [cbn; now rewrite IH|].
  destruct (N.eqb_spec c 10) as [->|N3]; [cbn; now rewrite IH|].
  destruct (N.eqb_spec c 13) as [->|N4]; [cbn; now rewrite IH|].
  destruct (N.eqb_spec c 9) as [->|N5]; [cbn; now rewrite IH|].
  destruct (N.eqb_spec c 8) as [->|N6]; [cbn; now rewrite IH|].
  destruct (N.eqb_spec c 12) as [->|N7]; [cbn; now rewrite IH|].
  cbn [app escape_loop]. rewrite (proj2 (N.eqb_neq c 92) N1). cbn [andb negb]. rewrite !andb_false_r. now rewrite IH.
Qed.
Lemma qj_last x y : qj x = y ++ [92%N] -> exists z, x = z ++ [92%N].
Proof.
  destruct (rev x) as [|c x'] eqn:Ex; apply (f_equal (@rev _)) in Ex; rewrite rev_involutive in Ex; cbn [rev] in Ex; subst x; [now destruct y|].
  rewrite qj_app. cbn [qj flat_map]. unfold json_char. intros E.
  destruct (N.eqb_spec c 34) as [->|N2]; [apply app_inj_tail in E as [_ E]; discriminate|].
  destruct (N.eqb_spec c 92) as [->|N1]; [eauto|].
  repeat match goal with H : context [if (c =? ?k)%N then _ else _] |- _ => destruct (N.eqb_spec c k) as [|]; [exfalso; subst c|] end;
    cbn [app] in E; try (change [92%N; ?z] with ([92%N] ++ [z]) in E; rewrite app_assoc in E; apply app_inj_tail in E as [_ E]; discriminate).
  apply app_inj_tail in E as [_ E]. congruence.
Qed.
Lemma qok_app a b : qok a = true -> qok (a ++ b) = qok b.
Proof.
  remember (List.length a) as m eqn:Em. revert a Em. induction m as [m IH] using lt_wf_ind. intros [|c a] -> H; [reflexivity|].
  cbn [qok app] in *. destruct (N.eqb_spec c 92) as [->|].
  - destruct a as [|x a]; [discriminate|]. cbn [app]. destruct (N.eqb_spec x 34) as [->|].
    + apply (IH (List.length a)); [simpl; lia|reflexivity|exact H].
    + apply (IH (List.length (x :: a)) ltac:(simpl; lia) (x :: a) eq_refl H).
  - apply andb_true_iff in H as [-> H]. cbn [andb]. apply (IH (List.length a)); [simpl; lia|reflexivity|exact H].
Qed.
Lemma qs_app a b : qok a = true -> qs (a ++ b) = qs a ++ qs b.
Proof.
  remember (List.length a) as m eqn:Em. revert a Em. induction m as [m IH] using lt_wf_ind. intros [|c a] -> H; [reflexivity|].
  cbn [qok app] in *. destruct (N.eqb_spec c 92) as [->|Nc].
  - destruct a as [|x a]; [discriminate|]. cbn [app]. destruct (N.eqb_spec x 34) as [->|].
    + rewrite !qs_esc. cbn [app]. f_equal. apply (IH (List.length a)); [simpl; lia|reflexivity|exact H].
    + rewrite !qs_back by assumption. cbn [app]. f_equal. apply (IH (List.length (x :: a)) ltac:(simpl; lia) (x :: a) eq_refl H).
  - apply andb_true_iff in H as [_ H]. rewrite !qs_cons by assumption. cbn [app]. f_equal. apply (IH (List.length a)); [simpl; lia|reflexivity|exact H].
Qed.
Lemma blanks_q w : Forall blank w -> qok w = true /\ qs w = w /\ dq w = w.
Proof.
  intros W. pose proof (qs_ws w [] (blanks_ws w W)) as [Q _]. change (qs []) with (@nil N) in Q. rewrite !app_nil_r in Q. split; [|split].
  - clear Q. induction W as [|c w C W IH]; [reflexivity|]. cbn [qok].
    destruct C as [->|[->| ->]]; cbn; auto.
  - exact Q.
  - pose proof (dq_ws w [] (blanks_ws w W)) as K. change (dq []) with (@nil N) in K. now rewrite !app_nil_r in K.
Qed.
Lemma visible_byte c l : ~ blank c -> c <> 10%N -> c <> 13%N -> solid (utf8_encode (c :: l)).
Proof.
  intros Hb H1 H2. rewrite encode_cons. destruct (N.lt_ge_cases c 128) as [L|L].
  - rewrite encode_ascii by exact L. cbn. split; [split; assumption|]. destruct (is_ws c) eqn:E; [|reflexivity].
    exfalso. apply Hb. unfold is_ws, is_ascii_ws in E. repeat (apply andb_true_iff in E as [E ?]).
    repeat (apply orb_true_iff in E as [E|E]); apply N.eqb_eq in E; subst; try (cbn in *; discriminate); unfold blank; auto.
  - destruct (encode_char c) as [|b r] eqn:E; [destruct (encode_head c []) as (b & r & K & _); rewrite E in K; discriminate|].
    cbn. assert (128 <= b)%N by (apply (encode_multi c); [exact L|rewrite E; now left]).
    split; [split; intros ->; lia|]. destruct (is_ws b) eqn:Eb; [|reflexivity]. apply is_ws_ascii in Eb. lia.
Qed.
Lemma solid_app a l : solid a -> solid (a ++ l). Proof. destruct a; [intros []|auto]. Qed.
Lemma fold_no_back e j v x : fold_at e j v -> escape (v ++ x) = v ++ escape x.
Proof.
  intros [w w' _ _|n g _]; [reflexivity|]. generalize (S n). intros m. induction m as [|m IH]; [reflexivity|].
  cbn [repeat app]. unfold escape in *. cbn [escape_loop]. cbn [N.eqb Pos.eqb andb negb]. now rewrite IH.
Qed.
Lemma double_folded e s t u rest : line_break e -> in_doc s -> folded_double e t u ->
  rem s = 34%N :: utf8_encode t ++ 34%N :: rest ->
  exists V, escape V = u /\ string_quoted 34 [92; 34]%N s = (ROk V, set_pos (p_pos s + List.length (utf8_encode t) + 2) s).
Proof.
  intros He H F Er.
  destruct (string_folded 34%N [92; 34]%N json_str (fun a => qs (json_str a)) str_ok (fun V u => forall x, escape (V ++ x) = u ++ escape x) e He) with (s := s) (t := t) (u := u) (rest := rest)
    as (V & HU & E); try assumption.
  - repeat split; discriminate.
  - intros x l [->| ->]; reflexivity.
  - intros a w (Ga & La) W. destruct (blanks_q w W) as (B1 & B2 & _).
    replace (qs (json_str a) ++ w) with (qs (json_str a ++ w)) by (now rewrite qs_app, B2 by (now apply json_qok)).
    apply seg_double; [apply valid_app; split; [now apply json_valid|now apply blanks_valid]|]. now rewrite qok_app by (now apply json_qok).
  - split; reflexivity.
  - intros a (Ga & _). now apply json_valid.
  - intros [|c a] l _ NN [K|K]; [discriminate|congruence|discriminate|]. revert K. cbn [json_str flat_map]. unfold json_char. intros K. apply solid_app. revert K.
    repeat match goal with |- context [if (c =? ?k)%N then _ else _] => destruct (N.eqb_spec c k) as [->|]; [intros _; cbn; repeat split; discriminate|] end.
    cbn [app]. intros K. now apply visible_byte.
  - intros a (Ga & _) NN [(K & _)|(x & c & -> & H1 & H2 & H3)]; [discriminate|]. rewrite qs_json, qj_app. cbn [qj flat_map]. rewrite app_nil_r.
    assert (D : (if (c =? 34)%N then [34%N] else json_char c) = [c] \/ c = 8%N /\ (if (c =? 34)%N then [34%N] else json_char c) = [92%N] ++ [98%N]).
    { unfold json_char. destruct (N.eqb_spec c 34) as [->|]; [now left|].
      repeat match goal with |- context [if (c =? ?k)%N then _ else _] => destruct (N.eqb_spec c k) as [->|]; [try discriminate; try congruence; auto|] end. now left. }
    destruct D as [-> |(-> & ->)].
    + split; [|now destruct (qj x)]. right. exists (qj x), c. split; [reflexivity|]. split; [exact H1|]. split; [exact H2|].
      intros (-> & y & Ey). apply H3. split; [reflexivity|]. now apply qj_last with y.
    + split; [|now destruct (qj x)]. right. exists (qj x ++ [92%N]), 98%N. rewrite <- app_assoc. split; [reflexivity|]. split; [reflexivity|]. split; [discriminate|].
      intros (K & _). discriminate.
  - intros a Ga x. rewrite qs_json. apply qj_escape.
  - intros j v J x. now apply fold_no_back with e j.
  - intros a b c d H1 H2 x. now rewrite <- !app_assoc, H1, H2.
  - reflexivity.
  - exists V. split; [|exact E]. specialize (HU []). now rewrite !app_nil_r in HU.
Qed.
(** ** Between single quotes *)
Lemma single_folded e s t u rest : line_break e -> in_doc s -> folded_single e t u -> ~ (exists r, rest = 39%N :: r) ->
  rem s = 39%N :: utf8_encode t ++ 39%N :: rest ->
  string_quoted 39 (lit "''") s = (ROk u, set_pos (p_pos s + List.length (utf8_encode t) + 2) s).
Proof.
  intros He H F Hr Er.
  destruct (string_folded 39%N (lit "''") dq (fun a => a) one_line eq e He) with (s := s) (t := t) (u := u) (rest := rest)
    as (V & HU & E); try assumption.
  - repeat split; discriminate.
  - intros x l [->| ->]; reflexivity.
  - intros a w (Ga & G1 & G2) W. destruct (blanks_q w W) as (_ & _ & B3). rewrite <- B3 at 1. rewrite <- dq_app.
    apply seg_single; [apply valid_app; split; [assumption|now apply blanks_valid]|]. apply forallb_forall. intros c Hc. apply not_in_spec.
    apply in_app_iff in Hc as [Hc|Hc]; [intros [<-|[<-|[]]]; contradiction|]. rewrite Forall_forall in W. destruct (W c Hc) as [->|[->| ->]]; intros [?|[?|[]]]; discriminate.
  - split; reflexivity.
  - intros a (Ga & _). now apply dq_valid.
  - intros [|c a] l (_ & G1 & G2) NN [K|K]; [discriminate|congruence|discriminate|]. cbn [dq flat_map]. apply solid_app.
    revert K. cbn [dq flat_map]. destruct (N.eqb_spec c 39) as [->|]; [intros _; cbn; repeat split; discriminate|]. cbn [app]. intros K. apply visible_byte; [exact K|intros ->; apply G1; now left|intros ->; apply G2; now left].
  - intros a _ NN [(K & _)|T]; [discriminate|]. split; [now right|exact NN].
  - reflexivity.
  - reflexivity.
  - intros a b c d -> ->. reflexivity.
  - change (lit "''") with [39; 39]%N. cbn [starts_with].
    rewrite N.eqb_refl. destruct rest as [|y r]; [reflexivity|]. cbn [andb]. rewrite andb_true_r. apply N.eqb_neq. intros <-. apply Hr. eauto.
  - now rewrite <- HU.
Qed.
