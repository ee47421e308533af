(** * Block collections: one step of the loops *)
From Verif Require Export BlockRun.
Open Scope nat_scope.

Lemma scalar_weak n L map fl s : in_doc s -> AT s -> (match rem s with x :: _ => ~ In x [38; 33; 124; 62]%N | [] => True end) ->
  scalar (S n) L map fl s
  = match or_else (or_else (Loader.seq n L map) (map_ n L map fl)) (scalar_term n L fl) s with
    | (ROk y, s') => (ROk (Node (indicator_of s) [] y), set_eaten (p_pos s') s')
    | (RErr e, s') => (RErr e, s')
    | (RPanic, s') => (RPanic, s')
    | (RDiv, s') => (RDiv, s')
    end.
Proof.
  intros H A0 Hh. cbn [scalar].
  assert (Hx : forall c, In c [38; 33; 124; 62]%N -> match rem s with x :: _ => x <> c | [] => True end).
  { destruct (rem s) as [|b r]; [tauto|]. intros c Hc ->. now apply Hh. }
  rewrite scalar_node_exec; [|assumption..|destruct (rem s); [tauto|split; intros ->; apply Hh; simpl; auto]].
  unfold string_literal, string_folded.
  unfold bind at 1. rewrite (ok_miss _ _ s H A0) by (apply Hx; simpl; auto).
  unfold bind at 1. rewrite (ok_miss _ _ s H A0) by (apply Hx; simpl; auto). reflexivity.
Qed.

(** ** What follows a node *)
Definition follow (b : bool) (c : nat) (rest : bytes) : Prop :=
  exists g k r, brk rest g k r
    /\ (k < c /\ r <> [] \/ k = 0 /\ (r = [] \/ starts_with (lit "---") r = true) \/ b = true /\ k = c /\ hd_ok r = true).
Lemma follow_cut b c rest : follow b c rest -> cut rest.
Proof. intros (g & k & r & B & _). apply brk_cons in B as (q & ->). exists 10%N. eauto. Qed.
Lemma follow_leaf b c w rest : c < w -> follow b c rest -> leaf_end w rest.
Proof. intros Hw (g & k & r & B & H). left. exists g, k, r. split; [exact B|]. lia. Qed.
Lemma follow_true b c rest : follow b c rest -> follow true c rest.
Proof. intros (g & k & r & B & H). exists g, k, r. split; [exact B|]. tauto. Qed.
(** of a deeper node *)
Lemma follow_deeper b b' c c' rest : c < c' -> follow b c rest -> follow b' c' rest.
Proof.
  intros Hc (g & k & r & B & H). exists g, k, r. split; [exact B|].
  destruct H as [[H1 H2]|[H|(_ & -> & H)]]; [left; split; [lia|exact H2]|right; left; exact H|left; split; [lia|intros ->; discriminate]].
Qed.

(** ** The end of a node in a loop *)
Definition line_end (g : str) (s : st) : st := set_pos (p_pos s + S (List.length (utf8_encode g))) s.
Lemma brk_line s g k r : in_doc s -> brk (rem s) g k r -> in_doc (line_end g s) /\ rem (line_end g s) = repeat 32%N k ++ r.
Proof.
  intros H (Hg & E & _). unfold line_end. split.
  - apply in_doc_add; [|exact H]. rewrite E. cbn [List.length]. rewrite app_length. lia.
  - rewrite rem_add, E. cbn [skipn]. apply skipn_app_len.
Qed.
Lemma loop_gap s g k r : in_doc s -> brk (rem s) g k r ->
  andM (is_err (gap true)) (notM doc_end) s = (ROk false, line_end g s).
Proof.
  intros H B. unfold andM, bind. destruct (brk_gap _ _ _ _ B) as (t & G). rewrite (is_err_eq _ _ _ (gap_exec true s H)), G. reflexivity.
Qed.
Definition doc_ends (l : bytes) : Prop := l = [] \/ starts_with (lit "---") l = true \/ starts_with (lit "...") l = true.
Lemma doc_end_spec s : in_doc s -> exists b, doc_end s = (ROk b, s) /\ (b = true <-> doc_ends (rem s)).
Proof.
  intros H. destruct (C05_doc_end_lookahead s H) as (b & E & K). exists b. split; [exact E|]. rewrite K. fold (rem s). cbv zeta. unfold doc_ends.
  rewrite !starts_with_app. tauto.
Qed.
Lemma loop_stop L s g k r : in_doc s -> AT s -> brk (rem s) g k r -> k < depth (p_indent s) L \/ k = 0 /\ (r = [] \/ starts_with (lit "---") r = true) ->
  exists p tb, orM doc_end (is_err (ind L)) (line_end g s) = (ROk true, set_pos p (set_indent tb s)) /\ agree L (p_indent s) tb.
Proof.
  intros H A0 B Hk. destruct (brk_line s g k r H B) as [H1 R1]. destruct (doc_end_spec _ H1) as (b & E & K).
  unfold orM, bind. rewrite E. destruct b.
  - exists (p_pos (line_end g s)), (p_indent s). split; [|apply agree_refl]. unfold ret. f_equal.
  - destruct Hk as [Hk|[-> Hk]]; [|exfalso; assert (Z : false = true) by (apply K; rewrite R1; unfold doc_ends; cbn [repeat app]; tauto); discriminate].
    rewrite (is_err_eq _ _ _ (ind_exec L _ H1)), ind_width_depth, R1.
    destruct B as (_ & _ & Hr). destruct (spaces_shown k r Hr) as (_ & _ & -> & _).
    rewrite (proj2 (Nat.leb_gt _ _)) by exact Hk. exists (p_eaten s), (ind_norm L (p_indent s)).
    split; [|now apply agree_norm]. f_equal.
Qed.
Lemma loop_go L s g r : in_doc s -> brk (rem s) g (depth (p_indent s) L) r -> r <> [] -> starts_with (lit "---") r = false -> starts_with (lit "...") r = false ->
  let s1 := set_pos (p_pos s + (S (List.length (utf8_encode g)) + depth (p_indent s) L)) (set_indent (ind_norm L (p_indent s)) s) in
  orM doc_end (is_err (ind L)) (line_end g s) = (ROk false, s1) /\ in_doc s1 /\ rem s1 = r.
Proof.
  intros H B Hr M1 M2 s1. set (c := depth (p_indent s) L) in *. destruct (brk_line s g c r H B) as [H1 R1].
  destruct (doc_end_spec _ H1) as (b & E & K).
  destruct b.
  { exfalso. destruct (proj1 K eq_refl) as [Z|[Z|Z]]; rewrite R1 in Z; destruct c; cbn in Z; try discriminate; cbn in M1, M2; try congruence.
    all: destruct r; [congruence|]; cbn in *; congruence. }
  split; [|].
  - unfold orM, bind. rewrite E, (is_err_eq _ _ _ (ind_ok L _ H1 ltac:(destruct B as (_ & _ & Z); rewrite R1; destruct (spaces_shown c r Z) as (_ & _ & -> & _); apply le_n))).
    f_equal. unfold s1. apply st_ext; try reflexivity. cbn [p_pos set_pos set_indent p_indent line_end]. unfold line_end. cbn [p_pos set_pos p_indent]. fold c. lia.
  - destruct B as (_ & Er & _). assert (EL : List.length (rem s) = S (List.length (utf8_encode g)) + c + List.length r).
    { rewrite Er. cbn [List.length]. rewrite !app_length, repeat_length. lia. }
    unfold in_doc, rem in *. rewrite skipn_length in EL. split; [cbn; lia|].
    unfold s1. cbn [p_pos set_pos p_doc set_indent]. rewrite <- skipn_add. rewrite Er.
    cbn [skipn Nat.add]. rewrite app_assoc. replace (List.length (utf8_encode g) + c) with (List.length (utf8_encode g ++ repeat 32%N c)) by (rewrite app_length, repeat_length; lia).
    apply skipn_app_len.
Qed.

(** ** Sequences *)
Definition item_step (n L : nat) (map : bool) (v : list node) : M yaml :=
  x <- or_else (scalar n (L + 1) false false) (err (lit "sequence item")) ;; seq_loop n L map (v ++ [x]).
Lemma dash_bound s r : in_doc s -> rem s = 45%N :: 32%N :: r -> (match r with x :: _ => is_ws x = false | [] => True end) ->
  sym (chr "-") s = (ROk tt, set_pos (p_pos s + 1) s)
  /\ bound (set_pos (p_pos s + 1) s) = (ROk tt, set_pos (p_pos s + 2) s).
Proof.
  intros H R Hw. assert (H1 : in_doc (set_pos (p_pos s + 1) s)) by (apply in_doc_add; [rewrite R; simpl; lia|exact H]).
  rewrite (sym_exec _ s H), R. split; [reflexivity|]. rewrite (bound_exec _ H1), rem_add, R. cbn [skipn].
  change (at_bound (32%N :: r)) with true. cbv iota. unfold ws_len. rewrite span_pos by reflexivity. rewrite (span_zero _ r) by exact Hw.
  f_equal. apply st_ext; try reflexivity. cbn. lia.
Qed.
Lemma enters_at map L X c s tb l : in_doc s -> enters map L X c s tb -> rem s = X ++ l ->
  let s1 := set_pos (p_pos s + List.length X) (set_indent tb s) in in_doc s1 /\ rem s1 = l.
Proof.
  intros H _ R s1. assert (List.length (rem s) = List.length X + List.length l) by now rewrite R, app_length.
  unfold in_doc, rem in *. rewrite skipn_length in *. split; [cbn; lia|]. unfold s1. cbn [p_pos set_pos p_doc set_indent].
  rewrite <- skipn_add, R. apply skipn_app_len.
Qed.
Lemma seq_first n L map s X c tb r : in_doc s -> AT s -> enters map L X c s tb -> rem s = X ++ 45%N :: 32%N :: r ->
  (match r with x :: _ => is_ws x = false | [] => True end) ->
  Loader.seq (S (S n)) L map s = item_step n L map [] (at_pos (p_pos s + (List.length X + 2)) (set_indent tb s)).
Proof.
  intros H A0 En R Hw. destruct (enters_at _ _ _ _ _ _ _ H En R) as [H1 R1]. destruct (dash_bound _ r H1 R1 Hw) as [E1 E2].
  destruct En as (P & _). unfold prelude in P.
  cbn [Loader.seq seq_loop]. unfold bind at 1, forward at 1, modify at 1. rewrite (set_eaten_AT s A0).
  rewrite bind_assoc'. unfold bind at 1. rewrite P. rewrite bind_assoc'. unfold bind at 1. rewrite E1.
  rewrite bind_assoc'. unfold bind at 1. rewrite E2. unfold bind at 1, ret at 1. cbv iota.
  unfold bind at 1, forward at 1, modify at 1. unfold item_step. cbn [app].
  replace (set_eaten _ _) with (at_pos (p_pos s + (List.length X + 2)) (set_indent tb s)); [reflexivity|].
  apply st_ext; try reflexivity; cbn; lia.
Qed.
Lemma seq_more n L map v s g r : v <> [] -> in_doc s -> AT s -> brk (rem s) g (depth (p_indent s) L) (45%N :: 32%N :: r) ->
  (match r with x :: _ => is_ws x = false | [] => True end) ->
  seq_loop (S n) L map v s = item_step n L map v
    (at_pos (p_pos s + (S (List.length (utf8_encode g)) + depth (p_indent s) L + 2)) (set_indent (ind_norm L (p_indent s)) s)).
Proof.
  intros Hv H A0 B Hw. destruct (loop_go L s g _ H B) as (E & H1 & R1); [discriminate|reflexivity|reflexivity|].
  set (s1 := set_pos _ (set_indent _ s)) in *. destruct (dash_bound s1 r H1 R1 Hw) as [E1 E2].
  cbn [seq_loop]. unfold bind at 1, forward at 1, modify at 1. rewrite (set_eaten_AT s A0).
  destruct v as [|x v]; [congruence|]. set (w := x :: v) in *.
  rewrite bind_assoc'. unfold bind at 1. rewrite (loop_gap s g _ _ H B). cbv iota.
  rewrite bind_assoc'. unfold bind at 1. rewrite E. cbv iota.
  rewrite bind_assoc'. unfold bind at 1. unfold orM at 1. unfold bind at 1. rewrite (is_err_eq _ _ _ E1). cbv iota beta.
  rewrite (is_err_eq _ _ _ E2). cbv iota.
  rewrite bind_assoc'. unfold bind at 1, forward at 1, modify at 1. unfold bind at 1, ret at 1. cbv iota.
  unfold bind at 1, forward at 1, modify at 1. unfold item_step.
  replace (set_eaten _ _) with (at_pos (p_pos s + (S (List.length (utf8_encode g)) + depth (p_indent s) L + 2)) (set_indent (ind_norm L (p_indent s)) s)); [reflexivity|].
  apply st_ext; try reflexivity; unfold s1; cbn [p_pos p_eaten set_pos set_eaten set_indent at_pos]; unfold at_pos; cbn [p_pos p_eaten set_pos set_eaten set_indent]; lia.
Qed.
Lemma hd_stop s : in_doc s -> hd_ok (rem s) = true ->
  exists p, orM (is_err (sym (chr "-"))) (is_err bound) s = (ROk true, set_pos p s).
Proof.
  intros H Hh. apply hd_ok_cons in Hh as (b & r & R & _ & Hb). unfold orM, bind at 1.
  rewrite (is_err_eq _ _ _ (sym_exec (chr "-") s H)), R. change (chr "-") with 45%N.
  destruct (N.eqb_spec b 45) as [->|]; [|eexists; reflexivity].
  assert (H1 : in_doc (set_pos (p_pos s + 1) s)) by (apply in_doc_add; [rewrite R; simpl; lia|exact H]).
  rewrite (is_err_eq _ _ _ (bound_exec _ H1)), rem_add, R. cbn [skipn]. rewrite (Hb (or_introl eq_refl)). eexists. reflexivity.
Qed.
(** the head of the loop after the first item *)
Definition seq_head (L : nat) : M bool :=
  bad <- andM (is_err (gap true)) (notM doc_end) ;;
  if (bad : bool) then err (lit "sequence terminator")
  else
    stop <- orM doc_end (is_err (ind L)) ;;
    if (stop : bool) then ret false
    else
      stop <- orM (is_err (sym (chr "-"))) (is_err bound) ;;
      if (stop : bool) then ret false
      else forward ;;; ret true.
Lemma seq_stops L map v s : v <> [] -> AT s -> (exists p tb, seq_head L s = (ROk false, set_pos p (set_indent tb s)) /\ agree L (p_indent s) tb) ->
  exists s', (forall n, seq_loop (S n) L map v s = (ROk (YSeq v), s')) /\ moves L 0 s s' /\ p_eaten s' = p_pos s'.
Proof.
  intros Hv A0 (p & tb & E & Hag). exists (set_pos (p_eaten s) (set_indent tb s)). split; [|split; [|reflexivity]].
  - intros n. cbn [seq_loop]. unfold bind at 1, forward at 1, modify at 1. rewrite (set_eaten_AT s A0).
    destruct v as [|x v]; [congruence|]. fold (seq_head L). unfold bind at 1. rewrite E. reflexivity.
  - exists tb, (p_eaten s). split; [|exact Hag]. apply st_ext; try reflexivity; cbn [p_pos p_eaten set_pos set_indent set_eaten]; rewrite A0; lia.
Qed.
Lemma seq_done L map v s : v <> [] -> in_doc s -> AT s -> follow true (depth (p_indent s) L) (rem s) ->
  exists s', (forall n, seq_loop (S n) L map v s = (ROk (YSeq v), s')) /\ moves L 0 s s' /\ p_eaten s' = p_pos s'.
Proof.
  intros Hv H A0 (g & k & r & B & F).
  apply (seq_stops L map v s Hv A0). unfold seq_head.
  unfold bind at 1. rewrite (loop_gap s g _ _ H B). cbv iota.
  destruct (Compare_dec.lt_dec k (depth (p_indent s) L)) as [Hk|Hk]; [|destruct F as [F|[F|(_ & -> & F)]]; [lia| |]].
  1,2: destruct (loop_stop L s g k r H A0 B ltac:(tauto)) as (p & tb & E & Hag); unfold bind at 1; rewrite E; cbv iota; unfold ret; exists p, tb; (split; [reflexivity|exact Hag]).
  apply hd_ok_cons in F as F'. destruct F' as (b & q & Er & Hb & Hd).
  destruct (starts_with (lit "---") r || starts_with (lit "...") r) eqn:M.
  - (* a document ends here: only in column 0 *)
    destruct (brk_line s g _ r H B) as [H1 R1]. destruct (doc_end_spec _ H1) as (bb & E & K).
    destruct bb.
    + unfold bind at 1. unfold orM, bind at 1. rewrite E. unfold ret. exists (p_pos (line_end g s)), (p_indent s). split; [reflexivity|apply agree_refl].
    + destruct (depth (p_indent s) L) as [|d] eqn:Ed.
      * exfalso. assert (Z : false = true) by (apply K; rewrite R1; cbn [repeat app]; unfold doc_ends; apply orb_true_iff in M; tauto). discriminate.
      * assert (IE : exists s2, is_err (ind L) (line_end g s) = (ROk false, s2) /\ in_doc s2 /\ rem s2 = r
                   /\ exists p tb, s2 = set_pos p (set_indent tb s) /\ agree L (p_indent s) tb).
        { rewrite <- Ed in *. rewrite (is_err_eq _ _ _ (ind_ok L _ H1 ltac:(destruct B as (_ & _ & Z); rewrite R1; destruct (spaces_shown _ r Z) as (_ & _ & -> & _); apply le_n))).
          eexists. split; [reflexivity|]. change (p_indent (line_end g s)) with (p_indent s).
          set (c := depth (p_indent s) L) in *.
          assert (LL : List.length (rem (line_end g s)) = c + List.length r) by (rewrite R1, app_length, repeat_length; reflexivity).
          split; [|split; [|eexists _, _; split; [reflexivity|now apply agree_norm]]].
          - unfold in_doc, rem in *. rewrite skipn_length in LL. cbn in *. lia.
          - unfold rem in *. cbn [p_pos set_pos p_doc set_indent line_end] in *. rewrite <- skipn_add, R1.
            rewrite <- (repeat_length 32%N c) at 1. apply skipn_app_len. }
        destruct IE as (s2 & IE & H2 & R2 & p & tb & E2 & Hag).
        unfold bind at 1. unfold orM at 1, bind at 1. rewrite E. rewrite IE. cbv iota.
        destruct (hd_stop s2 H2 ltac:(rewrite R2; exact F)) as (p' & E3). unfold bind at 1. rewrite E3. cbv iota. unfold ret. exists p', tb. subst s2. split; [reflexivity|exact Hag].
  - apply orb_false_iff in M as [M1 M2]. destruct (loop_go L s g r H B) as (E & H1 & R1); [rewrite Er; discriminate|exact M1|exact M2|].
    unfold bind at 1. rewrite E. cbv iota. set (s1 := set_pos _ (set_indent _ s)) in *.
    destruct (hd_stop s1 H1 ltac:(rewrite R1; exact F)) as (p' & E3). unfold bind at 1. rewrite E3. cbv iota. unfold ret. exists p', (ind_norm L (p_indent s)). split; [reflexivity|now apply agree_norm].
Qed.
Lemma seq_no n L map s X c tb l : in_doc s -> AT s -> enters map L X c s tb -> rem s = X ++ l -> hd_ok l = true ->
  Loader.seq (S (S n)) L map s = (RErr Mismatch, set_indent tb s).
Proof.
  intros H A0 En R Hh. destruct (enters_at _ _ _ _ _ _ _ H En R) as [H1 R1].
  destruct En as (P & _). unfold prelude in P. set (s1 := set_pos _ _) in *.
  cbn [Loader.seq seq_loop]. unfold bind at 1, forward at 1, modify at 1. rewrite (set_eaten_AT s A0).
  rewrite bind_assoc'. unfold bind at 1. rewrite P. rewrite bind_assoc'.
  assert (BK : set_pos (p_eaten s1) s1 = set_indent tb s) by (apply st_ext; try reflexivity; unfold s1; cbn; now rewrite A0).
  apply hd_ok_cons in Hh as (b & r & -> & _ & Hb).
  unfold bind at 1. rewrite (sym_exec (chr "-") s1 H1), R1. change (chr "-") with 45%N.
  destruct (N.eqb_spec b 45) as [->|]; [|now rewrite BK].
  assert (H2 : in_doc (set_pos (p_pos s1 + 1) s1)) by (apply in_doc_add; [rewrite R1; simpl; lia|exact H1]).
  rewrite bind_assoc'. unfold bind at 1. rewrite (bound_exec _ H2), rem_add, R1. cbn [skipn]. rewrite (Hb (or_introl eq_refl)).
  f_equal. exact BK.
Qed.

(** ** Maps *)
Definition colon : M bool := orM (is_err (sym (chr ":"))) (is_err bound).
Definition entry_step (n L : nat) (map : bool) (m : list (node * node)) (k : node) : M yaml :=
  forward ;;; v <- or_else (scalar n (L + 1) true false) (err (lit "map value")) ;; map_loop n L map false (m ++ [(k, v)]).
Lemma map_first n L map s X c tb l k s3 bad s4 : in_doc s -> AT s -> enters map L X c s tb -> rem s = X ++ l -> hd_ok l = true ->
  scalar_flow n (L + 1) false (at_pos (p_pos s + List.length X) (set_indent tb s)) = (ROk k, s3) ->
  colon s3 = (ROk bad, s4) ->
  map_ (S (S n)) L map false (set_indent tb s) = if (bad : bool) then (ROk (n_yaml k), s4) else entry_step n L map [] k s4.
Proof.
  intros H A0 En R Hh Ek Ec. destruct (enters_at _ _ _ _ _ _ _ H En R) as [H1 R1].
  destruct En as (_ & P & _). unfold prelude in P.
  set (s0 := set_indent tb s) in *. assert (A1 : AT s0) by exact A0.
  cbn [map_ map_loop]. unfold bind at 1, forward at 1, modify at 1. rewrite (set_eaten_AT s0 A1).
  rewrite bind_assoc'. unfold bind at 1. rewrite P. rewrite bind_assoc'. unfold bind at 1, forward at 1, modify at 1.
  change (set_eaten _ _) with (at_pos (p_pos s + List.length X) s0). set (s2 := at_pos _ s0) in *.
  rewrite bind_assoc'. unfold bind at 1. rewrite (complex_miss s2); [|exact H1|reflexivity|change (rem s2) with (rem (set_pos (p_pos s + List.length X) s0)); now rewrite R1].
  cbv iota. rewrite bind_assoc'. unfold bind at 1. rewrite Ek. rewrite bind_assoc'. unfold bind at 1. fold colon. rewrite Ec.
  destruct bad; unfold bind at 1, ret at 1; cbv iota; reflexivity.
Qed.
Lemma map_more n L map m s g l k s3 s4 : m <> [] -> in_doc s -> AT s -> brk (rem s) g (depth (p_indent s) L) l -> good l ->
  scalar_flow n (L + 1) false (at_pos (p_pos s + (S (List.length (utf8_encode g)) + depth (p_indent s) L)) (set_indent (ind_norm L (p_indent s)) s)) = (ROk k, s3) ->
  colon s3 = (ROk false, s4) ->
  map_loop (S n) L map false m s = entry_step n L map m k s4.
Proof.
  intros Hm H A0 B (Hh & M1 & M2 & b & q & El & _) Ek Ec.
  destruct (loop_go L s g l H B) as (E & H1 & R1); [rewrite El; discriminate|exact M1|exact M2|].
  set (s1 := set_pos _ (set_indent _ s)) in *.
  cbn [map_loop]. unfold bind at 1, forward at 1, modify at 1. rewrite (set_eaten_AT s A0).
  destruct m as [|x m]; [congruence|]. set (w := x :: m) in *.
  rewrite bind_assoc'. unfold bind at 1. rewrite (loop_gap s g _ _ H B). cbv iota.
  rewrite bind_assoc'. unfold bind at 1. rewrite E. cbv iota.
  rewrite bind_assoc'. unfold bind at 1, forward at 1, modify at 1.
  change (set_eaten (p_pos s1) s1) with (at_pos (p_pos s1) s1).
  change (at_pos (p_pos s1) s1) with (at_pos (p_pos s + (S (List.length (utf8_encode g)) + depth (p_indent s) L)) (set_indent (ind_norm L (p_indent s)) s)).
  set (s2 := at_pos _ (set_indent _ s)) in *.
  rewrite bind_assoc'. unfold bind at 1. rewrite (complex_miss s2); [|exact H1|reflexivity|change (rem s2) with (rem s1); now rewrite R1].
  cbv iota. rewrite bind_assoc'. unfold bind at 1. unfold or_else at 1. rewrite Ek. rewrite bind_assoc'. unfold bind at 1. fold colon. rewrite Ec.
  unfold bind at 1, ret at 1; cbv iota; reflexivity.
Qed.
Lemma map_done L map m s : m <> [] -> in_doc s -> AT s -> follow false (depth (p_indent s) L) (rem s) ->
  exists s', (forall n, map_loop (S n) L map false m s = build_map m s') /\ moves L 0 s s' /\ p_eaten s' = p_pos s'.
Proof.
  intros Hm H A0 (g & k & r & B & F).
  destruct (loop_stop L s g k r H A0 B) as (p & tb & E & Hag); [destruct F as [F|[F|(F & _)]]; [tauto|tauto|discriminate]|].
  exists (set_pos (p_eaten s) (set_indent tb s)). split; [|split; [|reflexivity]].
  - intros n. cbn [map_loop]. unfold bind at 1, forward at 1, modify at 1. rewrite (set_eaten_AT s A0).
    destruct m as [|x m]; [congruence|]. set (w := x :: m) in *.
    rewrite bind_assoc'. unfold bind at 1. rewrite (loop_gap s g _ _ H B). cbv iota. rewrite bind_assoc'.
    unfold bind at 1; rewrite E; cbv iota. unfold bind at 1, ret at 1; cbv iota; unfold bind, backward, modify. reflexivity.
  - exists tb, (p_eaten s). split; [|exact Hag]. apply st_ext; try reflexivity; cbn [p_pos p_eaten set_pos set_indent set_eaten]; rewrite A0; lia.
Qed.
