(** * C14: block scalars keep their lines *)
From Verif Require Export PropJson2 PropDirective FoldSpec.
Open Scope nat_scope.

(** ** Specification *)
(** The lines of a block scalar: how many empty lines come before each line,
    and its text behind the indentation. *)
Definition block_lines := list (nat * str).
Definition breaks (e : nat) : str := repeat 10%N e.
(** [e] empty lines of a file whose line break is [br] *)
Definition rows (br : str) (e : nat) : str := List.concat (repeat br e).
(** how the lines are written, each after a line break, [d] columns in *)
Definition block_text (br : str) (d : nat) (ls : block_lines) : str :=
  flat_map (fun x => br ++ rows br (fst x) ++ repeat 32%N d ++ snd x) ls.
(** a literal keeps every line break between two lines *)
Definition literal_value (c : str) (ls : block_lines) : str :=
  c ++ flat_map (fun x => 10%N :: breaks (fst x) ++ snd x) ls.
(** a folded scalar turns one line break into a space, and drops one of several *)
Definition folded_value (c : str) (ls : block_lines) : str :=
  c ++ flat_map (fun x => (if Nat.eqb (fst x) 0 then [32%N] else breaks (fst x)) ++ snd x) ls.
Definition blank_char (c : N) : Prop := c = 32%N \/ c = 9%N \/ c = 12%N.
Record line_ok (e : nat) (c : str) : Prop := {
  line_valid : valid c;
  line_one : Forall (fun x => x <> 10%N /\ x <> 13%N) c;
  line_seen : 0 < e -> exists x, In x c /\ ~ blank_char x
}.
(** a line of a folded scalar begins and ends with a visible character *)
Definition trimmed (c : str) : Prop :=
  (exists x r, c = x :: r /\ is_uni_ws x = false) /\ (exists x r, c = r ++ [x] /\ is_uni_ws x = false).
(** what comes behind: [e] empty lines, then less than [d] spaces and then the
    end or a visible character *)
Definition block_end (br : str) (d e : nat) (rest : bytes) : Prop :=
  exists k r, rest = br ++ rows br e ++ repeat 32%N k ++ r /\ k < d
    /\ (r = [] \/ exists x q, r = x :: q /\ ~ blank_char x /\ x <> 10%N /\ x <> 13%N).
(** the chomping indicator, and what it leaves of the last line break and the
    [e] empty lines behind the text *)
Inductive chomping : str -> nat -> str -> Prop :=
| CStrip e : chomping (lit "-") e []
| CClip e : chomping [] e [10%N]
| CKeep e : chomping (lit "+") e (10%N :: breaks e).

(** ** Proofs *)
Lemma is_ws_blank_char c : is_ws c = true <-> blank_char c.
Proof.
  unfold is_ws, is_ascii_ws, blank_char. rewrite !andb_true_iff, !orb_true_iff, !negb_true_iff, !N.eqb_eq, !N.eqb_neq. lia.
Qed.
Lemma nl_head0 b r : b <> 10%N -> b <> 13%N -> nl_len (b :: r) = 0.
Proof.
  intros H1 H2. rewrite nl_len_alt. unfold nl_len'. cbn [starts_with].
  rewrite (proj2 (N.eqb_neq 13 b)), (proj2 (N.eqb_neq 10 b)) by congruence. cbn [andb].
  rewrite (proj2 (N.eqb_neq b 13)), (proj2 (N.eqb_neq b 10)) by congruence. reflexivity.
Qed.
Definition nocr (r : bytes) : Prop := match r with x :: _ => x <> 13%N | [] => True end.
Lemma nl_lf r : nocr r -> nl_len (10%N :: r) = 1.
Proof.
  intros H. rewrite nl_len_alt. unfold nl_len'. destruct r as [|x r]; [reflexivity|]. cbn [starts_with].
  rewrite (proj2 (N.eqb_neq 13 x)) by (cbn in H; congruence). reflexivity.
Qed.
Lemma breaks_nocr e z : nocr z -> nocr (breaks e ++ z).
Proof. destruct e; [auto|]. cbn. discriminate. Qed.
Lemma breaks_encode e : utf8_encode (breaks e) = breaks e.
Proof. induction e as [|e IH]; [reflexivity|]. cbn [breaks repeat]. rewrite encode_cons_ascii by lia. now f_equal. Qed.
(** the next character does not belong to a line break *)
Definition fresh_head (r : bytes) : Prop := match r with x :: _ => x <> 10%N /\ x <> 13%N | [] => True end.
Lemma break_length br : line_break br -> 0 < List.length br.
Proof. intros [->|[->| ->]]; cbn; lia. Qed.
Lemma break_encode br : line_break br -> utf8_encode br = br.
Proof. intros [->|[->| ->]]; reflexivity. Qed.
Lemma rows_encode br e : line_break br -> utf8_encode (rows br e) = rows br e.
Proof. intros H. unfold rows. induction e as [|e IH]; [reflexivity|]. cbn [repeat List.concat]. now rewrite encode_app, IH, break_encode. Qed.
Lemma rows_length br e : List.length (rows br e) = e * List.length br.
Proof. unfold rows. induction e as [|e IH]; [reflexivity|]. cbn [repeat List.concat]. rewrite app_length, IH. reflexivity. Qed.
Lemma rows_S br e : rows br (S e) = br ++ rows br e. Proof. reflexivity. Qed.
Lemma nl_rows br e z : line_break br -> fresh_head z -> nl_len (br ++ rows br e ++ z) = List.length br.
Proof.
  intros [->|[->| ->]] H; [|reflexivity|].
  - cbn [app]. apply nl_lf. destruct e; [destruct z; [exact I|apply H]|cbn; discriminate].
  - destruct e as [|e]; [|reflexivity]. cbn [app rows repeat List.concat]. destruct z as [|x z]; [reflexivity|]. destruct H as [H1 _].
    rewrite nl_len_alt. unfold nl_len'. cbn [starts_with List.length]. rewrite (proj2 (N.eqb_neq 10 x)) by congruence. reflexivity.
Qed.
Lemma break_ws br z : line_break br -> ws_len (br ++ z) = 0.
Proof. intros [->|[->| ->]]; reflexivity. Qed.
Lemma break_sp br z : line_break br -> sp_len (br ++ z) = 0.
Proof. intros [->|[->| ->]]; reflexivity. Qed.
(** the end of a run of empty lines *)
Definition stops_gap (z : bytes) : Prop := fresh_head z /\ nl_len (skipn (ws_len z) z) = 0.
Lemma rows_lines br e z : line_break br -> stops_gap z -> forall n, List.length (rows br e ++ z) < n ->
  gap_lines n false (rows br e ++ z) = (e, e * List.length br).
Proof.
  intros Hb [H1 H2]. pose proof (break_length br Hb) as Hl. induction e as [|e IH]; intros n Hn; (destruct n as [|n]; [lia|]); cbn [gap_lines]; unfold line_skip; cbv zeta.
  - cbn [rows repeat List.concat app]. now rewrite H2.
  - rewrite rows_S, <- app_assoc in *. rewrite (break_ws br _ Hb). cbn [skipn Nat.add].
    rewrite (nl_rows br e z Hb H1), (proj2 (Nat.eqb_neq _ _)) by lia. rewrite skipn_app_len, IH by (rewrite app_length in Hn; lia). reflexivity.
Qed.
Lemma gap_rows br e z : line_break br -> stops_gap z ->
  gap_f false (rows br e ++ z) = match e with 0 => gap_f false z | S e' => Some (e, e * List.length br) end.
Proof.
  intros Hb Hz. pose proof (break_length br Hb) as Hl. destruct e as [|e]; [reflexivity|]. unfold gap_f, gap_head. rewrite rows_S, <- app_assoc. cbn [skipn Nat.add].
  rewrite (nl_rows br e z Hb (proj1 Hz)), (proj2 (Nat.eqb_neq _ _)) by lia. rewrite skipn_app_len, (rows_lines br e z Hb Hz) by lia. reflexivity.
Qed.
Lemma repeat_span (f : N -> bool) k l : f 32%N = true -> span f (repeat 32%N k ++ l) = k + span f l.
Proof. intros H. induction k as [|k IH]; [reflexivity|]. cbn [repeat app span]. rewrite H, IH. reflexivity. Qed.
Lemma ws_text_stop c tl : Forall (fun x => x <> 10%N /\ x <> 13%N) c -> (exists x, In x c /\ ~ blank_char x) ->
  nl_len (skipn (ws_len (utf8_encode c ++ tl)) (utf8_encode c ++ tl)) = 0.
Proof.
  induction 1 as [|x c [H1 H2] _ IH]; intros (y & Hy & Hb); [destruct Hy|]. rewrite encode_cons, <- app_assoc.
  destruct (N.lt_ge_cases x 128) as [Lt|Ge].
  - rewrite encode_ascii by exact Lt. cbn [app]. unfold ws_len. destruct (is_ws x) eqn:E.
    + rewrite span_pos by exact E. cbn [skipn]. apply IH. exists y. split; [|exact Hb]. destruct Hy as [<-|Hy]; [|exact Hy].
      apply is_ws_blank_char in E. contradiction.
    + rewrite span_zero by exact E. cbn [skipn]. now apply nl_head0.
  - destruct (encode_char x) as [|b q] eqn:Eb; [unfold encode_char in Eb; destruct (x <? 128)%N, (x <? 2048)%N, (x <? 65536)%N; discriminate|].
    assert (128 <= b)%N by (apply (encode_multi x); [exact Ge|rewrite Eb; now left]).
    cbn [app]. unfold ws_len. rewrite span_zero; [cbn [skipn]; apply nl_head0; lia|].
    destruct (is_ws b) eqn:E; [|reflexivity]. apply is_ws_blank_char in E. unfold blank_char in E. lia.
Qed.
Definition ahead (k : nat) (s : st) : st := set_pos (p_pos s + k) (set_eaten (p_pos s + k) s).
Lemma ahead_in k s : k <= List.length (rem s) -> in_doc s -> in_doc (ahead k s) /\ rem (ahead k s) = skipn k (rem s).
Proof. intros Hk H. unfold in_doc, rem, ahead in *. cbn in *. rewrite skipn_length in Hk. split; [lia|]. now rewrite skipn_add. Qed.
(** one line break, some empty lines and the indentation: the first half of a turn of the loop *)
Definition turn (level : nat) (v : str) : M (str * bool) :=
  nl ;;; forward ;;;
  e <- is_err (ind level) ;;
  (if (e : bool) then
     g <- ok (gap false) ;;
     match g with
     | Some t =>
       let v := v ++ repeat 10%N t in
       e <- is_err (ind level) ;;
       ret (v, (e : bool))
     | None => ret (v, true)
     end
   else ret (v, false)).
Lemma turn_loop n level sep leading v : forall s, wrapped_loop (S n) level sep leading v s =
  (r <- turn level v ;;
   let '(v, stop) := r in
   if (stop : bool) then ret v
   else
     forward ;;;
     take_while (not_in [10; 13]%N) (More 0) ;;;
     s <- text ;;
     let v :=
       if (leading : bool) then (if is_nil v then v else v ++ [sep]) ++ s
       else (if negb (is_nil v) && negb (ends_with_ws v) then v ++ [sep] else v) ++ trim_start s in
     wrapped_loop n level sep leading v) s.
Proof.
  intros s. cbn [wrapped_loop]. unfold turn, bind.
  destruct (nl s) as [[u|e| |] s1]; try reflexivity. destruct (forward s1) as [[u1|e| |] s2]; try reflexivity.
  destruct (is_err (ind level) s2) as [[b|e| |] s3]; try reflexivity.
Qed.
Definition normed (L : nat) (s : st) : st := set_indent (ind_norm L (p_indent s)) s.
Lemma turn_go br L v s e z : line_break br -> in_doc s -> 0 < depth (p_indent s) L -> rem s = br ++ rows br e ++ z ->
  depth (p_indent s) L <= sp_len z -> (0 < e -> nl_len (skipn (ws_len z) z) = 0) ->
  exists E, turn L v s = (ROk (v ++ breaks e, false),
    set_pos (p_pos s + (List.length br + e * List.length br) + depth (p_indent s) L) (set_eaten E (normed L s))).
Proof.
  intros Hbr H Hd Er Hz Hg. set (d := depth (p_indent s) L) in *. set (l := List.length br) in *.
  assert (Hl : 0 < l) by exact (break_length br Hbr).
  assert (NZ : fresh_head z) by (destruct z as [|x z]; [exact Logic.I|]; cbn; split; intros ->; cbn in Hz; lia).
  unfold turn. unfold bind at 1. rewrite (nl_exec s H), Er, (nl_rows br e z Hbr NZ). fold l. rewrite (proj2 (Nat.eqb_neq l 0)) by lia.
  unfold bind at 1, forward at 1, modify. change (set_eaten (p_pos (set_pos (p_pos s + l) s)) (set_pos (p_pos s + l) s)) with (ahead l s).
  destruct (ahead_in l s) as [H1 R1]; [rewrite Er, app_length; unfold l; lia|exact H|]. rewrite Er in R1. unfold l in R1. rewrite skipn_app_len in R1. fold l in R1.
  exists (p_pos s + l).
  destruct e as [|e].
  - cbn [rows repeat List.concat app] in R1. unfold bind at 1.
    rewrite (is_err_eq _ _ _ (ind_exec L _ H1)), ind_width_depth, R1. cbn [p_indent ahead set_pos set_eaten]. fold d.
    rewrite (proj2 (Nat.leb_le _ _) Hz). cbn [breaks repeat Nat.mul]. rewrite app_nil_r, Nat.add_0_r. reflexivity.
  - unfold bind at 1.
    rewrite (is_err_eq _ _ _ (ind_exec L _ H1)), ind_width_depth, R1. cbn [p_indent ahead set_pos set_eaten]. fold d.
    rewrite (proj2 (Nat.leb_gt _ _)) by (rewrite rows_S, <- app_assoc, (break_sp br _ Hbr); lia). cbn [p_eaten set_eaten].
    match goal with |- context [set_pos ?p ?x] => set (s2 := set_pos p x) end.
    assert (H2 : in_doc s2) by exact H1. assert (R2 : rem s2 = rows br (S e) ++ z) by exact R1.
    unfold bind at 1. rewrite (ok_eq _ _ _ (gap_exec false s2 H2)), R2, (gap_rows br (S e) z Hbr) by (split; [exact NZ|apply Hg; lia]).
    fold l. set (s3 := set_pos (p_pos s2 + S e * l) s2).
    assert (H3 : in_doc s3) by (apply in_doc_add; [rewrite R2, app_length, rows_length; unfold l; lia|exact H2]).
    assert (R3 : rem s3 = z).
    { unfold s3. rewrite rem_add, R2. unfold l. rewrite <- (rows_length br (S e)). apply skipn_app_len. }
    assert (D3 : depth (p_indent s3) L = d) by (apply (depth_norm L (p_indent s) L); lia).
    unfold bind at 1. rewrite (is_err_eq _ _ _ (ind_exec L s3 H3)), ind_width_depth, D3, R3, (proj2 (Nat.leb_le _ _) Hz).
    unfold ret. f_equal. apply st_ext; try reflexivity; cbn; first [apply norm_idem|lia].
Qed.
Lemma turn_stop br L v s e z : line_break br -> in_doc s -> rem s = br ++ rows br e ++ z ->
  sp_len z < depth (p_indent s) L -> stops_gap z ->
  exists E, turn L v s = (ROk (v ++ breaks e, true), set_pos (p_pos s + List.length br) (set_eaten E (normed L s))).
Proof.
  intros Hbr H Er Hz NZ. set (d := depth (p_indent s) L) in *. set (l := List.length br) in *.
  assert (Hl : 0 < l) by exact (break_length br Hbr).
  unfold turn. unfold bind at 1. rewrite (nl_exec s H), Er, (nl_rows br e z Hbr (proj1 NZ)). fold l. rewrite (proj2 (Nat.eqb_neq l 0)) by lia.
  unfold bind at 1, forward at 1, modify. change (set_eaten (p_pos (set_pos (p_pos s + l) s)) (set_pos (p_pos s + l) s)) with (ahead l s).
  destruct (ahead_in l s) as [H1 R1]; [rewrite Er, app_length; unfold l; lia|exact H|]. rewrite Er in R1. unfold l in R1. rewrite skipn_app_len in R1. fold l in R1.
  exists (p_pos s + l).
  unfold bind at 1.
  rewrite (is_err_eq _ _ _ (ind_exec L _ H1)), ind_width_depth, R1. cbn [p_indent ahead set_pos set_eaten]. fold d.
  assert (Hz' : sp_len (rows br e ++ z) < d) by (destruct e; [exact Hz|rewrite rows_S, <- app_assoc, (break_sp br _ Hbr); lia]).
  rewrite (proj2 (Nat.leb_gt _ _) Hz'). cbn [p_eaten set_eaten].
  match goal with |- context [set_pos ?p ?x] => set (s2 := set_pos p x) end.
  assert (H2 : in_doc s2) by exact H1. assert (R2 : rem s2 = rows br e ++ z) by exact R1.
  unfold bind at 1. rewrite (ok_eq _ _ _ (gap_exec false s2 H2)), R2, (gap_rows br e z Hbr NZ).
  destruct e as [|e].
  - assert (G : gap_f false z = None).
    { destruct NZ as [N1 N2]. unfold gap_f, gap_head. cbn [skipn]. destruct z as [|x z]; [reflexivity|].
      unfold ws_len in N2. destruct (is_ws x) eqn:Ex.
      - rewrite nl_head0; [reflexivity| |]; intros ->; discriminate.
      - rewrite span_zero in N2 by exact Ex. cbn [skipn] in N2. now rewrite N2. }
    rewrite G. unfold gap_head, ret. cbn [breaks repeat]. rewrite app_nil_r. f_equal. apply st_ext; try reflexivity. cbn. lia.
  - fold l. set (s3 := set_pos (p_pos s2 + S e * l) s2).
    assert (H3 : in_doc s3) by (apply in_doc_add; [rewrite R2, app_length, rows_length; unfold l; lia|exact H2]).
    assert (R3 : rem s3 = z).
    { unfold s3. rewrite rem_add, R2. unfold l. rewrite <- (rows_length br (S e)). apply skipn_app_len. }
    assert (D3 : depth (p_indent s3) L = d) by (apply (depth_norm L (p_indent s) L); lia).
    unfold bind at 1. rewrite (is_err_eq _ _ _ (ind_exec L s3 H3)), ind_width_depth, D3, R3, (proj2 (Nat.leb_gt _ _) Hz).
    unfold ret. f_equal. apply st_ext; try reflexivity; cbn; first [apply norm_idem|lia].
Qed.
(** what the loop makes of one line *)
Definition join1 (sep : N) (leading : bool) (v : str) (x : nat * str) : str :=
  let v := v ++ breaks (fst x) in
  if leading then (if is_nil v then v else v ++ [sep]) ++ snd x
  else (if negb (is_nil v) && negb (ends_with_ws v) then v ++ [sep] else v) ++ trim_start (snd x).
Lemma one_line c : Forall (fun x => x <> 10%N /\ x <> 13%N) c -> forallb (not_in [10; 13]%N) c = true.
Proof.
  intros H. apply forallb_forall. intros x Hx. rewrite Forall_forall in H. apply not_in_spec. specialize (H x Hx). simpl. lia.
Qed.
Lemma read_line {A} (k : str -> M A) c tl s : in_doc s -> valid c -> Forall (fun x => x <> 10%N /\ x <> 13%N) c -> starts_in [10; 13]%N tl ->
  rem s = utf8_encode c ++ tl ->
  (forward ;;; take_while (not_in [10; 13]%N) (More 0) ;;; x <- text ;; k x) s
  = k c (set_pos (p_pos s + List.length (utf8_encode c)) (set_eaten (p_pos s) s)).
Proof.
  intros H Hv H1 Hs Er. unfold bind, forward, modify. set (s1 := set_eaten (p_pos s) s).
  assert (D1 : in_doc s1) by exact H. assert (R1 : rem s1 = utf8_encode c ++ tl) by exact Er.
  rewrite (more0_exec _ s1 D1), R1, (span_text [10; 13]%N c tl); [|reflexivity|now apply one_line|exact Hs].
  set (m := List.length (utf8_encode c)).
  assert (D2 : in_doc (set_pos (p_pos s1 + m) s1)) by (apply in_doc_add; [rewrite R1, app_length; unfold m; lia|exact D1]).
  rewrite (text_exec _ D2). cbn [p_eaten p_pos p_doc set_pos]. rewrite slice_rem by reflexivity.
  rewrite R1. unfold m. now rewrite firstn_app_len, (lossy_encode c Hv).
Qed.
Lemma spaces_encode d : utf8_encode (repeat 32%N d) = repeat 32%N d.
Proof. induction d as [|d IH]; [reflexivity|]. cbn [repeat]. rewrite encode_cons_ascii by lia. now f_equal. Qed.
Lemma block_text_cons br d e c ls : line_break br -> utf8_encode (block_text br d ((e, c) :: ls))
  = br ++ rows br e ++ repeat 32%N d ++ utf8_encode c ++ utf8_encode (block_text br d ls).
Proof.
  intros Hb. unfold block_text. cbn [flat_map fst snd]. rewrite !encode_app.
  now rewrite (break_encode br Hb), (rows_encode br e Hb), spaces_encode, <- !app_assoc.
Qed.
Lemma break_starts br z : line_break br -> starts_in [10; 13]%N (br ++ z).
Proof. intros [->|[->| ->]]; cbn; auto. Qed.
Lemma wrapped_run br L sep leading d e rest : line_break br -> 0 < d -> block_end br d e rest -> forall ls n v s,
  List.length ls < n -> in_doc s -> depth (p_indent s) L = d ->
  Forall (fun x => line_ok (fst x) (snd x)) ls ->
  rem s = utf8_encode (block_text br d ls) ++ rest ->
  exists E, wrapped_loop n L sep leading v s
    = (ROk (fold_left (join1 sep leading) ls v ++ breaks e),
       set_pos (p_pos s + List.length (utf8_encode (block_text br d ls)) + List.length br) (set_eaten E (normed L s))).
Proof.
  intros Hbr Hd (k & r & Erest & Hk & Hr). induction ls as [|[e1 c] ls IH]; intros n v s Hn H Dp F Er; (destruct n as [|n]; [cbn in Hn; lia|]);
    rewrite turn_loop.
  - cbn [block_text flat_map utf8_encode app] in Er.
    assert (SP : span (fun c => N.eqb c 32) r = 0 /\ span is_ws r = 0 /\ nl_len r = 0 /\ fresh_head r).
    { destruct Hr as [->|(x & q & -> & Hb & H1 & H2)]; [repeat split|]. repeat split.
      - apply span_zero. apply N.eqb_neq. unfold blank_char in Hb. intros ->. apply Hb. now left.
      - apply span_zero. destruct (is_ws x) eqn:Ex; [|reflexivity]. apply is_ws_blank_char in Ex. contradiction.
      - now apply nl_head0.
      - exact H1.
      - exact H2. }
    destruct SP as (S1 & S2 & S3 & S4).
    destruct (turn_stop br L v s e (repeat 32%N k ++ r) Hbr H) as (E & Et).
    + now rewrite Er, Erest.
    + unfold sp_len. rewrite repeat_span, S1 by reflexivity. lia.
    + split; [destruct k; [exact S4|cbn; split; discriminate]|]. unfold ws_len. rewrite repeat_span, S2, Nat.add_0_r by reflexivity.
      rewrite <- (repeat_length 32%N k) at 1. now rewrite skipn_app_len.
    + unfold bind. rewrite Et. cbn [fold_left block_text flat_map utf8_encode List.length]. exists E. rewrite Nat.add_0_r. reflexivity.
  - pose proof (Forall_inv F) as [Hv H1 H2]. pose proof (Forall_inv_tail F) as F'. cbn [fst snd] in *. rewrite (block_text_cons br _ _ _ _ Hbr) in Er. rewrite <- !app_assoc in Er.
    set (tl := utf8_encode (block_text br d ls) ++ rest) in *.
    assert (TL : starts_in [10; 13]%N tl).
    { unfold tl. destruct ls as [|[e2 c2] ls]; [rewrite Erest; cbn [block_text flat_map utf8_encode app]|rewrite (block_text_cons br _ _ _ _ Hbr), <- app_assoc]; now apply break_starts. }
    destruct (turn_go br L v s e1 (repeat 32%N d ++ utf8_encode c ++ tl) Hbr H) as (E & Et).
    + now rewrite Dp.
    + exact Er.
    + unfold sp_len. rewrite repeat_span by reflexivity. lia.
    + intros He. unfold ws_len. rewrite repeat_span by reflexivity. rewrite <- skipn_add.
      assert (Q : skipn d (repeat 32%N d ++ utf8_encode c ++ tl) = utf8_encode c ++ tl)
        by (rewrite <- (repeat_length 32%N d) at 1; apply skipn_app_len).
      rewrite Q. now apply ws_text_stop, H2.
    + unfold bind at 1. rewrite Et, Dp. set (l := List.length br) in *. set (s1 := set_pos (p_pos s + (l + e1 * l) + d) (set_eaten E (normed L s))).
      assert (P1 : in_doc s1 /\ rem s1 = utf8_encode c ++ tl).
      { assert (K : p_pos s1 = p_pos s + (l + e1 * l + d)) by (cbn; lia).
        assert (A : rem s = (br ++ rows br e1 ++ repeat 32%N d) ++ utf8_encode c ++ tl) by (rewrite Er; now rewrite <- !app_assoc).
        assert (B : List.length (br ++ rows br e1 ++ repeat 32%N d) = l + e1 * l + d)
          by (rewrite !app_length, rows_length, repeat_length; unfold l; lia).
        destruct (ahead_in (l + e1 * l + d) s) as [Q1 Q2]; [rewrite A, app_length; lia|exact H|].
        unfold in_doc, rem in *. rewrite K. split; [exact Q1|]. change (p_doc s1) with (p_doc s).
        cbn [ahead p_pos set_pos p_doc set_eaten] in Q2. rewrite Q2, A, <- B. apply skipn_app_len. }
      destruct P1 as [D1 R1].
      rewrite (read_line _ c tl s1 D1 Hv H1 TL R1). set (s2 := set_pos _ (set_eaten (p_pos s1) s1)).
      assert (D2 : in_doc s2) by (change (in_doc (set_pos (p_pos s1 + List.length (utf8_encode c)) s1)); apply in_doc_add; [rewrite R1, app_length; lia|exact D1]).
      assert (R2 : rem s2 = tl) by (unfold s2; change (rem (set_pos (p_pos s1 + List.length (utf8_encode c)) (set_eaten (p_pos s1) s1))) with (rem (set_pos (p_pos s1 + List.length (utf8_encode c)) s1)); rewrite rem_add, R1; apply skipn_app_len).
      assert (DP : depth (p_indent s2) L = d) by (rewrite <- Dp; apply (depth_norm L (p_indent s) L); lia).
      destruct (IH n (join1 sep leading v (e1, c)) s2) as (E2 & E3); [cbn in Hn; lia|assumption|exact DP|exact F'|exact R2|].
      cbn [fold_left]. exists E2. etransitivity; [exact E3|]. f_equal.
      apply st_ext; try reflexivity; cbn [p_pos p_indent set_pos set_eaten set_indent normed s2].
      * unfold s2. cbn. apply norm_idem.
      * rewrite (block_text_cons br _ _ _ _ Hbr). rewrite !app_length, rows_length, repeat_length. unfold s1, l. cbn. lia.
Qed.
Lemma breaks_snoc e : breaks e ++ [10%N] = 10%N :: breaks e.
Proof. unfold breaks. change [10%N] with (repeat 10%N 1). rewrite <- repeat_app, Nat.add_comm. reflexivity. Qed.
Lemma literal_join ls : forall v, v <> [] -> fold_left (join1 10 true) ls v = literal_value v ls.
Proof.
  induction ls as [|[e c] ls IH]; intros v Hv; [now rewrite <- (app_nil_r v) at 1|]. cbn [fold_left].
  assert (E : join1 10 true v (e, c) = v ++ 10%N :: breaks e ++ c).
  { unfold join1. cbn [fst snd]. replace (is_nil (v ++ breaks e)) with false by (destruct v; [congruence|reflexivity]).
    rewrite <- !app_assoc. f_equal. rewrite app_assoc, breaks_snoc. reflexivity. }
  rewrite E, IH by (destruct v; [congruence|discriminate]). unfold literal_value. cbn [flat_map fst snd]. rewrite <- !app_assoc. cbn [app]. now rewrite <- app_assoc.
Qed.
Definition seen_end (v : str) : Prop := exists x r, v = r ++ [x] /\ is_uni_ws x = false.
Lemma seen_end_no v : seen_end v -> v <> [] /\ ends_with_ws v = false.
Proof.
  intros (x & r & -> & H). split; [destruct r; discriminate|]. unfold ends_with_ws. now rewrite rev_app_distr.
Qed.
Lemma seen_end_app u v : seen_end v -> seen_end (u ++ v).
Proof. intros (x & r & -> & H). exists x, (u ++ r). now rewrite <- app_assoc. Qed.
Lemma folded_join ls : Forall (fun x => trimmed (snd x)) ls -> forall v, seen_end v ->
  fold_left (join1 32 false) ls v = folded_value v ls /\ seen_end (folded_value v ls).
Proof.
  induction 1 as [|[e c] ls [(x & r & Ec & Hx) Hend] _ IH]; intros v Hv.
  - unfold folded_value. cbn. now rewrite app_nil_r.
  - cbn [snd] in Ec, Hend. assert (T : trim_start c = c) by (rewrite Ec; cbn; now rewrite Hx).
    assert (E : join1 32 false v (e, c) = v ++ (if Nat.eqb e 0 then [32%N] else breaks e) ++ c).
    { unfold join1. cbn [fst snd]. rewrite T. destruct (seen_end_no v Hv) as [H1 H2]. destruct e as [|e].
      - cbn [breaks repeat]. rewrite app_nil_r, H2. destruct v; [congruence|]. cbn [is_nil negb andb Nat.eqb]. now rewrite <- app_assoc.
      - replace (ends_with_ws (v ++ breaks (S e))) with true.
        + rewrite andb_false_r. cbn [Nat.eqb]. now rewrite <- app_assoc.
        + cbn [breaks repeat]. fold (breaks e). rewrite <- breaks_snoc, app_assoc. unfold ends_with_ws. now rewrite rev_app_distr. }
    cbn [fold_left]. rewrite E. destruct (IH (v ++ (if Nat.eqb e 0 then [32%N] else breaks e) ++ c)) as [K1 K2].
    { now apply seen_end_app, seen_end_app. }
    assert (Q : folded_value v ((e, c) :: ls) = folded_value (v ++ (if Nat.eqb e 0 then [32%N] else breaks e) ++ c) ls).
    { unfold folded_value. cbn [flat_map fst snd]. now rewrite <- !app_assoc. }
    rewrite Q. auto.
Qed.
Lemma wrapped_exec br L sep leading d e rest ls s : line_break br -> 0 < d -> block_end br d e rest -> in_doc s -> depth (p_indent s) L = d ->
  Forall (fun x => line_ok (fst x) (snd x)) ls -> rem s = utf8_encode (block_text br d ls) ++ rest ->
  string_wrapped L sep leading s = (ROk (fold_left (join1 sep leading) ls [] ++ 10%N :: breaks e),
    set_pos (p_pos s + List.length (utf8_encode (block_text br d ls)) + (List.length br - 1)) (normed L s)).
Proof.
  intros Hbr Hd Hb H Dp F Er. unfold string_wrapped, context. set (s0 := set_eaten (p_pos s) s).
  assert (Ln : List.length ls < loop_fuel s0).
  { unfold loop_fuel. pose proof (rem_length s) as RL. rewrite Er, app_length in RL.
    assert (List.length ls <= List.length (utf8_encode (block_text br d ls))).
    { clear - Hbr. induction ls as [|[e c] ls IH]; [cbn; lia|]. rewrite (block_text_cons br _ _ _ _ Hbr). pose proof (break_length br Hbr). cbn [List.length]. rewrite !app_length. lia. }
    cbn. lia. }
  destruct (wrapped_run br L sep leading d e rest Hbr Hd Hb ls (loop_fuel s0) [] s0 Ln H Dp F Er) as (E & Ew).
  unfold bind, gets. rewrite Ew. unfold back. pose proof (break_length br Hbr) as Hl.
  match goal with |- context [Nat.leb 1 ?p] => replace (Nat.leb 1 p) with true by (symmetry; apply Nat.leb_le; cbn [p_pos set_pos]; lia) end.
  unfold ret. rewrite <- app_assoc, breaks_snoc. f_equal. apply st_ext; try reflexivity. cbn. lia.
Qed.
(** The header of a block scalar. *)
Lemma chomp_exec ci b r s : in_doc s -> ci = lit "-" \/ ci = lit "+" \/ ci = [] -> rem s = ci ++ b :: r -> b <> 45%N -> b <> 43%N ->
  exists c, chomp s = (ROk c, set_pos (p_pos s + List.length ci) s)
    /\ c = match ci with 45%N :: _ => Strip | 43%N :: _ => Keep | _ => Clip end.
Proof.
  intros H Hc Er H1 H2. unfold chomp, context. set (s0 := set_eaten (p_pos s) s).
  assert (D0 : in_doc s0) by exact H. assert (A0 : AT s0) by reflexivity.
  assert (S0 : set_eaten (p_eaten s) s0 = s) by (apply st_ext; reflexivity).
  destruct Hc as [->|[->| ->]]; cbn [app] in Er; unfold bind.
  - rewrite (sym_yes 45 s0 _ D0 Er). eexists. split; [|reflexivity]. unfold ret. f_equal.
  - rewrite (sym_no 45 s0 D0 A0) by (change (rem s0) with (rem s); rewrite Er; discriminate).
    rewrite (sym_yes 43 s0 _ D0 Er). eexists. split; [|reflexivity]. unfold ret. f_equal.
  - rewrite (sym_no 45 s0 D0 A0) by (change (rem s0) with (rem s); now rewrite Er).
    rewrite (sym_no 43 s0 D0 A0) by (change (rem s0) with (rem s); now rewrite Er).
    eexists. split; [|reflexivity]. unfold ret. rewrite S0. cbn [List.length]. now rewrite Nat.add_0_r, set_pos_id.
Qed.
Lemma header_exec br q ci w r s : line_break br -> in_doc s -> (q < 128)%N -> ci = lit "-" \/ ci = lit "+" \/ ci = [] -> Forall blank_char w ->
  rem s = q :: ci ++ w ++ br ++ r ->
  forall (sep : N) (leading : bool) L,
  let s1 := set_pos (p_pos s + (1 + List.length ci + List.length w)) s in
  (sym q ;;; c <- chomp ;; ws (More 0) ;;; x <- string_wrapped L sep leading ;; ret (apply_chomp c x)) s
  = (x <- string_wrapped L sep leading ;; ret (apply_chomp (match ci with 45%N :: _ => Strip | 43%N :: _ => Keep | _ => Clip end) x)) s1
  /\ in_doc s1 /\ rem s1 = br ++ r.
Proof.
  intros Hbr H Hq Hc Hw Er sep leading L s1.
  assert (E0 : sym q s = (ROk tt, set_pos (p_pos s + 1) s)) by (rewrite (sym_exec q s H), Er, N.eqb_refl; reflexivity).
  assert (D1 : in_doc (set_pos (p_pos s + 1) s)) by (apply in_doc_add; [rewrite Er; cbn; lia|exact H]).
  assert (R1 : rem (set_pos (p_pos s + 1) s) = ci ++ w ++ br ++ r) by (now rewrite rem_add, Er).
  set (s2 := set_pos (p_pos s + 1) s) in *.
  assert (W : exists b q', w ++ br ++ r = b :: q' /\ b <> 45%N /\ b <> 43%N).
  { destruct Hw as [|x w Hx _]; [destruct Hbr as [->|[->| ->]]|]; cbn [app]; eexists _, _; (split; [reflexivity|]); unfold blank_char in *; lia. }
  destruct W as (b & q' & Eb & B1 & B2). pose proof R1 as R1'. rewrite Eb in R1'.
  destruct (chomp_exec ci b q' s2 D1 Hc R1' B1 B2) as (c & Ech & Ec).
  set (s3 := set_pos (p_pos s2 + List.length ci) s2) in *.
  assert (D3 : in_doc s3) by (apply in_doc_add; [rewrite R1, app_length; lia|exact D1]).
  assert (R3 : rem s3 = w ++ br ++ r) by (unfold s3; rewrite rem_add, R1; apply skipn_app_len).
  assert (WL : ws_len (w ++ br ++ r) = List.length w).
  { apply span_app; [|destruct Hbr as [->|[->| ->]]; reflexivity]. apply forallb_forall. intros x Hx. rewrite Forall_forall in Hw. now apply is_ws_blank_char, Hw. }
  assert (Ew : ws (More 0) s3 = (ROk tt, set_pos (p_pos s3 + List.length w) s3)) by (rewrite (ws0_exec s3 D3), R3, WL; reflexivity).
  assert (E1 : set_pos (p_pos s3 + List.length w) s3 = s1) by (apply st_ext; try reflexivity; cbn; lia).
  split.
  - unfold bind at 1. rewrite E0. fold s2. unfold bind at 1. rewrite Ech, <- Ec. unfold bind at 1. rewrite Ew, E1. reflexivity.
  - rewrite <- E1. split; [apply in_doc_add; [rewrite R3, app_length; lia|exact D3]|]. rewrite rem_add, R3. apply skipn_app_len.
Qed.
Lemma blanks_ascii w : Forall blank_char w -> utf8_encode w = w.
Proof.
  intros H. apply encode_asciis, forallb_forall. intros x Hx. rewrite Forall_forall in H. specialize (H x Hx). apply N.ltb_lt. unfold blank_char in H. lia.
Qed.
Lemma chomping_head ci e z : chomping ci e z -> ci = lit "-" \/ ci = lit "+" \/ ci = [].
Proof. intros []; auto. Qed.
Lemma chomping_apply ci e z v : chomping ci e z -> ci = lit "+" \/ seen_end v ->
  apply_chomp (match ci with 45%N :: _ => Strip | 43%N :: _ => Keep | _ => Clip end) (v ++ 10%N :: breaks e) = v ++ z.
Proof.
  assert (T : seen_end v -> trim_end (v ++ 10%N :: breaks e) = v).
  { intros (x & r & -> & Hx). rewrite Leaf.trim_end_app by (clear; cbn; induction e; [reflexivity|assumption]).
    apply PropScalar.trim_end_last. intros a c E. apply app_inj_tail in E as [_ <-]. exact Hx. }
  intros Hc K. revert T. destruct Hc as [e|e|e]; intros T; cbn [apply_chomp].
  - destruct K as [K|K]; [discriminate|]. now rewrite app_nil_r, T.
  - destruct K as [K|K]; [discriminate|]. now rewrite T.
  - reflexivity.
Qed.
Definition block_header (mark : N) (ci w : str) : str := mark :: ci ++ w.
(** Literal: the value is the lines with all their line breaks. *)
Theorem C14_literal : forall br s L ci w c ls e z rest,
  line_break br -> in_doc s -> 0 < depth (p_indent s) L ->
  rem s = utf8_encode (block_header (chr "|") ci w ++ block_text br (depth (p_indent s) L) ((0, c) :: ls)) ++ rest ->
  block_end br (depth (p_indent s) L) e rest -> chomping ci e z -> Forall blank_char w ->
  c <> [] -> Forall (fun x => line_ok (fst x) (snd x)) ((0, c) :: ls) ->
  ci = lit "+" \/ seen_end (literal_value c ls) ->
  string_literal L s = (ROk (literal_value c ls ++ z),
    set_indent (ind_norm L (p_indent s))
      (set_pos (p_pos s + List.length (utf8_encode (block_header (chr "|") ci w ++ block_text br (depth (p_indent s) L) ((0, c) :: ls))) + (List.length br - 1)) s)).
Proof.
  intros br s L ci w c ls e z rest Hbr H Hd Er Hb Hc Hw Hn F Hs. set (d := depth (p_indent s) L) in *.
  pose proof (chomping_head _ _ _ Hc) as Hci.
  assert (A : utf8_encode ci = ci) by (destruct Hci as [->|[->| ->]]; reflexivity).
  assert (LB : utf8_encode (block_header (chr "|") ci w ++ block_text br d ((0, c) :: ls)) = 124%N :: ci ++ w ++ utf8_encode (block_text br d ((0, c) :: ls))).
  { unfold block_header. rewrite encode_app, encode_cons_ascii, encode_app, A, (blanks_ascii w Hw) by lia. cbn [app]. now rewrite <- app_assoc. }
  assert (Er' : rem s = 124%N :: ci ++ w ++ utf8_encode (block_text br d ((0, c) :: ls)) ++ rest).
  { rewrite Er, LB. cbn [app]. now rewrite <- !app_assoc. }
  pose proof Er' as Er2. rewrite (block_text_cons br _ _ _ _ Hbr), <- !app_assoc in Er2.
  destruct (header_exec br 124 ci w _ s Hbr H ltac:(lia) Hci Hw Er2 10 true L) as (E & D1 & R1). unfold string_literal. rewrite E.
  set (s1 := set_pos (p_pos s + (1 + List.length ci + List.length w)) s) in *.
  assert (R1' : rem s1 = utf8_encode (block_text br d ((0, c) :: ls)) ++ rest) by (rewrite R1, (block_text_cons br _ _ _ _ Hbr), <- !app_assoc; reflexivity).
  unfold bind. rewrite (wrapped_exec br L 10 true d e rest ((0, c) :: ls) s1 Hbr Hd Hb D1 eq_refl F R1').
  unfold ret. cbn [fold_left]. change (join1 10 true [] (0, c)) with c. rewrite (literal_join ls c Hn), (chomping_apply ci e z _ Hc Hs).
  f_equal. apply st_ext; try reflexivity. rewrite LB. cbn [p_pos set_pos set_indent s1 normed List.length]. rewrite !app_length. cbn. lia.
Qed.
(** Folded: one line break becomes a space, of several one is dropped. *)
Theorem C14_folded : forall br s L ci w e0 c ls e z rest,
  line_break br -> in_doc s -> 0 < depth (p_indent s) L ->
  rem s = utf8_encode (block_header (chr ">") ci w ++ block_text br (depth (p_indent s) L) ((e0, c) :: ls)) ++ rest ->
  block_end br (depth (p_indent s) L) e rest -> chomping ci e z -> Forall blank_char w ->
  Forall (fun x => line_ok (fst x) (snd x) /\ trimmed (snd x)) ((e0, c) :: ls) ->
  string_folded L s = (ROk (breaks e0 ++ folded_value c ls ++ z),
    set_indent (ind_norm L (p_indent s))
      (set_pos (p_pos s + List.length (utf8_encode (block_header (chr ">") ci w ++ block_text br (depth (p_indent s) L) ((e0, c) :: ls))) + (List.length br - 1)) s)).
Proof.
  intros br s L ci w e0 c ls e z rest Hbr H Hd Er Hb Hc Hw F. set (d := depth (p_indent s) L) in *.
  pose proof (chomping_head _ _ _ Hc) as Hci.
  assert (A : utf8_encode ci = ci) by (destruct Hci as [->|[->| ->]]; reflexivity).
  assert (LB : utf8_encode (block_header (chr ">") ci w ++ block_text br d ((e0, c) :: ls)) = 62%N :: ci ++ w ++ utf8_encode (block_text br d ((e0, c) :: ls))).
  { unfold block_header. rewrite encode_app, encode_cons_ascii, encode_app, A, (blanks_ascii w Hw) by lia. cbn [app]. now rewrite <- app_assoc. }
  assert (Er' : rem s = 62%N :: ci ++ w ++ utf8_encode (block_text br d ((e0, c) :: ls)) ++ rest).
  { rewrite Er, LB. cbn [app]. now rewrite <- !app_assoc. }
  pose proof Er' as Er2. rewrite (block_text_cons br _ _ _ _ Hbr), <- !app_assoc in Er2.
  destruct (header_exec br 62 ci w _ s Hbr H ltac:(lia) Hci Hw Er2 32 false L) as (E & D1 & R1). unfold string_folded. rewrite E.
  set (s1 := set_pos (p_pos s + (1 + List.length ci + List.length w)) s) in *.
  assert (F1 : Forall (fun x => line_ok (fst x) (snd x)) ((e0, c) :: ls)) by (eapply Forall_impl; [|exact F]; intros x [K _]; exact K).
  assert (F2 : Forall (fun x : nat * str => trimmed (snd x)) ls) by (apply Forall_inv_tail in F; eapply Forall_impl; [|exact F]; intros x [_ K]; exact K).
  apply Forall_inv in F. destruct F as [_ [(x & r & Ec & Hx) Hend]]. cbn [snd] in *.
  assert (R1' : rem s1 = utf8_encode (block_text br d ((e0, c) :: ls)) ++ rest)
    by (rewrite R1, (block_text_cons br _ _ _ _ Hbr), <- !app_assoc; reflexivity).
  unfold bind. rewrite (wrapped_exec br L 32 false d e rest ((e0, c) :: ls) s1 Hbr Hd Hb D1 eq_refl F1 R1').
  assert (J : join1 32 false [] (e0, c) = breaks e0 ++ c).
  { unfold join1. cbn [fst snd app]. replace (trim_start c) with c by (rewrite Ec; cbn; now rewrite Hx).
    destruct e0 as [|e0]; [reflexivity|]. replace (ends_with_ws (breaks (S e0))) with true; [now rewrite andb_false_r|].
    cbn [breaks repeat]. fold (breaks e0). rewrite <- breaks_snoc. unfold ends_with_ws. now rewrite rev_app_distr. }
  cbn [fold_left]. rewrite J. destruct (folded_join ls F2 (breaks e0 ++ c)) as [K1 K2]; [now apply seen_end_app|].
  rewrite K1. unfold ret. rewrite (chomping_apply ci e z _ Hc (or_intror K2)).
  assert (FV : folded_value (breaks e0 ++ c) ls = breaks e0 ++ folded_value c ls) by (unfold folded_value; now rewrite <- app_assoc).
  rewrite FV, <- app_assoc.
  f_equal. apply st_ext; try reflexivity. rewrite LB. cbn [p_pos set_pos set_indent s1 normed List.length]. rewrite !app_length. cbn. lia.
Qed.

(** ** A case that meets the hypotheses, and the ways the code differs from YAML *)
Definition nested (d : str) : st := set_indent [0; 2] (new_st (fun _ => 0%N) false (utf8_encode d)).
Example C14_witness :
  let d := (lit "|- " ++ [10] ++ lit "  one" ++ [10; 10] ++ lit "    two" ++ [10; 10] ++ lit "b: 1" ++ [10])%N in
  string_literal 1 (nested d) = (ROk (lit "one" ++ [10; 10]%N ++ lit "  two"), set_pos 18 (nested d))
  /\ exists rest, rem (nested d) = utf8_encode (block_header (chr "|") (lit "-") [32%N] ++ block_text [10%N] 2 [(0, lit "one"); (1, lit "  two")]) ++ rest
     /\ block_end [10%N] 2 1 rest /\ line_ok 1 (lit "  two").
Proof.
  split; [reflexivity|]. eexists. split; [reflexivity|]. split.
  - exists 0. eexists. split; [reflexivity|]. split; [lia|]. right. eexists _, _. split; [reflexivity|]. unfold blank_char. lia.
  - split; [reflexivity|repeat (apply Forall_cons; [lia|]); constructor|]. intros _. exists 116%N. split; [simpl; tauto|]. unfold blank_char. lia.
Qed.
Example C14_folded_witness :
  let d := (lit ">" ++ [10] ++ lit "  one" ++ [10] ++ lit "  two" ++ [10; 10; 10] ++ lit "  three" ++ [10])%N in
  string_folded 1 (nested d) = (ROk (lit "one two" ++ [10; 10]%N ++ lit "three" ++ [10]%N), set_pos 23 (nested d)).
Proof. reflexivity. Qed.
(** Windows line breaks: the last one is left half read *)
Example C14_windows_witness :
  let d := (lit "|" ++ [13; 10] ++ lit "  one" ++ [13; 10; 13; 10] ++ lit "  two" ++ [13; 10] ++ lit "b: 1")%N in
  string_literal 1 (nested d) = (ROk (lit "one" ++ [10; 10]%N ++ lit "two" ++ [10]%N), set_pos 18 (nested d))
  /\ exists rest, rem (nested d) = utf8_encode (block_header (chr "|") [] [] ++ block_text [13; 10]%N 2 [(0, lit "one"); (1, lit "two")]) ++ rest
     /\ block_end [13; 10]%N 2 0 rest /\ line_break [13; 10]%N.
Proof.
  split; [reflexivity|]. eexists. split; [reflexivity|]. split; [|right; left; reflexivity].
  exists 0. eexists. split; [reflexivity|]. split; [lia|]. right. eexists _, _. split; [reflexivity|]. unfold blank_char. lia.
Qed.
(** Leading empty lines of a literal count one too many. *)
Theorem C14_leading_empty_refuted :
  let d := (lit "|" ++ [10; 10] ++ lit "  one" ++ [10])%N in
  string_literal 1 (nested d) = (ROk ([10; 10]%N ++ lit "one" ++ [10]%N), set_pos 8 (nested d)).
Proof. reflexivity. Qed.
(** A block scalar that ends with the document and has no final line break is
    refused, and then read as a plain scalar that contains the header. *)
Theorem C14_no_final_break_refuted : forall hk,
  parse hk (lit "a: |" ++ [10%N] ++ lit "  one") = ROk [Node 0 [] (YMap [(Node 0 [] (YStr (lit "a")), Node 3 [] (YStr (lit "| one")))])].
Proof. intros hk. vm_compute. reflexivity. Qed.
(** At the level of the document nothing ends the block. *)
Theorem C14_top_level_refuted : forall hk, match parse hk (lit "|" ++ [10%N] ++ lit "one" ++ [10%N]) with ROk _ => False | _ => True end.
Proof. intros hk. vm_compute. exact Logic.I. Qed.
