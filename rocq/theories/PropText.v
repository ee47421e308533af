(** * PropText: escapes (C11) and error messages (C23). *)
From Verif Require Export PropNode.
Open Scope N_scope.

(** ** C11 *)
(** A double-quoted body is a sequence of plain characters and of backslash
    pairs; what each stands for. *)
Inductive piece := Plain (c : N) | Pair (c : N).
Definition piece_ok (p : piece) : Prop := match p with Plain c => c <> 92 | Pair _ => True end.
Definition piece_text (p : piece) : str := match p with Plain c => [c] | Pair c => [92; c] end.
Definition piece_char (p : piece) : N :=
  match p with
  | Plain c => c
  | Pair 110 => 10  (* \n *)
  | Pair 114 => 13  (* \r *)
  | Pair 116 => 9   (* \t *)
  | Pair 98 => 8    (* \b *)
  | Pair 102 => 12  (* \f *)
  | Pair c => c
  end.

Lemma pair_char c : piece_char (Pair c) =
  if c =? 92 then 92 else if c =? 110 then 10 else if c =? 114 then 13
  else if c =? 116 then 9 else if c =? 98 then 8 else if c =? 102 then 12 else c.
Proof.
  destruct (N.eqb_spec c 92) as [->|]; [reflexivity|].
  destruct (N.eqb_spec c 110) as [->|]; [reflexivity|].
  destruct (N.eqb_spec c 114) as [->|]; [reflexivity|].
  destruct (N.eqb_spec c 116) as [->|]; [reflexivity|].
  destruct (N.eqb_spec c 98) as [->|]; [reflexivity|].
  destruct (N.eqb_spec c 102) as [->|]; [reflexivity|].
  destruct c as [|[[[[[[[]|[]|]|[[]|[]|]|]|[[[]|[]|]|[[]|[]|]|]|]|[[[[]|[]|]|[[]|[]|]|]|[[[]|[]|]|[[]|[]|]|]|]|]|[[[[[]|[]|]|[[]|[]|]|]|[[[]|[]|]|[[]|[]|]|]|]|[[[[]|[]|]|[[]|[]|]|]|[[[]|[]|]|[[]|[]|]|]|]|]|]|[[[[[[]|[]|]|[[]|[]|]|]|[[[]|[]|]|[[]|[]|]|]|]|[[[[]|[]|]|[[]|[]|]|]|[[[]|[]|]|[[]|[]|]|]|]|]|[[[[[]|[]|]|[[]|[]|]|]|[[[]|[]|]|[[]|[]|]|]|]|[[[[]|[]|]|[[]|[]|]|]|[[[]|[]|]|[[]|[]|]|]|]|]|]|]];
    try reflexivity; congruence.
Qed.

Lemma escape_pieces ps tail : Forall piece_ok ps ->
  escape_loop false (flat_map piece_text ps ++ tail) = List.map piece_char ps ++ escape_loop false tail.
Proof.
  induction 1 as [|p ps Hp _ IH]; [reflexivity|].
  cbn [flat_map List.map]. rewrite <- app_assoc. destruct p as [c|c].
  - cbn [piece_text app escape_loop]. cbn [piece_ok] in Hp.
    rewrite (proj2 (N.eqb_neq c 92) Hp). cbn [andb negb].
    rewrite !andb_false_r. cbn [piece_char]. f_equal. exact IH.
  - cbn [piece_text app escape_loop]. rewrite N.eqb_refl. cbn [andb negb]. rewrite andb_false_r.
    rewrite !andb_true_r. rewrite pair_char. cbn [app]. f_equal. exact IH.
Qed.

(** [escape] turns each piece into its character; a final unpaired backslash is
    dropped; and every text is of one of these two forms. *)
Theorem C11_escape_decodes : forall ps, Forall piece_ok ps ->
  escape (flat_map piece_text ps) = List.map piece_char ps
  /\ escape (flat_map piece_text ps ++ [92]) = List.map piece_char ps.
Proof.
  intros ps H. unfold escape. split.
  - pose proof (escape_pieces ps [] H) as E. now rewrite !app_nil_r in E.
  - rewrite escape_pieces by assumption. cbn. apply app_nil_r.
Qed.
Theorem C11_every_text_has_pieces : forall s : str,
  exists ps, Forall piece_ok ps /\ (s = flat_map piece_text ps \/ s = flat_map piece_text ps ++ [92]).
Proof.
  intros s. remember (List.length s) as n eqn:Hn. revert s Hn.
  induction n as [n IH] using lt_wf_ind. intros s ->.
  destruct s as [|c s]; [exists []; split; [constructor|now left]|].
  destruct (N.eq_dec c 92) as [->|Hc].
  - destruct s as [|d s]; [exists []; split; [constructor|now right]|].
    destruct (IH (List.length s)) with (s := s) as (ps & H & E); [simpl; lia|reflexivity|].
    exists (Pair d :: ps). split; [constructor; [exact I|assumption]|].
    destruct E as [->| ->]; [now left|now right].
  - destruct (IH (List.length s)) with (s := s) as (ps & H & E); [simpl; lia|reflexivity|].
    exists (Plain c :: ps). split; [constructor; assumption|].
    destruct E as [->| ->]; [now left|now right].
Qed.

(** JSON-style encoding of a character *)
Definition json_char (c : N) : str :=
  if c =? 92 then [92; 92] else if c =? 34 then [92; 34]
  else if c =? 10 then [92; 110] else if c =? 13 then [92; 114] else if c =? 9 then [92; 116]
  else if c =? 8 then [92; 98] else if c =? 12 then [92; 102] else [c].
(** [escape] undoes it on every string. *)
Theorem C11_escape_inverts_json : forall s : str, escape (flat_map json_char s) = s.
Proof.
  intros s. unfold escape. induction s as [|c s IH]; [reflexivity|].
  cbn [flat_map]. unfold json_char at 1.
  destruct (N.eqb_spec c 92) as [->|N1]; [cbn; now rewrite IH|].
  destruct (N.eqb_spec c 34) as [->|N2]; [cbn; now rewrite IH|].
  destruct (N.eqb_spec c 10) as [->|N3]; [cbn; now rewrite IH|].
  destruct (N.eqb_spec c 13) as [->|N4]; [cbn; now rewrite IH|].
  destruct (N.eqb_spec c 9) as [->|N5]; [cbn; now rewrite IH|].
  destruct (N.eqb_spec c 8) as [->|N6]; [cbn; now rewrite IH|].
  destruct (N.eqb_spec c 12) as [->|N7]; [cbn; now rewrite IH|].
  cbn [app escape_loop]. rewrite (proj2 (N.eqb_neq c 92) N1). cbn [andb negb].
  rewrite !andb_false_r. now rewrite IH.
Qed.
(** Text without a backslash is unchanged. *)
Theorem C11_escape_identity : forall s : str, ~ In 92 s -> escape s = s.
Proof.
  intros s H. unfold escape. induction s as [|c s IH]; [reflexivity|].
  cbn [escape_loop]. rewrite (proj2 (N.eqb_neq c 92)) by (intros ->; apply H; now left).
  cbn [andb negb]. rewrite !andb_false_r. f_equal. apply IH. intros K. apply H. now right.
Qed.
Example C11_witness : escape (lit "a\\b\n\q") = lit "a\b" ++ [10] ++ lit "q".
Proof. vm_compute. reflexivity. Qed.

(** ** C23 *)
Definition count_lf (l : bytes) : N := N.of_nat (List.length (List.filter (fun c => c =? 10) l)).

(** The document around a position: whole lines before it ([pre]), the part of
    its line before and after it ([cur], [rest]), and what follows. *)
Definition placed (d : bytes) (pos : nat) (pre cur rest post : bytes) : Prop :=
  d = pre ++ cur ++ rest ++ post
  /\ (pre = [] \/ exists p, pre = p ++ [10])
  /\ ~ In 10 cur /\ ~ In 10 rest
  /\ (post = [] \/ exists p, post = 10 :: p)
  /\ pos = (List.length pre + List.length cur)%nat.

Lemma split_nl_line a b : ~ In 10 a -> split_nl (a ++ 10 :: b) = a :: split_nl b.
Proof.
  induction a as [|c a IH]; intros H; cbn [app split_nl]; [now rewrite N.eqb_refl|].
  rewrite (proj2 (N.eqb_neq c 10)) by (intros ->; apply H; now left).
  rewrite IH by (intros K; apply H; now right). reflexivity.
Qed.
Lemma split_nl_last a : ~ In 10 a -> split_nl a = [a].
Proof.
  induction a as [|c a IH]; intros H; cbn [split_nl]; [reflexivity|].
  rewrite (proj2 (N.eqb_neq c 10)) by (intros ->; apply H; now left).
  rewrite IH by (intros K; apply H; now right). reflexivity.
Qed.
Lemma first_lf l : ~ In 10 l \/ exists a b, l = a ++ 10 :: b /\ ~ In 10 a.
Proof.
  induction l as [|c l [H|(a & b & -> & H)]].
  - left; intros [].
  - destruct (N.eq_dec c 10) as [->|Hc]; [right; exists [], l; split; [reflexivity|intros []]|].
    left. intros [E|K]; [congruence|auto].
  - destruct (N.eq_dec c 10) as [->|Hc]; [right; exists [], (a ++ 10 :: b); split; [reflexivity|intros []]|].
    right. exists (c :: a), b. split; [reflexivity|]. intros [E|K]; [congruence|auto].
Qed.

Lemma count_lf_app a b : count_lf (a ++ b) = count_lf a + count_lf b.
Proof. unfold count_lf. rewrite filter_app, app_length. lia. Qed.
Lemma count_lf_zero a : ~ In 10 a -> count_lf a = 0.
Proof.
  induction a as [|c a IH]; intros H; [reflexivity|]. unfold count_lf. cbn [List.filter].
  rewrite (proj2 (N.eqb_neq c 10)) by (intros ->; apply H; now left).
  apply IH. intros K; apply H; now right.
Qed.

Lemma indicated_loop_spec pre cur rest post line :
  (pre = [] \/ exists p, pre = p ++ [10]) ->
  ~ In 10 cur -> ~ In 10 rest -> (post = [] \/ exists p, post = 10 :: p) ->
  indicated_loop (split_nl (pre ++ cur ++ rest ++ post)) line
    (N.of_nat (List.length pre + List.length cur))
  = Some (show_N (line + count_lf pre + 1) ++ lit ":" ++ show_N (N.of_nat (List.length cur) + 1)
          ++ [10] ++ utf8_lossy (cur ++ rest) ++ [10]
          ++ repeat_str (List.length cur) [32] ++ lit "^").
Proof.
  remember (List.length pre) as n eqn:Hn. revert pre line Hn.
  induction n as [n IH] using lt_wf_ind. intros pre line -> Hpre Hc Hr Hp.
  destruct (first_lf pre) as [Hno|(a & b & E & Ha)].
  - destruct Hpre as [->|[p ->]]; [|exfalso; apply Hno, in_or_app; right; now left].
    cbn [app List.length]. unfold count_lf; cbn [List.filter List.length]. 
    assert (Hcr : ~ In 10 (cur ++ rest)) by (intros K; apply in_app_or in K; tauto).
    assert (E : exists tl, split_nl (cur ++ rest ++ post) = (cur ++ rest) :: tl).
    { rewrite app_assoc. destruct Hp as [->|[p ->]].
      - rewrite app_nil_r, split_nl_last by assumption. eauto.
      - rewrite split_nl_line by assumption. eauto. }
    destruct E as [tl ->]. cbn [indicated_loop]. cbv zeta.
    rewrite app_length. rewrite (proj2 (N.ltb_lt _ _)) by lia.
    rewrite N.add_0_r. do 2 f_equal. do 3 f_equal. do 3 f_equal.
    f_equal. rewrite Nat2N.id. reflexivity.
  - subst pre. assert (Hb : b = [] \/ exists p, b = p ++ [10]).
    { destruct Hpre as [Hx|[p Hx]]; [destruct a; discriminate|].
      destruct b as [|x b] using rev_ind; [now left|right].
      exists b. f_equal. rewrite app_comm_cons, app_assoc in Hx. apply app_inj_tail in Hx as [_ ->]. reflexivity. }
    rewrite <- app_assoc. cbn [app]. rewrite split_nl_line by assumption.
    cbn [indicated_loop]. cbv zeta. rewrite app_length. cbn [List.length].
    rewrite (proj2 (N.ltb_ge _ _)) by lia.
    replace (N.of_nat (List.length a + S (List.length b) + List.length cur)
             - (N.of_nat (List.length a) + 1))
      with (N.of_nat (List.length b + List.length cur)) by lia.
    rewrite (IH (List.length b)); [|rewrite app_length; simpl; lia|reflexivity|assumption..].
    replace (line + 1 + count_lf b + 1) with (line + count_lf (a ++ 10 :: b) + 1).
    + reflexivity.
    + rewrite count_lf_app, (count_lf_zero a Ha). unfold count_lf at 1. cbn [List.filter].
      rewrite N.eqb_refl. cbn [List.length]. unfold count_lf. lia.
Qed.

(** C23: line and column (both from 1), the text of the line, a caret under the
    column. *)
Theorem C23_indicated_msg : forall d pos pre cur rest post,
  placed d pos pre cur rest post ->
  indicated_msg d (N.of_nat pos)
  = Some (show_N (count_lf pre + 1) ++ lit ":" ++ show_N (N.of_nat (List.length cur) + 1)
          ++ [10] ++ utf8_lossy (cur ++ rest) ++ [10]
          ++ repeat_str (List.length cur) [32] ++ lit "^").
Proof.
  intros d pos pre cur rest post (-> & Hpre & Hc & Hr & Hp & ->).
  unfold indicated_msg. rewrite indicated_loop_spec by assumption. reflexivity.
Qed.

(** ... and the same behind the path of the file *)
Theorem C23_file_message : forall path d pos pre cur rest post,
  placed d pos pre cur rest post ->
  indicated_msg_file path d (N.of_nat pos)
  = Some (path ++ lit ":" ++ show_N (count_lf pre + 1) ++ lit ":" ++ show_N (N.of_nat (List.length cur) + 1)
          ++ [10] ++ utf8_lossy (cur ++ rest) ++ [10]
          ++ repeat_str (List.length cur) [32] ++ lit "^").
Proof. intros path d pos pre cur rest post P. unfold indicated_msg_file. now rewrite (C23_indicated_msg _ _ _ _ _ _ P). Qed.

Lemma last_lf l : ~ In 10 l \/ exists a b, l = a ++ 10 :: b /\ ~ In 10 b.
Proof.
  induction l as [|c l [H|(a & b & -> & H)]].
  - left; intros [].
  - destruct (N.eq_dec c 10) as [->|Hc]; [right; exists [], l; split; [reflexivity|assumption]|].
    left. intros [E|K]; [congruence|auto].
  - right. exists (c :: a), b. split; [reflexivity|assumption].
Qed.
(** Every position up to the length of the document is placed... *)
Theorem C23_every_position_placed : forall d pos, (pos <= List.length d)%nat ->
  exists pre cur rest post, placed d pos pre cur rest post.
Proof.
  intros d pos H. unfold placed.
  assert (A : exists pre cur, firstn pos d = pre ++ cur /\ (pre = [] \/ exists p, pre = p ++ [10])
               /\ ~ In 10 cur).
  { destruct (last_lf (firstn pos d)) as [Hn|(a & b & -> & Hb)].
    - exists [], (firstn pos d). auto.
    - exists (a ++ [10]), b. rewrite <- app_assoc. repeat split; eauto. }
  assert (B : exists rest post, skipn pos d = rest ++ post /\ ~ In 10 rest
               /\ (post = [] \/ exists p, post = 10 :: p)).
  { destruct (first_lf (skipn pos d)) as [Hn|(a & b & -> & Ha)].
    - exists (skipn pos d), []. rewrite app_nil_r. auto.
    - exists a, (10 :: b). repeat split; eauto. }
  destruct A as (pre & cur & E1 & A1 & A2), B as (rest & post & E2 & B1 & B2).
  exists pre, cur, rest, post. repeat split; auto.
  - rewrite app_assoc, <- E1, <- E2. symmetry. apply firstn_skipn.
  - apply (f_equal (@List.length N)) in E1. rewrite app_length, firstn_length in E1. lia.
Qed.
(** ... so the message exists exactly for these positions; beyond, the function
    panics. *)
Theorem C23_panics_exactly_beyond : forall d pos,
  indicated_msg d (N.of_nat pos) = None <-> (List.length d < pos)%nat.
Proof.
  intros d pos. split.
  - intros H. destruct (le_lt_dec pos (List.length d)) as [L|L]; [|exact L].
    destruct (C23_every_position_placed d pos L) as (pre & cur & rest & post & P).
    rewrite (C23_indicated_msg _ _ _ _ _ _ P) in H. discriminate.
  - unfold indicated_msg. generalize 0 as line. remember (List.length d) as n eqn:Hn.
    revert d pos Hn. induction n as [n IH] using lt_wf_ind. intros d pos -> line L.
    destruct (first_lf d) as [Hno|(a & b & -> & Ha)].
    + rewrite split_nl_last by assumption. cbn [indicated_loop]. cbv zeta.
      rewrite (proj2 (N.ltb_ge _ _)) by lia. reflexivity.
    + rewrite split_nl_line by assumption. cbn [indicated_loop]. cbv zeta.
      rewrite app_length in L. cbn [List.length] in L.
      rewrite (proj2 (N.ltb_ge _ _)) by lia.
      replace (N.of_nat pos - (N.of_nat (List.length a) + 1))
        with (N.of_nat (pos - (List.length a + 1))) by lia.
      apply (IH (List.length b)); [rewrite app_length; simpl; lia|reflexivity|lia].
Qed.
Example C23_witness :
  placed (lit "ab" ++ [10] ++ lit "cde") 4 (lit "ab" ++ [10]) (lit "c") (lit "de") []
  /\ indicated_msg (lit "ab" ++ [10] ++ lit "cde") 4
     = Some (lit "2:2" ++ [10] ++ lit "cde" ++ [10] ++ lit " ^").
Proof.
  split; [|vm_compute; reflexivity].
  unfold placed. repeat split; auto; try (right; exists (lit "ab"); reflexivity);
    simpl; intuition discriminate.
Qed.
