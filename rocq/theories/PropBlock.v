(** * C43: documents of block collections are read as they are written *)
From Verif Require Export BlockRun3.
Open Scope nat_scope.

(** ** Specification *)
(** What comes after the node of a document: line break, empty lines and
    comments, then the end or the next document after its marker. *)
Inductive next_docs : list yaml -> str -> Prop :=
| DEnd g : filler g -> next_docs [] (10%N :: g)
| DNext g g' y t ys u : filler g -> filler g' -> node_at 0 y t -> next_docs ys u ->
    next_docs (y :: ys) (10%N :: g ++ lit "---" ++ 10%N :: g' ++ t ++ u).
(** A whole text: the first document may begin in the first line, after empty
    lines and comments, or after a marker. *)
Inductive stream : list yaml -> str -> Prop :=
| StPlain y t ys u : item_at 0 y t -> next_docs ys u -> stream (y :: ys) (t ++ u)
| StMark g y t ys u : filler g -> node_at 0 y t -> next_docs ys u ->
    stream (y :: ys) (lit "---" ++ 10%N :: g ++ t ++ u).

(** ** Proof *)
Lemma next_follow ys u b : next_docs ys u -> follow b 0 (utf8_encode u).
Proof.
  intros H. destruct H as [g Hg|g g' y t ys u Hg _ _ _].
  - exists g, 0, []. split; [|right; left; auto]. split; [exact Hg|]. split; [|auto].
    rewrite encode_cons_ascii by lia. cbn [repeat app]. now rewrite app_nil_r.
  - exists g, 0. eexists. split.
    + split; [exact Hg|]. rewrite encode_cons_ascii by lia. rewrite encode_app. cbn [repeat]. split; [reflexivity|]. right.
      rewrite encode_app. eexists _, _. split; [reflexivity|]. intros K. simpl in K. intuition discriminate.
    + right. left. split; [reflexivity|]. right. rewrite encode_app. reflexivity.
Qed.
(** an item through [doc] *)
Definition bound_skip (s : st) : Prop := doc_ws (rem s) = 0.
Lemma no_ws_skip l : (match l with x :: _ => is_ws x = false | [] => True end) -> doc_ws l = 0.
Proof. intros H. unfold doc_ws. destruct (at_bound l); [|reflexivity]. unfold ws_len. now apply span_zero. Qed.
Definition reads_doc (y : yaml) (t : str) (s : st) (rest : bytes) : Prop :=
  exists x s', (forall n, 8 * el t + 9 <= n -> doc n s = (ROk x, s')) /\ strip (n_yaml x) = strip y
    /\ in_doc s' /\ rem s' = rest /\ depth (p_indent s') 0 = depth (p_indent s) 0 /\ AT s'.
Lemma after_gap ys u : next_docs ys u ->
  exists g r, gap_len (utf8_encode u) = S (el g) /\ filler g /\ skipn (gap_len (utf8_encode u)) (utf8_encode u) = r
    /\ gap_f true (utf8_encode u) <> None /\ starts_with (lit "...") r = false
    /\ (ys = [] /\ r = [] \/ exists g' y t ys' u', ys = y :: ys' /\ filler g' /\ node_at 0 y t /\ next_docs ys' u' /\ List.length (utf8_encode u') < List.length (utf8_encode u)
        /\ r = lit "---" ++ utf8_encode (10%N :: g' ++ indent 0 ++ t) ++ utf8_encode u'
        /\ List.length (utf8_encode u) = S (el g) + 3 + el (10%N :: g' ++ indent 0 ++ t) + el u').
Proof.
  intros H.
  destruct H as [g Hg|g g' y t ys u Hg Hg' Hn Hu].
  - exists g, []. assert (B : brk (utf8_encode (10%N :: g)) g 0 []).
    { split; [exact Hg|]. split; [|auto]. rewrite encode_cons_ascii by lia. cbn [repeat app]. now rewrite app_nil_r. }
    destruct (brk_gap _ _ _ _ B) as (t1 & G1). unfold gap_len. rewrite G1. split; [reflexivity|]. split; [exact Hg|]. split; [|split; [discriminate|split; [reflexivity|auto]]].
    rewrite encode_cons_ascii by lia. cbn [Nat.add skipn]. apply skipn_all.
  - set (r := lit "---" ++ utf8_encode (10%N :: g' ++ indent 0 ++ t) ++ utf8_encode u).
    assert (E : utf8_encode (10%N :: g ++ lit "---" ++ 10%N :: g' ++ t ++ u) = 10%N :: utf8_encode g ++ r).
    { rewrite encode_cons_ascii by lia. f_equal. rewrite !encode_app. f_equal. unfold r. f_equal. cbn [indent repeat app].
      rewrite !encode_cons_ascii by lia. rewrite !encode_app. cbn [app]. now rewrite <- !app_assoc. }
    rewrite E in *. exists g, r.
    assert (B : brk (10%N :: utf8_encode g ++ r) g 0 r).
    { split; [exact Hg|]. split; [reflexivity|]. right. eexists _, _. split; [reflexivity|]. intros K. simpl in K. intuition discriminate. }
    destruct (brk_gap _ _ _ _ B) as (t1 & G1). unfold gap_len. rewrite G1. split; [reflexivity|]. split; [exact Hg|].
    split; [|split; [discriminate|split; [reflexivity|]]].
    + cbn [Nat.add skipn]. apply skipn_app_len.
    + right. exists g', y, t, ys, u. repeat (split; [assumption||reflexivity|]). cbn [List.length].
      assert (LL : List.length (utf8_encode g ++ r) = el g + 3 + el (10%N :: g' ++ indent 0 ++ t) + el u) by (unfold r; rewrite !app_length; cbn [List.length]; lia).
      rewrite LL. split; [lia|]. split; [reflexivity|lia].
Qed.
Lemma run_doc y t ys u s : next_docs ys u -> in_doc s -> rem s = utf8_encode t ++ utf8_encode u ->
  (match rem s with x :: _ => is_ws x = false | [] => True end) ->
  (forall s0, in_doc s0 -> AT s0 -> p_indent s0 = p_indent s -> rem s0 = rem s ->
    exists x s', (forall n, 8 * el t + 9 <= n -> scalar n 0 false false s0 = (ROk x, s')) /\ strip (n_yaml x) = strip y
    /\ moves 0 (el t) s0 s' /\ AT s') ->
  reads_doc y t s (utf8_encode u).
Proof.
  intros Hn H R Hw K.
  assert (D0 : doc_ws (rem s) = 0) by now apply no_ws_skip.
  set (s0 := with_doc s).
  assert (P0 : p_pos s0 = p_pos s) by (unfold s0, with_doc; rewrite D0; cbn; lia).
  assert (A0 : AT s0) by (unfold AT, s0, with_doc; reflexivity).
  assert (H0 : in_doc s0) by (unfold in_doc; now rewrite P0).
  assert (R0 : rem s0 = rem s) by (unfold rem; now rewrite P0).
  destruct (K s0 H0 A0 eq_refl R0) as (x & s1 & E & Hs & Hm & A1).
  destruct (moves_rem 0 (el t) (utf8_encode t) (utf8_encode u) s0 s1 H0 ltac:(now rewrite R0) eq_refl Hm) as [H1 R1].
  exists x, (set_doc_ind (l_doc_ind s1 + 1) s1). split; [|split; [exact Hs|split; [exact H1|split; [exact R1|split; [|exact A1]]]]].
  - intros n Hn'. destruct (after_gap ys u Hn) as (g & r & _ & _ & Sk & Gn & M & _). apply doc_exec; try assumption.
    + now apply E.
    + rewrite R1, Sk. exact M.
    + rewrite R1. congruence.
  - change (depth (p_indent s1) 0 = depth (p_indent s) 0). rewrite (moves_depth 0 _ s0 s1 0 (le_n _) Hm). reflexivity.
Qed.
Lemma run_next g y t ys u s : filler g -> node_at 0 y t -> next_docs ys u -> in_doc s -> depth (p_indent s) 0 = 0 ->
  rem s = utf8_encode (10%N :: g ++ indent 0 ++ t) ++ utf8_encode u -> reads_doc y (10%N :: g ++ indent 0 ++ t) s (utf8_encode u).
Proof.
  intros Hg Hn Hu H Hd R. apply (run_doc y _ ys u s Hu H R).
  { rewrite R. rewrite encode_cons_ascii by lia. reflexivity. }
  intros s0 H0 A0 I0 R0. rewrite R in R0. rewrite <- I0 in Hd. clear s H R I0.
  rewrite enc_line, <- app_assoc in R0.
  assert (R' : rem s0 = 10%N :: utf8_encode g ++ repeat 32%N 0 ++ utf8_encode t ++ utf8_encode u) by (rewrite R0; cbn [app]; now rewrite <- app_assoc).
  destruct (node_starts 0 y t _ Hn (follow_cut _ _ _ (next_follow _ _ false Hu))) as (S1 & _).
  pose proof (enters_next 0 0 s0 g _ H0 Hg S1 R' Hd) as En.
  destruct (node_scalar 0 y t false 0 s0 _ _ _ (proj1 block_run _ _ _ Hn) H0 A0 En R0 (next_follow _ _ _ Hu)) as (x & s' & E & Hs & Hm & A1).
  { rewrite R'. simpl. intuition discriminate. }
  exists x, s'. split; [|split; [exact Hs|split; [|exact A1]]].
  - intros n Hn'. apply E. rewrite enc_line, app_length in Hn'. lia.
  - rewrite enc_line, app_length. now apply (moves_norm 0 _ 0).
Qed.
Lemma run_item y t ys u s : item_at 0 y t -> next_docs ys u -> in_doc s -> p_indent s = [0] ->
  rem s = utf8_encode t ++ utf8_encode u -> reads_doc y t s (utf8_encode u).
Proof.
  intros Hi Hu H Hd R. apply (run_doc y _ ys u s Hu H R).
  { rewrite R. pose proof (item_starts 0 y t (utf8_encode u) Hi (follow_cut _ _ _ (next_follow _ _ false Hu))) as K.
    destruct (utf8_encode t ++ utf8_encode u); [exact I|apply K]. }
  intros s0 H0 A0 I0 R0. destruct block_run as (_ & BI & _). apply (BI 0 y t Hi 0 s0 (utf8_encode u) H0 A0).
  - rewrite I0, Hd. split; [reflexivity|]. intros [|[|j]] Hj; [lia|reflexivity|reflexivity].
  - now rewrite R0.
  - now apply next_follow with ys.
Qed.
Lemma docs_run : forall n u k fuel ys v s, List.length (utf8_encode u) <= n -> n < k -> next_docs ys u -> in_doc s -> rem s = utf8_encode u ->
  depth (p_indent s) 0 = 0 -> 8 * List.length (utf8_encode u) + 9 <= fuel ->
  exists nds s', docs_loop k fuel v s = (ROk (v ++ nds), s') /\ List.map (fun n => strip (n_yaml n)) nds = List.map strip ys.
Proof.
  induction n as [n IH] using lt_wf_ind. intros u k fuel ys v s Ln Lk Hu H R Hd Hf.
  destruct k as [|k]; [lia|]. destruct (after_gap ys u Hu) as (g & r & Gl & Hg & Sk & Gn & M & K).
  destruct K as [[-> ->]|(g' & y & t & ys' & u' & -> & Hg' & Hn & Hu' & Lu & Er & LE)].
  - exists []. eexists. rewrite app_nil_r. rewrite docs_end; [split; reflexivity|exact H|]. rewrite R.
    pose proof (firstn_skipn (gap_len (utf8_encode u)) (utf8_encode u)) as Z. rewrite Sk, app_nil_r in Z. apply (f_equal (@List.length N)) in Z.
    rewrite firstn_length in Z. unfold gap_len in *. destruct (gap_f true (utf8_encode u)) as [[a b]|] eqn:G; [|congruence].
    destruct (gap_f_le _ _ _ _ G) as (Z1 & _). lia.
  - set (T := 10%N :: g' ++ indent 0 ++ t) in *.
    assert (RD : let s0 := set_pos (p_pos s + gap_len (rem s) + 3) s in rem s0 = utf8_encode T ++ utf8_encode u' -> in_doc s0 -> reads_doc y T s0 (utf8_encode u'))
      by (intros s0 R0 H0; apply (run_next g' y t ys' u' s0 Hg' Hn Hu' H0); [exact Hd|exact R0]).
    assert (R0 : rem (set_pos (p_pos s + gap_len (rem s) + 3) s) = utf8_encode T ++ utf8_encode u').
    { unfold rem at 1. cbn [p_pos set_pos p_doc]. rewrite <- skipn_add, <- skipn_add. fold (rem s). rewrite R, Sk, Er. reflexivity. }
    assert (H0 : in_doc (set_pos (p_pos s + gap_len (rem s) + 3) s)).
    { pose proof (rem_length s) as RL. rewrite R in RL. unfold in_doc in *. cbn. rewrite R, Gl. lia. }
    destruct (RD R0 H0) as (x & s1 & E & Hs & H1 & R1 & D1 & A1).
    assert (Dn : docs_loop (S k) fuel v s = docs_loop k fuel (v ++ [x]) s1).
    { apply (docs_next k fuel v s x s1 (utf8_encode T ++ utf8_encode u')); [exact H|rewrite R, Sk; exact Er|rewrite R; exact Gn|].
      intros s0 _ _. apply E. lia. }
    destruct (IH (List.length (utf8_encode u')) ltac:(lia) u' k fuel ys' (v ++ [x]) s1 (le_n _) ltac:(lia) Hu' H1 R1 ltac:(rewrite D1; exact Hd) ltac:(lia)) as (nds & s2 & E2 & Hs2).
    exists (x :: nds), s2. rewrite Dn, E2, <- app_assoc. split; [reflexivity|]. cbn [List.map]. now rewrite Hs, Hs2.
Qed.

Lemma parse_stream hk d n y t ys u : d = utf8_encode t ++ utf8_encode u -> next_docs ys u -> 8 * List.length d + 9 <= n ->
  (exists s0, (directives n ;;; unwrap_or 0 (gap true) ;;; unwrap_or tt (sym_seq (lit "---"))) (start hk d) = (ROk tt, s0)
     /\ depth (p_indent s0) 0 = 0 /\ exists tt', el tt' <= el t /\ reads_doc y tt' s0 (utf8_encode u)) ->
  exists nds, fst (parse_fuel n (start hk d)) = ROk nds /\ List.map (fun n => strip (n_yaml n)) nds = List.map strip (y :: ys).
Proof.
  intros Ed Hu Hn (s0 & E0 & D0 & tt' & Lt & x & s1 & E & Hs & H1 & R1 & D1 & A1).
  assert (LD : List.length d = el t + el u) by (rewrite Ed, app_length; reflexivity).
  destruct (docs_run (el u) u n n ys [x] s1 (le_n _) ltac:(lia) Hu H1 R1 ltac:(congruence) ltac:(lia)) as (nds & s2 & E2 & Hs2).
  exists (x :: nds). split; [|cbn [List.map]; now rewrite Hs, Hs2].
  revert E0. unfold parse_fuel, bind.
  destruct (directives n (start hk d)) as [[?|?| |] sa]; try discriminate.
  destruct (unwrap_or 0 (gap true) sa) as [[?|?| |] sb]; try discriminate.
  intros E0. rewrite E0. rewrite (E n) by lia. rewrite E2. reflexivity.
Qed.

Theorem C43_block_documents : forall (hk : hasher) (ys : list yaml) (t : str), stream ys t ->
  exists nds, parse hk t = ROk nds /\ List.map (fun n => strip (n_yaml n)) nds = List.map strip ys.
Proof.
  intros hk ys t H. unfold parse, parse_bytes, load, fuel_doc. set (d := utf8_encode t).
  change (p_doc (new_st hk false d)) with d. change (new_st hk false d) with (start hk d).
  assert (H0 : in_doc (start hk d)) by (unfold in_doc; cbn; lia). assert (A0 : AT (start hk d)) by reflexivity.
  assert (RS : rem (start hk d) = d) by reflexivity.
  destruct H as [y t ys u Hi Hu|g y t ys u Hg Hn Hu].
  - assert (Ed : d = utf8_encode t ++ utf8_encode u) by apply encode_app.
    apply (parse_stream hk d _ y t ys u Ed Hu); [lia|]. exists (start hk d).
    assert (Hcut := follow_cut _ _ _ (next_follow _ _ false Hu)).
    assert (G : (match d with x :: _ => x <> 37%N | [] => True end) /\ starts_with (lit "---") (skipn (gap_len d) d) = false
                /\ (gap_f true d = None -> starts_with (lit "---") (skipn (gap_head true d) d) = false)).
    { rewrite Ed. clear - Hi Hcut. inversion Hi as [c y' t' Hn|c y' t' g Hg Hn]; subst.
      - destruct (node_starts 0 y t _ Hn Hcut) as (S1 & _ & S2 & _ & S3). split; [exact S3|]. destruct (shown_no_gap _ S1) as [G1 G2].
        unfold gap_len. rewrite G1, G2. auto.
      - destruct (node_starts 0 y t' _ Hn Hcut) as (S1 & _ & S2 & _). rewrite enc_line. cbn [repeat].
        split; [cbn; discriminate|]. rewrite app_nil_r. cbn [app]. rewrite <- app_assoc.
        assert (B : brk (10%N :: utf8_encode g ++ utf8_encode t' ++ utf8_encode u) g 0 (utf8_encode t' ++ utf8_encode u)).
        { split; [exact Hg|]. split; [reflexivity|auto]. }
        destruct (brk_gap _ _ _ _ B) as (k & Gk). unfold gap_len. rewrite Gk. split; [|discriminate].
        cbn [Nat.add skipn]. rewrite skipn_app_len. exact S2. }
    destruct G as (G1 & G2 & G3). split; [|split; [reflexivity|exists t; split; [lia|]]].
    + unfold bind at 1. replace (20 * (List.length d + 2)) with (S (20 * (List.length d + 2) - 1)) at 1 by lia.
      rewrite (directives_none _ (start hk d) H0 A0) by exact G1. now apply (gap_no_marker (lit "---")).
    + apply (run_item y t ys u (start hk d) Hi Hu H0 eq_refl). exact Ed.
  - set (T := 10%N :: g ++ indent 0 ++ t).
    assert (Ed : d = lit "---" ++ utf8_encode T ++ utf8_encode u).
    { unfold d, T. rewrite encode_app. f_equal. cbn [indent repeat app]. rewrite !encode_cons_ascii by lia. rewrite !encode_app. cbn [app]. now rewrite <- app_assoc. }
    assert (Ed' : d = utf8_encode (lit "---" ++ T) ++ utf8_encode u) by (rewrite Ed, encode_app, <- app_assoc; reflexivity).
    apply (parse_stream hk d _ y (lit "---" ++ T) ys u Ed' Hu); [lia|].
    exists (set_pos 3 (start hk d)). split; [|split; [reflexivity|exists T; split; [rewrite encode_app, app_length; lia|]]].
    + unfold bind at 1. replace (20 * (List.length d + 2)) with (S (20 * (List.length d + 2) - 1)) at 1 by lia.
      rewrite (directives_none _ (start hk d) H0 A0) by (change (rem (start hk d)) with d; rewrite Ed; cbn; discriminate).
      unfold bind. rewrite (unwrap_or_eq _ _ _ _ (gap_exec true _ H0)), RS.
      destruct (shown_no_gap d) as [G1 G2]; [rewrite Ed; eexists _, _; split; [reflexivity|]; intros K; simpl in K; intuition discriminate|].
      rewrite G2. rewrite Nat.add_0_r, set_pos_id.
      rewrite (unwrap_or_eq _ _ _ _ (sym_seq_exec (lit "---") _ H0)).
      reflexivity.
    + apply (run_next g y t ys u _ Hg Hn Hu); [|reflexivity|].
      * unfold in_doc. change (3 <= List.length d). rewrite Ed, app_length. cbn [List.length]. lia.
      * unfold rem. cbn [p_pos set_pos p_doc start new_st]. change (p_doc (start hk d)) with d. rewrite Ed. reflexivity.
Qed.

(** ... and the nodes are equal to what was written when the numbers in it are
    in range. *)
Lemma strip_eq_true a b : strip a = strip b -> readable b -> yaml_eq a b = Some true.
Proof.
  intros E R. rewrite <- C28_eq_ignores_position_and_tag, E, C28_eq_ignores_position_and_tag.
  exact (proj1 (C28_eq_equivalence (Node 0 [] b) (Node 0 [] b) (Node 0 [] b) R R R)).
Qed.
Theorem C43_equal_to_written : forall (hk : hasher) (ys : list yaml) (t : str), stream ys t -> Forall readable ys ->
  exists nds, parse hk t = ROk nds /\ Forall2 (fun nd y => node_eq nd (node_from y) = Some true) nds ys.
Proof.
  intros hk ys t H R. destruct (C43_block_documents hk ys t H) as (nds & E & K). exists nds. split; [exact E|]. clear E H.
  revert nds K. induction R as [|y ys Hy R IH]; intros [|nd nds] K; try discriminate; constructor.
  - injection K as K _. now apply strip_eq_true.
  - injection K as _ K. now apply IH.
Qed.

(** Words of letters are leaves. *)
Definition letter (c : N) : bool := (N.leb 65 c && N.leb c 90) || (N.leb 97 c && N.leb c 122).
Lemma letter_range c : letter c = true -> (65 <= c <= 90 \/ 97 <= c <= 122)%N.
Proof. unfold letter. rewrite orb_true_iff, !andb_true_iff, !N.leb_le. tauto. Qed.
Lemma letters_leaf t : t <> [] -> forallb letter t = true -> existsb (fun kv => str_eqb t (fst kv)) keywords = false -> leaf (YStr t) t.
Proof.
  intros Hn Hl Hk. assert (F : forall c, In c t -> (65 <= c <= 90 \/ 97 <= c <= 122)%N).
  { intros c Hc. rewrite forallb_forall in Hl. now apply letter_range, Hl. }
  assert (NI : forall x, (x < 65)%N -> ~ In x t) by (intros x Hx K; apply F in K; lia).
  destruct t as [|c0 t0] eqn:Et; [congruence|]. rewrite <- Et in *.
  assert (I0 : In c0 t) by (rewrite Et; now left).
  assert (NUM : forall x, ~ number_line (utf8_encode t ++ [x])).
  { intros x (n & w & rest & E & K). assert (L : int_literal n \/ float_literal n \/ sci_literal n) by tauto.
    destruct (literal_head n L) as (b & r & -> & Hb). rewrite Et, encode_cons in E.
    rewrite encode_ascii in E by (apply F in I0; lia). injection E as -> _. apply F in I0. unfold digit in Hb. destruct Hb as [Hb|[Hb _]]; lia. }
  apply LWord; [split| | | |].
  - apply forallb_forall. intros c Hc. apply F in Hc. unfold valid_char. apply orb_true_iff. left. apply N.ltb_lt. lia.
  - exists c0, t0. split; [exact Et|]. apply F in I0. split.
    + intros K. simpl in K. intuition lia.
    + intros [->| ->]; lia.
  - split; apply NI; lia.
  - intros a b ->. apply (NI 58%N); [lia|]. rewrite !in_app_iff. right. left. now left.
  - intros a ->. apply (NI 58%N); [lia|]. rewrite !in_app_iff. right. now left.
  - intros a b ->. apply (NI 32%N); [lia|]. rewrite !in_app_iff. right. left. now left.
  - intros a c ->. assert (K : In c (a ++ [c])) by (apply in_or_app; right; now left). apply F in K. unfold is_uni_ws.
    repeat (apply orb_false_iff; split); try (apply N.eqb_neq; lia); apply andb_false_iff; rewrite !N.leb_gt; lia.
  - intros b ->. apply (NI 45%N); [lia|]. now left.
  - intros b ->. apply (NI 46%N); [lia|]. now left.
  - apply NUM.
  - apply NUM.
  - apply MText. intros y K. assert (E : existsb (fun kv => str_eqb t (fst kv)) keywords = true); [|congruence].
    apply existsb_exists. exists (t, y). split; [exact K|]. cbn. apply str_eqb_eq. reflexivity.
Qed.

(** A text of two documents with nesting, comments, an empty line, a sequence in
    the column of its key and one that is indented. *)
Definition word (s : str) : node := node_from (YStr s).
Lemma word_leaf s : s <> [] -> forallb letter s = true -> existsb (fun kv => str_eqb s (fst kv)) keywords = false -> leaf (n_yaml (word s)) s.
Proof. apply letters_leaf. Qed.
Ltac wleaf := apply letters_leaf; [discriminate|reflexivity|reflexivity].
Ltac fcomment := eapply (FComment []); [constructor|simpl; intuition discriminate|simpl; intuition discriminate|constructor].
Example C43_witness : exists t, stream
  [YMap [(word (lit "a"), node_from (YSeq [word (lit "x"); node_from (YSeq [word (lit "y"); node_from (YInt (lit "12"))])]));
         (word (lit "b"), node_from (YSeq [node_from (YMap [(word (lit "c"), word (lit "d")); (word (lit "e"), word (lit "f"))])]))];
   YStr (lit "end")] t
  /\ t = (List.concat [lit "a:"; [10]; lit "# one"; [10]; lit "- x"; [10]; lit "- - y"; [10]; lit "  - 12"; [10; 10]; lit "b:"; [10];
     lit "   - c: d"; [10]; lit "     e: f"; [10]; lit "---"; [10]; lit "end"; [10]])%N.
Proof.
  assert (D : forall a b va vb, str_eqb a b = false -> distinct [(word a, va); (word b, vb)]).
  { intros a b va vb E. constructor; [|constructor; [constructor|constructor]]. constructor; [|constructor].
    cbn. intros S. inversion S; subst. now rewrite (proj2 (str_eqb_eq b b) eq_refl) in E. }
  eexists. split.
  - eapply StPlain; [|apply (DNext [] []); [constructor|constructor|apply NLeaf; wleaf|apply (DEnd []); constructor]].
    apply IHere, NMap; [|now apply D].
    eapply (EMore 0 _ _ _ _ [10%N]); [wleaf| |constructor|repeat constructor|].
    + eapply (VFlush 0 _ _ (lit "# one" ++ [10%N])); [fcomment|]. eapply (SMore 0 _ _ []).
      * apply IHere, NLeaf. wleaf.
      * constructor.
      * apply SOne, IHere, NSeq. eapply (SMore 2 _ _ []); [apply IHere, NLeaf; wleaf|constructor|].
        apply SOne, IHere, NLeaf, LInt. apply DecLit; [discriminate|]. repeat constructor; unfold digit; lia.
    + eapply (EOne 0); [wleaf| |constructor]. eapply (VNext 0 3 _ _ []); [lia|constructor|]. apply NSeq, SOne, IHere, NMap; [|now apply D].
      eapply (EMore 5 _ _ _ _ []); [wleaf|apply VHere; wleaf|constructor|constructor|].
      eapply (EOne 5); [wleaf|apply VHere; wleaf|constructor].
  - reflexivity.
Qed.
