(** * C60: how [string_plain] reads text on several lines *)
From Verif Require Export GramLeaf.
Open Scope nat_scope.

(** ** Steps of the loop, also behind the first line *)
Lemma rest_colon n L inner v lead s x r : in_doc s -> AT s -> rem s = x :: r -> x = 58%N \/ x = 32%N -> stop_f (rem s) = false ->
  (lead = true -> x = 32%N -> trim_end v = v) ->
  plain_rest n L inner v lead s = plain_loop n L inner (v ++ [x]) lead (set_pos (p_pos s + 1) s).
Proof.
  intros H A R Hx E Hl. unfold plain_rest. destruct (plain_stop_exec s H A) as (p & Ep & Hp).
  rewrite (Hp E), set_pos_id in Ep.
  rewrite (bind_ok _ _ _ _ _ Ep), E. unfold bind at 1, forward, modify. rewrite (set_eaten_AT s A).
  unfold bind at 1. rewrite (is_ok_eq _ _ _ (sym_set_exec (lit ": ") s H)), R.
  replace (is_in (lit ": ") x) with true by (destruct Hx as [-> | ->]; reflexivity).
  unfold bind. rewrite (text_one s x r H A R) by (destruct Hx; lia). cbv zeta.
  destruct lead; [|reflexivity]. destruct Hx as [-> | ->]; [reflexivity|]. cbn [andb str_eqb]. now rewrite Hl.
Qed.
Lemma rest_bracket n L v lead s x r : in_doc s -> AT s -> rem s = x :: r -> In x (lit "{}[]") -> v <> [] ->
  plain_rest n L false v lead s = plain_loop n L false (v ++ [x]) false (set_pos (p_pos s + 1) s).
Proof.
  intros H A R Hx Hv. unfold plain_rest. destruct (plain_stop_exec s H A) as (p & Ep & Hp).
  assert (E : stop_f (rem s) = false).
  { rewrite R. simpl in Hx. repeat (destruct Hx as [<-|Hx]; [reflexivity|]). destruct Hx. }
  rewrite (Hp E), set_pos_id in Ep.
  rewrite (bind_ok _ _ _ _ _ Ep), E. unfold bind at 1, forward, modify. rewrite (set_eaten_AT s A).
  unfold bind at 1. rewrite (is_ok_eq _ _ _ (sym_set_exec (lit ": ") s H)), R.
  replace (is_in (lit ": ") x) with false by (simpl in Hx; repeat (destruct Hx as [<-|Hx]; [reflexivity|]); destruct Hx).
  rewrite A, set_pos_id. destruct v as [|v0 v]; [congruence|]. cbn [negb andb].
  unfold bind at 1. rewrite (is_ok_eq _ _ _ (sym_set_exec (lit "{}[]") s H)), R.
  replace (is_in (lit "{}[]") x) with true by (symmetry; now apply is_in_spec).
  unfold bind. rewrite (text_one s x r H A R); [reflexivity|].
  simpl in Hx. repeat (destruct Hx as [<-|Hx]; [lia|]). destruct Hx.
Qed.
(** a step over one space *)
Lemma loop_space n L inner v lead s x r : in_doc s -> rem s = 32%N :: x :: r -> x <> 35%N ->
  plain_loop (S n) L inner v lead s
  = plain_loop n L inner ((if lead then trim_end v else v) ++ [32%N]) lead (set_pos (p_pos s + 1) (set_eaten (p_pos s) s)).
Proof.
  intros H R Hx.
  assert (ST : starts_in (plain_patt inner) (32%N :: x :: r)).
  { change (In 32%N (plain_patt inner)). apply is_in_spec. rewrite in_patt. cbn. now rewrite !orb_true_r. }
  destruct (plain_step n L inner v lead s [] _ H eq_refl eq_refl ST R) as (E1 & R1 & D1). cbn [utf8_encode flat_map List.length] in *.
  rewrite E1, app_nil_r. rewrite Nat.add_0_r in *. set (s1 := at_pos (p_pos s) s) in *. assert (A1 : AT s1) by reflexivity.
  unfold plain_rest. destruct (plain_stop_exec s1 D1 A1) as (p & Ep & Hp).
  assert (E : stop_f (rem s1) = false) by (rewrite R1; now apply stop_space).
  rewrite (Hp E), set_pos_id in Ep.
  rewrite (bind_ok _ _ _ _ _ Ep), E. unfold bind at 1, forward, modify. rewrite (set_eaten_AT s1 A1).
  unfold bind at 1. rewrite (is_ok_eq _ _ _ (sym_set_exec (lit ": ") s1 D1)), R1.
  change (is_in (lit ": ") 32%N) with true. cbv iota beta.
  unfold bind. rewrite (text_one s1 32%N (x :: r) D1 A1 R1) by lia. cbv zeta. destruct lead; reflexivity.
Qed.
Lemma blanks_trim v : trim_end (trim_end v ++ [32%N]) = trim_end v.
Proof. rewrite trim_end_app by reflexivity. apply trim_idem. Qed.
(** spaces in front of the text of a further line *)
Lemma lead_spaces L inner V x r : forall k n s, List.length (rem s) < n -> in_doc s -> rem s = repeat 32%N k ++ x :: r -> x <> 32%N -> x <> 35%N ->
  trim_end V = V ->
  exists n' E, plain_loop n L inner (V ++ [32%N]) true s = plain_loop n' L inner (V ++ [32%N]) true (set_pos (p_pos s + k) (set_eaten E s))
    /\ List.length (x :: r) < n'.
Proof.
  induction k as [|k IH]; intros n s Hn H R Hx1 Hx2 HV.
  - exists n, (p_eaten s). rewrite Nat.add_0_r, set_eaten_id, set_pos_id. split; [reflexivity|]. rewrite R in Hn. exact Hn.
  - destruct n as [|n]; [lia|]. cbn [repeat app] in R.
    assert (exists y q, repeat 32%N k ++ x :: r = y :: q /\ y <> 35%N) as (y & q & Ey & Hy).
    { destruct k; cbn [repeat app]; eexists _, _; (split; [reflexivity|]); [exact Hx2|discriminate]. }
    pose proof R as R0. rewrite Ey in R.
    rewrite (loop_space n L inner _ true s y q H R Hy). rewrite (trim_end_app V [32%N] eq_refl), HV.
    set (s1 := set_pos (p_pos s + 1) (set_eaten (p_pos s) s)).
    assert (R1 : rem s1 = repeat 32%N k ++ x :: r).
    { change (rem s1) with (rem (set_pos (p_pos s + 1) s)). rewrite rem_add, R0. reflexivity. }
    destruct (IH n s1) as (n' & E & EE & Hn'); try assumption.
    + rewrite R1. rewrite R0 in Hn. cbn [List.length] in Hn. lia.
    + change (in_doc (set_pos (p_pos s + 1) s)). apply in_doc_add; [rewrite R0; cbn [List.length]; lia|exact H].
    + exists n', E. rewrite EE. split; [|exact Hn']. f_equal. unfold s1. apply st_ext; try reflexivity. cbn. lia.
Qed.

(** ** The text of a line, up to its last part without indicators *)
Definition steady (lead : bool) (v t : str) : Prop := lead = true -> forall x y, t = x ++ 32%N :: y -> trim_end (v ++ x) = v ++ x.
Lemma steady_app lead v a b : steady lead v (a ++ b) -> steady lead (v ++ a) b.
Proof. intros H Hl x y ->. rewrite <- !app_assoc. apply (H Hl (a ++ x) y). now rewrite <- app_assoc. Qed.
Lemma line_last L inner rest : forall m t n v lead s, List.length t <= m -> List.length (rem s) < n -> in_doc s -> valid t ->
  plainb inner (is_nil v) t = true -> steady lead v t -> rem s = utf8_encode t ++ rest ->
  exists n' v0 t0 lead' E, plain_loop n L inner v lead s
     = plain_loop n' L inner v0 lead' (set_pos (p_pos s + (blen t - blen t0)) (set_eaten E s))
    /\ v0 ++ t0 = v ++ t /\ blen t0 <= blen t /\ forallb (not_in (plain_patt inner)) t0 = true /\ valid t0
    /\ rem (set_pos (p_pos s + (blen t - blen t0)) (set_eaten E s)) = utf8_encode t0 ++ rest
    /\ in_doc (set_pos (p_pos s + (blen t - blen t0)) (set_eaten E s)) /\ List.length (utf8_encode t0 ++ rest) < n'.
Proof.
  induction m as [m IH] using lt_wf_ind. intros t n v lead s Hm Hn H Hv Hp Hst Er.
  destruct n as [|n]; [lia|].
  destruct (plain_split _ _ _ Hp) as (t0 & t' & -> & Ht0 & Ht').
  apply valid_app in Hv as [Hv0 Hv'].
  destruct Ht' as [-> |(c & r & -> & Hc & Hp')].
  - rewrite app_nil_r in *. exists (S n), v, t0, lead, (p_eaten s). rewrite Nat.sub_diag, Nat.add_0_r.
    assert (ES : set_pos (p_pos s) (set_eaten (p_eaten s) s) = s) by (rewrite set_eaten_id; apply set_pos_id).
    rewrite ES. rewrite Er in Hn. repeat split; try assumption; try lia.
  - rewrite encode_app, <- app_assoc in Er.
    assert (Hc128 : (c < 128)%N).
    { apply (proj1 (Forall_forall _ _) (asciis_Forall _ (plain_patt_ascii inner)) c). now apply is_in_spec. }
    assert (Hs : starts_in (plain_patt inner) (utf8_encode (c :: r) ++ rest)).
    { rewrite encode_cons_ascii by exact Hc128. change (In c (plain_patt inner)). now apply is_in_spec. }
    destruct (plain_step n L inner v lead s t0 _ H Hv0 Ht0 Hs Er) as (E1 & R1 & D1).
    rewrite E1, encode_app, !app_length. rewrite app_length in Hm.
    set (p := p_pos s + blen t0) in *. pose proof (AT_at p s) as A1.
    rewrite in_patt in Hc. cbn [plainb] in Hp'. apply andb_true_iff in Hp' as [Hp1 Hp2].
    assert (Hv1 : valid r) by now apply valid_cons in Hv' as [_ ?].
    rewrite encode_cons_ascii in R1 by exact Hc128. cbn [app] in R1.
    pose proof (encode_len_cons c r Hc128) as HL.
    assert (Hst1 : steady lead (v ++ t0) (c :: r)) by now apply steady_app.
    assert (GO : forall ld, (ld = true -> lead = true) -> plain_rest n L inner (v ++ t0) lead (at_pos p s) = plain_loop n L inner ((v ++ t0) ++ [c]) ld (set_pos (p_pos (at_pos p s) + 1) (at_pos p s)) ->
      exists n' v0 t1 lead' E, plain_rest n L inner (v ++ t0) lead (at_pos p s)
        = plain_loop n' L inner v0 lead' (set_pos (p_pos s + (blen t0 + blen (c :: r) - blen t1)) (set_eaten E s))
      /\ v0 ++ t1 = v ++ t0 ++ c :: r /\ blen t1 <= blen t0 + blen (c :: r) /\ forallb (not_in (plain_patt inner)) t1 = true /\ valid t1
      /\ rem (set_pos (p_pos s + (blen t0 + blen (c :: r) - blen t1)) (set_eaten E s)) = utf8_encode t1 ++ rest
      /\ in_doc (set_pos (p_pos s + (blen t0 + blen (c :: r) - blen t1)) (set_eaten E s)) /\ List.length (utf8_encode t1 ++ rest) < n').
    { intros ld Hld ->.
      assert (R2 : rem (set_pos (p_pos (at_pos p s) + 1) (at_pos p s)) = utf8_encode r ++ rest) by (rewrite rem_add, R1; reflexivity).
      destruct (IH (List.length r) ltac:(simpl in Hm; lia) r n ((v ++ t0) ++ [c]) ld (set_pos (p_pos (at_pos p s) + 1) (at_pos p s)))
        as (n' & v0 & t1 & ld' & E & EE & K1 & K2 & K3 & K4 & K5 & K6 & K7).
      - apply le_n.
      - rewrite R2. rewrite Er, !app_length, HL in Hn. rewrite app_length. lia.
      - apply in_doc_add; [rewrite R1; simpl; lia|exact D1].
      - exact Hv1.
      - replace (is_nil ((v ++ t0) ++ [c])) with false by (destruct (v ++ t0); reflexivity). exact Hp2.
      - intros Hl. apply steady_app with (a := [c]) in Hst1. exact (Hst1 (Hld Hl)).
      - exact R2.
      - assert (SS : set_pos (p_pos (set_pos (p_pos (at_pos p s) + 1) (at_pos p s)) + (blen r - blen t1)) (set_eaten E (set_pos (p_pos (at_pos p s) + 1) (at_pos p s)))
           = set_pos (p_pos s + (blen t0 + blen (c :: r) - blen t1)) (set_eaten E s)).
        { apply st_ext; try reflexivity. cbn [at_pos set_pos set_eaten p_pos]. unfold p. rewrite HL. lia. }
        rewrite SS in *. exists n', v0, t1, ld', E. rewrite EE. split; [reflexivity|]. split; [rewrite K1, <- !app_assoc; reflexivity|].
        split; [rewrite HL; lia|]. auto. }
    destruct (is_in [10; 13]%N c) eqn:B1; [discriminate|].
    destruct (is_in (lit "[]{}") c) eqn:B2.
    { apply andb_true_iff in Hp1 as [I1 I2]. destruct inner; [discriminate|].
      apply (GO false); [discriminate|]. apply (rest_bracket n L (v ++ t0) lead _ c _ D1 A1 R1).
      - apply is_in_spec in B2. simpl in *. tauto.
      - destruct v, t0; try discriminate. }
    cbn [orb] in Hc. destruct (N.eqb_spec c 44) as [->|N44].
    { destruct inner; discriminate. }
    rewrite andb_false_r in Hc. cbn [orb] in Hc.
    destruct (N.eqb_spec c 58) as [->|N58].
    { destruct r as [|d r]; [discriminate|].
      destruct (next_not (d :: r) rest [32; 10; 13]%N ltac:(discriminate) ltac:(reflexivity) Hp1) as (b & r' & Eb & Hb).
      apply (GO lead); [auto|]. apply (rest_colon n L inner (v ++ t0) lead _ 58%N _ D1 A1 R1); [auto| |discriminate]. rewrite R1, Eb. now apply stop_colon. }
    cbn [orb] in Hc. apply N.eqb_eq in Hc. subst c. cbn in Hp1.
    destruct r as [|d r]; [discriminate|].
    destruct (next_not (d :: r) rest [35]%N ltac:(discriminate) ltac:(reflexivity)) as (b & r' & Eb & Hb).
    { apply not_in_spec. intros [<-|[]]. discriminate. }
    apply (GO lead); [auto|]. apply (rest_colon n L inner (v ++ t0) lead _ 32%N _ D1 A1 R1); [auto| |].
    + rewrite R1, Eb. apply stop_space. apply not_in_spec in Hb. intros ->. apply Hb. now left.
    + intros Hl _. pose proof (Hst1 Hl [] (d :: r) eq_refl) as K. now rewrite app_nil_r in K.
Qed.

(** ** The end of a line *)
Definition text_start (l : bytes) : Prop := match l with x :: _ => ~ In x [32; 35; 10; 13; 9; 12]%N | [] => False end.
Lemma text_comment k l : text_start l -> comment_len (repeat 32%N k ++ l) = 0.
Proof.
  intros H. destruct l as [|x l]; [destruct H|]. unfold comment_len, ws_len.
  assert (E : span is_ws (repeat 32%N k ++ x :: l) = k).
  { induction k as [|k IH]; cbn [repeat app].
    - apply span_zero. destruct (is_ws x) eqn:E; [|reflexivity]. exfalso. apply H. unfold is_ws, is_ascii_ws in E.
      repeat (apply andb_true_iff in E as [E ?]). repeat (apply orb_true_iff in E as [E|E]); apply N.eqb_eq in E; subst x; simpl; tauto.
    - cbn [span]. change (is_ws 32) with true. cbv iota. now rewrite IH. }
  rewrite E. replace (skipn k (repeat 32%N k ++ x :: l)) with (x :: l) by (rewrite <- (repeat_length 32%N k) at 1; symmetry; apply skipn_app_len).
  destruct (N.eqb_spec x 35) as [->|]; [|reflexivity]. exfalso. apply H. simpl. tauto.
Qed.
Lemma text_no_nl k l : text_start l -> nl_len (repeat 32%N k ++ l) = 0.
Proof.
  intros H. destruct l as [|x l]; [destruct H|]. destruct k as [|k]; [|reflexivity]. cbn [repeat app].
  rewrite nl_len_alt. unfold nl_len'. cbn [starts_with].
  rewrite (proj2 (N.eqb_neq 13 x)), (proj2 (N.eqb_neq 10 x)) by (intros <-; apply H; simpl; tauto).
  rewrite (proj2 (N.eqb_neq x 13)), (proj2 (N.eqb_neq x 10)) by (intros ->; apply H; simpl; tauto). reflexivity.
Qed.
Lemma feeds_tail e n k l : line_break e -> text_start l -> brk_tail e (List.concat (repeat e n) ++ repeat 32%N k ++ l).
Proof.
  intros He Hl. destruct n as [|n]; cbn [repeat List.concat app].
  - left. destruct k as [|k]; cbn [repeat app]; [|split; discriminate]. destruct l as [|x l]; [destruct Hl|].
    split; intros ->; apply Hl; simpl; tauto.
  - right. exists (List.concat (repeat e n) ++ repeat 32%N k ++ l). now rewrite <- !app_assoc.
Qed.
Lemma feeds_len (e : str) n : List.length (List.concat (repeat e n)) = n * List.length e.
Proof. induction n as [|n IH]; [reflexivity|]. cbn [repeat List.concat Nat.mul]. rewrite app_length, IH. reflexivity. Qed.
Lemma break_comment e l : line_break e -> comment_len (e ++ l) = 0.
Proof. intros [->|[->| ->]]; cbn [app]; apply comment_head; auto. Qed.
Lemma feeds_lines e k l : line_break e -> text_start l -> forall n m, List.length (List.concat (repeat e n) ++ repeat 32%N k ++ l) < m ->
  gap_lines m true (List.concat (repeat e n) ++ repeat 32%N k ++ l) = (n, n * List.length e).
Proof.
  intros He Hl. induction n as [|n IH]; intros m Hm; (destruct m as [|m]; [lia|]); cbn [gap_lines]; unfold line_skip; cbv zeta.
  - cbn [repeat List.concat app]. rewrite text_comment by exact Hl. cbn [skipn]. rewrite text_no_nl by exact Hl. reflexivity.
  - cbn [repeat List.concat]. cbn [repeat List.concat] in Hm. rewrite <- !app_assoc in *. rewrite break_comment by exact He. cbn [skipn Nat.add].
    rewrite nl_break by first [assumption | now apply feeds_tail].
    assert (E0 : (List.length e =? 0) = false) by (destruct He as [->|[->| ->]]; reflexivity). rewrite E0, skipn_app_len.
    rewrite IH by (rewrite app_length in Hm; destruct He as [->|[->| ->]]; cbn [List.length] in Hm; lia). cbn [fst snd]. f_equal.
Qed.
Lemma feeds_gap e n k l : line_break e -> text_start l ->
  gap_f true (e ++ List.concat (repeat e n) ++ repeat 32%N k ++ l) = Some (S n, List.length e + n * List.length e).
Proof.
  intros He Hl. unfold gap_f, gap_head. rewrite break_comment by exact He. cbn [skipn Nat.add]. cbv zeta.
  rewrite nl_break by first [assumption | now apply feeds_tail].
  assert (E0 : (List.length e =? 0) = false) by (destruct He as [->|[->| ->]]; reflexivity). rewrite E0, skipn_app_len.
  rewrite feeds_lines by first [assumption | lia]. reflexivity.
Qed.
(** what the loop does there *)
Definition joined (n : nat) : str := match n with 0 => [32%N] | _ => repeat 10%N n end.
Lemma loop_break n L inner v lead s e m k l D : List.length (rem s) < S n -> in_doc s -> line_break e -> text_start l ->
  rem s = e ++ List.concat (repeat e m) ++ repeat 32%N (D + k) ++ l -> depth (p_indent s) L = D -> 0 < D -> 
  exists tb E, plain_loop (S n) L inner v lead s
     = plain_loop n L inner (v ++ joined m) true (set_pos (p_pos s + (List.length e + m * List.length e + D)) (set_eaten E (set_indent tb s)))
    /\ tb_ok L (p_indent s) tb
    /\ rem (set_pos (p_pos s + (List.length e + m * List.length e + D)) (set_eaten E (set_indent tb s))) = repeat 32%N k ++ l
    /\ in_doc (set_pos (p_pos s + (List.length e + m * List.length e + D)) (set_eaten E (set_indent tb s)))
    /\ List.length (repeat 32%N k ++ l) < n.
Proof.
  intros Hn H He Hl R HD HD0.
  assert (EH : exists x q, e = x :: q /\ (x = 10%N \/ x = 13%N)) by (destruct He as [->|[->| ->]]; eauto).
  destruct EH as (x & q & EX & Hx). set (tl := e ++ List.concat (repeat e m) ++ repeat 32%N (D + k) ++ l) in *.
  assert (TX : exists q', tl = x :: q') by (unfold tl; rewrite EX; eexists; reflexivity). destruct TX as (q' & TX).
  assert (ST : starts_in (plain_patt inner) tl).
  { rewrite TX. change (In x (plain_patt inner)). apply is_in_spec. rewrite in_patt. destruct Hx as [-> | ->]; reflexivity. }
  destruct (plain_step n L inner v lead s [] _ H eq_refl eq_refl ST R) as (E1 & R1 & D1). cbn [utf8_encode flat_map List.length] in *.
  rewrite E1, app_nil_r. rewrite Nat.add_0_r in *. set (s1 := at_pos (p_pos s) s) in *. assert (A1 : AT s1) by reflexivity.
  assert (F : stop_f (rem s1) = false) by (rewrite R1, TX; destruct Hx as [-> | ->]; reflexivity).
  destruct (plain_stop_exec s1 D1 A1) as (p & Ep & Hp). rewrite (Hp F), set_pos_id in Ep.
  assert (GF : gap_f true (rem s1) = Some (S m, List.length e + m * List.length e)) by (rewrite R1; unfold tl; now apply feeds_gap).
  exists (ind_norm L (p_indent s)), (p_pos s).
  set (s4 := set_pos _ (set_eaten _ (set_indent _ s))).
  assert (LE : List.length (e ++ List.concat (repeat e m)) = List.length e + m * List.length e) by (rewrite app_length, feeds_len; reflexivity).
  assert (SK : skipn (List.length e + m * List.length e + D) tl = repeat 32%N k ++ l).
  { unfold tl. rewrite repeat_app, <- (app_assoc (repeat 32%N D)), (app_assoc e), <- skipn_add, <- LE, skipn_app_len.
    rewrite <- (repeat_length 32%N D) at 1. apply skipn_app_len. }
  assert (LT : List.length tl = List.length e + m * List.length e + D + List.length (repeat 32%N k ++ l)).
  { unfold tl. rewrite repeat_app, <- (app_assoc (repeat 32%N D)), (app_assoc e), app_length, LE, app_length, repeat_length. lia. }
  assert (R4 : rem s4 = repeat 32%N k ++ l).
  { change (rem s4) with (rem (set_pos (p_pos s + (List.length e + m * List.length e + D)) s)). rewrite rem_add, R. exact SK. }
  split; [|split; [now right|split; [exact R4|split]]].
  - unfold plain_rest. rewrite (bind_ok _ _ _ _ _ Ep), F. unfold bind at 1, forward, modify. rewrite (set_eaten_AT s1 A1).
    unfold bind at 1. rewrite (is_ok_eq _ _ _ (sym_set_exec (lit ": ") s1 D1)), R1, TX.
    replace (is_in (lit ": ") x) with false by (destruct Hx as [-> | ->]; reflexivity). rewrite A1, set_pos_id.
    assert (K1 : (if negb inner && negb (match v with [] => true | _ :: _ => false end)
                  then is_ok (sym_set (lit "{}[]")) else ret false) s1 = (ROk false, s1)).
    { destruct (negb inner && _); [|reflexivity].
      rewrite (is_ok_eq _ _ _ (sym_set_exec (lit "{}[]") s1 D1)), R1, TX.
      replace (is_in (lit "{}[]") x) with false by (destruct Hx as [-> | ->]; reflexivity). now rewrite A1, set_pos_id. }
    rewrite (bind_ok _ _ _ _ _ K1). cbv iota. unfold bind at 1. rewrite (ind_fail L s1 D1 A1).
    2:{ rewrite R1, TX. unfold sp_len. rewrite span_zero by (destruct Hx as [-> | ->]; reflexivity). change (p_indent s1) with (p_indent s). lia. }
    cbv iota. set (s2 := set_indent _ s1). assert (H2 : in_doc s2) by exact D1.
    unfold bind at 1. rewrite (ok_eq _ _ _ (gap_exec true s2 H2)). change (rem s2) with (rem s1). rewrite GF. cbv zeta.
    set (s3 := set_pos (p_pos s2 + (List.length e + m * List.length e)) s2).
    assert (H3 : in_doc s3).
    { apply in_doc_add; [change (rem s2) with (rem s1); rewrite R1, LT; lia|exact H2]. }
    assert (R3 : rem s3 = repeat 32%N (D + k) ++ l).
    { unfold s3. rewrite rem_add. change (rem s2) with (rem s1). rewrite R1. unfold tl. rewrite app_assoc, <- LE. apply skipn_app_len. }
    unfold bind at 1. rewrite (is_err_eq _ _ _ (ind_exec L s3 H3)), ind_width_depth.
    assert (DP : depth (p_indent s3) L = D) by (unfold s3, s2; cbn [p_indent set_pos set_indent]; rewrite depth_norm by lia; exact HD).
    rewrite DP, (proj2 (Nat.leb_le D (sp_len (rem s3)))).
    2:{ rewrite R3. clear. unfold sp_len. induction D as [|D IH]; [lia|]. cbn [Nat.add repeat app span]. change (N.eqb 32 32) with true. cbv iota. lia. }
    cbv iota. replace ((if S m =? 1 then v ++ [32%N] else v) ++ repeat 10%N (S m - 1)) with (v ++ joined m).
    2:{ replace (S m - 1) with m by lia. destruct m as [|m]; [cbn; now rewrite app_nil_r|reflexivity]. }
    f_equal. unfold s4. apply st_ext; try reflexivity.
    + cbn [p_indent set_pos set_indent set_eaten]. unfold ind_table, s3, s2. cbn [p_indent set_pos set_indent set_eaten]. apply norm_idem.
    + unfold s3, s2, s1. cbn [p_pos set_pos set_indent set_eaten at_pos]. lia.
  - unfold in_doc. pose proof (rem_length s) as RL. rewrite R in RL. change (p_doc s4) with (p_doc s). unfold s4. cbn [p_pos set_pos]. unfold in_doc in H. lia.
  - rewrite R in Hn. lia.
Qed.

(** ** A further line *)
Lemma more_text fl t rest : more_line fl t -> text_start (utf8_encode t ++ rest).
Proof.
  intros (_ & (c & r & -> & Hc & H35) & _). destruct (first_byte c r) as (b & q & -> & K). cbn [app text_start].
  intros Hi. destruct K as [(L & -> & _)|(_ & L)].
  - simpl in Hi. destruct Hi as [<-|[<-|[<-|[<-|[<-|[<-|[]]]]]]]; try discriminate. congruence.
  - simpl in Hi. lia.
Qed.
Lemma more_plainb fl t : more_line fl t -> plainb fl false t = true.
Proof.
  intros (_ & _ & Ht & H10 & H13 & Hk & Hke & Hc & _ & Hf).
  pose proof (plainb_line t false (conj H10 H13) Hk Hke Hc Ht ltac:(discriminate)) as P.
  destruct fl; [|exact P]. specialize (Hf eq_refl). clear - P Hf.
  assert (G : forall first, plainb false first t = true -> plainb true first t = true); [clear P|now apply G]. revert Hf.
  induction t as [|c t IH]; intros Hf first P; [reflexivity|]. cbn [plainb] in *. apply andb_true_iff in P as [P1 P2].
  rewrite (IH ltac:(intros z Hz K; apply (Hf z Hz); now right) false P2). rewrite andb_true_r.
  assert (E1 : is_in (lit "[]{}") c = false).
  { destruct (is_in (lit "[]{}") c) eqn:E; [|reflexivity]. apply is_in_spec in E. exfalso. apply (Hf c); [simpl in *; tauto|now left]. }
  assert (E2 : N.eqb c 44 = false) by (apply N.eqb_neq; intros ->; apply (Hf 44%N); [simpl; tauto|now left]).
  rewrite E1, E2 in *. exact P1.
Qed.
Lemma last_char (t : str) : t <> [] -> exists a c, t = a ++ [c].
Proof. intros H. destruct (exists_last H) as (a & c & ->). eauto. Qed.
Lemma visible_trim v a c : is_uni_ws c = false -> trim_end (v ++ a ++ [c]) = v ++ a ++ [c].
Proof.
  intros H. apply trim_end_last. intros x y E. rewrite app_assoc in E. apply app_inj_tail in E as [_ <-]. exact H.
Qed.
Lemma more_trim fl t v : more_line fl t -> trim_end (v ++ t) = v ++ t /\ v ++ t <> [].
Proof.
  intros (_ & (c & r & E & _) & Ht & _). assert (H : t <> []) by (rewrite E; discriminate).
  destruct (last_char t H) as (a & x & ->). split; [apply visible_trim; now apply (Ht a)|]. now destruct v, a.
Qed.
Lemma more_steady fl t v : more_line fl t -> steady true v t.
Proof.
  intros (_ & (c & r & E & Hc & _) & _ & _ & _ & _ & _ & _ & Hs & _) _ x y Ex.
  destruct x as [|x0 x]; [rewrite Ex in E; cbn [app] in E; injection E as <- _; discriminate|].
  destruct (exists_last (l := x0 :: x)) as (a & z & Ez); [discriminate|]. rewrite Ez in *. apply visible_trim.
  apply (Hs a z y). now rewrite Ex, <- app_assoc.
Qed.
Lemma moved_refl L s : moved L 0 s s.
Proof. exists (p_indent s), (p_eaten s). split; [|now left]. rewrite Nat.add_0_r. unfold set_pos, set_eaten, set_indent. now destruct s. Qed.
Lemma joint_shape D br j v : plain_joint D br j v -> exists m k, j = br ++ List.concat (repeat br m) ++ indent (D + k) /\ v = joined m /\ (m = 0 \/ k = 0).
Proof.
  intros [k Hk|n].
  - exists 0, (k - D). replace (D + (k - D)) with k by lia. auto.
  - exists (S n), 0. rewrite Nat.add_0_r. auto.
Qed.
Lemma concat_encode br m : line_break br -> utf8_encode (List.concat (repeat br m)) = List.concat (repeat br m).
Proof.
  intros Hb. induction m as [|m IH]; [reflexivity|]. cbn [repeat List.concat]. rewrite encode_app, IH. f_equal. now apply break_enc.
Qed.
Lemma indent_encode k : utf8_encode (indent k) = repeat 32%N k.
Proof. unfold indent. apply encode_asciis. unfold asciis. apply forallb_forall. intros z Hz. apply repeat_spec in Hz as ->. reflexivity. Qed.
Lemma line_step L inner D br j vj t rest n v lead s : 0 < D -> line_break br -> plain_joint D br j vj -> more_line inner t -> parted inner rest ->
  List.length (rem s) < n -> in_doc s -> rem s = utf8_encode j ++ utf8_encode t ++ rest -> trim_end v = v -> v <> [] -> depth (p_indent s) L = D ->
  exists n' lead' s', plain_loop n L inner v lead s = plain_loop n' L inner (v ++ vj ++ t) lead' s' /\ rem s' = rest /\ in_doc s'
    /\ List.length rest < n' /\ moved L (blen j + blen t) s s'.
Proof.
  intros HD Hb Hj Ht (a & tl & Er & A1 & A2 & A3) Hn H R Hv Hv0 Hd.
  destruct (joint_shape D br j vj Hj) as (m & k & -> & -> & Hmk).
  rewrite !encode_app, (break_enc br Hb), (concat_encode br m Hb), indent_encode, <- !app_assoc in R.
  destruct n as [|n]; [lia|].
  destruct (loop_break n L inner v lead s br m k (utf8_encode t ++ rest) D Hn H Hb (more_text inner t rest Ht) R Hd HD) as (tb & E & E1 & T1 & R1 & D1 & L1).
  rewrite E1. set (s1 := set_pos _ _) in *.
  assert (SP : exists n2 E2, plain_loop n L inner (v ++ joined m) true s1 = plain_loop n2 L inner (v ++ joined m) true (set_pos (p_pos s1 + k) (set_eaten E2 s1))
    /\ List.length (utf8_encode t ++ rest) < n2).
  { destruct Hmk as [->| ->].
    - pose proof (more_text inner t rest Ht) as TS. destruct (utf8_encode t ++ rest) as [|x q] eqn:EX; [destruct TS|].
      apply lead_spaces with (V := v); try assumption.
      + now rewrite R1.
      + intros ->. apply TS. simpl. tauto.
      + intros ->. apply TS. simpl. tauto.
    - exists n, (p_eaten s1). rewrite Nat.add_0_r, set_eaten_id, set_pos_id. split; [reflexivity|exact L1]. }
  destruct SP as (n2 & E2 & EE2 & L2). rewrite EE2. set (s2 := set_pos (p_pos s1 + k) (set_eaten E2 s1)).
  assert (R2 : rem s2 = utf8_encode t ++ rest).
  { change (rem s2) with (rem (set_pos (p_pos s1 + k) s1)). rewrite rem_add, R1. rewrite <- (repeat_length 32%N k) at 1. apply skipn_app_len. }
  assert (D2 : in_doc s2).
  { change (in_doc (set_pos (p_pos s1 + k) s1)). apply in_doc_add; [rewrite R1, app_length, repeat_length; lia|exact D1]. }
  assert (VN : v ++ joined m <> []) by (destruct v; [congruence|discriminate]).
  destruct (line_last L inner rest (List.length t) t n2 (v ++ joined m) true s2 (le_n _)) as (n3 & v3 & t3 & ld & E3 & EE3 & K1 & K2 & K3 & K4 & K5 & K6 & K7).
  - now rewrite R2.
  - exact D2.
  - apply Ht.
  - replace (is_nil (v ++ joined m)) with false by (destruct (v ++ joined m); [congruence|reflexivity]). now apply more_plainb.
  - now apply more_steady with inner.
  - exact R2.
  - rewrite EE3. set (s3 := set_pos _ (set_eaten E3 s2)) in *. destruct n3 as [|n3]; [lia|].
    rewrite (seg_skip n3 L inner v3 ld s3 t3 a tl K6 K4 K3 A1 A2 A3) by (rewrite K5, Er; reflexivity). rewrite K1, <- app_assoc.
    exists (S n3), ld, (set_pos (p_pos s3 + blen t3) s3). split; [reflexivity|]. split; [rewrite rem_add, K5; apply skipn_app_len|].
    split; [apply in_doc_add; [rewrite K5, app_length; lia|exact K6]|]. split; [rewrite app_length in K7; lia|].
    exists tb, E3. split; [|exact T1]. rewrite !encode_app, (break_enc br Hb), (concat_encode br m Hb), indent_encode, !app_length, feeds_len, repeat_length.
    unfold s3, s2, s1. apply st_ext; try reflexivity. cbn [p_pos set_pos set_eaten set_indent]. lia.
Qed.

(** ** All lines *)
(** what comes behind the scalar: the loop stops there *)
Definition fins (L : nat) (inner : bool) (D : nat) (l : bytes) (P : nat -> Prop) : Prop :=
  parted inner l /\ forall n v lead s, List.length l < n -> in_doc s -> rem s = l -> depth (p_indent s) L = D ->
  exists v' j s', plain_loop n L inner v lead s = (ROk v', s') /\ trim_end v' = trim_end v /\ P j /\ moved L j s s'.
Lemma moved_depth L k s s' : moved L k s s' -> depth (p_indent s') L = depth (p_indent s) L.
Proof. intros (tb & E & -> & H). cbn [p_indent set_pos set_eaten set_indent]. now apply (tb_ok_depth L). Qed.
Lemma joint_parted inner D br j vj l : line_break br -> plain_joint D br j vj -> parted inner (utf8_encode j ++ l).
Proof.
  intros Hb Hj. destruct (joint_shape D br j vj Hj) as (m & k & -> & _ & _). exists [], (utf8_encode (br ++ List.concat (repeat br m) ++ indent (D + k)) ++ l).
  split; [reflexivity|]. split; [reflexivity|]. split; [reflexivity|]. rewrite encode_app, (break_enc br Hb).
  assert (EH : exists x q, br = x :: q /\ (x = 10%N \/ x = 13%N)) by (destruct Hb as [->|[->| ->]]; eauto).
  destruct EH as (x & q & -> & Hx). change (In x (plain_patt inner)). apply is_in_spec. rewrite in_patt. destruct Hx as [-> | ->]; reflexivity.
Qed.
Lemma more_parted inner D br t u l : line_break br -> more_lines inner D br t u -> parted inner (utf8_encode t ++ l).
Proof.
  intros Hb [j v a Hj Ha|j v a r w Hj Ha Hr]; rewrite !encode_app, <- !app_assoc; eapply joint_parted; eassumption.
Qed.
Lemma more_run L inner D br t u : 0 < D -> line_break br -> more_lines inner D br t u -> forall l P n v lead s, fins L inner D l P ->
  List.length (rem s) < n -> in_doc s -> rem s = utf8_encode t ++ l -> trim_end v = v -> v <> [] -> depth (p_indent s) L = D ->
  exists v' j s', plain_loop n L inner v lead s = (ROk v', s') /\ trim_end v' = v ++ u /\ P j /\ moved L (blen t + j) s s'.
Proof.
  intros HD Hb Hm. induction Hm as [j vj t Hj Ht|j vj t r u Hj Ht Hr IH]; intros l P n v lead s HF Hn H R Hv Hv0 Hd.
  - rewrite encode_app, <- app_assoc in R.
    destruct (line_step L inner D br j vj t l n v lead s HD Hb Hj Ht (proj1 HF) Hn H R Hv Hv0 Hd) as (n' & ld & s1 & E1 & R1 & D1 & L1 & M1).
    destruct HF as [_ HF]. destruct (HF n' (v ++ vj ++ t) ld s1 L1 D1 R1) as (v' & k & s2 & E2 & T2 & P2 & M2); [now rewrite (moved_depth _ _ _ _ M1)|].
    exists v', k, s2. rewrite E1, E2. split; [reflexivity|]. split; [rewrite T2, app_assoc; now apply more_trim with inner|]. split; [exact P2|].
    rewrite encode_app, app_length. now apply moved_trans with s1.
  - rewrite !encode_app, <- !app_assoc in R.
    destruct (line_step L inner D br j vj t (utf8_encode r ++ l) n v lead s HD Hb Hj Ht (more_parted _ _ _ _ _ _ Hb Hr) Hn H R Hv Hv0 Hd)
      as (n' & ld & s1 & E1 & R1 & D1 & L1 & M1).
    destruct (more_trim inner t (v ++ vj) Ht) as [TV TN]. rewrite <- app_assoc in TV, TN.
    destruct (IH l P n' (v ++ vj ++ t) ld s1 HF ltac:(now rewrite R1) D1 R1 TV TN ltac:(now rewrite (moved_depth _ _ _ _ M1)))
      as (v' & k & s2 & E2 & T2 & P2 & M2).
    exists v', k, s2. rewrite E1, E2. split; [reflexivity|]. split; [rewrite T2, <- !app_assoc; reflexivity|]. split; [exact P2|].
    rewrite !encode_app, !app_length. replace (blen j + (blen t + blen r) + k) with (blen j + blen t + (blen r + k)) by lia. now apply moved_trans with s1.
Qed.
Lemma string_plain_lines L inner D t b l P s : 0 < D -> plain_lines inner D t b -> fins L inner D l P -> in_doc s -> rem s = utf8_encode t ++ l ->
  depth (p_indent s) L = D ->
  exists j tb, string_plain L inner s = (ROk b, set_pos (p_pos s + blen t + j) (set_indent tb s)) /\ P j /\ tb_ok L (p_indent s) tb.
Proof.
  intros HD [br t0 r u Hb Hw Hm] HF H R Hd. destruct (word_plainb inner t0 Hw) as (Hv & Hn & Ht & Hp & _).
  unfold string_plain, context. set (s0 := set_eaten (p_pos s) s). unfold bind, gets.
  assert (LN : List.length (rem s0) < loop_fuel s0) by (pose proof (rem_length s0); unfold loop_fuel; lia).
  assert (D0 : in_doc s0) by exact H. rewrite encode_app, <- app_assoc in R. assert (R0 : rem s0 = utf8_encode t0 ++ utf8_encode r ++ l) by exact R.
  destruct (line_last L inner (utf8_encode r ++ l) (List.length t0) t0 (loop_fuel s0) [] false s0 (le_n _) LN D0 Hv Hp ltac:(discriminate) R0)
    as (n' & v0 & t1 & ld & E & EE & K1 & K2 & K3 & K4 & K5 & K6 & K7).
  rewrite EE. set (s1 := set_pos _ _) in *. cbn [app] in K1. destruct n' as [|n']; [lia|].
  destruct (more_parted inner D br r u l Hb Hm) as (a & tl & Ea & A1 & A2 & A3).
  rewrite (seg_skip n' L inner v0 ld s1 t1 a tl K6 K4 K3 A1 A2 A3) by (rewrite K5, Ea; reflexivity). rewrite K1.
  set (s2 := set_pos (p_pos s1 + blen t1) s1).
  assert (D2 : in_doc s2) by (apply in_doc_add; [rewrite K5, app_length; lia|exact K6]).
  assert (R2 : rem s2 = utf8_encode r ++ l) by (unfold s2; rewrite rem_add, K5; apply skipn_app_len).
  destruct (more_run L inner D br r u HD Hb Hm l P (S n') t0 ld s2 HF ltac:(rewrite R2; rewrite app_length in K7; lia) D2 R2 Ht Hn Hd)
    as (v' & j & s' & E' & T & HP & tb & E2 & -> & Htb).
  rewrite E', T. destruct (t0 ++ u) as [|x q] eqn:EX; [apply app_eq_nil in EX as [K _]; congruence|]. unfold ret.
  exists j, tb. split; [|split; [exact HP|exact Htb]].
  f_equal. unfold s2, s1, s0. apply st_ext; try reflexivity. cbn [p_pos set_pos set_eaten set_indent]. rewrite encode_app, app_length. lia.
Qed.
(** a text with a space or a line feed is no keyword *)
Lemma joined_text t m u : plain_value (t ++ joined m ++ u) = YStr (t ++ joined m ++ u).
Proof.
  apply (meaning_unique (t ++ joined m ++ u)); [apply plain_value_meaning|]. apply MText. intros y Hy.
  assert (K : Forall (fun kv : str * yaml => ~ In 32%N (fst kv) /\ ~ In 10%N (fst kv)) keywords).
  { repeat constructor; cbn; intuition discriminate. }
  rewrite Forall_forall in K. destruct (K _ Hy) as [K1 K2]. cbn [fst] in *. destruct m as [|m].
  - apply K1, in_or_app. right. now left.
  - apply K2, in_or_app. right. now left.
Qed.
Lemma lines_text fl D t b : plain_lines fl D t b -> plain_value b = YStr b.
Proof.
  intros [br t0 r u Hb Hw Hm]. destruct Hm as [j v a Hj _|j v a r w Hj _ _];
    destruct (joint_shape D br j v Hj) as (m & k & _ & -> & _); apply joined_text.
Qed.
Lemma lines_term L inner D t b l P s : in_doc s -> AT s -> 0 < D -> plain_lines inner D t b -> fins L inner D l P -> rem s = utf8_encode t ++ l ->
  depth (p_indent s) L = D ->
  exists j tb, reads 1 L inner s (YStr b) (set_pos (p_pos s + blen t + j) (set_indent tb s)) /\ P j /\ tb_ok L (p_indent s) tb.
Proof.
  intros H A0 HD HL HF R Hd.
  destruct (string_plain_lines L inner D t b l P s HD HL HF H R Hd) as (j & tb & E & HP & Htb).
  exists j, tb. split; [|auto]. pose proof (lines_text inner D t b HL) as PV.
  destruct HL as [br t0 r u Hb W Hm]. destruct (word_plainb inner t0 W) as (_ & _ & _ & _ & Htr). pose proof W as (_ & _ & Nn & _).
  rewrite encode_app, <- app_assoc in R.
  assert (AW : aw (utf8_encode r ++ l)).
  { destruct Hm as [j0 v a Hj _|j0 v a r w Hj _ _]; destruct (joint_shape D br j0 v Hj) as (m & k & -> & _ & _);
      rewrite !encode_app, (break_enc br Hb), <- !app_assoc; destruct Hb as [->|[->| ->]]; unfold aw, after_word; simpl; tauto. }
  assert (NN : nonum (rem s)) by (apply not_number_nonum; rewrite R; now apply word_not_number).
  intros n Hn. destruct n as [|n]; [lia|]. rewrite (term_nonum n L inner s H A0 NN). unfold term2.
  pose proof (word_first inner t0 (utf8_encode r ++ l) W) as Hx0. rewrite <- R in Hx0.
  assert (Hx : forall c, In c [42; 39; 34]%N -> match rem s with x :: _ => x <> c | [] => True end).
  { intros c Hc. destruct (rem s); [exact Logic.I|]. intros ->. now apply Hx0. }
  unfold bind at 1. unfold anchor_use. rewrite (ok_miss (chr "*") _ s H A0) by (apply Hx; simpl; tauto).
  unfold bind at 1. rewrite (quoted_miss 39%N _ s H A0) by (apply Hx; simpl; tauto).
  unfold bind at 1. rewrite (quoted_miss 34%N _ s H A0) by (apply Hx; simpl; tauto).
  unfold bind at 1. rewrite (ok_eq _ _ _ E). unfold ret. now rewrite PV.
Qed.

(** ** Ends *)
Lemma fins_ends L inner D l (P : nat -> Prop) : ends inner D l -> P 0 -> fins L inner D l P.
Proof.
  intros He HP. split.
  - exists [], l. split; [reflexivity|]. split; [reflexivity|]. split; [reflexivity|]. exact (ends_patt _ _ _ He).
  - intros n v lead s Hn H R Hd. destruct n as [|n]; [lia|].
    destruct (plain_step n L inner v lead s [] l H eq_refl eq_refl (ends_patt _ _ _ He) R) as (E1 & R1 & D1). cbn [utf8_encode flat_map List.length] in *.
    rewrite E1, app_nil_r. rewrite Nat.add_0_r in *.
    destruct (plain_rest_end n L inner v lead (at_pos (p_pos s) s) D1 eq_refl) as (x & tb & EE & Hx & Htb); [rewrite R1; cbn [p_indent at_pos set_pos set_eaten]; now rewrite Hd|].
    exists (v ++ x), 0. eexists. rewrite EE. split; [reflexivity|]. split; [now apply trim_end_app|]. split; [exact HP|].
    exists tb, (p_pos s). split; [|exact Htb]. rewrite Nat.add_0_r. reflexivity.
Qed.
Lemma fins_ws L D w c r (P : nat -> Prop) : wsl w -> closer c -> 0 < D -> (forall j, j <= List.length w -> P j) -> fins L true D (w ++ c :: r) P.
Proof.
  intros Hw Hc HD HP. split; [now apply ws_segment|]. intros n v lead s Hn H R Hd.
  destruct (plain_ws L (List.length w) w n v lead s c r (le_n _)) as (v' & k & s' & E & T & Hk & M); try assumption; [rewrite app_length in Hn; lia|lia|].
  exists v', k, s'. auto.
Qed.
Lemma fins_comment L inner D j q (P : nat -> Prop) : P j -> fins L inner D (repeat 32%N (S j) ++ 35%N :: q) P.
Proof.
  intros HP. split.
  - exists [], (repeat 32%N (S j) ++ 35%N :: q). split; [reflexivity|]. split; [reflexivity|]. split; [reflexivity|].
    cbn [repeat app]. change (In 32%N (plain_patt inner)). apply is_in_spec. rewrite in_patt. cbn. now rewrite !orb_true_r.
  - intros n v lead s Hn H R Hd. 
    assert (G : exists v' s', plain_loop n L inner v lead s = (ROk v', s') /\ trim_end v' = trim_end v /\ moved L j s s').
    2:{ destruct G as (v' & s' & G1 & G2 & G3). exists v', j, s'. auto. }
    clear P HP. revert n v s Hn H R Hd. induction j as [|j IH]; intros n v s Hn H R Hd.
    + destruct (fins_ends L inner D (repeat 32%N 1 ++ 35%N :: q) (fun j => j = 0)) as [_ F]; [now left|reflexivity|].
      destruct (F n v lead s Hn H R Hd) as (v' & j & s' & E & T & -> & M). eauto.
    + destruct n as [|n]; [lia|]. cbn [repeat app] in R. rewrite (loop_space n L inner v lead s 32%N _ H R) by discriminate.
      set (s1 := set_pos _ (set_eaten _ s)). set (v1 := (if lead then trim_end v else v) ++ [32%N]).
      destruct (IH n v1 s1) as (v' & s' & E & T & M).
      * rewrite app_length, repeat_length in *. lia.
      * change (in_doc (set_pos (p_pos s + 1) s)). apply in_doc_add; [rewrite R; cbn; lia|exact H].
      * change (rem s1) with (rem (set_pos (p_pos s + 1) s)). rewrite rem_add, R. reflexivity.
      * exact Hd.
      * exists v', s'. split; [exact E|]. split; [rewrite T; unfold v1; rewrite trim_end_app by reflexivity; destruct lead; [apply trim_idem|reflexivity]|].
        change (S j) with (1 + j). apply moved_trans with s1; [|exact M]. exists (p_indent s), (p_pos s). split; [|now left]. reflexivity.
Qed.
