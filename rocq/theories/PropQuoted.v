(** * C12: quoted strings are read verbatim; an unterminated one never ends. *)
From Verif Require Export PropUtf8.
Open Scope nat_scope.

(** ** Scanning encoded text up to an ASCII byte *)
Lemma encode_multi c b : (128 <= c)%N -> In b (encode_char c) -> (128 <= b)%N.
Proof.
  intros Hc. unfold encode_char.
  destruct (N.ltb_spec c 128); [lia|]. destruct (N.ltb_spec c 2048); [|destruct (N.ltb_spec c 65536)];
    cbn [In]; intros H'; repeat destruct H' as [<-|H']; try hlia.
Qed.
Lemma encode_ascii c : (c < 128)%N -> encode_char c = [c].
Proof. intros H. unfold encode_char. now rewrite (proj2 (N.ltb_lt _ _) H). Qed.
Lemma encode_not_in l t : asciis l -> forallb (not_in l) t = true -> forallb (not_in l) (utf8_encode t) = true.
Proof.
  intros Hl. induction t as [|c t IH]; [reflexivity|]. cbn [forallb]. rewrite encode_cons, forallb_app.
  intros H. apply andb_true_iff in H as [H1 H2]. rewrite (IH H2), andb_true_r.
  destruct (N.lt_ge_cases c 128) as [L|L]; [rewrite encode_ascii by exact L; simpl; now rewrite H1|].
  apply forallb_forall. intros b Hb. apply multi_not_in; [now apply asciis_Forall|now apply encode_multi with c].
Qed.
Definition starts_in (l tl : bytes) : Prop := match tl with [] => True | b :: _ => In b l end.
Lemma span_text l t tl : asciis l -> forallb (not_in l) t = true -> starts_in l tl ->
  span (not_in l) (utf8_encode t ++ tl) = List.length (utf8_encode t).
Proof.
  intros Hl Ht Hs. apply span_app; [now apply encode_not_in|]. destruct tl as [|b tl]; [exact Logic.I|].
  destruct (not_in l b) eqn:E; [|reflexivity]. apply not_in_spec in E. contradiction.
Qed.
Lemma skipn_app_len {A} (a b : list A) : skipn (List.length a) (a ++ b) = b.
Proof. now rewrite skipn_app, skipn_all, Nat.sub_diag. Qed.
Lemma firstn_app_len {A} (a b : list A) : firstn (List.length a) (a ++ b) = a.
Proof. now rewrite firstn_app, Nat.sub_diag, firstn_O, app_nil_r, firstn_all. Qed.

(** After reading a piece of text the cursor is behind it. *)
Lemma rem_at s p k : rem (at_pos p s) = skipn p (p_doc s) -> rem (at_pos (p + k) s) = skipn k (skipn p (p_doc s)).
Proof. intros _. unfold rem. simpl. now rewrite skipn_add. Qed.
Lemma read_run l t tl s : in_doc s -> asciis l -> valid t -> forallb (not_in l) t = true -> starts_in l tl ->
  rem s = utf8_encode t ++ tl ->
  (forward ;;; take_while (not_in l) (More 0) ;;; x <- text ;; forward ;;; ret x) s
  = (ROk t, at_pos (p_pos s + List.length (utf8_encode t)) s)
  /\ rem (at_pos (p_pos s + List.length (utf8_encode t)) s) = tl
  /\ in_doc (at_pos (p_pos s + List.length (utf8_encode t)) s).
Proof.
  intros H Hl Hv Ht Hs Er. split; [|split].
  - unfold bind, forward at 1, modify at 1. set (s1 := set_eaten (p_pos s) s).
    assert (H1 : in_doc s1) by exact H. assert (R1 : rem s1 = utf8_encode t ++ tl) by exact Er.
    rewrite (more0_exec _ s1 H1), R1, (span_text l t tl Hl Ht Hs).
    set (k := List.length (utf8_encode t)).
    assert (H2 : in_doc (set_pos (p_pos s1 + k) s1)).
    { apply in_doc_add; [rewrite R1, app_length; unfold k; lia|exact H1]. }
    rewrite (text_exec _ H2). cbn [p_eaten p_pos p_doc set_pos]. rewrite slice_rem by reflexivity.
    rewrite R1. unfold k. rewrite firstn_app_len, (lossy_encode t Hv). reflexivity.
  - unfold rem, at_pos. cbn [p_pos p_doc set_pos set_eaten]. rewrite <- skipn_add.
    change (skipn (p_pos s) (p_doc s)) with (rem s). rewrite Er. apply skipn_app_len.
  - unfold in_doc, at_pos in *. cbn [p_pos p_doc set_pos set_eaten].
    pose proof (rem_length s) as RL. rewrite Er, app_length in RL. lia.
Qed.

(** ** The loop of [string_quoted] after a piece without special characters *)
Definition quoted_rest (n : nat) (q : N) (ig : bytes) (v : str) : M str :=
  b <- is_ok (sym_seq ig) ;;
  if (b : bool) then quoted_loop n q ig (v ++ [q])
  else
    g <- ok (gap false) ;;
    match g with
    | Some t =>
      let t := if ends_with [92%N] v then (t - 1)%nat else t in
      let v :=
        match t with
        | O => v
        | S O => let v := trim_end v in if ends_with (lit "\n") v then v else v ++ [32%N]
        | S t' => v ++ repeat 10%N t'
        end in
      ws (More 0) ;;; quoted_loop n q ig v
    | None =>
      b <- is_ok (sym 92) ;;
      if (b : bool) then quoted_loop n q ig (v ++ [92%N])
      else b <- is_ok (sym q) ;; if (b : bool) then ret v else quoted_loop n q ig v
    end.
Lemma quoted_step n q ig v s t tl : in_doc s -> (q < 128)%N -> valid t ->
  forallb (not_in [10; 13; 92; q]%N) t = true -> starts_in [10; 13; 92; q]%N tl -> rem s = utf8_encode t ++ tl ->
  let s1 := at_pos (p_pos s + List.length (utf8_encode t)) s in
  quoted_loop (S n) q ig v s = quoted_rest n q ig (v ++ t) s1 /\ rem s1 = tl /\ in_doc s1.
Proof.
  intros H Hq Hv Ht Hs Er s1.
  assert (Hl : asciis [10; 13; 92; q]%N) by (unfold asciis; simpl; now rewrite (proj2 (N.ltb_lt _ _) Hq)).
  destruct (read_run _ t tl s H Hl Hv Ht Hs Er) as (E & R1 & D1). split; [|now split].
  fold s1 in E, R1, D1. cbn [quoted_loop]. unfold quoted_rest. revert E. unfold bind, ret.
  destruct (forward s) as [[u|e| |] s2]; try discriminate.
  destruct (take_while _ _ s2) as [[u2|e| |] s3]; try discriminate.
  destruct (text s3) as [[x|e| |] s4]; try discriminate.
  destruct (forward s4) as [[u3|e| |] s5]; try discriminate. intros [= -> ->]. reflexivity.
Qed.

(** A gap without a comment needs a line break right here. *)
Lemma no_gap_false s x r : in_doc s -> rem s = x :: r -> x <> 10%N -> x <> 13%N ->
  ok (gap false) s = (ROk None, s).
Proof.
  intros H Er H1 H2. rewrite (ok_eq _ _ _ (gap_exec false s H)). unfold gap_f. cbv zeta. unfold gap_head.
  cbn [skipn]. rewrite Er, nl_len_alt. unfold nl_len'. cbn [starts_with].
  rewrite !(proj2 (N.eqb_neq _ x)) by congruence. rewrite !(proj2 (N.eqb_neq x _)) by congruence.
  cbn [andb orb Nat.eqb]. now rewrite Nat.add_0_r, set_pos_id.
Qed.
Lemma sym_no c s : in_doc s -> AT s -> (match rem s with x :: _ => x <> c | [] => True end) ->
  is_ok (sym c) s = (ROk false, s).
Proof.
  intros H A Hx. rewrite (is_ok_eq _ _ _ (sym_exec c s H)). destruct (rem s) as [|x r].
  - now rewrite A, set_pos_id.
  - rewrite (proj2 (N.eqb_neq x c) Hx). now rewrite A, set_pos_id.
Qed.
Lemma sym_yes c s r : in_doc s -> rem s = c :: r -> is_ok (sym c) s = (ROk true, set_pos (p_pos s + 1) s).
Proof. intros H Er. rewrite (is_ok_eq _ _ _ (sym_exec c s H)), Er. now rewrite N.eqb_refl. Qed.
Lemma seq_no l s : in_doc s -> AT s -> starts_with l (rem s) = false -> is_ok (sym_seq l) s = (ROk false, s).
Proof.
  intros H A Hx. rewrite (is_ok_eq _ _ _ (sym_seq_exec l s H)), Hx. now rewrite A, set_pos_id.
Qed.
Lemma seq_yes l s : in_doc s -> starts_with l (rem s) = true ->
  is_ok (sym_seq l) s = (ROk true, set_pos (p_pos s + List.length l) s).
Proof. intros H Hx. now rewrite (is_ok_eq _ _ _ (sym_seq_exec l s H)), Hx. Qed.
Lemma AT_at p s : AT (at_pos p s). Proof. reflexivity. Qed.
Lemma set_pos_at k p s : set_pos (p_pos (at_pos p s) + k) (at_pos p s) = set_pos (p + k) (set_eaten p s).
Proof. reflexivity. Qed.

(** ** What the loop makes of a line of text between double quotes *)

(** A backslash and a double quote give the quote; every other character stays (decoding is [escape]'s). *)
Fixpoint qs (e : str) : str :=
  match e with
  | 92%N :: ((34%N :: r) as _t) => 34%N :: qs r
  | c :: r => c :: qs r
  | [] => []
  end.
(** no raw line break or quote, and no backslash right before the closing quote *)
Fixpoint qok (e : str) : bool :=
  match e with
  | [] => true
  | c :: r =>
    if N.eqb c 92 then
      match r with
      | [] => false
      | x :: r' => if N.eqb x 34 then qok r' else qok r
      end
    else not_in [10; 13; 34]%N c && qok r
  end.
Lemma qs_cons c r : c <> 92%N -> qs (c :: r) = c :: qs r.
Proof.
  intros H. cbn [qs]. destruct c as [|p]; [reflexivity|].
  do 8 (try (destruct p as [p|p|]; try reflexivity)); try congruence.
Qed.
Lemma qs_esc r : qs (92%N :: 34%N :: r) = 34%N :: qs r.
Proof. reflexivity. Qed.
Lemma qs_back x r : x <> 34%N -> qs (92%N :: x :: r) = 92%N :: qs (x :: r).
Proof.
  intros H. remember (x :: r) as t. cbn [qs]. subst t. destruct x as [|p]; [reflexivity|].
  do 7 (try (destruct p as [p|p|]; try reflexivity)); try congruence.
Qed.
(** the longest piece without backslashes *)
Lemma qok_split e : qok e = true -> exists t e', e = t ++ e'
  /\ forallb (not_in [10; 13; 92; 34]%N) t = true /\ qs e = t ++ qs e'
  /\ (e' = [] \/ exists r, e' = 92%N :: r) /\ qok e' = true.
Proof.
  induction e as [|c e IH]; intros H; [exists [], []; repeat split; auto|].
  destruct (N.eq_dec c 92) as [->|Hc].
  - exists [], (92%N :: e). repeat split; eauto.
  - cbn [qok] in H. rewrite (proj2 (N.eqb_neq c 92) Hc) in H. apply andb_true_iff in H as [H1 H2].
    destruct (IH H2) as (t & e' & -> & Ht & Hq & He & Ho). exists (c :: t), e'.
    split; [reflexivity|]. split; [|split; [rewrite qs_cons by exact Hc; now rewrite Hq|auto]].
    cbn [forallb]. rewrite Ht, andb_true_r. apply not_in_spec. apply not_in_spec in H1. simpl in *. intros K; intuition congruence.
Qed.
Lemma encode_len_cons c t : (c < 128)%N -> List.length (utf8_encode (c :: t)) = S (List.length (utf8_encode t)).
Proof. intros H. rewrite encode_cons, encode_ascii by exact H. reflexivity. Qed.
Lemma encode_cons_ascii c t : (c < 128)%N -> utf8_encode (c :: t) = c :: utf8_encode t.
Proof. intros H. rewrite encode_cons, encode_ascii by exact H. reflexivity. Qed.
(** the first byte of a character other than an ASCII one is different *)
Lemma encode_first c x t : (c < 128)%N -> x <> c ->
  exists b r, utf8_encode (x :: t) = b :: r /\ b <> c.
Proof.
  intros Hc Hx. rewrite encode_cons. destruct (N.lt_ge_cases x 128) as [L|L].
  - rewrite encode_ascii by exact L. eexists _, _. split; [reflexivity|exact Hx].
  - destruct (encode_char x) as [|b r] eqn:E.
    + destruct (encode_head x []) as (b & r & K & _). rewrite E in K. discriminate.
    + eexists _, _. split; [reflexivity|].
      assert (128 <= b)%N by (apply (encode_multi x); [exact L|rewrite E; now left]). lia.
Qed.

Lemma quoted_run : forall m e n v s rest, List.length e <= m -> m < n -> in_doc s -> valid e -> qok e = true ->
  rem s = utf8_encode e ++ 34%N :: rest ->
  exists E, quoted_loop n 34 [92; 34]%N v s
    = (ROk (v ++ qs e), set_pos (p_pos s + List.length (utf8_encode e) + 1) (set_eaten E s)).
Proof.
  induction m as [m IH] using lt_wf_ind. intros e n v s rest Hm Hn H Hv Ho Er.
  destruct n as [|n]; [lia|].
  destruct (qok_split e Ho) as (t & e' & -> & Ht & Hq & He & Ho').
  apply valid_app in Hv as [Hvt Hve]. rewrite encode_app, <- app_assoc in Er.
  assert (Hst : starts_in [10; 13; 92; 34]%N (utf8_encode e' ++ 34%N :: rest)).
  { destruct He as [-> |(r & ->)]; simpl; auto. }
  destruct (quoted_step n 34%N [92; 34]%N v s t _ H ltac:(lia) Hvt Ht Hst Er) as (E1 & R1 & D1).
  rewrite E1, Hq, encode_app, app_length. clear E1 Hst Er. rewrite app_assoc.
  set (p := p_pos s + List.length (utf8_encode t)) in *.
  replace (p_pos s + (List.length (utf8_encode t) + List.length (utf8_encode e')) + 1)
    with (p + List.length (utf8_encode e') + 1) by (unfold p; lia).
  rewrite app_length in Hm. pose proof (AT_at p s) as A1.
  destruct He as [-> |(r & ->)].
  - (* the closing quote *)
    simpl in R1. exists p. unfold quoted_rest. unfold bind at 1.
    rewrite (seq_no _ _ D1 A1) by (rewrite R1; reflexivity).
    unfold bind at 1. rewrite (no_gap_false _ _ _ D1 R1) by discriminate.
    unfold bind at 1. rewrite (sym_no 92 _ D1 A1) by (rewrite R1; discriminate).
    unfold bind. rewrite (sym_yes 34 _ rest D1 R1). rewrite app_nil_r. cbn [utf8_encode flat_map List.length].
    unfold ret. f_equal. unfold set_pos, set_eaten, at_pos; cbn. f_equal; lia.
  - cbn [qok] in Ho'. change (N.eqb 92 92) with true in Ho'. cbn iota in Ho'.
    destruct r as [|x r]; [discriminate|].
    rewrite encode_cons_ascii in R1 by lia. apply valid_cons in Hve as [_ Hve].
    pose proof (proj1 (valid_cons _ _) Hve) as [Hvx Hvr].
    destruct (N.eqb_spec x 34) as [->|Hx].
    + (* an escaped quote *)
      rewrite encode_cons_ascii in R1 by lia. cbn [app] in R1.
      unfold quoted_rest. unfold bind at 1.
      rewrite (seq_yes _ _ D1) by (rewrite R1; reflexivity). cbn iota.
      set (s2 := set_pos _ _).
      assert (R2 : rem s2 = utf8_encode r ++ 34%N :: rest).
      { unfold s2. rewrite rem_add, R1. reflexivity. }
      assert (D2 : in_doc s2). { unfold s2. apply in_doc_add; [rewrite R1; simpl; lia|exact D1]. }
      destruct (IH (List.length r) ltac:(simpl in Hm; lia) r n ((v ++ t) ++ [34%N]) s2 rest (le_n _) ltac:(simpl in Hm; lia) D2 Hvr Ho' R2)
        as (E & EE).
      exists E. rewrite EE. rewrite qs_esc, <- app_assoc. rewrite !encode_len_cons by lia.
      f_equal. unfold s2, set_pos, set_eaten, at_pos; cbn. f_equal. lia.
    + (* a backslash before another character *)
      destruct (encode_first 34 x r ltac:(lia) Hx) as (b & tl & Eb & Hb).
      unfold quoted_rest. unfold bind at 1.
      rewrite (seq_no _ _ D1 A1) by (rewrite R1, Eb; cbn [app starts_with]; rewrite N.eqb_refl, (proj2 (N.eqb_neq 34 b)) by congruence; reflexivity).
      unfold bind at 1. rewrite (no_gap_false _ _ _ D1 R1) by discriminate.
      unfold bind at 1. rewrite (sym_yes 92 _ _ D1 R1). cbn iota.
      set (s2 := set_pos _ _).
      assert (R2 : rem s2 = utf8_encode (x :: r) ++ 34%N :: rest).
      { unfold s2. rewrite rem_add, R1. reflexivity. }
      assert (D2 : in_doc s2). { unfold s2. apply in_doc_add; [rewrite R1; simpl; lia|exact D1]. }
      destruct (IH (List.length (x :: r)) ltac:(simpl in *; lia) (x :: r) n ((v ++ t) ++ [92%N]) s2 rest (le_n _) ltac:(simpl in *; lia) D2 Hve Ho' R2)
        as (E & EE).
      exists E. rewrite EE. rewrite qs_back by exact Hx. rewrite <- app_assoc. rewrite (encode_len_cons 92) by lia.
      f_equal. unfold s2, set_pos, set_eaten, at_pos; cbn -[utf8_encode]. f_equal. lia.
Qed.

(** ** Between single quotes: only the quote itself is doubled *)
Definition dq (b : str) : str := flat_map (fun c => if N.eqb c 39 then [39; 39]%N else [c]) b.
Lemma dq_plain b : forallb (not_in [39%N]) b = true -> dq b = b.
Proof.
  induction b as [|c b IH]; [reflexivity|]. cbn [forallb dq flat_map]. intros H. apply andb_true_iff in H as [H1 H2].
  fold (dq b). rewrite (IH H2). destruct (N.eqb_spec c 39) as [->|]; [discriminate|reflexivity].
Qed.
Lemma dq_app a b : dq (a ++ b) = dq a ++ dq b.
Proof. apply flat_map_app. Qed.
Lemma sq_split b : forallb (not_in [10; 13]%N) b = true -> exists t b', b = t ++ b'
  /\ forallb (not_in [10; 13; 92; 39]%N) t = true
  /\ (b' = [] \/ (exists r, b' = 92%N :: r) \/ exists r, b' = 39%N :: r).
Proof.
  induction b as [|c b IH]; intros H; [exists [], []; auto|].
  cbn [forallb] in H. apply andb_true_iff in H as [H1 H2].
  destruct (N.eq_dec c 92) as [->|Hc]; [exists [], (92%N :: b); repeat split; eauto|].
  destruct (N.eq_dec c 39) as [->|Hd]; [exists [], (39%N :: b); repeat split; eauto|].
  destruct (IH H2) as (t & b' & -> & Ht & Hb). exists (c :: t), b'. split; [reflexivity|]. split; [|exact Hb].
  cbn [forallb]. rewrite Ht, andb_true_r. apply not_in_spec. apply not_in_spec in H1. simpl in *.
  intros K; intuition congruence.
Qed.
Lemma single_run : forall m b n v s rest, List.length b <= m -> m < n -> in_doc s -> valid b ->
  forallb (not_in [10; 13]%N) b = true -> ~ (exists r, rest = 39%N :: r) ->
  rem s = utf8_encode (dq b) ++ 39%N :: rest ->
  exists E, quoted_loop n 39 (lit "''") v s
    = (ROk (v ++ b), set_pos (p_pos s + List.length (utf8_encode (dq b)) + 1) (set_eaten E s)).
Proof.
  induction m as [m IH] using lt_wf_ind. intros b n v s rest Hm Hn H Hv Ho Hr Er.
  destruct n as [|n]; [lia|].
  destruct (sq_split b Ho) as (t & b' & -> & Ht & He).
  apply valid_app in Hv as [Hvt Hve]. rewrite forallb_app in Ho. apply andb_true_iff in Ho as [_ Ho'].
  assert (Dt : dq t = t).
  { apply dq_plain. eapply forallb_impl; [|exact Ht]. intros x. rewrite !not_in_spec. simpl. tauto. }
  rewrite dq_app, Dt in *. rewrite encode_app, <- app_assoc in Er.
  assert (Hst : starts_in [10; 13; 92; 39]%N (utf8_encode (dq b') ++ 39%N :: rest)).
  { destruct He as [-> |[(r & ->)|(r & ->)]]; simpl; auto. }
  destruct (quoted_step n 39%N (lit "''") v s t _ H ltac:(lia) Hvt Ht Hst Er) as (E1 & R1 & D1).
  rewrite E1, encode_app, app_length. clear E1 Hst Er. rewrite app_assoc.
  set (p := p_pos s + List.length (utf8_encode t)) in *.
  replace (p_pos s + (List.length (utf8_encode t) + List.length (utf8_encode (dq b'))) + 1)
    with (p + List.length (utf8_encode (dq b')) + 1) by (unfold p; lia).
  rewrite app_length in Hm. pose proof (AT_at p s) as A1.
  destruct He as [-> |[(r & ->)|(r & ->)]].
  - (* the closing quote *)
    simpl in R1. exists p. unfold quoted_rest. unfold bind at 1.
    assert (K : starts_with (lit "''") (39%N :: rest) = false).
    { change (lit "''") with [39; 39]%N. cbn [starts_with]. rewrite N.eqb_refl. cbn [andb].
      destruct rest as [|x rest]; [reflexivity|]. rewrite andb_true_r. apply N.eqb_neq. intros <-. apply Hr. eauto. }
    rewrite (seq_no _ _ D1 A1) by (rewrite R1; exact K).
    unfold bind at 1. rewrite (no_gap_false _ _ _ D1 R1) by discriminate.
    unfold bind at 1. rewrite (sym_no 92 _ D1 A1) by (rewrite R1; discriminate).
    unfold bind. rewrite (sym_yes 39 _ rest D1 R1). rewrite app_nil_r. cbn [dq utf8_encode flat_map List.length].
    unfold ret. f_equal. unfold set_pos, set_eaten, at_pos; cbn. f_equal; lia.
  - (* a backslash stays *)
    change (dq (92%N :: r)) with (92%N :: dq r) in *. rewrite encode_cons_ascii in R1 by lia.
    apply valid_cons in Hve as [_ Hve]. cbn [forallb] in Ho'. apply andb_true_iff in Ho' as [_ Ho'].
    unfold quoted_rest. unfold bind at 1.
    rewrite (seq_no _ _ D1 A1) by (rewrite R1; reflexivity).
    unfold bind at 1. rewrite (no_gap_false _ _ _ D1 R1) by discriminate.
    unfold bind at 1. rewrite (sym_yes 92 _ _ D1 R1). cbn iota.
    set (s2 := set_pos _ _).
    assert (R2 : rem s2 = utf8_encode (dq r) ++ 39%N :: rest).
    { unfold s2. rewrite rem_add, R1. reflexivity. }
    assert (D2 : in_doc s2). { unfold s2. apply in_doc_add; [rewrite R1; simpl; lia|exact D1]. }
    destruct (IH (List.length r) ltac:(simpl in *; lia) r n ((v ++ t) ++ [92%N]) s2 rest (le_n _) ltac:(simpl in *; lia) D2 Hve Ho' Hr R2)
      as (E & EE).
    exists E. rewrite EE. rewrite <- app_assoc. rewrite (encode_len_cons 92) by lia.
    f_equal. unfold s2, set_pos, set_eaten, at_pos; cbn -[utf8_encode]. f_equal. lia.
  - (* a doubled quote *)
    change (dq (39%N :: r)) with (39%N :: 39%N :: dq r) in *. rewrite !encode_cons_ascii in R1 by lia.
    apply valid_cons in Hve as [_ Hve]. cbn [forallb] in Ho'. apply andb_true_iff in Ho' as [_ Ho'].
    unfold quoted_rest. unfold bind at 1.
    rewrite (seq_yes _ _ D1) by (rewrite R1; reflexivity). cbn iota.
    set (s2 := set_pos _ _).
    assert (R2 : rem s2 = utf8_encode (dq r) ++ 39%N :: rest).
    { unfold s2. rewrite rem_add, R1. reflexivity. }
    assert (D2 : in_doc s2). { unfold s2. apply in_doc_add; [rewrite R1; simpl; lia|exact D1]. }
    destruct (IH (List.length r) ltac:(simpl in *; lia) r n ((v ++ t) ++ [39%N]) s2 rest (le_n _) ltac:(simpl in *; lia) D2 Hve Ho' Hr R2)
      as (E & EE).
    exists E. rewrite EE. rewrite <- app_assoc. rewrite !(encode_len_cons 39) by lia.
    f_equal. unfold s2, set_pos, set_eaten, at_pos; cbn -[utf8_encode]. f_equal. lia.
Qed.

(** ** [string_quoted] *)

(** [string_quoted] with the bound of its loop made explicit *)
Definition string_quoted_fuel (n : nat) (q : N) (ignore : bytes) : M str :=
  context (sym q ;;; forward ;;; ws (More 0) ;;; v <- text ;; quoted_loop n q ignore v).

Lemma is_ws_ascii c : is_ws c = true -> (c < 128)%N.
Proof. unfold is_ws, is_ascii_ws. intros H. repeat (apply andb_true_iff in H as [H ?]). repeat (apply orb_true_iff in H as [H|H]); apply N.eqb_eq in H; lia. Qed.
Lemma ws_split e : exists w e', e = w ++ e' /\ forallb is_ws w = true
  /\ match e' with [] => True | c :: _ => is_ws c = false end.
Proof.
  induction e as [|c e IH]; [exists [], []; auto|].
  destruct (is_ws c) eqn:E; [|exists [], (c :: e); auto].
  destruct IH as (w & e' & -> & Hw & He). exists (c :: w), e'. cbn. now rewrite E, Hw.
Qed.
Lemma encode_asciis w : forallb (fun c => N.ltb c 128) w = true -> utf8_encode w = w.
Proof.
  induction w as [|c w IH]; [reflexivity|]. cbn [forallb]. intros H. apply andb_true_iff in H as [H1 H2].
  rewrite encode_cons_ascii by (now apply N.ltb_lt). now rewrite IH.
Qed.
Lemma encode_ws w : forallb is_ws w = true -> utf8_encode w = w.
Proof. intros H. apply encode_asciis. eapply forallb_impl; [|exact H]. intros x Hx. apply N.ltb_lt, is_ws_ascii, Hx. Qed.
Lemma encode_ws_stop q e' rest : is_ws q = false -> (match e' with [] => True | c :: _ => is_ws c = false end) ->
  match utf8_encode e' ++ q :: rest with [] => True | c :: _ => is_ws c = false end.
Proof.
  intros Hq He. destruct e' as [|c e']; [exact Hq|]. rewrite encode_cons.
  destruct (N.lt_ge_cases c 128) as [L|L]; [rewrite encode_ascii by exact L; exact He|].
  destruct (encode_char c) as [|b r] eqn:E; [destruct (encode_head c []) as (b & r & K & _); rewrite E in K; discriminate|].
  simpl. assert (128 <= b)%N by (apply (encode_multi c); [exact L|rewrite E; now left]).
  destruct (is_ws b) eqn:Eb; [|reflexivity]. apply is_ws_ascii in Eb. lia.
Qed.
(** after the opening quote and the blanks behind it *)
Lemma quoted_open n q ig s w e' rest : in_doc s -> (q < 128)%N -> is_ws q = false -> forallb is_ws w = true ->
  (match e' with [] => True | c :: _ => is_ws c = false end) ->
  rem s = q :: utf8_encode (w ++ e') ++ q :: rest ->
  exists s2, rem s2 = utf8_encode e' ++ q :: rest /\ in_doc s2
    /\ s2 = set_pos (p_pos s + 1 + List.length w) (set_eaten (p_pos s + 1) s)
    /\ string_quoted_fuel n q ig s
       = let '(r, s') := quoted_loop n q ig w s2 in (r, set_eaten (p_eaten s) s').
Proof.
  intros H Hq Hq' Hw He Er. rewrite encode_app, (encode_ws w Hw), <- app_assoc in Er.
  set (s2 := set_pos (p_pos s + 1 + List.length w) (set_eaten (p_pos s + 1) s)).
  pose proof (rem_length s) as RL. rewrite Er in RL. simpl in RL. rewrite !app_length in RL. simpl in RL.
  exists s2. split; [|split; [|split; [reflexivity|]]].
  - unfold rem, s2. cbn [p_pos p_doc set_pos set_eaten]. rewrite <- skipn_add.
    replace (skipn (p_pos s + 1) (p_doc s)) with (skipn 1 (rem s)) by (unfold rem; apply skipn_add).
    rewrite Er. cbn [skipn]. apply skipn_app_len.
  - unfold in_doc in *. unfold s2. cbn. lia.
  - unfold string_quoted_fuel, context. set (s0 := set_eaten (p_pos s) s).
    assert (H0 : in_doc s0) by exact H. assert (R0 : rem s0 = q :: w ++ utf8_encode e' ++ q :: rest) by exact Er.
    unfold bind. rewrite (sym_exec q s0 H0), R0, N.eqb_refl. unfold forward at 1, modify.
    set (s1 := set_eaten _ _).
    assert (H1 : in_doc s1). { unfold in_doc in *. unfold s1, s0. cbn. lia. }
    assert (R1 : rem s1 = w ++ utf8_encode e' ++ q :: rest).
    { change (rem s1) with (rem (set_pos (p_pos s0 + 1) s0)). rewrite rem_add, R0. reflexivity. }
    rewrite (ws0_exec s1 H1), R1. unfold ws_len.
    rewrite (span_app is_ws w _ Hw) by (now apply encode_ws_stop).
    assert (H1' : in_doc (set_pos (p_pos s1 + List.length w) s1)). { unfold in_doc in *. unfold s1, s0. cbn. lia. }
    rewrite (text_exec _ H1'). cbn [p_eaten p_pos p_doc set_pos]. rewrite slice_rem by reflexivity.
    rewrite R1, firstn_app_len, utf8_lossy_ascii.
    2:{ eapply forallb_impl; [|exact Hw]. intros x Hx. apply N.ltb_lt, is_ws_ascii, Hx. }
    replace (set_pos (p_pos s1 + List.length w) s1) with s2; [reflexivity|].
    unfold s2, s1, s0, set_pos, set_eaten. cbn. f_equal; lia.
Qed.
Lemma qs_ws w e : forallb is_ws w = true -> qs (w ++ e) = w ++ qs e /\ (qok (w ++ e) = true -> qok e = true).
Proof.
  induction w as [|c w IH]; [auto|]. cbn [forallb app]. intros H. apply andb_true_iff in H as [H1 H2].
  assert (c <> 92%N) by (intros ->; discriminate). rewrite qs_cons by assumption.
  destruct (IH H2) as [-> IH2]. split; [reflexivity|]. cbn [qok]. rewrite (proj2 (N.eqb_neq _ _)) by assumption.
  intros K. apply andb_true_iff in K as [_ K]. auto.
Qed.
Lemma dq_ws w e : forallb is_ws w = true -> dq (w ++ e) = w ++ dq e.
Proof.
  intros H. rewrite dq_app. f_equal. apply dq_plain. eapply forallb_impl; [|exact H]. intros x Hx.
  apply not_in_spec. intros [<-|[]]. discriminate.
Qed.
Lemma double_fuel n s e rest : in_doc s -> List.length e < n -> valid e -> qok e = true ->
  rem s = 34%N :: utf8_encode e ++ 34%N :: rest ->
  string_quoted_fuel n 34 [92; 34]%N s = (ROk (qs e), set_pos (p_pos s + List.length (utf8_encode e) + 2) s).
Proof.
  intros H Hn Hv Ho Er. destruct (ws_split e) as (w & e' & -> & Hw & He).
  destruct (quoted_open n 34%N [92; 34]%N s w e' rest H ltac:(lia) ltac:(reflexivity) Hw He Er) as (s2 & R2 & D2 & E2 & ->).
  apply valid_app in Hv as [_ Hv]. rewrite app_length in Hn. destruct (qs_ws w e' Hw) as [Q1 Q2].
  destruct (quoted_run (List.length e') e' n w s2 rest (le_n _) ltac:(lia) D2 Hv (Q2 Ho) R2) as (E & ->).
  rewrite Q1, encode_app, app_length, (encode_ws w Hw). f_equal.
  subst s2. unfold set_pos, set_eaten. destruct s; cbn. f_equal. lia.
Qed.
Lemma dq_length b : List.length b <= List.length (dq b).
Proof.
  induction b as [|c b IH]; [auto|]. cbn [dq flat_map]. fold (dq b). rewrite app_length.
  destruct (N.eqb c 39); simpl; lia.
Qed.
Lemma dq_valid b : valid b -> valid (dq b).
Proof.
  induction b as [|c b IH]; [auto|]. intros H. apply valid_cons in H as [H1 H2]. cbn [dq flat_map]. fold (dq b).
  apply valid_app. split; [|auto]. destruct (N.eqb c 39); repeat (apply valid_cons; split; try reflexivity); try exact H1; reflexivity.
Qed.
Lemma single_fuel n s b rest : in_doc s -> List.length b < n -> valid b ->
  forallb (not_in [10; 13]%N) b = true -> ~ (exists r, rest = 39%N :: r) ->
  rem s = 39%N :: utf8_encode (dq b) ++ 39%N :: rest ->
  string_quoted_fuel n 39 (lit "''") s = (ROk b, set_pos (p_pos s + List.length (utf8_encode (dq b)) + 2) s).
Proof.
  intros H Hn Hv Ho Hr Er. destruct (ws_split b) as (w & e' & -> & Hw & He). rewrite (dq_ws w e' Hw) in *.
  assert (He' : match dq e' with [] => True | c :: _ => is_ws c = false end).
  { destruct e' as [|c e']; [exact Logic.I|]. cbn. destruct (N.eqb_spec c 39) as [->|]; [reflexivity|exact He]. }
  destruct (quoted_open n 39%N (lit "''") s w (dq e') rest H ltac:(lia) ltac:(reflexivity) Hw He' Er) as (s2 & R2 & D2 & E2 & ->).
  apply valid_app in Hv as [_ Hv]. rewrite app_length in Hn. rewrite forallb_app in Ho. apply andb_true_iff in Ho as [_ Ho].
  destruct (single_run (List.length e') e' n w s2 rest (le_n _) ltac:(lia) D2 Hv Ho Hr R2) as (E & ->).
  rewrite encode_app, app_length, (encode_ws w Hw). f_equal.
  subst s2. unfold set_pos, set_eaten. destruct s; cbn. f_equal. lia.
Qed.
Lemma encode_length e : List.length e <= List.length (utf8_encode e).
Proof.
  induction e as [|c e IH]; [auto|]. rewrite encode_cons, app_length. simpl.
  destruct (encode_char c) as [|b r] eqn:E; [destruct (encode_head c []) as (b & r & K & _); rewrite E in K; discriminate|].
  simpl. lia.
Qed.
Lemma string_quoted_is q ig s : in_doc s ->
  string_quoted q ig s = string_quoted_fuel (loop_fuel s) q ig s.
Proof.
  intros H. unfold string_quoted, string_quoted_fuel, context. set (s0 := set_eaten (p_pos s) s).
  assert (H0 : in_doc s0) by exact H. unfold bind. rewrite (sym_exec q s0 H0).
  destruct (rem s0) as [|x r] eqn:R0; [reflexivity|]. destruct (N.eqb_spec x q) as [->|]; [|reflexivity].
  unfold forward, modify. set (s1 := set_eaten _ _).
  assert (H1 : in_doc s1).
  { unfold in_doc in *. unfold s1. cbn. pose proof (rem_length s0) as RL. rewrite R0 in RL. cbn in *. lia. }
  rewrite (ws0_exec s1 H1).
  assert (H1' : in_doc (set_pos (p_pos s1 + ws_len (rem s1)) s1)) by (apply in_doc_add; [apply span_le|exact H1]).
  rewrite (text_exec _ H1'). unfold gets. reflexivity.
Qed.

(** ** JSON-style strings *)
Definition json_str (b : str) : str := flat_map json_char b.
Lemma json_head b r : json_str b <> 34%N :: r.
Proof.
  destruct b as [|c b]; [discriminate|]. cbn [json_str flat_map]. unfold json_char.
  repeat match goal with |- context [if (c =? ?x)%N then _ else _] => destruct (N.eqb_spec c x) as [|] end;
    intros [= E]; congruence.
Qed.
Lemma qs_back' r : (forall r', r <> 34%N :: r') -> qs (92%N :: r) = 92%N :: qs r.
Proof. intros H. destruct r as [|x r]; [reflexivity|]. apply qs_back. intros ->. now apply (H r). Qed.
Lemma json_escape b : escape (qs (json_str b)) = b.
Proof.
  unfold escape. induction b as [|c b IH]; [reflexivity|].
  cbn [json_str flat_map]. fold (json_str b). unfold json_char.
  pose proof (json_head b) as Hh.
  destruct (N.eqb_spec c 92) as [->|N1].
  { cbn [app]. rewrite qs_back by discriminate. rewrite qs_back' by apply Hh. cbn. now rewrite IH. }
  destruct (N.eqb_spec c 34) as [->|N2]; [cbn; now rewrite IH|].
  destruct (N.eqb_spec c 10) as [->|N3]; [cbn; now rewrite IH|].
  destruct (N.eqb_spec c 13) as [->|N4]; [cbn; now rewrite IH|].
  destruct (N.eqb_spec c 9) as [->|N5]; [cbn; now rewrite IH|].
  destruct (N.eqb_spec c 8) as [->|N6]; [cbn; now rewrite IH|].
  destruct (N.eqb_spec c 12) as [->|N7]; [cbn; now rewrite IH|].
  cbn [app]. rewrite qs_cons by exact N1. cbn [app escape_loop]. rewrite (proj2 (N.eqb_neq c 92) N1). cbn [andb negb].
  rewrite !andb_false_r. now rewrite IH.
Qed.
Lemma qok_back r : (forall r', r <> 34%N :: r') -> r <> [] -> qok (92%N :: r) = qok r.
Proof.
  intros H H'. destruct r as [|x r]; [congruence|]. cbn [qok]. rewrite N.eqb_refl.
  destruct (N.eqb_spec x 34) as [->|]; [now destruct (H r)|reflexivity].
Qed.
Lemma qok_cons c r : c <> 92%N -> c <> 34%N -> c <> 10%N -> c <> 13%N -> qok (c :: r) = qok r.
Proof.
  intros. cbn [qok]. rewrite (proj2 (N.eqb_neq c 92)) by assumption.
  replace (not_in _ c) with true; [reflexivity|]. symmetry. apply not_in_spec. simpl. intuition congruence.
Qed.
Lemma json_nil b : json_str b = [] -> b = [].
Proof.
  destruct b as [|c b]; [auto|]. cbn [json_str flat_map]. unfold json_char.
  repeat match goal with |- context [if (c =? ?x)%N then _ else _] => destruct (N.eqb_spec c x) as [|] end; discriminate.
Qed.
Lemma json_qok b : last b 0%N <> 92%N -> qok (json_str b) = true.
Proof.
  induction b as [|c b IH]; [reflexivity|]. intros Hl.
  assert (Hb : last b 0%N <> 92%N) by (destruct b; [discriminate|exact Hl]). specialize (IH Hb).
  cbn [json_str flat_map]. fold (json_str b). unfold json_char.
  pose proof (json_head b) as Hh.
  destruct (N.eqb_spec c 92) as [->|N1].
  { cbn [app]. rewrite qok_back by discriminate. rewrite qok_back; [exact IH|exact Hh|].
    intros K. apply json_nil in K. subst b. now apply Hl. }
  destruct (N.eqb_spec c 34) as [->|N2]; [exact IH|].
  destruct (N.eqb_spec c 10) as [->|N3]; [cbn [app]; rewrite qok_back by discriminate; exact IH|].
  destruct (N.eqb_spec c 13) as [->|N4]; [cbn [app]; rewrite qok_back by discriminate; exact IH|].
  destruct (N.eqb_spec c 9) as [->|N5]; [cbn [app]; rewrite qok_back by discriminate; exact IH|].
  destruct (N.eqb_spec c 8) as [->|N6]; [cbn [app]; rewrite qok_back by discriminate; exact IH|].
  destruct (N.eqb_spec c 12) as [->|N7]; [cbn [app]; rewrite qok_back by discriminate; exact IH|].
  cbn [app]. now rewrite qok_cons.
Qed.
Lemma json_valid b : valid b -> valid (json_str b).
Proof.
  induction b as [|c b IH]; [auto|]. intros H. apply valid_cons in H as [H1 H2]. cbn [json_str flat_map]. fold (json_str b).
  apply valid_app. split; [|auto]. unfold json_char.
  repeat match goal with |- context [if (c =? ?x)%N then _ else _] => destruct (N.eqb_spec c x) as [|] end;
    repeat (apply valid_cons; split; try reflexivity); try exact H1; reflexivity.
Qed.

(** ** C12 *)

(** Double quotes: a body without line breaks, backslashes and double quotes is
    returned as it is, and the cursor ends right behind the closing quote. *)
Theorem C12_double_verbatim : forall (s : st) (body : str) (rest : bytes),
  p_pos s <= List.length (p_doc s) ->
  valid body ->
  (forall c, In c body -> c <> 10%N /\ c <> 13%N /\ c <> 92%N /\ c <> 34%N) ->
  skipn (p_pos s) (p_doc s) = 34%N :: utf8_encode body ++ 34%N :: rest ->
  string_quoted 34 [92; 34]%N s
  = (ROk body, set_pos (p_pos s + List.length (utf8_encode body) + 2) s).
Proof.
  intros s body rest H Hv Hb Er. rewrite string_quoted_is by exact H.
  assert (Q : qok body = true /\ qs body = body).
  { clear - Hb. induction body as [|c b IH]; [auto|].
    destruct (Hb c (or_introl eq_refl)) as (H1 & H2 & H3 & H4).
    destruct IH as [I1 I2]; [intros x Hx; apply Hb; now right|].
    rewrite qok_cons, qs_cons by assumption. now rewrite I2. }
  destruct Q as [Q1 Q2]. rewrite (double_fuel _ s body rest H); try assumption; [now rewrite Q2|].
  unfold loop_fuel. pose proof (rem_length s) as RL. unfold rem in RL. rewrite Er in RL. simpl in RL.
  rewrite app_length in RL. pose proof (encode_length body). lia.
Qed.
(** Every string, except one that ends in a backslash, is read back from its
    JSON-style literal (after [escape], which the loader applies). *)
Theorem C12_double_escaped : forall (s : st) (b : str) (rest : bytes),
  p_pos s <= List.length (p_doc s) ->
  valid b -> last b 0%N <> 92%N ->
  skipn (p_pos s) (p_doc s) = 34%N :: utf8_encode (flat_map json_char b) ++ 34%N :: rest ->
  exists v, string_quoted 34 [92; 34]%N s
            = (ROk v, set_pos (p_pos s + List.length (utf8_encode (flat_map json_char b)) + 2) s)
            /\ escape v = b.
Proof.
  intros s b rest H Hv Hl Er. rewrite string_quoted_is by exact H. fold (json_str b) in *.
  exists (qs (json_str b)). split; [|apply json_escape].
  apply (double_fuel _ s _ rest H); try assumption; [|now apply json_valid|now apply json_qok].
  unfold loop_fuel. pose proof (rem_length s) as RL. unfold rem in RL. rewrite Er in RL. simpl in RL.
  rewrite app_length in RL. pose proof (encode_length (json_str b)). lia.
Qed.
(** Single quotes: any body without line breaks, each single quote doubled. *)
Theorem C12_single_verbatim : forall (s : st) (body : str) (rest : bytes),
  p_pos s <= List.length (p_doc s) ->
  valid body ->
  (forall c, In c body -> c <> 10%N /\ c <> 13%N) ->
  ~ (exists r, rest = 39%N :: r) ->
  let inner := flat_map (fun c => if N.eqb c 39 then [39; 39]%N else [c]) body in
  skipn (p_pos s) (p_doc s) = 39%N :: utf8_encode inner ++ 39%N :: rest ->
  string_quoted 39 (lit "''") s
  = (ROk body, set_pos (p_pos s + List.length (utf8_encode inner) + 2) s).
Proof.
  intros s body rest H Hv Hb Hr inner Er. rewrite string_quoted_is by exact H.
  apply (single_fuel _ s body rest H); try assumption.
  - unfold loop_fuel. pose proof (rem_length s) as RL. unfold rem in RL. rewrite Er in RL. simpl in RL.
    rewrite app_length in RL. pose proof (encode_length inner). pose proof (dq_length body). unfold inner, dq in *. lia.
  - apply forallb_forall. intros c Hc. destruct (Hb c Hc). apply not_in_spec. simpl. intuition congruence.
Qed.

(** ** An unterminated quote: the loop goes on for ever *)
Definition NQ (q : N) (s : st) : Prop :=
  in_doc s /\ p_eaten s <= p_pos s /\ ~ In q (skipn (p_eaten s) (p_doc s)).
Lemma not_in_skipn {A} (x : A) a b l : a <= b -> ~ In x (skipn a l) -> ~ In x (skipn b l).
Proof.
  intros H K J. apply K. replace b with (a + (b - a)) in J by lia. rewrite <- skipn_add in J.
  clear - J. revert J. generalize (skipn a l). induction (b - a) as [|n IH]; intros l' J; [exact J|].
  destruct l' as [|y l']; [exact J|]. right. now apply IH.
Qed.
Lemma NQ_rem q s : NQ q s -> ~ In q (rem s).
Proof. intros (_ & H & K). exact (not_in_skipn _ _ _ _ H K). Qed.
Lemma NQ_forward q s : NQ q s -> NQ q (set_eaten (p_pos s) s).
Proof. intros H. pose proof (NQ_rem q s H). destruct H as (H1 & H2 & H3). unfold NQ. cbn. auto. Qed.
Lemma NQ_add q s k : NQ q s -> k <= List.length (rem s) -> NQ q (set_pos (p_pos s + k) s).
Proof. intros (H1 & H2 & H3) Hk. split; [now apply in_doc_add|]. cbn. split; [lia|exact H3]. Qed.
Lemma NQ_back q s : NQ q s -> NQ q (set_pos (p_eaten s) s).
Proof. intros (H1 & H2 & H3). unfold NQ, in_doc in *. cbn. repeat split; [lia|lia|exact H3]. Qed.
Lemma starts_in_l q p l : In q p -> starts_with p l = true -> In q l.
Proof. intros H K. apply starts_with_app in K as (r & ->). apply in_or_app. now left. Qed.
Lemma unterminated_loop q ig : In q ig -> forall n v s, NQ q s -> fst (quoted_loop n q ig v s) = RDiv.
Proof.
  intros Hq. induction n as [|n IH]; intros v s H; [reflexivity|]. cbn [quoted_loop].
  unfold bind at 1, forward at 1, modify at 1. apply NQ_forward in H. set (s1 := set_eaten _ s) in *.
  unfold bind at 1. rewrite (more0_exec _ s1 (proj1 H)).
  apply (NQ_add q s1 (span (not_in [10%N; 13%N; 92%N; q]) (rem s1))) in H; [|apply span_le]. set (s2 := set_pos _ s1) in *.
  unfold bind at 1. rewrite (text_exec s2 (proj1 H)).
  unfold bind at 1, forward at 1, modify at 1. apply NQ_forward in H. set (s3 := set_eaten _ s2) in *.
  unfold bind at 1. rewrite (is_ok_eq _ _ _ (sym_seq_exec ig s3 (proj1 H))).
  destruct (starts_with ig (rem s3)) eqn:Es; [destruct (NQ_rem q s3 H); now apply starts_in_l with ig|].
  apply NQ_back in H. set (s4 := set_pos _ s3) in *.
  unfold bind at 1. rewrite (ok_eq _ _ _ (gap_exec false s4 (proj1 H))).
  destruct (gap_f false (rem s4)) as [[t k]|] eqn:Eg.
  - destruct (gap_f_le _ _ _ _ Eg) as (Hk & _). apply (NQ_add q s4 k) in H; [|exact Hk]. set (s5 := set_pos _ s4) in *.
    cbv zeta. unfold bind. rewrite (ws0_exec s5 (proj1 H)). apply IH. apply NQ_add; [exact H|apply span_le].
  - unfold gap_head. rewrite Nat.add_0_r, set_pos_id. unfold bind at 1.
    rewrite (is_ok_eq _ _ _ (sym_exec 92 s4 (proj1 H))).
    assert (K : forall s5, NQ q s5 -> fst ((b <- is_ok (sym q) ;; if b then ret (v ++ utf8_lossy (slice (p_eaten s2) (p_pos s2) (p_doc s2))) else quoted_loop n q ig (v ++ utf8_lossy (slice (p_eaten s2) (p_pos s2) (p_doc s2)))) s5) = RDiv).
    { intros s5 H5. unfold bind. rewrite (is_ok_eq _ _ _ (sym_exec q s5 (proj1 H5))).
      pose proof (NQ_rem q s5 H5) as R5. destruct (rem s5) as [|x r]; [apply IH, NQ_back, H5|].
      destruct (N.eqb_spec x q) as [->|]; [destruct R5; now left|apply IH, NQ_back, H5]. }
    destruct (rem s4) as [|x r] eqn:R4; [apply K, NQ_back, H|].
    destruct (N.eqb_spec x 92); [|apply K, NQ_back, H].
    apply IH. apply NQ_add; [exact H|rewrite R4; simpl; lia].
Qed.
(** On an opening quote with no closing quote behind it the sub-parser never
    returns: whatever the number of iterations allowed, it is still running. *)
Theorem C12_unterminated_never_returns : forall (q : N) (ignore : bytes) (s : st) (r : bytes),
  (q = 34%N /\ ignore = [92; 34]%N) \/ (q = 39%N /\ ignore = lit "''") ->
  p_pos s <= List.length (p_doc s) ->
  skipn (p_pos s) (p_doc s) = q :: r -> ~ In q r ->
  (forall n, fst (string_quoted_fuel n q ignore s) = RDiv) /\ fst (string_quoted q ignore s) = RDiv.
Proof.
  intros q ig s r Hq H Er Hr.
  assert (K : forall n, fst (string_quoted_fuel n q ig s) = RDiv).
  { intros n. unfold string_quoted_fuel, context. set (s0 := set_eaten (p_pos s) s).
    assert (H0 : in_doc s0) by exact H. assert (R0 : rem s0 = q :: r) by exact Er.
    unfold bind. rewrite (sym_exec q s0 H0), R0, N.eqb_refl. unfold forward, modify. set (s1 := set_eaten _ _).
    assert (H1 : NQ q s1).
    { unfold NQ, in_doc, s1, s0. cbn. pose proof (rem_length s0) as RL. rewrite R0 in RL. cbn in RL.
      repeat split; try lia. replace (skipn (p_pos s + 1) (p_doc s)) with (skipn 1 (rem s)) by (unfold rem; apply skipn_add).
      unfold rem. rewrite Er. exact Hr. }
    rewrite (ws0_exec s1 (proj1 H1)). apply (NQ_add q s1 (ws_len (rem s1))) in H1; [|apply span_le].
    rewrite (text_exec _ (proj1 H1)).
    assert (Hi : In q ig) by (destruct Hq as [[-> ->]|[-> ->]]; simpl; auto).
    pose proof (unterminated_loop q ig Hi n (utf8_lossy (slice (p_eaten (set_pos (p_pos s1 + ws_len (rem s1)) s1))
      (p_pos (set_pos (p_pos s1 + ws_len (rem s1)) s1)) (p_doc (set_pos (p_pos s1 + ws_len (rem s1)) s1)))) _ H1) as U.
    destruct (quoted_loop _ _ _ _ _) as [x y]. exact U. }
  split; [exact K|]. rewrite string_quoted_is by exact H. apply K.
Qed.
(** A string that ends in a backslash is not read back: its closing quote is
    taken for an escaped one. *)
Theorem C12_trailing_backslash_refuted :
  let s := new_st (fun _ => 0%N) false (34%N :: flat_map json_char (lit "a\") ++ [34%N]) in
  fst (string_quoted 34 [92; 34]%N s) = RDiv.
Proof. reflexivity. Qed.

(** the hypotheses can be met: a quoted word in the middle of a line *)
Example C12_double_example :
  let s := set_pos 3 (new_st (fun _ => 0%N) false (lit "k: " ++ 34%N :: lit "a b" ++ 34%N :: lit " # c")) in
  string_quoted 34 [92; 34]%N s = (ROk (lit "a b"), set_pos 8 s).
Proof.
  intros s. apply (C12_double_verbatim s (lit "a b") (lit " # c")); try reflexivity.
  - cbn. lia.
  - cbn. intros c Hc. repeat destruct Hc as [<-|Hc]; try (repeat split; discriminate). destruct Hc.
Qed.
Example C12_single_example :
  let s := new_st (fun _ => 0%N) false (lit "'it''s \n'") in
  string_quoted 39 (lit "''") s = (ROk (lit "it's \n"), set_pos 10 s).
Proof.
  intros s. refine (C12_single_verbatim s (lit "it's \n") [] _ _ _ _ _); try reflexivity.
  - cbn. lia.
  - cbn. intros c Hc. repeat destruct Hc as [<-|Hc]; try (repeat split; discriminate). destruct Hc.
  - intros (r & [=]).
Qed.
