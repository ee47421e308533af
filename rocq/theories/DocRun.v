(** * Whole documents around one node *)
From Verif Require Export Leaf.
Open Scope nat_scope.

Definition start (hk : hasher) (d : bytes) : st := new_st hk false d.
(** the byte count a line gap takes, 0 when there is none *)
Definition gap_len (l : bytes) : nat := match gap_f true l with Some (_, k) => k | None => 0 end.
Definition doc_ws (l : bytes) : nat := if at_bound l then ws_len l else 0.

Lemma gap_then s (k : M unit) : in_doc s -> AT s ->
  (unwrap_or 0 (gap true) ;;; k) s
  = match gap_f true (rem s) with
    | Some (_, m) => k (set_pos (p_pos s + m) s)
    | None => k (set_pos (p_pos s + gap_head true (rem s)) s)
    end.
Proof.
  intros H A0. unfold bind. rewrite (unwrap_or_eq _ _ _ _ (gap_exec true s H)).
  destruct (gap_f true (rem s)) as [[g m]|]; reflexivity.
Qed.
(** a gap, then an optional marker that is not there: nothing is consumed *)
Lemma gap_no_marker mk s : in_doc s -> AT s ->
  starts_with mk (skipn (gap_len (rem s)) (rem s)) = false ->
  (gap_f true (rem s) = None -> starts_with mk (skipn (gap_head true (rem s)) (rem s)) = false) ->
  (unwrap_or 0 (gap true) ;;; unwrap_or tt (sym_seq mk)) s = (ROk tt, s).
Proof.
  intros H A0 Hm Hm'. rewrite gap_then by assumption. unfold gap_len in Hm.
  assert (K : forall m, m <= List.length (rem s) -> starts_with mk (skipn m (rem s)) = false ->
     unwrap_or tt (sym_seq mk) (set_pos (p_pos s + m) s) = (ROk tt, s)).
  { intros m Lm E. assert (H1 : in_doc (set_pos (p_pos s + m) s)) by (apply in_doc_add; assumption).
    rewrite (unwrap_or_eq _ _ _ _ (sym_seq_exec mk _ H1)), rem_add, E.
    cbn [p_eaten set_pos]. now rewrite set_pos_pos, A0, set_pos_id. }
  destruct (gap_f true (rem s)) as [[g m]|] eqn:G.
  - apply K; [|exact Hm]. now destruct (gap_f_le _ _ _ _ G).
  - apply K; [apply gap_head_le|now apply Hm'].
Qed.

Definition with_doc (s : st) : st := set_anchors (l_anchors s ++ [[]]) (at_pos (p_pos s + doc_ws (rem s)) s).
Lemma doc_exec n s nd s1 : in_doc s ->
  scalar n 0 false false (with_doc s) = (ROk nd, s1) -> in_doc s1 -> AT s1 ->
  starts_with (lit "...") (skipn (gap_len (rem s1)) (rem s1)) = false ->
  (gap_f true (rem s1) = None -> starts_with (lit "...") (skipn (gap_head true (rem s1)) (rem s1)) = false) ->
  doc n s = (ROk nd, set_doc_ind (l_doc_ind s1 + 1) s1).
Proof.
  intros H E H1 A1 M1 M2. unfold doc. unfold bind at 1. unfold context.
  assert (H0 : in_doc (set_eaten (p_pos s) s)) by exact H.
  rewrite (unwrap_or_eq _ _ _ _ (bound_exec _ H0)). change (rem (set_eaten (p_pos s) s)) with (rem s).
  replace (let '(r, s') := match (if at_bound (rem s) then (@ROk unit tt, set_pos (p_pos (set_eaten (p_pos s) s) + ws_len (rem s)) (set_eaten (p_pos s) s))
              else (RErr Mismatch, set_pos (p_eaten (set_eaten (p_pos s) s)) (set_eaten (p_pos s) s))) with
             | (ROk a, s') => (ROk a, s') | (RErr _, s') => (ROk tt, s') | (RPanic, s') => (RPanic, s') | (RDiv, s') => (RDiv, s') end
           in (r, set_eaten (p_eaten s) s'))
    with (@ROk unit tt, set_pos (p_pos s + doc_ws (rem s)) s).
  2:{ unfold doc_ws. destruct (at_bound (rem s)); destruct s; cbn; [reflexivity|]. now rewrite Nat.add_0_r. }
  unfold bind at 1, forward at 1, modify at 1. unfold bind at 1, modify at 1.
  change (set_anchors (l_anchors (set_eaten (p_pos (set_pos (p_pos s + doc_ws (rem s)) s)) (set_pos (p_pos s + doc_ws (rem s)) s)) ++ [[]])
            (set_eaten (p_pos (set_pos (p_pos s + doc_ws (rem s)) s)) (set_pos (p_pos s + doc_ws (rem s)) s))) with (with_doc s).
  unfold bind at 1. rewrite E.
  pose proof (gap_no_marker (lit "...") s1 H1 A1 M1 M2) as K. revert K. unfold bind at 1.
  unfold bind at 1. destruct (unwrap_or 0 (gap true) s1) as [[g|e| |] s2]; try discriminate.
  intros K. unfold bind at 1. rewrite K. unfold bind, forward, modify, ret. now rewrite (set_eaten_AT s1 A1).
Qed.

Lemma directives_none n s : in_doc s -> AT s -> (match rem s with x :: _ => x <> 37%N | [] => True end) ->
  directives (S n) s = (ROk tt, s).
Proof.
  intros H A0 Hx. cbn [directives]. unfold context. rewrite (set_eaten_AT s A0).
  unfold directive. rewrite (miss (chr "%") _ s H A0 Hx). now rewrite set_eaten_id.
Qed.
Lemma docs_end k n v s : in_doc s -> gap_len (rem s) = List.length (rem s) -> docs_loop (S k) n v s = (ROk v, set_pos (p_pos s + List.length (rem s)) s).
Proof.
  intros H G. cbn [docs_loop]. unfold bind at 1. rewrite (unwrap_or_eq _ _ _ _ (gap_exec true s H)).
  assert (K : forall s', in_doc s' -> rem s' = [] ->
    (fd <- food ;; match fd with [] => ret v | _ => e <- is_err (sym_seq (lit "---")) ;; if e then err (lit "document splitter") else d <- doc n ;; docs_loop k n (v ++ [d]) end) s' = (ROk v, s')).
  { intros s' H' R. unfold bind. rewrite (food_exec s' H'), R. reflexivity. }
  unfold gap_len in G. destruct (gap_f true (rem s)) as [[g m]|] eqn:E.
  - subst m. apply K; [apply in_doc_add; [lia|exact H]|]. rewrite rem_add. apply skipn_all.
  - destruct (rem s) as [|x r] eqn:R; [|discriminate]. cbn [List.length]. rewrite Nat.add_0_r, set_pos_id. replace (gap_head true []) with 0 by reflexivity. rewrite Nat.add_0_r, set_pos_id. apply K; [exact H|]. exact R.
Qed.
Lemma docs_next k n v s nd s1 r : in_doc s -> skipn (gap_len (rem s)) (rem s) = lit "---" ++ r ->
  gap_f true (rem s) <> None ->
  (let s0 := set_pos (p_pos s + gap_len (rem s) + 3) s in
   rem s0 = r -> in_doc s0 -> doc n s0 = (ROk nd, s1)) ->
  docs_loop (S k) n v s = docs_loop k n (v ++ [nd]) s1.
Proof.
  intros H E G D. cbn [docs_loop]. unfold bind at 1. rewrite (unwrap_or_eq _ _ _ _ (gap_exec true s H)).
  unfold gap_len in *. destruct (gap_f true (rem s)) as [[g m]|] eqn:F; [|congruence].
  set (s2 := set_pos (p_pos s + m) s). destruct (gap_f_le _ _ _ _ F) as (Lm & _).
  assert (H2 : in_doc s2) by (apply in_doc_add; assumption).
  assert (R2 : rem s2 = lit "---" ++ r) by (unfold s2; now rewrite rem_add).
  unfold bind at 1. rewrite (food_exec s2 H2), R2. cbn [app].
  change (45%N :: 45%N :: 45%N :: r) with (lit "---" ++ r).
  unfold bind at 1. rewrite (is_err_eq _ _ _ (sym_seq_exec (lit "---") s2 H2)), R2.
  replace (starts_with (lit "---") (lit "---" ++ r)) with true by (symmetry; apply starts_with_app; eauto).
  cbv iota beta. unfold bind at 1.
  assert (D' : doc n (set_pos (p_pos s2 + List.length (lit "---")) s2) = (ROk nd, s1)).
  { apply D.
    - unfold rem. cbn [p_pos set_pos p_doc s2]. rewrite <- !skipn_add. fold (rem s). rewrite E. reflexivity.
    - unfold in_doc. cbn. pose proof (rem_length s2) as RL. rewrite R2, app_length in RL. cbn in RL. lia. }
  now rewrite D'.
Qed.
(** A document that holds one node and ends with a line break. *)
Lemma parse_one hk d n nd s1 : (match d with x :: _ => x <> 37%N | [] => True end) ->
  starts_with (lit "---") (skipn (gap_len d) d) = false ->
  (gap_f true d = None -> starts_with (lit "---") (skipn (gap_head true d) d) = false) ->
  scalar (S n) 0 false false (with_doc (start hk d)) = (ROk nd, s1) -> in_doc s1 -> AT s1 ->
  gap_len (rem s1) = List.length (rem s1) ->
  fst (parse_fuel (S n) (start hk d)) = ROk [nd].
Proof.
  intros Hd M1 M2 E H1 A1 G. set (s0 := start hk d) in *.
  assert (H0 : in_doc s0) by (unfold in_doc; cbn; lia). assert (A0 : AT s0) by reflexivity.
  assert (R0 : rem s0 = d) by reflexivity.
  unfold parse_fuel. unfold bind at 1. rewrite (directives_none n s0 H0 A0) by (rewrite R0; exact Hd).
  pose proof (gap_no_marker (lit "---") s0 H0 A0) as K. rewrite R0 in K. specialize (K M1 M2). revert K.
  unfold bind at 1. unfold bind at 1. destruct (unwrap_or 0 (gap true) s0) as [[g|e| |] s2]; try discriminate.
  intros K. unfold bind at 1. rewrite K.
  assert (D : doc (S n) s0 = (ROk nd, set_doc_ind (l_doc_ind s1 + 1) s1)).
  { apply doc_exec; try assumption.
    - rewrite G, skipn_all. reflexivity.
    - intros G'. unfold gap_len in G. rewrite G' in G. destruct (rem s1); [reflexivity|discriminate]. }
  unfold bind. rewrite D.
  rewrite docs_end; [reflexivity|exact H1|exact G].
Qed.
