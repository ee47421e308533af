(** * Scan2: exact behaviour of the scanners built from the low-level ones. *)
From Verif Require Export Scan.
Open Scope nat_scope.

Ltac bnd := unfold bind at 1.
Lemma bind_ok {A B} (m : M A) (f : A -> M B) s a s' :
  m s = (ROk a, s') -> bind m f s = f a s'.
Proof. unfold bind. now intros ->. Qed.
Lemma bind_err {A B} (m : M A) (f : A -> M B) s e s' :
  m s = (RErr e, s') -> bind m f s = (RErr e, s').
Proof. unfold bind. now intros ->. Qed.

Lemma back_id s a : p_eaten s = p_pos s ->
  set_pos (p_eaten (set_pos a s)) (set_pos a s) = s.
Proof. intros E. destruct s; simpl in *; subst; reflexivity. Qed.

(** ** text *)
Lemma text_exec s : in_doc s ->
  text s = (ROk (utf8_lossy (slice (p_eaten s) (p_pos s) (p_doc s))), s).
Proof.
  unfold in_doc, text. intros H. apply Nat.leb_le in H. rewrite H.
  destruct (Nat.ltb_spec (p_eaten s) (p_pos s)) as [L|L]; [reflexivity|].
  unfold slice. replace (p_pos s - p_eaten s) with 0 by lia. reflexivity.
Qed.

Lemma slice_rem s k : p_eaten s = p_pos s ->
  slice (p_eaten s) (p_pos s + k) (p_doc s) = firstn k (rem s).
Proof. intros E. unfold slice, rem. rewrite E. f_equal. lia. Qed.

(** ** blanks and comments *)
Definition ws_len (l : bytes) : nat := span is_ws l.

Lemma ws0_exec s : in_doc s ->
  ws (More 0) s = (ROk tt, set_pos (p_pos s + ws_len (rem s)) s).
Proof. apply more0_exec. Qed.

Definition not_nl := not_in [10; 13]%N.

Definition comment_len (l : bytes) : nat :=
  match skipn (ws_len l) l with
  | x :: r => if N.eqb x 35 then ws_len l + 1 + span not_nl r else 0
  | [] => 0
  end.

Lemma comment_len_le l : comment_len l <= List.length l.
Proof.
  unfold comment_len. destruct (skipn (ws_len l) l) as [|x r] eqn:E; [lia|].
  destruct (N.eqb x 35); [|lia].
  pose proof (skipn_length (ws_len l) l) as HL. rewrite E in HL. simpl in HL.
  pose proof (span_le not_nl r). lia.
Qed.

Lemma comment_exec s : in_doc s ->
  comment s =
  if Nat.eqb (comment_len (rem s)) 0 then (RErr Mismatch, set_pos (p_eaten s) s)
  else (ROk tt, set_pos (p_pos s + comment_len (rem s)) s).
Proof.
  intros H. unfold comment. bnd. rewrite (ws0_exec _ H).
  set (w := ws_len (rem s)). unfold comment_len. fold w.
  assert (Hw : in_doc (set_pos (p_pos s + w) s))
    by (apply in_doc_add; [apply span_le|assumption]).
  bnd. rewrite (sym_exec _ _ Hw), rem_add.
  destruct (skipn w (rem s)) as [|x r] eqn:E; [reflexivity|].
  destruct (N.eqb x 35) eqn:E1; [|reflexivity].
  assert (Hw1 : in_doc (set_pos (p_pos (set_pos (p_pos s + w) s) + 1) (set_pos (p_pos s + w) s)))
    by (apply in_doc_add; [rewrite rem_add, E; simpl; lia|assumption]).
  rewrite (more0_exec _ _ Hw1), rem_add, rem_add, E. simpl skipn.
  fold not_nl. destruct (Nat.eqb_spec (w + 1 + span not_nl r) 0) as [B|B]; [lia|].
  unfold set_pos; simpl. do 2 f_equal. lia.
Qed.

Lemma unwrap_or_eq {A} (d : A) (m : M A) s r : m s = r ->
  unwrap_or d m s = match r with
                    | (ROk a, s') => (ROk a, s')
                    | (RErr _, s') => (ROk d, s')
                    | (RPanic, s') => (RPanic, s')
                    | (RDiv, s') => (RDiv, s')
                    end.
Proof. intros <-. unfold unwrap_or, bind, ok. destruct (m s) as [[]]; reflexivity. Qed.

Lemma ok_eq {A} (m : M A) s r : m s = r ->
  ok m s = match r with
           | (ROk a, s') => (ROk (Some a), s')
           | (RErr _, s') => (ROk None, s')
           | (RPanic, s') => (RPanic, s')
           | (RDiv, s') => (RDiv, s')
           end.
Proof. unfold ok. now intros ->. Qed.

Lemma is_err_eq {A} (m : M A) s r : m s = r ->
  is_err m s = match r with
              | (ROk _, s') => (ROk false, s')
              | (RErr _, s') => (ROk true, s')
              | (RPanic, s') => (RPanic, s')
              | (RDiv, s') => (RDiv, s')
              end.
Proof. intros <-. unfold is_err, bind, is_ok. destruct (m s) as [[]]; reflexivity. Qed.

Lemma opt_comment_exec s : in_doc s -> p_eaten s = p_pos s ->
  unwrap_or tt comment s = (ROk tt, set_pos (p_pos s + comment_len (rem s)) s).
Proof.
  intros H E. rewrite (unwrap_or_eq _ _ _ _ (comment_exec _ H)).
  destruct (Nat.eqb_spec (comment_len (rem s)) 0) as [B|B]; [|reflexivity].
  now rewrite E, B, Nat.add_0_r.
Qed.

(** ** gap *)
Definition line_skip (cmt : bool) (l : bytes) : nat :=
  if cmt then comment_len l else ws_len l.
Lemma line_skip_le c l : line_skip c l <= List.length l.
Proof. destruct c; [apply comment_len_le|apply span_le]. Qed.

Fixpoint gap_lines (n : nat) (cmt : bool) (l : bytes) : nat * nat :=
  match n with
  | 0 => (0, 0)
  | S n' =>
    let k := line_skip cmt l in
    let m := nl_len (skipn k l) in
    if Nat.eqb m 0 then (0, 0)
    else let r := gap_lines n' cmt (skipn (k + m) l) in (S (fst r), k + m + snd r)
  end.

Lemma gap_lines_le n cmt l : snd (gap_lines n cmt l) <= List.length l.
Proof.
  revert l; induction n as [|n IH]; intros l; cbn [gap_lines]; [simpl; lia|].
  cbv zeta. set (k := line_skip cmt l). set (m := nl_len (skipn k l)).
  destruct (Nat.eqb_spec m 0); [simpl; lia|]. simpl.
  specialize (IH (skipn (k + m) l)). rewrite skipn_length in IH.
  pose proof (nl_len_le (skipn k l)) as HN. rewrite skipn_length in HN.
  fold m in HN. pose proof (line_skip_le cmt l). fold k in H. lia.
Qed.

Lemma skip_line_exec (cmt : bool) s : in_doc s -> p_eaten s = p_pos s ->
  bind (ws (More 0)) (fun _ => if cmt then unwrap_or tt comment else ret tt) s =
  (ROk tt, set_pos (p_pos s + line_skip cmt (rem s)) s).
Proof.
  intros H E. bnd. rewrite (ws0_exec _ H).
  set (s1 := set_pos (p_pos s + ws_len (rem s)) s).
  assert (H1 : in_doc s1) by (apply in_doc_add; [apply span_le|assumption]).
  destruct cmt; [|reflexivity]. cbn [line_skip].
  rewrite (unwrap_or_eq _ _ _ _ (comment_exec _ H1)).
  assert (HS : rem s1 = skipn (ws_len (rem s)) (rem s)) by apply rem_add.
  assert (W : ws_len (rem s1) = 0).
  { rewrite HS. apply span_zero. destruct (skipn (ws_len (rem s)) (rem s)) eqn:E1; [exact I|].
    eapply span_next; exact E1. }
  unfold comment_len at 1 2. rewrite W. simpl skipn. rewrite HS.
  unfold comment_len. destruct (skipn (ws_len (rem s)) (rem s)) as [|x r] eqn:E1.
  - simpl. subst s1. rewrite E, Nat.add_0_r. reflexivity.
  - destruct (N.eqb x 35) eqn:E2.
    + simpl. subst s1. unfold set_pos; simpl. do 2 f_equal. lia.
    + simpl. subst s1. rewrite E, Nat.add_0_r. reflexivity.
Qed.

Definition at_pos (p : nat) (s : st) : st := set_pos p (set_eaten p s).

Lemma bind_assoc {A B C} (m : M A) (f : A -> M B) (g : B -> M C) s :
  bind (bind m f) g s = bind m (fun x => bind (f x) g) s.
Proof. unfold bind. destruct (m s) as [[]]; reflexivity. Qed.

Lemma gap_loop_exec cmt n : forall t s, in_doc s -> List.length (rem s) < n ->
  gap_loop n cmt t s =
  let r := gap_lines n cmt (rem s) in
  (ROk (t + fst r), at_pos (p_pos s + snd r) s).
Proof.
  induction n as [|n IH]; intros t s H Hn; [lia|].
  cbn [gap_loop]. unfold bind at 1, forward, modify.
  set (s0 := set_eaten (p_pos s) s).
  assert (H0 : in_doc s0) by exact H.
  assert (R0 : rem s0 = rem s) by reflexivity.
  match goal with |- bind (ws (More 0)) (fun _ => bind ?c ?k) s0 = _ =>
    transitivity (bind (bind (ws (More 0)) (fun _ => c)) k s0)
  end.
  { symmetry. apply bind_assoc. }
  unfold bind at 1. rewrite skip_line_exec by (assumption || reflexivity).
  rewrite R0. cbn [gap_lines]. cbv zeta.
  set (k := line_skip cmt (rem s)).
  set (s1 := set_pos (p_pos s0 + k) s0).
  assert (H1 : in_doc s1) by (apply in_doc_add; [apply line_skip_le|assumption]).
  assert (R1 : rem s1 = skipn k (rem s)) by (unfold s1; now rewrite rem_add, R0).
  unfold bind at 1. rewrite (is_err_eq _ _ _ (nl_exec _ H1)), R1.
  set (m := nl_len (skipn k (rem s))).
  destruct (Nat.eqb_spec m 0) as [M0|M0].
  - unfold bind, backward, modify, ret. simpl. rewrite !Nat.add_0_r.
    subst s1 s0. destruct s; reflexivity.
  - set (s2 := set_pos (p_pos s1 + m) s1).
    assert (Hm : m <= List.length (skipn k (rem s))) by apply nl_len_le.
    assert (H2 : in_doc s2) by (apply in_doc_add; [now rewrite R1|assumption]).
    assert (R2 : rem s2 = skipn (k + m) (rem s))
      by (unfold s2; now rewrite rem_add, R1, skipn_add).
    assert (Hk : k <= List.length (rem s)) by apply line_skip_le.
    rewrite IH; [|assumption|rewrite R2, skipn_length; rewrite skipn_length in Hm; lia].
    cbv zeta. rewrite R2. simpl fst. simpl snd.
    subst s2 s1 s0. unfold at_pos. simpl.
    f_equal; [f_equal; lia|]. unfold set_pos, set_eaten; simpl. f_equal; lia.
Qed.

(** what [gap] finds at the head of [l]: [None], or line breaks and bytes *)
Definition gap_head (cmt : bool) (l : bytes) : nat := if cmt then comment_len l else 0.
Definition gap_f (cmt : bool) (l : bytes) : option (nat * nat) :=
  let k := gap_head cmt l in
  let m := nl_len (skipn k l) in
  if Nat.eqb m 0 then None
  else let l' := skipn (k + m) l in
       let r := gap_lines (S (List.length l')) cmt l' in
       Some (S (fst r), k + m + snd r).

Lemma gap_lines_fuel cmt : forall n n' l, List.length l < n -> List.length l < n' ->
  gap_lines n cmt l = gap_lines n' cmt l.
Proof.
  induction n as [|n IH]; intros n' l H H'; [lia|].
  destruct n' as [|n']; [lia|]. cbn [gap_lines]. cbv zeta.
  set (k := line_skip cmt l). set (m := nl_len (skipn k l)).
  destruct (Nat.eqb_spec m 0) as [|M0]; [reflexivity|].
  assert (Hm : m <= List.length (skipn k l)) by apply nl_len_le.
  rewrite skipn_length in Hm.
  rewrite (IH n' (skipn (k + m) l)); [reflexivity| |]; rewrite skipn_length; lia.
Qed.

Lemma gap_exec cmt s : in_doc s ->
  gap cmt s =
  match gap_f cmt (rem s) with
  | Some (t, k) => (ROk t, set_pos (p_pos s + k) s)
  | None => (RErr Mismatch, set_pos (p_pos s + gap_head cmt (rem s)) s)
  end.
Proof.
  intros H. unfold gap, context.
  set (s0 := set_eaten (p_pos s) s).
  assert (H0 : in_doc s0) by exact H.
  assert (R0 : rem s0 = rem s) by reflexivity.
  set (k := gap_head cmt (rem s)).
  assert (E1 : (if cmt then unwrap_or tt comment else ret tt) s0
               = (ROk tt, set_pos (p_pos s0 + k) s0)).
  { unfold k, gap_head. destruct cmt.
    - rewrite opt_comment_exec by (assumption || reflexivity). now rewrite R0.
    - rewrite Nat.add_0_r. subst s0; destruct s; reflexivity. }
  unfold bind at 1. rewrite E1.
  set (s1 := set_pos (p_pos s0 + k) s0).
  assert (Hk : k <= List.length (rem s))
    by (unfold k, gap_head; destruct cmt; [apply comment_len_le|lia]).
  assert (H1 : in_doc s1) by (apply in_doc_add; [now rewrite R0|assumption]).
  assert (R1 : rem s1 = skipn k (rem s)) by (unfold s1; now rewrite rem_add, R0).
  unfold bind at 1. rewrite (nl_exec _ H1), R1. unfold gap_f. fold k. cbv zeta.
  set (m := nl_len (skipn k (rem s))).
  destruct (Nat.eqb_spec m 0) as [M0|M0].
  { subst s1 s0. destruct s; reflexivity. }
  set (s2 := set_pos (p_pos s1 + m) s1).
  assert (Hm : m <= List.length (skipn k (rem s))) by apply nl_len_le.
  assert (H2 : in_doc s2) by (apply in_doc_add; [now rewrite R1|assumption]).
  assert (R2 : rem s2 = skipn (k + m) (rem s))
    by (unfold s2; now rewrite rem_add, R1, skipn_add).
  unfold bind, gets.
  assert (L2 : List.length (rem s2) < loop_fuel s2).
  { rewrite rem_length. unfold loop_fuel. lia. }
  rewrite gap_loop_exec by assumption. cbv zeta. rewrite R2 in *.
  rewrite (gap_lines_fuel cmt (loop_fuel s2) (S (List.length (skipn (k + m) (rem s)))))
    by lia.
  set (r := gap_lines (S (List.length (skipn (k + m) (rem s)))) cmt (skipn (k + m) (rem s))).
  simpl fst. subst s2 s1 s0. unfold at_pos. f_equal.
  unfold set_pos, set_eaten; simpl. f_equal. lia.
Qed.

Lemma gap_f_le cmt l t k : gap_f cmt l = Some (t, k) -> k <= List.length l /\ 1 <= k /\ 1 <= t.
Proof.
  unfold gap_f. cbv zeta. set (h := gap_head cmt l). set (m := nl_len (skipn h l)).
  destruct (Nat.eqb_spec m 0) as [|M0]; [discriminate|].
  assert (Hm : m <= List.length (skipn h l)) by apply nl_len_le.
  rewrite skipn_length in Hm.
  pose proof (gap_lines_le (S (List.length (skipn (h + m) l))) cmt (skipn (h + m) l)) as G.
  rewrite (skipn_length (h + m) l) in G at 2.
  destruct (gap_lines _ cmt (skipn (h + m) l)) as [a b].
  simpl in *. intros [= <- <-]. lia.
Qed.
Lemma gap_head_le cmt l : gap_head cmt l <= List.length l.
Proof. unfold gap_head; destruct cmt; [apply comment_len_le|lia]. Qed.

(** ** bound *)
Definition bound_set : bytes := (lit ":{}[] ," ++ [10; 13])%N.
Definition at_bound (l : bytes) : bool :=
  match l with x :: _ => is_in bound_set x | [] => false end.

Lemma bound_exec s : in_doc s ->
  bound s =
  if at_bound (rem s) then (ROk tt, set_pos (p_pos s + ws_len (rem s)) s)
  else (RErr Mismatch, set_pos (p_eaten s) s).
Proof.
  intros H. unfold bound, sym_set. bnd. rewrite one_exec by assumption.
  unfold at_bound, bound_set. destruct (rem s) as [|x r] eqn:E; [reflexivity|].
  destruct (is_in (lit ":{}[] ," ++ [10; 13]%N) x) eqn:Ex; [|reflexivity].
  bnd. unfold back. simpl p_pos.
  rewrite (proj2 (Nat.leb_le 1 (p_pos s + 1))) by lia.
  replace (set_pos (p_pos s + 1 - 1) (set_pos (p_pos s + 1) s)) with s
    by (destruct s; unfold set_pos; simpl; f_equal; lia).
  rewrite ws0_exec by assumption. now rewrite E.
Qed.

(** ** indentation *)
Definition sp_len (l : bytes) : nat := span (fun c => N.eqb c 32) l.

Lemma spaces_exec n : forall s, in_doc s ->
  spaces n s =
  if Nat.leb n (sp_len (rem s)) then (ROk tt, set_pos (p_pos s + n) s)
  else (RErr Mismatch, set_pos (p_eaten s) s).
Proof.
  induction n as [|n IH]; intros s H.
  - simpl. unfold ret. now rewrite Nat.add_0_r, set_pos_id.
  - cbn [spaces]. bnd. rewrite sym_exec by assumption.
    unfold sp_len. destruct (rem s) as [|x r] eqn:E; [reflexivity|].
    cbn [span]. destruct (N.eqb x 32); [|reflexivity].
    rewrite IH by (apply in_doc_add; [rewrite E; simpl; lia|assumption]).
    rewrite rem_add, E. simpl skipn. fold (sp_len r).
    cbn [Nat.leb]. destruct (Nat.leb n (sp_len r)); [|reflexivity].
    unfold set_pos; simpl. do 2 f_equal. lia.
Qed.

(** the indentation table after a look at [level], and the width required *)
Definition ind_table (level : nat) (s : st) : list nat := ind_norm level (p_indent s).
Definition ind_width (level : nat) (s : st) : nat :=
  list_sum (firstn (level + 1) (ind_table level s)).

Lemma ind_exec level s : in_doc s ->
  ind level s =
  if Nat.leb (ind_width level s) (sp_len (rem s))
  then (ROk tt, set_pos (p_pos s + ind_width level s) (set_indent (ind_table level s) s))
  else (RErr Mismatch, set_pos (p_eaten s) (set_indent (ind_table level s) s)).
Proof.
  intros H. unfold ind, bind, modify, gets. rewrite spaces_exec by exact H.
  reflexivity.
Qed.

(** ** numbers *)
Definition num_len (l : bytes) : nat :=
  let m := match l with x :: _ => if N.eqb x 45 then 1 else 0 | [] => 0 end in
  let d := span is_digit (skipn m l) in
  if Nat.eqb d 0 then 0 else m + d.

Lemma num_len_le l : num_len l <= List.length l.
Proof.
  unfold num_len. cbv zeta.
  set (m := match l with x :: _ => if N.eqb x 45 then 1 else 0 | [] => 0 end).
  pose proof (span_le is_digit (skipn m l)) as H. rewrite skipn_length in H.
  destruct (Nat.eqb_spec (span is_digit (skipn m l)) 0); [lia|].
  assert (m <= List.length l) by (subst m; destruct l; simpl; [lia|]; destruct (N.eqb n0 45); lia).
  lia.
Qed.

Lemma num_prefix_exec s : in_doc s -> p_eaten s = p_pos s ->
  num_prefix s =
  if Nat.eqb (num_len (rem s)) 0 then (RErr Mismatch, s)
  else (ROk tt, set_pos (p_pos s + num_len (rem s)) s).
Proof.
  intros H E. unfold num_prefix. bnd.
  rewrite (unwrap_or_eq _ _ _ _ (sym_exec _ _ H)).
  set (m := match rem s with x :: _ => if N.eqb x 45 then 1 else 0 | [] => 0 end).
  replace (match _ with (ROk a, s') => (ROk a, s') | (RErr _, s') => (ROk tt, s')
           | (RPanic, s') => (RPanic, s') | (RDiv, s') => (RDiv, s') end)
    with (@ROk unit tt, set_pos (p_pos s + m) s).
  2:{ subst m. destruct (rem s) as [|x r]; [now rewrite E, Nat.add_0_r|].
      destruct (N.eqb x 45); [reflexivity|]. now rewrite E, Nat.add_0_r. }
  assert (Hm : in_doc (set_pos (p_pos s + m) s)).
  { apply in_doc_add; [|assumption]. subst m. destruct (rem s); simpl; [lia|].
    destruct (N.eqb n 45); lia. }
  rewrite (more_exec _ _ _ Hm), rem_add. unfold num_len. cbv zeta. fold m.
  destruct (span is_digit (skipn m (rem s))) as [|d] eqn:Ed; simpl.
  - now rewrite E, set_pos_pos, set_pos_id.
  - rewrite (proj2 (Nat.eqb_neq (m + S d) 0)) by lia.
    unfold set_pos; simpl. do 2 f_equal. lia.
Qed.

(** after the text of a number: blanks, then a boundary *)
Definition is_zero (l : bytes) : bool :=
  match l with [x] => N.eqb x 48 | _ => false end.

Definition radix_len (c i : N) (l : bytes) : nat :=
  match l with
  | x :: r => if N.eqb x c then let d := span (ascii_digit i) r in
                                if Nat.eqb d 0 then 0 else S d
              else 0
  | [] => 0
  end.

Lemma radix_len_le c i l : radix_len c i l <= List.length l.
Proof.
  destruct l as [|x r]; simpl; [lia|]. destruct (N.eqb x c); [|lia].
  pose proof (span_le (ascii_digit i) r). destruct (Nat.eqb_spec (span (ascii_digit i) r) 0); lia.
Qed.

Lemma radix_exec c i s : in_doc s ->
  bind (sym c) (fun _ => take_while (ascii_digit i) (More 1)) s =
  if Nat.eqb (radix_len c i (rem s)) 0 then (RErr Mismatch, set_pos (p_eaten s) s)
  else (ROk tt, set_pos (p_pos s + radix_len c i (rem s)) s).
Proof.
  intros H. bnd. rewrite sym_exec by assumption.
  unfold radix_len. destruct (rem s) as [|x r] eqn:E; [reflexivity|].
  destruct (N.eqb x c); [|reflexivity].
  assert (H1 : in_doc (set_pos (p_pos s + 1) s))
    by (apply in_doc_add; [rewrite E; simpl; lia|assumption]).
  rewrite (more_exec _ _ _ H1), rem_add, E. simpl skipn.
  destruct (span (ascii_digit i) r) as [|d] eqn:Ed; simpl; [reflexivity|].
  unfold set_pos; simpl. do 2 f_equal. lia.
Qed.

(** length of an integer literal at the head of [l] *)
Definition int_len (l : bytes) : nat :=
  let a := num_len l in
  if is_zero (firstn a l) then
    let l' := skipn a l in
    let o := radix_len 111 8 l' in
    if Nat.eqb o 0 then a + radix_len 120 16 l' else a + o
  else a.

Lemma int_len_le l : int_len l <= List.length l.
Proof.
  unfold int_len. cbv zeta. pose proof (num_len_le l) as Ha.
  destruct (is_zero _); [|lia].
  pose proof (radix_len_le 111 8 (skipn (num_len l) l)) as A1.
  pose proof (radix_len_le 120 16 (skipn (num_len l) l)) as A2.
  rewrite skipn_length in A1, A2.
  destruct (Nat.eqb_spec (radix_len 111 8 (skipn (num_len l) l)) 0); lia.
Qed.

Definition int_f (l : bytes) : option (nat * nat) :=
  let a := int_len l in
  let w := ws_len (skipn a l) in
  if Nat.eqb (num_len l) 0 then None
  else if at_bound (skipn (a + w) l) then Some (a, a + w) else None.

Lemma utf8_lossy_ascii l : forallb (fun c => N.ltb c 128) l = true -> utf8_lossy l = l.
Proof.
  induction l as [|c l IH]; simpl; [reflexivity|].
  intros H. apply andb_true_iff in H as [-> H]. now rewrite IH.
Qed.

Lemma digit_ascii c : is_digit c = true -> N.ltb c 128 = true.
Proof.
  unfold is_digit. rewrite andb_true_iff, !N.leb_le, N.ltb_lt. lia.
Qed.

Lemma firstn_add {A} (a b : nat) (l : list A) :
  firstn (a + b) l = firstn a l ++ firstn b (skipn a l).
Proof.
  revert l; induction a as [|a IH]; intros l; simpl; [reflexivity|].
  destruct l; simpl; [now rewrite firstn_nil|]. now rewrite IH.
Qed.

Lemma forallb_impl {A} (f g : A -> bool) l :
  (forall x, f x = true -> g x = true) -> forallb f l = true -> forallb g l = true.
Proof.
  intros H. induction l as [|x l IH]; simpl; [reflexivity|].
  rewrite !andb_true_iff. intros [? ?]; auto.
Qed.

Lemma num_ascii l : forallb (fun c => N.ltb c 128) (firstn (num_len l) l) = true.
Proof.
  unfold num_len. cbv zeta.
  set (m := match l with x :: _ => if N.eqb x 45 then 1 else 0 | [] => 0 end).
  destruct (Nat.eqb_spec (span is_digit (skipn m l)) 0) as [D0|D0]; [reflexivity|].
  rewrite firstn_add, forallb_app. apply andb_true_iff. split.
  - subst m. destruct l as [|x r]; [reflexivity|].
    destruct (N.eqb_spec x 45) as [->|]; reflexivity.
  - eapply forallb_impl; [exact digit_ascii|apply span_forall].
Qed.

Lemma str_eqb_eq a b : str_eqb a b = true <-> a = b.
Proof.
  revert b; induction a as [|x a IH]; intros [|y b]; simpl;
    try (split; (reflexivity || discriminate)).
  rewrite andb_true_iff, N.eqb_eq, IH. split; [intros [-> ->]; reflexivity|].
  intros [= -> ->]; auto.
Qed.
Lemma str_eqb_refl a : str_eqb a a = true.
Proof. now apply str_eqb_eq. Qed.
Lemma str_eqb_neq a b : str_eqb a b = false <-> a <> b.
Proof.
  split; intros H.
  - intros ->. now rewrite str_eqb_refl in H.
  - destruct (str_eqb a b) eqn:E; [|reflexivity]. now apply str_eqb_eq in E.
Qed.

Lemma is_zero_eq l : is_zero l = str_eqb l (lit "0").
Proof.
  destruct l as [|x [|y l]]; simpl; try reflexivity.
  - now rewrite andb_true_r.
  - now rewrite andb_false_r.
Qed.

Lemma set_pos_eq s a b : a = b -> set_pos a s = set_pos b s.
Proof. now intros ->. Qed.

Lemma int_exec s : in_doc s -> p_eaten s = p_pos s ->
  int s =
  match int_f (rem s) with
  | Some (a, k) => (ROk (utf8_lossy (firstn a (rem s))), set_pos (p_pos s + k) s)
  | None => (RErr Mismatch, s)
  end.
Proof.
  intros H E. unfold int, int_f. bnd. rewrite num_prefix_exec by assumption. cbv zeta.
  destruct (Nat.eqb_spec (num_len (rem s)) 0) as [N0|N0]; [reflexivity|].
  set (n := num_len (rem s)) in *.
  assert (Hn : n <= List.length (rem s)) by apply num_len_le.
  set (s1 := set_pos (p_pos s + n) s).
  assert (H1 : in_doc s1) by (apply in_doc_add; assumption).
  assert (R1 : rem s1 = skipn n (rem s)) by apply rem_add.
  bnd. rewrite text_exec by assumption.
  assert (T1 : slice (p_eaten s1) (p_pos s1) (p_doc s1) = firstn n (rem s))
    by exact (slice_rem s n E).
  rewrite T1, utf8_lossy_ascii by apply num_ascii.
  rewrite <- is_zero_eq.
  assert (Hrad : exists b : bool,
    (if is_zero (firstn n (rem s)) then
       context (orM (is_ok octal) (is_ok hexadecimal)) else ret false) s1
    = (ROk b, set_pos (p_pos s + int_len (rem s)) s)
    /\ (b = false -> int_len (rem s) = n)).
  { unfold int_len. fold n. cbv zeta. destruct (is_zero (firstn n (rem s))).
    - unfold context. set (s1' := set_eaten (p_pos s1) s1).
      assert (H1' : in_doc s1') by exact H1.
      assert (R1' : rem s1' = skipn n (rem s)) by exact R1.
      assert (Back : set_pos (p_eaten s1') s1' = s1') by (subst s1'; destruct s1; reflexivity).
      unfold orM, octal, hexadecimal. unfold bind at 1.
      rewrite (is_ok_eq _ _ _ (radix_exec 111 8 _ H1')), R1'.
      destruct (Nat.eqb_spec (radix_len 111 8 (skipn n (rem s))) 0) as [O0|O0].
      + rewrite Back, (is_ok_eq _ _ _ (radix_exec 120 16 _ H1')), R1'.
        destruct (Nat.eqb_spec (radix_len 120 16 (skipn n (rem s))) 0) as [X0|X0].
        * exists false. split; [|intros _; lia]. rewrite X0, Nat.add_0_r.
          rewrite Back. subst s1' s1. destruct s; reflexivity.
        * exists true. split; [|discriminate]. subst s1' s1.
          unfold set_pos, set_eaten; simpl. do 2 f_equal. lia.
      + exists true. split; [|discriminate]. subst s1' s1.
        unfold set_pos, set_eaten, ret; simpl. do 2 f_equal. lia.
    - exists false. split; reflexivity. }
  destruct Hrad as (b & Hb & Hbn).
  bnd. rewrite Hb.
  set (a := int_len (rem s)) in *.
  assert (Ha : a <= List.length (rem s)) by apply int_len_le.
  set (s2 := set_pos (p_pos s + a) s).
  assert (H2 : in_doc s2) by (apply in_doc_add; assumption).
  assert (R2 : rem s2 = skipn a (rem s)) by apply rem_add.
  assert (T2 : slice (p_eaten s2) (p_pos s2) (p_doc s2) = firstn a (rem s))
    by exact (slice_rem s a E).
  assert (Ht : (if b then text else ret (firstn n (rem s))) s2
               = (ROk (utf8_lossy (firstn a (rem s))), s2)).
  { destruct b.
    - rewrite text_exec by assumption. now rewrite T2.
    - rewrite (Hbn eq_refl). unfold ret. now rewrite utf8_lossy_ascii by apply num_ascii. }
  etransitivity; [eapply bind_ok; exact Ht|].
  bnd. rewrite ws0_exec by assumption. rewrite R2.
  set (w := ws_len (skipn a (rem s))).
  set (s3 := set_pos (p_pos s2 + w) s2).
  assert (Hw : w <= List.length (rem s2)) by (rewrite R2; apply span_le).
  assert (H3 : in_doc s3) by (apply in_doc_add; assumption).
  assert (R3 : rem s3 = skipn (a + w) (rem s))
    by (unfold s3; now rewrite rem_add, R2, skipn_add).
  bnd. rewrite bound_exec by assumption. rewrite R3.
  destruct (at_bound (skipn (a + w) (rem s))).
  - assert (W0 : ws_len (skipn (a + w) (rem s)) = 0).
    { apply span_zero. rewrite <- skipn_add.
      destruct (skipn w (skipn a (rem s))) eqn:E1; [exact I|].
      eapply span_next. exact E1. }
    rewrite W0. unfold ret. f_equal. subst s3 s2. unfold set_pos; simpl. f_equal. lia.
  - f_equal. exact (back_id s _ E).
Qed.

(** after a float literal of length [a]: see [count]/[back] at grammar.rs:60-63 *)
Definition float_tail (a : nat) (l : bytes) : option (nat * nat) :=
  let w := ws_len (skipn a l) in
  if at_bound (skipn (a + (w - 1)) l) then Some (a, a + w) else None.

Lemma count_ws_exec s : in_doc s ->
  count (ws (More 0)) s = (ROk (ws_len (rem s)), set_pos (p_pos s + ws_len (rem s)) s).
Proof.
  intros H. unfold count, bind, gets. rewrite ws0_exec by assumption. simpl.
  rewrite (proj2 (Nat.leb_le _ _)) by lia. do 2 f_equal. lia.
Qed.

Lemma float_tail_exec (x : str) a s : in_doc s -> p_eaten s = p_pos s ->
  a <= List.length (rem s) ->
  bind (count (ws (More 0))) (fun n =>
    bind (if Nat.ltb 0 n then back 1 else ret tt) (fun _ =>
    bind bound (fun _ => ret x))) (set_pos (p_pos s + a) s) =
  match float_tail a (rem s) with
  | Some (_, k) => (ROk x, set_pos (p_pos s + k) s)
  | None => (RErr Mismatch, s)
  end.
Proof.
  intros H E Ha. set (s1 := set_pos (p_pos s + a) s).
  assert (H1 : in_doc s1) by (apply in_doc_add; assumption).
  assert (R1 : rem s1 = skipn a (rem s)) by apply rem_add.
  bnd. rewrite count_ws_exec by assumption. rewrite R1. unfold float_tail. cbv zeta.
  set (w := ws_len (skipn a (rem s))).
  assert (Hw : w <= List.length (skipn a (rem s))) by apply span_le.
  assert (Hb : (if Nat.ltb 0 w then back 1 else ret tt) (set_pos (p_pos s1 + w) s1)
               = (@ROk unit tt, set_pos (p_pos s1 + (w - 1)) s1)).
  { destruct (Nat.ltb_spec 0 w) as [W|W].
    - unfold back. cbn [p_pos set_pos].
      rewrite (proj2 (Nat.leb_le 1 _)) by lia.
      f_equal. unfold set_pos; simpl. f_equal. lia.
    - replace w with 0 by lia. reflexivity. }
  etransitivity; [eapply bind_ok; exact Hb|].
  set (s2 := set_pos (p_pos s1 + (w - 1)) s1).
  assert (H2 : in_doc s2) by (apply in_doc_add; [rewrite R1; lia|assumption]).
  assert (R2 : rem s2 = skipn (a + (w - 1)) (rem s))
    by (unfold s2; now rewrite rem_add, R1, skipn_add).
  bnd. rewrite bound_exec by assumption. rewrite R2.
  destruct (at_bound (skipn (a + (w - 1)) (rem s))).
  - unfold ret. f_equal. subst s2 s1. unfold set_pos; simpl. f_equal.
    assert (W : ws_len (skipn (a + (w - 1)) (rem s)) = w - (w - 1)).
    { rewrite <- skipn_add. subst w. unfold ws_len.
      generalize (skipn a (rem s)). clear. intros l.
      assert (G : forall n l, n <= span is_ws l -> span is_ws (skipn n l) = span is_ws l - n).
      { clear. induction n as [|n IH]; intros l Hn; simpl; [lia|].
        destruct l as [|x l]; simpl in *; [lia|].
        destruct (is_ws x); simpl in *; [apply IH; lia|lia]. }
      rewrite G by lia. reflexivity. }
    rewrite W. lia.
  - f_equal. exact (back_id s _ E).
Qed.

Definition float_len (l : bytes) : nat :=
  let n := num_len l in
  match skipn n l with
  | x :: r => if Nat.eqb n 0 then 0
              else if N.eqb x 46 then n + 1 + span is_digit r else 0
  | [] => 0
  end.
Definition float_f (l : bytes) : option (nat * nat) :=
  if Nat.eqb (float_len l) 0 then None else float_tail (float_len l) l.

Lemma float_len_le l : float_len l <= List.length l.
Proof.
  unfold float_len. cbv zeta. pose proof (num_len_le l).
  destruct (skipn (num_len l) l) as [|x r] eqn:E; [lia|].
  pose proof (skipn_length (num_len l) l) as HL. rewrite E in HL. simpl in HL.
  pose proof (span_le is_digit r).
  destruct (Nat.eqb _ 0); [lia|]. destruct (N.eqb x 46); lia.
Qed.

Lemma float_exec s : in_doc s -> p_eaten s = p_pos s ->
  float s =
  match float_f (rem s) with
  | Some (a, k) => (ROk (trim_end_dot0 (utf8_lossy (firstn a (rem s)))), set_pos (p_pos s + k) s)
  | None => (RErr Mismatch, s)
  end.
Proof.
  intros H E. unfold float, float_f, float_len. cbv zeta. bnd.
  rewrite num_prefix_exec by assumption.
  set (n := num_len (rem s)).
  assert (Hn : n <= List.length (rem s)) by apply num_len_le.
  destruct (Nat.eqb_spec n 0) as [N0|N0].
  { destruct (skipn n (rem s)); reflexivity. }
  set (s1 := set_pos (p_pos s + n) s).
  assert (H1 : in_doc s1) by (apply in_doc_add; assumption).
  assert (R1 : rem s1 = skipn n (rem s)) by apply rem_add.
  assert (BK : set_pos (p_eaten s1) s1 = s) by (apply back_id; assumption).
  bnd. rewrite sym_exec by assumption. rewrite R1.
  destruct (skipn n (rem s)) as [|x r] eqn:Ex; [now rewrite BK|].
  destruct (N.eqb x 46) eqn:E46; [|now rewrite BK].
  set (d := span is_digit r).
  assert (Hd : n + 1 + d <= List.length (rem s)).
  { pose proof (skipn_length n (rem s)) as HL. rewrite Ex in HL. simpl in HL.
    pose proof (span_le is_digit r). fold d in H0. lia. }
  set (s2 := set_pos (p_pos s1 + 1) s1).
  assert (H2 : in_doc s2) by (apply in_doc_add; [rewrite R1; simpl; lia|assumption]).
  assert (R2 : rem s2 = r) by (unfold s2; now rewrite rem_add, R1).
  bnd. rewrite more0_exec by assumption. rewrite R2. fold d.
  rewrite (proj2 (Nat.eqb_neq (n + 1 + d) 0)) by lia.
  replace (set_pos (p_pos s2 + d) s2) with (set_pos (p_pos s + (n + 1 + d)) s)
    by (subst s2 s1; unfold set_pos; simpl; f_equal; lia).
  bnd. rewrite text_exec by (apply in_doc_add; assumption).
  cbn [p_pos p_eaten p_doc set_pos]. rewrite slice_rem by assumption.
  rewrite float_tail_exec by assumption.
  assert (FT : forall a l p, float_tail a l = Some p -> fst p = a).
  { intros a l p. unfold float_tail. cbv zeta. destruct (at_bound _); [|discriminate].
    now intros [= <-]. }
  destruct (float_tail (n + 1 + d) (rem s)) as [[a k]|] eqn:F; [|reflexivity].
  apply FT in F. simpl in F. now subst a.
Qed.

Definition sci_len (l : bytes) : nat :=
  let n := num_len l in
  if Nat.eqb n 0 then 0 else
  match skipn n l with
  | x :: r =>
    if is_in (lit "eE") x then
      let g := Nat.min 1 (span (is_in (lit "+-")) r) in
      let d := span is_digit (skipn g r) in
      if Nat.eqb d 0 then 0 else n + 1 + g + d
    else 0
  | [] => 0
  end.
Definition sci_f (l : bytes) : option (nat * nat) :=
  if Nat.eqb (sci_len l) 0 then None else float_tail (sci_len l) l.

Lemma sci_len_le l : sci_len l <= List.length l.
Proof.
  unfold sci_len. cbv zeta. pose proof (num_len_le l).
  destruct (Nat.eqb _ 0); [lia|].
  destruct (skipn (num_len l) l) as [|x r] eqn:E; [lia|].
  pose proof (skipn_length (num_len l) l) as HL. rewrite E in HL. simpl List.length in HL.
  destruct (is_in _ x); [|lia].
  set (g := Nat.min 1 (span (is_in (lit "+-")) r)).
  pose proof (span_le (is_in (lit "+-")) r).
  pose proof (span_le is_digit (skipn g r)) as HD. rewrite skipn_length in HD.
  destruct (Nat.eqb _ 0); lia.
Qed.

Lemma sci_float_exec s : in_doc s -> p_eaten s = p_pos s ->
  sci_float s =
  match sci_f (rem s) with
  | Some (a, k) => (ROk (utf8_lossy (firstn a (rem s))), set_pos (p_pos s + k) s)
  | None => (RErr Mismatch, s)
  end.
Proof.
  intros H E. unfold sci_float, sci_f, sci_len. cbv zeta. bnd.
  rewrite num_prefix_exec by assumption.
  set (n := num_len (rem s)).
  assert (Hn : n <= List.length (rem s)) by apply num_len_le.
  destruct (Nat.eqb_spec n 0) as [N0|N0].
  { destruct (skipn n (rem s)); reflexivity. }
  set (s1 := set_pos (p_pos s + n) s).
  assert (H1 : in_doc s1) by (apply in_doc_add; assumption).
  assert (R1 : rem s1 = skipn n (rem s)) by apply rem_add.
  assert (BK : forall p, set_pos (p_eaten (set_pos p s1)) (set_pos p s1) = s).
  { intros p. exact (back_id s p E). }
  assert (BK0 : set_pos (p_eaten s1) s1 = s).
  { specialize (BK (p_pos s1)). rewrite set_pos_id in BK. exact BK. }
  bnd. unfold sym_set. rewrite one_exec by assumption. rewrite R1.
  destruct (skipn n (rem s)) as [|x r] eqn:Ex; [now rewrite BK0|].
  destruct (is_in (lit "eE") x) eqn:Ee; [|now rewrite BK0].
  set (s2 := set_pos (p_pos s1 + 1) s1).
  assert (H2 : in_doc s2) by (apply in_doc_add; [rewrite R1; simpl; lia|assumption]).
  assert (R2 : rem s2 = r) by (unfold s2; now rewrite rem_add, R1).
  bnd. rewrite take_while_exec by assumption. rewrite R2. cbn [least cap]. cbv zeta.
  set (g := Nat.min 1 (span (is_in (lit "+-")) r)).
  cbn [Nat.leb].
  assert (Hg : g <= List.length r).
  { pose proof (span_le (is_in (lit "+-")) r). lia. }
  set (s3 := set_pos (p_pos s2 + g) s2).
  assert (H3 : in_doc s3) by (apply in_doc_add; [now rewrite R2|assumption]).
  assert (R3 : rem s3 = skipn g r) by (unfold s3; now rewrite rem_add, R2).
  bnd. rewrite more_exec by assumption. rewrite R3.
  set (d := span is_digit (skipn g r)).
  destruct d as [|d'] eqn:Ed.
  { simpl. f_equal. exact (BK _). }
  cbn [Nat.leb Nat.eqb]. rewrite <- Ed.
  rewrite (proj2 (Nat.eqb_neq (n + 1 + g + d) 0)) by lia.
  assert (Hd : n + 1 + g + d <= List.length (rem s)).
  { pose proof (skipn_length n (rem s)) as HL. rewrite Ex in HL. simpl List.length in HL.
    pose proof (span_le is_digit (skipn g r)) as HD. rewrite skipn_length in HD.
    fold d in HD. lia. }
  replace (set_pos (p_pos s3 + d) s3) with (set_pos (p_pos s + (n + 1 + g + d)) s)
    by (subst s3 s2 s1; unfold set_pos; simpl; f_equal; lia).
  bnd. rewrite text_exec by (apply in_doc_add; assumption).
  cbn [p_pos p_eaten p_doc set_pos]. rewrite slice_rem by assumption.
  rewrite float_tail_exec by assumption.
  assert (FT : forall a l p, float_tail a l = Some p -> fst p = a).
  { intros a l p. unfold float_tail. cbv zeta. destruct (at_bound _); [|discriminate].
    now intros [= <-]. }
  destruct (float_tail (n + 1 + g + d) (rem s)) as [[a k]|] eqn:F; [|reflexivity].
  apply FT in F. simpl in F. now subst a.
Qed.

(** ** identifiers, anchors, aliases *)
Definition is_idc (c : N) : bool := is_alnum c || N.eqb c 45.
Definition ident_len (l : bytes) : nat :=
  match l with
  | x :: r => if is_alnum x then S (span is_idc r) else 0
  | [] => 0
  end.
Lemma ident_len_le l : ident_len l <= List.length l.
Proof. destruct l as [|x r]; simpl; [lia|]. pose proof (span_le is_idc r). destruct (is_alnum x); lia. Qed.

Lemma identifier_exec s : in_doc s ->
  identifier s =
  if Nat.eqb (ident_len (rem s)) 0 then (RErr Mismatch, set_pos (p_eaten s) s)
  else (ROk tt, set_pos (p_pos s + ident_len (rem s)) s).
Proof.
  intros H. unfold identifier. bnd. rewrite one_exec by assumption.
  unfold ident_len. destruct (rem s) as [|x r] eqn:E; [reflexivity|].
  destruct (is_alnum x); [|reflexivity].
  rewrite more0_exec by (apply in_doc_add; [rewrite E; simpl; lia|assumption]).
  rewrite rem_add, E. simpl skipn. fold is_idc.
  change (fun c => (is_alnum c || N.eqb c 45)%bool) with is_idc.
  unfold set_pos; simpl. do 2 f_equal. lia.
Qed.

Definition anchor_f (c : N) (l : bytes) : nat :=
  match l with x :: r => if N.eqb x c then ident_len r else 0 | [] => 0 end.

Lemma named_exec c s : in_doc s ->
  bind (sym c) (fun _ => context (bind identifier (fun _ => text))) s =
  let k := anchor_f c (rem s) in
  if Nat.eqb k 0
  then (RErr Mismatch,
        match rem s with
        | x :: _ => if N.eqb x c then set_pos (p_pos s + 1) s else set_pos (p_eaten s) s
        | [] => set_pos (p_eaten s) s
        end)
  else (ROk (utf8_lossy (firstn k (skipn 1 (rem s)))), set_pos (p_pos s + 1 + k) s).
Proof.
  intros H. bnd. rewrite sym_exec by assumption. unfold anchor_f. cbv zeta.
  destruct (rem s) as [|x r] eqn:E; [reflexivity|].
  destruct (N.eqb x c) eqn:Ec; [|reflexivity].
  set (s1 := set_pos (p_pos s + 1) s).
  assert (H1 : in_doc s1) by (apply in_doc_add; [rewrite E; simpl; lia|assumption]).
  assert (R1 : rem s1 = r) by (unfold s1; now rewrite rem_add, E).
  unfold context. set (s1' := set_eaten (p_pos s1) s1).
  assert (H1' : in_doc s1') by exact H1. assert (R1' : rem s1' = r) by exact R1.
  bnd. rewrite identifier_exec by assumption. rewrite R1'.
  destruct (Nat.eqb_spec (ident_len r) 0) as [I0|I0].
  - f_equal. 
  - rewrite text_exec by (apply in_doc_add; [rewrite R1'; apply ident_len_le|assumption]).
    cbn [p_pos p_eaten p_doc set_pos set_eaten].
    pose proof (slice_rem s1' (ident_len r) eq_refl) as SL. rewrite R1' in SL.
    change (p_eaten s1') with (p_pos s1) in SL.
    change (p_pos s1') with (p_pos s1) in *. change (p_doc s1') with (p_doc s1) in *.
    f_equal. f_equal. f_equal. exact SL.
Qed.
