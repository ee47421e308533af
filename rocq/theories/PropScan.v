(** * PropScan: the low-level sub-parsers (C02-C06, C17). *)
From Verif Require Export PropText Loader.
Open Scope nat_scope.

(** ** C02: [take_while] *)
(** The documented bounds of the options. *)
Definition at_least (o : take_opt) : nat :=
  match o with One => 1 | Range a _ => a | More a => a end.
Definition at_most (o : take_opt) : option nat :=
  match o with One => Some 1 | Range _ b => Some b | More _ => None end.

(** The longest run of bytes satisfying [f], no longer than the upper bound:
    nothing more can be taken. *)
Definition greedy (f : N -> bool) (o : take_opt) (taken rest : bytes) : Prop :=
  Forall (fun c => f c = true) taken
  /\ match at_most o with Some b => List.length taken <= b | None => True end
  /\ (at_most o = Some (List.length taken)
      \/ match rest with [] => True | c :: _ => f c = false end).

(** For every option but Range(_, 0), take_while takes greedily; it succeeds
    exactly when the minimum was reached, otherwise the cursor returns to the
    checkpoint. *)
Theorem C02_take_while_greedy : forall f o s,
  p_pos s <= List.length (p_doc s) -> (forall a, o <> Range a 0) ->
  exists taken rest,
    skipn (p_pos s) (p_doc s) = taken ++ rest /\ greedy f o taken rest
    /\ take_while f o s =
       if Nat.leb (at_least o) (List.length taken)
       then (ROk tt, set_pos (p_pos s + List.length taken) s)
       else (RErr Mismatch, set_pos (p_eaten s) s).
Proof.
  intros f o s H Ho. pose proof (take_while_exec f o s H) as E. cbv zeta in E.
  set (k := cap o (span f (rem s))) in *.
  assert (Hk : k <= span f (rem s)) by apply cap_le.
  pose proof (span_le f (rem s)) as Hs.
  exists (firstn k (rem s)), (skipn k (rem s)).
  split; [symmetry; apply firstn_skipn|].
  assert (HL : List.length (firstn k (rem s)) = k) by (rewrite firstn_length; lia).
  rewrite HL. split; [|exact E]. unfold greedy. rewrite HL. split; [|split].
  - apply Forall_forall. intros x Hx.
    pose proof (span_forall f (rem s)) as F. rewrite forallb_forall in F. apply F.
    replace (span f (rem s)) with (k + (span f (rem s) - k)) by lia.
    rewrite firstn_add. apply in_or_app. now left.
  - destruct o as [|a b|a]; cbn [at_most]; [|destruct b as [|b]; [exfalso; now apply (Ho a)|]|exact I];
      subst k; cbn [cap]; lia.
  - destruct (Nat.eq_dec k (span f (rem s))) as [Ek|Ek].
    + right. rewrite Ek. destruct (skipn (span f (rem s)) (rem s)) eqn:Es; [exact I|].
      eapply span_next. exact Es.
    + left. destruct o as [|a b|a]; cbn [at_most].
      * f_equal. subst k. cbn [cap] in *. lia.
      * destruct b as [|b]; [exfalso; now apply (Ho a)|]. f_equal. subst k. cbn [cap] in *. lia.
      * subst k. cbn [cap] in *. lia.
Qed.
(** Range(a, 0) has no upper bound (the documented {a,0} would take nothing). *)
Theorem C02_range_zero_refuted : forall f a s,
  p_pos s <= List.length (p_doc s) ->
  take_while f (Range a 0) s = take_while f (More a) s.
Proof.
  intros f a s H. rewrite !take_while_exec by exact H. reflexivity.
Qed.
Example C02_witness :
  let s := new_st (fun _ => 0%N) false (lit "aaab") in
  take_while (fun c => N.eqb c 97) (Range 1 2) s = (ROk tt, set_pos 2 s)
  /\ take_while (fun c => N.eqb c 97) (More 4) s = (RErr Mismatch, set_pos 0 s)
  /\ p_pos (snd (take_while (fun c => N.eqb c 97) (Range 0 0) s)) = 3.
Proof. vm_compute. auto. Qed.

(** ** C05: [doc_end] *)
Theorem C05_doc_end_lookahead : forall s, p_pos s <= List.length (p_doc s) ->
  exists b, doc_end s = (ROk b, s)
    /\ (b = true <-> let r := skipn (p_pos s) (p_doc s) in
          r = [] \/ (exists t, r = (lit "---" ++ t)%list) \/ (exists t, r = (lit "..." ++ t)%list)).
Proof.
  intros s H. unfold doc_end, bind at 1. rewrite (food_exec s H). fold (rem s). cbv zeta.
  destruct (rem s) as [|x r] eqn:E.
  - exists true. split; [reflexivity|]. split; auto.
  - rewrite <- E. set (l := rem s) in *.
    unfold context. set (s0 := set_eaten (p_pos s) s).
    assert (H0 : in_doc s0) by exact H.
    assert (R0 : rem s0 = l) by reflexivity.
    assert (B0 : set_pos (p_eaten s0) s0 = s0) by (destruct s; reflexivity).
    assert (E0 : set_eaten (p_eaten s) s0 = s) by (destruct s; reflexivity).
    unfold bind at 1, orM, bind at 1.
    rewrite (is_ok_eq _ _ _ (sym_seq_exec (lit "---") s0 H0)), R0.
    destruct (starts_with (lit "---") l) eqn:S1.
    + exists true. split.
      * cbn. f_equal. destruct s; reflexivity.
      * apply starts_with_app in S1. split; auto.
    + rewrite B0, (is_ok_eq _ _ _ (sym_seq_exec (lit "...") s0 H0)), R0.
      destruct (starts_with (lit "...") l) eqn:S2.
      * exists true. split.
        -- cbn. f_equal. destruct s; reflexivity.
        -- apply starts_with_app in S2. split; auto.
      * exists false. split.
        -- rewrite B0. cbn. f_equal. exact E0.
        -- split; [discriminate|]. intros [K|[K|K]].
           ++ congruence.
           ++ apply starts_with_app in K. congruence.
           ++ apply starts_with_app in K. congruence.
Qed.
Example C05_witness :
  let s := set_pos 2 (new_st (fun _ => 0%N) false (lit "a" ++ [10%N] ++ lit "---")) in
  doc_end s = (ROk true, s).
Proof. vm_compute. reflexivity. Qed.

(** ** C06: indentation *)
(** Width recorded for a level; 2 for a level not recorded. *)
Definition width (tbl : list nat) (i : nat) : nat := nth i tbl 2.
(** Width of levels 0..level. *)
Fixpoint depth (tbl : list nat) (level : nat) : nat :=
  match level with
  | 0 => width tbl 0
  | S l => depth tbl l + width tbl (S l)
  end.

Lemma ind_norm_length level l : List.length (ind_norm level l) = level + 1.
Proof.
  unfold ind_norm. destruct (Nat.leb_spec (List.length l) level).
  - rewrite app_length, repeat_length. lia.
  - rewrite firstn_length. lia.
Qed.
Lemma ind_norm_width level l i : i <= level -> width (ind_norm level l) i = width l i.
Proof.
  intros Hi. unfold width, ind_norm. destruct (Nat.leb_spec (List.length l) level).
  - destruct (le_lt_dec (List.length l) i) as [L|L].
    + rewrite app_nth2 by lia. rewrite (nth_overflow l) by lia.
      destruct (nth_in_or_default (i - List.length l) (repeat 2 (level - List.length l + 1)) 2) as [K|K];
        [|exact K]. apply repeat_spec in K. exact K.
    + rewrite app_nth1 by lia. reflexivity.
  - rewrite <- (firstn_skipn (level + 1) l) at 2.
    rewrite app_nth1 by (rewrite firstn_length; lia). reflexivity.
Qed.
Lemma depth_ext a b level : (forall i, i <= level -> width a i = width b i) ->
  depth a level = depth b level.
Proof.
  intros H. induction level as [|l IH]; cbn [depth]; [apply H; lia|].
  rewrite IH, (H (S l)) by (intros; (apply H; lia) || lia). reflexivity.
Qed.
Lemma list_sum_app a b : list_sum (a ++ b) = list_sum a + list_sum b.
Proof. unfold list_sum. induction a as [|x a IH]; simpl; [reflexivity|]. rewrite IH. lia. Qed.
Lemma list_sum_depth l : forall level, List.length l = level + 1 -> list_sum l = depth l level.
Proof.
  induction l as [|x l IH] using rev_ind; intros level HL; [simpl in HL; lia|].
  rewrite app_length in HL. simpl in HL. rewrite list_sum_app.
  destruct level as [|level].
  - destruct l; [|simpl in HL; lia]. simpl. unfold width; simpl. lia.
  - cbn [depth]. rewrite (IH level) by lia. f_equal.
    + apply depth_ext. intros i Hi. unfold width. now rewrite app_nth1 by lia.
    + unfold width. rewrite app_nth2 by lia. replace (S level - List.length l) with 0 by lia.
      simpl. lia.
Qed.
Lemma ind_width_depth level s : ind_width level s = depth (p_indent s) level.
Proof.
  unfold ind_width, ind_table. rewrite firstn_all2 by (rewrite ind_norm_length; lia).
  rewrite (list_sum_depth _ level) by apply ind_norm_length.
  apply depth_ext. intros i Hi. now apply ind_norm_width.
Qed.
Lemma sp_len_spec n l : Nat.leb n (sp_len l) = true <-> exists r, l = repeat 32%N n ++ r.
Proof.
  rewrite Nat.leb_le. revert l; induction n as [|n IH]; intros l; simpl.
  - split; [eauto|lia].
  - unfold sp_len. destruct l as [|x l]; simpl.
    + split; [lia|intros [r [=]]].
    + destruct (N.eqb_spec x 32) as [->|Hx]; fold (sp_len l).
      * split.
        -- intros K. destruct (proj1 (IH l)) as [r ->]; [lia|]. eauto.
        -- intros [r [= ->]]. apply le_n_S, IH. eauto.
      * split; [lia|]. intros [r [= -> ?]]. congruence.
Qed.

(** ind(level) wants exactly the recorded width of levels 0..level in spaces; the
    table keeps these levels and forgets deeper ones. *)
Theorem C06_ind_exact : forall level s, p_pos s <= List.length (p_doc s) ->
  let w := depth (p_indent s) level in
  exists tbl,
    List.length tbl = level + 1
    /\ (forall i, i <= level -> width tbl i = width (p_indent s) i)
    /\ ((exists r, skipn (p_pos s) (p_doc s) = repeat 32%N w ++ r)
        /\ ind level s = (ROk tt, set_pos (p_pos s + w) (set_indent tbl s))
       \/ (forall r, skipn (p_pos s) (p_doc s) <> repeat 32%N w ++ r)
          /\ ind level s = (RErr Mismatch, set_pos (p_eaten s) (set_indent tbl s))).
Proof.
  intros level s H w. exists (ind_table level s).
  split; [apply ind_norm_length|]. split; [intros i Hi; now apply ind_norm_width|].
  pose proof (ind_exec level s H) as E. rewrite ind_width_depth in E. fold w in E.
  destruct (Nat.leb w (sp_len (rem s))) eqn:L.
  - left. split; [|exact E]. now apply sp_len_spec.
  - right. split; [|exact E]. intros r Er.
    assert (K : Nat.leb w (sp_len (rem s)) = true) by (apply sp_len_spec; eauto). congruence.
Qed.

Lemma list_set_length l i v : List.length (list_set l i v) = List.length l.
Proof. revert i; induction l as [|x l IH]; intros [|i]; simpl; auto. Qed.

Lemma inv_exec s : in_doc s ->
  take_while is_ascii_ws (More 0) s = (ROk tt, set_pos (p_pos s + span is_ascii_ws (rem s)) s).
Proof. apply more0_exec. Qed.

Lemma count_inv_exec s : in_doc s ->
  count (take_while is_ascii_ws (More 0)) s
  = (ROk (span is_ascii_ws (rem s)), set_pos (p_pos s + span is_ascii_ws (rem s)) s).
Proof.
  intros H. unfold count, bind, gets. rewrite inv_exec by exact H. simpl.
  rewrite (proj2 (Nat.leb_le _ _)) by lia. do 2 f_equal. lia.
Qed.

(** ind_define(level): the indentation of the enclosing levels, then the white
    space of this level is measured, consumed and recorded.  It never panics. *)
Theorem C06_ind_define_records : forall level s, p_pos s <= List.length (p_doc s) ->
  p_indent s <> [] ->
  let outer := match level with 0 => 0 | S l => depth (p_indent s) l end in
  match ind_define level s with
  | (ROk _, s') =>
    exists rest k tbl,
      skipn (p_pos s) (p_doc s) = repeat 32%N outer ++ rest
      /\ k = span is_ascii_ws rest
      /\ s' = set_pos (p_pos s + outer + k) (set_indent tbl s)
      /\ width tbl level = k
      /\ level < List.length tbl
      /\ (forall i, i < level -> width tbl i = width (p_indent s) i)
  | (RErr Mismatch, s') =>
    (forall r, skipn (p_pos s) (p_doc s) <> repeat 32%N outer ++ r) /\ p_pos s' = p_eaten s
  | _ => False
  end.
Proof.
  intros level s H Hne outer. unfold ind_define.
  destruct level as [|l].
  - cbn [Nat.ltb Nat.leb]. unfold bind at 1, ret. unfold bind at 1.
    rewrite (count_inv_exec s H).
    destruct (p_indent s) as [|x t] eqn:Et; [congruence|].
    cbn [p_indent set_pos]. rewrite Et. cbn [List.length Nat.eqb Nat.ltb Nat.leb list_set].
    exists (rem s), (span is_ascii_ws (rem s)), (span is_ascii_ws (rem s) :: t).
    repeat split; auto.
    + unfold set_pos, set_indent; simpl. f_equal. subst outer. lia.
    + simpl; lia.
    + intros i Hi; lia.
  - cbn [Nat.ltb Nat.leb]. replace (S l - 1) with l by lia.
    destruct (C06_ind_exact l s H) as (tbl & HL & HW & [((r & Er) & Ei)|(Hno & Ei)]).
    + unfold bind at 1. rewrite Ei.
      fold outer in Er. change (depth (p_indent s) l) with outer.
      set (s1 := set_pos (p_pos s + outer) (set_indent tbl s)).
      assert (R1 : rem s1 = r).
      { unfold rem, s1. cbn [p_pos p_doc set_pos set_indent]. rewrite <- skipn_add, Er.
        rewrite skipn_app, skipn_all2 by (rewrite repeat_length; lia).
        rewrite repeat_length, Nat.sub_diag. reflexivity. }
      assert (H1 : in_doc s1).
      { unfold in_doc, s1; cbn [p_pos p_doc set_pos set_indent].
        apply (f_equal (@List.length N)) in Er. rewrite skipn_length, app_length, repeat_length in Er.
        destruct outer; lia. }
      unfold bind at 1. rewrite (count_inv_exec s1 H1), R1.
      cbn [p_indent set_pos]. change (p_indent s1) with tbl. rewrite HL.
      replace (l + 1) with (S l) by lia. rewrite Nat.eqb_refl.
      exists r, (span is_ascii_ws r), (tbl ++ [span is_ascii_ws r]).
      repeat split; auto.
      * unfold width. rewrite app_nth2 by lia. replace (S l - List.length tbl) with 0 by lia. reflexivity.
      * rewrite app_length. simpl. lia.
      * intros i Hi. unfold width in *. rewrite app_nth1 by lia. apply HW. lia.
    + unfold bind at 1. rewrite Ei. split; [exact Hno|reflexivity].
Qed.
Example C06_witness :
  let s := set_indent [0; 4] (set_pos 2 (new_st (fun _ => 0%N) false (lit "a" ++ [10%N] ++ lit "      - b"))) in
  depth (p_indent s) 2 = 6 /\ p_pos (snd (ind 2 s)) = 8
  /\ p_indent (snd (ind_define 2 s)) = [0; 4; 2].
Proof. vm_compute. auto. Qed.
