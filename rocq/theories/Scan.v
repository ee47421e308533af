(** * Scan: how the low-level sub-parsers act on the remaining input (lemmas).

    [rem s] is what [food] shows.  Each lemma [x_exec] gives the exact result
    of a sub-parser as a function of [rem s]. *)
From Verif Require Export Grammar.
From Coq Require Export Arith.
Open Scope nat_scope.

Definition rem (s : st) : bytes := skipn (p_pos s) (p_doc s).
Definition in_doc (s : st) : Prop := p_pos s <= List.length (p_doc s).

(** ** Setters *)
Lemma set_pos_id s : set_pos (p_pos s) s = s.
Proof. destruct s; reflexivity. Qed.
Lemma set_eaten_id s : set_eaten (p_eaten s) s = s.
Proof. destruct s; reflexivity. Qed.
Lemma set_indent_id s : set_indent (p_indent s) s = s.
Proof. destruct s; reflexivity. Qed.

(** ** Lists *)
Lemma skipn_add {A} (a b : nat) (l : list A) : skipn b (skipn a l) = skipn (a + b) l.
Proof.
  revert l; induction a as [|a IH]; intros l; simpl; [reflexivity|].
  destruct l; simpl; [now rewrite skipn_nil|apply IH].
Qed.

Lemma skipn_cons_lt {A} (p : nat) (l : list A) x r :
  skipn p l = x :: r -> p < List.length l /\ skipn (S p) l = r.
Proof.
  revert l; induction p as [|p IH]; intros [|y l]; simpl; intros H; try discriminate.
  - injection H as -> ->. split; [lia|reflexivity].
  - destruct (IH _ H). split; [lia|assumption].
Qed.

Lemma skipn_nil_ge {A} (p : nat) (l : list A) :
  skipn p l = [] -> p <= List.length l -> p = List.length l.
Proof.
  intros H Hp. pose proof (skipn_length p l) as HL. rewrite H in HL. simpl in HL. lia.
Qed.

Lemma rem_length s : List.length (rem s) = List.length (p_doc s) - p_pos s.
Proof. unfold rem. apply skipn_length. Qed.

(** ** [span]: length of the longest prefix satisfying [f] *)
Fixpoint span (f : N -> bool) (l : bytes) : nat :=
  match l with
  | [] => 0
  | c :: r => if f c then S (span f r) else 0
  end.

Lemma span_le f l : span f l <= List.length l.
Proof. induction l as [|c r IH]; simpl; [lia|]. destruct (f c); lia. Qed.

Lemma span_forall f l : forallb f (firstn (span f l) l) = true.
Proof.
  induction l as [|c r IH]; simpl; [reflexivity|].
  destruct (f c) eqn:E; simpl; [now rewrite E, IH|reflexivity].
Qed.

Lemma span_next f l x r : skipn (span f l) l = x :: r -> f x = false.
Proof.
  induction l as [|c l IH]; simpl; [discriminate|].
  destruct (f c) eqn:E; simpl; [apply IH|]. intros [= -> ->]. exact E.
Qed.

Lemma span_app f a b :
  forallb f a = true -> match b with [] => True | x :: _ => f x = false end ->
  span f (a ++ b) = List.length a.
Proof.
  induction a as [|c a IH]; simpl; intros Ha Hb.
  - destruct b as [|x b]; simpl; [reflexivity|]. now rewrite Hb.
  - apply andb_true_iff in Ha as [Hc Ha]. rewrite Hc. f_equal. auto.
Qed.

Lemma span_zero f l : (match l with [] => True | x :: _ => f x = false end) -> span f l = 0.
Proof. destruct l; simpl; [reflexivity|]. now intros ->. Qed.

Lemma span_pos f x l : f x = true -> span f (x :: l) = S (span f l).
Proof. simpl. now intros ->. Qed.

(** [take_loop] takes the span, capped *)
Definition cap (opt : take_opt) (k : nat) : nat :=
  match opt with
  | One => Nat.min 1 k
  | Range _ 0 => k
  | Range _ m => Nat.min m k
  | More _ => k
  end.

Lemma take_loop_more f c n l : take_loop f (More c) n l = n + span f l.
Proof.
  revert n; induction l as [|x r IH]; intros n; simpl; [lia|].
  destruct (f x); simpl; [rewrite IH; lia|lia].
Qed.
Lemma take_loop_range f c m n l :
  n < m -> take_loop f (Range c m) n l = Nat.min m (n + span f l).
Proof.
  revert n; induction l as [|x r IH]; intros n Hn; cbn [take_loop span]; [lia|].
  destruct (f x); cbn [negb]; [|lia]. cbv zeta.
  destruct (Nat.eqb_spec (S n) m) as [<-|Hne]; [lia|].
  rewrite IH by lia. lia.
Qed.
Lemma take_loop_range0 f c n l : take_loop f (Range c 0) n l = n + span f l.
Proof.
  revert n; induction l as [|x r IH]; intros n; simpl; [lia|].
  destruct (f x); simpl; [rewrite IH; lia|lia].
Qed.
Lemma take_loop_cap f opt l : take_loop f opt 0 l = cap opt (span f l).
Proof.
  destruct opt as [|c m|c].
  - destruct l as [|x r]; simpl; [reflexivity|]. destruct (f x); simpl; lia.
  - destruct m as [|m]; [apply take_loop_range0|].
    rewrite take_loop_range by lia. simpl. reflexivity.
  - now rewrite take_loop_more.
Qed.
Lemma cap_le opt k : cap opt k <= k.
Proof. destruct opt as [|c [|m]|c]; cbn [cap]; lia. Qed.

Definition least (opt : take_opt) : nat :=
  match opt with One => 1 | Range c _ => c | More c => c end.

Lemma food_exec s : in_doc s -> food s = (ROk (rem s), s).
Proof. unfold in_doc, food, rem. intros H. apply Nat.leb_le in H. now rewrite H. Qed.

Lemma take_while_exec f opt s : in_doc s ->
  take_while f opt s =
  let k := cap opt (span f (rem s)) in
  if Nat.leb (least opt) k then (ROk tt, set_pos (p_pos s + k) s)
  else (RErr Mismatch, set_pos (p_eaten s) s).
Proof.
  intros H. unfold take_while, bind at 1. rewrite (food_exec _ H).
  rewrite take_loop_cap. cbv zeta.
  set (k := cap opt (span f (rem s))).
  unfold bind, modify.
  destruct (Nat.eqb_spec k 0) as [E|E].
  - rewrite E. destruct opt as [|[|c] m|[|c]]; simpl; reflexivity.
  - destruct opt as [|c m|c]; simpl.
    + unfold ret. subst k. simpl in *. destruct (span f (rem s)); simpl in *; [lia|reflexivity].
    + destruct (Nat.ltb_spec k c), (Nat.leb_spec c k); try lia; reflexivity.
    + destruct (Nat.ltb_spec k c), (Nat.leb_spec c k); try lia; reflexivity.
Qed.

Lemma more_exec f c s : in_doc s ->
  take_while f (More c) s =
  if Nat.leb c (span f (rem s)) then (ROk tt, set_pos (p_pos s + span f (rem s)) s)
  else (RErr Mismatch, set_pos (p_eaten s) s).
Proof. intros H. rewrite take_while_exec by assumption. reflexivity. Qed.

Lemma more0_exec f s : in_doc s ->
  take_while f (More 0) s = (ROk tt, set_pos (p_pos s + span f (rem s)) s).
Proof. intros H. now rewrite more_exec. Qed.

Lemma one_exec f s : in_doc s ->
  take_while f One s =
  match rem s with
  | c :: _ => if f c then (ROk tt, set_pos (p_pos s + 1) s)
              else (RErr Mismatch, set_pos (p_eaten s) s)
  | [] => (RErr Mismatch, set_pos (p_eaten s) s)
  end.
Proof.
  intros H. rewrite take_while_exec by assumption. cbv zeta.
  destruct (rem s) as [|c r]; simpl; [reflexivity|]. now destruct (f c).
Qed.

Lemma is_in_cons x l c : is_in (x :: l) c = (N.eqb c x || is_in l c)%bool.
Proof. unfold is_in. simpl. now destruct (N.eqb c x). Qed.
Lemma is_in_one x c : is_in [x] c = N.eqb c x.
Proof. rewrite is_in_cons. unfold is_in; simpl. now rewrite orb_false_r. Qed.
Lemma is_in_spec l c : is_in l c = true <-> In c l.
Proof.
  induction l as [|x l IH]; [unfold is_in; simpl; split; [discriminate|tauto]|].
  rewrite is_in_cons, orb_true_iff, IH, N.eqb_eq. simpl. intuition congruence.
Qed.
Lemma not_in_spec l c : not_in l c = true <-> ~ In c l.
Proof.
  pose proof (is_in_spec l c) as H. unfold is_in in H.
  destruct (not_in l c); simpl in H; intuition discriminate.
Qed.

Lemma sym_exec c s : in_doc s ->
  sym c s =
  match rem s with
  | x :: _ => if N.eqb x c then (ROk tt, set_pos (p_pos s + 1) s)
              else (RErr Mismatch, set_pos (p_eaten s) s)
  | [] => (RErr Mismatch, set_pos (p_eaten s) s)
  end.
Proof.
  intros H. unfold sym, sym_set. rewrite one_exec by assumption.
  destruct (rem s) as [|x r]; [reflexivity|]. now rewrite is_in_one.
Qed.

Lemma in_doc_add s k : k <= List.length (rem s) -> in_doc s -> in_doc (set_pos (p_pos s + k) s).
Proof. unfold in_doc. rewrite rem_length. simpl. lia. Qed.
Lemma rem_add s k : rem (set_pos (p_pos s + k) s) = skipn k (rem s).
Proof. unfold rem. simpl. now rewrite skipn_add. Qed.

Lemma starts_with_app p s : starts_with p s = true <-> exists r, s = p ++ r.
Proof.
  revert s; induction p as [|x p IH]; intros s; simpl.
  - split; [eauto|reflexivity].
  - destruct s as [|y s]; simpl.
    + split; [discriminate|intros [r [=]]].
    + rewrite andb_true_iff, N.eqb_eq, IH. split.
      * intros [-> [r ->]]. eauto.
      * intros [r [= -> ->]]. eauto.
Qed.

Lemma sym_seq_exec cs s : in_doc s ->
  sym_seq cs s =
  if starts_with cs (rem s) then (ROk tt, set_pos (p_pos s + List.length cs) s)
  else (RErr Mismatch, set_pos (p_eaten s) s).
Proof.
  revert s; induction cs as [|c cs IH]; intros s H.
  - simpl. unfold ret. now rewrite Nat.add_0_r, set_pos_id.
  - cbn [sym_seq]. unfold bind. rewrite (sym_exec c s H).
    destruct (rem s) as [|x r] eqn:E; simpl.
    + reflexivity.
    + rewrite (N.eqb_sym c x). destruct (N.eqb_spec x c) as [->|Hne]; simpl; [|reflexivity].
      rewrite IH by (apply in_doc_add; [rewrite E; simpl; lia|assumption]).
      rewrite rem_add, E. simpl.
      destruct (starts_with cs r); simpl; [|reflexivity].
      unfold set_pos; simpl. do 2 f_equal. lia.
Qed.

(** ** Line breaks *)
Definition nl_len (l : bytes) : nat :=
  match l with
  | 13%N :: 10%N :: _ => 2
  | 10%N :: 13%N :: _ => 2
  | 10%N :: _ => 1
  | 13%N :: _ => 1
  | _ => 0
  end.

Lemma nl_len_le l : nl_len l <= List.length l.
Proof.
  unfold nl_len. destruct l as [|x l]; [simpl; lia|].
  destruct l as [|y l];
    repeat match goal with |- context [match ?z with _ => _ end] => destruct z end;
    simpl; lia.
Qed.

Definition nl_len' (l : bytes) : nat :=
  if starts_with [13; 10]%N l then 2
  else if starts_with [10; 13]%N l then 2
  else match l with x :: _ => if (N.eqb x 10 || N.eqb x 13)%bool then 1 else 0 | [] => 0 end.
Lemma eqb_lit (x y : N) : (x =? y)%N = false -> x <> y.
Proof. intros H ->. now rewrite N.eqb_refl in H. Qed.
Lemma nl_len_alt l : nl_len l = nl_len' l.
Proof.
  unfold nl_len, nl_len'. destruct l as [|x l]; [reflexivity|].
  cbn [starts_with].
  destruct (N.eqb_spec 13 x) as [<-|H1].
  - destruct l as [|y l]; [reflexivity|]. cbn [starts_with].
    destruct (N.eqb_spec 10 y) as [<-|H2]; [reflexivity|].
    simpl. destruct y as [|[[[[]|[]|]|[[]|[]|]|]|[[[]|[]|]|[[]|[]|]|]|]]; try reflexivity.
    all: contradiction.
  - simpl andb. destruct (N.eqb_spec 10 x) as [<-|H2].
    + destruct l as [|y l]; [reflexivity|]. cbn [starts_with].
      destruct (N.eqb_spec 13 y) as [<-|H3]; [reflexivity|].
      simpl. destruct y as [|[[[[]|[]|]|[[]|[]|]|]|[[[]|[]|]|[[]|[]|]|]|]]; try reflexivity.
      all: contradiction.
    + simpl andb. rewrite (proj2 (N.eqb_neq x 10)) by congruence.
      rewrite (proj2 (N.eqb_neq x 13)) by congruence. simpl.
      destruct x as [|[[[[]|[]|]|[[]|[]|]|]|[[[]|[]|]|[[]|[]|]|]|]]; try reflexivity.
      all: contradiction.
Qed.

(** states that differ in the cursor only *)
Lemma set_pos_pos a b s : set_pos a (set_pos b s) = set_pos a s.
Proof. reflexivity. Qed.
Lemma set_eaten_eaten a b s : set_eaten a (set_eaten b s) = set_eaten a s.
Proof. reflexivity. Qed.

Lemma is_ok_eq {A} (m : M A) s r : m s = r ->
  is_ok m s = match r with
              | (ROk _, s') => (ROk true, s')
              | (RErr _, s') => (ROk false, s')
              | (RPanic, s') => (RPanic, s')
              | (RDiv, s') => (RDiv, s')
              end.
Proof. unfold is_ok. now intros ->. Qed.

Lemma nl_exec s : in_doc s ->
  nl s = if Nat.eqb (nl_len (rem s)) 0 then (RErr Mismatch, s)
         else (ROk tt, set_pos (p_pos s + nl_len (rem s)) s).
Proof.
  intros H. unfold nl, context.
  set (s0 := set_eaten (p_pos s) s).
  assert (H0 : in_doc s0) by exact H.
  assert (Hr : rem s0 = rem s) by reflexivity.
  assert (Hback : set_pos (p_eaten s0) s0 = s0) by (subst s0; destruct s; reflexivity).
  assert (Hend : set_eaten (p_eaten s) s0 = s) by (subst s0; destruct s; reflexivity).
  rewrite nl_len_alt. unfold nl_len'.
  unfold bind, orM, is_ok, bind.
  rewrite (sym_seq_exec _ _ H0), Hr.
  destruct (starts_with [13; 10]%N (rem s)) eqn:E1.
  { simpl. reflexivity. }
  rewrite Hback. rewrite (sym_seq_exec _ _ H0), Hr.
  destruct (starts_with [10; 13]%N (rem s)) eqn:E2.
  { simpl. reflexivity. }
  rewrite Hback. rewrite (sym_exec _ _ H0), Hr.
  destruct (rem s) as [|x r] eqn:E3.
  - rewrite Hback, (sym_exec _ _ H0), Hr, Hback. simpl. now rewrite Hend.
  - destruct (N.eqb x 10) eqn:E4; [reflexivity|].
    rewrite Hback, (sym_exec _ _ H0), Hr.
    destruct (N.eqb x 13) eqn:E5; [reflexivity|].
    rewrite Hback. simpl. now rewrite Hend.
Qed.
