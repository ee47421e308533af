(** * C56: what is printed tells the data apart *)
From Verif Require Export Debug PropHelper.
From Verif Require Import PropText InvLoader PropParse.
Open Scope N_scope.

(** ** Specification: [strip] (PropNode.v) forgets positions and tags only;
    characters are below 2^32 (in Rust below 0x110000). *)
Definition chars (s : str) : Prop := Forall (fun c => c < 2 ^ 32) s.
Inductive proper : yaml -> Prop :=
| PrNull : proper YNull
| PrBool b : proper (YBool b)
| PrInt s : chars s -> proper (YInt s)
| PrFloat s : chars s -> proper (YFloat s)
| PrStr s : chars s -> proper (YStr s)
| PrSeq l : Forall (fun n => proper (n_yaml n)) l -> proper (YSeq l)
| PrMap m : Forall (fun kv => proper (n_yaml (fst kv)) /\ proper (n_yaml (snd kv))) m -> proper (YMap m)
| PrAlias a : chars a -> proper (YAlias a).

(** ** One character *)
Lemma hex_digit_inj a b : a < 16 -> b < 16 -> hex_digit a = hex_digit b -> a = b.
Proof. unfold hex_digit. intros. destruct (N.ltb_spec a 10), (N.ltb_spec b 10); lia. Qed.
Lemma hex_digit_range a : a < 16 -> hex_digit a <> 125.
Proof. unfold hex_digit. intros. destruct (N.ltb_spec a 10); lia. Qed.
(** the value of a text of hexadecimal digits *)
Definition hex_val (c : N) : N := if c <? 58 then c - 48 else c - 87.
Lemma hex_val_digit a : a < 16 -> hex_val (hex_digit a) = a.
Proof. unfold hex_val, hex_digit. intros. destruct (N.ltb_spec a 10); [destruct (N.ltb_spec (48 + a) 58)|destruct (N.ltb_spec (87 + a) 58)]; lia. Qed.
Definition hex_read (l : str) : N := fold_left (fun v c => 16 * v + hex_val c) l 0.
Lemma show_hex_app f : forall n acc, show_hex f n acc = show_hex f n [] ++ acc.
Proof.
  induction f as [|f IH]; intros n acc; [reflexivity|]. cbn [show_hex]. destruct (n / 16 =? 0); [reflexivity|].
  rewrite (IH _ (hex_digit (n mod 16) :: acc)), (IH _ [hex_digit (n mod 16)]), <- app_assoc. reflexivity.
Qed.
Lemma hex_read_show f : forall n, n < 16 ^ N.of_nat f -> hex_read (show_hex f n []) = n.
Proof.
  induction f as [|f IH]; intros n Hn; [cbn in *; lia|]. cbn [show_hex]. pose proof (N.mod_lt n 16 ltac:(lia)) as Hm. pose proof (N.div_mod n 16 ltac:(lia)) as D.
  destruct (N.eqb_spec (n / 16) 0) as [E|E].
  - unfold hex_read. cbn [fold_left]. rewrite hex_val_digit by exact Hm. lia.
  - rewrite show_hex_app. unfold hex_read. rewrite fold_left_app. fold (hex_read (show_hex f (n / 16) [])). rewrite IH.
    + cbn [fold_left]. rewrite hex_val_digit by exact Hm. lia.
    + rewrite Nat2N.inj_succ, N.pow_succ_r' in Hn. apply N.div_lt_upper_bound; lia.
Qed.
Lemma show_hex_no_close f : forall n, ~ In 125 (show_hex f n []).
Proof.
  induction f as [|f IH]; intros n; [intros []|]. cbn [show_hex]. pose proof (N.mod_lt n 16 ltac:(lia)) as Hm. pose proof (hex_digit_range _ Hm).
  destruct (n / 16 =? 0); [intros [?|[]]; congruence|]. rewrite show_hex_app, in_app_iff. intros [K|[?|[]]]; [now apply IH in K|congruence].
Qed.
Lemma upto_close a : forall b r r', ~ In 125 a -> ~ In 125 b -> a ++ 125 :: r = b ++ 125 :: r' -> a = b /\ r = r'.
Proof.
  induction a as [|x a IH]; intros [|y b] r r' Ha Hb E; cbn in E.
  - now injection E.
  - injection E as <- _. exfalso. apply Hb. now left.
  - injection E as -> _. exfalso. apply Ha. now left.
  - injection E as -> E. apply IH in E as [-> ->]; [now split| |]; intros K; [apply Ha|apply Hb]; now right.
Qed.
(** The code of a character: either one character that is no quote and no
    backslash, or a backslash and more. *)
Inductive code (c : N) : str -> Prop :=
| Code1 : c <> 34 -> c <> 92 -> code c [c]
| Code0 : c = 0 -> code c [92; 48]
| Code9 : c = 9 -> code c [92; 116]
| Code10 : c = 10 -> code c [92; 110]
| Code13 : c = 13 -> code c [92; 114]
| Code34 : c = 34 -> code c [92; 34]
| Code92 : c = 92 -> code c [92; 92]
| CodeU : code c (92 :: 117 :: 123 :: show_hex 8 c [] ++ [125]).
Lemma debug_char_code uni c : code c (debug_char uni c).
Proof.
  unfold debug_char. destruct (N.eqb_spec c 0) as [->|]; [now constructor|]. destruct (N.eqb_spec c 9) as [->|]; [now constructor|].
  destruct (N.eqb_spec c 10) as [->|]; [now constructor|]. destruct (N.eqb_spec c 13) as [->|]; [now constructor|].
  destruct (N.eqb_spec c 34) as [->|]; [now constructor|]. destruct (N.eqb_spec c 92) as [->|]; [now constructor|].
  match goal with |- context [if ?b then [c] else _] => destruct b end; [now apply Code1|apply CodeU].
Qed.
Lemma code_prefix c d w v r r' : c < 2 ^ 32 -> d < 2 ^ 32 -> code c w -> code d v -> w ++ r = v ++ r' -> c = d /\ r = r'.
Proof.
  intros Hc Hd C D E.
  assert (U : forall a b r r', a < 2 ^ 32 -> b < 2 ^ 32 -> (show_hex 8 a [] ++ [125]) ++ r = (show_hex 8 b [] ++ [125]) ++ r' -> a = b /\ r = r').
  { clear. intros a b r r' Ha Hb E. rewrite <- !app_assoc in E. cbn [List.app] in E. apply upto_close in E as [E ->]; try apply show_hex_no_close.
    apply (f_equal hex_read) in E. change (2 ^ 32) with (16 ^ N.of_nat 8) in Ha, Hb. rewrite (hex_read_show 8 a Ha), (hex_read_show 8 b Hb) in E. now split. }
  inversion C; subst; inversion D; subst; cbn [List.app] in E; try discriminate; try (injection E as -> E; now split); try (injection E as -> E; now subst);
    try (injection E as E; exfalso; congruence).
  all: try (injection E as ->; now split).
  injection E as E. now apply U.
Qed.
Lemma quote_code c w : code c w -> exists x t, w = x :: t /\ x <> 34.
Proof. inversion 1; subst; eexists; eexists; (split; [reflexivity|assumption || discriminate]). Qed.
(** ** Strings: [debug_str] can be read off the front of a text *)
Lemma debug_str_prefix uni : forall s t r r', chars s -> chars t -> debug_str uni s ++ r = debug_str uni t ++ r' -> s = t /\ r = r'.
Proof.
  unfold debug_str. intros s t r r' Hs Ht E. cbn [List.app] in E. injection E as E. rewrite <- !app_assoc in E. cbn [List.app] in E. revert t Ht E.
  induction Hs as [|c s Hc Hs IH]; intros t Ht E; destruct Ht as [|d t Hd Ht]; cbn [flat_map List.app] in E.
  - injection E as ->. now split.
  - destruct (quote_code d _ (debug_char_code uni d)) as (x & w & Ew & Hx). rewrite Ew in E. cbn in E. injection E as <- _. congruence.
  - destruct (quote_code c _ (debug_char_code uni c)) as (x & w & Ew & Hx). rewrite Ew in E. cbn in E. injection E as -> _. congruence.
  - rewrite <- !app_assoc in E. apply (code_prefix c d) in E as [-> E]; try assumption; try apply debug_char_code. apply IH in E as [-> ->]; [now split|assumption].
Qed.
(** ** Data *)
Definition dn (uni : N -> bool) (n : node) : str := match n with Node _ _ x => lit "Node" ++ debug_yaml uni x end.
Definition de_ (uni : N -> bool) (kv : node * node) : str :=
  match kv with (Node _ _ k, Node _ _ x) => (lit "Node" ++ debug_yaml uni k) ++ lit ": " ++ (lit "Node" ++ debug_yaml uni x) end.
Definition stripn (n : node) : node := match n with Node _ _ x => Node 0 [] (strip x) end.
Definition stripe (kv : node * node) : node * node := match kv with (Node _ _ k, Node _ _ x) => (Node 0 [] (strip k), Node 0 [] (strip x)) end.
(** items that start with [N] and can be read off a text, between separators, up to a bracket *)
Lemma comma_prefix {A B} (show : A -> str) (key : A -> B) close : close <> 44 -> close <> 78 -> (forall a, exists t, show a = 78 :: t) ->
  forall l l' r r', Forall (fun a => forall a', In a' l' -> forall r r', show a ++ r = show a' ++ r' -> key a = key a' /\ r = r') l ->
  comma_sep (List.map show l) ++ close :: r = comma_sep (List.map show l') ++ close :: r' -> List.map key l = List.map key l' /\ r = r'.
Proof.
  intros H1 H2 Hs. induction l as [|a l IH]; intros l' r r' F E.
  - destruct l' as [|a' l']; [injection E as ->; now split|]. exfalso. destruct (Hs a') as [t Et]. cbn [List.map comma_sep] in E. rewrite Et in E. destruct (List.map show l'); cbn in E; injection E as K _; congruence.
  - inversion F as [|? ? Fa Fl]; subst. destruct l' as [|a' l'].
    + exfalso. destruct (Hs a) as [t Et]. cbn [List.map comma_sep] in E. rewrite Et in E. destruct (List.map show l); cbn in E; injection E as K _; congruence.
    + assert (Sp : forall (x : str) (xs : list str), comma_sep (x :: xs) = x ++ match xs with [] => [] | _ => lit ", " ++ comma_sep xs end) by (intros x [|]; [now rewrite app_nil_r|reflexivity]).
      cbn [List.map] in E. rewrite !Sp in E. rewrite <- !app_assoc in E. destruct (Fa a' (or_introl eq_refl) _ _ E) as [Ek Er]. cbn [List.map]. rewrite Ek.
      destruct l as [|b l]; destruct l' as [|b' l']; cbn [List.map] in Er.
      * cbn in Er. injection Er as ->. now split.
      * cbn in Er. injection Er as K _. congruence.
      * cbn in Er. injection Er as K _. congruence.
      * rewrite <- !app_assoc in Er. apply app_inv_head in Er. destruct (IH (b' :: l') r r') as [E1 E2].
        { clear - Fl. eapply Forall_impl; [|exact Fl]. intros x Hx y Hy. apply Hx. now right. }
        { exact Er. }
        split; [now rewrite E1|exact E2].
Qed.
Lemma debug_prefix uni : forall y y' r r', proper y -> proper y' -> debug_yaml uni y ++ r = debug_yaml uni y' ++ r' -> strip y = strip y' /\ r = r'.
Proof.
  assert (Q : forall s t r r', chars s -> chars t -> (debug_str uni s ++ lit ")") ++ r = (debug_str uni t ++ lit ")") ++ r' -> s = t /\ r = r').
  { intros s t r r' Hs Ht E. rewrite <- !app_assoc in E. apply debug_str_prefix in E as [-> E]; try assumption. injection E as ->. now split. }
  induction y as [| b | s | s | s | l IH | m IH | a] using yaml_ind2; intros y' r r' P P' E; destruct y' as [| b' | s' | s' | s' | l' | m' | a']; cbn [debug_yaml] in E; try discriminate E.
  - injection E as ->. now split.
  - destruct b, b'; cbn in E; try discriminate E; injection E as ->; now split.
  - apply (app_inv_head (lit "Int(")) in E. inversion P; inversion P'; subst. apply Q in E as [-> ->]; try assumption. now split.
  - apply (app_inv_head (lit "Float(")) in E. inversion P; inversion P'; subst. apply Q in E as [-> ->]; try assumption. now split.
  - apply (app_inv_head (lit "Str(")) in E. inversion P; inversion P'; subst. apply Q in E as [-> ->]; try assumption. now split.
  - rewrite <- !app_assoc in E. apply (app_inv_head (lit "Seq([")) in E. inversion P as [| | | | |? Pl| |]; inversion P' as [| | | | |? Pl'| |]; subst.
    change (lit "])" ++ r) with (93 :: 41 :: r) in E. change (lit "])" ++ r') with (93 :: 41 :: r') in E.
    destruct (comma_prefix (dn uni) stripn 93 ltac:(discriminate) ltac:(discriminate) ltac:(intros []; eexists; reflexivity) l l' (41 :: r) (41 :: r')) as [E1 E2].
    + rewrite Forall_forall in IH, Pl, Pl' |- *. intros [p t x] Hx [p' t' x'] Hx' r1 r2 E1. cbn [dn] in E1. rewrite <- !app_assoc in E1. apply app_inv_head in E1.
      destruct (IH _ Hx x' r1 r2 (Pl _ Hx) (Pl' _ Hx') E1) as [K ->]. split; [|reflexivity]. cbn [n_yaml] in K. cbn [stripn]. now rewrite K.
    + exact E.
    + injection E2 as ->. split; [|reflexivity]. cbn [strip]. f_equal. exact E1.
  - rewrite <- !app_assoc in E. apply (app_inv_head (lit "Map({")) in E. inversion P as [| | | | | |? Pm|]; inversion P' as [| | | | | |? Pm'|]; subst.
    change (lit "})" ++ r) with (125 :: 41 :: r) in E. change (lit "})" ++ r') with (125 :: 41 :: r') in E.
    destruct (comma_prefix (de_ uni) stripe 125 ltac:(discriminate) ltac:(discriminate) ltac:(intros [[] []]; eexists; reflexivity) m m' (41 :: r) (41 :: r')) as [E1 E2].
    + rewrite Forall_forall in IH, Pm, Pm' |- *. intros [[p t x] [p2 t2 x2]] Hx [[p' t' x'] [p2' t2' x2']] Hx' r1 r2 E1. cbn [de_] in E1. rewrite <- !app_assoc in E1. apply app_inv_head in E1.
      destruct (IH _ Hx) as [I1 I2]. destruct (Pm _ Hx) as [P1 P2]. destruct (Pm' _ Hx') as [P1' P2']. cbn [fst snd n_yaml] in *.
      destruct (I1 x' _ _ P1 P1' E1) as [K E3]. do 2 apply app_inv_head in E3. destruct (I2 x2' _ _ P2 P2' E3) as [K2 ->]. split; [|reflexivity]. cbn [stripe]. now rewrite K, K2.
    + exact E.
    + injection E2 as ->. split; [|reflexivity]. cbn [strip]. f_equal. exact E1.
  - apply (app_inv_head (lit "Alias(")) in E. inversion P; inversion P'; subst. apply Q in E as [-> ->]; try assumption. now split.
Qed.
(** Two nodes print the same exactly when they have the same data, written the
    same way (positions and tags do not show). *)
Theorem C56_debug_tells_apart : forall uni n n', proper (n_yaml n) -> proper (n_yaml n') ->
  (debug_node uni n = debug_node uni n' <-> strip (n_yaml n) = strip (n_yaml n')).
Proof.
  intros uni n n' P P'. unfold debug_node. split; intros E.
  - apply app_inv_head in E. destruct (debug_prefix uni (n_yaml n) (n_yaml n') [] [] P P') as [K _]; [now rewrite E|exact K].
  - f_equal. assert (S : forall y, debug_yaml uni (strip y) = debug_yaml uni y); [|now rewrite <- S, E, S].
    clear. induction y as [| b | s | s | s | l IH | m IH | a] using yaml_ind2; try reflexivity; cbn [strip debug_yaml]; do 3 f_equal; rewrite map_map; apply map_ext_in; rewrite Forall_forall in IH.
    + intros [p t x] Hx. f_equal. exact (IH _ Hx).
    + intros [[p t x] [p2 t2 x2]] Hx. destruct (IH _ Hx) as [I1 I2]. cbn [fst snd n_yaml] in I1, I2. now rewrite I1, I2.
Qed.
(** Hence nodes that print the same are equal (when their numbers are readable). *)
Theorem C56_debug_equal : forall uni n n', proper (n_yaml n) -> proper (n_yaml n') -> readable (n_yaml n) ->
  debug_node uni n = debug_node uni n' -> node_eq n n' = Some true.
Proof.
  intros uni n n' P P' R E. apply C56_debug_tells_apart in E; try assumption. unfold node_eq. rewrite <- (C28_eq_ignores_position_and_tag (n_yaml n) (n_yaml n')), <- E, C28_eq_ignores_position_and_tag.
  destruct (eq_decides _ R _ R) as (r & Er & K). rewrite Er. f_equal. apply K. now apply same_refl.
Qed.
(** What is printed is on one line: printable ASCII, and of the other characters
    only those the Unicode table calls printable; and ordinary text is shown as it is. *)
Definition shown (uni : N -> bool) (c : N) : Prop := 32 <= c < 127 \/ (127 < c /\ uni c = true).
Lemma shown_lit uni w : forallb (fun c => (32 <=? c) && (c <? 127)) w = true -> Forall (shown uni) w.
Proof.
  intros H. rewrite forallb_forall in H. apply Forall_forall. intros c Hc. apply H, andb_prop in Hc as [A B].
  apply N.leb_le in A. apply N.ltb_lt in B. now left.
Qed.
Lemma shown_hex uni f : forall n acc, Forall (shown uni) acc -> Forall (shown uni) (show_hex f n acc).
Proof.
  induction f as [|f IH]; intros n acc Ha; [exact Ha|]. cbn [show_hex].
  assert (K : Forall (shown uni) (hex_digit (n mod 16) :: acc)).
  { constructor; [|exact Ha]. left. pose proof (N.mod_lt n 16 ltac:(discriminate)) as Hd. generalize dependent (n mod 16). intros d Hd. unfold hex_digit. destruct (N.ltb_spec d 10); lia. }
  destruct (n / 16 =? 0); auto.
Qed.
Lemma shown_char uni c : Forall (shown uni) (debug_char uni c).
Proof.
  unfold debug_char. do 6 (match goal with |- context [if ?b then _ else _] => destruct b end; [now apply shown_lit|]).
  assert (U : Forall (shown uni) (lit "\u{" ++ show_hex 8 c [] ++ lit "}")).
  { apply Forall_app. split; [now apply shown_lit|]. apply Forall_app. split; [now apply shown_hex|now apply shown_lit]. }
  destruct (N.ltb_spec c 32); [exact U|]. destruct (N.ltb_spec c 127); [constructor; [left; lia|constructor]|].
  destruct (N.eqb_spec c 127); [exact U|]. destruct (uni c) eqn:E; [|exact U]. constructor; [right; split; [lia|exact E]|constructor].
Qed.
Lemma shown_str uni s : Forall (shown uni) (debug_str uni s).
Proof.
  unfold debug_str. constructor; [left; lia|]. apply Forall_app. split; [|now apply shown_lit].
  induction s as [|c s IH]; [constructor|]. cbn [flat_map]. apply Forall_app. split; [apply shown_char|exact IH].
Qed.
Lemma shown_commas uni l : Forall (Forall (shown uni)) l -> Forall (shown uni) (comma_sep l).
Proof.
  induction l as [|x l IH]; intros H; [constructor|]. inversion H as [|? ? H1 H2]; subst. destruct l as [|y l]; [exact H1|].
  change (comma_sep (x :: y :: l)) with (x ++ lit ", " ++ comma_sep (y :: l)).
  apply Forall_app. split; [exact H1|]. apply Forall_app. split; [now apply shown_lit|auto].
Qed.
Lemma shown_yaml uni : forall y, Forall (shown uni) (debug_yaml uni y).
Proof.
  induction y as [| | | | |l IH|m IH|a] using yaml_ind2; cbn [debug_yaml];
    try (now apply shown_lit); try (apply Forall_app; split; [now apply shown_lit|apply Forall_app; split; [apply shown_str|now apply shown_lit]]).
  - destruct b; now apply shown_lit.
  - apply Forall_app. split; [now apply shown_lit|]. apply Forall_app. split; [|now apply shown_lit]. apply shown_commas.
    rewrite Forall_forall in *. intros w Hw. apply in_map_iff in Hw as ([p t x] & <- & Hx). apply Forall_app. split; [now apply shown_lit|exact (IH _ Hx)].
  - apply Forall_app. split; [now apply shown_lit|]. apply Forall_app. split; [|now apply shown_lit]. apply shown_commas.
    rewrite Forall_forall in *. intros w Hw. apply in_map_iff in Hw as ([[p t x] [p2 t2 x2]] & <- & Hx). destruct (IH _ Hx) as [I1 I2].
    apply Forall_app. split; [apply Forall_app; split; [now apply shown_lit|exact I1]|]. apply Forall_app. split; [now apply shown_lit|].
    apply Forall_app; split; [now apply shown_lit|exact I2].
Qed.
Theorem C56_debug_printable : forall uni n c, In c (debug_node uni n) -> 32 <= c < 127 \/ (127 < c /\ uni c = true).
Proof.
  intros uni n c H. assert (K : Forall (shown uni) (debug_node uni n)).
  { unfold debug_node. apply Forall_app. split; [now apply shown_lit|apply shown_yaml]. }
  rewrite Forall_forall in K. exact (K c H).
Qed.
Theorem C56_ordinary_text : forall uni p t s,
  (forall c, In c s -> (32 <= c < 127 \/ (127 < c /\ uni c = true)) /\ c <> 34 /\ c <> 92) ->
  debug_node uni (Node p t (YStr s)) = lit "NodeStr(" ++ [34] ++ s ++ [34] ++ lit ")".
Proof.
  intros uni p t s H. unfold debug_node. cbn [n_yaml debug_yaml]. unfold debug_str.
  assert (E : flat_map (debug_char uni) s = s).
  { induction s as [|c s IH]; [reflexivity|]. cbn [flat_map]. rewrite IH by (intros x Hx; apply H; now right).
    destruct (H c (or_introl eq_refl)) as (A & B & C). unfold debug_char.
    rewrite (proj2 (N.eqb_neq c 0)), (proj2 (N.eqb_neq c 9)), (proj2 (N.eqb_neq c 10)), (proj2 (N.eqb_neq c 13)), (proj2 (N.eqb_neq c 34)), (proj2 (N.eqb_neq c 92)) by (destruct A as [A|[A _]]; lia).
    destruct (N.ltb_spec c 32); [destruct A as [A|[A _]]; lia|]. destruct (N.ltb_spec c 127); [reflexivity|].
    destruct A as [A|[A U]]; [lia|]. rewrite (proj2 (N.eqb_neq c 127)), U by lia. reflexivity. }
  rewrite E. rewrite <- app_comm_cons. cbn. now rewrite <- app_assoc.
Qed.
(** The text of an error of the parser gives back its name and its message: the
    names of the errors contain no colon. *)
Lemma upto_colon a : forall b r r', ~ In 58 a -> ~ In 58 b -> a ++ 58 :: r = b ++ 58 :: r' -> a = b /\ r = r'.
Proof.
  induction a as [|x a IH]; intros [|y b] r r' Ha Hb E; cbn in E.
  - now injection E.
  - injection E as <- _. exfalso. apply Hb. now left.
  - injection E as -> _. exfalso. apply Ha. now left.
  - injection E as -> E. apply IH in E as [-> ->]; [now split| |]; intros K; [apply Ha|apply Hb]; now right.
Qed.
Theorem C56_error_text : forall n1 m1 n2 m2, ~ In (chr ":") n1 -> ~ In (chr ":") n2 ->
  display_perr (Terminate n1 m1) = display_perr (Terminate n2 m2) -> n1 = n2 /\ m1 = m2.
Proof.
  intros n1 m1 n2 m2 H1 H2 E. unfold display_perr in E. apply app_inv_head in E. change (lit ": ") with [58; 32] in E. cbn [List.app] in E.
  apply upto_colon in E as [-> E]; try assumption. injection E as ->. now split.
Qed.
(** Those of the errors [parse] gives are such names, so the printed text of an
    error of [parse] determines it. *)
Theorem C56_parse_error_text : forall hk d1 d2 e1 e2, parse hk d1 = RErr e1 -> parse hk d2 = RErr e2 ->
  display_perr e1 = display_perr e2 -> e1 = e2.
Proof.
  assert (N : forall hk d nm msg, parse hk d = RErr (Terminate nm msg) -> ~ In (chr ":") nm).
  { intros hk d nm msg E. unfold parse, parse_bytes, load in E. destruct (parse_fuel _ _) as [r s] eqn:Ep. cbn [fst] in E. subst r.
    destruct (C24_errors_well_formed _ _ _ _ _ _ _ Ep) as [K _]. unfold error_names in K. cbn [In] in K.
    repeat (destruct K as [<-|K]; [vm_compute; intuition discriminate|]). destruct K. }
  intros hk d1 d2 e1 e2 E1 E2 E. destruct e1 as [|n1 m1], e2 as [|n2 m2]; [reflexivity|discriminate E|discriminate E|].
  apply C56_error_text in E as [-> ->]; [reflexivity| |]; eapply N; eassumption.
Qed.
(** The text of a serde error tells its message and, in decimal, its position. *)
Theorem C56_serde_error_text : forall uni msg pos,
  (exists ds, display_serde_error uni msg pos = lit "SerdeError { msg: " ++ debug_str uni msg ++ lit ", pos: " ++ ds ++ lit " }"
     /\ ds <> [] /\ forallb is_digit ds = true /\ digits_val 10 0 ds = Some (Z.of_N pos))
  /\ (forall msg' pos', chars msg -> chars msg' -> display_serde_error uni msg pos = display_serde_error uni msg' pos' -> msg = msg' /\ pos = pos').
Proof.
  intros uni msg pos. split.
  - exists (show_N pos). split; [reflexivity|]. split; [apply show_N_nonempty|]. split; [apply show_N_digits|apply digits_show_N].
  - intros msg' pos' C C' E. unfold display_serde_error in E. apply app_inv_head in E. apply debug_str_prefix in E as [-> E]; [|assumption..].
    split; [reflexivity|]. apply app_inv_head in E. apply app_inv_tail in E.
    pose proof (digits_show_N pos) as Hp. rewrite E, digits_show_N in Hp. injection Hp as Hp. now apply N2Z.inj.
Qed.
Example C56_witness :
  let n := Node 7 (lit "t") (YMap [(node_from (YStr (lit "a" ++ [34; 10; 233])), node_from (YSeq [node_from (YInt (lit "1")); node_from YNull]))]) in
  proper (n_yaml n) /\ readable (n_yaml n)
  /\ debug_node (fun _ => false) n = lit "NodeMap({NodeStr(" ++ [34] ++ lit "a\" ++ [34] ++ lit "\n\u{e9}" ++ [34] ++ lit "): NodeSeq([NodeInt(" ++ [34] ++ lit "1" ++ [34] ++ lit "), NodeNull])})"
  /\ exists e, parse (fun _ => 0) (lit "[a" ++ [10] ++ lit "]: b: *c") = RErr e.
Proof.
  cbv zeta. split; [repeat (constructor || split)|]. split; [|split; [vm_compute; reflexivity|eexists; vm_compute; reflexivity]].
  constructor. constructor; [|constructor]. split; [constructor|]. constructor. constructor; [apply (ReadInt _ 1); reflexivity|]. constructor; [constructor|constructor].
Qed.
