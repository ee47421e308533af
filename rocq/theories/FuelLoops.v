(** * FuelLoops: the loops of the sub-parsers of src/parser/base do not depend on
    their fuel (used by PropFuel).

    A loop either comes nearer to the end of the document with every round, or
    comes back to the state it started from; it then runs for ever. *)
From Verif Require Export PropTerm.
Open Scope nat_scope.

(** ** Loops in general *)
Section Iterate.
Context {X R : Type}.
Variable F : nat -> X -> R.
Variable step : X -> R + X.
Variable mu : X -> nat.
Variable I : X -> Prop.
Hypothesis F_S : forall n x, I x -> F (S n) x = match step x with inl r => r | inr x' => F n x' end.
Hypothesis next : forall x x', I x -> step x = inr x' -> I x' /\ (mu x' < mu x \/ step x' = inr x').
Lemma fixed_point x : I x -> step x = inr x -> forall n, F n x = F 0 x.
Proof. intros Hx Sx. induction n as [|n IH]; [reflexivity|]. now rewrite F_S, Sx. Qed.
Lemma iterate_enough : forall n n' x, I x -> mu x < n -> mu x < n' -> F n x = F n' x.
Proof.
  induction n as [|n IH]; intros n' x Ix Hn Hn'; [lia|]. destruct n' as [|n']; [lia|].
  rewrite (F_S n x Ix), (F_S n' x Ix). destruct (step x) as [r|x'] eqn:E; [reflexivity|].
  destruct (next x x' Ix E) as [Ix' [L|L]].
  - apply IH; [exact Ix'|lia|lia].
  - rewrite (fixed_point x' Ix' L n), (fixed_point x' Ix' L n'). reflexivity.
Qed.
End Iterate.

(** One round of a loop: [inl r] ends it with [r], [inr c] goes on with [c]. *)
Definition round {C A} (body : C -> M (A + C)) (x : C * st) : (res A * st) + (C * st) :=
  match body (fst x) (snd x) with
  | (ROk (inl r), s) => inl (ROk r, s)
  | (ROk (inr c), s) => inr (c, s)
  | (RErr e, s) => inl (RErr e, s)
  | (RPanic, s) => inl (RPanic, s)
  | (RDiv, s) => inl (RDiv, s)
  end.
Definition left (x : str * st) : nat := List.length (rem (snd x)).

Lemma bind_cong {A C} (m : M A) (f g : A -> M C) s : (forall a s', f a s' = g a s') -> bind m f s = bind m g s.
Proof. intros H. unfold bind. destruct (m s) as [[a|er| |] s']; auto. Qed.
Definition carry {C A} (k : C -> M A) (o : A + C) : M A := match o with inl r => ret r | inr c => k c end.
Lemma carry_round {C A} (body : C -> M (A + C)) (k : C -> M A) c s :
  bind (body c) (carry k) s = match round body (c, s) with inl r => r | inr x => k (fst x) (snd x) end.
Proof. unfold round, bind, carry. cbn [fst snd]. destruct (body c s) as [[[r|c']|e| |] s']; reflexivity. Qed.
Lemma bind_if {A B} (b : bool) (m1 m2 : M A) (f : A -> M B) s : bind (if b then m1 else m2) f s = (if b then bind m1 f else bind m2 f) s.
Proof. destruct b; reflexivity. Qed.
Lemma bind_opt {A B C} (o : option C) (m1 : C -> M A) (m2 : M A) (f : A -> M B) s :
  bind (match o with Some t => m1 t | None => m2 end) f s = match o with Some t => bind (m1 t) f s | None => bind m2 f s end.
Proof. destruct o; reflexivity. Qed.
Ltac through := repeat first [reflexivity | rewrite bind_assoc; apply bind_cong; intros ? ? | match goal with
  | |- context [(if ?b then _ else _) _] => is_var b; destruct b
  | |- context [match ?o with Some _ => _ | None => _ end _] => is_var o; destruct o end].

Lemma rem_less s s' : in_doc s' -> p_doc s' = p_doc s -> p_pos s < p_pos s' -> List.length (rem s') < List.length (rem s).
Proof. unfold in_doc. intros H E L. rewrite !rem_length, E in *. lia. Qed.

(** ** Quoted strings *)
Definition quoted_body (q : N) (ignore : bytes) (v : str) : M (str + str) :=
    forward ;;;
    take_while (not_in [10; 13; 92; q]%N) (More 0) ;;;
    tx <- text ;;
    let v := v ++ tx in
    forward ;;;
    b <- is_ok (sym_seq ignore) ;;
    if (b : bool) then ret (inr (v ++ [q]))
    else
      g <- ok (gap false) ;;
      match g with
      | Some t =>
        let t := if ends_with [92%N] v then (t - 1)%nat else t in
        let v :=
          match t with
          | O => v
          | S O =>
            let v := trim_end v in
            if ends_with (lit "\n") v then v else v ++ [32%N]
          | S t' => v ++ repeat 10%N t'
          end in
        ws (More 0) ;;;
        ret (inr v)
      | None =>
        b <- is_ok (sym 92) ;;
        if (b : bool) then ret (inr (v ++ [92%N]))
        else
          b <- is_ok (sym q) ;;
          if (b : bool) then ret (inl v) else ret (inr v)
      end.
Lemma quoted_round n q ig v s : quoted_loop (S n) q ig v s =
  match round (quoted_body q ig) (v, s) with inl r => r | inr x => quoted_loop n q ig (fst x) (snd x) end.
Proof. rewrite <- (carry_round (quoted_body q ig) (quoted_loop n q ig)). symmetry. cbn [quoted_loop]. unfold quoted_body. cbv zeta. through. Qed.
Lemma quoted_next q ig v s v' s' : ig <> [] -> in_doc s -> quoted_body q ig v s = (ROk (inr v'), s') ->
  in_doc s' /\ (List.length (rem s') < List.length (rem s) \/ quoted_body q ig v' s' = (ROk (inr v'), s')).
Proof.
  intros Hig Hs E. pose proof E as E0. unfold quoted_body in E. unfold bind at 1, forward at 1, modify at 1 in E.
  set (s1 := set_eaten (p_pos s) s) in *. assert (H1 : in_doc s1) by exact Hs.
  unfold bind at 1 in E. rewrite (more0_exec _ s1 H1) in E. set (k := span _ (rem s1)) in *.
  assert (Hk : k <= List.length (rem s1)) by apply span_le.
  set (s2 := set_pos (p_pos s1 + k) s1) in *. assert (H2 : in_doc s2) by now apply in_doc_add.
  unfold bind at 1 in E. rewrite (text_exec s2 H2) in E. set (tx := utf8_lossy _) in *. cbv zeta in E.
  unfold bind at 1, forward at 1, modify at 1 in E. set (s3 := set_eaten (p_pos s2) s2) in *.
  assert (H3 : in_doc s3) by exact H2. assert (A3 : p_eaten s3 = p_pos s3) by reflexivity.
  assert (P3 : p_pos s3 = p_pos s + k) by reflexivity. assert (D3 : p_doc s3 = p_doc s) by reflexivity.
  assert (GO : forall j, 1 <= j <= List.length (rem s3) -> in_doc (set_pos (p_pos s3 + j) s3)
            /\ List.length (rem (set_pos (p_pos s3 + j) s3)) < List.length (rem s)).
  { intros j Hj. assert (X : in_doc (set_pos (p_pos s3 + j) s3)) by (apply in_doc_add; [lia|exact H3]). split; [exact X|].
    apply rem_less; [exact X|exact D3|change (p_pos s < p_pos s3 + j); rewrite P3; lia]. }
  assert (BK : set_pos (p_eaten s3) s3 = s3) by (rewrite A3; apply set_pos_id).
  unfold bind at 1 in E. rewrite (is_ok_eq _ _ _ (sym_seq_exec ig s3 H3)) in E.
  destruct (starts_with ig (rem s3)) eqn:SW.
  { injection E as <- <-. apply starts_with_app in SW as [r SW]. destruct (GO (List.length ig)) as [G1 G2]; [|auto].
    rewrite SW, app_length. destruct ig; [contradiction|cbn; lia]. }
  rewrite BK in E. unfold bind at 1 in E. rewrite (ok_eq _ _ _ (gap_exec false s3 H3)) in E.
  destruct (gap_f false (rem s3)) as [[t j]|] eqn:G.
  { apply gap_f_le in G as (G1 & G2 & _). destruct (GO j) as [G3 G4]; [lia|]. cbv zeta in E.
    unfold bind at 1 in E. rewrite (ws0_exec _ G3) in E. set (w := ws_len _) in *. injection E as <- <-.
    assert (W : w <= List.length (rem (set_pos (p_pos s3 + j) s3))) by apply span_le.
    split; [now apply in_doc_add|left]. apply rem_less; [now apply in_doc_add|exact D3|change (p_pos s < p_pos s3 + j + w); rewrite P3; lia]. }
  cbn [gap_head] in E. rewrite Nat.add_0_r, set_pos_id in E.
  unfold bind at 1 in E. rewrite (is_ok_eq _ _ _ (sym_exec 92 s3 H3)) in E.
  assert (LAST : (b <- is_ok (sym q) ;; if (b : bool) then ret (inl (v ++ tx)) else ret (inr (v ++ tx))) s3 = (ROk (inr v'), s') -> s' = s3 /\ v' = v ++ tx).
  { unfold bind. rewrite (is_ok_eq _ _ _ (sym_exec q s3 H3)). rewrite BK.
    destruct (rem s3) as [|x r]; [|destruct (N.eqb x q)]; unfold ret; intros X; inversion X; auto. }
  assert (STUCK : s' = s3 /\ v' = v ++ tx -> in_doc s' /\ (List.length (rem s') < List.length (rem s) \/ quoted_body q ig v' s' = (ROk (inr v'), s'))).
  { intros [-> ->]. split; [exact H3|]. destruct k as [|k'] eqn:Ek.
    - right. assert (TX : tx = []). { unfold tx. replace (slice _ _ _) with (@nil N); [reflexivity|]. unfold slice. cbn. now rewrite Nat.add_0_r, Nat.sub_diag. }
      rewrite TX, app_nil_r in *. assert (S3 : s3 = set_eaten (p_pos s) s). { unfold s3, s2, s1. destruct s; cbn. now rewrite Nat.add_0_r. }
      transitivity (quoted_body q ig v s); [|exact E0]. rewrite S3. reflexivity.
    - left. apply rem_less; [exact H3|exact D3|rewrite P3; lia]. }
  destruct (rem s3) as [|x r] eqn:R3.
  - rewrite BK in E. auto.
  - destruct (N.eqb x 92).
    + injection E as <- <-. destruct (GO 1) as [G1 G2]; [cbn; lia|]. auto.
    + rewrite BK in E. auto.
Qed.
Lemma quoted_enough q ig : ig <> [] -> forall n n' v s, in_doc s ->
  List.length (rem s) < n -> List.length (rem s) < n' -> quoted_loop n q ig v s = quoted_loop n' q ig v s.
Proof.
  intros Hig n n' v s Hs Hn Hn'.
  apply (iterate_enough (fun n x => quoted_loop n q ig (fst x) (snd x)) (round (quoted_body q ig)) left (fun x => in_doc (snd x))) with (x := (v, s)); auto.
  - intros m [v0 s0] _. apply quoted_round.
  - intros [v0 s0] [v1 s1] H0 E. unfold round in *. cbn [fst snd] in *.
    destruct (quoted_body q ig v0 s0) as [[[r|c]|e| |] s2] eqn:B; try discriminate. injection E as -> ->.
    destruct (quoted_next q ig v0 s0 v1 s1 Hig H0 B) as [X [Y|Y]]; split; auto. right. now rewrite Y.
Qed.

(** ** Plain scalars *)
Definition plain_body (level : nat) (inner : bool) (c : str * bool) : M (str + (str * bool)) :=
    let v := fst c in let is_leading := snd c in
    forward ;;;
    take_while (not_in (plain_patt inner)) (More 0) ;;;
    tx <- text ;;
    let v := v ++ tx in
    forward ;;;
    stop <- orM (fd <- food ;; ret (match fd with [] => true | _ => false end))
           (orM (is_ok (sym_seq (lit ": ")))
           (orM (andM (is_ok (sym (chr ":"))) (is_ok nl))
                (is_ok (sym_seq (lit " #"))))) ;;
    if (stop : bool) then backward ;;; ret (inl v)
    else
      forward ;;;
      b <- is_ok (sym_set (lit ": ")) ;;
      if (b : bool) then
        tx <- text ;;
        let v := if is_leading && str_eqb tx (lit " ") then trim_end v else v in
        ret (inr (v ++ tx, is_leading))
      else
        b <- (if negb inner && negb (match v with [] => true | _ => false end)
              then is_ok (sym_set (lit "{}[]")) else ret false) ;;
        if (b : bool) then
          tx <- text ;;
          ret (inr (v ++ tx, false))
        else
          e <- is_err (ind level) ;;
          if (e : bool) then
            g <- ok (gap true) ;;
            match g with
            | Some t =>
              let v := (if Nat.eqb t 1 then v ++ [32%N] else v) ++ repeat 10%N (t - 1)%nat in
              e <- is_err (ind level) ;;
              if (e : bool) then ret (inl v) else ret (inr (v, true))
            | None => ret (inl v)
            end
          else ret (inr (v, is_leading)).
Lemma plain_round n level inner v b s : plain_loop (S n) level inner v b s =
  match round (plain_body level inner) ((v, b), s) with inl r => r | inr x => plain_loop n level inner (fst (fst x)) (snd (fst x)) (snd x) end.
Proof.
  rewrite <- (carry_round (plain_body level inner) (fun c => plain_loop n level inner (fst c) (snd c))). symmetry.
  cbn [plain_loop]. unfold plain_body. cbn [fst snd]. cbv zeta. through.
Qed.

(** whether a plain scalar ends here *)
Definition plain_stop : M bool :=
  orM (fd <- food ;; ret (match fd with [] => true | _ => false end))
           (orM (is_ok (sym_seq (lit ": ")))
           (orM (andM (is_ok (sym (chr ":"))) (is_ok nl))
                (is_ok (sym_seq (lit " #"))))).
Lemma plain_stop_false s s' : in_doc s -> AT s -> plain_stop s = (ROk false, s') -> s' = s /\ rem s <> [].
Proof.
  intros Hs A E. pose proof (AT_back s A) as B. unfold plain_stop, orM in E. unfold bind at 1 in E. unfold bind at 1 in E.
  rewrite (food_exec s Hs) in E. unfold ret at 1 in E. destruct (rem s) as [|x r] eqn:R; [discriminate|]. split; [|discriminate].
  unfold bind at 1 in E. rewrite (is_ok_eq _ _ _ (sym_seq_exec _ s Hs)) in E. destruct (starts_with _ _); [discriminate|]. rewrite B in E.
  unfold bind at 1, andM at 1, bind at 1 in E. rewrite (is_ok_eq _ _ _ (sym_exec _ s Hs)), R in E.
  destruct (N.eqb x (chr ":")).
  - assert (H1 : in_doc (set_pos (p_pos s + 1) s)) by (apply in_doc_add; [rewrite R; cbn; lia|exact Hs]).
    rewrite (is_ok_eq _ _ _ (nl_exec _ H1)) in E. destruct (Nat.eqb _ 0); [|discriminate].
    rewrite (is_ok_eq _ _ _ (sym_seq_exec _ _ H1)) in E. destruct (starts_with _ _); [discriminate|]. injection E as <-.
    change (set_pos (p_eaten s) s = s). exact B.
  - unfold ret at 1 in E. rewrite B in E. rewrite (is_ok_eq _ _ _ (sym_seq_exec _ s Hs)) in E. destruct (starts_with _ _); [discriminate|].
    injection E as <-. exact B.
Qed.
Lemma plain_stop_other s x r : in_doc s -> AT s -> rem s = x :: r -> is_in (lit ": ") x = false -> plain_stop s = (ROk false, s).
Proof.
  intros Hs A R Hx. pose proof (AT_back s A) as B.
  change (lit ": ") with [58; 32]%N in Hx. rewrite !is_in_cons in Hx. apply orb_false_elim in Hx as [N1 Hx]. apply orb_false_elim in Hx as [N2 _].
  assert (N3 : N.eqb 58 x = false) by (rewrite N.eqb_sym; exact N1). assert (N4 : N.eqb 32 x = false) by (rewrite N.eqb_sym; exact N2).
  unfold plain_stop, orM. unfold bind at 1. unfold bind at 1. rewrite (food_exec s Hs), R. unfold ret at 1. cbv beta iota.
  unfold bind at 1. rewrite (is_ok_eq _ _ _ (sym_seq_exec _ s Hs)), R. cbn [starts_with]. rewrite N3. cbn [andb]. rewrite B.
  unfold bind at 1, andM at 1, bind at 1. rewrite (is_ok_eq _ _ _ (sym_exec _ s Hs)), R. change (chr ":") with 58%N. rewrite N1, B. unfold ret at 1.
  rewrite (is_ok_eq _ _ _ (sym_seq_exec _ s Hs)), R. cbn [starts_with]. rewrite N4. cbn [andb]. now rewrite B.
Qed.
Lemma norm_idem k l : ind_norm k (ind_norm k l) = ind_norm k l.
Proof.
  pose proof (ind_norm_length k l) as E. unfold ind_norm at 1. rewrite E, (proj2 (Nat.leb_gt _ k)) by lia.
  replace (k + 1) with (List.length (ind_norm k l)) by lia. apply firstn_all.
Qed.
(** a plain scalar that does not move any more *)
Lemma plain_fixed level inner v b s x r : in_doc s -> rem s = x :: r -> not_in (plain_patt inner) x = false ->
  is_in (lit ": ") x = false -> (negb inner && negb (match v with [] => true | _ => false end) = true -> is_in (lit "{}[]") x = false) ->
  depth (p_indent s) level = 0 ->
  plain_body level inner (v, b) s = (ROk (inr (v, b)), set_indent (ind_norm level (p_indent s)) (set_eaten (p_pos s) s)).
Proof.
  intros Hs R Hx Hc Hb Hd. unfold plain_body. cbn [fst snd]. cbv zeta.
  unfold bind at 1, forward at 1, modify at 1. set (s1 := set_eaten (p_pos s) s).
  assert (H1 : in_doc s1) by exact Hs. assert (R1 : rem s1 = x :: r) by exact R. assert (A1 : AT s1) by reflexivity.
  unfold bind at 1. rewrite (more0_exec _ s1 H1), R1. cbn [span]. rewrite Hx, Nat.add_0_r, set_pos_id.
  unfold bind at 1. rewrite (text_exec s1 H1).
  replace (slice (p_eaten s1) (p_pos s1) (p_doc s1)) with (@nil N) by (unfold slice; rewrite A1, Nat.sub_diag; reflexivity).
  change (utf8_lossy []) with (@nil N). rewrite app_nil_r. unfold bind at 1, forward at 1, modify at 1. rewrite (AT_forward s1 A1).
  fold plain_stop. unfold bind at 1. rewrite (plain_stop_other s1 x r H1 A1 R1 Hc). cbv beta iota.
  unfold bind at 1, forward at 1, modify at 1. rewrite (AT_forward s1 A1).
  unfold bind at 1. rewrite (is_ok_eq _ _ _ (sym_set_exec _ s1 H1)), R1, Hc. cbv beta iota. rewrite (AT_back s1 A1).
  unfold bind at 1. match goal with |- context [(if ?c then is_ok (sym_set ?l) else ret false) s1] =>
    assert (Bra : (if c then is_ok (sym_set l) else ret false) s1 = (ROk false, s1)) end.
  { destruct (negb inner && _) eqn:Z; [|reflexivity]. rewrite (is_ok_eq _ _ _ (sym_set_exec _ s1 H1)), R1, (Hb eq_refl). cbv beta iota. now rewrite (AT_back s1 A1). }
  rewrite Bra. cbv beta iota. unfold bind at 1.
  assert (D1 : depth (p_indent s1) level = 0) by exact Hd.
  rewrite (is_err_eq _ _ _ (ind_ok level s1 H1 ltac:(rewrite D1; lia))). cbv beta iota. rewrite D1, Nat.add_0_r. unfold ret. f_equal.
Qed.
Lemma plain_next level inner c s c' s' : in_doc s -> plain_body level inner c s = (ROk (inr c'), s') ->
  in_doc s' /\ (List.length (rem s') < List.length (rem s) \/ plain_body level inner c' s' = (ROk (inr c'), s')).
Proof.
  intros Hs E. unfold plain_body in E. cbv zeta in E. unfold bind at 1, forward at 1, modify at 1 in E.
  set (s1 := set_eaten (p_pos s) s) in *. assert (H1 : in_doc s1) by exact Hs.
  unfold bind at 1 in E. rewrite (more0_exec _ s1 H1) in E. set (k := span _ (rem s1)) in *.
  assert (Hk : k <= List.length (rem s1)) by apply span_le.
  set (s2 := set_pos (p_pos s1 + k) s1) in *. assert (H2 : in_doc s2) by now apply in_doc_add.
  unfold bind at 1 in E. rewrite (text_exec s2 H2) in E. set (tx := utf8_lossy _) in *.
  unfold bind at 1, forward at 1, modify at 1 in E. set (s3 := set_eaten (p_pos s2) s2) in *.
  assert (H3 : in_doc s3) by exact H2. assert (A3 : AT s3) by reflexivity.
  assert (P3 : p_pos s3 = p_pos s + k) by reflexivity. assert (D3 : p_doc s3 = p_doc s) by reflexivity.
  assert (GO : forall x, p_doc x = p_doc s -> p_pos s3 < p_pos x <= List.length (p_doc s) -> in_doc x
            /\ List.length (rem x) < List.length (rem s)).
  { intros x Dx Px. assert (X : in_doc x) by (unfold in_doc; rewrite Dx; lia). split; [exact X|].
    apply rem_less; [exact X|exact Dx|lia]. }
  assert (LE : forall j, j <= List.length (rem s3) -> p_pos s3 + j <= List.length (p_doc s)).
  { intros j Hj. rewrite rem_length, D3 in Hj. unfold in_doc in H3. rewrite D3 in H3. lia. }
  pose proof (AT_back s3 A3) as BK.
  fold plain_stop in E. unfold bind at 1 in E. destruct (plain_stop s3) as [[[]|e| |] s4] eqn:ST; try discriminate.
  apply (plain_stop_false s3 s4 H3 A3) in ST as [-> NE].
  unfold bind at 1, forward at 1, modify at 1 in E. rewrite (AT_forward s3 A3) in E.
  unfold bind at 1 in E. rewrite (is_ok_eq _ _ _ (sym_set_exec _ s3 H3)) in E.
  assert (REST : forall x r, rem s3 = x :: r -> is_in (lit ": ") x = false ->
    (b <- (if negb inner && negb (match fst c ++ tx with [] => true | _ => false end) then is_ok (sym_set (lit "{}[]")) else ret false) ;;
     if (b : bool) then tx0 <- text ;; ret (inr ((fst c ++ tx) ++ tx0, false))
     else e <- is_err (ind level) ;;
          if (e : bool) then
            g <- ok (gap true) ;;
            match g with
            | Some t =>
              e <- is_err (ind level) ;;
              if (e : bool) then ret (inl ((if Nat.eqb t 1 then (fst c ++ tx) ++ [32%N] else fst c ++ tx) ++ repeat 10%N (t - 1)%nat))
              else ret (inr ((if Nat.eqb t 1 then (fst c ++ tx) ++ [32%N] else fst c ++ tx) ++ repeat 10%N (t - 1)%nat, true))
            | None => ret (inl (fst c ++ tx))
            end
          else ret (inr (fst c ++ tx, snd c))) s3 = (ROk (inr c'), s') ->
    in_doc s' /\ (List.length (rem s') < List.length (rem s) \/ plain_body level inner c' s' = (ROk (inr c'), s'))).
  { intros x r R3 Hx. unfold bind at 1.
    assert (BRA : (if negb inner && negb (match fst c ++ tx with [] => true | _ => false end) then is_ok (sym_set (lit "{}[]")) else ret false) s3
      = if negb inner && negb (match fst c ++ tx with [] => true | _ => false end) && is_in (lit "{}[]") x
        then (ROk true, set_pos (p_pos s3 + 1) s3) else (ROk false, s3)).
    { destruct (negb inner && _); cbn [andb]; [|reflexivity]. rewrite (is_ok_eq _ _ _ (sym_set_exec _ s3 H3)), R3.
      destruct (is_in (lit "{}[]") x); [reflexivity|now rewrite BK]. }
    rewrite BRA. destruct (_ && is_in (lit "{}[]") x) eqn:BR.
    { assert (H4 : in_doc (set_pos (p_pos s3 + 1) s3)) by (apply in_doc_add; [rewrite R3; cbn; lia|exact H3]).
      unfold bind at 1. rewrite (text_exec _ H4). unfold ret. intros X. injection X as _ <-.
      destruct (GO (set_pos (p_pos s3 + 1) s3) D3) as [G1 G2]; [|auto]. split; [cbn [p_pos set_pos]; lia|apply LE; rewrite R3; cbn; lia]. }
    unfold bind at 1. rewrite (is_err_eq _ _ _ (ind_exec level s3 H3)). destruct (Nat.leb_spec (ind_width level s3) (sp_len (rem s3))) as [W|W].
    - (* the indentation is there *)
      unfold ret. intros X. injection X as <- <-. set (w := ind_width level s3) in *.
      assert (WL : w <= List.length (rem s3)) by (pose proof (span_le (fun c => N.eqb c 32) (rem s3)); unfold sp_len in W; lia).
      destruct w as [|w'] eqn:Ew.
      + assert (E7 : forall T, set_pos (p_pos s3 + 0) (set_indent T s3) = set_indent T s3) by (intros T; rewrite (Nat.add_0_r (p_pos s3)); reflexivity).
        rewrite E7. clear E7.
        split; [exact H3|]. destruct k as [|k'] eqn:Ek; [|left; apply rem_less; [exact H3|exact D3|change (p_pos s < p_pos s3); lia]]. right.
        assert (Hpx : not_in (plain_patt inner) x = false).
        { assert (Es : rem s3 = rem s1) by (unfold rem, s3, s2, s1; cbn; now rewrite Nat.add_0_r).
          change (span (not_in (plain_patt inner)) (rem s1) = 0) in Ek. rewrite <- Es, R3 in Ek. cbn [span] in Ek. destruct (not_in (plain_patt inner) x); [discriminate|reflexivity]. }
        assert (Dz : depth (p_indent s3) level = 0) by (rewrite <- ind_width_depth; exact Ew).
        rewrite (plain_fixed level inner (fst c ++ tx) (snd c) _ x r); [|exact H3|exact R3|exact Hpx|exact Hx|..].
        * apply f_equal. unfold ind_table.
          change (set_indent (ind_norm level (ind_norm level (p_indent s3))) (set_eaten (p_pos s3) s3) = set_indent (ind_norm level (p_indent s3)) s3).
          rewrite norm_idem. apply f_equal. apply (AT_forward s3 A3).
        * intros Z. rewrite Z in BR. exact BR.
        * change (depth (ind_norm level (p_indent s3)) level = 0). rewrite depth_norm by lia. exact Dz.
      + destruct (GO (set_pos (p_pos s3 + S w') (set_indent (ind_table level s3) s3)) D3) as [G1 G2]; [|auto].
        split; [cbn [p_pos set_pos]; lia|]. apply (LE (S w') WL).
    - (* it is not: a line break is needed *)
      set (s5 := set_pos (p_eaten s3) (set_indent (ind_table level s3) s3)). assert (H5 : in_doc s5) by (unfold in_doc, s5; cbn [p_pos set_pos]; rewrite A3; exact H3).
      assert (P5 : p_pos s5 = p_pos s3) by exact A3. assert (R5 : rem s5 = rem s3) by (unfold rem; rewrite P5; reflexivity).
      unfold bind at 1. rewrite (ok_eq _ _ _ (gap_exec true s5 H5)), R5. destruct (gap_f true (rem s3)) as [[t j]|] eqn:G.
      + apply gap_f_le in G as (G1 & G2 & _). set (s6 := set_pos (p_pos s5 + j) s5).
        assert (H6 : in_doc s6) by (apply in_doc_add; [rewrite R5; exact G1|exact H5]).
        unfold bind at 1. rewrite (is_err_eq _ _ _ (ind_exec level s6 H6)). destruct (Nat.leb_spec (ind_width level s6) (sp_len (rem s6))) as [W6|W6].
        * unfold ret. intros X. injection X as <- <-. set (w := ind_width level s6) in *.
          assert (WL : w <= List.length (rem s6)) by (pose proof (span_le (fun c => N.eqb c 32) (rem s6)); unfold sp_len in W6; lia).
          pose proof (in_doc_add s6 w WL H6) as H7. unfold in_doc in H7.
          destruct (GO (set_pos (p_pos s6 + w) (set_indent (ind_table level s6) s6)) D3) as [Z1 Z2]; [|auto].
          change (p_pos s3 < p_pos s5 + j + w <= List.length (p_doc s)). rewrite P5. split; [lia|].
          change (p_pos s5 + j + w <= List.length (p_doc s3)) in H7. rewrite D3, P5 in H7. exact H7.
        * unfold ret. discriminate.
      + unfold ret. discriminate. }
  destruct (rem s3) as [|x r] eqn:R3.
  - now destruct NE.
  - destruct (is_in (lit ": ") x) eqn:Hx.
    + assert (H4 : in_doc (set_pos (p_pos s3 + 1) s3)) by (apply in_doc_add; [rewrite R3; cbn; lia|exact H3]).
      unfold bind at 1 in E. rewrite (text_exec _ H4) in E. injection E as _ <-.
      destruct (GO (set_pos (p_pos s3 + 1) s3) D3) as [G1 G2]; [|auto]. split; [cbn [p_pos set_pos]; lia|apply LE; cbn; lia].
    + rewrite BK in E. apply (REST x r eq_refl Hx E).
Qed.
Lemma plain_enough level inner : forall n n' v b s, in_doc s ->
  List.length (rem s) < n -> List.length (rem s) < n' -> plain_loop n level inner v b s = plain_loop n' level inner v b s.
Proof.
  intros n n' v b s Hs Hn Hn'.
  apply (iterate_enough (fun n (x : (str * bool) * st) => plain_loop n level inner (fst (fst x)) (snd (fst x)) (snd x)) (round (plain_body level inner))
    (fun x => List.length (rem (snd x))) (fun x => in_doc (snd x))) with (x := ((v, b), s)); auto.
  - intros m [[v0 b0] s0] _. apply plain_round.
  - intros [c0 s0] [c1 s1] H0 E. unfold round in *. cbn [fst snd] in *.
    destruct (plain_body level inner c0 s0) as [[[r|c]|e| |] s2] eqn:B; try discriminate. injection E as -> ->.
    destruct (plain_next level inner c0 s0 c1 s1 H0 B) as [X [Y|Y]]; split; auto. right. now rewrite Y.
Qed.

(** ** Block scalars *)
Definition wrapped_body (level : nat) (sep : N) (leading : bool) (v : str) : M (str + str) :=
    nl ;;;
    forward ;;;
    e <- is_err (ind level) ;;
    r <- (if (e : bool) then
            g <- ok (gap false) ;;
            match g with
            | Some t =>
              let v := v ++ repeat 10%N t in
              e <- is_err (ind level) ;;
              ret (v, (e : bool))
            | None => ret (v, true)
            end
          else ret (v, false)) ;;
    let '(v, stop) := r in
    if (stop : bool) then ret (inl v)
    else
      forward ;;;
      take_while (not_in [10; 13]%N) (More 0) ;;;
      s <- text ;;
      ret (inr (
        if (leading : bool) then (if is_nil v then v else v ++ [sep]) ++ s
        else (if negb (is_nil v) && negb (ends_with_ws v) then v ++ [sep] else v)
             ++ trim_start s)).
Lemma wrapped_round n level sep leading v s : wrapped_loop (S n) level sep leading v s =
  match round (wrapped_body level sep leading) (v, s) with inl r => r | inr x => wrapped_loop n level sep leading (fst x) (snd x) end.
Proof.
  rewrite <- (carry_round (wrapped_body level sep leading) (wrapped_loop n level sep leading)). symmetry.
  cbn [wrapped_loop]. unfold wrapped_body. cbv zeta.
  rewrite bind_assoc. apply bind_cong. intros _ s1. rewrite bind_assoc. apply bind_cong. intros _ s2.
  rewrite bind_assoc. apply bind_cong. intros e s3. rewrite bind_assoc. apply bind_cong. intros [v1 stop] s4.
  destruct stop; [reflexivity|]. rewrite bind_assoc. apply bind_cong. intros _ s5. rewrite bind_assoc. apply bind_cong. intros _ s6.
  rewrite bind_assoc. apply bind_cong. intros t s7. reflexivity.
Qed.
Lemma wrapped_next level sep leading v s v' s' : in_doc s -> wrapped_body level sep leading v s = (ROk (inr v'), s') ->
  in_doc s' /\ List.length (rem s') < List.length (rem s).
Proof.
  intros Hs E.
  cut (in_doc s' /\ p_doc s' = p_doc s /\ p_pos s < p_pos s'). { intros (X & Y & Z). split; [exact X|]. now apply rem_less. }
  unfold wrapped_body in E. unfold bind at 1 in E. rewrite (nl_exec s Hs) in E. destruct (Nat.eqb_spec (nl_len (rem s)) 0) as [|NL]; [discriminate|].
  set (s1 := set_pos (p_pos s + nl_len (rem s)) s) in *. assert (H1 : in_doc s1) by (apply in_doc_add; [apply nl_len_le|exact Hs]).
  unfold bind at 1, forward at 1, modify at 1 in E. set (s2 := set_eaten (p_pos s1) s1) in *. assert (H2 : in_doc s2) by exact H1.
  assert (P2 : p_pos s < p_pos s2) by (change (p_pos s < p_pos s + nl_len (rem s)); lia). assert (D2 : p_doc s2 = p_doc s) by reflexivity.
  assert (A2 : p_eaten s2 = p_pos s2) by reflexivity.
  clearbody s2. clear s1 H1 NL.
  assert (FIN : forall v s3, in_doc s3 -> p_doc s3 = p_doc s -> p_pos s < p_pos s3 ->
    (forward ;;; take_while (not_in [10; 13]%N) (More 0) ;;; t <- text ;;
      ret (inr (if (leading : bool) then (if is_nil v then v else v ++ [sep]) ++ t
        else (if negb (is_nil v) && negb (ends_with_ws v) then v ++ [sep] else v) ++ trim_start t))) s3 = (ROk (@inr str str v'), s') ->
    in_doc s' /\ p_doc s' = p_doc s /\ p_pos s < p_pos s').
  { clear E. intros v0 s3 H3 D3 P3 E. unfold bind at 1, forward at 1, modify at 1 in E. set (s4 := set_eaten (p_pos s3) s3) in *.
    assert (H4 : in_doc s4) by exact H3. unfold bind at 1 in E. rewrite (more0_exec _ s4 H4) in E. set (k := span _ (rem s4)) in *.
    assert (Hk : k <= List.length (rem s4)) by apply span_le. pose proof (in_doc_add s4 k Hk H4) as H5.
    unfold bind at 1 in E. rewrite (text_exec _ H5) in E. injection E as _ <-. split; [exact H5|]. split; [exact D3|]. cbn. lia. }
  unfold bind at 1 in E. rewrite (is_err_eq _ _ _ (ind_exec level s2 H2)) in E. destruct (Nat.leb_spec (ind_width level s2) (sp_len (rem s2))) as [W|W].
  - assert (WL : ind_width level s2 <= List.length (rem s2)) by (pose proof (span_le (fun c => N.eqb c 32) (rem s2)); unfold sp_len in W; lia).
    pose proof (in_doc_add s2 _ WL H2) as H3. unfold bind at 1, ret at 1 in E.
    eapply FIN; [| | |exact E]; [exact H3|exact D2|cbn; lia].
  - set (s3 := set_pos (p_eaten s2) (set_indent (ind_table level s2) s2)) in *.
    assert (P3 : p_pos s3 = p_pos s2) by exact A2. assert (H3 : in_doc s3) by (unfold in_doc; rewrite P3; exact H2).
    assert (D3 : p_doc s3 = p_doc s) by exact D2.
    clearbody s3. unfold bind at 1 in E. unfold bind at 1 in E. rewrite (ok_eq _ _ _ (gap_exec false s3 H3)) in E. destruct (gap_f false (rem s3)) as [[t j]|] eqn:G.
    + apply gap_f_le in G as (G1 & G2 & _). set (s4 := set_pos (p_pos s3 + j) s3) in *. assert (H4 : in_doc s4) by now apply in_doc_add.
      assert (P4 : p_pos s < p_pos s4) by (cbn; lia). assert (D4 : p_doc s4 = p_doc s) by exact D3. clearbody s4.
      unfold bind at 1 in E. rewrite (is_err_eq _ _ _ (ind_exec level s4 H4)) in E. destruct (Nat.leb_spec (ind_width level s4) (sp_len (rem s4))) as [W4|W4].
      * assert (WL : ind_width level s4 <= List.length (rem s4)) by (pose proof (span_le (fun c => N.eqb c 32) (rem s4)); unfold sp_len in W4; lia).
        pose proof (in_doc_add s4 _ WL H4) as H5. unfold ret at 1 in E. eapply FIN; [| | |exact E]; [exact H5|exact D4|cbn; lia].
      * discriminate.
    + discriminate.
Qed.
Lemma wrapped_enough level sep leading : forall n n' v s, in_doc s ->
  List.length (rem s) < n -> List.length (rem s) < n' -> wrapped_loop n level sep leading v s = wrapped_loop n' level sep leading v s.
Proof.
  intros n n' v s Hs Hn Hn'.
  apply (iterate_enough (fun n x => wrapped_loop n level sep leading (fst x) (snd x)) (round (wrapped_body level sep leading)) left (fun x => in_doc (snd x))) with (x := (v, s)); auto.
  - intros m [v0 s0] _. apply wrapped_round.
  - intros [v0 s0] [v1 s1] H0 E. unfold round in *. cbn [fst snd] in *.
    destruct (wrapped_body level sep leading v0 s0) as [[[r|c]|e| |] s2] eqn:B; try discriminate. injection E as -> ->.
    destruct (wrapped_next level sep leading v0 s0 v1 s1 H0 B) as [X Y]. split; [exact X|]. left. exact Y.
Qed.
Lemma gap_enough cmt : forall n n' t s, in_doc s ->
  List.length (rem s) < n -> List.length (rem s) < n' -> gap_loop n cmt t s = gap_loop n' cmt t s.
Proof.
  intros n n' t s Hs Hn Hn'. rewrite (gap_loop_exec cmt n t s Hs Hn), (gap_loop_exec cmt n' t s Hs Hn').
  now rewrite (gap_lines_fuel cmt n n').
Qed.
