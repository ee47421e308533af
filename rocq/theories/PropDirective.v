(** * C15, C16: directives and tags *)
From Verif Require Export Frame PropScalar PropAnchor.
Open Scope nat_scope.

(** ** Specification *)

(** A handle of [%TAG]. *)
Inductive handle := Primary | Secondary | Named (name : bytes).
(** The lines before a document. *)
Inductive dline :=
| DYaml (version : str)
| DTag (h : handle) (prefix : str)
| DOther (text : str).
Definition handle_text (h : handle) : str :=
  match h with Primary => lit "!" | Secondary => lit "!!" | Named n => lit "!" ++ n ++ lit "!" end.
Definition line_of (l : dline) : str :=
  match l with
  | DYaml v => lit "%YAML " ++ v
  | DTag h p => lit "%TAG " ++ handle_text h ++ lit " " ++ p
  | DOther t => lit "%" ++ t
  end.
Definition header (ls : list dline) : str := flat_map (fun l => line_of l ++ [10%N]) ls.

Definition name_ok (n : bytes) : Prop :=
  exists x t, n = x :: t /\ is_alnum x = true /\ Forall id_char t.
Definition one_line (t : str) : Prop := valid t /\ ~ In 10%N t /\ ~ In 13%N t.
Definition line_ok (l : dline) : Prop :=
  match l with
  | DYaml v => v = lit "1.1" \/ v = lit "1.2"
  | DTag h p => match h with Named n => name_ok n | _ => True end
                /\ one_line p /\ ~ In 32%N p /\ p <> [] /\ (forall r, p <> 9%N :: r) /\ (forall r, p <> 12%N :: r)
  | DOther t => one_line t /\ (forall r, t <> lit "YAML" ++ r) /\ (forall r, t <> lit "TAG" ++ r)
  end.
Definition is_yaml (l : dline) : bool := match l with DYaml _ => true | _ => false end.

(** What a handle stands for after the lines: the last definition, or the
    default. *)
Definition handle_eqb (a b : handle) : bool :=
  match a, b with
  | Primary, Primary | Secondary, Secondary => true
  | Named n, Named m => str_eqb n m
  | _, _ => false
  end.
Fixpoint defined (h : handle) (ls : list dline) : option str :=
  match ls with
  | [] => None
  | l :: r =>
    match defined h r with
    | Some p => Some p
    | None => match l with DTag h' p => if handle_eqb h h' then Some p else None | _ => None end
    end
  end.
Definition default_prefix (h : handle) : option str :=
  match h with
  | Primary => Some []
  | Secondary => Some (lit "tag:yaml.org,2002:")
  | Named _ => None
  end.
Definition prefix_of (h : handle) (ls : list dline) : option str :=
  match defined h ls with Some p => Some p | None => default_prefix h end.

(** ** Proofs *)
Definition key_of (h : handle) : str :=
  match h with Primary => lit "!" | Secondary => lit "!!" | Named n => n end.
Definition step_tab (tab : list (str * str)) (l : dline) : list (str * str) :=
  match l with DTag h p => bt_insert (key_of h) p tab | _ => tab end.

Lemma gap_nl c r : is_ws c = false -> c <> 35%N -> c <> 10%N -> c <> 13%N -> gap_f true (10%N :: c :: r) = Some (1, 1).
Proof.
  intros H1 H2 H3 H4.
  assert (N1 : nl_len (10%N :: c :: r) = 1).
  { rewrite nl_len_alt. unfold nl_len'. cbn [starts_with]. rewrite (proj2 (N.eqb_neq 13 c)) by congruence. reflexivity. }
  assert (W : ws_len (c :: r) = 0) by (unfold ws_len; apply span_zero; exact H1).
  assert (C : comment_len (c :: r) = 0).
  { unfold comment_len. rewrite W. cbn [skipn]. now rewrite (proj2 (N.eqb_neq c 35) H2). }
  assert (N2 : nl_len (c :: r) = 0).
  { rewrite nl_len_alt. unfold nl_len'. cbn [starts_with]. rewrite (proj2 (N.eqb_neq 13 c)), (proj2 (N.eqb_neq 10 c)) by congruence.
    cbn [andb]. rewrite (proj2 (N.eqb_neq c 13) H4), (proj2 (N.eqb_neq c 10) H3). reflexivity. }
  assert (C0 : comment_len (10%N :: c :: r) = 0) by (unfold comment_len; reflexivity).
  unfold gap_f, gap_head. rewrite C0. cbn [skipn]. rewrite N1. cbv zeta. change (0 + 1) with 1. cbn [Nat.eqb skipn gap_lines List.length].
  unfold line_skip. rewrite C. cbn [skipn]. rewrite N2. reflexivity.
Qed.

Definition stop_head (rest : bytes) : Prop := exists c r, rest = c :: r /\ is_ws c = false /\ c <> 35%N /\ c <> 10%N /\ c <> 13%N.
Lemma gap_stop s rest : in_doc s -> rem s = 10%N :: rest -> stop_head rest -> gap true s = (ROk 1, set_pos (p_pos s + 1) s).
Proof. intros H R (c & r & -> & H1 & H2 & H3 & H4). rewrite (gap_exec true s H), R, gap_nl; auto. Qed.

Lemma st_ext a b : p_doc a = p_doc b -> p_indent a = p_indent b -> p_consumed a = p_consumed b -> p_version a = p_version b ->
  p_tag a = p_tag b -> p_pos a = p_pos b -> p_eaten a = p_eaten b -> l_cyclic a = l_cyclic b -> l_anchors a = l_anchors b ->
  l_doc_ind a = l_doc_ind b -> p_hash a = p_hash b -> a = b.
Proof. destruct a, b. cbn. now intros -> -> -> -> -> -> -> -> -> -> ->. Qed.
(** one directive, from the checkpoint *)
Lemma context_at {A} (m : M A) s : AT s -> context m s = (fst (m s), set_eaten (p_eaten s) (snd (m s))).
Proof. intros H. unfold context. rewrite (set_eaten_AT s H). now destruct (m s). Qed.

Lemma sym_hit c s r : in_doc s -> rem s = c :: r -> sym c s = (ROk tt, set_pos (p_pos s + 1) s).
Proof. intros H R. rewrite (sym_exec c s H), R, N.eqb_refl. reflexivity. Qed.
Lemma seq_hit cs s r : in_doc s -> rem s = cs ++ r -> sym_seq cs s = (ROk tt, set_pos (p_pos s + List.length cs) s).
Proof. intros H R. rewrite (sym_seq_exec cs s H), R. rewrite (proj2 (starts_with_app cs (cs ++ r))) by eauto. reflexivity. Qed.
Lemma ws1_hit s w r : in_doc s -> Forall blank w -> w <> [] -> (match r with [] => True | x :: _ => ~ blank x end) -> rem s = w ++ r ->
  ws (More 1) s = (ROk tt, set_pos (p_pos s + List.length w) s).
Proof.
  intros H Hw Hn Hr R. unfold ws. rewrite (more_exec is_ws 1 s H), R.
  change (span is_ws (w ++ r)) with (ws_len (w ++ r)). rewrite (ws_len_app w r Hw Hr).
  destruct w as [|x w]; [congruence|reflexivity].
Qed.
Lemma moved_in s k : in_doc s -> k <= List.length (rem s) -> in_doc (set_pos (p_pos s + k) s).
Proof. intros. now apply in_doc_add. Qed.

(** the [%YAML] directive on any blanks and any version text *)
Lemma yaml_line s w rest : in_doc s -> rem s = lit "%YAML" ++ w ++ rest -> Forall blank w -> w <> [] ->
  (match rest with [] => True | x :: _ => ~ blank x end) ->
  let p := p_pos s + 5 + List.length w in
  directive s =
  if p_version s then (fst (@err unit (lit "checked version") (set_pos p s)), set_pos p s)
  else if starts_with (lit "1.1") rest || starts_with (lit "1.2") rest
  then (gap true ;;; ret tt) (set_version true (set_pos (p + 3) s))
  else (fst (@err unit (lit "invalid version") (set_pos p s)), set_pos p s).
Proof.
  intros H R Hw Hn Hr p.
  assert (LN : List.length (rem s) = 5 + List.length w + List.length rest) by (rewrite R, !app_length; reflexivity).
  unfold directive. unfold bind at 1.
  rewrite (sym_hit (chr "%") s (lit "YAML" ++ w ++ rest) H R).
  set (s1 := set_pos (p_pos s + 1) s). assert (H1 : in_doc s1) by (apply moved_in; [exact H|lia]).
  assert (R1 : rem s1 = lit "YAML" ++ w ++ rest) by (unfold s1; rewrite rem_add, R; reflexivity).
  unfold bind at 1. unfold context at 1. set (t1 := set_eaten (p_pos s1) s1).
  assert (T1 : in_doc t1) by exact H1. assert (Q1 : rem t1 = lit "YAML" ++ w ++ rest) by exact R1.
  unfold bind at 1. rewrite (is_ok_eq _ _ _ (seq_hit _ _ _ T1 Q1)).
  set (t2 := set_pos (p_pos t1 + List.length (lit "YAML")) t1).
  assert (T2 : in_doc t2) by (apply moved_in; [exact T1|rewrite Q1, app_length; lia]).
  assert (Q2 : rem t2 = w ++ rest) by (unfold t2; rewrite rem_add, Q1; reflexivity).
  unfold directive_yaml. unfold bind at 1. rewrite (ws1_hit t2 w rest T2 Hw Hn Hr Q2).
  set (t3 := set_pos (p_pos t2 + List.length w) t2).
  assert (T3 : in_doc t3) by (apply moved_in; [exact T2|rewrite Q2, app_length; lia]).
  assert (Q3 : rem t3 = rest) by (unfold t3; rewrite rem_add, Q2, skipn_exact; reflexivity).
  assert (P3 : p_pos t3 = p) by (unfold t3, t2, t1, s1, p; cbn; lia).
  assert (E3 : set_eaten (p_eaten s1) t3 = set_pos p s).
  { unfold p. unfold t3, t2, t1, s1. apply st_ext; try reflexivity; cbn; lia. }
  unfold bind at 1, gets at 1. change (p_version t3) with (p_version s).
  assert (ER : forall nm, exists r, @err unit nm t3 = (r, t3) /\ @err unit nm (set_pos p s) = (r, set_pos p s) /\ match r with ROk _ => False | _ => True end).
  { intros nm. unfold err. replace (indicator_of t3) with (indicator_of (set_pos p s)) by (unfold indicator_of; rewrite P3; reflexivity).
    change (p_doc t3) with (p_doc s). change (p_doc (set_pos p s)) with (p_doc s).
    destruct (indicated_msg (p_doc s) (indicator_of (set_pos p s))); eauto. }
  destruct (p_version s).
  { destruct (ER (lit "checked version")) as (r & -> & -> & K). cbn [fst]. destruct r; try destruct K; now rewrite E3. }
  unfold bind at 1. unfold context at 1. set (u := set_eaten (p_pos t3) t3).
  assert (U : in_doc u) by exact T3. assert (V : rem u = rest) by exact Q3.
  unfold orM. unfold bind at 1. rewrite (is_ok_eq _ _ _ (sym_seq_exec (lit "1.1") u U)), V.
  assert (OK : forall x, x = set_pos (p_pos u + 3) u ->
    (set_eaten (p_eaten s1) (set_version true (set_eaten (p_eaten t3) x))) = set_version true (set_pos (p + 3) s)).
  { intros x ->. unfold p. unfold u, t3, t2, t1, s1. apply st_ext; try reflexivity; cbn; lia. }
  destruct (starts_with (lit "1.1") rest) eqn:E1.
  - cbn [orb]. unfold ret at 1. cbv beta iota. cbn [negb]. unfold modify at 1. cbv beta iota. now rewrite (OK (set_pos (p_pos u + List.length (lit "1.1")) u) eq_refl).
  - cbn [orb]. assert (B1 : set_pos (p_eaten u) u = u) by exact (set_pos_id u). rewrite B1.
    rewrite (is_ok_eq _ _ _ (sym_seq_exec (lit "1.2") u U)), V. destruct (starts_with (lit "1.2") rest) eqn:E2.
    + cbn [negb]. unfold modify at 1. cbv beta iota. now rewrite (OK (set_pos (p_pos u + List.length (lit "1.2")) u) eq_refl).
    + rewrite B1. cbn [negb]. assert (B2 : set_eaten (p_eaten t3) u = t3) by (unfold u; rewrite set_eaten_eaten; apply set_eaten_id). rewrite B2.
      destruct (ER (lit "invalid version")) as (r & -> & -> & K). cbn [fst]. destruct r; try destruct K; now rewrite E3.
Qed.

(** another directive line *)
Lemma not_nl_char c : not_in [10; 13]%N c = true <-> c <> 10%N /\ c <> 13%N.
Proof.
  rewrite not_in_spec. simpl. split; [intros H; split; intros ->; apply H; auto|intros [A B] [<-|[<-|[]]]; congruence].
Qed.
Lemma starts_encode_ascii p t rest : asciis p -> starts_with p (utf8_encode t ++ 10%N :: rest) = true -> ~ In 10%N p -> exists r, t = p ++ r.
Proof.
  intros Hp H H10. destruct (starts_encode p t (10%N :: rest) Hp H) as [K|(a & b & -> & Hb & _ & K)]; [exact K|].
  exfalso. destruct b as [|x b]; [congruence|]. cbn [starts_with] in K. apply andb_true_iff in K as [K _]. apply N.eqb_eq in K. subst x.
  apply H10, in_or_app. right. now left.
Qed.
Lemma other_line s t rest : in_doc s -> one_line t -> (forall r, t <> lit "YAML" ++ r) -> (forall r, t <> lit "TAG" ++ r) ->
  rem s = 37%N :: utf8_encode t ++ 10%N :: rest -> stop_head rest ->
  directive s = (ROk tt, set_pos (p_pos s + List.length (utf8_encode t) + 2) s).
Proof.
  intros H (Hv & H10 & H13) HY HT R Hs. set (k := List.length (utf8_encode t)).
  assert (LN : List.length (rem s) = 2 + k + List.length rest) by (rewrite R; cbn [List.length]; rewrite app_length; cbn [List.length]; unfold k; lia).
  unfold directive. unfold bind at 1. change (chr "%") with 37%N. rewrite (sym_hit 37%N s _ H R).
  set (s1 := set_pos (p_pos s + 1) s). assert (H1 : in_doc s1) by (apply moved_in; [exact H|lia]).
  assert (R1 : rem s1 = utf8_encode t ++ 10%N :: rest) by (unfold s1; rewrite rem_add, R; reflexivity).
  unfold bind at 1. unfold context at 1. set (t1 := set_eaten (p_pos s1) s1).
  assert (T1 : in_doc t1) by exact H1. assert (Q1 : rem t1 = utf8_encode t ++ 10%N :: rest) by exact R1.
  assert (B1 : set_pos (p_eaten t1) t1 = t1) by exact (set_pos_id t1).
  unfold bind at 1. rewrite (is_ok_eq _ _ _ (sym_seq_exec (lit "YAML") t1 T1)), Q1.
  destruct (starts_with (lit "YAML") (utf8_encode t ++ 10%N :: rest)) eqn:EY.
  { exfalso. destruct (starts_encode_ascii (lit "YAML") _ _ eq_refl EY) as [r K]; [simpl; intuition discriminate|]. now apply (HY r). }
  rewrite B1. unfold bind at 1. rewrite (is_ok_eq _ _ _ (sym_seq_exec (lit "TAG") t1 T1)), Q1.
  destruct (starts_with (lit "TAG") (utf8_encode t ++ 10%N :: rest)) eqn:ET.
  { exfalso. destruct (starts_encode_ascii (lit "TAG") _ _ eq_refl ET) as [r K]; [simpl; intuition discriminate|]. now apply (HT r). }
  rewrite B1. rewrite (more0_exec _ t1 T1), Q1.
  assert (SP : span (not_in [10; 13]%N) (utf8_encode t ++ 10%N :: rest) = k).
  { unfold k. apply span_app; [|reflexivity]. apply encode_not_in; [reflexivity|]. 
    apply forallb_forall. intros c Hc. apply not_nl_char. split; intros ->; contradiction. }
  rewrite SP. set (s2 := set_eaten (p_eaten s1) (set_pos (p_pos t1 + k) t1)).
  assert (E2 : s2 = set_pos (p_pos s + (k + 1)) s) by (unfold s2, t1, s1; apply st_ext; try reflexivity; cbn; lia).
  assert (H2 : in_doc s2) by (rewrite E2; apply moved_in; [exact H|lia]).
  assert (R2 : rem s2 = 10%N :: rest).
  { rewrite E2, rem_add, R. replace (k + 1) with (S k) by lia. cbn [skipn]. unfold k. apply skipn_exact. }
  unfold bind. rewrite (gap_stop s2 rest H2 R2 Hs). unfold ret. f_equal. rewrite E2. apply st_ext; try reflexivity; cbn; lia.
Qed.

(** a [%TAG] line *)
Lemma id_none c r : is_alnum c = false -> ident_len (c :: r) = 0.
Proof. intros H. cbn [ident_len]. now rewrite H. Qed.
Lemma tag_line s h p rest : in_doc s -> match h with Named n => name_ok n | _ => True end ->
  one_line p -> ~ In 32%N p -> p <> [] -> (forall r, p <> 9%N :: r) -> (forall r, p <> 12%N :: r) ->
  rem s = lit "%TAG " ++ handle_text h ++ lit " " ++ utf8_encode p ++ 10%N :: rest -> stop_head rest ->
  directive s = (ROk tt, set_tag (bt_insert (key_of h) p (p_tag s))
     (set_pos (p_pos s + 6 + List.length (handle_text h) + List.length (utf8_encode p) + 1) s)).
Proof.
  intros H Hh (Hv & H10 & H13) H32 Hp H9 H12 R Hs. set (k := List.length (utf8_encode p)). set (lh := List.length (handle_text h)).
  assert (LN : List.length (rem s) = 7 + lh + k + List.length rest).
  { rewrite R. rewrite !app_length. cbn [List.length]. unfold k, lh. cbn; lia. }
  assert (PH : match utf8_encode p ++ 10%N :: rest with [] => True | x :: _ => ~ blank x end).
  { destruct p as [|c p]; [congruence|]. destruct (first_byte c p) as (b & r & E & K). rewrite E. cbn [app]. intros [->|[->| ->]].
    - apply H32. destruct K as [(_ & <- & _)|[_ K]]; [now left|lia].
    - destruct K as [(_ & <- & _)|[_ K]]; [exact (H9 _ eq_refl)|lia].
    - destruct K as [(_ & <- & _)|[_ K]]; [exact (H12 _ eq_refl)|lia]. }
  unfold directive. unfold bind at 1. change (chr "%") with 37%N.
  rewrite (sym_hit 37%N s (lit "TAG " ++ handle_text h ++ lit " " ++ utf8_encode p ++ 10%N :: rest) H R).
  set (s1 := set_pos (p_pos s + 1) s). assert (H1 : in_doc s1) by (apply moved_in; [exact H|lia]).
  assert (R1 : rem s1 = lit "TAG " ++ handle_text h ++ lit " " ++ utf8_encode p ++ 10%N :: rest) by (unfold s1; rewrite rem_add, R; reflexivity).
  unfold bind at 1. unfold context at 1. set (t1 := set_eaten (p_pos s1) s1).
  assert (T1 : in_doc t1) by exact H1.
  assert (Q1 : rem t1 = lit "TAG" ++ (lit " " ++ handle_text h ++ lit " " ++ utf8_encode p ++ 10%N :: rest)) by exact R1.
  assert (B1 : set_pos (p_eaten t1) t1 = t1) by exact (set_pos_id t1).
  unfold bind at 1. rewrite (is_ok_eq _ _ _ (sym_seq_exec (lit "YAML") t1 T1)), Q1.
  change (starts_with (lit "YAML") (lit "TAG" ++ lit " " ++ handle_text h ++ lit " " ++ utf8_encode p ++ 10%N :: rest)) with false. cbv iota. rewrite B1.
  unfold bind at 1. rewrite (is_ok_eq _ _ _ (seq_hit _ _ _ T1 Q1)).
  set (t2 := set_pos (p_pos t1 + List.length (lit "TAG")) t1).
  assert (T2 : in_doc t2) by (apply moved_in; [exact T1|rewrite Q1, app_length; lia]).
  assert (Q2 : rem t2 = lit " " ++ handle_text h ++ lit " " ++ utf8_encode p ++ 10%N :: rest) by (unfold t2; rewrite rem_add, Q1; reflexivity).
  unfold directive_tag. unfold bind at 1. rewrite (ws1_hit t2 (lit " ") (handle_text h ++ lit " " ++ utf8_encode p ++ 10%N :: rest) T2); [|repeat constructor|discriminate| |exact Q2].
  2: { destruct h; cbn; intros [|[|]]; discriminate. }
  set (t3 := set_pos (p_pos t2 + List.length (lit " ")) t2).
  assert (T3 : in_doc t3) by (apply moved_in; [exact T2|rewrite Q2, app_length; lia]).
  assert (Q3 : rem t3 = handle_text h ++ lit " " ++ utf8_encode p ++ 10%N :: rest) by (unfold t3; rewrite rem_add, Q2; reflexivity).
  set (tl := lit " " ++ utf8_encode p ++ 10%N :: rest) in *.
  assert (HB : exists x, handle_text h = 33%N :: x) by (destruct h; cbn; eauto). destruct HB as [x Hx].
  unfold bind at 1. change (chr "!") with 33%N. rewrite (sym_hit 33%N t3 (x ++ tl) T3) by (rewrite Q3, Hx; reflexivity).
  set (t4 := set_pos (p_pos t3 + 1) t3).
  assert (T4 : in_doc t4) by (apply moved_in; [exact T3|rewrite Q3, Hx; cbn; lia]).
  assert (Q4 : rem t4 = x ++ tl) by (unfold t4; rewrite rem_add, Q3, Hx; reflexivity).
  unfold context at 1. set (u := set_eaten (p_pos t4) t4).
  assert (U : in_doc u) by exact T4. assert (V : rem u = x ++ tl) by exact Q4.
  assert (BU : set_pos (p_eaten u) u = u) by exact (set_pos_id u).
  (* the handle *)
  assert (HK : exists u1, in_doc u1 /\ rem u1 = tl /\ u1 = set_pos (p_pos u + List.length x) u /\
     forall B (g : str -> M B), (b <- is_ok identifier ;;
       tg <- (if (b : bool) then t <- text ;; sym (chr "!") ;;; ret t
              else b <- is_ok (sym (chr "!")) ;; if (b : bool) then ret (lit "!!") else ret (lit "!")) ;; g tg) u = g (key_of h) u1).
  { change (chr "!") with 33%N. destruct h as [| |n].
    - injection Hx as <-. cbn [app] in V. exists u. split; [exact U|]. split; [exact V|]. split; [now rewrite Nat.add_0_r, set_pos_id|].
      intros B g. unfold bind at 1. rewrite (is_ok_eq _ _ _ (identifier_exec u U)), V.
      change (ident_len tl) with 0. cbn [Nat.eqb]. rewrite BU. unfold bind at 1. unfold bind at 1.
      rewrite (is_ok_eq _ _ _ (sym_exec 33%N u U)), V. change (N.eqb 32 33) with false. cbv iota.
      unfold tl at 1. cbn [app]. change (N.eqb 32 33) with false. cbv iota. rewrite BU. reflexivity.
    - injection Hx as <-. change (lit "!") with [33%N] in V. cbn [app] in V.
      exists (set_pos (p_pos u + 1) u). split; [apply moved_in; [exact U|rewrite V; cbn; lia]|].
      split; [rewrite rem_add, V; reflexivity|]. split; [reflexivity|].
      intros B g. unfold bind at 1. rewrite (is_ok_eq _ _ _ (identifier_exec u U)), V.
      rewrite (id_none 33%N tl eq_refl). cbn [Nat.eqb]. rewrite BU. unfold bind at 1. unfold bind at 1.
      rewrite (is_ok_eq _ _ _ (sym_hit 33%N u tl U V)). reflexivity.
    - destruct Hh as (a & nt & En & Ha & Hnt). assert (NX : x = n ++ [33%N]) by (injection Hx as <-; reflexivity).
      assert (NA : name_at n (33%N :: tl)).
      { split; [exists a, nt; auto|]. intros [K|K]; discriminate. }
      rewrite NX, <- app_assoc in V. cbn [app] in V.
      exists (set_pos (p_pos u + List.length x) u). split; [apply moved_in; [exact U|rewrite V, NX, !app_length; cbn; lia]|].
      split; [rewrite rem_add, V, NX, app_length; cbn [List.length]; replace (List.length n + 1) with (List.length (n ++ [33%N])) by (rewrite app_length; reflexivity);
              change (n ++ 33%N :: tl) with (n ++ [33%N] ++ tl); rewrite app_assoc; apply skipn_exact|]. split; [reflexivity|].
      intros B g. unfold bind at 1. rewrite (is_ok_eq _ _ _ (identifier_exec u U)), V, (ident_len_name _ _ NA).
      assert (NL : Nat.eqb (List.length n) 0 = false) by (rewrite En; reflexivity). rewrite NL.
      set (v := set_pos (p_pos u + List.length n) u).
      assert (VI : in_doc v) by (apply moved_in; [exact U|rewrite V, app_length; lia]).
      assert (VR : rem v = 33%N :: tl) by (unfold v; rewrite rem_add, V; apply skipn_exact).
      unfold bind at 1. unfold bind at 1. rewrite (text_exec v VI).
      assert (TX : slice (p_eaten v) (p_pos v) (p_doc v) = n).
      { unfold v. cbn [p_pos set_pos p_doc p_eaten]. rewrite slice_rem by reflexivity. rewrite V. 
        rewrite firstn_app, Nat.sub_diag, firstn_all. cbn. apply app_nil_r. }
      rewrite TX, (name_ascii _ _ NA). unfold bind at 1. rewrite (sym_hit 33%N v tl VI VR). unfold ret at 1.
      cbn [key_of]. f_equal. unfold v. rewrite set_pos_pos. cbn [p_pos set_pos]. apply set_pos_eq. rewrite NX, app_length. cbn. lia. }
  destruct HK as (u1 & U1 & V1 & E1 & HK). rewrite HK. clear HK.
  unfold bind at 1. rewrite (ws1_hit u1 (lit " ") (utf8_encode p ++ 10%N :: rest) U1); [|repeat constructor|discriminate|exact PH|exact V1].
  set (u2 := set_pos (p_pos u1 + List.length (lit " ")) u1).
  assert (U2 : in_doc u2) by (apply moved_in; [exact U1|rewrite V1; cbn; lia]).
  assert (V2 : rem u2 = utf8_encode p ++ 10%N :: rest) by (unfold u2; rewrite rem_add, V1; reflexivity).
  assert (DC : context (take_while (not_in (lit " " ++ [10; 13]%N)) (More 1) ;;; text) u2 = (ROk p, set_pos (p_pos u2 + k) u2)).
  { unfold context. set (z := set_eaten (p_pos u2) u2). assert (Z : in_doc z) by exact U2. assert (ZR : rem z = utf8_encode p ++ 10%N :: rest) by exact V2.
    unfold bind at 1. rewrite (more_exec _ 1 z Z), ZR.
    assert (SP : span (not_in (lit " " ++ [10; 13]%N)) (utf8_encode p ++ 10%N :: rest) = k).
    { unfold k. apply span_app; [|reflexivity]. apply encode_not_in; [reflexivity|].
      apply forallb_forall. intros c Hc. apply not_in_spec. simpl. intros [<-|[<-|[<-|[]]]]; contradiction. }
    rewrite SP. assert (K1 : 1 <= k). { unfold k. destruct p as [|c p']; [congruence|]. destruct (first_byte c p') as (b & r & E & _). rewrite E. cbn. lia. }
    rewrite (proj2 (Nat.leb_le _ _) K1).
    set (z1 := set_pos (p_pos z + k) z). assert (Z1 : in_doc z1) by (apply moved_in; [exact Z|rewrite ZR, app_length; unfold k; lia]).
    rewrite (text_exec z1 Z1). unfold z1. cbn [p_pos set_pos p_doc p_eaten]. rewrite slice_rem by reflexivity. rewrite ZR.
    unfold k at 1. rewrite firstn_app, Nat.sub_diag, firstn_all. cbn [firstn]. rewrite app_nil_r, (C27_decode_encode p Hv).
    f_equal. }
  unfold bind at 1. rewrite DC. unfold modify at 1. cbv beta iota.
  set (f := set_eaten (p_eaten s1) _).
  assert (EF : f = set_tag (bt_insert (key_of h) p (p_tag s)) (set_pos (p_pos s + 6 + lh + k) s)).
  { unfold f, u2. rewrite E1. unfold u, t4, t3, t2, t1, s1, lh. rewrite Hx. apply st_ext; try reflexivity; cbn; lia. }
  rewrite EF. set (g := set_tag _ _).
  assert (G1 : in_doc g) by (apply (moved_in s (6 + lh + k)) in H; [|lia]; unfold in_doc in *; cbn in *; lia).
  assert (G2 : rem g = 10%N :: rest).
  { unfold rem, g. cbn [p_pos set_pos set_tag p_doc]. replace (p_pos s + 6 + lh + k) with (p_pos s + (6 + lh + k)) by lia.
    rewrite <- skipn_add. change (skipn (p_pos s) (p_doc s)) with (rem s).
    assert (R' : rem s = (lit "%TAG " ++ handle_text h ++ lit " " ++ utf8_encode p) ++ 10%N :: rest) by (rewrite R; unfold tl; now rewrite <- !app_assoc).
    rewrite R'.
    replace (6 + lh + k) with (List.length (lit "%TAG " ++ handle_text h ++ lit " " ++ utf8_encode p)) by (rewrite !app_length; cbn; unfold lh, k; lia).
    apply skipn_exact. }
  unfold bind. rewrite (gap_stop g rest G1 G2 Hs). unfold ret. f_equal.
Qed.
