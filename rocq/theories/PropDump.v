(** * C34, C35: what [dump] writes, and that [parse] reads it back *)
From Verif Require Export PropBlock Dumper.
Open Scope nat_scope.

(** ** Specification: the nodes that survive *)

(** A string on one line that can stand without quotes and is not something
    else then. *)
Record word_ok (s : str) : Prop := {
  ba_line : plain_line s;
  ba_end_marker : forall b, s <> lit "..." ++ b;
  ba_number : ~ number_line (utf8_encode s ++ [10%N]);
  ba_number_key : ~ number_line (utf8_encode s ++ [58%N]);
  ba_keyword : forall y, ~ In (s, y) keywords;
  ba_first : match s with c :: _ => is_uni_ws c = false | [] => True end
}.
(** A string of printable characters, tabs and carriage returns that has nothing to show before it ends, or
    before a key or a comment would begin in it: it is put in quotes.  One that
    ends in a backslash is left out (C12). *)
Definition printable (uni : N -> bool) (c : N) : Prop := c = 9%N \/ c = 13%N \/ (32 <= c)%N /\ c <> 127%N /\ (128 <= c -> uni c = true)%N.
Record hidden (uni : N -> bool) (s : str) : Prop := {
  hi_head : exists k r, s = repeat 32%N k ++ r /\ (r = [] \/ (exists q, r = lit ": " ++ q) \/ (exists q, r = lit " #" ++ q));
  hi_chars : Forall (printable uni) s;
  hi_ok : str_ok s
}.
Inductive scalar_ok (uni : N -> bool) : yaml -> Prop :=
| OkNull : scalar_ok uni YNull
| OkBool b : scalar_ok uni (YBool b)
| OkInt s : int_literal s -> scalar_ok uni (YInt s)
| OkFloat s : float_literal s \/ sci_literal s -> (forall u, s <> u ++ lit ".0") -> scalar_ok uni (YFloat s)
| OkBare s : word_ok s -> scalar_ok uni (YStr s)
| OkHidden s : hidden uni s -> scalar_ok uni (YStr s).
(** no tag of its own *)
Definition untagged (n : node) : Prop := n_rawtag n = [] \/ exists t, n_rawtag n = lit "tag:yaml.org,2002:" ++ t.
(** The data [dump] keeps: no empty collection, keys that are scalars and differ. *)
Inductive keeps (uni : N -> bool) : node -> Prop :=
| KScalar n : untagged n -> scalar_ok uni (n_yaml n) -> keeps uni n
| KSeq n v : untagged n -> n_yaml n = YSeq v -> v <> [] -> Forall (keeps uni) v -> keeps uni n
| KMap n m : untagged n -> n_yaml n = YMap m -> m <> [] -> distinct m ->
    Forall (fun kv => untagged (fst kv) /\ scalar_ok uni (n_yaml (fst kv)) /\ readable (n_yaml (fst kv)) /\ keeps uni (snd kv)) m ->
    keeps uni n.

(** ** Scalars *)
Ltac apps := repeat first [rewrite <- app_assoc | progress cbn [app]]; try reflexivity.
Lemma letters_word t y : t <> [] -> forallb letter t = true -> meaning t y -> leaf y t.
Proof.
  intros Hn Hl Hm. assert (F : forall c, In c t -> (65 <= c <= 90 \/ 97 <= c <= 122)%N).
  { intros c Hc. rewrite forallb_forall in Hl. now apply letter_range, Hl. }
  assert (NI : forall x, (x < 65)%N -> ~ In x t) by (intros x Hx K; apply F in K; lia).
  destruct t as [|c0 t0] eqn:Et; [congruence|]. rewrite <- Et in *.
  assert (I0 : In c0 t) by (rewrite Et; now left).
  assert (NUM : forall x, ~ number_line (utf8_encode t ++ [x])).
  { intros x (n & w & rest & E & K). assert (L : int_literal n \/ float_literal n \/ sci_literal n) by tauto.
    destruct (literal_head n L) as (b & r & -> & Hb). rewrite Et, encode_cons in E.
    rewrite encode_ascii in E by (apply F in I0; lia). injection E as -> _. apply F in I0. unfold digit in Hb. destruct Hb as [Hb|[Hb _]]; lia. }
  apply LWord; [split| | | |].
  - apply forallb_forall. intros c Hc. apply F in Hc. unfold valid_char. apply orb_true_iff. left. apply N.ltb_lt. lia.
  - exists c0, t0. split; [exact Et|]. apply F in I0. split.
    + intros K. simpl in K. intuition lia.
    + intros [->| ->]; lia.
  - split; apply NI; lia.
  - intros a b ->. apply (NI 58%N); [lia|]. rewrite !in_app_iff. right. left. now left.
  - intros a ->. apply (NI 58%N); [lia|]. rewrite !in_app_iff. right. now left.
  - intros a b ->. apply (NI 32%N); [lia|]. rewrite !in_app_iff. right. left. now left.
  - intros a c ->. assert (K : In c (a ++ [c])) by (apply in_or_app; right; now left). apply F in K. unfold is_uni_ws.
    repeat (apply orb_false_iff; split); try (apply N.eqb_neq; lia); apply andb_false_iff; rewrite !N.leb_gt; lia.
  - intros b ->. apply (NI 45%N); [lia|]. now left.
  - intros b ->. apply (NI 46%N); [lia|]. now left.
  - apply NUM.
  - apply NUM.
  - exact Hm.
Qed.
Lemma split_nl_one s : ~ In 10%N s -> split_nl s = [s].
Proof.
  induction s as [|c s IH]; intros H; [reflexivity|]. cbn [split_nl].
  rewrite (proj2 (N.eqb_neq c 10)) by (intros ->; apply H; now left). rewrite IH by (intros K; apply H; now right). reflexivity.
Qed.
Lemma lines_one s : ~ In 10%N s -> Nat.ltb 1 (List.length (lines s)) = false.
Proof. intros H. unfold lines. rewrite split_nl_one by exact H. destruct s; reflexivity. Qed.
Lemma word_ok_leaf s : word_ok s -> leaf (YStr s) s.
Proof. intros [H1 H2 H3 H4 H5 _]. apply LWord; try assumption. now apply MText. Qed.
Lemma fresh_in s : in_doc (fresh s) /\ AT (fresh s) /\ rem (fresh s) = utf8_encode s.
Proof. split; [unfold in_doc; cbn; lia|]. split; reflexivity. Qed.
Lemma word_ok_dump win uni ind s : word_ok s -> dump_str win uni ind s = ROk s.
Proof.
  intros [[Hv (c & r & Et & Hc & _) Hn Hk Hke Hcm Htr Hmk] _ _ _ _ _]. unfold dump_str. rewrite lines_one by tauto.
  destruct (fresh_in s) as (H & A & R).
  destruct (string_plain_exec 0 false (fresh s) s [] H Hv ltac:(congruence) (PropScalar.trim_end_last s Htr)) as (s' & E & _).
  - apply plainb_line; try assumption. intros _. rewrite Et. intros K. apply Hc. simpl in K |- *. tauto.
  - now rewrite app_nil_r.
  - now left.
  - now rewrite E.
Qed.
(** spaces, then the end, a key or a comment *)
Lemma plain_hidden : forall k n v s r, forallb is_uni_ws v = true -> k < n -> in_doc s -> rem s = repeat 32%N k ++ r ->
  r = [] \/ (exists q, r = lit ": " ++ q) \/ (exists q, r = lit " #" ++ q) ->
  exists v' s', plain_loop n 0 false v false s = (ROk v', s') /\ forallb is_uni_ws v' = true.
Proof.
  assert (ST : forall v n s r, in_doc s -> rem s = r -> starts_in (plain_patt false) r ->
    plain_loop (S n) 0 false v false s = plain_rest n 0 false v false (at_pos (p_pos s) s) /\ rem (at_pos (p_pos s) s) = r /\ in_doc (at_pos (p_pos s) s)).
  { intros v n s r H R Hs. destruct (plain_step n 0 false v false s [] r H ltac:(reflexivity) ltac:(reflexivity) Hs R) as (E1 & E2 & E3).
    cbn [utf8_encode flat_map List.length] in *. rewrite app_nil_r, Nat.add_0_r in *. auto. }
  induction k as [|k IH]; intros n v s r Hv Hn H R Hr; (destruct n as [|n]; [lia|]).
  - cbn [repeat app] in R. destruct (ST v n s r H R) as (E & R1 & D1).
    { destruct Hr as [->|[(q & ->)|(q & ->)]]; simpl; tauto. }
    rewrite E, plain_rest_stop; [eauto|exact D1|apply AT_at|]. rewrite R1. destruct Hr as [->|[(q & ->)|(q & ->)]]; reflexivity.
  - cbn [repeat app] in R. destruct (ST v n s _ H R) as (E & R1 & D1); [simpl; tauto|].
    destruct (stop_f (rem (at_pos (p_pos s) s))) eqn:ES.
    + rewrite E, plain_rest_stop; [eauto|exact D1|apply AT_at|exact ES].
    + rewrite E. rewrite (plain_rest_colon n 0 false v _ 32%N _ D1 (AT_at _ _) R1); [|now right|exact ES].
      apply (IH n (v ++ [32%N]) (set_pos (p_pos (at_pos (p_pos s) s) + 1) (at_pos (p_pos s) s)) r).
      * rewrite forallb_app, Hv. reflexivity.
      * lia.
      * apply in_doc_add; [rewrite R1; simpl; lia|exact D1].
      * rewrite rem_add, R1. reflexivity.
      * exact Hr.
Qed.
Lemma debug_quote uni s : Forall (printable uni) s -> debug_str uni s = quote s.
Proof.
  intros H. unfold debug_str, quote. cbn [app]. f_equal. f_equal. induction H as [|c s [->|[->|(H1 & H2 & H3)]] _ IH]; [reflexivity|cbn [flat_map]; now rewrite IH..|].
  cbn [flat_map]. f_equal; [|exact IH]. unfold debug_char, json_char.
  rewrite (proj2 (N.eqb_neq c 0)), (proj2 (N.eqb_neq c 9)), (proj2 (N.eqb_neq c 10)), (proj2 (N.eqb_neq c 13)),
    (proj2 (N.eqb_neq c 8)), (proj2 (N.eqb_neq c 12)) by lia.
  destruct (N.eqb_spec c 34) as [->|N1]; [reflexivity|]. destruct (N.eqb_spec c 92) as [->|N2]; [reflexivity|].
  rewrite (proj2 (N.ltb_ge c 32)) by lia. destruct (N.ltb_spec c 127); [reflexivity|].
  rewrite (proj2 (N.eqb_neq c 127)) by exact H2. rewrite H3 by lia. reflexivity.
Qed.
Lemma encode_spaces k : utf8_encode (repeat 32%N k) = repeat 32%N k.
Proof. induction k as [|k IH]; [reflexivity|]. cbn [repeat]. now rewrite encode_cons_ascii, IH by lia. Qed.
Lemma hidden_dump win uni ind s : hidden uni s -> dump_str win uni ind s = ROk (quote s).
Proof.
  intros [(k & r & Es & Hr) Hc Hs]. unfold dump_str. rewrite lines_one.
  2:{ intros K. rewrite Forall_forall in Hc. apply Hc in K. unfold printable in K. lia. }
  destruct (fresh_in s) as (H & A & R).
  assert (F : exists s', string_plain 0 false (fresh s) = (RErr Mismatch, s')).
  { unfold string_plain, context, bind, gets. set (s0 := set_eaten _ _).
    destruct (plain_hidden k (loop_fuel s0) [] s0 (utf8_encode r)) as (v' & s' & E & Hv).
    - reflexivity.
    - unfold loop_fuel. change (p_doc s0) with (utf8_encode s). rewrite Es, encode_app, encode_spaces, app_length, repeat_length. lia.
    - exact H.
    - change (rem s0) with (rem (fresh s)). rewrite R, Es, encode_app, encode_spaces. reflexivity.
    - destruct Hr as [->|[(q & ->)|(q & ->)]]; [now left|right; left|right; right]; rewrite encode_app; eexists; reflexivity.
    - rewrite E, (trim_end_ws v' Hv). eexists. reflexivity. }
  destruct F as (s' & F). rewrite F. cbn [fst]. now rewrite debug_quote.
Qed.

(** ** Nodes *)
Lemma untagged_part n : untagged n -> n_yaml n <> YAlias (match n_yaml n with YAlias a => a | _ => [] end) -> tag_part n = ROk [].
Proof.
  intros H Ha. unfold tag_part. assert (S : starts_with tag_prefix (node_tag n) = true); [|now rewrite S, andb_false_r].
  unfold node_tag. destruct H as [-> |(t & ->)].
  - destruct (n_yaml n); try reflexivity. congruence.
  - reflexivity.
Qed.
Lemma tag_scalar uni n : untagged n -> scalar_ok uni (n_yaml n) -> tag_part n = ROk [].
Proof. intros H S. apply untagged_part; [exact H|]. destruct S; discriminate. Qed.
Lemma scalar_dump win uni n root level : untagged n -> scalar_ok uni (n_yaml n) ->
  exists t, dump_node win uni [] n root level = ROk t /\ leaf (n_yaml n) t /\ (match t with c :: _ => is_uni_ws c = false | [] => True end).
Proof.
  intros H S. pose proof (tag_scalar uni n H S) as T. destruct n as [p tg y]. cbn [n_yaml] in *. cbn [dump_node anchor_part find_anchor bind_res].
  rewrite T. cbn [bind_res app]. destruct S as [|b|s Hs|s Hs H0|s Hs|s Hs].
  - exists (lit "null"). split; [reflexivity|]. split; [|reflexivity]. apply letters_word; [discriminate|reflexivity|]. apply MKey. simpl. tauto.
  - exists (if b then lit "true" else lit "false"). destruct b; (split; [reflexivity|]; split; [|reflexivity]);
      (apply letters_word; [discriminate|reflexivity|]; apply MKey; simpl; tauto).
  - exists s. split; [reflexivity|]. split; [now apply LInt|]. destruct (literal_head s) as (b & r & -> & Hb); [tauto|].
    unfold is_uni_ws. unfold digit in Hb. repeat (apply orb_false_iff; split); try (apply N.eqb_neq; lia); apply andb_false_iff; rewrite !N.leb_gt; lia.
  - exists s. split; [reflexivity|]. split; [now apply LFloat|]. destruct (literal_head s) as (b & r & -> & Hb); [tauto|].
    unfold is_uni_ws. unfold digit in Hb. repeat (apply orb_false_iff; split); try (apply N.eqb_neq; lia); apply andb_false_iff; rewrite !N.leb_gt; lia.
  - exists s. rewrite (word_ok_dump win uni _ s Hs). split; [reflexivity|]. split; [now apply word_ok_leaf|]. now destruct Hs.
  - exists (quote s). rewrite (hidden_dump win uni _ s Hs). split; [reflexivity|]. split; [apply LQuoted; now destruct Hs|]. reflexivity.
Qed.

(** The loops of the dumper. *)
Fixpoint dump_items (d : node -> res str) (nl indent : str) (level : nat) (i : nat) (v : list node) (buf : str) : res str :=
  match v with
  | [] => ROk buf
  | x :: r =>
    let buf := if negb (Nat.eqb i 0) || negb (Nat.eqb level 0) then buf ++ indent else buf in
    do! s := d x ;; dump_items d nl indent level (S i) r (buf ++ lit "- " ++ s ++ nl)
  end.
Lemma dump_seq_eq win uni p t v root level : dump_node win uni [] (Node p t (YSeq v)) root level =
  (do! tg := tag_part (Node p t (YSeq v)) ;;
   do! body := (do! buf := dump_items (fun x => dump_node win uni [] x RArray (level + 1)) (NL win) (repeat_str level (lit "  ")) level 0 v (NL win) ;; drop_nl win buf) ;;
   ROk (tg ++ body)).
Proof.
  cbn [dump_node anchor_part find_anchor bind_res app]. destruct (tag_part (Node p t (YSeq v))); try reflexivity. cbn [bind_res].
  match goal with |- bind_res (bind_res (?f 0 v (NL win)) _) _ = _ => set (go := f) end.
  assert (K : forall v i buf, go i v buf = dump_items (fun x => dump_node win uni [] x RArray (level + 1)) (NL win) (repeat_str level (lit "  ")) level i v buf).
  { clear. induction v as [|x v IH]; intros i buf; [reflexivity|]. cbn [dump_items]. unfold go at 1. cbn. fold go.
    destruct (dump_node win uni [] x RArray (level + 1)); try reflexivity. apply IH. }
  now rewrite K.
Qed.
Definition dump_value (win : bool) (uni : N -> bool) (root : root_t) (level i : nat) (v : node) : res str :=
  match n_yaml v with
  | YMap _ => dump_node win uni [] v RMap (level + 1)
  | YSeq _ => if is_rarray root && Nat.eqb i 0 then dump_node win uni [] v RMap level else dump_node win uni [] v RMap (level + 1)
  | _ => do! d := dump_node win uni [] v RMap (level + 1) ;; ROk (32%N :: d)
  end.
Fixpoint dump_entries (win : bool) (uni : N -> bool) (root : root_t) (level : nat) (i : nat) (m : list (node * node)) (buf : str) : res str :=
  match m with
  | [] => ROk buf
  | (k, v) :: r =>
    let buf := if negb (Nat.eqb i 0) || is_rmap root then buf ++ repeat_str level (lit "  ") else buf in
    do! s := dump_node win uni [] k RMap (level + 1) ;;
    let buf := match n_yaml k with
               | YMap _ | YSeq _ => buf ++ lit "?" ++ repeat_str (level + 1) (lit "  ") ++ NL win ++ s ++ NL win ++ repeat_str level (lit "  ")
               | _ => buf ++ s
               end in
    let buf := buf ++ lit ":" in
    do! vs := dump_value win uni root level i v ;;
    dump_entries win uni root level (S i) r (buf ++ vs ++ NL win)
  end.
Lemma dump_map_eq win uni p t m root level : dump_node win uni [] (Node p t (YMap m)) root level =
  (do! tg := tag_part (Node p t (YMap m)) ;;
   do! body := (do! buf := dump_entries win uni root level 0 m (match root with RMap => NL win | _ => [] end) ;; drop_nl win buf) ;;
   ROk (tg ++ body)).
Proof.
  cbn [dump_node anchor_part find_anchor bind_res app]. destruct (tag_part (Node p t (YMap m))); try reflexivity. cbn [bind_res].
  match goal with |- bind_res (bind_res (?f 0 m ?b) _) _ = _ => set (go := f) end.
  assert (K : forall m i buf, go i m buf = dump_entries win uni root level i m buf).
  { clear. induction m as [|[k v] m IH]; intros i buf; [reflexivity|]. cbn [dump_entries]. unfold go at 1. cbn. fold go. unfold dump_value.
    destruct (dump_node win uni [] k RMap (level + 1)); try reflexivity. cbn [bind_res].
    match goal with |- bind_res ?a _ = bind_res ?b _ => change b with a; destruct a; try reflexivity end. cbn [bind_res]. apply IH. }
  now rewrite K.
Qed.

Lemma repeat_indent level : repeat_str level (lit "  ") = indent (2 * level).
Proof. induction level as [|l IH]; [reflexivity|]. cbn [repeat_str]. rewrite IH. replace (2 * S l) with (S (S (2 * l))) by lia. reflexivity. Qed.
Lemma drop_nl_one buf : drop_nl false (buf ++ [10%N]) = ROk buf.
Proof.
  unfold drop_nl. rewrite app_length. cbn [NL List.length]. rewrite (proj2 (Nat.ltb_ge _ _)) by lia.
  replace (List.length buf + 1 - 1) with (List.length buf) by lia. rewrite firstn_app, firstn_all, Nat.sub_diag. cbn. now rewrite app_nil_r.
Qed.

(** what is to be shown of every kept node *)
Section Nodes.
Variable uni : N -> bool.
Definition seq_text (n : node) (v : list node) : Prop := forall root level, exists t,
  dump_node false uni [] n root level = ROk (10%N :: indent (2 * level) ++ lit "- " ++ t) /\ items (2 * level) v t.
Definition map_text (n : node) (m : list (node * node)) : Prop := forall root level, exists t,
  dump_node false uni [] n root level = ROk ((if is_rmap root then 10%N :: indent (2 * level) else []) ++ t) /\ entries (2 * level) m t
  /\ (match t with c :: _ => is_uni_ws c = false | [] => True end).
Definition kept_text (n : node) : Prop :=
  match n_yaml n with
  | YSeq v => seq_text n v
  | YMap m => map_text n m /\ distinct m
  | _ => untagged n /\ scalar_ok uni (n_yaml n)
  end.
Lemma kept_item n level : kept_text n -> exists t, dump_node false uni [] n RArray level = ROk t /\ item_at (2 * level) (n_yaml n) t.
Proof.
  unfold kept_text. intros H.
  assert (S : untagged n /\ scalar_ok uni (n_yaml n) -> exists t, dump_node false uni [] n RArray level = ROk t /\ item_at (2 * level) (n_yaml n) t).
  { intros [H1 H2]. destruct (scalar_dump false uni n RArray level H1 H2) as (t & E & L & _). exists t. split; [exact E|]. now apply IHere, NLeaf. }
  destruct (n_yaml n) as [| | | | |v|m|] eqn:En; auto.
  - destruct (H RArray level) as (t & E & K). eexists. split; [exact E|]. apply (INext _ _ _ []); [constructor|]. now apply NSeq.
  - destruct H as [H Hd]. destruct (H RArray level) as (t & E & K & _). eexists. split; [exact E|]. cbn [is_rmap app]. apply IHere. now apply NMap.
Qed.
Lemma kept_value n root level i : kept_text n -> exists t, dump_value false uni root level i n = ROk t /\ value_at (2 * level) (n_yaml n) t.
Proof.
  unfold kept_text, dump_value. intros H. replace (2 * (level + 1)) with (2 * level + 2) in * by lia.
  assert (S : untagged n /\ scalar_ok uni (n_yaml n) -> exists t, (do! d := dump_node false uni [] n RMap (level + 1) ;; ROk (32%N :: d)) = ROk t /\ value_at (2 * level) (n_yaml n) t).
  { intros [H1 H2]. destruct (scalar_dump false uni n RMap (level + 1) H1 H2) as (t & E & L & _). rewrite E. cbn [bind_res].
    exists (lit " " ++ t). split; [reflexivity|]. now apply VHere. }
  destruct (n_yaml n) as [| | | | |v|m|] eqn:En; auto.
  - destruct (is_rarray root && Nat.eqb i 0).
    + destruct (H RMap level) as (t & E & K). eexists. split; [exact E|]. apply (VFlush _ _ _ []); [constructor|exact K].
    + destruct (H RMap (level + 1)) as (t & E & K). eexists. split; [exact E|]. apply (VNext _ (2 * (level + 1)) _ _ []); [lia|constructor|]. now apply NSeq.
  - destruct H as [H Hd]. destruct (H RMap (level + 1)) as (t & E & K & _). eexists. split; [exact E|]. cbn [is_rmap app].
    apply (VNext _ (2 * (level + 1)) _ _ []); [lia|constructor|]. now apply NMap.
Qed.
Lemma items_text level : forall v i buf, v <> [] -> Forall kept_text v -> exists t,
  dump_items (fun x => dump_node false uni [] x RArray (level + 1)) [10%N] (indent (2 * level)) level i v buf = ROk (buf ++ indent (2 * level) ++ lit "- " ++ t ++ [10%N])
  /\ items (2 * level) v t.
Proof.
  assert (B : forall i buf, (if negb (Nat.eqb i 0) || negb (Nat.eqb level 0) then buf ++ indent (2 * level) else buf) = buf ++ indent (2 * level)).
  { intros i buf. destruct (negb (Nat.eqb i 0)); [reflexivity|]. destruct (Nat.eqb_spec level 0) as [->|]; [cbn; now rewrite app_nil_r|reflexivity]. }
  induction v as [|x v IH]; intros i buf Hn H; [congruence|]. inversion H as [|? ? Hx Hv]; subst.
  cbn [dump_items]. rewrite B. destruct (kept_item x (level + 1) Hx) as (tx & E & K). rewrite E. cbn [bind_res].
  replace (2 * (level + 1)) with (2 * level + 2) in K by lia.
  destruct v as [|x' v].
  - cbn [dump_items]. exists tx. split; [|now apply SOne]. f_equal; apps.
  - destruct (IH (S i) ((buf ++ indent (2 * level)) ++ lit "- " ++ tx ++ [10%N]) ltac:(discriminate) Hv) as (t & E' & K').
    exists (tx ++ 10%N :: [] ++ indent (2 * level) ++ lit "- " ++ t). split.
    + rewrite E'. f_equal; apps.
    + apply SMore; [exact K|constructor|exact K'].
Qed.
Lemma entries_text root level : forall m i buf, m <> [] ->
  Forall (fun kv => untagged (fst kv) /\ scalar_ok uni (n_yaml (fst kv)) /\ readable (n_yaml (fst kv)) /\ kept_text (snd kv)) m -> exists t,
  dump_entries false uni root level i m buf = ROk (buf ++ (if negb (Nat.eqb i 0) || is_rmap root then indent (2 * level) else []) ++ t ++ [10%N])
  /\ entries (2 * level) m t /\ (match t with c :: _ => is_uni_ws c = false | [] => True end).
Proof.
  induction m as [|[k v] m IH]; intros i buf Hn H; [congruence|]. inversion H as [|? ? (H1 & H2 & H3 & H4) Hm]; subst. cbn [fst snd] in *.
  cbn [dump_entries]. rewrite repeat_indent. destruct (scalar_dump false uni k RMap (level + 1) H1 H2) as (kt & E & L & Hf). rewrite E. cbn [bind_res].
  set (pre := if negb (Nat.eqb i 0) || is_rmap root then indent (2 * level) else []).
  set (buf' := if negb (Nat.eqb i 0) || is_rmap root then buf ++ indent (2 * level) else buf).
  assert (B : buf' = buf ++ pre) by (unfold buf', pre; destruct (negb (Nat.eqb i 0) || is_rmap root); [reflexivity|now rewrite app_nil_r]).
  assert (M : (match n_yaml k with YMap _ | YSeq _ => buf' ++ lit "?" ++ repeat_str (level + 1) (lit "  ") ++ NL false ++ kt ++ NL false ++ indent (2 * level)
               | _ => buf' ++ kt end) = buf' ++ kt) by (destruct H2; reflexivity).
  rewrite M, B. clear M B buf'. destruct (kept_value v root level i H4) as (vt & E' & K). rewrite E'. cbn [bind_res NL].
  assert (Hk : forall z, match kt ++ z with c :: _ => is_uni_ws c = false | [] => True end -> match kt ++ z with c :: _ => is_uni_ws c = false | [] => True end) by auto.
  assert (HF : forall z, match kt ++ lit ":" ++ z with c :: _ => is_uni_ws c = false | [] => True end) by (intros z; destruct kt; [reflexivity|exact Hf]).
  destruct m as [|kv' m].
  - cbn [dump_entries]. exists (kt ++ lit ":" ++ vt). split; [|split; [now apply EOne|apply HF]]. f_equal; apps.
  - destruct (IH (S i) (((buf ++ pre) ++ kt) ++ lit ":" ++ vt ++ [10%N]) ltac:(discriminate) Hm) as (t & E2 & K2 & _).
    exists (kt ++ lit ":" ++ vt ++ 10%N :: [] ++ indent (2 * level) ++ t). split; [|split; [|apply HF]].
    + rewrite <- (app_assoc _ (lit ":")). rewrite E2. cbn [Nat.eqb negb orb]. f_equal; apps.
    + apply EMore; try assumption. constructor.
Qed.
Lemma kept n : keeps uni n -> kept_text n.
Proof.
  assert (G : forall y n, n_yaml n = y -> keeps uni n -> kept_text n); [|intros H; now apply (G (n_yaml n) n)].
  induction y as [|b|s|s|s|v IH|m IH|a] using yaml_ind2; intros [p tg z] En H; cbn [n_yaml] in En; subst z; unfold kept_text; cbn [n_yaml];
    inversion H as [? Hu Hs|? v' Hu E1 Hne Hf|? m' Hu E1 Hne Hd Hf]; subst; cbn [n_yaml] in *; try discriminate; auto; try (now inversion Hs).
  - injection E1 as <-. intros root level. rewrite dump_seq_eq, (untagged_part _ Hu) by discriminate. cbn [bind_res app].
    rewrite repeat_indent. destruct (items_text level v 0 [10%N] Hne) as (t & E & K).
    { clear - IH Hf. induction IH as [|x l Hx _ IHl]; [constructor|]. inversion Hf; subst. constructor; [now apply Hx|now apply IHl]. }
    cbn [NL]. rewrite E. cbn [bind_res]. rewrite !app_assoc. rewrite drop_nl_one. cbn [bind_res]. exists t. split; [|exact K]. f_equal; apps.
  - injection E1 as <-. split; [|exact Hd]. intros root level. rewrite dump_map_eq, (untagged_part _ Hu) by discriminate. cbn [bind_res app].
    destruct (entries_text root level m 0 (match root with RMap => NL false | _ => [] end) Hne) as (t & E & K & HF).
    { clear - IH Hf. induction IH as [|[k x] l Hx _ IHl]; [constructor|]. inversion Hf as [|? ? (A1 & A2 & A3 & A4) A5]; subst. cbn [fst snd] in *.
      constructor; [|now apply IHl]. cbn [fst snd]. repeat (split; [assumption|]). now apply Hx. }
    rewrite E. cbn [bind_res]. rewrite !app_assoc. rewrite drop_nl_one. cbn [bind_res]. exists t. split; [|auto].
    f_equal. destruct root; reflexivity.
Qed.
Lemma kept_root n : keeps uni n -> exists t nl, dump_node false uni [] n RScalar 0 = ROk (nl ++ t) /\ node_at 0 (n_yaml n) t
  /\ (nl = [] \/ nl = [10%N]) /\ t <> [] /\ (match t with c :: _ => is_uni_ws c = false | [] => True end).
Proof.
  intros H. apply kept in H. unfold kept_text in H.
  assert (NE : forall y t, leaf y t -> t <> []).
  { intros y t L ->. inversion L; subst; try discriminate.
    - destruct H0 as [_ (c & r & K & _)]. discriminate.
    - destruct (literal_head [] (or_introl H0)) as (? & ? & K & _). discriminate.
    - destruct (literal_head [] (or_intror H0)) as (? & ? & K & _). discriminate. }
  assert (S : untagged n /\ scalar_ok uni (n_yaml n) -> exists t nl, dump_node false uni [] n RScalar 0 = ROk (nl ++ t) /\ node_at 0 (n_yaml n) t
    /\ (nl = [] \/ nl = [10%N]) /\ t <> [] /\ (match t with c :: _ => is_uni_ws c = false | [] => True end)).
  { intros [H1 H2]. destruct (scalar_dump false uni n RScalar 0 H1 H2) as (t & E & L & F). exists t, []. split; [exact E|]. split; [now apply NLeaf|].
    split; [auto|]. split; [|exact F]. eapply NE, L. }
  destruct (n_yaml n) as [| | | | |v|m|] eqn:En; auto.
  - destruct (H RScalar 0) as (t & E & K). exists (lit "- " ++ t), [10%N]. split; [exact E|]. split; [now apply NSeq|]. split; [auto|]. split; [discriminate|reflexivity].
  - destruct H as [H Hd]. destruct (H RScalar 0) as (t & E & K & F). exists t, []. split; [exact E|]. split; [now apply NMap|]. split; [auto|]. split; [|exact F].
    intros ->. inversion K; subst; destruct kt; discriminate.
Qed.
End Nodes.

(** ** C34, C35: the theorems *)
Definition no_anchors (ans : list anchors_t) : Prop := Forall (fun a => a = []) ans.
Lemma no_anchors_nth ans i : no_anchors ans -> nth i ans [] = [].
Proof. intros H. revert i. induction H as [|a l -> _ IH]; intros [|i]; try reflexivity. apply IH. Qed.
Lemma trim_start_item nl t z : (nl = [] \/ nl = [10%N]) -> t <> [] -> (match t with c :: _ => is_uni_ws c = false | [] => True end) ->
  trim_start ((nl ++ t) ++ z) = t ++ z.
Proof. intros Hn Ht Hf. destruct t as [|c t]; [congruence|]. destruct Hn as [-> | ->]; cbn; now rewrite Hf. Qed.
Lemma docs_rest uni ans : no_anchors ans -> forall ns i, Forall (keeps uni) ns ->
  exists u, dump_docs false uni (S i) ns ans = ROk u /\ next_docs (List.map n_yaml ns) (10%N :: u).
Proof.
  intros Ha. induction ns as [|n ns IH]; intros i H.
  - exists []. split; [reflexivity|]. apply (DEnd []). constructor.
  - inversion H as [|? ? Hn Hns]; subst. destruct (kept_root uni n Hn) as (t & nl & E & K & Hnl & Ht & Hf). destruct (IH (S i) Hns) as (u & Eu & Ku).
    cbn [dump_docs]. rewrite (no_anchors_nth _ _ Ha), E. cbn [bind_res]. rewrite Eu. cbn [bind_res NL].
    rewrite (trim_start_item nl t _ Hnl Ht Hf). eexists. split; [reflexivity|]. cbn [List.map].
    replace (10%N :: (lit "---" ++ [10%N] ++ t ++ [10%N]) ++ u) with (10%N :: [] ++ lit "---" ++ 10%N :: [] ++ t ++ 10%N :: u) by apps.
    apply DNext; try assumption; constructor.
Qed.
Lemma dump_stream uni n ns ans : Forall (keeps uni) (n :: ns) -> no_anchors ans ->
  exists t, dump false uni (n :: ns) ans = ROk t /\ stream (List.map n_yaml (n :: ns)) t.
Proof.
  intros H Ha. inversion H as [|? ? Hn Hns]; subst. destruct (kept_root uni n Hn) as (t & nl & E & K & Hnl & _). destruct (docs_rest uni ans Ha ns 0 Hns) as (u & Eu & Ku).
  exists ((nl ++ t) ++ 10%N :: u). split.
  - unfold dump. cbn [dump_docs]. rewrite (no_anchors_nth _ _ Ha), E. cbn [bind_res]. rewrite Eu. cbn [bind_res NL]. f_equal; apps.
  - cbn [List.map]. apply StPlain; [|exact Ku]. destruct Hnl as [-> | ->]; [now apply IHere|].
    change ([10%N] ++ t) with (10%N :: [] ++ indent 0 ++ t). apply INext; [constructor|exact K].
Qed.

(** C34: what [dump] writes for nodes of the class is read back as the same data,
    whatever the hasher and the table of printable characters are. *)
Theorem C34_dump_then_parse : forall (uni : N -> bool) (hk : hasher) (ns : list node) (ans : list anchors_t),
  ns <> [] -> Forall (keeps uni) ns -> no_anchors ans ->
  exists t nds, dump false uni ns ans = ROk t /\ parse hk t = ROk nds
    /\ List.map (fun n => strip (n_yaml n)) nds = List.map (fun n => strip (n_yaml n)) ns.
Proof.
  intros uni hk [|n ns] ans Hn H Ha; [congruence|]. destruct (dump_stream uni n ns ans H Ha) as (t & E & K).
  destruct (C43_block_documents hk _ t K) as (nds & P & S). exists t, nds. rewrite List.map_map in S. auto.
Qed.
(** ... so that [==] holds when the numbers are in range. *)
Theorem C34_dump_then_parse_equal : forall (uni : N -> bool) (hk : hasher) (ns : list node) (ans : list anchors_t),
  ns <> [] -> Forall (keeps uni) ns -> Forall (fun n => readable (n_yaml n)) ns -> no_anchors ans ->
  exists t nds, dump false uni ns ans = ROk t /\ parse hk t = ROk nds /\ Forall2 (fun nd n => node_eq nd n = Some true) nds ns.
Proof.
  intros uni hk ns ans Hn H R Ha. destruct (C34_dump_then_parse uni hk ns ans Hn H Ha) as (t & nds & E & P & S). exists t, nds. split; [exact E|]. split; [exact P|].
  clear - R S. revert nds S. induction R as [|n ns Hy R IH]; intros [|nd nds] K; try discriminate; constructor.
  - injection K as K _. unfold node_eq. now apply strip_eq_true.
  - injection K as _ K. now apply IH.
Qed.

(** the text of a document that is not the first *)
Definition next_text (d : str) : str := lit "---" ++ [10%N] ++ trim_start d.

(** C35: [dump] always ends on the class, and the text of several documents is the
    texts of the single documents, in order, with the marker line between them. *)
Theorem C35_dump_total_and_split : forall (uni : N -> bool) (ns : list node) (ans : list anchors_t),
  Forall (keeps uni) ns -> no_anchors ans ->
  exists ds, Forall2 (fun n d => dump false uni [n] [] = ROk d) ns ds
    /\ dump false uni ns ans = ROk (match ds with
                                    | [] => []
                                    | d :: r => d ++ flat_map next_text r
                                    end).
Proof.
  intros uni ns ans H Ha.
  assert (R : forall ns i, Forall (keeps uni) ns -> exists ds, Forall2 (fun n d => dump false uni [n] [] = ROk d) ns ds
     /\ dump_docs false uni (S i) ns ans = ROk (flat_map next_text ds)).
  { clear ns H. induction ns as [|n ns IH]; intros i H.
    - exists []. split; [constructor|reflexivity].
    - inversion H as [|? ? Hn Hns]; subst. destruct (kept_root uni n Hn) as (t & nl & E & _). destruct (IH (S i) Hns) as (ds & F & Eu).
      exists (((nl ++ t) ++ [10%N]) :: ds). split.
      + constructor; [|exact F]. unfold dump. cbn [dump_docs nth]. rewrite E. cbn [bind_res NL]. now rewrite app_nil_r.
      + cbn [dump_docs]. rewrite (no_anchors_nth _ _ Ha), E. cbn [bind_res]. rewrite Eu. cbn [bind_res NL flat_map]. reflexivity. }
  destruct H as [|n ns Hn Hns]; [exists []; split; [constructor|reflexivity]|].
  destruct (kept_root uni n Hn) as (t & nl & E & _). destruct (R ns 0 Hns) as (ds & F & Eu).
  exists (((nl ++ t) ++ [10%N]) :: ds). split.
  - constructor; [|exact F]. unfold dump. cbn [dump_docs nth]. rewrite E. cbn [bind_res NL]. now rewrite app_nil_r.
  - unfold dump. cbn [dump_docs]. rewrite (no_anchors_nth _ _ Ha), E. cbn [bind_res]. rewrite Eu. reflexivity.
Qed.
(** A dump never ends in the middle of a line, and reading it gives as many
    documents as were dumped. *)
Theorem C35_document_count : forall (uni : N -> bool) (hk : hasher) (ns : list node) (ans : list anchors_t),
  ns <> [] -> Forall (keeps uni) ns -> no_anchors ans ->
  exists t u nds, dump false uni ns ans = ROk t /\ t = u ++ [10%N] /\ parse hk t = ROk nds /\ List.length nds = List.length ns.
Proof.
  intros uni hk ns ans Hn H Ha. destruct (C34_dump_then_parse uni hk ns ans Hn H Ha) as (t & nds & E & P & S).
  assert (L : exists u, t = u ++ [10%N]).
  { destruct (C35_dump_total_and_split uni ns ans H Ha) as (ds & F & E'). rewrite E in E'. injection E' as ->.
    assert (G : forall n d, keeps uni n -> dump false uni [n] [] = ROk d -> exists u c, d = u ++ [10%N] /\ trim_start d = c ++ [10%N]).
    { intros n d Hk Ed. destruct (kept_root uni n Hk) as (x & nl & Ex & _ & Hnl & Hx & Hf). unfold dump in Ed. cbn [dump_docs nth] in Ed. rewrite Ex in Ed.
      cbn [bind_res NL] in Ed. rewrite app_nil_r in Ed. injection Ed as <-. exists (nl ++ x), x. split; [reflexivity|]. now apply trim_start_item. }
    clear - F G H Hn. destruct F as [|n d ns ds Hd F]; [congruence|]. inversion H as [|? ? H1 H2]; subst. destruct (G n d H1 Hd) as (u & _ & -> & _).
    assert (K : flat_map next_text ds = [] \/ exists w, flat_map next_text ds = w ++ [10%N]).
    { clear - F G H2. induction F as [|n d ns ds Hd F IH]; [now left|]. inversion H2 as [|? ? H3 H4]; subst. right. cbn [flat_map].
      unfold next_text at 1. destruct (G n d H3 Hd) as (_ & c & _ & ->). destruct (IH H4) as [->|(w & ->)].
      - exists (lit "---" ++ [10%N] ++ c). rewrite app_nil_r. apps.
      - exists ((lit "---" ++ [10%N] ++ c ++ [10%N]) ++ w). now rewrite app_assoc. }
    destruct K as [->|(w & ->)]; [exists u; now rewrite app_nil_r|]. exists ((u ++ [10%N]) ++ w). now rewrite app_assoc. }
  destruct L as (u & Lu). exists t, u, nds. split; [exact E|]. split; [exact Lu|]. split; [exact P|].
  apply (f_equal (@List.length yaml)) in S. now rewrite !List.map_length in S.
Qed.

(** ** What is left out, and why *)

(** [dump] does not end on a string that begins with a flow bracket, or on a word
    with one line break after it: the scan stays where it is. *)
Lemma plain_stuck : forall n v lead s x r, in_doc s -> rem s = x :: r -> depth (p_indent s) 0 = 0 ->
  (x = 10%N \/ (v = [] /\ In x (lit "{}[]"))) -> fst (plain_loop n 0 false v lead s) = RDiv.
Proof.
  induction n as [|n IH]; intros v lead s x r H R D Hx; [reflexivity|].
  assert (NS : stop_f (x :: r) = false /\ is_in (lit ": ") x = false /\ In x (plain_patt false)).
  { destruct Hx as [->|[_ Hx]]; [cbn; tauto|]. simpl in Hx. repeat (destruct Hx as [<-|Hx]; [cbn; tauto|]). destruct Hx. }
  destruct NS as (NS1 & NS2 & NS3).
  destruct (plain_step n 0 false v lead s [] (x :: r) H ltac:(reflexivity) ltac:(reflexivity) NS3 R) as (E & R1 & D1).
  cbn [utf8_encode flat_map List.length] in *. rewrite app_nil_r in E. rewrite Nat.add_0_r in *. rewrite E. clear E.
  set (s1 := at_pos (p_pos s) s) in *. assert (A1 : AT s1) by apply AT_at.
  unfold plain_rest. destruct (plain_stop_exec s1 D1 A1) as (p & Ep & Hp). rewrite R1 in Ep, Hp. rewrite (Hp NS1), set_pos_id in Ep.
  rewrite (bind_ok _ _ _ _ _ Ep), NS1. unfold bind at 1, forward, modify. rewrite (set_eaten_AT s1 A1).
  unfold bind at 1. rewrite (is_ok_eq _ _ _ (sym_set_exec (lit ": ") s1 D1)), R1, NS2. rewrite A1, set_pos_id.
  assert (B : (if negb false && negb (match v with [] => true | _ => false end) then is_ok (sym_set (lit "{}[]")) else ret false) s1 = (ROk false, s1)).
  { destruct v as [|c v]; [reflexivity|]. cbn [negb andb]. rewrite (is_ok_eq _ _ _ (sym_set_exec (lit "{}[]") s1 D1)), R1.
    destruct Hx as [->|[Hv _]]; [|congruence]. cbn [is_in existsb]. now rewrite A1, set_pos_id. }
  unfold bind at 1. rewrite B. unfold bind at 1. rewrite (is_err_eq _ _ _ (ind_exec 0 s1 D1)), ind_width_depth.
  change (p_indent s1) with (p_indent s). rewrite D. cbn [Nat.leb]. rewrite Nat.add_0_r.
  apply (IH v lead _ x r).
  - exact D1.
  - exact R1.
  - cbn [p_indent set_pos set_indent]. unfold ind_table. now rewrite depth_norm.
  - exact Hx.
Qed.
Theorem C35_bracket_refuted : forall win uni indent c r, In c (lit "{}[]") -> ~ In 10%N r ->
  (forall n, fst (plain_loop n 0 false [] false (fresh (c :: r))) = RDiv) /\ dump_str win uni indent (c :: r) = RDiv.
Proof.
  intros win uni ind c r Hc Hr.
  assert (C : (c < 128)%N /\ c <> 10%N) by (simpl in Hc; repeat (destruct Hc as [<-|Hc]; [lia|]); destruct Hc).
  assert (K : forall n e, fst (plain_loop n 0 false [] false (set_eaten e (fresh (c :: r)))) = RDiv).
  { intros n e. eapply plain_stuck; [unfold in_doc; cbn; lia| |reflexivity|right; split; [reflexivity|exact Hc]].
    change (rem (set_eaten e (fresh (c :: r)))) with (utf8_encode (c :: r)). rewrite encode_cons_ascii by lia. reflexivity. }
  split; [intros n; apply (K n 0)|]. unfold dump_str. rewrite lines_one by (intros [->|H]; [lia|exact (Hr H)]).
  unfold string_plain, context, bind, gets. set (s0 := set_eaten _ _). specialize (K (loop_fuel s0) (p_pos (fresh (c :: r)))). fold s0 in K.
  destruct (plain_loop (loop_fuel s0) 0 false [] false s0) as [q s']. cbn in K. now subst q.
Qed.
Theorem C35_line_break_refuted : forall win uni indent t, valid t -> t <> [] -> forallb (not_in (plain_patt false)) t = true ->
  (forall n, fst (plain_loop n 0 false [] false (fresh (t ++ [10%N]))) = RDiv) /\ dump_str win uni indent (t ++ [10%N]) = RDiv.
Proof.
  intros win uni ind t Hv Hn Ht.
  assert (N10 : ~ In 10%N t).
  { intros K. rewrite forallb_forall in Ht. apply Ht in K. discriminate. }
  assert (K : forall n e, fst (plain_loop n 0 false [] false (set_eaten e (fresh (t ++ [10%N])))) = RDiv).
  { intros [|n] e; [reflexivity|]. set (s := set_eaten _ _). assert (H : in_doc s) by (unfold in_doc; cbn; lia).
    assert (R : rem s = utf8_encode t ++ [10%N]) by (unfold s; change (rem (set_eaten e (fresh (t ++ [10%N])))) with (utf8_encode (t ++ [10%N])); now rewrite encode_app).
    destruct (plain_step n 0 false [] false s t [10%N] H Hv Ht ltac:(simpl; tauto) R) as (E & R1 & D1). rewrite E. cbn [app].
    pose proof (plain_stuck (S n) t false (at_pos (p_pos s + List.length (utf8_encode t)) s) 10%N [] D1 R1 eq_refl (or_introl eq_refl)) as K.
    destruct (plain_step n 0 false t false (at_pos (p_pos s + List.length (utf8_encode t)) s) [] [10%N] D1 ltac:(reflexivity) ltac:(reflexivity) ltac:(simpl; tauto) R1) as (E2 & _).
    rewrite E2, app_nil_r in K. cbn [utf8_encode flat_map List.length] in K. rewrite Nat.add_0_r in K. exact K. }
  split; [intros n; apply (K n 0)|]. unfold dump_str. unfold lines.
  assert (S : split_nl (t ++ [10%N]) = [t; []]).
  { clear - N10. induction t as [|c t IH]; [reflexivity|]. cbn [app split_nl]. rewrite (proj2 (N.eqb_neq c 10)) by (intros ->; apply N10; now left).
    rewrite IH by (intros K; apply N10; now right). reflexivity. }
  rewrite S. cbn [lines_of List.length Nat.ltb Nat.leb].
  unfold string_plain, context, bind, gets. set (s0 := set_eaten _ _). specialize (K (loop_fuel s0) (p_pos (fresh (t ++ [10%N])))). fold s0 in K.
  destruct (plain_loop (loop_fuel s0) 0 false [] false s0) as [q s']. cbn in K. now subst q.
Qed.
(** An empty map as a document makes [dump] panic (in a debug build). *)
Theorem C35_empty_map_refuted : forall uni p tg, untagged (Node p tg (YMap [])) -> dump false uni [Node p tg (YMap [])] [] = RPanic.
Proof.
  intros uni p tg H. unfold dump. cbn [dump_docs nth]. rewrite dump_map_eq, (untagged_part _ H) by discriminate. reflexivity.
Qed.
(** Strings that are something else without their quotes, empty sequences and
    floats that print as integers do not come back; neither does a second
    document that begins with a blank of Unicode. *)
Definition dump_parse (y : list yaml) : res (list yaml) :=
  match dump false (fun _ => true) (List.map node_from y) [] with
  | ROk t => match parse (fun _ => 0%N) t with
             | ROk nds => ROk (List.map (fun n => strip (n_yaml n)) nds)
             | RErr e => RErr e | RPanic => RPanic | RDiv => RDiv
             end
  | RErr e => RErr e | RPanic => RPanic | RDiv => RDiv
  end.
Theorem C34_other_data_refuted :
  dump_parse [YStr (lit "true")] = ROk [YBool true]
  /\ dump_parse [YStr (lit "123")] = ROk [YInt (lit "123")]
  /\ dump_parse [YStr (lit "a: b")] = ROk [YMap [(node_from (YStr (lit "a")), node_from (YStr (lit "b")))]]
  /\ dump_parse [YStr (lit "a # b")] = ROk [YStr (lit "a")]
  /\ dump_parse [YSeq []] = ROk [YNull]
  /\ dump_parse [YFloat (lit "1")] = ROk [YInt (lit "1")]
  /\ dump_parse [YNull; YStr (160%N :: lit "a")] = ROk [YNull; YStr (lit "a")].
Proof. vm_compute. repeat split. Qed.

(** A node of the class: nested collections, a map with a sequence as its first
    entry inside a sequence, and a string that needs quotes. *)
Definition num (s : str) : node := node_from (YInt s).
Definition sample : node := node_from (YMap
  [(node_from (YStr (lit "name")), node_from (YSeq [node_from YNull;
     node_from (YMap [(node_from (YStr (lit "list")), node_from (YSeq [num (lit "7"); node_from (YSeq [node_from (YBool true)])]));
                      (num (lit "12"), node_from (YFloat (lit "1.5")))]);
     node_from (YStr (lit " # no" ++ 9%N :: lit "te"))]));
   (node_from YNull, node_from (YStr []))]).
Lemma letters_ok s : s <> [] -> forallb letter s = true -> existsb (fun kv => str_eqb s (fst kv)) keywords = false -> word_ok s.
Proof.
  intros Hn Hl Hk. pose proof (letters_leaf s Hn Hl Hk) as L. inversion L as [? ? H1 H2 H3 H4 H5| | |b Hb Eb E]; [subst| ].
  - split; try assumption.
    + inversion H5; subst; [|assumption]. exfalso. cbn in H. repeat (destruct H as [H|H]; [discriminate|]). destruct H.
    + destruct s as [|c s]; [exact I|]. cbn in Hl. apply andb_true_iff in Hl as [Hl _]. apply letter_range in Hl. unfold is_uni_ws.
      repeat (apply orb_false_iff; split); try (apply N.eqb_neq; lia); apply andb_false_iff; rewrite !N.leb_gt; lia.
  - exfalso. rewrite <- E in Hl. discriminate.
Qed.
Example C34_witness : keeps (fun _ => false) sample /\ readable (n_yaml sample).
Proof.
  assert (W : forall s, s <> [] -> forallb letter s = true -> existsb (fun kv => str_eqb s (fst kv)) keywords = false -> scalar_ok (fun _ => false) (YStr s))
    by (intros; apply OkBare; now apply letters_ok).
  assert (I7 : int_literal (lit "7")) by (apply DecLit; [discriminate|repeat constructor; unfold digit; lia]).
  assert (I12 : int_literal (lit "12")) by (apply DecLit; [discriminate|repeat constructor; unfold digit; lia]).
  assert (U : forall y, untagged (node_from y)) by (intros; now left).
  split.
  - apply (KMap _ _ _ (U _) eq_refl); [discriminate| |].
    + constructor; [|constructor; [constructor|constructor]]. constructor; [|constructor]. cbn. intros S. inversion S.
    + constructor; [|constructor; [|constructor]].
      * split; [apply U|]. split; [now apply W|]. split; [constructor|]. apply (KSeq _ _ _ (U _) eq_refl); [discriminate|].
        constructor; [apply KScalar; [apply U|constructor]|]. constructor; [|constructor; [|constructor]].
        -- apply (KMap _ _ _ (U _) eq_refl); [discriminate| |].
           ++ constructor; [|constructor; [constructor|constructor]]. constructor; [|constructor]. cbn. intros S. inversion S.
           ++ constructor; [|constructor; [|constructor]].
              ** split; [apply U|]. split; [now apply W|]. split; [constructor|]. apply (KSeq _ _ _ (U _) eq_refl); [discriminate|].
                 constructor; [apply KScalar; [apply U|now apply OkInt]|]. constructor; [|constructor].
                 apply (KSeq _ _ _ (U _) eq_refl); [discriminate|]. constructor; [apply KScalar; [apply U|constructor]|constructor].
              ** split; [apply U|]. split; [now apply OkInt|]. split; [eapply ReadInt; reflexivity|]. apply KScalar; [apply U|]. apply OkFloat.
                 --- left. apply (FloatLit false (lit "1") (lit "5")); try discriminate; repeat constructor; unfold digit; lia.
                 --- intros u E. change (lit "1.5") with ([49%N] ++ lit ".5") in E. apply (f_equal (@rev N)) in E. rewrite !rev_app_distr in E. discriminate.
        -- apply KScalar; [apply U|]. apply OkHidden. split.
           ++ exists 0, (lit " # no" ++ 9%N :: lit "te"). split; [reflexivity|]. right. right. exists (lit " no" ++ 9%N :: lit "te"). reflexivity.
           ++ repeat (apply Forall_cons; [unfold printable; lia|]). constructor.
           ++ split; [reflexivity|discriminate].
      * split; [apply U|]. split; [constructor|]. split; [constructor|]. apply KScalar; [apply U|]. apply OkHidden. split.
        -- exists 0, []. auto.
        -- constructor.
        -- split; [reflexivity|discriminate].
  - repeat (constructor; cbn [fst snd n_yaml node_from]); try (eapply ReadInt; reflexivity); try (eapply ReadFloat; reflexivity).
Qed.
