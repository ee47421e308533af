(** * C44, C45: line ends, documents, anchors and tags in what [dump] writes *)
From Verif Require Export NodeFacts Dumper.
Open Scope nat_scope.

(** ** The loops of the dumper, for any table of anchors *)
Fixpoint items_loop (d : node -> res str) (nl indent : str) (level : nat) (i : nat) (v : list node) (buf : str) : res str :=
  match v with
  | [] => ROk buf
  | x :: r =>
    let buf := if negb (Nat.eqb i 0) || negb (Nat.eqb level 0) then buf ++ indent else buf in
    do! s := d x ;; items_loop d nl indent level (S i) r (buf ++ lit "- " ++ s ++ nl)
  end.
Lemma seq_body win uni an p t v root level : dump_node win uni an (Node p t (YSeq v)) root level =
  (do! a := anchor_part an (Node p t (YSeq v)) ;;
   do! tg := tag_part (Node p t (YSeq v)) ;;
   do! body := (do! buf := items_loop (fun x => dump_node win uni an x RArray (level + 1)) (NL win) (repeat_str level (lit "  ")) level 0 v (NL win) ;; drop_nl win buf) ;;
   ROk ((a ++ tg) ++ body)).
Proof.
  cbn [dump_node]. destruct (anchor_part an (Node p t (YSeq v))); try reflexivity. cbn [bind_res].
  destruct (tag_part (Node p t (YSeq v))); try reflexivity. cbn [bind_res].
  match goal with |- bind_res (bind_res (?f 0 v (NL win)) _) _ = _ => set (go := f) end.
  assert (K : forall v i buf, go i v buf = items_loop (fun x => dump_node win uni an x RArray (level + 1)) (NL win) (repeat_str level (lit "  ")) level i v buf).
  { clear. induction v as [|x v IH]; intros i buf; [reflexivity|]. cbn [items_loop]. unfold go at 1. cbn. fold go.
    destruct (dump_node win uni an x RArray (level + 1)); try reflexivity. apply IH. }
  now rewrite K.
Qed.
Definition value_text (win : bool) (uni : N -> bool) (an : anchors_t) (root : root_t) (level i : nat) (v : node) : res str :=
  match n_yaml v with
  | YMap _ => dump_node win uni an v RMap (level + 1)
  | YSeq _ => if is_rarray root && Nat.eqb i 0 then dump_node win uni an v RMap level else dump_node win uni an v RMap (level + 1)
  | _ => do! d := dump_node win uni an v RMap (level + 1) ;; ROk (32%N :: d)
  end.
Definition key_text (win : bool) (level : nat) (k : node) (buf s : str) : str :=
  match n_yaml k with
  | YMap _ | YSeq _ => buf ++ lit "?" ++ repeat_str (level + 1) (lit "  ") ++ NL win ++ s ++ NL win ++ repeat_str level (lit "  ")
  | _ => buf ++ s
  end.
Fixpoint entries_loop (win : bool) (uni : N -> bool) (an : anchors_t) (root : root_t) (level : nat) (i : nat) (m : list (node * node)) (buf : str) : res str :=
  match m with
  | [] => ROk buf
  | (k, v) :: r =>
    let buf := if negb (Nat.eqb i 0) || is_rmap root then buf ++ repeat_str level (lit "  ") else buf in
    do! s := dump_node win uni an k RMap (level + 1) ;;
    let buf := key_text win level k buf s ++ lit ":" in
    do! vs := value_text win uni an root level i v ;;
    entries_loop win uni an root level (S i) r (buf ++ vs ++ NL win)
  end.
Lemma map_body win uni an p t m root level : dump_node win uni an (Node p t (YMap m)) root level =
  (do! a := anchor_part an (Node p t (YMap m)) ;;
   do! tg := tag_part (Node p t (YMap m)) ;;
   do! body := (do! buf := entries_loop win uni an root level 0 m (match root with RMap => NL win | _ => [] end) ;; drop_nl win buf) ;;
   ROk ((a ++ tg) ++ body)).
Proof.
  cbn [dump_node]. destruct (anchor_part an (Node p t (YMap m))); try reflexivity. cbn [bind_res].
  destruct (tag_part (Node p t (YMap m))); try reflexivity. cbn [bind_res].
  match goal with |- bind_res (bind_res (?f 0 m ?b) _) _ = _ => set (go := f) end.
  assert (K : forall m i buf, go i m buf = entries_loop win uni an root level i m buf).
  { clear. induction m as [|[k v] m IH]; intros i buf; [reflexivity|]. cbn [entries_loop]. unfold go at 1. cbn. fold go. unfold value_text, key_text.
    destruct (dump_node win uni an k RMap (level + 1)); try reflexivity. cbn [bind_res].
    match goal with |- bind_res ?a _ = bind_res ?b _ => change b with a; destruct a; try reflexivity end. cbn [bind_res]. apply IH. }
  now rewrite K.
Qed.

(** ** C44: specification *)
(** every line feed becomes CR LF *)
Definition to_crlf (s : str) : str := flat_map (fun c => if N.eqb c 10 then [13; 10]%N else [c]) s.
Definition on_text (f : str -> str) (r : res str) : res str :=
  match r with ROk t => ROk (f t) | RErr e => RErr e | RPanic => RPanic | RDiv => RDiv end.
Definition no_lf (s : str) : Prop := ~ In 10%N s.
(** the written parts that are copied as they are have no line feed in them; a
    string may have two or more lines *)
Inductive plain_parts : yaml -> Prop :=
| PPNull : plain_parts YNull
| PPBool b : plain_parts (YBool b)
| PPInt s : no_lf s -> plain_parts (YInt s)
| PPFloat s : no_lf s -> plain_parts (YFloat s)
| PPAlias s : no_lf s -> plain_parts (YAlias s)
| PPStr s : no_lf s \/ 2 <= List.length (lines s) -> plain_parts (YStr s)
| PPSeq v : Forall (fun n => no_lf (n_rawtag n) /\ plain_parts (n_yaml n)) v -> plain_parts (YSeq v)
| PPMap m : Forall (fun kv => (no_lf (n_rawtag (fst kv)) /\ plain_parts (n_yaml (fst kv))) /\ (no_lf (n_rawtag (snd kv)) /\ plain_parts (n_yaml (snd kv)))) m -> plain_parts (YMap m).

(** ** C44: proof *)
Lemma crlf_app a b : to_crlf (a ++ b) = to_crlf a ++ to_crlf b.
Proof. apply flat_map_app. Qed.
Lemma crlf_id s : no_lf s -> to_crlf s = s.
Proof.
  unfold no_lf. induction s as [|c s IH]; intros H; [reflexivity|]. cbn [to_crlf flat_map]. fold (to_crlf s).
  rewrite (proj2 (N.eqb_neq c 10)) by (intros ->; apply H; now left). cbn [app]. f_equal. apply IH. intros K. apply H. now right.
Qed.
Lemma crlf_nl : to_crlf (NL false) = NL true. Proof. reflexivity. Qed.
Lemma lf_repeat k : no_lf (repeat_str k (lit "  ")).
Proof. unfold no_lf. induction k as [|k IH]; [intros []|]. cbn [repeat_str]. rewrite in_app_iff. intros [H|H]; [|now apply IH]. simpl in H. intuition discriminate. Qed.
Lemma crlf_trim_start s : trim_start (to_crlf s) = to_crlf (trim_start s).
Proof.
  induction s as [|c s IH]; [reflexivity|]. cbn [to_crlf flat_map trim_start]. fold (to_crlf s). destruct (N.eqb_spec c 10) as [->|Hc].
  - cbn. exact IH.
  - cbn [app trim_start]. destruct (is_uni_ws c); [exact IH|]. cbn [to_crlf flat_map]. now rewrite (proj2 (N.eqb_neq c 10) Hc).
Qed.
Lemma crlf_nil s : to_crlf s = [] -> s = [].
Proof. destruct s as [|c s]; [reflexivity|]. cbn [to_crlf flat_map]. destruct (N.eqb c 10); discriminate. Qed.
Lemma crlf_trim_end s : trim_end (to_crlf s) = to_crlf (trim_end s).
Proof.
  induction s as [|c s IH]; [reflexivity|]. cbn [to_crlf flat_map]. fold (to_crlf s). cbn [trim_end]. destruct (N.eqb_spec c 10) as [->|Hc].
  - cbn [app trim_end]. rewrite IH. destruct (trim_end s) as [|x r]; [reflexivity|]. cbn [to_crlf flat_map]. fold (to_crlf r). destruct (N.eqb x 10); reflexivity.
  - cbn [app trim_end]. rewrite IH. destruct (trim_end s) as [|x r].
    + destruct (is_uni_ws c) eqn:E; [reflexivity|]. cbn [to_crlf flat_map]. now rewrite (proj2 (N.eqb_neq c 10) Hc).
    + cbn [to_crlf flat_map]. fold (to_crlf r). rewrite (proj2 (N.eqb_neq c 10) Hc). destruct (N.eqb x 10); reflexivity.
Qed.
Lemma crlf_trim s : trim (to_crlf s) = to_crlf (trim s).
Proof. unfold trim. now rewrite crlf_trim_start, crlf_trim_end. Qed.
Lemma crlf_join ls : Forall no_lf ls -> to_crlf (join (NL false) ls) = join (NL true) ls.
Proof.
  induction 1 as [|l ls Hl _ IH]; [reflexivity|]. cbn [join]. destruct ls as [|l' ls]; [now apply crlf_id|].
  rewrite !crlf_app, (crlf_id l Hl), IH. reflexivity.
Qed.
Lemma split_nl_lf : forall s, Forall no_lf (split_nl s).
Proof.
  induction s as [|c s IH]; [repeat constructor; intros []|]. cbn [split_nl]. destruct (N.eqb_spec c 10) as [->|Hc].
  - constructor; [intros []|exact IH].
  - destruct (split_nl s) as [|p ps]; [repeat constructor; intros [K|[]]; congruence|]. inversion IH; subst. constructor; [|assumption].
    intros [K|K]; [congruence|]. now apply H1.
Qed.
Lemma strip_cr_lf l : no_lf l -> no_lf (strip_cr l).
Proof.
  intros H K. apply H. unfold strip_cr in K. destruct (rev l) as [|c r] eqn:E; [exact K|]. destruct (N.eqb c 13); [|exact K].
  apply in_rev in K. apply in_rev. rewrite E. now right.
Qed.
Lemma lines_lf s : Forall no_lf (lines s).
Proof.
  unfold lines. pose proof (split_nl_lf s) as H. induction H as [|l ls Hl Hls IH]; [constructor|]. cbn [lines_of]. destruct ls as [|l' ls].
  - destruct l; repeat constructor; exact Hl.
  - constructor; [now apply strip_cr_lf|exact IH].
Qed.
Lemma trim_end_in c s : In c (trim_end s) -> In c s.
Proof.
  induction s as [|x s IH]; [tauto|]. cbn [trim_end]. destruct (trim_end s) as [|y r].
  - destruct (is_uni_ws x); [intros []|]. intros [K|[]]. now left.
  - intros [K|K]; [now left|right; now apply IH].
Qed.
Lemma debug_lf uni s : no_lf (debug_str uni s).
Proof.
  unfold debug_str. intros [K|K]; [discriminate|]. rewrite in_app_iff in K. destruct K as [K|[K|[]]]; [|discriminate].
  rewrite in_flat_map in K. destruct K as (c & _ & K). unfold debug_char in K.
  repeat match type of K with context [if ?b then _ else _] => let E := fresh "E" in destruct b eqn:E end;
    try (simpl in K; intuition discriminate);
    try (destruct K as [K|[]]; subst; discriminate).
  all: rewrite !in_app_iff in K; assert (X : forall f n acc, ~ In 10%N acc -> ~ In 10%N (show_hex f n acc));
    [clear; induction f as [|f IH]; intros n acc Ha; [exact Ha|]; cbn [show_hex];
     assert (Hd : ~ In 10%N (hex_digit (n mod 16) :: acc)) by (intros [K|K]; [unfold hex_digit in K; generalize dependent (n mod 16)%N; intros z K; destruct (z <? 10)%N; lia|now apply Ha]);
     destruct (n / 16 =? 0)%N; [exact Hd|now apply IH]
    |destruct K as [K|[K|K]]; [simpl in K; intuition discriminate|now apply X in K|simpl in K; intuition discriminate]].
Qed.
Lemma crlf_str uni ind s : no_lf ind -> no_lf s \/ 2 <= List.length (lines s) -> dump_str true uni ind s = on_text to_crlf (dump_str false uni ind s).
Proof.
  intros Hi Hs. unfold dump_str. destruct (Nat.ltb_spec 1 (List.length (lines s))) as [L|L].
  - cbn [on_text]. f_equal. rewrite !crlf_app, <- crlf_trim, crlf_join, (crlf_id ind Hi).
    + reflexivity.
    + apply Forall_forall. intros l Hl. apply in_map_iff in Hl as (x & <- & Hx). pose proof (lines_lf s) as F. rewrite Forall_forall in F. apply F in Hx.
      destruct (is_nil x); [intros []|]. intros K. apply in_app_or in K as [K|K]; [now apply Hi|]. apply Hx. now apply trim_end_in.
  - destruct Hs as [Hs|Hs]; [|lia]. destruct (fst (string_plain 0 false (fresh s))); try reflexivity; cbn [on_text]; f_equal; symmetry; apply crlf_id; [exact Hs|apply debug_lf].
Qed.
Lemma on_bind f (r : res str) (g : str -> res str) g' : (forall a, r = ROk a -> g (f a) = on_text f (g' a)) ->
  bind_res (on_text f r) g = on_text f (bind_res r g').
Proof. destruct r; intros H; try reflexivity. cbn [on_text bind_res]. now apply H. Qed.
Lemma drop_lf b : drop_nl false (b ++ [10%N]) = ROk b.
Proof.
  unfold drop_nl. rewrite app_length. cbn [NL List.length]. rewrite (proj2 (Nat.ltb_ge _ _)) by lia.
  replace (List.length b + 1 - 1) with (List.length b) by lia. rewrite firstn_app, firstn_all, Nat.sub_diag. cbn. now rewrite app_nil_r.
Qed.
Lemma drop_crlf b : drop_nl true (b ++ [13; 10]%N) = ROk b.
Proof.
  unfold drop_nl. rewrite app_length. cbn [NL List.length]. rewrite (proj2 (Nat.ltb_ge _ _)) by lia.
  replace (List.length b + 2 - 2) with (List.length b) by lia. rewrite firstn_app, firstn_all, Nat.sub_diag. cbn. now rewrite app_nil_r.
Qed.
Definition ends_lf (b : str) : Prop := b = [] \/ exists a, b = a ++ [10%N].
Lemma crlf_drop b : ends_lf b -> drop_nl true (to_crlf b) = on_text to_crlf (drop_nl false b).
Proof. intros [->|(a & ->)]; [reflexivity|]. rewrite crlf_app, drop_lf. change (to_crlf [10%N]) with [13; 10]%N. now rewrite drop_crlf. Qed.
Lemma anchor_lf an n a : Forall (fun kv => no_lf (fst kv)) an -> anchor_part an n = ROk a -> no_lf a.
Proof.
  unfold anchor_part. intros H E. assert (K : forall k, find_anchor an n = Some (Some k) -> no_lf k).
  { clear E. induction H as [|[k v] an Hk _ IH]; intros k' E; [discriminate|]. cbn [find_anchor] in E. destruct (node_eq v n) as [[]|]; try discriminate; [|now apply IH].
    injection E as <-. exact Hk. }
  destruct (find_anchor an n) as [[k|]|]; [|injection E as <-; intros []|discriminate]. injection E as <-. intros [I|I]; [discriminate|].
  apply in_app_or in I as [I|[I|[]]]; [|discriminate]. now apply (K k).
Qed.
Lemma tag_lf n a : no_lf (n_rawtag n) -> tag_part n = ROk a -> no_lf a.
Proof.
  unfold tag_part. intros H E. assert (K : no_lf (node_tag n)).
  { unfold node_tag. destruct (n_rawtag n) as [|c r]; [|exact H]. destruct (n_yaml n); vm_compute; intuition discriminate. }
  destruct (negb _ && _); [|injection E as <-; intros []]. destruct (fst (is_ok identifier (fresh (node_tag n)))) as [b| | |]; try discriminate. cbn [bind_res] in E.
  injection E as <-. destruct b; intros I; [destruct I as [I|I]|destruct I as [I|[I|I]]]; try discriminate; (apply in_app_or in I as [I|I]; [now apply K|simpl in I; intuition discriminate]).
Qed.

Section Crlf.
Variable uni : N -> bool.
Variable an : anchors_t.
Hypothesis Han : Forall (fun kv => no_lf (fst kv)) an.
Definition both (n : node) : Prop := forall root level, dump_node true uni an n root level = on_text to_crlf (dump_node false uni an n root level).
Lemma pre_both (n : node) (f g : str -> str -> res str) : no_lf (n_rawtag n) ->
  (forall a tg, no_lf a -> no_lf tg -> f a tg = on_text to_crlf (g a tg)) ->
  (do! a := anchor_part an n ;; do! tg := tag_part n ;; f a tg) = on_text to_crlf (do! a := anchor_part an n ;; do! tg := tag_part n ;; g a tg).
Proof.
  intros Ht H. destruct (anchor_part an n) as [a| | |] eqn:Ea; try reflexivity. destruct (tag_part n) as [tg| | |] eqn:Et; try reflexivity. cbn [bind_res].
  apply H; [now apply (anchor_lf an n)|now apply (tag_lf n)].
Qed.
Lemma items_both level : forall v i buf, Forall both v -> ends_lf buf ->
  items_loop (fun x => dump_node true uni an x RArray (level + 1)) (NL true) (repeat_str level (lit "  ")) level i v (to_crlf buf)
  = on_text to_crlf (items_loop (fun x => dump_node false uni an x RArray (level + 1)) (NL false) (repeat_str level (lit "  ")) level i v buf)
  /\ (forall b, items_loop (fun x => dump_node false uni an x RArray (level + 1)) (NL false) (repeat_str level (lit "  ")) level i v buf = ROk b -> ends_lf b).
Proof.
  induction v as [|x v IH]; intros i buf H Hb; [split; [reflexivity|now intros b [= <-]]|]. inversion H as [|? ? Hx Hv]; subst. cbn [items_loop].
  rewrite (Hx RArray (level + 1)). set (buf' := if negb (Nat.eqb i 0) || negb (Nat.eqb level 0) then buf ++ repeat_str level (lit "  ") else buf).
  assert (B : (if negb (Nat.eqb i 0) || negb (Nat.eqb level 0) then to_crlf buf ++ repeat_str level (lit "  ") else to_crlf buf) = to_crlf buf').
  { unfold buf'. destruct (negb (Nat.eqb i 0) || negb (Nat.eqb level 0)); [|reflexivity]. now rewrite crlf_app, (crlf_id (repeat_str _ _)) by apply lf_repeat. }
  rewrite B. destruct (dump_node false uni an x RArray (level + 1)) as [s| | |]; try (split; [reflexivity|discriminate]). cbn [on_text bind_res].
  destruct (IH (S i) (buf' ++ lit "- " ++ s ++ NL false) Hv) as [E K].
  - right. exists (buf' ++ lit "- " ++ s). cbn [NL]. now rewrite <- !app_assoc.
  - split; [|exact K]. rewrite <- E. f_equal. now rewrite !crlf_app.
Qed.
Lemma entries_both root level : forall m i buf, Forall (fun kv => both (fst kv) /\ both (snd kv)) m -> ends_lf buf ->
  entries_loop true uni an root level i m (to_crlf buf) = on_text to_crlf (entries_loop false uni an root level i m buf)
  /\ (forall b, entries_loop false uni an root level i m buf = ROk b -> ends_lf b).
Proof.
  induction m as [|[k v] m IH]; intros i buf H Hb; [split; [reflexivity|now intros b [= <-]]|]. inversion H as [|? ? [Hk Hv] Hm]; subst. cbn [fst snd] in *. cbn [entries_loop].
  rewrite (Hk RMap (level + 1)). set (buf' := if negb (Nat.eqb i 0) || is_rmap root then buf ++ repeat_str level (lit "  ") else buf).
  assert (B : (if negb (Nat.eqb i 0) || is_rmap root then to_crlf buf ++ repeat_str level (lit "  ") else to_crlf buf) = to_crlf buf').
  { unfold buf'. destruct (negb (Nat.eqb i 0) || is_rmap root); [|reflexivity]. now rewrite crlf_app, (crlf_id (repeat_str _ _)) by apply lf_repeat. }
  rewrite B. destruct (dump_node false uni an k RMap (level + 1)) as [s| | |]; try (split; [reflexivity|discriminate]). cbn [on_text bind_res].
  assert (V : value_text true uni an root level i v = on_text to_crlf (value_text false uni an root level i v)).
  { unfold value_text. destruct (n_yaml v); try (destruct (is_rarray root && Nat.eqb i 0)); try apply Hv; rewrite (Hv RMap (level + 1)); destruct (dump_node false uni an v RMap (level + 1)); reflexivity. }
  rewrite V. destruct (value_text false uni an root level i v) as [vs| | |]; try (split; [reflexivity|discriminate]). cbn [on_text bind_res].
  destruct (IH (S i) ((key_text false level k buf' s ++ lit ":") ++ vs ++ NL false) Hm) as [E K].
  - right. exists ((key_text false level k buf' s ++ lit ":") ++ vs). cbn [NL]. now rewrite <- !app_assoc.
  - split; [|exact K]. rewrite <- E. f_equal. rewrite !crlf_app, crlf_nl. f_equal. change (to_crlf (lit ":")) with (lit ":"). f_equal.
    unfold key_text. destruct (n_yaml k); rewrite !crlf_app, ?(crlf_id (repeat_str _ _)) by apply lf_repeat; reflexivity.
Qed.
Lemma all_both n : no_lf (n_rawtag n) -> plain_parts (n_yaml n) -> both n.
Proof.
  assert (G : forall y p t, no_lf t -> plain_parts y -> both (Node p t y)); [|destruct n as [p t y]; now apply G].
  assert (NE : ends_lf (NL false)) by (right; now exists []).
  induction y as [|b|s|s|s|v IH|m IH|a] using yaml_ind2; intros p t Ht Hy root level.
  6:{ rewrite !seq_body. apply pre_both; [exact Ht|]. intros a tg Ha Hg. inversion Hy as [| | | | | |? Hf|]; subst.
      destruct (items_both level v 0 (NL false)) as [E K]; [|exact NE|].
      { clear - IH Hf. induction IH as [|[q r y] l Hx _ IHl]; [constructor|]. inversion Hf as [|? ? [H1 H2] H3]; subst. constructor; [now apply Hx|now apply IHl]. }
      rewrite crlf_nl in E. rewrite E. destruct (items_loop _ (NL false) _ _ _ _ _) as [b| | |]; try reflexivity. cbn [on_text bind_res]. rewrite (crlf_drop b (K b eq_refl)).
      destruct (drop_nl false b); try reflexivity. cbn [on_text bind_res]. f_equal. now rewrite !crlf_app, (crlf_id a Ha), (crlf_id tg Hg). }
  6:{ rewrite !map_body. apply pre_both; [exact Ht|]. intros a tg Ha Hg. inversion Hy as [| | | | | | |? Hf]; subst.
      destruct (entries_both root level m 0 (match root with RMap => NL false | _ => [] end)) as [E K].
      { clear - IH Hf. induction IH as [|[[q r y] [q' r' y']] l [Hx Hx'] _ IHl]; [constructor|]. inversion Hf as [|? ? [[H1 H2] [H3 H4]] H5]; subst. cbn [fst snd n_rawtag n_yaml] in *.
        constructor; [split; [now apply Hx|now apply Hx']|now apply IHl]. }
      { destruct root; [now left|exact NE|now left]. }
      assert (B : match root return str with RMap => NL true | _ => [] end = to_crlf (match root with RMap => NL false | _ => [] end)) by (destruct root; reflexivity).
      rewrite B, E. destruct (entries_loop false uni an root level 0 m _) as [b| | |]; try reflexivity. cbn [on_text bind_res]. rewrite (crlf_drop b (K b eq_refl)).
      destruct (drop_nl false b); try reflexivity. cbn [on_text bind_res]. f_equal. now rewrite !crlf_app, (crlf_id a Ha), (crlf_id tg Hg). }
  all: cbn [dump_node]; apply pre_both; [exact Ht|]; intros x tg Ha Hg.
  5:{ inversion Hy as [| | | | |? Hs| |]; subst. rewrite (crlf_str uni _ s (lf_repeat level) Hs). destruct (dump_str false uni _ s); try reflexivity. cbn [on_text bind_res].
      f_equal. now rewrite !crlf_app, (crlf_id x Ha), (crlf_id tg Hg). }
  all: try destruct b; cbn [bind_res on_text]; f_equal; rewrite (crlf_app (x ++ tg)), (crlf_app x tg), (crlf_id x Ha), (crlf_id tg Hg); f_equal; symmetry; apply crlf_id; inversion Hy; subst; try assumption.
  all: try (vm_compute; intuition discriminate).
  intros [K|K]; [discriminate|contradiction].
Qed.
End Crlf.

(** C44: on Windows [dump] writes the same text with CR LF for every line feed. *)
Theorem C44_windows_line_ends : forall (uni : N -> bool) (ns : list node) (ans : list anchors_t),
  Forall (fun n => no_lf (n_rawtag n) /\ plain_parts (n_yaml n)) ns -> Forall (Forall (fun kv => no_lf (fst kv))) ans ->
  dump true uni ns ans = on_text to_crlf (dump false uni ns ans).
Proof.
  intros uni ns ans H Ha. unfold dump. generalize 0 as i. induction H as [|n ns [H1 H2] _ IH]; intros i; [reflexivity|]. cbn [dump_docs].
  assert (Hn : Forall (fun kv : str * node => no_lf (fst kv)) (nth i ans [])).
  { destruct (Nat.lt_ge_cases i (List.length ans)) as [L|L]; [|rewrite nth_overflow by exact L; constructor]. rewrite Forall_forall in Ha. now apply Ha, nth_In. }
  rewrite (all_both uni _ Hn n H1 H2 RScalar 0), IH. destruct (dump_node false uni (nth i ans []) n RScalar 0) as [d| | |]; try reflexivity. cbn [on_text bind_res].
  destruct (dump_docs false uni (S i) ns ans) as [r| | |]; try reflexivity. cbn [on_text bind_res]. f_equal. rewrite crlf_app. f_equal.
  change (NL true) with (to_crlf (NL false)). rewrite <- crlf_app. destruct i; [reflexivity|]. now rewrite crlf_trim_start, !crlf_app.
Qed.
(** ... and nothing else ends a line there: every CR and LF of the text comes
    from the data or is part of a CR LF. *)
Theorem C44_line_feeds_follow_cr : forall (uni : N -> bool) (ns : list node) (ans : list anchors_t) (t a b : str),
  Forall (fun n => no_lf (n_rawtag n) /\ plain_parts (n_yaml n)) ns -> Forall (Forall (fun kv => no_lf (fst kv))) ans ->
  dump true uni ns ans = ROk t -> t = a ++ 10%N :: b -> exists c, a = c ++ [13%N].
Proof.
  intros uni ns ans t a b H Ha E Et. rewrite (C44_windows_line_ends uni ns ans H Ha) in E. destruct (dump false uni ns ans) as [u| | |]; try discriminate. injection E as E. rewrite Et in E.
  clear - E. revert a E. induction u as [|c u IH]; intros a E; [destruct a; discriminate|]. cbn [to_crlf flat_map] in E. fold (to_crlf u) in E. destruct (N.eqb_spec c 10) as [->|Hc].
  - destruct a as [|x a]; [discriminate|]. injection E as Ex E. destruct a as [|z a]; [subst; now exists []|]. injection E as Ez E. destruct (IH a E) as (c & ->). subst. now exists (13%N :: 10%N :: c).
  - destruct a as [|x a]; [injection E as K _; congruence|]. injection E as -> E. destruct (IH a E) as (d & ->). now exists (x :: d).
Qed.
(** A word with one line break after it in a string that is not put in quotes
    keeps its bare line feed. *)
Theorem C44_copied_line_feed_refuted :
  dump true (fun _ => true) [node_from (YStr (lit "a: " ++ [10%N]))] [] = ROk (lit "a: " ++ [10; 13; 10]%N).
Proof. vm_compute. reflexivity. Qed.
Example C44_witness :
  let n := node_from (YMap [(node_from (YStr (lit "k")), node_from (YSeq [node_from (YStr (lit "a" ++ 10%N :: lit "b")); node_from YNull]))]) in
  plain_parts (n_yaml n)
  /\ dump true (fun _ => true) [n; n] [] = ROk (lit "k:" ++ [13; 10]%N ++ lit "  - |" ++ [13; 10]%N ++ lit "    a" ++ [13; 10]%N ++ lit "    b" ++ [13; 10]%N ++ lit "  - null" ++ [13; 10]%N
       ++ lit "---" ++ [13; 10]%N ++ lit "k:" ++ [13; 10]%N ++ lit "  - |" ++ [13; 10]%N ++ lit "    a" ++ [13; 10]%N ++ lit "    b" ++ [13; 10]%N ++ lit "  - null" ++ [13; 10]%N).
Proof.
  split; [|vm_compute; reflexivity].
  assert (N0 : no_lf []) by (intros []).
  apply PPMap. constructor; [|constructor]. split; (split; [exact N0|]).
  - apply PPStr. left. intros [K|[]]. discriminate.
  - apply PPSeq. constructor; [|constructor; [|constructor]]; (split; [exact N0|]); [|constructor]. apply PPStr. right. vm_compute. lia.
Qed.

(** ** C45: specification *)
Definition ascii_alnum (c : N) : Prop := (48 <= c <= 57 \/ 65 <= c <= 90 \/ 97 <= c <= 122)%N.
(** What is written for an anchor: the first entry of the table, in its order,
    whose node equals this one, gives its name. *)
Inductive anchor_mark (n : node) : anchors_t -> str -> Prop :=
| AMNone an : Forall (fun kv => node_eq (snd kv) n = Some false) an -> anchor_mark n an []
| AMSome an1 k v an2 : Forall (fun kv => node_eq (snd kv) n = Some false) an1 -> node_eq v n = Some true ->
    anchor_mark n (an1 ++ (k, v) :: an2) (lit "&" ++ k ++ lit " ").
(** What is written for a tag: nothing for the empty one and those of the core
    schema, the short form if it begins with a letter or a digit. *)
Inductive tag_mark : str -> str -> Prop :=
| TMNone : tag_mark [] []
| TMCore t : tag_mark (lit "tag:yaml.org,2002:" ++ t) []
| TMName c t : (forall u, c :: t <> lit "tag:yaml.org,2002:" ++ u) -> ascii_alnum c -> tag_mark (c :: t) (lit "!" ++ (c :: t) ++ lit " ")
| TMOther c t : (forall u, c :: t <> lit "tag:yaml.org,2002:" ++ u) -> ~ ascii_alnum c -> tag_mark (c :: t) (lit "!<" ++ (c :: t) ++ lit "> ").
(** the same data without its tag *)
Definition bare (n : node) : node := Node (n_pos n) [] (n_yaml n).
Definition differs (n : node) (kv : str * node) : bool := match node_eq (snd kv) n with Some true => false | _ => true end.

(** ** C45: proof *)
Lemma find_mark an n a : anchor_part an n = ROk a -> anchor_mark n an a.
Proof.
  unfold anchor_part. revert a. induction an as [|[k v] an IH]; intros a E; [injection E as <-; apply AMNone; constructor|].
  cbn [find_anchor] in E. destruct (node_eq v n) as [[]|] eqn:Ev; [|
    |discriminate].
  - injection E as <-. apply (AMSome n [] k v an); [constructor|exact Ev].
  - apply IH in E. inversion E as [? H|an1 k' v' an2 H H' E1]; subst; [apply AMNone; now constructor|]. apply (AMSome n ((k, v) :: an1)); [now constructor|exact H'].
Qed.
Lemma starts_core t : starts_with tag_prefix t = true <-> exists u, t = lit "tag:yaml.org,2002:" ++ u.
Proof.
  assert (G : forall p s, starts_with p s = true <-> exists u, s = p ++ u).
  { induction p as [|x p IH]; intros s; [split; [exists s; reflexivity|reflexivity]|]. destruct s as [|y s]; cbn [starts_with].
    - split; [discriminate|intros (u & K); discriminate].
    - rewrite andb_true_iff, N.eqb_eq, IH. split; [intros [-> (u & ->)]; now exists u|]. intros (u & K). injection K as -> ->. eauto. }
  apply G.
Qed.
Lemma alnum_iff c : is_alnum c = true <-> ascii_alnum c.
Proof. unfold is_alnum, is_digit, ascii_alnum. rewrite !orb_true_iff, !andb_true_iff, !N.leb_le. tauto. Qed.
Lemma first_byte c t : exists b r, utf8_encode (c :: t) = b :: r /\ (is_alnum b = is_alnum c).
Proof.
  cbn [utf8_encode flat_map].
  assert (G : forall x, (128 <= x)%N -> is_alnum x = false).
  { intros x Hx. destruct (is_alnum x) eqn:E; [|reflexivity]. apply alnum_iff in E. unfold ascii_alnum in E. lia. }
  unfold encode_char. destruct (N.ltb_spec c 128); [exists c; eexists; split; [reflexivity|reflexivity]|]. rewrite (G c) by assumption.
  destruct (c <? 2048)%N; [|destruct (c <? 65536)%N]; (eexists; eexists; split; [reflexivity|]; apply G; match goal with |- (128 <= _ + ?q)%N => generalize q; intros; lia end).
Qed.
Lemma tag_part_mark n a : tag_part n = ROk a -> tag_mark (node_tag n) a.
Proof.
  unfold tag_part. destruct (node_tag n) as [|c t]; [intros [= <-]; constructor|]. cbn [is_nil negb andb].
  destruct (starts_with tag_prefix (c :: t)) eqn:Es; cbn [negb].
  - apply starts_core in Es as (u & ->). intros [= <-]. apply TMCore.
  - assert (NC : forall u, c :: t <> lit "tag:yaml.org,2002:" ++ u).
    { intros u K. assert (X : starts_with tag_prefix (c :: t) = true) by (apply starts_core; eauto). congruence. }
    assert (D : in_doc (fresh (c :: t))) by (unfold in_doc; cbn; lia).
    rewrite (is_ok_eq _ _ _ (identifier_exec _ D)). change (rem (fresh (c :: t))) with (utf8_encode (c :: t)). destruct (first_byte c t) as (b & r & -> & Hb).
    cbn [ident_len]. rewrite Hb. destruct (is_alnum c) eqn:Ec; cbn [Nat.eqb fst bind_res]; intros [= <-].
    + apply TMName; [exact NC|]. now apply alnum_iff.
    + apply TMOther; [exact NC|]. intros K. apply alnum_iff in K. congruence.
Qed.
(** sizes *)
Fixpoint ysize (y : yaml) : nat :=
  match y with
  | YSeq v => S ((fix go (v : list node) := match v with [] => 0 | Node _ _ x :: r => S (ysize x) + go r end) v)
  | YMap m => S ((fix go (m : list (node * node)) := match m with [] => 0 | (Node _ _ k, Node _ _ x) :: r => S (ysize k + ysize x) + go r end) m)
  | _ => 1
  end.
Definition lsize (v : list node) : nat := fold_right (fun n a => S (ysize (n_yaml n)) + a) 0 v.
Definition msize (m : list (node * node)) : nat := fold_right (fun kv a => S (ysize (n_yaml (fst kv)) + ysize (n_yaml (snd kv))) + a) 0 m.
Lemma ysize_seq v : ysize (YSeq v) = S (lsize v).
Proof. cbn [ysize]. f_equal. induction v as [|[p t y] v IH]; [reflexivity|]. cbn [lsize fold_right n_yaml]. fold (lsize v). now rewrite <- IH. Qed.
Lemma ysize_map m : ysize (YMap m) = S (msize m).
Proof. cbn [ysize]. f_equal. induction m as [|[[p t y] [p' t' y']] m IH]; [reflexivity|]. cbn [msize fold_right n_yaml fst snd]. fold (msize m). now rewrite <- IH. Qed.
Lemma eq_size : forall a b, yaml_eq a b = Some true -> ysize a = ysize b.
Proof.
  induction a as [|x|s|s|s|v IH|m IH|s] using yaml_ind2; intros b E; destruct b as [|y|t|t|t|v'|m'|t]; try reflexivity; try discriminate.
  - rewrite !ysize_seq. f_equal. rewrite yaml_eq_seq in E. destruct (Nat.eqb_spec (List.length v) (List.length v')) as [L|]; [|discriminate].
    revert v' L E. induction IH as [|x l Hx _ IHl]; intros [|x' l'] L E; try discriminate; [reflexivity|]. cbn [seq_eq] in E.
    destruct (node_eq x x') as [[]|] eqn:Ex; try discriminate. cbn [lsize fold_right]. fold (lsize l) (lsize l'). rewrite (Hx _ Ex), (IHl l' ltac:(now injection L) E). reflexivity.
  - rewrite !ysize_map. f_equal. rewrite yaml_eq_map in E. destruct (Nat.eqb_spec (List.length m) (List.length m')) as [L|]; [|discriminate].
    revert m' L E. induction IH as [|[k x] l [Hk Hx] _ IHl]; intros [|[k' x'] l'] L E; try discriminate; [reflexivity|]. cbn [ents_eq] in E. cbn [fst snd] in *.
    destruct (node_eq k k') as [[]|] eqn:Ek; try discriminate. destruct (node_eq x x') as [[]|] eqn:Ex; try discriminate.
    cbn [msize fold_right fst snd]. fold (msize l) (msize l'). rewrite (Hk _ Ek), (Hx _ Ex), (IHl l' ltac:(now injection L) E). reflexivity.
Qed.
Section Smaller.
Variables (win : bool) (uni : N -> bool) (n : node) (an : anchors_t).
Let an' := List.filter (differs n) an.
Lemma find_smaller m r : ysize (n_yaml m) < ysize (n_yaml n) -> find_anchor an m = Some r -> find_anchor an' m = Some r.
Proof.
  intros Hs. unfold an'. induction an as [|[k v] l IH]; [auto|]. cbn [find_anchor List.filter]. unfold differs at 1. cbn [snd].
  destruct (node_eq v n) as [[]|] eqn:Ev; cbn [find_anchor]; try (destruct (node_eq v m) as [[]|]; auto; fail).
  destruct (node_eq v m) as [[]|] eqn:Em; auto; [|discriminate]. apply eq_size in Ev, Em. lia.
Qed.
Lemma part_smaller m a : ysize (n_yaml m) < ysize (n_yaml n) -> anchor_part an m = ROk a -> anchor_part an' m = ROk a.
Proof. intros Hs. unfold anchor_part. destruct (find_anchor an m) as [r|] eqn:E; [|discriminate]. now rewrite (find_smaller m r Hs E). Qed.
Definition stays (m : node) : Prop := forall root level t, dump_node win uni an m root level = ROk t -> dump_node win uni an' m root level = ROk t.
Lemma items_stay level : forall v i buf t, Forall stays v ->
  items_loop (fun x => dump_node win uni an x RArray (level + 1)) (NL win) (repeat_str level (lit "  ")) level i v buf = ROk t ->
  items_loop (fun x => dump_node win uni an' x RArray (level + 1)) (NL win) (repeat_str level (lit "  ")) level i v buf = ROk t.
Proof.
  induction v as [|x v IH]; intros i buf t H E; [exact E|]. inversion H as [|? ? Hx Hv]; subst. cbn [items_loop] in E |- *.
  destruct (dump_node win uni an x RArray (level + 1)) as [s| | |] eqn:Ex; try discriminate. rewrite (Hx _ _ _ Ex). cbn [bind_res] in E |- *. now apply IH.
Qed.
Lemma entries_stay root level : forall m i buf t, Forall (fun kv => stays (fst kv) /\ stays (snd kv)) m ->
  entries_loop win uni an root level i m buf = ROk t -> entries_loop win uni an' root level i m buf = ROk t.
Proof.
  induction m as [|[k v] m IH]; intros i buf t H E; [exact E|]. inversion H as [|? ? [Hk Hv] Hm]; subst. cbn [fst snd] in *. cbn [entries_loop] in E |- *.
  destruct (dump_node win uni an k RMap (level + 1)) as [s| | |] eqn:Ek; try discriminate. rewrite (Hk _ _ _ Ek). cbn [bind_res] in E |- *.
  assert (V : forall x, value_text win uni an root level i v = ROk x -> value_text win uni an' root level i v = ROk x).
  { intros x. unfold value_text. destruct (n_yaml v); try (destruct (is_rarray root && Nat.eqb i 0)); try apply Hv;
      (destruct (dump_node win uni an v RMap (level + 1)) as [d| | |] eqn:Ed; try discriminate; now rewrite (Hv _ _ _ Ed)). }
  destruct (value_text win uni an root level i v) as [vs| | |]; try discriminate. rewrite (V vs eq_refl). cbn [bind_res] in E |- *. now apply IH.
Qed.
Lemma body_stay p t p' t' y root level : ysize y <= ysize (n_yaml n) ->
  (match y with
   | YSeq v => Forall stays v
   | YMap m => Forall (fun kv => stays (fst kv) /\ stays (snd kv)) m
   | _ => True
   end) -> forall x, dump_node win uni an (Node p t y) root level = ROk x -> exists a tg b, x = (a ++ tg) ++ b
     /\ anchor_part an (Node p t y) = ROk a /\ tag_part (Node p t y) = ROk tg
     /\ forall a' tg', anchor_part an' (Node p' t' y) = ROk a' -> tag_part (Node p' t' y) = ROk tg' ->
        dump_node win uni an' (Node p' t' y) root level = ROk ((a' ++ tg') ++ b).
Proof.
  intros Hs Hy x E.
  assert (D : forall (f : str -> str -> res str), (do! a := anchor_part an (Node p t y) ;; do! tg := tag_part (Node p t y) ;; f a tg) = ROk x ->
    exists a tg, anchor_part an (Node p t y) = ROk a /\ tag_part (Node p t y) = ROk tg /\ f a tg = ROk x).
  { intros f. destruct (anchor_part an (Node p t y)) as [a| | |]; try discriminate. destruct (tag_part (Node p t y)) as [tg| | |]; try discriminate. cbn [bind_res]. intros K. now exists a, tg. }
  destruct y as [|b|s|s|s|v|m|s].
  6:{ rewrite seq_body in E. apply D in E as (a & tg & Ea & Et & E). destruct (items_loop _ _ _ _ _ _ _) as [b| | |] eqn:Eb; try discriminate.
      cbn [bind_res] in E. destruct (drop_nl win b) as [b'| | |] eqn:Ed; try discriminate. injection E as <-.
      exists a, tg, b'. split; [reflexivity|]. split; [exact Ea|]. split; [exact Et|]. intros a' tg' Ea' Et'. rewrite seq_body, Ea', Et'. cbn [bind_res].
      rewrite (items_stay level v 0 _ b Hy Eb). cbn [bind_res]. rewrite Ed. reflexivity. }
  6:{ rewrite map_body in E. apply D in E as (a & tg & Ea & Et & E). destruct (entries_loop _ _ _ _ _ _ _ _) as [b| | |] eqn:Eb; try discriminate.
      cbn [bind_res] in E. destruct (drop_nl win b) as [b'| | |] eqn:Ed; try discriminate. injection E as <-.
      exists a, tg, b'. split; [reflexivity|]. split; [exact Ea|]. split; [exact Et|]. intros a' tg' Ea' Et'. rewrite map_body, Ea', Et'. cbn [bind_res].
      rewrite (entries_stay root level m 0 _ b Hy Eb). cbn [bind_res]. rewrite Ed. reflexivity. }
  all: cbn [dump_node] in E; apply D in E as (a & tg & Ea & Et & E).
  5:{ destruct (dump_str win uni (repeat_str level (lit "  ")) s) as [d| | |] eqn:Ed; try discriminate. injection E as <-.
      exists a, tg, d. split; [reflexivity|]. split; [exact Ea|]. split; [exact Et|]. intros a' tg' Ea' Et'. cbn [dump_node]. now rewrite Ea', Et', Ed. }
  all: try destruct b; cbn [bind_res] in E; injection E as <-; exists a, tg; eexists; (split; [reflexivity|]; split; [exact Ea|]; split; [exact Et|]);
    intros a' tg' Ea' Et'; cbn [dump_node]; rewrite Ea', Et'; reflexivity.
Qed.
Lemma smaller_stays : forall m, ysize (n_yaml m) < ysize (n_yaml n) -> stays m.
Proof.
  assert (G : forall y p t, ysize y < ysize (n_yaml n) -> stays (Node p t y)); [|intros [p t y]; apply G].
  induction y as [|b|s|s|s|v IH|m IH|s] using yaml_ind2; intros p t Hs root level x E.
  all: match type of Hs with ysize ?y < _ => assert (K : match y with YSeq v => Forall stays v | YMap m => Forall (fun kv => stays (fst kv) /\ stays (snd kv)) m | _ => True end) end;
    [cbn; auto|].
  6:{ rewrite ysize_seq in Hs. clear E. induction IH as [|[q r y] l Hx _ IHl]; [constructor|]. cbn [lsize fold_right n_yaml] in Hs, Hx. fold (lsize l) in Hs.
      constructor; [apply Hx; lia|apply IHl; lia]. }
  7:{ rewrite ysize_map in Hs. clear E. induction IH as [|[[q r y] [q' r' y']] l [Hx Hx'] _ IHl]; [constructor|]. cbn [msize fold_right n_yaml fst snd] in Hs, Hx, Hx'. fold (msize l) in Hs.
      constructor; [split; [apply Hx; lia|apply Hx'; lia]|apply IHl; lia]. }
  all: destruct (body_stay p t p t _ root level (Nat.lt_le_incl _ _ Hs) K x E) as (a & tg & b' & -> & Ea & Et & F); apply F; [|exact Et]; apply part_smaller; assumption.
Qed.
End Smaller.

(** C45: the text of a document is the mark of its anchor, then the mark of its
    tag, then the text of the same data without tag and anchor. *)
Theorem C45_anchor_and_tag_marks : forall (win : bool) (uni : N -> bool) (n : node) (an : anchors_t) (t : str),
  (forall kv, In kv an -> node_eq (snd kv) n <> None) ->
  dump win uni [n] [an] = ROk t ->
  exists a g b, t = a ++ g ++ b /\ anchor_mark n an a /\ tag_mark (node_tag n) g
    /\ dump win uni [bare n] [List.filter (differs n) an] = ROk b.
Proof.
  intros win uni [p tg y] an t Hc E. set (n := Node p tg y) in *. unfold dump in *. cbn [dump_docs nth] in *.
  destruct (dump_node win uni an n RScalar 0) as [x| | |] eqn:Ex; try discriminate. cbn [bind_res] in E. injection E as <-.
  assert (K : match y with YSeq v => Forall (stays win uni n an) v | YMap m => Forall (fun kv => stays win uni n an (fst kv) /\ stays win uni n an (snd kv)) m | _ => True end).
  { destruct y as [|b|s|s|s|v|m|s]; auto.
    - assert (B : lsize v < ysize (n_yaml n)) by (cbn [n n_yaml]; rewrite ysize_seq; lia). clearbody n. clear - B. induction v as [|m v IH]; [constructor|].
      cbn [lsize fold_right] in B. fold (lsize v) in B. constructor; [apply smaller_stays; lia|apply IH; lia].
    - assert (B : msize m < ysize (n_yaml n)) by (cbn [n n_yaml]; rewrite ysize_map; lia). clearbody n. clear - B. induction m as [|[k x] m IH]; [constructor|].
      cbn [msize fold_right fst snd] in B. fold (msize m) in B. constructor; [split; apply smaller_stays; cbn [fst snd]; lia|apply IH; lia]. }
  destruct (body_stay win uni n an p tg p [] y RScalar 0 (le_n _) K x Ex) as (a & g & b & -> & Ea & Eg & F).
  exists a, g, (b ++ NL win). split; [now rewrite app_nil_r, <- !app_assoc|]. split; [now apply find_mark|]. split; [now apply (tag_part_mark n)|].
  assert (A : anchor_part (List.filter (differs n) an) (Node p [] y) = ROk []).
  { unfold anchor_part. replace (find_anchor (List.filter (differs n) an) (Node p [] y)) with (Some (@None str)); [reflexivity|]. symmetry.
    clear - Hc. induction an as [|[k v] an IH]; [reflexivity|]. cbn [List.filter]. unfold differs at 1. cbn [snd].
    assert (Hv : node_eq v n <> None) by (apply (Hc (k, v)); now left). change (node_eq v n) with (node_eq v (Node p [] y)) in *.
    assert (Hr : forall kv, In kv an -> node_eq (snd kv) n <> None) by (intros; apply Hc; now right).
    destruct (node_eq v (Node p [] y)) as [[]|] eqn:Ev; [now apply IH| |congruence]. cbn [find_anchor]. rewrite Ev. now apply IH. }
  assert (G : tag_part (Node p [] y) = ROk []) by (destruct y; reflexivity).
  change (bare n) with (Node p [] y). rewrite (F [] [] A G). cbn [bind_res app]. now rewrite app_nil_r.
Qed.
(** the text of a document that is not the first: a marker line, and the text
    without the blanks it begins with *)
Definition later_doc (win : bool) (d : str) : str := lit "---" ++ NL win ++ trim_start d.
(** C45: document number i is written with the anchors number i (none if there
    are fewer tables), and the text is that of the documents in order. *)
Theorem C45_own_anchors : forall (win : bool) (uni : N -> bool) (ns : list node) (ans : list anchors_t) (t : str),
  dump win uni ns ans = ROk t <->
  exists ds, List.length ds = List.length ns
    /\ (forall i n d, nth_error ns i = Some n -> nth_error ds i = Some d -> dump win uni [n] [nth i ans []] = ROk d)
    /\ t = match ds with [] => [] | d :: r => d ++ List.concat (List.map (later_doc win) r) end.
Proof.
  intros win uni ns ans t.
  assert (ONE : forall i n d, dump win uni [n] [nth i ans []] = ROk d <-> exists x, dump_node win uni (nth i ans []) n RScalar 0 = ROk x /\ d = x ++ NL win).
  { intros i n d. unfold dump. cbn [dump_docs nth]. destruct (dump_node win uni (nth i ans []) n RScalar 0) as [x| | |]; cbn [bind_res]; try rewrite app_nil_r;
      split; try discriminate; try (intros (? & ? & _); discriminate).
    - intros [= <-]. eauto.
    - now intros (x' & [= ->] & ->). }
  assert (R : forall ns i u, dump_docs win uni (S i) ns ans = ROk u <-> exists ds, List.length ds = List.length ns
    /\ (forall j n d, nth_error ns j = Some n -> nth_error ds j = Some d -> dump win uni [n] [nth (S i + j) ans []] = ROk d) /\ u = List.concat (List.map (later_doc win) ds)).
  { clear ns t. induction ns as [|n ns IH]; intros i u; cbn [dump_docs].
    - split; [intros [= <-]; exists []; split; [reflexivity|]; split; [intros [|]; discriminate|reflexivity]|]. intros ([|] & L & _ & ->); [reflexivity|discriminate].
    - split.
      + destruct (dump_node win uni (nth (S i) ans []) n RScalar 0) as [x| | |] eqn:Ex; try discriminate. cbn [bind_res].
        destruct (dump_docs win uni (S (S i)) ns ans) as [r| | |] eqn:Er; try discriminate. cbn [bind_res]. intros [= <-]. apply IH in Er as (ds & L & F & ->).
        exists ((x ++ NL win) :: ds). split; [cbn; now rewrite L|]. split; [|reflexivity]. intros [|j] n' d; cbn [nth_error].
        * intros [= <-] [= <-]. apply ONE. rewrite Nat.add_0_r. eauto.
        * intros H1 H2. replace (S i + S j) with (S (S i) + j) by lia. now apply F.
      + intros ([|d ds] & L & F & ->); [discriminate|]. assert (Hd : dump win uni [n] [nth (S i) ans []] = ROk d) by (rewrite <- (Nat.add_0_r (S i)); now apply (F 0)).
        apply ONE in Hd as (x & Ex & ->). rewrite Ex. cbn [bind_res]. rewrite (proj2 (IH (S i) (List.concat (List.map (later_doc win) ds)))); [reflexivity|].
        exists ds. split; [now injection L|]. split; [|reflexivity]. intros j n' d H1 H2. replace (S (S i) + j) with (S i + S j) by lia. now apply F. }
  unfold dump at 1. destruct ns as [|n ns]; cbn [dump_docs].
  - split; [intros [= <-]; exists []; split; [reflexivity|]; split; [intros [|]; discriminate|reflexivity]|]. intros ([|] & L & _ & ->); [reflexivity|discriminate].
  - split.
    + destruct (dump_node win uni (nth 0 ans []) n RScalar 0) as [x| | |] eqn:Ex; try discriminate. cbn [bind_res].
      destruct (dump_docs win uni 1 ns ans) as [r| | |] eqn:Er; try discriminate. cbn [bind_res]. intros [= <-]. apply R in Er as (ds & L & F & ->).
      exists ((x ++ NL win) :: ds). split; [cbn; now rewrite L|]. split; [|reflexivity]. intros [|j] n' d; cbn [nth_error].
      * intros [= <-] [= <-]. apply ONE. eauto.
      * intros H1 H2. now apply (F j).
    + intros ([|d ds] & L & F & ->); [discriminate|]. assert (Hd : dump win uni [n] [nth 0 ans []] = ROk d) by now apply (F 0).
      apply ONE in Hd as (x & Ex & ->). rewrite Ex. cbn [bind_res]. rewrite (proj2 (R ns 0 (List.concat (List.map (later_doc win) ds)))); [reflexivity|].
      exists ds. split; [now injection L|]. split; [|reflexivity]. intros j n' d H1 H2. now apply (F (S j)).
Qed.
(** Two documents with a table each: the second name is not used in the first. *)
Example C45_witness :
  let one := Node 0 (lit "t") (YSeq [node_from (YInt (lit "1"))]) in
  let two := Node 0 (lit "!x") (YInt (lit "01")) in
  let ans := [[(lit "a", node_from (YInt (lit "1"))); (lit "b", node_from (YSeq [two])); (lit "c", one)]; [(lit "d", two)]] in
  (forall kv, In kv (nth 0 ans []) -> node_eq (snd kv) one <> None)
  /\ dump false (fun _ => true) [one; two] ans
     = ROk (lit "&b !t " ++ [10%N] ++ lit "- &a 1" ++ [10%N] ++ lit "---" ++ [10%N] ++ lit "&d !<!x> 01" ++ [10%N]).
Proof.
  split; [|vm_compute; reflexivity]. cbn. intros kv [<-|[<-|[<-|[]]]]; vm_compute; discriminate.
Qed.
