(** * C18, C20, C21, C22, C24, C26: what every parse guarantees.

    All statements are about [parse_fuel n] for every [n]: [parse] and
    [parse_cyclic] are instances, see the corollaries. *)
From Verif Require Export PropCursor.
Open Scope nat_scope.

(** The value of a node, below which everything is fine. *)
Definition everywhere (Q : node -> Prop) (n : node) : Prop := forall x, subnode x n -> Q x.

Lemma parse_parts hk cyc d n v s : parse_fuel n (new_st hk cyc d) = (ROk v, s) ->
  let Q := fun x => (n_pos x <= N.of_nat (List.length d))%N /\ shape_ok d cyc (n_yaml x) in
  v <> [] /\ List.length (l_anchors s) = List.length v
  /\ Forall (everywhere Q) v
  /\ Forall (fun t => Forall (fun an => everywhere Q (snd an)) t) (l_anchors s)
  /\ Forall in_name_order (l_anchors s).
Proof.
  intros E. cbv zeta.
  assert (K : docs_ok d cyc hk (fun p y => here d p /\ shape_ok d cyc y) True (fun _ => False)
    (fun v new => Forall (deep (fun p y => here d p /\ shape_ok d cyc y)) v
                  /\ List.length v = List.length new /\ v <> []) [] (parse_fuel n (new_st hk cyc d))).
  { apply (parse_ok _ _ _ _ _ (fun _ => False)); auto; try (intros ? ? ? []; fail). intros p p' y [A B] C. now split. }
  rewrite E in K. destruct K as (new & (Hd & Hl & Hne) & Hg & Hi).
  destruct Hi as (_ & _ & _ & _ & _ & _ & _ & _ & Ha). simpl in Ha. rewrite Ha.
  split; [exact Hne|]. split; [now symmetry|]. split; [|split; [|eapply Forall_impl; [|exact Hg]; intros t [_ Ht]; exact Ht]].
  - eapply Forall_impl; [|exact Hd]. intros x Hx y Hy. exact (Hx y Hy).
  - eapply Forall_impl; [|exact Hg]. intros t [Ht _]. eapply Forall_impl; [|exact Ht].
    intros an Han y Hy. exact (Han y Hy).
Qed.

(** C18: in direct mode no alias is left, at any depth. *)
Theorem C18_no_alias_left : forall hk d n v s,
  parse_fuel n (new_st hk false d) = (ROk v, s) ->
  forall nd x a, In nd v -> subnode x nd -> n_yaml x <> YAlias a.
Proof.
  intros hk d n v s E nd x a Hin Hsub Ha.
  destruct (parse_parts _ _ _ _ _ _ E) as (_ & _ & H & _). rewrite Forall_forall in H.
  destruct (H nd Hin x Hsub) as [_ K]. rewrite Ha in K. discriminate.
Qed.
Corollary C18_parse : forall hk doc v, parse hk doc = ROk v ->
  forall nd x a, In nd v -> subnode x nd -> n_yaml x <> YAlias a.
Proof.
  intros hk doc v E. unfold parse, parse_bytes, load in E.
  destruct (parse_fuel _ (new_st hk false (utf8_encode doc))) as [r s] eqn:K. simpl in E. subst r.
  now apply (C18_no_alias_left _ _ _ _ _ K).
Qed.
(** and the parse of a document with aliases does succeed *)
Example C18_example :
  exists v, parse (fun _ => 0%N) (lit "a: &x [b]" ++ [10%N] ++ lit "c: *x" ++ [10%N]) = ROk v
    /\ exists k1 k2 n1 n2, v = [Node 0 [] (YMap [(k1, n1); (k2, n2)])] /\ n_yaml n1 = n_yaml n2.
Proof. eexists. split; [vm_compute; reflexivity|]. eexists _, _, _, _. split; reflexivity. Qed.

(** C21: one anchor table per document. *)
Theorem C21_one_table_per_document : forall hk cyc d n v s,
  parse_fuel n (new_st hk cyc d) = (ROk v, s) ->
  List.length (l_anchors s) = List.length v /\ 1 <= List.length v.
Proof.
  intros hk cyc d n v s E. destruct (parse_parts _ _ _ _ _ _ E) as (Hne & Hl & _).
  split; [exact Hl|]. destruct v; [congruence|simpl; lia].
Qed.
Corollary C21_parse_cyclic : forall hk doc v tabs,
  parse_cyclic hk doc = ROk (v, tabs) -> List.length tabs = List.length v /\ 1 <= List.length v.
Proof.
  intros hk doc v tabs E. unfold parse_cyclic, load in E.
  destruct (parse_fuel _ (new_st hk true (utf8_encode doc))) as [r s] eqn:K.
  destruct r; try discriminate. injection E as -> <-. eapply C21_one_table_per_document, K.
Qed.
(** The names of a table come in the order of names ([name_lt], Inv.v), each once. *)
Theorem C21_tables_in_name_order : forall hk doc v tabs tab,
  parse_cyclic hk doc = ROk (v, tabs) -> In tab tabs -> StronglySorted name_lt (List.map fst tab) /\ NoDup (List.map fst tab).
Proof.
  intros hk doc v tabs tab E Hin. unfold parse_cyclic, load in E.
  destruct (parse_fuel _ (new_st hk true (utf8_encode doc))) as [r s] eqn:K.
  destruct r; try discriminate. injection E as -> <-. destruct (parse_parts _ _ _ _ _ _ K) as (_ & _ & _ & _ & H).
  rewrite Forall_forall in H. specialize (H tab Hin). split; [exact H|]. unfold in_name_order in H.
  assert (IR : forall a, ~ name_lt a a) by (induction a; intros X; inversion X; [lia|auto]).
  induction H as [|a l _ IH Ha]; constructor; [|exact IH]. intros X. rewrite Forall_forall in Ha. exact (IR a (Ha a X)).
Qed.
Example C21_order_example :
  exists v n1 n2 n3, parse_cyclic (fun _ => 0%N) (lit "- &b x" ++ [10%N] ++ lit "- &ab y" ++ [10%N] ++ lit "- &a z" ++ [10%N]) = ROk (v, [[(lit "a", n1); (lit "ab", n2); (lit "b", n3)]]).
Proof. eexists _, _, _, _. vm_compute. reflexivity. Qed.
Example C21_example :
  exists v tabs, parse_cyclic (fun _ => 0%N) (lit "&x a" ++ [10%N] ++ lit "--- b" ++ [10%N]) = ROk (v, tabs)
    /\ List.length v = 2.
Proof. eexists _, _. split; [vm_compute; reflexivity|reflexivity]. Qed.

(** C22: positions point into the document. *)
Theorem C22_positions_in_document : forall hk cyc d n v s,
  parse_fuel n (new_st hk cyc d) = (ROk v, s) ->
  forall x, (exists nd, In nd v /\ subnode x nd)
            \/ (exists tab a nd, In tab (l_anchors s) /\ In (a, nd) tab /\ subnode x nd) ->
  (n_pos x <= N.of_nat (List.length d))%N /\ exists msg, indicated_msg d (n_pos x) = Some msg.
Proof.
  intros hk cyc d n v s E x Hx.
  destruct (parse_parts _ _ _ _ _ _ E) as (_ & _ & H1 & H2 & _). rewrite Forall_forall in H1, H2.
  assert (K : (n_pos x <= N.of_nat (List.length d))%N).
  { destruct Hx as [(nd & Hin & Hs)|(tab & a & nd & Hin & Hn & Hs)].
    - exact (proj1 (H1 nd Hin x Hs)).
    - specialize (H2 tab Hin). rewrite Forall_forall in H2. exact (proj1 (H2 _ Hn x Hs)). }
  split; [exact K|].
  destruct (C23_panics_exactly_beyond d (N.to_nat (n_pos x))) as [K1 _]. rewrite N2Nat.id in K1.
  destruct (indicated_msg d (n_pos x)) as [msg|]; [eauto|]. specialize (K1 eq_refl). lia.
Qed.
Example C22_example :
  exists v, parse (fun _ => 0%N) (lit "a: [b]" ++ [10%N]) = ROk v
    /\ exists x nd, In nd v /\ subnode x nd /\ n_pos x = 4%N.
Proof.
  eexists. split; [vm_compute; reflexivity|]. eexists _, _. split; [left; reflexivity|].
  split; [eapply SubVal; [left; reflexivity|]; eapply SubSeq; [left; reflexivity|]; apply SubHere|reflexivity].
Qed.

(** C24: raising an error never panics, its name is one of the documented names,
    its message is that of a position in the document. *)
Theorem C24_errors_well_formed : forall hk cyc d n nm msg s,
  parse_fuel n (new_st hk cyc d) = (RErr (Terminate nm msg), s) ->
  In nm error_names
  /\ exists p, p <= List.length d /\ indicated_msg d (N.of_nat p) = Some msg.
Proof.
  intros hk cyc d n nm msg s E.
  assert (K : docs_ok d cyc hk (fun _ _ => True) True (fun _ => False)
    (fun v new => Forall (deep (fun _ _ => True)) v /\ List.length v = List.length new /\ v <> []) []
    (parse_fuel n (new_st hk cyc d))) by (apply (parse_ok _ _ _ _ _ (fun _ => False)); auto; intros ? ? ? []).
  rewrite E in K. exact K.
Qed.
Theorem C24_raising_never_panics : forall hk cyc d s nm,
  reached hk cyc d s -> exists msg, err (A := unit) nm s = (RErr (Terminate nm msg), s).
Proof.
  intros hk cyc d s nm H. pose proof (reached_Iv _ _ _ _ H) as Hs.
  pose proof (safe_err d cyc hk (fun _ _ => True) False [] Wild any (fun _ => True) (fun (_ : unit) _ => False)
    (fun _ => False) nm Logic.I s Hs Logic.I) as K.
  unfold err in *. destruct (indicated_msg _ _) as [msg|]; [eauto|contradiction].
Qed.
Example C24_example :
  exists msg, parse (fun _ => 0%N) (lit "a: *x" ++ [10%N])
    = RErr (Terminate (lit "anchor referenced before definition") msg).
Proof. eexists. vm_compute. reflexivity. Qed.

(** C26: no panic without an undefined tag handle when the integer literals occurring in the document
    have a value. *)
Lemma deep_readable d cyc : (forall t, int_in d t -> to_i64 t <> None) -> forall y p t,
  deep (fun _ y => shape_ok d cyc y) (Node p t y) -> readable y.
Proof.
  intros Hr. induction y using yaml_ind2; intros p t0 Hd.
  - constructor.
  - constructor.
  - destruct (to_i64 s) as [z|] eqn:E; [econstructor; exact E|].
    exfalso. apply (Hr s); [exact (Hd _ (SubHere _))|exact E].
  - destruct (to_f64 s) as [z|] eqn:E; [econstructor; exact E|].
    exfalso. exact (Hd _ (SubHere _) E).
  - constructor.
  - constructor. rewrite Forall_forall in *. intros [p1 t1 y1] Hin. apply (H _ Hin p1 t1).
    intros x Hx. apply Hd. eapply SubSeq; eassumption.
  - constructor. rewrite Forall_forall in *. intros [[p1 t1 y1] [p2 t2 y2]] Hin.
    destruct (H _ Hin) as [A B]. split.
    + apply (A p1 t1). intros x Hx. apply Hd. eapply SubKey; eassumption.
    + apply (B p2 t2). intros x Hx. apply Hd. eapply SubVal; eassumption.
  - constructor.
Qed.
Lemma collect_total hk l : (forall kv, In kv l -> readable (n_yaml (fst kv))) -> map_collect hk l <> None.
Proof.
  unfold map_collect.
  assert (T : forall k m, readable (n_yaml k) -> (forall kv, In kv m -> readable (n_yaml (fst kv))) ->
    exists o r, map_take hk k m = Some (o, r) /\ (forall kv, In kv r -> In kv m)
                /\ match o with Some k' => readable (n_yaml k') | None => True end).
  { intros k m Hk. induction m as [|[k' v] m IH]; intros Hm; simpl.
    - eexists _, _. split; [reflexivity|]. auto.
    - unfold key_match. destruct (N.eqb _ _).
      + destruct (C28_eq_decides_same k k' Hk (Hm (k', v) (or_introl eq_refl))) as (b & -> & _).
        destruct b.
        * eexists _, _. split; [reflexivity|]. split; [auto|]. exact (Hm (k', v) (or_introl eq_refl)).
        * destruct IH as (o & r & -> & Hin & Ho); [intros kv Hkv; apply Hm; now right|].
          eexists _, _. split; [reflexivity|]. split; [|exact Ho]. intros kv [<-|Hkv]; [now left|right; auto].
      + destruct IH as (o & r & -> & Hin & Ho); [intros kv Hkv; apply Hm; now right|].
        eexists _, _. split; [reflexivity|]. split; [|exact Ho]. intros kv [<-|Hkv]; [now left|right; auto]. }
  assert (K : forall l m, (forall kv, In kv l -> readable (n_yaml (fst kv))) ->
    (forall kv, In kv m -> readable (n_yaml (fst kv))) -> map_extend hk m l <> None).
  { clear l. induction l as [|[k v] l IH]; intros m Hl Hm; [discriminate|]. simpl. unfold map_insert.
    destruct (T k m (Hl _ (or_introl eq_refl)) Hm) as (o & r & -> & Hin & Ho).
    assert (Hl' : forall kv, In kv l -> readable (n_yaml (fst kv))) by (intros kv Hkv; apply Hl; now right).
    destruct o as [k'|]; (apply IH; [exact Hl'|]); intros kv Hkv; apply in_app_iff in Hkv as [Hkv|[<-|[]]]; auto.
    apply (Hl (k, v)). now left. }
  intros Hl. apply K; [exact Hl|intros kv []].
Qed.

(** A handle is written [!name!]: a name between exclamation marks. *)
Definition handle_name (name : str) : Prop := exists x t, name = x :: t /\ is_alnum x = true /\ Forall id_char t.
Definition writes_handle (d : bytes) (name : str) : Prop := handle_name name /\ exists a b, d = a ++ 33%N :: name ++ 33%N :: b.
Definition ints_readable (d : bytes) : Prop := forall t a b, int_literal t -> d = a ++ t ++ b -> to_i64 t <> None.

Lemma no_panic_known hk cyc d n (HK : str -> Prop) :
  (forall name, writes_handle d name -> HK name) -> HK (lit "!") -> HK (lit "!!") ->
  (forall s, directives n (new_st hk cyc d) = (ROk tt, s) -> forall k, HK k -> bt_get k (p_tag s) <> None) ->
  ints_readable d -> fst (parse_fuel n (new_st hk cyc d)) <> RPanic.
Proof.
  intros Hw H1 H2 Ht Hi E.
  pose proof (parse_ok d cyc hk (fun _ y => shape_ok d cyc y) False HK) as K.
  assert (Hb : forall k, handle_in d k -> ~ HK k -> False).
  { intros k (_ & [->|[->|(Hs & Hd)]]) Hn; apply Hn; [exact H1|exact H2|]. apply Hw. now split. }
  specialize (K Hb).
  assert (K1 : forall (p : N) y, here d p -> shape_ok d cyc y -> shape_ok d cyc y) by auto.
  assert (K2 : forall (p p' : N) y, shape_ok d cyc y -> here d p' -> shape_ok d cyc y) by auto.
  specialize (K K1 K2).
  assert (K3 : forall m, good_pairs (fun _ y => shape_ok d cyc y) m -> map_collect hk m = None -> False).
  { intros m Hm Hc. apply collect_total in Hc; [exact Hc|]. intros kv Hkv.
    unfold good_pairs in Hm. rewrite Forall_forall in Hm. destruct (Hm kv Hkv) as [Hk _].
    destruct (fst kv) as [p t y]. eapply deep_readable; [|exact Hk].
    intros x [Hx (a & b & Hab)]. eapply Hi; eassumption. }
  specialize (K K3 n Ht). destruct (parse_fuel n (new_st hk cyc d)) as [r s]. simpl in E. subst r. exact K.
Qed.
(** Without named handles: tags like [!a], [!!a], [!<a>] and [!] never panic. *)
Theorem C26_no_panic : forall hk cyc d n,
  (forall name a b, handle_name name -> d <> a ++ 33%N :: name ++ 33%N :: b) ->
  (forall t a b, int_literal t -> d = a ++ t ++ b -> to_i64 t <> None) ->
  fst (parse_fuel n (new_st hk cyc d)) <> RPanic.
Proof.
  intros hk cyc d n Hb Hi. apply (no_panic_known hk cyc d n (fun k => bt_get k init_tags <> None)); try discriminate; [| |exact Hi].
  - intros name (Hn & a & b & E). destruct (Hb name a b Hn E).
  - intros s E k. exact (directives_keep d cyc hk (fun _ _ => True) True n s E k).
Qed.
Lemma int_literal_digit t : int_literal t -> exists c, In c t /\ is_digit c = true.
Proof.
  intros [ds Hn Hd|ds Hn Hd|ds Hn Hd|ds Hn Hd].
  - destruct ds as [|c r]; [congruence|]. inversion Hd; subst. exists c. split; [now left|now apply is_digit_spec].
  - destruct ds as [|c r]; [congruence|]. inversion Hd; subst. exists c. split; [right; now left|now apply is_digit_spec].
  - exists 48%N. split; [now left|reflexivity].
  - exists 48%N. split; [now left|reflexivity].
Qed.
(** hypotheses met: a document with tags, but without [!name!], whose literals have values *)
Example C26_example : exists d,
  (forall name a b, handle_name name -> d <> a ++ 33%N :: name ++ 33%N :: b)
  /\ (forall t a b, int_literal t -> d = a ++ t ++ b -> to_i64 t <> None)
  /\ exists v, parse_bytes (fun _ => 0%N) d = ROk v.
Proof.
  exists (lit "!!k v" ++ [10%N]). split; [|split].
  - intros name a b (x & t & -> & Hx & Ht) E.
    assert (X : forall l m, l = m ++ 33%N :: b -> existsb (N.eqb 33) l = false -> False).
    { intros l m -> K. assert (K' : existsb (N.eqb 33) (m ++ 33%N :: b) = true); [|congruence].
      apply existsb_exists. exists 33%N. split; [apply in_or_app; right; now left|reflexivity]. }
    destruct a as [|y [|z a]]; cbn in E.
    + injection E as <- E. discriminate.
    + injection E as _ <- E. exact (X _ _ E eq_refl).
    + injection E as _ _ E. change (a ++ 33%N :: x :: t ++ 33%N :: b) with (a ++ (33%N :: x :: t) ++ 33%N :: b) in E.
      rewrite app_assoc in E. exact (X _ _ E eq_refl).
  - intros t a b Hl E. exfalso.
    assert (exists c, In c t /\ is_digit c = true) as (c & Hc & Hd).
    { apply int_literal_digit. exact Hl. }
    assert (Hin : In c (lit "!!k v" ++ [10%N])) by (rewrite E; apply in_app_iff; right; apply in_app_iff; now left).
    simpl in Hin. destruct Hin as [<-|[<-|[<-|[<-|[<-|[<-|[]]]]]]]; discriminate.
  - eexists. vm_compute. reflexivity.
Qed.
(** C26, the part that fails: an undefined tag handle, and two equal integer keys
    without a value. *)
Theorem C26_panic_refuted :
  parse (fun _ => 0%N) (lit "!x!y a" ++ [10%N]) = RPanic
  /\ parse (fun _ => 0%N) (lit "0o9: 1" ++ [10%N] ++ lit "0o9: 2" ++ [10%N]) = RPanic.
Proof. split; vm_compute; reflexivity. Qed.
