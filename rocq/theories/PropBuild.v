(** * C61: nodes made by hand *)
From Verif Require Export PropWin Build PropSerde2 PropParse.
Open Scope N_scope.

(** ** Specification *)
(** made at no place of a document: position zero, no tag of its own *)
Definition handmade (n : node) : Prop := n_pos n = 0 /\ n_rawtag n = [].

Lemma to_i64_show_out z : in_i64 z = false -> to_i64 (show_Z z) = None.
Proof.
  intros H. rewrite to_i64_dec by apply show_Z_dec. destruct z as [|p|p]; [discriminate|..]; cbn [show_Z].
  - rewrite from_str_radix_digits by (apply show_N_nonempty || apply show_N_digits). rewrite digits_show_N. cbn [Z.of_N]. now rewrite H.
  - rewrite from_str_radix_neg by apply show_N_nonempty. rewrite digits_show_N. cbn [Z.of_N Z.opp]. now rewrite H.
Qed.
(** A value: the accessor of its kind gives it back, the others refuse it (with
    position zero), and the tag is the one of the core schema. *)
Theorem C61_values : forall (show_f : f64 -> str) (hk : hasher),
  (forall n, node_macro show_f hk (FValue (ANode n)) = Some n)
  /\ (exists n, node_macro show_f hk (FValue AUnit) = Some n /\ handmade n /\ is_null n = true
        /\ as_str n = inl [] /\ node_tag n = tag_prefix ++ lit "null" /\ as_bool n = inr 0)
  /\ (forall b, exists n, node_macro show_f hk (FValue (ABool b)) = Some n /\ handmade n /\ as_bool n = inl b
        /\ is_null n = false /\ node_tag n = tag_prefix ++ lit "bool" /\ as_str n = inr 0)
  /\ (forall z, in_i64 z = true -> exists n, node_macro show_f hk (FValue (AInteger z)) = Some n /\ handmade n /\ as_int n = inl z
        /\ as_number n = inl (f64_of_Z z) /\ node_tag n = tag_prefix ++ lit "int" /\ as_float n = inr 0)
  /\ (forall z, in_i64 z = false -> exists n, node_macro show_f hk (FValue (AInteger z)) = Some n /\ handmade n /\ as_int n = inr 0
        /\ as_value n = inl (show_Z z))
  /\ (forall f, to_f64 (show_f f) = Some f -> exists n, node_macro show_f hk (FValue (AF64 f)) = Some n /\ handmade n /\ as_float n = inl f
        /\ as_number n = inl f /\ node_tag n = tag_prefix ++ lit "float" /\ as_int n = inr 0)
  /\ (forall s, exists n, node_macro show_f hk (FValue (AText s)) = Some n /\ handmade n /\ as_str n = inl s
        /\ as_value n = inl s /\ node_tag n = tag_prefix ++ lit "str" /\ Yaml.as_seq n = inr 0)
  /\ (forall c, node_macro show_f hk (FValue (AChar c)) = node_macro show_f hk (FValue (AText [c])))
  /\ (forall y, exists n, node_macro show_f hk (FValue (AYaml y)) = Some n /\ handmade n /\ n_yaml n = y).
Proof.
  intros show_f hk. repeat split.
  - exists (Node 0 [] YNull). repeat split.
  - intros b. exists (Node 0 [] (YBool b)). repeat split.
  - intros z Hz. exists (Node 0 [] (YInt (show_Z z))). repeat split; cbn; now rewrite to_i64_show.
  - intros z Hz. exists (Node 0 [] (YInt (show_Z z))). repeat split. cbn. now rewrite to_i64_show_out.
  - intros f Hf. exists (Node 0 [] (YFloat (show_f f))). repeat split; cbn; now rewrite Hf.
  - intros s. exists (Node 0 [] (YStr s)). repeat split.
  - intros y. exists (Node 0 [] y). repeat split.
Qed.

(** A node made with a position and a tag has them, and the data of the value. *)
Theorem C61_new : forall (show_f : f64 -> str) (hk : hasher) (v : arg) (pos : N) (tag : str),
  exists n, node_macro show_f hk (FValue v) = Some n
    /\ let m := node_new show_f v pos tag in
       n_pos m = pos /\ n_yaml m = n_yaml n /\ n_rawtag m = tag
       /\ (tag <> [] -> node_tag m = tag) /\ (tag = [] -> handmade n -> node_tag m = node_tag n)
       /\ (forall e, as_int m = inr e -> e = pos) /\ (forall e, as_str m = inr e -> e = pos).
Proof.
  intros show_f hk v pos tag. exists (node_into show_f v). split; [reflexivity|]. cbv zeta.
  split; [reflexivity|]. split; [destruct v; reflexivity|]. split; [reflexivity|]. split.
  { intros T. destruct tag; [contradiction|reflexivity]. }
  split.
  { intros -> [P T]. destruct v as [| | | | | | |[p t y]]; try reflexivity. cbn in *. now subst. }
  split; intros e.
  - unfold as_int. cbn [node_new n_yaml n_pos].
    repeat match goal with |- context [match ?o with _ => _ end] => destruct o end; congruence.
  - unfold as_str. cbn [node_new n_yaml n_pos].
    repeat match goal with |- context [match ?o with _ => _ end] => destruct o end; congruence.
Qed.
(** A list: the items in order, by [Yaml.as_seq] and by index, each as it would be made
    alone; a position outside it is refused; the repeating form makes copies; the
    same node comes from an iterator. *)
Theorem C61_lists : forall (show_f : f64 -> str) (hk : hasher) (l : list arg),
  exists n, node_macro show_f hk (FList l) = Some n /\ handmade n /\ node_tag n = tag_prefix ++ lit "seq"
    /\ (exists v, Yaml.as_seq n = inl v /\ Forall2 (fun a x => node_macro show_f hk (FValue a) = Some x) l v /\ node_from_iter show_f v = n)
    /\ (forall i a, nth_error l i = Some a -> exists x, node_macro show_f hk (FValue a) = Some x /\ get_ind n i = inl x /\ index_ind n i = Some x)
    /\ (forall i, (List.length l <= i)%nat -> get_ind n i = inr 0 /\ index_ind n i = None)
    /\ Yaml.as_map n = inr 0
    /\ (forall a k, l = repeat a k -> node_macro show_f hk (FRepeat a k) = Some n).
Proof.
  intros show_f hk l. exists (Node 0 [] (YSeq (List.map (node_into show_f) l))). repeat split.
  - exists (List.map (node_into show_f) l). split; [reflexivity|]. split; [|reflexivity]. induction l; constructor; auto.
  - intros i a Ha. exists (node_into show_f a). split; [reflexivity|]. unfold get_ind, index_ind. cbn [n_yaml]. now rewrite (map_nth_error _ _ _ Ha).
  - unfold get_ind. cbn [n_yaml n_pos]. now rewrite (proj2 (nth_error_None _ _)) by (rewrite map_length; exact H).
  - unfold index_ind. cbn [n_yaml]. apply nth_error_None. now rewrite map_length.
  - intros a k ->. cbn [node_macro]. assert (E : List.map (node_into show_f) (repeat a k) = repeat (node_into show_f a) k) by (induction k; cbn; congruence).
    now rewrite E.
Qed.

(** what [node!(k)] makes *)
Definition made (show_f : f64 -> str) (a : arg) (n : node) : Prop := forall hk, node_macro show_f hk (FValue a) = Some n.
(** A map: no panic; a key gives the value written for it last, other keys are
    refused; no key is twice in it; the same node comes from an iterator. *)
Theorem C61_maps : forall (show_f : f64 -> str) (hk : hasher) (l : list (arg * arg)) (ps : list (node * node)),
  Forall2 (fun kv p => made show_f (fst kv) (fst p) /\ made show_f (snd kv) (snd p)) l ps -> lawful_keys (List.map fst ps) ->
  exists n, node_macro show_f hk (FEntries l) = Some n /\ handmade n /\ node_tag n = tag_prefix ++ lit "map"
    /\ node_from_pairs show_f hk ps = Some n
    /\ (exists m, Yaml.as_map n = inl m /\ ForallOrdPairs (fun a b => ~ same_key (fst a) (fst b)) m)
    /\ (forall ps1 k v ps2, ps = ps1 ++ (k, v) :: ps2 -> (forall p, In p ps2 -> ~ same_key k (fst p)) -> node_get hk n k = Some (inl v) /\ index_key hk n k = Some v)
    /\ (forall k, lawful_keys (k :: List.map fst ps) -> (forall p, In p ps -> ~ same_key k (fst p)) -> node_get hk n k = Some (inr 0) /\ index_key hk n k = None)
    /\ Yaml.as_seq n = inr 0.
Proof.
  intros show_f hk l ps HM LK.
  assert (E : List.map (fun kv => (node_into show_f (fst kv), node_into show_f (snd kv))) l = ps).
  { induction HM as [|[k v] [k' v'] l ps (K & V) _ IH]; [reflexivity|]. cbn [List.map fst snd] in *. specialize (K hk). specialize (V hk). injection K as ->. injection V as ->.
    f_equal. apply IH. destruct LK as [L1 L2]. split; [intros x Hx; apply L1; now right|intros x x' Hx Hx'; apply L2; now right]. }
  destruct (C30_collect_last_wins hk ps LK) as (m & C & D & _ & G). exists (Node 0 [] (YMap m)).
  split; [cbn [node_macro]; rewrite E, C; reflexivity|]. split; [split; reflexivity|]. split; [reflexivity|].
  split; [unfold node_from_pairs; rewrite C; reflexivity|]. split; [exists m; split; [reflexivity|exact D]|].
  split; [|split; [|reflexivity]].
  - intros ps1 k v ps2 Ep Hk.
    assert (LK' : lawful_keys (k :: List.map fst ps)).
    { assert (IK : In k (List.map fst ps)) by (rewrite Ep, map_app; apply in_or_app; right; now left).
      destruct LK as [L1 L2]. split; [intros x [<-|Hx]; auto|]. intros x x' [<-|Hx] [<-|Hx']; auto. }
    assert (M : map_get hk k m = Some (Some v)).
    { apply (proj1 (G k LK')). exists ps1, k, ps2. split; [exact Ep|]. split; [|exact Hk]. apply same_refl. apply LK'. now left. }
    unfold node_get, index_key. cbn [n_yaml]. now rewrite M.
  - intros k LK' Hk. pose proof (proj2 (proj2 (G k LK')) Hk) as M. unfold node_get, index_key. cbn [n_yaml n_pos]. now rewrite M.
Qed.
(** An alias literal is an alias of that name. *)
Theorem C61_alias : forall (show_f : f64 -> str) (hk : hasher) (a : str) (n : node) (an : anchors_t), node_macro show_f hk (FName a) = Some n ->
  handmade n /\ node_tag n = [] /\ (forall x, bt_get a an = Some x -> as_anchor n an = inl x) /\ (bt_get a an = None -> as_anchor n an = inr 0).
Proof. intros show_f hk a n an [= <-]. repeat split; unfold as_anchor; cbn; intros; now rewrite H. Qed.
(** Two integers beyond the range of i64 as keys can end in a panic (when the
    hashes are the same, as for equal ones). *)
Theorem C61_map_panics_refuted : forall (show_f : f64 -> str) (hk : hasher),
  node_macro show_f hk (FEntries [(AInteger (2 ^ 64), AUnit); (AInteger (2 ^ 64), AUnit)]) = None.
Proof.
  intros show_f hk. cbn [node_macro List.map fst snd node_into]. unfold map_collect. cbn [map_extend]. unfold map_insert. cbn [map_take app]. unfold key_match. rewrite N.eqb_refl.
  assert (E : node_eq (node_new show_f (AInteger (2 ^ 64)) 0 []) (node_new show_f (AInteger (2 ^ 64)) 0 []) = None) by (vm_compute; reflexivity). now rewrite E.
Qed.

(** ** Nested literals *)
Inductive tree : Type :=
| TUnit | TBool (b : bool) | TInt (z : Z) | TText (s : str) | TList (l : list tree) | TEntries (l : list (tree * tree)).
(** the data a tree stands for *)
Fixpoint data (t : tree) : yaml :=
  match t with
  | TUnit => YNull
  | TBool b => YBool b
  | TInt z => YInt (show_Z z)
  | TText s => YStr s
  | TList l => YSeq (List.map (fun x => node_from (data x)) l)
  | TEntries l => YMap (List.map (fun kv => (node_from (data (fst kv)), node_from (data (snd kv)))) l)
  end.
Section Trees.
Variable show_f : f64 -> str.
Variable hk : hasher.
(** the literals written inside each other, each in its own [node!] *)
Inductive builds : tree -> node -> Prop :=
| BdUnit n : node_macro show_f hk (FValue AUnit) = Some n -> builds TUnit n
| BdBool b n : node_macro show_f hk (FValue (ABool b)) = Some n -> builds (TBool b) n
| BdInt z n : node_macro show_f hk (FValue (AInteger z)) = Some n -> builds (TInt z) n
| BdText s n : node_macro show_f hk (FValue (AText s)) = Some n -> builds (TText s) n
| BdList l v n : Forall2 builds l v -> node_macro show_f hk (FList (List.map ANode v)) = Some n -> builds (TList l) n
| BdEntries l m n : Forall2 (fun a b => builds (fst a) (fst b) /\ builds (snd a) (snd b)) l m ->
    node_macro show_f hk (FEntries (List.map (fun kv => (ANode (fst kv), ANode (snd kv))) m)) = Some n -> builds (TEntries l) n.
End Trees.
(** integers have values, and the keys of a map differ *)
Inductive sound : tree -> Prop :=
| SdUnit : sound TUnit
| SdBool b : sound (TBool b)
| SdInt z : in_i64 z = true -> sound (TInt z)
| SdText s : sound (TText s)
| SdList l : Forall sound l -> sound (TList l)
| SdEntries l : Forall (fun kv => sound (fst kv) /\ sound (snd kv)) l ->
    ForallOrdPairs (fun a b => ~ same (data (fst a)) (data (fst b))) l -> sound (TEntries l).
Lemma tree_ind' (P : tree -> Prop) : P TUnit -> (forall b, P (TBool b)) -> (forall z, P (TInt z)) -> (forall s, P (TText s)) ->
  (forall l, Forall P l -> P (TList l)) -> (forall l, Forall (fun kv => P (fst kv) /\ P (snd kv)) l -> P (TEntries l)) -> forall t, P t.
Proof.
  intros H1 H2 H3 H4 H5 H6. fix IH 1. intros [|b|z|s|l|l]; [exact H1|apply H2|apply H3|apply H4|..].
  - apply H5. induction l as [|x l IHl]; constructor; [apply IH|exact IHl].
  - apply H6. induction l as [|[k v] l IHl]; constructor; [split; apply IH|exact IHl].
Qed.
Lemma sound_readable t : sound t -> readable (data t).
Proof.
  induction t as [| | | |l IH|l IH] using tree_ind'; intros S; inversion S; subst; cbn [data].
  - constructor.
  - constructor.
  - eapply ReadInt. now apply to_i64_show.
  - constructor.
  - constructor. rewrite Forall_forall in *. intros n Hn. apply in_map_iff in Hn as (x & <- & Hx). cbn. auto.
  - constructor. rewrite Forall_forall in *. intros n Hn. apply in_map_iff in Hn as (x & <- & Hx). cbn. destruct (IH x Hx), (H0 x Hx). auto.
Qed.
Lemma distinct_lawful m : Forall (fun kv => readable (n_yaml (fst kv))) m -> distinct m -> lawful_keys (List.map fst m).
Proof.
  intros R D. split.
  - intros k Hk. apply in_map_iff in Hk as (x & <- & Hx). rewrite Forall_forall in R. auto.
  - induction D as [|x m Hx D IH]; [intros ? ? []|]. inversion R as [|? ? Rx Rm]; subst. rewrite Forall_forall in Hx.
    intros k k' [<-|Hk] [<-|Hk'] S; [reflexivity|..].
    + apply in_map_iff in Hk' as (y & <- & Hy). now destruct (Hx y Hy).
    + apply in_map_iff in Hk as (y & <- & Hy). destruct (Hx y Hy). now apply same_sym.
    + now apply IH.
Qed.
(** Nested literals make exactly the data they show, with position zero and no
    tags throughout; whatever the hasher is. *)
Theorem C61_nested : forall (show_f : f64 -> str) (hk : hasher) (t : tree), sound t ->
  forall n, builds show_f hk t n <-> n = node_from (data t).
Proof.
  intros show_f hk. induction t as [| | | |l IH|l IH] using tree_ind'; intros S n; inversion S as [| | | |l' HS|l' HS HD]; subst.
  1-4: split; [intros B; inversion B as [n0 E|? n0 E|? n0 E|? n0 E| |]; subst; injection E as <-; reflexivity|intros ->; now constructor].
  - assert (K : forall v, Forall2 (builds show_f hk) l v <-> v = List.map (fun x => node_from (data x)) l).
    { clear S. induction IH as [|x l Hx IH IHl]; intros v.
      - split; [intros H; now inversion H|intros ->; constructor].
      - inversion HS as [|? ? Sx Sl]; subst. split.
        + intros H. inversion H as [|? y ? v' Hy Hv]; subst. cbn [List.map]. f_equal; [now apply (Hx Sx)|now apply IHl].
        + intros ->. constructor; [now apply (Hx Sx)|now apply IHl]. }
    split.
    + intros B. inversion B as [| | | |? v ? Hv E|]; subst. apply K in Hv as ->. injection E as <-. cbn [data]. unfold node_from, node_new. cbn [yaml_into].
      rewrite map_map. cbn [node_into]. now rewrite map_id.
    + intros ->. eapply BdList; [now apply K|]. cbn [node_macro data]. unfold node_into at 1, node_from, node_new. cbn [yaml_into]. rewrite map_map. cbn [node_into]. now rewrite map_id.
  - set (m0 := List.map (fun kv => (node_from (data (fst kv)), node_from (data (snd kv)))) l).
    assert (K : forall m, Forall2 (fun a b => builds show_f hk (fst a) (fst b) /\ builds show_f hk (snd a) (snd b)) l m <-> m = m0).
    { clear S HD. unfold m0. induction IH as [|x l Hx IH IHl]; intros v.
      - split; [intros H; now inversion H|intros ->; constructor].
      - inversion HS as [|? ? [Sx Sy] Sl]; subst. destruct Hx as [Hx1 Hx2]. split.
        + intros H. inversion H as [|? [y1 y2] ? v' [Hy1 Hy2] Hv]; subst. cbn [List.map fst snd] in *. f_equal; [|now apply IHl]. f_equal; [now apply (Hx1 Sx)|now apply (Hx2 Sy)].
        + intros ->. constructor; [|now apply IHl]. split; cbn [fst snd]; [now apply (Hx1 Sx)|now apply (Hx2 Sy)]. }
    assert (R : Forall (fun kv => readable (n_yaml (fst kv))) m0).
    { unfold m0. rewrite Forall_forall in *. intros x Hx. apply in_map_iff in Hx as (y & <- & Hy). cbn. apply sound_readable. now apply HS. }
    assert (D : distinct m0).
    { unfold m0. clear - HD. induction HD as [|x l Hx _ IH]; constructor; [|exact IH]. rewrite Forall_forall in *. intros y Hy. apply in_map_iff in Hy as (z & <- & Hz). exact (Hx z Hz). }
    pose proof (C30_distinct_keys_keep_order hk m0 (distinct_lawful m0 R D) D) as C.
    assert (E : node_macro show_f hk (FEntries (List.map (fun kv => (ANode (fst kv), ANode (snd kv))) m0)) = Some (node_from (YMap m0))).
    { cbn [node_macro]. rewrite map_map. cbn [fst snd node_into].
      assert (EM : List.map (fun x : node * node => (fst x, snd x)) m0 = m0) by (clear; induction m0 as [|[a b] m IH]; cbn; congruence). rewrite EM, C. reflexivity. }
    split.
    + intros B. inversion B as [| | | | |? m ? Hm EB]; subst. apply K in Hm as ->. rewrite E in EB. now injection EB as <-.
    + intros ->. eapply BdEntries; [now apply K|exact E].
Qed.
(** *** Written and read again *)
(** strings that survive, no empty collections, and scalars as keys *)
Inductive printable_tree (uni : N -> bool) : tree -> Prop :=
| PtUnit : printable_tree uni TUnit
| PtBool b : printable_tree uni (TBool b)
| PtInt z : printable_tree uni (TInt z)
| PtText s : word_ok s \/ hidden uni s -> printable_tree uni (TText s)
| PtList l : l <> [] -> Forall (printable_tree uni) l -> printable_tree uni (TList l)
| PtEntries l : l <> [] -> Forall (fun kv => (match fst kv with TList _ | TEntries _ => False | _ => True end) /\ printable_tree uni (fst kv) /\ printable_tree uni (snd kv)) l ->
    printable_tree uni (TEntries l).
Lemma scalar_tree uni t : printable_tree uni t -> (match t with TList _ | TEntries _ => False | _ => True end) -> scalar_ok uni (data t).
Proof. intros [| | |s [H|H]| |] K; try destruct K; cbn [data]; [apply OkNull|apply OkBool|apply OkInt, show_Z_literal|now apply OkBare|now apply OkHidden]. Qed.
Lemma tree_keeps uni t : sound t -> printable_tree uni t -> keeps uni (node_from (data t)).
Proof.
  induction t as [| | | |l IH|l IH] using tree_ind'; intros S P.
  1-4: apply KScalar; [now left|apply scalar_tree; [exact P|exact Logic.I]].
  - inversion S as [| | | |? HS|]; subst. inversion P as [| | | |? Hl HP|]; subst.
    eapply KSeq; [now left|reflexivity|destruct l; [congruence|discriminate]|].
    rewrite Forall_forall in *. intros x Hx. apply in_map_iff in Hx as (y & <- & Hy). auto.
  - inversion S as [| | | | |? HS HD]; subst. inversion P as [| | | | |? Hl HP]; subst.
    eapply KMap; [now left|reflexivity|destruct l; [congruence|discriminate]|..].
    + clear - HD. induction HD as [|x l Hx _ IH]; constructor; [|exact IH]. rewrite Forall_forall in *. intros y Hy. apply in_map_iff in Hy as (z & <- & Hz). exact (Hx z Hz).
    + rewrite Forall_forall in *. intros x Hx. apply in_map_iff in Hx as (y & <- & Hy). destruct (IH y Hy) as [_ IH2], (HS y Hy) as [S1 S2], (HP y Hy) as (K & P1 & P2).
      cbn [fst snd]. split; [now left|]. split; [now apply scalar_tree|]. split; [now apply sound_readable|auto].
Qed.
(** Nodes made by nested literals are read back equal from what [dump] writes
    for them. *)
Theorem C61_dump_then_parse : forall (win : bool) (uni : N -> bool) (show_f : f64 -> str) (hk hk' : hasher) (t : tree) (n : node),
  sound t -> printable_tree uni t -> builds show_f hk t n ->
  exists text nd, dump win uni [n] [] = ROk text /\ parse hk' text = ROk [nd] /\ node_eq nd n = Some true.
Proof.
  intros win uni show_f hk hk' t n S P B. apply (C61_nested show_f hk t S) in B as ->.
  destruct (C34_any_line_breaks win uni hk' [node_from (data t)] []) as (text & nds & D & Q & E); [discriminate|constructor; [now apply tree_keeps|constructor]|constructor|].
  destruct nds as [|nd [|? ?]]; try discriminate. exists text, nd. split; [exact D|]. split; [exact Q|].
  injection E as E. cbn [n_yaml node_from] in E. unfold node_eq. apply strip_eq_true; [exact E|now apply sound_readable].
Qed.

(** ** Examples *)
Definition sample_tree : tree := TEntries [(TText (lit "a"), TList [TInt (-3); TBool true; TUnit]); (TInt 7, TEntries [(TBool false, TText (lit "x"))])].
Example C61_witness : sound sample_tree /\ printable_tree (fun _ => false) sample_tree
  /\ builds (fun _ => []) (fun _ => 0) sample_tree (node_from (data sample_tree)).
Proof.
  assert (S : sound sample_tree).
  { repeat first [apply SdEntries | apply SdList | apply SdInt; reflexivity | apply SdText | apply SdBool | apply SdUnit
      | apply Forall_cons | apply Forall_nil | apply FOP_cons | apply FOP_nil | split | (intros K; inversion K; fail)]. }
  split; [exact S|]. split; [|now apply C61_nested].
  assert (L : forall s, s <> [] -> forallb PropBlock.letter s = true -> existsb (fun kv => str_eqb s (fst kv)) keywords = false -> printable_tree (fun _ => false) (TText s)).
  { intros. apply PtText. left. now apply letters_ok. }
  repeat first [apply PtEntries | apply PtList | apply PtInt | apply PtBool | apply PtUnit | (apply L; [discriminate|reflexivity|reflexivity])
      | apply Forall_cons | apply Forall_nil | split | exact Logic.I | discriminate].
Qed.
Example C61_maps_witness : lawful_keys (List.map fst [(node_from (YStr (lit "a")), node_from YNull); (node_from (YStr (lit "a")), node_from (YBool true))]).
Proof. apply C30_plain_keys_lawful. intros k [<-|[<-|[]]]; constructor. Qed.
