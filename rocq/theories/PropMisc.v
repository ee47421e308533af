(** * PropMisc: integers (C08, C37), accessors (C31), messages (C23), escapes
    (C11), chomping (C13), error alternatives (C32), helper types (C40). *)
From Verif Require Export PropNode Serde.
Open Scope N_scope.

(** ** C08 *)
(** src/yaml.rs:203-210 [From<integer>]: the node of a Rust integer *)
Definition node_of_int (z : Z) : node := node_from (YInt (show_Z z)).

(** What a type of [bits] bits holds. *)
Definition int_range (signed : bool) (bits : N) (z : Z) : Prop :=
  if signed then (- 2 ^ (Z.of_N bits - 1) <= z < 2 ^ (Z.of_N bits - 1))%Z
  else (0 <= z < 2 ^ Z.of_N bits)%Z.

Lemma wrap_fits signed bits z : 0 < bits -> int_range signed bits z -> wrap_int signed bits z = z.
Proof.
  intros Hb H. unfold wrap_int, int_range in *. cbv zeta.
  assert (E : (2 ^ Z.of_N bits = 2 * 2 ^ (Z.of_N bits - 1))%Z).
  { rewrite <- Z.pow_succ_r by lia. f_equal. lia. }
  assert (P : (0 < 2 ^ (Z.of_N bits - 1))%Z) by (apply Z.pow_pos_nonneg; lia).
  destruct signed; cbn [andb].
  - destruct (Z.leb_spec 0 z) as [Hz|Hz].
    + rewrite Z.mod_small by lia. destruct (Z.leb_spec (2 ^ (Z.of_N bits - 1)) z); lia.
    + assert (M : (z mod 2 ^ Z.of_N bits = z + 2 ^ Z.of_N bits)%Z).
      { rewrite <- (Z.mod_add z 1) by lia. rewrite Z.mod_small; lia. }
      rewrite M. destruct (Z.leb_spec (2 ^ (Z.of_N bits - 1)) (z + 2 ^ Z.of_N bits)); lia.
  - apply Z.mod_small. lia.
Qed.

Lemma wrap_range signed bits z : 0 < bits -> int_range signed bits (wrap_int signed bits z).
Proof.
  intros Hb. unfold wrap_int, int_range. cbv zeta.
  assert (E : (2 ^ Z.of_N bits = 2 * 2 ^ (Z.of_N bits - 1))%Z).
  { rewrite <- Z.pow_succ_r by lia. f_equal. lia. }
  assert (P : (0 < 2 ^ (Z.of_N bits - 1))%Z) by (apply Z.pow_pos_nonneg; lia).
  pose proof (Z.mod_pos_bound z (2 ^ Z.of_N bits)) as B.
  destruct signed; cbn [andb]; [|lia].
  destruct (Z.leb_spec (2 ^ (Z.of_N bits - 1)) (z mod 2 ^ Z.of_N bits)); lia.
Qed.

(** Every Rust integer in the i64 range: the node reads back as it, its text is
    decimal, nodes are equal exactly when the integers are, and it survives
    serialization at any integer type that holds it. *)
Theorem C08_int_round_trip : forall z, in_i64 z = true ->
  as_int (node_of_int z) = inl z
  /\ as_value (node_of_int z) = inl (show_Z z)
  /\ (forall z', in_i64 z' = true ->
        exists r, node_eq (node_of_int z) (node_of_int z') = Some r /\ (r = true <-> z = z'))
  /\ (forall show_f hk signed bits, 0 < bits -> int_range signed bits z ->
        exists n, ser show_f hk (TInt signed bits) (VInt z) = DOk n
                  /\ de show_f hk (TInt signed bits) n = DOk (VInt z)).
Proof.
  intros z Hz. repeat split.
  - unfold as_int. cbn [n_yaml node_of_int node_from]. now rewrite to_i64_show.
  - intros z' Hz'. exists (z =? z')%Z. split; [|apply Z.eqb_eq].
    unfold node_eq. cbn [n_yaml node_of_int node_from yaml_eq].
    now rewrite !to_i64_show by assumption.
  - intros show_f hk signed bits Hb Hr. exists (node_of_int z). split; [reflexivity|].
    cbn [de]. unfold de_int. cbn [n_yaml node_of_int node_from].
    rewrite to_i64_show by assumption. cbn [dbind]. now rewrite wrap_fits.
Qed.

(** Decimal spelling: an optional minus, then digits without superfluous zeros,
    denoting the integer. *)
Theorem C08_int_text : forall z,
  exists neg ds, show_Z z = (if (neg : bool) then 45 :: ds else ds)
    /\ ds <> [] /\ forallb is_digit ds = true
    /\ digits_val 10 0 ds = Some (Z.abs z) /\ (neg = true <-> (z < 0)%Z).
Proof.
  intros [|p|p].
  - exists false, [48]. repeat split; (discriminate || lia).
  - exists false, (show_N (Npos p)).
    split; [reflexivity|]. split; [apply show_N_nonempty|]. split; [apply show_N_digits|].
    split; [apply digits_show_N|]. split; [discriminate|lia].
  - exists true, (show_N (Npos p)).
    split; [reflexivity|]. split; [apply show_N_nonempty|]. split; [apply show_N_digits|].
    split; [apply digits_show_N|]. split; [lia|reflexivity].
Qed.

Example C08_witness : as_int (node_of_int (-9223372036854775808)) = inl (-9223372036854775808)%Z
  /\ as_int (node_of_int 42) = inl 42%Z /\ n_yaml (node_of_int (-120)) = YInt (lit "-120").
Proof. vm_compute. auto. Qed.

(** ** C37 *)
(** An integer node read at a type that holds its value gives that value... *)
Theorem C37_fitting_int : forall show_f hk signed bits n z,
  0 < bits -> as_int n = inl z -> int_range signed bits z ->
  de show_f hk (TInt signed bits) n = DOk (VInt z).
Proof.
  intros show_f hk signed bits n z Hb Ha Hr. cbn [de]. unfold de_int.
  unfold as_int in Ha. destruct (n_yaml n); try discriminate.
  destruct (to_i64 s); [|discriminate]. injection Ha as ->. cbn [dbind]. now rewrite wrap_fits.
Qed.
(** ... and otherwise it still succeeds, with a different value of the type
    (so narrowing is never reported). *)
Theorem C37_narrowing_refuted : forall show_f hk signed bits n z,
  0 < bits -> as_int n = inl z -> ~ int_range signed bits z ->
  exists z', de show_f hk (TInt signed bits) n = DOk (VInt z') /\ z' <> z
             /\ int_range signed bits z'.
Proof.
  intros show_f hk signed bits n z Hb Ha Hr. exists (wrap_int signed bits z).
  pose proof (wrap_range signed bits z Hb) as W. split; [|split; [congruence|exact W]].
  cbn [de]. unfold de_int. unfold as_int in Ha. destruct (n_yaml n); try discriminate.
  destruct (to_i64 s); [|discriminate]. injection Ha as ->. reflexivity.
Qed.
Example C37_witness : forall show_f hk,
  de show_f hk (TInt false 8) (node_of_int 300) = DOk (VInt 44).
Proof. reflexivity. Qed.

(** ** C31 *)
(** Each accessor gives the payload of its variant, and an error is always the
    node's own position. *)
Theorem C31_accessors : forall p t y, let n := Node p t y in
  (forall b, as_bool n = inl b <-> y = YBool b)
  /\ (forall z, as_int n = inl z <-> exists s, y = YInt s /\ to_i64 s = Some z)
  /\ (forall x, as_float n = inl x <-> exists s, y = YFloat s /\ to_f64 s = Some x)
  /\ (forall x, as_number n = inl x <->
        (exists s, y = YFloat s /\ to_f64 s = Some x)
        \/ (exists s z, y = YInt s /\ to_i64 s = Some z /\ x = f64_of_Z z))
  /\ (forall s, as_str n = inl s <-> y = YStr s \/ (y = YNull /\ s = []))
  /\ (forall l, as_seq n = inl l <-> y = YSeq l)
  /\ (forall m, as_map n = inl m <-> y = YMap m)
  /\ (forall s, as_value n = inl s <->
        y = YStr s \/ y = YInt s \/ y = YFloat s \/ (y = YNull /\ s = [])
        \/ (exists b, y = YBool b /\ s = if (b : bool) then lit "true" else lit "false"))
  /\ (forall q, as_bool n = inr q \/ as_int n = inr q \/ as_float n = inr q
        \/ as_number n = inr q \/ as_str n = inr q \/ as_seq n = inr q \/ as_map n = inr q
        \/ as_value n = inr q -> q = p).
Proof.
  intros p t y n. subst n. unfold as_bool, as_int, as_float, as_number, as_str, as_seq, as_map, as_value.
  cbn [n_yaml n_pos].
  split; [|split; [|split; [|split; [|split; [|split; [|split; [|split]]]]]]].
  - intros b; destruct y; split; intros H; try discriminate; congruence.
  - intros z; destruct y; split; intros H; try discriminate; try (destruct H as (? & ? & ?); discriminate).
    + destruct (to_i64 s) eqn:E; [injection H as <-; eauto|discriminate].
    + destruct H as (? & [= <-] & ->). reflexivity.
  - intros z; destruct y; split; intros H; try discriminate; try (destruct H as (? & ? & ?); discriminate).
    + destruct (to_f64 s) eqn:E; [injection H as <-; eauto|discriminate].
    + destruct H as (? & [= <-] & ->). reflexivity.
  - intros z; destruct y; split; intros H; try discriminate;
      try (destruct H as [(? & ? & ?)|(? & ? & ? & ?)]; discriminate).
    + destruct (to_i64 s) eqn:E; [injection H as <-; right; eauto|discriminate].
    + destruct H as [(? & ? & ?)|(? & ? & [= <-] & -> & ->)]; [discriminate|reflexivity].
    + destruct (to_f64 s) eqn:E; [injection H as <-; left; eauto|discriminate].
    + destruct H as [(? & [= <-] & ->)|(? & ? & ? & ?)]; [reflexivity|discriminate].
  - intros z; destruct y; split; intros H; try discriminate;
      try (destruct H as [?|[? ?]]; discriminate).
    + injection H as <-. auto.
    + destruct H as [?|[_ ->]]; [discriminate|reflexivity].
    + injection H as <-. auto.
    + destruct H as [[= ->]|[? ?]]; [reflexivity|discriminate].
  - intros l; destruct y; split; intros H; try discriminate; congruence.
  - intros m; destruct y; split; intros H; try discriminate; congruence.
  - intros z; destruct y; split; intros H; try discriminate;
      try (destruct H as [?|[?|[?|[[? ?]|(? & ? & ?)]]]]; discriminate);
      try (injection H as <-; auto; fail).
    + injection H as <-. tauto.
    + destruct H as [?|[?|[?|[[? ->]|(? & ? & ?)]]]]; try discriminate; reflexivity.
    + destruct b; injection H as <-; do 4 right; eexists; split; reflexivity.
    + destruct H as [?|[?|[?|[[? ?]|(? & [= <-] & ->)]]]]; try discriminate; now destruct b.
    + destruct H as [?|[H|[?|[[? ?]|(? & ? & ?)]]]]; try discriminate; congruence.
    + destruct H as [?|[?|[H|[[? ?]|(? & ? & ?)]]]]; try discriminate; congruence.
    + destruct H as [H|[?|[?|[[? ?]|(? & ? & ?)]]]]; try discriminate; congruence.
  - intros q H. destruct y; cbn in H;
      repeat (destruct H as [H|H]; try discriminate; try congruence); try discriminate; try congruence;
      repeat match type of H with
        | match ?x with _ => _ end = _ => destruct x; try discriminate; try congruence
        end.
Qed.

(** Sequence and map lookups agree with the contents; a missing item is an error
    at the node's position for [get]/[get_ind], a panic for indexing, and the
    default for [get_default]. *)
Theorem C31_lookups : forall (hk : hasher) p t y,
  let n := Node p t y in
  (forall l i v, y = YSeq l ->
     (get_ind n i = inl v <-> nth_error l i = Some v)
     /\ (index_ind n i = Some v <-> nth_error l i = Some v))
  /\ (forall i q, get_ind n i = inr q -> q = p /\ index_ind n i = None)
  /\ (forall k v, node_get hk n k = Some (inl v) <->
        exists m, y = YMap m /\ map_get hk k m = Some (Some v))
  /\ (forall k q, node_get hk n k = Some (inr q) -> q = p /\ index_key hk n k = None)
  /\ (forall k v, node_get hk n k = Some (inl v) <-> index_key hk n k = Some v)
  /\ (forall A k (dflt : A) (f : node -> A + N) m, y = YMap m ->
        node_get_default hk n k dflt f =
        match node_get hk n k with
        | Some (inl v) => Some (f v)
        | Some (inr _) => Some (inl dflt)
        | None => None
        end)
  /\ (forall A k (dflt : A) (f : node -> A + N), (forall m, y <> YMap m) ->
        node_get_default hk n k dflt f = Some (inr p)).
Proof.
  intros hk p t y n. subst n.
  unfold get_ind, index_ind, node_get, index_key, node_get_default. cbn [n_yaml n_pos].
  split; [|split; [|split; [|split; [|split; [|split]]]]].
  - intros l i v ->. split; [|reflexivity]. destruct (nth_error l i); split; congruence.
  - intros i q H. destruct y; try (injection H as <-; split; reflexivity).
    destruct (nth_error l i); [discriminate|]. split; congruence.
  - intros k v. split.
    + destruct y; try discriminate. destruct (map_get hk k m) as [[]|] eqn:E; try discriminate.
      intros [= <-]. eauto.
    + intros (m & -> & ->). reflexivity.
  - intros k q. destruct y; try (intros [= <-]; split; reflexivity).
    destruct (map_get hk k m) as [[]|] eqn:E; try discriminate. intros [= <-]. split; reflexivity.
  - intros k v. destruct y; split; try discriminate.
    + destruct (map_get hk k m) as [[]|] eqn:E; try discriminate. now intros [= <-].
    + destruct (map_get hk k m) as [[]|] eqn:E; try discriminate. now intros [= <-].
  - intros A k dflt f m ->. destruct (map_get hk k m) as [[]|]; reflexivity.
  - intros A k dflt f H. destruct y; try reflexivity. exfalso. eapply H. reflexivity.
Qed.

Example C31_witness :
  let n := Node 5 [] (YMap [(node_from (YStr (lit "a")), node_from (YInt (lit "1")))]) in
  node_get (fun _ => 0) n (node_from (YStr (lit "a"))) = Some (inl (node_from (YInt (lit "1"))))
  /\ node_get (fun _ => 0) n (node_from (YStr (lit "b"))) = Some (inr 5)
  /\ as_int n = inr 5.
Proof. vm_compute. auto. Qed.

(** Tags: an explicit tag is returned as it is; without one the tag is the one of
    the core schema for the kind of the data, and an alias has none.  Replacing
    the data of a node changes neither its position nor its explicit tag.  An
    alias is resolved to the node of that name, and reports its own position when
    there is none; every other node is returned itself. *)
Inductive core_kind : yaml -> str -> Prop :=
| kind_null : core_kind YNull (lit "null")
| kind_bool b : core_kind (YBool b) (lit "bool")
| kind_int s : core_kind (YInt s) (lit "int")
| kind_float s : core_kind (YFloat s) (lit "float")
| kind_str s : core_kind (YStr s) (lit "str")
| kind_seq l : core_kind (YSeq l) (lit "seq")
| kind_map m : core_kind (YMap m) (lit "map").
Theorem C31_tags : forall p t y,
  (t <> [] -> node_tag (Node p t y) = t)
  /\ (forall k, core_kind y k -> node_tag (Node p [] y) = lit "tag:yaml.org,2002:" ++ k)
  /\ (forall a, y = YAlias a -> node_tag (Node p [] y) = [])
  /\ (forall z, n_pos (set_yaml (Node p t y) z) = p /\ n_rawtag (set_yaml (Node p t y) z) = t /\ n_yaml (set_yaml (Node p t y) z) = z)
  /\ (forall z, t <> [] -> node_tag (set_yaml (Node p t y) z) = t).
Proof.
  intros p t y. split; [|split; [|split; [|split]]].
  - destruct t; [congruence|reflexivity].
  - intros k H. destruct H; reflexivity.
  - now intros a ->.
  - intros z. repeat split.
  - intros z. destruct t; [congruence|reflexivity].
Qed.
Theorem C31_anchor_lookup : forall p t y (an : anchors_t), let n := Node p t y in
  (forall a, y = YAlias a -> as_anchor n an = match bt_get a an with Some m => inl m | None => inr p end)
  /\ ((forall a, y <> YAlias a) -> as_anchor n an = inl n).
Proof. intros p t y an n. subst n. unfold as_anchor. cbn [n_yaml]. split; [now intros a -> |]. intros H. destruct y; try reflexivity. exfalso. eapply H. reflexivity. Qed.
Example C31_tag_witness : node_tag (Node 3 [] (YSeq [])) = lit "tag:yaml.org,2002:seq"
  /\ as_anchor (Node 7 [] (YAlias (lit "b"))) [(lit "a", node_from YNull)] = inr 7
  /\ node_tag (set_yaml (Node 3 (lit "x") YNull) (YBool true)) = lit "x".
Proof. vm_compute. auto. Qed.

(** ** C32 *)
(** [r.or_else(|e| e.or(f))]: the alternative runs exactly after a mismatch, on
    the state the first one left; every other outcome is returned unchanged. *)
Theorem C32_alternative_only_on_mismatch : forall A (m f : M A) s r s',
  m s = (r, s') ->
  or_else m f s = if match r with RErr Mismatch => true | _ => false end then f s' else (r, s').
Proof. intros A m f s r s' H. unfold or_else. rewrite H. destruct r as [|[|]| |]; reflexivity. Qed.

(** In the grammar: a fatal error inside a block sequence, or inside a block
    map, is never masked by the alternatives that follow. *)
Theorem C32_fatal_error_not_masked : forall n level mp fl s name msg s',
  (seq n level mp s = (RErr (Terminate name msg), s')
   \/ exists s1, seq n level mp s = (RErr Mismatch, s1)
        /\ map_ n level mp fl s1 = (RErr (Terminate name msg), s')) ->
  or_else (or_else (seq n level mp) (map_ n level mp fl)) (scalar_term n level fl) s
  = (RErr (Terminate name msg), s').
Proof.
  intros n level mp fl s name msg s' [H|(s1 & H1 & H2)]; unfold or_else.
  - now rewrite H.
  - now rewrite H1, H2.
Qed.
Example C32_witness :
  exists msg s', seq 20 0 false (set_anchors [[]] (new_st (fun _ => 0) false (lit "- *x" ++ [10])))
  = (RErr (Terminate (lit "anchor referenced before definition") msg), s').
Proof. do 2 eexists. vm_compute. reflexivity. Qed.

(** ** C13 *)
(** [|-]/[|]/[|+]: strip removes exactly the trailing white space, keep changes
    nothing, clip is strip plus one line feed. *)
Lemma trim_end_app s : exists w, s = trim_end s ++ w /\ forallb is_uni_ws w = true.
Proof.
  induction s as [|c s (w & E & H)]; [exists []; split; reflexivity|].
  cbn [trim_end]. destruct (trim_end s) as [|d r] eqn:T.
  - destruct (is_uni_ws c) eqn:W.
    + exists (c :: s). split; [reflexivity|]. rewrite E. simpl. now rewrite W, H.
    + exists s. split; [reflexivity|]. rewrite E. exact H.
  - exists w. split; [|exact H]. cbn [app]. f_equal. exact E.
Qed.
Lemma trim_end_last s r c : trim_end s = r ++ [c] -> is_uni_ws c = false.
Proof.
  revert r; induction s as [|x s IH]; intros r; cbn [trim_end].
  - destruct r; discriminate.
  - destruct (trim_end s) as [|d t] eqn:T.
    + destruct (is_uni_ws x) eqn:W; [destruct r; discriminate|].
      destruct r as [|? []]; try discriminate. now intros [= <-].
    + destruct r as [|a r]; [discriminate|]. intros [= <- E]. eapply IH. exact E.
Qed.
Theorem C13_chomping : forall s : str,
  (exists w, s = apply_chomp Strip s ++ w /\ forallb is_uni_ws w = true
     /\ (forall r c, apply_chomp Strip s = r ++ [c] -> is_uni_ws c = false))
  /\ apply_chomp Keep s = s
  /\ apply_chomp Clip s = apply_chomp Strip s ++ [10].
Proof.
  intros s. split; [|split; reflexivity].
  destruct (trim_end_app s) as (w & E & H). exists w. cbn [apply_chomp].
  repeat split; [exact E|exact H|]. intros r c. apply trim_end_last.
Qed.
(** The indicator after | or > selects the mode and only it is consumed. *)
Theorem C13_indicator : forall s, in_doc s ->
  chomp s =
  match rem s with
  | 45 :: _ => (ROk Strip, set_pos (p_pos s + 1) s)
  | 43 :: _ => (ROk Keep, set_pos (p_pos s + 1) s)
  | _ => (ROk Clip, s)
  end.
Proof.
  intros s H. unfold chomp, context.
  set (s0 := set_eaten (p_pos s) s).
  assert (H0 : in_doc s0) by exact H.
  assert (R0 : rem s0 = rem s) by reflexivity.
  assert (B0 : set_pos (p_eaten s0) s0 = s0) by (destruct s; reflexivity).
  assert (E0 : set_eaten (p_eaten s) s0 = s) by (destruct s; reflexivity).
  unfold bind at 1. rewrite (is_ok_eq _ _ _ (sym_exec 45 s0 H0)), R0.
  destruct (rem s) as [|x r] eqn:E.
  - rewrite B0. unfold bind. rewrite (is_ok_eq _ _ _ (sym_exec 43 s0 H0)), R0, ?E, B0.
    cbn. now rewrite E0.
  - destruct (N.eqb_spec x 45) as [->|N1]; [reflexivity|].
    rewrite B0. unfold bind. rewrite (is_ok_eq _ _ _ (sym_exec 43 s0 H0)), R0, ?E.
    destruct (N.eqb_spec x 43) as [->|N2]; [reflexivity|].
    rewrite B0. cbn. rewrite E0.
    destruct x as [|[[[[[[]|[]|]|[[]|[]|]|]|[[[]|[]|]|[[]|[]|]|]|]|[[[[]|[]|]|[[]|[]|]|]|[[[]|[]|]|[[]|[]|]|]|]|]|[[[[[]|[]|]|[[]|[]|]|]|[[[]|[]|]|[[]|[]|]|]|]|[[[[]|[]|]|[[]|[]|]|]|[[[]|[]|]|[[]|[]|]|]|]|]|]];
      try reflexivity; congruence.
Qed.
Example C13_witness : apply_chomp Strip (lit "a b  " ++ [10; 10]) = lit "a b"
  /\ apply_chomp Clip (lit "a b  " ++ [10; 10]) = lit "a b" ++ [10].
Proof. vm_compute. auto. Qed.

(** ** C40 *)
Theorem C40_inline_list : forall T (x : inline_list T),
  il_iter x = il_into_iter x
  /\ il_len x = List.length (il_iter x)
  /\ (il_is_empty x = true <-> il_iter x = [])
  /\ (il_is_single x = true <-> exists e, il_iter x = [e])
  /\ il_iter (il_default (T := T)) = [].
Proof.
  intros T [v|e]; cbn; repeat split; try reflexivity; try discriminate; try (eexists; reflexivity).
  - destruct v; [reflexivity|discriminate].
  - now intros ->.
  - destruct v as [|e [|]]; try discriminate. eauto.
  - intros [e ->]. reflexivity.
Qed.
Theorem C40_optional : forall T (x : optional T) (d : T),
  o_ok d x = o_ok_instead x d
  /\ (forall R (f : T -> R) (g : R),
        o_ok_or d x f g = match o_ok d x with [] => g | v :: _ => f v end
        /\ o_ok_or_instead x f d g = o_ok_or d x f g)
  /\ (List.length (o_ok d x) <= 1)%nat
  /\ (o_ok d x = [] <-> x = OBool false)
  /\ o_ok d (o_default (T := T)) = [d].
Proof.
  intros T [[]|t] d; cbn; repeat split; try reflexivity; try discriminate; auto.
Qed.
Example C40_witness : il_is_single (IList [7]) = true /\ o_ok 3 (OSome 4) = [4].
Proof. split; reflexivity. Qed.
