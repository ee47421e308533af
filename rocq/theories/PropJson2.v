(** * C33, C41: the compact JSON text, equality with the value, hashers *)
From Verif Require Export PropJson PropFloat3.
Open Scope nat_scope.
(** In particular the compact text. *)
Lemma joined_cons (t u : str) r : joined (t :: u :: r) = t ++ lit "," ++ joined (u :: r).
Proof. reflexivity. Qed.
Lemma render_text : forall j, json_ok j -> jtext j (render j).
Proof.
  fix IH 2. intros j H. destruct H as [|b|z|t Ht|s Hs|l Hl|m Hk Hm].
  - constructor.
  - destruct b; constructor.
  - constructor.
  - now constructor.
  - now constructor.
  - apply TArr. assert (K : forall x, In x l -> jtext x (render x)) by (intros x Hx; exact (IH x (Hl x Hx))). clear Hl IH.
    induction l as [|x l IHl]; [apply (INone []); constructor|].
    assert (Hx : jtext x (render x)) by (apply K; now left).
    destruct l as [|y l].
    + apply (IOne [] x (render x) []); [constructor|exact Hx|apply trails_nil].
    + cbn [List.map]. rewrite joined_cons, <- !app_assoc.
      apply (IMore [] x (render x) [] (y :: l)); [constructor|exact Hx|apply trails_nil|].
      apply IHl. intros z Hz. apply K. now right.
  - apply TObj. assert (K : forall p, In p m -> str_ok (fst p) /\ jtext (snd p) (render (snd p)))
      by (intros p Hp; exact (conj (Hk p Hp) (IH (snd p) (Hm p Hp)))). clear Hk Hm IH.
    induction m as [|[k x] m IHm]; [apply (MNone []); constructor|].
    destruct (K (k, x) (or_introl eq_refl)) as [Hk Hx]. cbn [fst snd] in *.
    destruct m as [|[k' y] m].
    + cbn [List.map joined fst snd]. rewrite <- !app_assoc.
      apply (MOne [] k [] x (render x) []); [constructor|exact Hk|now left|exact Hx|apply trails_nil].
    + cbn [List.map fst snd]. rewrite joined_cons, <- !app_assoc.
      apply (MMore [] k [] x (render x) ((k', y) :: m)); [constructor|exact Hk|now left|exact Hx|].
      apply IHm. intros z Hz. apply K. now right.
Qed.
Theorem C33_compact : forall (hk : hasher) (j : json), json_ok j ->
  exists nd, parse hk (render j ++ [10%N]) = ROk [nd] /\ erase nd = Node 0 [] (value j).
Proof. intros hk j H. now apply C33_json_document, render_text. Qed.

(** ... and [==] says so when the integers are in the i64 range. *)
Lemma erase_strip : forall y, strip (n_yaml (erase (Node 0 [] y))) = strip y.
Proof.
  induction y as [| b0 | s | s | s | l IH | m IH | al] using yaml_ind2; try reflexivity.
  - cbn [erase n_yaml strip]. f_equal. induction IH as [|[p t x] l Hx Hl IHl]; [reflexivity|].
    cbn [List.map]. rewrite <- IHl. f_equal. cbn [n_yaml] in Hx. rewrite <- Hx. reflexivity.
  - cbn [erase n_yaml strip]. f_equal. induction IH as [|[[p t k] [p' t' x]] l [Hk Hx] Hl IHl]; [reflexivity|].
    cbn [List.map]. rewrite <- IHl. cbn [n_yaml fst snd] in Hk, Hx. rewrite <- Hk, <- Hx. reflexivity.
Qed.
Inductive json_small : json -> Prop :=
| SmNull : json_small JNull
| SmBool b : json_small (JBool b)
| SmInt z : (- 2 ^ 63 <= z < 2 ^ 63)%Z -> json_small (JInt z)
| SmFloat t : number_ok t -> json_small (JFloat t)
| SmStr s : json_small (JStr s)
| SmArr l : (forall x, In x l -> json_small x) -> json_small (JArr l)
| SmObj m : (forall p, In p m -> json_small (snd p)) -> json_small (JObj m).
Lemma last_wins_in {A} (m : list (str * A)) p : In p (last_wins m) -> In p m.
Proof.
  induction m as [|[k v] r IH]; [tauto|]. cbn [last_wins]. destruct (existsb _ _).
  - intros H. right. auto.
  - intros [H|H]; [now left|right; auto].
Qed.
Lemma number_value t : number_ok t -> exists x, to_f64 (drop_dot0 t) = Some x.
Proof.
  destruct C09_float_value as (V1 & V2 & V3). intros [H|H].
  - rewrite (V2 t _ H (drop_dot0_spec t)). destruct H as [neg ds fs Hne Hd Hf]. rewrite V1 by assumption. eauto.
  - rewrite (drop_sci t H). destruct H as [neg ds e sg es Hne Hd He Hsg Hes Hf]. destruct Hsg as [->|[->| ->]].
    + rewrite (V3 neg ds e None es) by assumption. eauto.
    + rewrite (V3 neg ds e (Some false) es) by assumption. eauto.
    + rewrite (V3 neg ds e (Some true) es) by assumption. eauto.
Qed.
Lemma small_readable : forall j, json_small j -> readable (value j).
Proof.
  fix IH 2. intros j H. destruct H as [|b|z Hz|t Ht|s|l Hl|m Hm]; cbn [value].
  - constructor.
  - constructor.
  - apply (ReadInt _ z). apply to_i64_show. unfold in_i64, i64_min, i64_max.
    apply andb_true_iff. split; apply Z.leb_le; lia.
  - destruct (number_value t Ht) as (x & Hx). exact (ReadFloat _ x Hx).
  - constructor.
  - assert (K : forall x, In x l -> readable (value x)) by (intros x Hx; exact (IH x (Hl x Hx))). clear Hl IH.
    constructor. apply Forall_forall. intros x Hx. apply in_map_iff in Hx as (y & <- & Hy). cbn. auto.
  - assert (K : forall p, In p m -> readable (value (snd p))) by (intros p Hp; exact (IH (snd p) (Hm p Hp))). clear Hm IH.
    constructor. apply Forall_forall. intros x Hx. apply in_map_iff in Hx as (y & <- & Hy). cbn [fst snd n_yaml]. split; [constructor|].
    apply last_wins_in in Hy. apply in_map_iff in Hy as (q & <- & Hq). cbn. auto.
Qed.
Theorem C33_equal_to_value : forall (hk : hasher) (j : json), json_ok j -> json_small j ->
  exists nd, parse hk (render j ++ [10%N]) = ROk [nd] /\ node_eq nd (Node 0 [] (value j)) = Some true.
Proof.
  intros hk j H Hs. destruct (C33_compact hk j H) as ([p t y] & E & Er). exists (Node p t y). split; [exact E|].
  assert (Ey : n_yaml (erase (Node 0 [] y)) = value j) by (now injection Er as _ Er).
  unfold node_eq; cbn [n_yaml]. rewrite <- C28_eq_ignores_position_and_tag, <- (erase_strip y), Ey, C28_eq_ignores_position_and_tag.
  pose proof (small_readable j Hs) as R.
  exact (proj1 (C28_eq_equivalence (Node 0 [] (value j)) (Node 0 [] (value j)) (Node 0 [] (value j)) R R R)).
Qed.
(** A number of a JSON document, wherever it stands (C33_json_document gives the node
    [value (JFloat t)] in its place), has the value the text says: DS.FS is the binary64
    number nearest to DSFS / 10^|FS|, DSeX the one nearest to DS * 10^X ([rounds], PropFloat3). *)
Theorem C33_number_value : forall p tag neg ds, ds <> [] -> Forall digit ds ->
  (forall fs, Forall digit fs ->
     number_ok (sign neg ++ ds ++ 46%N :: fs)
     /\ exists x, as_float (Node p tag (value (JFloat (sign neg ++ ds ++ 46%N :: fs)))) = inl x
          /\ rounds neg (positional 10 (ds ++ fs)) (10 ^ Z.of_nat (List.length fs)) x)
  /\ (forall e (sneg : option bool) es, e = 101%N \/ e = 69%N -> es <> [] -> Forall digit es ->
       let t := sign neg ++ ds ++ e :: (match sneg with Some true => [45%N] | Some false => [43%N] | None => [] end) ++ es in
       number_ok t
       /\ exists x, as_float (Node p tag (value (JFloat t))) = inl x
            /\ match sneg with
               | Some true => rounds neg (positional 10 ds) (10 ^ positional 10 es) x
               | _ => rounds neg (positional 10 ds * 10 ^ positional 10 es) 1 x
               end).
Proof.
  intros p tag neg ds Hne Hd. destruct C09_float_nearest as (V1 & V3 & _). destruct C09_float_value as (_ & V2 & _).
  assert (A : forall t x, to_f64 t = Some x -> as_float (Node p tag (YFloat t)) = inl x) by (intros t x E; unfold as_float; cbn [n_yaml]; now rewrite E).
  split.
  - intros fs Hf. assert (L : float_literal (sign neg ++ ds ++ 46%N :: fs)) by now constructor. split; [now left|].
    destruct (V1 neg ds fs Hne Hd Hf) as (x & E & R). exists x. split; [|exact R]. cbn [value]. apply A. rewrite <- E. apply V2; [exact L|apply drop_dot0_spec].
  - intros e sneg es He Hes Hf t. assert (L : sci_literal t) by (unfold t; constructor; try assumption; destruct sneg as [[]|]; auto). split; [now right|].
    destruct (V3 neg ds e sneg es Hne Hd He Hes Hf) as (x & E & R). exists x. split; [|exact R]. cbn [value]. apply A. rewrite (drop_sci t L). exact E.
Qed.
(** JSON numbers outside the class: with both a fraction and an exponent, or with a tab
    behind them, they are read as strings.  The escape \u of JSON strings is not known. *)
Theorem C33_other_json_refuted : forall hk,
  parse hk (lit "[1.5e3]" ++ [10%N]) = ROk [Node 0 [] (YSeq [Node 1 [] (YStr (lit "1.5e3"))])]
  /\ parse hk (lit "[1.5" ++ [9%N] ++ lit "]" ++ [10%N]) = ROk [Node 0 [] (YSeq [Node 1 [] (YStr (lit "1.5"))])]
  /\ parse hk (lit "[" ++ [34%N] ++ lit "\u0041" ++ [34%N] ++ lit "]" ++ [10%N]) = ROk [Node 0 [] (YSeq [Node 1 [] (YStr (lit "u0041"))])].
Proof. intros hk. split; [|split]; vm_compute; reflexivity. Qed.
(** A document with nesting, a repeated key and white space. *)
Example C33_witness :
  let j := JObj [(lit "a", JArr [JInt (-5); JNull; JFloat (lit "-2.50")]); (lit "b", JBool true); (lit "a", JStr (lit "x y"))] in
  json_ok j /\ json_small j
  /\ render j = (lit "{" ++ quote (lit "a") ++ lit ":[-5,null,-2.50]," ++ quote (lit "b") ++ lit ":true," ++ quote (lit "a") ++ lit ":" ++ quote (lit "x y") ++ lit "}")%list
  /\ value j = YMap [(Node 0 [] (YStr (lit "b")), Node 0 [] (YBool true)); (Node 0 [] (YStr (lit "a")), Node 0 [] (YStr (lit "x y")))].
Proof.
  assert (V : forall s, forallb (fun c => N.ltb c 128) s = true -> last s 0%N <> 92%N -> str_ok s).
  { intros s H1 H2. split; [|exact H2]. apply forallb_forall. intros c Hc. rewrite forallb_forall in H1. specialize (H1 c Hc).
    apply N.ltb_lt in H1. unfold valid_char. apply orb_true_iff. left. apply N.ltb_lt. lia. }
  assert (F : number_ok (lit "-2.50")).
  { left. apply (FloatLit true [50%N] [53; 48]%N); [discriminate|..]; repeat constructor; unfold digit; lia. }
  repeat split.
  - constructor; simpl; intros p Hp; repeat (destruct Hp as [<-|Hp]; [simpl|]); try destruct Hp; try (now apply V).
    + constructor. simpl. intros x Hx; repeat (destruct Hx as [<-|Hx]; [first [now constructor|constructor; exact F]|]); destruct Hx.
    + constructor.
    + constructor. now apply V.
  - constructor. simpl. intros p Hp; repeat (destruct Hp as [<-|Hp]; [simpl|]); try destruct Hp.
    + constructor. simpl. intros x Hx; repeat (destruct Hx as [<-|Hx]; [first [now constructor|constructor; lia|constructor; exact F]|]); destruct Hx.
    + constructor.
    + constructor.
Qed.

(** ** C41 for JSON documents: the keys are strings, so the hasher cannot be seen *)
Theorem C41_json_documents : forall (hk hk' : hasher) (j : json) (t : str), jtext j t ->
  exists nd nd', parse hk (t ++ [10%N]) = ROk [nd] /\ parse hk' (t ++ [10%N]) = ROk [nd'] /\ erase nd = erase nd'.
Proof.
  intros hk hk' j t J. destruct (C33_json_document hk j t J) as (nd & E & H), (C33_json_document hk' j t J) as (nd' & E' & H').
  exists nd, nd'. rewrite H, H'. auto.
Qed.
