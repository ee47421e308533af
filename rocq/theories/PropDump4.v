(** * C58: writing what was read from a written text gives the same text *)
From Verif Require Export PropDump3.
Open Scope nat_scope.
Local Notation same := PropNode.same.

(** ** What the writer looks at *)
Lemma eq_settled a b n n' : settle_y a = settle_y b -> settle_y (n_yaml n) = settle_y (n_yaml n') -> yaml_eq a (n_yaml n) = yaml_eq b (n_yaml n').
Proof. intros H1 H2. rewrite <- (C28_eq_ignores_position_and_tag a), <- (C28_eq_ignores_position_and_tag b). now rewrite (settled_strip _ _ H1), (settled_strip _ _ H2). Qed.
Lemma find_settled an n n' : settle_y (n_yaml n) = settle_y (n_yaml n') -> find_anchor an n = find_anchor an n'.
Proof.
  intros H. induction an as [|[k v] r IH]; [reflexivity|]. cbn [find_anchor]. unfold node_eq. rewrite (eq_settled _ _ n n' eq_refl H). destruct (yaml_eq _ _) as [[]|]; auto.
Qed.
Lemma tag_plain n : own_tag (n_rawtag n) = [] -> tag_part n = ROk [].
Proof.
  intros H. unfold tag_part. destruct (core_tag n) as [E|[E|[E NE]]].
  - change tag_prefix with (lit "tag:yaml.org,2002:"). now rewrite E, andb_false_r.
  - now rewrite E.
  - congruence.
Qed.
Lemma tag_settled n n' : own_tag (n_rawtag n) = own_tag (n_rawtag n') -> tag_part n = tag_part n'.
Proof.
  intros H. destruct (own_tag (n_rawtag n)) eqn:E; [now rewrite !tag_plain by congruence|].
  assert (K : n_rawtag n = n_rawtag n').
  { unfold own_tag in *. destruct (starts_with _ (n_rawtag n)); [discriminate|]. destruct (starts_with _ (n_rawtag n')); [discriminate|]. congruence. }
  assert (NE : n_rawtag n <> []) by (intros K2; rewrite K2 in E; discriminate E).
  unfold tag_part, node_tag. rewrite <- K. now destruct (n_rawtag n).
Qed.
Lemma settle_parts n n' : settle n = settle n' -> own_tag (n_rawtag n) = own_tag (n_rawtag n') /\ settle_y (n_yaml n) = settle_y (n_yaml n').
Proof. now intros [= -> ->]. Qed.
Section Same.
Variables (win : bool) (uni : N -> bool) (an an' : anchors_t).
(** both tables give the same answer for all nodes inside *)
Definition agree (l : list node) : Prop := Forall (fun m => find_anchor an' m = find_anchor an m) l.
Definition SAME (n : node) : Prop := forall n', settle n' = settle n -> agree (inside (n_yaml n) ++ [n]) -> forall root level, dump_node win uni an' n' root level = dump_node win uni an n root level.
Lemma agree_app a b : agree (a ++ b) <-> agree a /\ agree b. Proof. apply Forall_app. Qed.
Lemma same_items : forall v v', List.map settle v' = List.map settle v -> Forall SAME v -> agree (inside (YSeq v)) -> forall level l nl ind i buf,
  items_loop (fun x => dump_node win uni an' x RArray level) nl ind l i v' buf = items_loop (fun x => dump_node win uni an x RArray level) nl ind l i v buf.
Proof.
  induction v as [|x v IH]; intros [|x' v'] E F A level l nl ind i buf; try discriminate; [reflexivity|]. injection E as E1 E2. inversion F as [|? ? F1 F2]; subst.
  cbn [inside flat_map] in A. apply agree_app in A as [A1 A2]. cbn [items_loop]. rewrite (F1 x'); [|unfold settle; now f_equal|destruct x; exact A1].
  destruct (dump_node win uni an x RArray level); try reflexivity. cbn [bind_res]. apply IH; [assumption|assumption|exact A2].
Qed.
Lemma kind_eq y y' : settle_y y' = settle_y y -> match y, y' with YMap _, YMap _ | YSeq _, YSeq _ => True | YMap _, _ | YSeq _, _ | _, YMap _ | _, YSeq _ => False | _, _ => y = y' end.
Proof. destruct y, y'; intros H; try discriminate H; try exact I; cbn in H; congruence. Qed.
Lemma same_value x x' : SAME x -> settle x' = settle x -> agree (inside (n_yaml x) ++ [x]) -> forall root level i,
  value_text win uni an' root level i x' = value_text win uni an root level i x.
Proof.
  intros H E A root level i. pose proof (kind_eq _ _ (proj2 (settle_parts _ _ E))) as K. unfold value_text. rewrite !(H x' E A).
  destruct (n_yaml x), (n_yaml x'); try contradiction; try discriminate; reflexivity.
Qed.
Lemma same_entries : forall m m', List.map settle_p m' = List.map settle_p m -> Forall (fun kv => SAME (fst kv) /\ SAME (snd kv)) m -> agree (inside (YMap m)) -> forall root level i buf,
  entries_loop win uni an' root level i m' buf = entries_loop win uni an root level i m buf.
Proof.
  induction m as [|[k x] m IH]; intros [|[k' x'] m'] E F A root level i buf; try discriminate; [reflexivity|].
  assert (E0 : settle_p (k', x') = settle_p (k, x)) by (cbn [List.map] in E; congruence).
  assert (E3 : List.map settle_p m' = List.map settle_p m) by (cbn [List.map] in E; congruence).
  assert (E1 : settle k' = settle k) by (unfold settle_p in E0; cbn [fst snd] in E0; congruence).
  assert (E2 : settle x' = settle x) by (unfold settle_p in E0; cbn [fst snd] in E0; congruence).
  inversion F as [|? ? [F1 F2] F3]; subst. cbn [fst snd] in *.
  cbn [inside flat_map] in A. destruct k as [pk tk yk], x as [px tx yx]. apply agree_app in A as [A A3]. apply agree_app in A as [A1 A2]. cbn [entries_loop].
  rewrite (F1 k' E1 A1). destruct (dump_node win uni an _ RMap (level + 1)); try reflexivity. cbn [bind_res].
  rewrite (same_value _ x' F2 E2 A2). destruct (value_text win uni an root level i _); try reflexivity. cbn [bind_res].
  replace (key_text win level k') with (key_text win level (Node pk tk yk)); [now apply IH|].
  pose proof (kind_eq _ _ (proj2 (settle_parts _ _ E1))) as K. cbn [n_yaml] in K. unfold key_text. cbn [n_yaml]. destruct yk, (n_yaml k'); try contradiction; try discriminate; reflexivity.
Qed.
Lemma same_all y : forall p t, SAME (Node p t y).
Proof.
  induction y as [| b | s | s | s | l IH | m IH | al] using yaml_ind2; intros p t [p' t' y'] E A root level;
    apply settle_parts in E as [E1 E2]; cbn [n_rawtag n_yaml] in *; apply agree_app in A as [A1 A2]; inversion A2 as [|? ? A3 _]; subst;
    pose proof (kind_eq _ _ E2) as K;
    destruct y' as [| b' | s' | s' | s' | l' | m' | al']; try contradiction; try discriminate.
  6:{ rewrite !seq_body. unfold anchor_part. rewrite (find_settled an' (Node p' t' (YSeq l')) (Node p t (YSeq l)) E2), A3, (tag_settled (Node p' t' (YSeq l')) (Node p t (YSeq l)) E1).
      rewrite (same_items l l'); [reflexivity|now apply settle_seq| |exact A1]. eapply Forall_impl; [|exact IH]. intros [q u z] H. apply H. }
  6:{ rewrite !map_body. unfold anchor_part. rewrite (find_settled an' (Node p' t' (YMap m')) (Node p t (YMap m)) E2), A3, (tag_settled (Node p' t' (YMap m')) (Node p t (YMap m)) E1).
      rewrite (same_entries m m'); [reflexivity|now apply settle_map| |exact A1]. eapply Forall_impl; [|exact IH]. intros [[q u z] [q1 u1 z1]] [H1 H2]. split; [apply H1|apply H2]. }
  all: cbn [dump_node]; unfold anchor_part;
    match goal with |- context [find_anchor an' ?a] => match goal with |- context [find_anchor an ?b] => rewrite (find_settled an' a b E2), A3, (tag_settled a b E1) end end; try (injection K as <-); reflexivity.
Qed.
End Same.

(** ** The table that was read names the same nodes *)
Lemma first_in an n a : first_name an n = Some a -> exists v, In (a, v) an /\ node_eq v n = Some true.
Proof.
  unfold first_name. destruct (List.find _ an) as [[b v]|] eqn:E; [|discriminate]. intros [= <-]. exists v. apply find_some in E as [E1 E2]. split; [exact E1|].
  cbn [snd] in E2. destruct (node_eq v n) as [[]|]; congruence.
Qed.
Definition clean (an : anchors_t) : Prop := Forall (fun kv => readable (n_yaml (snd kv))) an.
Lemma eq_same v n : readable (n_yaml v) -> readable (n_yaml n) -> (node_eq v n = Some true <-> same (n_yaml v) (n_yaml n)) /\ node_eq v n <> None.
Proof. intros H1 H2. destruct (C28_eq_decides_same v n H1 H2) as (r & -> & K). split; [|discriminate]. rewrite <- K. split; [now intros [= ->]|now intros ->]. Qed.
Lemma first_same an k m : clean an -> readable (n_yaml k) -> readable (n_yaml m) -> same (n_yaml k) (n_yaml m) -> first_name an k = first_name an m.
Proof.
  intros C Hk Hm S. unfold first_name. induction C as [|[a v] an Hv _ IH]; [reflexivity|]. cbn [List.find snd] in *.
  destruct (eq_same v k Hv Hk) as [K1 K2]. destruct (eq_same v m Hv Hm) as [M1 M2].
  destruct (node_eq v k) as [[]|]; [| |congruence]; (destruct (node_eq v m) as [[]|]; [| |congruence]); try reflexivity; try exact IH; exfalso.
  - assert (X : Some false = Some true) by (apply M1; eapply same_trans; [now apply K1|exact S]). discriminate.
  - assert (X : Some false = Some true) by (apply K1; eapply same_trans; [now apply M1|now apply same_sym]). discriminate.
Qed.
Lemma read_table an tab (nodes : list node) : clean an -> Forall (fun m => readable (n_yaml m)) nodes ->
  (forall a x, In (a, x) tab -> exists k, In k nodes /\ first_name an k = Some a /\ settle x = settle k) ->
  (forall m a, In m nodes -> first_name an m = Some a -> exists x, In (a, x) tab /\ settle x = settle m) ->
  forall m, In m nodes -> find_anchor tab m = find_anchor an m.
Proof.
  intros C R H1 H2 m Hm. rewrite Forall_forall in R. pose proof (R m Hm) as Rm.
  assert (RT : forall a x, In (a, x) tab -> readable (n_yaml x)).
  { intros a x Hx. destruct (H1 a x Hx) as (k & Hk & _ & E). apply settle_parts in E as [_ E]. eapply settled_readable; [exact E|now apply R]. }
  rewrite !find_first.
  - f_equal.
    destruct (first_name tab m) as [b|] eqn:E.
    + apply first_in in E as (x & Hx & E). destruct (H1 b x Hx) as (k & Hk & Ek & Es). apply (eq_same x m (RT b x Hx) Rm) in E. apply settle_parts in Es as [_ Es].
      rewrite <- Ek. apply first_same; [exact C|now apply R|exact Rm|]. eapply same_trans; [apply same_sym; eapply settled_same; [exact Es|now apply R]|exact E].
    + destruct (first_name an m) as [a|] eqn:Ea; [|reflexivity]. exfalso. destruct (H2 m a Hm Ea) as (x & Hx & Es). apply settle_parts in Es as [_ Es].
      pose proof (settled_same _ _ Es Rm) as S. apply (eq_same x m (RT a x Hx) Rm) in S.
      unfold first_name in E. destruct (List.find _ tab) eqn:F; [discriminate|]. pose proof (find_none _ _ F (a, x) Hx) as G. cbn [snd] in G. rewrite S in G. discriminate.
  - intros [a v] Hv. apply (eq_same v m); [|exact Rm]. unfold clean in C. rewrite Forall_forall in C. apply (C (a, v) Hv).
  - intros [a x] Hx. apply (eq_same x m); [eapply RT; exact Hx|exact Rm].
Qed.
Lemma insert_in {V} a (x : V) m p : In p (bt_insert a x m) -> p = (a, x) \/ In p m.
Proof.
  induction m as [|[b y] m IH]; cbn [bt_insert]; [intros [<-|[]]; auto|]. destruct (str_eqb a b) eqn:E; [apply str_eqb_eq in E as ->|destruct (str_ltb a b)]; cbn [In].
  - intros [<-|H]; auto.
  - intros [<-|H]; auto.
  - intros [<-|H]; auto. destruct (IH H); auto.
Qed.
Lemma table_in p (e : scope) : In p (table e) -> In p e.
Proof. induction e as [|[a x] e IH]; [intros []|]. cbn [table fold_right fst snd]. intros H. apply insert_in in H as [-> |H]; [now left|right; now apply IH]. Qed.
Lemma get_in {V} a (x : V) m : bt_get a m = Some x -> In (a, x) m.
Proof. induction m as [|[b y] m IH]; [discriminate|]. cbn. destruct (str_eqb a b) eqn:E; [apply str_eqb_eq in E as ->; intros [= ->]; now left|right; auto]. Qed.
Lemma lookup_in a m (l : scope) : NoDup (List.map fst l) -> In (a, m) l -> lookup a l = Some m.
Proof.
  induction l as [|[b n] l IH]; [intros _ []|]. intros H [K|K]; inversion H as [|? ? H1 H2]; subst; cbn [lookup].
  - injection K as -> ->. now rewrite str_eqb_refl.
  - destruct (str_eqb a b) eqn:E; [|now apply IH]. apply str_eqb_eq in E as ->. exfalso. apply H1. now apply (in_map fst) in K.
Qed.
Lemma scope_finds an n e : clean an -> Forall (fun m => readable (n_yaml m)) (inside (n_yaml n) ++ [n]) -> NoDup (List.map fst (anchored an n)) -> ext (anchored an n) [] e ->
  agree an (table e) (inside (n_yaml n) ++ [n]).
Proof.
  intros C R ND X. unfold agree. apply Forall_forall. apply read_table; [exact C|exact R| |].
  - intros a x Hx. apply table_in in Hx. destruct X as (l' & F & ->). rewrite app_nil_r in Hx. apply in_rev in Hx.
    assert (K : exists p, In p (anchored an n) /\ rel (a, x) p) by (clear -F Hx; induction F as [|p q l' l E _ IH]; [destruct Hx|]; destruct Hx as [-> |Hx]; [exists q; split; [now left|exact E]|]; destruct (IH Hx) as (p0 & ? & ?); exists p0; split; [now right|assumption]).
    destruct K as ([b k] & Hk & E1 & E2). cbn [fst snd] in *. subst b. unfold anchored in Hk. apply in_flat_map in Hk as (k2 & Hk2 & Hk). unfold own_name in Hk.
    destruct (first_name an k2) as [b|] eqn:Eb; [|destruct Hk]. destruct Hk as [Hk|[]]. injection Hk as -> ->. exists k. auto.
  - intros m a Hm Ea. assert (Ha : In (a, m) (anchored an n)) by (unfold anchored; apply in_flat_map; exists m; split; [exact Hm|]; unfold own_name; rewrite Ea; now left).
    pose proof (ext_names _ _ ND X a) as K. rewrite (lookup_in a m _ ND Ha) in K. destruct (lookup a e) as [x|] eqn:El; [|discriminate]. cbn [option_map] in K. assert (K' : settle x = settle m) by congruence.
    exists x. split; [|exact K']. apply get_in. now rewrite lookup_table.
Qed.
Lemma parts_readable y : readable y -> Forall (fun m => readable (n_yaml m)) (inside y).
Proof.
  induction y as [| b | s | s | s | l IH | m IH | al] using yaml_ind2; intros R; try constructor; cbn [inside].
  - inversion R as [| | | | | ? F | |]; subst. induction IH as [|[p t x] l H _ IH']; [constructor|]. inversion F; subst. cbn [flat_map n_yaml] in *.
    apply Forall_app. split; [apply Forall_app; split; [auto|now constructor]|]. apply IH'; [now constructor|assumption].
  - inversion R as [| | | | | | ? F |]; subst. induction IH as [|[[p t x] [q u z]] m [H1 H2] _ IH']; [constructor|]. inversion F as [|? ? [F1 F2] F3]; subst. cbn [flat_map n_yaml fst snd] in *.
    apply Forall_app. split; [apply Forall_app; split; apply Forall_app; (split; [auto|now constructor])|]. apply IH'; [now constructor|assumption].
Qed.

(** ** C58 *)
(** all integers and floats in the nodes and in the tables can be read *)
Definition all_readable (ns : list node) (ans : list anchors_t) : Prop :=
  Forall (fun n => readable (n_yaml n)) ns /\ Forall clean ans.
Lemma hd_skip {A} i (l : list A) d : nth i l d = hd d (skipn i l).
Proof. revert l. induction i as [|i IH]; intros [|x l]; try reflexivity. apply IH. Qed.
Lemma redump win uni cyclic : forall ns pl nds ans ans' es i j, docs_fit cyclic uni pl ns (skipn i ans) -> all_names ns (skipn i ans) es -> skipn j ans' = List.map table es ->
  List.map settle nds = List.map settle ns -> all_readable ns (skipn i ans) -> i = j ->
  dump_docs win uni j nds ans' = dump_docs win uni i ns ans.
Proof.
  induction ns as [|n ns IH]; intros pl [|n' nds] ans ans' es i j H A T S [R1 R2] ->; try discriminate; [reflexivity|].
  destruct es as [|e es]; [destruct A|]. destruct H as (_ & ND & Hr). destruct A as [X Ar]. cbn [List.map] in S. injection S as S1 S2 S3. inversion R1 as [|? ? Rn Rns]; subst.
  destruct (nth_skip j ans []) as [N1 N2]. destruct (nth_skip j ans' []) as [M1 M2]. rewrite T in M1, M2. cbn [List.map hd tl] in M1, M2.
  assert (C : clean (nth j ans [])).
  { rewrite N1. destruct (skipn j ans) as [|an0 r] eqn:E; cbn [hd]; [constructor|]. now inversion R2. }
  cbn [dump_docs]. rewrite M1. change (hd [] (skipn j ans)) with (@hd anchors_t [] (skipn j ans)) in *. unfold names_in in X.
  assert (D : dump_node win uni (table e) n' RScalar 0 = dump_node win uni (nth j ans []) n RScalar 0).
  { destruct n as [p t y]. apply same_all; [unfold settle; now f_equal|]. apply scope_finds; [exact C| | |].
    - apply Forall_app. split; [now apply parts_readable|constructor; [exact Rn|constructor]].
    - rewrite N1. exact ND.
    - rewrite N1. exact X. }
  rewrite D. destruct (dump_node win uni (nth j ans []) n RScalar 0); try reflexivity. cbn [bind_res].
  rewrite (IH Later nds ans ans' es (Datatypes.S j) (Datatypes.S j)); [reflexivity| | | | | |reflexivity].
  - rewrite N2. exact Hr.
  - rewrite N2. exact Ar.
  - exact M2.
  - exact S3.
  - split; [exact Rns|]. rewrite N2. destruct (skipn j ans); [constructor|now inversion R2].
Qed.
(** Reading what was written, with the aliases kept, and writing it again with
    the anchors that were read gives the same text *)
Theorem C58_reformat_is_stable : forall (win : bool) (uni : N -> bool) (hk : hasher) (ns : list node) (ans : list anchors_t),
  ns <> [] -> docs_fit true uni First ns ans -> all_readable ns ans ->
  exists t nds tabs, dump win uni ns ans = ROk t /\ parse_cyclic hk t = ROk (nds, tabs) /\ dump win uni nds tabs = ROk t.
Proof.
  intros win uni hk ns ans Hn H R. destruct (dump_stream win true uni ns ans Hn H) as (t & nds & es & D & St & S & A).
  assert (E : NL win = [10%N] \/ NL win = [13; 10]%N) by (unfold NL; destruct win; auto).
  destruct (stream_load hk true (NL win) [] nds es t E (Forall_nil _) ltac:(cbn; lia) St) as (s & L & T).
  exists t, nds, (List.map table es). split; [exact D|]. split.
  - unfold parse_cyclic. rewrite L. now rewrite T.
  - rewrite <- D. unfold dump. eapply (redump win uni true ns First nds ans (List.map table es) es 0 0); try assumption; reflexivity.
Qed.

(** ** A witness: two documents; a tag, an anchor and its alias, text of two
    lines (where a line break is LF), a map as a key *)
Definition wn (y : yaml) : node := Node 0 [] y.
Definition ww (s : str) : node := wn (YStr s).
Definition w_word : node := Node 7 (lit "t") (YStr (lit "word")).
Definition w_text : node := ww (lit "one" ++ [10%N] ++ lit "two" ++ [10%N]).
Definition w_doc : node := wn (YMap [(ww (lit "list"), wn (YSeq [w_word; wn (YAlias (lit "q")); w_text])); (wn (YMap [(ww (lit "k"), ww (lit "v"))]), wn YNull)]).
Definition w_docs : list node := [w_doc; ww (lit "end")].
Definition w_ans : list anchors_t := [[(lit "q", ww (lit "word"))]].
Example C57_witness : docs_fit true (fun _ => false) First w_docs w_ans /\ all_readable w_docs w_ans.
Proof.
  assert (W : forall s, s <> [] -> forallb PropBlock.letter s = true -> existsb (fun kv => str_eqb s (fst kv)) keywords = false -> scalar_fits true (fun _ => false) (YStr s))
    by (intros; left; apply OkBare; now apply letters_ok).
  assert (Q : name_ok (lit "q")) by (apply name_intro; [reflexivity|constructor]).
  assert (T : name_ok (lit "t")) by (apply name_intro; [reflexivity|constructor]).
  set (an := [(lit "q", ww (lit "word"))]).
  assert (MK : forall p n, node_eq (ww (lit "word")) n = Some false -> n_rawtag n = [] -> marks_ok an p n).
  { intros p n E E2. assert (F : first_name an n = None) by (unfold first_name, an; cbn [List.find snd]; now rewrite E). constructor.
    - intros kv [<-|[]]. cbn [snd]. rewrite E. discriminate.
    - rewrite E2. now left.
    - rewrite F. discriminate.
    - rewrite E2, F. auto. }
  assert (LK : PropLiteral.line_ok 0 (lit "one") /\ PropLiteral.line_ok 0 (lit "two")).
  { split; (constructor; [reflexivity|repeat (constructor; [split; discriminate|]); constructor|lia]). }
  split.
  - split; [|split; [|split; [|split; [|exact I]]]].
    + cbn [hd w_ans]. fold an. eapply FitMap; [now apply MK|reflexivity| | | |].
      * split.
        -- constructor; [|constructor; [constructor|constructor]]. constructor; [|constructor]. cbn. intros S. inversion S.
        -- constructor; [constructor|]. constructor; [|constructor]. constructor. constructor; [|constructor]. split; constructor.
      * apply FitScalar; [now apply MK|now apply W].
      * eapply FitSeq; [now apply MK|reflexivity|discriminate|]. constructor; [|constructor; [|constructor; [|constructor]]].
        -- apply FitScalar; [|now apply W]. constructor.
           ++ intros kv [<-|[]]. discriminate.
           ++ right. left. exact T.
           ++ intros a [= <-]. exact Q.
           ++ discriminate.
        -- apply FitScalar; [now apply MK|]. right. split; [reflexivity|]. exists (lit "q"). auto.
        -- eapply FitLines; [now left|now apply MK|reflexivity|].
           exists (lit "one"), [(0, lit "two")]. split; [reflexivity|]. split; [discriminate|]. split.
           ++ constructor; [|constructor; [|constructor]]; cbn [fst snd].
              ** split; [apply LK|]. exists (chr "e"), (lit "on"). split; reflexivity.
              ** split; [apply LK|]. exists (chr "o"), (lit "tw"). split; reflexivity.
           ++ exists (chr "o"), (lit "ne"). split; reflexivity.
      * constructor; [|constructor]. cbn [fst snd]. split.
        -- eapply FitMap; [now apply MK|reflexivity| | | |constructor].
           ++ split; [constructor; [constructor|constructor]|constructor; [constructor|constructor]].
           ++ apply FitScalar; [now apply MK|now apply W].
           ++ apply FitScalar; [now apply MK|now apply W].
        -- apply FitScalar; [now apply MK|]. left. constructor.
    + cbn; constructor; [intros []|constructor].
    + apply FitScalar; [|now apply W]. constructor; [intros kv []|now left|discriminate|auto].
    + cbn. constructor.
  - split; repeat constructor.
Qed.
Example C57_witness_text : dump false (fun _ => false) w_docs w_ans = ROk (List.concat
  [lit "list:"; [10]; lit "  - &q !t word"; [10]; lit "  - *q"; [10]; lit "  - |"; [10]; lit "    one"; [10]; lit "    two"; [10];
   lit "?  "; [10]; [10]; lit "  k: v"; [10]; lit ": null"; [10]; lit "---"; [10]; lit "end"; [10]])%N.
Proof. vm_compute. reflexivity. Qed.
Example C57_windows_text : dump true (fun _ => false) w_docs w_ans = ROk (List.concat
  [lit "list:"; [13; 10]; lit "  - &q !t word"; [13; 10]; lit "  - *q"; [13; 10]; lit "  - |"; [13; 10]; lit "    one"; [13; 10]; lit "    two"; [13; 10];
   lit "?  "; [13; 10]; [13; 10]; lit "  k: v"; [13; 10]; lit ": null"; [13; 10]; lit "---"; [13; 10]; lit "end"; [13; 10]])%N.
Proof. vm_compute. reflexivity. Qed.

(** ** Why the class says no more *)
Definition w_run (ns : list node) (ans : list anchors_t) : res (list node * list anchors_t) :=
  match dump false (fun _ => false) ns ans with ROk t => parse_cyclic (fun _ => 0%N) t | RErr e => RErr e | RPanic => RPanic | RDiv => RDiv end.
Definition w_tag (y : yaml) : node := Node 0 (lit "t") y.
(** The tag of a later document is lost; that of a collection in the place of a
    value or of a key is read as part of a string; that of the first key of a
    map is read as the tag of the map; a node that stands in two places is named
    twice, which is an error. *)
Theorem C57_marks_refuted :
  w_run [ww (lit "a"); w_tag (YStr (lit "x"))] [] = ROk ([Node 0 [] (YStr (lit "a")); Node 5 [] (YStr (lit "x"))], [[]; []])
  /\ w_run [wn (YMap [(ww (lit "k"), w_tag (YSeq [ww (lit "x")]))])] [] = ROk ([Node 0 [] (YStr (lit "k:!t  - x"))], [[]])
  /\ w_run [wn (YMap [(w_tag (YSeq [ww (lit "x")]), ww (lit "x"))])] []
     = ROk ([Node 0 [] (YMap [(Node 3 [] (YStr (lit " - x")), Node 16 [] (YStr (lit "x")))])], [[]])
  /\ w_run [wn (YMap [(w_tag (YStr (lit "k")), ww (lit "x"))])] []
     = ROk ([Node 3 (lit "t") (YMap [(Node 3 [] (YStr (lit "k")), Node 6 [] (YStr (lit "x")))])], [[]])
  /\ exists m, w_run [wn (YSeq [ww (lit "x"); ww (lit "x")])] [[(lit "a", ww (lit "x"))]] = RErr (Terminate (lit "duplicated anchor definition") m).
Proof.
  split; [vm_compute; reflexivity|]. split; [vm_compute; reflexivity|]. split; [vm_compute; reflexivity|]. split; [vm_compute; reflexivity|].
  eexists. vm_compute. reflexivity.
Qed.
