(** * PropModes: the two modes of the parser, and the hasher (C50, C51). *)
From Verif Require Export Twin PropTerm.
Open Scope nat_scope.

(** ** Specification *)
(** no alias anywhere in a value *)
Fixpoint alias_free (y : yaml) : bool :=
  match y with
  | YAlias _ => false
  | YSeq l => forallb (fun n => match n with Node _ _ x => alias_free x end) l
  | YMap m => forallb (fun kv => match kv with (Node _ _ k, Node _ _ x) => alias_free k && alias_free x end) m
  | _ => true
  end.
(** [resolves hk t y y'] : [y'] is [y] with every alias replaced by the value that
    the table [t] has for its name; everything else, tags and positions included,
    is untouched.  Only in a map with an alias inside a key may the entries be
    others: its keys are compared again after the replacement. *)
Inductive resolves (hk : hasher) (t : anchors_t) : yaml -> yaml -> Prop :=
| RScalar y : match y with YSeq _ | YMap _ | YAlias _ => False | _ => True end -> resolves hk t y y
| RAlias a n : bt_get a t = Some n -> resolves hk t (YAlias a) (n_yaml n)
| RSeq v v' : Forall2 (fun n n' => n_pos n = n_pos n' /\ n_rawtag n = n_rawtag n' /\ resolves hk t (n_yaml n) (n_yaml n')) v v' ->
    resolves hk t (YSeq v) (YSeq v')
| RMap m m' :
    forallb (fun kv => alias_free (n_yaml (fst kv))) m = true ->
    Forall2 (fun kv kv' => fst kv = fst kv' /\
      n_pos (snd kv) = n_pos (snd kv') /\ n_rawtag (snd kv) = n_rawtag (snd kv') /\ resolves hk t (n_yaml (snd kv)) (n_yaml (snd kv'))) m m' ->
    resolves hk t (YMap m) (YMap m')
| RMapKeys l l' m m' :
    forallb (fun kv => alias_free (n_yaml (fst kv))) m = false ->
    Forall2 (fun kv kv' =>
      (n_pos (fst kv) = n_pos (fst kv') /\ n_rawtag (fst kv) = n_rawtag (fst kv') /\ resolves hk t (n_yaml (fst kv)) (n_yaml (fst kv'))) /\
      n_pos (snd kv) = n_pos (snd kv') /\ n_rawtag (snd kv) = n_rawtag (snd kv') /\ resolves hk t (n_yaml (snd kv)) (n_yaml (snd kv'))) l l' ->
    map_collect hk l = Some m -> map_collect hk l' = Some m' ->
    resolves hk t (YMap m) (YMap m').
Definition resolves_node (hk : hasher) (t : anchors_t) (n n' : node) : Prop :=
  n_pos n = n_pos n' /\ n_rawtag n = n_rawtag n' /\ resolves hk t (n_yaml n) (n_yaml n').
(** [t'] has the names of [t], with the aliases in their nodes replaced from [t'] itself *)
Definition resolved_table (hk : hasher) (t t' : anchors_t) : Prop := forall a,
  match bt_get a t, bt_get a t' with
  | Some n, Some n' => resolves_node hk t' n n'
  | None, None => True
  | _, _ => False
  end.
(** the error of an alias without an anchor before it *)
Definition undefined_alias (e : perr) : Prop := exists msg, e = Terminate (lit "anchor referenced before definition") msg.

(** ** Lemmas *)
Lemma af_seq l : alias_free (YSeq l) = forallb (fun n => alias_free (n_yaml n)) l.
Proof. cbn [alias_free]. induction l as [|[p t x] l IH]; [reflexivity|]. cbn [forallb n_yaml]. now f_equal. Qed.
Lemma af_map m : alias_free (YMap m) = forallb (fun kv => alias_free (n_yaml (fst kv)) && alias_free (n_yaml (snd kv))) m.
Proof. cbn [alias_free]. induction m as [|[[p t x] [p' t' x']] l IH]; [reflexivity|]. cbn [forallb n_yaml fst snd]. now f_equal. Qed.

Lemma eq_alias_free : forall a b, yaml_eq a b = Some true -> alias_free a = alias_free b.
Proof.
  induction a as [|x|s|s|s|v IH|m IH|s] using yaml_ind2; intros b E; destruct b as [|y|u|u|u|v'|m'|u]; try reflexivity; try discriminate.
  - rewrite yaml_eq_seq in E. destruct (Nat.eqb_spec (List.length v) (List.length v')) as [Hl|]; [|discriminate]. rewrite !af_seq.
    revert v' Hl E. induction IH as [|x v Hx _ IH]; intros [|x' v'] Hl E; try discriminate; [reflexivity|].
    cbn [seq_eq] in E. unfold node_eq in E. destruct (yaml_eq (n_yaml x) (n_yaml x')) as [[]|] eqn:Ex; try discriminate.
    cbn [forallb]. rewrite (Hx _ Ex). f_equal. apply IH; [now injection Hl|exact E].
  - rewrite yaml_eq_map in E. destruct (Nat.eqb_spec (List.length m) (List.length m')) as [Hl|]; [|discriminate]. rewrite !af_map.
    revert m' Hl E. induction IH as [|[k x] m [Hk Hx] _ IH]; intros [|[k' x'] m'] Hl E; try discriminate; [reflexivity|].
    cbn [ents_eq fst snd] in *. unfold node_eq in E. destruct (yaml_eq (n_yaml k) (n_yaml k')) as [[]|] eqn:Ek; try discriminate.
    destruct (yaml_eq (n_yaml x) (n_yaml x')) as [[]|] eqn:Ex; try discriminate.
    cbn [forallb fst snd]. rewrite (Hx _ Ex), (Hk _ Ek). f_equal. apply IH; [now injection Hl|exact E].
Qed.

Lemma resolves_free hk t : forall y y', alias_free y = true -> resolves hk t y y' -> y = y'.
Proof.
  assert (ND : forall n n' : node, n_pos n = n_pos n' -> n_rawtag n = n_rawtag n' -> n_yaml n = n_yaml n' -> n = n').
  { intros [p g y] [p' g' y']. cbn. now intros -> -> ->. }
  induction y as [|x|s|s|s|v IH|m IH|s] using yaml_ind2; intros y' F R; inversion R; subst; try reflexivity; try contradiction; try discriminate.
  - f_equal. rewrite af_seq in F. match goal with H : Forall2 _ _ _ |- _ => revert H end. clear R. revert v' F.
    induction IH as [|x v Hx _ IH]; intros v' F H2; inversion H2; subst; [reflexivity|].
    cbn [forallb] in F. apply andb_prop in F as [F1 F2]. f_equal; [|now apply IH]. destruct H1 as (A & B & C). apply ND; auto.
  - f_equal. rewrite af_map in F. match goal with H : Forall2 _ _ _ |- _ => revert H end. match goal with H : forallb _ m = _ |- _ => clear H end. clear R. revert m' F.
    induction IH as [|[k x] m [Hk Hx] _ IH]; intros m' F H2; inversion H2; subst; [reflexivity|].
    cbn [forallb fst snd] in *. apply andb_prop in F as [F1 F2]. apply andb_prop in F1 as [F1 F3].
    f_equal; [|now apply IH]. destruct y as [k' x']. cbn [fst snd] in *. destruct H1 as (A & B & C & D). subst k'. f_equal. apply ND; auto.
  - exfalso. rewrite af_map in F. rewrite forallb_forall in F. enough (forallb (fun kv => alias_free (n_yaml (fst kv))) m = true) by congruence.
    apply forallb_forall. intros x Hx. specialize (F x Hx). now apply andb_prop in F as [F _].
Qed.
Lemma resolves_mono hk t t' : ext t t' -> forall y y', resolves hk t y y' -> resolves hk t' y y'.
Proof.
  intros E. fix IH 3. intros y y' [y0 H|a n H|v v' H|m m' F H|l l' m m' F H C C'].
  - now apply RScalar.
  - apply RAlias. now apply E.
  - apply RSeq. revert v v' H. fix go 3. intros v v' [|n n' v0 v0' (A & B & C) H]; constructor; [|now apply go]. repeat split; auto.
  - apply RMap; [exact F|]. clear F. revert m m' H. fix go 3. intros v v' [|n n' v0 v0' (A & B & C & D) H]; constructor; [|now apply go]. repeat split; auto.
  - eapply RMapKeys; [exact F| |exact C|exact C']. clear F C C'. revert l l' H. fix go 3.
    intros v v' [|n n' v0 v0' ((A & B & C) & A' & B' & C') H]; constructor; [|now apply go]. repeat split; auto.
Qed.

(** maps with the same keys *)
Section SameKeys.
Variable hk : hasher.
Variable R : node -> node -> Prop.
Definition ER (x x' : node * node) : Prop := fst x = fst x' /\ R (snd x) (snd x').
Lemma take_same k : forall m m', Forall2 ER m m' ->
  match map_take hk k m, map_take hk k m' with
  | Some (o, r), Some (o', r') => o = o' /\ Forall2 ER r r'
  | None, None => True
  | _, _ => False
  end.
Proof.
  induction 1 as [|[k1 x] [k2 x'] m m' [Ek Ex] H IH]; cbn [map_take]; [auto|]. cbn [fst snd] in *. subst k2.
  destruct (key_match hk k k1) as [[]|]; auto. destruct (map_take hk k m) as [[o r]|], (map_take hk k m') as [[o' r']|]; try contradiction; auto.
  destruct IH as [-> IH]. split; [reflexivity|]. constructor; [now split|exact IH].
Qed.
Lemma extend_same : forall l l', Forall2 ER l l' -> forall m m', Forall2 ER m m' ->
  match map_extend hk m l, map_extend hk m' l' with
  | Some r, Some r' => Forall2 ER r r'
  | None, None => True
  | _, _ => False
  end.
Proof.
  induction 1 as [|[k1 x] [k2 x'] l l' [Ek Ex] H IH]; intros m m' Hm; cbn [map_extend]; [exact Hm|]. cbn [fst snd] in *. subst k2.
  unfold map_insert. pose proof (take_same k1 _ _ Hm) as T. destruct (map_take hk k1 m) as [[o r]|], (map_take hk k1 m') as [[o' r']|]; try contradiction; auto.
  destruct T as [<- T]. destruct o; apply IH; (apply Forall2_app; [exact T|]; constructor; [now split|constructor]).
Qed.
End SameKeys.

(** an alias in a key is still there after the pairs are collected *)
Definition keys_free (m : list (node * node)) : bool := forallb (fun kv => alias_free (n_yaml (fst kv))) m.
Lemma keys_free_app a b : keys_free (a ++ b) = keys_free a && keys_free b.
Proof. apply forallb_app. Qed.
Lemma take_free hk k : forall m o r, map_take hk k m = Some (o, r) ->
  match o with
  | Some k' => alias_free (n_yaml k) = alias_free (n_yaml k') /\ keys_free m = keys_free r && alias_free (n_yaml k')
  | None => r = m
  end.
Proof.
  induction m as [|[k1 x] m IH]; intros o r E; cbn [map_take] in E; [now injection E as <- <-|].
  unfold key_match in E. destruct (_ =? _)%N.
  - destruct (node_eq k k1) as [[]|] eqn:En; try discriminate.
    + injection E as <- <-. split; [now apply eq_alias_free|]. cbn [keys_free forallb fst]. apply andb_comm.
    + destruct (map_take hk k m) as [[o' r']|]; try discriminate. injection E as <- <-. specialize (IH _ _ eq_refl). destruct o'.
      * destruct IH as [I1 I2]. split; [exact I1|]. unfold keys_free in *. cbn [forallb fst]. rewrite I2. now rewrite andb_assoc.
      * now subst.
  - destruct (map_take hk k m) as [[o' r']|]; try discriminate. injection E as <- <-. specialize (IH _ _ eq_refl). destruct o'.
    * destruct IH as [I1 I2]. split; [exact I1|]. unfold keys_free in *. cbn [forallb fst]. rewrite I2. now rewrite andb_assoc.
    * now subst.
Qed.
Lemma extend_free hk : forall l m r, map_extend hk m l = Some r -> keys_free r = keys_free m && keys_free l.
Proof.
  induction l as [|[k x] l IH]; intros m r E; cbn [map_extend] in E.
  - injection E as <-. cbn. now rewrite andb_true_r.
  - unfold map_insert in E. destruct (map_take hk k m) as [[[k'|] r']|] eqn:Et; try discriminate; apply IH in E; rewrite E; apply take_free in Et; cbn [fst].
    + destruct Et as [E1 E2]. rewrite keys_free_app, E2. cbn [keys_free forallb fst]. rewrite E1. fold (keys_free l). fold (keys_free r').
      destruct (keys_free r'), (alias_free (n_yaml k')), (keys_free l); reflexivity.
    + subst r'. rewrite keys_free_app. cbn [keys_free forallb fst]. fold (keys_free l). rewrite andb_true_r. apply andb_assoc || now rewrite <- andb_assoc.
Qed.

Lemma each_nth YR v v' ts : each YR v v' ts -> forall i,
  match nth_error v i, nth_error v' i, nth_error ts i with
  | Some n, Some n', Some t => NR YR t n n'
  | None, None, None => True
  | _, _, _ => False
  end.
Proof.
  induction 1 as [|v v' ts n n' t H IH HN]; intros i; [now destruct i|]. destruct (each_length _ _ _ _ H) as [L1 L2].
  destruct (Nat.lt_trichotomy i (List.length ts)) as [Hi|[->|Hi]].
  - rewrite !nth_error_app1 by lia. apply IH.
  - rewrite !nth_error_app2 by lia. rewrite L1, L2, Nat.sub_diag. exact HN.
  - rewrite (proj2 (nth_error_None (v ++ [n]) i)), (proj2 (nth_error_None (v' ++ [n']) i)), (proj2 (nth_error_None (ts ++ [t]) i)); try (rewrite app_length; cbn; lia). exact I.
Qed.

(** ** The two modes *)
Section Modes.
Variable hk : hasher.
Variable d : bytes.
Let YR := resolves hk.
Notation Twin := (twin True d true false hk hk YR).
Lemma modes_alias w (k k' : M yaml) : Twin w YR k k' -> Twin w YR
  (o <- ok anchor_use ;; match o with Some s => alias_value s | None => k end)
  (o <- ok anchor_use ;; match o with Some s => alias_value s | None => k' end).
Proof.
  intros Hk. apply twin_then; [apply bl_ok, bl_anchor_use|]. intros [a|]; [|exact Hk].
  intros s s' HS Hw. pose proof (SR_tab _ _ _ _ _ _ s s' HS) as T. pose proof HS as (_ & _ & _ & C1 & C2 & _).
  unfold alias_value. rewrite C1, C2. destruct (nth_error (l_anchors s') (l_doc_ind s')) as [t'|].
  - destruct (nth_error (l_anchors s) (l_doc_ind s)) as [t|]; [|contradiction]. destruct T as [_ <-].
    destruct (bt_get a (cur s')) as [n|] eqn:Ea.
    + right. split; [exact HS|]. split; [apply grows_refl|]. now apply RAlias.
    + left. split; [exact I|]. unfold err. cbn [fst]. destruct (indicated_msg _ _); cbn [fst]; [|auto]. right. right. eexists. reflexivity.
  - left. split; [exact I|]. cbn [fst]. auto.
Qed.
Lemma modes_map w m m' : Forall2 (PR YR w) m m' -> Twin w YR (build_map m) (build_map m').
Proof.
  intros H s s' HS Hw. pose proof HS as (_ & _ & _ & _ & _ & H1 & H2 & _). unfold build_map. rewrite H1, H2.
  destruct (keys_free m) eqn:F.
  - assert (E : Forall2 (ER (resolves_node hk w)) m m').
    { revert F. induction H as [|[k x] [k' x'] m m' [(A & B & C) D] H IH]; intros F; [constructor|].
      cbn [keys_free forallb fst] in *. apply andb_prop in F as [F1 F2]. constructor; [|now apply IH]. split; [|exact D]. cbn [fst snd] in *.
      apply (resolves_free hk w _ _ F1) in C. destruct k, k'. cbn in *. now subst. }
    pose proof (extend_same hk _ _ _ E [] [] (Forall2_nil _)) as X. unfold map_collect. destruct (map_extend hk [] m) as [r|] eqn:Er, (map_extend hk [] m') as [r'|]; try contradiction; [|now right].
    right. split; [exact HS|]. split; [apply grows_refl|]. apply (resolves_mono hk w _ Hw). apply RMap.
    + change (keys_free r = true). rewrite (extend_free hk _ _ _ Er). cbn. exact F.
    + exact X.
  - destruct (map_collect hk m) as [r|] eqn:Er; [|left; split; [exact I|]; cbn; auto].
    destruct (map_collect hk m') as [r'|] eqn:Er'; [|left; split; [exact I|]; cbn; auto].
    right. split; [exact HS|]. split; [apply grows_refl|]. apply (resolves_mono hk w _ Hw). eapply RMapKeys; [| |exact Er|exact Er'].
    + change (keys_free r = false). rewrite (extend_free hk _ _ _ Er). cbn. exact F.
    + exact H.
Qed.
Lemma modes_parse n : Twin.same True (fun v t v' t' => each YR v v' (l_anchors t') /\ Forall2 (TR YR) (l_anchors t) (l_anchors t'))
  (parse_fuel n (new_st hk true d)) (parse_fuel n (new_st hk false d)).
Proof.
  apply (same_parse True d true false hk hk YR).
  - intros t t' y y' E. now apply resolves_mono.
  - intros t y Hy. apply RScalar. destruct y; auto.
  - intros t v v' H. now apply RSeq.
  - apply num_leaf. intros t s. split; now apply RScalar.
  - intros w k k'. apply modes_alias.
  - intros w m m'. apply modes_map.
Qed.
End Modes.

(** C50, with aliases *)
Theorem C50_modes_agree hk d :
  match parse_cyclic hk d, parse hk d with
  | ROk (v, tabs), ROk v' => exists tabs', forall i,
    match nth_error v i, nth_error v' i, nth_error tabs i, nth_error tabs' i with
    | Some n, Some n', Some t, Some t' => resolves_node hk t' n n' /\ resolved_table hk t t'
    | None, None, None, None => True
    | _, _, _, _ => False
    end
  | RErr e, RErr e' => e = e' \/ undefined_alias e'
  | ROk _, RErr e' => undefined_alias e'
  | RDiv, RErr e' => undefined_alias e'
  | RPanic, _ | _, RPanic => True
  | RDiv, RDiv => True
  | _, _ => False
  end.
Proof.
  unfold parse_cyclic, parse, parse_bytes, load. change (fuel_doc (new_st hk true (utf8_encode d))) with (fuel_doc (new_st hk false (utf8_encode d))).
  set (n := fuel_doc (new_st hk false (utf8_encode d))). pose proof (modes_parse hk (utf8_encode d) n) as H. clearbody n.
  destruct (parse_fuel n (new_st hk true (utf8_encode d))) as [[v|e| |] t], (parse_fuel n (new_st hk false (utf8_encode d))) as [[v'|e'| |] t']; cbn [fst]; auto;
    destruct H as [(_ & [O|[O|(msg & O)]])|H]; cbn [fst] in *; try discriminate; try (injection O as ->); try contradiction; auto;
    try (try right; eexists; reflexivity).
  destruct H as [H1 H2]. exists (l_anchors t'). intros i. pose proof (each_nth _ _ _ _ H1 i) as E.
  assert (T : match nth_error (l_anchors t) i, nth_error (l_anchors t') i with Some x, Some x' => resolved_table hk x x' | None, None => True | _, _ => False end).
  { clear -H2. revert i. induction H2 as [|x x0 l l0 Hx H IH]; intros [|i]; cbn [nth_error]; auto. exact (IH i). }
  destruct (nth_error v i), (nth_error v' i), (nth_error (l_anchors t') i); try contradiction; destruct (nth_error (l_anchors t) i); try contradiction; auto.
Qed.

(** ** Equality of two runs *)
Section Equal.
Variable d : bytes.
Variables c1 c2 : bool.
Variables h1 h2 : hasher.
Variable tame : yaml -> Prop.
Definition TY (_ : anchors_t) (y y' : yaml) : Prop := y = y' /\ tame y.
Notation Twin := (twin False d c1 c2 h1 h2 TY).
Lemma node_equal t n n' : NR TY t n n' <-> n = n' /\ tame (n_yaml n).
Proof.
  split.
  - intros (A & B & C & D). destruct n, n'. cbn in *. now subst.
  - intros [<- H]. now repeat split.
Qed.
Lemma nodes_equal t v v' : Forall2 (NR TY t) v v' -> v = v' /\ Forall (fun n => tame (n_yaml n)) v.
Proof. induction 1 as [|n n' v v' H _ [-> IH]]; [auto|]. apply node_equal in H as [-> H]. auto. Qed.
Lemma pairs_equal t v v' : Forall2 (PR TY t) v v' -> v = v' /\ Forall (fun kv => tame (n_yaml (fst kv)) /\ tame (n_yaml (snd kv))) v.
Proof.
  induction 1 as [|[k x] [k' x'] v v' [H H'] _ [-> IH]]; [auto|]. cbn [fst snd] in *.
  apply node_equal in H as [-> H]. apply node_equal in H' as [-> H']. auto.
Qed.
Hypothesis T_map : forall m, Forall (fun kv => tame (n_yaml (fst kv)) /\ tame (n_yaml (snd kv))) m -> tame (YMap m).
Hypothesis E_key : forall k k', tame (n_yaml k) -> tame (n_yaml k') -> key_match h1 k k' = key_match h2 k k'.
Let tpair (kv : node * node) : Prop := tame (n_yaml (fst kv)) /\ tame (n_yaml (snd kv)).
Lemma take_equal k : tame (n_yaml k) -> forall m, Forall tpair m ->
  map_take h1 k m = map_take h2 k m /\
  (forall o r, map_take h1 k m = Some (o, r) -> Forall tpair r /\ match o with Some k' => tame (n_yaml k') | None => True end).
Proof.
  intros Hk m H. induction H as [|[k1 x] m [H1 H2] H [IH1 IH2]]; cbn [map_take]; [split; [reflexivity|]; intros o r [=<- <-]; auto|].
  cbn [fst snd] in *. rewrite <- (E_key k k1 Hk H1). destruct (key_match h1 k k1) as [[]|]; try now split.
  - split; [reflexivity|]. intros o r [=<- <-]. auto.
  - rewrite <- IH1. split; [reflexivity|]. intros o r E. destruct (map_take h1 k m) as [[o' r']|]; [|discriminate].
    destruct (IH2 _ _ eq_refl) as [A B]. injection E as <- <-. split; [|exact B]. constructor; [now split|exact A].
Qed.
Lemma extend_equal : forall l, Forall tpair l -> forall m, Forall tpair m ->
  map_extend h1 m l = map_extend h2 m l /\ (forall r, map_extend h1 m l = Some r -> Forall tpair r).
Proof.
  induction 1 as [|[k x] l [Hk Hx] H IH]; intros m Hm; cbn [map_extend]; [split; [reflexivity|]; intros r [=<-]; exact Hm|].
  cbn [fst snd] in *. unfold map_insert. destruct (take_equal k Hk m Hm) as [T1 T2]. rewrite <- T1.
  destruct (map_take h1 k m) as [[[k'|] r]|]; [| |now split]; destruct (T2 _ _ eq_refl) as [A B]; apply IH; (apply Forall_app; split; [exact A|]; constructor; [now split|constructor]).
Qed.
Lemma equal_map w m m' : Forall2 (PR TY w) m m' -> Twin w TY (build_map m) (build_map m').
Proof.
  intros H s s' HS Hw. apply pairs_equal in H as [<- H]. pose proof HS as (_ & _ & _ & _ & _ & H1 & H2 & _). unfold build_map. rewrite H1, H2.
  right. destruct (extend_equal m H [] (Forall_nil _)) as [E1 E2]. unfold map_collect. rewrite <- E1. destruct (map_extend h1 [] m) as [r|]; [|exact I].
  split; [exact HS|]. split; [apply grows_refl|]. split; [reflexivity|]. apply T_map. now apply E2.
Qed.
Hypothesis T_leaf : forall y, plain_leaf y -> tame y.
Hypothesis T_seq : forall v, Forall (fun n => tame (n_yaml n)) v -> tame (YSeq v).
Hypothesis R_num : forall w k k', Twin w TY k k' -> Twin w TY (number k) (number k').
Hypothesis R_alias : forall w k k', Twin w TY k k' -> Twin w TY
  (o <- ok anchor_use ;; match o with Some s => alias_value s | None => k end)
  (o <- ok anchor_use ;; match o with Some s => alias_value s | None => k' end).
Lemma equal_parse n : Twin.same False (fun v t v' t' => each TY v v' (l_anchors t') /\ Forall2 (TR TY) (l_anchors t) (l_anchors t'))
  (parse_fuel n (new_st h1 c1 d)) (parse_fuel n (new_st h2 c2 d)).
Proof.
  apply (same_parse False d c1 c2 h1 h2 TY); auto.
  - intros t y Hy. split; auto.
  - intros t v v' H. apply nodes_equal in H as [<- H]. split; auto.
  - intros w m m'. apply equal_map.
Qed.
Lemma equal_result n : fst (parse_fuel n (new_st h1 c1 d)) = fst (parse_fuel n (new_st h2 c2 d)) /\
  forall v, fst (parse_fuel n (new_st h1 c1 d)) = ROk v ->
  Forall2 (fun t t' => forall a : str, bt_get a t = bt_get a t') (l_anchors (snd (parse_fuel n (new_st h1 c1 d)))) (l_anchors (snd (parse_fuel n (new_st h2 c2 d)))).
Proof.
  destruct (equal_parse n) as [[[] _]|H]. destruct (parse_fuel n (new_st h1 c1 d)) as [[v|e| |] t], (parse_fuel n (new_st h2 c2 d)) as [[v'|e'| |] t']; try contradiction; cbn [fst snd].
  - destruct H as [H1 H2]. assert (E : v = v').
    { apply nth_ext'. intros i. pose proof (each_nth _ _ _ _ H1 i) as E. destruct (nth_error v i), (nth_error v' i), (nth_error (l_anchors t') i); try contradiction; [|reflexivity].
      f_equal. now apply node_equal in E. }
    subst v'. split; [reflexivity|]. intros _ _. clear -H2. induction H2 as [|x x' l l' Hx H IH]; constructor; [|exact IH]. intros a. specialize (Hx a).
    destruct (bt_get a x), (bt_get a x'); try contradiction; [|reflexivity]. f_equal. now apply node_equal in Hx.
  - subst. split; [reflexivity|discriminate].
  - split; [reflexivity|discriminate].
  - split; [reflexivity|discriminate].
Qed.
End Equal.
(** an alias, when both runs are in the same mode *)
Lemma equal_alias d c h1 h2 (tame : yaml -> Prop) : (forall a, c = true -> tame (YAlias a)) ->
  forall w k k', twin False d c c h1 h2 (TY tame) w (TY tame) k k' -> twin False d c c h1 h2 (TY tame) w (TY tame)
  (o <- ok anchor_use ;; match o with Some s => alias_value s | None => k end)
  (o <- ok anchor_use ;; match o with Some s => alias_value s | None => k' end).
Proof.
  intros HT w k k' Hk. apply twin_then; [apply bl_ok, bl_anchor_use|]. intros [a|]; [|exact Hk].
  intros s s' HS Hw. pose proof (SR_tab _ _ _ _ _ _ s s' HS) as T. pose proof HS as (_ & _ & _ & C1 & C2 & _).
  unfold alias_value. rewrite C1, C2. destruct c.
  - right. split; [exact HS|]. split; [apply grows_refl|]. split; [reflexivity|]. now apply HT.
  - destruct (nth_error (l_anchors s') (l_doc_ind s')) as [t'|].
    + destruct (nth_error (l_anchors s) (l_doc_ind s)) as [t|]; [|contradiction]. destruct T as [T <-]. specialize (T a).
      destruct (bt_get a t) as [n|], (bt_get a (cur s')) as [n'|]; try contradiction.
      * right. split; [exact HS|]. split; [apply grows_refl|]. apply node_equal in T as [-> T]. now split.
      * destruct (twin_err False d false false h1 h2 (TY tame) w (TY tame) (lit "anchor referenced before definition") s s' HS Hw) as [O|O]; [now left|now right].
    + destruct (nth_error (l_anchors s) (l_doc_ind s)) as [t|]; [contradiction|]. now right.
Qed.

(** the first symbol an alias or a number needs *)
Lemma food_in s b t : food s = (ROk b, t) -> t = s /\ forall x, In x b -> In x (p_doc s).
Proof.
  unfold food. destruct (Nat.leb _ _); intros [=]; subst; split; [reflexivity|]. intros x Hx.
  rewrite <- (firstn_skipn (p_pos t) (p_doc t)). apply in_app_iff. now right.
Qed.
Lemma take_loop_ge f o : forall l c, c <= take_loop f o c l.
Proof.
  induction l as [|x l IH]; intros c; cbn [take_loop]; [lia|]. destruct (f x); cbn [negb]; [|lia].
  destruct o; try lia; [destruct (Nat.eqb _ _); [lia|]|]; specialize (IH (S c)); lia.
Qed.
Lemma take_in f o s t : take_min o <> Some 0 -> take_while f o s = (ROk tt, t) -> exists x, In x (p_doc s) /\ f x = true.
Proof.
  intros Ho H. unfold take_while, bind at 1 in H. destruct (food s) as [[b|e| |] s1] eqn:Ef; try discriminate. apply food_in in Ef as [-> Hb].
  destruct b as [|x b].
  - cbn [take_loop] in H. unfold bind, modify in H. cbn [Nat.eqb] in H. destruct (take_min o) as [[|k]|]; try discriminate. now elim Ho.
  - exists x. split; [apply Hb; now left|]. destruct (f x) eqn:Fx; [reflexivity|]. exfalso. cbn [take_loop] in H. rewrite Fx in H. cbn [negb] in H.
    unfold bind, modify in H. cbn [Nat.eqb] in H. destruct (take_min o) as [[|k]|]; try discriminate. now elim Ho.
Qed.
Lemma no_star d : ~ In (chr "*") d -> forall s b, p_doc s = d -> fst (anchor_use s) <> ROk b.
Proof.
  intros H s b Hd E. unfold anchor_use, bind at 1 in E. destruct (sym (chr "*") s) as [[u|e| |] t] eqn:Es; try discriminate.
  destruct u. apply take_in in Es as (x & Hx & Fx); [|discriminate]. rewrite Hd in Hx.
  apply is_in_spec in Fx. destruct Fx as [<-|[]]. now apply H.
Qed.
Lemma no_number {A} (f : M A) d : (forall x, In x d -> is_digit x = false) -> forall s b, p_doc s = d -> fst (bind num_prefix (fun _ => f) s) <> ROk b.
Proof.
  intros H s b Hd E. unfold bind at 1 in E. destruct (num_prefix s) as [[u|e| |] t] eqn:Es; try discriminate. clear E.
  unfold num_prefix, bind in Es. pose proof (bl_unwrap tt (sym (chr "-")) (bl_sym _)) as B. destruct (B s) as [_ Dp].
  destruct (unwrap_or tt (sym (chr "-")) s) as [[u'|e| |] s1]; try discriminate. cbn [snd] in Dp. destruct u.
  apply take_in in Es as (x & Hx & Fx); [|discriminate]. rewrite Dp, Hd in Hx. rewrite (H x Hx) in Fx. discriminate.
Qed.

(** C50, without the symbol [*]: the modes give exactly the same *)
Theorem C50_modes_without_aliases hk d : ~ In (chr "*") d ->
  parse hk d = match parse_cyclic hk d with
               | ROk (v, _) => ROk v
               | RErr e => RErr e
               | RPanic => RPanic
               | RDiv => RDiv
               end.
Proof.
  intros Hd. assert (Hd' : ~ In (chr "*") (utf8_encode d)) by (intros X; apply Hd; apply (ascii_in d); [reflexivity|exact X]).
  unfold parse_cyclic, parse, parse_bytes, load. change (fuel_doc (new_st hk true (utf8_encode d))) with (fuel_doc (new_st hk false (utf8_encode d))).
  set (n := fuel_doc (new_st hk false (utf8_encode d))). clearbody n.
  destruct (equal_result (utf8_encode d) true false hk hk (fun _ => True)) with (n := n) as [E _]; auto.
  - intros w k k'. apply num_leaf. intros t s. now split.
  - intros w k k'. apply twin_never; [apply bl_anchor_use|]. now apply no_star.
  - rewrite <- E. destruct (parse_fuel n (new_st hk true (utf8_encode d))) as [[v|e| |] t]; reflexivity.
Qed.

(** ** Hashers *)
Definition same_collisions (h1 h2 : hasher) : Prop := forall x y, h1 x = h1 y <-> h2 x = h2 y.
(** two outcomes of [parse_cyclic]: the same documents, and tables with the same answers *)
Definition same_outcome (r r' : res (list node * list anchors_t)) : Prop :=
  match r, r' with
  | ROk (v, t), ROk (v', t') => v = v' /\ Forall2 (fun t t' => forall a : str, bt_get a t = bt_get a t') t t'
  | RErr e, RErr e' => e = e'
  | RPanic, RPanic => True
  | RDiv, RDiv => True
  | _, _ => False
  end.
Lemma hashers_same h1 h2 d tame :
  (forall m, Forall (fun kv => tame (n_yaml (fst kv)) /\ tame (n_yaml (snd kv))) m -> tame (YMap m)) ->
  (forall k k', tame (n_yaml k) -> tame (n_yaml k') -> key_match h1 k k' = key_match h2 k k') ->
  (forall y, plain_leaf y -> tame y) -> (forall v, Forall (fun n => tame (n_yaml n)) v -> tame (YSeq v)) ->
  (forall c w k k', twin False (utf8_encode d) c c h1 h2 (TY tame) w (TY tame) k k' -> twin False (utf8_encode d) c c h1 h2 (TY tame) w (TY tame) (number k) (number k')) ->
  (forall a, tame (YAlias a)) ->
  parse h1 d = parse h2 d /\ same_outcome (parse_cyclic h1 d) (parse_cyclic h2 d).
Proof.
  intros T1 T2 T3 T4 T5 T6. unfold parse_cyclic, parse, parse_bytes, load.
  change (fuel_doc (new_st h2 true (utf8_encode d))) with (fuel_doc (new_st h1 true (utf8_encode d))).
  change (fuel_doc (new_st h2 false (utf8_encode d))) with (fuel_doc (new_st h1 true (utf8_encode d))).
  change (fuel_doc (new_st h1 false (utf8_encode d))) with (fuel_doc (new_st h1 true (utf8_encode d))).
  set (n := fuel_doc (new_st h1 true (utf8_encode d))). clearbody n. split.
  - apply (equal_result (utf8_encode d) false false h1 h2 tame); auto. apply equal_alias. auto.
  - destruct (equal_result (utf8_encode d) true true h1 h2 tame) with (n := n) as [E F]; auto; [apply equal_alias; auto|].
    destruct (parse_fuel n (new_st h1 true (utf8_encode d))) as [[v|e| |] t], (parse_fuel n (new_st h2 true (utf8_encode d))) as [[v'|e'| |] t']; cbn [fst snd] in *; try discriminate; cbn [same_outcome]; auto.
    + injection E as <-. split; [reflexivity|]. now apply (F v).
    + now injection E.
Qed.

(** C51: the hasher shows only through its collisions *)
Theorem C51_hasher_collisions h1 h2 d : same_collisions h1 h2 ->
  parse h1 d = parse h2 d /\ same_outcome (parse_cyclic h1 d) (parse_cyclic h2 d).
Proof.
  intros H. apply (hashers_same h1 h2 d (fun _ => True)); auto.
  - intros k k' _ _. unfold key_match. pose proof (H (hash_stream (n_yaml k)) (hash_stream (n_yaml k'))) as [A B].
    destruct (N.eqb_spec (h1 (hash_stream (n_yaml k))) (h1 (hash_stream (n_yaml k')))) as [E|E], (N.eqb_spec (h2 (hash_stream (n_yaml k))) (h2 (hash_stream (n_yaml k')))) as [E'|E']; try reflexivity; exfalso; auto.
  - intros c w k k'. apply num_leaf. intros t s. now split.
Qed.

(** a value without numbers other than NaN and the infinities *)
Fixpoint wordy (y : yaml) : bool :=
  match y with
  | YInt _ => false
  | YFloat s => str_eqb s (lit "NaN") || str_eqb s (lit "inf") || str_eqb s (lit "-inf")
  | YSeq l => forallb (fun n => match n with Node _ _ x => wordy x end) l
  | YMap m => forallb (fun kv => match kv with (Node _ _ k, Node _ _ x) => wordy k && wordy x end) m
  | _ => true
  end.
Lemma wordy_seq l : wordy (YSeq l) = forallb (fun n => wordy (n_yaml n)) l.
Proof. cbn [wordy]. induction l as [|[p t x] l IH]; [reflexivity|]. cbn [forallb n_yaml]. now f_equal. Qed.
Lemma wordy_map m : wordy (YMap m) = forallb (fun kv => wordy (n_yaml (fst kv)) && wordy (n_yaml (snd kv))) m.
Proof. cbn [wordy]. induction m as [|[[p t x] [p' t' x']] l IH]; [reflexivity|]. cbn [forallb n_yaml fst snd]. now f_equal. Qed.
Lemma wordy_float s : wordy (YFloat s) = true -> In s [lit "NaN"; lit "inf"; lit "-inf"].
Proof. cbn [wordy]. intros H. apply orb_prop in H as [H|H]; [apply orb_prop in H as [H|H]|]; apply str_eqb_eq in H; subst; cbn; auto. Qed.
Lemma wordy_eq : forall a b, wordy a = true -> wordy b = true ->
  exists c, yaml_eq a b = Some c /\ (c = true -> hash_stream a = hash_stream b).
Proof.
  induction a as [|x|s|s|s|v IH|m IH|s] using yaml_ind2; intros b Wa Wb; destruct b as [|y|u|u|u|v'|m'|u]; try discriminate;
    try (now exists false; split; [reflexivity|]).
  - exists true. auto.
  - exists (Bool.eqb x y). split; [reflexivity|]. intros E. apply Bool.eqb_prop in E. now subst.
  - apply wordy_float in Wa, Wb. cbn [In] in Wa, Wb.
    destruct Wa as [<-|[<-|[<-|[]]]], Wb as [<-|[<-|[<-|[]]]]; vm_compute; eexists; split; try reflexivity; intros; try reflexivity; discriminate.
  - exists (str_eqb s u). split; [reflexivity|]. intros E. apply str_eqb_eq in E. now subst.
  - rewrite yaml_eq_seq. rewrite wordy_seq in Wa, Wb. destruct (Nat.eqb_spec (List.length v) (List.length v')) as [Hl|]; [|exists false; split; [reflexivity|discriminate]].
    assert (exists c, seq_eq v v' = Some c /\ (c = true -> flat_map (fun n => hash_stream (n_yaml n)) v = flat_map (fun n => hash_stream (n_yaml n)) v')) as (c & E1 & E2).
    { revert v' Hl Wa Wb. induction IH as [|x v Hx _ IH]; intros [|x' v'] Hl Wa Wb; try discriminate; [now exists true|].
      cbn [seq_eq forallb] in *. apply andb_prop in Wa as [W1 W2]. apply andb_prop in Wb as [W3 W4]. destruct (Hx _ W1 W3) as (c & A & B). unfold node_eq. rewrite A.
      destruct c; [|now exists false]. destruct (IH v') as (c & C & D); auto. exists c. split; [exact C|]. intros ->. cbn [flat_map]. now rewrite B, D. }
    exists c. split; [exact E1|]. intros Hc. now rewrite !hash_seq, Hl, E2.
  - rewrite yaml_eq_map. rewrite wordy_map in Wa, Wb. destruct (Nat.eqb_spec (List.length m) (List.length m')) as [Hl|]; [|exists false; split; [reflexivity|discriminate]].
    assert (exists c, ents_eq m m' = Some c /\ (c = true -> hash_stream (YMap m) = hash_stream (YMap m'))) as (c & E1 & E2); [|now exists c].
    rewrite !hash_map. revert m' Hl Wa Wb. induction IH as [|[k x] m [Hk Hx] _ IH]; intros [|[k' x'] m'] Hl Wa Wb; try discriminate; [now exists true|].
    cbn [ents_eq forallb fst snd] in *. apply andb_prop in Wa as [W1 W2]. apply andb_prop in Wb as [W3 W4].
    apply andb_prop in W1 as [W1 W5]. apply andb_prop in W3 as [W3 W6]. destruct (Hk _ W1 W3) as (c & A & B). destruct (Hx _ W5 W6) as (c' & A' & B'). unfold node_eq. rewrite A, A'.
    destruct c; [|now exists false]. destruct c'; [|now exists false]. destruct (IH m') as (c & C & D); auto. exists c. split; [exact C|]. intros ->. cbn [flat_map fst snd]. specialize (D eq_refl). injection D as D. now rewrite B, B', D.
  - exists (str_eqb s u). split; [reflexivity|]. intros E. apply str_eqb_eq in E. now subst.
Qed.
(** C51: without a digit in the document, the hasher does not show at all *)
Theorem C51_hasher_without_digits h1 h2 d : (forall x, In x d -> is_digit x = false) ->
  parse h1 d = parse h2 d /\ same_outcome (parse_cyclic h1 d) (parse_cyclic h2 d).
Proof.
  intros Hd. assert (Hd' : forall x, In x (utf8_encode d) -> is_digit x = false).
  { intros x Hx. destruct (is_digit x) eqn:Ex; [|reflexivity]. rewrite <- Ex. apply Hd. apply ascii_in; [|exact Hx]. unfold is_digit in Ex. apply andb_prop in Ex as [_ Ex]. apply N.leb_le in Ex. lia. }
  apply (hashers_same h1 h2 d (fun y => wordy y = true)).
  - intros m Hm. rewrite wordy_map. apply forallb_forall. rewrite Forall_forall in Hm. intros x Hx. destruct (Hm x Hx) as [-> ->]. reflexivity.
  - intros k k' W W'. unfold key_match, node_eq. destruct (wordy_eq _ _ W W') as (c & E & F). rewrite E. destruct c; [rewrite (F eq_refl), !N.eqb_refl; reflexivity|].
    destruct (_ =? _)%N, (_ =? _)%N; reflexivity.
  - intros [|b|s|s|s|v|m|s] Hy; try contradiction; try reflexivity. cbn [plain_leaf In] in Hy. destruct Hy as [<-|[<-|[<-|[]]]]; reflexivity.
  - intros v Hv. rewrite wordy_seq. apply forallb_forall. rewrite Forall_forall in Hv. exact Hv.
  - intros c w k k' Hk. unfold number. apply twin_never; [apply bl_float|now apply no_number|]. apply twin_never; [apply bl_sci|now apply no_number|].
    apply twin_never; [apply bl_int|now apply no_number|exact Hk].
  - reflexivity.
Qed.

(** ** Cases *)
Definition len_hash : hasher := fun l => N.of_nat (List.length l).
Definition mode_doc : str := lit "a: &x [p, q]
b: *x
".
Example C50_case :
  parse_cyclic len_hash mode_doc =
    ROk ([Node 0 [] (YMap [(Node 0 [] (YStr (lit "a")), Node 6 [] (YSeq [Node 7 [] (YStr (lit "p")); Node 10 [] (YStr (lit "q"))]));
                           (Node 13 [] (YStr (lit "b")), Node 16 [] (YAlias (lit "x")))])],
         [[(lit "x", Node 6 [] (YSeq [Node 7 [] (YStr (lit "p")); Node 10 [] (YStr (lit "q"))]))]]) /\
  parse len_hash mode_doc =
    ROk [Node 0 [] (YMap [(Node 0 [] (YStr (lit "a")), Node 6 [] (YSeq [Node 7 [] (YStr (lit "p")); Node 10 [] (YStr (lit "q"))]));
                          (Node 13 [] (YStr (lit "b")), Node 16 [] (YSeq [Node 7 [] (YStr (lit "p")); Node 10 [] (YStr (lit "q"))]))])].
Proof. split; vm_compute; reflexivity. Qed.
(** a node inside itself: only [parse_cyclic] takes it *)
Example C50_case_self :
  (exists r, parse_cyclic len_hash (lit "&a [*a]") = ROk r) /\ (exists e, parse len_hash (lit "&a [*a]") = RErr e /\ undefined_alias e).
Proof. split; [eexists; vm_compute; reflexivity|]. eexists. split; [vm_compute; reflexivity|]. eexists. reflexivity. Qed.
(** aliases as keys: in [parse] the two entries are one *)
Definition keys_doc : str := lit "- &a x
- &b x
- {*a: p, *b: q}
".
Example C50_case_keys :
  match parse_cyclic len_hash keys_doc, parse len_hash keys_doc with
  | ROk ([Node _ _ (YSeq [_; _; Node _ _ (YMap m)])], _), ROk [Node _ _ (YSeq [_; _; Node _ _ (YMap m')])] => List.length m = 2 /\ List.length m' = 1
  | _, _ => False
  end.
Proof. vm_compute. split; reflexivity. Qed.
Example C51_case : same_collisions len_hash (fun l => 2 * N.of_nat (List.length l) + 1)%N.
Proof. intros x y. unfold len_hash. split; lia. Qed.
(** equal keys with other texts: here a hasher shows *)
Theorem C51_hasher_shows_refuted : ~ forall h1 h2 d, parse h1 d = parse h2 d.
Proof. intros H. specialize (H len_hash (fun _ => 0%N) (lit "{1: a, 01: b}")). vm_compute in H. discriminate. Qed.
