(** * PropNode: properties of the node type (C08, C28-C31, C37, C40). *)
From Verif Require Export NodeFacts Loader.
Open Scope N_scope.

(** ** Specification *)

(** Every number inside has a value. *)
Inductive readable : yaml -> Prop :=
| ReadNull : readable YNull
| ReadBool b : readable (YBool b)
| ReadInt s z : to_i64 s = Some z -> readable (YInt s)
| ReadFloat s x : to_f64 s = Some x -> readable (YFloat s)
| ReadStr s : readable (YStr s)
| ReadSeq l : Forall (fun n => readable (n_yaml n)) l -> readable (YSeq l)
| ReadMap m : Forall (fun kv => readable (n_yaml (fst kv)) /\ readable (n_yaml (snd kv))) m ->
              readable (YMap m)
| ReadAlias a : readable (YAlias a).

(** Same data: integers and floats by value (NaN is the same as NaN), sequences
    elementwise, maps entry by entry in order; positions and tags do not
    count. *)
Inductive same : yaml -> yaml -> Prop :=
| SameNull : same YNull YNull
| SameBool b : same (YBool b) (YBool b)
| SameInt s t z : to_i64 s = Some z -> to_i64 t = Some z -> same (YInt s) (YInt t)
| SameFloat s t x y : to_f64 s = Some x -> to_f64 t = Some y ->
    (x = FNaN /\ y = FNaN \/ f_eqb x y = true) -> same (YFloat s) (YFloat t)
| SameStr s : same (YStr s) (YStr s)
| SameSeq l l' : Forall2 (fun a b => same (n_yaml a) (n_yaml b)) l l' -> same (YSeq l) (YSeq l')
| SameMap m m' :
    Forall2 (fun a b => same (n_yaml (fst a)) (n_yaml (fst b))
                        /\ same (n_yaml (snd a)) (n_yaml (snd b))) m m' ->
    same (YMap m) (YMap m')
| SameAlias a : same (YAlias a) (YAlias a).

(** ** C28 *)

Lemma Forall2_length {A B} (R : A -> B -> Prop) l l' :
  Forall2 R l l' -> List.length l = List.length l'.
Proof. induction 1; simpl; congruence. Qed.

Lemma feq_iff x y : feq x y = true <-> (x = FNaN /\ y = FNaN \/ f_eqb x y = true).
Proof.
  unfold feq. destruct x, y; simpl; intuition (try discriminate; auto).
Qed.

Lemma eq_decides : forall a, readable a -> forall b, readable b ->
  exists r, yaml_eq a b = Some r /\ (r = true <-> same a b).
Proof.
  assert (NO : forall a b r, yaml_eq a b = Some r -> (r = true <-> same a b) ->
               exists r, yaml_eq a b = Some r /\ (r = true <-> same a b)) by eauto.
  induction a as [| b0 | s | s | s | l IH | m IH | al] using yaml_ind2; intros Ra b Rb;
    destruct b as [| b1 | t | t | t | l' | m' | al'];
    try (exists false; split; [reflexivity|split; [discriminate|intros H; inversion H]]).
  - exists true; split; [reflexivity|split; [constructor|reflexivity]].
  - exists (Bool.eqb b0 b1). split; [reflexivity|].
    split; [intros H; apply eqb_prop in H; subst; constructor|intros H; inversion H; now destruct b1].
  - inversion Ra as [| |? z Hz | | | | |]; inversion Rb as [| |? z' Hz' | | | | |]; subst.
    exists (z =? z')%Z. cbn [yaml_eq]. rewrite Hz, Hz'. split; [reflexivity|].
    rewrite Z.eqb_eq. split; [intros ->; econstructor; eassumption|].
    intros H; inversion H; congruence.
  - inversion Ra as [| | |? x Hx | | | |]; inversion Rb as [| | |? x' Hx' | | | |]; subst.
    exists (feq x x'). cbn [yaml_eq]. rewrite Hx, Hx'. split; [reflexivity|].
    rewrite feq_iff. split; [intros H; econstructor; eassumption|].
    intros H; inversion H; congruence.
  - exists (str_eqb s t). split; [reflexivity|]. rewrite str_eqb_eq.
    split; [intros ->; constructor|intros H; now inversion H].
  - rewrite yaml_eq_seq.
    inversion Ra as [| | | | |? Fl | |]; inversion Rb as [| | | | |? Fl' | |]; subst.
    destruct (Nat.eqb_spec (List.length l) (List.length l')) as [E|E].
    + assert (K : exists r, seq_eq l l' = Some r /\
        (r = true <-> Forall2 (fun a b => same (n_yaml a) (n_yaml b)) l l')).
      { clear Ra Rb. revert l' E Fl'. induction l as [|x l IHl]; intros [|y l'] E Fl';
          try discriminate.
        - exists true. split; [reflexivity|]. split; [constructor|reflexivity].
        - inversion IH as [|? ? IHx IHr]; inversion Fl as [|? ? Fx Fr];
            inversion Fl' as [|? ? Fy Fr']; subst.
          destruct (IHx Fx (n_yaml y) Fy) as (r & Hr & Hs).
          cbn [seq_eq]. unfold node_eq. rewrite Hr. destruct r.
          + destruct (IHl IHr Fr l') as (r & Hr' & Hs'); [simpl in E; congruence|assumption|].
            exists r. split; [exact Hr'|]. rewrite Hs'. split.
            * intros H; constructor; [now apply Hs|assumption].
            * intros H; now inversion H.
          + exists false. split; [reflexivity|]. split; [discriminate|].
            intros H; inversion H as [|? ? ? ? Sx]; subst. apply Hs in Sx. discriminate. }
      destruct K as (r & Hr & Hs). exists r. split; [exact Hr|]. rewrite Hs.
      split; [apply SameSeq|intros H; now inversion H].
    + exists false. split; [reflexivity|]. split; [discriminate|].
      intros H; inversion H as [| | | | |? ? F | |]; subst. apply Forall2_length in F. contradiction.
  - rewrite yaml_eq_map.
    inversion Ra as [| | | | | |? Fl |]; inversion Rb as [| | | | | |? Fl' |]; subst.
    destruct (Nat.eqb_spec (List.length m) (List.length m')) as [E|E].
    + assert (K : exists r, ents_eq m m' = Some r /\
        (r = true <-> Forall2 (fun a b => same (n_yaml (fst a)) (n_yaml (fst b))
                        /\ same (n_yaml (snd a)) (n_yaml (snd b))) m m')).
      { clear Ra Rb. revert m' E Fl'. induction m as [|[k x] m IHm]; intros [|[k' y] m'] E Fl';
          try discriminate.
        - exists true. split; [reflexivity|]. split; [constructor|reflexivity].
        - inversion IH as [|? ? [IHk IHx] IHr]; inversion Fl as [|? ? [Fk Fx] Fr];
            inversion Fl' as [|? ? [Fk' Fy] Fr']; subst. cbn [fst snd] in *.
          destruct (IHk Fk (n_yaml k') Fk') as (r & Hr & Hs).
          destruct (IHx Fx (n_yaml y) Fy) as (r1 & Hr1 & Hs1).
          cbn [ents_eq]. unfold node_eq. rewrite Hr. destruct r.
          2:{ exists false. split; [reflexivity|]. split; [discriminate|].
              intros H; inversion H as [|? ? ? ? [Sk Sx]]; subst. apply Hs in Sk. discriminate. }
          rewrite Hr1. destruct r1.
          2:{ exists false. split; [reflexivity|]. split; [discriminate|].
              intros H; inversion H as [|? ? ? ? [Sk Sx]]; subst. apply Hs1 in Sx. discriminate. }
          destruct (IHm IHr Fr m') as (r & Hr' & Hs'); [simpl in E; congruence|assumption|].
          exists r. split; [exact Hr'|]. rewrite Hs'. split.
          * intros H; constructor; [split; [now apply Hs|now apply Hs1]|assumption].
          * intros H; now inversion H. }
      destruct K as (r & Hr & Hs). exists r. split; [exact Hr|]. rewrite Hs.
      split; [apply SameMap|intros H; now inversion H].
    + exists false. split; [reflexivity|]. split; [discriminate|].
      intros H; inversion H as [| | | | | |? ? F |]; subst. apply Forall2_length in F. contradiction.
  - exists (str_eqb al al'). split; [reflexivity|]. rewrite str_eqb_eq.
    split; [intros ->; constructor|intros H; now inversion H].
Qed.

Lemma same_refl : forall a, readable a -> same a a.
Proof.
  induction a as [| b0 | s | s | s | l IH | m IH | al] using yaml_ind2; intros R;
    inversion R; subst; try constructor.
  - econstructor; eassumption.
  - econstructor; try eassumption. apply feq_iff, feq_refl.
  - clear R. induction l; [constructor|]. inversion IH; inversion H0; subst. constructor; auto.
  - clear R. induction m; [constructor|]. inversion IH as [|? ? []]; inversion H0 as [|? ? []]; subst.
    constructor; auto.
Qed.

Lemma same_sym : forall a b, same a b -> same b a.
Proof.
  induction a as [| b0 | s | s | s | l IH | m IH | al] using yaml_ind2; intros b S;
    inversion S as [| |? ? ? E1 E2|? ? ? ? E1 E2 E3| |? ? F|? ? F|]; subst; try constructor.
  - econstructor; eassumption.
  - econstructor; try eassumption. apply feq_iff. rewrite feq_sym. now apply feq_iff.
  - clear S. induction F; [constructor|]. inversion IH; subst. constructor; auto.
  - clear S. induction F as [|? ? ? ? [Sk Sv]]; [constructor|].
    inversion IH as [|? ? []]; subst. constructor; auto.
Qed.

Lemma same_trans : forall a b c, same a b -> same b c -> same a c.
Proof.
  induction a as [| b0 | s | s | s | l IH | m IH | al] using yaml_ind2; intros b c S1 S2;
    inversion S1 as [| |? ? ? E1 E2|? ? ? ? E1 E2 E3| |? ? F|? ? F|]; subst;
    inversion S2 as [| |? ? ? G1 G2|? ? ? ? G1 G2 G3| |? ? G|? ? G|]; subst; try constructor.
  - econstructor; [eassumption|congruence].
  - econstructor; try eassumption. rewrite E2 in G1. injection G1 as ->.
    apply feq_iff in E3. apply feq_iff in G3. apply feq_iff. eapply feq_trans; eassumption.
  - clear S1 S2. revert l'0 G. induction F as [|x y l l' Sx F IHF]; intros l'0 G;
      inversion G; subst; constructor; inversion IH; subst; eauto.
  - clear S1 S2. revert m'0 G. induction F as [|x y l l' [Sx Sy] F IHF]; intros l'0 G;
      inversion G as [|? ? ? ? [] ?]; subst; constructor; inversion IH as [|? ? []]; subst; eauto.
Qed.

(** C28: on nodes whose numbers are readable [==] never panics and decides
    [same] ... *)
Theorem C28_eq_decides_same : forall n1 n2 : node,
  readable (n_yaml n1) -> readable (n_yaml n2) ->
  exists r, node_eq n1 n2 = Some r /\ (r = true <-> same (n_yaml n1) (n_yaml n2)).
Proof. intros n1 n2 R1 R2. exact (eq_decides _ R1 _ R2). Qed.

(** ... which is an equivalence (reflexive also on NaN) ... *)
Theorem C28_eq_equivalence : forall n1 n2 n3 : node,
  readable (n_yaml n1) -> readable (n_yaml n2) -> readable (n_yaml n3) ->
  node_eq n1 n1 = Some true
  /\ node_eq n1 n2 = node_eq n2 n1
  /\ (node_eq n1 n2 = Some true -> node_eq n2 n3 = Some true -> node_eq n1 n3 = Some true).
Proof.
  intros n1 n2 n3 R1 R2 R3.
  destruct (eq_decides _ R1 _ R1) as (a & Ea & Sa).
  destruct (eq_decides _ R1 _ R2) as (b & Eb & Sb).
  destruct (eq_decides _ R2 _ R1) as (c & Ec & Sc).
  destruct (eq_decides _ R2 _ R3) as (d & Ed & Sd).
  destruct (eq_decides _ R1 _ R3) as (e & Ee & Se).
  unfold node_eq. rewrite Ea, Eb, Ec, Ed, Ee. repeat split.
  - f_equal. apply Sa, same_refl, R1.
  - f_equal. destruct b, c; try reflexivity.
    + symmetry. apply Sc, same_sym, Sb; reflexivity.
    + apply Sb, same_sym, Sc; reflexivity.
  - intros [= ->] [= ->]. f_equal. apply Se. eapply same_trans; [now apply Sb|now apply Sd].
Qed.

(** ... and does not depend on positions or tags, at any depth. *)
Fixpoint strip (y : yaml) : yaml :=
  match y with
  | YSeq l => YSeq (List.map (fun n => match n with Node _ _ x => Node 0 [] (strip x) end) l)
  | YMap m => YMap (List.map (fun kv => match kv with
                     | (Node _ _ k, Node _ _ x) => (Node 0 [] (strip k), Node 0 [] (strip x))
                     end) m)
  | y => y
  end.
Theorem C28_eq_ignores_position_and_tag : forall y1 y2,
  yaml_eq (strip y1) (strip y2) = yaml_eq y1 y2.
Proof.
  induction y1 as [| b0 | s | s | s | l IH | m IH | al] using yaml_ind2;
    intros [| b1 | t | t | t | l' | m' | al']; try reflexivity.
  - cbn [strip]. rewrite !yaml_eq_seq, !map_length.
    destruct (Nat.eqb _ _); [|reflexivity].
    revert l'. induction l as [|[p t x] l IHl]; intros [|[p' t' y] l']; try reflexivity.
    inversion IH as [|? ? Hx Hr]; subst. cbn [List.map seq_eq]. unfold node_eq; cbn [n_yaml] in *.
    rewrite Hx. destruct (yaml_eq x y) as [[]|]; try reflexivity. now apply IHl.
  - cbn [strip]. rewrite !yaml_eq_map, !map_length.
    destruct (Nat.eqb _ _); [|reflexivity].
    revert m'. induction m as [|[[p t k] [p1 t1 x]] m IHm];
      intros [|[[p' t' k'] [p2 t2 y]] m']; try reflexivity.
    inversion IH as [|? ? [Hk Hx] Hr]; subst. cbn [List.map ents_eq]. unfold node_eq; cbn [n_yaml fst snd] in *.
    rewrite Hk. destruct (yaml_eq k k') as [[]|]; try reflexivity.
    rewrite Hx. destruct (yaml_eq x y) as [[]|]; try reflexivity. now apply IHm.
Qed.

(** Without readable numbers the comparison panics: an integer literal out of
    the i64 range. *)
Theorem C28_total_eq_refuted :
  exists n, node_eq n n = None.
Proof. exists (node_from (YInt (lit "99999999999999999999"))). vm_compute. reflexivity. Qed.

Example C28_witness :
  let n := node_from (YMap [(node_from (YStr (lit "a")),
             node_from (YSeq [node_from (YFloat (lit "NaN")); node_from (YInt (lit "0x10"))]))]) in
  readable (n_yaml n) /\ node_eq n n = Some true
  /\ node_eq (node_from (YInt (lit "16"))) (node_from (YInt (lit "0x10"))) = Some true.
Proof.
  cbv zeta. repeat split; try (vm_compute; reflexivity).
  cbn [n_yaml node_from]. repeat constructor; cbn [fst snd n_yaml node_from]; repeat constructor.
  - econstructor. vm_compute. reflexivity.
  - econstructor. vm_compute. reflexivity.
Qed.

(** ** C29: equal nodes feed the hasher the same stream when numbers are spelled
    the same *)

(** Same data and same spelling of numbers. *)
Inductive same_spelled : yaml -> yaml -> Prop :=
| SpNull : same_spelled YNull YNull
| SpBool b : same_spelled (YBool b) (YBool b)
| SpInt s : same_spelled (YInt s) (YInt s)
| SpFloat s : same_spelled (YFloat s) (YFloat s)
| SpStr s : same_spelled (YStr s) (YStr s)
| SpSeq l l' : Forall2 (fun a b => same_spelled (n_yaml a) (n_yaml b)) l l' ->
               same_spelled (YSeq l) (YSeq l')
| SpMap m m' :
    Forall2 (fun a b => same_spelled (n_yaml (fst a)) (n_yaml (fst b))
                        /\ same_spelled (n_yaml (snd a)) (n_yaml (snd b))) m m' ->
    same_spelled (YMap m) (YMap m')
| SpAlias a : same_spelled (YAlias a) (YAlias a).

(** Integers in the spelling [Node::from] gives them (in the i64 range), no
    floats. *)
Inductive plain_ints : yaml -> Prop :=
| PiNull : plain_ints YNull
| PiBool b : plain_ints (YBool b)
| PiInt z : in_i64 z = true -> plain_ints (YInt (show_Z z))
| PiStr s : plain_ints (YStr s)
| PiSeq l : Forall (fun n => plain_ints (n_yaml n)) l -> plain_ints (YSeq l)
| PiMap m : Forall (fun kv => plain_ints (n_yaml (fst kv)) /\ plain_ints (n_yaml (snd kv))) m ->
            plain_ints (YMap m)
| PiAlias a : plain_ints (YAlias a).

Theorem C29_hash_same_spelling : forall a b,
  same_spelled a b -> hash_stream a = hash_stream b.
Proof.
  induction a as [| b0 | s | s | s | l IH | m IH | al] using yaml_ind2; intros b S;
    inversion S as [| | | | |? ? F|? ? F|]; subst; try reflexivity.
  - rewrite !hash_seq, (Forall2_length _ _ _ F). do 2 f_equal. clear S.
    induction F as [|x y l l' Sx F IHF]; [reflexivity|]. inversion IH; subst.
    cbn [flat_map]. rewrite IHF by assumption. f_equal. auto.
  - rewrite !hash_map. f_equal. clear S.
    induction F as [|x y l l' [Sx Sy] F IHF]; [reflexivity|]. inversion IH as [|? ? [I1 I2]]; subst.
    cbn [flat_map]. rewrite IHF by assumption. f_equal. rewrite (I1 _ Sx), (I2 _ Sy). reflexivity.
Qed.

Lemma plain_ints_readable : forall a, plain_ints a -> readable a.
Proof.
  induction a as [| b0 | s | s | s | l IH | m IH | al] using yaml_ind2; intros P;
    inversion P; subst; try constructor.
  - econstructor. now apply to_i64_show.
  - clear P. induction l; constructor; inversion IH; inversion H0; subst; auto.
  - clear P. induction m; constructor; inversion IH as [|? ? []]; inversion H0 as [|? ? []]; subst; auto.
Qed.

Lemma plain_same_spelled : forall a b, plain_ints a -> plain_ints b -> same a b -> same_spelled a b.
Proof.
  induction a as [| b0 | s | s | s | l IH | m IH | al] using yaml_ind2; intros b Pa Pb S;
    inversion S as [| |? ? ? E1 E2|? ? ? ? E1 E2 E3| |? ? F|? ? F|]; subst; try constructor.
  - inversion Pa; inversion Pb; subst. rewrite to_i64_show in E1, E2 by assumption.
    injection E1 as ->. injection E2 as ->. constructor.
  - inversion Pa.
  - inversion Pa as [| | | |? Fa | |]; inversion Pb as [| | | |? Fb | |]; subst. clear S Pa Pb.
    induction F; constructor; inversion IH; inversion Fa; inversion Fb; subst; auto.
  - inversion Pa as [| | | | |? Fa |]; inversion Pb as [| | | | |? Fb |]; subst. clear S Pa Pb.
    induction F as [|? ? ? ? []]; constructor; inversion IH as [|? ? []];
      inversion Fa as [|? ? []]; inversion Fb as [|? ? []]; subst; auto.
Qed.

(** The law required of hash map keys, on nodes built from Rust values. *)
Theorem C29_hash_law_on_plain_ints : forall n1 n2 : node,
  plain_ints (n_yaml n1) -> plain_ints (n_yaml n2) ->
  node_eq n1 n2 = Some true -> hash_stream (n_yaml n1) = hash_stream (n_yaml n2).
Proof.
  intros n1 n2 P1 P2 E.
  destruct (C28_eq_decides_same n1 n2) as (r & Hr & S);
    [now apply plain_ints_readable|now apply plain_ints_readable|].
  rewrite E in Hr. injection Hr as <-.
  apply C29_hash_same_spelling, plain_same_spelled; auto. now apply S.
Qed.

(** It fails in general: two spellings of the same number. *)
Theorem C29_hash_law_refuted : exists n1 n2,
  node_eq n1 n2 = Some true /\ hash_stream (n_yaml n1) <> hash_stream (n_yaml n2).
Proof.
  exists (node_from (YInt (lit "16"))), (node_from (YInt (lit "0x10"))).
  split; [vm_compute; reflexivity|vm_compute; discriminate].
Qed.

Example C29_witness :
  same_spelled (YSeq [Node 3 [] (YInt (lit "1"))]) (YSeq [Node 9 (lit "t") (YInt (lit "1"))]).
Proof. repeat constructor. Qed.

(** ** C30: maps *)

Definition same_key (a b : node) : Prop := same (n_yaml a) (n_yaml b).

(** Keys on which equality and hashing agree (for instance strings, or
    [plain_ints] nodes: [C30_plain_keys_lawful]). *)
Definition lawful_keys (ks : list node) : Prop :=
  (forall k, In k ks -> readable (n_yaml k)) /\
  (forall k k', In k ks -> In k' ks -> same_key k k' ->
     hash_stream (n_yaml k) = hash_stream (n_yaml k')).

(** The pairs that no later pair overrides, in order. *)
Inductive kept : list (node * node) -> list (node * node) -> Prop :=
| KeptNil : kept [] []
| KeptLater k v l m :
    (exists kv, In kv l /\ same_key k (fst kv)) -> kept l m -> kept ((k, v) :: l) m
| KeptLast k v l m :
    (forall kv, In kv l -> ~ same_key k (fst kv)) -> kept l m ->
    kept ((k, v) :: l) ((k, v) :: m).

Section MapFacts.
  Variable hk : hasher.
  Variable K : node -> Prop.
  Hypothesis Kread : forall k, K k -> readable (n_yaml k).
  Hypothesis Klaw : forall k k', K k -> K k' -> same_key k k' ->
    hash_stream (n_yaml k) = hash_stream (n_yaml k').

  Lemma key_match_spec k k' : K k -> K k' ->
    exists r, key_match hk k k' = Some r /\ (r = true <-> same_key k k').
  Proof.
    intros H H'. unfold key_match.
    destruct (eq_decides _ (Kread _ H) _ (Kread _ H')) as (r & Hr & Hs).
    destruct (N.eqb_spec (hk (hash_stream (n_yaml k))) (hk (hash_stream (n_yaml k')))) as [E|E].
    - exists r. split; [exact Hr|exact Hs].
    - exists false. split; [reflexivity|]. split; [discriminate|].
      intros S. exfalso. apply E. f_equal. now apply Klaw.
  Qed.

  Definition Kall (m : list (node * node)) := forall kv, In kv m -> K (fst kv).

  Definition distinct (m : list (node * node)) :=
    ForallOrdPairs (fun a b => ~ same_key (fst a) (fst b)) m.

  Lemma Kall_cons kv m : Kall (kv :: m) -> K (fst kv) /\ Kall m.
  Proof. intros H; split; [apply H; now left|intros x Hx; apply H; now right]. Qed.

  Lemma map_take_spec k m : K k -> Kall m -> distinct m ->
    (map_take hk k m = Some (None, m) /\ forall kv, In kv m -> ~ same_key k (fst kv)) \/
    (exists m1 k' v m2, m = m1 ++ (k', v) :: m2 /\ same_key k k'
       /\ map_take hk k m = Some (Some k', m1 ++ m2)
       /\ forall kv, In kv (m1 ++ m2) -> ~ same_key k (fst kv)).
  Proof.
    intros Hk. induction m as [|[k1 v1] m IH]; intros HK HD.
    - left. split; [reflexivity|intros ? []].
    - apply Kall_cons in HK as [Hk1 HK]. inversion HD as [|? ? HF HD']; subst.
      cbn [map_take]. destruct (key_match_spec k k1 Hk Hk1) as (r & -> & Hr). destruct r.
      + right. exists [], k1, v1, m. repeat split; [now apply Hr|].
        intros kv Hin S. rewrite Forall_forall in HF. apply (HF kv Hin). cbn [fst].
        eapply same_trans; [apply same_sym; now apply Hr|exact S].
      + assert (Hn : ~ same_key k k1) by (intros S; apply Hr in S; discriminate).
        destruct (IH HK HD') as [(Ht & Hno)|(m1 & k' & v & m2 & -> & S & Ht & Hno)].
        * left. rewrite Ht. split; [reflexivity|]. intros kv [<-|Hin]; [exact Hn|auto].
        * right. exists ((k1, v1) :: m1), k', v, m2. rewrite Ht. repeat split; auto.
          intros kv [<-|Hin]; [exact Hn|auto].
  Qed.

  Lemma map_get_spec k m : K k -> Kall m ->
    (map_get hk k m = Some None /\ forall kv, In kv m -> ~ same_key k (fst kv)) \/
    (exists m1 k' v m2, m = m1 ++ (k', v) :: m2 /\ same_key k k'
       /\ map_get hk k m = Some (Some v)
       /\ forall kv, In kv m1 -> ~ same_key k (fst kv)).
  Proof.
    intros Hk. induction m as [|[k1 v1] m IH]; intros HK.
    - left. split; [reflexivity|intros ? []].
    - apply Kall_cons in HK as [Hk1 HK].
      cbn [map_get]. destruct (key_match_spec k k1 Hk Hk1) as (r & -> & Hr). destruct r.
      + right. exists [], k1, v1, m. repeat split; [now apply Hr|intros ? []].
      + assert (Hn : ~ same_key k k1) by (intros S; apply Hr in S; discriminate).
        destruct (IH HK) as [(Ht & Hno)|(m1 & k' & v & m2 & -> & S & Ht & Hno)].
        * left. rewrite Ht. split; [reflexivity|]. intros kv [<-|Hin]; [exact Hn|auto].
        * right. exists ((k1, v1) :: m1), k', v, m2. rewrite Ht. repeat split; auto.
          intros kv [<-|Hin]; [exact Hn|auto].
  Qed.

  (** entries equal up to the spelling/position of the key *)
  Definition ent_like (a b : node * node) : Prop := same_key (fst a) (fst b) /\ snd a = snd b.

  Lemma distinct_remove m1 x m2 : distinct (m1 ++ x :: m2) -> distinct (m1 ++ m2).
  Proof.
    induction m1 as [|y m1 IH]; simpl; intros H; inversion H as [|? ? F D]; subst; [assumption|].
    constructor; [|apply IH; exact D]. rewrite Forall_forall in *. intros z Hz. apply F.
    apply in_app_or in Hz. apply in_or_app. simpl. tauto.
  Qed.
  Lemma distinct_snoc m x : distinct m -> (forall y, In y m -> ~ same_key (fst x) (fst y)) ->
    distinct (m ++ [x]).
  Proof.
    induction m as [|y m IH]; simpl; intros D H.
    - constructor; constructor.
    - inversion D; subst. constructor.
      + rewrite Forall_forall in *. intros z Hz. apply in_app_or in Hz as [Hz|[<-|[]]]; [auto|].
        intros S. apply (H y); [now left|]. now apply same_sym.
      + apply IH; auto.
  Qed.

  Lemma kept_in l m : kept l m -> forall x, In x m -> In x l.
  Proof. induction 1; simpl; intros x Hx; [tauto|right; auto|destruct Hx; [now left|right; auto]]. Qed.

  Lemma kept_has l m : kept l m -> (forall kv, In kv l -> readable (n_yaml (fst kv))) ->
    forall kv, In kv l -> exists kv', In kv' m /\ same_key (fst kv) (fst kv').
  Proof.
    induction 1 as [|k v l m (kv0 & Hin0 & S0) HK IH|k v l m Hno HK IH]; intros R kv Hin.
    - destruct Hin.
    - destruct Hin as [<-|Hin].
      + destruct (IH (fun x Hx => R x (or_intror Hx)) _ Hin0) as (kv' & H' & S').
        exists kv'. split; [assumption|]. eapply same_trans; eassumption.
      + apply IH; auto. intros x Hx. apply R. now right.
    - destruct Hin as [<-|Hin].
      + exists (k, v). split; [now left|]. apply same_refl. apply (R (k, v)). now left.
      + destruct (IH (fun x Hx => R x (or_intror Hx)) _ Hin) as (kv' & H' & S').
        exists kv'. split; [now right|assumption].
  Qed.

  Lemma kept_snoc_new l m k v : kept l m -> (forall kv, In kv l -> ~ same_key k (fst kv)) ->
    kept (l ++ [(k, v)]) (m ++ [(k, v)]).
  Proof.
    induction 1 as [|k1 v1 l m (kv0 & Hin0 & S0) HK IH|k1 v1 l m Hno HK IH]; intros R; simpl.
    - apply KeptLast; [intros ? []|constructor].
    - apply KeptLater; [exists kv0; split; [apply in_or_app; now left|assumption]|].
      apply IH. intros x Hx. apply R. now right.
    - apply KeptLast.
      + intros kv Hkv. apply in_app_or in Hkv as [Hkv|[<-|[]]]; [now apply Hno|].
        cbn [fst]. intros S. apply (R (k1, v1)); [now left|]. now apply same_sym.
      + apply IH. intros x Hx. apply R. now right.
  Qed.

  Lemma kept_snoc_old l m m1 k' v' m2 k v : kept l m ->
    m = m1 ++ (k', v') :: m2 -> same_key k k' ->
    (forall kv, In kv (m1 ++ m2) -> ~ same_key k (fst kv)) ->
    kept (l ++ [(k, v)]) (m1 ++ m2 ++ [(k, v)]).
  Proof.
    intros HK. revert m1. induction HK as [|k1 v1 l m (kv0 & Hin0 & S0) HK IH|k1 v1 l m Hno HK IH];
      intros m1 E S Hd.
    - destruct m1; discriminate.
    - simpl. apply KeptLater; [exists kv0; split; [apply in_or_app; now left|assumption]|]. auto.
    - destruct m1 as [|x m1].
      + injection E as -> -> ->. cbn [app]. simpl. apply KeptLater.
        * exists (k, v). split; [apply in_or_app; right; now left|]. cbn [fst]. now apply same_sym.
        * apply kept_snoc_new; [assumption|].
          intros kv Hkv S'. apply (Hno kv Hkv). eapply same_trans; [apply same_sym; exact S|exact S'].
      + injection E as <- E. cbn [app]. apply KeptLast.
        * intros kv Hkv. apply in_app_or in Hkv as [Hkv|[<-|[]]]; [now apply Hno|].
          cbn [fst]. intros S'. apply (Hd (k1, v1)); [simpl; now left|]. now apply same_sym.
        * apply IH; auto. intros kv Hkv. apply Hd. simpl. now right.
  Qed.

  Lemma Forall2_ent_snoc m m0 x y : Forall2 ent_like m m0 -> ent_like x y ->
    Forall2 ent_like (m ++ [x]) (m0 ++ [y]).
  Proof. intros H1 H2. apply Forall2_app; [assumption|]. constructor; [assumption|constructor]. Qed.

  Lemma collect_spec l : Kall l ->
    exists m m0, map_collect hk l = Some m /\ Kall m /\ distinct m /\ kept l m0 /\ Forall2 ent_like m m0.
  Proof.
    unfold map_collect.
    assert (G : forall l2 l1 m m0, Kall (l1 ++ l2) -> Kall m -> distinct m -> kept l1 m0 ->
              Forall2 ent_like m m0 ->
              exists m' m0', map_extend hk m l2 = Some m' /\ Kall m' /\ distinct m'
                /\ kept (l1 ++ l2) m0' /\ Forall2 ent_like m' m0').
    { induction l2 as [|[k v] l2 IH]; intros l1 m m0 HK HKm HD Hkept HF.
      - exists m, m0. rewrite app_nil_r. repeat split; assumption.
      - assert (Hk : K k) by (apply (HK (k, v)); apply in_or_app; right; now left).
        assert (HK1 : Kall l1) by (intros x Hx; apply HK; apply in_or_app; now left).
        cbn [map_extend]. unfold map_insert.
        replace (l1 ++ (k, v) :: l2) with ((l1 ++ [(k, v)]) ++ l2)
          by (rewrite <- app_assoc; reflexivity).
        destruct (map_take_spec k m Hk HKm HD) as [(Ht & Hno)|(m1 & k' & v' & m2 & Em & S & Ht & Hno)];
          rewrite Ht.
        + apply (IH (l1 ++ [(k, v)]) (m ++ [(k, v)]) (m0 ++ [(k, v)])).
          * rewrite <- app_assoc. exact HK.
          * intros x Hx. apply in_app_or in Hx as [Hx|[<-|[]]]; [now apply HKm|exact Hk].
          * apply distinct_snoc; assumption.
          * apply kept_snoc_new; [assumption|]. intros kv Hkv S.
            destruct (kept_has _ _ Hkept (fun x Hx => Kread _ (HK1 x Hx)) kv Hkv) as (kv' & Hin & S').
            assert (Ex : exists a, In a m /\ same_key (fst a) (fst kv')).
            { clear - HF Hin. induction HF as [|a b ? ? [Ek _] ? IH]; [destruct Hin|].
              destruct Hin as [<-|Hin]; [exists a; split; [now left|assumption]|].
              destruct (IH Hin) as (z & Hz & Sz). exists z. split; [now right|assumption]. }
            destruct Ex as (a & Ha & Sa). apply (Hno a Ha).
            eapply same_trans; [exact S|]. eapply same_trans; [exact S'|]. now apply same_sym.
          * apply Forall2_ent_snoc; [assumption|]. split; [apply same_refl, Kread, Hk|reflexivity].
        + subst m. apply Forall2_app_inv_l in HF as (n1 & n2' & F1 & F2 & ->).
          inversion F2 as [|? [k0 v0] ? n2 [Sk Ev] F2' Ea Eb]; subst. cbn [fst snd] in *. subst v0.
          assert (Hk' : K k') by (apply (HKm (k', v')); apply in_or_app; right; now left).
          apply (IH (l1 ++ [(k, v)]) ((m1 ++ m2) ++ [(k', v)]) (n1 ++ n2 ++ [(k, v)])).
          * rewrite <- app_assoc. exact HK.
          * intros x Hx. apply in_app_or in Hx as [Hx|[<-|[]]].
            -- apply HKm. apply in_app_or in Hx. apply in_or_app. simpl. tauto.
            -- exact Hk'.
          * apply distinct_snoc; [eapply distinct_remove; eassumption|].
            intros y Hy S'. apply (Hno y Hy). cbn [fst] in S'. eapply same_trans; eassumption.
          * eapply kept_snoc_old; [exact Hkept|reflexivity|eapply same_trans; eassumption|].
            intros kv Hkv S'.
            assert (Ex : exists a, In a (m1 ++ m2) /\ same_key (fst a) (fst kv)).
            { pose proof (Forall2_app F1 F2') as FF. clear - FF Hkv.
              induction FF as [|a b ? ? [Ek _] ? IH]; [destruct Hkv|].
              destruct Hkv as [<-|Hkv]; [exists a; split; [now left|assumption]|].
              destruct (IH Hkv) as (z & Hz & Sz). exists z. split; [now right|assumption]. }
            destruct Ex as (a & Ha & Sa). apply (Hno a Ha).
            eapply same_trans; [exact S'|]. now apply same_sym.
          * rewrite app_assoc. apply Forall2_ent_snoc; [now apply Forall2_app|].
            split; [now apply same_sym|reflexivity]. }
    intros HK. destruct (G l [] [] [] HK) as (m & m0 & H); [intros ? []|constructor|constructor|constructor|].
    exists m, m0. exact H.
  Qed.
End MapFacts.

Lemma kept_split l m0 : kept l m0 -> forall k v, In (k, v) m0 ->
  exists l1 l2, l = l1 ++ (k, v) :: l2 /\ forall kv, In kv l2 -> ~ same_key k (fst kv).
Proof.
  induction 1 as [|k1 v1 l m (kv0 & Hin0 & S0) HK IH|k1 v1 l m Hno HK IH]; intros k v Hin.
  - destruct Hin.
  - destruct (IH k v Hin) as (l1 & l2 & -> & H). exists ((k1, v1) :: l1), l2. auto.
  - destruct Hin as [[= <- <-]|Hin].
    + exists [], l. auto.
    + destruct (IH k v Hin) as (l1 & l2 & -> & H). exists ((k1, v1) :: l1), l2. auto.
Qed.

Lemma last_unique (k : node) : forall (l : list (node * node)) l1 k1 v1 l2 l1' k1' v1' l2',
  l = l1 ++ (k1, v1) :: l2 -> same_key k k1 -> (forall kv, In kv l2 -> ~ same_key k (fst kv)) ->
  l = l1' ++ (k1', v1') :: l2' -> same_key k k1' -> (forall kv, In kv l2' -> ~ same_key k (fst kv)) ->
  v1 = v1'.
Proof.
  induction l as [|x l IH]; intros l1 k1 v1 l2 l1' k1' v1' l2' E S N E' S' N'.
  - destruct l1; discriminate.
  - destruct l1 as [|y l1], l1' as [|y' l1']; cbn [app] in *.
    + injection E as -> <-. injection E' as <- <- <-. reflexivity.
    + injection E as -> <-. injection E' as <- ->.
      exfalso. apply (N (k1', v1')); [apply in_or_app; right; now left|assumption].
    + injection E as -> ->. injection E' as -> E'.
      exfalso. apply (N' (k1, v1)); [rewrite <- E'; apply in_or_app; right; now left|assumption].
    + injection E as -> E. injection E' as -> E'.
      eapply IH; eassumption.
Qed.

(** C30: building a map from pairs never fails on lawful keys, whatever the
    hasher; no key occurs twice; the entries are the pairs not overridden by a
    later one, in order; looking up a key gives the value of its last
    occurrence. *)
Theorem C30_collect_last_wins : forall (hk : hasher) (l : list (node * node)),
  lawful_keys (List.map fst l) ->
  exists m, map_collect hk l = Some m
    /\ ForallOrdPairs (fun a b => ~ same_key (fst a) (fst b)) m
    /\ (exists m0, kept l m0 /\
          Forall2 (fun a b => same_key (fst a) (fst b) /\ snd a = snd b) m m0)
    /\ (forall k, lawful_keys (k :: List.map fst l) ->
          (forall v, map_get hk k m = Some (Some v) <->
             exists l1 k' l2, l = l1 ++ (k', v) :: l2 /\ same_key k k'
               /\ forall kv, In kv l2 -> ~ same_key k (fst kv))
          /\ (map_get hk k m = Some None <-> forall kv, In kv l -> ~ same_key k (fst kv))).
Proof.
  intros hk l [HR HL].
  destruct (collect_spec hk (fun k => In k (List.map fst l)) HR HL l) as
    (m & m0 & Hc & HKm & HD & Hk & HF).
  { intros kv Hkv. apply in_map. exact Hkv. }
  exists m. split; [exact Hc|]. split; [exact HD|]. split; [exists m0; split; assumption|].
  intros k [HR' HL'].
  assert (HKm' : Kall (fun x => In x (k :: List.map fst l)) m).
  { intros kv Hkv. right. now apply HKm. }
  assert (Hlast : forall v, map_get hk k m = Some (Some v) ->
             exists l1 k' l2, l = l1 ++ (k', v) :: l2 /\ same_key k k'
               /\ forall kv, In kv l2 -> ~ same_key k (fst kv)).
  { intros v Hv.
    destruct (map_get_spec hk _ HR' HL' k m (or_introl eq_refl) HKm')
      as [(Hg & _)|(m1 & k' & v' & m2 & -> & S & Hg & _)]; rewrite Hg in Hv; [discriminate|].
    injection Hv as ->.
    apply Forall2_app_inv_l in HF as (n1 & n2' & F1 & F2 & ->).
    inversion F2 as [|? [k0 v0] ? n2 [Sk Ev] F2' Ea Eb]; subst. cbn [fst snd] in *. subst v0.
    destruct (kept_split _ _ Hk k0 v) as (l1 & l2 & El & Hno); [apply in_or_app; right; now left|].
    exists l1, k0, l2. split; [exact El|]. assert (S' : same_key k k0) by (eapply same_trans; eassumption).
    split; [exact S'|]. intros kv Hkv S2. apply (Hno kv Hkv).
    eapply same_trans; [apply same_sym; exact S'|exact S2]. }
  assert (Hnone : map_get hk k m = Some None -> forall kv, In kv l -> ~ same_key k (fst kv)).
  { intros Hv kv Hkv S.
    destruct (map_get_spec hk _ HR' HL' k m (or_introl eq_refl) HKm')
      as [(_ & Hno)|(m1 & k' & v' & m2 & -> & _ & Hg & _)]; [|congruence].
    destruct (kept_has _ _ Hk (fun x Hx => HR _ (in_map fst _ _ Hx)) kv Hkv) as (kv' & Hin & S').
    assert (Ex : exists a, In a m /\ same_key (fst a) (fst kv')).
    { clear - HF Hin. induction HF as [|a b ? ? [Ek _] ? IH]; [destruct Hin|].
      destruct Hin as [<-|Hin]; [exists a; split; [now left|assumption]|].
      destruct (IH Hin) as (z & Hz & Sz). exists z. split; [now right|assumption]. }
    destruct Ex as (a & Ha & Sa). apply (Hno a Ha).
    eapply same_trans; [exact S|]. eapply same_trans; [exact S'|]. now apply same_sym. }
  assert (Htot : map_get hk k m = Some None \/ exists v, map_get hk k m = Some (Some v)).
  { destruct (map_get_spec hk _ HR' HL' k m (or_introl eq_refl) HKm')
      as [(Hg & _)|(m1 & k' & v' & m2 & -> & _ & Hg & _)]; [now left|right; eauto]. }
  split.
  - intros v. split; [apply Hlast|]. intros (l1 & k' & l2 & El & S & Hno).
    destruct Htot as [H0|[v' Hv']].
    + exfalso. apply (Hnone H0 (k', v)); [subst l; apply in_or_app; right; now left|exact S].
    + destruct (Hlast v' Hv') as (l1' & k1' & l2' & El' & S' & Hno').
      rewrite Hv'. f_equal. f_equal. symmetry.
      exact (last_unique k l l1 k' v l2 l1' k1' v' l2' El S Hno El' S' Hno').
  - split; [apply Hnone|]. intros Hno. destruct Htot as [H0|[v' Hv']]; [exact H0|].
    destruct (Hlast v' Hv') as (l1' & k1' & l2' & El' & S' & _).
    exfalso. apply (Hno (k1', v')); [subst l; apply in_or_app; right; now left|exact S'].
Qed.

Lemma kept_distinct l : ForallOrdPairs (fun a b : node * node => ~ same_key (fst a) (fst b)) l ->
  forall m, kept l m -> m = l.
Proof.
  induction 1 as [|x l HF HD IH]; intros m Hk; inversion Hk; subst; [reflexivity| |].
  - destruct H1 as (kv & Hin & S). rewrite Forall_forall in HF. exfalso. exact (HF kv Hin S).
  - f_equal. now apply IH.
Qed.

(** Pairs with pairwise different keys are kept as they are (values exactly,
    keys up to equality), in order. *)
Theorem C30_distinct_keys_keep_order : forall (hk : hasher) (l : list (node * node)),
  lawful_keys (List.map fst l) ->
  ForallOrdPairs (fun a b => ~ same_key (fst a) (fst b)) l ->
  map_collect hk l = Some l.
Proof.
  intros hk l [HR HL] HD. unfold map_collect.
  assert (G : forall l2 l1, l = l1 ++ l2 -> map_extend hk l1 l2 = Some (l1 ++ l2)).
  { induction l2 as [|[k v] l2 IH]; intros l1 E; cbn [map_extend]; [now rewrite app_nil_r|].
    assert (HD1 : distinct l1 /\ forall y, In y l1 -> ~ same_key k (fst y)).
    { subst l. clear - HD. induction l1 as [|x l1 IH1]; [split; [constructor|intros ? []]|].
      simpl in HD. inversion HD as [|? ? F HD']; subst. destruct (IH1 HD') as [D1 D2].
      rewrite Forall_forall in F. split.
      - constructor; [|assumption]. apply Forall_forall. intros z Hz. apply F. apply in_or_app; now left.
      - intros y [<-|Hy]; [|auto]. intros S. apply (F (k, v)); [apply in_or_app; right; now left|].
        now apply same_sym. }
    destruct HD1 as [D1 Hno].
    unfold map_insert.
    destruct (map_take_spec hk _ HR HL k l1) as [(Ht & _)|(m1 & k' & v' & m2 & Em & S & _ & _)].
    - subst l. rewrite map_app. apply in_or_app. right. now left.
    - intros x Hx. apply in_map. subst l. apply in_or_app. now left.
    - exact D1.
    - rewrite Ht. rewrite (IH (l1 ++ [(k, v)])) by (subst l; rewrite <- app_assoc; reflexivity).
      now rewrite <- app_assoc.
    - exfalso. apply (Hno (k', v')); [subst l1; apply in_or_app; right; now left|exact S]. }
  exact (G l [] eq_refl).
Qed.

Theorem C30_plain_keys_lawful : forall ks,
  (forall k, In k ks -> plain_ints (n_yaml k)) -> lawful_keys ks.
Proof.
  intros ks H. split.
  - intros k Hk. now apply plain_ints_readable, H.
  - intros k k' Hk Hk' S. apply C29_hash_same_spelling, plain_same_spelled; auto.
Qed.

(** In general the uniqueness of keys fails, because hashing is not lawful: with
    a hasher that tells them apart, 16 and 0x10 are both kept. *)
Theorem C30_unique_keys_refuted : exists hk l m,
  (forall k, In k (List.map fst l) -> readable (n_yaml k))
  /\ map_collect hk l = Some m
  /\ ~ ForallOrdPairs (fun a b => ~ same_key (fst a) (fst b)) m.
Proof.
  exists (fun s => N.of_nat (List.length s)),
    [(node_from (YInt (lit "16")), node_from YNull); (node_from (YInt (lit "0x10")), node_from YNull)].
  eexists. split; [|split; [vm_compute; reflexivity|]].
  - intros k [<-|[<-|[]]]; eapply ReadInt; vm_compute; reflexivity.
  - intros H. inversion H as [|? ? F _]; subst. inversion F as [|? ? S _]; subst. apply S.
    eapply SameInt; vm_compute; reflexivity.
Qed.

Example C30_witness :
  let a := node_from (YStr (lit "a")) in let b := node_from (YInt (lit "7")) in
  let v i := node_from (YStr [i]) in
  lawful_keys (List.map fst [(a, v 1); (b, v 2); (a, v 3)])
  /\ map_collect (fun _ => 0) [(a, v 1); (b, v 2); (a, v 3)] = Some [(b, v 2); (a, v 3)].
Proof.
  cbv zeta. split; [|vm_compute; reflexivity].
  apply C30_plain_keys_lawful. intros k [<-|[<-|[<-|[]]]]; cbn [n_yaml node_from fst];
    try constructor. exact (PiInt 7%Z eq_refl).
Qed.

(** ** Inserting a new key *)
Lemma insert_fresh hk k v m : readable (n_yaml k) -> (forall kv, In kv m -> readable (n_yaml (fst kv)) /\ ~ same (n_yaml k) (n_yaml (fst kv))) ->
  map_insert hk k v m = Some (m ++ [(k, v)]).
Proof.
  intros Rk H. unfold map_insert. assert (T : map_take hk k m = Some (None, m)).
  { induction m as [|[k1 v1] m IH]; [reflexivity|]. cbn [map_take]. destruct (H (k1, v1) (or_introl eq_refl)) as [R1 N1]. cbn [fst] in *.
    assert (KM : key_match hk k k1 = Some false).
    { unfold key_match. destruct (N.eqb _ _); [|reflexivity]. unfold node_eq. destruct (eq_decides _ Rk _ R1) as (r & -> & Hr).
      destruct r; [|reflexivity]. exfalso. now apply N1, Hr. }
    rewrite KM, IH by (intros kv Hkv; apply H; now right). reflexivity. }
  now rewrite T.
Qed.
