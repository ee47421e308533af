(** * C36 (witness and limits), C38, C39: serde *)
From Verif Require Import PropFloat3.
From Verif Require Export PropSerde.
Open Scope N_scope.

(** ** C36: there is such a formatter, and such values *)
Lemma exact_reads_back : reads_back show_exact.
Proof. exact C09_exact_text. Qed.

Definition point : ty :=
  TStruct [(lit "name", TString); (lit "at", TTuple [TInt true 8; TF64]);
           (lit "extra", TOption (TMap (TInt false 16) (TSeq TBool)));
           (lit "kind", TEnum [(lit "Plain", UnitV); (lit "Tagged", NewtypeV TChar);
                               (lit "Deep", StructV [(lit "bytes", TBytes)])])].
Definition a_point : val :=
  VList [VStr (lit "true"); VList [VInt (-128); VFloat (FFin true (3 * 2 ^ 51) (-52))];
         VSome (VMap [(VInt 65535, VList [VBool true; VBool false]); (VInt 0, VList [])]);
         VEnum (lit "Deep") (VList [VBytes [0; 255]])].

Example C36_witness : has point a_point
  /\ exists n, to_node show_exact (fun _ => 0) point a_point = DOk n
    /\ (exists m, n_yaml n = YMap m /\ List.length m = 4%nat) /\ de show_exact (fun _ => 0) point n = DOk a_point.
Proof.
  assert (H : has point a_point).
  { apply HasStruct.
    - repeat constructor; cbn; intuition discriminate.
    - repeat constructor; cbn; try discriminate; try (unfold fits; lia).
      + exists (lit "-1.5"). vm_compute. reflexivity.
      + intuition discriminate.
      + eapply (HasEnum _ (lit "Deep") (StructV [(lit "bytes", TBytes)])); [reflexivity|].
        apply PayStruct; repeat constructor; cbn; intuition discriminate. }
  split; [exact H|]. destruct (C36_round_trip show_exact (fun _ => 0) exact_reads_back _ _ H) as (n & S & D).
  exists n. split; [exact S|]. split; [|exact D]. vm_compute in S. injection S as <-. eexists. vm_compute. split; reflexivity.
Qed.

(** Outside the class: an integer above [i64::MAX] panics when it is read back, a
    non-ASCII character is refused, nested options and an option of unit collapse,
    an out-of-range number is silently wrapped, extra tuple elements are ignored. *)
Theorem C36_limits_refuted : forall hk,
  let rt t v := match to_node show_exact hk t v with DOk n => de show_exact hk t n | DErr p => DErr p | DPanic => DPanic end in
  rt (TInt false 64) (VInt 9223372036854775808) = DPanic
  /\ rt TChar (VChar 233) = DErr 0
  /\ rt (TOption (TOption TBool)) (VSome VNone) = DOk VNone
  /\ rt (TOption TUnit) (VSome VUnit) = DOk VNone
  /\ de show_exact hk (TInt false 8) (node_from (YInt (lit "300"))) = DOk (VInt 44)
  /\ de show_exact hk (TTuple [TBool]) (node_from (YSeq [node_from (YBool true); node_from YNull])) = DOk (VList [VBool true]).
Proof. intros hk. cbv zeta. repeat split; vm_compute; reflexivity. Qed.

(** ** C38 *)

(** Nodes with readable numbers, no alias, and maps with pairwise different keys. *)
Inductive plain_data : yaml -> Prop :=
| PdNull : plain_data YNull
| PdBool b : plain_data (YBool b)
| PdInt s z : to_i64 s = Some z -> plain_data (YInt s)
| PdFloat s x : to_f64 s = Some x -> plain_data (YFloat s)
| PdStr s : plain_data (YStr s)
| PdSeq l : Forall (fun n => plain_data (n_yaml n)) l -> plain_data (YSeq l)
| PdMap m : Forall (fun kv => plain_data (n_yaml (fst kv)) /\ plain_data (n_yaml (snd kv))) m ->
    ForallOrdPairs (fun a b => ~ same (n_yaml (fst a)) (n_yaml (fst b))) m -> plain_data (YMap m).

(** No position and no tag, anywhere inside. *)
Inductive bare : node -> Prop :=
| BareLeaf y : (match y with YSeq _ | YMap _ => False | _ => True end) -> bare (Node 0 [] y)
| BareSeq l : Forall bare l -> bare (Node 0 [] (YSeq l))
| BareMap m : Forall (fun kv => bare (fst kv) /\ bare (snd kv)) m -> bare (Node 0 [] (YMap m)).

(** The position of the first alias, in document order. *)
Fixpoint first_alias (p : N) (y : yaml) : option N :=
  match y with
  | YAlias _ => Some p
  | YSeq l =>
    (fix go (l : list node) : option N :=
       match l with
       | [] => None
       | Node p' _ y' :: r => match first_alias p' y' with Some q => Some q | None => go r end
       end) l
  | YMap m =>
    (fix go (m : list (node * node)) : option N :=
       match m with
       | [] => None
       | (Node p1 _ y1, Node p2 _ y2) :: r =>
         match first_alias p1 y1 with
         | Some q => Some q
         | None => match first_alias p2 y2 with Some q => Some q | None => go r end
         end
       end) m
  | _ => None
  end.

Lemma to_i64_range s z : to_i64 s = Some z -> in_i64 z = true.
Proof.
  assert (G : forall r s, from_str_radix r s = Some z -> in_i64 z = true).
  { intros r t. unfold from_str_radix. cbv zeta. destruct (match t with [] => _ | _ => _ end) as [w|]; [|discriminate].
    destruct (in_i64 w) eqn:E; [|discriminate]. intros [= <-]. exact E. }
  unfold to_i64. repeat (destruct (contains _ _)); apply G.
Qed.

Section Nodes.
  Variables (show_f : f64 -> str) (hk : hasher).
  Hypothesis Hf : reads_back show_f.

  (** the loops *)
  Definition ser_seq : list node -> dres (list node) :=
      fix go (l : list node) : dres (list node) :=
         match l with
         | [] => DOk []
         | Node _ _ y' :: r =>
           let! x := ser_yaml show_f hk y' in
           let! xs := go r in
           DOk (x :: xs)
         end.
  Definition de_seq : list node -> dres (list node) :=
      fix go (l : list node) : dres (list node) :=
         match l with
         | [] => DOk []
         | Node p' _ y' :: r =>
           let! x := de_yaml show_f hk p' y' in
           let! xs := go r in
           DOk (x :: xs)
         end.
  Definition ser_mp : list (node * node) -> list (node * node) -> dres (list (node * node)) :=
      fix go (m : list (node * node)) (acc : list (node * node)) : dres (list (node * node)) :=
         match m with
         | [] => DOk acc
         | (Node _ _ y1, Node _ _ y2) :: r =>
           let! k := ser_yaml show_f hk y1 in
           let! v := ser_yaml show_f hk y2 in
           let! acc' := of_mp (map_insert hk k v acc) in
           go r acc'
         end.
  Definition de_mp : list (node * node) -> list (node * node) -> dres (list (node * node)) :=
      fix go (m : list (node * node)) (acc : list (node * node)) : dres (list (node * node)) :=
         match m with
         | [] => DOk acc
         | (Node p1 _ y1, Node p2 _ y2) :: r =>
           let! k := de_yaml show_f hk p1 y1 in
           let! v := de_yaml show_f hk p2 y2 in
           match map_insert hk k v acc with
           | None => DPanic
           | Some acc' => go r acc'
           end
         end.
  Definition fa_seq : list node -> option N :=
    fix go (l : list node) : option N :=
       match l with
       | [] => None
       | Node p' _ y' :: r => match first_alias p' y' with Some q => Some q | None => go r end
       end.
  Definition fa_mp : list (node * node) -> option N :=
    fix go (m : list (node * node)) : option N :=
       match m with
       | [] => None
       | (Node p1 _ y1, Node p2 _ y2) :: r =>
         match first_alias p1 y1 with
         | Some q => Some q
         | None => match first_alias p2 y2 with Some q => Some q | None => go r end
         end
       end.

  (** comparing readable keys does not panic *)
  Lemma key_match_total k k' : readable (n_yaml k) -> readable (n_yaml k') -> exists b, key_match hk k k' = Some b.
  Proof.
    intros R R'. unfold key_match. destruct (N.eqb _ _); [|eauto]. unfold node_eq. destruct (eq_decides _ R _ R') as (r & -> & _). eauto.
  Qed.
  Definition rkeys (m : list (node * node)) := Forall (fun kv => readable (n_yaml (fst kv)) /\ readable (n_yaml (snd kv))) m.
  Lemma take_total k m : readable (n_yaml k) -> rkeys m ->
    exists o r, map_take hk k m = Some (o, r) /\ rkeys r /\ match o with Some k' => readable (n_yaml k') | None => True end.
  Proof.
    intros Rk H. induction H as [|[k1 v1] m [R1 R2] H IH]; [exists None, []; repeat split; constructor|].
    cbn [map_take fst snd] in *. destruct (key_match_total k k1 Rk R1) as [b ->]. destruct b.
    - exists (Some k1), m. auto.
    - destruct IH as (o & r & -> & Hr & Ho). exists o, ((k1, v1) :: r). repeat split; [|exact Ho]. constructor; auto.
  Qed.
  Lemma insert_total k v m : readable (n_yaml k) -> readable (n_yaml v) -> rkeys m -> exists m', map_insert hk k v m = Some m' /\ rkeys m'.
  Proof.
    intros Rk Rv H. unfold map_insert. destruct (take_total k m Rk H) as (o & r & -> & Hr & Ho).
    destruct o as [k'|]; eexists; (split; [reflexivity|]); apply Forall_app; (split; [exact Hr|]); repeat constructor; assumption.
  Qed.
  Lemma extend_total l : rkeys l -> forall m, rkeys m -> exists m', map_extend hk m l = Some m' /\ rkeys m'.
  Proof.
    induction 1 as [|[k v] l [Rk Rv] H IH]; intros m Hm; [exists m; auto|]. cbn [map_extend fst snd] in *.
    destruct (insert_total k v m Rk Rv Hm) as (m1 & -> & H1). apply IH, H1.
  Qed.

  Lemma same_readable : forall a b, same a b -> readable b.
  Proof.
    induction a as [| b0 | s | s | s | l IH | m IH | al] using yaml_ind2; intros b S;
      inversion S as [| |? ? ? E1 E2|? ? ? ? E1 E2 E3| |? ? F|? ? F|]; subst; try (constructor; fail); try (econstructor; eassumption).
    - constructor. clear S. revert IH. induction F as [|x y l l' Sx F IHF]; intros IH; inversion IH; subst; constructor; auto.
    - constructor. clear S. revert IH. induction F as [|x y l l' [Sx Sy] F IHF]; intros IH; inversion IH as [|? ? [? ?] ?]; subst; constructor; auto.
  Qed.

  (** what an alias does *)
  Definition Alias (y : yaml) : Prop := readable y -> forall p,
    match first_alias p y with
    | Some q => ser_yaml show_f hk y = DErr 0 /\ de_yaml show_f hk p y = DErr q
    | None => exists n n', ser_yaml show_f hk y = DOk n /\ de_yaml show_f hk p y = DOk n' /\ readable (n_yaml n) /\ readable (n_yaml n')
    end.

  Lemma alias_all : forall y, Alias y.
  Proof.
    induction y as [| b0 | s | s | s | l IH | m IH | al] using yaml_ind2; intros R p.
    - do 2 eexists. repeat split; constructor.
    - do 2 eexists. repeat split; constructor.
    - inversion R as [| |? z Hz | | | | |]; subst. cbn [first_alias ser_yaml de_yaml]. rewrite Hz. do 2 eexists. repeat split; cbn [n_yaml node_from]; (eapply ReadInt; apply to_i64_show; eapply to_i64_range; eassumption).
    - inversion R as [| | |? x Hx | | | |]; subst. cbn [first_alias ser_yaml de_yaml]. rewrite Hx. do 2 eexists. repeat split; cbn [n_yaml node_from]; (eapply ReadFloat; eapply Hf; eassumption).
    - do 2 eexists. repeat split; constructor.
    - inversion R as [| | | | |? Fl | |]; subst.
      change (first_alias p (YSeq l)) with (fa_seq l). change (ser_yaml show_f hk (YSeq l)) with (let! l' := ser_seq l in DOk (node_from (YSeq l'))).
      change (de_yaml show_f hk p (YSeq l)) with (let! l' := de_seq l in DOk (node_from (YSeq l'))).
      assert (G : match fa_seq l with
                  | Some q => ser_seq l = DErr 0 /\ de_seq l = DErr q
                  | None => exists n n', ser_seq l = DOk n /\ de_seq l = DOk n' /\ Forall (fun x => readable (n_yaml x)) n /\ Forall (fun x => readable (n_yaml x)) n'
                  end).
      { clear R. induction IH as [|[p' t' y'] l Hx IH IHl]; [do 2 eexists; repeat split; constructor|].
        inversion Fl as [|? ? F1 F2]; subst. specialize (Hx F1 p'). specialize (IHl F2). cbn [n_yaml] in Hx. cbn [fa_seq ser_seq de_seq].
        fold fa_seq ser_seq de_seq.
        destruct (first_alias p' y') as [q|]; [destruct Hx as [-> ->]; auto|]. destruct Hx as (n & n' & -> & -> & Rn & Rn'). cbn [dbind].
        destruct (fa_seq l) as [q|]; [destruct IHl as [-> ->]; auto|]. destruct IHl as (ns & ns' & -> & -> & Rs & Rs'). cbn [dbind].
        do 2 eexists. repeat split; constructor; assumption. }
      destruct (fa_seq l) as [q|]; [destruct G as [-> ->]; auto|]. destruct G as (n & n' & -> & -> & Rn & Rn'). cbn [dbind].
      do 2 eexists. repeat split; constructor; assumption.
    - inversion R as [| | | | | |? Fm |]; subst.
      change (first_alias p (YMap m)) with (fa_mp m). change (ser_yaml show_f hk (YMap m)) with (let! m' := ser_mp m [] in DOk (node_from (YMap m'))).
      change (de_yaml show_f hk p (YMap m)) with (let! m' := de_mp m [] in match map_collect hk m' with None => DPanic | Some m'' => DOk (node_from (YMap m'')) end).
      assert (G : forall acc acc', rkeys acc -> rkeys acc' -> match fa_mp m with
                  | Some q => ser_mp m acc = DErr 0 /\ de_mp m acc' = DErr q
                  | None => exists n n', ser_mp m acc = DOk n /\ de_mp m acc' = DOk n' /\ rkeys n /\ rkeys n'
                  end).
      { clear R. induction IH as [|[[p1 t1 y1] [p2 t2 y2]] m [H1 H2] IH IHm]; intros acc acc' Ra Ra'; [do 2 eexists; repeat split; assumption|].
        inversion Fm as [|? ? [F1 F1'] F2]; subst. cbn [fst snd n_yaml] in *. specialize (H1 F1 p1). specialize (H2 F1' p2). specialize (IHm F2).
        cbn [fa_mp ser_mp de_mp]. fold fa_mp ser_mp de_mp.
        destruct (first_alias p1 y1) as [q|]; [destruct H1 as [-> ->]; auto|]. destruct H1 as (k & k' & -> & -> & Rk & Rk'). cbn [dbind].
        destruct (first_alias p2 y2) as [q|]; [destruct H2 as [-> ->]; auto|]. destruct H2 as (v & v' & -> & -> & Rv & Rv'). cbn [dbind].
        destruct (insert_total k v acc Rk Rv Ra) as (a1 & -> & R1). destruct (insert_total k' v' acc' Rk' Rv' Ra') as (a2 & -> & R2). cbn [of_mp dbind].
        apply IHm; assumption. }
      specialize (G [] [] (Forall_nil _) (Forall_nil _)).
      destruct (fa_mp m) as [q|]; [destruct G as [-> ->]; auto|]. destruct G as (n & n' & -> & -> & Rn & Rn'). cbn [dbind].
      destruct (extend_total n' Rn' [] (Forall_nil _)) as (m'' & E & R''). unfold map_collect. rewrite E.
      do 2 eexists. repeat split; constructor; assumption.
    - cbn [first_alias ser_yaml de_yaml]. auto.
  Qed.

  (** nodes pass through *)
  Lemma plain_readable : forall y, plain_data y -> readable y.
  Proof.
    induction y as [| b0 | s | s | s | l IH | m IH | al] using yaml_ind2; intros D; inversion D as [| |? z Hz|? x Hx| |? Fl|? Fm Hd]; subst;
      try (constructor; fail); try (econstructor; eassumption).
    - constructor. clear D. induction IH as [|x l Hx IH IHl]; inversion Fl; subst; constructor; auto.
    - constructor. clear D Hd. induction IH as [|x m [Hx Hy] IH IHm]; inversion Fm as [|? ? [? ?] ?]; subst; constructor; auto.
  Qed.
  Lemma extend_fresh l : rkeys l -> forall m, rkeys m ->
    ForallOrdPairs (fun a b => ~ same (n_yaml (fst a)) (n_yaml (fst b))) (m ++ l) -> map_extend hk m l = Some (m ++ l).
  Proof.
    induction 1 as [|[k v] l [Rk Rv] H IH]; intros m Hm D; [now rewrite app_nil_r|]. cbn [map_extend fst snd] in *.
    rewrite insert_fresh; [|exact Rk|].
    - change ((k, v) :: l) with ([(k, v)] ++ l) in *. rewrite app_assoc in *. apply IH; [|exact D].
      apply Forall_app. split; [exact Hm|]. constructor; [auto|constructor].
    - intros [k1 v1] Hin. unfold rkeys in Hm. rewrite Forall_forall in Hm. split; [apply (Hm _ Hin)|]. intros S.
      apply in_split in Hin as (m1 & m2 & ->). rewrite <- app_assoc in D. cbn [app] in D.
      assert (G : forall (m1 : list (node * node)) x r, ForallOrdPairs (fun a b : node * node => ~ same (n_yaml (fst a)) (n_yaml (fst b))) (m1 ++ x :: r) ->
         Forall (fun b => ~ same (n_yaml (fst x)) (n_yaml (fst b))) r).
      { clear. induction m1 as [|a m1 IH]; cbn [app]; intros x r F; inversion F; subst; [assumption|]. now apply IH. }
      apply G in D. rewrite Forall_forall in D. apply (D (k, v)); [apply in_or_app; right; now left|]. cbn [fst]. now apply same_sym.
  Qed.
  Lemma fop_rel (m m' : list (node * node)) :
    Forall2 (fun a b => same (n_yaml (fst a)) (n_yaml (fst b)) /\ same (n_yaml (snd a)) (n_yaml (snd b))) m m' ->
    ForallOrdPairs (fun a b => ~ same (n_yaml (fst a)) (n_yaml (fst b))) m ->
    ForallOrdPairs (fun a b => ~ same (n_yaml (fst a)) (n_yaml (fst b))) m'.
  Proof.
    induction 1 as [|a b m m' [Sa _] F IH]; intros D; [constructor|]. inversion D as [|? ? D1 D2]; subst. constructor; [|auto].
    clear - Sa F D1. induction F as [|c e m m' [Sc _] F IH]; [constructor|]. inversion D1; subst. constructor; [|auto].
    intros S. apply H1. eapply same_trans; [exact Sa|]. eapply same_trans; [exact S|]. now apply same_sym.
  Qed.

  Definition through (n n' : node) : Prop := bare n' /\ same (n_yaml n) (n_yaml n').
  Lemma pass_all : forall y, plain_data y -> forall q,
    exists n, ser_yaml show_f hk y = DOk n /\ de_yaml show_f hk q y = DOk n /\ bare n /\ same y (n_yaml n).
  Proof.
    induction y as [| b0 | s | s | s | l IH | m IH | al] using yaml_ind2; intros D q; inversion D as [| |? z Hz|? x Hx| |? Fl|? Fm Hd]; subst.
    - eexists. repeat split; constructor. exact I.
    - eexists. repeat split; constructor. exact I.
    - cbn [ser_yaml de_yaml]. rewrite Hz. eexists. repeat split; [now constructor|]. eapply SameInt; [exact Hz|]. apply to_i64_show. eapply to_i64_range. eassumption.
    - cbn [ser_yaml de_yaml]. rewrite Hx. eexists. repeat split; [now constructor|]. eapply SameFloat; [exact Hx|eapply Hf; eassumption|].
      apply feq_iff, feq_refl.
    - eexists. repeat split; constructor. exact I.
    - change (ser_yaml show_f hk (YSeq l)) with (let! l' := ser_seq l in DOk (node_from (YSeq l'))).
      change (de_yaml show_f hk q (YSeq l)) with (let! l' := de_seq l in DOk (node_from (YSeq l'))).
      assert (G : exists l', ser_seq l = DOk l' /\ de_seq l = DOk l' /\ Forall bare l' /\ Forall2 (fun a b => same (n_yaml a) (n_yaml b)) l l').
      { clear D. induction IH as [|[p' t' y'] l Hx IH IHl]; [exists []; repeat split; constructor|].
        inversion Fl as [|? ? F1 F2]; subst. destruct (Hx F1 p') as (n & S & E & B & SM). destruct (IHl F2) as (ns & S' & E' & B' & SM').
        exists (n :: ns). cbn [ser_seq de_seq]. fold ser_seq de_seq. cbn [n_yaml] in *. rewrite S, E. cbn [dbind]. rewrite S', E'.
        repeat split; constructor; assumption. }
      destruct G as (l' & -> & -> & B & SM). eexists. repeat split; [now apply BareSeq|now constructor].
    - change (ser_yaml show_f hk (YMap m)) with (let! m' := ser_mp m [] in DOk (node_from (YMap m'))).
      change (de_yaml show_f hk q (YMap m)) with (let! m' := de_mp m [] in match map_collect hk m' with None => DPanic | Some m'' => DOk (node_from (YMap m'')) end).
      set (R2 := fun a b : node * node => same (n_yaml (fst a)) (n_yaml (fst b)) /\ same (n_yaml (snd a)) (n_yaml (snd b))).
      assert (RK : forall m m', Forall2 R2 m m' -> rkeys m -> rkeys m').
      { clear. intros m m' F. induction F as [|a b m m' [S1 S2] F IH]; intros H; inversion H as [|? ? [H1 H2] H3]; subst; constructor; [|apply IH, H3].
        split; [exact (same_readable _ _ S1)|exact (same_readable _ _ S2)]. }
      assert (G : forall done acc, Forall2 R2 done acc -> rkeys done -> Forall (fun kv => bare (fst kv) /\ bare (snd kv)) acc ->
                 ForallOrdPairs (fun a b => ~ same (n_yaml (fst a)) (n_yaml (fst b))) (done ++ m) ->
                 exists m', ser_mp m acc = DOk m' /\ de_mp m acc = DOk m' /\ Forall (fun kv => bare (fst kv) /\ bare (snd kv)) m' /\ Forall2 R2 (done ++ m) m').
      { clear D Hd. induction IH as [|[[p1 t1 y1] [p2 t2 y2]] m [H1 H2] IH IHm]; intros done acc F RD B DD; [exists acc; rewrite app_nil_r; auto|].
        inversion Fm as [|? ? [F1 F1'] F2]; subst. cbn [fst snd n_yaml] in *.
        destruct (H1 F1 p1) as (k & Sk & Ek & Bk & SMk). destruct (H2 F1' p2) as (v & Sv & Ev & Bv & SMv).
        cbn [ser_mp de_mp]. fold ser_mp de_mp. rewrite Sk, Sv, Ek, Ev. cbn [dbind].
        assert (INS : map_insert hk k v acc = Some (acc ++ [(k, v)])).
        { assert (RKK : readable (n_yaml k)) by (exact (same_readable _ _ SMk)).
          assert (E1 : map_extend hk acc [(k, v)] = Some (acc ++ [(k, v)])).
          { apply extend_fresh.
            - constructor; [|constructor]. split; [exact RKK|exact (same_readable _ _ SMv)].
            - now apply (RK done).
            - apply (fop_rel (done ++ [(Node p1 t1 y1, Node p2 t2 y2)])).
              + apply Forall2_app; [exact F|]. constructor; [|constructor]. split; assumption.
              + clear - DD. change (done ++ (Node p1 t1 y1, Node p2 t2 y2) :: m) with (done ++ [(Node p1 t1 y1, Node p2 t2 y2)] ++ m) in DD.
                rewrite app_assoc in DD. revert DD. generalize (done ++ [(Node p1 t1 y1, Node p2 t2 y2)]). intros l.
                induction l as [|a l IH]; cbn [app]; intros D; [constructor|]. inversion D as [|? ? D1 D2]; subst.
                constructor; [|auto]. now apply Forall_app in D1. }
          cbn [map_extend] in E1. destruct (map_insert hk k v acc); [exact E1|discriminate]. }
        rewrite INS. cbn [of_mp dbind].
        destruct (IHm F2 (done ++ [(Node p1 t1 y1, Node p2 t2 y2)]) (acc ++ [(k, v)])) as (m' & A1 & A2 & A3 & A4).
        - apply Forall2_app; [exact F|]. constructor; [|constructor]. split; assumption.
        - apply Forall_app. split; [exact RD|]. constructor; [|constructor]. split; cbn; now apply plain_readable.
        - apply Forall_app. split; [exact B|]. constructor; [|constructor]. split; assumption.
        - rewrite <- app_assoc. exact DD.
        - exists m'. rewrite <- app_assoc in A4. auto. }
      destruct (G [] [] (Forall2_nil _) (Forall_nil _) (Forall_nil _) Hd) as (m' & -> & -> & B & SM). cbn [app] in SM. cbn [dbind].
      assert (RM : rkeys m) by (pose proof (plain_readable _ D) as Rm; inversion Rm; assumption).
      unfold map_collect. rewrite (extend_fresh m' (RK _ _ SM RM) [] (Forall_nil _)); [|cbn [app]; exact (fop_rel _ _ SM Hd)]. cbn [app].
      eexists. repeat split; [now apply BareMap|now constructor].
  Qed.
End Nodes.

(** A [Node] that is serialized, or deserialized as a [Node], comes out with the
    same data and without positions and tags. *)
Theorem C38_nodes_pass_through : forall (show_f : f64 -> str) (hk : hasher), reads_back show_f ->
  forall n, plain_data (n_yaml n) ->
  exists n', to_node show_f hk TNode (VNode n) = DOk n' /\ de show_f hk TNode n = DOk (VNode n')
    /\ same (n_yaml n) (n_yaml n') /\ bare n'.
Proof.
  intros show_f hk Hf n D. destruct (pass_all show_f hk Hf (n_yaml n) D (n_pos n)) as (n' & S & E & B & SM).
  exists n'. split; [exact S|]. split; [|auto]. cbn [de]. unfold de_node. rewrite E. reflexivity.
Qed.

(** An alias anywhere inside is an error; deserialization points at the first one. *)
Theorem C38_alias_is_an_error : forall (show_f : f64 -> str) (hk : hasher), reads_back show_f ->
  forall n q, readable (n_yaml n) -> first_alias (n_pos n) (n_yaml n) = Some q ->
  to_node show_f hk TNode (VNode n) = DErr 0 /\ de show_f hk TNode n = DErr q.
Proof.
  intros show_f hk Hf n q R A. pose proof (alias_all show_f hk Hf (n_yaml n) R (n_pos n)) as H. rewrite A in H.
  destruct H as [S E]. split; [exact S|]. cbn [de]. unfold de_node. rewrite E. reflexivity.
Qed.
(** Without one there is none. *)
Theorem C38_no_alias_no_error : forall (show_f : f64 -> str) (hk : hasher), reads_back show_f ->
  forall n, readable (n_yaml n) -> first_alias (n_pos n) (n_yaml n) = None ->
  exists n1 n2, to_node show_f hk TNode (VNode n) = DOk n1 /\ de show_f hk TNode n = DOk (VNode n2).
Proof.
  intros show_f hk Hf n R A. pose proof (alias_all show_f hk Hf (n_yaml n) R (n_pos n)) as H. rewrite A in H.
  destruct H as (n1 & n2 & S & E & _). exists n1, n2. split; [exact S|]. cbn [de]. unfold de_node. rewrite E. reflexivity.
Qed.

(** Keys that differ only in spelling are merged, when the hasher puts them in
    the same bucket or after they are spelled alike. *)
Theorem C38_merged_keys_refuted : forall hk,
  let n := node_from (YMap [(node_from (YInt (lit "0x10")), node_from (YStr (lit "a")));
                            (node_from (YInt (lit "16")), node_from (YStr (lit "b")))]) in
  exists n', to_node show_exact hk TNode (VNode n) = DOk n'
    /\ n_yaml n' = YMap [(node_from (YInt (lit "16")), node_from (YStr (lit "b")))].
Proof.
  intros hk. exists (node_from (YMap [(node_from (YInt (lit "16")), node_from (YStr (lit "b")))])). split; [|reflexivity].
  set (k := node_from (YInt (lit "16"))).
  change (dbind (dbind (of_mp (map_insert hk k (node_from (YStr (lit "a"))) [])) (fun acc =>
          dbind (of_mp (map_insert hk k (node_from (YStr (lit "b"))) acc)) (fun acc' => DOk acc'))) (fun m => DOk (node_from (YMap m)))
          = DOk (node_from (YMap [(k, node_from (YStr (lit "b")))]))).
  change (map_insert hk k (node_from (YStr (lit "a"))) []) with (Some [(k, node_from (YStr (lit "a")))]). cbn [of_mp dbind].
  unfold map_insert. cbn [map_take]. unfold key_match. rewrite N.eqb_refl. vm_compute. reflexivity.
Qed.

Example C38_witness :
  let n := Node 3 (lit "t") (YMap [(Node 4 [] (YStr (lit "k")), Node 7 [] (YSeq [Node 9 [] (YInt (lit "0x1F")); Node 12 (lit "u") (YFloat (lit "1e1"))]))]) in
  let a := Node 0 [] (YSeq [n; Node 20 [] (YAlias (lit "x")); Node 30 [] (YAlias (lit "y"))]) in
  plain_data (n_yaml n)
  /\ to_node show_exact (fun _ => 0) TNode (VNode n)
     = DOk (node_from (YMap [(node_from (YStr (lit "k")), node_from (YSeq [node_from (YInt (lit "31")); node_from (YFloat (show_exact (FFin false 5629499534213120 (-49))))]))]))
  /\ first_alias 0 (n_yaml a) = Some 20
  /\ de show_exact (fun _ => 0) TNode a = DErr 20.
Proof.
  cbv zeta. split; [|split; [|split]].
  - cbn [n_yaml]. apply PdMap; [|repeat constructor]. constructor; [|constructor]. cbn [fst snd n_yaml]. split; [constructor|].
    constructor. constructor; [|constructor; [|constructor]]; cbn [n_yaml].
    + eapply PdInt. vm_compute. reflexivity.
    + eapply PdFloat. vm_compute. reflexivity.
  - vm_compute. reflexivity.
  - reflexivity.
  - vm_compute. reflexivity.
Qed.

(** ** C39 *)

(** [inside x n]: [x] is [n] or a node within it. *)
Inductive inside (x : node) : node -> Prop :=
| InHere : inside x x
| InSeq p t l y : In y l -> inside x y -> inside x (Node p t (YSeq l))
| InKey p t m k v : In (k, v) m -> inside x k -> inside x (Node p t (YMap m))
| InVal p t m k v : In (k, v) m -> inside x v -> inside x (Node p t (YMap m)).

(** The kinds of node a type is read from. *)
Fixpoint accepts (t : ty) (y : yaml) : bool :=
  match t, y with
  | TBool, YBool _ => true
  | TInt _ _, YInt _ => true
  | TF64, (YInt _ | YFloat _) => true
  | TChar, (YStr [c] | YInt [c]) => c <? 128
  | TString, (YStr _ | YInt _ | YFloat _ | YBool _ | YNull) => true
  | TBytes, (YStr _ | YSeq _) => true
  | TUnit, YNull => true
  | TOption _, YNull => true
  | TOption t', _ => accepts t' y
  | TSeq _, YSeq _ | TTuple _, YSeq _ => true
  | TMap _ _, YMap _ => true
  | TStruct _, (YSeq _ | YMap _) => true
  | TNewtype t', _ => accepts t' y
  | TEnum _, (YStr _ | YMap [_]) => true
  | TNode, YAlias _ => false
  | TNode, _ => true
  | _, _ => false
  end.

Definition from (n : node) (p : N) : Prop := p = 0 \/ exists x, inside x n /\ n_pos x = p.
Lemma from_here n : from n (n_pos n).
Proof. right. exists n. split; [constructor|reflexivity]. Qed.
Lemma from_seq n l y p : n_yaml n = YSeq l -> In y l -> from y p -> from n p.
Proof.
  destruct n as [q t y']. cbn [n_yaml]. intros -> Hin [->|(x & Hx & <-)]; [now left|]. right. exists x. split; [|reflexivity]. now apply (InSeq x q t l y).
Qed.
Lemma from_key n m k v p : n_yaml n = YMap m -> In (k, v) m -> from k p -> from n p.
Proof.
  destruct n as [q t y']. cbn [n_yaml]. intros -> Hin [->|(x & Hx & <-)]; [now left|]. right. exists x. split; [|reflexivity]. now apply (InKey x q t m k v).
Qed.
Lemma from_val n m k v p : n_yaml n = YMap m -> In (k, v) m -> from v p -> from n p.
Proof.
  destruct n as [q t y']. cbn [n_yaml]. intros -> Hin [->|(x & Hx & <-)]; [now left|]. right. exists x. split; [|reflexivity]. now apply (InVal x q t m k v).
Qed.
Lemma unexpected_from {A} n p : @unexpected A n = DErr p -> from n p.
Proof.
  unfold unexpected. destruct (n_yaml n); try (intros [= <-]; apply from_here).
  - destruct (to_i64 _); [intros [= <-]; apply from_here|discriminate].
  - destruct (to_f64 _); [intros [= <-]; apply from_here|discriminate].
Qed.
Lemma ident_from n p : de_ident n = DErr p -> from n p.
Proof. unfold de_ident. destruct (n_yaml n); try apply unexpected_from. discriminate. Qed.
Lemma int_from sg b n p : de_int sg b n = DErr p -> from n p.
Proof. unfold de_int. destruct (n_yaml n); try apply unexpected_from. destruct (to_i64 _); discriminate. Qed.

Ltac ub := match goal with |- context [dbind ?r _] => let E := fresh "E" in destruct r eqn:E; cbn [dbind]; try discriminate end.

Section Errors.
  Variables (show_f : f64 -> str) (hk : hasher).
  Notation de := (de show_f hk).
  Definition PE (t : ty) : Prop := forall n p, de t n = DErr p -> from n p.
  Definition QE (vr : variant) : Prop := forall o p, de_payload show_f hk vr o = DErr p ->
    match o with Some x => from x p | None => p = 0 end.

  Lemma node_err y : forall q p, de_yaml show_f hk q y = DErr p -> forall t, from (Node q t y) p.
  Proof.
    induction y as [| b0 | s | s | s | l IH | m IH | al] using yaml_ind2; intros q p; try discriminate.
    - cbn [de_yaml]. destruct (to_i64 s); discriminate.
    - cbn [de_yaml]. destruct (to_f64 s); discriminate.
    - change (de_yaml show_f hk q (YSeq l)) with (let! l' := de_seq show_f hk l in DOk (node_from (YSeq l'))).
      intros H t. assert (G : de_seq show_f hk l = DErr p). { destruct (de_seq show_f hk l); cbn [dbind] in H; congruence. }
      assert (K : exists x, In x l /\ from x p).
      { clear H. induction IH as [|[p' t' y'] l Hx IH IHl]; [discriminate|]. cbn [de_seq] in G. fold (de_seq show_f hk) in G. cbn [n_yaml] in Hx.
        destruct (de_yaml show_f hk p' y') as [x|p0|] eqn:E; cbn [dbind] in G; [|injection G as ->|discriminate].
        - destruct (de_seq show_f hk l) as [xs|p0|]; cbn [dbind] in G; [discriminate| |discriminate]. injection G as ->.
          destruct (IHl eq_refl) as (z & Hz & Fz). exists z. split; [now right|assumption].
        - exists (Node p' t' y'). split; [now left|]. now apply Hx. }
      destruct K as (x & Hin & F). exact (from_seq (Node q t (YSeq l)) l x p eq_refl Hin F).
    - change (de_yaml show_f hk q (YMap m)) with (let! m' := de_mp show_f hk m [] in match map_collect hk m' with None => DPanic | Some m'' => DOk (node_from (YMap m'')) end).
      intros H t. assert (G : exists acc, de_mp show_f hk m acc = DErr p).
      { exists []. destruct (de_mp show_f hk m []) as [m'|p0|]; cbn [dbind] in H; [|congruence|discriminate]. destruct (map_collect hk m'); discriminate. }
      assert (K : exists k v, In (k, v) m /\ (from k p \/ from v p)).
      { clear H. destruct G as [acc G]. revert acc G. induction IH as [|[[p1 t1 y1] [p2 t2 y2]] m [H1 H2] IH IHm]; intros acc G; [discriminate|].
        cbn [de_mp] in G. fold (de_mp show_f hk) in G. cbn [fst snd n_yaml] in *.
        destruct (de_yaml show_f hk p1 y1) as [k|p0|] eqn:E1; cbn [dbind] in G; [|injection G as ->|discriminate].
        - destruct (de_yaml show_f hk p2 y2) as [v|p0|] eqn:E2; cbn [dbind] in G; [|injection G as ->|discriminate].
          + destruct (map_insert hk k v acc) as [acc'|]; [|discriminate]. destruct (IHm acc' G) as (k' & v' & Hin & F). exists k', v'. split; [now right|assumption].
          + exists (Node p1 t1 y1), (Node p2 t2 y2). split; [now left|]. right. now apply H2.
        - exists (Node p1 t1 y1), (Node p2 t2 y2). split; [now left|]. left. now apply H1. }
      destruct K as (k & v & Hin & [F|F]); [exact (from_key (Node q t (YMap m)) m k v p eq_refl Hin F)|exact (from_val (Node q t (YMap m)) m k v p eq_refl Hin F)].
    - cbn [de_yaml]. intros [= <-] t. exact (from_here (Node q t (YAlias al))).
  Qed.

  Lemma tuple_err ts : Forall PE ts -> forall l p, de_tuple show_f hk ts l = DErr p -> p = 0 \/ exists x, In x l /\ from x p.
  Proof.
    induction 1 as [|t ts Ht H IH]; intros l p; [discriminate|]. destruct l as [|x l]; cbn [de_tuple]; [intros [= <-]; now left|].
    destruct (de t x) as [v|p0|] eqn:E; cbn [dbind]; [|intros [= <-]; right; exists x; split; [now left|now apply Ht]|discriminate].
    destruct (de_tuple show_f hk ts l) as [vs|p0|] eqn:E'; cbn [dbind]; [discriminate| |discriminate]. intros [= <-].
    destruct (IH l p0 E') as [->|(z & Hz & F)]; [now left|]. right. exists z. split; [now right|assumption].
  Qed.
  Lemma fields_seq_err fs : Forall (fun f => PE (snd f)) fs -> forall l p, de_fields_seq show_f hk fs l = DErr p -> p = 0 \/ exists x, In x l /\ from x p.
  Proof.
    induction 1 as [|[f t] fs Ht H IH]; intros l p; [discriminate|]. destruct l as [|x l]; cbn [de_fields_seq]; [intros [= <-]; now left|]. cbn [snd] in Ht.
    destruct (de t x) as [v|p0|] eqn:E; cbn [dbind]; [|intros [= <-]; right; exists x; split; [now left|now apply Ht]|discriminate].
    destruct (de_fields_seq show_f hk fs l) as [vs|p0|] eqn:E'; cbn [dbind]; [discriminate| |discriminate]. intros [= <-].
    destruct (IH l p0 E') as [->|(z & Hz & F)]; [now left|]. right. exists z. split; [now right|assumption].
  Qed.
  Lemma map_fields_err fs n m p : Forall (fun f => PE (snd f)) fs -> n_yaml n = YMap m -> de_map_fields show_f hk fs m = DErr p -> from n p.
  Proof.
    intros HF Em. assert (DF : forall f x d, de_field show_f hk fs f x = Some d -> d = DErr p -> from x p).
    { intros f x d. induction HF as [|[f' t] fs Ht HF IH]; cbn [de_field]; [discriminate|]. destruct (str_eqb f' f); [intros [= <-]; apply Ht|exact IH]. }
    assert (V : forall m' acc, (forall e, In e m' -> In e m) -> visit_fields (de_field show_f hk fs) m' acc = DErr p -> from n p).
    { induction m' as [|[k x] m' IH]; intros acc Hin; [discriminate|]. cbn [visit_fields].
      assert (H0 : In (k, x) m) by (apply Hin; now left).
      destruct (de_ident k) as [f|p0|] eqn:E; cbn [dbind]; [|intros [= <-]; eapply from_key; [exact Em|exact H0|now apply ident_from]|discriminate].
      destruct (de_field show_f hk fs f x) as [d|] eqn:Ed; [|apply IH; intros; apply Hin; now right].
      destruct (bt_get f acc); [intros [= <-]; now left|]. destruct d as [v|p0|]; cbn [dbind]; [apply IH; intros; apply Hin; now right|intros [= ->]|discriminate].
      eapply from_val; [exact Em|exact H0|]. eapply DF; [exact Ed|reflexivity]. }
    unfold de_map_fields. destruct (visit_fields (de_field show_f hk fs) m []) as [acc|p0|] eqn:E; cbn [dbind]; [|intros [= ->]; now apply (V m [])|discriminate].
    destruct (collect_fields fs acc) as [vs|p0|] eqn:E'; cbn [dbind]; [discriminate| |discriminate]. intros [= <-]. left.
    clear - E'. revert E'. induction fs as [|[f t] fs IH]; cbn [collect_fields]; [discriminate|].
    assert (G : forall r : dres val, (forall q, r = DErr q -> q = 0) -> dbind r (fun v => dbind (collect_fields fs acc) (fun vs => DOk (v :: vs))) = DErr p0 -> p0 = 0).
    { intros [v|q|] Hq; cbn [dbind]; [|intros [= ->]; now apply Hq|discriminate].
      destruct (collect_fields fs acc) as [vs|q|]; cbn [dbind]; [discriminate| |discriminate]. intros [= ->]. now apply IH. }
    apply G. destruct (bt_get f acc); [discriminate|]. unfold missing. destruct t; intros q [= <-]; reflexivity.
  Qed.

  Lemma all_err : forall t, PE t.
  Proof.
    apply (ty_ind2 PE QE); unfold PE.
    - intros n p. cbn [Serde.de]. destruct (n_yaml n) eqn:E; try apply unexpected_from. discriminate.
    - intros sg b n p. cbn [Serde.de]. destruct (de_int sg b n) eqn:E; cbn [dbind]; [discriminate| |discriminate]. intros [= <-]. eapply int_from, E.
    - intros n p. cbn [Serde.de]. destruct (de_f64 n) as [?|?|] eqn:E; cbn [dbind]; [discriminate| |discriminate]. intros [= <-].
      revert E. unfold de_f64. destruct (n_yaml n); try apply unexpected_from; [destruct (to_i64 _)|destruct (to_f64 _)]; discriminate.
    - intros n p. cbn [Serde.de]. destruct (de_char n) as [?|?|] eqn:E; cbn [dbind]; [discriminate| |discriminate]. intros [= <-].
      revert E. unfold de_char. destruct (n_yaml n) as [| |s| |s| | |]; try apply unexpected_from;
        (destruct s as [|c [|d s]]; try apply unexpected_from; destruct (Nat.eqb _ _); [discriminate|apply unexpected_from]).
    - intros n p. cbn [Serde.de]. destruct (de_str n) as [?|?|] eqn:E; cbn [dbind]; [discriminate| |discriminate]. intros [= <-].
      revert E. unfold de_str. destruct (n_yaml n) as [|[]| | | | | |]; try apply unexpected_from; discriminate.
    - intros n p. cbn [Serde.de]. destruct (de_bytes n) as [?|?|] eqn:E; cbn [dbind]; [discriminate| |discriminate]. intros [= <-].
      revert E. unfold de_bytes. destruct (n_yaml n) as [| | | | |l| |] eqn:En; try apply unexpected_from; [discriminate|].
      intros E. assert (K : exists x, In x l /\ from x pos).
      { clear En. revert E. induction l as [|x l IH]; cbn [de_u8s]; [discriminate|].
        destruct (de_int false 8 x) as [z|q|] eqn:Ez; cbn [dbind]; [|intros [= <-]; exists x; split; [now left|eapply int_from, Ez]|discriminate].
        destruct (de_u8s l) as [zs|q|]; cbn [dbind]; [discriminate| |discriminate]. intros [= ->]. destruct (IH eq_refl) as (y & Hy & F). exists y. split; [now right|assumption]. }
      destruct K as (x & Hin & F). exact (from_seq n l x pos En Hin F).
    - intros n p. cbn [Serde.de]. destruct (de_unit n) as [?|?|] eqn:E; cbn [dbind]; [discriminate| |discriminate]. intros [= <-].
      revert E. unfold de_unit. destruct (is_null n); [discriminate|apply unexpected_from].
    - intros t IH n p. cbn [Serde.de]. destruct (n_yaml n); try discriminate; (destruct (de t n) as [?|?|] eqn:E; cbn [dbind]; [discriminate| |discriminate]; intros [= <-]; exact (IH n _ E)).
    - intros t IH n p. cbn [Serde.de]. destruct (n_yaml n) as [| | | | |l| |] eqn:En; try apply unexpected_from. intros H.
      assert (K : exists x, In x l /\ from x p).
      { clear En. assert (G : visit_all (de t) l = DErr p) by (destruct (visit_all (de t) l); cbn [dbind] in H; congruence). clear H.
        revert G. induction l as [|x l IHl]; cbn [visit_all]; [discriminate|].
        destruct (de t x) as [z|q|] eqn:Ez; cbn [dbind]; [|intros [= <-]; exists x; split; [now left|exact (IH _ _ Ez)]|discriminate].
        destruct (visit_all (de t) l) as [zs|q|]; cbn [dbind]; [discriminate| |discriminate]. intros [= ->]. destruct (IHl eq_refl) as (y & Hy & F). exists y. split; [now right|assumption]. }
      destruct K as (x & Hin & F). exact (from_seq n l x p En Hin F).
    - intros ts IH n p. rewrite de_tuple_eq. destruct (n_yaml n) as [| | | | |l| |] eqn:En; try apply unexpected_from. intros H.
      assert (G : de_tuple show_f hk ts l = DErr p) by (destruct (de_tuple show_f hk ts l); cbn [dbind] in H; congruence).
      destruct (tuple_err ts IH l p G) as [->|(x & Hin & F)]; [now left|]. exact (from_seq n l x p En Hin F).
    - intros k v IHk IHv n p. cbn [Serde.de]. destruct (n_yaml n) as [| | | | | |m|] eqn:En; try apply unexpected_from. intros H.
      assert (K : exists a b, In (a, b) m /\ (from a p \/ from b p)).
      { clear En. assert (G : visit_entries (de k) (de v) m = DErr p) by (destruct (visit_entries (de k) (de v) m); cbn [dbind] in H; congruence). clear H.
        revert G. induction m as [|[a b] m IHm]; cbn [visit_entries]; [discriminate|].
        destruct (de k a) as [z|q|] eqn:Ez; cbn [dbind]; [|intros [= <-]; exists a, b; split; [now left|left; exact (IHk _ _ Ez)]|discriminate].
        destruct (de v b) as [y|q|] eqn:Ey; cbn [dbind]; [|intros [= <-]; exists a, b; split; [now left|right; exact (IHv _ _ Ey)]|discriminate].
        destruct (visit_entries (de k) (de v) m) as [zs|q|]; cbn [dbind]; [discriminate| |discriminate]. intros [= ->]. destruct (IHm eq_refl) as (a' & b' & Hy & F). exists a', b'. split; [now right|assumption]. }
      destruct K as (a & b & Hin & [F|F]); [exact (from_key n m a b p En Hin F)|exact (from_val n m a b p En Hin F)].
    - intros fs IH n p. rewrite de_struct_eq. destruct (n_yaml n) as [| | | | |l|m|] eqn:En; try apply unexpected_from.
      + intros H. assert (G : de_fields_seq show_f hk fs l = DErr p) by (destruct (de_fields_seq show_f hk fs l); cbn [dbind] in H; congruence).
        destruct (fields_seq_err fs IH l p G) as [->|(x & Hin & F)]; [now left|]. exact (from_seq n l x p En Hin F).
      + now apply map_fields_err.
    - intros t IH n p. exact (IH n p).
    - intros vs IH n p. rewrite de_enum_eq. destruct (de_enum_head n) as [[k o]|q|] eqn:Eh; cbn [dbind fst snd]; [| |discriminate].
      + assert (HK : (forall p, from k p -> from n p) /\ match o with Some x => forall p, from x p -> from n p | None => True end).
        { revert Eh. unfold de_enum_head. destruct (n_yaml n) as [|?|?|?|?|?|[|[a b] [|? ?]]|?] eqn:En; try (unfold unexpected; rewrite En; try (destruct (to_i64 _)); try (destruct (to_f64 _)); discriminate).
          - intros [= <- <-]. auto.
          - intros [= <- <-]. split; intros p' F; [eapply from_key|eapply from_val]; try exact En; try (now left); exact F. }
        destruct HK as [HK HX]. destruct (de_ident k) as [name|q|] eqn:Ei; cbn [dbind]; [|intros [= <-]; apply HK; now apply ident_from|discriminate].
        destruct (lookup name vs) as [vr|] eqn:El; [|intros [= <-]; now left].
        assert (HQ : QE vr). { clear - IH El. induction IH as [|[n' v'] vs Hv IH IHv]; [discriminate|]. cbn [lookup] in El. destruct (str_eqb n' name); [injection El as <-; exact Hv|auto]. }
        destruct (de_payload show_f hk vr o) as [pl|q|] eqn:Ep; cbn [dbind]; [discriminate| |discriminate]. intros [= <-]. specialize (HQ o q Ep).
        destruct o as [x|]; [now apply HX|now left].
      + intros [= <-]. revert Eh. unfold de_enum_head. destruct (n_yaml n) as [|?|?|?|?|?|[|[a b] [|? ?]]|?]; try apply unexpected_from; discriminate.
    - intros n p. cbn [Serde.de]. unfold de_node. destruct n as [q t y]. cbn [n_pos n_yaml].
      destruct (de_yaml show_f hk q y) as [z|p'|] eqn:E; cbn [dbind]; [discriminate| |discriminate]. intros [= <-]. now apply node_err.
    - intros [x|] p; cbn [de_payload]; [|discriminate]. destruct (de_unit x) as [?|?|] eqn:E; cbn [dbind]; [discriminate| |discriminate]. intros [= <-].
      revert E. unfold de_unit. destruct (is_null x); [discriminate|apply unexpected_from].
    - intros t IH [x|] p; cbn [de_payload]; [|intros [= <-]; reflexivity]. apply IH.
    - intros ts IH [x|] p; cbn [de_payload]; [|intros [= <-]; reflexivity]. destruct (n_yaml x) as [| | | | |l| |] eqn:En; try apply unexpected_from. intros H.
      assert (G : de_tuple show_f hk ts l = DErr p) by (destruct (de_tuple show_f hk ts l); cbn [dbind] in H; congruence).
      destruct (tuple_err ts IH l p G) as [->|(z & Hin & F)]; [now left|]. exact (from_seq x l z p En Hin F).
    - intros fs IH [x|] p; cbn [de_payload]; [|intros [= <-]; reflexivity]. destruct (n_yaml x) as [| | | | | |m|] eqn:En; try apply unexpected_from.
      now apply map_fields_err.
  Qed.
End Errors.

(** An error carries the position of a node inside the input, or zero. *)
Theorem C39_error_position : forall (show_f : f64 -> str) (hk : hasher) t n p,
  de show_f hk t n = DErr p -> p = 0 \/ exists x, inside x n /\ n_pos x = p.
Proof. intros show_f hk t n p H. exact (all_err show_f hk t n p H). Qed.

Lemma unexpected_readable {A} n : readable (n_yaml n) -> @unexpected A n = DErr (n_pos n).
Proof. unfold unexpected. intros R. destruct (n_yaml n); try reflexivity; inversion R as [| |? z Hz|? x Hx| | | |]; subst; [now rewrite Hz|now rewrite Hx]. Qed.

(** A node of the wrong kind is reported with its own position. *)
Theorem C39_wrong_kind : forall (show_f : f64 -> str) (hk : hasher) t n,
  readable (n_yaml n) -> accepts t (n_yaml n) = false -> de show_f hk t n = DErr (n_pos n).
Proof.
  intros show_f hk. fix IH 1. intros t n R.
  pose proof (@unexpected_readable val n R) as U0. pose proof (@unexpected_readable Z n R) as U1. pose proof (@unexpected_readable f64 n R) as U2.
  pose proof (@unexpected_readable N n R) as U3. pose proof (@unexpected_readable str n R) as U4. pose proof (@unexpected_readable (list N) n R) as U5.
  pose proof (@unexpected_readable unit n R) as U6. pose proof (@unexpected_readable (node * option node) n R) as U7.
  destruct t as [|sg bits| | | | | |t|t|ts|k v|fs|t|vs|].
  - cbn [accepts de]. destruct (n_yaml n); try discriminate; intros _; exact U0.
  - cbn [accepts de]. unfold de_int. destruct (n_yaml n); try discriminate; intros _; rewrite U1; reflexivity.
  - cbn [accepts de]. unfold de_f64. destruct (n_yaml n); try discriminate; intros _; rewrite U2; reflexivity.
  - cbn [accepts de]. unfold de_char. destruct (n_yaml n) as [| |s| |s| | |]; try (intros _; rewrite U3; reflexivity);
      (destruct s as [|c [|d s]]; try (intros _; rewrite U3; reflexivity); intros H;
       replace (Nat.eqb (List.length (encode_char c)) 1) with false; [rewrite U3; reflexivity|];
       unfold encode_char; rewrite H; repeat (match goal with |- context [if ?b then _ else _] => destruct b end); reflexivity).
  - cbn [accepts de]. unfold de_str. destruct (n_yaml n); try discriminate; intros _; rewrite U4; reflexivity.
  - cbn [accepts de]. unfold de_bytes. destruct (n_yaml n); try discriminate; intros _; rewrite U5; reflexivity.
  - cbn [accepts de]. unfold de_unit, is_null. destruct (n_yaml n); try discriminate; intros _; rewrite U6; reflexivity.
  - intros H. assert (K : n_yaml n <> YNull /\ accepts t (n_yaml n) = false) by (revert H; cbn [accepts]; destruct (n_yaml n); try discriminate; intros H; (split; [discriminate|exact H])).
    destruct K as [K1 K2]. pose proof (IH t n R K2) as E. cbn [de]. rewrite E. destruct (n_yaml n); try reflexivity. congruence.
  - cbn [accepts de]. destruct (n_yaml n); try discriminate; intros _; exact U0.
  - cbn [accepts de]. destruct (n_yaml n); try discriminate; intros _; exact U0.
  - cbn [accepts de]. destruct (n_yaml n); try discriminate; intros _; exact U0.
  - cbn [accepts de]. destruct (n_yaml n); try discriminate; intros _; exact U0.
  - intros H. exact (IH t n R H).
  - rewrite de_enum_eq. unfold de_enum_head. cbn [accepts]. destruct (n_yaml n) as [|?|?|?|?|?|[|[? ?] [|? ?]]|?]; try (intros _; rewrite U7; reflexivity); discriminate.
  - cbn [accepts de]. unfold de_node. destruct (n_yaml n); try discriminate. intros _. reflexivity.
Qed.

(** [blames t n x]: reading [n] at type [t], everything before [x] is fine and [x]
    is of the wrong kind. *)
Inductive blames (show_f : f64 -> str) (hk : hasher) : ty -> node -> node -> Prop :=
| BlHere t n : readable (n_yaml n) -> accepts t (n_yaml n) = false -> blames show_f hk t n n
| BlOption t n x : n_yaml n <> YNull -> blames show_f hk t n x -> blames show_f hk (TOption t) n x
| BlNewtype t n x : blames show_f hk t n x -> blames show_f hk (TNewtype t) n x
| BlSeq t n l1 y l2 x : n_yaml n = YSeq (l1 ++ y :: l2) ->
    Forall (fun a => exists v, de show_f hk t a = DOk v) l1 -> blames show_f hk t y x -> blames show_f hk (TSeq t) n x
| BlTuple ts1 t ts2 n l1 y l2 x : n_yaml n = YSeq (l1 ++ y :: l2) ->
    Forall2 (fun t a => exists v, de show_f hk t a = DOk v) ts1 l1 -> blames show_f hk t y x ->
    blames show_f hk (TTuple (ts1 ++ t :: ts2)) n x
| BlKey tk tv n m1 k v m2 x : n_yaml n = YMap (m1 ++ (k, v) :: m2) ->
    Forall (fun e => (exists a, de show_f hk tk (fst e) = DOk a) /\ exists b, de show_f hk tv (snd e) = DOk b) m1 ->
    blames show_f hk tk k x -> blames show_f hk (TMap tk tv) n x
| BlVal tk tv n m1 k v m2 x a : n_yaml n = YMap (m1 ++ (k, v) :: m2) ->
    Forall (fun e => (exists a, de show_f hk tk (fst e) = DOk a) /\ exists b, de show_f hk tv (snd e) = DOk b) m1 ->
    de show_f hk tk k = DOk a -> blames show_f hk tv v x -> blames show_f hk (TMap tk tv) n x
| BlField fs n m1 p q name v m2 x t : n_yaml n = YMap (m1 ++ (Node p q (YStr name), v) :: m2) ->
    Forall (fun e => exists f, n_yaml (fst e) = YStr f /\ f <> name
              /\ match lookup f fs with Some t => exists w, de show_f hk t (snd e) = DOk w | None => True end) m1 ->
    NoDup (map (fun e => n_yaml (fst e)) m1) ->
    lookup name fs = Some t -> blames show_f hk t v x -> blames show_f hk (TStruct fs) n x
| BlVariant vs n p q name v x t : n_yaml n = YMap [(Node p q (YStr name), v)] ->
    lookup name vs = Some (NewtypeV t) -> blames show_f hk t v x -> blames show_f hk (TEnum vs) n x.

Lemma bt_get_snoc {V} k f (w : V) acc : bt_get k (acc ++ [(f, w)]) = match bt_get k acc with Some v => Some v | None => if str_eqb k f then Some w else None end.
Proof. induction acc as [|[f' w'] acc IH]; cbn [app bt_get]; [reflexivity|]. destruct (str_eqb k f'); [reflexivity|exact IH]. Qed.

Theorem C39_blame : forall (show_f : f64 -> str) (hk : hasher) t n x,
  blames show_f hk t n x -> de show_f hk t n = DErr (n_pos x).
Proof.
  intros show_f hk t n x H.
  induction H as [t n R A|t n x Hn B IH|t n x B IH|t n l1 y l2 x En F B IH|ts1 t ts2 n l1 y l2 x En F B IH|tk tv n m1 k v m2 x En F B IH|tk tv n m1 k v m2 x a En F Hk B IH
                 |fs n m1 p q name v m2 x t En F ND L B IH|vs n p q name v x t En L B IH].
  - now apply C39_wrong_kind.
  - cbn [de]. rewrite IH. destruct (n_yaml n); try reflexivity. congruence.
  - exact IH.
  - cbn [de]. rewrite En. clear En. induction F as [|z l1 [w Hw] F IHF]; cbn [app visit_all]; [now rewrite IH|]. rewrite Hw. cbn [dbind].
    destruct (visit_all (de show_f hk t) (l1 ++ y :: l2)) as [vs|p|]; cbn [dbind] in IHF |- *; congruence.
  - rewrite de_tuple_eq, En. clear En. induction F as [|t0 z ts1 l1 [w Hw] F IHF]; cbn [app de_tuple]; [now rewrite IH|]. rewrite Hw. cbn [dbind].
    destruct (de_tuple show_f hk (ts1 ++ t :: ts2) (l1 ++ y :: l2)) as [vs|p|]; cbn [dbind] in IHF |- *; congruence.
  - cbn [de]. rewrite En. clear En. induction F as [|[a b] l1 [[w Hw] [w' Hw']] F IHF]; cbn [app visit_entries]; [now rewrite IH|]. cbn [fst snd] in *. rewrite Hw. cbn [dbind]. rewrite Hw'. cbn [dbind].
    destruct (visit_entries (de show_f hk tk) (de show_f hk tv) (l1 ++ (k, v) :: m2)) as [vs|p|]; cbn [dbind] in IHF |- *; congruence.
  - cbn [de]. rewrite En. clear En. induction F as [|[a' b] l1 [[w Hw] [w' Hw']] F IHF]; cbn [app visit_entries]; [now rewrite Hk; cbn [dbind]; rewrite IH|]. cbn [fst snd] in *. rewrite Hw. cbn [dbind]. rewrite Hw'. cbn [dbind].
    destruct (visit_entries (de show_f hk tk) (de show_f hk tv) (l1 ++ (k, v) :: m2)) as [vs|p|]; cbn [dbind] in IHF |- *; congruence.
  - rewrite de_struct_eq, En. clear En. unfold de_map_fields.
    assert (DF : forall f y, de_field show_f hk fs f y = match lookup f fs with Some t => Some (de show_f hk t y) | None => None end).
    { clear. intros f y. induction fs as [|[f' t] fs IH]; [reflexivity|]. cbn [de_field lookup]. destruct (str_eqb f' f); [reflexivity|exact IH]. }
    assert (G : forall acc : list (str * val), bt_get name acc = None ->
       (forall e f, In e m1 -> n_yaml (fst e) = YStr f -> bt_get f acc = None) ->
       visit_fields (de_field show_f hk fs) (m1 ++ (Node p q (YStr name), v) :: m2) acc = DErr (n_pos x)).
    { induction F as [|[k0 v0] m1 (f & Ef & Nf & Of) F IHF]; intros acc A1 A2; cbn [app visit_fields].
      - cbn [de_ident n_yaml]. unfold de_ident. cbn [n_yaml dbind]. rewrite DF, L, IH, A1. reflexivity.
      - unfold de_ident. cbn [fst snd] in *. rewrite Ef. cbn [dbind]. rewrite DF. inversion ND as [|? ? N1 N2]; subst.
        assert (R : forall acc : list (str * val), bt_get name acc = None -> (forall e g, In e m1 -> n_yaml (fst e) = YStr g -> bt_get g acc = None) ->
                  visit_fields (de_field show_f hk fs) (m1 ++ (Node p q (YStr name), v) :: m2) acc = DErr (n_pos x)).
        { exact (IHF N2). }
        destruct (lookup f fs) as [t'|].
        + destruct Of as [w Hw]. rewrite Hw. rewrite (A2 (k0, v0) f (or_introl eq_refl) Ef). cbn [dbind]. apply R.
          * rewrite bt_get_snoc, A1. destruct (str_eqb name f) eqn:E; [apply str_eqb_eq in E; congruence|reflexivity].
          * intros e g He Eg. rewrite bt_get_snoc, (A2 e g (or_intror He) Eg). destruct (str_eqb g f) eqn:E; [|reflexivity]. apply str_eqb_eq in E. subst g.
            exfalso. apply N1. cbn [fst]. rewrite Ef, <- Eg. exact (in_map (fun e => n_yaml (fst e)) _ _ He).
        + apply R; [exact A1|]. intros e g He. apply A2. now right. }
    rewrite G; [reflexivity|reflexivity|]. intros; reflexivity.
  - rewrite de_enum_eq. unfold de_enum_head. rewrite En. cbn [dbind fst snd]. unfold de_ident. cbn [n_yaml dbind]. rewrite L. cbn [de_payload]. rewrite IH. reflexivity.
Qed.

(** A string where a [Vec<u8>] field's second element should be a number. *)
Example C39_witness : forall hk,
  let bad := Node 17 [] (YStr (lit "x")) in
  let n := Node 0 [] (YMap [(Node 0 [] (YStr (lit "other")), Node 7 [] YNull);
                            (Node 8 [] (YStr (lit "a")), Node 11 [] (YSeq [Node 12 [] (YInt (lit "1")); bad]))]) in
  let t := TStruct [(lit "a", TSeq (TInt false 8))] in
  blames show_exact hk t n bad /\ de show_exact hk t n = DErr 17.
Proof.
  intros hk. cbv zeta.
  assert (B : blames show_exact hk (TStruct [(lit "a", TSeq (TInt false 8))])
      (Node 0 [] (YMap [(Node 0 [] (YStr (lit "other")), Node 7 [] YNull);
                            (Node 8 [] (YStr (lit "a")), Node 11 [] (YSeq [Node 12 [] (YInt (lit "1")); Node 17 [] (YStr (lit "x"))]))]))
      (Node 17 [] (YStr (lit "x")))).
  { eapply (BlField _ _ _ _ [(Node 0 [] (YStr (lit "other")), Node 7 [] YNull)]); try reflexivity.
    - constructor; [|constructor]. exists (lit "other"). split; [reflexivity|]. split; [discriminate|exact I].
    - repeat constructor. intros [].
    - eapply (BlSeq _ _ _ _ [Node 12 [] (YInt (lit "1"))]); [reflexivity| |].
      + constructor; [|constructor]. eexists. vm_compute. reflexivity.
      + apply BlHere; [constructor|reflexivity]. }
  split; [exact B|]. exact (C39_blame _ _ _ _ _ B).
Qed.
