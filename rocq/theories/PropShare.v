(** * C55: sharing data between nodes does not show *)
From Verif Require Export Sharing NodeFacts PropNode.
Open Scope N_scope.

(** ** Specification *)
(** [mem] is the memory: what is at each address.  Every node inside points to
    what the memory has there (data behind an [Rc] never changes). *)
Inductive stored (mem : nat -> syaml) : syaml -> Prop :=
| StNull : stored mem SNull
| StBool b : stored mem (SBool b)
| StInt s : stored mem (SInt s)
| StFloat s : stored mem (SFloat s)
| StStr s : stored mem (SStr s)
| StSeq l : Forall (fun n => mem (s_addr n) = s_yaml n /\ stored mem (s_yaml n)) l -> stored mem (SSeq l)
| StMap m : Forall (fun kv => (mem (s_addr (fst kv)) = s_yaml (fst kv) /\ stored mem (s_yaml (fst kv)))
                           /\ (mem (s_addr (snd kv)) = s_yaml (snd kv) /\ stored mem (s_yaml (snd kv)))) m -> stored mem (SMap m)
| StAlias a : stored mem (SAlias a).
Definition held (mem : nat -> syaml) (n : snode) : Prop := mem (s_addr n) = s_yaml n /\ stored mem (s_yaml n).
Definition held_entry (mem : nat -> syaml) (kv : snode * snode) : Prop := held mem (fst kv) /\ held mem (snd kv).
Definition entry_value (kv : snode * snode) : node * node := (node_value (fst kv), node_value (snd kv)).

(** ** Proofs *)
Section SyamlInd.
  Variable P : syaml -> Prop.
  Hypothesis Hnull : P SNull.
  Hypothesis Hbool : forall b, P (SBool b).
  Hypothesis Hint : forall s, P (SInt s).
  Hypothesis Hfloat : forall s, P (SFloat s).
  Hypothesis Hstr : forall s, P (SStr s).
  Hypothesis Hseq : forall l, Forall (fun n => P (s_yaml n)) l -> P (SSeq l).
  Hypothesis Hmap : forall m, Forall (fun kv => P (s_yaml (fst kv)) /\ P (s_yaml (snd kv))) m -> P (SMap m).
  Hypothesis Halias : forall a, P (SAlias a).
  Fixpoint syaml_ind2 (y : syaml) : P y :=
    match y with
    | SNull => Hnull
    | SBool b => Hbool b
    | SInt s => Hint s
    | SFloat s => Hfloat s
    | SStr s => Hstr s
    | SSeq l =>
      Hseq l ((fix go (l : list snode) : Forall (fun n => P (s_yaml n)) l :=
                 match l with
                 | [] => Forall_nil _
                 | SNode p t a x :: r => Forall_cons (SNode p t a x) (syaml_ind2 x) (go r)
                 end) l)
    | SMap m =>
      Hmap m ((fix go (m : list (snode * snode)) : Forall (fun kv => P (s_yaml (fst kv)) /\ P (s_yaml (snd kv))) m :=
                 match m with
                 | [] => Forall_nil _
                 | (SNode p t a x, SNode p' t' a' x') :: r =>
                   Forall_cons (SNode p t a x, SNode p' t' a' x') (conj (syaml_ind2 x) (syaml_ind2 x')) (go r)
                 end) m)
    | SAlias a => Halias a
    end.
End SyamlInd.

Lemma node_value_yaml n : n_yaml (node_value n) = value (s_yaml n).
Proof. now destruct n. Qed.
Lemma value_seq l : value (SSeq l) = YSeq (List.map node_value l).
Proof. reflexivity. Qed.
Lemma value_map m : value (SMap m) = YMap (List.map entry_value m).
Proof. cbn [value]. f_equal. apply map_ext. now intros [[] []]. Qed.

(** comparing something with itself gives true or panics *)
Lemma self_eq : forall y r, yaml_eq y y = Some r -> r = true.
Proof.
  induction y as [| b | s | s | s | l IH | m IH | a] using yaml_ind2; intros r E.
  - now injection E.
  - cbn in E. rewrite Bool.eqb_reflx in E. now injection E.
  - cbn in E. destruct (to_i64 s); [|discriminate]. rewrite Z.eqb_refl in E. now injection E.
  - cbn in E. destruct (to_f64 s) as [x|]; [|discriminate]. fold (feq x x) in E. rewrite feq_refl in E. now injection E.
  - cbn in E. assert (K : str_eqb s s = true) by now apply str_eqb_eq. rewrite K in E. now injection E.
  - rewrite yaml_eq_seq, Nat.eqb_refl in E. induction IH as [|n l Hn IH IHl]; cbn [seq_eq] in E; [now injection E|].
    unfold node_eq in E. destruct (yaml_eq (n_yaml n) (n_yaml n)) as [r'|] eqn:En; [|discriminate]. specialize (Hn _ eq_refl). subst r'. now apply IHl.
  - rewrite yaml_eq_map, Nat.eqb_refl in E. induction IH as [|[k x] m [Hk Hx] IH IHm]; cbn [ents_eq] in E; [now injection E|]. cbn [fst snd] in Hk, Hx.
    unfold node_eq in E. destruct (yaml_eq (n_yaml k) (n_yaml k)) as [r'|] eqn:Ek; [|discriminate]. specialize (Hk _ eq_refl). subst r'.
    destruct (yaml_eq (n_yaml x) (n_yaml x)) as [r'|] eqn:Ex; [|discriminate]. specialize (Hx _ eq_refl). subst r'. now apply IHm.
  - cbn in E. assert (K : str_eqb a a = true) by now apply str_eqb_eq. rewrite K in E. now injection E.
Qed.

Fixpoint s_seq_eq (l l' : list snode) : may_panic bool :=
  match l, l' with
  | x :: r, y :: r' =>
    match s_node_eq x y with None => None | Some false => Some false | Some true => s_seq_eq r r' end
  | _, _ => Some true
  end.
Fixpoint s_ents_eq (l l' : list (snode * snode)) : may_panic bool :=
  match l, l' with
  | (k, x) :: r, (k', y) :: r' =>
    match s_node_eq k k' with
    | None => None
    | Some false => Some false
    | Some true => match s_node_eq x y with None => None | Some false => Some false | Some true => s_ents_eq r r' end
    end
  | _, _ => Some true
  end.
Lemma s_eq_seq l l' : s_yaml_eq (SSeq l) (SSeq l') = if Nat.eqb (List.length l) (List.length l') then s_seq_eq l l' else Some false.
Proof.
  cbn [s_yaml_eq]. destruct (Nat.eqb _ _); [|reflexivity]. revert l'. induction l as [|[p t i x] l IH]; intros [|[p' t' j y] l']; try reflexivity.
  cbn [s_seq_eq]. unfold s_node_eq. cbn [s_addr s_yaml]. now rewrite <- IH.
Qed.
Lemma s_eq_map m m' : s_yaml_eq (SMap m) (SMap m') = if Nat.eqb (List.length m) (List.length m') then s_ents_eq m m' else Some false.
Proof.
  cbn [s_yaml_eq]. destruct (Nat.eqb _ _); [|reflexivity]. revert m'. induction m as [|[[p t i x] [p1 t1 i1 x1]] m IH]; intros [|[[p' t' j y] [p2 t2 j2 y2]] m']; try reflexivity.
  cbn [s_ents_eq]. unfold s_node_eq. cbn [s_addr s_yaml]. now rewrite <- IH.
Qed.

Section Mem.
Variable mem : nat -> syaml.
Lemma eq_agrees : forall y y' r, stored mem y -> stored mem y' -> yaml_eq (value y) (value y') = Some r -> s_yaml_eq y y' = Some r.
Proof.
  assert (NE : forall n n' r, (forall y' r, stored mem (s_yaml n) -> stored mem y' -> yaml_eq (value (s_yaml n)) (value y') = Some r -> s_yaml_eq (s_yaml n) y' = Some r) ->
    held mem n -> held mem n' -> node_eq (node_value n) (node_value n') = Some r -> s_node_eq n n' = Some r).
  { intros n n' r H [A1 S1] [A2 S2] E. unfold node_eq in E. rewrite !node_value_yaml in E. unfold s_node_eq. destruct (Nat.eqb_spec (s_addr n) (s_addr n')) as [Ea|_].
    - rewrite Ea in A1. rewrite <- A1, <- A2 in E. apply self_eq in E. now subst.
    - now apply H. }
  induction y as [| b | s | s | s | l IH | m IH | a] using syaml_ind2; intros y' r S S' E; try (destruct y'; (exact E || (now injection E as <-))).
  - destruct y' as [| | | | |l'| |]; try (now injection E as <-). rewrite !value_seq, yaml_eq_seq, !map_length in E. rewrite s_eq_seq.
    destruct (Nat.eqb _ _); [|exact E]. inversion S as [| | | | |? F| |]; subst. inversion S' as [| | | | |? F'| |]; subst. clear S S'.
    revert l' F' E. induction l as [|n l IHl]; intros [|n' l'] F' E; try exact E. inversion IH; subst. inversion F; subst. inversion F'; subst. cbn [List.map seq_eq] in E. cbn [s_seq_eq].
    destruct (node_eq (node_value n) (node_value n')) as [b|] eqn:En; [|discriminate]. rewrite (NE n n' b); auto. destruct b; [|exact E]. now apply IHl.
  - destruct y' as [| | | | | |m'|]; try (now injection E as <-). rewrite !value_map, yaml_eq_map, !map_length in E. rewrite s_eq_map.
    destruct (Nat.eqb _ _); [|exact E]. inversion S as [| | | | | |? F|]; subst. inversion S' as [| | | | | |? F'|]; subst. clear S S'.
    revert m' F' E. induction m as [|[k x] m IHm]; intros [|[k' x'] m'] F' E; try exact E. inversion IH as [|? ? [Hk Hx] IH']; subst. inversion F as [|? ? [Fk Fx] Fr]; subst. inversion F' as [|? ? [Fk' Fx'] Fr']; subst.
    cbn [fst snd] in *. cbn [List.map ents_eq entry_value fst snd] in E. cbn [s_ents_eq].
    destruct (node_eq (node_value k) (node_value k')) as [b|] eqn:En; [|discriminate]. rewrite (NE k k' b); auto. destruct b; [|exact E].
    destruct (node_eq (node_value x) (node_value x')) as [b|] eqn:En'; [|discriminate]. rewrite (NE x x' b); auto. destruct b; [|exact E]. now apply IHm.
Qed.
End Mem.
(** Where the comparison of the values gives an answer, the comparison that looks
    at the pointers first gives the same, whatever is shared; ... *)
Theorem C55_equality : forall mem a b r, held mem a -> held mem b ->
  node_eq (node_value a) (node_value b) = Some r -> s_node_eq a b = Some r.
Proof.
  intros mem a b r [A1 S1] [A2 S2] E. unfold node_eq in E. rewrite !node_value_yaml in E. unfold s_node_eq. destruct (Nat.eqb_spec (s_addr a) (s_addr b)) as [Ea|_].
  - rewrite Ea in A1. rewrite <- A1, <- A2 in E. apply self_eq in E. now subst.
  - now apply (eq_agrees mem).
Qed.
(** ... so on readable numbers sharing cannot be seen, and elsewhere it only
    avoids panics: *)
Theorem C55_readable : forall mem a b, held mem a -> held mem b ->
  readable (n_yaml (node_value a)) -> readable (n_yaml (node_value b)) -> s_node_eq a b = node_eq (node_value a) (node_value b).
Proof.
  intros mem a b Ha Hb Ra Rb. destruct (C28_eq_decides_same _ _ Ra Rb) as (r & E & _). rewrite E. now apply (C55_equality mem).
Qed.
Theorem C55_panics : forall mem a b, held mem a -> held mem b ->
  s_node_eq a b = None -> node_eq (node_value a) (node_value b) = None.
Proof.
  intros mem a b Ha Hb E. destruct (node_eq (node_value a) (node_value b)) as [r|] eqn:En; [|reflexivity].
  rewrite (C55_equality mem a b r Ha Hb En) in E. discriminate.
Qed.
Lemma match_agrees mem hk a b r : held mem a -> held mem b -> key_match hk (node_value a) (node_value b) = Some r -> s_key_match hk a b = Some r.
Proof.
  intros Ha Hb E. unfold key_match in E. rewrite !node_value_yaml in E. unfold s_key_match. destruct (_ =? _); [|exact E]. now apply (C55_equality mem).
Qed.
(** looking up a key *)
Theorem C55_get : forall mem hk k m o, held mem k -> Forall (held_entry mem) m ->
  map_get hk (node_value k) (List.map entry_value m) = Some o -> exists o', s_map_get hk k m = Some o' /\ option_map node_value o' = o.
Proof.
  intros mem hk k m o Hk F E. induction F as [|[k' v] m [Hk' Hv] F IH]; [injection E as <-; exists None; split; reflexivity|].
  cbn [List.map entry_value fst snd map_get] in E. cbn [s_map_get]. cbn [fst snd] in *.
  destruct (key_match hk (node_value k) (node_value k')) as [b|] eqn:Em; [|discriminate]. rewrite (match_agrees mem hk k k' b Hk Hk' Em).
  destruct b; [injection E as <-; eexists; split; reflexivity|]. now apply IH.
Qed.
Lemma take_agrees mem hk k m o r : held mem k -> Forall (held_entry mem) m -> map_take hk (node_value k) (List.map entry_value m) = Some (o, r) ->
  exists o' r', s_map_take hk k m = Some (o', r') /\ option_map node_value o' = o /\ List.map entry_value r' = r
    /\ Forall (held_entry mem) r' /\ (forall k', o' = Some k' -> held mem k').
Proof.
  intros Hk F. revert o r. induction F as [|[k' v] m [Hk' Hv] F IH]; intros o r E; [injection E as <- <-; exists None, []; split; [reflexivity|]; split; [reflexivity|]; split; [reflexivity|]; split; [apply Forall_nil|discriminate]|].
  cbn [List.map entry_value fst snd map_take] in E. cbn [s_map_take]. cbn [fst snd] in *.
  destruct (key_match hk (node_value k) (node_value k')) as [b|] eqn:Em; [|discriminate]. rewrite (match_agrees mem hk k k' b Hk Hk' Em).
  destruct b; [injection E as <- <-; exists (Some k'), m; split; [reflexivity|]; split; [reflexivity|]; split; [reflexivity|]; split; [assumption|now intros ? [= <-]]|].
  destruct (map_take hk (node_value k) (List.map entry_value m)) as [[o1 r1]|] eqn:Et; [|discriminate]. injection E as <- <-.
  destruct (IH _ _ eq_refl) as (o' & r' & -> & Eo & Er & Fr & Ho). exists o', ((k', v) :: r'). split; [reflexivity|]; split; [exact Eo|]; split; [cbn [List.map]; now rewrite Er|]; split; [constructor; [now split|assumption]|exact Ho].
Qed.
(** building a map out of pairs, as the parser does *)
Theorem C55_collect : forall mem hk l m, Forall (held_entry mem) l ->
  map_collect hk (List.map entry_value l) = Some m -> exists m', s_map_collect hk l = Some m' /\ List.map entry_value m' = m /\ Forall (held_entry mem) m'.
Proof.
  intros mem hk l m F. unfold map_collect, s_map_collect. assert (F0 : Forall (held_entry mem) []) by constructor.
  change (@nil (node * node)) with (List.map entry_value []). revert F0. generalize (@nil (snode * snode)). intros m0 F0 E. revert m0 F0 E.
  induction F as [|[k v] l [Hk Hv] F IH]; intros m0 F0 E; [injection E as <-; now exists m0|].
  cbn [List.map entry_value fst snd map_extend] in E. cbn [s_map_extend]. unfold map_insert in E. unfold s_map_insert. cbn [fst snd] in *.
  destruct (map_take hk (node_value k) (List.map entry_value m0)) as [[o r]|] eqn:Et; [|discriminate].
  destruct (take_agrees mem hk k m0 o r Hk F0 Et) as (o' & r' & -> & Eo & Er & Fr & Ho). subst o r.
  destruct o' as [k'|]; cbn [option_map] in E.
  - specialize (IH (r' ++ [(k', v)])). rewrite map_app in IH. apply IH; [|exact E]. apply Forall_app. split; [exact Fr|]. constructor; [split; [now apply Ho|exact Hv]|constructor].
  - specialize (IH (r' ++ [(k, v)])). rewrite map_app in IH. apply IH; [|exact E]. apply Forall_app. split; [exact Fr|]. constructor; [split; assumption|constructor].
Qed.
(** The comparison of an unreadable number with itself: the value comparison
    panics, the shared one does not.  So without the readability the two are not
    the same function. *)
Theorem C55_same_function_refuted : exists mem a, held mem a /\ s_node_eq a a = Some true /\ node_eq (node_value a) (node_value a) = None.
Proof.
  exists (fun _ => SInt (lit "99999999999999999999")), (SNode 0 [] 0 (SInt (lit "99999999999999999999"))). split; [split; [reflexivity|constructor]|]. split; vm_compute; reflexivity.
Qed.
(** a sequence twice in a map, once shared and once copied *)
Example C55_witness :
  let s := SSeq [SNode 3 [] 1 (SFloat (lit "NaN"))] in
  let mem := fun i => match i with 0%nat => s | 1%nat => SFloat (lit "NaN") | 2%nat => s
    | 3%nat => SMap [(SNode 0 [] 0 s, SNode 5 [] 0 s)] | _ => SMap [(SNode 0 [] 0 s, SNode 7 (lit "t") 2 s)] end in
  let a := SNode 0 [] 3 (mem 3%nat) in let b := SNode 1 [] 4 (mem 4%nat) in
  held mem a /\ held mem b /\ s_node_eq a b = Some true.
Proof.
  cbv zeta. assert (H : forall m, stored m (SSeq [SNode 3 [] 1 (SFloat (lit "NaN"))]) <-> m 1%nat = SFloat (lit "NaN")).
  { intros m. split; [inversion 1 as [| | | | |? F| |]; subst; inversion F as [|? ? [E _] _]; subst; exact E|]. intros E. repeat constructor. exact E. }
  split; [split; [reflexivity|]|split; [split; [reflexivity|]|vm_compute; reflexivity]].
  - constructor. constructor; [|constructor]. split; (split; [reflexivity|]); now apply H.
  - constructor. constructor; [|constructor]. split; (split; [reflexivity|]); now apply H.
Qed.
