(** * C36, C38, C39: serde *)
From Verif Require Export PropNode Serde.
Open Scope N_scope.

(** ** Specification *)

(** An integer type holds [z]. *)
Definition fits (signed : bool) (bits : N) (z : Z) : Prop :=
  (if signed then - 2 ^ (Z.of_N bits - 1) <= z < 2 ^ (Z.of_N bits - 1) else 0 <= z < 2 ^ Z.of_N bits)%Z.

(** Types with a value that is written as null. *)
Fixpoint nullable (t : ty) : bool :=
  match t with
  | TUnit | TOption _ | TNode => true
  | TNewtype t' => nullable t'
  | _ => false
  end.
(** Types without floats (and without [Node]). *)
Inductive exact : ty -> Prop :=
| ExBool : exact TBool
| ExInt s b : exact (TInt s b)
| ExChar : exact TChar
| ExString : exact TString
| ExBytes : exact TBytes
| ExUnit : exact TUnit
| ExOption t : exact t -> exact (TOption t)
| ExSeq t : exact t -> exact (TSeq t)
| ExTuple ts : Forall exact ts -> exact (TTuple ts)
| ExMap k v : exact k -> exact v -> exact (TMap k v)
| ExStruct fs : Forall (fun f => exact (snd f)) fs -> exact (TStruct fs)
| ExNewtype t : exact t -> exact (TNewtype t)
| ExEnum vs : Forall (fun v => exact_variant (snd v)) vs -> exact (TEnum vs)
with exact_variant : variant -> Prop :=
| ExUnitV : exact_variant UnitV
| ExNewtypeV t : exact t -> exact_variant (NewtypeV t)
| ExTupleV ts : Forall exact ts -> exact_variant (TupleV ts)
| ExStructV fs : Forall (fun f => exact (snd f)) fs -> exact_variant (StructV fs).

Fixpoint lookup {A} (name : str) (l : list (str * A)) : option A :=
  match l with
  | [] => None
  | (k, a) :: r => if str_eqb k name then Some a else lookup name r
  end.

(** The values of a type, as far as the round trip goes: integers in the i64
    range, ASCII characters, options of types that are never null, maps with
    different keys whose type has no floats, structs with different field
    names. *)
Inductive has : ty -> val -> Prop :=
| HasBool b : has TBool (VBool b)
| HasInt sg bits z : (0 < bits)%N -> fits sg bits z -> in_i64 z = true -> has (TInt sg bits) (VInt z)
| HasF64 f : (exists text, to_f64 text = Some f) -> has TF64 (VFloat f)
| HasChar c : c < 128 -> has TChar (VChar c)
| HasString s : has TString (VStr s)
| HasBytes l : Forall (fun b => b < 256) l -> has TBytes (VBytes l)
| HasUnit : has TUnit VUnit
| HasNone t : has (TOption t) VNone
| HasSome t v : nullable t = false -> has t v -> has (TOption t) (VSome v)
| HasSeq t l : Forall (has t) l -> has (TSeq t) (VList l)
| HasTuple ts l : Forall2 has ts l -> has (TTuple ts) (VList l)
| HasMap k v l : exact k -> NoDup (map fst l) -> Forall (fun e => has k (fst e) /\ has v (snd e)) l ->
    has (TMap k v) (VMap l)
| HasStruct fs l : NoDup (map fst fs) -> Forall2 (fun f x => has (snd f) x) fs l -> has (TStruct fs) (VList l)
| HasNewtype t v : has t v -> has (TNewtype t) v
| HasEnum vs name vr pl : lookup name vs = Some vr -> payload vr pl -> has (TEnum vs) (VEnum name pl)
with payload : variant -> val -> Prop :=
| PayUnit : payload UnitV VUnit
| PayNewtype t v : has t v -> payload (NewtypeV t) v
| PayTuple ts l : Forall2 has ts l -> payload (TupleV ts) (VList l)
| PayStruct fs l : NoDup (map fst fs) -> Forall2 (fun f x => has (snd f) x) fs l -> payload (StructV fs) (VList l).

(** What is asked of the float formatter ([f64]'s [Display]): its text reads
    back. *)
Definition reads_back (show_f : f64 -> str) : Prop :=
  forall text x, to_f64 text = Some x -> to_f64 (show_f x) = Some x.

(** ** Induction over types *)
Section TyInd.
  Variable P : ty -> Prop.
  Variable Q : variant -> Prop.
  Hypothesis Hbool : P TBool.
  Hypothesis Hint : forall s b, P (TInt s b).
  Hypothesis Hf64 : P TF64.
  Hypothesis Hchar : P TChar.
  Hypothesis Hstring : P TString.
  Hypothesis Hbytes : P TBytes.
  Hypothesis Hunit : P TUnit.
  Hypothesis Hoption : forall t, P t -> P (TOption t).
  Hypothesis Hseq : forall t, P t -> P (TSeq t).
  Hypothesis Htuple : forall ts, Forall P ts -> P (TTuple ts).
  Hypothesis Hmap : forall k v, P k -> P v -> P (TMap k v).
  Hypothesis Hstruct : forall fs, Forall (fun f => P (snd f)) fs -> P (TStruct fs).
  Hypothesis Hnewtype : forall t, P t -> P (TNewtype t).
  Hypothesis Henum : forall vs, Forall (fun v => Q (snd v)) vs -> P (TEnum vs).
  Hypothesis Hnode : P TNode.
  Hypothesis Qunit : Q UnitV.
  Hypothesis Qnewtype : forall t, P t -> Q (NewtypeV t).
  Hypothesis Qtuple : forall ts, Forall P ts -> Q (TupleV ts).
  Hypothesis Qstruct : forall fs, Forall (fun f => P (snd f)) fs -> Q (StructV fs).

  Fixpoint ty_ind2 (t : ty) : P t :=
    let all := fix go (ts : list ty) : Forall P ts :=
      match ts with [] => Forall_nil _ | t :: r => Forall_cons t (ty_ind2 t) (go r) end in
    let alls := fix go (fs : list (str * ty)) : Forall (fun f => P (snd f)) fs :=
      match fs with [] => Forall_nil _ | (f, t) :: r => Forall_cons (f, t) (ty_ind2 t) (go r) end in
    match t with
    | TBool => Hbool
    | TInt s b => Hint s b
    | TF64 => Hf64
    | TChar => Hchar
    | TString => Hstring
    | TBytes => Hbytes
    | TUnit => Hunit
    | TOption t => Hoption t (ty_ind2 t)
    | TSeq t => Hseq t (ty_ind2 t)
    | TTuple ts => Htuple ts (all ts)
    | TMap k v => Hmap k v (ty_ind2 k) (ty_ind2 v)
    | TStruct fs => Hstruct fs (alls fs)
    | TNewtype t => Hnewtype t (ty_ind2 t)
    | TEnum vs =>
      Henum vs ((fix go (vs : list (str * variant)) : Forall (fun v => Q (snd v)) vs :=
        match vs with [] => Forall_nil _ | (n, v) :: r => Forall_cons (n, v) (variant_ind2 v) (go r) end) vs)
    | TNode => Hnode
    end
  with variant_ind2 (v : variant) : Q v :=
    let all := fix go (ts : list ty) : Forall P ts :=
      match ts with [] => Forall_nil _ | t :: r => Forall_cons t (ty_ind2 t) (go r) end in
    let alls := fix go (fs : list (str * ty)) : Forall (fun f => P (snd f)) fs :=
      match fs with [] => Forall_nil _ | (f, t) :: r => Forall_cons (f, t) (ty_ind2 t) (go r) end in
    match v with
    | UnitV => Qunit
    | NewtypeV t => Qnewtype t (ty_ind2 t)
    | TupleV ts => Qtuple ts (all ts)
    | StructV fs => Qstruct fs (alls fs)
    end.
End TyInd.

(** ** The loops of [ser] and [de], unfolded *)
Section Loops.
  Variables (show_f : f64 -> str) (hk : hasher).
  Notation ser := (ser show_f hk).
  Notation de := (de show_f hk).
  Fixpoint ser_tuple (ts : list ty) (l : list val) : dres (list node) :=
      match ts, l with
      | [], [] => DOk []
      | t :: ts', x :: r => let! n := ser t x in let! ns := ser_tuple ts' r in DOk (n :: ns)
      | _, _ => DErr 0
      end.
  Fixpoint ser_fields (fs : list (str * ty)) (l : list val) (acc : list (node * node)) : dres (list (node * node)) :=
      match fs, l with
      | [], [] => DOk acc
      | (f, t) :: fs', x :: r =>
        let! n := ser t x in
        let! acc' := of_mp (map_insert hk (node_from (YStr f)) n acc) in
        ser_fields fs' r acc'
      | _, _ => DErr 0
      end.
  Definition ser_all (t : ty) : list val -> dres (list node) :=
    fix go (l : list val) :=
         match l with
         | [] => DOk []
         | x :: r => let! n := ser t x in let! ns := go r in DOk (n :: ns)
         end.
  Definition ser_entries (tk tv : ty) : list (val * val) -> list (node * node) -> dres (list (node * node)) :=
    fix go (l : list (val * val)) (acc : list (node * node)) :=
         match l with
         | [] => DOk acc
         | (a, b) :: r =>
           let! k := ser tk a in
           let! x := ser tv b in
           let! acc' := of_mp (map_insert hk k x acc) in
           go r acc'
         end.
  Definition tagged (name : str) (x : node) : node := node_from (YMap [(node_from (YStr name), x)]).
  Definition ser_variant (name : str) (vr : variant) (pl : val) : dres node :=
           match vr, pl with
           | UnitV, VUnit => DOk (node_from (YStr name))
           | NewtypeV t', x => let! n := ser t' x in DOk (tagged name n)
           | TupleV ts, VList l => let! ns := ser_tuple ts l in DOk (tagged name (node_from (YSeq ns)))
           | StructV fs, VList l => let! m := ser_fields fs l [] in DOk (tagged name (node_from (YMap m)))
           | _, _ => DErr 0
           end.
  Fixpoint de_tuple (ts : list ty) (l : list node) : dres (list val) :=
      match ts with
      | [] => DOk []
      | t :: ts' =>
        match l with
        | [] => DErr 0
        | x :: r => let! v := de t x in let! vs := de_tuple ts' r in DOk (v :: vs)
        end
      end.
  Fixpoint de_fields_seq (fs : list (str * ty)) (l : list node) : dres (list val) :=
      match fs with
      | [] => DOk []
      | (_, t) :: fs' =>
        match l with
        | [] => DErr 0
        | x :: r => let! v := de t x in let! vs := de_fields_seq fs' r in DOk (v :: vs)
        end
      end.
  Fixpoint de_field (fs : list (str * ty)) (f : str) (x : node) : option (dres val) :=
      match fs with
      | [] => None
      | (f', t) :: r => if str_eqb f' f then Some (de t x) else de_field r f x
      end.
  Definition de_map_fields (fs : list (str * ty)) (m : list (node * node)) : dres val :=
      let! acc := visit_fields (de_field fs) m [] in
      let! vs := collect_fields fs acc in
      DOk (VList vs).
  Definition de_payload (vr : variant) (o : option node) : dres val :=
             match vr, o with
             | UnitV, None => DOk VUnit
             | UnitV, Some x => let! _u := de_unit x in DOk VUnit
             | NewtypeV t', Some x => de t' x
             | TupleV ts, Some x =>
               match n_yaml x with
               | YSeq l => let! vs := de_tuple ts l in DOk (VList vs)
               | _ => unexpected x
               end
             | StructV fs, Some x =>
               match n_yaml x with
               | YMap m => de_map_fields fs m
               | _ => unexpected x
               end
             | _, None => DErr 0
             end.
  Lemma ser_tuple_eq ts l : ser (TTuple ts) (VList l) = let! ns := ser_tuple ts l in DOk (node_from (YSeq ns)).
  Proof. reflexivity. Qed.
  Lemma ser_seq_eq t l : ser (TSeq t) (VList l) = let! ns := ser_all t l in DOk (node_from (YSeq ns)).
  Proof. reflexivity. Qed.
  Lemma ser_map_eq tk tv l : ser (TMap tk tv) (VMap l) = let! m := ser_entries tk tv l [] in DOk (node_from (YMap m)).
  Proof. reflexivity. Qed.
  Lemma ser_struct_eq fs l : ser (TStruct fs) (VList l) = let! m := ser_fields fs l [] in DOk (node_from (YMap m)).
  Proof. reflexivity. Qed.
  Lemma ser_enum_eq vs name pl : ser (TEnum vs) (VEnum name pl)
    = match lookup name vs with Some vr => ser_variant name vr pl | None => DErr 0 end.
  Proof.
    induction vs as [|[n' vr] vs IH]; [reflexivity|]. cbn [lookup]. destruct (str_eqb n' name) eqn:E.
    - cbn [Serde.ser]. rewrite E. destruct vr; reflexivity.
    - rewrite <- IH. cbn [Serde.ser]. rewrite E. reflexivity.
  Qed.
  Lemma de_tuple_eq ts n : de (TTuple ts) n = match n_yaml n with YSeq l => let! vs := de_tuple ts l in DOk (VList vs) | _ => unexpected n end.
  Proof. reflexivity. Qed.
  Lemma de_struct_eq fs n : de (TStruct fs) n = match n_yaml n with YSeq l => let! vs := de_fields_seq fs l in DOk (VList vs) | YMap m => de_map_fields fs m | _ => unexpected n end.
  Proof. reflexivity. Qed.
  Definition de_enum_head (n : node) : dres (node * option node) :=
      match n_yaml n with
      | YMap [(k, x)] => DOk (k, Some x)
      | YMap _ => unexpected n
      | YStr _ => DOk (n, None)
      | _ => unexpected n
      end.
  Lemma de_enum_eq vs n : de (TEnum vs) n = let! kv := de_enum_head n in let! name := de_ident (fst kv) in
    match lookup name vs with Some vr => let! pl := de_payload vr (snd kv) in DOk (VEnum name pl) | None => DErr 0 end.
  Proof.
    cbn [Serde.de]. fold (de_enum_head n). destruct (de_enum_head n) as [[k o]|p|]; [|reflexivity..]. cbn [dbind fst snd].
    destruct (de_ident k) as [name|p|]; [|reflexivity..]. cbn [dbind].
    induction vs as [|[n' vr] vs IH]; [reflexivity|]. cbn [lookup]. destruct (str_eqb n' name) eqn:E.
    - destruct vr, o; reflexivity.
    - exact IH.
  Qed.
End Loops.

(** ** Nodes as the serializer builds them *)
Inductive normal : node -> Prop :=
| NormLeaf y : (match y with YSeq _ | YMap _ => False | _ => True end) -> normal (Node 0 [] y)
| NormSeq l : Forall normal l -> normal (Node 0 [] (YSeq l))
| NormMap m : Forall (fun kv => normal (fst kv) /\ normal (snd kv)) m -> normal (Node 0 [] (YMap m)).

Lemma spelled_eq : forall a b p q, same_spelled a b -> normal (Node p [] a) -> normal (Node q [] b) -> a = b.
Proof.
  induction a as [| b0 | s | s | s | l IH | m IH | al] using yaml_ind2; intros b p q S Na Nb;
    inversion S as [| | | | |? ? F|? ? F|]; subst; try reflexivity.
  - f_equal. inversion Na as [|? Fa|]; [contradiction|]; subst. inversion Nb as [|? Fb|]; [contradiction|]; subst. clear S Na Nb.
    revert IH Fa Fb. induction F as [|x y l l' Sx F IHF]; intros IH Fa Fb; [reflexivity|].
    inversion IH as [|? ? I1 I2]; inversion Fa as [|? ? A1 A2]; inversion Fb as [|? ? B1 B2]; subst. f_equal; [|auto].
    assert (Ex : exists y, x = Node 0 [] y) by (inversion A1; eauto). assert (Ey : exists z, y = Node 0 [] z) by (inversion B1; eauto).
    destruct Ex as [x' ->], Ey as [y' ->]. f_equal. eapply I1; eassumption.
  - f_equal. inversion Na as [| |? Fa]; [contradiction|]; subst. inversion Nb as [| |? Fb]; [contradiction|]; subst. clear S Na Nb.
    revert IH Fa Fb. induction F as [|[x1 x2] [y1 y2] l l' [Sx Sy] F IHF]; intros IH Fa Fb; [reflexivity|]. cbn [fst snd] in *.
    inversion IH as [|? ? [I1 J1] I2]; inversion Fa as [|? ? [A1 C1] A2]; inversion Fb as [|? ? [B1 D1] B2]; subst. cbn [fst snd] in *. f_equal; [|auto].
    assert (E1 : exists y, x1 = Node 0 [] y) by (inversion A1; eauto). assert (E2 : exists y, x2 = Node 0 [] y) by (inversion C1; eauto).
    assert (E3 : exists z, y1 = Node 0 [] z) by (inversion B1; eauto). assert (E4 : exists z, y2 = Node 0 [] z) by (inversion D1; eauto).
    destruct E1 as [u1 ->], E2 as [u2 ->], E3 as [u3 ->], E4 as [u4 ->]. f_equal; f_equal; [eapply I1|eapply J1]; eassumption.
Qed.
Lemma normal_eq a b : normal a -> normal b -> plain_ints (n_yaml a) -> plain_ints (n_yaml b) -> same (n_yaml a) (n_yaml b) -> a = b.
Proof.
  intros Na Nb Pa Pb S. assert (Ex : exists y, a = Node 0 [] y) by (inversion Na; eauto). assert (Ey : exists z, b = Node 0 [] z) by (inversion Nb; eauto).
  destruct Ex as [x ->], Ey as [y ->]. f_equal. apply (spelled_eq x y 0 0); try assumption. now apply plain_same_spelled.
Qed.

(** inserting a key that is not there *)
(** numbers *)
Lemma wrap_fits sg bits z : (0 < bits)%N -> fits sg bits z -> wrap_int sg bits z = z.
Proof.
  intros Hb H. unfold wrap_int. cbv zeta. set (m := (2 ^ Z.of_N bits)%Z).
  assert (M : (m = 2 * 2 ^ (Z.of_N bits - 1))%Z).
  { unfold m. rewrite <- Z.pow_succ_r by lia. f_equal. lia. }
  assert (P0 : (0 < 2 ^ (Z.of_N bits - 1))%Z) by (apply Z.pow_pos_nonneg; lia).
  unfold fits in H. destruct sg; cbn [andb].
  - destruct (Z.le_gt_cases 0 z) as [L|L].
    + rewrite Z.mod_small by lia. destruct (Z.leb_spec (2 ^ (Z.of_N bits - 1)) z); lia.
    + replace (z mod m)%Z with (z + m)%Z.
      2:{ symmetry. rewrite <- (Z.mod_small (z + m) m) by lia. replace (z + m)%Z with (z + 1 * m)%Z by lia. now rewrite Z.mod_add by lia. }
      destruct (Z.leb_spec (2 ^ (Z.of_N bits - 1)) (z + m)); lia.
  - rewrite Z.mod_small by (fold m in H; lia). reflexivity.
Qed.
Lemma de_show sg bits z : (0 < bits)%N -> fits sg bits z -> in_i64 z = true -> de_int sg bits (node_from (YInt (show_Z z))) = DOk z.
Proof. intros H1 H2 H3. unfold de_int. cbn [n_yaml node_from]. rewrite (to_i64_show z H3). now rewrite wrap_fits. Qed.
Lemma show_Z_N b : show_Z (Z.of_N b) = show_N b.
Proof. destruct b; reflexivity. Qed.
Lemma de_u8s_show l : Forall (fun b => b < 256) l -> de_u8s (List.map (fun b => node_from (YInt (show_N b))) l) = DOk l.
Proof.
  induction 1 as [|b l Hb Hl IH]; [reflexivity|]. cbn [List.map de_u8s]. rewrite <- show_Z_N.
  rewrite de_show; [|lia|unfold fits; change (2 ^ Z.of_N 8)%Z with 256%Z; lia|unfold in_i64, i64_min, i64_max; lia].
  cbn [dbind]. rewrite IH. cbn [dbind]. now rewrite N2Z.id.
Qed.

(** ** C36 *)
Section RoundTrip.
  Variables (show_f : f64 -> str) (hk : hasher).
  Hypothesis Hf : reads_back show_f.
  Notation ser := (ser show_f hk).
  Notation de := (de show_f hk).

  Definition ok (t : ty) (v : val) (n : node) : Prop :=
    ser t v = DOk n /\ de t n = DOk v /\ normal n /\ readable (n_yaml n)
    /\ (nullable t = false -> n_yaml n <> YNull) /\ (exact t -> plain_ints (n_yaml n)).
  Definition P (t : ty) : Prop := forall v, has t v -> exists n, ok t v n.
  Definition okv (vr : variant) (pl : val) (x : node) : Prop :=
    (forall name, ser_variant show_f hk name vr pl = DOk (tagged name x)) /\ de_payload show_f hk vr (Some x) = DOk pl
    /\ normal x /\ readable (n_yaml x) /\ (exact_variant vr -> plain_ints (n_yaml x)).
  Definition Q (vr : variant) : Prop := forall pl, payload vr pl -> (vr = UnitV /\ pl = VUnit) \/ exists x, okv vr pl x.

  Lemma leaf t v y : (match y with YSeq _ | YMap _ => False | _ => True end) -> readable y ->
    ser t v = DOk (node_from y) -> de t (node_from y) = DOk v -> (nullable t = false -> y <> YNull) -> (exact t -> plain_ints y) -> exists n, ok t v n.
  Proof. intros. exists (node_from y). repeat split; try assumption. now constructor. Qed.

  (** elementwise *)
  Lemma all_ok t l : P t -> Forall (has t) l ->
    exists ns, ser_all show_f hk t l = DOk ns /\ visit_all (de t) ns = DOk l /\ Forall normal ns
      /\ Forall (fun n => readable (n_yaml n)) ns /\ (exact t -> Forall (fun n => plain_ints (n_yaml n)) ns).
  Proof.
    intros HP H. induction H as [|x l Hx Hl IH].
    { exists []. repeat split; auto. }
    destruct IH as (ns & S & D & N & R & E). destruct (HP x Hx) as (n & S1 & D1 & N1 & R1 & _ & E1).
    exists (n :: ns). split; [cbn; fold (ser_all show_f hk t); now rewrite S1; cbn [dbind]; rewrite S|].
    split; [cbn [visit_all]; now rewrite D1; cbn [dbind]; rewrite D|]. repeat split; try (constructor; assumption). intros He. constructor; auto.
  Qed.
  Lemma tuple_ok ts l : Forall P ts -> Forall2 has ts l ->
    exists ns, ser_tuple show_f hk ts l = DOk ns /\ de_tuple show_f hk ts ns = DOk l /\ Forall normal ns
      /\ Forall (fun n => readable (n_yaml n)) ns /\ (Forall exact ts -> Forall (fun n => plain_ints (n_yaml n)) ns).
  Proof.
    intros HP H. induction H as [|t x ts l Hx Hl IH].
    { exists []. repeat split; auto. }
    inversion HP as [|? ? P1 P2]; subst. destruct (IH P2) as (ns & S & D & N & R & E). destruct (P1 x Hx) as (n & S1 & D1 & N1 & R1 & _ & E1).
    exists (n :: ns). split; [cbn [ser_tuple]; rewrite S1; cbn [dbind]; rewrite S; reflexivity|].
    split; [cbn [de_tuple]; rewrite D1; cbn [dbind]; rewrite D; reflexivity|]. repeat split; try (constructor; assumption).
    intros He. inversion He; subst. constructor; auto.
  Qed.

  (** fields: name, type, value and node *)
  Record fld := mkF { fn : str; ft : ty; fv : val; fx : node }.
  Definition fkey (q : fld) : str * ty := (fn q, ft q).
  Definition fent (q : fld) : node * node := (node_from (YStr (fn q)), fx q).
  Lemma fields_split fs l : Forall (fun f => P (snd f)) fs -> Forall2 (fun f x => has (snd f) x) fs l ->
    exists qs, fs = map fkey qs /\ l = map fv qs /\ Forall (fun q => ok (ft q) (fv q) (fx q)) qs.
  Proof.
    intros HP H. induction H as [|[f t] x fs l Hx Hl IH].
    { exists []. auto. }
    inversion HP as [|? ? P1 P2]; subst. destruct (IH P2) as (qs & -> & -> & F). destruct (P1 x Hx) as [n Hn].
    exists (mkF f t x n :: qs). repeat split. constructor; assumption.
  Qed.
  Lemma fields_ser qs : forall acc, Forall (fun q => ok (ft q) (fv q) (fx q)) qs ->
    (forall kv, In kv acc -> exists f, n_yaml (fst kv) = YStr f /\ ~ In f (map fn qs)) -> NoDup (map fn qs) ->
    ser_fields show_f hk (map fkey qs) (map fv qs) acc = DOk (acc ++ map fent qs).
  Proof.
    induction qs as [|q qs IH]; intros acc H Hacc Hd; [cbn; now rewrite app_nil_r|].
    inversion H as [|? ? (S1 & _) Hr]; subst. inversion Hd as [|? ? Hn Hd']; subst.
    cbn [map fkey]. unfold fkey at 1. cbn [ser_fields]. rewrite S1. cbn [dbind].
    rewrite insert_fresh.
    - cbn [of_mp dbind]. rewrite IH; [now rewrite <- app_assoc|assumption| |assumption].
      intros kv Hkv. apply in_app_iff in Hkv as [Hkv|[<-|[]]].
      + destruct (Hacc kv Hkv) as (f & E & Nf). exists f. split; [exact E|]. intros K. apply Nf. now right.
      + exists (fn q). split; [reflexivity|exact Hn].
    - constructor.
    - intros kv Hkv. destruct (Hacc kv Hkv) as (f & E & Nf). rewrite E. split; [constructor|].
      intros S. inversion S. apply Nf. now left.
  Qed.
  Lemma de_field_in qs q x : NoDup (map fn qs) -> In q qs -> de_field show_f hk (map fkey qs) (fn q) x = Some (de (ft q) x).
  Proof.
    intros Hd H. induction qs as [|q0 qs IH]; [destruct H|]. inversion Hd as [|? ? Hn Hd']; subst. cbn [map fkey de_field]. unfold fkey at 1. cbn [de_field].
    destruct H as [-> |H]; [now rewrite str_eqb_refl|].
    destruct (str_eqb (fn q0) (fn q)) eqn:E; [|auto]. apply str_eqb_eq in E. exfalso. apply Hn. rewrite E. now apply in_map.
  Qed.
  Lemma bt_get_app_none {V} k (a b : list (str * V)) : bt_get k a = None -> bt_get k (a ++ b) = bt_get k b.
  Proof. induction a as [|[k1 v] a IH]; cbn [app bt_get]; [reflexivity|]. destruct (str_eqb k k1); [discriminate|exact IH]. Qed.
  Lemma bt_get_not_in {V} k (a : list (str * V)) : ~ In k (map fst a) -> bt_get k a = None.
  Proof.
    induction a as [|[k1 v] a IH]; cbn [map fst bt_get]; intros H; [reflexivity|].
    destruct (str_eqb k k1) eqn:E; [apply str_eqb_eq in E; exfalso; apply H; now left|]. apply IH. intros K. apply H. now right.
  Qed.
  Lemma fields_visit qs0 : NoDup (map fn qs0) -> forall qs acc, incl qs qs0 -> Forall (fun q => ok (ft q) (fv q) (fx q)) qs ->
    NoDup (map fst acc ++ map fn qs) ->
    visit_fields (de_field show_f hk (map fkey qs0)) (map fent qs) acc = DOk (acc ++ map (fun q => (fn q, fv q)) qs).
  Proof.
    intros Hd0. induction qs as [|q qs IH]; intros acc Hi H Hd; [cbn; now rewrite app_nil_r|].
    inversion H as [|? ? (_ & D1 & _) Hr]; subst. cbn [map]. unfold fent at 1. cbn [visit_fields]. unfold de_ident at 1. cbn [n_yaml node_from dbind].
    rewrite (de_field_in qs0 q (fx q) Hd0) by (apply Hi; now left).
    rewrite bt_get_not_in. 2:{ cbn [map] in Hd. apply NoDup_remove_2 in Hd. intros K. apply Hd, in_app_iff. now left. }
    rewrite D1. cbn [dbind]. rewrite IH; [now rewrite <- app_assoc|intros x Hx; apply Hi; now right|assumption|].
    rewrite map_app, <- app_assoc. exact Hd.
  Qed.
  Lemma collect_ok qs0 : NoDup (map fn qs0) -> forall qs, incl qs qs0 ->
    collect_fields (map fkey qs) (map (fun q => (fn q, fv q)) qs0) = DOk (map fv qs).
  Proof.
    intros Hd. assert (G : forall q, In q qs0 -> bt_get (fn q) (map (fun q => (fn q, fv q)) qs0) = Some (fv q)).
    { induction qs0 as [|q0 qs0 IH]; intros q Hq; [destruct Hq|]. inversion Hd as [|? ? Hn Hd']; subst. cbn [map bt_get].
      destruct Hq as [-> |Hq]; [now rewrite str_eqb_refl|].
      destruct (str_eqb (fn q) (fn q0)) eqn:E; [|auto]. apply str_eqb_eq in E. exfalso. apply Hn. rewrite <- E. now apply in_map. }
    induction qs as [|q qs IH]; intros Hi; [reflexivity|]. cbn [map]. unfold fkey at 1. cbn [collect_fields].
    rewrite G by (apply Hi; now left). cbn [dbind]. rewrite IH by (intros x Hx; apply Hi; now right). reflexivity.
  Qed.
  Lemma struct_ok fs l : Forall (fun f => P (snd f)) fs -> NoDup (map fst fs) -> Forall2 (fun f x => has (snd f) x) fs l ->
    exists m, ser_fields show_f hk fs l [] = DOk m /\ de_map_fields show_f hk fs m = DOk (VList l)
      /\ Forall (fun kv => normal (fst kv) /\ normal (snd kv)) m
      /\ Forall (fun kv => readable (n_yaml (fst kv)) /\ readable (n_yaml (snd kv))) m
      /\ (Forall (fun f => exact (snd f)) fs -> Forall (fun kv => plain_ints (n_yaml (fst kv)) /\ plain_ints (n_yaml (snd kv))) m).
  Proof.
    intros HP Hd H. destruct (fields_split fs l HP H) as (qs & -> & -> & F).
    assert (Hd' : NoDup (map fn qs)) by (rewrite map_map in Hd; exact Hd).
    exists (map fent qs). split; [rewrite fields_ser; [reflexivity|assumption|intros ? []|assumption]|].
    split. { unfold de_map_fields. rewrite fields_visit; [|assumption|apply incl_refl|assumption|exact Hd']. cbn [dbind app].
             rewrite collect_ok; [reflexivity|assumption|apply incl_refl]. }
    clear Hd Hd' H HP. repeat split.
    - induction F as [|q qs (_ & _ & N & _) F IH]; cbn [map]; constructor; [|exact IH]. split; [now constructor|exact N].
    - induction F as [|q qs (_ & _ & _ & R & _) F IH]; cbn [map]; constructor; [|exact IH]. split; [constructor|exact R].
    - intros He. induction F as [|q qs (_ & _ & _ & _ & _ & E) F IH]; cbn [map] in *; constructor; inversion He; subst; [|auto]. split; [constructor|now apply E].
  Qed.
  Lemma struct_shape fs l : Forall (fun f => P (snd f)) fs -> NoDup (map fst fs) -> Forall2 (fun f x => has (snd f) x) fs l ->
    exists qs, fs = map fkey qs /\ l = map fv qs /\ ser_fields show_f hk fs l [] = DOk (map fent qs) /\ Forall (fun q => has (ft q) (fv q) /\ ser (ft q) (fv q) = DOk (fx q)) qs.
  Proof.
    intros HP Hd H. destruct (fields_split fs l HP H) as (qs & -> & -> & F).
    assert (Hd' : NoDup (map fn qs)) by (rewrite map_map in Hd; exact Hd).
    exists qs. split; [reflexivity|]. split; [reflexivity|]. split; [rewrite fields_ser; [reflexivity|assumption|intros ? []|assumption]|].
    clear - F H. induction F as [|q qs O F IH]; [constructor|]. cbn [map] in H. inversion H; subst. constructor; [|now apply IH]. split; [assumption|apply O].
  Qed.
  Lemma entries_ok k v l : P k -> P v -> exact k -> NoDup (map fst l) -> Forall (fun e => has k (fst e) /\ has v (snd e)) l ->
    exists m, ser_entries show_f hk k v l [] = DOk m /\ visit_entries (de k) (de v) m = DOk l
      /\ Forall (fun kv => normal (fst kv) /\ normal (snd kv)) m
      /\ Forall (fun kv => readable (n_yaml (fst kv)) /\ readable (n_yaml (snd kv))) m
      /\ (exact v -> Forall (fun kv => plain_ints (n_yaml (fst kv)) /\ plain_ints (n_yaml (snd kv))) m)
      /\ Forall2 (fun ab kx => ser k (fst ab) = DOk (fst kx) /\ ser v (snd ab) = DOk (snd kx)) l m.
  Proof.
    intros Pk Pv Ek Hd H.
    assert (G : forall l acc, NoDup (map fst l) -> Forall (fun e => has k (fst e) /\ has v (snd e)) l ->
       Forall (fun kv => exists a, ok k a (fst kv) /\ ~ In a (map fst l)) acc ->
       exists m, ser_entries show_f hk k v l acc = DOk (acc ++ m) /\ visit_entries (de k) (de v) m = DOk l
      /\ Forall (fun kv => normal (fst kv) /\ normal (snd kv)) m
      /\ Forall (fun kv => readable (n_yaml (fst kv)) /\ readable (n_yaml (snd kv))) m
      /\ (exact v -> Forall (fun kv => plain_ints (n_yaml (fst kv)) /\ plain_ints (n_yaml (snd kv))) m)
      /\ Forall2 (fun ab kx => ser k (fst ab) = DOk (fst kx) /\ ser v (snd ab) = DOk (snd kx)) l m).
    { clear l Hd H. induction l as [|[a b] l IH]; intros acc Hd H Hacc.
      { exists []. rewrite app_nil_r. repeat split; auto. }
      inversion Hd as [|? ? Hn Hd']; subst. inversion H as [|? ? [Ha Hb] Hl]; subst. cbn [fst snd] in *.
      destruct (Pk a Ha) as (x & Ox). destruct (Pv b Hb) as (y & Oy).
      destruct (IH (acc ++ [(x, y)]) Hd' Hl) as (m & S & D & N & R & E & F2).
      { apply Forall_app. split.
        - eapply Forall_impl; [|exact Hacc]. intros kv (a' & O & Na). exists a'. split; [exact O|]. intros K. apply Na. now right.
        - constructor; [|constructor]. exists a. split; [exact Ox|exact Hn]. }
      exists ((x, y) :: m).
      destruct Ox as (S1 & D1 & N1 & R1 & _ & E1). destruct Oy as (S2 & D2 & N2 & R2 & _ & E2).
      split.
      { cbn. fold (ser_entries show_f hk k v). rewrite S1. cbn [dbind]. rewrite S2. cbn [dbind]. rewrite insert_fresh; [|exact R1|].
        - cbn [of_mp dbind]. rewrite S, <- app_assoc. reflexivity.
        - intros kv Hkv. rewrite Forall_forall in Hacc. destruct (Hacc kv Hkv) as (a' & (S' & D' & N' & R' & _ & E') & Na).
          split; [exact R'|]. intros Sm. apply Na. left.
          assert (x = fst kv) by (apply normal_eq; auto). subst x. rewrite D1 in D'. now injection D'. }
      split; [cbn [visit_entries]; rewrite D1; cbn [dbind]; rewrite D2; cbn [dbind]; rewrite D; reflexivity|].
      repeat split; try (constructor; [split|]; assumption). intros He. constructor; [split; cbn [fst snd]; auto|auto]. }
    destruct (G l [] Hd H (Forall_nil _)) as (m & K). exists m. exact K.
  Qed.

  Theorem round_trip : forall t, P t.
  Proof.
    apply (ty_ind2 P Q).
    - intros v H; inversion H; subst. apply (leaf _ _ (YBool b)); try reflexivity; try constructor; discriminate.
    - intros sg bits v H; inversion H; subst. apply (leaf _ _ (YInt (show_Z z))); try reflexivity; try discriminate.
      + econstructor. now apply to_i64_show.
      + cbn [Serde.de]. now rewrite de_show.
      + intros _. now constructor.
    - intros v H; inversion H as [| |? [tx Ht] | | | | | | | | | | | |]; subst. pose proof (Hf tx f Ht) as K.
      apply (leaf _ _ (YFloat (show_f f))); try reflexivity; try discriminate.
      + econstructor. exact K.
      + cbn [Serde.de]. unfold de_f64. cbn [n_yaml node_from]. now rewrite K.
      + intros E. inversion E.
    - intros v H; inversion H; subst. apply (leaf _ _ (YStr [c])); try reflexivity; try constructor; try discriminate.
      cbn [Serde.de]. unfold de_char. cbn [n_yaml node_from]. unfold encode_char.
      destruct (N.ltb_spec c 128); [reflexivity|lia].
    - intros v H; inversion H; subst. apply (leaf _ _ (YStr s)); try reflexivity; try constructor; discriminate.
    - intros v H; inversion H as [| | | | |bs Hl| | | | | | | | |]; subst. exists (node_from (YSeq (List.map (fun b => node_from (YInt (show_N b))) bs))).
      repeat split; try discriminate.
      + cbn [Serde.de]. unfold de_bytes. cbn [n_yaml node_from]. rewrite (de_u8s_show bs Hl). reflexivity.
      + apply NormSeq. clear. induction bs; constructor; [now constructor|assumption].
      + constructor. clear - Hl. induction Hl as [|b l Hb Hl IH]; constructor; [|exact IH]. cbn [n_yaml node_from]. rewrite <- show_Z_N. econstructor. apply to_i64_show.
        unfold in_i64, i64_min, i64_max; lia.
      + intros _. constructor. clear - Hl. induction Hl as [|b l Hb Hl IH]; constructor; [|exact IH]. cbn [n_yaml node_from]. rewrite <- show_Z_N. constructor.
        unfold in_i64, i64_min, i64_max; lia.
    - intros v H; inversion H; subst. apply (leaf _ _ YNull); try reflexivity; try constructor; discriminate.
    - intros t IH v H; inversion H as [| | | | | | | |? w Hn Hw| | | | | |]; subst.
      + apply (leaf _ _ YNull); try reflexivity; try constructor; discriminate.
      + destruct (IH w Hw) as (n & S & D & N & R & NN & E). exists n. repeat split; try assumption; try discriminate.
        * cbn [Serde.de]. specialize (NN Hn). rewrite D. destruct (n_yaml n); try reflexivity. congruence.
        * intros K. inversion K; subst. auto.
    - intros t IH v H; inversion H as [| | | | | | | | |? l Hl| | | | |]; subst.
      destruct (all_ok t l IH Hl) as (ns & S & D & N & R & E). exists (node_from (YSeq ns)). repeat split; try discriminate.
      + rewrite ser_seq_eq, S. reflexivity.
      + cbn [Serde.de n_yaml node_from]. rewrite D. reflexivity.
      + now constructor.
      + now constructor.
      + intros K. inversion K; subst. constructor. auto.
    - intros ts IH v H; inversion H as [| | | | | | | | | |? l Hl| | | |]; subst.
      destruct (tuple_ok ts l IH Hl) as (ns & S & D & N & R & E). exists (node_from (YSeq ns)). repeat split; try discriminate.
      + rewrite ser_tuple_eq, S. reflexivity.
      + rewrite de_tuple_eq. cbn [n_yaml node_from]. rewrite D. reflexivity.
      + now constructor.
      + now constructor.
      + intros K. inversion K; subst. constructor. auto.
    - intros k v0 IHk IHv v H; inversion H as [| | | | | | | | | | |? ? l Ek Hd Hl| | |]; subst.
      destruct (entries_ok k v0 l IHk IHv Ek Hd Hl) as (m & S & D & N & R & E & _). exists (node_from (YMap m)). repeat split; try discriminate.
      + rewrite ser_map_eq, S. reflexivity.
      + cbn [Serde.de n_yaml node_from]. rewrite D. reflexivity.
      + now constructor.
      + now constructor.
      + intros K. inversion K; subst. constructor. auto.
    - intros fs IH v H; inversion H as [| | | | | | | | | | | |? l Hd Hl| |]; subst.
      destruct (struct_ok fs l IH Hd Hl) as (m & S & D & N & R & E). exists (node_from (YMap m)). repeat split; try discriminate.
      + rewrite ser_struct_eq, S. reflexivity.
      + rewrite de_struct_eq. cbn [n_yaml node_from]. exact D.
      + now constructor.
      + now constructor.
      + intros K. inversion K; subst. constructor. auto.
    - intros t IH v H; inversion H as [| | | | | | | | | | | | |? ? Hv|]; subst. destruct (IH v Hv) as (n & S & D & N & R & NN & E).
      exists n. repeat split; try assumption. intros K. inversion K; subst. auto.
    - intros vs IH v H; inversion H as [| | | | | | | | | | | | | |? name vr pl Hl Hp]; subst.
      assert (HQ : Q vr). { clear - IH Hl. induction IH as [|[n' v'] vs Hv IH IHv]; [discriminate|]. cbn [lookup] in Hl. destruct (str_eqb n' name); [injection Hl as <-; exact Hv|auto]. }
      destruct (HQ pl Hp) as [[-> ->]|(x & S & D & N & R & E)].
      + exists (node_from (YStr name)). repeat split; try discriminate; try (now constructor).
        * rewrite ser_enum_eq, Hl. reflexivity.
        * rewrite de_enum_eq. unfold de_enum_head. cbn [n_yaml node_from dbind fst snd]. unfold de_ident. cbn [n_yaml node_from dbind]. rewrite Hl. reflexivity.
      + exists (tagged name x). repeat split; try discriminate.
        * rewrite ser_enum_eq, Hl. apply S.
        * rewrite de_enum_eq. unfold de_enum_head, tagged. cbn [n_yaml node_from dbind fst snd]. unfold de_ident. cbn [n_yaml node_from dbind]. rewrite Hl, D. reflexivity.
        * apply NormMap. constructor; [|constructor]. split; [now constructor|exact N].
        * constructor. constructor; [|constructor]. split; [constructor|exact R].
        * intros K. inversion K as [| | | | | | | | | | | |? Fv]; subst. constructor. constructor; [|constructor]. split; [constructor|]. apply E.
          clear - Fv Hl. induction Fv as [|[n' v'] vs Hv Fv IHv]; [discriminate|]. cbn [lookup] in Hl. destruct (str_eqb n' name); [injection Hl as <-; exact Hv|auto].
    - intros v H; inversion H.
    - intros pl H; inversion H; subst. now left.
    - intros t IH pl H; inversion H as [|? ? Hv| |]; subst. right. destruct (IH pl Hv) as (n & S & D & N & R & NN & E). exists n.
      repeat split; try assumption.
      + intros name. cbn [ser_variant]. rewrite S. reflexivity.
      + intros K. inversion K; subst. auto.
    - intros ts IH pl H; inversion H as [| |? l Hl|]; subst. right. destruct (tuple_ok ts l IH Hl) as (ns & S & D & N & R & E). exists (node_from (YSeq ns)).
      repeat split.
      + intros name. cbn [ser_variant]. rewrite S. reflexivity.
      + cbn [de_payload n_yaml node_from]. rewrite D. reflexivity.
      + now constructor.
      + now constructor.
      + intros K. inversion K; subst. constructor. auto.
    - intros fs IH pl H; inversion H as [| | |? l Hd Hl]; subst. right. destruct (struct_ok fs l IH Hd Hl) as (m & S & D & N & R & E). exists (node_from (YMap m)).
      repeat split.
      + intros name. cbn [ser_variant]. rewrite S. reflexivity.
      + cbn [de_payload n_yaml node_from]. exact D.
      + now constructor.
      + now constructor.
      + intros K. inversion K; subst. constructor. auto.
  Qed.
End RoundTrip.

(** Serializing any value of any of the types succeeds, and deserializing the
    node at the same type gives the value back, for every hasher. *)
Theorem C36_round_trip : forall (show_f : f64 -> str) (hk : hasher), reads_back show_f ->
  forall (t : ty) (v : val), has t v ->
  exists n, to_node show_f hk t v = DOk n /\ de show_f hk t n = DOk v.
Proof. intros show_f hk Hf t v H. destruct (round_trip show_f hk Hf t v H) as (n & S & D & _). eauto. Qed.
