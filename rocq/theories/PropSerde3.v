(** * C46, C47: what is read into a type, and what is written for a value *)
From Verif Require Import PropFloat3.
From Verif Require Export PropMisc PropSerde2.
Open Scope N_scope.

(** ** Specification of reading *)

(** the values given for a field, in order *)
Definition named (f : str) (m : list (node * node)) : list node :=
  List.map snd (List.filter (fun kv => match n_yaml (fst kv) with YStr s => str_eqb s f | _ => false end) m).
Definition string_keys (m : list (node * node)) : Prop := Forall (fun kv => exists s, n_yaml (fst kv) = YStr s) m.
(** the integer of the type that differs from the given one by a multiple of
    two to the number of bits ([as]) *)
Definition cast (signed : bool) (bits : N) (z z' : Z) : Prop :=
  int_range signed bits z' /\ exists q, (z' = z + q * 2 ^ Z.of_N bits)%Z.

Section Reading.
Variables (show_f : f64 -> str) (hk : hasher).
(** [reads t n v]: data [n] is accepted as type [t], with value [v].
    - A string type also takes numbers and null and booleans, as their text.
    - A tuple ignores elements it has no place for.
    - A struct from a map: all keys are strings, unknown ones are ignored, each
      field is given once or, if it is an [Option], not at all.  From a sequence:
      the fields in order.
    - An enum: the name, or a map with the one entry name: payload. *)
Inductive reads : ty -> node -> val -> Prop :=
| RdBool n b : n_yaml n = YBool b -> reads TBool n (VBool b)
| RdInt sg bits n s z z' : n_yaml n = YInt s -> to_i64 s = Some z -> cast sg bits z z' -> reads (TInt sg bits) n (VInt z')
| RdFloat n s x : n_yaml n = YFloat s -> to_f64 s = Some x -> reads TF64 n (VFloat x)
| RdFloatInt n s z : n_yaml n = YInt s -> to_i64 s = Some z -> reads TF64 n (VFloat (f64_of_Z z))
| RdChar n c : n_yaml n = YStr [c] \/ n_yaml n = YInt [c] -> c < 128 -> reads TChar n (VChar c)
| RdString n s : n_yaml n = YStr s \/ n_yaml n = YInt s \/ n_yaml n = YFloat s -> reads TString n (VStr s)
| RdTrue n : n_yaml n = YBool true -> reads TString n (VStr (lit "true"))
| RdFalse n : n_yaml n = YBool false -> reads TString n (VStr (lit "false"))
| RdNullText n : n_yaml n = YNull -> reads TString n (VStr (lit "null"))
| RdBytes n s : n_yaml n = YStr s -> reads TBytes n (VBytes (utf8_encode s))
| RdByteList n l bs : n_yaml n = YSeq l -> Forall2 (fun x b => exists s z, n_yaml x = YInt s /\ to_i64 s = Some z /\ cast false 8 z (Z.of_N b)) l bs -> reads TBytes n (VBytes bs)
| RdUnit n : n_yaml n = YNull -> reads TUnit n VUnit
| RdNone t n : n_yaml n = YNull -> reads (TOption t) n VNone
| RdSome t n v : n_yaml n <> YNull -> reads t n v -> reads (TOption t) n (VSome v)
| RdSeq t n l vs : n_yaml n = YSeq l -> Forall2 (reads t) l vs -> reads (TSeq t) n (VList vs)
| RdTuple ts n l vs : n_yaml n = YSeq l -> reads_first ts l vs -> reads (TTuple ts) n (VList vs)
| RdMap k v n m es : n_yaml n = YMap m -> Forall2 (fun kx ab => reads k (fst kx) (fst ab) /\ reads v (snd kx) (snd ab)) m es -> reads (TMap k v) n (VMap es)
| RdStruct fs n m vs : n_yaml n = YMap m -> string_keys m -> reads_fields fs m vs -> reads (TStruct fs) n (VList vs)
| RdStructSeq fs n l vs : n_yaml n = YSeq l -> reads_first (List.map snd fs) l vs -> reads (TStruct fs) n (VList vs)
| RdNewtype t n v : reads t n v -> reads (TNewtype t) n v
| RdEnumName vs n name : n_yaml n = YStr name -> lookup name vs = Some UnitV -> reads (TEnum vs) n (VEnum name VUnit)
| RdEnum vs n k x name vr pl : n_yaml n = YMap [(k, x)] -> n_yaml k = YStr name -> lookup name vs = Some vr -> reads_payload vr x pl -> reads (TEnum vs) n (VEnum name pl)
| RdNode n n' : de_node show_f hk n = DOk n' -> reads TNode n (VNode n')
with reads_first : list ty -> list node -> list val -> Prop :=
| RFNil l : reads_first [] l []
| RFCons t ts n l v vs : reads t n v -> reads_first ts l vs -> reads_first (t :: ts) (n :: l) (v :: vs)
with reads_fields : list (str * ty) -> list (node * node) -> list val -> Prop :=
| RfNil m : reads_fields [] m []
| RfGiven f t fs m n v vs : named f m = [n] -> reads t n v -> reads_fields fs m vs -> reads_fields ((f, t) :: fs) m (v :: vs)
| RfAbsent f t fs m vs : named f m = [] -> reads_fields fs m vs -> reads_fields ((f, TOption t) :: fs) m (VNone :: vs)
with reads_payload : variant -> node -> val -> Prop :=
| RpUnit n : n_yaml n = YNull -> reads_payload UnitV n VUnit
| RpNewtype t n v : reads t n v -> reads_payload (NewtypeV t) n v
| RpTuple ts n l vs : n_yaml n = YSeq l -> reads_first ts l vs -> reads_payload (TupleV ts) n (VList vs)
| RpStruct fs n m vs : n_yaml n = YMap m -> string_keys m -> reads_fields fs m vs -> reads_payload (StructV fs) n (VList vs).
End Reading.

(** A type of Rust: integers have bits, a struct has no two fields of one name. *)
Inductive rust_ty : ty -> Prop :=
| RtBool : rust_ty TBool
| RtInt s b : 0 < b -> rust_ty (TInt s b)
| RtF64 : rust_ty TF64
| RtChar : rust_ty TChar
| RtString : rust_ty TString
| RtBytes : rust_ty TBytes
| RtUnit : rust_ty TUnit
| RtOption t : rust_ty t -> rust_ty (TOption t)
| RtSeq t : rust_ty t -> rust_ty (TSeq t)
| RtTuple ts : Forall rust_ty ts -> rust_ty (TTuple ts)
| RtMap k v : rust_ty k -> rust_ty v -> rust_ty (TMap k v)
| RtStruct fs : NoDup (List.map fst fs) -> Forall (fun f => rust_ty (snd f)) fs -> rust_ty (TStruct fs)
| RtNewtype t : rust_ty t -> rust_ty (TNewtype t)
| RtEnum vs : Forall (fun v => rust_variant (snd v)) vs -> rust_ty (TEnum vs)
| RtNode : rust_ty TNode
with rust_variant : variant -> Prop :=
| RvUnit : rust_variant UnitV
| RvNewtype t : rust_ty t -> rust_variant (NewtypeV t)
| RvTuple ts : Forall rust_ty ts -> rust_variant (TupleV ts)
| RvStruct fs : NoDup (List.map fst fs) -> Forall (fun f => rust_ty (snd f)) fs -> rust_variant (StructV fs).

(** ** Proof *)
Lemma un_not {A} n (v : A) : unexpected n = DOk v -> False.
Proof. unfold unexpected. destruct (n_yaml n); try discriminate; [destruct (to_i64 _)|destruct (to_f64 _)]; discriminate. Qed.
Lemma cast_wrap sg bits z z' : 0 < bits -> cast sg bits z z' <-> wrap_int sg bits z = z'.
Proof.
  intros Hb. set (M := (2 ^ Z.of_N bits)%Z). assert (PM : (0 < M)%Z) by (apply Z.pow_pos_nonneg; lia).
  assert (C : exists q, wrap_int sg bits z = (z + q * M)%Z).
  { unfold wrap_int. fold M. pose proof (Z.div_mod z M ltac:(lia)) as D. destruct (sg && _); [exists (- (z / M) - 1)%Z|exists (- (z / M))%Z]; lia. }
  destruct C as [q Hq]. split.
  - intros [R (q' & E)]. fold M in E. pose proof (wrap_fits sg bits z' Hb R) as W. rewrite <- W, E. clear - PM. unfold wrap_int. fold M. now rewrite Z.mod_add by lia.
  - intros <-. split; [now apply wrap_range|]. exists q. exact Hq.
Qed.
Lemma int_reads sg bits n z' : 0 < bits -> de_int sg bits n = DOk z' <-> exists s z, n_yaml n = YInt s /\ to_i64 s = Some z /\ cast sg bits z z'.
Proof.
  intros Hb. unfold de_int. split.
  - destruct (n_yaml n) as [| |s| | | | |] eqn:En; try (intros H; now apply un_not in H). destruct (to_i64 s) as [z|] eqn:Ez; [|discriminate]. intros [= <-].
    exists s, z. split; [reflexivity|]. split; [exact Ez|]. now apply cast_wrap.
  - intros (s & z & -> & -> & C). apply cast_wrap in C; [|exact Hb]. now rewrite C.
Qed.
Lemma null_iff n : is_null n = true <-> n_yaml n = YNull.
Proof. unfold is_null. destruct (n_yaml n); cbn; split; congruence. Qed.
Lemma unit_reads n : de_unit n = DOk tt <-> n_yaml n = YNull.
Proof.
  unfold de_unit. rewrite <- null_iff. destruct (is_null n); split; try reflexivity; try congruence. intros H. now apply un_not in H.
Qed.
Lemma dbind_ok {A B} (r : dres A) (f : A -> dres B) b : dbind r f = DOk b <-> exists a, r = DOk a /\ f a = DOk b.
Proof. destruct r; cbn [dbind]; split; try discriminate; try (intros (a' & [= <-] & H); exact H); try (intros (a' & H & _); discriminate). eauto. Qed.
Lemma lookup_in {A} name (l : list (str * A)) a : lookup name l = Some a -> In (name, a) l.
Proof.
  induction l as [|[k x] l IH]; cbn [lookup]; [discriminate|]. destruct (str_eqb k name) eqn:E; [|right; auto].
  apply str_eqb_eq in E. subst. intros [= ->]. now left.
Qed.

Section Proof.
Variables (show_f : f64 -> str) (hk : hasher).
Notation de := (de show_f hk).
Notation reads := (reads show_f hk).
Notation reads_first := (reads_first show_f hk).
Notation reads_fields := (reads_fields show_f hk).
Notation reads_payload := (reads_payload show_f hk).
Definition same_t (t : ty) : Prop := rust_ty t -> forall n v, de t n = DOk v <-> reads t n v.
Definition same_v (vr : variant) : Prop := rust_variant vr -> forall n v, de_payload show_f hk vr (Some n) = DOk v <-> reads_payload vr n v.
Lemma first_same ts : Forall same_t ts -> Forall rust_ty ts -> forall l vs, de_tuple show_f hk ts l = DOk vs <-> reads_first ts l vs.
Proof.
  induction 1 as [|t ts Ht _ IH]; intros R l vs; cbn [de_tuple].
  - split; [intros [= <-]; constructor|]. now inversion 1.
  - inversion R as [|? ? R1 R2]; subst. destruct l as [|x l]; [split; [discriminate|now inversion 1]|]. rewrite dbind_ok. split.
    + intros (v & E & H). apply dbind_ok in H as (vs' & E' & [= <-]). constructor; [now apply Ht|now apply IH].
    + inversion 1; subst. exists v. split; [now apply Ht|]. apply dbind_ok. exists vs0. split; [now apply IH|reflexivity].
Qed.
Lemma fields_seq_eq fs l : de_fields_seq show_f hk fs l = de_tuple show_f hk (List.map snd fs) l.
Proof.
  revert l. induction fs as [|[f t] fs IH]; intros l; [reflexivity|]. cbn [de_fields_seq List.map snd de_tuple]. destruct l as [|x l]; [reflexivity|].
  destruct (de t x); try reflexivity. cbn [dbind]. now rewrite IH.
Qed.
Lemma named_cons f k x m : named f ((k, x) :: m) = (match n_yaml k with YStr s => if str_eqb s f then [x] else [] | _ => [] end) ++ named f m.
Proof. unfold named. cbn [List.filter fst]. destruct (n_yaml k); try reflexivity. destruct (str_eqb s f); reflexivity. Qed.
Lemma field_find fs f t x : NoDup (List.map fst fs) -> In (f, t) fs -> de_field show_f hk fs f x = Some (de t x).
Proof.
  induction fs as [|[f' t'] fs IH]; intros Hd H; [destruct H|]. inversion Hd as [|? ? Hn Hd']; subst. cbn [de_field].
  destruct H as [[= -> ->]|H]; [now rewrite str_eqb_refl|]. destruct (str_eqb f' f) eqn:E; [|auto]. apply str_eqb_eq in E. subst. exfalso. apply Hn. now apply (in_map fst) in H.
Qed.
Lemma field_none fs f x : de_field show_f hk fs f x = None <-> ~ In f (List.map fst fs).
Proof.
  induction fs as [|[f' t'] fs IH]; cbn [de_field List.map fst]; [split; [intros _ []|reflexivity]|]. destruct (str_eqb f' f) eqn:E.
  - apply str_eqb_eq in E. split; [discriminate|]. intros K. exfalso. apply K. now left.
  - rewrite IH. split; [intros K [->|H]; [now rewrite str_eqb_refl in E|now apply K]|intros K H; apply K; now right].
Qed.
Lemma bt_snoc {V} k f (w : V) acc : bt_get k (acc ++ [(f, w)]) = match bt_get k acc with Some v => Some v | None => if str_eqb k f then Some w else None end.
Proof. induction acc as [|[k1 v] acc IH]; cbn [app bt_get]; [reflexivity|]. destruct (str_eqb k k1); [reflexivity|exact IH]. Qed.
Section Fields.
Variable fs : list (str * ty).
Hypothesis Hd : NoDup (List.map fst fs).
Lemma visit_forward : forall m acc acc', visit_fields (de_field show_f hk fs) m acc = DOk acc' ->
  string_keys m /\ forall f t, In (f, t) fs ->
    match bt_get f acc with
    | Some v => named f m = [] /\ bt_get f acc' = Some v
    | None => (named f m = [] /\ bt_get f acc' = None) \/ exists x v, named f m = [x] /\ de t x = DOk v /\ bt_get f acc' = Some v
    end.
Proof.
  induction m as [|[k x] m IH]; intros acc acc' E; cbn [visit_fields] in E.
  - injection E as <-. split; [constructor|]. intros f t _. destruct (bt_get f acc); [auto|left; auto].
  - apply dbind_ok in E as (g & Eg & E). assert (Kg : n_yaml k = YStr g).
    { unfold de_ident in Eg. destruct (n_yaml k); try (now apply un_not in Eg). now injection Eg as ->. }
    destruct (de_field show_f hk fs g x) as [d|] eqn:Ed.
    + destruct (bt_get g acc) as [w|] eqn:Ew; [discriminate|]. apply dbind_ok in E as (v & -> & E). destruct (IH _ _ E) as [S F]. split; [constructor; eauto|].
      intros f t Hft. specialize (F f t Hft). rewrite bt_snoc in F. rewrite named_cons, Kg. destruct (str_eqb f g) eqn:Efg.
      * apply str_eqb_eq in Efg. subst g. rewrite Ew in *. rewrite str_eqb_refl. destruct F as [F1 F2]. right. exists x, v. rewrite F1.
        split; [reflexivity|]. split; [|exact F2]. rewrite (field_find fs f t x Hd Hft) in Ed. now injection Ed.
      * assert (Efg' : str_eqb g f = false) by (destruct (str_eqb g f) eqn:Q; [apply str_eqb_eq in Q; subst; now rewrite str_eqb_refl in Efg|reflexivity]).
        rewrite Efg'. cbn [app]. destruct (bt_get f acc); exact F.
    + destruct (IH _ _ E) as [S F]. split; [constructor; eauto|]. intros f t Hft. specialize (F f t Hft). rewrite named_cons, Kg.
      assert (Efg' : str_eqb g f = false). { destruct (str_eqb g f) eqn:Q; [|reflexivity]. apply str_eqb_eq in Q. subst. apply field_none in Ed. exfalso. apply Ed. now apply (in_map fst) in Hft. }
      rewrite Efg'. exact F.
Qed.
Lemma visit_back : forall m acc, string_keys m -> (forall f t, In (f, t) fs ->
    match bt_get f acc with
    | Some v => named f m = []
    | None => named f m = [] \/ exists x v, named f m = [x] /\ de t x = DOk v
    end) -> exists acc', visit_fields (de_field show_f hk fs) m acc = DOk acc'.
Proof.
  induction m as [|[k x] m IH]; intros acc S F; [eexists; reflexivity|]. inversion S as [|? ? [g Kg] S']; subst. cbn [fst] in Kg. cbn [visit_fields].
  unfold de_ident at 1. rewrite Kg. cbn [dbind]. destruct (de_field show_f hk fs g x) as [d|] eqn:Ed.
  - assert (Hg : exists t, In (g, t) fs).
    { destruct (in_dec (list_eq_dec N.eq_dec) g (List.map fst fs)) as [K|K]; [apply in_map_iff in K as ([g' t] & E & K); cbn in E; subst; eauto|]. apply (field_none fs g x) in K. congruence. }
    destruct Hg as (t & Hg). pose proof (F g t Hg) as Fg. rewrite (field_find fs g t x Hd Hg) in Ed. injection Ed as <-. rewrite named_cons, Kg, str_eqb_refl in Fg. cbn [app] in Fg.
    destruct (bt_get g acc) as [w|] eqn:Ew; [discriminate|]. destruct Fg as [Fg|(x' & v & [= -> Fg] & Dv)]; [discriminate|]. rewrite Dv. cbn [dbind]. apply IH; [exact S'|].
    intros f t' Hft. rewrite bt_snoc. specialize (F f t' Hft). rewrite named_cons, Kg in F. destruct (str_eqb f g) eqn:Efg.
    + apply str_eqb_eq in Efg. subst g. rewrite Ew. exact Fg.
    + assert (Efg' : str_eqb g f = false) by (destruct (str_eqb g f) eqn:Q; [apply str_eqb_eq in Q; subst; now rewrite str_eqb_refl in Efg|reflexivity]).
      rewrite Efg' in F. cbn [app] in F. destruct (bt_get f acc); exact F.
  - apply IH; [exact S'|]. intros f t Hft. specialize (F f t Hft). rewrite named_cons, Kg in F.
    assert (Efg' : str_eqb g f = false). { destruct (str_eqb g f) eqn:Q; [|reflexivity]. apply str_eqb_eq in Q. subst. apply field_none in Ed. exfalso. apply Ed. now apply (in_map fst) in Hft. }
    rewrite Efg' in F. exact F.
Qed.
End Fields.
Lemma fields_same fs : NoDup (List.map fst fs) -> Forall (fun f => same_t (snd f)) fs -> Forall (fun f => rust_ty (snd f)) fs ->
  forall m v, de_map_fields show_f hk fs m = DOk v <-> exists vs, v = VList vs /\ string_keys m /\ reads_fields fs m vs.
Proof.
  intros Hd Ht Hr m v. unfold de_map_fields. rewrite dbind_ok. split.
  - intros (acc & E & H). apply dbind_ok in H as (vs & C & [= <-]). exists vs. split; [reflexivity|]. destruct (visit_forward fs Hd m [] acc E) as [S F]. split; [exact S|].
    assert (I : incl fs fs) by apply incl_refl. revert I vs C. generalize fs at 1 3 4. intros gs. clear E. intros I.
    assert (G : Forall (fun f => same_t (snd f) /\ rust_ty (snd f)) gs).
    { apply Forall_forall. intros g Hg. rewrite Forall_forall in Ht, Hr. split; [apply Ht|apply Hr]; now apply I. }
    clear Ht Hr. induction gs as [|[f t] gs IH]; intros vs C; cbn [collect_fields] in C.
    + injection C as <-. constructor.
    + apply dbind_ok in C as (v & Ev & C). apply dbind_ok in C as (vs' & C & [= <-]). inversion G as [|? ? [G1 G1'] G2]; subst.
      assert (Hft : In (f, t) fs) by (apply I; now left). specialize (F f t Hft). cbn [bt_get] in F. destruct F as [[F1 F2]|(x & w & F1 & F2 & F3)].
      * rewrite F2 in Ev. unfold missing in Ev. destruct t; try discriminate. injection Ev as <-. apply RfAbsent; [exact F1|]. apply IH; auto. intros z Hz. apply I. now right.
      * rewrite F3 in Ev. injection Ev as <-. apply (RfGiven show_f hk f t gs m x); [exact F1|now apply G1|]. apply IH; auto. intros z Hz. apply I. now right.
  - intros (vs & -> & S & H).
    assert (B : forall f t, In (f, t) fs -> named f m = [] /\ (exists t', t = TOption t') \/ exists x v, named f m = [x] /\ de t x = DOk v).
    { clear S. revert vs H. clear Hd. induction fs as [|[f t] gs IH]; intros vs H f' t' Hin; [destruct Hin|]. inversion Ht as [|? ? T1 T2]; subst. inversion Hr as [|? ? R1 R2]; subst.
      inversion H as [|? ? ? ? n v vs' Hn Hv Hrest|? t0 ? ? vs' Hn Hrest]; subst.
      - destruct Hin as [[= <- <-]|Hin]; [|eapply IH; eassumption]. right. exists n, v. split; [exact Hn|]. now apply T1.
      - destruct Hin as [[= <- <-]|Hin]; [|eapply IH; eassumption]. left. split; [exact Hn|]. eauto. }
    destruct (visit_back fs Hd m [] S) as (acc & E).
    { intros f t Hft. cbn [bt_get]. destruct (B f t Hft) as [[B1 _]|B1]; [now left|now right]. }
    exists acc. split; [exact E|]. destruct (visit_forward fs Hd m [] acc E) as [_ F]. apply dbind_ok. exists vs. split; [|reflexivity].
    assert (I : incl fs fs) by apply incl_refl. revert I vs H. generalize fs at 1 3 4. intros gs I.
    assert (G : Forall (fun f => same_t (snd f) /\ rust_ty (snd f)) gs).
    { apply Forall_forall. intros g Hg. rewrite Forall_forall in Ht, Hr. split; [apply Ht|apply Hr]; now apply I. }
    induction gs as [|[f t] gs IH]; intros vs H; cbn [collect_fields].
    + inversion H. reflexivity.
    + inversion G as [|? ? [G1 G1'] G2]; subst. assert (Hft : In (f, t) fs) by (apply I; now left). specialize (F f t Hft). cbn [bt_get] in F.
      inversion H as [|? ? ? ? n v vs' Hn Hv Hrest|? t0 ? ? vs' Hn Hrest]; subst.
      * destruct F as [[F1 _]|(x & w & F1 & F2 & F3)]; [congruence|]. rewrite Hn in F1. injection F1 as <-. apply (proj2 (G1 G1' _ _)) in Hv. cbn [snd] in Hv. rewrite Hv in F2. injection F2 as <-.
        rewrite F3. cbn [dbind]. rewrite (IH (fun z Hz => I z (or_intror Hz)) G2 vs' Hrest). reflexivity.
      * destruct F as [[_ F2]|(x & w & F1 & _)]; [|congruence]. rewrite F2. cbn [missing dbind]. rewrite (IH (fun z Hz => I z (or_intror Hz)) G2 vs' Hrest). reflexivity.
Qed.
Lemma all_same : forall t, same_t t.
Proof.
  apply (ty_ind2 same_t same_v); unfold same_t, same_v.
  - intros _ n v. cbn [Serde.de]. split; [|inversion 1 as [? b E| | | | | | | | | | | | | | | | | | | | | |]; subst; now rewrite E].
    destruct (n_yaml n) eqn:E; try (intros H; now apply un_not in H). intros [= <-]. now constructor.
  - intros sg b R n v. inversion R; subst. cbn [Serde.de]. rewrite dbind_ok. split.
    + intros (z & E & [= <-]). apply int_reads in E as (s & z0 & E1 & E2 & C); [|assumption]. econstructor; eassumption.
    + inversion 1; subst. exists z'. split; [|reflexivity]. apply int_reads; eauto.
  - intros _ n v. cbn [Serde.de]. rewrite dbind_ok. unfold de_f64. split.
    + intros (x & E & [= <-]). destruct (n_yaml n) as [| |s|s| | | |] eqn:En; try (now apply un_not in E).
      * destruct (to_i64 s) eqn:Ez; [|discriminate]. injection E as <-. eapply RdFloatInt; eassumption.
      * destruct (to_f64 s) eqn:Ez; [|discriminate]. injection E as <-. eapply RdFloat; eassumption.
    + inversion 1 as [| |? s x E E2|? s z E E2| | | | | | | | | | | | | | | | | | |]; subst; rewrite E, E2; eauto.
  - intros _ n v. cbn [Serde.de]. rewrite dbind_ok. unfold de_char. split.
    + intros (c & E & [= <-]). assert (G : forall s, (match s with [c0] => if Nat.eqb (List.length (encode_char c0)) 1 then DOk c0 else unexpected n | _ => unexpected n end) = DOk c -> s = [c] /\ c < 128).
      { intros s. destruct s as [|c0 [|]]; try (intros H; now apply un_not in H). unfold encode_char. destruct (N.ltb_spec c0 128).
        - intros [= <-]. auto.
        - destruct (c0 <? 2048); [|destruct (c0 <? 65536)]; cbn [List.length Nat.eqb]; intros K; now apply un_not in K. }
      destruct (n_yaml n) as [| |s| |s| | |] eqn:En; try (now apply un_not in E); apply G in E as [-> Hc]; constructor; auto.
    + inversion 1 as [| | | |? c E Hc| | | | | | | | | | | | | | | | | |]; subst. exists c. split; [|reflexivity].
      assert (L : Nat.eqb (List.length (encode_char c)) 1 = true) by (unfold encode_char; now rewrite (proj2 (N.ltb_lt c 128) Hc)).
      destruct E as [-> | ->]; now rewrite L.
  - intros _ n v. cbn [Serde.de]. rewrite dbind_ok. unfold de_str. split.
    + intros (s' & E & [= <-]). destruct (n_yaml n) as [|[]|s|s|s| | |] eqn:En; try (now apply un_not in E); injection E as <-.
      * now apply RdNullText. * now apply RdTrue. * now apply RdFalse. * apply RdString; auto. * apply RdString; auto. * apply RdString; auto.
    + inversion 1 as [| | | | |? s E|? E|? E|? E| | | | | | | | | | | | | |]; subst; try (rewrite E; eauto). destruct E as [-> |[-> | ->]]; eauto.
  - intros _ n v. cbn [Serde.de]. rewrite dbind_ok. unfold de_bytes.
    assert (U : forall l bs, de_u8s l = DOk bs <-> Forall2 (fun x b => exists s z, n_yaml x = YInt s /\ to_i64 s = Some z /\ cast false 8 z (Z.of_N b)) l bs).
    { induction l as [|x l IH]; intros bs; cbn [de_u8s].
      - split; [intros [= <-]; constructor|now inversion 1].
      - rewrite dbind_ok. split.
        + intros (z & E & H). apply dbind_ok in H as (bs' & E' & [= <-]). apply int_reads in E as (s & z0 & E1 & E2 & C); [|lia]. constructor; [|now apply IH].
          exists s, z0. rewrite Z2N.id by (destruct C as [[C _] _]; exact C). auto.
        + inversion 1 as [|? b ? bs' (s & z & E1 & E2 & C) H2]; subst. exists (Z.of_N b). split; [apply int_reads; [lia|eauto]|]. apply dbind_ok. exists bs'. split; [now apply IH|].
          now rewrite N2Z.id. }
    split.
    + intros (l & E & [= <-]). destruct (n_yaml n) as [| | | |s|l'| |] eqn:En; try (now apply un_not in E); [injection E as <-; now apply RdBytes|].
      eapply RdByteList; [exact En|]. now apply U.
    + inversion 1 as [| | | | | | | | |? s E|? l bs E F| | | | | | | | | | | |]; subst; rewrite E; [eauto|]. exists bs. split; [now apply U|reflexivity].
  - intros _ n v. cbn [Serde.de]. rewrite dbind_ok. split.
    + intros ([] & E & [= <-]). apply unit_reads in E. now constructor.
    + inversion 1; subst. exists tt. split; [now apply unit_reads|reflexivity].
  - intros t IH R n v. inversion R; subst. cbn [Serde.de]. split.
    + intros E. assert (D : n_yaml n = YNull \/ n_yaml n <> YNull) by (destruct (n_yaml n); auto; right; discriminate). destruct D as [D|D].
      * rewrite D in E. injection E as <-. now apply RdNone.
      * assert (G : exists w, de t n = DOk w /\ v = VSome w). { destruct (n_yaml n); try congruence; apply dbind_ok in E as (w & E & [= <-]); eauto. }
        destruct G as (w & G & ->). apply RdSome; [exact D|]. now apply IH.
    + inversion 1 as [| | | | | | | | | | | |? ? E|? ? w E Hw| | | | | | | | |]; subst; [now rewrite E|].
      apply IH in Hw; [|assumption]. destruct (n_yaml n); try congruence; rewrite Hw; reflexivity.
  - intros t IH R n v. inversion R as [| | | | | | | |? Rt| | | | | |]; subst. cbn [Serde.de].
    assert (U : forall l vs, visit_all (de t) l = DOk vs <-> Forall2 (reads t) l vs).
    { induction l as [|x l IHl]; intros vs; cbn [visit_all].
      - split; [intros [= <-]; constructor|now inversion 1].
      - rewrite dbind_ok. split.
        + intros (z & E & H). apply dbind_ok in H as (bs' & E' & [= <-]). constructor; [now apply IH|now apply IHl].
        + inversion 1 as [|? b ? bs' H1 H2]; subst. exists b. split; [now apply IH|]. apply dbind_ok. exists bs'. split; [now apply IHl|reflexivity]. }
    split.
    + intros E. destruct (n_yaml n) as [| | | | |l| |] eqn:En; try (now apply un_not in E). apply dbind_ok in E as (vs & E & [= <-]). eapply RdSeq; [exact En|]. now apply U.
    + inversion 1 as [| | | | | | | | | | | | | |? ? l vs E F| | | | | | | |]; subst. rewrite E. apply dbind_ok. exists vs. split; [now apply U|reflexivity].
  - intros ts IH R n v. inversion R as [| | | | | | | | |? Rt| | | | |]; subst. rewrite de_tuple_eq. split.
    + intros E. destruct (n_yaml n) as [| | | | |l| |] eqn:En; try (now apply un_not in E). apply dbind_ok in E as (vs & E & [= <-]). eapply RdTuple; [exact En|]. now apply first_same.
    + inversion 1 as [| | | | | | | | | | | | | | |? ? l vs E F| | | | | | |]; subst. rewrite E. apply dbind_ok. exists vs. split; [now apply first_same|reflexivity].
  - intros k w IHk IHw R n v. inversion R as [| | | | | | | | | |? ? Rk Rw| | | |]; subst. cbn [Serde.de].
    assert (U : forall m es, visit_entries (de k) (de w) m = DOk es <-> Forall2 (fun kx ab => reads k (fst kx) (fst ab) /\ reads w (snd kx) (snd ab)) m es).
    { induction m as [|[a x] m IHm]; intros es; cbn [visit_entries].
      - split; [intros [= <-]; constructor|now inversion 1].
      - rewrite dbind_ok. split.
        + intros (z & E & H). apply dbind_ok in H as (y & E' & H). apply dbind_ok in H as (es' & E'' & [= <-]). constructor; [split; [now apply IHk|now apply IHw]|now apply IHm].
        + inversion 1 as [|? [z y] ? es' [H1 H1'] H2]; subst. cbn [fst snd] in *. exists z. split; [now apply IHk|]. apply dbind_ok. exists y. split; [now apply IHw|].
          apply dbind_ok. exists es'. split; [now apply IHm|reflexivity]. }
    split.
    + intros E. destruct (n_yaml n) as [| | | | | |m|] eqn:En; try (now apply un_not in E). apply dbind_ok in E as (es & E & [= <-]). eapply RdMap; [exact En|]. now apply U.
    + inversion 1 as [| | | | | | | | | | | | | | | |? ? ? m es E F| | | | | |]; subst. rewrite E. apply dbind_ok. exists es. split; [now apply U|reflexivity].
  - intros fs IH R n v. inversion R as [| | | | | | | | | | |? Rd Rt| | |]; subst. rewrite de_struct_eq. split.
    + intros E. destruct (n_yaml n) as [| | | | |l|m|] eqn:En; try (now apply un_not in E).
      * apply dbind_ok in E as (vs & E & [= <-]). rewrite fields_seq_eq in E. eapply RdStructSeq; [exact En|]. apply first_same; [| |exact E]; apply Forall_map; assumption.
      * apply (fields_same fs Rd IH Rt) in E as (vs & -> & S & F). eapply RdStruct; eassumption.
    + inversion 1 as [| | | | | | | | | | | | | | | | |? ? m vs E S F|? ? l vs E F| | | |]; subst; rewrite E.
      * apply (fields_same fs Rd IH Rt). eauto.
      * apply dbind_ok. exists vs. split; [|reflexivity]. rewrite fields_seq_eq. apply first_same; [| |exact F]; apply Forall_map; assumption.
  - intros t IH R n v. inversion R; subst. change (de (TNewtype t) n) with (de t n). split; [intros E; constructor; now apply IH|inversion 1; subst; now apply IH].
  - intros vs IH R n v. inversion R as [| | | | | | | | | | | | |? Rv|]; subst. rewrite de_enum_eq.
    assert (Q : forall name vr, lookup name vs = Some vr -> forall x pl, de_payload show_f hk vr (Some x) = DOk pl <-> reads_payload vr x pl).
    { intros name vr L. apply lookup_in in L. rewrite Forall_forall in IH, Rv. now apply (IH _ L (Rv _ L)). }
    split.
    + intros E. apply dbind_ok in E as ([k o] & Eh & E). cbn [fst snd] in E. apply dbind_ok in E as (name & Ei & E).
      assert (Kk : n_yaml k = YStr name). { unfold de_ident in Ei. destruct (n_yaml k); try (now apply un_not in Ei). now injection Ei as ->. }
      destruct (lookup name vs) as [vr|] eqn:El; [|discriminate]. apply dbind_ok in E as (pl & Ep & [= <-]).
      unfold de_enum_head in Eh. destruct (n_yaml n) as [| | | |s| |[|[a b] [|]]|] eqn:En; try (now apply un_not in Eh); injection Eh as <- <-.
      * rewrite En in Kk. injection Kk as ->. destruct vr; try discriminate. injection Ep as <-. now apply RdEnumName.
      * eapply RdEnum; try eassumption. now apply (Q name).
    + inversion 1 as [| | | | | | | | | | | | | | | | | | | |? ? name E L|? ? k x name vr pl E Ek L Hp|]; subst; unfold de_enum_head; rewrite E; cbn [dbind fst snd].
      * unfold de_ident. rewrite E. cbn [dbind]. rewrite L. reflexivity.
      * unfold de_ident. rewrite Ek. cbn [dbind]. rewrite L. apply dbind_ok. exists pl. split; [now apply (Q name)|reflexivity].
  - intros _ n v. cbn [Serde.de]. rewrite dbind_ok. split; [intros (x & E & [= <-]); now constructor|]. inversion 1; subst. eauto.
  - intros _ n v. cbn [de_payload]. rewrite dbind_ok. split; [intros ([] & E & [= <-]); constructor; now apply unit_reads|]. inversion 1; subst. exists tt. split; [now apply unit_reads|reflexivity].
  - intros t IH R n v. inversion R; subst. cbn [de_payload]. split; [intros E; constructor; now apply IH|]. inversion 1; subst. now apply IH.
  - intros ts IH R n v. inversion R as [| |? Rt|]; subst. cbn [de_payload]. split.
    + intros E. destruct (n_yaml n) as [| | | | |l| |] eqn:En; try (now apply un_not in E). apply dbind_ok in E as (vs & E & [= <-]). eapply RpTuple; [exact En|]. now apply first_same.
    + inversion 1 as [| |? ? l vs E F|]; subst. rewrite E. apply dbind_ok. exists vs. split; [now apply first_same|reflexivity].
  - intros fs IH R n v. inversion R as [| | |? Rd Rt]; subst. cbn [de_payload]. split.
    + intros E. destruct (n_yaml n) as [| | | | | |m|] eqn:En; try (now apply un_not in E). apply (fields_same fs Rd IH Rt) in E as (vs & -> & S & F). eapply RpStruct; eassumption.
    + inversion 1 as [| | |? ? m vs E S F]; subst. rewrite E. apply (fields_same fs Rd IH Rt). eauto.
Qed.
End Proof.

(** C46: deserialization succeeds exactly on the data described above, with the
    value described. *)
Theorem C46_what_is_accepted : forall (show_f : f64 -> str) (hk : hasher) (t : ty) (n : node) (v : val),
  rust_ty t -> (de show_f hk t n = DOk v <-> reads show_f hk t n v).
Proof. intros. now apply all_same. Qed.
(** [from_str] gives the documents' values in order, or fails. *)
Theorem C46_from_str : forall (show_f : f64 -> str) (hk : hasher) (t : ty) (d : str) (vs : list val),
  rust_ty t -> (from_str show_f hk t d = Some (DOk vs) <-> exists nds, parse hk d = ROk nds /\ Forall2 (reads show_f hk t) nds vs).
Proof.
  intros show_f hk t d vs R. unfold from_str.
  assert (U : forall l vs, de_all show_f hk t l = DOk vs <-> Forall2 (reads show_f hk t) l vs).
  { clear vs. induction l as [|x l IH]; intros vs; cbn [de_all].
    - split; [intros [= <-]; constructor|now inversion 1].
    - rewrite dbind_ok. split.
      + intros (z & E & H). apply dbind_ok in H as (bs & E' & [= <-]). constructor; [now apply C46_what_is_accepted|now apply IH].
      + inversion 1 as [|? b ? bs H1 H2]; subst. exists b. split; [now apply C46_what_is_accepted|]. apply dbind_ok. exists bs. split; [now apply IH|reflexivity]. }
  destruct (parse hk d) as [nds| | |]; split; try discriminate; try (intros (? & ? & _); discriminate).
  - intros [= E]. exists nds. split; [reflexivity|]. now apply U.
  - intros (l & [= <-] & F). f_equal. now apply U.
Qed.
(** A value does not depend on positions or tags... *)
Theorem C46_one_value : forall (show_f : f64 -> str) (hk : hasher) (t : ty) (n : node) (v w : val),
  rust_ty t -> reads show_f hk t n v -> reads show_f hk t n w -> v = w.
Proof. intros show_f hk t n v w R H1 H2. apply C46_what_is_accepted in H1, H2; try assumption. congruence. Qed.

Definition person_t : ty := TStruct [(lit "name", TString); (lit "age", TOption (TInt false 8)); (lit "tags", TSeq TString)].
Definition person_n (p : N) : node := Node p [] (YMap
  [(node_from (YStr (lit "tags")), node_from (YSeq [node_from YNull; node_from (YInt (lit "7"))]));
   (node_from (YStr (lit "color")), node_from (YStr (lit "red")));
   (node_from (YStr (lit "name")), node_from (YBool true))]).
Example C46_witness : forall show_f hk, rust_ty person_t
  /\ reads show_f hk person_t (person_n 3) (VList [VStr (lit "true"); VNone; VList [VStr (lit "null"); VStr (lit "7")]])
  /\ (forall v, ~ reads show_f hk person_t (Node 3 [] (YMap [(node_from (YStr (lit "name")), node_from YNull)])) v).
Proof.
  intros show_f hk.
  assert (R : rust_ty person_t).
  { apply RtStruct; [|repeat constructor]. repeat (constructor; [simpl; intuition discriminate|]). constructor. }
  split; [exact R|]. split.
  - apply (C46_what_is_accepted _ _ _ _ _ R). vm_compute. reflexivity.
  - intros v K. apply (C46_what_is_accepted _ _ _ _ _ R) in K. vm_compute in K. discriminate.
Qed.

(** ** Specification of writing *)
Section Writing.
Variable show_f : f64 -> str.
(** [writes t v n]: value [v] of type [t] is written as node [n].  Integers and
    floats are their text, characters are strings, bytes are a sequence of
    numbers, a missing option is null, a struct is a map of its field names in
    order, an enum is its name or a map with the one entry name: payload. *)
Inductive writes : ty -> val -> node -> Prop :=
| WrBool b : writes TBool (VBool b) (node_from (YBool b))
| WrInt sg bits z : writes (TInt sg bits) (VInt z) (node_from (YInt (show_Z z)))
| WrF64 x : writes TF64 (VFloat x) (node_from (YFloat (show_f x)))
| WrChar c : writes TChar (VChar c) (node_from (YStr [c]))
| WrString s : writes TString (VStr s) (node_from (YStr s))
| WrBytes l : writes TBytes (VBytes l) (node_from (YSeq (List.map (fun b => node_from (YInt (show_Z (Z.of_N b)))) l)))
| WrUnit : writes TUnit VUnit (node_from YNull)
| WrNone t : writes (TOption t) VNone (node_from YNull)
| WrSome t v n : writes t v n -> writes (TOption t) (VSome v) n
| WrSeq t l ns : Forall2 (writes t) l ns -> writes (TSeq t) (VList l) (node_from (YSeq ns))
| WrTuple ts l ns : writes_all ts l ns -> writes (TTuple ts) (VList l) (node_from (YSeq ns))
| WrMap k v l m : Forall2 (fun ab kx => writes k (fst ab) (fst kx) /\ writes v (snd ab) (snd kx)) l m -> writes (TMap k v) (VMap l) (node_from (YMap m))
| WrStruct fs l m : writes_fields fs l m -> writes (TStruct fs) (VList l) (node_from (YMap m))
| WrNewtype t v n : writes t v n -> writes (TNewtype t) v n
| WrEnumName vs name : lookup name vs = Some UnitV -> writes (TEnum vs) (VEnum name VUnit) (node_from (YStr name))
| WrEnum vs name vr pl x : lookup name vs = Some vr -> writes_payload vr pl x -> writes (TEnum vs) (VEnum name pl) (node_from (YMap [(node_from (YStr name), x)]))
with writes_all : list ty -> list val -> list node -> Prop :=
| WANil : writes_all [] [] []
| WACons t ts v vs n ns : writes t v n -> writes_all ts vs ns -> writes_all (t :: ts) (v :: vs) (n :: ns)
with writes_fields : list (str * ty) -> list val -> list (node * node) -> Prop :=
| WfNil : writes_fields [] [] []
| WfCons f t fs v vs n m : writes t v n -> writes_fields fs vs m -> writes_fields ((f, t) :: fs) (v :: vs) ((node_from (YStr f), n) :: m)
with writes_payload : variant -> val -> node -> Prop :=
| WpNewtype t v n : writes t v n -> writes_payload (NewtypeV t) v n
| WpTuple ts l ns : writes_all ts l ns -> writes_payload (TupleV ts) (VList l) (node_from (YSeq ns))
| WpStruct fs l m : writes_fields fs l m -> writes_payload (StructV fs) (VList l) (node_from (YMap m)).
End Writing.

Section WriteProof.
Variables (show_f : f64 -> str) (hk : hasher).
Hypothesis Hf : reads_back show_f.
Notation ser := (ser show_f hk).
Notation writes := (writes show_f).
Definition written (t : ty) : Prop := forall v n, has t v -> ser t v = DOk n -> writes t v n.
Definition written_v (vr : variant) : Prop := forall name pl n, payload vr pl -> ser_variant show_f hk name vr pl = DOk n ->
  (vr = UnitV /\ pl = VUnit /\ n = node_from (YStr name)) \/ exists x, n = tagged name x /\ writes_payload show_f vr pl x.
Lemma all_written ts : Forall written ts -> forall l ns, Forall2 has ts l -> ser_tuple show_f hk ts l = DOk ns -> writes_all show_f ts l ns.
Proof.
  intros H l ns F. revert ns H. induction F as [|t v ts l Hv F IH]; intros ns H E; cbn [ser_tuple] in E; [injection E as <-; constructor|].
  apply dbind_ok in E as (n & En & E). apply dbind_ok in E as (ns' & Ens & [= <-]). inversion H; subst. constructor; auto.
Qed.
Lemma fields_written fs l m : Forall (fun f => written (snd f)) fs -> NoDup (List.map fst fs) -> Forall2 (fun f x => has (snd f) x) fs l ->
  ser_fields show_f hk fs l [] = DOk m -> writes_fields show_f fs l m.
Proof.
  intros H Hd F E. destruct (struct_shape show_f hk fs l) as (qs & -> & -> & E' & G); [|exact Hd|exact F|].
  { apply Forall_forall. intros f _. apply round_trip, Hf. }
  rewrite E in E'. injection E' as ->. clear E F Hd. induction G as [|q qs [Hq Eq] G IH]; [constructor|]. cbn [List.map] in *. inversion H; subst. constructor; [|now apply IH].
  cbn [snd] in *. auto.
Qed.
Lemma every_written : forall t, written t.
Proof.
  apply (ty_ind2 written written_v); unfold written.
  - intros v n H E. inversion H; subst. injection E as <-. constructor.
  - intros sg b v n H E. inversion H; subst. injection E as <-. constructor.
  - intros v n H E. inversion H; subst. injection E as <-. constructor.
  - intros v n H E. inversion H; subst. injection E as <-. constructor.
  - intros v n H E. inversion H; subst. injection E as <-. constructor.
  - intros v n H E. inversion H; subst. injection E as <-. replace (List.map (fun b => node_from (YInt (show_N b))) l) with (List.map (fun b => node_from (YInt (show_Z (Z.of_N b)))) l); [constructor|].
    apply map_ext. intros b. now rewrite show_Z_N.
  - intros v n H E. inversion H; subst. injection E as <-. constructor.
  - intros t IH v n H E. inversion H; subst; [injection E as <-; constructor|]. constructor. now apply IH.
  - intros t IH v n H E. inversion H as [| | | | | | | | |? l Hl| | | | |]; subst. rewrite ser_seq_eq in E. apply dbind_ok in E as (ns & E & [= <-]). constructor. clear H.
    revert ns E. induction Hl as [|x l Hx Hl IHl]; intros ns E; cbn [ser_all] in E; [injection E as <-; constructor|].
    apply dbind_ok in E as (n & En & E). apply dbind_ok in E as (ns' & Ens & [= <-]). constructor; auto.
  - intros ts IH v n H E. inversion H as [| | | | | | | | | |? l Hl| | | |]; subst. rewrite ser_tuple_eq in E. apply dbind_ok in E as (ns & E & [= <-]). constructor. now apply all_written.
  - intros k w IHk IHw v n H E. inversion H as [| | | | | | | | | | |? ? l Ek Hd Hl| | |]; subst. rewrite ser_map_eq in E. apply dbind_ok in E as (m & E & [= <-]). constructor.
    destruct (entries_ok show_f hk k w l (round_trip show_f hk Hf k) (round_trip show_f hk Hf w) Ek Hd Hl) as (m' & S & _ & _ & _ & _ & F). rewrite E in S. injection S as <-.
    clear - F Hl IHk IHw. revert Hl. induction F as [|[a b] [x y] l m [F1 F2] F IH]; intros Hl; [constructor|]. inversion Hl as [|? ? [H1 H2] H3]; subst. cbn [fst snd] in *.
    constructor; [cbn [fst snd]; auto|auto].
  - intros fs IH v n H E. inversion H as [| | | | | | | | | | | |? l Hd Hl| |]; subst. rewrite ser_struct_eq in E. apply dbind_ok in E as (m & E & [= <-]). constructor. now apply fields_written.
  - intros t IH v n H E. inversion H; subst. constructor. now apply IH.
  - intros vs IH v n H E. inversion H as [| | | | | | | | | | | | | |? name vr pl Hl Hp]; subst. rewrite ser_enum_eq, Hl in E.
    apply lookup_in in Hl as Hi. rewrite Forall_forall in IH. destruct (IH _ Hi name pl n Hp E) as [(Ev & -> & ->)|(x & -> & Hx)]; [cbn [snd] in Ev; subst vr; now constructor|]. econstructor; eassumption.
  - intros v n H. inversion H.
  - intros name pl n H E. inversion H; subst. injection E as <-. now left.
  - intros t IH name pl n H E. inversion H; subst. cbn [ser_variant] in E. apply dbind_ok in E as (x & E & [= <-]). right. exists x. split; [reflexivity|]. constructor. now apply IH.
  - intros ts IH name pl n H E. inversion H; subst. cbn [ser_variant] in E. apply dbind_ok in E as (ns & E & [= <-]). right. eexists. split; [reflexivity|]. constructor. now apply all_written.
  - intros fs IH name pl n H E. inversion H; subst. cbn [ser_variant] in E. apply dbind_ok in E as (m & E & [= <-]). right. eexists. split; [reflexivity|]. constructor. now apply fields_written.
Qed.
End WriteProof.
(** C47: [to_node] writes every value of C36's class in the form described. *)
Theorem C47_what_is_written : forall (show_f : f64 -> str) (hk : hasher), reads_back show_f ->
  forall (t : ty) (v : val), has t v -> exists n, to_node show_f hk t v = DOk n /\ writes show_f t v n.
Proof.
  intros show_f hk Hf t v H. destruct (round_trip show_f hk Hf t v H) as (n & S & _). exists n. split; [exact S|]. now apply (every_written show_f hk Hf).
Qed.
(** A struct's map has exactly its fields, in the order of the declaration. *)
Theorem C47_struct_fields : forall (show_f : f64 -> str) (hk : hasher), reads_back show_f ->
  forall fs l, has (TStruct fs) (VList l) ->
  exists m, to_node show_f hk (TStruct fs) (VList l) = DOk (node_from (YMap m)) /\ List.map (fun kv => n_yaml (fst kv)) m = List.map (fun f => YStr (fst f)) fs.
Proof.
  intros show_f hk Hf fs l H. destruct (C47_what_is_written show_f hk Hf _ _ H) as (n & E & W). inversion W as [| | | | | | | | | | | |? ? m F| | |]; subst. exists m. split; [exact E|].
  clear - F. induction F; [reflexivity|]. cbn. now rewrite IHF.
Qed.
Example C47_witness : forall hk,
  has person_t (VList [VStr (lit "x"); VSome (VInt 7); VList []])
  /\ to_node show_exact hk person_t (VList [VStr (lit "x"); VSome (VInt 7); VList []])
     = DOk (node_from (YMap [(node_from (YStr (lit "name")), node_from (YStr (lit "x"))); (node_from (YStr (lit "age")), node_from (YInt (lit "7"))); (node_from (YStr (lit "tags")), node_from (YSeq []))])).
Proof.
  intros hk. split.
  - apply HasStruct; [repeat (constructor; [simpl; intuition discriminate|]); constructor|]. repeat constructor; unfold fits; lia.
  - destruct (C36_round_trip show_exact hk exact_reads_back person_t (VList [VStr (lit "x"); VSome (VInt 7); VList []])) as (n & E & _).
    + apply HasStruct; [repeat (constructor; [simpl; intuition discriminate|]); constructor|]. repeat constructor; unfold fits; lia.
    + destruct (C47_what_is_written show_exact hk exact_reads_back person_t (VList [VStr (lit "x"); VSome (VInt 7); VList []])) as (n' & E' & W).
      * apply HasStruct; [repeat (constructor; [simpl; intuition discriminate|]); constructor|]. repeat constructor; unfold fits; lia.
      * rewrite E'. f_equal. inversion W as [| | | | | | | | | | | |? ? m F| | |]; subst. inversion F as [|? ? ? ? ? n1 m1 F1 F1']; subst. inversion F1' as [|? ? ? ? ? n2 m2 F2 F2']; subst. inversion F2' as [|? ? ? ? ? n3 m3 F3 F3']; subst. inversion F3'; subst.
        inversion F1; subst. inversion F2 as [| | | | | | | |? ? ? F4| | | | | | |]; subst. inversion F4; subst. inversion F3 as [| | | | | | | | |? ? ? F5| | | | | |]; subst. inversion F5; subst. reflexivity.
Qed.
