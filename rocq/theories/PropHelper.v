(** * C54: reading and writing the helper types InlineList, Optional, Stringify *)
From Verif Require Export Untagged PropSerde3.
From Verif Require Import PropFloat3 PropSerde2.
Open Scope N_scope.

(** ** Specification *)
(** types for which serde's buffer keeps everything: integers of at most 64 bits *)
Inductive small : ty -> Prop :=
| SmBool : small TBool
| SmInt s b : b <= 64 -> small (TInt s b)
| SmF64 : small TF64
| SmChar : small TChar
| SmString : small TString
| SmBytes : small TBytes
| SmUnit : small TUnit
| SmOption t : small t -> small (TOption t)
| SmSeq t : small t -> small (TSeq t)
| SmTuple ts : Forall small ts -> small (TTuple ts)
| SmMap k v : small k -> small v -> small (TMap k v)
| SmStruct fs : Forall (fun f => small (snd f)) fs -> small (TStruct fs)
| SmNewtype t : small t -> small (TNewtype t)
| SmEnum vs : Forall (fun v => small_variant (snd v)) vs -> small (TEnum vs)
with small_variant : variant -> Prop :=
| SvUnit : small_variant UnitV
| SvNewtype t : small t -> small_variant (NewtypeV t)
| SvTuple ts : Forall small ts -> small_variant (TupleV ts)
| SvStruct fs : Forall (fun f => small (snd f)) fs -> small_variant (StructV fs).
(** types whose values are not written as sequences / as booleans *)
Fixpoint never_list (t : ty) : Prop :=
  match t with
  | TSeq _ | TTuple _ | TBytes | TNode => False
  | TOption t' | TNewtype t' => never_list t'
  | _ => True
  end.
Fixpoint never_bool (t : ty) : Prop :=
  match t with
  | TBool | TNode => False
  | TOption t' | TNewtype t' => never_bool t'
  | _ => True
  end.
(** types read from the buffer no more liberally than from a node *)
Inductive faithful : ty -> Prop :=
| FaBool : faithful TBool
| FaInt s b : 0 < b -> faithful (TInt s b)
| FaF64 : faithful TF64
| FaString : faithful TString
| FaBytes : faithful TBytes
| FaUnit : faithful TUnit
| FaOption t : faithful t -> faithful (TOption t)
| FaSeq t : faithful t -> faithful (TSeq t)
| FaTuple ts : Forall faithful ts -> faithful (TTuple ts)
| FaMap k v : faithful k -> faithful v -> faithful (TMap k v)
| FaStruct fs : Forall (fun f => faithful (snd f)) fs -> faithful (TStruct fs)
| FaNewtype t : faithful t -> faithful (TNewtype t)
| FaEnum vs : Forall (fun v => faithful_variant (snd v)) vs -> faithful (TEnum vs)
| FaNode : faithful TNode
with faithful_variant : variant -> Prop :=
| FvUnit : faithful_variant UnitV
| FvNewtype t : faithful t -> faithful_variant (NewtypeV t)
| FvTuple ts : Forall faithful ts -> faithful_variant (TupleV ts).

(** ** The buffer as a relation *)
Inductive image : yaml -> content -> Prop :=
| ImNull : image YNull CUnit
| ImBool b : image (YBool b) (CBool b)
| ImInt s z : to_i64 s = Some z -> image (YInt s) (CI64 z)
| ImFloat s x : to_f64 s = Some x -> image (YFloat s) (CF64 x)
| ImStr s : image (YStr s) (CStr s)
| ImSeq l cs : Forall2 (fun n c => image (n_yaml n) c) l cs -> image (YSeq l) (CSeq cs)
| ImMap m cs : Forall2 (fun kv c => image (n_yaml (fst kv)) (fst c) /\ image (n_yaml (snd kv)) (snd c)) m cs -> image (YMap m) (CMap cs).
Lemma buffer_image : forall y p c, buffer p y = DOk c <-> image y c.
Proof.
  induction y as [| b | s | s | s | l IH | m IH | a] using yaml_ind2; intros p c; cbn [buffer].
  - split; [intros [= <-]; constructor|inversion 1; reflexivity].
  - split; [intros [= <-]; constructor|inversion 1; reflexivity].
  - split.
    + destruct (to_i64 s) eqn:E; [|discriminate]. intros [= <-]. now constructor.
    + inversion 1 as [| |? z Hz| | | |]; subst. now rewrite Hz.
  - split.
    + destruct (to_f64 s) eqn:E; [|discriminate]. intros [= <-]. now constructor.
    + inversion 1 as [| | |? z Hz| | |]; subst. now rewrite Hz.
  - split; [intros [= <-]; constructor|inversion 1; reflexivity].
  - set (go := fix go (l : list node) : dres (list content) := match l with [] => DOk [] | Node p' _ y' :: r => let! x := buffer p' y' in let! xs := go r in DOk (x :: xs) end).
    assert (G : forall cs, go l = DOk cs <-> Forall2 (fun n c => image (n_yaml n) c) l cs).
    { clear c. induction IH as [|[p' t' y'] l Hy IH IHl]; intros cs; cbn [go].
      - split; [intros [= <-]; constructor|inversion 1; reflexivity].
      - split.
        + intros E. apply dbind_ok in E as (c & Ec & E). apply dbind_ok in E as (cs' & Es & [= <-]). constructor; [apply (Hy p'), Ec|now apply IHl].
        + inversion 1 as [|? c0 ? cs0 H1 H2]; subst. cbn [n_yaml] in H1, Hy. apply (Hy p') in H1. apply IHl in H2. rewrite H1. cbn [dbind]. now rewrite H2. }
    split.
    + intros E. apply dbind_ok in E as (cs & Es & [= <-]). constructor. now apply G.
    + inversion 1 as [| | | | |? cs F|]; subst. apply G in F. now rewrite F.
  - set (go := fix go (m : list (node * node)) : dres (list (content * content)) := match m with [] => DOk [] | (Node p1 _ y1, Node p2 _ y2) :: r =>
           let! k := buffer p1 y1 in let! v := buffer p2 y2 in let! xs := go r in DOk ((k, v) :: xs) end).
    assert (G : forall cs, go m = DOk cs <-> Forall2 (fun kv c => image (n_yaml (fst kv)) (fst c) /\ image (n_yaml (snd kv)) (snd c)) m cs).
    { clear c. induction IH as [|[[p1 t1 y1] [p2 t2 y2]] m [H1 H2] IH IHm]; intros cs; cbn [go].
      - split; [intros [= <-]; constructor|inversion 1; reflexivity].
      - split.
        + intros E. apply dbind_ok in E as (k & Ek & E). apply dbind_ok in E as (v & Ev & E). apply dbind_ok in E as (cs' & Es & [= <-]).
          constructor; [split; [apply (H1 p1), Ek|apply (H2 p2), Ev]|now apply IHm].
        + inversion 1 as [|? [k v] ? cs0 [A B] F]; subst. cbn [fst snd n_yaml] in A, B, H1, H2. apply (H1 p1) in A. apply (H2 p2) in B. apply IHm in F.
          rewrite A. cbn [dbind]. rewrite B. cbn [dbind]. now rewrite F. }
    split.
    + intros E. apply dbind_ok in E as (cs & Es & [= <-]). constructor. now apply G.
    + inversion 1 as [| | | | | |? cs F]; subst. apply G in F. now rewrite F.
  - split; [discriminate|inversion 1].
Qed.
Lemma buffer_node_image n c : buffer_node n = DOk c <-> image (n_yaml n) c.
Proof. apply buffer_image. Qed.

(** ** The loops of [from_buffer], unfolded *)
Section Loops.
Variables (show_f : f64 -> str) (hk : hasher).
Notation fb := (from_buffer show_f hk).
Fixpoint c_tuple (ts : list ty) (l : list content) : option (list val) :=
  match ts, l with
  | [], [] => Some []
  | t :: ts', x :: r => let? v := fb t x in let? vs := c_tuple ts' r in Some (v :: vs)
  | _, _ => None
  end.
Fixpoint c_fields_seq (fs : list (str * ty)) (l : list content) : option (list val) :=
  match fs, l with
  | [], [] => Some []
  | (_, t) :: fs', x :: r => let? v := fb t x in let? vs := c_fields_seq fs' r in Some (v :: vs)
  | _, _ => None
  end.
Fixpoint c_field (fs : list (str * ty)) (f : str) (x : content) : option (option val) :=
  match fs with
  | [] => None
  | (f', t) :: r => if str_eqb f' f then Some (fb t x) else c_field r f x
  end.
Definition c_map_fields (fs : list (str * ty)) (m : list (content * content)) : option val :=
  let? acc := c_fields (c_field fs) m [] in let? vs := c_collect fs acc in Some (VList vs).
Definition c_payload (vr : variant) (o : option content) : option val :=
  match vr, o with
  | UnitV, None => Some VUnit
  | UnitV, Some x => match x with CUnit => Some VUnit | _ => None end
  | NewtypeV t', Some x => fb t' x
  | TupleV ts, Some x => match x with CSeq l => let? vs := c_tuple ts l in Some (VList vs) | _ => None end
  | StructV fs, Some x => match x with CMap m => c_map_fields fs m | CSeq l => let? vs := c_fields_seq fs l in Some (VList vs) | _ => None end
  | _, None => None
  end.
Lemma fb_tuple ts c : fb (TTuple ts) c = match c with CSeq l => let? vs := c_tuple ts l in Some (VList vs) | _ => None end.
Proof. reflexivity. Qed.
Lemma fb_struct fs c : fb (TStruct fs) c = match c with CSeq l => let? vs := c_fields_seq fs l in Some (VList vs) | CMap m => c_map_fields fs m | _ => None end.
Proof. reflexivity. Qed.
Definition c_head (c : content) : option (str * option content) :=
  match c with CMap [(CStr name, x)] => Some (name, Some x) | CStr name => Some (name, None) | _ => None end.
Lemma fb_enum vs c : fb (TEnum vs) c = let? kv := c_head c in
  match lookup (fst kv) vs with Some vr => let? pl := c_payload vr (snd kv) in Some (VEnum (fst kv) pl) | None => None end.
Proof.
  cbn [from_buffer]. fold (c_head c). destruct (c_head c) as [[name o]|]; [|reflexivity]. cbn [obind fst snd].
  induction vs as [|[n' vr] vs IH]; [reflexivity|]. cbn [lookup]. destruct (str_eqb n' name) eqn:E.
  - destruct vr, o; reflexivity.
  - exact IH.
Qed.
End Loops.
Lemma obind_some {A B} (o : option A) (f : A -> option B) b : obind o f = Some b -> exists a, o = Some a /\ f a = Some b.
Proof. destruct o; [eauto|discriminate]. Qed.

(** ** What the buffer accepts is what the type itself reads *)
Section Agree.
Variables (show_f : f64 -> str) (hk : hasher).
Notation fb := (from_buffer show_f hk).
Notation de := (de show_f hk).
Definition AG (t : ty) : Prop := faithful t -> forall n c v, image (n_yaml n) c -> fb t c = Some v -> de t n = DOk v.
Definition AGV (vr : variant) : Prop := faithful_variant vr -> forall n c v, image (n_yaml n) c -> c_payload show_f hk vr (Some c) = Some v -> de_payload show_f hk vr (Some n) = DOk v.
Lemma range_fits sg b z : in_range sg b z = true -> fits sg b z.
Proof.
  unfold in_range, fits. intros H. apply andb_true_iff in H as [_ H]. destruct sg; apply andb_true_iff in H as [H1 H2]; lia.
Qed.
Lemma ag_tuple ts : Forall AG ts -> Forall faithful ts -> forall l cs vs, Forall2 (fun n c => image (n_yaml n) c) l cs -> c_tuple show_f hk ts cs = Some vs -> de_tuple show_f hk ts l = DOk vs.
Proof.
  intros H F. revert H. induction F as [|t ts Ft F IH]; intros H l cs vs Fi E.
  - destruct cs; [|discriminate]. injection E as <-. inversion Fi; reflexivity.
  - inversion H as [|? ? Ht Hts]; subst. destruct cs as [|c cs]; [discriminate|]. inversion Fi as [|n ? l' ? Hi Fi']; subst. cbn [c_tuple] in E.
    apply obind_some in E as (v & Ev & E). apply obind_some in E as (vs' & Evs & [= <-]). cbn [de_tuple]. rewrite (Ht Ft n c v Hi Ev). cbn [dbind]. now rewrite (IH Hts l' cs vs' Fi' Evs).
Qed.
Lemma ag_fields_seq fs : Forall (fun f => AG (snd f)) fs -> Forall (fun f => faithful (snd f)) fs -> forall l cs vs, Forall2 (fun n c => image (n_yaml n) c) l cs -> c_fields_seq show_f hk fs cs = Some vs -> de_fields_seq show_f hk fs l = DOk vs.
Proof.
  intros H F. revert H. induction F as [|[f t] fs Ft F IH]; intros H l cs vs Fi E.
  - destruct cs; [|discriminate]. injection E as <-. inversion Fi; reflexivity.
  - inversion H as [|? ? Ht Hts]; subst. destruct cs as [|c cs]; [discriminate|]. inversion Fi as [|n ? l' ? Hi Fi']; subst. cbn [c_fields_seq] in E.
    apply obind_some in E as (v & Ev & E). apply obind_some in E as (vs' & Evs & [= <-]). cbn [de_fields_seq snd] in *. rewrite (Ht Ft n c v Hi Ev). cbn [dbind]. now rewrite (IH Hts l' cs vs' Fi' Evs).
Qed.
Lemma ag_field fs : Forall (fun f => AG (snd f)) fs -> Forall (fun f => faithful (snd f)) fs -> forall f n c, image (n_yaml n) c ->
  match c_field show_f hk fs f c with
  | None => de_field show_f hk fs f n = None
  | Some None => True
  | Some (Some v) => de_field show_f hk fs f n = Some (DOk v)
  end.
Proof.
  intros H F. revert H. induction F as [|[f' t] fs Ft F IH]; intros H f n c Hi; cbn [c_field de_field]; [reflexivity|].
  inversion H as [|? ? Ht Hts]; subst. cbn [snd] in *. destruct (str_eqb f' f); [|now apply IH]. destruct (fb t c) as [v|] eqn:E; [|exact I]. now rewrite (Ht Ft n c v Hi E).
Qed.
Lemma ag_fields fs : Forall (fun f => AG (snd f)) fs -> Forall (fun f => faithful (snd f)) fs ->
  forall m cs, Forall2 (fun kv c => image (n_yaml (fst kv)) (fst c) /\ image (n_yaml (snd kv)) (snd c)) m cs -> forall acc r,
  c_fields (c_field show_f hk fs) cs acc = Some r -> visit_fields (de_field show_f hk fs) m acc = DOk r.
Proof.
  intros H F m cs Fi. induction Fi as [|[k x] [ck cx] m cs [Hk Hx] Fi IH]; intros acc r E; cbn [c_fields visit_fields] in *; [now injection E as <-|].
  cbn [fst snd] in Hk, Hx. destruct ck as [| | | |f| |]; try discriminate. inversion Hk as [| | | |s Es| |]; subst. unfold de_ident. rewrite <- Es. cbn [dbind].
  pose proof (ag_field fs H F f x cx Hx) as A. destruct (c_field show_f hk fs f cx) as [[v|]|].
  - rewrite A. destruct (bt_get f acc); [discriminate|]. cbn [obind dbind] in *. now apply IH.
  - destruct (bt_get f acc); discriminate.
  - rewrite A. now apply IH.
Qed.
Lemma ag_collect fs acc vs : c_collect fs acc = Some vs -> collect_fields fs acc = DOk vs.
Proof.
  revert vs. induction fs as [|[f t] fs IH]; intros vs E; cbn [c_collect collect_fields] in *; [now injection E as <-|].
  apply obind_some in E as (v & Ev & E). apply obind_some in E as (vs' & Evs & [= <-]). rewrite (IH vs' Evs). destruct (bt_get f acc).
  - injection Ev as ->. reflexivity.
  - unfold missing. destruct t; try discriminate. injection Ev as <-. reflexivity.
Qed.
Lemma ag_map_fields fs : Forall (fun f => AG (snd f)) fs -> Forall (fun f => faithful (snd f)) fs ->
  forall m cs v, Forall2 (fun kv c => image (n_yaml (fst kv)) (fst c) /\ image (n_yaml (snd kv)) (snd c)) m cs ->
  c_map_fields show_f hk fs cs = Some v -> de_map_fields show_f hk fs m = DOk v.
Proof.
  intros H F m cs v Fi E. unfold c_map_fields in E. unfold de_map_fields. apply obind_some in E as (acc & Ea & E). apply obind_some in E as (vs & Ev & [= <-]).
  rewrite (ag_fields fs H F m cs Fi [] acc Ea). cbn [dbind]. now rewrite (ag_collect fs acc vs Ev).
Qed.
Lemma ag_u8s l cs r : Forall2 (fun n c => image (n_yaml n) c) l cs -> c_u8s cs = Some r -> de_u8s l = DOk r.
Proof.
  intros F. revert r. induction F as [|n c l cs Hi F IH]; intros r E; cbn [c_u8s de_u8s] in *; [now injection E as <-|].
  destruct c as [| |z| | | |]; try discriminate. destruct (in_range false 8 z) eqn:R; [|discriminate]. apply obind_some in E as (bs & Eb & [= <-]).
  inversion Hi as [| |s ? Es Ey| | | |]; subst. unfold de_int. rewrite <- Ey, Es, wrap_fits by (try lia; now apply range_fits). cbn [dbind]. now rewrite (IH bs Eb).
Qed.
Lemma ag_all t l cs : AG t -> faithful t -> Forall2 (fun n c => image (n_yaml n) c) l cs -> forall vs, c_all (fb t) cs = Some vs -> visit_all (de t) l = DOk vs.
Proof.
  intros H Ft F. induction F as [|n c l cs Hi F IH]; intros vs E; cbn [c_all visit_all] in *; [now injection E as <-|].
  apply obind_some in E as (v & Ev & E). apply obind_some in E as (vs' & Evs & [= <-]). rewrite (H Ft n c v Hi Ev). cbn [dbind]. now rewrite (IH vs' Evs).
Qed.
Lemma ag_entries k v m cs : AG k -> AG v -> faithful k -> faithful v ->
  Forall2 (fun kv c => image (n_yaml (fst kv)) (fst c) /\ image (n_yaml (snd kv)) (snd c)) m cs -> forall es, c_entries (fb k) (fb v) cs = Some es -> visit_entries (de k) (de v) m = DOk es.
Proof.
  intros Hk Hv Fk Fv F. induction F as [|[a b] [ca cb] m cs [Ha Hb] F IH]; intros es E; cbn [c_entries visit_entries] in *; [now injection E as <-|].
  apply obind_some in E as (x & Ex & E). apply obind_some in E as (y & Ey & E). apply obind_some in E as (es' & Ee & [= <-]).
  rewrite (Hk Fk a ca x Ha Ex). cbn [dbind]. rewrite (Hv Fv b cb y Hb Ey). cbn [dbind]. now rewrite (IH es' Ee).
Qed.
Lemma ag_node : forall y p c x, image y c -> c_node show_f hk c = Some x -> de_yaml show_f hk p y = DOk x.
Proof.
  induction y as [| b | s | s | s | l IH | m IH | a] using yaml_ind2; intros p c x Hi E; inversion Hi as [| |? z Hz|? z Hz| |? cs F|? cs F]; subst; cbn [c_node de_yaml] in *.
  - now injection E as <-.
  - now injection E as <-.
  - rewrite Hz. now injection E as <-.
  - rewrite Hz. now injection E as <-.
  - now injection E as <-.
  - apply obind_some in E as (l' & El & [= <-]).
    match type of El with ?g cs = _ => set (go := g) in El end.
    match goal with |- dbind (?g l) _ = _ => assert (G : forall cs l', Forall2 (fun n c => image (n_yaml n) c) l cs -> go cs = Some l' -> g l = DOk l') end.
    { clear - IH. induction IH as [|[q tg y] l Hy IH IHl]; intros cs l' F E; inversion F as [|? c ? cs' Hc F']; subst; cbn [go] in E; [now injection E as <-|].
      apply obind_some in E as (a & Ea & E). apply obind_some in E as (b & Eb & [= <-]). cbn [n_yaml] in *. rewrite (Hy q c a Hc Ea). cbn [dbind]. now rewrite (IHl cs' b F' Eb). }
    now rewrite (G cs l' F El).
  - apply obind_some in E as (m' & Em & E). apply obind_some in E as (m'' & Em' & [= <-]).
    match type of Em with ?g cs [] = _ => set (go := g) in Em end.
    match goal with |- dbind (?g m []) _ = _ => assert (G : forall cs acc m', Forall2 (fun kv c => image (n_yaml (fst kv)) (fst c) /\ image (n_yaml (snd kv)) (snd c)) m cs -> go cs acc = Some m' -> g m acc = DOk m') end.
    { clear - IH. induction IH as [|[[q1 t1 y1] [q2 t2 y2]] m [H1 H2] IH IHm]; intros cs acc m' F E; inversion F as [|? [ck cv] ? cs' [Hk Hv] F']; subst; cbn [go] in E; [now injection E as <-|].
      cbn [fst snd n_yaml] in Hk, Hv, H1, H2. apply obind_some in E as (a & Ea & E). apply obind_some in E as (b & Eb & E). apply obind_some in E as (acc' & Ec & E).
      rewrite (H1 q1 ck a Hk Ea). cbn [dbind]. rewrite (H2 q2 cv b Hv Eb). cbn [dbind]. rewrite Ec. now apply (IHm cs'). }
    rewrite (G cs [] m' F Em). cbn [dbind]. now rewrite Em'.
Qed.
Theorem agree : forall t, AG t.
Proof.
  apply (ty_ind2 AG AGV).
  - intros _ n c v Hi E. cbn in E. destruct c; try discriminate. injection E as <-. inversion Hi as [|? Ey| | | | |]; subst. cbn [Serde.de]. now rewrite <- Ey.
  - intros sg b Hf n c v Hi E. inversion Hf; subst. cbn [from_buffer] in E. destruct c as [| |z| | | |]; try discriminate. destruct (in_range sg b z) eqn:R; [|discriminate]. injection E as <-.
    inversion Hi as [| |s ? Es Ey| | | |]; subst. cbn [Serde.de]. unfold de_int. rewrite <- Ey, Es, wrap_fits by (try assumption; now apply range_fits). reflexivity.
  - intros _ n c v Hi E. cbn [from_buffer] in E. cbn [Serde.de]. unfold de_f64. destruct c as [| |z|x| | |]; try discriminate; injection E as <-.
    + inversion Hi as [| |s ? Es Ey| | | |]; subst. rewrite Es. reflexivity.
    + inversion Hi as [| | |s ? Es Ey| | |]; subst. rewrite Es. reflexivity.
  - intros Hf. inversion Hf.
  - intros _ n c v Hi E. cbn [from_buffer] in E. destruct c; try discriminate. injection E as <-. inversion Hi as [| | | |? Ey| |]; subst. cbn [Serde.de de_payload]. unfold de_str. now rewrite <- ?Ey.
  - intros _ n c v Hi E. cbn [from_buffer] in E. cbn [Serde.de]. unfold de_bytes. destruct c as [| | | |s|l|]; try discriminate.
    + injection E as <-. inversion Hi as [| | | |? Ey| |]; subst. now rewrite <- ?Ey.
    + apply obind_some in E as (bs & Eb & [= <-]). inversion Hi as [| | | | |l' ? F Ey|]; subst. rewrite <- ?Ey. now rewrite (ag_u8s l' l bs F Eb).
  - intros _ n c v Hi E. cbn [from_buffer] in E. destruct c; try discriminate. injection E as <-. inversion Hi as [Ey| | | | | |]; subst. cbn [Serde.de de_payload]. unfold de_unit, is_null. now rewrite <- ?Ey.
  - intros t IH Hf n c v Hi E. inversion Hf; subst. cbn [from_buffer] in E. cbn [Serde.de].
    assert (K : (let? v := fb t c in Some (VSome v)) = Some v -> n_yaml n <> YNull -> match n_yaml n with YNull => DOk VNone | _ => let! v := de t n in DOk (VSome v) end = DOk v).
    { intros E' N. apply obind_some in E' as (w & Ew & [= <-]). rewrite (IH ltac:(assumption) n c w Hi Ew). destruct (n_yaml n); try reflexivity. congruence. }
    destruct c; try (apply K; [exact E|]; intros Z; rewrite Z in Hi; inversion Hi). injection E as <-. inversion Hi; reflexivity.
  - intros t IH Hf n c v Hi E. inversion Hf; subst. cbn [from_buffer] in E. destruct c as [| | | | |l|]; try discriminate. apply obind_some in E as (vs & Ev & [= <-]).
    inversion Hi as [| | | | |l' ? F Ey|]; subst. cbn [Serde.de]. rewrite <- ?Ey. rewrite (ag_all t l' l IH ltac:(assumption) F vs Ev). reflexivity.
  - intros ts IH Hf n c v Hi E. inversion Hf; subst. rewrite fb_tuple in E. destruct c as [| | | | |l|]; try discriminate. apply obind_some in E as (vs & Ev & [= <-]).
    inversion Hi as [| | | | |l' ? F Ey|]; subst. rewrite de_tuple_eq, <- Ey. rewrite (ag_tuple ts IH ltac:(assumption) l' l vs F Ev). reflexivity.
  - intros k v0 IHk IHv Hf n c v Hi E. inversion Hf; subst. cbn [from_buffer] in E. destruct c as [| | | | | |m]; try discriminate. apply obind_some in E as (es & Ee & [= <-]).
    inversion Hi as [| | | | | |m' ? F Ey]; subst. cbn [Serde.de]. rewrite <- ?Ey. rewrite (ag_entries k v0 m' m IHk IHv ltac:(assumption) ltac:(assumption) F es Ee). reflexivity.
  - intros fs IH Hf n c v Hi E. inversion Hf; subst. rewrite fb_struct in E. rewrite de_struct_eq. destruct c as [| | | | |l|m]; try discriminate.
    + apply obind_some in E as (vs & Ev & [= <-]). inversion Hi as [| | | | |l' ? F Ey|]; subst. rewrite <- ?Ey. rewrite (ag_fields_seq fs IH ltac:(assumption) l' l vs F Ev). reflexivity.
    + inversion Hi as [| | | | | |m' ? F Ey]; subst. rewrite <- ?Ey. exact (ag_map_fields fs IH ltac:(assumption) m' m v F E).
  - intros t IH Hf n c v Hi E. inversion Hf; subst. cbn [from_buffer Serde.de] in *. now apply (IH ltac:(assumption) n c v).
  - intros vs IH Hf n c v Hi E. inversion Hf as [| | | | | | | | | | | |? Fv|]; subst. rewrite fb_enum in E. rewrite de_enum_eq. apply obind_some in E as ([name o] & Eh & E). cbn [fst snd] in E.
    destruct (lookup name vs) as [vr|] eqn:El; [|discriminate]. apply obind_some in E as (pl & Ep & [= <-]).
    assert (A : AGV vr /\ faithful_variant vr).
    { clear - IH Fv El. induction IH as [|[n' v'] vs Hv IH IHv]; [discriminate|]. inversion Fv; subst. cbn [lookup] in El. destruct (str_eqb n' name); [injection El as <-; split; assumption|auto]. }
    destruct A as [A FA]. unfold de_enum_head. unfold c_head in Eh. destruct c as [| | | |s| |m]; try discriminate.
    + injection Eh as -> <-. inversion Hi as [| | | |? Ey| |]; subst. rewrite <- ?Ey. cbn [dbind fst snd]. unfold de_ident. rewrite <- ?Ey. cbn [dbind]. rewrite El.
      destruct vr; try discriminate. cbn in Ep. injection Ep as <-. reflexivity.
    + destruct m as [|[ck cx] m]; [discriminate|]. destruct ck as [| | | |s| |]; try discriminate. destruct m; [|discriminate]. injection Eh as -> <-.
      inversion Hi as [| | | | | |m' ? F Ey]; subst. inversion F as [|[k x] ? ? ? [Hk Hx] F']; subst. inversion F'; subst. cbn [fst snd] in Hk, Hx. inversion Hk as [| | | |? Ek| |]; subst.
      cbn [dbind fst snd]. unfold de_ident. rewrite <- Ek. cbn [dbind]. rewrite El. rewrite (A FA x cx pl Hx Ep). reflexivity.
  - intros _ n c v Hi E. cbn [from_buffer] in E. apply obind_some in E as (x & Ex & [= <-]). cbn [Serde.de]. unfold de_node. now rewrite (ag_node _ (n_pos n) c x Hi Ex).
  - intros _ n c v Hi E. cbn in E. destruct c; try discriminate. injection E as <-. inversion Hi as [Ey| | | | | |]; subst. cbn [Serde.de de_payload]. unfold de_unit, is_null. now rewrite <- ?Ey.
  - intros t IH Hf n c v Hi E. inversion Hf; subst. cbn [c_payload de_payload] in *. now apply (IH ltac:(assumption) n c v).
  - intros ts IH Hf n c v Hi E. inversion Hf; subst. cbn [c_payload de_payload] in *. destruct c as [| | | | |l|]; try discriminate. apply obind_some in E as (vs & Ev & [= <-]).
    inversion Hi as [| | | | |l' ? F Ey|]; subst. rewrite <- ?Ey. rewrite (ag_tuple ts IH ltac:(assumption) l' l vs F Ev). reflexivity.
  - intros fs IH Hf. inversion Hf.
Qed.
End Agree.

(** ** What is written is read back through the buffer *)
Lemma lookup_all {V} (Pv : V -> Prop) name (vs : list (str * V)) vr : Forall (fun v => Pv (snd v)) vs -> lookup name vs = Some vr -> Pv vr.
Proof. induction 1 as [|[n' v'] vs Hv F IH]; [discriminate|]. cbn [lookup]. destruct (str_eqb n' name); [intros [= <-]; exact Hv|exact IH]. Qed.
Lemma fits_range sg b z : b <= 64 -> fits sg b z -> in_range sg b z = true.
Proof.
  unfold in_range, fits. intros Hb H. apply andb_true_iff. split; [now apply N.leb_le|]. destruct sg; apply andb_true_iff; split; lia.
Qed.
Section Back.
Variables (show_f : f64 -> str) (hk : hasher).
Hypothesis Hf : reads_back show_f.
Notation fb := (from_buffer show_f hk).
Notation pairs_image := (Forall2 (fun kv c => image (n_yaml (fst kv)) (fst c) /\ image (n_yaml (snd kv)) (snd c))).
Definition RT (t : ty) : Prop := small t -> forall v n, has t v -> writes show_f t v n ->
  exists c, image (n_yaml n) c /\ fb t c = Some v /\ (nullable t = false -> c <> CUnit).
Definition RTV (vr : variant) : Prop := small_variant vr -> forall pl x, payload vr pl -> writes_payload show_f vr pl x ->
  exists c, image (n_yaml x) c /\ c_payload show_f hk vr (Some c) = Some pl.
Lemma rt_all ts : Forall RT ts -> Forall small ts -> forall l ns, Forall2 has ts l -> writes_all show_f ts l ns ->
  exists cs, Forall2 (fun n c => image (n_yaml n) c) ns cs /\ c_tuple show_f hk ts cs = Some l.
Proof.
  intros H S l ns F. revert H S ns. induction F as [|t v ts l Hv F IH]; intros H S ns W; inversion W as [|? ? ? ? n ns' Wn Wns]; subst; [exists []; split; [constructor|reflexivity]|].
  inversion H as [|? ? H1 H2]; inversion S as [|? ? S1 S2]; subst. destruct (IH H2 S2 _ Wns) as (cs & Fi & E).
  destruct (H1 S1 v n Hv Wn) as (c & Ic & Ec & _). exists (c :: cs). split; [now constructor|]. cbn [c_tuple]. rewrite Ec. cbn [obind]. now rewrite E.
Qed.
(** fields: name, type, value, content *)
Definition quad : Type := (str * ty) * (val * content).
Definition qn (q : quad) : str := fst (fst q).
Definition qt (q : quad) : ty := snd (fst q).
Definition qv (q : quad) : val := fst (snd q).
Definition qc (q : quad) : content := snd (snd q).
Definition qent (q : quad) : content * content := (CStr (qn q), qc q).
Lemma rt_split fs : Forall (fun f => RT (snd f)) fs -> Forall (fun f => small (snd f)) fs -> forall l m, Forall2 (fun f x => has (snd f) x) fs l -> writes_fields show_f fs l m ->
  exists qs : list quad, fs = List.map fst qs /\ l = List.map qv qs /\ pairs_image m (List.map qent qs) /\ Forall (fun q => fb (qt q) (qc q) = Some (qv q)) qs.
Proof.
  intros H S l m F. revert H S m. induction F as [|[f t] v fs l Hv F IH]; intros H S m W; inversion W as [|? ? ? ? ? n ? Wn Wm]; subst; [exists []; repeat split; constructor|].
  inversion H as [|? ? H1 H2]; inversion S as [|? ? S1 S2]; subst. cbn [snd] in *. destruct (IH H2 S2 _ Wm) as (qs & -> & -> & Fi & Fe).
  destruct (H1 S1 v n Hv Wn) as (c & Ic & Ec & _). exists (((f, t), (v, c)) :: qs). repeat split.
  - cbn [List.map]. constructor; [|exact Fi]. split; [constructor|exact Ic].
  - constructor; [exact Ec|exact Fe].
Qed.
Lemma rt_field qs q x : NoDup (List.map qn qs) -> In q qs -> c_field show_f hk (List.map fst qs) (qn q) x = Some (fb (qt q) x).
Proof.
  intros Hd H. induction qs as [|[[f0 t0] u0] qs IH]; [destruct H|]. inversion Hd as [|? ? Hn Hd']; subst. cbn [List.map fst c_field].
  destruct H as [<-|H]; [unfold qn; cbn [fst]; now rewrite str_eqb_refl|].
  destruct (str_eqb f0 (qn q)) eqn:E; [|auto]. apply str_eqb_eq in E. exfalso. apply Hn. change (In (f0) (List.map qn qs)). rewrite E. now apply in_map.
Qed.
Lemma rt_visit qs0 : NoDup (List.map qn qs0) -> forall qs acc, incl qs qs0 -> Forall (fun q => fb (qt q) (qc q) = Some (qv q)) qs ->
  NoDup (List.map fst acc ++ List.map qn qs) ->
  c_fields (c_field show_f hk (List.map fst qs0)) (List.map qent qs) acc = Some (acc ++ List.map (fun q => (qn q, qv q)) qs).
Proof.
  intros Hd0. induction qs as [|q qs IH]; intros acc Hi H Hd; [cbn; now rewrite app_nil_r|].
  inversion H as [|? ? D1 Hr]; subst. cbn [List.map]. unfold qent at 1. cbn [c_fields].
  rewrite (rt_field qs0 q (qc q) Hd0) by (apply Hi; now left).
  rewrite bt_get_not_in. 2:{ cbn [List.map] in Hd. apply NoDup_remove_2 in Hd. intros K. apply Hd, in_app_iff. now left. }
  rewrite D1. cbn [obind]. rewrite IH; [now rewrite <- app_assoc|intros x Hx; apply Hi; now right|assumption|].
  rewrite map_app, <- app_assoc. exact Hd.
Qed.
Lemma rt_collect qs0 : NoDup (List.map qn qs0) -> forall qs, incl qs qs0 ->
  c_collect (List.map fst qs) (List.map (fun q => (qn q, qv q)) qs0) = Some (List.map qv qs).
Proof.
  intros Hd. assert (G : forall q, In q qs0 -> bt_get (qn q) (List.map (fun q => (qn q, qv q)) qs0) = Some (qv q)).
  { induction qs0 as [|q0 qs0 IH]; intros q Hq; [destruct Hq|]. inversion Hd as [|? ? Hn Hd']; subst. cbn [List.map bt_get].
    destruct Hq as [-> |Hq]; [now rewrite str_eqb_refl|].
    destruct (str_eqb (qn q) (qn q0)) eqn:E; [|auto]. apply str_eqb_eq in E. exfalso. apply Hn. rewrite <- E. now apply in_map. }
  induction qs as [|q qs IH]; intros Hi; [reflexivity|]. cbn [List.map]. specialize (G q (Hi q (or_introl eq_refl))).
  destruct q as [[f t] [v c]]. cbn [fst c_collect]. unfold qn at 1 in G. cbn [fst] in G. rewrite G. cbn [obind]. rewrite IH by (intros x Hx; apply Hi; now right). reflexivity.
Qed.
Lemma rt_struct fs : Forall (fun f => RT (snd f)) fs -> Forall (fun f => small (snd f)) fs -> NoDup (List.map fst fs) -> forall l m, Forall2 (fun f x => has (snd f) x) fs l -> writes_fields show_f fs l m ->
  exists cs, pairs_image m cs /\ c_map_fields show_f hk fs cs = Some (VList l).
Proof.
  intros H S Hd l m F W. destruct (rt_split fs H S l m F W) as (qs & -> & -> & Fi & Fe). exists (List.map qent qs). split; [exact Fi|].
  assert (Hd' : NoDup (List.map qn qs)) by (rewrite map_map in Hd; exact Hd).
  unfold c_map_fields. rewrite rt_visit; [|assumption|apply incl_refl|assumption|exact Hd']. cbn [obind app]. rewrite rt_collect; [reflexivity|assumption|apply incl_refl].
Qed.
Lemma rt_every : forall t, RT t.
Proof.
  apply (ty_ind2 RT RTV).
  - intros _ v n H W. inversion W; subst. eexists. split; [constructor|]. split; [reflexivity|discriminate].
  - intros sg b S v n H W. inversion W; subst. inversion H; subst. inversion S; subst. eexists. split; [constructor; now apply to_i64_show|]. cbn [from_buffer]. rewrite fits_range by assumption. split; [reflexivity|discriminate].
  - intros _ v n H W. inversion W; subst. inversion H as [| |? [tx Ht] | | | | | | | | | | | |]; subst. eexists. split; [constructor; exact (Hf tx _ Ht)|]. split; [reflexivity|discriminate].
  - intros _ v n H W. inversion W; subst. eexists. split; [constructor|]. split; [reflexivity|discriminate].
  - intros _ v n H W. inversion W; subst. eexists. split; [constructor|]. split; [reflexivity|discriminate].
  - intros _ v n H W. inversion W as [| | | | |bs| | | | | | | | | |]; subst. inversion H as [| | | | |? Hl| | | | | | | | |]; subst. exists (CSeq (List.map (fun b => CI64 (Z.of_N b)) bs)). split; [|split; [|discriminate]].
    + constructor. clear - Hl. induction Hl as [|b l Hb Hl IH]; constructor; [|exact IH]. constructor. apply to_i64_show. unfold in_i64, i64_min, i64_max; lia.
    + cbn [from_buffer]. replace (c_u8s (List.map (fun b => CI64 (Z.of_N b)) bs)) with (Some bs); [reflexivity|]. clear - Hl. induction Hl as [|b l Hb Hl IH]; [reflexivity|]. cbn [List.map c_u8s].
      rewrite fits_range; [|lia|unfold fits; change (2 ^ Z.of_N 8)%Z with 256%Z; lia]. rewrite <- IH. cbn [obind]. now rewrite N2Z.id.
  - intros _ v n H W. inversion W; subst. eexists. split; [constructor|]. split; [reflexivity|discriminate].
  - intros t IH S v n H W. inversion S; subst. inversion W as [| | | | | | | |? w ? Ww| | | | | | |]; subst.
    + eexists. split; [constructor|]. split; [reflexivity|discriminate].
    + inversion H as [| | | | | | | |? ? Hn Hw| | | | | |]; subst. destruct (IH ltac:(assumption) w n Hw Ww) as (c & Ic & Ec & Nc). exists c. split; [exact Ic|]. split; [|discriminate].
      cbn [from_buffer]. specialize (Nc Hn). rewrite Ec. destruct c; try reflexivity. congruence.
  - intros t IH S v n H W. inversion S; subst. inversion W as [| | | | | | | | |? l ns Fw| | | | | |]; subst. inversion H as [| | | | | | | | |? ? Hl| | | | |]; subst.
    assert (G : exists cs, Forall2 (fun n c => image (n_yaml n) c) ns cs /\ c_all (fb t) cs = Some l).
    { clear - IH Fw Hl H1. induction Fw as [|v n l ns Wv Fw IHl]; [exists []; split; [constructor|reflexivity]|]. inversion Hl; subst. destruct (IHl ltac:(assumption)) as (cs & Fi & E).
      destruct (IH H1 v n ltac:(assumption) Wv) as (c & Ic & Ec & _). exists (c :: cs). split; [now constructor|]. cbn [c_all]. rewrite Ec. cbn [obind]. now rewrite E. }
    destruct G as (cs & Fi & E). exists (CSeq cs). split; [now constructor|]. split; [cbn [from_buffer]; now rewrite E|discriminate].
  - intros ts IH S v n H W. inversion S; subst. inversion W; subst. inversion H; subst. destruct (rt_all ts IH ltac:(assumption) l ns ltac:(assumption) ltac:(assumption)) as (cs & Fi & E).
    exists (CSeq cs). split; [now constructor|]. split; [rewrite fb_tuple; now rewrite E|discriminate].
  - intros k v0 IHk IHv S v n H W. inversion S; subst. inversion W as [| | | | | | | | | | |? ? l m Fw| | | |]; subst. inversion H as [| | | | | | | | | | |? ? ? Ek Hd Hl| | |]; subst.
    assert (G : exists cs, pairs_image m cs /\ c_entries (fb k) (fb v0) cs = Some l).
    { clear - IHk IHv Fw Hl H2 H3. induction Fw as [|[a b] [x y] l m [Wa Wb] Fw IHl]; [exists []; split; [constructor|reflexivity]|]. inversion Hl as [|? ? [Ha Hb] Hl']; subst. cbn [fst snd] in *. destruct (IHl Hl') as (cs & Fi & E).
      destruct (IHk H2 a x Ha Wa) as (c & Ic & Ec & _). destruct (IHv H3 b y Hb Wb) as (c' & Ic' & Ec' & _). exists ((c, c') :: cs). split; [constructor; [split; assumption|assumption]|]. cbn [c_entries]. rewrite Ec. cbn [obind]. rewrite Ec'. cbn [obind]. now rewrite E. }
    destruct G as (cs & Fi & E). exists (CMap cs). split; [now constructor|]. split; [cbn [from_buffer]; now rewrite E|discriminate].
  - intros fs IH S v n H W. inversion S; subst. inversion W; subst. inversion H; subst. destruct (rt_struct fs IH ltac:(assumption) ltac:(assumption) l m ltac:(assumption) ltac:(assumption)) as (cs & Fi & E).
    exists (CMap cs). split; [now constructor|]. split; [rewrite fb_struct; exact E|discriminate].
  - intros t IH S v n H W. inversion S; subst. inversion W; subst. inversion H; subst. cbn [from_buffer nullable]. now apply IH.
  - intros vs IH S v n H W. inversion S as [| | | | | | | | | | | | |? Sv]; subst. inversion H as [| | | | | | | | | | | | | |? name vr pl Hl Hp]; subst.
    inversion W as [| | | | | | | | | | | | | |? ? Hl'|? ? vr' ? x Hl' Wp]; subst.
    + exists (CStr name). split; [constructor|]. split; [|discriminate]. rewrite fb_enum. cbn [c_head obind fst snd]. rewrite Hl'. reflexivity.
    + rewrite Hl in Hl'. injection Hl' as <-. destruct (lookup_all RTV name vs vr IH Hl (lookup_all small_variant name vs vr Sv Hl) pl x Hp Wp) as (c & Ic & Ec).
      exists (CMap [(CStr name, c)]). split; [constructor; constructor; [split; [constructor|exact Ic]|constructor]|]. split; [|discriminate]. rewrite fb_enum. cbn [c_head obind fst snd]. rewrite Hl, Ec. reflexivity.
  - intros S. inversion S.
  - intros S pl x H W. inversion W.
  - intros t IH S pl x H W. inversion S; subst. inversion W; subst. inversion H; subst. destruct (IH ltac:(assumption) pl x ltac:(assumption) ltac:(assumption)) as (c & Ic & Ec & _). exists c. split; [exact Ic|exact Ec].
  - intros ts IH S pl x H W. inversion S; subst. inversion W; subst. inversion H; subst. destruct (rt_all ts IH ltac:(assumption) l ns ltac:(assumption) ltac:(assumption)) as (cs & Fi & E).
    exists (CSeq cs). split; [now constructor|]. cbn [c_payload]. now rewrite E.
  - intros fs IH S pl x H W. inversion S; subst. inversion W; subst. inversion H; subst. destruct (rt_struct fs IH ltac:(assumption) ltac:(assumption) l m ltac:(assumption) ltac:(assumption)) as (cs & Fi & E).
    exists (CMap cs). split; [now constructor|]. cbn [c_payload]. exact E.
Qed.
End Back.

(** ** The buffer: total on readable data without aliases, blind to places and tags *)
Lemma buffer_total : forall y, readable y -> forall p,
  match first_alias p y with Some q => buffer p y = DErr q | None => exists c, buffer p y = DOk c end.
Proof.
  induction y as [| b | s | s | s | l IH | m IH | a] using yaml_ind2; intros R p; cbn [first_alias buffer]; try (eexists; reflexivity).
  - inversion R as [| |? z Hz| | | | |]; subst. rewrite Hz. eauto.
  - inversion R as [| | |? z Hz| | | |]; subst. rewrite Hz. eauto.
  - inversion R as [| | | | |? Rl| |]; subst. clear R.
    match goal with |- match ?f l with _ => _ end => set (fa := f) end. match goal with |- context [dbind (?g l) _] => set (go := g) end.
    assert (G : match fa l with Some q => go l = DErr q | None => exists cs, go l = DOk cs end).
    { induction Rl as [|[p' t' y'] l Ry Rl IHl]; [exists []; reflexivity|]. inversion IH as [|? ? Hy IH']; subst. cbn [n_yaml] in *. specialize (Hy Ry p'). cbn [fa go].
      destruct (first_alias p' y') as [q|]; [now rewrite Hy|]. destruct Hy as [c ->]. cbn [dbind]. specialize (IHl IH'). destruct (fa l) as [q|]; [now rewrite IHl|]. destruct IHl as [cs ->]. cbn [dbind]. eauto. }
    destruct (fa l) as [q|]; [now rewrite G|]. destruct G as [cs ->]. cbn [dbind]. eauto.
  - inversion R as [| | | | | |? Rm|]; subst. clear R.
    match goal with |- match ?f m with _ => _ end => set (fa := f) end. match goal with |- context [dbind (?g m) _] => set (go := g) end.
    assert (G : match fa m with Some q => go m = DErr q | None => exists cs, go m = DOk cs end).
    { induction Rm as [|[[p1 t1 y1] [p2 t2 y2]] m [R1 R2] Rm IHm]; [exists []; reflexivity|]. inversion IH as [|? ? [H1 H2] IH']; subst. cbn [n_yaml fst snd] in *.
      specialize (H1 R1 p1). specialize (H2 R2 p2). cbn [fa go].
      destruct (first_alias p1 y1) as [q|]; [now rewrite H1|]. destruct H1 as [c ->]. cbn [dbind]. destruct (first_alias p2 y2) as [q|]; [now rewrite H2|]. destruct H2 as [c' ->]. cbn [dbind].
      specialize (IHm IH'). destruct (fa m) as [q|]; [now rewrite IHm|]. destruct IHm as [cs ->]. cbn [dbind]. eauto. }
    destruct (fa m) as [q|]; [now rewrite G|]. destruct G as [cs ->]. cbn [dbind]. eauto.
Qed.
Lemma image_strip : forall y c, image y c <-> image (strip y) c.
Proof.
  induction y as [| b | s | s | s | l IH | m IH | a] using yaml_ind2; intros c; cbn [strip]; try reflexivity.
  - assert (G : forall cs, Forall2 (fun n c => image (n_yaml n) c) l cs <-> Forall2 (fun n c => image (n_yaml n) c) (List.map (fun n => match n with Node _ _ x => Node 0 [] (strip x) end) l) cs).
    { clear c. induction IH as [|[p t y] l Hy IH IHl]; intros cs; [reflexivity|]. cbn [List.map n_yaml] in *. split; inversion 1; subst; (constructor; [now apply Hy|now apply IHl]). }
    split; inversion 1 as [| | | | |? ? F|]; subst; constructor; now apply G.
  - assert (G : forall cs, Forall2 (fun kv c => image (n_yaml (fst kv)) (fst c) /\ image (n_yaml (snd kv)) (snd c)) m cs
        <-> Forall2 (fun kv c => image (n_yaml (fst kv)) (fst c) /\ image (n_yaml (snd kv)) (snd c)) (List.map (fun kv => match kv with (Node _ _ k, Node _ _ x) => (Node 0 [] (strip k), Node 0 [] (strip x)) end) m) cs).
    { clear c. induction IH as [|[[p1 t1 y1] [p2 t2 y2]] m [H1 H2] IH IHl]; intros cs; [reflexivity|]. cbn [List.map n_yaml fst snd] in *.
      split; inversion 1 as [|? ? ? ? [A B] F]; subst; (constructor; [cbn [fst snd n_yaml] in *; split; [now apply H1|now apply H2]|now apply IHl]). }
    split; inversion 1 as [| | | | | |? ? F]; subst; constructor; now apply G.
Qed.
Lemma image_same y y' c : strip y = strip y' -> image y c -> image y' c.
Proof. intros E H. apply (proj2 (image_strip y' c)). rewrite <- E. apply (proj1 (image_strip y c)), H. Qed.

(** ** InlineList *)
Section Helpers.
Variables (show_f : f64 -> str) (hk : hasher).
(** a list or a single element of type [t] *)
Definition has_list (t : ty) (x : inline_list val) : Prop :=
  match x with IList l => Forall (has t) l | IInline v => has t v /\ never_list t end.
Definition has_optional (t : ty) (x : optional val) : Prop :=
  match x with OBool _ => True | OSome v => has t v /\ never_bool t end.

Lemma list_not_single t v n c : never_list t -> has t v -> writes show_f t v n -> image (n_yaml n) c -> from_buffer show_f hk (TSeq t) c = None.
Proof.
  intros Hn H W I. assert (K : forall cs, c <> CSeq cs); [|destruct c; try reflexivity; now destruct (K l)].
  intros cs ->. revert t v n Hn H W I. fix IH 1. intros t v n Hn H W I. destruct t; try (inversion W; subst; inversion I; fail); try destruct Hn.
  - inversion W; subst; [inversion I|]. inversion H; subst. eapply (IH t); eassumption.
  - inversion W; subst. inversion H; subst. eapply (IH t); eassumption.
Qed.
Lemma bool_not_single t v n c : never_bool t -> has t v -> writes show_f t v n -> image (n_yaml n) c -> from_buffer show_f hk TBool c = None.
Proof.
  intros Hn H W I. assert (K : forall b, c <> CBool b); [|destruct c; try reflexivity; now destruct (K b)].
  intros b ->. revert t v n Hn H W I. fix IH 1. intros t v n Hn H W I. destruct t; try (inversion W; subst; inversion I; fail); try destruct Hn.
  - inversion W; subst; [inversion I|]. inversion H; subst. eapply (IH t); eassumption.
  - inversion W; subst. inversion H; subst. eapply (IH t); eassumption.
Qed.
(** Written, then read, also from a document with the same data at other places
    and with tags: the same value in the same representation. *)
Theorem C54_inline_list_round_trip : reads_back show_f -> forall t x, small t -> has_list t x ->
  exists n, ser_inline_list show_f hk t x = DOk n /\ forall n', strip (n_yaml n') = strip (n_yaml n) -> de_inline_list show_f hk t n' = DOk x.
Proof.
  intros Hf t [l|v] S H.
  - assert (Hh : has (TSeq t) (VList l)) by now constructor. destruct (C47_what_is_written show_f hk Hf _ _ Hh) as (n & E & W). exists n. split; [exact E|]. intros n' En.
    destruct (rt_every show_f hk Hf (TSeq t) (SmSeq t S) _ n Hh W) as (c & Ic & Ec & _). unfold de_inline_list.
    apply (image_same _ (n_yaml n')) in Ic; [|now symmetry]. apply buffer_node_image in Ic. rewrite Ic. cbn [dbind]. now rewrite Ec.
  - destruct H as [Hh Hn]. destruct (C47_what_is_written show_f hk Hf _ _ Hh) as (n & E & W). exists n. split; [exact E|]. intros n' En.
    destruct (rt_every show_f hk Hf t S v n Hh W) as (c & Ic & Ec & _). pose proof (list_not_single t v n c Hn Hh W Ic) as NL. unfold de_inline_list.
    apply (image_same _ (n_yaml n')) in Ic; [|now symmetry]. apply buffer_node_image in Ic. rewrite Ic. cbn [dbind]. now rewrite NL, Ec.
Qed.
Theorem C54_optional_round_trip : reads_back show_f -> forall t x, small t -> has_optional t x ->
  exists n, ser_optional show_f hk t x = DOk n /\ forall n', strip (n_yaml n') = strip (n_yaml n) -> de_optional show_f hk t n' = DOk x.
Proof.
  intros Hf t [b|v] S H.
  - eexists. split; [reflexivity|]. intros n' En. cbn in En. unfold de_optional, buffer_node. destruct (n_yaml n'); try discriminate. injection En as ->. reflexivity.
  - destruct H as [Hh Hn]. destruct (C47_what_is_written show_f hk Hf _ _ Hh) as (n & E & W). exists n. split; [exact E|]. intros n' En.
    destruct (rt_every show_f hk Hf t S v n Hh W) as (c & Ic & Ec & _). pose proof (bool_not_single t v n c Hn Hh W Ic) as NL. unfold de_optional.
    apply (image_same _ (n_yaml n')) in Ic; [|now symmetry]. apply buffer_node_image in Ic. rewrite Ic. cbn [dbind]. now rewrite NL, Ec.
Qed.
(** What is read is what the element type itself reads: a list of the items of a
    sequence, in order, or the node as one element. *)
Theorem C54_inline_list_contents : forall t n x, faithful t -> de_inline_list show_f hk t n = DOk x ->
  match x with
  | IList l => exists ns, n_yaml n = YSeq ns /\ Forall2 (fun m v => de show_f hk t m = DOk v) ns l
  | IInline v => de show_f hk t n = DOk v
  end.
Proof.
  intros t n x Ft E. unfold de_inline_list in E. apply dbind_ok in E as (c & Ec & E). apply buffer_node_image in Ec.
  assert (One : forall v, from_buffer show_f hk t c = Some v -> de show_f hk t n = DOk v) by (intros v Ev; now apply (agree show_f hk t Ft n c)).
  destruct (from_buffer show_f hk (TSeq t) c) as [w|] eqn:Ew.
  - cbn [from_buffer] in Ew. destruct c as [| | | | |cs|]; try discriminate. apply obind_some in Ew as (vs & Ev & [= <-]). injection E as <-.
    inversion Ec as [| | | | |ns ? F Ey|]; subst. exists ns. split; [reflexivity|]. clear - F Ev Ft. revert vs Ev.
    induction F as [|m c ns cs Im F IH]; intros vs Ev; cbn [c_all] in Ev; [injection Ev as <-; constructor|].
    apply obind_some in Ev as (v & Ev & E). apply obind_some in E as (vs' & Evs & [= <-]). constructor; [now apply (agree show_f hk t Ft m c)|now apply IH].
  - destruct (from_buffer show_f hk t c) as [v|]; [|discriminate]. injection E as <-. now apply One.
Qed.
Theorem C54_optional_contents : forall t n x, faithful t -> de_optional show_f hk t n = DOk x ->
  match x with OBool b => n_yaml n = YBool b | OSome v => de show_f hk t n = DOk v /\ forall b, n_yaml n <> YBool b end.
Proof.
  intros t n x Ft E. unfold de_optional in E. apply dbind_ok in E as (c & Ec & E). apply buffer_node_image in Ec. cbn [from_buffer] in E.
  destruct c; try (destruct (from_buffer show_f hk t _) as [v|] eqn:Ev; [|discriminate]; injection E as <-; split; [eapply (agree show_f hk t Ft); eassumption|intros b0 K; rewrite K in Ec; inversion Ec]).
  injection E as <-. now inversion Ec.
Qed.
(** An alias is an error at its place; any other error has lost its place. *)
Theorem C54_errors : forall t n p, readable (n_yaml n) ->
  de_inline_list show_f hk t n = DErr p \/ de_optional show_f hk t n = DErr p ->
  first_alias (n_pos n) (n_yaml n) = Some p \/ first_alias (n_pos n) (n_yaml n) = None /\ p = 0.
Proof.
  intros t n p R E. pose proof (buffer_total (n_yaml n) R (n_pos n)) as B. fold (buffer_node n) in B. unfold de_inline_list, de_optional in E.
  destruct (first_alias (n_pos n) (n_yaml n)) as [q|].
  - left. rewrite B in E. destruct E as [[= ->]|[= ->]]; reflexivity.
  - right. split; [reflexivity|]. destruct B as [c Ec]. rewrite Ec in E. cbn [dbind] in E. destruct E as [E|E].
    + destruct (from_buffer show_f hk (TSeq t) c) as [[]|]; destruct (from_buffer show_f hk t c); congruence.
    + destruct (from_buffer show_f hk TBool c) as [[]|]; destruct (from_buffer show_f hk t c); congruence.
Qed.

(** ** Stringify *)
Theorem C54_stringify : forall n, readable (n_yaml n) -> first_alias (n_pos n) (n_yaml n) = None ->
  match n_yaml n with
  | YBool b => de_stringify show_f hk n = DOk (TLBool b)
  | YInt s => exists z, to_i64 s = Some z
      /\ ((- 2 ^ 31 <= z < 2 ^ 31)%Z -> de_stringify show_f hk n = DOk (TLInt z))
      /\ (~ (- 2 ^ 31 <= z < 2 ^ 31)%Z -> de_stringify show_f hk n = DOk (TLFloat (FromInt z)))
  | YFloat s => exists x, to_f64 s = Some x /\ de_stringify show_f hk n = DOk (TLFloat (FromFloat x))
  | YStr s => de_stringify show_f hk n = DOk (TLStr s)
  | _ => de_stringify show_f hk n = DErr 0
  end.
Proof.
  intros n R A. pose proof (buffer_total (n_yaml n) R (n_pos n)) as B. rewrite A in B. destruct B as [c Ec]. fold (buffer_node n) in Ec.
  pose proof (proj1 (buffer_node_image n c) Ec) as I. unfold de_stringify. rewrite Ec. cbn [dbind].
  destruct (n_yaml n) as [|b|s|s|s|l|m|a] eqn:Ey; inversion I; subst; try reflexivity.
  - exists z. split; [assumption|]. cbn [from_buffer]. split; intros K.
    + rewrite fits_range; [reflexivity|lia|exact K].
    + destruct (in_range true 32 z) eqn:Er; [|reflexivity]. apply range_fits in Er. contradiction.
  - eexists. split; [eassumption|reflexivity].
Qed.
(** Booleans, integers of 32 bits and strings come back, and show as their text. *)
Theorem C54_stringify_round_trip : forall show32 x,
  match x with TLFloat _ => False | TLInt z => (- 2 ^ 31 <= z < 2 ^ 31)%Z | _ => True end ->
  de_stringify show_f hk (ser_stringify show32 x) = DOk x
  /\ de show_f hk TString (ser_stringify show32 x) = DOk (VStr (display_text_like show32 x)).
Proof.
  intros show32 [b|z|x|s] H; try destruct H; try (split; reflexivity).
  - split; [reflexivity|]. destruct b; reflexivity.
  - split; [|reflexivity]. unfold de_stringify, buffer_node. cbn [ser_stringify node_from n_yaml n_pos buffer].
    rewrite to_i64_show by (unfold in_i64, i64_min, i64_max; lia). cbn [dbind from_buffer]. rewrite fits_range; [reflexivity|lia|]. unfold fits. change (Z.of_N 32 - 1)%Z with 31%Z. lia.
Qed.
End Helpers.

(** ** Where the helper types differ from the element type *)
(** A number is not accepted where a plain [String] takes it, a number out of
    range is an error instead of wrapped, extra elements of a tuple are an error
    instead of ignored; a list of lists given as one element comes back as a
    list, a boolean element as the switch. *)
Theorem C54_differences_refuted : forall hk,
  de_inline_list show_exact hk TString (node_from (YInt (lit "7"))) = DErr 0
  /\ de show_exact hk TString (node_from (YInt (lit "7"))) = DOk (VStr (lit "7"))
  /\ de_inline_list show_exact hk (TInt false 8) (node_from (YInt (lit "300"))) = DErr 0
  /\ de show_exact hk (TInt false 8) (node_from (YInt (lit "300"))) = DOk (VInt 44)
  /\ de_optional show_exact hk (TTuple [TBool]) (node_from (YSeq [node_from (YBool true); node_from YNull])) = DErr 0
  /\ de show_exact hk (TTuple [TBool]) (node_from (YSeq [node_from (YBool true); node_from YNull])) = DOk (VList [VBool true])
  /\ (exists n, ser_inline_list show_exact hk (TSeq TBool) (IInline (VList [])) = DOk n /\ de_inline_list show_exact hk (TSeq TBool) n = DOk (IList []))
  /\ (exists n, ser_optional show_exact hk TBool (OSome (VBool true)) = DOk n /\ de_optional show_exact hk TBool n = DOk (OBool true)).
Proof.
  intros hk. do 6 (split; [vm_compute; reflexivity|]). split; eexists; (split; [vm_compute; reflexivity|]); vm_compute; reflexivity.
Qed.
(** the example of the documentation: a list of images, or one *)
Definition img_t : ty := TStruct [(lit "src", TString)].
Definition img (s : str) : val := VList [VStr s].
Example C54_witness : forall hk, small img_t /\ faithful img_t
  /\ has_list img_t (IList [img (lit "1.png"); img (lit "2.png")]) /\ has_list img_t (IInline (img (lit "1.png")))
  /\ exists n, parse hk (lit "{src: 1.png}" ++ [10%N]) = ROk [n] /\ de_inline_list show_exact hk img_t n = DOk (IInline (img (lit "1.png"))).
Proof.
  intros hk. split; [repeat constructor|]. split; [repeat constructor|].
  assert (H : forall s, has img_t (img s)). { intros s. apply HasStruct; [repeat constructor; intros []|repeat constructor]. }
  split; [constructor; [apply H|constructor; [apply H|constructor]]|]. split; [split; [apply H|exact I]|].
  eexists. split; [vm_compute; reflexivity|]. vm_compute. reflexivity.
Qed.
