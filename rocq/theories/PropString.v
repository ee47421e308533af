(** * C42: [to_string] and [from_str] *)
From Verif Require Import PropFloat3.
From Verif Require Export PropDump PropSerde2.
Local Notation distinct := Block.distinct.
Open Scope N_scope.

(** ** Specification *)
Definition text_ok (uni : N -> bool) (s : str) : Prop := word_ok s \/ hidden uni s.
(** Types whose values are written as scalars. *)
Fixpoint scalar_ty (t : ty) : bool :=
  match t with
  | TBool | TInt _ _ | TF64 | TChar | TString | TUnit => true
  | TOption t' | TNewtype t' => scalar_ty t'
  | TEnum vs => forallb (fun v => match snd v with UnitV => true | _ => false end) vs
  | _ => false
  end.
(** Values without empty collections whose strings (and the names of the fields
    and variants) survive as text, and whose floats print with a fraction or an
    exponent; the keys of maps are scalars. *)
Inductive prints (uni : N -> bool) (show_f : f64 -> str) : ty -> val -> Prop :=
| PrBool b : prints uni show_f TBool (VBool b)
| PrInt sg bits z : prints uni show_f (TInt sg bits) (VInt z)
| PrF64 f : float_literal (show_f f) \/ sci_literal (show_f f) -> (forall u, show_f f <> u ++ lit ".0") -> prints uni show_f TF64 (VFloat f)
| PrChar c : text_ok uni [c] -> prints uni show_f TChar (VChar c)
| PrString s : text_ok uni s -> prints uni show_f TString (VStr s)
| PrBytes l : l <> [] -> prints uni show_f TBytes (VBytes l)
| PrUnit : prints uni show_f TUnit VUnit
| PrNone t : prints uni show_f (TOption t) VNone
| PrSome t v : prints uni show_f t v -> prints uni show_f (TOption t) (VSome v)
| PrSeq t l : l <> [] -> Forall (prints uni show_f t) l -> prints uni show_f (TSeq t) (VList l)
| PrTuple ts l : ts <> [] -> Forall2 (prints uni show_f) ts l -> prints uni show_f (TTuple ts) (VList l)
| PrMap k v l : l <> [] -> scalar_ty k = true -> Forall (fun e => prints uni show_f k (fst e) /\ prints uni show_f v (snd e)) l ->
    prints uni show_f (TMap k v) (VMap l)
| PrStruct fs l : fs <> [] -> Forall (fun f => text_ok uni (fst f)) fs -> Forall2 (fun f x => prints uni show_f (snd f) x) fs l ->
    prints uni show_f (TStruct fs) (VList l)
| PrNewtype t v : prints uni show_f t v -> prints uni show_f (TNewtype t) v
| PrEnum vs name vr pl : lookup name vs = Some vr -> text_ok uni name -> prints_payload uni show_f vr pl -> prints uni show_f (TEnum vs) (VEnum name pl)
with prints_payload (uni : N -> bool) (show_f : f64 -> str) : variant -> val -> Prop :=
| PpUnit : prints_payload uni show_f UnitV VUnit
| PpNewtype t v : prints uni show_f t v -> prints_payload uni show_f (NewtypeV t) v
| PpTuple ts l : ts <> [] -> Forall2 (prints uni show_f) ts l -> prints_payload uni show_f (TupleV ts) (VList l)
| PpStruct fs l : fs <> [] -> Forall (fun f => text_ok uni (fst f)) fs -> Forall2 (fun f x => prints uni show_f (snd f) x) fs l ->
    prints_payload uni show_f (StructV fs) (VList l).

(** ** Deserialization does not look at positions and tags, except to report errors *)
Definition like {A} (r r' : dres A) : Prop :=
  match r, r' with DOk a, DOk b => a = b | DErr _, DErr _ => True | DPanic, DPanic => True | _, _ => False end.
Lemma like_refl {A} (r : dres A) : like r r. Proof. destruct r; reflexivity || exact I. Qed.
Lemma like_trans {A} (a b c : dres A) : like a b -> like b c -> like a c.
Proof. destruct a, b, c; cbn; congruence || tauto. Qed.
Lemma like_sym {A} (a b : dres A) : like a b -> like b a.
Proof. destruct a, b; cbn; congruence || tauto. Qed.
Lemma like_bind {A B} (r r' : dres A) (f g : A -> dres B) : like r r' -> (forall a, like (f a) (g a)) -> like (dbind r f) (dbind r' g).
Proof. intros H K. destruct r, r'; cbn in *; try contradiction; try exact I. subst. apply K. Qed.
Lemma like_un {A} n : like (@unexpected A n) (unexpected (strip_n n)).
Proof. unfold unexpected, strip_n. cbn [n_yaml n_pos]. destruct (n_yaml n); cbn [strip]; try exact I; [destruct (to_i64 _)|destruct (to_f64 _)]; exact I. Qed.

Section Like.
  Variables (show_f : f64 -> str) (hk : hasher).
  Notation de := (de show_f hk).
  Definition PL (t : ty) : Prop := forall n, like (de t n) (de t (strip_n n)).
  Definition QL (vr : variant) : Prop := forall o, like (de_payload show_f hk vr o) (de_payload show_f hk vr (option_map strip_n o)).
  Lemma node_like y : forall p q, like (de_yaml show_f hk p y) (de_yaml show_f hk q (strip y)).
  Proof.
    induction y as [| b0 | s | s | s | l IH | m IH | al] using yaml_ind2; intros p q; try reflexivity.
    - cbn [de_yaml strip]. destruct (to_i64 s); [reflexivity|exact I].
    - cbn [de_yaml strip]. destruct (to_f64 s); [reflexivity|exact I].
    - rewrite strip_seq. change (like (let! l' := de_seq show_f hk l in DOk (node_from (YSeq l'))) (let! l' := de_seq show_f hk (List.map strip_n l) in DOk (node_from (YSeq l')))).
      apply like_bind; [|intros; reflexivity]. induction IH as [|[p' t' y'] l Hx IH IHl]; [reflexivity|].
      cbn [List.map strip_n n_yaml de_seq]. fold (de_seq show_f hk). apply like_bind; [apply Hx|]. intros a. apply like_bind; [exact IHl|]. intros; reflexivity.
    - rewrite strip_map. change (like (let! m' := de_mp show_f hk m [] in match map_collect hk m' with None => DPanic | Some m'' => DOk (node_from (YMap m'')) end)
        (let! m' := de_mp show_f hk (List.map strip_p m) [] in match map_collect hk m' with None => DPanic | Some m'' => DOk (node_from (YMap m'')) end)).
      apply like_bind; [|intros a; apply like_refl]. generalize (@nil (node * node)). induction IH as [|[[p1 t1 y1] [p2 t2 y2]] m [H1 H2] IH IHm]; intros acc; [reflexivity|].
      cbn [List.map strip_p strip_n fst snd n_yaml de_mp]. fold (de_mp show_f hk). cbn [fst snd n_yaml] in *.
      apply like_bind; [apply H1|]. intros k. apply like_bind; [apply H2|]. intros v. destruct (map_insert hk k v acc); [apply IHm|exact I].
  Qed.
  Lemma int_like sg b n : like (de_int sg b n) (de_int sg b (strip_n n)).
  Proof.
    pose proof (@like_un Z n) as U. unfold de_int, strip_n in *. cbn [n_yaml] in *. destruct (n_yaml n); cbn [strip] in *; try exact U. apply like_refl.
  Qed.
  Lemma ident_like n : like (de_ident n) (de_ident (strip_n n)).
  Proof. pose proof (@like_un str n) as U. unfold de_ident, strip_n in *. cbn [n_yaml] in *. destruct (n_yaml n); cbn [strip] in *; try exact U. reflexivity. Qed.
  Lemma unit_like n : like (de_unit n) (de_unit (strip_n n)).
  Proof.
    pose proof (@like_un unit n) as U. unfold de_unit. replace (is_null (strip_n n)) with (is_null n).
    - destruct (is_null n); [reflexivity|exact U].
    - unfold is_null, strip_n. cbn [n_yaml]. now destruct (n_yaml n).
  Qed.
  Lemma all_like d l : (forall x, like (d x) (d (strip_n x))) -> like (visit_all d l) (visit_all d (List.map strip_n l)).
  Proof.
    intros H. induction l as [|x l IH]; [reflexivity|]. cbn [List.map visit_all]. apply like_bind; [apply H|]. intros a. apply like_bind; [exact IH|]. intros; reflexivity.
  Qed.
  Lemma tuple_like ts : Forall PL ts -> forall l, like (de_tuple show_f hk ts l) (de_tuple show_f hk ts (List.map strip_n l)).
  Proof.
    induction 1 as [|t ts Ht H IH]; intros l; [reflexivity|]. destruct l as [|x l]; [exact I|]. cbn [List.map de_tuple].
    apply like_bind; [apply Ht|]. intros a. apply like_bind; [apply IH|]. intros; reflexivity.
  Qed.
  Lemma fields_seq_like fs : Forall (fun f => PL (snd f)) fs -> forall l, like (de_fields_seq show_f hk fs l) (de_fields_seq show_f hk fs (List.map strip_n l)).
  Proof.
    induction 1 as [|[f t] fs Ht H IH]; intros l; [reflexivity|]. destruct l as [|x l]; [exact I|]. cbn [List.map de_fields_seq].
    apply like_bind; [apply Ht|]. intros a. apply like_bind; [apply IH|]. intros; reflexivity.
  Qed.
  Lemma map_fields_like fs m : Forall (fun f => PL (snd f)) fs -> like (de_map_fields show_f hk fs m) (de_map_fields show_f hk fs (List.map strip_p m)).
  Proof.
    intros H. unfold de_map_fields. apply like_bind; [|intros a; apply like_refl].
    assert (DF : forall f x, match de_field show_f hk fs f x, de_field show_f hk fs f (strip_n x) with Some d, Some d' => like d d' | None, None => True | _, _ => False end).
    { intros f x. induction H as [|[f' t] fs Ht H IH]; [exact I|]. cbn [de_field]. destruct (str_eqb f' f); [apply Ht|exact IH]. }
    generalize (@nil (str * val)). induction m as [|[k x] m IH]; intros acc; [reflexivity|]. cbn [List.map strip_p fst snd visit_fields].
    apply like_bind; [apply ident_like|]. intros f. specialize (DF f x).
    destruct (de_field show_f hk fs f x) as [d|], (de_field show_f hk fs f (strip_n x)) as [d'|]; try contradiction; [|apply IH].
    destruct (bt_get f acc); [exact I|]. apply like_bind; [exact DF|]. intros v. apply IH.
  Qed.
  Lemma all_types_like : forall t, PL t.
  Proof.
    apply (ty_ind2 PL QL); unfold PL.
    - intros n. pose proof (@like_un val n) as U. cbn [Serde.de]. unfold strip_n in *. cbn [n_yaml] in *. destruct (n_yaml n); cbn [strip] in *; try exact U. reflexivity.
    - intros sg b n. cbn [Serde.de]. apply like_bind; [apply int_like|intros; reflexivity].
    - intros n. cbn [Serde.de]. apply like_bind; [|intros; reflexivity]. pose proof (@like_un f64 n) as U. unfold de_f64, strip_n in *. cbn [n_yaml] in *.
      destruct (n_yaml n); cbn [strip] in *; try exact U; apply like_refl.
    - intros n. cbn [Serde.de]. apply like_bind; [|intros; reflexivity]. pose proof (@like_un N n) as U. unfold de_char, strip_n in *. cbn [n_yaml] in *.
      destruct (n_yaml n) as [| |s| |s| | |]; cbn [strip] in *; try exact U; destruct s as [|c [|d s]]; try exact U; destruct (Nat.eqb _ 1); try exact U; reflexivity.
    - intros n. cbn [Serde.de]. apply like_bind; [|intros; reflexivity]. pose proof (@like_un str n) as U. unfold de_str, strip_n in *. cbn [n_yaml] in *.
      destruct (n_yaml n) as [|[]| | | | | |]; cbn [strip] in *; try exact U; reflexivity.
    - intros n. cbn [Serde.de]. apply like_bind; [|intros; reflexivity]. pose proof (@like_un (list N) n) as U. unfold de_bytes, strip_n in *. cbn [n_yaml] in *.
      destruct (n_yaml n) as [| | | | |l| |]; try exact U; try reflexivity. rewrite strip_seq.
      clear U. induction l as [|x l IH]; [reflexivity|]. cbn [List.map de_u8s]. apply like_bind; [apply int_like|]. intros b. apply like_bind; [exact IH|]. intros; reflexivity.
    - intros n. cbn [Serde.de]. apply like_bind; [apply unit_like|intros; reflexivity].
    - intros t IH n. specialize (IH n). cbn [Serde.de]. unfold strip_n in *. cbn [n_yaml] in *.
      destruct (n_yaml n); cbn [strip] in *; try reflexivity; (apply like_bind; [exact IH|intros; reflexivity]).
    - intros t IH n. pose proof (@like_un val n) as U. cbn [Serde.de]. unfold strip_n in U. unfold strip_n. cbn [n_yaml] in *.
      destruct (n_yaml n) as [| | | | |l| |]; try exact U. rewrite strip_seq. apply like_bind; [|intros; reflexivity]. now apply all_like.
    - intros ts IH n. pose proof (@like_un val n) as U. rewrite !de_tuple_eq. unfold strip_n in U. unfold strip_n. cbn [n_yaml] in *.
      destruct (n_yaml n) as [| | | | |l| |]; try exact U. rewrite strip_seq. apply like_bind; [|intros; reflexivity]. now apply tuple_like.
    - intros k v IHk IHv n. pose proof (@like_un val n) as U. cbn [Serde.de]. unfold strip_n in U. unfold strip_n. cbn [n_yaml] in *.
      destruct (n_yaml n) as [| | | | | |m|]; try exact U. rewrite strip_map. apply like_bind; [|intros; reflexivity].
      clear U. induction m as [|[a b] m IHm]; [reflexivity|]. cbn [List.map strip_p fst snd visit_entries].
      apply like_bind; [apply IHk|]. intros x. apply like_bind; [apply IHv|]. intros y. apply like_bind; [exact IHm|]. intros; reflexivity.
    - intros fs IH n. pose proof (@like_un val n) as U. rewrite !de_struct_eq. unfold strip_n in U. unfold strip_n. cbn [n_yaml] in *.
      destruct (n_yaml n) as [| | | | |l|m|]; try exact U.
      + rewrite strip_seq. apply like_bind; [|intros; reflexivity]. now apply fields_seq_like.
      + rewrite strip_map. now apply map_fields_like.
    - intros t IH n. exact (IH n).
    - intros vs IH n. rewrite !de_enum_eq.
      assert (H : match de_enum_head n, de_enum_head (strip_n n) with
                  | DOk (k, o), DOk (k', o') => k' = strip_n k /\ o' = option_map strip_n o
                  | DErr _, DErr _ => True | DPanic, DPanic => True | _, _ => False end).
      { pose proof (@like_un (node * option node) n) as U. unfold de_enum_head. clear U.
        assert (EY : n_yaml (strip_n n) = strip (n_yaml n)) by reflexivity. rewrite EY.
        assert (U' : match @unexpected (node * option node) n, @unexpected (node * option node) (strip_n n) with
                  | DOk (k, o), DOk (k', o') => k' = strip_n k /\ o' = option_map strip_n o
                  | DErr _, DErr _ => True | DPanic, DPanic => True | _, _ => False end).
        { clear. unfold unexpected. unfold strip_n. cbn [n_yaml]. destruct (n_yaml n); cbn [strip]; try exact I; [destruct (to_i64 _)|destruct (to_f64 _)]; exact I. }
        destruct (n_yaml n) as [|?|?|?|?|?|m|?] eqn:En.
        all: rewrite ?strip_seq, ?strip_map; cbn [strip]; try exact U'. (* the two kinds that are accepted *)
        - cbn. split; reflexivity.
        - destruct m as [|[a b] [|ab m]]; cbn [List.map]; try exact U'. unfold strip_p. cbn [fst snd option_map]. auto. }
      destruct (de_enum_head n) as [[k o]|?|], (de_enum_head (strip_n n)) as [[k' o']|?|]; try contradiction; try exact I.
      destruct H as [-> ->]. cbn [dbind fst snd]. apply like_bind; [apply ident_like|]. intros name.
      destruct (lookup name vs) as [vr|] eqn:El; [|exact I]. apply like_bind; [|intros; reflexivity].
      assert (HQ : QL vr). { clear - IH El. induction IH as [|[n' v'] vs Hv IH IHv]; [discriminate|]. cbn [lookup] in El. destruct (str_eqb n' name); [injection El as <-; exact Hv|auto]. }
      apply HQ.
    - intros n. cbn [Serde.de]. apply like_bind; [|intros; reflexivity]. unfold de_node, strip_n. cbn [n_pos n_yaml]. apply node_like.
    - intros [x|]; [|reflexivity]. cbn [de_payload option_map]. apply like_bind; [apply unit_like|intros; reflexivity].
    - intros t IH [x|]; [|exact I]. apply IH.
    - intros ts IH [x|]; [|exact I]. cbn [de_payload option_map]. pose proof (@like_un val x) as U. unfold strip_n in U. unfold strip_n. cbn [n_yaml] in *.
      destruct (n_yaml x) as [| | | | |l| |]; try exact U. rewrite strip_seq. apply like_bind; [|intros; reflexivity]. now apply tuple_like.
    - intros fs IH [x|]; [|exact I]. cbn [de_payload option_map]. pose proof (@like_un val x) as U. unfold strip_n in U. unfold strip_n. cbn [n_yaml] in *.
      destruct (n_yaml x) as [| | | | | |m|]; try exact U. rewrite strip_map. now apply map_fields_like.
  Qed.
End Like.
(** The same data gives the same value, whatever the positions and tags. *)
Lemma de_same_data show_f hk t n n' v : strip (n_yaml n) = strip (n_yaml n') -> de show_f hk t n = DOk v -> de show_f hk t n' = DOk v.
Proof.
  intros E H. pose proof (all_types_like show_f hk t n) as L. pose proof (all_types_like show_f hk t n') as L'.
  unfold strip_n in L, L'. rewrite <- E in L'. pose proof (like_trans _ _ _ L (like_sym _ _ L')) as K. rewrite H in K.
  destruct (de show_f hk t n'); cbn in K; try contradiction. congruence.
Qed.

(** ** What the serializer writes is kept *)
Section Kept.
  Variables (uni : N -> bool) (show_f : f64 -> str) (hk : hasher).
  Hypothesis Hf : reads_back show_f.
  Notation ser := (ser show_f hk).
  Notation prints := (prints uni show_f).
  Notation kp n := (keeps uni n).

  Definition PK (t : ty) : Prop := forall v n, has t v -> prints t v -> ser t v = DOk n ->
    kp n /\ (scalar_ty t = true -> scalar_ok uni (n_yaml n)).
  (** the payload of a variant, unless there is none *)
  Definition QK (vr : variant) : Prop := vr = UnitV \/
    forall pl name n, payload vr pl -> prints_payload uni show_f vr pl -> ser_variant show_f hk name vr pl = DOk n ->
    exists x, n = tagged name x /\ kp x.

  Lemma leaf_kept t y : (scalar_ty t = true -> True) -> scalar_ok uni y -> kp (node_from y) /\ (scalar_ty t = true -> scalar_ok uni (n_yaml (node_from y))).
  Proof. intros _ H. split; [|auto]. apply KScalar; [now left|exact H]. Qed.
  Lemma text_scalar s : text_ok uni s -> scalar_ok uni (YStr s).
  Proof. intros [H|H]; [now apply OkBare|now apply OkHidden]. Qed.
  Lemma dbind_ok {A B} (r : dres A) (f : A -> dres B) b : dbind r f = DOk b -> exists a, r = DOk a /\ f a = DOk b.
  Proof. destruct r; cbn; try discriminate. eauto. Qed.
  Lemma serialized t v n : has t v -> ser t v = DOk n -> PropSerde.ok show_f hk t v n.
  Proof.
    intros H S. destruct (round_trip show_f hk Hf t v H) as (n' & O). destruct O as (S' & O). rewrite S in S'. injection S' as <-. split; assumption.
  Qed.
  Lemma all_kept t l ns : PK t -> Forall (has t) l -> Forall (prints t) l -> ser_all show_f hk t l = DOk ns -> Forall (keeps uni) ns /\ List.length ns = List.length l.
  Proof.
    intros HP H. revert ns. induction H as [|x l Hx Hl IH]; intros ns Hp S.
    { injection S as <-. split; [constructor|reflexivity]. }
    inversion Hp as [|? ? P1 P2]; subst. cbn in S. fold (ser_all show_f hk t) in S.
    apply dbind_ok in S as (n & S1 & S). apply dbind_ok in S as (r & S2 & S). injection S as <-.
    destruct (IH r P2 S2) as [F L]. split; [constructor; [|exact F]|cbn [List.length]; congruence]. now apply (HP x n).
  Qed.
  Lemma tuple_kept ts l ns : Forall PK ts -> Forall2 has ts l -> Forall2 prints ts l -> ser_tuple show_f hk ts l = DOk ns -> Forall (keeps uni) ns /\ List.length ns = List.length ts.
  Proof.
    intros HP H. revert ns. induction H as [|t x ts l Hx Hl IH]; intros ns Hp S.
    { injection S as <-. split; [constructor|reflexivity]. }
    inversion Hp as [|? ? ? ? P1 P2]; subst. inversion HP as [|? ? K1 K2]; subst. cbn [ser_tuple] in S.
    apply dbind_ok in S as (n & S1 & S). apply dbind_ok in S as (r & S2 & S). injection S as <-.
    destruct (IH K2 r P2 S2) as [F L]. split; [constructor; [|exact F]|cbn [List.length]; congruence]. now apply (K1 x n).
  Qed.
  Definition entry_kept (kv : node * node) : Prop :=
    untagged (fst kv) /\ scalar_ok uni (n_yaml (fst kv)) /\ readable (n_yaml (fst kv)) /\ kp (snd kv).
  Lemma fops_app {A} (R : A -> A -> Prop) l x : ForallOrdPairs R l -> Forall (fun a => R a x) l -> ForallOrdPairs R (l ++ [x]).
  Proof.
    intros H F. induction H as [|a l Ha H IH]; [repeat constructor|]. inversion F; subst. cbn [app]. constructor; [|auto].
    apply Forall_app. split; [exact Ha|]. now repeat constructor.
  Qed.
  Lemma fields_kept fs l : Forall (fun f => PK (snd f)) fs -> Forall2 (fun f x => has (snd f) x) fs l ->
    Forall2 (fun f x => prints (snd f) x) fs l -> Forall (fun f => text_ok uni (fst f)) fs -> NoDup (map fst fs) ->
    forall acc m, ser_fields show_f hk fs l acc = DOk m -> distinct acc -> Forall entry_kept acc ->
    Forall (fun kv => exists f, n_yaml (fst kv) = YStr f /\ ~ In f (map fst fs)) acc ->
    distinct m /\ Forall entry_kept m /\ (acc <> [] \/ fs <> [] -> m <> []).
  Proof.
    intros HP H. induction H as [|[f t] x fs l Hx Hl IH]; intros Hp Ht Hd acc m S D F Hacc.
    { injection S as <-. repeat split; try assumption. intros [K|K]; congruence. }
    inversion Hp as [|? ? ? ? P1 P2]; subst. inversion HP as [|? ? K1 K2]; subst. inversion Ht as [|? ? T1 T2]; subst. inversion Hd as [|? ? D1 D2]; subst.
    cbn [fst snd] in *. cbn [ser_fields] in S. apply dbind_ok in S as (n & S1 & S). apply dbind_ok in S as (acc' & S2 & S).
    rewrite insert_fresh in S2.
    2: constructor.
    2:{ intros kv Hkv. rewrite Forall_forall in Hacc. destruct (Hacc kv Hkv) as (g & E & Ng). rewrite E. split; [constructor|]. intros Sm. inversion Sm; subst. apply Ng. now left. }
    injection S2 as <-. destruct (IH K2 P2 T2 D2 (acc ++ [(node_from (YStr f), n)]) m S) as (R1 & R2 & R3).
    - apply fops_app; [exact D|]. eapply Forall_impl; [|exact Hacc]. intros kv (g & E & Ng) Sm. cbn [fst n_yaml node_from] in Sm. rewrite E in Sm. inversion Sm; subst. apply Ng. now left.
    - apply Forall_app. split; [exact F|]. constructor; [|constructor]. repeat split; cbn [fst snd].
      + now left.
      + now apply text_scalar.
      + constructor.
      + now apply (K1 x n).
    - apply Forall_app. split; [eapply Forall_impl; [|exact Hacc]; intros kv (g & E & Ng); exists g; split; [exact E|]; intros K; apply Ng; now right|].
      constructor; [|constructor]. exists f. split; [reflexivity|exact D1].
    - split; [exact R1|]. split; [exact R2|]. intros _. apply R3. left. intros K. apply app_eq_nil in K as [_ K]. discriminate.
  Qed.
  Lemma entries_kept k v l : PK k -> PK v -> exact k -> scalar_ty k = true ->
    Forall (fun e => has k (fst e) /\ has v (snd e)) l -> Forall (fun e => prints k (fst e) /\ prints v (snd e)) l -> NoDup (map fst l) ->
    forall acc m, ser_entries show_f hk k v l acc = DOk m -> distinct acc -> Forall entry_kept acc ->
    Forall (fun kv => exists a, PropSerde.ok show_f hk k a (fst kv) /\ ~ In a (map fst l)) acc ->
    distinct m /\ Forall entry_kept m /\ (acc <> [] \/ l <> [] -> m <> []).
  Proof.
    intros Pk Pv Ek Hsc H. induction H as [|[a b] l [Ha Hb] Hl IH]; intros Hp Hd acc m S D F Hacc.
    { injection S as <-. repeat split; try assumption. intros [K|K]; congruence. }
    inversion Hp as [|? ? [P1 P1'] P2]; subst. inversion Hd as [|? ? D1 D2]; subst. cbn [fst snd] in *.
    cbn in S. fold (ser_entries show_f hk k v) in S.
    apply dbind_ok in S as (x & S1 & S). apply dbind_ok in S as (y & S2 & S). apply dbind_ok in S as (acc' & S3 & S).
    pose proof (serialized k a x Ha S1) as O. pose proof O as (_ & Dx & Nx & Rx & _ & Ex).
    assert (Fr : forall kv, In kv acc -> readable (n_yaml (fst kv)) /\ ~ same (n_yaml x) (n_yaml (fst kv))).
    { intros kv Hkv. rewrite Forall_forall in Hacc. destruct (Hacc kv Hkv) as (a' & (S' & D' & N' & R' & _ & E') & Na). split; [exact R'|].
      intros Sm. apply Na. left. assert (x = fst kv) by (apply normal_eq; auto). subst x. rewrite Dx in D'. now injection D'. }
    rewrite insert_fresh in S3 by assumption. injection S3 as <-.
    destruct (IH P2 D2 (acc ++ [(x, y)]) m S) as (R1 & R2 & R3).
    - apply fops_app; [exact D|]. apply Forall_forall. intros kv Hkv Sm. cbn [fst] in Sm. destruct (Fr kv Hkv) as [_ K]. apply K. now apply same_sym.
    - apply Forall_app. split; [exact F|]. constructor; [|constructor]. destruct (Pk a x Ha P1 S1) as [_ Sc]. repeat split; cbn [fst snd].
      + left. inversion Nx; reflexivity.
      + now apply Sc.
      + exact Rx.
      + now apply (Pv b y).
    - apply Forall_app. split; [eapply Forall_impl; [|exact Hacc]; intros kv (a' & E & Ng); exists a'; split; [exact E|]; intros K; apply Ng; now right|].
      constructor; [|constructor]. exists a. split; [exact O|exact D1].
    - split; [exact R1|]. split; [exact R2|]. intros _. apply R3. left. intros K. apply app_eq_nil in K as [_ K]. discriminate.
  Qed.
  Lemma seq_kept l : l <> [] -> Forall (keeps uni) l -> kp (node_from (YSeq l)).
  Proof. intros Hn H. eapply KSeq; [now left|reflexivity|exact Hn|exact H]. Qed.
  Lemma map_kept m : m <> [] -> distinct m -> Forall entry_kept m -> kp (node_from (YMap m)).
  Proof. intros Hn Hd H. eapply KMap; [now left|reflexivity|exact Hn|exact Hd|exact H]. Qed.
  Lemma same_len {A B} (l : list A) (l' : list B) : List.length l = List.length l' -> l' <> [] -> l <> [].
  Proof. destruct l, l'; cbn; congruence. Qed.

  Theorem all_kept_ty : forall t, PK t.
  Proof.
    apply (ty_ind2 PK QK).
    - intros v n _ H S; inversion H; subst. injection S as <-. apply leaf_kept; auto. constructor.
    - intros sg bits v n _ H S; inversion H; subst. injection S as <-. apply leaf_kept; auto. constructor. apply show_Z_literal.
    - intros v n _ H S; inversion H; subst. injection S as <-. apply leaf_kept; auto. now constructor.
    - intros v n _ H S; inversion H; subst. injection S as <-. apply leaf_kept; auto. now apply text_scalar.
    - intros v n _ H S; inversion H; subst. injection S as <-. apply leaf_kept; auto. now apply text_scalar.
    - intros v n _ H S; inversion H as [| | | | |l Hl| | | | | | | | |]; subst. injection S as <-. split; [|discriminate]. apply seq_kept.
      + destruct l; [congruence|discriminate].
      + clear. induction l as [|b l IH]; constructor; [|exact IH]. apply KScalar; [now left|]. constructor. rewrite <- show_Z_N. apply show_Z_literal.
    - intros v n _ H S; inversion H; subst. injection S as <-. apply leaf_kept; auto. constructor.
    - intros t IH v n Hh H S; inversion H as [| | | | | | | |? w Hw| | | | | |]; subst; inversion Hh; subst.
      + injection S as <-. apply leaf_kept; auto. constructor.
      + cbn [scalar_ty]. now apply (IH w n).
    - intros t IH v n Hh H S; inversion H as [| | | | | | | | |? l Hn Hl| | | | |]; subst; inversion Hh; subst. split; [|discriminate].
      rewrite ser_seq_eq in S. apply dbind_ok in S as (ns & S1 & S). injection S as <-. destruct (all_kept t l ns) as [F L]; try assumption.
      apply seq_kept; [eapply same_len; eassumption|exact F].
    - intros ts IH v n Hh H S; inversion H as [| | | | | | | | | |? l Hn Hl| | | |]; subst; inversion Hh; subst. split; [|discriminate].
      rewrite ser_tuple_eq in S. apply dbind_ok in S as (ns & S1 & S). injection S as <-. destruct (tuple_kept ts l ns) as [F L]; try assumption.
      apply seq_kept; [eapply same_len; eassumption|exact F].
    - intros k v0 IHk IHv v n Hh H S; inversion H as [| | | | | | | | | | |? ? l Hn Hs Hl| | |]; subst; inversion Hh; subst. split; [|discriminate].
      rewrite ser_map_eq in S. apply dbind_ok in S as (m & S1 & S). injection S as <-.
      destruct (entries_kept k v0 l) with (acc := @nil (node * node)) (m := m) as (D & F & L); try assumption; try (now constructor).
      apply map_kept; auto.
    - intros fs IH v n Hh H S; inversion H as [| | | | | | | | | | | |? l Hn Ht Hl| |]; subst; inversion Hh; subst. split; [|discriminate].
      rewrite ser_struct_eq in S. apply dbind_ok in S as (m & S1 & S). injection S as <-.
      destruct (fields_kept fs l) with (acc := @nil (node * node)) (m := m) as (D & F & L); try assumption; try (now constructor).
      apply map_kept; auto.
    - intros t IH v n Hh H S; inversion H; subst; inversion Hh; subst. cbn [scalar_ty]. now apply (IH v n).
    - intros vs IH v n Hh H S; inversion H as [| | | | | | | | | | | | | |? name vr pl El Ht Hp]; subst.
      inversion Hh as [| | | | | | | | | | | | | |? ? vr' ? El' Hp']; subst. rewrite El in El'. injection El' as <-.
      assert (HQ : QK vr). { clear - IH El. induction IH as [|[n' v'] vs Hv IH IHv]; [discriminate|]. cbn [lookup] in El. destruct (str_eqb n' name); [injection El as <-; exact Hv|auto]. }
      rewrite ser_enum_eq, El in S. destruct HQ as [-> |HQ].
      + inversion Hp; subst. injection S as <-. apply leaf_kept; auto. now apply text_scalar.
      + destruct (HQ pl name n Hp' Hp S) as (x & -> & Kx). split.
        * apply map_kept; [discriminate|repeat constructor|]. constructor; [|constructor]. repeat split; cbn [fst snd]; [now left|now apply text_scalar|constructor|exact Kx].
        * intros Hs. exfalso. cbn [scalar_ty] in Hs. rewrite forallb_forall in Hs. assert (I : In (name, vr) vs).
          { clear - El. induction vs as [|[n' v'] vs IH]; [discriminate|]. cbn [lookup] in El. destruct (str_eqb n' name) eqn:E; [|right; auto]. apply str_eqb_eq in E. injection El as ->. subst. now left. }
          specialize (Hs _ I). cbn [snd] in Hs. destruct vr; try discriminate. inversion Hp; subst. injection S as K. discriminate.
    - intros v n H. inversion H.
    - now left.
    - intros t IH. right. intros pl name n Hh H S; inversion H; subst; inversion Hh; subst. cbn [ser_variant] in S. apply dbind_ok in S as (x & S1 & S). injection S as <-.
      exists x. split; [reflexivity|]. now apply (IH pl x).
    - intros ts IH. right. intros pl name n Hh H S; inversion H as [| |? l Hn Hl|]; subst; inversion Hh; subst. cbn [ser_variant] in S. apply dbind_ok in S as (ns & S1 & S). injection S as <-.
      eexists. split; [reflexivity|]. destruct (tuple_kept ts l ns) as [F L]; try assumption. apply seq_kept; [eapply same_len; eassumption|exact F].
    - intros fs IH. right. intros pl name n Hh H S; inversion H as [| | |? l Hn Ht Hl]; subst; inversion Hh; subst. cbn [ser_variant] in S. apply dbind_ok in S as (m & S1 & S). injection S as <-.
      eexists. split; [reflexivity|].
      destruct (fields_kept fs l) with (acc := @nil (node * node)) (m := m) as (D & F & L); try assumption; try (now constructor).
      apply map_kept; auto.
  Qed.
End Kept.

(** C42: [to_string] gives a text and [from_str] reads the value back from it. *)
Theorem C42_to_string_from_str : forall (uni : N -> bool) (show_f : f64 -> str) (hk : hasher), reads_back show_f ->
  forall (t : ty) (v : val), has t v -> prints uni show_f t v ->
  exists text, to_string false uni show_f hk t v = Some (DOk text) /\ from_str show_f hk t text = Some (DOk [v]).
Proof.
  intros uni show_f hk Hf t v H Hp. destruct (round_trip show_f hk Hf t v H) as (n & S & D & _).
  destruct (all_kept_ty uni show_f hk Hf t v n H Hp S) as [K _].
  destruct (C34_dump_then_parse uni hk [n] []) as (text & nds & E & P & Sm); [discriminate|now constructor|constructor|].
  exists text. unfold to_string, from_str. rewrite S, E, P. split; [reflexivity|].
  destruct nds as [|nd [|? ?]]; try discriminate. injection Sm as Sm. cbn [de_all].
  rewrite (de_same_data show_f hk t n nd v); [reflexivity| |exact D]. now symmetry.
Qed.

(** A struct with a list of tuples, a map and an enum meets the hypotheses. *)
Definition kind_t : ty := TEnum [(lit "Off", UnitV); (lit "On", StructV [(lit "power", TOption (TInt true 16))])].
Definition config_t : ty := TStruct
  [(lit "names", TSeq (TTuple [TString; TBool]));
   (lit "table", TMap (TInt false 32) TString);
   (lit "kind", kind_t)].
Definition config_v : val := VList
  [VList [VList [VStr (lit "alpha"); VBool true]; VList [VStr []; VBool false]];
   VMap [(VInt 7, VStr (lit "seven")); (VInt 0, VStr (lit " # no"))];
   VEnum (lit "On") (VList [VSome (VInt (-5))])].
Example C42_witness : has config_t config_v /\ prints (fun _ => false) show_exact config_t config_v.
Proof.
  assert (W : forall s, s <> [] -> forallb letter s = true -> existsb (fun kv => str_eqb s (fst kv)) keywords = false -> text_ok (fun _ => false) s)
    by (intros; left; now apply letters_ok).
  split.
  - apply HasStruct.
    { repeat constructor; simpl; intuition discriminate. }
    repeat constructor; try (now apply HasInt); simpl; try (intuition discriminate); try (unfold fits; lia).
    eapply HasEnum; [reflexivity|]. repeat constructor; simpl; try (intuition discriminate); unfold fits; lia.
  - apply PrStruct; [discriminate|repeat (apply Forall_cons; [now apply W|]); apply Forall_nil|].
    constructor; [|constructor; [|constructor; [|constructor]]].
    + apply PrSeq; [discriminate|]. constructor; [|constructor; [|constructor]]; (apply PrTuple; [discriminate|]); (constructor; [apply PrString|constructor; [constructor|constructor]]).
      * now apply W.
      * right. split; [exists 0%nat, []; auto|constructor|split; [reflexivity|discriminate]].
    + apply PrMap; [discriminate|reflexivity|]. constructor; [|constructor; [|constructor]]; (split; [constructor|apply PrString]).
      * now apply W.
      * right. split.
        -- exists 0%nat, (lit " # no"). split; [reflexivity|]. right. right. exists (lit " no"). reflexivity.
        -- repeat (apply Forall_cons; [unfold printable; lia|]). constructor.
        -- split; [reflexivity|discriminate].
    + eapply PrEnum; [reflexivity|now apply W|]. apply PpStruct; [discriminate|repeat (apply Forall_cons; [now apply W|]); apply Forall_nil|]. repeat constructor.
Qed.
(** Outside of the class: empty lists and some strings do not come back. *)
Theorem C42_other_values_refuted :
  let rt t v := match to_string false (fun _ => true) show_exact (fun _ => 0) t v with
                | Some (DOk s) => from_str show_exact (fun _ => 0) t s
                | Some (DErr p) => Some (DErr p) | Some DPanic => Some DPanic | None => None end in
  rt (TSeq TBool) (VList []) = Some (DErr 0)
  /\ rt TString (VStr (lit "~")) = Some (DOk [VStr (lit "null")])
  /\ rt TString (VStr (lit "a # b")) = Some (DOk [VStr (lit "a")])
  /\ rt (TOption TString) (VSome (VStr (lit "null"))) = Some (DOk [VNone])
  /\ rt TString (VStr (lit "123")) = Some (DOk [VStr (lit "123")]).
Proof. vm_compute. repeat split. Qed.

(** ** C39: errors of from_str *)
(** A text that cannot be parsed is an error without a position; otherwise the values
    of all documents are read, and the first document that does not fit decides.  A
    panic of the parser is not caught. *)
Theorem C39_from_str : forall show_f hk t d,
  (forall e, parse hk d = RErr e -> from_str show_f hk t d = Some (DErr 0))
  /\ (forall l, parse hk d = ROk l ->
       (forall vs, from_str show_f hk t d = Some (DOk vs) <-> Forall2 (fun n v => de show_f hk t n = DOk v) l vs)
       /\ (forall p, from_str show_f hk t d = Some (DErr p) <->
            exists l1 n l2, l = l1 ++ n :: l2 /\ Forall (fun m => exists v, de show_f hk t m = DOk v) l1 /\ de show_f hk t n = DErr p)
       /\ (from_str show_f hk t d = Some DPanic <->
            exists l1 n l2, l = l1 ++ n :: l2 /\ Forall (fun m => exists v, de show_f hk t m = DOk v) l1 /\ de show_f hk t n = DPanic))
  /\ (parse hk d = RPanic -> from_str show_f hk t d = Some DPanic)
  /\ (from_str show_f hk t d = None <-> parse hk d = RDiv).
Proof.
  intros show_f hk t d. unfold from_str. split; [intros e ->; reflexivity|]. split.
  2:{ split; [intros ->; reflexivity|]. destruct (parse hk d); split; intros; congruence. }
  intros l ->.
  assert (S : forall (r : dres (list val)) x, Some r = Some x <-> r = x) by (intros; split; congruence).
  rewrite S. split; [intros vs; rewrite S|split; [intros p; rewrite S|]].
  - revert vs. induction l as [|n l IH]; intros vs; cbn [de_all].
    + split; [intros K; injection K as <-; constructor|intros K; inversion K; reflexivity].
    + destruct (de show_f hk t n) as [v|p|] eqn:E; cbn [dbind].
      * destruct (de_all show_f hk t l) as [us|p|]; cbn [dbind]; split.
        { intros K; injection K as <-. constructor; [exact E|now apply IH]. }
        { intros K; inversion K as [|? v' ? us' E' K']; subst. apply IH in K'. congruence. }
        { discriminate. }
        { intros K; inversion K as [|? v' ? us' E' K']; subst. apply IH in K'. discriminate. }
        { discriminate. }
        { intros K; inversion K as [|? v' ? us' E' K']; subst. apply IH in K'. discriminate. }
      * split; [discriminate|]. intros K; inversion K; congruence.
      * split; [discriminate|]. intros K; inversion K; congruence.
  - induction l as [|n l IH]; cbn [de_all].
    + split; [discriminate|]. intros ([|? l1] & n0 & l2 & K & _); discriminate K.
    + destruct (de show_f hk t n) as [v|q|] eqn:E; cbn [dbind].
      * transitivity (de_all show_f hk t l = DErr p); [destruct (de_all show_f hk t l); cbn [dbind]; split; congruence|]. rewrite IH. split.
        { intros (l1 & m & l2 & -> & F & Q). exists (n :: l1), m, l2. split; [reflexivity|]. split; [constructor; eauto|exact Q]. }
        { intros ([|n' l1] & m & l2 & K & F & Q); injection K as <- ->; [congruence|]. exists l1, m, l2. inversion F; subst. auto. }
      * split.
        { intros K. injection K as <-. exists [], n, l. auto. }
        { intros ([|n' l1] & m & l2 & K & F & Q); injection K as <- ->; [congruence|]. inversion F as [|? ? [v Ev] _]; congruence. }
      * split; [discriminate|]. intros ([|n' l1] & m & l2 & K & F & Q); injection K as <- ->; [congruence|]. inversion F as [|? ? [v Ev] _]; congruence.
  - induction l as [|n l IH]; cbn [de_all].
    + split; [discriminate|]. intros ([|? l1] & n0 & l2 & K & _); discriminate K.
    + destruct (de show_f hk t n) as [v|q|] eqn:E; cbn [dbind].
      * transitivity (de_all show_f hk t l = DPanic); [destruct (de_all show_f hk t l); cbn [dbind]; split; congruence|]. rewrite IH. split.
        { intros (l1 & m & l2 & -> & F & Q). exists (n :: l1), m, l2. split; [reflexivity|]. split; [constructor; eauto|exact Q]. }
        { intros ([|n' l1] & m & l2 & K & F & Q); injection K as <- ->; [congruence|]. exists l1, m, l2. inversion F; subst. auto. }
      * split; [discriminate|]. intros ([|n' l1] & m & l2 & K & F & Q); injection K as <- ->; [congruence|]. inversion F as [|? ? [v Ev] _]; congruence.
      * split.
        { intros _. exists [], n, l. auto. }
        { intros ([|n' l1] & m & l2 & K & F & Q); injection K as <- ->; [congruence|]. reflexivity. }
Qed.
Example C39_from_str_example :
  let hk := fun _ : list N => 0%N in let sf := fun _ : f64 => lit "" in
  from_str sf hk (TInt true 32) (lit "1" ++ [10%N] ++ lit "---" ++ [10%N] ++ lit "[2]" ++ [10%N]) = Some (DErr 5)
  /\ from_str sf hk (TInt true 32) (lit "]" ++ [10%N]) = Some (DErr 0)
  /\ from_str sf hk (TInt true 32) (lit "0o9: 1" ++ [10%N] ++ lit "0o9: 2" ++ [10%N]) = Some DPanic.
Proof. repeat split; vm_compute; reflexivity. Qed.
