(** * C64: nodes read from and written to other formats *)
From Verif Require Import PropBuild Foreign.
Local Notation distinct := Block.distinct.
Open Scope N_scope.

(** ** Specification *)
(** the same data as YAML *)
Fixpoint as_yaml (show_f : f64 -> str) (d : sdata) : yaml :=
  match d with
  | SUnit | SNone | SOther => YNull
  | SSome d => as_yaml show_f d
  | SBool b => YBool b
  | SI64 z | SU64 z => YInt (show_Z z)
  | SF64 x => YFloat (show_f x)
  | SStr s => YStr s
  | SSeq l => YSeq (List.map (fun x => node_from (as_yaml show_f x)) l)
  | SMap l => YMap (List.map (fun kv => (node_from (as_yaml show_f (fst kv)), node_from (as_yaml show_f (snd kv)))) l)
  end.
(** without options (an absent one is a unit) and with one kind of integers *)
Fixpoint plain (d : sdata) : sdata :=
  match d with
  | SNone => SUnit
  | SSome d => plain d
  | SU64 z => SI64 z
  | SSeq l => SSeq (List.map plain l)
  | SMap l => SMap (List.map (fun kv => (plain (fst kv), plain (snd kv))) l)
  | d => d
  end.
(** integers fit i64, floats are binary64 numbers, the keys of a map differ *)
Inductive fit (show_f : f64 -> str) : sdata -> Prop :=
| FtUnit : fit show_f SUnit
| FtNone : fit show_f SNone
| FtSome d : fit show_f d -> fit show_f (SSome d)
| FtBool b : fit show_f (SBool b)
| FtI64 z : in_i64 z = true -> fit show_f (SI64 z)
| FtU64 z : in_i64 z = true -> fit show_f (SU64 z)
| FtF64 x : (exists text, to_f64 text = Some x) -> fit show_f (SF64 x)
| FtStr s : fit show_f (SStr s)
| FtSeq l : Forall (fit show_f) l -> fit show_f (SSeq l)
| FtMap l : Forall (fun kv => fit show_f (fst kv) /\ fit show_f (snd kv)) l ->
    ForallOrdPairs (fun a b => ~ same (as_yaml show_f (fst a)) (as_yaml show_f (fst b))) l -> fit show_f (SMap l).

(** ** Proof *)
Lemma sdata_ind' (P : sdata -> Prop) : P SUnit -> P SNone -> (forall d, P d -> P (SSome d)) -> (forall b, P (SBool b)) ->
  (forall z, P (SI64 z)) -> (forall z, P (SU64 z)) -> (forall x, P (SF64 x)) -> (forall s, P (SStr s)) ->
  (forall l, Forall P l -> P (SSeq l)) -> (forall l, Forall (fun kv => P (fst kv) /\ P (snd kv)) l -> P (SMap l)) -> P SOther ->
  forall d, P d.
Proof.
  intros H1 H2 H3 H4 H5 H6 H7 H8 H9 H10 H11. fix IH 1. intros [| |d|b|z|z|x|s|l|l|].
  - exact H1.
  - exact H2.
  - exact (H3 d (IH d)).
  - exact (H4 b).
  - exact (H5 z).
  - exact (H6 z).
  - exact (H7 x).
  - exact (H8 s).
  - apply H9. induction l as [|x l IHl]; constructor; [apply IH|exact IHl].
  - apply H10. induction l as [|[k v] l IHl]; constructor; [split; apply IH|exact IHl].
  - exact H11.
Qed.
Section Read.
Variable show_f : f64 -> str.
Variable hk : hasher.
Hypothesis Hf : reads_back show_f.
Lemma fit_readable d : fit show_f d -> readable (as_yaml show_f d).
Proof.
  induction d as [| |d IH| | | | | |l IH|l IH|] using sdata_ind'; intros F; inversion F as [| |? F'|b0|z0 Z|z0 Z|x0 [text X]|s0|? F'|? F' D]; subst; cbn [as_yaml].
  - constructor.
  - constructor.
  - now apply IH.
  - constructor.
  - eapply ReadInt. now apply to_i64_show.
  - eapply ReadInt. now apply to_i64_show.
  - eapply ReadFloat. exact (Hf text _ X).
  - constructor.
  - constructor. rewrite Forall_forall in *. intros n Hn. apply in_map_iff in Hn as (x & <- & Hx). cbn. auto.
  - constructor. rewrite Forall_forall in *. intros n Hn. apply in_map_iff in Hn as (x & <- & Hx). cbn. destruct (IH x Hx), (F' x Hx). auto.
Qed.
Lemma node_of_fit d : fit show_f d -> node_of show_f hk d = DOk (node_from (as_yaml show_f d)).
Proof.
  induction d as [| |d IH| | | | | |l IH|l IH|] using sdata_ind'; intros F; inversion F as [| |? F'|b0|z0 Z|z0 Z|x0 X|s0|? F'|? F' D]; subst; cbn [node_of as_yaml]; try reflexivity; auto.
  - clear F. match goal with |- dbind ?r _ = _ => assert (E : r = DOk (List.map (fun x => node_from (as_yaml show_f x)) l)) end.
    { induction IH as [|x l Hx _ IHl]; [reflexivity|]. inversion F' as [|? ? Fx Fl]; subst. rewrite (Hx Fx), (IHl Fl). reflexivity. }
    rewrite E. reflexivity.
  - set (m0 := List.map (fun kv => (node_from (as_yaml show_f (fst kv)), node_from (as_yaml show_f (snd kv)))) l).
    assert (R : Forall (fun kv => readable (n_yaml (fst kv))) m0).
    { unfold m0. rewrite Forall_forall in *. intros x Hx. apply in_map_iff in Hx as (y & <- & Hy). cbn. apply fit_readable. now apply F'. }
    assert (Ds : distinct m0).
    { unfold m0. clear - D. induction D as [|x l Hx _ IH]; constructor; [|exact IH]. rewrite Forall_forall in *. intros y Hy. apply in_map_iff in Hy as (z & <- & Hz). exact (Hx z Hz). }
    pose proof (C30_distinct_keys_keep_order hk m0 (distinct_lawful m0 R Ds) Ds) as C.
    match goal with |- dbind (?f l []) _ = _ => assert (E : forall acc, f l acc = of_mp (map_extend hk acc m0)) end.
    { unfold m0. clear - IH F'. induction IH as [|[k v] l [Hk Hv] _ IHl]; intros acc; [reflexivity|].
      inversion F' as [|? ? [Fk Fv] Fl]; subst. cbn [fst snd List.map map_extend] in *. rewrite (Hk Fk), (Hv Fv). cbn [dbind].
      destruct (map_insert hk (node_from (as_yaml show_f k)) (node_from (as_yaml show_f v)) acc) as [acc'|]; [|reflexivity]. cbn [of_mp dbind]. apply (IHl Fl). }
    rewrite E. unfold map_collect in C. rewrite C. cbn [of_mp dbind]. unfold map_collect. rewrite C. reflexivity.
Qed.
Lemma data_of_fit d : (forall text x, to_f64 text = Some x -> to_f64 (show_f x) = Some x) -> fit show_f d -> data_of (as_yaml show_f d) = DOk (plain d).
Proof.
  intros HF. induction d as [| |d IH| | | | | |l IH|l IH|] using sdata_ind'; intros F; inversion F as [| |? F'|b0|z0 Z|z0 Z|x0 [text X]|s0|? F'|? F' D]; subst; cbn [data_of as_yaml plain]; try reflexivity; auto.
  - now rewrite to_i64_show.
  - now rewrite to_i64_show.
  - now rewrite (HF text _ X).
  - clear F. match goal with |- dbind ?r _ = _ => assert (E : r = DOk (List.map plain l)) end.
    { induction IH as [|x l Hx _ IHl]; [reflexivity|]. inversion F' as [|? ? Fx Fl]; subst. cbn [List.map node_from]. rewrite (Hx Fx). cbn [dbind]. rewrite (IHl Fl). reflexivity. }
    rewrite E. reflexivity.
  - clear F D. match goal with |- dbind ?r _ = _ => assert (E : r = DOk (List.map (fun kv => (plain (fst kv), plain (snd kv))) l)) end.
    { induction IH as [|[k v] l [Hk Hv] _ IHl]; [reflexivity|]. inversion F' as [|? ? [Fk Fv] Fl]; subst. cbn [List.map node_from fst snd] in *. rewrite (Hk Fk), (Hv Fv). cbn [dbind]. rewrite (IHl Fl). reflexivity. }
    rewrite E. reflexivity.
Qed.
End Read.

Definition fine {A} (r : dres A) : Prop := match r with DOk _ => True | DErr p => p = 0 | DPanic => False end.
Lemma fine_bind {A B} (r : dres A) (f : A -> dres B) : fine r -> (forall a, fine (f a)) -> fine (dbind r f).
Proof. destruct r; cbn; auto. Qed.
Lemma write_fine {A} (r : dres A) : fine r -> (exists d, r = DOk d) \/ r = DErr 0.
Proof. destruct r; cbn; [eauto| |tauto]. intros ->. now right. Qed.
Lemma data_of_fine : forall y, readable y -> fine (data_of y).
Proof.
  fix IH 2. intros y R. destruct R as [|b|s z E|s x E|s|l Hl|m Hm|a]; cbn [data_of]; try rewrite E; try exact I; try reflexivity.
  - apply fine_bind; [|intros; exact I]. induction Hl as [|[q t y] l Hx _ IHl]; [exact I|]. cbn [n_yaml] in Hx.
    apply fine_bind; [exact (IH y Hx)|]. intros d. apply fine_bind; [exact IHl|]. intros; exact I.
  - apply fine_bind; [|intros; exact I]. induction Hm as [|[[q t y] [q' t' y']] l [Hx Hy] _ IHl]; [exact I|]. cbn [n_yaml fst snd] in Hx, Hy.
    apply fine_bind; [exact (IH y Hx)|]. intros d. apply fine_bind; [exact (IH y' Hy)|]. intros d'. apply fine_bind; [exact IHl|]. intros; exact I.
Qed.

(** ** Theorems *)
(** Data of another format becomes the node that shows it, whatever the hasher: no
    tags, position 0, the entries of maps in their order ... *)
Theorem C64_read : forall show_f hk d, reads_back show_f -> fit show_f d ->
  node_of show_f hk d = DOk (node_from (as_yaml show_f d)).
Proof. intros show_f hk d Hf F. now apply node_of_fit. Qed.
(** ... and the node is written as that data again (options and the two kinds of
    integers are not told apart). *)
Theorem C64_round_trip : forall show_f hk d, reads_back show_f -> fit show_f d ->
  exists n, node_of show_f hk d = DOk n /\ data_of (n_yaml n) = DOk (plain d).
Proof.
  intros show_f hk d Hf F. exists (node_from (as_yaml show_f d)). split; [now apply node_of_fit|]. cbn. now apply data_of_fit.
Qed.
(** A map in which keys are repeated: the last value of a key counts, the entries that
    no later one overrides stay in their order. *)
Definition entries (show_f : f64 -> str) (l : list (sdata * sdata)) : list (node * node) :=
  List.map (fun kv => (node_from (as_yaml show_f (fst kv)), node_from (as_yaml show_f (snd kv)))) l.
Theorem C64_repeated_keys : forall show_f hk l, reads_back show_f ->
  Forall (fun kv => fit show_f (fst kv) /\ fit show_f (snd kv)) l -> lawful_keys (List.map fst (entries show_f l)) ->
  exists m, node_of show_f hk (SMap l) = DOk (node_from (YMap m))
    /\ ForallOrdPairs (fun a b => ~ same_key (fst a) (fst b)) m
    /\ (exists m0, PropNode.kept (entries show_f l) m0 /\ Forall2 (fun a b => same_key (fst a) (fst b) /\ snd a = snd b) m m0)
    /\ (forall l1 k v l2, l = l1 ++ (k, v) :: l2 -> (forall kv, In kv l2 -> ~ same (as_yaml show_f k) (as_yaml show_f (fst kv))) ->
          map_get hk (node_from (as_yaml show_f k)) m = Some (Some (node_from (as_yaml show_f v)))).
Proof.
  intros show_f hk l Hf F LK. destruct (C30_collect_last_wins hk _ LK) as (m & C & D & K & G). exists m.
  assert (E : forall acc, (fix go (l : list (sdata * sdata)) (acc : list (node * node)) : dres (list (node * node)) :=
         match l with
         | [] => DOk acc
         | (k, v) :: r =>
           let! a := node_of show_f hk k in
           let! b := node_of show_f hk v in
           let! acc' := of_mp (map_insert hk a b acc) in
           go r acc'
         end) l acc = of_mp (map_extend hk acc (entries show_f l))).
  { clear - F Hf. induction F as [|[k v] l [Fk Fv] _ IHl]; intros acc; [reflexivity|].
    cbn [fst snd entries List.map map_extend] in *. rewrite (node_of_fit show_f hk Hf k Fk), (node_of_fit show_f hk Hf v Fv). cbn [dbind].
    destruct (map_insert hk (node_from (as_yaml show_f k)) (node_from (as_yaml show_f v)) acc) as [acc'|]; [|reflexivity]. cbn [of_mp dbind]. apply IHl. }
  assert (R : Forall (fun kv => readable (n_yaml (fst kv))) m).
  { destruct K as (m0 & K & F2). assert (R0 : forall x, In x m0 -> readable (n_yaml (fst x))).
    { intros x Hx. apply LK. apply in_map. exact (kept_in _ _ K x Hx). }
    clear - F2 R0. induction F2 as [|a b m m0 [S _] _ IH]; constructor.
    - apply (same_readable (n_yaml (fst b))); [apply same_sym; exact S].
    - apply IH. intros x Hx. apply R0. now right. }
  pose proof (C30_distinct_keys_keep_order hk m (distinct_lawful m R D) D) as C'.
  split; [cbn [node_of]; rewrite E; unfold map_collect in C; rewrite C; cbn [of_mp dbind]; rewrite C'; reflexivity|].
  split; [exact D|]. split; [exact K|]. intros l1 k v l2 -> Hk.
  assert (IK : In (node_from (as_yaml show_f k)) (List.map fst (entries show_f (l1 ++ (k, v) :: l2)))).
  { unfold entries. rewrite !map_app. apply in_or_app. right. now left. }
  assert (LK' : lawful_keys (node_from (as_yaml show_f k) :: List.map fst (entries show_f (l1 ++ (k, v) :: l2)))).
  { destruct LK as [L1 L2]. split; [intros x [<-|Hx]; auto|]. intros x x' [<-|Hx] [<-|Hx']; auto. }
  apply (proj1 (G _ LK')). exists (entries show_f l1), (node_from (as_yaml show_f k)), (entries show_f l2).
  split; [unfold entries; now rewrite map_app|]. split; [apply same_refl, LK, IK|].
  intros kv Hin. apply in_map_iff in Hin as (x & <- & Hx). exact (Hk x Hx).
Qed.
(** A node all of whose numbers can be read is written without panic: nothing goes
    wrong but that it holds an alias.  A number that cannot be read is a panic. *)
Theorem C64_write : forall y,
  (readable y -> (exists d, data_of y = DOk d) \/ data_of y = DErr 0)
  /\ (forall s, y = YInt s -> to_i64 s = None -> data_of y = DPanic)
  /\ (forall s, y = YFloat s -> to_f64 s = None -> data_of y = DPanic).
Proof.
  intros y. split; [intros R; apply write_fine; now apply data_of_fine|].
  split; intros s -> H; cbn [data_of]; now rewrite H.
Qed.
(** What is refused: data that YAML has no kind for, anywhere inside. *)
Theorem C64_refused : forall show_f hk a b k, 
  node_of show_f hk SOther = DErr 0
  /\ (Forall (fit show_f) a -> reads_back show_f -> node_of show_f hk (SSeq (a ++ SOther :: b)) = DErr 0)
  /\ data_of (YAlias k) = DErr 0.
Proof.
  intros show_f hk a b k. split; [reflexivity|]. split; [|reflexivity]. intros F Hf. cbn [node_of].
  match goal with |- dbind ?r _ = _ => assert (E : r = DErr 0) end.
  { induction F as [|x a Fx _ IH]; [reflexivity|]. cbn [app]. rewrite (node_of_fit show_f hk Hf x Fx). cbn [dbind]. now rewrite IH. }
  now rewrite E.
Qed.
(** What one would expect and does not get: an integer beyond i64 becomes a node that
    cannot be written any more (nor compared with itself). *)
Theorem C64_big_integer_refuted : forall show_f hk z, in_i64 z = false ->
  exists n, node_of show_f hk (SU64 z) = DOk n /\ data_of (n_yaml n) = DPanic.
Proof.
  intros show_f hk z H. exists (node_from (YInt (show_Z z))). split; [reflexivity|]. cbn. now rewrite to_i64_show_out.
Qed.
Example C64_witness :
  let x := match to_f64 (lit "1.5") with Some x => x | None => FNaN end in
  let d := SMap [(SStr (lit "a"), SSeq [SI64 1; SSome (SU64 2); SNone]); (SI64 3, SMap [(SStr (lit "b"), SF64 x)])] in
  reads_back show_exact /\ fit show_exact d /\ in_i64 (2 ^ 63) = false
  /\ as_yaml show_exact (SF64 x) = YFloat (show_exact x) /\ plain (SSome (SU64 2)) = SI64 2
  /\ readable (YSeq [node_from (YInt (lit "0x1F")); node_from (YAlias (lit "k"))]).
Proof.
  cbv zeta. split; [exact C09_exact_text|]. split.
  - constructor.
    + repeat constructor; cbn [fst snd]; repeat constructor. exists (lit "1.5"). vm_compute. reflexivity.
    + repeat constructor; cbn [fst snd as_yaml]; intros H; inversion H.
  - split; [reflexivity|]. split; [reflexivity|]. split; [reflexivity|]. constructor. repeat constructor. cbn. eapply ReadInt. vm_compute. reflexivity.
Qed.
Example C64_repeated_keys_witness :
  let l := [(SStr (lit "a"), SI64 1); (SStr (lit "b"), SI64 2); (SStr (lit "a"), SUnit)] in
  Forall (fun kv => fit show_exact (fst kv) /\ fit show_exact (snd kv)) l /\ lawful_keys (List.map fst (entries show_exact l)).
Proof.
  cbv zeta. split; [repeat constructor|]. apply C30_plain_keys_lawful. intros k Hk. cbn in Hk.
  repeat destruct Hk as [<-|Hk]; cbn; try tauto; try constructor.
Qed.
