(** * PropOrder: positions are in the order of the text, and documents are
    separated by markers (C52, C53). *)
From Verif Require Export PropModes PropCursor.
Open Scope nat_scope.

(** ** Specification *)
(** every node of [x] is placed before every node of [y] *)
Definition before (x y : node) : Prop := forall a b, subnode a x -> subnode b y -> (n_pos a < n_pos b)%N.
(** nothing is placed before the node it belongs to; items follow each other; a
    key is before its value and the values follow each other *)
Definition in_order (n : node) : Prop := forall x, subnode x n ->
  (forall a, subnode a x -> (n_pos x <= n_pos a)%N) /\
  match n_yaml x with
  | YSeq l => ForallOrdPairs before l
  | YMap m => Forall (fun kv => before (fst kv) (snd kv)) m /\ ForallOrdPairs (fun a b => before (snd a) (snd b)) m
  | _ => True
  end.

(** ** Lemmas on trees *)
Definition kids (y : yaml) : list node :=
  match y with YSeq l => l | YMap m => flat_map (fun kv => [fst kv; snd kv]) m | _ => [] end.
Lemma in_kids_map k v m : In (k, v) m -> In k (kids (YMap m)) /\ In v (kids (YMap m)).
Proof. intros H. cbn [kids]. split; apply in_flat_map; exists (k, v); cbn; auto. Qed.
Lemma subnode_inv a p t y : subnode a (Node p t y) <-> a = Node p t y \/ exists x, In x (kids y) /\ subnode a x.
Proof.
  split.
  - intros H. inversion H as [|? ? ? z Hz Hs|? ? ? k v Hz Hs|? ? ? k v Hz Hs]; subst; [now left|right; exists z; auto|right; exists k|right; exists v]; (split; [|exact Hs]); apply (in_kids_map k v m Hz).
  - intros [->|(x & Hx & H)]; [constructor|]. destruct y; try destruct Hx.
    + eapply SubSeq; eassumption.
    + cbn [kids] in Hx. apply in_flat_map in Hx as ((k & v) & Hm & [<-|[<-|[]]]); [eapply SubKey|eapply SubVal]; eassumption.
Qed.
Lemma order_node p t y : in_order (Node p t y) <->
  (forall x a, In x (kids y) -> subnode a x -> (p <= n_pos a)%N) /\ (forall x, In x (kids y) -> in_order x) /\
  match y with
  | YSeq l => ForallOrdPairs before l
  | YMap m => Forall (fun kv => before (fst kv) (snd kv)) m /\ ForallOrdPairs (fun a b => before (snd a) (snd b)) m
  | _ => True
  end.
Proof.
  split.
  - intros H. destruct (H _ (SubHere _)) as [H1 H2]. split; [|split].
    + intros x a Hx Ha. apply (H1 a). apply subnode_inv. right. eauto.
    + intros x Hx z Hz. apply H. apply subnode_inv. right. eauto.
    + exact H2.
  - intros (H1 & H2 & H3) x Hx. apply subnode_inv in Hx as [->|(z & Hz & Hx)]; [|exact (H2 z Hz x Hx)].
    split; [|exact H3]. intros a Ha. apply subnode_inv in Ha as [->|(z & Hz & Ha)]; [cbn; lia|]. exact (H1 z a Hz Ha).
Qed.

(** all places of a node are in [lo..hi], and in order *)
Definition place (n : node) : nat := N.to_nat (n_pos n).
Definition wn (lo hi : nat) (n : node) : Prop := in_order n /\ forall a, subnode a n -> lo <= place a <= hi.
(** a value that may be put at any place up to [lo] *)
Definition wy (lo hi : nat) (y : yaml) : Prop := forall p t, N.to_nat p <= lo -> wn (N.to_nat p) (Nat.max (N.to_nat p) hi) (Node p t y).
Lemma wn_weaken lo hi lo' hi' n : wn lo hi n -> lo' <= lo -> hi <= hi' -> wn lo' hi' n.
Proof. intros [H1 H2] A B. split; [exact H1|]. intros a Ha. specialize (H2 a Ha). lia. Qed.
Lemma wn_before lo hi lo' hi' x y : wn lo hi x -> wn lo' hi' y -> hi < lo' -> before x y.
Proof. intros [_ A] [_ B] H a b Ha Hb. specialize (A a Ha). specialize (B b Hb). unfold place in *. lia. Qed.
Lemma wy_of_node lo hi n : wn lo hi n -> wy lo hi (n_yaml n).
Proof.
  intros [H1 H2] p t Hp. destruct n as [q u y]. cbn [n_yaml]. apply order_node in H1 as (A & B & C). split.
  - apply order_node. split; [|split; [exact B|exact C]]. intros x a Hx Ha. assert (X : lo <= place a <= hi) by (apply H2, subnode_inv; right; eauto). unfold place in X. lia.
  - intros a Ha. apply subnode_inv in Ha as [->|(x & Hx & Ha)]; [unfold place; cbn; lia|].
    assert (X : lo <= place a <= hi) by (apply H2, subnode_inv; right; eauto). lia.
Qed.
Lemma wy_node lo hi p t y : wy (N.to_nat p) hi y -> lo <= N.to_nat p -> N.to_nat p <= hi -> wn lo hi (Node p t y).
Proof. intros H A B. specialize (H p t (Nat.le_refl _)). eapply wn_weaken; [exact H|lia|lia]. Qed.
Lemma wy_weaken lo hi lo' hi' y : wy lo hi y -> lo' <= lo -> hi <= hi' -> wy lo' hi' y.
Proof. intros H A B p t Hp. eapply wn_weaken; [apply H; lia|lia|lia]. Qed.
Lemma wy_leaf lo hi y : match y with YSeq _ | YMap _ => False | _ => True end -> wy lo hi y.
Proof.
  intros H p t Hp. split.
  - apply order_node. destruct y; try contradiction; cbn [kids]; (split; [|split; [|exact I]]); intros ? * [].
  - intros a Ha. apply subnode_inv in Ha as [->|(x & Hx & Ha)]; [unfold place; cbn; lia|]. destruct y; try contradiction; destruct Hx.
Qed.
(** items so far *)
Definition ws_ (lo hi : nat) (v : list node) : Prop := Forall (wn lo hi) v /\ ForallOrdPairs before v.
Lemma FOP_snoc {A} (R : A -> A -> Prop) l x : ForallOrdPairs R l -> Forall (fun a => R a x) l -> ForallOrdPairs R (l ++ [x]).
Proof.
  induction 1 as [|a l Ha H IH]; intros F; cbn [app]; [repeat constructor|]. inversion F; subst. constructor; [|now apply IH].
  apply Forall_app. split; [exact Ha|constructor; [assumption|constructor]].
Qed.
Lemma items_snoc lo hi hi' v x : ws_ lo hi v -> wn (S hi) hi' x -> lo <= S hi -> hi <= hi' -> ws_ lo hi' (v ++ [x]).
Proof.
  intros [H1 H2] Hx A B. split.
  - apply Forall_app. split; [eapply Forall_impl; [|exact H1]; intros a Ha; eapply wn_weaken; [exact Ha|lia|lia]|]. constructor; [|constructor]. eapply wn_weaken; [exact Hx|lia|lia].
  - apply FOP_snoc; [exact H2|]. eapply Forall_impl; [|exact H1]. intros a Ha. eapply wn_before; [exact Ha|exact Hx|lia].
Qed.
Lemma items_yaml lo hi v : ws_ lo hi v -> wy lo hi (YSeq v).
Proof.
  intros [H1 H2] p t Hp. rewrite Forall_forall in H1. split.
  - apply order_node. cbn [kids]. split; [|split; [|exact H2]].
    + intros x a Hx Ha. pose proof (proj2 (H1 x Hx) a Ha) as X. unfold place in X. lia.
    + intros x Hx. apply (H1 x Hx).
  - intros a Ha. apply subnode_inv in Ha as [->|(x & Hx & Ha)]; [unfold place; cbn; lia|]. pose proof (proj2 (H1 x Hx) a Ha) as X. lia.
Qed.
(** entries so far *)
Definition ps_ (lo hi : nat) (m : list (node * node)) : Prop :=
  Forall (fun kv => wn lo hi (fst kv) /\ wn lo hi (snd kv) /\ before (fst kv) (snd kv)) m /\ ForallOrdPairs (fun a b => before (snd a) (snd b)) m.
Inductive pairs (lo : nat) : nat -> list (node * node) -> Prop :=
| PNil hi : pairs lo hi []
| PSnoc hi k v hi1 hi2 m : pairs lo hi m -> wn lo hi1 k -> wn (S hi1) hi2 v -> hi <= hi1 -> lo <= S hi1 -> hi1 <= hi2 -> pairs lo hi2 (m ++ [(k, v)]).
Lemma ps_sub lo hi m1 x m2 : ps_ lo hi (m1 ++ x :: m2) -> ps_ lo hi (m1 ++ m2).
Proof.
  intros [H1 H2]. split.
  - apply Forall_app in H1 as [A B]. inversion B; subst. now apply Forall_app.
  - clear H1. induction m1 as [|a m1 IH]; cbn [app] in *; inversion H2; subst; [assumption|]. constructor; [|now apply IH].
    match goal with H : Forall _ (m1 ++ x :: m2) |- _ => apply Forall_app in H as [A B] end. inversion B; subst. now apply Forall_app.
Qed.
Lemma ps_snoc lo hi k v hi1 hi2 m : ps_ lo hi m -> wn lo hi1 k -> wn (S hi1) hi2 v -> hi <= hi1 -> lo <= S hi1 -> hi1 <= hi2 -> ps_ lo hi2 (m ++ [(k, v)]).
Proof.
  intros [H1 H2] Hk Hv A B C. split.
  - apply Forall_app. split.
    + eapply Forall_impl; [|exact H1]. intros kv (X & Y & Z). split; [eapply wn_weaken; [exact X|lia|lia]|]. split; [eapply wn_weaken; [exact Y|lia|lia]|exact Z].
    + constructor; [|constructor]. cbn [fst snd]. split; [eapply wn_weaken; [exact Hk|lia|lia]|]. split; [eapply wn_weaken; [exact Hv|lia|lia]|]. eapply wn_before; [exact Hk|exact Hv|lia].
  - apply FOP_snoc; [exact H2|]. eapply Forall_impl; [|exact H1]. intros kv (X & Y & Z). cbn [snd]. eapply wn_before; [exact Y|exact Hv|lia].
Qed.
Lemma take_split hk k : forall m o r, map_take hk k m = Some (o, r) ->
  match o with Some k' => exists v m1 m2, m = m1 ++ (k', v) :: m2 /\ r = m1 ++ m2 | None => r = m end.
Proof.
  induction m as [|[k1 x] m IH]; intros o r E; cbn [map_take] in E; [now injection E as <- <-|].
  destruct (key_match hk k k1) as [[]|]; try discriminate.
  - injection E as <- <-. exists x, [], m. auto.
  - destruct (map_take hk k m) as [[o' r']|]; try discriminate. injection E as <- <-. specialize (IH _ _ eq_refl). destruct o' as [k'|].
    + destruct IH as (v & m1 & m2 & -> & ->). exists v, ((k1, x) :: m1), m2. auto.
    + now subst.
Qed.
Lemma extend_snoc hk : forall l m x, map_extend hk m (l ++ [x]) =
  match map_extend hk m l with Some r => map_insert hk (fst x) (snd x) r | None => None end.
Proof.
  induction l as [|[k v] l IH]; intros m [k' v']; cbn [app map_extend fst snd].
  - now destruct (map_insert hk k' v' m).
  - destruct (map_insert hk k v m); [apply IH|reflexivity].
Qed.
Lemma collect_order hk lo hi l : pairs lo hi l -> forall m, map_collect hk l = Some m -> ps_ lo hi m.
Proof.
  unfold map_collect. induction 1 as [hi|hi k v hi1 hi2 l H IH Hk Hv A B C]; intros m E.
  - injection E as <-. split; constructor.
  - rewrite extend_snoc in E. destruct (map_extend hk [] l) as [r|]; [|discriminate]. specialize (IH r eq_refl). cbn [fst snd] in E. unfold map_insert in E.
    destruct (map_take hk k r) as [[[k'|] r']|] eqn:Et; try discriminate; injection E as <-; apply take_split in Et.
    + destruct Et as (v0 & m1 & m2 & -> & ->). eapply ps_snoc; [eapply ps_sub, IH| |exact Hv|exact A|exact B|exact C].
      destruct IH as [IH _]. apply Forall_app in IH as [_ IH]. inversion IH; subst. cbn [fst] in *. eapply wn_weaken; [apply H2|lia|lia].
    + subst r'. eapply ps_snoc; eassumption.
Qed.
Lemma pairs_yaml lo hi m : ps_ lo hi m -> wy lo hi (YMap m).
Proof.
  intros [H1 H2] p t Hp. rewrite Forall_forall in H1.
  assert (K : forall x, In x (kids (YMap m)) -> wn lo hi x).
  { intros x Hx. cbn [kids] in Hx. apply in_flat_map in Hx as (kv & Hkv & [<-|[<-|[]]]); apply (H1 kv Hkv). }
  split.
  - apply order_node. split; [|split].
    + intros x a Hx Ha. pose proof (proj2 (K x Hx) a Ha) as X. unfold place in X. lia.
    + intros x Hx. apply (K x Hx).
    + split; [|exact H2]. apply Forall_forall. intros kv Hkv. apply (H1 kv Hkv).
  - intros a Ha. apply subnode_inv in Ha as [->|(x & Hx & Ha)]; [unfold place; cbn; lia|]. pose proof (proj2 (K x Hx) a Ha) as X. lia.
Qed.

(** ** The run *)
Section Walk.
Variable d : bytes.
Variable hk : hasher.
Local Notation Iv := (Iv d true hk (fun _ _ => True) [] Wild).
Local Notation kept := (kept d true hk).
Definition tri {A} (P : st -> Prop) (G : A -> st -> Prop) (m : M A) : Prop :=
  forall s, Iv s -> P s ->
  match m s with
  | (ROk a, t) => Iv t /\ p_eaten s <= p_eaten t /\ G a t
  | (RErr _, t) => Iv t /\ p_eaten s <= p_eaten t
  | _ => True
  end.
Definition EA (e : nat) (s : st) : Prop := e <= p_eaten s.
Definition PO (e : nat) (s : st) : Prop := e <= p_pos s.
Lemma Iv_le s : Iv s -> p_eaten s <= p_pos s. Proof. intros H. apply H. Qed.
Lemma tri_kept {A} e (m : M A) : kept m -> tri (EA e) (fun _ => EA e) m.
Proof. intros H s Hs He. specialize (H s Hs). unfold EA in *. destruct (m s) as [[a|x| |] t]; auto. split; [apply H|]. split; [apply H|]. lia. Qed.
Lemma tri_bind {A B} P (G : A -> st -> Prop) (G' : B -> st -> Prop) m f : tri P G m -> (forall a, tri (G a) G' (f a)) -> tri P G' (bind m f).
Proof.
  intros Hm Hf s Hs HP. specialize (Hm s Hs HP). unfold bind. destruct (m s) as [[a|x| |] t]; auto. destruct Hm as (H1 & H2 & H3).
  specialize (Hf a t H1 H3). destruct (f a t) as [[b|x| |] u]; auto; [destruct Hf as (A1 & A2 & A3); split; [exact A1|split; [lia|exact A3]]|destruct Hf as (A1 & A2); split; [exact A1|lia]].
Qed.
Lemma tri_weaken {A} (P P' : st -> Prop) (G G' : A -> st -> Prop) m : tri P G m -> (forall s, Iv s -> P' s -> P s) -> (forall a s, Iv s -> G a s -> G' a s) -> tri P' G' m.
Proof.
  intros H HP HG s Hs HPs. specialize (H s Hs (HP s Hs HPs)). destruct (m s) as [[a|x| |] t]; auto. destruct H as (A1 & A2 & A3). split; [exact A1|]. split; [exact A2|]. now apply HG.
Qed.
Lemma tri_ret {A} (P : st -> Prop) (G : A -> st -> Prop) a : (forall s, Iv s -> P s -> G a s) -> tri P G (ret a).
Proof. intros H s Hs HP. cbn. auto. Qed.
Lemma tri_err {A} P (G : A -> st -> Prop) nm : tri P G (err nm).
Proof. intros s Hs _. pose proof (kept_err d true hk (A := A) nm s Hs) as K. destruct (err nm s) as [[a|x| |] t] eqn:E; auto. unfold err in E. destruct (indicated_msg _ _); discriminate. Qed.
Lemma tri_div {A} P (G : A -> st -> Prop) : tri P G diverge.
Proof. intros s Hs _. exact I. Qed.
Lemma tri_or_else {A} e (G : A -> st -> Prop) m f : tri (EA e) G m -> tri (EA e) G f -> tri (EA e) G (or_else m f).
Proof.
  intros Hm Hf s Hs HP. specialize (Hm s Hs HP). unfold or_else. destruct (m s) as [[a|[|nm msg]| |] t]; auto. destruct Hm as (H1 & H2).
  assert (X : EA e t) by (unfold EA in *; lia). specialize (Hf t H1 X). destruct (f t) as [[b|x| |] u]; auto; [destruct Hf as (A1 & A2 & A3); split; [exact A1|split; [lia|exact A3]]|destruct Hf as (A1 & A2); split; [exact A1|lia]].
Qed.
Lemma tri_or_err {A} e (G : A -> st -> Prop) m nm : tri (EA e) G m -> tri (EA e) G (or_else m (err nm)).
Proof. intros H. apply tri_or_else; [exact H|apply tri_err]. Qed.
Lemma tri_forward e : tri (PO e) (fun _ => EA e) forward.
Proof. intros s Hs HP. cbn. split; [now apply I_fwd|]. split; [now apply Iv_le|exact HP]. Qed.
Lemma tri_forward' e : tri (EA e) (fun _ => EA e) forward.
Proof. eapply tri_weaken; [apply (tri_forward e)| |auto]. intros s Hs H. unfold EA, PO in *. pose proof (Iv_le s Hs). lia. Qed.
Lemma tri_sym e c : tri (PO e) (fun _ => PO (S e)) (sym c).
Proof.
  intros s Hs HP. pose proof (kept_gb d true hk _ (at_take (is_in [c]) One) s Hs) as K. fold (sym_set [c]) in K. fold (sym c) in K.
  rewrite (sym_exec c s (I_in _ _ _ _ _ _ _ Hs)) in *. destruct (rem s) as [|x r]; [exact K|]. destruct (N.eqb x c); [|exact K]. destruct K. split; [assumption|]. split; [assumption|]. unfold PO in *. cbn. lia.
Qed.
Lemma tri_inv e : tri (PO e) (fun _ => PO e) (inv (More 0)).
Proof.
  intros s Hs HP. pose proof (kept_gb d true hk _ (at_take is_ascii_ws (More 0)) s Hs) as K. change (take_while is_ascii_ws (More 0)) with (inv (More 0)) in K.
  unfold inv in *. rewrite more0_exec in * by (apply (I_in _ _ _ _ _ _ _ Hs)). destruct K. split; [assumption|]. split; [assumption|]. unfold PO in *. cbn. lia.
Qed.
Lemma tri_bound e : tri (PO e) (fun _ => PO e) bound.
Proof.
  intros s Hs HP. pose proof (kept_bound d true hk s Hs) as K. rewrite (bound_exec s (I_in _ _ _ _ _ _ _ Hs)) in *. destruct (at_bound (rem s)); [|exact K].
  destruct K. split; [assumption|]. split; [assumption|]. unfold PO in *. cbn. lia.
Qed.
(** [e], or more if both succeeded *)
Lemma tri_is_err {A} e (G : st -> Prop) (m : M A) : tri (EA e) (fun _ => G) m -> tri (EA e) (fun b s => if b : bool then EA e s else G s) (is_err m).
Proof.
  intros H s Hs HP. specialize (H s Hs HP). unfold is_err, is_ok, bind, ret. destruct (m s) as [[a|x| |] t]; auto. destruct H as [H1 H2]. cbn [negb]. split; [assumption|]. split; [assumption|]. unfold EA in *. lia.
Qed.
Lemma EA_PO e s : Iv s -> EA e s -> PO e s.
Proof. intros H. pose proof (Iv_le s H). unfold EA, PO. lia. Qed.
Lemma tri_sym' e c : tri (EA e) (fun _ => PO (S e)) (sym c).
Proof. eapply tri_weaken; [apply (tri_sym e)|apply EA_PO|auto]. Qed.
Lemma tri_two e c : tri (EA e) (fun b s => if b : bool then EA e s else PO (S e) s) (orM (is_err (sym c)) (is_err bound)).
Proof.
  intros s Hs HP. pose proof (tri_is_err e _ _ (tri_sym' e c) s Hs HP) as H. unfold orM, bind at 1. destruct (is_err (sym c) s) as [[[]|x| |] t]; auto.
  destruct H as (H1 & H2 & H3). pose proof (tri_bound (S e) t H1 H3) as K. unfold is_err, is_ok, bind, ret. destruct (bound t) as [[u|x| |] t']; auto; cbn [negb].
  - destruct K as (K1 & K2 & K3). split; [assumption|]. split; [lia|assumption].
  - destruct K as (K1 & K2). split; [assumption|]. split; [lia|]. unfold EA in *. lia.
Qed.

Definition NG (e : nat) (n : node) (s : st) : Prop := e <= p_eaten s /\ wn e (p_eaten s) n.
Definition YG (e : nat) (y : yaml) (s : st) : Prop := e <= p_eaten s /\ wy e (p_eaten s) y.
(** a kept step after a result *)
Lemma tri_node {A} e n (m : M A) : kept m -> tri (NG e n) (fun _ => NG e n) m.
Proof.
  intros H s Hs HP. specialize (H s Hs). destruct (m s) as [[b|x| |] t]; auto. destruct H as [H1 H2]. split; [exact H1|]. split; [exact H2|].
  destruct HP as [HP1 HP]. split; [lia|]. eapply wn_weaken; [exact HP|lia|exact H2].
Qed.
Lemma tri_yaml {A} e y (m : M A) : kept m -> tri (YG e y) (fun _ => YG e y) m.
Proof.
  intros H s Hs HP. specialize (H s Hs). destruct (m s) as [[b|x| |] t]; auto. destruct H as [H1 H2]. split; [exact H1|]. split; [exact H2|].
  destruct HP as [HP1 HP]. split; [lia|]. eapply wy_weaken; [exact HP|lia|exact H2].
Qed.
Lemma kept_anchor : kept anchor. Proof. eapply kept_safe, (sb_anchor d true hk _ True [] Wild any noT). Qed.
Lemma kept_tag : kept tag. Proof. eapply kept_safe, (sb_tag d true hk _ True [] Wild (PNt d) any noT). Qed.
Lemma kept_name an nd : kept (name_node an nd).
Proof.
  unfold name_node. destruct (is_nil an); [apply kept_ret|]. apply kept_bind.
  - intros s Hs. unfold anchor_insert. destruct (nth_error _ _); [|exact I]. split; [exact Hs|cbn; lia].
  - intros []; [apply kept_err|apply kept_ret].
Qed.
Lemma name_same an nd s : match name_node an nd s with (ROk n, _) => n = nd | _ => True end.
Proof.
  unfold name_node. destruct (is_nil an); [reflexivity|]. unfold bind. destruct (anchor_insert an nd s) as [[b|x| |] t]; auto. destruct b; [|reflexivity].
  unfold err. destruct (indicated_msg _ _); exact I.
Qed.
Lemma walk_node e f : (forall k, tri (EA k) (YG k) f) -> tri (EA e) (NG e) (scalar_node f).
Proof.
  intros Hf. unfold scalar_node.
  eapply tri_bind; [apply tri_kept, kept_unwrap, kept_anchor|intros an1].
  eapply tri_bind; [apply tri_kept; destruct (is_nil an1); [apply kept_ret|apply kept_bound]|intros ?].
  eapply tri_bind; [apply tri_forward'|intros ?].
  eapply tri_bind; [apply tri_kept, kept_unwrap, kept_tag|intros tg].
  eapply tri_bind; [apply tri_kept; destruct (is_nil tg); [apply kept_ret|apply kept_bound]|intros ?].
  eapply tri_bind; [apply tri_forward'|intros ?].
  eapply tri_bind; [apply tri_kept, kept_unwrap, kept_anchor|intros an2].
  eapply tri_bind; [apply tri_kept; destruct (is_nil an2); [apply kept_ret|]; destruct (is_nil an1); [apply kept_bind; [apply kept_bound|intros; apply kept_ret]|apply kept_err]|intros an].
  intros s Hs He. unfold bind at 1, forward at 1, modify. cbn beta iota. set (s1 := set_eaten (p_pos s) s).
  assert (H1 : Iv s1) by (now apply I_fwd). unfold bind at 1, gets. cbn beta iota.
  assert (Ep : indicator_of s1 = N.of_nat (p_pos s)). { unfold indicator_of. destruct Hs as (_ & _ & _ & _ & (C & _) & _). unfold s1. cbn [set_eaten p_consumed p_pos]. now rewrite C. }
  rewrite Ep. pose proof (Iv_le s Hs) as Hle. unfold EA in He.
  assert (T : tri (EA (p_pos s)) (NG e) (y <- f ;; forward ;;; name_node an (Node (N.of_nat (p_pos s)) tg y))).
  { eapply tri_bind; [apply Hf|intros y]. eapply tri_bind; [apply tri_yaml, kept_forward|intros ?].
    intros u Hu Hy. pose proof (kept_name an (Node (N.of_nat (p_pos s)) tg y) u Hu) as K. pose proof (name_same an (Node (N.of_nat (p_pos s)) tg y) u) as N'.
    destruct (name_node an _ u) as [[n|x| |] v]; auto. subst n. destruct K as [K1 K2]. split; [exact K1|]. split; [exact K2|].
    destruct Hy as [X Hy]. split; [lia|]. apply wy_node; rewrite ?Nnat.Nat2N.id; try lia. eapply wy_weaken; [exact Hy|lia|lia]. }
  specialize (T s1 H1 (Nat.le_refl _)). unfold name_node in T. cbv zeta. destruct ((y <- f ;; _) s1) as [[n|x| |] t]; auto; destruct T as [T1 T2]; unfold s1 in T2; cbn [set_eaten p_eaten] in T2;
    [destruct T2 as [T2 T3]; split; [exact T1|]; split; [lia|exact T3]|split; [exact T1|lia]].
Qed.

Lemma kept_float : kept float. Proof. apply kept_gb, at_float. Qed.
Lemma kept_sci : kept sci_float. Proof. apply kept_gb, at_sci. Qed.
Lemma kept_int : kept int. Proof. apply kept_gb, at_int. Qed.
Lemma kept_use : kept anchor_use. Proof. eapply kept_safe, (sb_anchor_use d true hk _ True [] Wild any noT). Qed.
Lemma kept_quoted q ig : kept (string_quoted q ig). Proof. eapply kept_safe, (sb_quoted d true hk _ True [] Wild any noT). Qed.
Lemma kept_plain l i : kept (string_plain l i). Proof. eapply kept_safe, (sb_plain d true hk _ True [] Wild any noT). Qed.
Lemma kept_literal l : kept (string_literal l). Proof. eapply kept_safe, (sb_literal d true hk _ True [] Wild any noT). Qed.
Lemma kept_folded l : kept (string_folded l). Proof. eapply kept_safe, (sb_folded d true hk _ True [] Wild any noT). Qed.
Lemma kept_ind l : kept (ind l). Proof. eapply kept_safe, (sb_ind_any d true hk _ True [] Wild noT). Qed.
Lemma kept_define l : kept (ind_define l). Proof. eapply kept_safe, (sb_ind_define d true hk _ True [] Wild any noT). Qed.
Lemma kept_complex : kept complex_mapping. Proof. eapply kept_safe, (sb_complex d true hk _ True [] Wild any noT). Qed.
Lemma kept_doc_end : kept doc_end. Proof. eapply kept_safe, (sb_doc_end d true hk _ True [] Wild any noT any). Qed.
Lemma kept_sym c : kept (sym c). Proof. apply kept_gb, at_take. Qed.
Lemma kept_inv : kept (inv (More 0)). Proof. apply kept_gb, at_take. Qed.
Lemma kept_orM a b : kept a -> kept b -> kept (orM a b).
Proof. intros A B. unfold orM. apply kept_bind; [exact A|intros []; [apply kept_ret|exact B]]. Qed.
Lemma kept_andM a b : kept a -> kept b -> kept (andM a b).
Proof. intros A B. unfold andM. apply kept_bind; [exact A|intros []; [exact B|apply kept_ret]]. Qed.
Lemma kept_notM a : kept a -> kept (notM a).
Proof. intros A. unfold notM. apply kept_bind; [exact A|intros; apply kept_ret]. Qed.
Ltac kp := repeat match goal with
  | |- kept (bind _ _) => apply kept_bind; [|intros ?]
  | |- kept (ok _) => apply kept_ok
  | |- kept (is_ok _) => apply kept_is_ok
  | |- kept (is_err _) => apply kept_is_err
  | |- kept (unwrap_or _ _) => apply kept_unwrap
  | |- kept (context _) => apply kept_context
  | |- kept (orM _ _) => apply kept_orM
  | |- kept (andM _ _) => apply kept_andM
  | |- kept (notM _) => apply kept_notM
  | |- kept (if ?b then _ else _) => destruct b
  | |- kept _ => first [apply kept_ret|apply kept_forward|apply kept_backward|apply kept_bound|apply kept_gap|apply kept_err|apply kept_float|apply kept_sci|apply kept_int|apply kept_use
      |apply kept_quoted|apply kept_plain|apply kept_literal|apply kept_folded|apply kept_ind|apply kept_define|apply kept_complex|apply kept_doc_end|apply kept_sym|apply kept_inv|apply kept_seq]
  end.
(** one step that leaves the bound *)
Ltac ks := eapply tri_bind; [apply tri_kept; solve [kp]|intros ?].
Lemma tri_leaf e y : match y with YSeq _ | YMap _ => False | _ => True end -> tri (EA e) (YG e) (ret y).
Proof. intros H. apply tri_ret. intros s Hs He. split; [exact He|]. now apply wy_leaf. Qed.
Lemma plain_value_scalar x : match plain_value x with YSeq _ | YMap _ => False | _ => True end.
Proof. pose proof (plain_value_leaf x). destruct (plain_value x); auto. Qed.

(** the bound is where the checkpoint is now *)
Lemma tri_at {A} (P : st -> Prop) (G : A -> st -> Prop) m : (forall s, Iv s -> P s -> tri (EA (p_eaten s)) G m) -> tri P G m.
Proof. intros H s Hs HP. apply (H s Hs HP s Hs). apply Nat.le_refl. Qed.
Lemma items_next e hi k k2 v x : ws_ e hi v -> (v = [] \/ S hi <= k) -> wn k k2 x -> e <= k -> k <= k2 -> ws_ e k2 (v ++ [x]).
Proof.
  intros Hv [->|H] Hx A B.
  - split; [|repeat constructor]. constructor; [|constructor]. eapply wn_weaken; [exact Hx|lia|lia].
  - destruct k as [|k]; [lia|]. eapply (items_snoc e k); [|exact Hx|lia|lia]. destruct Hv as [V1 V2]. split; [|exact V2].
    eapply Forall_impl; [|exact V1]. intros a Ha. eapply wn_weaken; [exact Ha|lia|lia].
Qed.
Lemma pairs_weaken lo hi hi' m : pairs lo hi m -> hi <= hi' -> pairs lo hi' m.
Proof. intros [h|hi0 k v hi1 hi2 m0 H Hk Hv A B C] L; [constructor|]. eapply PSnoc; [exact H|exact Hk| |exact A|exact B|lia]. eapply wn_weaken; [exact Hv|lia|lia]. Qed.
Lemma pairs_next e hi k k1 k2 m x y : pairs e hi m -> (m = [] \/ hi <= k) -> wn k k1 x -> wn (S k1) k2 y -> e <= k -> k <= k1 -> S k1 <= k2 -> pairs e k2 (m ++ [(x, y)]).
Proof.
  intros Hm Hk Hx Hy A B C. assert (Hm' : pairs e k1 m) by (destruct Hk as [->|Hk]; [constructor|eapply pairs_weaken; [exact Hm|lia]]).
  eapply PSnoc; [exact Hm'| |exact Hy|lia|lia|lia]. eapply wn_weaken; [exact Hx|lia|lia].
Qed.
Lemma walk_build e hi m : pairs e hi m -> tri (fun s => EA e s /\ (m = [] \/ EA hi s)) (YG e) (build_map m).
Proof.
  intros Hm s Hs [H1 H2]. unfold build_map. destruct (map_collect (p_hash s) m) as [r|] eqn:E; [|exact I]. split; [exact Hs|]. split; [lia|]. split; [exact H1|].
  unfold EA in *. apply pairs_yaml. eapply collect_order; [|exact E]. destruct H2 as [->|H2]; [constructor|]. eapply pairs_weaken; eassumption.
Qed.

Lemma tri_stay {A} e (G : A -> st -> Prop) m : tri (EA e) G m -> tri (EA e) (fun a s => EA e s /\ G a s) m.
Proof.
  intros H s Hs He. specialize (H s Hs He). destruct (m s) as [[a|x| |] t]; auto. destruct H as (H1 & H2 & H3). split; [exact H1|]. split; [exact H2|]. split; [|exact H3]. unfold EA in *. lia.
Qed.
Lemma tri_bound_opt e : tri (PO e) (fun _ => PO e) (context (unwrap_or tt bound)).
Proof.
  intros s Hs HP. pose proof (kept_context d true hk _ (kept_unwrap d true hk tt _ (kept_bound d true hk)) s Hs) as K. unfold context in *. unfold unwrap_or, ok, bind, ret in *.
  rewrite (bound_exec (set_eaten (p_pos s) s)) in * by (apply (I_in _ _ _ _ _ _ _ Hs)). destruct (at_bound _); cbn [fst snd] in *; (destruct K as [K1 K2]; split; [exact K1|split; [exact K2|]]); unfold PO in *; cbn; lia.
Qed.
(** two steps at the head of a flow collection *)
Lemma tri_open e (Q : Prop) hi : tri (fun s => EA e s /\ (Q \/ PO (S hi) s)) (fun _ s => EA e s /\ (Q \/ PO (S hi) s)) (inv (More 0)).
Proof.
  intros s Hs [H1 H2]. pose proof (tri_inv (p_pos s) s Hs (Nat.le_refl _)) as T. destruct (inv (More 0) s) as [[a|x| |] t]; auto. destruct T as (T1 & T2 & T3). split; [exact T1|]. split; [exact T2|].
  unfold EA, PO in *. split; [lia|]. destruct H2; [auto|right; lia].
Qed.
Lemma tri_open2 e (Q : Prop) hi : tri (fun s => EA e s /\ (Q \/ PO (S hi) s)) (fun _ s => EA e s /\ (Q \/ EA (S hi) s)) forward.
Proof. intros s Hs [H1 H2]. cbn. split; [now apply I_fwd|]. pose proof (Iv_le s Hs). unfold EA, PO in *. cbn. split; [lia|]. split; [lia|exact H2]. Qed.

Record all_walk (n : nat) : Prop := {
  wk_scalar : forall e L map flow, tri (EA e) (NG e) (scalar n L map flow);
  wk_flow : forall e L flow, tri (EA e) (NG e) (scalar_flow n L flow);
  wk_term : forall e L flow, tri (EA e) (YG e) (scalar_term n L flow);
  wk_seqf : forall e L, tri (EA e) (YG e) (seq_flow n L);
  wk_seqfl : forall e hi L v, ws_ e hi v -> tri (fun s => EA e s /\ (v = [] \/ PO (S hi) s)) (YG e) (seq_flow_loop n L v);
  wk_mapf : forall e L, tri (EA e) (YG e) (map_flow n L);
  wk_mapfl : forall e hi L m, pairs e hi m -> tri (fun s => EA e s /\ (m = [] \/ PO (S hi) s)) (YG e) (map_flow_loop n L m);
  wk_seq : forall e L map, tri (EA e) (YG e) (Loader.seq n L map);
  wk_seql : forall e hi L map v, ws_ e hi v -> tri (fun s => EA e s /\ (v = [] \/ EA hi s)) (YG e) (seq_loop n L map v);
  wk_map : forall e L map flow, tri (EA e) (YG e) (map_ n L map flow);
  wk_mapl : forall e hi L map flow m, pairs e hi m -> tri (fun s => EA e s /\ (m = [] \/ EA hi s)) (YG e) (map_loop n L map flow m)
}.

Lemma all_walk_all : forall n, all_walk n.
Proof.
  induction n as [|n IH]; [split; intros; apply tri_div|]. destruct IH as [I1 I2 I3 I4 I5 I6 I7 I8 I9 I10 I11].
  assert (KEY : forall e L (m : M node), (forall e, tri (EA e) (NG e) m) -> tri (EA e) (NG e)
      (forward ;;; k <- m ;; g <- is_ok (gap true) ;; (if (g : bool) then ind L else ret tt) ;;; ret k)).
  { intros e L m0 Hm. ks. eapply tri_bind; [apply Hm|intros k]. eapply tri_bind; [apply tri_node; kp|intros g]. eapply tri_bind; [apply tri_node; kp|intros ?]. apply tri_ret. auto. }
  assert (HEAD : forall e (map : bool) L, tri (EA e) (fun _ => EA e) (if (map : bool) then gap true ;;; ind_define L
          else g <- is_ok (gap true) ;; if (g : bool) then ind L else ret tt)).
  { intros e map L. apply tri_kept. destruct map; kp. }
  split.
  - intros e L map flow. cbn [scalar]. apply walk_node. intros k. eapply tri_bind; [apply tri_kept; kp|intros [x|]]; [now apply tri_leaf|].
    eapply tri_bind; [apply tri_kept; kp|intros [x|]]; [now apply tri_leaf|]. apply tri_or_else; [apply tri_or_else|]; auto.
  - intros e L flow. cbn [scalar_flow]. apply walk_node. intros k. auto.
  - intros e L flow. cbn [scalar_term]. do 3 (eapply tri_bind; [apply tri_kept; kp|intros [x|]]; [now apply tri_leaf|]).
    eapply tri_bind; [apply tri_kept; kp|intros [x|]].
    { intros s Hs He. unfold alias_value. destruct Hs as (A1 & A2 & A3 & A4 & A5 & A6 & A7) eqn:EH. rewrite A6. split; [exact Hs|]. split; [lia|]. split; [exact He|]. now apply wy_leaf. }
    do 2 (eapply tri_bind; [apply tri_kept; kp|intros [x|]]; [now apply tri_leaf|]).
    eapply tri_bind; [apply tri_kept; kp|intros [x|]]; [apply tri_leaf, plain_value_scalar|]. apply tri_or_else; [apply tri_or_else; auto|now apply tri_leaf].
  - intros e L. cbn [seq_flow]. ks. eapply tri_weaken; [apply (I5 e 0 L [])| |auto]; [split; constructor|]. intros s Hs He. split; [exact He|now left].
  - intros e hi L v Hv. cbn [seq_flow_loop].
    eapply tri_bind; [apply tri_open|]. intros ?. eapply tri_bind; [apply tri_open2|].
    intros ?. apply tri_at. intros s0 Hs0 [B1 B2]. set (k := p_eaten s0) in *. unfold EA in B1, B2. fold k in B1, B2.
    ks. match goal with |- tri _ _ (if ?b then _ else _) => destruct b end.
    + ks. apply tri_ret. intros s Hs He. split; [unfold EA in He; lia|]. apply items_yaml. unfold EA in He. destruct Hv as [V1 V2]. split; [|exact V2].
      destruct B2 as [->|B2]; [constructor|]. eapply Forall_impl; [|exact V1]. intros ? Ha. eapply wn_weaken; [exact Ha|lia|lia].
    + ks. eapply tri_bind; [apply tri_or_err, I1|intros x]. apply tri_at. intros s1 Hs1 [C1 C2]. set (k2 := p_eaten s1) in *.
      pose proof (items_next e hi k k2 v x Hv B2 C2 B1 C1) as Hv'.
      ks. eapply tri_bind; [apply tri_stay, tri_is_err, tri_sym'|intros [|]]; cbn beta iota.
      * eapply tri_weaken with (P := EA k2); [|intros ? ? [X _]; exact X|intros ? ? ? X; exact X]. ks. ks. ks. apply tri_ret. intros s Hs He. unfold EA in He. split; [lia|]. apply items_yaml. destruct Hv' as [V1 V2]. split; [|exact V2].
        eapply Forall_impl; [|exact V1]. intros ? Ha. eapply wn_weaken; [exact Ha|lia|lia].
      * eapply tri_weaken; [apply (I5 e k2 L (v ++ [x]) Hv')| |auto]. intros s Hs [X1 X2]. unfold EA in *. split; [lia|now right].
  - intros e L. cbn [map_flow]. ks. eapply tri_weaken; [apply (I7 e 0 L [])| |auto]; [constructor|]. intros s Hs He. split; [exact He|now left].
  - intros e hi L m Hm. cbn [map_flow_loop].
    eapply tri_bind; [apply tri_open|]. intros ?. eapply tri_bind; [apply tri_open2|].
    intros ?. apply tri_at. intros s0 Hs0 [B1 B2]. set (k := p_eaten s0) in *. unfold EA in B1, B2. fold k in B1, B2.
    assert (B3 : m = [] \/ hi <= k) by (destruct B2; [auto|right; lia]).
    ks. match goal with |- tri _ _ (if ?b then _ else _) => destruct b end.
    + ks. eapply tri_weaken; [apply (walk_build e hi m Hm)| |auto]. intros s Hs He. unfold EA in *. split; [lia|]. destruct B3; [auto|right; lia].
    + ks. ks. eapply tri_bind.
      { match goal with |- tri _ _ (if ?b then _ else _) => destruct b end; [apply (KEY k)|]; intros; apply tri_or_err; [apply I1|apply I2]. }
      intros key. apply tri_at. intros s1 Hs1 [C1 C2]. set (k1 := p_eaten s1) in *.
      eapply tri_bind; [apply tri_stay, tri_is_err, tri_sym'|intros [|]; cbn beta iota]; [apply tri_err|].
      eapply tri_weaken with (P := PO (S k1)); [|intros ? ? [_ X]; exact X|intros ? ? ? X; exact X].
      eapply tri_bind; [apply tri_bound_opt|intros ?]. eapply tri_bind; [apply tri_forward|intros ?].
      eapply tri_bind; [apply tri_or_err, I1|intros x]. apply tri_at. intros s2 Hs2 [D1 D2]. set (k2 := p_eaten s2) in *.
      pose proof (pairs_next e hi k k1 k2 m key x Hm B3 C2 D2 B1 C1 D1) as Hm'. cbv zeta.
      eapply tri_bind; [apply tri_stay, tri_is_err, tri_sym'|intros [|]; cbn beta iota].
      * eapply tri_weaken with (P := EA k2); [|intros ? ? [X _]; exact X|intros ? ? ? X; exact X]. ks. ks. ks.
        eapply tri_weaken; [apply (walk_build e k2 _ Hm')| |auto]. intros s Hs He. unfold EA in *. split; [lia|now right].
      * eapply tri_weaken; [apply (I7 e k2 L _ Hm')| |auto]. intros s Hs [X1 X2]. unfold EA in *. split; [lia|now right].
  - intros e L map. cbn [Loader.seq]. eapply tri_weaken; [apply (I9 e 0 L map [])| |auto]; [split; constructor|]. intros s Hs He. split; [exact He|now left].
  - intros e hi L map v Hv. cbn [seq_loop]. apply tri_at. intros s0 Hs0 [B1 B2]. set (k := p_eaten s0) in *. unfold EA in B1, B2. fold k in B1, B2.
    eapply tri_bind; [apply tri_forward'|intros ?].
    eapply (tri_bind _ (fun (more : bool) s => if more then EA k s /\ (v = [] \/ PO (S k) s) else EA k s)).
    + destruct v as [|x0 v0].
      * eapply tri_bind; [apply HEAD|intros ?]. ks. ks. apply tri_ret. auto.
      * ks. match goal with |- tri _ _ (if ?b then _ else _) => destruct b end; [apply tri_err|]. ks.
        match goal with |- tri _ _ (if ?b then _ else _) => destruct b end; [apply tri_ret; auto|].
        eapply tri_bind; [apply tri_stay, tri_two|intros [|]; cbn beta iota]; [apply tri_ret; intros s Hs [X _]; exact X|].
        eapply tri_weaken with (P := fun s => EA k s /\ (False \/ PO (S k) s)); [|intros s Hs [X1 X2]; auto|intros ? ? ? X; exact X].
        eapply tri_bind; [apply tri_open2|intros ?]. apply tri_ret. intros s Hs [X1 [[]|X2]]. split; [exact X1|]. right. now apply EA_PO.
    + intros [|].
      * eapply tri_bind; [apply tri_open2|intros ?]. apply tri_at. intros s1 Hs1 [C1 C2]. set (k1 := p_eaten s1) in *. unfold EA in C1, C2. fold k1 in C1, C2.
        eapply tri_bind; [apply tri_or_err, I1|intros x]. apply tri_at. intros s2 Hs2 [D1 D2]. set (k2 := p_eaten s2) in *.
        assert (Hv' : ws_ e k2 (v ++ [x])).
        { apply (items_next e hi k1 k2 v x Hv); [|exact D2|lia|exact D1]. destruct C2 as [C2|C2]; [auto|]. destruct B2 as [B2|B2]; [auto|right; lia]. }
        eapply tri_weaken; [apply (I9 e k2 L map _ Hv')| |auto]. intros s Hs He. unfold EA in *. split; [lia|now right].
      * ks. apply tri_ret. intros s Hs He. unfold EA in He. split; [lia|]. apply items_yaml. destruct Hv as [V1 V2]. split; [|exact V2].
        destruct B2 as [->|B2]; [constructor|]. eapply Forall_impl; [|exact V1]. intros ? Ha. eapply wn_weaken; [exact Ha|lia|lia].
  - intros e L map flow. cbn [map_]. eapply tri_weaken; [apply (I11 e 0 L map flow [])| |auto]; [constructor|]. intros s Hs He. split; [exact He|now left].
  - intros e hi L map flow m Hm. cbn [map_loop]. apply tri_at. intros s0 Hs0 [B1 B2]. set (k := p_eaten s0) in *. unfold EA in B1, B2. fold k in B1, B2.
    eapply tri_bind; [apply tri_forward'|intros ?].
    eapply (tri_bind _ (fun (ko : node + option yaml) s => match ko with
        | inl key => exists k1, k <= k1 /\ wn k k1 key /\ PO (S k1) s
        | inr (Some y) => YG k y s
        | inr None => EA k s end)).
    + assert (KE : forall c : bool, tri (EA k) (NG k) (if c then
                 forward ;;;
                 k <- or_else (scalar n (L + 1) true flow) (err (lit "map key")) ;;
                 g <- is_ok (gap true) ;;
                 (if (g : bool) then ind L else ret tt) ;;;
                 ret k
               else or_else (scalar_flow n (L + 1) flow) (err (lit "map key")))).
      { intros [|]; [apply (KEY k)|]; intros; apply tri_or_err; [apply I1|apply I2]. }
      destruct m as [|x0 m0].
      * eapply tri_bind; [apply HEAD|intros ?]. ks. ks.
        eapply (tri_bind _ (NG k)).
        { match goal with |- tri _ _ (if ?b then _ else _) => destruct b end; [apply (KEY k); intros; apply tri_or_err; apply I1|apply I2]. }
        intros key. apply tri_at. intros s1 Hs1 [C1 C2]. set (k1 := p_eaten s1) in *.
        eapply tri_bind; [apply tri_two|intros [|]; cbn beta iota].
        -- apply tri_ret. intros s Hs He. unfold EA in He. split; [lia|]. eapply wy_weaken; [apply wy_of_node, C2|lia|lia].
        -- apply tri_ret. intros s Hs He. exists k1. auto.
      * ks. match goal with |- tri _ _ (if ?b then _ else _) => destruct b end; [apply tri_err|]. ks.
        match goal with |- tri _ _ (if ?b then _ else _) => destruct b end; [apply tri_ret; auto|]. ks. ks.
        eapply tri_bind; [apply KE|]. intros key. apply tri_at. intros s1 Hs1 [C1 C2]. set (k1 := p_eaten s1) in *.
        eapply tri_bind; [apply tri_two|intros [|]; cbn beta iota]; [apply tri_err|].
        apply tri_ret. intros s Hs He. exists k1. auto.
    + intros [key|[y|]].
      * intros s Hs (k1 & C1 & C2 & C3). revert s Hs C3. change (tri (PO (S k1)) (YG e) (forward ;;; v <- or_else (scalar n (L + 1) true false) (err (lit "map value")) ;; map_loop n L map flow (m ++ [(key, v)]))).
        eapply tri_bind; [apply tri_forward|intros ?]. eapply tri_bind; [apply tri_or_err, I1|intros x]. apply tri_at. intros s2 Hs2 [D1 D2]. set (k2 := p_eaten s2) in *.
        pose proof (pairs_next e hi k k1 k2 m key x Hm B2 C2 D2 B1 C1 D1) as Hm'.
        eapply tri_weaken; [apply (I11 e k2 L map flow _ Hm')| |auto]. intros s Hs He. unfold EA in *. split; [lia|now right].
      * apply tri_ret. intros s Hs [X1 X2]. split; [lia|]. eapply wy_weaken; [exact X2|lia|lia].
      * ks. eapply tri_weaken; [apply (walk_build e hi m Hm)| |auto]. intros s Hs He. unfold EA in *. split; [lia|]. destruct B2; [auto|right; lia].
Qed.

(** *** Documents *)
Definition mark_at (p : nat) : Prop := exists r, skipn p d = lit "---" ++ r.
Definition marked (hi : nat) (marks : list nat) (v : list node) : Prop :=
  S (List.length marks) = List.length v /\ Forall (wn 0 hi) v /\
  forall i mk, nth_error marks i = Some mk -> mark_at mk /\
  forall j n, nth_error v j = Some n -> forall a, subnode a n -> (j <= i -> place a <= mk) /\ (i < j -> mk + 3 <= place a).
Lemma walk_doc e n : tri (PO e) (NG e) (doc n).
Proof.
  unfold doc. eapply tri_bind; [apply tri_bound_opt|intros ?]. eapply tri_bind; [apply tri_forward|intros ?].
  eapply tri_bind; [apply tri_kept; intros s Hs; split; [exact Hs|cbn; lia]|intros ?].
  eapply tri_bind; [apply wk_scalar, all_walk_all|intros r]. eapply tri_bind; [apply tri_node; kp|intros ?]. eapply tri_bind; [apply tri_node; kp|intros ?]. eapply tri_bind; [apply tri_node; kp|intros ?].
  eapply tri_bind; [apply tri_node; intros s Hs; split; [exact Hs|cbn; lia]|intros ?]. apply tri_ret. auto.
Qed.
Lemma tri_marker e : tri (EA e) (fun _ s => exists p, e <= p /\ mark_at p /\ PO (p + 3) s) (sym_seq (lit "---")).
Proof.
  intros s Hs He. pose proof (kept_seq d true hk (lit "---") s Hs) as K. rewrite (sym_seq_exec _ s (I_in _ _ _ _ _ _ _ Hs)) in *.
  destruct (starts_with (lit "---") (rem s)) eqn:E; [|exact K]. destruct K as [K1 K2]. split; [exact K1|]. split; [exact K2|].
  exists (p_pos s). split; [pose proof (Iv_le s Hs); unfold EA in He; lia|]. split; [|unfold PO; cbn; lia].
  apply starts_with_app in E as (r & E). exists r. unfold rem in E. destruct Hs as (<- & _). exact E.
Qed.
Lemma marked_next hi marks v p hi' x : marked hi marks v -> hi <= p -> mark_at p -> wn (p + 3) hi' x -> p + 3 <= hi' -> marked hi' (marks ++ [p]) (v ++ [x]).
Proof.
  intros (L & F & H) Hp Hm Hx Hh. split; [rewrite !app_length; cbn; lia|]. split.
  { apply Forall_app. split; [|constructor; [|constructor]; eapply wn_weaken; [exact Hx|lia|lia]]. eapply Forall_impl; [|exact F]. intros ? Ha. eapply wn_weaken; [exact Ha|lia|lia]. }
  intros i mk Hi. rewrite Forall_forall in F. assert (O : forall j n, nth_error v j = Some n -> forall a, subnode a n -> place a <= hi).
  { intros j nd Hj a Ha. apply nth_error_In in Hj. destruct (F nd Hj) as [_ X]. specialize (X a Ha). lia. }
  destruct (Nat.lt_ge_cases i (List.length marks)) as [Hl|Hl].
  - rewrite nth_error_app1 in Hi by lia. destruct (H i mk Hi) as [H1 H2]. split; [exact H1|]. intros j nd Hj a Ha.
    destruct (Nat.lt_ge_cases j (List.length v)) as [Hj'|Hj'].
    + rewrite nth_error_app1 in Hj by lia. exact (H2 j nd Hj a Ha).
    + rewrite nth_error_app2 in Hj by lia. destruct (j - List.length v) as [|[|?]]; cbn in Hj; try discriminate. injection Hj as <-.
      split; [lia|intros _]. destruct Hx as [_ Hx]. specialize (Hx a Ha).
      destruct v as [|n0 v]; [cbn in L; lia|]. destruct (H2 0 n0 eq_refl n0 (SubHere _)) as [X _]. specialize (X (Nat.le_0_l _)).
      (* the mark is before the last document *)
      assert (Y : mk + 3 <= hi).
      { destruct (nth_error (n0 :: v) (S i)) as [nd|] eqn:En; [|apply nth_error_None in En; lia]. destruct (H2 (S i) nd En nd (SubHere _)) as [_ Z]. specialize (Z (Nat.lt_succ_diag_r _)).
        pose proof (O (S i) nd En nd (SubHere _)). lia. }
      lia.
  - rewrite nth_error_app2 in Hi by lia. destruct (i - List.length marks) as [|[|?]] eqn:Ei; cbn in Hi; try discriminate. injection Hi as <-. split; [exact Hm|].
    intros j nd Hj a Ha. destruct (Nat.lt_ge_cases j (List.length v)) as [Hj'|Hj'].
    + rewrite nth_error_app1 in Hj by lia. split; [intros _; pose proof (O j nd Hj a Ha); lia|lia].
    + rewrite nth_error_app2 in Hj by lia. destruct (j - List.length v) as [|[|?]] eqn:Ej; cbn in Hj; try discriminate. injection Hj as <-. split; [lia|]. intros _. destruct Hx as [_ Hx]. specialize (Hx a Ha). lia.
Qed.
Lemma walk_docs n : forall k hi marks v, marked hi marks v -> tri (EA hi) (fun r _ => exists hi' marks', marked hi' marks' r) (docs_loop k n v).
Proof.
  induction k as [|k IH]; intros hi marks v Hv; [apply tri_div|]. cbn [docs_loop]. ks.
  eapply tri_bind; [apply tri_kept, kept_food|intros [|c r]]; [apply tri_ret; eauto|].
  eapply tri_bind; [apply tri_is_err, tri_marker|intros [|]; cbn beta iota]; [apply tri_err|].
  intros s Hs (p & P1 & P2 & P3). revert s Hs P3. change (tri (PO (p + 3)) (fun r _ => exists hi' marks', marked hi' marks' r) (d <- doc n ;; docs_loop k n (v ++ [d]))).
  eapply tri_bind; [apply walk_doc|intros x]. apply tri_at. intros s1 Hs1 [D1 D2]. eapply IH. eapply marked_next; eassumption.
Qed.
Lemma walk_parse n : tri any (fun r _ => exists hi marks, marked hi marks r) (parse_fuel n).
Proof.
  eapply tri_weaken with (P := EA 0); [|intros; unfold EA; lia|intros ? ? ? X; exact X]. unfold parse_fuel.
  eapply tri_bind; [apply tri_kept, kept_directives|intros ?]. ks. ks.
  eapply tri_weaken with (P := PO 0); [|intros; unfold PO; lia|intros ? ? ? X; exact X].
  eapply tri_bind; [apply walk_doc|intros x]. apply tri_at. intros s1 Hs1 [D1 D2]. apply (walk_docs n n (p_eaten s1) []).
  split; [reflexivity|]. split; [constructor; [exact D2|constructor]|]. intros [|i] mk; discriminate.
Qed.
End Walk.

(** ** The theorems *)
Lemma parse_cyclic_marked hk d v tabs : parse_cyclic hk d = ROk (v, tabs) -> exists hi marks, marked (utf8_encode d) hi marks v.
Proof.
  unfold parse_cyclic, load. set (s0 := new_st hk true (utf8_encode d)). intros E.
  assert (I0 : Iv (utf8_encode d) true hk (fun _ _ => True) [] Wild s0) by (apply (reached_Iv _ _ _ _ (ReachNew _ _ _))).
  pose proof (walk_parse (utf8_encode d) hk (fuel_doc s0) s0 I0 I) as W.
  destruct (parse_fuel (fuel_doc s0) s0) as [[r|x| |] t]; try discriminate. injection E as -> _. apply W.
Qed.
(** C53 *)
Definition separated (d : bytes) (v : list node) : Prop := exists marks : list nat,
  S (List.length marks) = List.length v /\
  forall i mk, nth_error marks i = Some mk ->
  (exists r, skipn mk d = lit "---" ++ r) /\
  forall j n, nth_error v j = Some n -> forall a, subnode a n ->
  (j <= i -> N.to_nat (n_pos a) <= mk) /\ (i < j -> mk + 3 <= N.to_nat (n_pos a)).
Theorem C53_documents_separated hk d v tabs : parse_cyclic hk d = ROk (v, tabs) -> separated (utf8_encode d) v.
Proof. intros H. destruct (parse_cyclic_marked hk d v tabs H) as (hi & marks & L & _ & M). exists marks. split; [exact L|exact M]. Qed.
Theorem C53_documents_separated_direct hk d v : ~ In (chr "*") d -> parse hk d = ROk v -> separated (utf8_encode d) v.
Proof.
  intros Hd H. rewrite (C50_modes_without_aliases hk d Hd) in H. destruct (parse_cyclic hk d) as [[r tabs]|x| |] eqn:E; try discriminate.
  injection H as ->. eapply C53_documents_separated, E.
Qed.
(** C52 *)
Theorem C52_positions_in_order hk d v tabs : parse_cyclic hk d = ROk (v, tabs) -> Forall in_order v /\ ForallOrdPairs before v.
Proof.
  intros H. destruct (parse_cyclic_marked hk d v tabs H) as (hi & marks & L & F & M). split; [eapply Forall_impl; [|exact F]; intros ? X; apply X|].
  assert (X : forall i j x y, nth_error v i = Some x -> nth_error v j = Some y -> i < j -> before x y).
  { intros i j x y Hi Hj Hij a b Ha Hb. destruct (nth_error marks i) as [mk|] eqn:Em.
    - destruct (M i mk Em) as [_ M']. destruct (M' i x Hi a Ha) as [P _]. destruct (M' j y Hj b Hb) as [_ Q]. specialize (P (Nat.le_refl _)). specialize (Q Hij). unfold place in *. lia.
    - apply nth_error_None in Em. assert (j < List.length v) by (apply nth_error_Some; congruence). lia. }
  clear -X. induction v as [|x v IH]; [constructor|]. constructor.
  - apply Forall_forall. intros y Hy. apply In_nth_error in Hy as (j & Hj). apply (X 0 (S j)); [reflexivity|exact Hj|lia].
  - apply IH. intros i j a b Hi Hj Hij. apply (X (S i) (S j)); auto. lia.
Qed.
Theorem C52_positions_in_order_direct hk d v : ~ In (chr "*") d -> parse hk d = ROk v -> Forall in_order v /\ ForallOrdPairs before v.
Proof.
  intros Hd H. rewrite (C50_modes_without_aliases hk d Hd) in H. destruct (parse_cyclic hk d) as [[r tabs]|x| |] eqn:E; try discriminate.
  injection H as ->. eapply C52_positions_in_order, E.
Qed.
(** with aliases the value of an anchor keeps the places where it was written *)
Theorem C52_alias_refuted : exists hk d v, parse hk d = ROk v /\ ~ Forall in_order v.
Proof.
  exists len_hash, mode_doc. eexists. split; [vm_compute; reflexivity|]. intros F. inversion F as [|x l H _]; subst. clear F.
  apply order_node in H as (_ & H & _). cbn [kids flat_map fst snd app] in H. specialize (H _ (or_intror (or_intror (or_intror (or_introl eq_refl))))).
  apply order_node in H as (H & _). specialize (H _ _ (or_introl eq_refl) (SubHere _)). vm_compute in H. now apply H.
Qed.
Definition order_doc : str := lit "# c
a: [b, {c: d}]
a:
  - *x
--- &x
e: f
---
g
".
Example C52_case : exists v tabs, parse_cyclic len_hash order_doc = ROk (v, tabs) /\ List.length v = 3 /\ map n_pos v = [0; 35; 44]%N.
Proof. eexists _, _. split; [vm_compute; reflexivity|]. split; reflexivity. Qed.
Example C53_case : exists v, parse len_hash (lit "a: b
---
- c
--- d
") = ROk v /\ List.length v = 3.
Proof. eexists. split; [vm_compute; reflexivity|]. reflexivity. Qed.
