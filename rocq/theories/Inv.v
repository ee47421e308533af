(** * Inv: one invariant for all sub-parsers, by induction on the calls.

    [safe P T G E m]: from a good state satisfying [P], [m] ends in a good state;
    a result satisfies [G], a mismatch leaves [E], a fatal error has a name in
    [T] and a message made from a position of the document, a panic happens only
    if [PN].  The invariant is parametrised by what is to be shown of every node
    ([L]), so that C01, C18, C20-C22, C24 and C26 are instances. *)
From Coq Require Export Sorting.Sorted.
From Verif Require Export PropBack.
Open Scope nat_scope.

(** ** Nodes below a node *)
Inductive subnode (x : node) : node -> Prop :=
| SubHere : subnode x x
| SubSeq p t l y : In y l -> subnode x y -> subnode x (Node p t (YSeq l))
| SubKey p t m k v : In (k, v) m -> subnode x k -> subnode x (Node p t (YMap m))
| SubVal p t m k v : In (k, v) m -> subnode x v -> subnode x (Node p t (YMap m)).

Definition noT : str -> Prop := fun _ => False.
Definition any : st -> Prop := fun _ => True.
Definition AT (s : st) : Prop := p_eaten s = p_pos s.

(** What is recorded for an anchor in the current document. *)
Definition recorded (s : st) (a : str) : option node :=
  match nth_error (l_anchors s) (l_doc_ind s) with Some m => bt_get a m | None => None end.

Lemma nth_error_snoc {A} (l : list A) x : nth_error (l ++ [x]) (List.length l) = Some x.
Proof. induction l; simpl; auto. Qed.
Lemma upd_nth_snoc {A} (l : list A) x f : upd_nth (l ++ [x]) (List.length l) f = l ++ [f x].
Proof. induction l as [|y l IH]; simpl; [reflexivity|now rewrite IH]. Qed.

(** What is known of the anchor tables: none for the current document yet, one,
    with the tag handles known to have a prefix,
    or nothing at all (for a parser on which sub-parsers have been called in any
    order). *)
Inductive mode := Closed (K : str -> Prop) | Opened (K : str -> Prop) | Wild.
(** the tag handles that are known to have a prefix *)
Definition known (o : mode) (k : str) : Prop := match o with Closed K | Opened K => K k | Wild => False end.
Definition tags_known (o : mode) (s : st) : Prop := forall k, known o k -> bt_get k (p_tag s) <> None.
(** what may be looked up in the table of tag handles: [!], [!!] and the names written [!name!] *)
Definition handle_in (d : bytes) (k : str) : Prop :=
  In 33%N d /\ (k = lit "!" \/ k = lit "!!" \/ ((exists x t, k = x :: t /\ is_alnum x = true /\ Forall id_char t) /\ exists a b, d = a ++ 33%N :: k ++ 33%N :: b)).

(** The order of names: letter by letter, a prefix first. *)
Inductive name_lt : str -> str -> Prop :=
| LtEnd c b : name_lt [] (c :: b)
| LtHere x y a b : (x < y)%N -> name_lt (x :: a) (y :: b)
| LtNext x a b : name_lt a b -> name_lt (x :: a) (x :: b).
Definition in_name_order {V} (m : list (str * V)) : Prop := StronglySorted name_lt (List.map fst m).

Section Safe.
Variable d : bytes.
Variable cyc : bool.
Variable hk : hasher.
Variable L : N -> yaml -> Prop.
Variable PN : Prop.

Definition here (p : N) : Prop := (p <= N.of_nat (List.length d))%N.
Definition deep (n : node) : Prop := forall x, subnode x n -> L (n_pos x) (n_yaml x).
Definition goody (y : yaml) : Prop := forall p t, here p -> deep (Node p t y).
Definition good_pairs (m : list (node * node)) : Prop :=
  Forall (fun kv => deep (fst kv) /\ deep (snd kv)) m.
Definition good_tab (m : anchors_t) : Prop := Forall (fun an => deep (snd an)) m /\ in_name_order m.

(** The tables of the documents before, and whether the current one has begun. *)
Variable bt : list anchors_t.
Variable open : mode.

Definition Iv (s : st) : Prop :=
  p_doc s = d /\ p_eaten s <= p_pos s /\ p_pos s <= List.length d /\ p_indent s <> []
  /\ (p_consumed s = 0%N /\ tags_known open s) /\ l_cyclic s = cyc /\ p_hash s = hk
  /\ match open with
     | Closed _ => l_doc_ind s = List.length bt /\ l_anchors s = bt
     | Opened _ => l_doc_ind s = List.length bt /\ exists cur, l_anchors s = bt ++ [cur] /\ good_tab cur
     | Wild => True
     end.

Definition RT (s s' : st) : Prop := p_eaten s <= p_eaten s'.
Definition R (s s' : st) : Prop :=
  p_eaten s <= p_eaten s' /\ forall a n, recorded s a = Some n -> recorded s' a = Some n.

Definition msg_ok (msg : str) : Prop := exists p, p <= List.length d /\ indicated_msg d (N.of_nat p) = Some msg.

Definition safe {A} (P : st -> Prop) (T : str -> Prop) (G : A -> st -> Prop) (E : st -> Prop)
    (m : M A) : Prop :=
  forall s, Iv s -> P s ->
  match m s with
  | (ROk a, s') => Iv s' /\ R s s' /\ G a s'
  | (RErr Mismatch, s') => Iv s' /\ R s s' /\ E s'
  | (RErr (Terminate nm msg), s') => Iv s' /\ RT s s' /\ T nm /\ msg_ok msg
  | (RPanic, _) => PN
  | (RDiv, _) => True
  end.

Lemma R_refl s : R s s.
Proof. split; auto. Qed.
Lemma R_trans s1 s2 s3 : R s1 s2 -> R s2 s3 -> R s1 s3.
Proof. intros [A B] [A' B']. split; [lia|auto]. Qed.
Lemma R_RT s1 s2 s3 : R s1 s2 -> RT s2 s3 -> RT s1 s3.
Proof. intros [A B] A'. unfold RT in *. lia. Qed.

Lemma I_in s : Iv s -> in_doc s.
Proof. intros (E & _ & H & _). unfold in_doc. now rewrite E. Qed.
Lemma I_pos s p : Iv s -> p_eaten s <= p -> p <= List.length d -> Iv (set_pos p s).
Proof. unfold Iv. simpl. intuition. Qed.
Lemma R_pos s p : R s (set_pos p s).
Proof. split; [simpl; lia|auto]. Qed.
Lemma I_fwd s : Iv s -> Iv (set_eaten (p_pos s) s).
Proof. unfold Iv. simpl. intuition. Qed.
Lemma R_fwd s : Iv s -> R s (set_eaten (p_pos s) s).
Proof. intros H. split; [simpl; apply H|auto]. Qed.
Lemma I_ctx s s' : Iv s -> Iv s' -> RT (set_eaten (p_pos s) s) s' -> Iv (set_eaten (p_eaten s) s').
Proof. unfold Iv, RT. simpl. intuition lia. Qed.
Lemma R_ctx s s' : R (set_eaten (p_pos s) s) s' -> R s (set_eaten (p_eaten s) s').
Proof. intros [A B]. split; [simpl; lia|exact B]. Qed.
Lemma I_ind s t : Iv s -> t <> [] -> Iv (set_indent t s).
Proof. unfold Iv. simpl. intuition. Qed.
Lemma R_ind s t : R s (set_indent t s).
Proof. split; [simpl; lia|auto]. Qed.

(** ** Rules *)
Lemma safe_weaken {A} (P P' : st -> Prop) (T T' : str -> Prop) (G G' : A -> st -> Prop) (E E' : st -> Prop) m :
  safe P T G E m -> (forall s, Iv s -> P' s -> P s) -> (forall n, T n -> T' n) ->
  (forall a s, Iv s -> G a s -> G' a s) -> (forall s, Iv s -> E s -> E' s) -> safe P' T' G' E' m.
Proof.
  intros H HP HT HG HE s Hs Ps. specialize (H s Hs (HP s Hs Ps)).
  destruct (m s) as [[a|[|nm msg]| |] s']; intuition.
Qed.
Lemma safe_bind {A B} (P : st -> Prop) T (G1 : A -> st -> Prop) (G : B -> st -> Prop) E m f :
  safe P T G1 E m -> (forall a, safe (G1 a) T G E (f a)) -> safe P T G E (bind m f).
Proof.
  intros Hm Hf s Hs Ps. specialize (Hm s Hs Ps). unfold bind.
  destruct (m s) as [[a|[|nm msg]| |] s']; try exact Hm.
  destruct Hm as (Hs' & HR & Ga). specialize (Hf a s' Hs' Ga).
  destruct (f a s') as [[b|[|nm msg]| |] s'']; try exact Hf.
  - destruct Hf as (? & ? & ?). eauto using R_trans.
  - destruct Hf as (? & ? & ?). eauto using R_trans.
  - destruct Hf as (? & ? & ?). eauto using R_RT.
Qed.
Lemma safe_ret {A} (P : st -> Prop) T (G : A -> st -> Prop) E a :
  (forall s, Iv s -> P s -> G a s) -> safe P T G E (ret a).
Proof. intros H s Hs Ps. simpl. auto using R_refl. Qed.
Lemma safe_fail {A} (P : st -> Prop) T (G : A -> st -> Prop) (E : st -> Prop) :
  (forall s, Iv s -> P s -> E s) -> safe P T G E (fail Mismatch).
Proof. intros H s Hs Ps. simpl. auto using R_refl. Qed.
Lemma safe_div {A} (P : st -> Prop) T (G : A -> st -> Prop) E : safe P T G E diverge.
Proof. intros s Hs Ps. exact Logic.I. Qed.
Lemma safe_if {A} (P : st -> Prop) T (G : A -> st -> Prop) E (b : bool) m1 m2 :
  (b = true -> safe P T G E m1) -> (b = false -> safe P T G E m2) ->
  safe P T G E (if b then m1 else m2).
Proof. intros H1 H2. destruct b; auto. Qed.
Lemma safe_gets {A} (P : st -> Prop) T (f : st -> A) E :
  safe P T (fun a s => P s /\ a = f s) E (gets f).
Proof. intros s Hs Ps. simpl. auto using R_refl. Qed.
Lemma safe_forward (P : st -> Prop) T E : safe P T (fun _ => AT) E forward.
Proof. intros s Hs Ps. simpl. split; [now apply I_fwd|]. split; [now apply R_fwd|reflexivity]. Qed.
Lemma safe_backward (P : st -> Prop) T E : safe P T (fun _ => AT) E backward.
Proof.
  intros s Hs Ps. simpl. split; [apply I_pos; [exact Hs|lia|]|split; [apply R_pos|reflexivity]].
  destruct Hs as (_ & ? & ? & _). lia.
Qed.
Lemma safe_ok {A} (P : st -> Prop) T (G : A -> st -> Prop) E E' m :
  safe P noT G E m ->
  safe P T (fun o s => match o with Some a => G a s | None => E s end) E' (ok m).
Proof.
  intros Hm s Hs Ps. specialize (Hm s Hs Ps). unfold ok, noT in *.
  destruct (m s) as [[a|[|nm msg]| |] s']; intuition.
Qed.
Lemma safe_is_ok {A} (P : st -> Prop) T (G : A -> st -> Prop) (G' E E' : st -> Prop) m :
  safe P noT G E m -> (forall a s, Iv s -> G a s -> G' s) ->
  safe P T (fun (b : bool) s => if b then G' s else E s) E' (is_ok m).
Proof.
  intros Hm HG s Hs Ps. specialize (Hm s Hs Ps). unfold is_ok, noT in *.
  destruct (m s) as [[a|[|nm msg]| |] s']; intuition eauto.
Qed.
Lemma safe_is_err {A} (P : st -> Prop) T (G : A -> st -> Prop) (G' E E' : st -> Prop) m :
  safe P noT G E m -> (forall a s, Iv s -> G a s -> G' s) ->
  safe P T (fun (b : bool) s => if b then E s else G' s) E' (is_err m).
Proof.
  intros Hm HG. unfold is_err. eapply safe_bind; [exact (safe_is_ok P T G G' E E' m Hm HG)|].
  intros []; apply safe_ret; auto.
Qed.
Lemma safe_unwrap {A} (P : st -> Prop) T (G : A -> st -> Prop) E E' a0 m :
  safe P noT G E m -> (forall s, Iv s -> E s -> G a0 s) -> safe P T G E' (unwrap_or a0 m).
Proof.
  intros Hm HE. unfold unwrap_or. eapply safe_bind; [eapply safe_ok; exact Hm|].
  intros [a|]; apply safe_ret; auto.
Qed.
Lemma safe_or_else {A} (P : st -> Prop) T (G : A -> st -> Prop) E1 E m f :
  safe P T G E1 m -> safe E1 T G E f -> safe P T G E (or_else m f).
Proof.
  intros Hm Hf s Hs Ps. specialize (Hm s Hs Ps). unfold or_else.
  destruct (m s) as [[a|[|nm msg]| |] s']; try exact Hm.
  destruct Hm as (Hs' & HR & HE). specialize (Hf s' Hs' HE).
  destruct (f s') as [[b|[|nm msg]| |] s'']; try exact Hf.
  - destruct Hf as (? & ? & ?). eauto using R_trans.
  - destruct Hf as (? & ? & ?). eauto using R_trans.
  - destruct Hf as (? & ? & ?). eauto using R_RT.
Qed.
Lemma safe_context {A} (P P' : st -> Prop) T (G G' : A -> st -> Prop) (E E' : st -> Prop) m :
  safe P' T G' E' m ->
  (forall s, Iv s -> P s -> P' (set_eaten (p_pos s) s)) ->
  (forall a s s', Iv s -> P s -> G' a s' -> G a (set_eaten (p_eaten s) s')) ->
  (forall s s', Iv s -> P s -> E' s' -> E (set_eaten (p_eaten s) s')) ->
  safe P T G E (context m).
Proof.
  intros Hm HP HG HE s Hs Ps. unfold context.
  specialize (Hm _ (I_fwd s Hs) (HP s Hs Ps)).
  destruct (m (set_eaten (p_pos s) s)) as [[a|[|nm msg]| |] s']; try exact Hm.
  - destruct Hm as (Hs' & HR & HGa). split; [apply I_ctx; [assumption..|apply HR]|].
    split; [now apply R_ctx|]. eauto.
  - destruct Hm as (Hs' & HR & HEa). split; [apply I_ctx; [assumption..|apply HR]|].
    split; [now apply R_ctx|]. eauto.
  - destruct Hm as (Hs' & HR & ? & ?). split; [now apply I_ctx|].
    split; [|auto]. unfold RT. simpl. lia.
Qed.
(** the usual case: nothing remembered *)
Lemma safe_context0 {A} (P : st -> Prop) T (V : A -> Prop) (E' : st -> Prop) m :
  safe AT T (fun a _ => V a) E' m -> safe P T (fun a _ => V a) any (context m).
Proof.
  intros Hm. eapply safe_context; [exact Hm|intros; reflexivity|intros; assumption|intros; exact Logic.I].
Qed.
Lemma safe_gb {A} (P : st -> Prop) T (m : M A) : gb_at m -> safe P T (fun _ => any) AT m.
Proof.
  intros Hm s Hs Ps. pose proof Hs as (Ed & H1 & H2 & _). 
  destruct (Hm s H1 ltac:(now rewrite Ed)) as [(a & p & -> & Hp & Hl)| ->].
  - rewrite Ed in Hl. split; [now apply I_pos|]. split; [apply R_pos|exact Logic.I].
  - split; [apply I_pos; [exact Hs|lia|lia]|]. split; [apply R_pos|reflexivity].
Qed.
Lemma safe_err {A} (P : st -> Prop) (T : str -> Prop) (G : A -> st -> Prop) E nm : T nm -> safe P T G E (err nm).
Proof.
  intros HT s Hs Ps. unfold err. pose proof Hs as (Ed & H1 & H2 & _ & (Hc & _) & _).
  unfold indicator_of. rewrite Ed, Hc, N.add_0_l.
  destruct (C23_panics_exactly_beyond d (p_pos s)) as [K1 K2].
  destruct (indicated_msg d (N.of_nat (p_pos s))) as [msg|] eqn:EM.
  - split; [exact Hs|]. split; [unfold RT; lia|]. split; [exact HT|]. exists (p_pos s). auto.
  - exfalso. specialize (K1 eq_refl). lia.
Qed.
Lemma safe_orM (P : st -> Prop) T (G1 : bool -> st -> Prop) (G : bool -> st -> Prop) E a b :
  safe P T G1 E a -> (forall s, Iv s -> G1 true s -> G true s) -> safe (G1 false) T G E b ->
  safe P T G E (orM a b).
Proof.
  intros Ha Ht Hb. unfold orM. eapply safe_bind; [exact Ha|]. intros []; [now apply safe_ret|exact Hb].
Qed.
Lemma safe_andM (P : st -> Prop) T (G1 : bool -> st -> Prop) (G : bool -> st -> Prop) E a b :
  safe P T G1 E a -> (forall s, Iv s -> G1 false s -> G false s) -> safe (G1 true) T G E b ->
  safe P T G E (andM a b).
Proof.
  intros Ha Ht Hb. unfold andM. eapply safe_bind; [exact Ha|]. intros []; [exact Hb|now apply safe_ret].
Qed.
End Safe.
