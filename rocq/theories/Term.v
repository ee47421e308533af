(** * Term: a program logic for termination (used by PropTerm).

    [ts K P T G E m]: from a good state satisfying [P], [m] ends (it may panic,
    but does not run for ever); a result satisfies [G], a mismatch leaves [E], a
    fatal error happens only if [T]; the checkpoint does not move back, and an
    indentation level in [K] that has a positive column keeps one. *)
From Verif Require Export Frame BlockRun.
Open Scope nat_scope.

(** the content at level [j] is indented *)
Definition Z (j : nat) (s : st) : Prop := 0 < depth (p_indent s) j.
Lemma depth_mono tb i j : i <= j -> depth tb i <= depth tb j.
Proof. intros H. induction H as [|j H IH]; [lia|cbn [depth]; lia]. Qed.
Lemma Z_mono i j s : i <= j -> Z i s -> Z j s.
Proof. unfold Z. intros H. pose proof (depth_mono (p_indent s) i j H). lia. Qed.
Lemma depth_beyond tb k j : List.length tb <= S k -> k < j -> 2 <= depth tb j.
Proof.
  intros H Hj. destruct j as [|j]; [lia|]. cbn [depth]. unfold width. rewrite (nth_overflow tb) by lia. lia.
Qed.
Lemma norm_deep k tb j : k < j -> 0 < depth (ind_norm k tb) j.
Proof. intros H. pose proof (depth_beyond (ind_norm k tb) k j). rewrite ind_norm_length in *. lia. Qed.

Definition yes (_ : nat) : Prop := True.
Definition tany (_ : st) : Prop := True.

Section Term.
Variable d : bytes.

Definition J (s : st) : Prop :=
  p_doc s = d /\ p_eaten s <= p_pos s /\ p_pos s <= List.length d /\ p_indent s <> [].
Definition mv (K : nat -> Prop) (s s' : st) : Prop :=
  p_eaten s <= p_eaten s' /\ forall j, K j -> Z j s -> Z j s'.

Definition ts {A} (K : nat -> Prop) (P : st -> Prop) (T : Prop) (G : A -> st -> Prop) (E : st -> Prop) (m : M A) : Prop :=
  forall s, J s -> P s ->
  match m s with
  | (ROk a, s') => J s' /\ mv K s s' /\ G a s'
  | (RErr Mismatch, s') => J s' /\ mv K s s' /\ E s'
  | (RErr (Terminate _ _), _) => T
  | (RPanic, _) => True
  | (RDiv, _) => False
  end.

Lemma mv_refl K s : mv K s s. Proof. split; auto. Qed.
Lemma mv_trans K a b c : mv K a b -> mv K b c -> mv K a c.
Proof. intros [A1 A2] [B1 B2]. split; [lia|auto]. Qed.
Lemma mv_less (K K' : nat -> Prop) a b : (forall j, K' j -> K j) -> mv K a b -> mv K' a b.
Proof. intros H [A B]. split; auto. Qed.
Lemma mv_same K s s' : p_eaten s <= p_eaten s' -> p_indent s' = p_indent s -> mv K s s'.
Proof. intros H E. split; [exact H|]. intros j _. unfold Z. now rewrite E. Qed.
Lemma J_in s : J s -> in_doc s.
Proof. intros (E & _ & H & _). unfold in_doc. now rewrite E. Qed.
Lemma J_pos s p : J s -> p_eaten s <= p -> p <= List.length d -> J (set_pos p s).
Proof. unfold J. simpl. intuition. Qed.
Lemma J_rem s k : J s -> k <= List.length (rem s) -> p_pos s + k <= List.length d.
Proof. intros (E & _ & H & _) K. rewrite rem_length, E in K. lia. Qed.
Lemma J_adv s k : J s -> k <= List.length (rem s) -> J (set_pos (p_pos s + k) s).
Proof. intros H K. apply J_pos; [exact H|destruct H as (_ & ? & _); lia|now apply J_rem]. Qed.

(** ** Rules *)
Lemma ts_weaken {A} (K K' : nat -> Prop) (P P' : st -> Prop) (T T' : Prop) (G G' : A -> st -> Prop) (E E' : st -> Prop) m :
  ts K P T G E m -> (forall j, K' j -> K j) -> (forall s, J s -> P' s -> P s) -> (T -> T') ->
  (forall a s, J s -> G a s -> G' a s) -> (forall s, J s -> E s -> E' s) -> ts K' P' T' G' E' m.
Proof.
  intros H HK HP HT HG HE s Hs Ps. specialize (H s Hs (HP s Hs Ps)).
  destruct (m s) as [[a|[|nm msg]| |] s']; intuition eauto using mv_less.
Qed.
Lemma ts_pre {A} K (P P' : st -> Prop) T (G : A -> st -> Prop) E m :
  ts K P T G E m -> (forall s, J s -> P' s -> P s) -> ts K P' T G E m.
Proof. intros H HP. eapply ts_weaken; eauto. Qed.
Lemma ts_post {A} K P T (G G' : A -> st -> Prop) (E E' : st -> Prop) m :
  ts K P T G E m -> (forall a s, J s -> G a s -> G' a s) -> (forall s, J s -> E s -> E' s) -> ts K P T G' E' m.
Proof. intros H HG HE. eapply ts_weaken; eauto. Qed.
Lemma ts_bind {A B} K (P : st -> Prop) T (G1 : A -> st -> Prop) (G : B -> st -> Prop) E m f :
  ts K P T G1 E m -> (forall a, ts K (G1 a) T G E (f a)) -> ts K P T G E (bind m f).
Proof.
  intros Hm Hf s Hs Ps. specialize (Hm s Hs Ps). unfold bind.
  destruct (m s) as [[a|[|nm msg]| |] s']; try exact Hm.
  destruct Hm as (Hs' & HR & Ga). specialize (Hf a s' Hs' Ga).
  destruct (f a s') as [[b|[|nm msg]| |] s'']; try exact Hf.
  - destruct Hf as (? & ? & ?). eauto using mv_trans.
  - destruct Hf as (? & ? & ?). eauto using mv_trans.
Qed.
Lemma ts_ret {A} K (P : st -> Prop) T (G : A -> st -> Prop) E a :
  (forall s, J s -> P s -> G a s) -> ts K P T G E (ret a).
Proof. intros H s Hs Ps. simpl. auto using mv_refl. Qed.
Lemma ts_fail {A} K (P : st -> Prop) T (G : A -> st -> Prop) (E : st -> Prop) :
  (forall s, J s -> P s -> E s) -> ts K P T G E (fail Mismatch).
Proof. intros H s Hs Ps. simpl. auto using mv_refl. Qed.
Lemma ts_gets {A} K (P : st -> Prop) T (f : st -> A) E : ts K P T (fun a s => P s /\ a = f s) E (gets f).
Proof. intros s Hs Ps. simpl. auto using mv_refl. Qed.
Lemma ts_err {A} K (P : st -> Prop) (T : Prop) (G : A -> st -> Prop) E nm : T -> ts K P T G E (err nm).
Proof. intros HT s Hs Ps. unfold err. destruct (indicated_msg _ _); [exact HT|exact I]. Qed.
Lemma ts_panic {A} K (P : st -> Prop) T (G : A -> st -> Prop) E : ts K P T G E panic.
Proof. intros s Hs Ps. exact I. Qed.
Lemma ts_or_else {A} K (P : st -> Prop) T (G : A -> st -> Prop) E1 E m f :
  ts K P T G E1 m -> ts K E1 T G E f -> ts K P T G E (or_else m f).
Proof.
  intros Hm Hf s Hs Ps. specialize (Hm s Hs Ps). unfold or_else.
  destruct (m s) as [[a|[|nm msg]| |] s']; try exact Hm.
  destruct Hm as (Hs' & HR & HE). specialize (Hf s' Hs' HE).
  destruct (f s') as [[b|[|nm msg]| |] s'']; try exact Hf.
  - destruct Hf as (? & ? & ?). eauto using mv_trans.
  - destruct Hf as (? & ? & ?). eauto using mv_trans.
Qed.
Lemma ts_ok {A} K (P : st -> Prop) T (G : A -> st -> Prop) E E' m :
  ts K P False G E m -> ts K P T (fun o s => match o with Some a => G a s | None => E s end) E' (Parser.ok m).
Proof.
  intros Hm s Hs Ps. specialize (Hm s Hs Ps). unfold Parser.ok.
  destruct (m s) as [[a|[|nm msg]| |] s']; tauto.
Qed.
Lemma ts_is_ok {A} K (P : st -> Prop) T (G : A -> st -> Prop) (G' E E' : st -> Prop) m :
  ts K P False G E m -> (forall a s, J s -> G a s -> G' s) ->
  ts K P T (fun (b : bool) s => if b then G' s else E s) E' (is_ok m).
Proof.
  intros Hm HG s Hs Ps. specialize (Hm s Hs Ps). unfold is_ok.
  destruct (m s) as [[a|[|nm msg]| |] s']; intuition eauto.
Qed.
Lemma ts_is_err {A} K (P : st -> Prop) T (G : A -> st -> Prop) (G' E E' : st -> Prop) m :
  ts K P False G E m -> (forall a s, J s -> G a s -> G' s) ->
  ts K P T (fun (b : bool) s => if b then E s else G' s) E' (is_err m).
Proof.
  intros Hm HG. unfold is_err. eapply ts_bind; [exact (ts_is_ok K P T G G' E E' m Hm HG)|].
  intros []; apply ts_ret; auto.
Qed.
Lemma ts_unwrap {A} K (P : st -> Prop) T (G : A -> st -> Prop) E E' a0 m :
  ts K P False G E m -> (forall s, J s -> E s -> G a0 s) -> ts K P T G E' (unwrap_or a0 m).
Proof.
  intros Hm HE. unfold unwrap_or. eapply ts_bind; [eapply ts_ok; exact Hm|].
  intros [a|]; apply ts_ret; auto.
Qed.
Lemma ts_orM K (P : st -> Prop) T (G1 : bool -> st -> Prop) (G : bool -> st -> Prop) E a b :
  ts K P T G1 E a -> (forall s, J s -> G1 true s -> G true s) -> ts K (G1 false) T G E b ->
  ts K P T G E (orM a b).
Proof.
  intros Ha Ht Hb. unfold orM. eapply ts_bind; [exact Ha|]. intros []; [now apply ts_ret|exact Hb].
Qed.
Lemma ts_andM K (P : st -> Prop) T (G1 : bool -> st -> Prop) (G : bool -> st -> Prop) E a b :
  ts K P T G1 E a -> (forall s, J s -> G1 false s -> G false s) -> ts K (G1 true) T G E b ->
  ts K P T G E (andM a b).
Proof.
  intros Ha Ht Hb. unfold andM. eapply ts_bind; [exact Ha|]. intros []; [exact Hb|now apply ts_ret].
Qed.
Lemma ts_if {A} K (P : st -> Prop) T (G : A -> st -> Prop) E (b : bool) m1 m2 :
  ts K P T G E m1 -> ts K P T G E m2 -> ts K P T G E (if b then m1 else m2).
Proof. destruct b; auto. Qed.
(** the checkpoint is saved, moved to the cursor and restored *)
Lemma ts_context {A} K (P P' : st -> Prop) T (G G' : A -> st -> Prop) (E E' : st -> Prop) m :
  ts K P' T G' E' m ->
  (forall s, J s -> P s -> P' (set_eaten (p_pos s) s)) ->
  (forall a s s', J s -> P s -> mv K (set_eaten (p_pos s) s) s' -> J s' -> G' a s' -> G a (set_eaten (p_eaten s) s')) ->
  (forall s s', J s -> P s -> mv K (set_eaten (p_pos s) s) s' -> J s' -> E' s' -> E (set_eaten (p_eaten s) s')) ->
  ts K P T G E (context m).
Proof.
  intros Hm HP HG HE s Hs Ps. unfold context.
  assert (J1 : J (set_eaten (p_pos s) s)) by (unfold J in *; simpl; intuition).
  specialize (Hm _ J1 (HP s Hs Ps)).
  assert (X : forall s', J s' -> mv K (set_eaten (p_pos s) s) s' -> J (set_eaten (p_eaten s) s') /\ mv K s (set_eaten (p_eaten s) s')).
  { intros s' Js [A1 A2]. cbn in A1. split; [unfold J in *; simpl; intuition lia|]. split; [cbn; lia|]. intros j Kj. apply (A2 j Kj). }
  destruct (m (set_eaten (p_pos s) s)) as [[a|[|nm msg]| |] s']; try exact Hm.
  - destruct Hm as (Js & HR & HGa). destruct (X s' Js HR). eauto 6.
  - destruct Hm as (Js & HR & HGa). destruct (X s' Js HR). eauto 6.
Qed.
(** A predicate kept by every such move goes through a sub-parser that keeps all levels. *)
Definition steady (Q : st -> Prop) : Prop := forall s s', mv yes s s' -> Q s -> Q s'.
Lemma ts_steady {A} K (P Q : st -> Prop) T (G : A -> st -> Prop) E m :
  ts yes P T G E m -> steady Q ->
  ts K (fun s => P s /\ Q s) T (fun a s => G a s /\ Q s) (fun s => E s /\ Q s) m.
Proof.
  intros Hm HQ s Hs [Ps Qs]. specialize (Hm s Hs Ps).
  destruct (m s) as [[a|[|nm msg]| |] s']; try exact Hm.
  - destruct Hm as (? & M & ?). split; [assumption|]. split; [eapply mv_less; [|exact M]; intros; exact I|]. eauto.
  - destruct Hm as (? & M & ?). split; [assumption|]. split; [eapply mv_less; [|exact M]; intros; exact I|]. eauto.
Qed.
Lemma steady_Z j : steady (Z j). Proof. intros s s' [_ H]. apply H. exact I. Qed.
Lemma steady_from p : steady (fun s => p <= p_eaten s). Proof. intros s s' [H _]. lia. Qed.
Lemma steady_and Q1 Q2 : steady Q1 -> steady Q2 -> steady (fun s => Q1 s /\ Q2 s).
Proof. intros H1 H2 s s' M [A B]. split; eauto. Qed.
Lemma steady_any : steady tany. Proof. intros s s' _ _. exact I. Qed.

(** ** The small parsers keep every level *)
Definition tb {A} (m : M A) : Prop := ts yes tany False (fun _ => tany) tany m.
Lemma tb_use {A} K (Q : st -> Prop) T m : tb m -> steady Q -> ts K Q T (fun _ : A => Q) Q m.
Proof.
  intros Hm HQ. eapply ts_weaken; [apply (ts_steady K tany Q False _ _ m Hm HQ)|..]; auto.
  - intros s _ H. split; [exact I|exact H].
  - tauto.
  - intros a s _ [_ H]. exact H.
  - intros s _ [_ H]. exact H.
Qed.
Lemma tb_ok {A} K (Q E' : st -> Prop) T (m : M A) : tb m -> steady Q -> ts K Q T (fun _ => Q) E' (Parser.ok m).
Proof.
  intros Hm HQ. eapply ts_post; [eapply ts_ok; apply (tb_use K Q False m Hm HQ)|..].
  - intros [a|] s _ H; exact H.
  - intros s _ H. exact H.
Qed.
Lemma tb_is_ok {A} K (Q E' : st -> Prop) T (m : M A) : tb m -> steady Q -> ts K Q T (fun _ => Q) E' (is_ok m).
Proof.
  intros Hm HQ. eapply ts_post; [eapply ts_is_ok with (G' := Q); [apply (tb_use K Q False m Hm HQ)|auto]|..].
  - intros [] s _ H; exact H.
  - intros s _ H. exact H.
Qed.
Lemma tb_is_err {A} K (Q E' : st -> Prop) T (m : M A) : tb m -> steady Q -> ts K Q T (fun _ => Q) E' (is_err m).
Proof.
  intros Hm HQ. eapply ts_post; [eapply ts_is_err with (G' := Q); [apply (tb_use K Q False m Hm HQ)|auto]|..].
  - intros [] s _ H; exact H.
  - intros s _ H. exact H.
Qed.
Lemma tb_unwrap {A} K (Q E' : st -> Prop) T a (m : M A) : tb m -> steady Q -> ts K Q T (fun _ => Q) E' (unwrap_or a m).
Proof. intros Hm HQ. eapply ts_unwrap; [apply (tb_use K Q False m Hm HQ)|auto]. Qed.
Lemma tb_context {A} (m : M A) : tb m -> tb (context m).
Proof. intros Hm. eapply ts_context; [exact Hm|..]; intros; exact I. Qed.
Lemma tb_bind {A B} (m : M A) (f : A -> M B) : tb m -> (forall a, tb (f a)) -> tb (bind m f).
Proof. intros Hm Hf. eapply ts_bind; [exact Hm|]. exact Hf. Qed.
Lemma tb_ret {A} (a : A) : tb (ret a). Proof. apply ts_ret. intros; exact I. Qed.
Lemma tb_gb {A} (m : M A) : gb_at m -> tb m.
Proof.
  intros Hm s Hs _. pose proof Hs as (Ed & H1 & H2 & _).
  destruct (Hm s H1 ltac:(now rewrite Ed)) as [(a & p & -> & Hp & Hl)| ->].
  - rewrite Ed in Hl. split; [now apply J_pos|]. split; [now apply mv_same|exact I].
  - split; [apply J_pos; [exact Hs|lia|lia]|]. split; [now apply mv_same|exact I].
Qed.
Lemma tb_take f o : tb (take_while f o). Proof. apply tb_gb, at_take. Qed.
Lemma tb_sym c : tb (sym c). Proof. apply tb_take. Qed.
Lemma tb_sym_seq cs : tb (sym_seq cs). 
Proof. apply tb_gb. induction cs as [|c cs IH]; [apply at_ret|]. apply at_bind; [apply at_take|auto]. Qed.
Lemma tb_bound : tb bound. Proof. apply tb_gb, at_bound_m. Qed.
Lemma tb_text : tb text.
Proof. intros s Hs _. rewrite (text_exec s (J_in s Hs)). split; [exact Hs|]. split; [apply mv_refl|exact I]. Qed.
Lemma tb_food : tb food.
Proof. intros s Hs _. rewrite (food_exec s (J_in s Hs)). split; [exact Hs|]. split; [apply mv_refl|exact I]. Qed.
Lemma tb_nl : tb nl.
Proof.
  intros s Hs _. rewrite (nl_exec s (J_in s Hs)). destruct (Nat.eqb _ 0).
  - split; [exact Hs|]. split; [apply mv_refl|exact I].
  - split; [apply J_adv; [exact Hs|apply nl_len_le]|]. split; [now apply mv_same|exact I].
Qed.
Lemma tb_gap c : tb (gap c).
Proof.
  intros s Hs _. rewrite (gap_exec c s (J_in s Hs)). destruct (gap_f c (rem s)) as [[t k]|] eqn:G.
  - apply gap_f_le in G as (G & _). split; [now apply J_adv|]. split; [now apply mv_same|exact I].
  - split; [apply J_adv; [exact Hs|apply gap_head_le]|]. split; [now apply mv_same|exact I].
Qed.
Lemma tb_forward : tb forward.
Proof.
  intros s Hs _. simpl. split; [unfold J in *; simpl; intuition|]. split; [apply mv_same; [|reflexivity]; apply Hs|exact I].
Qed.
Lemma tb_backward : tb backward.
Proof.
  intros s Hs _. simpl. split; [apply J_pos; [exact Hs|lia|destruct Hs as (_ & ? & ? & _); lia]|]. split; [now apply mv_same|exact I].
Qed.
(** [ind] keeps every level and gives the deeper ones a positive column *)
Lemma ts_ind K (Q : st -> Prop) T k : steady Q ->
  ts K Q T (fun _ s => Q s /\ Z (k + 1) s) (fun s => Q s /\ Z (k + 1) s) (ind k).
Proof.
  intros HQ s Hs Qs. rewrite (ind_exec k s (J_in s Hs)). set (s1 := set_indent (ind_table k s) s).
  assert (J1 : J s1) by (unfold J, s1 in *; simpl; intuition; eapply InvBase.ind_norm_ne; eassumption).
  assert (M1 : mv yes s s1).
  { split; [cbn; lia|]. intros j _ H. unfold Z, s1, ind_table. cbn. destruct (le_lt_dec j k); [now rewrite depth_norm|now apply norm_deep]. }
  assert (Z1 : Z (k + 1) s1) by (unfold Z, s1, ind_table; cbn; apply norm_deep; lia).
  destruct (Nat.leb_spec (ind_width k s) (sp_len (rem s))) as [W|W].
  - assert (KL : sp_len (rem s) <= List.length (rem s)) by apply span_le.
    assert (J2 : J (set_pos (p_pos s + ind_width k s) s1)) by (apply J_pos; [exact J1|cbn; destruct Hs as (_ & ? & _); lia|now apply J_rem; [|lia]]).
    assert (M2 : mv yes s (set_pos (p_pos s + ind_width k s) s1)) by (eapply mv_trans; [exact M1|now apply mv_same]).
    split; [exact J2|]. split; [eapply mv_less; [|exact M2]; intros; exact I|]. split; [eapply HQ; eassumption|exact Z1].
  - assert (J2 : J (set_pos (p_eaten s) s1)) by (apply J_pos; [exact J1|cbn; lia|destruct Hs as (_ & ? & ? & _); lia]).
    assert (M2 : mv yes s (set_pos (p_eaten s) s1)) by (eapply mv_trans; [exact M1|now apply mv_same]).
    split; [exact J2|]. split; [eapply mv_less; [|exact M2]; intros; exact I|]. split; [eapply HQ; eassumption|exact Z1].
Qed.
Lemma tb_ind k : tb (ind k).
Proof. eapply ts_post; [apply (ts_ind yes tany False k steady_any)|..]; intros; exact I. Qed.
End Term.
