(** * Fuel: the fuel of the recursive sub-parsers does not matter (used by PropFuel).

    [rt P G E m m']: from a good state satisfying [P], [m] and [m'] do the same; a
    result satisfies [G], an error leaves [E]; the checkpoint does not move back. *)
From Verif Require Export PropAnchor.
Open Scope nat_scope.

Section Fuel.
Variable d : bytes.
Variable cyc : bool.
Variable hk : hasher.
Local Notation len := (List.length d).
Local Notation LT := (fun (_ : N) (_ : yaml) => True).
Definition Iw : st -> Prop := Iv d cyc hk LT [] Wild.

Definition rt {A} (P : st -> Prop) (G : A -> st -> Prop) (E : st -> Prop) (m m' : M A) : Prop :=
  forall s, Iw s -> P s ->
  m s = m' s /\
  match m s with
  | (ROk a, s') => Iw s' /\ p_eaten s <= p_eaten s' /\ G a s'
  | (RErr _, s') => Iw s' /\ p_eaten s <= p_eaten s' /\ E s'
  | _ => True
  end.

Lemma Iw_in s : Iw s -> in_doc s.
Proof. apply I_in. Qed.

Lemma rt_weaken {A} (P P' : st -> Prop) (G G' : A -> st -> Prop) (E E' : st -> Prop) m m' :
  rt P G E m m' -> (forall s, Iw s -> P' s -> P s) -> (forall a s, Iw s -> G a s -> G' a s) ->
  (forall s, Iw s -> E s -> E' s) -> rt P' G' E' m m'.
Proof.
  intros H HP HG HE s Hs Ps. destruct (H s Hs (HP s Hs Ps)) as [X Y]. split; [exact X|].
  destruct (m s) as [[a|e| |] s']; intuition auto.
Qed.
Lemma rt_pre {A} (P P' : st -> Prop) (G : A -> st -> Prop) E m m' :
  rt P G E m m' -> (forall s, Iw s -> P' s -> P s) -> rt P' G E m m'.
Proof. intros H HP. eapply rt_weaken; eauto. Qed.
Lemma rt_post {A} (P : st -> Prop) (G G' : A -> st -> Prop) (E E' : st -> Prop) m m' :
  rt P G E m m' -> (forall a s, Iw s -> G a s -> G' a s) -> (forall s, Iw s -> E s -> E' s) -> rt P G' E' m m'.
Proof. intros H HG HE. eapply rt_weaken; eauto. Qed.
Lemma rt_bind {A B} (P : st -> Prop) (G1 : A -> st -> Prop) (G : B -> st -> Prop) E m m' f f' :
  rt P G1 E m m' -> (forall a, rt (G1 a) G E (f a) (f' a)) -> rt P G E (bind m f) (bind m' f').
Proof.
  intros Hm Hf s Hs Ps. destruct (Hm s Hs Ps) as [X Y]. unfold bind. rewrite <- X.
  destruct (m s) as [[a|e| |] s']; try (split; [reflexivity|exact Y]).
  destruct Y as (Hs' & HR & Ga). destruct (Hf a s' Hs' Ga) as [X2 Y2]. split; [exact X2|].
  destruct (f a s') as [[b|e| |] s'']; try exact Y2; (destruct Y2 as (? & ? & ?); split; [assumption|]; split; [lia|assumption]).
Qed.
Lemma rt_ret {A} (P : st -> Prop) (G : A -> st -> Prop) E a :
  (forall s, Iw s -> P s -> G a s) -> rt P G E (ret a) (ret a).
Proof. intros H s Hs Ps. simpl. auto. Qed.
Lemma rt_gets {A} (P : st -> Prop) (f : st -> A) E : rt P (fun _ => P) E (gets f) (gets f).
Proof. intros s Hs Ps. simpl. auto. Qed.
Lemma rt_err {A} (P : st -> Prop) (G : A -> st -> Prop) nm : rt P G P (err nm) (err nm).
Proof. intros s Hs Ps. split; [reflexivity|]. unfold err. destruct (indicated_msg _ _); [auto|exact I]. Qed.
Lemma rt_or_else {A} (P : st -> Prop) (G : A -> st -> Prop) (E1 E : st -> Prop) m m' f f' :
  rt P G E1 m m' -> (forall s, Iw s -> E1 s -> E s) -> rt E1 G E f f' -> rt P G E (or_else m f) (or_else m' f').
Proof.
  intros Hm HE Hf s Hs Ps. destruct (Hm s Hs Ps) as [X Y]. unfold or_else. rewrite <- X.
  destruct (m s) as [[a|[|nm msg]| |] s']; try (split; [reflexivity|]; intuition auto; fail).
  destruct Y as (Hs' & HR & Ga). destruct (Hf s' Hs' Ga) as [X2 Y2]. split; [exact X2|].
  destruct (f s') as [[b|e| |] s'']; try exact Y2; (destruct Y2 as (? & ? & ?); split; [assumption|]; split; [lia|assumption]).
Qed.
Lemma rt_ok {A} (P : st -> Prop) (G : A -> st -> Prop) E E' m m' :
  rt P G E m m' -> rt P (fun o s => match o with Some a => G a s | None => E s end) E' (Parser.ok m) (Parser.ok m').
Proof.
  intros Hm s Hs Ps. destruct (Hm s Hs Ps) as [X Y]. unfold Parser.ok. rewrite <- X.
  destruct (m s) as [[a|e| |] s']; split; auto.
Qed.
Lemma rt_is_ok {A} (P : st -> Prop) (G : A -> st -> Prop) (G' E E' : st -> Prop) m m' :
  rt P G E m m' -> (forall a s, Iw s -> G a s -> G' s) ->
  rt P (fun (b : bool) s => if b then G' s else E s) E' (is_ok m) (is_ok m').
Proof.
  intros Hm HG s Hs Ps. destruct (Hm s Hs Ps) as [X Y]. unfold is_ok. rewrite <- X.
  destruct (m s) as [[a|e| |] s']; split; intuition eauto.
Qed.
Lemma rt_is_err {A} (P : st -> Prop) (G : A -> st -> Prop) (G' E E' : st -> Prop) m m' :
  rt P G E m m' -> (forall a s, Iw s -> G a s -> G' s) ->
  rt P (fun (b : bool) s => if b then E s else G' s) E' (is_err m) (is_err m').
Proof.
  intros Hm HG. unfold is_err. eapply rt_bind; [exact (rt_is_ok P G G' E E' m m' Hm HG)|].
  intros []; apply rt_ret; auto.
Qed.
Lemma rt_unwrap {A} (P : st -> Prop) (G : A -> st -> Prop) (E E' : st -> Prop) a0 m m' :
  rt P G E m m' -> (forall s, Iw s -> E s -> G a0 s) -> rt P G E' (unwrap_or a0 m) (unwrap_or a0 m').
Proof.
  intros Hm HE. unfold unwrap_or. eapply rt_bind; [eapply rt_ok; exact Hm|].
  intros [a|]; apply rt_ret; auto.
Qed.
Lemma rt_orM (P : st -> Prop) (G1 G : bool -> st -> Prop) E a a' b b' :
  rt P G1 E a a' -> (forall s, Iw s -> G1 true s -> G true s) -> rt (G1 false) G E b b' ->
  rt P G E (orM a b) (orM a' b').
Proof. intros Ha Ht Hb. unfold orM. eapply rt_bind; [exact Ha|]. intros []; [now apply rt_ret|exact Hb]. Qed.
Lemma rt_andM (P : st -> Prop) (G1 G : bool -> st -> Prop) E a a' b b' :
  rt P G1 E a a' -> (forall s, Iw s -> G1 false s -> G false s) -> rt (G1 true) G E b b' ->
  rt P G E (andM a b) (andM a' b').
Proof. intros Ha Ht Hb. unfold andM. eapply rt_bind; [exact Ha|]. intros []; [exact Hb|now apply rt_ret]. Qed.

(** ** From a position on *)
Definition Q (p : nat) (s : st) : Prop := p <= p_eaten s.
Definition N1 (p : nat) (s : st) : Prop := Q p s /\ p + 1 <= p_pos s.
Definition rq {A} (p : nat) (m m' : M A) : Prop := rt (Q p) (fun _ => Q p) (Q p) m m'.
Lemma Q_pos p s : Iw s -> Q p s -> p <= p_pos s.
Proof. intros (_ & ? & _). unfold Q. lia. Qed.
Lemma rq_bind {A B} p (m m' : M A) (f f' : A -> M B) :
  rq p m m' -> (forall a, rq p (f a) (f' a)) -> rq p (bind m f) (bind m' f').
Proof. intros. eapply rt_bind; eauto. Qed.
Lemma rq_ret {A} p (a : A) : rq p (ret a) (ret a). Proof. apply rt_ret. auto. Qed.
Lemma rq_leaf {A} p T (G : A -> st -> Prop) E m : safe d cyc hk LT True [] Wild any T G E m -> rq p m m.
Proof.
  intros H s Hs Ps. split; [reflexivity|]. specialize (H s Hs I). unfold Q in *.
  destruct (m s) as [[a|[|nm msg]| |] s']; try exact I.
  - destruct H as (? & [? _] & _). split; [assumption|]. split; [assumption|lia].
  - destruct H as (? & [? _] & _). split; [assumption|]. split; [assumption|lia].
  - destruct H as (? & X & _). unfold RT in X. split; [assumption|]. split; [assumption|lia].
Qed.
Lemma rq_is_ok {A} p (m m' : M A) : rq p m m' -> rq p (is_ok m) (is_ok m').
Proof. intros H. eapply rt_post; [eapply rt_is_ok with (G' := Q p); [exact H|auto]|..]; [intros [] s _ X; exact X|intros s _ X; exact X]. Qed.
Lemma rq_is_err {A} p (m m' : M A) : rq p m m' -> rq p (is_err m) (is_err m').
Proof. intros H. eapply rt_post; [eapply rt_is_err with (G' := Q p); [exact H|auto]|..]; [intros [] s _ X; exact X|intros s _ X; exact X]. Qed.
Lemma rq_ok {A} p (m m' : M A) : rq p m m' -> rq p (Parser.ok m) (Parser.ok m').
Proof. intros H. eapply rt_post; [eapply rt_ok; exact H|..]; [intros [a|] s _ X; exact X|intros s _ X; exact X]. Qed.
Lemma rq_unwrap {A} p a (m m' : M A) : rq p m m' -> rq p (unwrap_or a m) (unwrap_or a m').
Proof. intros H. eapply rt_unwrap; [exact H|auto]. Qed.
Lemma rq_or_else {A} p (m m' f f' : M A) : rq p m m' -> rq p f f' -> rq p (or_else m f) (or_else m' f').
Proof. intros H1 H2. eapply rt_or_else; [exact H1|auto|exact H2]. Qed.
Lemma rq_or_err {A} p (m m' : M A) nm : rq p m m' -> rq p (or_else m (err nm)) (or_else m' (err nm)).
Proof. intros H. apply rq_or_else; [exact H|]. apply rt_err. Qed.
Lemma rq_err {A} p nm : rq p (@err A nm) (err nm). Proof. apply rt_err. Qed.
Lemma rq_orM p a a' b b' : rq p a a' -> rq p b b' -> rq p (orM a b) (orM a' b').
Proof. intros H1 H2. eapply rt_orM; [exact H1|auto|exact H2]. Qed.
Lemma rq_andM p a a' b b' : rq p a a' -> rq p b b' -> rq p (andM a b) (andM a' b').
Proof. intros H1 H2. eapply rt_andM; [exact H1|auto|exact H2]. Qed.
Lemma rq_notM p a a' : rq p a a' -> rq p (notM a) (notM a').
Proof. intros H. apply rq_bind; [exact H|intros; apply rq_ret]. Qed.
(** later positions *)
Lemma rq_N1 {A} p (m m' : M A) : rq p m m' -> rt (N1 p) (fun _ => Q p) (Q p) m m'.
Proof. intros H. eapply rt_pre; [exact H|intros s _ [X _]; exact X]. Qed.
Lemma rq_more {A} p (m m' : M A) : rq (p + 1) m m' -> rt (Q (p + 1)) (fun _ => Q p) (Q p) m m'.
Proof. intros H. eapply rt_post; [exact H|..]; unfold Q; intros; lia. Qed.

(** ** Leaves *)
Local Notation PT := (fun k (_ : handle_in d k) (_ : ~ known Wild k) => I).
Lemma rq_sym p c : rq p (sym c) (sym c).
Proof. eapply rq_leaf, (sb_sym d cyc hk LT True [] Wild any noT). Qed.
Lemma rq_bound p : rq p bound bound.
Proof. eapply rq_leaf, (sb_bound d cyc hk LT True [] Wild any noT). Qed.
Lemma rq_forward p : rq p forward forward.
Proof. eapply rq_leaf, (safe_forward d cyc hk LT True [] Wild any noT any). Qed.
Lemma rq_backward p : rq p backward backward.
Proof. eapply rq_leaf, (safe_backward d cyc hk LT True [] Wild any noT any). Qed.
Lemma rq_inv p : rq p (inv (More 0)) (inv (More 0)).
Proof. eapply rq_leaf, (sb_more0 d cyc hk LT True [] Wild any noT any). Qed.
Lemma rq_gap p c : rq p (gap c) (gap c).
Proof. eapply rq_leaf, (sb_gap d cyc hk LT True [] Wild any noT). Qed.
Lemma rq_ind p k : rq p (ind k) (ind k).
Proof. eapply rq_leaf, (sb_ind0 d cyc hk LT True [] Wild any noT). Qed.
Lemma rq_ind_define p k : rq p (ind_define k) (ind_define k).
Proof. eapply rq_leaf, (sb_ind_define d cyc hk LT True [] Wild any noT). Qed.
Lemma rq_doc_end p : rq p doc_end doc_end.
Proof. eapply rq_leaf, (sb_doc_end d cyc hk LT True [] Wild any noT any). Qed.
Lemma rq_anchor p : rq p anchor anchor.
Proof. eapply rq_leaf, (sb_anchor d cyc hk LT True [] Wild any noT). Qed.
Lemma rq_anchor_use p : rq p anchor_use anchor_use.
Proof. eapply rq_leaf, (sb_anchor_use d cyc hk LT True [] Wild any noT). Qed.
Lemma rq_tag p : rq p tag tag.
Proof. eapply rq_leaf, (sb_tag d cyc hk LT True [] Wild PT any noT). Qed.
Lemma rq_literal p k : rq p (string_literal k) (string_literal k).
Proof. eapply rq_leaf, (sb_literal d cyc hk LT True [] Wild any noT). Qed.
Lemma rq_folded p k : rq p (string_folded k) (string_folded k).
Proof. eapply rq_leaf, (sb_folded d cyc hk LT True [] Wild any noT). Qed.
Lemma rq_quoted p q ig : rq p (string_quoted q ig) (string_quoted q ig).
Proof. eapply rq_leaf, (sb_quoted d cyc hk LT True [] Wild any noT). Qed.
Lemma rq_plain p k i : rq p (string_plain k i) (string_plain k i).
Proof. eapply rq_leaf, (sb_plain d cyc hk LT True [] Wild any noT). Qed.
Lemma rq_gb {A} p (m : M A) : gb_at m -> rq p m m.
Proof. intros H. eapply rq_leaf, (safe_gb d cyc hk LT True [] Wild any noT m H). Qed.
Lemma rq_build p m : rq p (build_map m) (build_map m).
Proof. intros s Hs Qs. split; [reflexivity|]. unfold build_map. destruct (map_collect _ _); auto. Qed.
Lemma rq_alias p a : rq p (alias_value a) (alias_value a).
Proof.
  intros s Hs Qs. split; [reflexivity|]. unfold alias_value. destruct (l_cyclic s); [auto|].
  destruct (nth_error _ _); [|exact I]. destruct (bt_get _ _); [auto|]. unfold err. destruct (indicated_msg _ _); auto.
Qed.
Lemma rq_insert p a n : rq p (anchor_insert a n) (anchor_insert a n).
Proof.
  intros s Hs Qs. split; [reflexivity|]. unfold anchor_insert. destruct (nth_error _ _); [|exact I].
  split; [|split; [reflexivity|exact Qs]]. destruct Hs as (E1 & E2 & E3 & E4 & E5 & E6 & E7 & _). exact (conj E1 (conj E2 (conj E3 (conj E4 (conj E5 (conj E6 (conj E7 I))))))).
Qed.
Lemma rq_complex p : rq p complex_mapping complex_mapping.
Proof. apply rq_bind; [apply rq_sym|intros _; apply rq_bound]. Qed.

(** ** Progress *)
Lemma rt_sym p c : rt (Q p) (fun _ => N1 p) (Q p) (sym c) (sym c).
Proof.
  intros s Hs Qs. destruct (rq_sym p c s Hs Qs) as [X Y]. split; [exact X|].
  pose proof (sym_exec c s (Iw_in s Hs)) as E. rewrite E in *. pose proof (Q_pos p s Hs Qs).
  destruct (rem s) as [|x r]; [exact Y|]. destruct (N.eqb x c); [|exact Y].
  destruct Y as (? & ? & ?). split; [assumption|]. split; [assumption|]. split; [assumption|cbn; lia].
Qed.
Lemma rt_bound p : rt (N1 p) (fun _ => N1 p) (Q p) bound bound.
Proof.
  intros s Hs [Qs Ps]. destruct (rq_bound p s Hs Qs) as [X Y]. split; [exact X|].
  pose proof (bound_exec s (Iw_in s Hs)) as E. rewrite E in *.
  destruct (at_bound (rem s)); [|exact Y].
  destruct Y as (? & ? & ?). split; [assumption|]. split; [assumption|]. split; [assumption|cbn; lia].
Qed.
Lemma rt_forward p : rt (N1 p) (fun _ => Q (p + 1)) (Q p) forward forward.
Proof.
  intros s Hs [Qs Ps]. destruct (rq_forward p s Hs Qs) as [X Y]. split; [exact X|]. simpl in *.
  destruct Y as (? & ? & ?). split; [assumption|]. split; [assumption|]. exact Ps.
Qed.
Lemma rt_forward1 p : rt (fun s => p <= p_pos s) (fun _ => Q p) (fun _ => True) forward forward.
Proof.
  intros s Hs Ps. destruct (rq_forward 0 s Hs (Nat.le_0_l _)) as [X Y]. split; [exact X|]. simpl in *.
  destruct Y as (? & ? & ?). split; [assumption|]. split; [assumption|]. exact Ps.
Qed.
Lemma rt_complex p : rt (Q p) (fun (b : bool) s => if b then N1 p s else Q p s) (Q p) (is_ok complex_mapping) (is_ok complex_mapping).
Proof.
  eapply rt_is_ok with (G' := N1 p) (G := fun _ => N1 p); [|auto].
  eapply rt_bind; [apply rt_sym|intros ?; apply rt_bound].
Qed.
Lemma rt_sym_err p c : rt (Q p) (fun (b : bool) s => if b then Q p s else N1 p s) (Q p) (is_err (sym c)) (is_err (sym c)).
Proof. eapply rt_is_err with (G' := N1 p); [apply rt_sym|intros a s _ X; exact X]. Qed.
Lemma rt_sep p c : rt (Q p) (fun (b : bool) s => if b then Q p s else N1 p s) (Q p)
  (orM (is_err (sym c)) (is_err bound)) (orM (is_err (sym c)) (is_err bound)).
Proof.
  eapply rt_orM; [apply rt_sym_err|auto|]. eapply rt_is_err with (G' := N1 p); [apply rt_bound|intros a s _ X; exact X].
Qed.

Lemma rq_node p f f' : rq p f f' -> rq p (scalar_node f) (scalar_node f').
Proof.
  intros Hf. unfold scalar_node.
  apply rq_bind; [apply rq_unwrap, rq_anchor|intros a1].
  apply rq_bind; [destruct (is_nil a1); [apply rq_ret|apply rq_bound]|intros _].
  apply rq_bind; [apply rq_forward|intros _].
  apply rq_bind; [apply rq_unwrap, rq_tag|intros tg].
  apply rq_bind; [destruct (is_nil tg); [apply rq_ret|apply rq_bound]|intros _].
  apply rq_bind; [apply rq_forward|intros _].
  apply rq_bind; [apply rq_unwrap, rq_anchor|intros a2].
  apply rq_bind.
  { destruct (is_nil a2); [apply rq_ret|]. destruct (is_nil a1); [|apply rq_err].
    apply rq_bind; [apply rq_bound|intros _; apply rq_ret]. }
  intros an. apply rq_bind; [apply rq_forward|intros _]. apply rq_bind; [apply rt_gets|intros pos].
  apply rq_bind; [exact Hf|intros y]. apply rq_bind; [apply rq_forward|intros _]. cbv zeta.
  destruct (is_nil an); [apply rq_ret|]. apply rq_bind; [apply rq_insert|intros []]; [apply rq_err|apply rq_ret].
Qed.

(** ** The recursive sub-parsers *)
Record all_rt (n n' : nat) : Prop := {
  f_scalar : forall L map flow p, 8 * len + 8 <= n + 8 * p -> rq p (scalar n L map flow) (scalar n' L map flow);
  f_flow : forall L flow p, 8 * len + 5 <= n + 8 * p -> rq p (scalar_flow n L flow) (scalar_flow n' L flow);
  f_term : forall L flow p, 8 * len + 4 <= n + 8 * p -> rq p (scalar_term n L flow) (scalar_term n' L flow);
  f_seqf : forall L p, 8 * len + 3 <= n + 8 * p -> rq p (seq_flow n L) (seq_flow n' L);
  f_seqfl : forall L p v, 8 * len + 9 <= n + 8 * p ->
    rt (fun s => p <= p_pos s) (fun _ => any) any (seq_flow_loop n L v) (seq_flow_loop n' L v);
  f_mapf : forall L p, 8 * len + 3 <= n + 8 * p -> rq p (map_flow n L) (map_flow n' L);
  f_mapfl : forall L p v, 8 * len + 9 <= n + 8 * p ->
    rt (fun s => p <= p_pos s) (fun _ => any) any (map_flow_loop n L v) (map_flow_loop n' L v);
  f_seq : forall L map p, 8 * len + 7 <= n + 8 * p -> rq p (Loader.seq n L map) (Loader.seq n' L map);
  f_seql : forall L map p v, 8 * len + 6 <= n + 8 * p -> rq p (seq_loop n L map v) (seq_loop n' L map v);
  f_map : forall L map flow p, 8 * len + 7 <= n + 8 * p -> rq p (map_ n L map flow) (map_ n' L map flow);
  f_mapl : forall L map flow p m, 8 * len + 6 <= n + 8 * p -> rq p (map_loop n L map flow m) (map_loop n' L map flow m)
}.

Lemma rt_void {A} (P : st -> Prop) (G : A -> st -> Prop) E m m' : (forall s, Iw s -> P s -> False) -> rt P G E m m'.
Proof. intros H s Hs Ps. destruct (H s Hs Ps). Qed.
Lemma void_Q p s : len < p -> Iw s -> Q p s -> False.
Proof. intros H (_ & ? & ? & _). unfold Q. lia. Qed.
Lemma void_pos p s : len < p -> Iw s -> p <= p_pos s -> False.
Proof. intros H (_ & ? & ? & _). lia. Qed.

Lemma rq_head p (map : bool) L : rq p
  (if map then gap true ;;; ind_define L else g <- is_ok (gap true) ;; if (g : bool) then ind L else ret tt)
  (if map then gap true ;;; ind_define L else g <- is_ok (gap true) ;; if (g : bool) then ind L else ret tt).
Proof.
  destruct map.
  - apply rq_bind; [apply rq_gap|intros _; apply rq_ind_define].
  - apply rq_bind; [apply rq_is_ok, rq_gap|intros []]; [apply rq_ind|apply rq_ret].
Qed.
Lemma rq_tail p L (k : node) : rq p
  (g <- is_ok (gap true) ;; (if (g : bool) then ind L else ret tt) ;;; ret k)
  (g <- is_ok (gap true) ;; (if (g : bool) then ind L else ret tt) ;;; ret k).
Proof.
  apply rq_bind; [apply rq_is_ok, rq_gap|intros g]. apply rq_bind; [destruct g; [apply rq_ind|apply rq_ret]|intros _; apply rq_ret].
Qed.
(** a key after [?] *)
Lemma rt_ckey p L (m m' : M node) : rq (p + 1) m m' -> rt (N1 p) (fun _ => Q p) (Q p)
  (forward ;;; k <- m ;; g <- is_ok (gap true) ;; (if (g : bool) then ind L else ret tt) ;;; ret k)
  (forward ;;; k <- m' ;; g <- is_ok (gap true) ;; (if (g : bool) then ind L else ret tt) ;;; ret k).
Proof.
  intros H. eapply rt_bind; [apply rt_forward|intros ?]. apply rq_more. apply rq_bind; [exact H|intros k; apply rq_tail].
Qed.
Lemma rq_key p L (m m' f f' : M node) : rq (p + 1) m m' -> rq p f f' -> rq p
  (c <- is_ok complex_mapping ;; if (c : bool) then forward ;;; k <- m ;; g <- is_ok (gap true) ;; (if (g : bool) then ind L else ret tt) ;;; ret k else f)
  (c <- is_ok complex_mapping ;; if (c : bool) then forward ;;; k <- m' ;; g <- is_ok (gap true) ;; (if (g : bool) then ind L else ret tt) ;;; ret k else f').
Proof.
  intros Hm Hf. eapply rt_bind; [apply rt_complex|intros []]; [now apply rt_ckey|exact Hf].
Qed.
Lemma bind_c {B} (c : M bool) (k1 k2 : M node) (f : node -> M B) s :
  bind c (fun b => bind (if b then k1 else k2) f) s = bind (bind c (fun b => if b then k1 else k2)) f s.
Proof. unfold bind. destruct (c s) as [[[]|e| |] s']; reflexivity. Qed.
Lemma rt_ext {A} (P : st -> Prop) (G : A -> st -> Prop) E (m1 m1' m2 m2' : M A) :
  (forall s, m1 s = m2 s) -> (forall s, m1' s = m2' s) -> rt P G E m2 m2' -> rt P G E m1 m1'.
Proof. intros H1 H2 H s Hs Ps. rewrite H1, H2. apply H; assumption. Qed.

Lemma rq_open {A} p c (f f' : unit -> M A) :
  (forall a, rt (fun s => p + 1 <= p_pos s) (fun _ => any) any (f a) (f' a)) -> rq p (bind (sym c) f) (bind (sym c) f').
Proof.
  intros H s Hs Qs.
  assert (X : rt (Q p) (fun _ : A => any) any (bind (sym c) f) (bind (sym c) f')).
  { eapply rt_bind with (G1 := fun _ => N1 p).
    - eapply rt_post; [apply rt_sym|auto|intros; exact I].
    - intros a. eapply rt_pre; [apply H|]. intros s0 _ [_ Y]. exact Y. }
  destruct (X s Hs Qs) as [X1 X2]. split; [exact X1|]. unfold Q in *.
  destruct (bind (sym c) f s) as [[?|?| |] s']; try exact I; intuition lia.
Qed.

Lemma all_rt_S n n' : all_rt n n' -> all_rt (S n) (S n').
Proof.
  intros IH. split.
  - (* scalar *)
    intros L map flow p Hn. cbn [scalar]. apply rq_node.
    apply rq_bind; [apply rq_ok, rq_literal|intros [x|]]; [apply rq_ret|].
    apply rq_bind; [apply rq_ok, rq_folded|intros [x|]]; [apply rq_ret|].
    apply rq_or_else; [apply rq_or_else|]; [apply (f_seq _ _ IH); lia|apply (f_map _ _ IH); lia|apply (f_term _ _ IH); lia].
  - (* scalar_flow *)
    intros L flow p Hn. cbn [scalar_flow]. apply rq_node. apply (f_term _ _ IH). lia.
  - (* scalar_term *)
    intros L flow p Hn. cbn [scalar_term].
    apply rq_bind; [apply rq_ok, rq_gb, at_float|intros [x|]]; [apply rq_ret|].
    apply rq_bind; [apply rq_ok, rq_gb, at_sci|intros [x|]]; [apply rq_ret|].
    apply rq_bind; [apply rq_ok, rq_gb, at_int|intros [x|]]; [apply rq_ret|].
    apply rq_bind; [apply rq_ok, rq_anchor_use|intros [x|]]; [apply rq_alias|].
    apply rq_bind; [apply rq_ok, rq_quoted|intros [x|]]; [apply rq_ret|].
    apply rq_bind; [apply rq_ok, rq_quoted|intros [x|]]; [apply rq_ret|].
    apply rq_bind; [apply rq_ok, rq_plain|intros [x|]]; [apply rq_ret|].
    apply rq_or_else; [apply rq_or_else|apply rq_ret]; [apply (f_seqf _ _ IH); lia|apply (f_mapf _ _ IH); lia].
  - (* seq_flow *)
    intros L p Hn. cbn [seq_flow]. apply rq_open. intros a. apply (f_seqfl _ _ IH L (p + 1) []). lia.
  - (* seq_flow_loop *)
    intros L p v Hn. cbn [seq_flow_loop].
    eapply rt_bind; [|intros ?].
    { instantiate (1 := fun _ s => p <= p_pos s). intros s Hs Ps. destruct (rq_inv 0 s Hs (Nat.le_0_l _)) as [X Y]. split; [exact X|].
      unfold inv in *. rewrite (more0_exec _ s (Iw_in s Hs)) in *. destruct Y as (? & ? & _). split; [assumption|]. split; [assumption|cbn; lia]. }
    eapply rt_bind; [eapply rt_post; [apply rt_forward1|intros ? ? _ X; exact X|intros; exact I]|intros ?].
    apply rt_post with (G := fun _ => Q p) (E := Q p); [|intros; exact I|intros; exact I].
    apply rq_bind; [apply rq_is_ok, rq_sym|intros []].
    { apply rq_bind; [apply rq_forward|intros; apply rq_ret]. }
    apply rq_bind; [apply rq_forward|intros _].
    apply rq_bind; [apply rq_or_err, (f_scalar _ _ IH); lia|intros x]. cbv zeta.
    apply rq_bind; [apply rq_inv|intros _].
    eapply rt_bind; [apply rt_sym_err|intros []].
    { apply rq_bind; [apply rq_inv|intros _]. apply rq_bind; [apply rq_sym|intros _]. apply rq_bind; [apply rq_forward|intros; apply rq_ret]. }
    intros s Hs [Qs Ps]. destruct (f_seqfl _ _ IH L (p + 1) (v ++ [x]) ltac:(lia) s Hs Ps) as [X Y]. split; [exact X|]. unfold Q in *.
    destruct (seq_flow_loop n L (v ++ [x]) s) as [[?|?| |] s']; try exact I; intuition lia.
  - (* map_flow *)
    intros L p Hn. cbn [map_flow]. apply rq_open. intros a. apply (f_mapfl _ _ IH L (p + 1) []). lia.
  - (* map_flow_loop *)
    intros L p v Hn. cbn [map_flow_loop].
    eapply rt_bind; [|intros ?].
    { instantiate (1 := fun _ s => p <= p_pos s). intros s Hs Ps. destruct (rq_inv 0 s Hs (Nat.le_0_l _)) as [X Y]. split; [exact X|].
      unfold inv in *. rewrite (more0_exec _ s (Iw_in s Hs)) in *. destruct Y as (? & ? & _). split; [assumption|]. split; [assumption|cbn; lia]. }
    eapply rt_bind; [eapply rt_post; [apply rt_forward1|intros ? ? _ X; exact X|intros; exact I]|intros ?].
    apply rt_post with (G := fun _ => Q p) (E := Q p); [|intros; exact I|intros; exact I].
    apply rq_bind; [apply rq_is_ok, rq_sym|intros []].
    { apply rq_bind; [apply rq_forward|intros; apply rq_build]. }
    apply rq_bind; [apply rq_forward|intros _].
    eapply rt_ext; [intros s; apply bind_c|intros s; apply bind_c|].
    apply rq_bind; [apply rq_key; [apply rq_or_err, (f_scalar _ _ IH); lia|apply rq_or_err, (f_flow _ _ IH); lia]|intros k].
    eapply rt_bind; [apply rt_sym_err|intros []]; [apply rq_err|].
    eapply rt_bind with (G1 := fun _ => N1 p).
    { intros s Hs [Qs Ps]. split; [reflexivity|]. unfold context. pose proof (bound_exec (set_eaten (p_pos s) s) (Iw_in s Hs)) as B.
      rewrite (unwrap_or_eq tt _ _ _ B). destruct Hs as (E1 & E2 & E3 & E4 & E5 & E6 & E7 & _).
      assert (W : ws_len (rem s) <= len - p_pos s) by (rewrite <- E1, <- rem_length; apply span_le).
      assert (K : forall k, k <= len - p_pos s -> Iw (set_eaten (p_eaten s) (set_pos (p_pos s + k) (set_eaten (p_pos s) s)))).
      { intros w Hw. unfold Iw, Iv. cbn. destruct E5 as [E5 _]. repeat split; try assumption; try lia. intros x []. }
      destruct (at_bound _).
      - split; [apply (K (ws_len (rem s)) W)|]. split; [cbn; lia|]. split; [exact Qs|cbn; lia].
      - specialize (K 0 (Nat.le_0_l _)). rewrite Nat.add_0_r in K. split; [exact K|]. split; [cbn; lia|]. split; [exact Qs|cbn; lia].
      }
    intros _. eapply rt_bind; [apply rt_forward|intros ?]. apply rq_more.
    apply rq_bind; [apply rq_or_err, (f_scalar _ _ IH); lia|intros x]. cbv zeta.
    eapply rt_bind; [apply rt_sym_err|intros []].
    { apply rq_bind; [apply rq_inv|intros _]. apply rq_bind; [apply rq_sym|intros _]. apply rq_bind; [apply rq_forward|intros; apply rq_build]. }
    intros s Hs [Qs Ps]. assert (P1 : p + 1 <= p_pos s) by lia. destruct (f_mapfl _ _ IH L (p + 1) (v ++ [(k, x)]) ltac:(lia) s Hs P1) as [X Y]. split; [exact X|]. unfold Q in *.
    destruct (map_flow_loop n L (v ++ [(k, x)]) s) as [[?|?| |] s']; try exact I; intuition lia.
  - (* seq *) intros L map p Hn. cbn [Loader.seq]. apply (f_seql _ _ IH). lia.
  - (* seq_loop *)
    intros L map p v Hn. cbn [seq_loop]. apply rq_bind; [apply rq_forward|intros _].
    eapply rt_bind with (G1 := fun (b : bool) s => if b then N1 p s else Q p s).
    { destruct v as [|x0 v].
      - eapply rt_bind; [apply rq_head|intros ?]. eapply rt_bind; [apply rt_sym|intros ?].
        eapply rt_bind; [apply rt_bound|intros ?]. apply rt_ret. auto.
      - eapply rt_bind; [apply rq_andM; [apply rq_is_err, rq_gap|apply rq_notM, rq_doc_end]|intros []]; [apply rt_err|].
        eapply rt_bind; [apply rq_orM; [apply rq_doc_end|apply rq_is_err, rq_ind]|intros []]; [apply rt_ret; auto|].
        eapply rt_bind; [apply rt_sep|intros []]; [apply rt_ret; auto|].
        eapply rt_bind with (G1 := fun _ => N1 p); [|intros ?; apply rt_ret; auto].
        intros s Hs [Qs Ps]. split; [reflexivity|]. simpl. destruct (rq_forward p s Hs Qs) as [_ (X & Y & Z)].
        split; [exact X|]. split; [exact Y|]. split; [exact Z|exact Ps]. }
    intros [].
    + eapply rt_bind; [apply rt_forward|intros ?]. apply rq_more.
      apply rq_bind; [apply rq_or_err, (f_scalar _ _ IH); lia|intros x]. apply (f_seql _ _ IH). lia.
    + apply rq_bind; [apply rq_backward|intros; apply rq_ret].
  - (* map *) intros L map flow p Hn. cbn [map_]. apply (f_mapl _ _ IH). lia.
  - (* map_loop *)
    intros L map flow p m Hn. cbn [map_loop]. apply rq_bind; [apply rq_forward|intros _].
    eapply rt_bind with (G1 := fun (ko : node + option yaml) s => match ko with inl _ => N1 p s | inr _ => Q p s end).
    { destruct m as [|x0 m].
      - eapply rt_bind; [apply rq_head|intros ?]. eapply rt_bind; [apply rq_forward|intros ?].
        eapply rt_ext; [intros s; apply bind_c|intros s; apply bind_c|].
        eapply rt_bind; [apply rq_key; [apply rq_or_err, (f_scalar _ _ IH); lia|apply (f_flow _ _ IH); lia]|intros k].
        eapply rt_bind; [apply rt_sep|intros []]; apply rt_ret; auto.
      - eapply rt_bind; [apply rq_andM; [apply rq_is_err, rq_gap|apply rq_notM, rq_doc_end]|intros []]; [apply rt_err|].
        eapply rt_bind; [apply rq_orM; [apply rq_doc_end|apply rq_is_err, rq_ind]|intros []]; [apply rt_ret; auto|].
        eapply rt_bind; [apply rq_forward|intros ?].
        eapply rt_ext; [intros s; apply bind_c|intros s; apply bind_c|].
        eapply rt_bind; [apply rq_key; [apply rq_or_err, (f_scalar _ _ IH); lia|apply rq_or_err, (f_flow _ _ IH); lia]|intros k].
        eapply rt_bind; [apply rt_sep|intros []]; [apply rt_err|apply rt_ret; auto]. }
    intros [k|[y|]].
    + eapply rt_bind; [apply rt_forward|intros ?]. apply rq_more.
      apply rq_bind; [apply rq_or_err, (f_scalar _ _ IH); lia|intros x]. apply (f_mapl _ _ IH). lia.
    + apply rq_ret.
    + apply rq_bind; [apply rq_backward|intros; apply rq_build].
Qed.
Lemma all_rt_all : forall n n', n <= n' -> all_rt n n'.
Proof.
  induction n as [|n IH]; intros n' Hn.
  - split; intros; apply rt_void; intros s Hs Ps; first [apply (void_Q p s); [lia|exact Hs|exact Ps]|apply (void_pos p s); [lia|exact Hs|exact Ps]].
  - destruct n' as [|n']; [lia|]. apply all_rt_S, IH. lia.
Qed.
End Fuel.
