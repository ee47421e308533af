(** * InvLoader: the sub-parsers of Loader keep the invariant of Inv.v. *)
From Verif Require Export InvBase.
Open Scope nat_scope.

(** What a parsed value may be, apart from its children: the text of an integer
    is an integer literal standing in the document, a float has a value, there is
    no alias in direct mode. *)
Definition shape_ok (d : bytes) (cyc : bool) (y : yaml) : Prop :=
  match y with
  | YInt t => int_in d t
  | YFloat t => to_f64 t <> None
  | YAlias _ => cyc = true
  | _ => True
  end.

(** The names of the fatal errors. *)
Definition error_names : list str :=
  [lit "checked version"; lit "invalid version"; lit "duplicated anchor definition";
   lit "anchor referenced before definition"; lit "flow sequence item"; lit "flow map key";
   lit "flow map splitter"; lit "flow map value"; lit "sequence terminator"; lit "sequence item";
   lit "map terminator"; lit "map key"; lit "map splitter"; lit "map value"; lit "document splitter"].
Definition T1 (nm : str) : Prop := In nm error_names.
Ltac named := unfold T1, error_names; simpl; tauto.

Lemma gap_none_head c l : gap_f c l = None -> gap_head c l = 0 \/ gap_head c l = List.length l.
Proof.
  unfold gap_f. cbv zeta. destruct (Nat.eqb_spec (nl_len (skipn (gap_head c l) l)) 0) as [E|E]; [|discriminate].
  intros _. destruct c; cbn [gap_head] in *; [|now left]. unfold comment_len in *.
  destruct (skipn (ws_len l) l) as [|x r] eqn:Ew; [now left|].
  destruct (N.eqb_spec x 35) as [->|]; [|now left]. right.
  set (k := span not_nl r) in *.
  assert (Hl : List.length l = ws_len l + 1 + List.length r).
  { rewrite <- (firstn_skipn (ws_len l) l) at 1. rewrite Ew, app_length.
    rewrite firstn_length_le by apply span_le. simpl. lia. }
  assert (Er : skipn (ws_len l + 1 + k) l = skipn k r).
  { rewrite <- !skipn_add, Ew. reflexivity. }
  rewrite Er in E. destruct (skipn k r) as [|y r'] eqn:Ek.
  - pose proof (skipn_length k r) as HL. rewrite Ek in HL. simpl in HL.
    assert (k <= List.length r) by apply span_le. lia.
  - exfalso. apply span_next in Ek. unfold not_nl in Ek.
    assert (In y [10; 13]%N) as [<-|[<-|[]]].
    { destruct (in_dec N.eq_dec y [10; 13]%N) as [K|K]; [exact K|].
      apply not_in_spec in K. congruence. }
    + destruct r' as [|z r']; [discriminate|]. destruct z as [|[[[[]|[]|]|[[]|[]|]|]|[[[]|[]|]|[[]|[]|]|]|]]; discriminate.
    + destruct r' as [|z r']; [discriminate|]. destruct z as [|[[[[]|[]|]|[[]|[]|]|]|[[[]|[]|]|[[]|[]|]|]|]]; discriminate.
Qed.

(** ** Tables and maps *)
Lemma bt_get_in {V} k (m : list (str * V)) v : bt_get k m = Some v -> exists k', In (k', v) m.
Proof.
  induction m as [|[k' v'] m IH]; simpl; [discriminate|].
  destruct (str_eqb k k'); [intros [= <-]; eauto|]. intros H. destruct (IH H) as [x Hx]. eauto.
Qed.
Lemma bt_insert_in {V} k (v : V) m x : In x (bt_insert k v m) -> snd x = v \/ In x m.
Proof.
  induction m as [|[k' v'] m IH]; simpl.
  - intros [<-|[]]; now left.
  - destruct (str_eqb k k'); [intros [<-|H]; [now left|auto]|].
    destruct (str_ltb k k'); [intros [<-|[<-|H]]; auto|]. intros [<-|H]; [auto|].
    destruct (IH H); auto.
Qed.
Lemma bt_insert_other {V} k (v : V) m a : bt_get k m = None -> forall x,
  bt_get a m = Some x -> bt_get a (bt_insert k v m) = Some x.
Proof.
  induction m as [|[k' v'] m IH]; simpl; [discriminate|].
  destruct (str_eqb k k') eqn:E; [discriminate|]. intros Hk x Hx.
  destruct (str_ltb k k'); simpl.
  - destruct (str_eqb a k) eqn:Ea; [|exact Hx]. apply str_eqb_eq in Ea. subst a.
    rewrite E in Hx. congruence.
  - destruct (str_eqb a k'); [exact Hx|]. now apply IH.
Qed.

Lemma str_ltb_lt a : forall b, str_ltb a b = true <-> name_lt a b.
Proof.
  induction a as [|x a IH]; intros [|y b]; cbn [str_ltb].
  - split; [discriminate|intros H; inversion H].
  - split; [constructor|reflexivity].
  - split; [discriminate|intros H; inversion H].
  - destruct (N.eqb_spec x y) as [->|E].
    + rewrite IH. split; [now constructor|]. intros H. inversion H; [lia|assumption].
    + rewrite N.ltb_lt. split; [now constructor|]. intros H. inversion H; [assumption|contradiction].
Qed.
Lemma name_lt_total a : forall b, a <> b -> ~ name_lt a b -> name_lt b a.
Proof.
  induction a as [|x a IH]; intros [|y b] E H; try congruence.
  - exfalso. apply H. constructor.
  - constructor.
  - destruct (N.lt_trichotomy x y) as [L|[->|L]].
    + exfalso. apply H. now constructor.
    + apply LtNext, IH; [congruence|]. intros K. apply H. now constructor.
    + now constructor.
Qed.
Lemma name_lt_trans a b c : name_lt a b -> name_lt b c -> name_lt a c.
Proof.
  intros H. revert c. induction H as [x b|x y a b H|x a b H IH]; intros c K; inversion K; subst.
  - constructor.
  - constructor.
  - apply LtHere. lia.
  - apply LtHere. lia.
  - apply LtHere. lia.
  - apply LtNext. now apply IH.
Qed.
Lemma bt_insert_keys {V} k (v : V) m x : In x (List.map fst (bt_insert k v m)) -> x = k \/ In x (List.map fst m).
Proof.
  induction m as [|[k' v'] m IH]; cbn [bt_insert].
  - intros [<-|[]]; now left.
  - destruct (str_eqb k k'); [intros H; now right|]. destruct (str_ltb k k'); cbn [List.map fst].
    + intros [<-|H]; auto.
    + intros [<-|H]; [right; now left|]. destruct (IH H); [auto|right; now right].
Qed.
Lemma bt_insert_sorted {V} k (v : V) m : in_name_order m -> in_name_order (bt_insert k v m).
Proof.
  unfold in_name_order. induction m as [|[k' v'] m IH]; cbn [bt_insert List.map fst]; intros H; [repeat constructor|].
  destruct (str_eqb k k') eqn:E; [exact H|]. destruct (str_ltb k k') eqn:L.
  - apply str_ltb_lt in L. constructor; [exact H|]. constructor; [exact L|]. apply StronglySorted_inv in H as [_ H].
    eapply Forall_impl; [|exact H]. intros x. now apply name_lt_trans.
  - apply StronglySorted_inv in H as [H1 H2]. cbn [List.map fst]. constructor; [now apply IH|]. rewrite Forall_forall in *.
    intros x Hx. destruct (bt_insert_keys _ _ _ _ Hx) as [->|Hx']; [|auto].
    apply name_lt_total; [intros ->; rewrite (proj2 (str_eqb_eq _ _) eq_refl) in E; discriminate|]. intros K. apply str_ltb_lt in K. congruence.
Qed.

Section LoaderInv.
Variable d : bytes.
Variable cyc : bool.
Variable hk : hasher.
Variable L : N -> yaml -> Prop.
Variable PN : Prop.
Variable bt : list anchors_t.
Variable md : mode.
Hypothesis PN_tag : forall k, handle_in d k -> ~ known md k -> PN.
Hypothesis L_intro : forall p y, here d p -> shape_ok d cyc y -> L p y.
Hypothesis L_pos : forall p p' y, L p y -> here d p' -> L p' y.
Hypothesis Hmd : (exists K, md = Opened K) \/ (md = Wild /\ PN /\ forall n, deep L n).
Hypothesis PN_map : forall m, good_pairs L m -> map_collect hk m = None -> PN.

Local Notation safe := (safe d cyc hk L PN bt md).
Local Notation Iv := (Iv d cyc hk L bt md).
Local Notation deep := (deep L).
Local Notation goody := (goody d L).
Local Notation good_pairs := (good_pairs L).

Lemma goody_leaf y : shape_ok d cyc y -> (forall l, y <> YSeq l) -> (forall m, y <> YMap m) -> goody y.
Proof.
  intros H H1 H2 p t Hp x Hx. inversion Hx; subst; [now apply L_intro|exfalso; eapply H1; reflexivity|..];
    exfalso; eapply H2; reflexivity.
Qed.
Lemma goody_seq l : Forall deep l -> goody (YSeq l).
Proof.
  intros H p t Hp x Hx. inversion Hx; subst; [now apply L_intro|].
  rewrite Forall_forall in H. eapply H; eassumption.
Qed.
Lemma goody_map m : good_pairs m -> goody (YMap m).
Proof.
  intros H p t Hp x Hx. unfold Inv.good_pairs in H. rewrite Forall_forall in H.
  inversion Hx as [| |? ? ? k v Hin Hk|? ? ? k v Hin Hk]; subst; [now apply L_intro|..];
    destruct (H _ Hin) as [A B]; simpl in A, B; auto.
Qed.
Lemma goody_of_deep n : deep n -> goody (n_yaml n).
Proof.
  intros H p t Hp x Hx. destruct n as [p0 t0 y]. cbn [n_yaml] in Hx.
  inversion Hx; subst.
  - cbn [n_pos n_yaml]. eapply L_pos; [apply (H _ (SubHere _))|exact Hp].
  - apply H. eapply SubSeq; eassumption.
  - apply H. eapply SubKey; eassumption.
  - apply H. eapply SubVal; eassumption.
Qed.
Lemma good_snoc m k v : good_pairs m -> deep k -> deep v -> good_pairs (m ++ [(k, v)]).
Proof. intros H Hk Hv. apply Forall_app. split; [exact H|]. repeat constructor; assumption. Qed.
Lemma take_good k m o r : good_pairs m -> map_take hk k m = Some (o, r) ->
  good_pairs r /\ match o with Some k' => deep k' | None => True end.
Proof.
  revert o r. induction m as [|[k' v] m IH]; simpl; intros o r H.
  - intros [= <- <-]. split; [constructor|exact Logic.I].
  - inversion H as [|? ? [Hk Hv] Hm]; subst. destruct (key_match hk k k') as [[]|]; [|..]; try discriminate.
    + intros [= <- <-]. auto.
    + destruct (map_take hk k m) as [[o' r']|] eqn:E; [|discriminate]. intros [= <- <-].
      destruct (IH _ _ Hm eq_refl) as [A B]. split; [constructor; auto|exact B].
Qed.
Lemma extend_good l : forall m m', good_pairs m -> good_pairs l -> map_extend hk m l = Some m' -> good_pairs m'.
Proof.
  induction l as [|[k v] l IH]; simpl; intros m m' Hm Hl.
  - now intros [= <-].
  - inversion Hl as [|? ? [Hk Hv] Hl']; subst. unfold map_insert.
    destruct (map_take hk k m) as [[[k'|] r]|] eqn:E; [..|discriminate];
      destruct (take_good _ _ _ _ Hm E) as [A B]; apply IH; auto; apply good_snoc; auto.
Qed.

Lemma sl_build_map (P : st -> Prop) E m : good_pairs m -> safe P T1 (fun y _ => goody y) E (build_map m).
Proof.
  intros Hm s Hs Ps. unfold build_map. pose proof Hs as (_ & _ & _ & _ & _ & _ & -> & _).
  destruct (map_collect hk m) as [l|] eqn:Ec; [|eapply PN_map; eassumption].
  split; [exact Hs|]. split; [apply R_refl|]. apply goody_map.
  eapply extend_good; [constructor|exact Hm|exact Ec].
Qed.
Lemma sl_alias (P : st -> Prop) E a : safe P T1 (fun y _ => goody y) E (alias_value a).
Proof.
  intros s Hs Ps. unfold alias_value. pose proof Hs as (_ & _ & _ & _ & _ & Hc & _ & Hw).
  destruct (l_cyclic s) eqn:Ec.
  - split; [exact Hs|]. split; [apply R_refl|]. apply goody_leaf; [simpl; congruence|discriminate..].
  - destruct (nth_error (l_anchors s) (l_doc_ind s)) as [cur|] eqn:Et.
    2: { destruct Hmd as [[K0 ->] |(_ & HP & _)]; [|exact HP]. destruct Hw as (Hi & c0 & Ha & _).
         rewrite Hi, Ha, nth_error_snoc in Et. discriminate. }
    destruct (bt_get a cur) as [n|] eqn:En.
    + split; [exact Hs|]. split; [apply R_refl|]. apply goody_of_deep.
      destruct Hmd as [[K0 ->] |(_ & _ & HD)]; [|apply HD]. destruct Hw as (Hi & c0 & Ha & Hg).
      rewrite Hi, Ha, nth_error_snoc in Et. injection Et as ->.
      apply bt_get_in in En as [k Hk]. destruct Hg as [Hg _]. rewrite Forall_forall in Hg. exact (Hg _ Hk).
    + exact (safe_err d cyc hk L PN bt md any T1 (fun (y : yaml) _ => goody y) E
        (lit "anchor referenced before definition") ltac:(named) s Hs Logic.I).
Qed.

(** The state after an unsuccessful try: the cursor is at the checkpoint, or at
    the end of the document (after a comment on the last line). *)
Definition AE (s : st) : Prop := AT s \/ p_pos s = List.length d.
Lemma AT_AE s : AT s -> AE s.
Proof. now left. Qed.

Lemma num_prefix_at_end s : in_doc s -> p_eaten s <= p_pos s -> p_pos s = List.length (p_doc s) ->
  num_prefix s = num_prefix (set_pos (p_eaten s) s)
  \/ num_prefix s = (RErr Mismatch, set_pos (p_eaten s) s).
Proof.
  intros H Hle He. set (s0 := set_pos (p_eaten s) s).
  assert (H0 : in_doc s0) by (unfold in_doc, s0 in *; simpl; lia).
  assert (E1 : ok (sym (chr "-")) s = (ROk None, s0)).
  { unfold ok. rewrite (sym_exec _ _ H). assert (Er : rem s = []).
    { apply length_zero_iff_nil. rewrite rem_length. lia. }
    now rewrite Er. }
  assert (E2 : num_prefix s = take_while is_digit (More 1) s0).
  { unfold num_prefix, unwrap_or, bind. rewrite E1. reflexivity. }
  rewrite E2. destruct (sym (chr "-") s0) as [[u|e| |] s1] eqn:E3; rewrite (sym_exec _ _ H0) in E3.
  - right. rewrite more_exec by assumption. destruct (rem s0) as [|x r] eqn:Er; [discriminate|].
    destruct (N.eqb_spec x (chr "-")) as [->|]; [|discriminate]. reflexivity.
  - left. unfold num_prefix, unwrap_or, ok, bind. rewrite (sym_exec _ _ H0).
    destruct (rem s0) as [|x r] eqn:Er; [reflexivity|]. destruct (N.eqb x (chr "-")); [discriminate|reflexivity].
  - destruct (rem s0); [discriminate|]. destruct (N.eqb _ _); discriminate.
  - destruct (rem s0); [discriminate|]. destruct (N.eqb _ _); discriminate.
Qed.
Lemma sb_at_end {A} (f : M A) (m : unit -> M A) (G : A -> st -> Prop) T :
  (forall s, f s = bind num_prefix m s) ->
  safe AT T G AT f -> safe AE T G AT f.
Proof.
  intros Hf Hm s Hs [Ps|Ps]; [now apply Hm|].
  pose proof Hs as (Ed & H1 & H2 & _).
  destruct (num_prefix_at_end s (I_in _ _ _ _ _ _ _ Hs) H1 ltac:(now rewrite Ed)) as [E|E].
  - assert (E' : f s = f (set_pos (p_eaten s) s)) by (rewrite !Hf; unfold bind; now rewrite E).
    rewrite E'. assert (Hs0 : Iv (set_pos (p_eaten s) s)) by (apply I_pos; [exact Hs|lia|lia]).
    specialize (Hm _ Hs0 eq_refl).
    destruct (f (set_pos (p_eaten s) s)) as [[a|[|nm msg]| |] s']; exact Hm.
  - rewrite Hf. unfold bind. rewrite E. split; [apply I_pos; [exact Hs|lia|lia]|].
    split; [apply R_pos|reflexivity].
Qed.
Lemma sl_float T : safe AE T (fun t _ => to_f64 t <> None) AT float.
Proof. eapply sb_at_end; [|apply sb_float]. intros s. reflexivity. Qed.

Lemma sl_gap T c : safe AT T (fun _ => any) AE (gap c).
Proof.
  intros s Hs Ps. rewrite (gap_exec c s (I_in _ _ _ _ _ _ _ Hs)).
  pose proof (sb_gap d cyc hk L PN bt md any T c s Hs Logic.I) as K.
  rewrite (gap_exec c s (I_in _ _ _ _ _ _ _ Hs)) in K.
  destruct (gap_f c (rem s)) as [[t k]|] eqn:G; [exact K|].
  destruct K as (K1 & K2 & _). split; [exact K1|]. split; [exact K2|].
  pose proof Hs as (Ed & H1 & H2 & _).
  destruct (gap_none_head _ _ G) as [E|E]; rewrite E.
  - left. unfold AT. simpl. rewrite Nat.add_0_r. exact Ps.
  - right. simpl. rewrite rem_length, Ed. lia.
Qed.

(** ** scalar_node *)
Lemma nth_error_upd {A} (l : list A) i x f : nth_error l i = Some x -> nth_error (upd_nth l i f) i = Some (f x).
Proof. revert i. induction l as [|y l IH]; intros [|i]; simpl; try discriminate; [now intros [= ->]|apply IH]. Qed.

Lemma sl_insert (P : st -> Prop) E an nd : deep nd ->
  safe P T1 (fun n _ => deep n) E
    (dup <- anchor_insert an nd ;;
     if (dup : bool) then err (lit "duplicated anchor definition") else ret nd).
Proof.
  intros Hd s Hs Ps. unfold bind, anchor_insert.
  pose proof Hs as (I1 & I2 & I3 & I4 & I5 & I6 & I7 & Hw).
  destruct (nth_error (l_anchors s) (l_doc_ind s)) as [cur|] eqn:Et.
  2: { destruct Hmd as [[K0 ->] |(_ & HP & _)]; [|exact HP]. destruct Hw as (Hi & c0 & Ha & _).
       rewrite Hi, Ha, nth_error_snoc in Et. discriminate. }
  set (s1 := set_anchors (upd_nth (l_anchors s) (l_doc_ind s) (bt_insert an nd)) s).
  assert (Hs1 : Iv s1).
  { unfold Inv.Iv. simpl. split; [exact I1|]. split; [exact I2|]. split; [exact I3|]. split; [exact I4|].
    split; [exact I5|]. split; [exact I6|]. split; [exact I7|].
    destruct Hmd as [[K0 ->] |(-> & _ & HD)]; [|exact Logic.I]. destruct Hw as (Hi & c0 & Ha & Hg).
    split; [exact Hi|]. rewrite Hi, Ha, nth_error_snoc in Et. injection Et as ->.
    rewrite Hi, Ha, upd_nth_snoc. eexists. split; [reflexivity|].
    destruct Hg as [Hg Hs0]. split; [|now apply bt_insert_sorted]. rewrite Forall_forall in *. intros x Hx.
    destruct (bt_insert_in _ _ _ _ Hx) as [->|Hx']; [exact Hd|auto]. }
  destruct (bt_get an cur) as [n0|] eqn:En.
  - pose proof (safe_err d cyc hk L PN bt md any T1 (fun (n : node) _ => deep n) (fun _ => False)
      (lit "duplicated anchor definition") ltac:(named) s1 Hs1 Logic.I) as K.
    unfold err in *. destruct (indicated_msg (p_doc s1) (indicator_of s1)) as [msg|]; exact K.
  - simpl. split; [exact Hs1|]. split; [|exact Hd]. split; [simpl; lia|].
    intros a n. unfold recorded, s1. simpl. rewrite (nth_error_upd _ _ _ _ Et), Et.
    now apply bt_insert_other.
Qed.

Lemma sl_bound_opt {X} (P E : st -> Prop) (a : list X) : (forall s, AT s -> E s) ->
  safe P T1 (fun _ => any) E (if is_nil a then ret tt else bound).
Proof.
  intros HE. destruct (is_nil a); [apply safe_ret; intros; exact Logic.I|].
  eapply safe_weaken; [apply (sb_bound d cyc hk L PN bt md P T1)|auto..].
Qed.
Lemma sl_node f (P E : st -> Prop) : (forall s, AT s -> E s) ->
  safe AT T1 (fun y _ => goody y) E f -> safe P T1 (fun n _ => deep n) E (scalar_node f).
Proof.
  intros HE Hf. unfold scalar_node.
  assert (Ku : forall (m : M str) (Q : st -> Prop), safe Q noT (fun _ => any) any m ->
    safe Q T1 (fun _ => any) E (unwrap_or [] m)).
  { intros m Q Hm. eapply safe_unwrap; [exact Hm|intros; exact Logic.I]. }
  eapply safe_bind; [apply Ku, sb_anchor|intros an1].
  eapply safe_bind; [now apply sl_bound_opt|intros ?].
  eapply safe_bind; [apply safe_forward|intros ?].
  eapply safe_bind; [apply Ku, (sb_tag d cyc hk L PN bt md PN_tag)|intros tg].
  eapply safe_bind; [now apply sl_bound_opt|intros ?].
  eapply safe_bind; [apply safe_forward|intros ?].
  eapply safe_bind; [apply Ku, sb_anchor|intros an2].
  eapply safe_bind with (G1 := fun _ => any).
  { destruct (is_nil an2); [apply safe_ret; intros; exact Logic.I|].
    destruct (is_nil an1); [|apply safe_err; named].
    eapply safe_bind; [|intros ?; apply (safe_ret _ _ _ _ _ _ _ any); intros; exact Logic.I].
    eapply safe_weaken; [apply (sb_bound d cyc hk L PN bt md any T1)|auto..]. }
  intros an.
  eapply safe_bind; [apply safe_forward|intros ?].
  eapply safe_bind with (G1 := fun p s => AT s /\ here d p).
  { intros s Hs Ps. split; [exact Hs|]. split; [apply R_refl|]. split; [exact Ps|].
    destruct Hs as (_ & _ & Hl & _ & (Hc & _) & _). unfold here, indicator_of. rewrite Hc. lia. }
  intros p. 
  eapply safe_bind with (G1 := fun y s => goody y /\ here d p).
  { intros s Hs [Ps Hp]. specialize (Hf s Hs Ps).
    destruct (f s) as [[y|[|nm msg]| |] s']; intuition. }
  intros y. intros s Hs [Hy Hp].
  assert (K : safe any T1 (fun n _ => deep n) E
     (forward ;;; let nd := Node p tg y in
      if is_nil an then ret nd
      else dup <- anchor_insert an nd ;;
           if (dup : bool) then err (lit "duplicated anchor definition") else ret nd)).
  { eapply safe_bind; [apply safe_forward|intros ?]. cbv zeta.
    destruct (is_nil an); [apply safe_ret; intros; now apply Hy|]. apply sl_insert. now apply Hy. }
  exact (K s Hs Logic.I).
Qed.

(** ** The recursive sub-parsers *)
Lemma sl_inv (P : st -> Prop) T E : safe P T (fun _ => any) E (inv (More 0)).
Proof. apply sb_more0. Qed.
Lemma sl_isok {A} (P : st -> Prop) T (G : A -> st -> Prop) E E' m :
  safe any noT G E m -> safe P T (fun _ => any) E' (is_ok m).
Proof. apply sb_isok. Qed.
Lemma sl_iserr {A} (P : st -> Prop) T (G : A -> st -> Prop) E E' m :
  safe any noT G E m -> safe P T (fun _ => any) E' (is_err m).
Proof. apply sb_iserr. Qed.
Lemma sl_ok {A} (P : st -> Prop) T E' (V : A -> Prop) E m :
  safe P noT (fun a _ => V a) E m ->
  safe P T (fun o _ => match o with Some a => V a | None => True end) E' (ok m).
Proof.
  clear Hmd PN_tag L_intro L_pos PN_map. intros H s Hs Ps. specialize (H s Hs Ps). unfold ok, noT in *.
  destruct (m s) as [[a|[|nm msg]| |] s']; intuition.
Qed.
Lemma sl_optok {A} (P : st -> Prop) T E' E (m : M A) :
  safe P noT (fun _ => any) E m -> safe P T (fun _ => any) E' (ok m).
Proof.
  clear Hmd PN_tag L_intro L_pos PN_map. intros H s Hs Ps. specialize (H s Hs Ps). unfold ok, noT, any in *.
  destruct (m s) as [[a|[|nm msg]| |] s']; intuition.
Qed.

(** first line of a block collection, or of a complex key *)
Lemma sl_head (map : bool) level (E : st -> Prop) : (forall s, AE s -> E s) ->
  safe AT T1 (fun _ => any) E
    (if map then gap true ;;; ind_define level
     else g <- is_ok (gap true) ;; if (g : bool) then ind level else ret tt).
Proof.
  intros HE. destruct map.
  - eapply safe_bind with (G1 := fun _ => any).
    + eapply safe_weaken; [apply (sl_gap T1 true)|auto..].
    + intros ?. eapply safe_weaken; [apply (sb_ind_define d cyc hk L PN bt md any T1 level)|auto..].
      intros s _ K. apply HE. now left.
  - eapply safe_bind; [eapply sl_isok, (sb_gap d cyc hk L PN bt md any)|intros []].
    + eapply safe_weaken; [apply (sb_ind0 d cyc hk L PN bt md any T1 level)|auto..].
      intros s _ K. apply HE. now left.
    + apply safe_ret; intros; exact Logic.I.
Qed.
Lemma sl_tail level (k : node) (P E : st -> Prop) : (forall s, AT s -> E s) -> deep k ->
  safe P T1 (fun n _ => deep n) E
    (g <- is_ok (gap true) ;; (if (g : bool) then ind level else ret tt) ;;; ret k).
Proof.
  intros HE Hk. eapply safe_bind; [eapply sl_isok, (sb_gap d cyc hk L PN bt md any)|intros g].
  eapply safe_bind with (G1 := fun _ => any); [|intros ?; apply safe_ret; auto].
  destruct g; [|apply safe_ret; intros; exact Logic.I].
  eapply safe_weaken; [apply (sb_ind0 d cyc hk L PN bt md any T1 level)|auto..].
Qed.
Lemma sl_or_err {A} (P E : st -> Prop) (G : A -> st -> Prop) E1 m nm : T1 nm ->
  safe P T1 G E1 m -> safe P T1 G E (or_else m (err nm)).
Proof. intros H Hm. eapply safe_or_else; [exact Hm|]. now apply safe_err. Qed.

Definition nodeG : node -> st -> Prop := fun n _ => deep n.
Definition yamlG : yaml -> st -> Prop := fun y _ => goody y.

Lemma sl_val {A} (V : Prop) T (G : A -> st -> Prop) E m :
  (V -> safe any T G E m) -> safe (fun _ => V) T G E m.
Proof. intros H s Hs Hv. exact (H Hv s Hs Logic.I). Qed.

Record all_safe (n : nat) : Prop := {
  as_scalar : forall (P : st -> Prop) level map flow, safe P T1 nodeG AT (scalar n level map flow);
  as_scalar_flow : forall (P : st -> Prop) level flow, safe P T1 nodeG AT (scalar_flow n level flow);
  as_scalar_term : forall level flow, safe AE T1 yamlG AT (scalar_term n level flow);
  as_seq_flow : forall (P : st -> Prop) level, safe P T1 yamlG any (seq_flow n level);
  as_seq_flow_loop : forall (P : st -> Prop) level v, Forall deep v -> safe P T1 yamlG any (seq_flow_loop n level v);
  as_map_flow : forall (P : st -> Prop) level, safe P T1 yamlG any (map_flow n level);
  as_map_flow_loop : forall (P : st -> Prop) level m, good_pairs m -> safe P T1 yamlG any (map_flow_loop n level m);
  as_seq : forall (P : st -> Prop) level map, safe P T1 yamlG AE (seq n level map);
  as_seq_loop : forall (P : st -> Prop) level map v, Forall deep v -> safe P T1 yamlG AE (seq_loop n level map v);
  as_map : forall (P : st -> Prop) level map flow, safe P T1 yamlG AE (map_ n level map flow);
  as_map_loop : forall (P : st -> Prop) level map flow m, good_pairs m ->
    safe P T1 yamlG AE (map_loop n level map flow m)
}.

Lemma good_str x : goody (YStr x).
Proof. apply goody_leaf; [exact Logic.I|discriminate..]. Qed.
Lemma good_plain x : goody (plain_value x).
Proof.
  unfold plain_value.
  repeat match goal with |- goody (if ?b then _ else _) => destruct b end;
    (apply goody_leaf; [simpl; auto; try discriminate|discriminate..]).
Qed.
Lemma good_null : goody YNull.
Proof. apply goody_leaf; [exact Logic.I|discriminate..]. Qed.

Lemma all_safe_all n : all_safe n.
Proof.
  induction n as [|n IH].
  { constructor; intros; apply safe_div. }
  constructor.
  - (* scalar *)
    intros P level map flow. cbn [scalar]. apply sl_node; [auto|].
    eapply safe_bind; [eapply sl_optok, (sb_literal d cyc hk L PN bt md AT)|intros [x|]];
      [apply safe_ret; intros; apply good_str|].
    eapply safe_bind; [eapply sl_optok, (sb_folded d cyc hk L PN bt md any)|intros [x|]];
      [apply safe_ret; intros; apply good_str|].
    eapply safe_or_else; [|apply (as_scalar_term n IH)].
    eapply safe_or_else; [apply (as_seq n IH)|apply (as_map n IH)].
  - (* scalar_flow *)
    intros P level flow. cbn [scalar_flow]. apply sl_node; [auto|].
    eapply safe_weaken; [apply (as_scalar_term n IH)|auto..]. intros; now left.
  - (* scalar_term *)
    intros level flow. cbn [scalar_term].
    eapply safe_bind; [apply safe_ok; apply sl_float|intros [x|]].
    { apply safe_ret. intros. apply goody_leaf; [assumption|discriminate..]. }
    eapply safe_bind; [apply safe_ok; apply (sb_sci d cyc hk L PN bt md)|intros [x|]].
    { apply safe_ret. intros. apply goody_leaf; [assumption|discriminate..]. }
    eapply safe_bind; [apply safe_ok; apply (sb_int d cyc hk L PN bt md)|intros [x|]].
    { apply safe_ret. intros. apply goody_leaf; [assumption|discriminate..]. }
    eapply safe_bind; [eapply sl_optok, (sb_anchor_use d cyc hk L PN bt md AT)|intros [x|]].
    { apply sl_alias. }
    eapply safe_bind; [eapply sl_optok, (sb_quoted d cyc hk L PN bt md any)|intros [x|]];
      [apply safe_ret; intros; apply good_str|].
    eapply safe_bind; [eapply sl_optok, (sb_quoted d cyc hk L PN bt md any)|intros [x|]];
      [apply safe_ret; intros; apply good_str|].
    eapply safe_bind; [eapply sl_optok, (sb_plain d cyc hk L PN bt md any)|intros [x|]];
      [apply safe_ret; intros; apply good_plain|].
    eapply safe_or_else; [|apply (safe_ret _ _ _ _ _ _ _ any); intros; apply good_null].
    eapply safe_or_else; [apply (as_seq_flow n IH)|apply (as_map_flow n IH)].
  - (* seq_flow *)
    intros P level. cbn [seq_flow].
    eapply safe_bind with (G1 := fun _ => any).
    { eapply safe_weaken; [apply (sb_sym d cyc hk L PN bt md P T1)|auto..]. intros; exact Logic.I. }
    intros ?. apply (as_seq_flow_loop n IH). constructor.
  - (* seq_flow_loop *)
    intros P level v Hv. cbn [seq_flow_loop].
    eapply safe_bind; [apply sl_inv|intros ?].
    eapply safe_bind; [apply safe_forward|intros ?].
    eapply safe_bind; [eapply sl_isok, (sb_sym d cyc hk L PN bt md any)|intros []].
    { eapply safe_bind; [apply safe_forward|intros ?]. apply safe_ret. intros. now apply goody_seq. }
    eapply safe_bind; [apply safe_forward|intros ?].
    eapply safe_bind; [eapply sl_or_err; [named|apply (as_scalar n IH)]|intros x]. cbv zeta.
    apply (sl_val (deep x)); intros Hx.
    assert (Hv' : Forall deep (v ++ [x])) by (apply Forall_app; auto).
    eapply safe_bind; [apply sl_inv|intros ?].
    eapply safe_bind; [eapply sl_iserr, (sb_sym d cyc hk L PN bt md any)|intros []].
    { eapply safe_bind; [apply sl_inv|intros ?].
      eapply safe_bind with (G1 := fun _ => any).
      { eapply safe_weaken; [apply (sb_sym d cyc hk L PN bt md any T1)|auto..]. intros; exact Logic.I. }
      intros ?. eapply safe_bind; [apply safe_forward|intros ?]. apply safe_ret. intros. now apply goody_seq. }
    now apply (as_seq_flow_loop n IH).
  - (* map_flow *)
    intros P level. cbn [map_flow].
    eapply safe_bind with (G1 := fun _ => any).
    { eapply safe_weaken; [apply (sb_sym d cyc hk L PN bt md P T1)|auto..]. intros; exact Logic.I. }
    intros ?. apply (as_map_flow_loop n IH). constructor.
  - (* map_flow_loop *)
    intros P level m Hm. cbn [map_flow_loop].
    eapply safe_bind; [apply sl_inv|intros ?].
    eapply safe_bind; [apply safe_forward|intros ?].
    eapply safe_bind; [eapply sl_isok, (sb_sym d cyc hk L PN bt md any)|intros []].
    { eapply safe_bind; [apply safe_forward|intros ?]. now apply sl_build_map. }
    eapply safe_bind; [apply safe_forward|intros ?].
    eapply safe_bind; [eapply sl_isok, (sb_complex d cyc hk L PN bt md any)|intros c].
    eapply safe_bind with (G1 := nodeG).
    { destruct c; [|eapply sl_or_err; [named|apply (as_scalar_flow n IH)]].
      eapply safe_bind; [apply safe_forward|intros ?].
      eapply safe_bind; [eapply sl_or_err; [named|apply (as_scalar n IH)]|intros k].
      apply (sl_val (deep k)); intros Hk. apply sl_tail; [intros; exact Logic.I|exact Hk]. }
    intros k. apply (sl_val (deep k)); intros Hk.
    eapply safe_bind; [eapply sl_iserr, (sb_sym d cyc hk L PN bt md any)|intros []]; [apply safe_err; named|].
    eapply safe_bind with (G1 := fun _ => any).
    { apply sb_any, sb_ctx_any, sb_unwrap_any, sb_bound_any. }
    intros ?. eapply safe_bind; [apply safe_forward|intros ?].
    eapply safe_bind; [eapply sl_or_err; [named|apply (as_scalar n IH)]|intros v]. cbv zeta.
    apply (sl_val (deep v)); intros Hv.
    assert (Hm' : good_pairs (m ++ [(k, v)])) by (now apply good_snoc).
    eapply safe_bind; [eapply sl_iserr, (sb_sym d cyc hk L PN bt md any)|intros []].
    { eapply safe_bind; [apply sl_inv|intros ?].
      eapply safe_bind with (G1 := fun _ => any).
      { eapply safe_weaken; [apply (sb_sym d cyc hk L PN bt md any T1)|auto..]. intros; exact Logic.I. }
      intros ?. eapply safe_bind; [apply safe_forward|intros ?]. now apply sl_build_map. }
    now apply (as_map_flow_loop n IH).
  - (* seq *)
    intros P level map. cbn [seq]. apply (as_seq_loop n IH). constructor.
  - (* seq_loop *)
    intros P level map v Hv. cbn [seq_loop].
    eapply safe_bind; [apply safe_forward|intros ?].
    eapply safe_bind with (G1 := fun _ => any).
    { destruct v as [|v0 v].
      - eapply safe_bind; [apply sl_head; auto|intros ?].
        eapply safe_bind with (G1 := fun _ => any).
        { eapply safe_weaken; [apply (sb_sym d cyc hk L PN bt md any T1)|auto using AT_AE..]. }
        intros ?. eapply safe_bind with (G1 := fun _ => any).
        { eapply safe_weaken; [apply (sb_bound d cyc hk L PN bt md any T1)|auto using AT_AE..]. }
        intros ?.
        apply (safe_ret _ _ _ _ _ _ _ any). intros; exact Logic.I.
      - eapply safe_bind with (G1 := fun _ => any).
        { eapply safe_andM; [eapply sl_iserr, (sb_gap d cyc hk L PN bt md any)|auto|].
          unfold notM. eapply safe_bind; [apply sb_doc_end|intros b]. apply safe_ret; intros; exact Logic.I. }
        intros []; [apply safe_err; named|].
        eapply safe_bind with (G1 := fun _ => any).
        { eapply safe_orM; [apply (sb_doc_end d cyc hk L PN bt md any)|auto|].
          eapply sl_iserr, sb_ind_any. }
        intros []; [apply safe_ret; intros; exact Logic.I|].
        eapply safe_bind with (G1 := fun _ => any).
        { eapply safe_orM; [eapply sl_iserr, sb_sym_any|auto|]. eapply sl_iserr, sb_bound_any. }
        intros []; [apply safe_ret; intros; exact Logic.I|].
        eapply safe_bind; [apply safe_forward|intros ?]. apply safe_ret; intros; exact Logic.I. }
    intros [].
    + eapply safe_bind; [apply safe_forward|intros ?].
      eapply safe_bind; [eapply sl_or_err; [named|apply (as_scalar n IH)]|intros x].
      intros s Hs Hx. 
      exact (as_seq_loop n IH any level map (v ++ [x]) ltac:(apply Forall_app; auto) s Hs Logic.I).
    + eapply safe_bind; [apply safe_backward|intros ?]. apply safe_ret. intros. now apply goody_seq.
  - (* map_ *)
    intros P level map flow. cbn [map_]. apply (as_map_loop n IH). constructor.
  - (* map_loop *)
    intros P level map flow m Hm. cbn [map_loop].
    eapply safe_bind; [apply safe_forward|intros ?].
    eapply safe_bind with (G1 := fun ko _ => match ko with
      | inl k => deep k | inr (Some y) => goody y | inr None => True end).
    { destruct m as [|m0 m].
      - eapply safe_bind; [apply sl_head; auto|intros ?].
        eapply safe_bind; [apply safe_forward|intros ?].
        eapply safe_bind; [eapply sl_isok, (sb_complex d cyc hk L PN bt md any)|intros c].
        eapply safe_bind with (G1 := nodeG).
        { destruct c.
          - eapply safe_bind; [apply safe_forward|intros ?].
            eapply safe_bind; [eapply sl_or_err; [named|apply (as_scalar n IH)]|intros k].
            intros s Hs Hk. exact (sl_tail level k any AE AT_AE Hk s Hs Logic.I).
          - eapply safe_weaken; [apply (as_scalar_flow n IH any)|auto using AT_AE..]. }
        intros k. apply (sl_val (deep k)); intros Hk.
        eapply safe_bind with (G1 := fun _ => any).
        { eapply safe_orM; [eapply sl_iserr, sb_sym_any|auto|]. eapply sl_iserr, sb_bound_any. }
        intros []; apply safe_ret; intros; [now apply goody_of_deep|exact Hk].
      - eapply safe_bind with (G1 := fun _ => any).
        { eapply safe_andM; [eapply sl_iserr, (sb_gap d cyc hk L PN bt md any)|auto|].
          unfold notM. eapply safe_bind; [apply sb_doc_end|intros b]. apply safe_ret; intros; exact Logic.I. }
        intros []; [apply safe_err; named|].
        eapply safe_bind with (G1 := fun _ => any).
        { eapply safe_orM; [apply (sb_doc_end d cyc hk L PN bt md any)|auto|].
          eapply sl_iserr, sb_ind_any. }
        intros []; [apply safe_ret; intros; exact Logic.I|].
        eapply safe_bind; [apply safe_forward|intros ?].
        eapply safe_bind; [eapply sl_isok, (sb_complex d cyc hk L PN bt md any)|intros c].
        eapply safe_bind with (G1 := nodeG).
        { destruct c; [|eapply sl_or_err; [named|apply (as_scalar_flow n IH)]].
          eapply safe_bind; [apply safe_forward|intros ?].
          eapply safe_bind; [eapply sl_or_err; [named|apply (as_scalar n IH)]|intros k].
          intros s Hs Hk. exact (sl_tail level k any AE AT_AE Hk s Hs Logic.I). }
        intros k. apply (sl_val (deep k)); intros Hk.
        eapply safe_bind with (G1 := fun _ => any).
        { eapply safe_orM; [eapply sl_iserr, sb_sym_any|auto|]. eapply sl_iserr, sb_bound_any. }
        intros []; [apply safe_err; named|apply safe_ret; intros; exact Hk]. }
    intros [k|[y|]].
    + apply (sl_val (deep k)); intros Hk.
      eapply safe_bind; [apply safe_forward|intros ?].
      eapply safe_bind; [eapply sl_or_err; [named|apply (as_scalar n IH)]|intros v].
      intros s Hs Hv.
      exact (as_map_loop n IH any level map flow (m ++ [(k, v)]) ltac:(now apply good_snoc) s Hs Logic.I).
    + apply safe_ret. auto.
    + eapply safe_bind; [apply safe_backward|intros ?]. now apply sl_build_map.
Qed.
End LoaderInv.
