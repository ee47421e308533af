(** * C19, C20: anchors and aliases. *)
From Verif Require Export PropParse.
Open Scope nat_scope.

Lemma bt_get_insert {V} k (v : V) m : bt_get k (bt_insert k v m) = Some v.
Proof.
  assert (Hr : str_eqb k k = true) by (now apply str_eqb_eq).
  induction m as [|[k' v'] m IH]; cbn [bt_insert]; [cbn [bt_get]; now rewrite Hr|].
  destruct (str_eqb k k') eqn:E; [cbn [bt_get]; now rewrite ?E, ?Hr|].
  destruct (str_ltb k k'); cbn [bt_get]; [now rewrite Hr|now rewrite E].
Qed.

(** ** C19: an alias *)
Lemma num_len_star l : num_len (42%N :: l) = 0.
Proof. reflexivity. Qed.
Lemma term_alias n level flow s name rest : in_doc s -> p_eaten s = p_pos s ->
  rem s = 42%N :: name ++ rest -> name_at name rest ->
  scalar_term (S n) level flow s = alias_value name (set_pos (p_pos s + 1 + List.length name) s).
Proof.
  intros H He Er Hn. cbn [scalar_term].
  assert (Hs : set_pos (p_eaten s) s = s) by (rewrite He; now destruct s).
  assert (F : forall m : M str, (forall s1, exists k, m s1 = bind num_prefix k s1) ->
    ok m s = (ROk None, s)).
  { intros m Hm. unfold ok. destruct (Hm s) as [k ->]. unfold bind.
    rewrite (num_prefix_exec s H He), Er. reflexivity. }
  assert (F1 : ok float s = (ROk None, s)) by (apply F; intros s1; eexists; reflexivity).
  assert (F2 : ok sci_float s = (ROk None, s)) by (apply F; intros s1; eexists; reflexivity).
  assert (F3 : ok int s = (ROk None, s)) by (apply F; intros s1; eexists; reflexivity).
  unfold bind at 1. rewrite F1. unfold bind at 1. rewrite F2. unfold bind at 1. rewrite F3.
  unfold bind at 1. unfold ok at 1.
  destruct (C17_names s H) as [_ [K _]]. rewrite (proj2 (K name (set_pos (p_pos s + 1 + List.length name) s))); [reflexivity|].
  exists rest. auto.
Qed.

(** An alias [*name] read at the checkpoint: in direct mode the value recorded
    for the name in the current document, or the error; in cyclic mode an alias
    node. *)
Theorem C19_alias : forall hk cyc d s n level flow name rest tab,
  reached hk cyc d s -> p_eaten s = p_pos s ->
  skipn (p_pos s) d = 42%N :: name ++ rest -> name_at name rest ->
  nth_error (l_anchors s) (l_doc_ind s) = Some tab ->
  let after := set_pos (p_pos s + 1 + List.length name) s in
  (cyc = true -> scalar_term (S n) level flow s = (ROk (YAlias name), after))
  /\ (cyc = false -> forall nd, bt_get name tab = Some nd ->
        scalar_term (S n) level flow s = (ROk (n_yaml nd), after))
  /\ (cyc = false -> bt_get name tab = None -> exists msg,
        scalar_term (S n) level flow s
        = (RErr (Terminate (lit "anchor referenced before definition") msg), after)).
Proof.
  intros hk cyc d s n level flow name rest tab Hr He Ed Hn Ht after.
  pose proof (reached_Iv _ _ _ _ Hr) as Hs. pose proof Hs as (Hd & H1 & H2 & _ & _ & Hc & _).
  assert (H : in_doc s) by (eapply I_in; exact Hs).
  assert (Er : rem s = 42%N :: name ++ rest) by (unfold rem; now rewrite Hd).
  rewrite (term_alias n level flow s name rest H He Er Hn). fold after.
  unfold alias_value. cbn [l_cyclic l_anchors l_doc_ind after set_pos]. rewrite Hc, Ht.
  split; [intros ->; reflexivity|]. split.
  - intros -> nd ->. reflexivity.
  - intros -> ->. assert (Hsa : Iv d false hk (fun _ _ => True) [] Wild after).
    { apply I_pos; [exact Hs|lia|]. pose proof (rem_length s) as HL. rewrite Er, Hd in HL. simpl in HL. rewrite app_length in HL. lia. }
    pose proof (safe_err d false hk (fun _ _ => True) False [] Wild any (fun _ => True)
      (fun (_ : yaml) _ => False) (fun _ => False)
      (lit "anchor referenced before definition") Logic.I after Hsa Logic.I) as K.
    unfold err in *. change (p_doc after) with (p_doc s). 
    destruct (indicated_msg _ _) as [msg|]; [exists msg; reflexivity|contradiction].
Qed.

(** ** C20: recording *)
Section Record.
Variable d : bytes.
Variable cyc : bool.
Variable hk : hasher.
Local Notation L := (fun _ _ => True).
Local Notation Iv := (Iv d cyc hk L [] Wild).
Local Notation safe := (safe d cyc hk L True [] Wild).

Lemma safe_got {A} P T (G : A -> st -> Prop) E m s a s' : safe P T G E m -> Iv s -> P s ->
  m s = (ROk a, s') -> Iv s' /\ R s s' /\ G a s'.
Proof. intros H Hs Hp K. specialize (H s Hs Hp). now rewrite K in H. Qed.
Lemma bind_ok_inv {A B} (m : M A) (f : A -> M B) s b s' : bind m f s = (ROk b, s') ->
  exists a s1, m s = (ROk a, s1) /\ f a s1 = (ROk b, s').
Proof. unfold bind. destruct (m s) as [[a|e| |] s1]; intros K; try discriminate. eauto. Qed.

Lemma node_records f s nd s' name rest : 
  safe AT T1 (fun _ _ => True) any f ->
  Iv s -> rem s = 38%N :: name ++ rest -> name_at name rest ->
  scalar_node f s = (ROk nd, s') -> recorded s name = None /\ recorded s' name = Some nd.
Proof.
  intros Hf Hs Er Hn K. unfold scalar_node in K.
  assert (Hi : in_doc s) by (eapply I_in; exact Hs).
  assert (Hne : is_nil name = false) by (destruct Hn as ((x & t & -> & _) & _); reflexivity).
  assert (Ku : forall (m : M str) (Q : st -> Prop), safe Q noT (fun _ => any) any m ->
    safe Q T1 (fun _ => any) any (unwrap_or [] m)).
  { intros m Q Hm. eapply safe_unwrap; [exact Hm|intros; exact Logic.I]. }
  apply bind_ok_inv in K as (a1 & s1 & E1 & K).
  assert (a1 = name).
  { destruct (C17_names s Hi) as [[K1 _] _]. unfold unwrap_or, ok, bind in E1.
    rewrite (proj2 (K1 name (set_pos (p_pos s + 1 + List.length name) s))) in E1; [|exists rest; auto]. now injection E1. }
  subst a1. eapply safe_got in E1 as (I1 & R1 & _); [|apply Ku, (sb_anchor d cyc hk L True [] Wild any noT)|exact Hs|exact Logic.I].
  rewrite Hne in K.
  apply bind_ok_inv in K as (? & s2 & E2 & K).
  eapply safe_got in E2 as (I2 & R2 & _); [|apply (sb_bound d cyc hk L True [] Wild any noT)|exact I1|exact Logic.I].
  apply bind_ok_inv in K as (? & s3 & E3 & K).
  eapply safe_got in E3 as (I3 & R3 & _); [|apply (safe_forward d cyc hk L True [] Wild any noT any)|exact I2|exact Logic.I].
  apply bind_ok_inv in K as (tg & s4 & E4 & K).
  eapply safe_got in E4 as (I4 & R4 & _); [|apply Ku, (sb_tag d cyc hk L True [] Wild ltac:(auto) any noT)|exact I3|exact Logic.I].
  apply bind_ok_inv in K as (? & s5 & E5 & K).
  eapply safe_got in E5 as (I5 & R5 & _);
    [|apply (sl_bound_opt d cyc hk L True [] Wild any any tg); intros; exact Logic.I|exact I4|exact Logic.I].
  apply bind_ok_inv in K as (? & s6 & E6 & K).
  eapply safe_got in E6 as (I6 & R6 & _); [|apply (safe_forward d cyc hk L True [] Wild any noT any)|exact I5|exact Logic.I].
  apply bind_ok_inv in K as (a2 & s7 & E7 & K).
  eapply safe_got in E7 as (I7 & R7 & _); [|apply Ku, (sb_anchor d cyc hk L True [] Wild any noT)|exact I6|exact Logic.I].
  apply bind_ok_inv in K as (an & s8 & E8 & K).
  assert (an = name /\ s8 = s7) as [-> ->].
  { destruct (is_nil a2); [now injection E8|]. try rewrite Hne in E8. unfold err in E8.
    destruct (indicated_msg _ _); discriminate. }
  apply bind_ok_inv in K as (? & s9 & E9 & K).
  eapply safe_got in E9 as (I9 & R9 & At9); [|apply (safe_forward d cyc hk L True [] Wild any noT any)|exact I7|exact Logic.I].
  apply bind_ok_inv in K as (p & s10 & E10 & K). injection E10 as <- <-.
  apply bind_ok_inv in K as (y & s11 & E11 & K).
  eapply safe_got in E11 as (I11 & R11 & _); [|exact Hf|exact I9|exact At9].
  apply bind_ok_inv in K as (? & s12 & E12 & K).
  eapply safe_got in E12 as (I12 & R12 & _); [|apply (safe_forward d cyc hk L True [] Wild any noT any)|exact I11|exact Logic.I].
  cbv zeta in K. rewrite Hne in K. apply bind_ok_inv in K as (dup & s13 & E13 & K).
  unfold anchor_insert in E13.
  destruct (nth_error (l_anchors s12) (l_doc_ind s12)) as [tab|] eqn:Et; [|discriminate].
  injection E13 as <- <-.
  destruct (bt_get name tab) as [n0|] eqn:Eg.
  { unfold err in K. destruct (indicated_msg _ _); discriminate. }
  injection K as <- <-. split.
  - destruct (recorded s name) as [n0|] eqn:Er0; [|reflexivity]. exfalso.
    assert (RR : R s s12) by (repeat (eapply R_trans; [eassumption|]); apply R_refl).
    destruct RR as [_ RR]. specialize (RR _ _ Er0). unfold recorded in RR. rewrite Et in RR. congruence.
  - unfold recorded. cbn [l_anchors l_doc_ind set_anchors]. rewrite (nth_error_upd _ _ _ _ Et).
    apply bt_get_insert.
Qed.
End Record.

(** A node read with an anchor: the name was free in the current document, and
    afterwards the node itself is recorded under it. *)
Theorem C20_recorded_once : forall hk cyc d s name rest,
  reached hk cyc d s ->
  skipn (p_pos s) d = 38%N :: name ++ rest -> name_at name rest ->
  forall n level map flow nd s',
  scalar n level map flow s = (ROk nd, s') \/ scalar_flow n level flow s = (ROk nd, s') ->
  recorded s name = None /\ recorded s' name = Some nd.
Proof.
  intros hk cyc d s name rest Hr Ed Hn n level map flow nd s' K.
  pose proof (reached_Iv _ _ _ _ Hr) as Hs. pose proof Hs as (Hd & _).
  assert (Er : rem s = 38%N :: name ++ rest) by (unfold rem; now rewrite Hd).
  destruct n as [|n]; [destruct K; discriminate|].
  pose proof (all_wild d cyc hk n) as W.
  destruct K as [K|K]; cbn [scalar scalar_flow] in K.
  - eapply node_records; [|exact Hs|exact Er|exact Hn|exact K].
    eapply safe_bind; [eapply sl_optok, (sb_literal d cyc hk (fun _ _ => True) True [] Wild AT)|intros [x|]];
      [apply safe_ret; auto|].
    eapply safe_bind; [eapply sl_optok, (sb_folded d cyc hk (fun _ _ => True) True [] Wild any)|intros [x|]];
      [apply safe_ret; auto|].
    eapply safe_weaken.
    { eapply safe_or_else; [|apply (as_scalar_term _ _ _ _ _ _ _ _ W)].
      eapply safe_or_else; [apply (as_seq _ _ _ _ _ _ _ _ W any)|apply (as_map _ _ _ _ _ _ _ _ W)]. }
    all: intros; try exact Logic.I; auto.
  - eapply node_records; [|exact Hs|exact Er|exact Hn|exact K].
    eapply safe_weaken; [apply (as_scalar_term _ _ _ _ _ _ _ _ W)|..]; intros; try exact Logic.I; auto.
    now left.
Qed.

(** What is recorded stays recorded, unchanged, through every call that returns a
    value or a mismatch (that is, unless the parse fails), except that [doc] and
    [parse] move on to the next document. *)
Fixpoint within_document (c : call) : Prop :=
  match c with
  | CParse _ | CDoc _ => False
  | CContext c | CCount c => within_document c
  | _ => True
  end.

Section Stays.
Variable d : bytes.
Variable cyc : bool.
Variable hk : hasher.
Local Notation L := (fun _ _ => True).
Local Notation Iv := (Iv d cyc hk L [] Wild).
Local Notation safe := (safe d cyc hk L True [] Wild).

Lemma sl_term_any n level flow : safe any T1 (fun _ _ => True) any (scalar_term n level flow).
Proof.
  destruct n as [|n]; [apply safe_div|]. cbn [scalar_term].
  assert (Gb : forall m : M str, gb_at m -> safe any T1 (fun _ => any) any (ok m)).
  { intros m Hm. eapply sl_optok. eapply safe_gb. exact Hm. }
  eapply safe_bind; [apply Gb, at_float|intros [x|]]; [apply safe_ret; auto|].
  eapply safe_bind; [apply Gb, at_sci|intros [x|]]; [apply safe_ret; auto|].
  eapply safe_bind; [apply Gb, at_int|intros [x|]]; [apply safe_ret; auto|].
  eapply safe_bind; [eapply sl_optok, (sb_anchor_use d cyc hk L True [] Wild any)|intros [x|]].
  { eapply safe_weaken; [apply (sl_alias d cyc hk L True []) with (P := any) (E := any)|..]; auto.
    right. repeat split; auto. }
  eapply safe_bind; [eapply sl_optok, (sb_quoted d cyc hk L True [] Wild any)|intros [x|]]; [apply safe_ret; auto|].
  eapply safe_bind; [eapply sl_optok, (sb_quoted d cyc hk L True [] Wild any)|intros [x|]]; [apply safe_ret; auto|].
  eapply safe_bind; [eapply sl_optok, (sb_plain d cyc hk L True [] Wild any)|intros [x|]]; [apply safe_ret; auto|].
  eapply safe_or_else; [|apply (safe_ret _ _ _ _ _ _ _ any); auto].
  pose proof (all_wild d cyc hk n) as W.
  eapply safe_weaken.
  { eapply safe_or_else; [apply (as_seq_flow _ _ _ _ _ _ _ _ W any)|apply (as_map_flow _ _ _ _ _ _ _ _ W)]. }
  all: intros; try exact Logic.I; auto.
Qed.

Definition stays_rec {A} (m : M A) : Prop :=
  forall s, Iv s ->
  match m s with
  | (ROk _, s') | (RErr Mismatch, s') => forall a n, recorded s a = Some n -> recorded s' a = Some n
  | _ => True
  end.
Lemma sr_safe {A} T (G : A -> st -> Prop) E m : safe any T G E m -> stays_rec m.
Proof.
  intros H s Hs. specialize (H s Hs Logic.I). destruct (m s) as [[a|[|nm msg]| |] s']; try exact Logic.I.
  - apply H.
  - apply H.
Qed.
Lemma sr_void {A} (m : M A) : stays_rec m -> stays_rec (void m).
Proof.
  intros H s Hs. specialize (H s Hs). unfold void, bind. destruct (m s) as [[a|[|nm msg]| |] s']; exact H.
Qed.
Lemma sr_gb {A} (m : M A) : gb_at m -> stays_rec m.
Proof. intros H. eapply sr_safe, safe_gb with (T := noT). exact H. Qed.
Lemma sr_call c : within_document c -> stays_rec (run_call c).
Proof.
  induction c; cbn [run_call within_document]; intros Hw; try contradiction; try apply sr_void.
  - eapply sr_safe, safe_forward with (T := noT) (E := any).
  - eapply sr_safe, safe_backward with (T := noT) (E := any).
  - intros s Hs. rewrite (food_exec _ (I_in _ _ _ _ _ _ _ Hs)). auto.
  - eapply sr_safe, (sb_text0 d cyc hk L True [] Wild any noT any).
  - eapply sr_safe, (sb_take d cyc hk L True [] Wild any noT).
  - eapply sr_safe, (sb_sym d cyc hk L True [] Wild any noT).
  - eapply sr_safe, (sb_take d cyc hk L True [] Wild any noT).
  - apply sr_gb, at_sym_seq.
  - eapply sr_safe, (sb_ind0 d cyc hk L True [] Wild any noT).
  - eapply sr_safe, (sb_ind_define d cyc hk L True [] Wild any noT).
  - eapply sr_safe, (sb_bound d cyc hk L True [] Wild any noT).
  - eapply sr_safe, (sb_complex d cyc hk L True [] Wild any noT).
  - apply sr_gb, at_int.
  - apply sr_gb, at_float.
  - apply sr_gb, at_sci.
  - eapply sr_safe, (sb_quoted d cyc hk L True [] Wild any noT).
  - eapply sr_safe, (sb_plain d cyc hk L True [] Wild any noT).
  - eapply sr_safe, (sb_literal d cyc hk L True [] Wild any noT).
  - eapply sr_safe, (sb_folded d cyc hk L True [] Wild any noT).
  - eapply sr_safe, (sb_chomp d cyc hk L True [] Wild any noT any).
  - eapply sr_safe, (sb_wrapped d cyc hk L True [] Wild any noT).
  - eapply sr_safe, (sb_identifier d cyc hk L True [] Wild any noT).
  - eapply sr_safe, (sb_tag d cyc hk L True [] Wild (PNt d) any noT).
  - eapply sr_safe, (sb_anchor d cyc hk L True [] Wild any noT).
  - eapply sr_safe, (sb_anchor_use d cyc hk L True [] Wild any noT).
  - eapply sr_safe, (sb_take d cyc hk L True [] Wild any noT).
  - eapply sr_safe, (sb_nl d cyc hk L True [] Wild any noT).
  - eapply sr_safe, (sb_take d cyc hk L True [] Wild any noT).
  - eapply sr_safe, (sb_gap d cyc hk L True [] Wild any noT).
  - unfold comment. eapply (sr_safe noT (fun _ => any) any).
    repeat (apply sb_bind_any; [apply sb_take_any|intros ?]). apply sb_take_any.
  - eapply sr_safe, (sb_directive d cyc hk L True [] Wild).
  - eapply sr_safe, (sb_doc_end d cyc hk L True [] Wild any noT any).
  - intros s Hs. unfold context. specialize (IHc Hw _ (I_fwd _ _ _ _ _ _ _ Hs)).
    destruct (run_call c (set_eaten (p_pos s) s)) as [[a|[|nm msg]| |] s1]; exact IHc.
  - intros s Hs. unfold count, bind, gets. specialize (IHc Hw s Hs).
    destruct (run_call c s) as [[a|[|nm msg]| |] s1]; try exact IHc.
    destruct (Nat.leb _ _); [exact IHc|exact Logic.I].
  - eapply sr_safe, (as_scalar _ _ _ _ _ _ _ _ (all_wild d cyc hk n)).
  - eapply sr_safe, (as_scalar_flow _ _ _ _ _ _ _ _ (all_wild d cyc hk n)).
  - eapply sr_safe, sl_term_any.
  - eapply sr_safe, (as_seq_flow _ _ _ _ _ _ _ _ (all_wild d cyc hk n)).
  - eapply sr_safe, (as_map_flow _ _ _ _ _ _ _ _ (all_wild d cyc hk n)).
  - eapply sr_safe, (as_seq _ _ _ _ _ _ _ _ (all_wild d cyc hk n)).
  - eapply sr_safe, (as_map _ _ _ _ _ _ _ _ (all_wild d cyc hk n)).
Qed.
End Stays.

Theorem C20_never_overwritten : forall hk cyc d s c r s' name nd,
  reached hk cyc d s -> within_document c ->
  run_call c s = (r, s') -> (exists u, r = ROk u) \/ r = RErr Mismatch ->
  recorded s name = Some nd -> recorded s' name = Some nd.
Proof.
  intros hk cyc d s c r s' name nd Hr Hw E Hres Hn.
  pose proof (sr_call d cyc hk c Hw s (reached_Iv _ _ _ _ Hr)) as K. rewrite E in K.
  destruct Hres as [[u ->]| ->]; auto.
Qed.

(** Between documents ([doc_ind] tables for [doc_ind] documents) reading one more
    document adds one table and leaves those of the documents before it alone. *)
Theorem C20_other_documents_untouched : forall hk cyc d s n nd s',
  reached hk cyc d s -> l_doc_ind s = List.length (l_anchors s) ->
  doc n s = (ROk nd, s') ->
  exists tab, l_anchors s' = l_anchors s ++ [tab] /\ l_doc_ind s' = List.length (l_anchors s').
Proof.
  intros hk cyc d s n nd s' Hr Hi E.
  assert (Hs : Iv d cyc hk (fun _ _ => True) (l_anchors s) (Closed (fun _ => False)) s).
  { apply reached_Iv in Hr. unfold Inv.Iv in *. destruct Hr as (A1 & A2 & A3 & A4 & (A5 & _) & A6 & A7 & _). repeat split; auto. intros k []. }
  assert (K : docs_ok d cyc hk (fun _ _ => True) True (fun _ => False)
    (fun nd new => deep (fun _ _ => True) nd /\ List.length new = 1) (l_anchors s) (doc n s))
    by (apply doc_ok; auto).
  rewrite E in K. destruct K as (new & [_ Hl] & _ & Hs'). 
  destruct Hs' as (_ & _ & _ & _ & _ & _ & _ & Hi' & Ha').
  destruct new as [|tab [|]]; try discriminate. exists tab. now rewrite Ha'.
Qed.
(** a parse keeps to such states: it ends between documents *)
Theorem C20_parse_between_documents : forall hk cyc d n v s,
  parse_fuel n (new_st hk cyc d) = (ROk v, s) -> l_doc_ind s = List.length (l_anchors s).
Proof.
  intros hk cyc d n v s E.
  assert (K : docs_ok d cyc hk (fun _ _ => True) True (fun _ => False)
    (fun v new => Forall (deep (fun _ _ => True)) v /\ List.length v = List.length new /\ v <> []) []
    (parse_fuel n (new_st hk cyc d))) by (apply (parse_ok _ _ _ _ _ (fun _ => False)); auto; intros ? ? ? []).
  rewrite E in K. destruct K as (new & _ & _ & Hs').
  destruct Hs' as (_ & _ & _ & _ & _ & _ & _ & Hi' & Ha'). now rewrite Ha'.
Qed.

(** Examples: a second definition is refused, one document cannot use the anchor
    of another, and the hypotheses of the theorems above are met in a parse. *)
Example C20_example :
  (exists msg, parse (fun _ => 0%N) (lit "- &x a" ++ [10%N] ++ lit "- &x b" ++ [10%N])
     = RErr (Terminate (lit "duplicated anchor definition") msg))
  /\ (exists msg, parse (fun _ => 0%N) (lit "&x a" ++ [10%N] ++ lit "--- *x" ++ [10%N])
     = RErr (Terminate (lit "anchor referenced before definition") msg)).
Proof. split; eexists; vm_compute; reflexivity. Qed.

(** The hypotheses of C19 are met: a document in which [doc] stopped at an unknown
    alias, the cursor moved back to the alias. *)
Example C19_example : let d := lit "- &x a" ++ [10%N] ++ lit "- *y" ++ [10%N] in
  exists s tab, reached (fun _ => 0%N) false d s
  /\ p_eaten s = p_pos s /\ skipn (p_pos s) d = 42%N :: lit "y" ++ [10%N] /\ name_at (lit "y") [10%N]
  /\ nth_error (l_anchors s) (l_doc_ind s) = Some tab /\ bt_get (lit "x") tab <> None.
Proof.
  cbv zeta.
  pose proof (ReachNew (fun _ => 0%N) false (lit "- &x a" ++ [10%N] ++ lit "- *y" ++ [10%N])) as H.
  apply (reach_run _ _ _ (CDoc 40)) in H. vm_compute in H.
  apply (reach_run _ _ _ CBackward) in H. vm_compute in H.
  eexists _, _. split; [exact H|]. split; [reflexivity|]. split; [reflexivity|].
  split; [|split; [reflexivity|vm_compute; discriminate]].
  split; [exists 121%N, []; repeat split; auto|vm_compute; intros [K|K]; discriminate].
Qed.
