(** * C01: the cursor stays inside the document, for every sequence of calls. *)
From Verif Require Export InvParse.
Open Scope nat_scope.

(** The public sub-parsers and cursor operations of [Parser] and [Loader]; the
    recursive ones with any amount of fuel [n]. *)
Inductive call :=
| CForward | CBackward | CFood | CText
| CTakeWhile (f : N -> bool) (opt : take_opt)
| CSym (c : N) | CSymSet (cs : bytes) | CSymSeq (cs : bytes)
| CInd (level : nat) | CIndDefine (level : nat)
| CBound | CComplexMapping | CInt | CFloat | CSciFloat
| CStringQuoted (q : N) (ignore : bytes) | CStringPlain (level : nat) (inner : bool)
| CStringLiteral (level : nat) | CStringFolded (level : nat) | CChomp
| CStringWrapped (level : nat) (sep : N) (leading : bool)
| CIdentifier | CTag | CAnchor | CAnchorUse
| CWs (opt : take_opt) | CNl | CInv (opt : take_opt) | CGap (cmt : bool) | CComment
| CDirective | CDocEnd
| CContext (c : call) | CCount (c : call)
| CParse (n : nat) | CDoc (n : nat)
| CScalar (n level : nat) (map flow : bool) | CScalarFlow (n level : nat) (flow : bool)
| CScalarTerm (n level : nat) (flow : bool)
| CSeqFlow (n level : nat) | CMapFlow (n level : nat)
| CSeq (n level : nat) (map : bool) | CMap (n level : nat) (map flow : bool).

(** forget the result of a call *)
Definition void {A} (m : M A) : M unit := bind m (fun _ => ret tt).
Fixpoint run_call (c : call) : M unit :=
  match c with
  | CForward => forward | CBackward => backward | CFood => void food | CText => void text
  | CTakeWhile f opt => take_while f opt
  | CSym c => sym c | CSymSet cs => sym_set cs | CSymSeq cs => sym_seq cs
  | CInd l => ind l | CIndDefine l => ind_define l
  | CBound => bound | CComplexMapping => complex_mapping
  | CInt => void int | CFloat => void float | CSciFloat => void sci_float
  | CStringQuoted q ig => void (string_quoted q ig) | CStringPlain l i => void (string_plain l i)
  | CStringLiteral l => void (string_literal l) | CStringFolded l => void (string_folded l)
  | CChomp => void chomp | CStringWrapped l sep ld => void (string_wrapped l sep ld)
  | CIdentifier => identifier | CTag => void tag | CAnchor => void anchor | CAnchorUse => void anchor_use
  | CWs o => ws o | CNl => nl | CInv o => inv o | CGap b => void (gap b) | CComment => comment
  | CDirective => directive | CDocEnd => void doc_end
  | CContext c => context (run_call c) | CCount c => void (count (run_call c))
  | CParse n => void (parse_fuel n) | CDoc n => void (doc n)
  | CScalar n l m f => void (scalar n l m f) | CScalarFlow n l f => void (scalar_flow n l f)
  | CScalarTerm n l f => void (scalar_term n l f)
  | CSeqFlow n l => void (seq_flow n l) | CMapFlow n l => void (map_flow n l)
  | CSeq n l m => void (seq n l m) | CMap n l m f => void (map_ n l m f)
  end.

(** [returns c s s']: the call comes back, with a result or with an error. *)
Definition returns (c : call) (s s' : st) : Prop :=
  match run_call c s with
  | (ROk _, s1) | (RErr _, s1) => s' = s1
  | (RPanic, _) | (RDiv, _) => False
  end.
(** The states a program can reach by calling sub-parsers on a new parser. *)
Inductive reached (hk : hasher) (cyc : bool) (d : bytes) : st -> Prop :=
| ReachNew : reached hk cyc d (new_st hk cyc d)
| ReachCall c s s' : reached hk cyc d s -> returns c s s' -> reached hk cyc d s'.

Section Kept.
Variable d : bytes.
Variable cyc : bool.
Variable hk : hasher.
Local Notation L := (fun _ _ => True).
Local Notation Iv := (Iv d cyc hk L [] Wild).
Local Notation safe := (safe d cyc hk L True [] Wild).

Definition kept {A} (m : M A) : Prop :=
  forall s, Iv s ->
  match m s with
  | (ROk _, s') | (RErr _, s') => Iv s' /\ p_eaten s <= p_eaten s'
  | _ => True
  end.
Lemma kept_safe {A} T (G : A -> st -> Prop) E m : safe any T G E m -> kept m.
Proof.
  intros H s Hs. specialize (H s Hs Logic.I). destruct (m s) as [[a|[|nm msg]| |] s']; try exact Logic.I.
  - split; apply H.
  - split; apply H.
  - split; apply H.
Qed.
Lemma kept_bind {A B} (m : M A) (f : A -> M B) : kept m -> (forall a, kept (f a)) -> kept (bind m f).
Proof.
  intros Hm Hf s Hs. specialize (Hm s Hs). unfold bind.
  destruct (m s) as [[a|e| |] s1]; try exact Hm. destruct Hm as [H1 H2].
  specialize (Hf a s1 H1). destruct (f a s1) as [[b|e| |] s2]; auto; split; [apply Hf|lia|apply Hf|lia].
Qed.
Lemma kept_ret {A} (a : A) : kept (ret a).
Proof. intros s Hs. simpl. auto. Qed.
Lemma kept_void {A} (m : M A) : kept m -> kept (void m).
Proof. intros H. apply kept_bind; [exact H|intros; apply kept_ret]. Qed.
Lemma kept_context {A} (m : M A) : kept m -> kept (context m).
Proof.
  intros Hm s Hs. unfold context. specialize (Hm _ (I_fwd _ _ _ _ _ _ _ Hs)).
  destruct (m (set_eaten (p_pos s) s)) as [[a|e| |] s1]; try exact Hm; destruct Hm as [H1 H2].
  - split; [now apply I_ctx|simpl; lia].
  - split; [now apply I_ctx|simpl; lia].
Qed.
Lemma kept_count {A} (m : M A) : kept m -> kept (count m).
Proof.
  intros Hm. unfold count. apply kept_bind; [intros s Hs; simpl; auto|intros p].
  apply kept_bind; [exact Hm|intros _ s Hs]. destruct (Nat.leb _ _); [auto|exact Logic.I].
Qed.
Lemma kept_ok {A} (m : M A) : kept m -> kept (ok m).
Proof. intros Hm s Hs. specialize (Hm s Hs). unfold ok. destruct (m s) as [[a|e| |] s1]; exact Hm. Qed.
Lemma kept_is_ok {A} (m : M A) : kept m -> kept (is_ok m).
Proof. intros Hm s Hs. specialize (Hm s Hs). unfold is_ok. destruct (m s) as [[a|e| |] s1]; exact Hm. Qed.
Lemma kept_is_err {A} (m : M A) : kept m -> kept (is_err m).
Proof. intros Hm. apply kept_bind; [now apply kept_is_ok|intros; apply kept_ret]. Qed.
Lemma kept_unwrap {A} a (m : M A) : kept m -> kept (unwrap_or a m).
Proof. intros Hm. apply kept_bind; [now apply kept_ok|intros; apply kept_ret]. Qed.
Lemma kept_or_else {A} (m f : M A) : kept m -> kept f -> kept (or_else m f).
Proof.
  intros Hm Hf s Hs. specialize (Hm s Hs). unfold or_else.
  destruct (m s) as [[a|[|nm msg]| |] s1]; try exact Hm. destruct Hm as [H1 H2].
  specialize (Hf s1 H1). destruct (f s1) as [[b|e| |] s2]; auto; split; [apply Hf|lia|apply Hf|lia].
Qed.
Lemma kept_forward : kept forward.
Proof. eapply kept_safe, safe_forward with (T := noT) (E := any). Qed.
Lemma kept_backward : kept backward.
Proof. eapply kept_safe, safe_backward with (T := noT) (E := any). Qed.
Lemma kept_gb {A} (m : M A) : gb_at m -> kept m.
Proof. intros H. eapply kept_safe, safe_gb with (T := noT). exact H. Qed.
Lemma kept_err {A} nm : kept (@err A nm).
Proof.
  eapply kept_safe, safe_err with (T := fun _ => True) (G := fun _ => any) (E := any). exact Logic.I.
Qed.

Lemma PNt : forall k, handle_in d k -> ~ known Wild k -> True. Proof. auto. Qed.
Lemma all_wild n : all_safe d cyc hk L True [] Wild n.
Proof.
  apply all_safe_all; auto. right. repeat split; auto.
Qed.
Lemma kept_term : forall n level flow, kept (scalar_term n level flow).
Proof.
  intros [|n] level flow; [intros s Hs; exact Logic.I|]. cbn [scalar_term].
  assert (K : forall m : M yaml, kept m -> forall y, kept m /\ kept (ret (A := yaml) y)) by (auto using kept_ret).
  repeat (apply kept_bind;
    [apply kept_ok; first [apply kept_gb; first [apply at_float|apply at_sci|apply at_int]
      | eapply kept_safe, (sb_anchor_use d cyc hk L True [] Wild any noT)
      | eapply kept_safe, (sb_quoted d cyc hk L True [] Wild any noT)
      | eapply kept_safe, (sb_plain d cyc hk L True [] Wild any noT)]
    |intros [?x|]; [first [apply kept_ret|idtac]|]]).
  - eapply kept_safe, (sl_alias d cyc hk L True []) with (E := any); auto. right. repeat split; auto.
  - apply kept_or_else; [apply kept_or_else|apply kept_ret].
    + eapply kept_safe, (as_seq_flow _ _ _ _ _ _ _ _ (all_wild n)).
    + eapply kept_safe, (as_map_flow _ _ _ _ _ _ _ _ (all_wild n)).
Qed.
Lemma kept_gap b : kept (gap b).
Proof. eapply kept_safe, (sb_gap d cyc hk L True [] Wild any noT). Qed.
Lemma kept_seq cs : kept (sym_seq cs).
Proof. apply kept_gb, at_sym_seq. Qed.
Lemma kept_bound : kept bound.
Proof. eapply kept_safe, (sb_bound d cyc hk L True [] Wild any noT). Qed.
Lemma kept_scalar n l m f : kept (scalar n l m f).
Proof. eapply kept_safe, (as_scalar _ _ _ _ _ _ _ _ (all_wild n)). Qed.
Lemma kept_doc n : kept (doc n).
Proof.
  unfold doc. apply kept_bind; [apply kept_context, kept_unwrap, kept_bound|intros _].
  apply kept_bind; [apply kept_forward|intros _].
  apply kept_bind; [intros s Hs; split; [exact Hs|simpl; lia]|intros _].
  apply kept_bind; [apply kept_scalar|intros r].
  apply kept_bind; [apply kept_unwrap, kept_gap|intros _].
  apply kept_bind; [apply kept_unwrap, kept_seq|intros _].
  apply kept_bind; [apply kept_forward|intros _].
  apply kept_bind; [intros s Hs; split; [exact Hs|simpl; lia]|intros _]. apply kept_ret.
Qed.
Lemma kept_food : kept food.
Proof. intros s Hs. rewrite (food_exec _ (I_in _ _ _ _ _ _ _ Hs)). auto. Qed.
Lemma kept_directive : kept directive.
Proof. eapply kept_safe, (sb_directive d cyc hk L True [] Wild). Qed.
Lemma kept_docs_loop n : forall k v, kept (docs_loop k n v).
Proof.
  induction k as [|k IH]; intros v; [intros s Hs; exact Logic.I|]. cbn [docs_loop].
  apply kept_bind; [apply kept_unwrap, kept_gap|intros _].
  apply kept_bind; [apply kept_food|intros [|c r]]; [apply kept_ret|].
  apply kept_bind; [apply kept_is_err, kept_seq|intros []]; [apply kept_err|].
  apply kept_bind; [apply kept_doc|intros nd; apply IH].
Qed.
Lemma kept_directives n : kept (directives n).
Proof.
  induction n as [|n IH]; intros s Hs; [exact Logic.I|]. cbn [directives].
  pose proof (kept_context _ kept_directive s Hs) as K.
  destruct (context directive s) as [[u|[|nm msg]| |] s1]; try exact K.
  destruct K as [H1 H2]. specialize (IH s1 H1).
  destruct (directives n s1) as [[b|e| |] s2]; auto; split; [apply IH|lia|apply IH|lia].
Qed.
Lemma kept_parse n : kept (parse_fuel n).
Proof.
  unfold parse_fuel. apply kept_bind; [apply kept_directives|intros _].
  apply kept_bind; [apply kept_unwrap, kept_gap|intros _].
  apply kept_bind; [apply kept_unwrap, kept_seq|intros _].
  apply kept_bind; [apply kept_doc|intros nd; apply kept_docs_loop].
Qed.

Lemma kept_call c : kept (run_call c).
Proof.
  induction c; cbn [run_call]; try apply kept_void.
  - apply kept_forward.
  - apply kept_backward.
  - apply kept_food.
  - eapply kept_safe, (sb_text0 d cyc hk L True [] Wild any noT any).
  - eapply kept_safe, (sb_take d cyc hk L True [] Wild any noT).
  - eapply kept_safe, (sb_sym d cyc hk L True [] Wild any noT).
  - eapply kept_safe, (sb_take d cyc hk L True [] Wild any noT).
  - apply kept_seq.
  - eapply kept_safe, (sb_ind0 d cyc hk L True [] Wild any noT).
  - eapply kept_safe, (sb_ind_define d cyc hk L True [] Wild any noT).
  - apply kept_bound.
  - eapply kept_safe, (sb_complex d cyc hk L True [] Wild any noT).
  - apply kept_gb, at_int.
  - apply kept_gb, at_float.
  - apply kept_gb, at_sci.
  - eapply kept_safe, (sb_quoted d cyc hk L True [] Wild any noT).
  - eapply kept_safe, (sb_plain d cyc hk L True [] Wild any noT).
  - eapply kept_safe, (sb_literal d cyc hk L True [] Wild any noT).
  - eapply kept_safe, (sb_folded d cyc hk L True [] Wild any noT).
  - eapply kept_safe, (sb_chomp d cyc hk L True [] Wild any noT any).
  - eapply kept_safe, (sb_wrapped d cyc hk L True [] Wild any noT).
  - eapply kept_safe, (sb_identifier d cyc hk L True [] Wild any noT).
  - eapply kept_safe, (sb_tag d cyc hk L True [] Wild PNt any noT).
  - eapply kept_safe, (sb_anchor d cyc hk L True [] Wild any noT).
  - eapply kept_safe, (sb_anchor_use d cyc hk L True [] Wild any noT).
  - eapply kept_safe, (sb_take d cyc hk L True [] Wild any noT).
  - eapply kept_safe, (sb_nl d cyc hk L True [] Wild any noT).
  - eapply kept_safe, (sb_take d cyc hk L True [] Wild any noT).
  - apply kept_gap.
  - unfold comment. repeat (apply kept_bind; [|intros _]);
      (eapply kept_safe, (sb_take d cyc hk L True [] Wild any noT)).
  - apply kept_directive.
  - eapply kept_safe, (sb_doc_end d cyc hk L True [] Wild any noT any).
  - now apply kept_context.
  - now apply kept_count.
  - apply kept_parse.
  - apply kept_doc.
  - apply kept_scalar.
  - eapply kept_safe, (as_scalar_flow _ _ _ _ _ _ _ _ (all_wild n)).
  - apply kept_term.
  - eapply kept_safe, (as_seq_flow _ _ _ _ _ _ _ _ (all_wild n)).
  - eapply kept_safe, (as_map_flow _ _ _ _ _ _ _ _ (all_wild n)).
  - eapply kept_safe, (as_seq _ _ _ _ _ _ _ _ (all_wild n)).
  - eapply kept_safe, (as_map _ _ _ _ _ _ _ _ (all_wild n)).
Qed.
Lemma reached_Iv s : reached hk cyc d s -> Iv s.
Proof.
  induction 1 as [|c s s' Hs IH Hr].
  - unfold Inv.Iv. cbn. repeat split; try discriminate; try lia. intros k [].
  - pose proof (kept_call c s IH) as K. unfold returns in Hr.
    destruct (run_call c s) as [[a|e| |] s1]; try contradiction; subst; apply K.
Qed.
End Kept.

(** C01: in every state reachable by any sequence of sub-parser calls, the
    document is the one given, and checkpoint <= position <= length.  Hence
    [food] and [text] slice inside the document. *)
Theorem C01_cursor_in_document : forall hk cyc d s,
  reached hk cyc d s ->
  p_doc s = d /\ p_eaten s <= p_pos s /\ p_pos s <= List.length d.
Proof. intros hk cyc d s H. apply reached_Iv in H as (A & B & C & _). auto. Qed.

Theorem C01_checkpoint_never_back : forall hk cyc d s c s',
  reached hk cyc d s -> returns c s s' -> p_eaten s <= p_eaten s'.
Proof.
  intros hk cyc d s c s' H Hr. pose proof (kept_call d cyc hk c s (reached_Iv _ _ _ _ H)) as K.
  unfold returns in Hr. destruct (run_call c s) as [[a|e| |] s1]; try contradiction; subst; apply K.
Qed.

Theorem C01_slices_in_range : forall hk cyc d s,
  reached hk cyc d s ->
  food s = (ROk (skipn (p_pos s) d), s)
  /\ text s = (ROk (utf8_lossy (firstn (p_pos s - p_eaten s) (skipn (p_eaten s) d))), s).
Proof.
  intros hk cyc d s H. destruct (C01_cursor_in_document _ _ _ _ H) as (Ed & H1 & H2).
  assert (Hi : in_doc s) by (unfold in_doc; now rewrite Ed).
  split; [rewrite (food_exec _ Hi); unfold rem; now rewrite Ed|].
  rewrite (text_exec _ Hi). unfold slice. now rewrite Ed.
Qed.

(** A non-trivial reachable state: checkpoint 2, position 3. *)
Lemma reach_run hk cyc d c s : reached hk cyc d s ->
  match run_call c s with (ROk _, s1) | (RErr _, s1) => reached hk cyc d s1 | _ => True end.
Proof.
  intros H. destruct (run_call c s) as [[a|e| |] s1] eqn:E; auto;
    (eapply (ReachCall _ _ _ c); [exact H|]; unfold returns; now rewrite E).
Qed.
Example C01_reached_example :
  exists s, reached (fun _ => 0%N) false (lit "- a: b") s /\ p_eaten s = 2 /\ p_pos s = 3.
Proof.
  pose proof (ReachNew (fun _ => 0%N) false (lit "- a: b")) as H.
  apply (reach_run _ _ _ (CSym 45)) in H. cbn in H.
  apply (reach_run _ _ _ (CWs (More 1))) in H. cbn in H.
  apply (reach_run _ _ _ CForward) in H. cbn in H.
  apply (reach_run _ _ _ (CSym 97)) in H. cbn in H.
  eexists. split; [exact H|split; reflexivity].
Qed.
