(** * InvBase: the sub-parsers of Parser keep the invariant of Inv.v. *)
From Verif Require Export Inv.
Open Scope nat_scope.

Section Base.
Variable d : bytes.
Variable cyc : bool.
Variable hk : hasher.
Variable L : N -> yaml -> Prop.
Variable PN : Prop.
Variable bt : list anchors_t.
Variable open : mode.

Local Notation safe := (safe d cyc hk L PN bt open).
Local Notation Iv := (Iv d cyc hk L bt open).

Lemma sb_take P T f opt : safe P T (fun _ => any) AT (take_while f opt).
Proof. apply safe_gb, at_take. Qed.
Lemma at_sym_seq cs : gb_at (sym_seq cs).
Proof. induction cs as [|c cs IH]; [apply at_ret|]. apply at_bind; [apply at_take|auto]. Qed.
Lemma sb_sym P T c : safe P T (fun _ => any) AT (sym c).
Proof. apply sb_take. Qed.
Lemma sb_sym_seq P T cs : safe P T (fun _ => any) AT (sym_seq cs).
Proof. apply safe_gb, at_sym_seq. Qed.
Lemma sb_bound P T : safe P T (fun _ => any) AT bound.
Proof. apply safe_gb, at_bound_m. Qed.
Lemma at_identifier : gb_at identifier.
Proof. apply at_bind; intros; apply at_take. Qed.
Lemma sb_identifier P T : safe P T (fun _ => any) AT identifier.
Proof. apply safe_gb, at_identifier. Qed.
Lemma sb_complex P T : safe P T (fun _ => any) AT complex_mapping.
Proof. apply safe_gb. apply at_bind; [apply at_take|intros; apply at_bound_m]. Qed.

Lemma sb_more0 (P : st -> Prop) T (E : st -> Prop) f :
  safe P T (fun _ => any) E (take_while f (More 0)).
Proof.
  intros s Hs Ps. rewrite more0_exec by (eapply I_in; exact Hs).
  split; [|split; [apply R_pos|exact Logic.I]]. pose proof Hs as (Ed & H1 & H2 & _).
  apply I_pos; [exact Hs|lia|]. pose proof (span_le f (rem s)) as K. rewrite rem_length, Ed in K. lia.
Qed.
Lemma sb_pure {A} (P : st -> Prop) T (E : st -> Prop) (m : M A) (f : st -> A) :
  (forall s, in_doc s -> m s = (ROk (f s), s)) -> safe P T (fun a s => P s /\ a = f s) E m.
Proof.
  intros Hm s Hs Ps. rewrite Hm by (eapply I_in; exact Hs). split; [exact Hs|]. split; [apply R_refl|auto].
Qed.
Lemma sb_text (P : st -> Prop) T (E : st -> Prop) :
  safe P T (fun a s => P s /\ a = utf8_lossy (slice (p_eaten s) (p_pos s) (p_doc s))) E text.
Proof. apply sb_pure. intros s H. now apply text_exec. Qed.
Lemma sb_text0 (P : st -> Prop) T (E : st -> Prop) : safe P T (fun _ => P) E text.
Proof.
  eapply safe_weaken; [apply (sb_text P T E)|..]; auto. intros a s _ [H _]; exact H.
Qed.
Lemma sb_food (P : st -> Prop) T (E : st -> Prop) : safe P T (fun a s => P s /\ a = rem s) E food.
Proof. apply sb_pure. intros s H. now apply food_exec. Qed.

Lemma sb_nl (P : st -> Prop) T : safe P T (fun _ => any) P nl.
Proof.
  intros s Hs Ps. rewrite nl_exec by (eapply I_in; exact Hs). destruct (Nat.eqb _ 0).
  - split; [exact Hs|]. split; [apply R_refl|exact Ps].
  - split; [|split; [apply R_pos|exact Logic.I]]. pose proof Hs as (Ed & H1 & H2 & _).
    apply I_pos; [exact Hs|lia|]. pose proof (nl_len_le (rem s)) as K. rewrite rem_length, Ed in K. lia.
Qed.
Lemma sb_gap (P : st -> Prop) T c : safe P T (fun _ => any) any (gap c).
Proof.
  intros s Hs Ps. rewrite gap_exec by (eapply I_in; exact Hs). pose proof Hs as (Ed & H1 & H2 & _).
  destruct (gap_f c (rem s)) as [[t k]|] eqn:G.
  - apply gap_f_le in G as (G & _). rewrite rem_length, Ed in G.
    split; [apply I_pos; [exact Hs|lia|lia]|]. split; [apply R_pos|exact Logic.I].
  - pose proof (gap_head_le c (rem s)) as K. rewrite rem_length, Ed in K.
    split; [apply I_pos; [exact Hs|lia|lia]|]. split; [apply R_pos|exact Logic.I].
Qed.
Lemma ind_norm_len level l : List.length (ind_norm level l) = level + 1.
Proof.
  unfold ind_norm. destruct (Nat.leb_spec (List.length l) level) as [H|H].
  - rewrite app_length, repeat_length. lia.
  - rewrite firstn_length. lia.
Qed.
Lemma ind_norm_ne level l : ind_norm level l <> [].
Proof. intros K. pose proof (ind_norm_len level l) as H. rewrite K in H. simpl in H. lia. Qed.

Lemma sb_ind (P : st -> Prop) T level :
  safe P T (fun _ s => List.length (p_indent s) = level + 1) AT (ind level).
Proof.
  intros s Hs Ps. rewrite ind_exec by (eapply I_in; exact Hs). pose proof Hs as (Ed & H1 & H2 & _).
  assert (HI : Iv (set_indent (ind_table level s) s)) by (apply I_ind; [exact Hs|apply ind_norm_ne]).
  assert (HR : R s (set_indent (ind_table level s) s)) by apply R_ind.
  destruct (Nat.leb_spec (ind_width level s) (sp_len (rem s))) as [W|W].
  - assert (K : sp_len (rem s) <= List.length (rem s)) by apply span_le. rewrite rem_length, Ed in K.
    split; [apply I_pos; [exact HI|simpl; lia|lia]|]. split; [eapply R_trans; [exact HR|apply R_pos]|].
    apply ind_norm_len.
  - split; [apply I_pos; [exact HI|simpl; lia|lia]|]. split; [eapply R_trans; [exact HR|apply R_pos]|].
    reflexivity.
Qed.
Lemma sb_ind0 (P : st -> Prop) T level : safe P T (fun _ => any) AT (ind level).
Proof.
  eapply safe_weaken; [apply (sb_ind P T level)|..]; auto; intros; exact Logic.I.
Qed.
Lemma sb_ind_any T level : safe any T (fun _ => any) any (ind level).
Proof. eapply safe_weaken; [apply (sb_ind any T level)|..]; auto; intros; exact Logic.I. Qed.
Lemma sb_ind_define (P : st -> Prop) T level : safe P T (fun _ => any) AT (ind_define level).
Proof.
  unfold ind_define.
  eapply safe_bind with (G1 := fun _ s => 0 < level -> List.length (p_indent s) = level).
  { destruct (Nat.ltb_spec 0 level) as [L0|L0].
    - eapply safe_weaken; [apply (sb_ind P T (level - 1))|..]; auto. simpl. intros _ s _ H. lia.
    - apply safe_ret. intros s _ _ K. lia. }
  intros ?. eapply safe_bind with (G1 := fun _ s => 0 < level -> List.length (p_indent s) = level).
  { intros s Hs Ps. unfold count, bind, gets. rewrite more0_exec by (eapply I_in; exact Hs). cbn [p_pos set_pos].
    rewrite (proj2 (Nat.leb_le _ _)) by lia. pose proof Hs as (Ed & H1 & H2 & _).
    pose proof (span_le is_ascii_ws (rem s)) as K. rewrite rem_length, Ed in K.
    split; [apply I_pos; [exact Hs|lia|lia]|]. split; [apply R_pos|exact Ps]. }
  intros i s Hs Ps. pose proof Hs as (Ed & H1 & H2 & Hi & _).
  destruct (Nat.eqb_spec level (List.length (p_indent s))) as [E|E].
  { split; [apply I_ind; [exact Hs|]|split; [apply R_ind|exact Logic.I]].
    intros K. apply app_eq_nil in K as [K _]. contradiction. }
  destruct (Nat.ltb_spec level (List.length (p_indent s))) as [E'|E'].
  - split; [apply I_ind; [exact Hs|]|split; [apply R_ind|exact Logic.I]].
    destruct (p_indent s) as [|x l]; [contradiction|]. destruct level; discriminate.
  - exfalso. destruct level as [|level].
    + destruct (p_indent s); [contradiction|simpl in E'; lia].
    + specialize (Ps ltac:(lia)). lia.
Qed.

(** ** Strings *)
Lemma sb_any {A} (P : st -> Prop) T (G : A -> st -> Prop) E m :
  safe any T G E m -> safe P T G E m.
Proof. intros H. eapply safe_weaken; [exact H|..]; auto. intros; exact Logic.I. Qed.

Lemma sb_isok {A} (P : st -> Prop) T (G : A -> st -> Prop) E E' m :
  safe any noT G E m -> safe P T (fun _ => any) E' (is_ok m).
Proof.
  intros H s Hs Ps. specialize (H s Hs Logic.I). unfold is_ok, noT in *.
  destruct (m s) as [[a|[|nm msg]| |] s']; unfold any; intuition.
Qed.
Lemma sb_iserr {A} (P : st -> Prop) T (G : A -> st -> Prop) E E' m :
  safe any noT G E m -> safe P T (fun _ => any) E' (is_err m).
Proof.
  intros H s Hs Ps. specialize (H s Hs Logic.I). unfold is_err, is_ok, bind, ret, noT in *.
  destruct (m s) as [[a|[|nm msg]| |] s']; unfold any; intuition.
Qed.

Lemma sb_quoted_loop T E q ig : forall n (P : st -> Prop) v, safe P T (fun _ => any) E (quoted_loop n q ig v).
Proof.
  induction n as [|n IH]; intros P v; cbn [quoted_loop]; [apply safe_div|].
  eapply safe_bind; [apply safe_forward|intros ?].
  eapply safe_bind; [apply sb_more0|intros ?].
  eapply safe_bind; [apply sb_text0|intros tx]. cbv zeta.
  eapply safe_bind; [apply safe_forward|intros ?].
  eapply safe_bind; [eapply safe_is_ok with (G' := any); [apply sb_sym_seq|auto]|intros []]; [apply IH|].
  eapply safe_bind; [eapply safe_ok; apply sb_gap|intros [t|]].
  - eapply safe_bind; [apply sb_more0|intros ?]. apply IH.
  - eapply safe_bind; [eapply safe_is_ok with (G' := any); [apply sb_sym|auto]|intros []]; [apply IH|].
    eapply safe_bind; [eapply safe_is_ok with (G' := any); [apply sb_sym|auto]|intros []]; [|apply IH].
    apply safe_ret. intros; exact Logic.I.
Qed.
Lemma sb_quoted (P : st -> Prop) T q ig : safe P T (fun _ => any) any (string_quoted q ig).
Proof.
  unfold string_quoted. apply (safe_context0 _ _ _ _ _ _ _ P T (fun _ => True) AT).
  eapply safe_bind; [apply sb_sym|intros ?].
  eapply safe_bind; [apply safe_forward|intros ?].
  eapply safe_bind; [apply sb_more0|intros ?].
  eapply safe_bind; [apply sb_text0|intros v].
  eapply safe_bind; [apply safe_gets|intros n]. apply sb_quoted_loop.
Qed.

Lemma sb_plain_loop T E level inner : forall n (P : st -> Prop) v b,
  safe P T (fun _ => any) E (plain_loop n level inner v b).
Proof.
  induction n as [|n IH]; intros P v b; cbn [plain_loop]; [apply safe_div|].
  eapply safe_bind; [apply safe_forward|intros ?].
  eapply safe_bind; [apply sb_more0|intros ?].
  eapply safe_bind; [apply sb_text0|intros tx]. cbv zeta.
  eapply safe_bind; [apply safe_forward|intros ?].
  eapply safe_bind with (G1 := fun _ => any).
  { apply safe_orM with (G1 := fun _ => any); [|auto|].
    { eapply safe_bind; [apply sb_food|intros fd]. apply safe_ret. intros; exact Logic.I. }
    apply safe_orM with (G1 := fun _ => any); [|auto|].
    { eapply sb_isok, sb_sym_seq. }
    apply safe_orM with (G1 := fun _ => any); [|auto|].
    { apply safe_andM with (G1 := fun _ => any); [|auto|].
      - eapply sb_isok, sb_sym.
      - eapply sb_isok, sb_nl. }
    eapply sb_isok, sb_sym_seq. }
  intros [].
  { eapply safe_bind; [apply safe_backward|intros ?]. apply safe_ret. intros; exact Logic.I. }
  eapply safe_bind; [apply safe_forward|intros ?].
  eapply safe_bind; [eapply safe_is_ok with (G' := any); [apply sb_take|auto]|intros []].
  { eapply safe_bind; [apply sb_text0|intros t2]. apply IH. }
  eapply safe_bind with (G1 := fun _ => any).
  { destruct (negb inner && negb _).
    - eapply sb_isok, sb_take.
    - apply safe_ret. intros; exact Logic.I. }
  intros [].
  { eapply safe_bind; [apply sb_text0|intros t2]. apply IH. }
  eapply safe_bind; [eapply safe_is_err with (G' := any); [apply sb_ind0|auto]|intros []]; [|apply IH].
  eapply safe_bind; [eapply safe_ok; apply sb_gap|intros [t|]].
  - eapply safe_bind; [eapply safe_is_err with (G' := any); [apply sb_ind0|auto]|intros []]; [|apply IH].
    apply safe_ret. intros; exact Logic.I.
  - apply safe_ret. intros; exact Logic.I.
Qed.
Lemma sb_plain (P : st -> Prop) T level inner : safe P T (fun _ => any) any (string_plain level inner).
Proof.
  unfold string_plain. apply (safe_context0 _ _ _ _ _ _ _ P T (fun _ => True) any).
  eapply safe_bind; [apply safe_gets|intros n].
  eapply safe_bind; [apply sb_plain_loop|intros v]. cbv zeta.
  destruct (trim_end v); [apply safe_fail|apply safe_ret]; intros; exact Logic.I.
Qed.

Lemma sb_chomp (P : st -> Prop) T E : safe P T (fun _ => any) E chomp.
Proof.
  unfold chomp. eapply safe_context with (P' := any) (G' := fun _ => any) (E' := fun _ => False).
  - eapply safe_bind; [eapply safe_is_ok with (G' := any); [apply sb_sym|auto]|intros []];
      [apply safe_ret; intros; exact Logic.I|].
    eapply safe_bind; [eapply safe_is_ok with (G' := any); [apply sb_sym|auto]|intros []];
      apply safe_ret; intros; exact Logic.I.
  - intros; exact Logic.I.
  - intros; exact Logic.I.
  - intros s s' _ _ [].
Qed.

(** After the loop of a block scalar at least one line break has been passed. *)
Lemma sb_wrapped_loop T p0 sep leading level : forall n (P : st -> Prop) v,
  (forall s, Iv s -> P s -> p0 <= p_pos s) ->
  safe P T (fun _ s => p0 + 1 <= p_eaten s) (fun s => p0 <= p_pos s) (wrapped_loop n level sep leading v).
Proof.
  induction n as [|n IH]; intros P v HP; cbn [wrapped_loop]; [apply safe_div|].
  eapply safe_bind with (G1 := fun _ s => p0 + 1 <= p_pos s).
  { intros s Hs Ps. specialize (HP s Hs Ps). rewrite nl_exec by (eapply I_in; exact Hs).
    destruct (Nat.eqb_spec (nl_len (rem s)) 0) as [Z|Z].
    - split; [exact Hs|]. split; [apply R_refl|exact HP].
    - split; [|split; [apply R_pos|simpl; lia]]. pose proof Hs as (Ed & H1 & H2 & _).
      apply I_pos; [exact Hs|lia|]. pose proof (nl_len_le (rem s)) as K. rewrite rem_length, Ed in K. lia. }
  intros ?. set (Q := fun s : st => p0 + 1 <= p_eaten s).
  eapply safe_bind with (G1 := fun _ => Q).
  { intros s Hs Ps. simpl. split; [now apply I_fwd|]. split; [eapply R_fwd; exact Hs|exact Ps]. }
  (* from here on the checkpoint only grows *)
  assert (MONO_OK : forall A (m : M A), safe any noT (fun _ => any) any m ->
            safe Q T (fun _ => Q) (fun s => p0 <= p_pos s) (ok m)
            /\ safe Q T (fun _ => Q) (fun s => p0 <= p_pos s) (is_err m)).
  { intros A m Hm. split; intros s Hs Ps; specialize (Hm s Hs Logic.I).
    - unfold ok. destruct (m s) as [[x|[|nm msg]| |] s']; try exact Hm;
        destruct Hm as (HI & HR & ?); try (destruct H; contradiction);
        split; auto; split; auto; unfold Q in *; destruct HR as [HR _]; lia.
    - unfold is_err, is_ok, bind, ret. destruct (m s) as [[x|[|nm msg]| |] s']; try exact Hm;
        destruct Hm as (HI & HR & ?); try (destruct H; contradiction);
        split; auto; split; auto; unfold Q in *; destruct HR as [HR _]; lia. }
  intros ?.
  eapply safe_bind; [apply MONO_OK; apply sb_ind_any|].
  intros e.
  eapply safe_bind with (G1 := fun _ => Q).
  { destruct e; [|apply safe_ret; auto].
    eapply safe_bind; [apply MONO_OK; apply sb_gap|]. intros [t|]; [|apply safe_ret; auto].
    eapply safe_bind; [apply MONO_OK; apply sb_ind_any|].
    intros e. apply safe_ret. auto. }
  intros [v' stop]. destruct stop; [apply safe_ret; auto|].
  eapply safe_bind with (G1 := fun _ => Q).
  { intros s Hs Ps. simpl. split; [now apply I_fwd|]. split; [eapply R_fwd; exact Hs|].
    unfold Q in *. cbn [p_eaten set_eaten]. destruct Hs as (_ & ? & _). lia. }
  intros ?. eapply safe_bind with (G1 := fun _ => Q).
  { intros s Hs Ps. pose proof (sb_more0 any T (fun _ => False) (not_in [10; 13]%N) s Hs Logic.I) as K.
    rewrite more0_exec in * by (eapply I_in; exact Hs). destruct K as (? & ? & _). auto. }
  intros ?. eapply safe_bind; [apply sb_text0|intros t]. cbv zeta. apply IH.
  intros s (_ & ? & _) Ps. unfold Q in Ps. lia.
Qed.
Lemma sb_wrapped (P : st -> Prop) T level sep leading :
  safe P T (fun _ => any) any (string_wrapped level sep leading).
Proof.
  intros s Hs Ps. unfold string_wrapped, context. set (s1 := set_eaten (p_pos s) s).
  assert (H1 : Iv s1) by (apply I_fwd; exact Hs).
  set (n := loop_fuel s1). unfold bind at 1, gets at 1. fold n.
  pose proof (sb_wrapped_loop T (p_pos s) sep leading level n (fun s' => s' = s1) []) as HW.
  assert (HP : forall s', Iv s' -> s' = s1 -> p_pos s <= p_pos s') by (intros s' _ ->; simpl; lia).
  specialize (HW HP s1 H1 eq_refl). unfold bind.
  destruct (wrapped_loop n level sep leading [] s1) as [[v|[|nm msg]| |] s']; try exact HW.
  - destruct HW as (HI & HR & HE). unfold back, ret. pose proof HI as (Ed & K1 & K2 & _).
    rewrite (proj2 (Nat.leb_le 1 (p_pos s'))) by lia.
    pose proof Hs as (_ & HsE & _).
    assert (KP : p_eaten s <= p_pos s' - 1) by lia.
    split; [|split; [|exact Logic.I]].
    + revert HI KP K2. clear. unfold Iv, Inv.Iv. simpl. intuition lia.
    + destruct HR as [_ HR]. split; [simpl; lia|exact HR].
  - destruct HW as (HI & HR & HE). split; [eapply I_ctx; [exact Hs|exact HI|apply HR]|].
    split; [now apply R_ctx|exact Logic.I].
  - destruct HW as (HI & HR & HT). split; [eapply I_ctx; [exact Hs|exact HI|apply HR]|].
    split; [unfold RT; simpl; lia|exact HT].
Qed.
Lemma sb_literal (P : st -> Prop) T level : safe P T (fun _ => any) any (string_literal level).
Proof.
  unfold string_literal.
  eapply safe_bind; [eapply safe_weaken; [apply (sb_sym P T)|..]; auto; intros; exact Logic.I|intros ?].
  eapply safe_bind; [apply sb_chomp|intros c]. eapply safe_bind; [apply sb_more0|intros ?].
  eapply safe_bind; [apply sb_wrapped|intros v]. apply safe_ret. intros; exact Logic.I.
Qed.
Lemma sb_folded (P : st -> Prop) T level : safe P T (fun _ => any) any (string_folded level).
Proof.
  unfold string_folded.
  eapply safe_bind; [eapply safe_weaken; [apply (sb_sym P T)|..]; auto; intros; exact Logic.I|intros ?].
  eapply safe_bind; [apply sb_chomp|intros c]. eapply safe_bind; [apply sb_more0|intros ?].
  eapply safe_bind; [apply sb_wrapped|intros v]. apply safe_ret. intros; exact Logic.I.
Qed.

(** ** Names, tags, directives *)
Lemma sb_named (P : st -> Prop) T c :
  safe P T (fun _ => any) any (bind (sym c) (fun _ => context (bind identifier (fun _ => text)))).
Proof.
  eapply safe_bind; [eapply safe_weaken; [apply (sb_sym any T c)|..]; auto; intros; exact Logic.I|intros ?].
  eapply (safe_context0 _ _ _ _ _ _ _ _ T (fun _ => True) any).
  eapply safe_bind; [eapply safe_weaken; [apply (sb_identifier any T)|..]; auto; intros; exact Logic.I|intros ?].
  eapply safe_weaken; [apply (sb_text0 any T any)|..]; auto; intros; exact Logic.I.
Qed.
Lemma sb_anchor (P : st -> Prop) T : safe P T (fun _ => any) any anchor.
Proof. apply sb_named. Qed.
Lemma sb_anchor_use (P : st -> Prop) T : safe P T (fun _ => any) any anchor_use.
Proof. apply sb_named. Qed.

Lemma sb_sym_any T c : safe any T (fun _ => any) any (sym c).
Proof. eapply safe_weaken; [apply (sb_sym any T c)|..]; auto; intros; exact Logic.I. Qed.
Lemma sb_seq_any T c : safe any T (fun _ => any) any (sym_seq c).
Proof. eapply safe_weaken; [apply (sb_sym_seq any T c)|..]; auto; intros; exact Logic.I. Qed.
Lemma sb_take_any T f o : safe any T (fun _ => any) any (take_while f o).
Proof. eapply safe_weaken; [apply (sb_take any T f o)|..]; auto; intros; exact Logic.I. Qed.
Lemma sb_ident_any T : safe any T (fun _ => any) any identifier.
Proof. eapply safe_weaken; [apply (sb_identifier any T)|..]; auto; intros; exact Logic.I. Qed.
Lemma sb_text_any T : safe any T (fun _ => any) any text.
Proof. apply sb_text0. Qed.
Lemma sb_bound_any T : safe any T (fun _ => any) any bound.
Proof. eapply safe_weaken; [apply (sb_bound any T)|..]; auto; intros; exact Logic.I. Qed.
Lemma sb_ret_any {A} (a : A) T : safe any T (fun _ => any) any (ret a).
Proof. apply safe_ret. auto. Qed.
Lemma sb_bind_any {A B} T (m : M A) (f : A -> M B) :
  safe any T (fun _ => any) any m -> (forall a, safe any T (fun _ => any) any (f a)) ->
  safe any T (fun _ => any) any (bind m f).
Proof. intros Hm Hf. eapply safe_bind; [exact Hm|exact Hf]. Qed.
Lemma sb_ctx_any {A} T (m : M A) : safe any T (fun _ => any) any m -> safe any T (fun _ => any) any (context m).
Proof.
  intros Hm. eapply (safe_context0 _ _ _ _ _ _ _ _ T (fun _ => True) any).
  eapply safe_weaken; [exact Hm|..]; auto; intros; exact Logic.I.
Qed.
Lemma sb_isok_any {A} T (m : M A) : safe any noT (fun _ => any) any m -> safe any T (fun _ => any) any (is_ok m).
Proof. intros H. eapply sb_isok, H. Qed.
Lemma sb_unwrap_any {A} T a (m : M A) : safe any noT (fun _ => any) any m -> safe any T (fun _ => any) any (unwrap_or a m).
Proof. intros H. eapply safe_unwrap; [exact H|auto]. Qed.
(** A tag looks up a handle that stands in the document. *)
Hypothesis PN_tag : forall k, handle_in d k -> ~ known open k -> PN.
Lemma sb_tag_index k T : handle_in d k -> safe any T (fun _ => any) any (tag_index k).
Proof.
  intros HP s Hs _. unfold tag_index. destruct (bt_get k (p_tag s)) eqn:E.
  - split; [exact Hs|]. split; [apply R_refl|exact Logic.I].
  - apply (PN_tag k HP). intros K. destruct Hs as (_ & _ & _ & _ & (_ & H) & _). exact (H k K E).
Qed.
Lemma sb_tag (P : st -> Prop) T : safe P T (fun _ => any) any tag.
Proof.
  apply sb_any. unfold tag.
  set (B := fun s => exists a, d = a ++ 33%N :: rem s).
  eapply safe_bind with (G1 := fun _ => B).
  { intros s Hs _. pose proof (sb_sym any T (chr "!") s Hs Logic.I) as HS.
    rewrite sym_exec in * by (eapply I_in; exact Hs). destruct (rem s) as [|x r] eqn:Er.
    { destruct HS as (? & ? & _). split; [assumption|split; [assumption|exact Logic.I]]. }
    destruct (N.eqb_spec x (chr "!")) as [->|Hx].
    2: { destruct HS as (? & ? & _). split; [assumption|split; [assumption|exact Logic.I]]. }
    destruct HS as (? & ? & _). split; [assumption|split; [assumption|]].
    exists (firstn (p_pos s) (p_doc s)). rewrite rem_add, Er. cbn [skipn].
    destruct Hs as (<- & _). rewrite <- (firstn_skipn (p_pos s) (p_doc s)) at 1. fold (rem s). now rewrite Er. }
  intros u0.
  eapply safe_context with (P' := fun s => AT s /\ B s) (G' := fun _ => any) (E' := any);
    [|intros s _ Hb; split; [reflexivity|exact Hb]|intros; exact Logic.I|intros; exact Logic.I].
  eapply safe_bind with (G1 := fun _ s => exists a tg, d = a ++ 33%N :: tg ++ rem s
     /\ slice (p_eaten s) (p_pos s) (p_doc s) = tg
     /\ (tg = [] \/ exists x t, tg = x :: t /\ is_alnum x = true /\ Forall id_char t)).
  { intros s Hs [Ha (a & Eb)]. pose proof (sb_unwrap_any T tt identifier (sb_ident_any noT) s Hs Logic.I) as HS.
    unfold unwrap_or, ok, bind, ret in *. rewrite identifier_exec in * by (eapply I_in; exact Hs).
    destruct (Nat.eqb_spec (ident_len (rem s)) 0) as [I0|I0].
    - destruct HS as (? & ? & _). split; [assumption|split; [assumption|]].
      exists a, []. unfold AT in Ha. rewrite Ha. cbn [app].
      split; [exact Eb|]. split; [|now left]. unfold slice. cbn. now rewrite Ha, Nat.sub_diag.
    - destruct HS as (? & ? & _). split; [assumption|split; [assumption|]].
      pose proof (name_ident_len _ I0) as (Hn & _).
      exists a, (firstn (ident_len (rem s)) (rem s)). rewrite rem_add.
      split; [now rewrite firstn_skipn|]. split; [|now right]. cbn.
      now rewrite <- (slice_rem s _ Ha). }
  intros u1.
  eapply safe_bind with (G1 := fun tg s => In 33%N d /\ (tg = [] \/ (exists x t, tg = x :: t /\ is_alnum x = true /\ Forall id_char t)
     /\ exists a, d = a ++ 33%N :: tg ++ rem s)).
  { intros s Hs (a & tg & E1 & E2 & E3). rewrite text_exec by (eapply I_in; exact Hs).
    split; [exact Hs|split; [apply R_refl|]]. rewrite E2. split; [rewrite E1; apply in_or_app; right; now left|].
    destruct E3 as [->|E3]; [now left|]. right. rewrite (name_ascii tg []).
    - split; [exact E3|]. exists a. exact E1.
    - split; [exact E3|exact Logic.I]. }
  intros tg.
  eapply safe_bind with (G1 := fun _ => any).
  - destruct tg as [|x t]; cbn [is_nil negb].
    + intros s Hs [H33 _]. revert s Hs.
      assert (X : safe any T (fun _ => any) any
         (b <- is_ok (sym (chr "<")) ;;
         if (b : bool) then
           t <- context (take_while (not_in (lit " <>" ++ [10; 13]%N)) (More 1) ;;; text) ;;
           sym (chr ">") ;;;
           ret t
         else
           b <- is_ok (sym (chr "!")) ;;
           if (b : bool) then tag_index (lit "!!") else tag_index (lit "!"))).
      { apply sb_bind_any; [apply sb_isok_any, sb_sym_any|]. intros [].
        * apply sb_bind_any; [apply sb_ctx_any, sb_bind_any; [apply sb_take_any|intros; apply sb_text_any]|].
          intros t. apply sb_bind_any; [apply sb_sym_any|intros; apply sb_ret_any].
        * apply sb_bind_any; [apply sb_isok_any, sb_sym_any|]. intros []; apply sb_tag_index; split; auto. }
      intros s Hs. exact (X s Hs Logic.I).
    + eapply safe_bind with (G1 := fun (b : bool) _ => if b then handle_in d (x :: t) else True).
      * intros s Hs [H33 [E|(E & a & Ea)]]; [discriminate|].
        pose proof (sb_isok_any T _ (sb_sym_any noT (chr "!")) s Hs Logic.I) as HS.
        unfold is_ok in *. rewrite sym_exec in * by (eapply I_in; exact Hs).
        destruct (rem s) as [|z r] eqn:Er; [destruct HS as (HS1 & HS2 & _); exact (conj HS1 (conj HS2 Logic.I))|].
        destruct (N.eqb_spec z (chr "!")) as [->|Hz]; destruct HS as (HS1 & HS2 & _); (split; [exact HS1|split; [exact HS2|]]); [|exact Logic.I].
        split; [exact H33|]. right; right. split; [exact E|]. exists a, r. rewrite Ea at 1. reflexivity.
      * intros []; [|apply safe_ret; auto]. intros s Hs Hh. exact (sb_tag_index _ T Hh s Hs Logic.I).
  - intros prefix. apply sb_bind_any; [|intros; apply sb_ret_any]. apply sb_ctx_any, sb_bind_any;
      [apply sb_isok_any, sb_ident_any|]. intros []; [apply sb_text_any|apply sb_ret_any].
Qed.
(** a prefix stays when another handle gets one *)
Lemma bt_get_insert_keeps {V} k k' (v : V) m : bt_get k m <> None -> bt_get k (bt_insert k' v m) <> None.
Proof.
  induction m as [|[x y] m IH]; intros H; [destruct (H eq_refl)|]. cbn [bt_insert bt_get] in *.
  destruct (str_eqb k' x).
  - cbn [bt_get]. destruct (str_eqb k x); [intros K; discriminate K|exact H].
  - destruct (str_ltb k' x); cbn [bt_get].
    + destruct (str_eqb k k'); [intros K; discriminate K|exact H].
    + destruct (str_eqb k x); [intros K; discriminate K|auto].
Qed.

Lemma sb_modify T (f : st -> st) : (forall s, Iv s -> Iv (f s)) ->
  (forall s, p_eaten (f s) = p_eaten s /\ l_anchors (f s) = l_anchors s /\ l_doc_ind (f s) = l_doc_ind s) ->
  safe any T (fun _ => any) any (modify f).
Proof.
  intros H K s Hs _. simpl. split; [auto|]. split; [|exact Logic.I].
  destruct (K s) as (K1 & K2 & K3). split; [lia|]. unfold recorded. now rewrite K2, K3.
Qed.
Definition version_errors (nm : str) : Prop := nm = lit "checked version" \/ nm = lit "invalid version".
Lemma sb_directive : safe any version_errors (fun _ => any) any directive.
Proof.
  unfold directive. apply sb_bind_any; [apply sb_sym_any|intros _].
  apply sb_bind_any; [|intros _; apply sb_bind_any; [apply sb_gap|intros; apply sb_ret_any]].
  apply sb_ctx_any. apply sb_bind_any; [apply sb_isok_any, sb_seq_any|]. intros [].
  - unfold directive_yaml. apply sb_bind_any; [apply sb_take_any|intros _].
    apply sb_bind_any; [eapply safe_weaken; [apply (safe_gets d cyc hk L PN bt open any version_errors p_version any)|..]; auto; intros; exact Logic.I|].
    intros []; [apply safe_err; now left|].
    apply sb_bind_any.
    + apply sb_ctx_any. unfold orM. apply sb_bind_any; [apply sb_isok_any, sb_seq_any|].
      intros []; [apply sb_ret_any|apply sb_isok_any, sb_seq_any].
    + intros b. destruct (negb b); [apply safe_err; now right|].
      apply sb_modify; [intros s H; exact H|auto].
  - apply sb_bind_any; [apply sb_isok_any, sb_seq_any|]. intros []; [|apply sb_take_any].
    unfold directive_tag. apply sb_bind_any; [apply sb_take_any|intros _].
    apply sb_bind_any; [apply sb_sym_any|intros _]. apply sb_ctx_any.
    apply sb_bind_any; [apply sb_isok_any, sb_ident_any|]. intros b.
    apply sb_bind_any.
    + destruct b.
      * apply sb_bind_any; [apply sb_text_any|]. intros t. apply sb_bind_any; [apply sb_sym_any|intros; apply sb_ret_any].
      * apply sb_bind_any; [apply sb_isok_any, sb_sym_any|]. intros []; apply sb_ret_any.
    + intros tg. apply sb_bind_any; [apply sb_take_any|intros _].
      apply sb_bind_any; [apply sb_ctx_any, sb_bind_any; [apply sb_take_any|intros; apply sb_text_any]|].
      intros doc. apply sb_modify; [|auto].
      intros s (K1 & K2 & K3 & K4 & (K5 & K6) & K7). unfold Iv, Inv.Iv. cbn. repeat split; auto; try apply K7.
      intros k Hk. cbn. now apply bt_get_insert_keeps, K6.
Qed.

(** ** Numbers *)
Definition int_in (t : str) : Prop := int_literal t /\ exists a b, d = a ++ t ++ b.
Lemma sb_number (m : M str) (V : str -> Prop) T :
  gb_at m ->
  (forall s, p_pos s <= List.length (p_doc s) -> p_eaten s = p_pos s -> p_doc s = d -> forall t s', m s = (ROk t, s') -> V t) ->
  safe AT T (fun t _ => V t) AT m.
Proof.
  intros HM HV s Hs Ps. pose proof (safe_gb d cyc hk L PN bt open AT T m HM s Hs Ps) as K.
  pose proof Hs as (Ed & _ & H2 & _).
  specialize (HV s ltac:(now rewrite Ed) Ps Ed).
  destruct (m s) as [[a|[|nm msg]| |] s']; try exact K.
  destruct K as (? & ? & _). split; [assumption|]. split; [assumption|]. eauto.
Qed.
Lemma sb_int T : safe AT T (fun t _ => int_in t) AT int.
Proof.
  apply sb_number; [apply at_int|]. intros s H E Ed t s' K.
  apply (C07_int_language s H E) in K as (w & rest & El & Hl & _). split; [exact Hl|].
  exists (firstn (p_pos s) d), (w ++ rest). rewrite <- El, <- Ed. symmetry. apply firstn_skipn.
Qed.
Lemma sb_float T : safe AT T (fun t _ => to_f64 t <> None) AT float.
Proof.
  apply sb_number; [apply at_float|]. intros s H E Ed t s' K.
  destruct (C09_always_readable s t s' H E (or_introl K)) as (x & -> & _). discriminate.
Qed.
Lemma sb_sci T : safe AT T (fun t _ => to_f64 t <> None) AT sci_float.
Proof.
  apply sb_number; [apply at_sci|]. intros s H E Ed t s' K.
  destruct (C09_always_readable s t s' H E (or_intror K)) as (x & -> & _). discriminate.
Qed.
Lemma sb_doc_end (P : st -> Prop) T E : safe P T (fun _ => P) E doc_end.
Proof.
  intros s Hs Ps.
  destruct (C05_doc_end_lookahead s (I_in _ _ _ _ _ _ _ Hs)) as (b & -> & _).
  split; [exact Hs|]. split; [apply R_refl|exact Ps].
Qed.
End Base.
