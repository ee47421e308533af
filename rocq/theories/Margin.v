(** * Margin: the first level of a document is never indented (used by PropShift).
    Level 0 of the indentation table stays 0, because [ind_define] is only called
    for the levels inside. *)
From Verif Require Export PropBack.
Open Scope nat_scope.

Definition flush (s : st) : Prop := nth 0 (p_indent s) 2 = 0.
Definition margin (s t : st) : Prop := flush s -> flush t.
Lemma mg_Rrefl s : margin s s. Proof. now intros H. Qed.
Lemma mg_Rtrans a b c : margin a b -> margin b c -> margin a c. Proof. unfold margin. auto. Qed.
Lemma mg_Rpos s p : margin s (set_pos p s). Proof. now intros H. Qed.
Lemma mg_Reaten s p : margin s (set_eaten p s). Proof. now intros H. Qed.
Lemma mg_Ranchors s t : margin s (set_anchors t s). Proof. now intros H. Qed.
Lemma mg_Rdocind s t : margin s (set_doc_ind t s). Proof. now intros H. Qed.

Definition mg {A} (m : M A) : Prop := forall s, margin s (snd (m s)).

Lemma mg_ret {A} (a : A) : mg (ret a). Proof. intros s. apply mg_Rrefl. Qed.
Lemma mg_fail {A} e : mg (@fail A e). Proof. intros s. apply mg_Rrefl. Qed.
Lemma mg_div {A} : mg (@diverge A). Proof. intros s. apply mg_Rrefl. Qed.
Lemma mg_gets {A} (f : st -> A) : mg (gets f). Proof. intros s. apply mg_Rrefl. Qed.
Lemma mg_bind {A B} (m : M A) (f : A -> M B) : mg m -> (forall a, mg (f a)) -> mg (bind m f).
Proof.
  intros Hm Hf s. specialize (Hm s). unfold bind. destruct (m s) as [[a|e| |] s1]; try exact Hm.
  eapply mg_Rtrans; [exact Hm|apply Hf].
Qed.
Lemma mg_ok {A} (m : M A) : mg m -> mg (ok m).
Proof. intros H s. specialize (H s). unfold ok. now destruct (m s) as [[a|e| |] s1]. Qed.
Lemma mg_is_ok {A} (m : M A) : mg m -> mg (is_ok m).
Proof. intros H s. specialize (H s). unfold is_ok. now destruct (m s) as [[a|e| |] s1]. Qed.
Lemma mg_is_err {A} (m : M A) : mg m -> mg (is_err m).
Proof. intros H. apply mg_bind; [now apply mg_is_ok|intros; apply mg_ret]. Qed.
Lemma mg_unwrap {A} (a : A) m : mg m -> mg (unwrap_or a m).
Proof. intros H. apply mg_bind; [now apply mg_ok|intros; apply mg_ret]. Qed.
Lemma mg_or_else {A} (m f : M A) : mg m -> mg f -> mg (or_else m f).
Proof.
  intros Hm Hf s. specialize (Hm s). unfold or_else. destruct (m s) as [[a|[|nm msg]| |] s1]; try exact Hm.
  eapply mg_Rtrans; [exact Hm|apply Hf].
Qed.
Lemma mg_orM a b : mg a -> mg b -> mg (orM a b).
Proof. intros Ha Hb. apply mg_bind; [exact Ha|intros []; [apply mg_ret|exact Hb]]. Qed.
Lemma mg_andM a b : mg a -> mg b -> mg (andM a b).
Proof. intros Ha Hb. apply mg_bind; [exact Ha|intros []; [exact Hb|apply mg_ret]]. Qed.
Lemma mg_notM a : mg a -> mg (notM a).
Proof. intros Ha. apply mg_bind; [exact Ha|intros; apply mg_ret]. Qed.
Lemma mg_context {A} (m : M A) : mg m -> mg (context m).
Proof.
  intros Hm s. unfold context. specialize (Hm (set_eaten (p_pos s) s)).
  destruct (m (set_eaten (p_pos s) s)) as [r s1]. cbn [snd] in *.
  eapply mg_Rtrans; [apply mg_Reaten|]. eapply mg_Rtrans; [exact Hm|apply mg_Reaten].
Qed.
Lemma mg_modify f : (forall s, margin s (f s)) -> mg (modify f).
Proof. intros H s. apply H. Qed.
Lemma mg_forward : mg forward. Proof. apply mg_modify. intros s. apply mg_Reaten. Qed.
Lemma mg_backward : mg backward. Proof. apply mg_modify. intros s. apply mg_Rpos. Qed.
Lemma mg_back n : mg (back n).
Proof. intros s. unfold back. destruct (Nat.leb _ _); [apply mg_Rpos|apply mg_Rrefl]. Qed.
Lemma mg_food : mg food.
Proof. intros s. unfold food. destruct (Nat.leb _ _); apply mg_Rrefl. Qed.
Lemma mg_text : mg text.
Proof. intros s. unfold text. destruct (Nat.ltb _ _); [destruct (Nat.leb _ _)|]; apply mg_Rrefl. Qed.
Lemma mg_err {A} nm : mg (@err A nm).
Proof. intros s. unfold err. destruct (indicated_msg _ _); apply mg_Rrefl. Qed.
Lemma mg_count {A} (m : M A) : mg m -> mg (count m).
Proof.
  intros H. apply mg_bind; [apply mg_gets|intros p]. apply mg_bind; [exact H|intros _ s].
  destruct (Nat.leb _ _); apply mg_Rrefl.
Qed.
Lemma mg_take f o : mg (take_while f o).
Proof.
  apply mg_bind; [apply mg_food|intros fd]. cbv zeta. apply mg_bind; [apply mg_modify; intros; apply mg_Rpos|intros _].
  destruct (Nat.eqb _ 0), (take_min o) as [[|c]|]; try apply mg_ret;
    try (apply mg_bind; [apply mg_backward|intros; apply mg_fail]).
  destruct (Nat.ltb _ _); [|apply mg_ret]. apply mg_bind; [apply mg_backward|intros; apply mg_fail].
Qed.
Lemma mg_sym_set l : mg (sym_set l). Proof. apply mg_take. Qed.
Lemma mg_sym c : mg (sym c). Proof. apply mg_take. Qed.
Lemma mg_sym_seq l : mg (sym_seq l).
Proof. induction l as [|c l IH]; [apply mg_ret|]. apply mg_bind; [apply mg_sym|intros; exact IH]. Qed.
Lemma mg_spaces n : mg (spaces n).
Proof. induction n as [|n IH]; [apply mg_ret|]. apply mg_bind; [apply mg_sym|intros; exact IH]. Qed.
Lemma mg_tag_index k : mg (tag_index k).
Proof. intros s. unfold tag_index. destruct (bt_get _ _); apply mg_Rrefl. Qed.
Lemma mg_alias a : mg (alias_value a).
Proof.
  intros s. unfold alias_value. destruct (l_cyclic s); [apply mg_Rrefl|]. destruct (nth_error _ _); [|apply mg_Rrefl].
  destruct (bt_get _ _); [apply mg_Rrefl|apply mg_err].
Qed.
Lemma mg_build m : mg (build_map m).
Proof. intros s. unfold build_map. destruct (map_collect _ _); apply mg_Rrefl. Qed.
Lemma mg_anchor_insert a n : mg (anchor_insert a n).
Proof. intros s. unfold anchor_insert. destruct (nth_error _ _); [apply mg_Ranchors|apply mg_Rrefl]. Qed.
Lemma mg_ind l : mg (ind l).
Proof.
  apply mg_bind; [apply mg_modify|intros _; apply mg_bind; [apply mg_gets|intros; apply mg_spaces]].
  intros s H. unfold flush, ind_norm in *. cbn. destruct (p_indent s) as [|a q]; [discriminate|]. cbn in H. subst a.
  destruct (Nat.leb _ _); [reflexivity|]. now replace (l + 1) with (S l) by lia.
Qed.
Lemma mg_ind_define l : l <> 0 -> mg (ind_define l).
Proof.
  intros Hl. apply mg_bind; [destruct (Nat.ltb _ _); [apply mg_ind|apply mg_ret]|intros _].
  apply mg_bind; [apply mg_count, mg_take|intros i s]. unfold margin, flush.
  destruct (Nat.eqb l (List.length (p_indent s))); cbn [snd set_indent p_indent].
  - destruct (p_indent s); [discriminate|]. now intros H.
  - destruct (Nat.ltb l (List.length (p_indent s))); cbn [snd set_indent p_indent]; [|auto]. destruct (p_indent s); [discriminate|]. destruct l; [congruence|]. now intros H.
Qed.
(** [ind_define] is called with [map] only *)
Lemma mg_head (map : bool) l : (map = true -> l <> 0) -> mg (gap true) ->
  mg (if map then gap true ;;; ind_define l else g <- is_ok (gap true) ;; if (g : bool) then ind l else ret tt).
Proof.
  intros H G. destruct map.
  - apply mg_bind; [exact G|intros; apply mg_ind_define; auto].
  - apply mg_bind; [now apply mg_is_ok|intros [|]; [apply mg_ind|apply mg_ret]].
Qed.

Ltac gw1 :=
  match goal with
  | |- forall _, _ => intros ?
  | |- mg (let _ := _ in _) => cbv zeta
  | |- mg (if _ then gap true ;;; _ else _) => apply mg_head; [assumption|assumption]
  | |- mg (bind _ _) => apply mg_bind
  | |- mg (ok _) => apply mg_ok
  | |- mg (is_ok _) => apply mg_is_ok
  | |- mg (is_err _) => apply mg_is_err
  | |- mg (unwrap_or _ _) => apply mg_unwrap
  | |- mg (or_else _ _) => apply mg_or_else
  | |- mg (orM _ _) => apply mg_orM
  | |- mg (andM _ _) => apply mg_andM
  | |- mg (notM _) => apply mg_notM
  | |- mg (context _) => apply mg_context
  | |- mg (count _) => apply mg_count
  | |- mg (if ?b then _ else _) => destruct b
  | |- mg (match ?x with _ => _ end) => destruct x
  | |- mg _ => first [apply mg_ret | apply mg_fail | apply mg_div | apply mg_gets | apply mg_forward | apply mg_backward
                     | apply mg_back | apply mg_food | apply mg_text | apply mg_err | apply mg_sym_seq | apply mg_sym | apply mg_sym_set | apply mg_take
                     | apply mg_tag_index | apply mg_alias | apply mg_build | apply mg_anchor_insert | apply mg_ind_define; solve [auto; lia] | apply mg_ind
                     | solve [auto] | match goal with H : _ |- _ => apply H; intros; solve [congruence | lia | auto] end ]
  end.
Ltac gw := repeat gw1.

Lemma mg_bound : mg bound. Proof. unfold bound, ws. gw. Qed.
Lemma mg_complex : mg complex_mapping. Proof. unfold complex_mapping. pose proof mg_bound. gw. Qed.
Lemma mg_num_prefix : mg num_prefix. Proof. unfold num_prefix. gw. Qed.
Lemma mg_int : mg int. Proof. unfold int, octal, hexadecimal, ws. pose proof mg_bound. pose proof mg_num_prefix. gw. Qed.
Lemma mg_float : mg float. Proof. unfold float, ws. pose proof mg_bound. pose proof mg_num_prefix. gw. Qed.
Lemma mg_sci : mg sci_float. Proof. unfold sci_float, ws. pose proof mg_bound. pose proof mg_num_prefix. gw. Qed.
Lemma mg_nl : mg nl. Proof. unfold nl. gw. Qed.
Lemma mg_comment : mg comment. Proof. unfold comment, ws. gw. Qed.
Lemma mg_gap_loop c : forall n t, mg (gap_loop n c t).
Proof. pose proof mg_comment. pose proof mg_nl. induction n; intros t; cbn [gap_loop]; unfold ws; gw. Qed.
Lemma mg_gap c : mg (gap c).
Proof. pose proof mg_comment. pose proof mg_nl. pose proof (mg_gap_loop c). unfold gap. gw. Qed.
Lemma mg_quoted_loop q ig : forall n v, mg (quoted_loop n q ig v).
Proof. pose proof mg_gap. induction n; intros v; cbn [quoted_loop]; unfold ws; gw. Qed.
Lemma mg_quoted q ig : mg (string_quoted q ig).
Proof. pose proof (mg_quoted_loop q ig). unfold string_quoted, ws. gw. Qed.
Lemma mg_plain_loop l i : forall n v b, mg (plain_loop n l i v b).
Proof. pose proof mg_gap. pose proof mg_nl. induction n; intros v b; cbn [plain_loop]; gw. Qed.
Lemma mg_plain l i : mg (string_plain l i).
Proof. pose proof (mg_plain_loop l i). unfold string_plain. gw. Qed.
Lemma mg_chomp : mg chomp. Proof. unfold chomp. gw. Qed.
Lemma mg_wrapped_loop l sep ld : forall n v, mg (wrapped_loop n l sep ld v).
Proof. pose proof mg_gap. pose proof mg_nl. induction n; intros v; cbn [wrapped_loop]; gw. Qed.
Lemma mg_wrapped l sep ld : mg (string_wrapped l sep ld).
Proof. pose proof (mg_wrapped_loop l sep ld). unfold string_wrapped. gw. Qed.
Lemma mg_literal l : mg (string_literal l).
Proof. pose proof mg_chomp. pose proof (mg_wrapped l). unfold string_literal, ws. gw. Qed.
Lemma mg_folded l : mg (string_folded l).
Proof. pose proof mg_chomp. pose proof (mg_wrapped l). unfold string_folded, ws. gw. Qed.
Lemma mg_identifier : mg identifier. Proof. unfold identifier. gw. Qed.
Lemma mg_tag : mg tag. Proof. pose proof mg_identifier. unfold tag. gw. Qed.
Lemma mg_anchor : mg anchor. Proof. pose proof mg_identifier. unfold anchor. gw. Qed.
Lemma mg_anchor_use : mg anchor_use. Proof. pose proof mg_identifier. unfold anchor_use. gw. Qed.
Lemma mg_doc_end : mg doc_end. Proof. unfold doc_end. gw. Qed.
Lemma mg_scalar_node f : mg f -> mg (scalar_node f).
Proof. intros Hf. pose proof mg_anchor. pose proof mg_tag. pose proof mg_bound. unfold scalar_node. gw. Qed.

Theorem mg_all : forall n,
  (forall l m f, (m = true -> l <> 0) -> mg (scalar n l m f)) /\ (forall l f, mg (scalar_flow n l f))
  /\ (forall l f, mg (scalar_term n l f)) /\ (forall l, mg (seq_flow n l))
  /\ (forall l v, mg (seq_flow_loop n l v)) /\ (forall l, mg (map_flow n l))
  /\ (forall l v, mg (map_flow_loop n l v)) /\ (forall l m, (m = true -> l <> 0) -> mg (Loader.seq n l m))
  /\ (forall l m v, (m = true -> l <> 0) -> mg (seq_loop n l m v)) /\ (forall l m f, (m = true -> l <> 0) -> mg (map_ n l m f))
  /\ (forall l m f v, (m = true -> l <> 0) -> mg (map_loop n l m f v)).
Proof.
  pose proof mg_literal. pose proof mg_folded. pose proof mg_float. pose proof mg_sci. pose proof mg_int. pose proof mg_anchor_use.
  pose proof mg_quoted. pose proof mg_plain. pose proof (mg_gap true). pose proof mg_complex. pose proof mg_bound. pose proof mg_doc_end.
  induction n as [|n (Hscalar & Hflow & Hterm & Hsf & Hsfl & Hmf & Hmfl & Hseq & Hseql & Hmap & Hmapl)];
    (refine (conj _ (conj _ (conj _ (conj _ (conj _ (conj _ (conj _ (conj _ (conj _ (conj _ _)))))))))); intros; [..]);
    try apply mg_div; cbn [scalar scalar_flow scalar_term seq_flow seq_flow_loop map_flow map_flow_loop Loader.seq seq_loop map_ map_loop];
    unfold inv; try apply mg_scalar_node; gw.
Qed.
Lemma mg_doc n : mg (doc n).
Proof.
  pose proof mg_gap. pose proof mg_bound. destruct (mg_all n) as (Hs & _). unfold doc. gw.
Qed.
