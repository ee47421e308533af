(** * Frame: what no sub-parser of document content can change.

    For a reflexive and transitive relation on states that holds across the
    changes a sub-parser makes to the cursor, the indentation table and the
    anchor tables, every sub-parser takes a state to a related one, whatever it
    returns.  (Directives also change the tag table and the version flag.) *)
From Verif Require Export PropBack.
Open Scope nat_scope.

Section Frame.
Variable Rel : st -> st -> Prop.
Hypothesis Rrefl : forall s, Rel s s.
Hypothesis Rtrans : forall a b c, Rel a b -> Rel b c -> Rel a c.
Hypothesis Rpos : forall s p, Rel s (set_pos p s).
Hypothesis Reaten : forall s p, Rel s (set_eaten p s).
Hypothesis Rindent : forall s t, Rel s (set_indent t s).
Hypothesis Ranchors : forall s t, Rel s (set_anchors t s).
Hypothesis Rdocind : forall s t, Rel s (set_doc_ind t s).

Definition fr {A} (m : M A) : Prop := forall s, Rel s (snd (m s)).

Lemma fr_ret {A} (a : A) : fr (ret a). Proof. intros s. apply Rrefl. Qed.
Lemma fr_fail {A} e : fr (@fail A e). Proof. intros s. apply Rrefl. Qed.
Lemma fr_div {A} : fr (@diverge A). Proof. intros s. apply Rrefl. Qed.
Lemma fr_gets {A} (f : st -> A) : fr (gets f). Proof. intros s. apply Rrefl. Qed.
Lemma fr_bind {A B} (m : M A) (f : A -> M B) : fr m -> (forall a, fr (f a)) -> fr (bind m f).
Proof.
  intros Hm Hf s. specialize (Hm s). unfold bind. destruct (m s) as [[a|e| |] s1]; try exact Hm.
  eapply Rtrans; [exact Hm|apply Hf].
Qed.
Lemma fr_ok {A} (m : M A) : fr m -> fr (ok m).
Proof. intros H s. specialize (H s). unfold ok. now destruct (m s) as [[a|e| |] s1]. Qed.
Lemma fr_is_ok {A} (m : M A) : fr m -> fr (is_ok m).
Proof. intros H s. specialize (H s). unfold is_ok. now destruct (m s) as [[a|e| |] s1]. Qed.
Lemma fr_is_err {A} (m : M A) : fr m -> fr (is_err m).
Proof. intros H. apply fr_bind; [now apply fr_is_ok|intros; apply fr_ret]. Qed.
Lemma fr_unwrap {A} (a : A) m : fr m -> fr (unwrap_or a m).
Proof. intros H. apply fr_bind; [now apply fr_ok|intros; apply fr_ret]. Qed.
Lemma fr_or_else {A} (m f : M A) : fr m -> fr f -> fr (or_else m f).
Proof.
  intros Hm Hf s. specialize (Hm s). unfold or_else. destruct (m s) as [[a|[|nm msg]| |] s1]; try exact Hm.
  eapply Rtrans; [exact Hm|apply Hf].
Qed.
Lemma fr_orM a b : fr a -> fr b -> fr (orM a b).
Proof. intros Ha Hb. apply fr_bind; [exact Ha|intros []; [apply fr_ret|exact Hb]]. Qed.
Lemma fr_andM a b : fr a -> fr b -> fr (andM a b).
Proof. intros Ha Hb. apply fr_bind; [exact Ha|intros []; [exact Hb|apply fr_ret]]. Qed.
Lemma fr_notM a : fr a -> fr (notM a).
Proof. intros Ha. apply fr_bind; [exact Ha|intros; apply fr_ret]. Qed.
Lemma fr_context {A} (m : M A) : fr m -> fr (context m).
Proof.
  intros Hm s. unfold context. specialize (Hm (set_eaten (p_pos s) s)).
  destruct (m (set_eaten (p_pos s) s)) as [r s1]. cbn [snd] in *.
  eapply Rtrans; [apply Reaten|]. eapply Rtrans; [exact Hm|apply Reaten].
Qed.
Lemma fr_modify f : (forall s, Rel s (f s)) -> fr (modify f).
Proof. intros H s. apply H. Qed.
Lemma fr_forward : fr forward. Proof. apply fr_modify. intros s. apply Reaten. Qed.
Lemma fr_backward : fr backward. Proof. apply fr_modify. intros s. apply Rpos. Qed.
Lemma fr_back n : fr (back n).
Proof. intros s. unfold back. destruct (Nat.leb _ _); [apply Rpos|apply Rrefl]. Qed.
Lemma fr_food : fr food.
Proof. intros s. unfold food. destruct (Nat.leb _ _); apply Rrefl. Qed.
Lemma fr_text : fr text.
Proof. intros s. unfold text. destruct (Nat.ltb _ _); [destruct (Nat.leb _ _)|]; apply Rrefl. Qed.
Lemma fr_err {A} nm : fr (@err A nm).
Proof. intros s. unfold err. destruct (indicated_msg _ _); apply Rrefl. Qed.
Lemma fr_count {A} (m : M A) : fr m -> fr (count m).
Proof.
  intros H. apply fr_bind; [apply fr_gets|intros p]. apply fr_bind; [exact H|intros _ s].
  destruct (Nat.leb _ _); apply Rrefl.
Qed.
Lemma fr_take f o : fr (take_while f o).
Proof.
  apply fr_bind; [apply fr_food|intros fd]. cbv zeta. apply fr_bind; [apply fr_modify; intros; apply Rpos|intros _].
  destruct (Nat.eqb _ 0), (take_min o) as [[|c]|]; try apply fr_ret;
    try (apply fr_bind; [apply fr_backward|intros; apply fr_fail]).
  destruct (Nat.ltb _ _); [|apply fr_ret]. apply fr_bind; [apply fr_backward|intros; apply fr_fail].
Qed.
Lemma fr_sym_set l : fr (sym_set l). Proof. apply fr_take. Qed.
Lemma fr_sym c : fr (sym c). Proof. apply fr_take. Qed.
Lemma fr_sym_seq l : fr (sym_seq l).
Proof. induction l as [|c l IH]; [apply fr_ret|]. apply fr_bind; [apply fr_sym|intros; exact IH]. Qed.
Lemma fr_spaces n : fr (spaces n).
Proof. induction n as [|n IH]; [apply fr_ret|]. apply fr_bind; [apply fr_sym|intros; exact IH]. Qed.
Lemma fr_tag_index k : fr (tag_index k).
Proof. intros s. unfold tag_index. destruct (bt_get _ _); apply Rrefl. Qed.
Lemma fr_alias a : fr (alias_value a).
Proof.
  intros s. unfold alias_value. destruct (l_cyclic s); [apply Rrefl|]. destruct (nth_error _ _); [|apply Rrefl].
  destruct (bt_get _ _); [apply Rrefl|apply fr_err].
Qed.
Lemma fr_build m : fr (build_map m).
Proof. intros s. unfold build_map. destruct (map_collect _ _); apply Rrefl. Qed.
Lemma fr_anchor_insert a n : fr (anchor_insert a n).
Proof. intros s. unfold anchor_insert. destruct (nth_error _ _); [apply Ranchors|apply Rrefl]. Qed.
Lemma fr_ind l : fr (ind l).
Proof.
  apply fr_bind; [apply fr_modify; intros; apply Rindent|intros _]. apply fr_bind; [apply fr_gets|intros; apply fr_spaces].
Qed.
Lemma fr_ind_define l : fr (ind_define l).
Proof.
  apply fr_bind; [destruct (Nat.ltb _ _); [apply fr_ind|apply fr_ret]|intros _].
  apply fr_bind; [apply fr_count, fr_take|intros i s].
  destruct (Nat.eqb _ _); [apply Rindent|]. destruct (Nat.ltb _ _); [apply Rindent|apply Rrefl].
Qed.

Ltac fw1 :=
  match goal with
  | |- forall _, _ => intros ?
  | |- fr (let _ := _ in _) => cbv zeta
  | |- fr (bind _ _) => apply fr_bind
  | |- fr (ok _) => apply fr_ok
  | |- fr (is_ok _) => apply fr_is_ok
  | |- fr (is_err _) => apply fr_is_err
  | |- fr (unwrap_or _ _) => apply fr_unwrap
  | |- fr (or_else _ _) => apply fr_or_else
  | |- fr (orM _ _) => apply fr_orM
  | |- fr (andM _ _) => apply fr_andM
  | |- fr (notM _) => apply fr_notM
  | |- fr (context _) => apply fr_context
  | |- fr (count _) => apply fr_count
  | |- fr (if ?b then _ else _) => destruct b
  | |- fr (match ?x with _ => _ end) => destruct x
  | |- fr _ => first [apply fr_ret | apply fr_fail | apply fr_div | apply fr_gets | apply fr_forward | apply fr_backward
                     | apply fr_back | apply fr_food | apply fr_text | apply fr_err | apply fr_sym_seq | apply fr_sym | apply fr_sym_set | apply fr_take
                     | apply fr_tag_index | apply fr_alias | apply fr_build | apply fr_anchor_insert | apply fr_ind_define | apply fr_ind
                     | solve [auto] ]
  end.
Ltac fw := repeat fw1.

Lemma fr_bound : fr bound. Proof. unfold bound, ws. fw. Qed.
Lemma fr_complex : fr complex_mapping. Proof. unfold complex_mapping. pose proof fr_bound. fw. Qed.
Lemma fr_num_prefix : fr num_prefix. Proof. unfold num_prefix. fw. Qed.
Lemma fr_int : fr int. Proof. unfold int, octal, hexadecimal, ws. pose proof fr_bound. pose proof fr_num_prefix. fw. Qed.
Lemma fr_float : fr float. Proof. unfold float, ws. pose proof fr_bound. pose proof fr_num_prefix. fw. Qed.
Lemma fr_sci : fr sci_float. Proof. unfold sci_float, ws. pose proof fr_bound. pose proof fr_num_prefix. fw. Qed.
Lemma fr_nl : fr nl. Proof. unfold nl. fw. Qed.
Lemma fr_comment : fr comment. Proof. unfold comment, ws. fw. Qed.
Lemma fr_gap_loop c : forall n t, fr (gap_loop n c t).
Proof. pose proof fr_comment. pose proof fr_nl. induction n; intros t; cbn [gap_loop]; unfold ws; fw. Qed.
Lemma fr_gap c : fr (gap c).
Proof. pose proof fr_comment. pose proof fr_nl. pose proof (fr_gap_loop c). unfold gap. fw. Qed.
Lemma fr_quoted_loop q ig : forall n v, fr (quoted_loop n q ig v).
Proof. pose proof fr_gap. induction n; intros v; cbn [quoted_loop]; unfold ws; fw. Qed.
Lemma fr_quoted q ig : fr (string_quoted q ig).
Proof. pose proof (fr_quoted_loop q ig). unfold string_quoted, ws. fw. Qed.
Lemma fr_plain_loop l i : forall n v b, fr (plain_loop n l i v b).
Proof. pose proof fr_gap. pose proof fr_nl. induction n; intros v b; cbn [plain_loop]; fw. Qed.
Lemma fr_plain l i : fr (string_plain l i).
Proof. pose proof (fr_plain_loop l i). unfold string_plain. fw. Qed.
Lemma fr_chomp : fr chomp. Proof. unfold chomp. fw. Qed.
Lemma fr_wrapped_loop l sep ld : forall n v, fr (wrapped_loop n l sep ld v).
Proof. pose proof fr_gap. pose proof fr_nl. induction n; intros v; cbn [wrapped_loop]; fw. Qed.
Lemma fr_wrapped l sep ld : fr (string_wrapped l sep ld).
Proof. pose proof (fr_wrapped_loop l sep ld). unfold string_wrapped. fw. Qed.
Lemma fr_literal l : fr (string_literal l).
Proof. pose proof fr_chomp. pose proof (fr_wrapped l). unfold string_literal, ws. fw. Qed.
Lemma fr_folded l : fr (string_folded l).
Proof. pose proof fr_chomp. pose proof (fr_wrapped l). unfold string_folded, ws. fw. Qed.
Lemma fr_identifier : fr identifier. Proof. unfold identifier. fw. Qed.
Lemma fr_tag : fr tag. Proof. pose proof fr_identifier. unfold tag. fw. Qed.
Lemma fr_anchor : fr anchor. Proof. pose proof fr_identifier. unfold anchor. fw. Qed.
Lemma fr_anchor_use : fr anchor_use. Proof. pose proof fr_identifier. unfold anchor_use. fw. Qed.
Lemma fr_doc_end : fr doc_end. Proof. unfold doc_end. fw. Qed.
Lemma fr_scalar_node f : fr f -> fr (scalar_node f).
Proof. intros Hf. pose proof fr_anchor. pose proof fr_tag. pose proof fr_bound. unfold scalar_node. fw. Qed.

Theorem fr_all : forall n,
  (forall l m f, fr (scalar n l m f)) /\ (forall l f, fr (scalar_flow n l f))
  /\ (forall l f, fr (scalar_term n l f)) /\ (forall l, fr (seq_flow n l))
  /\ (forall l v, fr (seq_flow_loop n l v)) /\ (forall l, fr (map_flow n l))
  /\ (forall l v, fr (map_flow_loop n l v)) /\ (forall l m, fr (Loader.seq n l m))
  /\ (forall l m v, fr (seq_loop n l m v)) /\ (forall l m f, fr (map_ n l m f))
  /\ (forall l m f v, fr (map_loop n l m f v)).
Proof.
  pose proof fr_literal. pose proof fr_folded. pose proof fr_float. pose proof fr_sci. pose proof fr_int. pose proof fr_anchor_use.
  pose proof fr_quoted. pose proof fr_plain. pose proof fr_gap. pose proof fr_complex. pose proof fr_bound. pose proof fr_doc_end.
  induction n as [|n (Hscalar & Hflow & Hterm & Hsf & Hsfl & Hmf & Hmfl & Hseq & Hseql & Hmap & Hmapl)];
    (refine (conj _ (conj _ (conj _ (conj _ (conj _ (conj _ (conj _ (conj _ (conj _ (conj _ _)))))))))); intros; [..]);
    try apply fr_div; cbn [scalar scalar_flow scalar_term seq_flow seq_flow_loop map_flow map_flow_loop Loader.seq seq_loop map_ map_loop];
    unfold inv; try apply fr_scalar_node; fw.
Qed.
Lemma fr_doc n : fr (doc n).
Proof.
  pose proof fr_gap. pose proof fr_bound. destruct (fr_all n) as (Hs & _). unfold doc. fw.
  - apply fr_modify. intros. apply Ranchors.
  - apply fr_modify. intros. apply Rdocind.
Qed.
Lemma fr_docs_loop n : forall k v, fr (docs_loop k n v).
Proof. pose proof fr_gap. pose proof (fr_doc n). induction k; intros v; cbn [docs_loop]; fw. Qed.
End Frame.
