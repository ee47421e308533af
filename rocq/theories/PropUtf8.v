(** * C27: UTF-8 text survives.

    [ck m]: if the cursor and the checkpoint are between two characters before
    [m] runs, they are afterwards, whatever the outcome. *)
From Verif Require Export PropAnchor Utf8.
Open Scope nat_scope.

(** ** Scanning over whole characters *)
Lemma head_ok_app_ascii x r : seams (x :: r) -> (x < 128)%N -> head_ok r.
Proof. intros [H _] Hx. auto. Qed.
(** a predicate that is false of every byte of a multi-byte character *)
Definition ascii_only (f : N -> bool) : Prop := forall b, (128 <= b)%N -> f b = false.
(** a predicate that is true of every byte of a multi-byte character *)
Definition all_multi (f : N -> bool) : Prop := forall b, (128 <= b)%N -> f b = true.

Lemma take_ascii f l : ascii_only f -> seams l -> head_ok l -> forall k, k <= span f l -> head_ok (skipn k l).
Proof.
  intros Hf. induction l as [|b l IH]; intros Hs Hh k Hk.
  - now rewrite skipn_nil.
  - destruct k as [|k]; [exact Hh|]. cbn [span] in Hk. destruct (f b) eqn:E; [|lia].
    assert (Hb : (b < 128)%N). { destruct (N.lt_ge_cases b 128) as [|Hge]; [assumption|]. rewrite (Hf b Hge) in E. discriminate. }
    cbn [skipn]. apply IH; [apply Hs|now apply Hs|lia].
Qed.
Lemma stop_multi f l : all_multi f -> head_ok (skipn (span f l) l).
Proof.
  intros Hf. destruct (skipn (span f l) l) as [|x r] eqn:E; [exact Logic.I|].
  pose proof (span_next f l x r E) as K. simpl. unfold is_cont.
  destruct (N.leb_spec 128 x) as [H|H]; [rewrite (Hf x H) in K; discriminate|reflexivity].
Qed.

Definition byte_test (f : N -> bool) (opt : take_opt) : Prop :=
  ascii_only f \/ (all_multi f /\ exists k, opt = More k).

Section Cut.
Variable d : bytes.
Hypothesis Hd : text_bytes d.

Definition cut (p : nat) : Prop := head_ok (skipn p d).
Definition Cs (s : st) : Prop :=
  p_doc s = d /\ p_eaten s <= p_pos s /\ p_pos s <= List.length d /\ cut (p_pos s) /\ cut (p_eaten s).
Definition ck {A} (m : M A) : Prop :=
  forall s, Cs s -> Cs (snd (m s)) /\ p_eaten s <= p_eaten (snd (m s)).

Lemma Cs_in s : Cs s -> in_doc s.
Proof. intros (E & _ & H & _). unfold in_doc. now rewrite E. Qed.
Lemma Cs_pos s p : Cs s -> p_eaten s <= p -> p <= List.length d -> cut p ->
  Cs (set_pos p s) /\ p_eaten s <= p_eaten (set_pos p s).
Proof. unfold Cs. simpl. intuition. Qed.
Lemma Cs_rem s : Cs s -> rem s = skipn (p_pos s) d.
Proof. intros (E & _). unfold rem. now rewrite E. Qed.
Lemma cut_add s k : Cs s -> head_ok (skipn k (rem s)) -> cut (p_pos s + k).
Proof. intros Hs H. rewrite (Cs_rem _ Hs), skipn_add in H. exact H. Qed.
Lemma Cs_seams s : Cs s -> seams (rem s).
Proof. intros Hs. rewrite (Cs_rem _ Hs). apply seams_skip, Hd. Qed.
Lemma Cs_head s : Cs s -> head_ok (rem s).
Proof. intros Hs. rewrite (Cs_rem _ Hs). apply Hs. Qed.
Lemma Cs_move s k : Cs s -> k <= List.length (rem s) -> head_ok (skipn k (rem s)) ->
  Cs (set_pos (p_pos s + k) s) /\ p_eaten s <= p_eaten (set_pos (p_pos s + k) s).
Proof.
  intros Hs Hk Hh. pose proof Hs as (E & H1 & H2 & _). rewrite rem_length, E in Hk.
  apply Cs_pos; [exact Hs|lia|lia|now apply cut_add].
Qed.
Lemma Cs_back s : Cs s -> Cs (set_pos (p_eaten s) s) /\ p_eaten s <= p_eaten (set_pos (p_eaten s) s).
Proof. intros Hs. pose proof Hs as (E & H1 & H2 & H3 & H4). apply Cs_pos; auto; lia. Qed.

Lemma ck_bind {A B} (m : M A) (f : A -> M B) : ck m -> (forall a, ck (f a)) -> ck (bind m f).
Proof.
  intros Hm Hf s Hs. specialize (Hm s Hs). unfold bind.
  destruct (m s) as [[a|e| |] s1]; try exact Hm. simpl in Hm. destruct Hm as [H1 H2].
  destruct (Hf a s1 H1) as [H3 H4]. split; [exact H3|lia].
Qed.
Lemma ck_same {A} (m : M A) : (forall s, snd (m s) = s) -> ck m.
Proof. intros H s Hs. rewrite H. auto. Qed.
Lemma ck_ret {A} (a : A) : ck (ret a).
Proof. apply ck_same. reflexivity. Qed.
Lemma ck_fail {A} e : ck (@fail A e).
Proof. apply ck_same. reflexivity. Qed.
Lemma ck_div {A} : ck (@diverge A).
Proof. apply ck_same. reflexivity. Qed.
Lemma ck_err {A} nm : ck (@err A nm).
Proof. apply ck_same. intros s. unfold err. now destruct (indicated_msg _ _). Qed.
Lemma ck_gets {A} (f : st -> A) : ck (gets f).
Proof. apply ck_same. reflexivity. Qed.
Lemma ck_text : ck text.
Proof. apply ck_same. intros s. unfold text. destruct (Nat.ltb _ _); [destruct (Nat.leb _ _)|]; reflexivity. Qed.
Lemma ck_food : ck food.
Proof. apply ck_same. intros s. unfold food. now destruct (Nat.leb _ _). Qed.
Lemma ck_tag_index k : ck (tag_index k).
Proof. apply ck_same. intros s. unfold tag_index. now destruct (bt_get _ _). Qed.
Lemma ck_alias a : ck (alias_value a).
Proof.
  apply ck_same. intros s. unfold alias_value. destruct (l_cyclic s); [reflexivity|].
  destruct (nth_error _ _); [|reflexivity]. destruct (bt_get _ _); [reflexivity|].
  unfold err. now destruct (indicated_msg _ _).
Qed.
Lemma ck_build m : ck (build_map m).
Proof. apply ck_same. intros s. unfold build_map. now destruct (map_collect _ _). Qed.
Lemma ck_modify f : (forall s, p_doc (f s) = p_doc s /\ p_pos (f s) = p_pos s /\ p_eaten (f s) = p_eaten s) ->
  ck (modify f).
Proof. intros H s Hs. simpl. destruct (H s) as (A & B & C). unfold Cs in *. rewrite A, B, C. auto. Qed.
Lemma ck_anchor_insert a n : ck (anchor_insert a n).
Proof. intros s Hs. unfold anchor_insert. destruct (nth_error _ _); simpl; auto. Qed.
Lemma ck_forward : ck forward.
Proof. intros s Hs. simpl. unfold Cs in *. simpl. intuition. Qed.
Lemma ck_backward : ck backward.
Proof. intros s Hs. now apply Cs_back. Qed.
Lemma ck_ok {A} (m : M A) : ck m -> ck (ok m).
Proof. intros Hm s Hs. specialize (Hm s Hs). unfold ok. destruct (m s) as [[]]; exact Hm. Qed.
Lemma ck_is_ok {A} (m : M A) : ck m -> ck (is_ok m).
Proof. intros Hm s Hs. specialize (Hm s Hs). unfold is_ok. destruct (m s) as [[]]; exact Hm. Qed.
Lemma ck_is_err {A} (m : M A) : ck m -> ck (is_err m).
Proof. intros Hm. apply ck_bind; [now apply ck_is_ok|intros; apply ck_ret]. Qed.
Lemma ck_unwrap {A} a (m : M A) : ck m -> ck (unwrap_or a m).
Proof. intros Hm. apply ck_bind; [now apply ck_ok|intros; apply ck_ret]. Qed.
Lemma ck_or_else {A} (m f : M A) : ck m -> ck f -> ck (or_else m f).
Proof.
  intros Hm Hf s Hs. specialize (Hm s Hs). unfold or_else.
  destruct (m s) as [[a|[|nm msg]| |] s1]; try exact Hm. simpl in Hm. destruct Hm as [H1 H2].
  destruct (Hf s1 H1) as [H3 H4]. split; [exact H3|lia].
Qed.
Lemma ck_orM a b : ck a -> ck b -> ck (orM a b).
Proof. intros Ha Hb. apply ck_bind; [exact Ha|intros []; [apply ck_ret|exact Hb]]. Qed.
Lemma ck_andM a b : ck a -> ck b -> ck (andM a b).
Proof. intros Ha Hb. apply ck_bind; [exact Ha|intros []; [exact Hb|apply ck_ret]]. Qed.
Lemma ck_notM a : ck a -> ck (notM a).
Proof. intros Ha. apply ck_bind; [exact Ha|intros; apply ck_ret]. Qed.
Lemma ck_context {A} (m : M A) : ck m -> ck (context m).
Proof.
  intros Hm s Hs. unfold context. pose proof (ck_forward s Hs) as [H1 _].
  change (snd (forward s)) with (set_eaten (p_pos s) s) in H1.
  destruct (Hm _ H1) as [H2 H3]. destruct (m (set_eaten (p_pos s) s)) as [r s1].
  simpl in *. pose proof Hs as (E & A1 & A2 & A3 & A4). unfold Cs in *. simpl. intuition; lia.
Qed.
Lemma ck_count {A} (m : M A) : ck m -> ck (count m).
Proof.
  intros Hm. unfold count. apply ck_bind; [apply ck_gets|intros p]. apply ck_bind; [exact Hm|intros _].
  apply ck_same. intros s. now destruct (Nat.leb _ _).
Qed.
Lemma ck_if {A} (b : bool) (m1 m2 : M A) : ck m1 -> ck m2 -> ck (if b then m1 else m2).
Proof. now destruct b. Qed.

(** ** Scanners *)
Lemma ck_take f opt : byte_test f opt -> ck (take_while f opt).
Proof.
  intros Hf s Hs. rewrite take_while_exec by now apply Cs_in. cbv zeta.
  destruct (Nat.leb _ _); [|now apply Cs_back].
  pose proof (cap_le opt (span f (rem s))) as K1. pose proof (span_le f (rem s)) as K2.
  apply (Cs_move s); [exact Hs|lia|]. destruct Hf as [Hf|(Hf & k & ->)].
  - apply (take_ascii f); [exact Hf|now apply Cs_seams|now apply Cs_head|exact K1].
  - apply stop_multi, Hf.
Qed.
Lemma ascii_in l : Forall (fun b => (b < 128)%N) l -> ascii_only (is_in l).
Proof.
  intros Hl b Hb. destruct (is_in l b) eqn:E; [|reflexivity]. apply is_in_spec in E.
  rewrite Forall_forall in Hl. specialize (Hl b E). lia.
Qed.
Lemma multi_not_in l : Forall (fun b => (b < 128)%N) l -> all_multi (not_in l).
Proof.
  intros Hl b Hb. apply not_in_spec. intros E. rewrite Forall_forall in Hl. specialize (Hl b E). lia.
Qed.
Definition asciis (l : bytes) : Prop := forallb (fun b => N.ltb b 128) l = true.
Lemma asciis_Forall l : asciis l -> Forall (fun b => (b < 128)%N) l.
Proof. intros H. apply Forall_forall. intros x Hx. apply N.ltb_lt. unfold asciis in H. rewrite forallb_forall in H. auto. Qed.
Lemma ck_sym_set l : asciis l -> ck (sym_set l).
Proof. intros H. apply ck_take. left. apply ascii_in, asciis_Forall, H. Qed.
Lemma ck_sym c : (c < 128)%N -> ck (sym c).
Proof. intros H. apply ck_sym_set. unfold asciis. simpl. now rewrite (proj2 (N.ltb_lt _ _) H). Qed.
Lemma ck_sym_seq l : asciis l -> ck (sym_seq l).
Proof.
  induction l as [|c l IH]; intros H; [apply ck_ret|]. unfold asciis in H. simpl in H. apply andb_true_iff in H as [H1 H2].
  apply ck_bind; [apply ck_sym; now apply N.ltb_lt|intros _; auto].
Qed.
Lemma ck_upto l : asciis l -> forall k, ck (take_while (not_in l) (More k)).
Proof. intros H k. apply ck_take. right. split; [apply multi_not_in, asciis_Forall, H|eauto]. Qed.
Ltac ascii :=
  let b := fresh "b" in let H := fresh "H" in
  intros b H; unfold is_ws, is_ascii_ws, is_digit, is_alnum, ascii_digit, is_digit;
  repeat match goal with
  | |- context [N.eqb b ?x] => rewrite (proj2 (N.eqb_neq b x)) by lia
  | |- context [N.leb b ?x] => rewrite (proj2 (N.leb_gt b x)) by lia
  | |- context [N.ltb b ?x] => rewrite (proj2 (N.ltb_ge b x)) by lia
  end; rewrite ?andb_false_r, ?orb_false_r; reflexivity.
Lemma ascii_ws : ascii_only is_ws. Proof. ascii. Qed.
Lemma ascii_aws : ascii_only is_ascii_ws. Proof. ascii. Qed.
Lemma ascii_digit_ : ascii_only is_digit. Proof. ascii. Qed.
Lemma ascii_alnum : ascii_only is_alnum. Proof. ascii. Qed.
Lemma ascii_idc : ascii_only (fun c => is_alnum c || N.eqb c 45)%bool.
Proof. intros b H. rewrite (ascii_alnum b H). rewrite (proj2 (N.eqb_neq b 45)) by lia. reflexivity. Qed.
Lemma ascii_rdigit i : (i <= 16)%N -> ascii_only (ascii_digit i).
Proof.
  intros Hi b H. unfold ascii_digit. rewrite (ascii_digit_ b H).
  rewrite (proj2 (N.ltb_ge b (97 + i))) by lia. rewrite (proj2 (N.ltb_ge b (65 + i))) by lia.
  now rewrite !andb_false_r.
Qed.
Lemma ck_ws o : ck (ws o). Proof. apply ck_take. left. apply ascii_ws. Qed.
Lemma ck_inv o : ck (inv o). Proof. apply ck_take. left. apply ascii_aws. Qed.
Lemma ck_digits o : ck (take_while is_digit o). Proof. apply ck_take. left. apply ascii_digit_. Qed.
Lemma ck_bound : ck bound.
Proof.
  intros s Hs. rewrite bound_exec by now apply Cs_in. destruct (at_bound _); [|now apply Cs_back].
  assert (K : ws_len (rem s) <= List.length (rem s)) by apply span_le.
  apply Cs_move; [exact Hs|exact K|]. apply (take_ascii is_ws); [apply ascii_ws|now apply Cs_seams|now apply Cs_head|].
  unfold ws_len. lia.
Qed.
Lemma ck_identifier : ck identifier.
Proof.
  apply ck_bind; [apply ck_take; left; apply ascii_alnum|intros _; apply ck_take; left; apply ascii_idc].
Qed.
Lemma ck_complex : ck complex_mapping.
Proof. apply ck_bind; [apply ck_sym; lia|intros; apply ck_bound]. Qed.
Lemma ck_num_prefix : ck num_prefix.
Proof. apply ck_bind; [apply ck_unwrap, ck_sym; lia|intros; apply ck_digits]. Qed.
Lemma ck_int : ck int.
Proof.
  unfold int. apply ck_bind; [apply ck_num_prefix|intros _]. apply ck_bind; [apply ck_text|intros s0].
  apply ck_bind.
  { destruct (str_eqb s0 _); [|apply ck_ret]. apply ck_context, ck_orM; apply ck_is_ok, ck_bind;
      try (apply ck_sym; lia); intros _; apply ck_take; left; apply ascii_rdigit; lia. }
  intros b. apply ck_bind; [destruct b; [apply ck_text|apply ck_ret]|intros s1].
  apply ck_bind; [apply ck_ws|intros _]. apply ck_bind; [apply ck_bound|intros _; apply ck_ret].
Qed.
(** stepping back over a blank just skipped *)
Lemma ck_tail (x : str) : ck (n <- count (ws (More 0)) ;;
  (if Nat.ltb 0 n then back 1 else ret tt) ;;; bound ;;; ret x).
Proof.
  intros s Hs. rewrite (bind_ok _ _ _ _ _ (count_ws_exec s (Cs_in s Hs))).
  set (w := ws_len (rem s)). assert (Hw : w <= List.length (rem s)) by apply span_le.
  assert (Hb : (if Nat.ltb 0 w then back 1 else ret tt) (set_pos (p_pos s + w) s)
               = (@ROk unit tt, set_pos (p_pos s + (w - 1)) s)).
  { destruct (Nat.ltb_spec 0 w) as [W|W].
    - unfold back. cbn [p_pos set_pos]. rewrite (proj2 (Nat.leb_le 1 _)) by lia.
      f_equal. unfold set_pos; simpl. f_equal. lia.
    - replace w with 0 by lia. reflexivity. }
  rewrite (bind_ok _ _ _ _ _ Hb).
  assert (H1 : Cs (set_pos (p_pos s + (w - 1)) s) /\ p_eaten s <= p_eaten (set_pos (p_pos s + (w - 1)) s)).
  { apply Cs_move; [exact Hs|lia|]. apply (take_ascii is_ws); [apply ascii_ws|now apply Cs_seams|now apply Cs_head|].
    unfold w, ws_len. lia. }
  destruct H1 as [H1 H2].
  assert (K : ck (bound ;;; ret x)) by (apply ck_bind; [apply ck_bound|intros; apply ck_ret]).
  destruct (K _ H1) as [H3 H4]. split; [exact H3|simpl in H4; lia].
Qed.
Lemma ck_float : ck float.
Proof.
  unfold float. apply ck_bind; [apply ck_num_prefix|intros _]. apply ck_bind; [apply ck_sym; lia|intros _].
  apply ck_bind; [apply ck_digits|intros _]. apply ck_bind; [apply ck_text|intros s0]. apply ck_tail.
Qed.
Lemma ck_sci : ck sci_float.
Proof.
  unfold sci_float. apply ck_bind; [apply ck_num_prefix|intros _].
  apply ck_bind; [apply ck_sym_set; reflexivity|intros _].
  apply ck_bind; [apply ck_take; left; apply ascii_in, asciis_Forall; reflexivity|intros _].
  apply ck_bind; [apply ck_digits|intros _]. apply ck_bind; [apply ck_text|intros s0]. apply ck_tail.
Qed.
Lemma ck_nl : ck nl.
Proof.
  apply ck_context. apply ck_bind; [|intros []; [apply ck_ret|apply ck_fail]].
  repeat apply ck_orM; apply ck_is_ok; try (apply ck_sym; lia); apply ck_sym_seq; reflexivity.
Qed.
Lemma ck_comment : ck comment.
Proof.
  apply ck_bind; [apply ck_ws|intros _]. apply ck_bind; [apply ck_sym; lia|intros _]. apply ck_upto. reflexivity.
Qed.
Lemma ck_gap_loop c : forall n t, ck (gap_loop n c t).
Proof.
  induction n as [|n IH]; intros t; cbn [gap_loop]; [apply ck_div|].
  apply ck_bind; [apply ck_forward|intros _]. apply ck_bind; [apply ck_ws|intros _].
  apply ck_bind; [destruct c; [apply ck_unwrap, ck_comment|apply ck_ret]|intros _].
  apply ck_bind; [apply ck_is_err, ck_nl|intros []]; [|apply IH].
  apply ck_bind; [apply ck_backward|intros; apply ck_ret].
Qed.
Lemma ck_gap c : ck (gap c).
Proof.
  apply ck_context. apply ck_bind; [destruct c; [apply ck_unwrap, ck_comment|apply ck_ret]|intros _].
  apply ck_bind; [apply ck_nl|intros _]. apply ck_bind; [apply ck_gets|intros n; apply ck_gap_loop].
Qed.
Lemma ck_indent f : ck (modify (fun s => set_indent (f s) s)).
Proof. apply ck_modify. auto. Qed.
Lemma ck_spaces n : ck (spaces n).
Proof. induction n as [|n IH]; [apply ck_ret|]. apply ck_bind; [apply ck_sym; lia|auto]. Qed.
Lemma ck_ind l : ck (ind l).
Proof.
  apply ck_bind; [apply ck_indent|intros _]. apply ck_bind; [apply ck_gets|intros n; apply ck_spaces].
Qed.
Lemma ck_ind_define l : ck (ind_define l).
Proof.
  apply ck_bind; [destruct (Nat.ltb _ _); [apply ck_ind|apply ck_ret]|intros _].
  apply ck_bind; [apply ck_count, ck_take; left; apply ascii_aws|intros i s Hs].
  destruct (Nat.eqb _ _); [|destruct (Nat.ltb _ _)]; simpl; auto.
Qed.
Lemma ck_quoted_loop q ig : (q < 128)%N -> asciis ig -> forall n v, ck (quoted_loop n q ig v).
Proof.
  intros Hq Hi. induction n as [|n IH]; intros v; cbn [quoted_loop]; [apply ck_div|].
  apply ck_bind; [apply ck_forward|intros _].
  apply ck_bind; [apply ck_upto; unfold asciis; simpl; now rewrite (proj2 (N.ltb_lt _ _) Hq)|intros _].
  apply ck_bind; [apply ck_text|intros tx]. cbv zeta. apply ck_bind; [apply ck_forward|intros _].
  apply ck_bind; [apply ck_is_ok, ck_sym_seq, Hi|intros []]; [apply IH|].
  apply ck_bind; [apply ck_ok, ck_gap|intros [t|]].
  - apply ck_bind; [apply ck_ws|intros _]. apply IH.
  - apply ck_bind; [apply ck_is_ok, ck_sym; lia|intros []]; [apply IH|].
    apply ck_bind; [apply ck_is_ok, ck_sym, Hq|intros []]; [apply ck_ret|apply IH].
Qed.
Lemma ck_quoted q ig : (q < 128)%N -> asciis ig -> ck (string_quoted q ig).
Proof.
  intros Hq Hi. apply ck_context. apply ck_bind; [apply ck_sym, Hq|intros _].
  apply ck_bind; [apply ck_forward|intros _]. apply ck_bind; [apply ck_ws|intros _].
  apply ck_bind; [apply ck_text|intros v]. apply ck_bind; [apply ck_gets|intros n]. now apply ck_quoted_loop.
Qed.
Lemma ck_plain_loop l i : forall n v b, ck (plain_loop n l i v b).
Proof.
  induction n as [|n IH]; intros v b; cbn [plain_loop]; [apply ck_div|].
  apply ck_bind; [apply ck_forward|intros _]. apply ck_bind; [apply ck_upto; now destruct i|intros _].
  apply ck_bind; [apply ck_text|intros tx]. cbv zeta. apply ck_bind; [apply ck_forward|intros _].
  apply ck_bind.
  { apply ck_orM; [apply ck_bind; [apply ck_food|intros; apply ck_ret]|].
    apply ck_orM; [apply ck_is_ok, ck_sym_seq; reflexivity|].
    apply ck_orM; [apply ck_andM; [apply ck_is_ok, ck_sym; lia|apply ck_is_ok, ck_nl]|apply ck_is_ok, ck_sym_seq; reflexivity]. }
  intros []; [apply ck_bind; [apply ck_backward|intros; apply ck_ret]|].
  apply ck_bind; [apply ck_forward|intros _].
  apply ck_bind; [apply ck_is_ok, ck_sym_set; reflexivity|intros []];
    [apply ck_bind; [apply ck_text|intros t2; apply IH]|].
  apply ck_bind; [destruct (_ && _)%bool; [apply ck_is_ok, ck_sym_set; reflexivity|apply ck_ret]|intros []];
    [apply ck_bind; [apply ck_text|intros t2; apply IH]|].
  apply ck_bind; [apply ck_is_err, ck_ind|intros []]; [|apply IH].
  apply ck_bind; [apply ck_ok, ck_gap|intros [t|]]; [|apply ck_ret].
  apply ck_bind; [apply ck_is_err, ck_ind|intros []]; [apply ck_ret|apply IH].
Qed.
Lemma ck_plain l i : ck (string_plain l i).
Proof.
  apply ck_context. apply ck_bind; [apply ck_gets|intros n]. apply ck_bind; [apply ck_plain_loop|intros v].
  cbv zeta. destruct (trim_end v); [apply ck_fail|apply ck_ret].
Qed.
Lemma ck_chomp : ck chomp.
Proof.
  apply ck_context. apply ck_bind; [apply ck_is_ok, ck_sym; lia|intros []]; [apply ck_ret|].
  apply ck_bind; [apply ck_is_ok, ck_sym; lia|intros []]; apply ck_ret.
Qed.

(** A block scalar steps back over one byte of the line break just read. *)
Definition after_nl (p0 : nat) (s : st) : Prop :=
  exists p, p_pos s = S p /\ p0 <= p /\ exists b, nth_error d p = Some b /\ (b < 128)%N.
Lemma nl_len_bytes l i b : i < nl_len l -> nth_error l i = Some b -> (b < 128)%N.
Proof.
  unfold nl_len. destruct l as [|x [|y l]]; [simpl; lia|..];
  repeat match goal with |- context [match ?z with _ => _ end] => is_var z; destruct z end;
  try (simpl; lia); destruct i as [|[|i]]; simpl; intros H K; try lia; try discriminate; injection K as <-; lia.
Qed.
Lemma wrapped_after p0 lv sep lead : forall n v s, Cs s -> p0 <= p_pos s ->
  match wrapped_loop n lv sep lead v s with (ROk _, s') => after_nl p0 s' | _ => True end.
Proof.
  induction n as [|n IH]; intros v s Hs H0; [exact Logic.I|]. cbn [wrapped_loop].
  unfold bind at 1. pose proof (ck_nl s Hs) as K1. rewrite (nl_exec s (Cs_in s Hs)) in *.
  destruct (Nat.eqb_spec (nl_len (rem s)) 0) as [Z|Z]; [exact Logic.I|]. destruct K1 as [K1 _]. simpl in K1.
  set (q := p_pos s + nl_len (rem s)) in *.
  unfold bind at 1. unfold forward at 1, modify at 1. set (s2 := set_eaten _ _).
  assert (E2 : s2 = set_eaten q (set_pos q s)) by reflexivity.
  assert (H2 : Cs s2) by (rewrite E2; unfold Cs in *; simpl in *; intuition).
  assert (AN : forall s', p_pos s' = q -> after_nl p0 s').
  { intros s' E'. exists (q - 1). split; [unfold q in *; lia|]. split; [unfold q in *; lia|].
    set (i := nl_len (rem s) - 1).
    assert (Hi : nth_error (rem s) i = nth_error d (q - 1)).
    { rewrite (Cs_rem s Hs). rewrite <- (firstn_skipn (p_pos s) d) at 2. rewrite nth_error_app2.
      - rewrite firstn_length. destruct Hs as (_ & _ & Hs & _). f_equal. unfold q, i. lia.
      - rewrite firstn_length. unfold q. lia. }
    rewrite <- Hi. pose proof (nl_len_le (rem s)) as KL.
    destruct (nth_error (rem s) i) as [b|] eqn:Eb.
    - exists b. split; [reflexivity|]. apply (nl_len_bytes (rem s) i); [unfold i; lia|exact Eb].
    - exfalso. apply nth_error_None in Eb. unfold i in Eb. lia. }
  assert (BACK : forall s', in_doc s' -> p_eaten s' = q ->
     match is_err (ind lv) s' with (ROk true, s'') => p_pos s'' = q | _ => True end).
  { intros s' Hi He. unfold is_err, is_ok, bind, ret. rewrite (ind_exec lv s' Hi).
    destruct (Nat.leb _ _); [exact Logic.I|exact He]. }
  assert (STAY : forall s', in_doc s' -> p_eaten s' = q -> p_eaten (snd (is_err (ind lv) s')) = q).
  { intros s' Hi He. unfold is_err, is_ok, bind, ret. rewrite (ind_exec lv s' Hi). destruct (Nat.leb _ _); exact He. }
  pose proof (BACK s2 (Cs_in _ H2) eq_refl) as B1.
  pose proof (ck_is_err _ (ck_ind lv) s2 H2) as [H3 _].
  assert (E3 : p_eaten (snd (is_err (ind lv) s2)) = q).
  { apply STAY; [now apply Cs_in|reflexivity]. }
  unfold bind at 1. destruct (is_err (ind lv) s2) as [[e| | |] s3]; try exact Logic.I. simpl in H3, E3.
  assert (LOOP : forall v' s4, Cs s4 -> p_eaten s4 = q ->
    match (forward ;;; take_while (not_in [10; 13]%N) (More 0) ;;; t <- text ;;
      wrapped_loop n lv sep lead (if lead then (if is_nil v' then v' else v' ++ [sep]) ++ t
        else (if negb (is_nil v') && negb (ends_with_ws v') then v' ++ [sep] else v') ++ trim_start t)) s4
    with (ROk _, s') => after_nl p0 s' | _ => True end).
  { intros v' s4 H4 Q4.
    assert (KK : ck (forward ;;; take_while (not_in [10; 13]%N) (More 0) ;;; text)).
    { apply ck_bind; [apply ck_forward|intros _]. apply ck_bind; [apply ck_upto; reflexivity|intros _; apply ck_text]. }
    specialize (KK s4 H4). unfold bind in *. cbn [forward modify] in *.
    destruct (take_while _ _ _) as [[u| | |] s5]; try exact Logic.I.
    destruct (text s5) as [[t| | |] s6]; try exact Logic.I. destruct KK as [KK KE]. apply IH; [exact KK|]. destruct KK as (_ & KK & _). simpl in *. unfold q in *. lia. }
  destruct e.
  - unfold bind at 1. unfold bind at 1. pose proof (ck_ok _ (ck_gap false) s3 H3) as [H4 _].
    unfold ok in *. rewrite (gap_exec false s3 (Cs_in _ H3)) in *.
    destruct (gap_f false (rem s3)) as [[t k]|]; simpl in H4.
    + cbv zeta. unfold bind at 1. pose proof (BACK _ (Cs_in _ H4) E3) as B2.
      pose proof (ck_is_err _ (ck_ind lv) _ H4) as [H5 _].
      pose proof (STAY _ (Cs_in _ H4) E3) as E5.
      destruct (is_err (ind lv) (set_pos (p_pos s3 + k) s3)) as [[e| | |] s5]; try exact Logic.I.
      simpl in E5. simpl. destruct e; [exact (AN s5 B2)|]. apply LOOP; [exact H5|exact E5].
    + simpl. apply AN. simpl. rewrite Nat.add_0_r. exact B1.
  - unfold bind at 1. simpl. apply LOOP; [exact H3|exact E3].
Qed.
Lemma ck_wrapped_loop lv sep lead : forall n v, ck (wrapped_loop n lv sep lead v).
Proof.
  induction n as [|n IH]; intros v; cbn [wrapped_loop]; [apply ck_div|].
  apply ck_bind; [apply ck_nl|intros _]. apply ck_bind; [apply ck_forward|intros _].
  apply ck_bind; [apply ck_is_err, ck_ind|intros e].
  apply ck_bind.
  { destruct e; [|apply ck_ret]. apply ck_bind; [apply ck_ok, ck_gap|intros [t|]]; [|apply ck_ret].
    apply ck_bind; [apply ck_is_err, ck_ind|intros; apply ck_ret]. }
  intros [v' stop]. destruct stop; [apply ck_ret|].
  apply ck_bind; [apply ck_forward|intros _]. apply ck_bind; [apply ck_upto; reflexivity|intros _].
  apply ck_bind; [apply ck_text|intros t]. apply IH.
Qed.
Lemma after_nl_back p0 s : Cs s -> after_nl p0 s -> cut (p_pos s - 1) /\ p0 <= p_pos s - 1.
Proof.
  intros Hs (p & E & H0 & b & Hb & Hlt). split; [|lia]. rewrite E. simpl. rewrite Nat.sub_0_r. unfold cut.
  destruct (skipn p d) as [|x r] eqn:Ex; [exact Logic.I|].
  assert (x = b).
  { rewrite <- (firstn_skipn p d), nth_error_app2 in Hb by (rewrite firstn_length; lia).
    rewrite Ex, firstn_length in Hb. destruct Hs as (_ & _ & Hs & _).
    replace (p - Nat.min p (List.length d)) with 0 in Hb by lia. now injection Hb. }
  subst. simpl. unfold is_cont. now rewrite (proj2 (N.leb_gt 128 b)) by lia.
Qed.
Lemma ck_wrapped lv sep lead : ck (string_wrapped lv sep lead).
Proof.
  intros s Hs. unfold string_wrapped, context. set (s1 := set_eaten (p_pos s) s).
  assert (H1 : Cs s1) by (apply (ck_forward s Hs)).
  unfold bind, gets. set (n := loop_fuel s1).
  destruct (ck_wrapped_loop lv sep lead n [] s1 H1) as [H2 H3].
  pose proof (wrapped_after (p_pos s) lv sep lead n [] s1 H1 (le_n _)) as AN.
  assert (G : forall s', Cs s' -> p_eaten s1 <= p_eaten s' ->
            Cs (set_eaten (p_eaten s) s') /\ p_eaten s <= p_eaten (set_eaten (p_eaten s) s')).
  { intros s' A B. pose proof Hs as (D1 & D2 & D3 & D4 & D5). unfold Cs in *. simpl in *. intuition lia. }
  destruct (wrapped_loop n lv sep lead [] s1) as [[v|e| |] s2]; simpl in H2, H3;
    [|apply G; assumption|apply G; assumption|apply G; assumption].
  destruct (after_nl_back _ _ H2 AN) as [C1 C2].
  unfold back. destruct (Nat.leb_spec 1 (p_pos s2)) as [L|L]; [|apply G; assumption].
  pose proof Hs as (D1 & D2 & D3 & D4 & D5). pose proof H2 as (F1 & F2 & F3 & F4 & F5).
  unfold Cs. simpl. split; [|lia]. repeat split; auto; lia.
Qed.

Ltac sy := apply ck_sym; lia.
Lemma ck_literal lv : ck (string_literal lv).
Proof.
  apply ck_bind; [sy|intros _]. apply ck_bind; [apply ck_chomp|intros c]. apply ck_bind; [apply ck_ws|intros _].
  apply ck_bind; [apply ck_wrapped|intros v; apply ck_ret].
Qed.
Lemma ck_folded lv : ck (string_folded lv).
Proof.
  apply ck_bind; [sy|intros _]. apply ck_bind; [apply ck_chomp|intros c]. apply ck_bind; [apply ck_ws|intros _].
  apply ck_bind; [apply ck_wrapped|intros v; apply ck_ret].
Qed.
Lemma ck_named c : (c < 128)%N -> ck (bind (sym c) (fun _ => context (bind identifier (fun _ => text)))).
Proof.
  intros H. apply ck_bind; [now apply ck_sym|intros _]. apply ck_context, ck_bind; [apply ck_identifier|intros _; apply ck_text].
Qed.
Lemma ck_anchor : ck anchor. Proof. apply ck_named. lia. Qed.
Lemma ck_anchor_use : ck anchor_use. Proof. apply ck_named. lia. Qed.
Lemma ck_tag : ck tag.
Proof.
  apply ck_bind; [sy|intros _]. apply ck_context.
  apply ck_bind; [apply ck_unwrap, ck_identifier|intros _]. apply ck_bind; [apply ck_text|intros tg].
  apply ck_bind.
  - destruct (negb (is_nil tg)).
    + apply ck_bind; [apply ck_is_ok; sy|intros []]; [apply ck_tag_index|apply ck_ret].
    + apply ck_bind; [apply ck_is_ok; sy|intros []].
      * apply ck_bind; [apply ck_context, ck_bind; [apply ck_upto; reflexivity|intros _; apply ck_text]|intros t].
        apply ck_bind; [sy|intros _; apply ck_ret].
      * apply ck_bind; [apply ck_is_ok; sy|intros []]; apply ck_tag_index.
  - intros pre. apply ck_bind; [|intros; apply ck_ret].
    apply ck_context, ck_bind; [apply ck_is_ok, ck_identifier|intros []]; [apply ck_text|apply ck_ret].
Qed.
Lemma ck_directive : ck directive.
Proof.
  apply ck_bind; [sy|intros _].
  apply ck_bind; [|intros _; apply ck_bind; [apply ck_gap|intros; apply ck_ret]]. apply ck_context.
  apply ck_bind; [apply ck_is_ok, ck_sym_seq; reflexivity|intros []].
  - apply ck_bind; [apply ck_ws|intros _]. apply ck_bind; [apply ck_gets|intros []]; [apply ck_err|].
    apply ck_bind; [apply ck_context, ck_orM; apply ck_is_ok, ck_sym_seq; reflexivity|intros b].
    destruct (negb b); [apply ck_err|]. apply ck_modify. auto.
  - apply ck_bind; [apply ck_is_ok, ck_sym_seq; reflexivity|intros []]; [|apply ck_upto; reflexivity].
    apply ck_bind; [apply ck_ws|intros _]. apply ck_bind; [sy|intros _]. apply ck_context.
    apply ck_bind; [apply ck_is_ok, ck_identifier|intros b]. apply ck_bind.
    + destruct b.
      * apply ck_bind; [apply ck_text|intros t]. apply ck_bind; [sy|intros; apply ck_ret].
      * apply ck_bind; [apply ck_is_ok; sy|intros []]; apply ck_ret.
    + intros tg. apply ck_bind; [apply ck_ws|intros _].
      apply ck_bind; [apply ck_context, ck_bind; [apply ck_upto; reflexivity|intros _; apply ck_text]|intros dd].
      apply ck_modify. auto.
Qed.
Lemma ck_doc_end : ck doc_end.
Proof.
  apply ck_bind; [apply ck_food|intros [|c r]]; [apply ck_ret|]. apply ck_context.
  apply ck_bind; [apply ck_orM; apply ck_is_ok, ck_sym_seq; reflexivity|intros b].
  apply ck_bind; [destruct b; [apply ck_backward|apply ck_ret]|intros _; apply ck_ret].
Qed.
Lemma ck_scalar_node f : ck f -> ck (scalar_node f).
Proof.
  intros Hf. unfold scalar_node.
  apply ck_bind; [apply ck_unwrap, ck_anchor|intros a1].
  apply ck_bind; [destruct (is_nil a1); [apply ck_ret|apply ck_bound]|intros _].
  apply ck_bind; [apply ck_forward|intros _]. apply ck_bind; [apply ck_unwrap, ck_tag|intros tg].
  apply ck_bind; [destruct (is_nil tg); [apply ck_ret|apply ck_bound]|intros _].
  apply ck_bind; [apply ck_forward|intros _]. apply ck_bind; [apply ck_unwrap, ck_anchor|intros a2].
  apply ck_bind.
  { destruct (is_nil a2); [apply ck_ret|]. destruct (is_nil a1); [|apply ck_err].
    apply ck_bind; [apply ck_bound|intros; apply ck_ret]. }
  intros an. apply ck_bind; [apply ck_forward|intros _]. apply ck_bind; [apply ck_gets|intros pos].
  apply ck_bind; [exact Hf|intros y]. apply ck_bind; [apply ck_forward|intros _]. cbv zeta.
  destruct (is_nil an); [apply ck_ret|]. apply ck_bind; [apply ck_anchor_insert|intros []]; [apply ck_err|apply ck_ret].
Qed.

Lemma ck_head_gap (map : bool) level : ck (if map then gap true ;;; ind_define level
          else g <- is_ok (gap true) ;; if (g : bool) then ind level else ret tt).
Proof.
  destruct map.
  - apply ck_bind; [apply ck_gap|intros; apply ck_ind_define].
  - apply ck_bind; [apply ck_is_ok, ck_gap|intros []]; [apply ck_ind|apply ck_ret].
Qed.
Lemma ck_all : forall n,
  (forall l m f, ck (scalar n l m f)) /\ (forall l f, ck (scalar_flow n l f))
  /\ (forall l f, ck (scalar_term n l f)) /\ (forall l, ck (seq_flow n l))
  /\ (forall l v, ck (seq_flow_loop n l v)) /\ (forall l, ck (map_flow n l))
  /\ (forall l v, ck (map_flow_loop n l v)) /\ (forall l m, ck (Loader.seq n l m))
  /\ (forall l m v, ck (seq_loop n l m v)) /\ (forall l m f, ck (map_ n l m f))
  /\ (forall l m f v, ck (map_loop n l m f v)).
Proof.
  induction n as [|n (Hscalar & Hflow & Hterm & Hsf & Hsfl & Hmf & Hmfl & Hseq & Hseql & Hmap & Hmapl)];
    [refine (conj _ (conj _ (conj _ (conj _ (conj _ (conj _ (conj _ (conj _ (conj _ (conj _ _)))))))))); intros; apply ck_div|].
  refine (conj _ (conj _ (conj _ (conj _ (conj _ (conj _ (conj _ (conj _ (conj _ (conj _ _)))))))))); intros.
  - cbn [scalar]. apply ck_scalar_node. apply ck_bind; [apply ck_ok, ck_literal|intros [s|]]; [apply ck_ret|].
    apply ck_bind; [apply ck_ok, ck_folded|intros [s|]]; [apply ck_ret|].
    apply ck_or_else; [apply ck_or_else; auto|auto].
  - cbn [scalar_flow]. apply ck_scalar_node, Hterm.
  - cbn [scalar_term].
    apply ck_bind; [apply ck_ok, ck_float|intros [s|]]; [apply ck_ret|].
    apply ck_bind; [apply ck_ok, ck_sci|intros [s|]]; [apply ck_ret|].
    apply ck_bind; [apply ck_ok, ck_int|intros [s|]]; [apply ck_ret|].
    apply ck_bind; [apply ck_ok, ck_anchor_use|intros [s|]]; [apply ck_alias|].
    apply ck_bind; [apply ck_ok, ck_quoted; [lia|reflexivity]|intros [s|]]; [apply ck_ret|].
    apply ck_bind; [apply ck_ok, ck_quoted; [lia|reflexivity]|intros [s|]]; [apply ck_ret|].
    apply ck_bind; [apply ck_ok, ck_plain|intros [s|]]; [apply ck_ret|].
    apply ck_or_else; [apply ck_or_else; auto|apply ck_ret].
  - cbn [seq_flow]. apply ck_bind; [sy|intros _; apply Hsfl].
  - cbn [seq_flow_loop]. apply ck_bind; [apply ck_inv|intros _]. apply ck_bind; [apply ck_forward|intros _].
    apply ck_bind; [apply ck_is_ok; sy|intros []]; [apply ck_bind; [apply ck_forward|intros _; apply ck_ret]|].
    apply ck_bind; [apply ck_forward|intros _]. apply ck_bind; [apply ck_or_else; [auto|apply ck_err]|intros x].
    cbv zeta. apply ck_bind; [apply ck_inv|intros _].
    apply ck_bind; [apply ck_is_err; sy|intros []]; [|apply Hsfl].
    apply ck_bind; [apply ck_inv|intros _]. apply ck_bind; [sy|intros _].
    apply ck_bind; [apply ck_forward|intros _; apply ck_ret].
  - cbn [map_flow]. apply ck_bind; [sy|intros _; apply Hmfl].
  - cbn [map_flow_loop]. apply ck_bind; [apply ck_inv|intros _]. apply ck_bind; [apply ck_forward|intros _].
    apply ck_bind; [apply ck_is_ok; sy|intros []]; [apply ck_bind; [apply ck_forward|intros _; apply ck_build]|].
    apply ck_bind; [apply ck_forward|intros _]. apply ck_bind; [apply ck_is_ok, ck_complex|intros c].
    apply ck_bind.
    { destruct c; [|apply ck_or_else; [auto|apply ck_err]].
      apply ck_bind; [apply ck_forward|intros _]. apply ck_bind; [apply ck_or_else; [auto|apply ck_err]|intros k].
      apply ck_bind; [apply ck_is_ok, ck_gap|intros g]. apply ck_bind; [destruct g; [apply ck_ind|apply ck_ret]|intros; apply ck_ret]. }
    intros k. apply ck_bind; [apply ck_is_err; sy|intros []]; [apply ck_err|].
    apply ck_bind; [apply ck_context, ck_unwrap, ck_bound|intros _]. apply ck_bind; [apply ck_forward|intros _].
    apply ck_bind; [apply ck_or_else; [auto|apply ck_err]|intros x]. cbv zeta.
    apply ck_bind; [apply ck_is_err; sy|intros []]; [|apply Hmfl].
    apply ck_bind; [apply ck_inv|intros _]. apply ck_bind; [sy|intros _].
    apply ck_bind; [apply ck_forward|intros _; apply ck_build].
  - cbn [Loader.seq]. apply Hseql.
  - cbn [seq_loop]. apply ck_bind; [apply ck_forward|intros _]. apply ck_bind.
    { destruct v as [|x v].
      - apply ck_bind; [apply ck_head_gap|intros _].
        apply ck_bind; [sy|intros _]. apply ck_bind; [apply ck_bound|intros; apply ck_ret].
      - apply ck_bind; [apply ck_andM; [apply ck_is_err, ck_gap|apply ck_notM, ck_doc_end]|intros []]; [apply ck_err|].
        apply ck_bind; [apply ck_orM; [apply ck_doc_end|apply ck_is_err, ck_ind]|intros []]; [apply ck_ret|].
        apply ck_bind; [apply ck_orM; [apply ck_is_err; sy|apply ck_is_err, ck_bound]|intros []]; [apply ck_ret|].
        apply ck_bind; [apply ck_forward|intros; apply ck_ret]. }
    intros []; [|apply ck_bind; [apply ck_backward|intros; apply ck_ret]].
    apply ck_bind; [apply ck_forward|intros _]. apply ck_bind; [apply ck_or_else; [auto|apply ck_err]|intros x]. apply Hseql.
  - cbn [map_]. apply Hmapl.
  - cbn [map_loop]. apply ck_bind; [apply ck_forward|intros _].
    assert (CK : ck (forward ;;; k <- or_else (scalar n (l + 1) true f) (err (lit "map key")) ;;
                 g <- is_ok (gap true) ;; (if (g : bool) then ind l else ret tt) ;;; ret k)).
    { apply ck_bind; [apply ck_forward|intros _]. apply ck_bind; [apply ck_or_else; [auto|apply ck_err]|intros k].
      apply ck_bind; [apply ck_is_ok, ck_gap|intros g]. apply ck_bind; [destruct g; [apply ck_ind|apply ck_ret]|intros; apply ck_ret]. }
    apply ck_bind.
    { destruct v as [|x v].
      - apply ck_bind; [apply ck_head_gap|intros _]. apply ck_bind; [apply ck_forward|intros _].
        apply ck_bind; [apply ck_is_ok, ck_complex|intros c].
        apply ck_bind; [destruct c; [exact CK|apply Hflow]|intros k].
        apply ck_bind; [apply ck_orM; [apply ck_is_err; sy|apply ck_is_err, ck_bound]|intros []]; apply ck_ret.
      - apply ck_bind; [apply ck_andM; [apply ck_is_err, ck_gap|apply ck_notM, ck_doc_end]|intros []]; [apply ck_err|].
        apply ck_bind; [apply ck_orM; [apply ck_doc_end|apply ck_is_err, ck_ind]|intros []]; [apply ck_ret|].
        apply ck_bind; [apply ck_forward|intros _]. apply ck_bind; [apply ck_is_ok, ck_complex|intros c].
        apply ck_bind; [destruct c; [exact CK|apply ck_or_else; [apply Hflow|apply ck_err]]|intros k].
        apply ck_bind; [apply ck_orM; [apply ck_is_err; sy|apply ck_is_err, ck_bound]|intros []]; [apply ck_err|apply ck_ret]. }
    intros [k|[y|]]; [|apply ck_ret|apply ck_bind; [apply ck_backward|intros; apply ck_build]].
    apply ck_bind; [apply ck_forward|intros _]. apply ck_bind; [apply ck_or_else; [auto|apply ck_err]|intros x]. apply Hmapl.
Qed.
Lemma ck_doc n : ck (doc n).
Proof.
  unfold doc. apply ck_bind; [apply ck_context, ck_unwrap, ck_bound|intros _].
  apply ck_bind; [apply ck_forward|intros _]. apply ck_bind; [apply ck_modify; auto|intros _].
  apply ck_bind; [apply (ck_all n)|intros r]. apply ck_bind; [apply ck_unwrap, ck_gap|intros _].
  apply ck_bind; [apply ck_unwrap, ck_sym_seq; reflexivity|intros _]. apply ck_bind; [apply ck_forward|intros _].
  apply ck_bind; [apply ck_modify; auto|intros; apply ck_ret].
Qed.
Lemma ck_docs_loop n : forall k v, ck (docs_loop k n v).
Proof.
  induction k as [|k IH]; intros v; [apply ck_div|]. cbn [docs_loop].
  apply ck_bind; [apply ck_unwrap, ck_gap|intros _]. apply ck_bind; [apply ck_food|intros [|c r]]; [apply ck_ret|].
  apply ck_bind; [apply ck_is_err, ck_sym_seq; reflexivity|intros []]; [apply ck_err|].
  apply ck_bind; [apply ck_doc|intros nd; apply IH].
Qed.
Lemma ck_directives n : ck (directives n).
Proof.
  induction n as [|n IH]; [apply ck_div|]. cbn [directives]. intros s Hs.
  pose proof (ck_context _ ck_directive s Hs) as [H1 H2].
  destruct (context directive s) as [[u|[|nm msg]| |] s1]; try (now split). simpl in *.
  destruct (IH s1 H1) as [H3 H4]. split; [exact H3|lia].
Qed.
Lemma ck_parse n : ck (parse_fuel n).
Proof.
  unfold parse_fuel. apply ck_bind; [apply ck_directives|intros _]. apply ck_bind; [apply ck_unwrap, ck_gap|intros _].
  apply ck_bind; [apply ck_unwrap, ck_sym_seq; reflexivity|intros _].
  apply ck_bind; [apply ck_doc|intros nd; apply ck_docs_loop].
Qed.
End Cut.

(** ** The theorems *)

(** The calls whose byte sets and predicates do not look inside a character:
    every one the crate itself makes. *)
Fixpoint whole_chars (c : call) : Prop :=
  match c with
  | CTakeWhile f opt => byte_test f opt
  | CSym c => (c < 128)%N
  | CSymSet cs | CSymSeq cs => asciis cs
  | CStringQuoted q ig => (q < 128)%N /\ asciis ig
  | CContext c | CCount c => whole_chars c
  | _ => True
  end.
Lemma ck_void d {A} (m : M A) : ck d m -> ck d (void m).
Proof. intros H. apply ck_bind; [exact H|intros; apply ck_ret]. Qed.
Lemma ck_call d c : text_bytes d -> whole_chars c -> ck d (run_call c).
Proof.
  intros Hd. induction c; cbn [run_call whole_chars]; intros Hw; try apply ck_void;
    try (pose proof (ck_all d Hd n) as (Q1 & Q2 & Q3 & Q4 & Q5 & Q6 & Q7 & Q8 & Q9 & Q10 & Q11));
    auto using ck_forward, ck_backward, ck_food, ck_text, ck_take, ck_sym, ck_sym_set, ck_sym_seq, ck_ind,
      ck_ind_define, ck_bound, ck_complex, ck_int, ck_float, ck_sci, ck_plain, ck_literal, ck_folded, ck_chomp,
      ck_wrapped, ck_identifier, ck_tag, ck_anchor, ck_anchor_use, ck_ws, ck_nl, ck_inv, ck_gap, ck_comment,
      ck_directive, ck_doc_end, ck_parse, ck_doc, ck_context, ck_count.
  destruct Hw. now apply ck_quoted.
Qed.
(** States reached by such calls. *)
Inductive reached_text (hk : hasher) (cyc : bool) (t : str) : st -> Prop :=
| ReachTNew : reached_text hk cyc t (new_st hk cyc (utf8_encode t))
| ReachTCall c s s' : reached_text hk cyc t s -> whole_chars c -> returns c s s' -> reached_text hk cyc t s'.

(** C27: encoding then decoding is the identity. *)
Theorem C27_decode_encode : forall t, valid t -> utf8_lossy (utf8_encode t) = t.
Proof. exact lossy_encode. Qed.

Lemma reached_Cs hk cyc t s : reached_text hk cyc t s -> Cs (utf8_encode t) s.
Proof.
  induction 1 as [|c s s' Hs IH Hw Hr].
  - unfold Cs, cut. cbn. repeat split; try lia; apply encode_head_ok.
  - pose proof (ck_call _ c (encode_text t) Hw s IH) as [K _]. unfold returns in Hr.
    destruct (run_call c s) as [[a|e| |] s1]; try contradiction; subst; exact K.
Qed.
(** C27: in every state reachable on the bytes of a text, the checkpoint and the
    cursor are between two characters of it, and [text] returns exactly the
    characters between them; [food] and [food_str] show what is left. *)
Theorem C27_text_is_a_piece : forall hk cyc t s, valid t -> reached_text hk cyc t s ->
  exists a b c, t = a ++ b ++ c
    /\ p_eaten s = List.length (utf8_encode a) /\ p_pos s = List.length (utf8_encode (a ++ b))
    /\ text s = (ROk b, s) /\ food s = (ROk (utf8_encode c), s) /\ food_str s = (ROk c, s).
Proof.
  intros hk cyc t s Hv Hr. pose proof (reached_Cs _ _ _ _ Hr) as Hs.
  pose proof (Cs_in _ _ Hs) as Hi. destruct Hs as (Ed & H1 & H2 & H3 & H4). unfold cut in *.
  destruct (cut_between t (p_pos s) Hv H2 H3) as (x & c & -> & Ex). 
  apply valid_app in Hv as [Hvx Hvc].
  rewrite encode_app in H4. 
  destruct (cut_between x (p_eaten s) Hvx) as (a & b & -> & Ea).
  { rewrite <- Ex. exact H1. }
  { rewrite skipn_app in H4. destruct (skipn (p_eaten s) (utf8_encode x)); [exact Logic.I|exact H4]. }
  exists a, b, c. split; [now rewrite app_assoc|]. split; [exact Ea|]. split; [exact Ex|].
  assert (F : Nat.leb (p_pos s) (List.length (p_doc s)) = true) by (apply Nat.leb_le; destruct Hi; lia).
  assert (SK : skipn (p_pos s) (p_doc s) = utf8_encode c).
  { rewrite Ed, encode_app, Ex, skipn_app, skipn_all, Nat.sub_diag. reflexivity. }
  split; [|split; [unfold food; now rewrite F, SK|unfold food_str; now rewrite F, SK, lossy_encode]].
  rewrite (text_exec _ Hi). do 2 f_equal. rewrite Ed, !encode_app in *.
  unfold slice. rewrite Ea, Ex, app_length.
  rewrite <- app_assoc, skipn_app, skipn_all, Nat.sub_diag.
  cbn [app skipn]. replace (List.length (utf8_encode a) + List.length (utf8_encode b) - List.length (utf8_encode a))
    with (List.length (utf8_encode b)) by lia.
  rewrite firstn_app, Nat.sub_diag, firstn_O, app_nil_r, firstn_all.
  apply lossy_encode. now apply valid_app in Hvx.
Qed.
(** Every sub-parser of the crate, and [parse] itself, is such a call. *)
Example C27_reached_example :
  exists s, reached_text (fun _ => 0%N) false [233; 58; 32; 8364; 10]%N s /\ p_eaten s = 0 /\ p_pos s = 2
    /\ text s = (ROk [233%N], s).
Proof.
  eexists. split.
  - eapply ReachTCall with (c := CTakeWhile (not_in [58]%N) (More 1)); [apply ReachTNew| |].
    + right. split; [|eauto]. apply multi_not_in, asciis_Forall. reflexivity.
    + unfold returns. vm_compute. reflexivity.
  - repeat split.
Qed.
