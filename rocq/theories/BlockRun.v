(** * Block collections: runs of the loader *)
From Verif Require Export Block.
Open Scope nat_scope.

(** ** The indentation table *)
Definition agree (L : nat) (tb tb' : list nat) : Prop := forall j, j <= L -> width tb' j = width tb j.
Lemma agree_refl L tb : agree L tb tb. Proof. now intros j _. Qed.
Lemma agree_trans L a b c : agree L a b -> agree L b c -> agree L a c.
Proof. intros H1 H2 j Hj. rewrite H2, H1 by exact Hj. reflexivity. Qed.
Lemma agree_le L M a b : M <= L -> agree L a b -> agree M a b.
Proof. intros H A j Hj. apply A. lia. Qed.
Lemma agree_depth L a b j : j <= L -> agree L a b -> depth b j = depth a j.
Proof. intros H A. apply depth_ext. intros i Hi. apply A. lia. Qed.
Lemma agree_norm L M tb : L <= M -> agree L tb (ind_norm M tb).
Proof. intros H j Hj. apply ind_norm_width. lia. Qed.
Lemma norm_beyond M tb j : M < j -> width (ind_norm M tb) j = 2.
Proof. intros H. unfold width. apply nth_overflow. rewrite ind_norm_length. lia. Qed.
(** level [L] is in column [c] and every deeper one takes two columns more *)
Definition Wd (L c : nat) (tb : list nat) : Prop := depth tb L = c /\ forall j, L < j -> width tb j = 2.
Lemma Wd_of_norm L c tb : depth tb L = c -> Wd L c (ind_norm L tb).
Proof. intros H. split; [now rewrite depth_norm|]. intros j Hj. now apply norm_beyond. Qed.
Lemma Wd_up L c tb : Wd L c tb -> Wd (L + 1) (c + 2) tb.
Proof.
  intros [H1 H2]. split; [|intros j Hj; apply H2; lia]. rewrite Nat.add_1_r. cbn [depth]. rewrite H1, H2; lia.
Qed.
Lemma Wd_norm L M c tb : L <= M -> Wd L c tb -> Wd L c (ind_norm M tb).
Proof.
  intros H [H1 H2]. split; [now rewrite depth_norm|]. intros j Hj. destruct (le_lt_dec j M) as [K|K].
  - rewrite ind_norm_width by exact K. now apply H2.
  - now apply norm_beyond.
Qed.

(** ** Moves *)
Definition moves (L k : nat) (s s' : st) : Prop :=
  exists tb E, s' = set_pos (p_pos s + k) (set_eaten E (set_indent tb s)) /\ agree L (p_indent s) tb.
Lemma moves_trans L a b s s1 s2 : moves L a s s1 -> moves L b s1 s2 -> moves L (a + b) s s2.
Proof.
  intros (tb & E & -> & H) (tb' & E' & -> & H'). exists tb', E'. split; [|eapply agree_trans; eassumption].
  unfold set_pos, set_eaten, set_indent. cbn. f_equal. lia.
Qed.
Lemma moves_le L M k s s' : M <= L -> moves L k s s' -> moves M k s s'.
Proof. intros H (tb & E & -> & K). exists tb, E. split; [reflexivity|]. eapply agree_le; eassumption. Qed.
Lemma moves_eaten L k s s' e : moves L k s s' -> moves L k s (set_eaten e s').
Proof. intros (tb & E & -> & K). exists tb, e. split; [reflexivity|exact K]. Qed.
Lemma moves_from_eaten L k s s' e : moves L k (set_eaten e s) s' -> moves L k s s'.
Proof. intros (tb & E & -> & K). exists tb, E. split; [reflexivity|exact K]. Qed.
Lemma moves_pos L k a s : moves L (k + a) s (set_pos (p_pos s + k + a) s).
Proof. exists (p_indent s), (p_eaten s). split; [|apply agree_refl]. apply st_ext; try reflexivity. cbn. lia. Qed.
Lemma moves_refl L s : moves L 0 s s.
Proof. exists (p_indent s), (p_eaten s). split; [|apply agree_refl]. apply st_ext; try reflexivity. cbn. lia. Qed.
Lemma moves_in L k s s' : k <= List.length (rem s) -> in_doc s -> moves L k s s' -> in_doc s' /\ rem s' = skipn k (rem s).
Proof.
  intros Hk H (tb & E & -> & _). unfold in_doc, rem in *. cbn. rewrite skipn_length in Hk. cbn in Hk. split; [lia|]. now rewrite skipn_add.
Qed.
Lemma moves_depth L k s s' j : j <= L -> moves L k s s' -> depth (p_indent s') j = depth (p_indent s) j.
Proof. intros Hj (tb & E & -> & H). cbn. eapply agree_depth; eassumption. Qed.
Lemma after_moves L M k s s' : M <= L -> after L k s s' -> moves M k s s'.
Proof.
  intros HM (tb & -> & H). exists tb, (p_eaten s). split; [apply st_ext; reflexivity|].
  destruct H as [-> | ->]; [apply agree_refl|now apply agree_norm].
Qed.
Lemma moves_rem L k a b s s' : in_doc s -> rem s = a ++ b -> k = List.length a -> moves L k s s' -> in_doc s' /\ rem s' = b.
Proof.
  intros H R -> Hm. destruct (moves_in L (List.length a) s s' ltac:(rewrite R, app_length; lia) H Hm) as [H1 H2]. split; [exact H1|].
  rewrite H2, R. apply skipn_app_len.
Qed.

(** ** The beginning of a block node *)
Definition prelude (map : bool) (L : nat) : M unit :=
  if map then gap true ;;; ind_define L
  else g <- is_ok (gap true) ;; if (g : bool) then ind L else ret tt.
(** after [X] the node begins in column [c] *)
Definition enters (map : bool) (L : nat) (X : bytes) (c : nat) (s : st) (tb : list nat) : Prop :=
  prelude map L s = (ROk tt, set_pos (p_pos s + List.length X) (set_indent tb s))
  /\ prelude map L (set_indent tb s) = (ROk tt, set_pos (p_pos s + List.length X) (set_indent tb s))
  /\ Wd L c tb /\ agree (if map then L - 1 else L) (p_indent s) tb.

Lemma shown_no_gap l : shown l -> gap_f true l = None /\ gap_head true l = 0.
Proof.
  intros Hs. destruct (spaces_shown 0 l (or_intror Hs)) as (H1 & H2 & _). cbn [repeat app] in H1, H2.
  unfold gap_f, gap_head. rewrite H2. cbn [skipn]. rewrite H1. auto.
Qed.
Lemma enters_here L c s : in_doc s -> shown (rem s) -> Wd L c (p_indent s) -> enters false L [] c s (p_indent s).
Proof.
  intros H Hs W. assert (E : prelude false L s = (ROk tt, s)).
  { unfold prelude, bind. rewrite (is_ok_eq _ _ _ (gap_exec true s H)). destruct (shown_no_gap _ Hs) as [-> ->].
    now rewrite Nat.add_0_r, set_pos_id. }
  assert (I : set_indent (p_indent s) s = s) by now rewrite set_indent_id.
  assert (P : set_pos (p_pos s + List.length (@nil N)) s = s) by (cbn [List.length]; now rewrite Nat.add_0_r, set_pos_id).
  split; [|split; [|split; [exact W|apply agree_refl]]]; rewrite I, P; exact E.
Qed.
Lemma gap_next s g k l : in_doc s -> filler g -> shown l -> rem s = 10%N :: utf8_encode g ++ repeat 32%N k ++ l ->
  exists t, gap true s = (ROk t, set_pos (p_pos s + S (List.length (utf8_encode g))) s)
    /\ let s1 := set_pos (p_pos s + S (List.length (utf8_encode g))) s in in_doc s1 /\ rem s1 = repeat 32%N k ++ l.
Proof.
  intros H Hg Hl Er. destruct (brk_gap (rem s) g k l) as (t & G); [split; [exact Hg|]; split; [exact Er|now right]|].
  exists t. rewrite (gap_exec true s H), G. split; [reflexivity|]. split.
  - apply in_doc_add; [|exact H]. rewrite Er. cbn [List.length]. rewrite app_length. lia.
  - rewrite rem_add, Er. cbn [skipn]. apply skipn_app_len.
Qed.
Lemma sp_repeat k l : shown l -> sp_len (repeat 32%N k ++ l) = k /\ span is_ascii_ws (repeat 32%N k ++ l) = k.
Proof. intros Hl. destruct (spaces_shown k l (or_intror Hl)) as (_ & _ & A & _ & _ & B). auto. Qed.
Lemma ind_ok L s : in_doc s -> depth (p_indent s) L <= sp_len (rem s) ->
  ind L s = (ROk tt, set_pos (p_pos s + depth (p_indent s) L) (set_indent (ind_norm L (p_indent s)) s)).
Proof.
  intros H Hs. rewrite (ind_exec L s H), ind_width_depth, (proj2 (Nat.leb_le _ _) Hs). reflexivity.
Qed.
Lemma enters_next L c s g l : in_doc s -> filler g -> shown l -> rem s = 10%N :: utf8_encode g ++ repeat 32%N c ++ l ->
  depth (p_indent s) L = c -> enters false L (10%N :: utf8_encode g ++ repeat 32%N c) c s (ind_norm L (p_indent s)).
Proof.
  intros H Hg Hl Er Hd.
  assert (LX : List.length (10%N :: utf8_encode g ++ repeat 32%N c) = S (List.length (utf8_encode g)) + c)
    by (cbn [List.length]; rewrite app_length, repeat_length; reflexivity).
  assert (K : forall s0, in_doc s0 -> rem s0 = rem s -> depth (p_indent s0) L = c ->
    prelude false L s0 = (ROk tt, set_pos (p_pos s0 + List.length (10%N :: utf8_encode g ++ repeat 32%N c)) (set_indent (ind_norm L (p_indent s0)) s0))).
  { intros s0 H0 R0 D0. rewrite Er in R0. destruct (gap_next s0 g c l H0 Hg Hl R0) as (t & E & H1 & R1).
    unfold prelude. unfold bind. rewrite (is_ok_eq _ _ _ E). set (s1 := set_pos _ s0) in *.
    destruct (sp_repeat c l Hl) as [S1 _].
    rewrite (ind_ok L s1 H1) by (rewrite R1, S1; unfold s1; cbn; lia).
    f_equal. apply st_ext; try reflexivity. unfold s1. cbn [p_pos set_pos set_indent p_indent]. rewrite LX, D0. lia. }
  split; [now apply K|]. split; [|split; [now apply Wd_of_norm|now apply agree_norm]].
  rewrite K; [|exact H|reflexivity|cbn; now rewrite depth_norm].
  cbn [p_indent set_indent p_pos]. now rewrite norm_idem.
Qed.
Lemma ind_define_ok L s : in_doc s -> 1 <= L -> depth (p_indent s) (L - 1) <= sp_len (rem s) ->
  ind_define L s = (ROk tt, set_pos (p_pos s + depth (p_indent s) (L - 1) + span is_ascii_ws (skipn (depth (p_indent s) (L - 1)) (rem s)))
    (set_indent (ind_norm (L - 1) (p_indent s) ++ [span is_ascii_ws (skipn (depth (p_indent s) (L - 1)) (rem s))]) s)).
Proof.
  intros H HL Hs. unfold ind_define. rewrite (proj2 (Nat.ltb_lt 0 L)) by lia.
  unfold bind at 1. rewrite (ind_ok (L - 1) s H Hs). set (d := depth (p_indent s) (L - 1)) in *.
  set (s1 := set_pos (p_pos s + d) (set_indent (ind_norm (L - 1) (p_indent s)) s)).
  assert (Hd : d <= List.length (rem s)) by (pose proof (span_le (fun c => N.eqb c 32) (rem s)); unfold sp_len in Hs; lia).
  assert (H1 : in_doc s1) by (unfold in_doc, rem in *; cbn; rewrite skipn_length in Hd; lia).
  assert (R1 : rem s1 = skipn d (rem s)) by (unfold rem, s1; cbn; now rewrite skipn_add).
  unfold bind at 1. unfold count. unfold bind at 1, gets. unfold bind at 1. rewrite (more0_exec is_ascii_ws s1 H1), R1.
  set (i := span is_ascii_ws (skipn d (rem s))). cbn [p_pos set_pos].
  rewrite (proj2 (Nat.leb_le (p_pos s1) (p_pos s1 + i))) by lia. replace (p_pos s1 + i - p_pos s1) with i by lia.
  cbn [p_indent set_pos set_indent]. unfold s1 at 1. cbn [p_indent set_pos set_indent].
  rewrite ind_norm_length. rewrite (proj2 (Nat.eqb_eq L (L - 1 + 1))) by lia.
  f_equal.
Qed.
Lemma enters_define L c c' s g l : in_doc s -> filler g -> shown l -> 1 <= L -> rem s = 10%N :: utf8_encode g ++ repeat 32%N c' ++ l ->
  depth (p_indent s) (L - 1) = c -> c <= c' ->
  enters true L (10%N :: utf8_encode g ++ repeat 32%N c') c' s (ind_norm (L - 1) (p_indent s) ++ [c' - c]).
Proof.
  intros H Hg Hl HL Er Hd Hc.
  assert (LX : List.length (10%N :: utf8_encode g ++ repeat 32%N c') = S (List.length (utf8_encode g)) + c')
    by (cbn [List.length]; rewrite app_length, repeat_length; reflexivity).
  assert (K : forall s0, in_doc s0 -> rem s0 = rem s -> depth (p_indent s0) (L - 1) = c ->
    prelude true L s0 = (ROk tt, set_pos (p_pos s0 + List.length (10%N :: utf8_encode g ++ repeat 32%N c')) (set_indent (ind_norm (L - 1) (p_indent s0) ++ [c' - c]) s0))).
  { intros s0 H0 R0 D0. rewrite Er in R0. destruct (gap_next s0 g c' l H0 Hg Hl R0) as (t & E & H1 & R1).
    unfold prelude. unfold bind. rewrite E. set (s1 := set_pos _ s0) in *.
    assert (D1 : depth (p_indent s1) (L - 1) = c) by exact D0.
    assert (SK : skipn c (repeat 32%N c' ++ l) = repeat 32%N (c' - c) ++ l).
    { replace c' with (c + (c' - c)) at 1 by lia. rewrite repeat_app, <- app_assoc.
      rewrite <- (repeat_length 32%N c) at 1. apply skipn_app_len. }
    rewrite (ind_define_ok L s1 H1 HL); rewrite D1, R1; [|destruct (sp_repeat c' l Hl) as [-> _]; exact Hc].
    rewrite SK. destruct (sp_repeat (c' - c) l Hl) as [_ ->].
    f_equal. apply st_ext; try reflexivity. unfold s1. cbn. rewrite app_length, repeat_length. lia. }
  assert (N1 : ind_norm (L - 1) (ind_norm (L - 1) (p_indent s) ++ [c' - c]) = ind_norm (L - 1) (p_indent s)).
  { unfold ind_norm at 1. rewrite app_length, ind_norm_length. cbn [List.length].
    rewrite (proj2 (Nat.leb_gt _ _)) by lia. rewrite <- (ind_norm_length (L - 1) (p_indent s)) at 1. apply firstn_app_len. }
  assert (DD : depth (ind_norm (L - 1) (p_indent s) ++ [c' - c]) (L - 1) = c).
  { rewrite <- (depth_norm (L - 1) _ (L - 1)) by lia. rewrite N1, depth_norm by lia. exact Hd. }
  split; [now apply K|]. split; [|split].
  - rewrite K; [|exact H|reflexivity|cbn; exact DD]. cbn [p_indent set_indent p_pos]. now rewrite N1.
  - split.
    + destruct L as [|L]; [lia|]. cbn [depth]. replace (S L - 1) with L in * by lia. rewrite DD.
      unfold width. rewrite app_nth2 by (rewrite ind_norm_length; lia). rewrite ind_norm_length.
      replace (S L - (L + 1)) with 0 by lia. cbn. lia.
    + intros j Hj. unfold width. apply nth_overflow. rewrite app_length, ind_norm_length. cbn. lia.
  - intros j Hj. unfold width. rewrite app_nth1 by (rewrite ind_norm_length; lia). now apply ind_norm_width.
Qed.
