(** * C48: block nodes: single steps of the loops *)
From Verif Require Export GramFlow.
Open Scope nat_scope.

(** what ends a block whose lines are [c] columns in: [k] spaces and then [r] *)
Definition doc_ends (l : bytes) : Prop := l = [] \/ starts_with (lit "---") l = true \/ starts_with (lit "...") l = true.
Definition stop_at (c k : nat) (r : bytes) : Prop := k < c \/ k = 0 /\ doc_ends r.
Definition not_dash (l : bytes) : Prop := forall q, l = 45%N :: q -> at_bound q = false.
Definition items_stop (c k : nat) (r : bytes) : Prop := stop_at c k r \/ k = c /\ not_dash r.
Lemma stop_deeper c c' k r : c < c' -> items_stop c k r -> stop_at c' k r.
Proof. intros H [[K|K]|[-> _]]; [left; lia|right; exact K|left; exact H]. Qed.
Lemma stop_near c c' k r : c < c' -> items_stop c k r -> k < c'.
Proof. intros H [[K|[-> _]]|[-> _]]; lia. Qed.

Lemma enc_indent c : utf8_encode (indent c) = repeat 32%N c.
Proof. unfold indent. apply encode_asciis. clear. induction c; [reflexivity|exact IHc]. Qed.
Lemma blen_indent c : blen (indent c) = c.
Proof. now rewrite enc_indent, repeat_length. Qed.

Section Steps.
Variable eol : str.
Hypothesis eol_ok : eol = [10%N] \/ eol = [13; 10]%N.
Variable B : st.

(** ** Behind a node *)
Lemma left_at r o b j b' R : left_over eol r b j b' -> at_ B o (utf8_encode b ++ R) -> at_ B (o + j) (utf8_encode b' ++ R).
Proof.
  intros [(-> & _)|[(_ & -> & ->)|(E & _ & ->)]] H; [|now apply at_app in H|rewrite E in H; now apply at_cons in H]. rewrite <- app_assoc in H. apply at_app in H. now rewrite repeat_length in H.
Qed.

Lemma mk_pos p q tb e : p_pos (mk B p q tb e) = p. Proof. reflexivity. Qed.
Lemma mk_indent p q tb e : p_indent (mk B p q tb e) = tb. Proof. reflexivity. Qed.
Lemma mk_ind p' tb' p q tb e : set_pos p' (set_indent tb' (mk B p q tb e)) = mk B p' q tb' e. Proof. reflexivity. Qed.
Lemma mk_gap p q tb e b k r : at_ B p (utf8_encode b ++ repeat 32%N k ++ r) -> brk eol b -> line_start k r ->
  exists t, gap true (mk B p q tb e) = (ROk t, mk B (p + blen b) q tb e) /\ at_ B (p + blen b) (repeat 32%N k ++ r).
Proof.
  intros H Hb Hr. destruct (brk_gap eol eol_ok b k r Hb Hr) as (t & G). exists t. split; [|now apply at_app].
  rewrite (gap_exec true _ (at_in _ _ _ _ _ _ H)), (at_rem _ _ _ _ _ _ H), G, set_pos_mk. reflexivity.
Qed.
Lemma mk_ind_ok L p q tb e k r : at_ B p (repeat 32%N k ++ r) -> line_start k r -> depth tb L = k ->
  ind L (mk B p q tb e) = (ROk tt, mk B (p + k) q (ind_norm L tb) e).
Proof.
  intros H Hr <-. rewrite (ind_ok L _ (at_in _ _ _ _ _ _ H)); rewrite mk_indent; [now rewrite mk_pos, mk_ind|].
  rewrite (at_rem _ _ _ _ _ _ H). destruct (spaces_shown _ r Hr) as (_ & _ & -> & _). lia.
Qed.
Lemma mk_ind_no L p q tb e k r : at_ B p (repeat 32%N k ++ r) -> line_start k r -> k < depth tb L ->
  ind L (mk B p q tb e) = (RErr Mismatch, mk B q q (ind_norm L tb) e).
Proof.
  intros H Hr Hk. rewrite (ind_exec L _ (at_in _ _ _ _ _ _ H)), ind_width_depth, mk_indent, (at_rem _ _ _ _ _ _ H).
  destruct (spaces_shown _ r Hr) as (_ & _ & -> & _). rewrite (proj2 (Nat.leb_gt _ _)) by exact Hk. reflexivity.
Qed.
Lemma mk_doc_end p q tb e l : at_ B p l -> exists b, doc_end (mk B p q tb e) = (ROk b, mk B p q tb e) /\ (b = true <-> doc_ends l).
Proof.
  intros H. destruct (C05_doc_end_lookahead _ (at_in _ _ _ q tb e H)) as (b & E & K). exists b. split; [exact E|].
  rewrite K. fold (rem (mk B p q tb e)). rewrite (at_rem _ _ _ _ _ _ H). cbv zeta. unfold doc_ends. rewrite !starts_with_app. tauto.
Qed.
Lemma doc_ends_spaces k r : doc_ends (repeat 32%N k ++ r) -> k = 0 /\ doc_ends r.
Proof. destruct k; [auto|]. intros [H|[H|H]]; cbn in H; discriminate H. Qed.

Lemma mk_gap_end p tb e : at_ B p [] -> gap true (mk B p p tb e) = (RErr Mismatch, mk B p p tb e).
Proof. intros H. rewrite (gap_exec true _ (at_in _ _ _ _ _ _ H)), (at_rem _ _ _ _ _ _ H). cbn. f_equal. unfold mk, set_pos. cbn. f_equal. lia. Qed.
Lemma loop_gap p tb e b k r : at_ B p (utf8_encode b ++ repeat 32%N k ++ r) -> brkr eol r b -> line_start k r ->
  andM (is_err (gap true)) (notM doc_end) (mk B p p tb e) = (ROk false, mk B (p + blen b) p tb e).
Proof.
  intros H [Hb|(-> & ->)] Hr.
  2:{ assert (k = 0) as -> by (destruct Hr as [[_ ?]|(? & ? & ? & _)]; [assumption|discriminate]). cbn [utf8_encode flat_map repeat app List.length] in *.
    unfold andM, bind. rewrite (is_err_eq _ _ _ (mk_gap_end p tb e H)). unfold notM, bind. destruct (mk_doc_end p p tb e _ H) as (b & E & K). rewrite E.
    assert (b = true) as -> by (apply K; now left). unfold ret. cbn [negb]. now rewrite Nat.add_0_r. }
  destruct (mk_gap p p tb e b k r H Hb Hr) as (t & G & _). unfold andM, bind. now rewrite (is_err_eq _ _ _ G). Qed.
Lemma loop_stop L p q tb e k r : at_ B p (repeat 32%N k ++ r) -> line_start k r -> stop_at (depth tb L) k r ->
  exists p' tb', orM doc_end (is_err (ind L)) (mk B p q tb e) = (ROk true, mk B p' q tb' e) /\ tb_ok L tb tb'.
Proof.
  intros H Hr Hk. destruct (mk_doc_end p q tb e _ H) as (b & E & K). unfold orM, bind. rewrite E. destruct b.
  - exists p, tb. split; [reflexivity|now left].
  - destruct Hk as [Hk|[-> Hk]]; [|exfalso; assert (Z : false = true) by (apply K; exact Hk); discriminate Z].
    rewrite (is_err_eq _ _ _ (mk_ind_no L p q tb e k r H Hr Hk)). exists q, (ind_norm L tb). split; [reflexivity|now right].
Qed.
Lemma loop_go L p q tb e k r : at_ B p (repeat 32%N k ++ r) -> shown r -> k = depth tb L -> ~ (k = 0 /\ doc_ends r) ->
  orM doc_end (is_err (ind L)) (mk B p q tb e) = (ROk false, mk B (p + k) q (ind_norm L tb) e) /\ at_ B (p + k) r.
Proof.
  intros H Hr Hk Hn. destruct (mk_doc_end p q tb e _ H) as (b & E & K). split.
  - unfold orM, bind. rewrite E. destruct b; [exfalso; apply Hn; apply doc_ends_spaces; now apply K|].
    rewrite (is_err_eq _ _ _ (mk_ind_ok L p q tb e k r H ltac:(now right) (eq_sym Hk))). reflexivity.
  - apply at_app in H. now rewrite repeat_length in H.
Qed.

(** ** The beginning of a block node *)
Definition enters (m : bool) (M o x c : nat) (tb tb1 : list nat) (e : scope) : Prop :=
  prelude m M (mk B o o tb e) = (ROk tt, mk B (o + x) o tb1 e)
  /\ prelude m M (mk B o o tb1 e) = (ROk tt, mk B (o + x) o tb1 e)
  /\ Wd M c tb1.
Lemma enters_here M c o tb e l : at_ B o l -> shown l -> Wd M c tb -> enters false M o 0 c tb tb e.
Proof.
  intros H Hs W. assert (E : prelude false M (mk B o o tb e) = (ROk tt, mk B (o + 0) o tb e)).
  { unfold prelude, bind. rewrite (is_ok_eq _ _ _ (gap_exec true _ (at_in _ _ _ _ _ _ H))), (at_rem _ _ _ _ _ _ H).
    destruct (shown_no_gap _ Hs) as [-> ->]. now rewrite set_pos_mk. }
  repeat split; try exact E; apply W.
Qed.
Lemma enters_next M c o tb e b l : at_ B o (utf8_encode b ++ repeat 32%N c ++ l) -> brk eol b -> shown l -> depth tb M = c ->
  enters false M o (blen b + c) c tb (ind_norm M tb) e.
Proof.
  intros H Hb Hs Hd.
  assert (E : forall tb, depth tb M = c -> prelude false M (mk B o o tb e) = (ROk tt, mk B (o + (blen b + c)) o (ind_norm M tb) e)).
  { intros tb0 D0. destruct (mk_gap o o tb0 e b c l H Hb ltac:(now right)) as (t & G & H1). unfold prelude, bind.
    rewrite (is_ok_eq _ _ _ G), (mk_ind_ok M _ _ _ _ c l H1 ltac:(now right) D0). f_equal. apply mk_eq; lia. }
  split; [now apply E|]. split; [|now apply Wd_of_norm]. rewrite E by now rewrite depth_norm. now rewrite norm_idem.
Qed.
Lemma norm_snoc L tb w : ind_norm L (ind_norm L tb ++ [w]) = ind_norm L tb.
Proof.
  unfold ind_norm at 1. rewrite app_length, ind_norm_length. cbn [List.length]. rewrite (proj2 (Nat.leb_gt _ _)) by lia.
  rewrite <- (ind_norm_length L tb) at 1. apply firstn_app_len.
Qed.
Lemma depth_snoc L tb w : depth (ind_norm L tb ++ [w]) L = depth tb L.
Proof. rewrite <- (depth_norm L _ L), norm_snoc, depth_norm by lia. reflexivity. Qed.
Lemma Wd_snoc L c tb w : depth tb L = c -> Wd (L + 1) (c + w) (ind_norm L tb ++ [w]).
Proof.
  intros H. split.
  - rewrite Nat.add_1_r. cbn [depth]. rewrite depth_snoc, H. f_equal. unfold width. rewrite app_nth2 by (rewrite ind_norm_length; lia).
    rewrite ind_norm_length. replace (S L - (L + 1)) with 0 by lia. reflexivity.
  - intros j Hj. unfold width. apply nth_overflow. rewrite app_length, ind_norm_length. cbn. lia.
Qed.
Lemma agree_snoc L tb w : agree L tb (ind_norm L tb ++ [w]).
Proof. intros j Hj. unfold width. rewrite app_nth1 by (rewrite ind_norm_length; lia). now apply ind_norm_width. Qed.
Lemma enters_define L c c' o tb e b l : at_ B o (utf8_encode b ++ repeat 32%N c' ++ l) -> brk eol b -> shown l -> depth tb L = c -> c <= c' ->
  enters true (L + 1) o (blen b + c') c' tb (ind_norm L tb ++ [c' - c]) e.
Proof.
  intros H Hb Hs Hd Hc.
  assert (E : forall tb, depth tb L = c -> prelude true (L + 1) (mk B o o tb e) = (ROk tt, mk B (o + (blen b + c')) o (ind_norm L tb ++ [c' - c]) e)).
  { intros tb0 D0. destruct (mk_gap o o tb0 e b c' l H Hb ltac:(now right)) as (t & G & H1). unfold prelude, bind. rewrite G.
    assert (SK : skipn c (repeat 32%N c' ++ l) = repeat 32%N (c' - c) ++ l).
    { replace c' with (c + (c' - c)) at 1 by lia. rewrite repeat_app, <- app_assoc.
      rewrite <- (repeat_length 32%N c) at 1. apply skipn_app_len. }
    rewrite (ind_define_ok (L + 1) _ (at_in _ _ _ _ _ _ H1)); rewrite ?Nat.add_sub, ?mk_indent, ?D0, ?(at_rem _ _ _ _ _ _ H1), ?SK;
      [|lia|destruct (sp_repeat c' l Hs) as [-> _]; exact Hc].
    destruct (sp_repeat (c' - c) l Hs) as [_ ->]. rewrite mk_pos, mk_ind. f_equal. apply mk_eq; lia. }
  split; [now apply E|]. split.
  - rewrite E by now rewrite depth_snoc. now rewrite norm_snoc.
  - replace c' with (c + (c' - c)) at 1 by lia. now apply Wd_snoc.
Qed.

(** ** Sequences *)
Definition item_step (n L : nat) (map : bool) (v : list node) : M yaml :=
  x <- or_else (scalar n (L + 1) false false) (err (lit "sequence item")) ;; seq_loop n L map (v ++ [x]).
Lemma seq_first n M m o x c tb tb1 e w l : enters m M o x c tb tb1 e -> at_ B (o + x) (45%N :: w ++ l) -> mark_end w l ->
  Loader.seq (S (S n)) M m (mk B o o tb e) = item_step n M m [] (mk B (o + x + 1 + List.length w) (o + x + 1 + List.length w) tb1 e).
Proof.
  intros (P & _) H Hm. unfold prelude in P. cbn [Loader.seq seq_loop]. unfold bind at 1, forward at 1, modify at 1.
  change (set_eaten (p_pos (mk B o o tb e)) (mk B o o tb e)) with (mk B o o tb e).
  rewrite bind_assoc'. unfold bind at 1. rewrite P. rewrite bind_assoc'. unfold bind at 1. rewrite (mk_sym _ _ _ _ _ tb1 e H).
  rewrite bind_assoc'. unfold bind at 1. rewrite (mk_bound B _ w l _ tb1 e (at_cons _ _ _ _ H) Hm). unfold bind at 1, ret at 1. cbv iota.
  reflexivity.
Qed.
Lemma seq_more n M m v p tb e b k w l : v <> [] -> at_ B p (utf8_encode b ++ repeat 32%N k ++ 45%N :: w ++ l) -> brk eol b -> k = depth tb M -> mark_end w l ->
  seq_loop (S n) M m v (mk B p p tb e)
  = item_step n M m v (mk B (p + blen b + k + 1 + List.length w) (p + blen b + k + 1 + List.length w) (ind_norm M tb) e).
Proof.
  intros Hv H Hb Hk Hm.
  assert (SH : shown (45%N :: w ++ l)) by (eexists _, _; split; [reflexivity|]; unfold visible; simpl; lia).
  assert (ND : ~ doc_ends (45%N :: w ++ l)).
  { destruct (mark_end_ws w l Hm) as [Hb' _]. intros [K|[K|K]]; try discriminate. cbn [starts_with] in K. rewrite N.eqb_refl in K. cbn [andb] in K. destruct (w ++ l) as [|z zs]; [discriminate|].
    apply andb_true_iff in K as [K _]. apply N.eqb_eq in K. subst z. discriminate. }
  destruct (loop_go M _ p tb e k _ (at_app _ _ _ _ H) SH Hk ltac:(tauto)) as [E H2].
  cbn [seq_loop]. unfold bind at 1, forward at 1, modify at 1. change (set_eaten (p_pos (mk B p p tb e)) (mk B p p tb e)) with (mk B p p tb e).
  destruct v as [|x v]; [congruence|]. set (v' := x :: v) in *.
  rewrite bind_assoc'. unfold bind at 1. rewrite (loop_gap p tb e b k _ H (or_introl Hb) ltac:(now right)). cbv iota.
  rewrite bind_assoc'. unfold bind at 1. rewrite E. cbv iota.
  rewrite bind_assoc'. unfold bind at 1. unfold orM at 1. unfold bind at 1. rewrite (is_err_eq _ _ _ (mk_sym _ _ _ _ _ _ _ H2)). cbv iota beta.
  rewrite (is_err_eq _ _ _ (mk_bound B _ w l _ _ _ (at_cons _ _ _ _ H2) Hm)). cbv iota. reflexivity.
Qed.
Lemma dash_no p q tb e l : at_ B p l -> not_dash l -> exists p', orM (is_err (sym (chr "-"))) (is_err bound) (mk B p q tb e) = (ROk true, mk B p' q tb e).
Proof.
  intros H Hl. unfold orM, bind. rewrite (is_err_eq _ _ _ (sym_exec (chr "-") _ (at_in _ _ _ _ _ _ H))), (at_rem _ _ _ _ _ _ H).
  change (chr "-") with 45%N. destruct l as [|x l]; [eexists; reflexivity|]. destruct (N.eqb_spec x 45) as [->|]; [|eexists; reflexivity].
  rewrite mk_pos, set_pos_mk. pose proof (at_cons _ _ _ _ H) as H1.
  rewrite (is_err_eq _ _ _ (bound_exec _ (at_in _ _ _ _ _ _ H1))), (at_rem _ _ _ _ _ _ H1), (Hl l eq_refl). eexists. reflexivity.
Qed.
Lemma seq_done M m v p tb e b k r : v <> [] -> at_ B p (utf8_encode b ++ repeat 32%N k ++ r) -> brkr eol r b -> line_start k r -> items_stop (depth tb M) k r ->
  exists tb', tb_ok M tb tb' /\ forall n, seq_loop (S n) M m v (mk B p p tb e) = (ROk (YSeq v), mk B p p tb' e).
Proof.
  intros Hv H Hb Hr Hs.
  assert (G : exists tb', tb_ok M tb tb' /\ exists p',
    (bad <- andM (is_err (gap true)) (notM doc_end) ;;
     if (bad : bool) then err (lit "sequence terminator")
     else
       stop <- orM doc_end (is_err (ind M)) ;;
       if (stop : bool) then ret false
       else
         stop <- orM (is_err (sym (chr "-"))) (is_err bound) ;;
         if (stop : bool) then ret false
         else forward ;;; ret true) (mk B p p tb e) = (ROk false, mk B p' p tb' e)).
  { unfold bind at 1. rewrite (loop_gap p tb e b k _ H Hb Hr). cbv iota. apply at_app in H.
    assert (D : stop_at (depth tb M) k r \/ k = depth tb M /\ not_dash r /\ shown r /\ ~ (k = 0 /\ doc_ends r)).
    { destruct Hs as [Hs|[Hs1 Hs2]]; [auto|]. destruct Hr as [[-> ->]|Hr]; [left; right; split; [reflexivity|now left]|].
      destruct (Nat.eq_dec k 0) as [Ek|Ek]; [|right; repeat split; auto; intros [K _]; congruence].
      destruct (mk_doc_end (p + blen b) p tb e _ H) as (bb & _ & K). subst k. rewrite Ek in K. cbn [repeat app] in K.
      destruct bb; [left; right; split; [exact Ek|now apply K]|]. right. repeat split; auto. intros [_ Z]. apply K in Z. discriminate. }
    destruct D as [D|(D1 & D2 & D3 & D4)].
    - destruct (loop_stop M _ p tb e k r H Hr D) as (p' & tb' & E & T). exists tb'. split; [exact T|]. exists p'. unfold bind at 1. rewrite E. reflexivity.
    - destruct (loop_go M _ p tb e k r H D3 D1 D4) as [E H2]. exists (ind_norm M tb). split; [now right|].
      destruct (dash_no _ p (ind_norm M tb) e _ H2 D2) as (p' & E2). exists p'. unfold bind at 1. rewrite E. cbv iota. unfold bind at 1. rewrite E2. reflexivity. }
  destruct G as (tb' & T & p' & E). exists tb'. split; [exact T|]. intros n. cbn [seq_loop].
  unfold bind at 1, forward at 1, modify at 1. change (set_eaten (p_pos (mk B p p tb e)) (mk B p p tb e)) with (mk B p p tb e).
  destruct v as [|x v]; [congruence|]. unfold bind at 1. rewrite E. reflexivity.
Qed.
Lemma seq_no n M m o x c tb tb1 e l : enters m M o x c tb tb1 e -> at_ B (o + x) l -> not_dash l ->
  Loader.seq (S (S n)) M m (mk B o o tb e) = (RErr Mismatch, mk B o o tb1 e).
Proof.
  intros (P & _) H Hl. unfold prelude in P. cbn [Loader.seq seq_loop]. unfold bind at 1, forward at 1, modify at 1.
  change (set_eaten (p_pos (mk B o o tb e)) (mk B o o tb e)) with (mk B o o tb e).
  rewrite bind_assoc'. unfold bind at 1. rewrite P. rewrite bind_assoc'. unfold bind at 1.
  rewrite (sym_exec (chr "-") _ (at_in _ _ _ _ _ _ H)), (at_rem _ _ _ _ _ _ H). change (chr "-") with 45%N.
  destruct l as [|z l]; [reflexivity|]. destruct (N.eqb_spec z 45) as [->|]; [|reflexivity].
  rewrite mk_pos, set_pos_mk. pose proof (at_cons _ _ _ _ H) as H1. rewrite bind_assoc'. unfold bind at 1.
  rewrite (bound_exec _ (at_in _ _ _ _ _ _ H1)), (at_rem _ _ _ _ _ _ H1), (Hl l eq_refl). reflexivity.
Qed.

(** ** Maps *)
Definition entry_step (n L : nat) (map : bool) (m : list (node * node)) (k : node) : M yaml :=
  forward ;;; v <- or_else (scalar n (L + 1) true false) (err (lit "map value")) ;; map_loop n L map false (m ++ [(k, v)]).
Definition colon : M bool := orM (is_err (sym (chr ":"))) (is_err bound).
Lemma bind_ext {A C} (m : M A) (f g : A -> M C) s : (forall a s', f a s' = g a s') -> bind m f s = bind m g s.
Proof. intros H. unfold bind. destruct (m s) as [[a|er| |] s']; auto. Qed.
Definition entry_colon (fst : bool) (n L : nat) (map : bool) (m : list (node * node)) (k : node) : M yaml :=
  bad <- colon ;;
  if (bad : bool) then (if fst then ret (n_yaml k) else err (lit "map splitter")) else entry_step n L map m k.
(** an entry from its key on; [fst]: the first one *)
Definition entry_go (fst : bool) (n L : nat) (map : bool) (m : list (node * node)) : M yaml :=
  c <- is_ok complex_mapping ;;
  k <- (if (c : bool) then
          forward ;;;
          k <- or_else (scalar n (L + 1) true false) (err (lit "map key")) ;;
          g <- is_ok (gap true) ;;
          (if (g : bool) then ind L else ret tt) ;;;
          ret k
        else if fst then scalar_flow n (L + 1) false else or_else (scalar_flow n (L + 1) false) (err (lit "map key"))) ;;
  entry_colon fst n L map m k.
Lemma map_first n M m o x c tb tb1 e : enters m M o x c tb tb1 e ->
  map_ (S (S n)) M m false (mk B o o tb1 e) = entry_go true n M m [] (mk B (o + x) (o + x) tb1 e).
Proof.
  intros (_ & P & _). unfold prelude in P. cbn [map_ map_loop]. unfold bind at 1, forward at 1, modify at 1.
  change (set_eaten (p_pos (mk B o o tb1 e)) (mk B o o tb1 e)) with (mk B o o tb1 e).
  rewrite bind_assoc'. unfold bind at 1. rewrite P. rewrite bind_assoc'. unfold bind at 1, forward at 1, modify at 1.
  change (set_eaten (p_pos (mk B (o + x) o tb1 e)) (mk B (o + x) o tb1 e)) with (mk B (o + x) (o + x) tb1 e).
  rewrite bind_assoc'. unfold entry_go. apply bind_ext. intros cx s1. rewrite bind_assoc'. apply bind_ext. intros kk s2.
  rewrite bind_assoc'. unfold entry_colon. fold colon. apply bind_ext. intros bad s3. destruct bad; reflexivity.
Qed.
Lemma map_more n M m v p tb e b k l : v <> [] -> at_ B p (utf8_encode b ++ repeat 32%N k ++ l) -> brk eol b -> k = depth tb M -> shown l -> ~ doc_ends l ->
  map_loop (S n) M m false v (mk B p p tb e) = entry_go false n M m v (mk B (p + blen b + k) (p + blen b + k) (ind_norm M tb) e).
Proof.
  intros Hv H Hb Hk SH ND.
  destruct (loop_go M _ p tb e k _ (at_app _ _ _ _ H) SH Hk ltac:(tauto)) as [E H2].
  cbn [map_loop]. unfold bind at 1, forward at 1, modify at 1. change (set_eaten (p_pos (mk B p p tb e)) (mk B p p tb e)) with (mk B p p tb e).
  destruct v as [|x v]; [congruence|]. set (v' := x :: v) in *.
  rewrite bind_assoc'. unfold bind at 1. rewrite (loop_gap p tb e b k _ H (or_introl Hb) ltac:(now right)). cbv iota.
  rewrite bind_assoc'. unfold bind at 1. rewrite E. cbv iota.
  rewrite bind_assoc'. unfold bind at 1, forward at 1, modify at 1.
  change (set_eaten _ _) with (mk B (p + blen b + k) (p + blen b + k) (ind_norm M tb) e).
  rewrite bind_assoc'. unfold entry_go. apply bind_ext. intros cx s1. rewrite bind_assoc'. apply bind_ext. intros kk s2.
  rewrite bind_assoc'. unfold entry_colon. fold colon. apply bind_ext. intros bad s3. destruct bad; [|reflexivity]. unfold bind, err. destruct (indicated_msg _ _); reflexivity.
Qed.
Lemma map_done M p tb e b k r : at_ B p (utf8_encode b ++ repeat 32%N k ++ r) -> brkr eol r b -> line_start k r -> stop_at (depth tb M) k r ->
  exists tb', tb_ok M tb tb' /\ forall n m v, v <> [] -> map_loop (S n) M m false v (mk B p p tb e) = build_map v (mk B p p tb' e).
Proof.
  intros H Hb Hr Hs. destruct (loop_stop M _ p tb e k r (at_app _ _ _ _ H) Hr Hs) as (p' & tb' & E & T). exists tb'. split; [exact T|].
  intros n m v Hv. cbn [map_loop]. unfold bind at 1, forward at 1, modify at 1. change (set_eaten (p_pos (mk B p p tb e)) (mk B p p tb e)) with (mk B p p tb e).
  destruct v as [|x v]; [congruence|]. set (v' := x :: v) in *.
  rewrite bind_assoc'. unfold bind at 1. rewrite (loop_gap p tb e b k _ H Hb Hr). cbv iota. rewrite bind_assoc'.
  unfold bind at 1; rewrite E; cbv iota. reflexivity.
Qed.
Lemma colon_ok p q tb e w l : at_ B p (58%N :: w ++ l) -> mark_end w l -> colon (mk B p q tb e) = (ROk false, mk B (p + 1 + List.length w) q tb e).
Proof.
  intros H Hm. unfold colon, orM, bind. rewrite (is_err_eq _ _ _ (mk_sym _ _ _ _ _ tb e H)). cbv iota.
  rewrite (is_err_eq _ _ _ (mk_bound B _ w l _ tb e (at_cons _ _ _ _ H) Hm)). reflexivity.
Qed.
Lemma colon_no p tb e l : at_ B p l -> no_colon l -> colon (mk B p p tb e) = (ROk true, mk B p p tb e).
Proof. intros H Hl. apply (no_colon_exec _ (at_in _ _ _ _ _ _ H) (mk_AT _ _ _ _)). now rewrite (at_rem _ _ _ _ _ _ H). Qed.
Lemma question_ok p tb e w l : at_ B p (63%N :: w ++ l) -> mark_end w l ->
  is_ok complex_mapping (mk B p p tb e) = (ROk true, mk B (p + 1 + List.length w) p tb e).
Proof.
  intros H Hm. assert (E : complex_mapping (mk B p p tb e) = (ROk tt, mk B (p + 1 + List.length w) p tb e)).
  { unfold complex_mapping. unfold bind at 1. rewrite (mk_sym _ _ _ _ _ tb e H). exact (mk_bound B _ w l _ tb e (at_cons _ _ _ _ H) Hm). }
  now rewrite (is_ok_eq _ _ _ E).
Qed.
End Steps.
