(** * C48: flow collections *)
From Verif Require Export PlainRun.
Open Scope nat_scope.

(** ** The indentation table *)
Definition same_w (tb tb' : list nat) : Prop := forall j, width tb' j = width tb j.
Lemma same_refl tb : same_w tb tb. Proof. now intros j. Qed.
Lemma same_trans a b c : same_w a b -> same_w b c -> same_w a c.
Proof. intros H1 H2 j. now rewrite H2, H1. Qed.
Lemma same_norm L c tb M : Wd L c tb -> L <= M -> same_w tb (ind_norm M tb).
Proof.
  intros [_ H] HM j. destruct (le_lt_dec j M) as [K|K]; [now apply ind_norm_width|].
  rewrite norm_beyond by exact K. symmetry. apply H. lia.
Qed.
Lemma same_tb L c tb M tb' : Wd L c tb -> L <= M -> tb_ok M tb tb' -> same_w tb tb'.
Proof. intros H HM [-> | ->]; [apply same_refl|]. eapply same_norm; eassumption. Qed.
Lemma same_depth a b j : same_w a b -> depth b j = depth a j.
Proof. intros H. apply depth_ext. intros i _. apply H. Qed.
Lemma same_Wd L c a b : same_w a b -> Wd L c a -> Wd L c b.
Proof. intros H [H1 H2]. split; [now rewrite (same_depth a b)|]. intros j Hj. rewrite H. now apply H2. Qed.
Lemma same_agree L a b : same_w a b -> agree L a b.
Proof. intros H j _. apply H. Qed.

(** ** Heads *)
Lemma no_start' p t rest : forallb (fun b => N.ltb b 128 && negb (is_in [10; 13; 58; 44; 93; 125; 32; 9; 12]%N b)) p = true ->
  (forall b, t <> p ++ b) -> aw rest -> starts_with p (utf8_encode t ++ rest) = false.
Proof.
  intros Hp Ht Hr. destruct (starts_with p _) eqn:E; [|reflexivity]. exfalso.
  assert (Hp' : forallb (fun b => N.ltb b 128) p = true).
  { eapply forallb_impl; [|exact Hp]. intros x Hx. now apply andb_true_iff in Hx. }
  destruct (starts_encode p t rest Hp' E) as [(r & K)|(x & y & Exy & Hy & _ & K)]; [now apply (Ht r)|].
  destruct y as [|y0 y]; [congruence|]. destruct rest as [|b q]; [discriminate|]. cbn [aw] in Hr. cbn [starts_with] in K. apply andb_true_iff in K as [K _]. apply N.eqb_eq in K. subst y0.
  rewrite Exy, forallb_app in Hp. cbn [forallb] in Hp. apply is_in_spec in Hr. rewrite Hr in Hp.
  rewrite andb_false_r in Hp. cbn [andb] in Hp. rewrite andb_false_r in Hp. discriminate.
Qed.
Lemma word_good' t rest : plain_line t -> (forall b, t <> lit "..." ++ b) -> aw rest -> good (utf8_encode t ++ rest).
Proof.
  intros P Hd3 Hr. destruct (word_head t P) as (b & rb & Eb & Hb0). destruct P as [Hv (c & r & Et & Hc0 & Hdash) Hn Hk Hke Hc Ht Hm].
  split; [|split; [|split]].
  - rewrite Eb. cbn [app hd_ok]. apply andb_true_iff. split.
    + apply not_in_spec. intros K. apply Hb0. simpl in K |- *. tauto.
    + destruct (is_in [45; 63]%N b) eqn:Ei; [|reflexivity]. cbn [andb]. apply is_in_spec in Ei. simpl in Ei.
      rewrite Et in Eb. destruct (first_byte c r) as (b' & rb' & Eb' & Hb). rewrite Eb in Eb'. injection Eb' as <- <-.
      destruct Hb as [(L & -> & ->)|(_ & L)]; [|destruct Ei as [<-|[<-|[]]]; lia].
      destruct (Hdash ltac:(destruct Ei as [<-|[<-|[]]]; auto)) as (x & r' & -> & Hx).
      destruct (next_not (x :: r') rest bound_set ltac:(discriminate) ltac:(reflexivity)) as (b' & r'' & Eb' & Hb').
      { apply not_in_spec. unfold bound_set. intros K. apply in_app_iff in K as [K|K]; [now apply Hx|].
        destruct Hn as [Hn1 Hn2]. destruct K as [<-|[<-|[]]]; [apply Hn1|apply Hn2]; rewrite Et; right; now left. }
      rewrite Eb'. unfold at_bound. rewrite not_in_is in Hb'. now destruct (is_in bound_set b').
  - now apply no_start'.
  - now apply no_start'.
  - exists b, (rb ++ rest). rewrite Eb. split; [reflexivity|]. intros ->. apply Hb0. simpl. tauto.
Qed.
(** the first byte of content: [good], and no closing bracket *)
Definition starts (l : bytes) : Prop := good l /\ match l with x :: _ => x <> 93%N /\ x <> 125%N | [] => False end.
Lemma starts_const b l : In b [34; 39; 42; 91; 123]%N -> starts (b :: l).
Proof.
  intros H. simpl in H. repeat (destruct H as [<-|H]; [split; [split; [reflexivity|]; split; [reflexivity|]; split; [reflexivity|];
    eexists _, _; split; [reflexivity|discriminate]|split; discriminate]|]). destruct H.
Qed.
Lemma atom_starts cyclic fl e y t f rest : atom cyclic fl e y t f -> aw rest -> starts (utf8_encode t ++ rest).
Proof.
  assert (LIT : forall t rest, int_literal t \/ float_literal t \/ sci_literal t -> aw rest -> starts (utf8_encode t ++ rest)).
  { intros u rs H Hrs. split; [now apply literal_good|]. rewrite (literal_ascii u H). destruct (literal_head u H) as (b & r & -> & K). cbn [app].
    unfold digit in K. destruct K as [K|[-> _]]; [lia|split; discriminate]. }
  intros H Hr. destruct H as [t w y (P & H3 & _) Hw Hm|t z H|t v z H Hw|t z H|b Hb|b Hb H10 H13|br t b Hbr Hf|br t b Hbr Hf|a n Ha Hl]; try (rewrite encode_app, <- app_assoc; apply LIT; [tauto|]; unfold indent; rewrite spaces_encode; apply blank_aw; [apply Forall_forall; intros x Hx; apply repeat_spec in Hx as ->; now left|exact Hr]).
  - rewrite encode_app, (blank_encode w Hw), <- app_assoc. split; [apply word_good'; [assumption|assumption|now apply blank_aw]|]. destruct (word_head t P) as (b & rb & -> & Hb). cbn [app]. split; intros ->; apply Hb; simpl; tauto.
  - rewrite quote_encode. apply starts_const. simpl. tauto.
  - rewrite single_encode. apply starts_const. simpl. tauto.
  - change ([34%N] ++ t ++ [34%N]) with (34%N :: t ++ [34%N]). rewrite encode_cons_ascii by lia. apply starts_const. simpl. tauto.
  - change (lit "'" ++ t ++ lit "'") with (39%N :: t ++ lit "'"). rewrite encode_cons_ascii by lia. apply starts_const. simpl. tauto.
  - change (lit "*" ++ a) with (42%N :: a). rewrite encode_cons_ascii by lia. apply starts_const. simpl. tauto.
Qed.
Lemma coll_starts cyclic tags eol d o e y t e' rest : coll cyclic tags eol d o e y t e' -> starts (utf8_encode t ++ rest).
Proof.
  intros [? ? ? ? u ? _|? ? ? ? u ? _ _].
  - change (lit "[" ++ u) with (91%N :: u). rewrite encode_cons_ascii by lia. apply starts_const. simpl. tauto.
  - change (lit "{" ++ u) with (123%N :: u). rewrite encode_cons_ascii by lia. apply starts_const. simpl. tauto.
Qed.
Lemma starts_hd l : starts l -> hd_ok l = true. Proof. intros ((H & _) & _). exact H. Qed.
(** the first byte of a node *)
Definition opens (l : bytes) : Prop := exists x q, l = x :: q /\ is_ascii_ws x = false /\ ~ In x [93; 125; 35]%N /\ (x = 63%N -> at_bound q = false).
Lemma starts_opens l : starts l -> opens l.
Proof.
  intros (G & H). destruct G as (G & _). destruct (hd_ok_cons l G) as (b & r & -> & Hb & Hc). exists b, r. split; [reflexivity|].
  split; [|split; [|auto]].
  - destruct (is_ascii_ws b) eqn:E; [|reflexivity]. apply ascii_ws_in in E. exfalso. apply Hb. simpl in *. tauto.
  - intros K. simpl in *. destruct K as [<-|[<-|[<-|[]]]]; tauto.
Qed.
Lemma opens_shown l : opens l -> shown l.
Proof.
  intros (x & q & -> & H1 & H2 & _). exists x, q. split; [reflexivity|]. intros K. simpl in K, H2.
  repeat (destruct K as [<-|K]; [(discriminate || tauto)|]). destruct K.
Qed.
Lemma ref_text_head r : exists q, utf8_encode (ref_text r) = 33%N :: q.
Proof. destruct r; cbn [ref_text]; eexists; change (lit "!" ++ ?x) with (33%N :: x); rewrite ?encode_cons_ascii by lia; reflexivity. Qed.
Lemma props_head tags nx a tg p : props tags nx a tg p -> exists x q, utf8_encode p = x :: q /\ (x = 38%N \/ x = 33%N).
Proof.
  intros [a' w _ _|r t w _ _|a' s r t w _ _ _ _|a' s r t w _ _ _ _].
  - eexists _, _. split; [|now left]. change (lit "&" ++ ?x) with (38%N :: x). rewrite encode_cons_ascii by lia. reflexivity.
  - destruct (ref_text_head r) as (q & E). exists 33%N, (q ++ utf8_encode w). rewrite encode_app, E. split; [reflexivity|now right].
  - eexists _, _. split; [|now left]. change (lit "&" ++ ?x) with (38%N :: x). rewrite encode_cons_ascii by lia. reflexivity.
  - destruct (ref_text_head r) as (q & E). eexists _, _. rewrite encode_app, E. split; [reflexivity|now right].
Qed.
Lemma props_opens tags nx a tg p l : props tags nx a tg p -> opens (utf8_encode p ++ l).
Proof.
  intros H. destruct (props_head _ _ _ _ _ H) as (x & q & -> & Hx). exists x, (q ++ l). split; [reflexivity|].
  destruct Hx as [-> | ->]; (split; [reflexivity|]; split; [simpl; lia|discriminate]).
Qed.
Lemma opens_complex s : in_doc s -> AT s -> opens (rem s) -> is_ok complex_mapping s = (ROk false, s).
Proof.
  intros H A (x & q & R & _ & _ & Hx). destruct (N.eqb_spec x 63) as [->|N63].
  - unfold complex_mapping, is_ok. unfold bind at 1. rewrite (sym_exec (chr "?") s H), R. change (N.eqb 63 (chr "?")) with true. cbv iota beta.
    assert (H1 : in_doc (set_pos (p_pos s + 1) s)) by (apply in_doc_add; [rewrite R; simpl; lia|exact H]).
    rewrite (bound_exec _ H1), rem_add, R. cbn [skipn]. rewrite (Hx eq_refl). cbn [p_eaten set_pos]. now rewrite set_pos_pos, A, set_pos_id.
  - unfold complex_mapping, is_ok. unfold bind at 1. rewrite (sym_exec (chr "?") s H), R. change (chr "?") with 63%N.
    rewrite (proj2 (N.eqb_neq x 63) N63). now rewrite A, set_pos_id.
Qed.

(** ** The content part of [scalar] *)
Definition inner (n L : nat) (map flow : bool) : M yaml :=
  l <- ok (string_literal L) ;;
  match l with
  | Some s => ret (YStr s)
  | None =>
    f <- ok (string_folded L) ;;
    match f with
    | Some s => ret (YStr s)
    | None => or_else (or_else (Loader.seq n L map) (map_ n L map flow)) (scalar_term n L flow)
    end
  end.
Lemma scalar_inner n L map fl : scalar (S n) L map fl = scalar_node (inner n L map fl). Proof. reflexivity. Qed.
Lemma inner_blocks n L map fl s : in_doc s -> AT s -> (match rem s with x :: _ => x <> 124%N /\ x <> 62%N | [] => True end) ->
  inner n L map fl s = or_else (or_else (Loader.seq n L map) (map_ n L map fl)) (scalar_term n L fl) s.
Proof.
  intros H A Hx. unfold inner, string_literal, string_folded.
  unfold bind at 1. rewrite (ok_miss _ _ s H A) by (destruct (rem s); tauto).
  unfold bind at 1. rewrite (ok_miss _ _ s H A) by (destruct (rem s); tauto). reflexivity.
Qed.
Lemma inner_hd n L map fl s : in_doc s -> AT s -> hd_ok (rem s) = true ->
  inner n L map fl s = or_else (or_else (Loader.seq n L map) (map_ n L map fl)) (scalar_term n L fl) s.
Proof.
  intros H A Hh. apply inner_blocks; try assumption. apply hd_ok_cons in Hh as (b & r & -> & Hb & _). split; intros ->; apply Hb; simpl; tauto.
Qed.
Lemma inner_false N L fl s y s1 : in_doc s -> AT s -> hd_ok (rem s) = true -> reads N (L + 1) fl s y s1 ->
  in_doc s1 -> no_colon (rem s1) ->
  forall n, N + 3 <= n -> inner n L false fl s = (ROk y, set_eaten (p_pos s1) s1).
Proof.
  intros H A0 Hh Hr H1 Hc n Hn. rewrite inner_hd by assumption. unfold or_else. destruct n as [|[|n]]; [lia|lia|].
  rewrite seq_miss by assumption. now rewrite (map_false_leaf N L fl s y s1 H A0 Hh Hr H1 Hc) by lia.
Qed.
Lemma inner_true N L fl s y s1 : in_doc s -> AT s -> hd_ok (rem s) = true -> reads N L fl s y s1 ->
  forall n, N + 2 <= n -> inner n L true fl s = (ROk y, s1).
Proof.
  intros H A0 Hh Hr n Hn. rewrite inner_hd by assumption. unfold or_else. destruct n as [|[|n]]; [lia|lia|].
  rewrite seq_miss by assumption. rewrite map_true_miss by assumption. now rewrite (Hr (S (S n))) by lia.
Qed.
Lemma extend_distinct hk l : Forall (fun kv => readable (n_yaml (fst kv))) l -> forall m, Forall (fun kv => readable (n_yaml (fst kv))) m ->
  distinct (m ++ l) -> map_extend hk m l = Some (m ++ l).
Proof.
  induction 1 as [|[k v] l Rk H IH]; intros m Hm D; [now rewrite app_nil_r|]. cbn [map_extend fst snd] in *.
  rewrite insert_fresh; [|exact Rk|].
  - change ((k, v) :: l) with ([(k, v)] ++ l) in *. rewrite app_assoc in *. apply IH; [|exact D].
    apply Forall_app. split; [exact Hm|]. constructor; [auto|constructor].
  - intros [k1 v1] Hin. rewrite Forall_forall in Hm. split; [apply (Hm _ Hin)|]. intros S.
    apply in_split in Hin as (m1 & m2 & ->). rewrite <- app_assoc in D. cbn [app] in D.
    assert (G : forall (m1 : list (node * node)) x r, distinct (m1 ++ x :: r) ->
       Forall (fun b => ~ same (n_yaml (fst x)) (n_yaml (fst b))) r).
    { clear. induction m1 as [|a m1 IH]; cbn [app]; intros x r F; inversion F; subst; [assumption|]. now apply IH. }
    apply G in D. rewrite Forall_forall in D. apply (D (k, v)); [apply in_or_app; right; now left|]. cbn [fst]. now apply same_sym.
Qed.
Lemma build_distinct m s : keys_ok m -> build_map m s = (ROk (YMap m), s).
Proof.
  intros (D & R). unfold build_map, map_collect. now rewrite (extend_distinct (p_hash s) m R [] ltac:(constructor) D).
Qed.

(** ** Tails *)
(** what stands behind a node: white space and the end of a flow item, a colon,
    or a line break *)
Inductive tail := KFlow (w : bytes) (c : N) (r : bytes) | KColon (x : N) (q : bytes) | KBreak (b : str) (k : nat) (r : bytes).
Definition ktext (K : tail) : bytes :=
  match K with
  | KFlow w c r => w ++ c :: r
  | KColon x q => 58%N :: x :: q
  | KBreak b k r => utf8_encode b ++ repeat 32%N k ++ r
  end.
Section Tails.
Variable eol : str.
Hypothesis eol_ok : eol = [10%N] \/ eol = [13; 10]%N.
Definition kok (fl : bool) (f : finish) (d : nat) (K : tail) : Prop :=
  match K with
  | KFlow w c r => fl = true /\ flow_gap f w /\ closer c /\ 0 < d
  | KColon x q => In x [32; 10; 13]%N
  | KBreak b k r => break_after eol (here k r) f b /\ line_start k r /\ k < d
  end.
(** of which a node takes [j] bytes *)
Definition kend (K : tail) (j : nat) : Prop :=
  match K with
  | KFlow w c r => j <= List.length w
  | KColon x q => j = 0
  | KBreak b k r => exists b', left_over eol r b j b'
  end.
Definition kcolon (K : tail) : Prop := match K with KColon _ _ => True | _ => False end.
Lemma kok_head fl f d K : kok fl f d K -> aw (ktext K).
Proof.
  destruct K as [w c r|x q|b k r]; cbn [kok ktext].
  - intros (_ & (Hw & _) & Hc & _). destruct w as [|x w]; cbn [app].
    + destruct Hc as [<-|[<-|[<-|[]]]]; unfold aw, after_word; simpl; tauto.
    + inversion Hw as [|? ? Hx _]; subst. unfold aw, after_word. simpl in Hx |- *. tauto.
  - intros _. unfold aw, after_word. simpl. tauto.
  - intros (H & Hr & _). destruct (after_head eol eol_ok _ f b H) as [(x & q & -> & Hx)|(HN & -> & _)]; [cbn [app]; unfold aw, after_word; simpl;
      destruct Hx as [-> |[-> |[_ ->]]]; tauto|].
    destruct r; [|discriminate HN]. destruct Hr as [[_ ->]|(? & ? & ? & _)]; [exact Logic.I|discriminate].
Qed.
Lemma kend_none fl f d K : kok fl f d K -> kend K 0.
Proof.
  destruct K as [w c r|x q|b k r]; cbn [kok kend]; [lia|reflexivity|]. intros (H & _). exists b.
  eapply left_none; eassumption.
Qed.
Lemma kend_len K j : kend K j -> j <= List.length (ktext K).
Proof.
  destruct K as [w c r|x q|b k r]; cbn [kend ktext].
  - intros H. rewrite app_length. lia.
  - intros ->. lia.
  - intros (b' & E). pose proof (left_len eol r b j b' E). rewrite app_length. lia.
Qed.
Lemma repeat_skip j (l : bytes) : skipn j (repeat 32%N j ++ l) = l.
Proof. rewrite <- (repeat_length 32%N j) at 1. apply skipn_app_len. Qed.
Lemma kend_no_colon fl f d K j : kok fl f d K -> kend K j -> ~ kcolon K -> no_colon (skipn j (ktext K)).
Proof.
  intros H Hj HK. destruct K as [w c r|x q|b k r]; cbn [kok kend ktext kcolon] in *; [| |].
  - destruct H as (_ & (Hw & _) & Hc & _). intros q E. exfalso. rewrite skipn_app in E. replace (j - List.length w) with 0 in E by lia.
    cbn [skipn] in E. assert (W : wide (skipn j w)).
    { apply Forall_forall. intros x Hx. unfold wide in Hw. rewrite Forall_forall in Hw. apply Hw. rewrite <- (firstn_skipn j w). apply in_or_app. now right. }
    destruct (skipn j w) as [|x w']; cbn [app] in E.
    + injection E as -> _. now apply closer_not in Hc.
    + injection E as -> _. inversion W as [|? ? Hx _]; subst. simpl in Hx. lia.
  - destruct (HK Logic.I).
  - destruct H as (_ & Hr & _). destruct Hj as (b' & [(E & Hb)|[(-> & -> & ->)|(E & Hb & ->)]]); [|rewrite skipn_app_len; destruct Hr as [[_ ->]|(? & ? & ? & _)]; [intros q [=]|discriminate]|];
      (rewrite E; first [rewrite <- app_assoc, repeat_skip|cbn [app skipn]]); destruct (brk_head eol eol_ok b' Hb) as (x & q & -> & Hx);
    intros r' E'; cbn [app] in E'; injection E' as -> _; simpl in Hx; lia.
Qed.
Variable cyclic : bool.
Variable B : st.
Hypothesis B_cyclic : l_cyclic B = cyclic.
Hypothesis B_doc : nth_error (l_anchors B) (l_doc_ind B) <> None.
Lemma atom_tail L fl e y t f o tb K : atom cyclic fl e y t f -> kok fl f (depth tb L) K -> at_ B o (utf8_encode t ++ ktext K) ->
  exists j tb', kend K j /\ tb_ok L tb tb' /\ reads 1 L fl (mk B o o tb e) y (mk B (o + blen t + j) o tb' e).
Proof.
  intros H HK Ha. destruct K as [w c r|x q|b k r]; cbn [kok ktext kend] in *.
  - destruct HK as (-> & Hw & Hc & Hd). destruct (atom_flow eol eol_ok cyclic B B_cyclic B_doc L e y t f o tb w c r H Ha Hw Hc Hd) as (j & tb' & H1 & H2 & H3). eauto.
  - destruct (atom_colon eol eol_ok cyclic B B_cyclic B_doc L fl e y t f o tb x q H Ha HK) as (tb' & H1 & H2). exists 0, tb'. rewrite Nat.add_0_r. auto.
  - destruct HK as (Hb & Hs & Hk). destruct (atom_break eol eol_ok cyclic B B_cyclic B_doc L fl e y t f o tb b k r H Hb Hs Hk Ha)
      as (j & b' & tb' & H1 & H2 & H3). exists j, tb'. eauto.
Qed.
(** ... and a plain scalar on several lines *)
Lemma tail_fins L fl d K : kok fl Done d K -> fins L fl d (ktext K) (kend K).
Proof.
  intros HK. destruct K as [w c r|x q|b k r]; cbn [kok ktext kend] in *.
  - destruct HK as (-> & (Hw & _) & Hc & Hd). apply fins_ws; [now apply wide_wsl|exact Hc|exact Hd|auto].
  - apply fins_ends; [|reflexivity]. left. destruct HK as [<-|Hx]; [reflexivity|]. unfold stop_f. cbn [skipn orb]. rewrite (proj2 (Nat.eqb_neq _ _) (nl_len_pos x q Hx)).
    destruct Hx as [<-|[<-|[]]]; reflexivity.
  - destruct HK as (Hb & Hr & Hk). pose proof Hb as Hb0. destruct Hb as [(tr & g & Eb & Hg & [->|(_ & j & c & -> & Hc)] & _)|(HN & -> & _)].
    + assert (BK : brk eol b) by (left; exists [], g; auto). apply fins_ends; [|exists b; left; auto].
      right. left. split; [lia|]. destruct (brk_gap eol eol_ok b k r BK Hr) as (g' & G). split.
      * rewrite Eb, !encode_app, (eol_encode eol eol_ok), <- !app_assoc. cbn [app utf8_encode flat_map].
        rewrite (nl_eol eol eol_ok) by (apply (lines_apart eol eol_ok); [exact Hg|now apply start_apart]). destruct eol_ok as [-> | ->]; discriminate.
      * exists g', (blen b). split; [exact G|]. rewrite skipn_app_len. destruct (spaces_shown k r Hr) as (_ & _ & -> & _). exact Hk.
    + destruct (comment_encode c Hc) as (cr & Ec & _).
      assert (EB : utf8_encode b = repeat 32%N (S j) ++ utf8_encode (c ++ eol ++ g)).
      { rewrite Eb, !encode_app, <- app_assoc. f_equal. apply indent_encode. }
      assert (EB' : utf8_encode (indent 1 ++ c ++ eol ++ g) = [32%N] ++ utf8_encode (c ++ eol ++ g)) by (rewrite encode_app; reflexivity).
      rewrite EB, encode_app, Ec, <- !app_assoc. cbn [app]. apply fins_comment. exists (indent 1 ++ c ++ eol ++ g). left.
      split; [rewrite EB', EB, (app_assoc (repeat 32%N j)); f_equal; replace (S j) with (j + 1) by lia; apply repeat_app|].
      left. exists (indent 1 ++ c), g. split; [now rewrite <- app_assoc|]. split; [exact Hg|]. right. exists (indent 1), c.
      split; [reflexivity|]. split; [constructor; [unfold blank; auto|constructor]|exact Hc].
    + destruct r; [|discriminate HN]. assert (k = 0) as -> by (destruct Hr as [[_ ?]|(? & ? & ? & _)]; [assumption|discriminate]).
      apply fins_ends; [left; reflexivity|]. exists []. right. auto.
Qed.
Lemma lines_tail L fl e t b d o tb K : plain_lines fl d t b -> 0 < d -> depth tb L = d -> kok fl Done d K -> at_ B o (utf8_encode t ++ ktext K) ->
  exists j tb', kend K j /\ tb_ok L tb tb' /\ reads 1 L fl (mk B o o tb e) (YStr b) (mk B (o + blen t + j) o tb' e).
Proof.
  intros H Hd HD HK Ha.
  destruct (lines_term L fl d t b (ktext K) (kend K) (mk B o o tb e) (at_in _ _ _ _ _ _ Ha) (mk_AT _ _ _ _) Hd H (tail_fins L fl d K HK) (at_rem _ _ _ _ _ _ Ha) HD)
    as (j & tb' & E & P & T).
  exists j, tb'. auto.
Qed.
End Tails.

(** ** Runs *)
Lemma wide_encode w : wide w -> utf8_encode w = w. Proof. intros H. now apply wsl_encode, wide_wsl. Qed.
Lemma blen_app a b : blen (a ++ b) = blen a + blen b. Proof. now rewrite encode_app, app_length. Qed.
Section Flow.
Variable eol : str.
Hypothesis eol_ok : eol = [10%N] \/ eol = [13; 10]%N.
Variable cyclic : bool.
Variable tags : tagref -> option str.
Variable B : st.
Hypothesis B_cyclic : l_cyclic B = cyclic.
Hypothesis B_consumed : p_consumed B = 0%N.
Hypothesis B_tags : forall r, ref_ok r -> resolve_tab (p_tag B) r = tags r.
Hypothesis B_doc : nth_error (l_anchors B) (l_doc_ind B) <> None.

Definition P_fcontent (d o : nat) (e : scope) (y : yaml) (t : str) (e' : scope) (f : finish) : Prop :=
  forall L tb K, Wd L d tb -> 0 < d -> kok eol true f d K -> at_ B o (utf8_encode t ++ ktext K) ->
  exists j tb' q, kend eol K j /\ same_w tb tb' /\
    forall n, 6 * blen t <= n -> scalar_term n L true (mk B o o tb e) = (ROk y, mk B (o + blen t + j) q tb' e').
Definition P_coll (d o : nat) (e : scope) (y : yaml) (t : str) (e' : scope) : Prop :=
  forall L fl tb rest, Wd L d tb -> 0 < d -> at_ B o (utf8_encode t ++ rest) ->
  exists tb', same_w tb tb' /\
    forall n, 6 * blen t <= n -> scalar_term n L fl (mk B o o tb e) = (ROk y, mk B (o + blen t) (o + blen t) tb' e').
Definition P_fnode (d o : nat) (e : scope) (x : node) (t : str) (e' : scope) (f : finish) : Prop :=
  forall L tb K, 0 < d -> kok eol true f d K -> at_ B o (utf8_encode t ++ ktext K) ->
  (Wd L d tb -> exists j tb', kend eol K j /\ same_w tb tb' /\
    forall n, 6 * blen t + 1 <= n -> scalar_flow n L true (mk B o o tb e) = (ROk x, mk B (o + blen t + j) (o + blen t + j) tb' e'))
  /\ (Wd (L + 1) d tb -> ~ kcolon K -> exists j tb', kend eol K j /\ same_w tb tb' /\
    forall n, 6 * blen t + 4 <= n -> scalar n L false true (mk B o o tb e) = (ROk x, mk B (o + blen t + j) (o + blen t + j) tb' e')).
Definition P_fitems (d o : nat) (e : scope) (v : list node) (t : str) (e' : scope) : Prop :=
  forall L tb rest q acc, Wd L d tb -> 0 < d -> at_ B o (utf8_encode t ++ rest) ->
  exists tb', same_w tb tb' /\
    forall n, 6 * blen t <= n -> seq_flow_loop n L acc (mk B o q tb e) = (ROk (YSeq (acc ++ v)), mk B (o + blen t) (o + blen t) tb' e').
Definition P_fpairs (d o : nat) (e : scope) (m : list (node * node)) (t : str) (e' : scope) : Prop :=
  forall L tb rest q acc, Wd L d tb -> 0 < d -> at_ B o (utf8_encode t ++ rest) ->
  exists tb', same_w tb tb' /\
    forall n, 6 * blen t <= n -> map_flow_loop n L acc (mk B o q tb e) = build_map (acc ++ m) (mk B (o + blen t) (o + blen t) tb' e').
Definition map_after (n L : nat) (m : list (node * node)) : M yaml :=
  e <- is_err (sym (chr ",")) ;;
  if (e : bool) then
    inv (More 0) ;;;
    sym (chr "}") ;;;
    forward ;;;
    build_map m
  else map_flow_loop n L m.
Definition P_fpair (d o : nat) (e : scope) (k v : node) (t : str) (e' : scope) (f : finish) : Prop :=
  forall L tb q w c r, Wd L d tb -> 0 < d -> flow_gap f w -> closer c -> at_ B o (utf8_encode t ++ w ++ c :: r) ->
  exists j tb', j <= List.length w /\ same_w tb tb' /\
    forall n acc, 6 * blen t <= n -> map_flow_loop (S n) L acc (mk B o q tb e)
      = map_after n L (acc ++ [(k, v)]) (mk B (o + blen t + j) (o + blen t + j) tb' e').

Lemma atom_pos fl e y t f : atom cyclic fl e y t f -> 1 <= blen t.
Proof.
  intros H. pose proof (atom_starts cyclic fl e y t f [10%N] H ltac:(unfold aw, after_word; simpl; tauto)) as S.
  destruct (utf8_encode t) eqn:E; [|simpl; lia]. exfalso. cbn [app] in S. destruct S as ((S & _) & _). discriminate.
Qed.
Lemma coll_pos d o e y t e' : coll cyclic tags eol d o e y t e' -> 1 <= blen t.
Proof.
  intros H. pose proof (coll_starts _ _ _ _ _ _ _ _ _ [10%N] H) as S.
  destruct (utf8_encode t) eqn:E; [|simpl; lia]. exfalso. cbn [app] in S. destruct S as ((S & _) & _). discriminate.
Qed.
Lemma lines_pos fl d t b : plain_lines fl d t b -> 1 <= blen t.
Proof.
  intros [br t0 r u _ W _]. destruct (word_plainb fl t0 W) as (_ & Hn & _). rewrite encode_app, app_length.
  destruct t0 as [|c t0]; [congruence|]. destruct (first_byte c t0) as (x & q & -> & _). cbn [List.length]. lia.
Qed.
Lemma lines_starts fl d t b rest : plain_lines fl d t b -> starts (utf8_encode t ++ rest).
Proof.
  intros [br t0 r u Hb W Hm]. rewrite encode_app, <- app_assoc.
  apply (atom_starts cyclic fl [] (plain_value t0) t0 Done); [apply word_atom; [exact W|apply plain_value_meaning]|].
  destruct Hm as [j0 v a Hj _|j0 v a r w Hj _ _]; destruct (joint_shape d br j0 v Hj) as (m & k & -> & _ & _);
    rewrite !encode_app, (break_enc br Hb), <- !app_assoc; destruct Hb as [->|[->| ->]]; unfold aw, after_word; simpl; tauto.
Qed.
Lemma fcontent_pos d o e y t e' f : fcontent cyclic tags eol d o e y t e' f -> 1 <= blen t.
Proof. intros [? ? ? ? ? ? H|? ? ? ? ? H|? ? ? ? ? ? H]; [eapply atom_pos|eapply lines_pos|eapply coll_pos]; eassumption. Qed.
Lemma fcontent_starts d o e y t e' f rest : fcontent cyclic tags eol d o e y t e' f -> aw rest ->
  starts (utf8_encode t ++ rest).
Proof. intros [? ? ? ? ? ? H|? ? ? ? ? H|? ? ? ? ? ? H] Hr; [eapply atom_starts|eapply lines_starts|eapply coll_starts]; eassumption. Qed.
Lemma fnode_opens d o e x t e' f rest : fnode cyclic tags eol d o e x t e' f -> aw rest ->
  opens (utf8_encode t ++ rest).
Proof.
  intros H Hr. destruct H.
  - apply starts_opens. eapply fcontent_starts; eassumption.
  - rewrite encode_app, <- app_assoc. eapply props_opens; eassumption.
Qed.

(** *** content *)
Lemma content_atom d o e y t f : atom cyclic true e y t f -> P_fcontent d o e y t e f.
Proof.
  intros H L tb K HW Hd HK Ha. pose proof HW as [HD _]. rewrite <- HD in HK.
  destruct (atom_tail eol eol_ok cyclic B B_cyclic B_doc L true e y t f o tb K H HK Ha) as (j & tb' & H1 & H2 & H3).
  exists j, tb', o. split; [exact H1|]. split; [eapply same_tb; [exact HW|apply le_n|exact H2]|].
  intros n Hn. apply H3. pose proof (atom_pos _ _ _ _ _ H). lia.
Qed.
Lemma content_lines d o e t b : plain_lines true d t b -> P_fcontent d o e (YStr b) t e Done.
Proof.
  intros H L tb K HW Hd HK Ha. pose proof HW as [HD _].
  destruct (lines_tail eol eol_ok B L true e t b d o tb K H Hd HD HK Ha) as (j & tb' & H1 & H2 & H3).
  exists j, tb', o. split; [exact H1|]. split; [eapply same_tb; [exact HW|apply le_n|exact H2]|].
  intros n Hn. apply H3. pose proof (lines_pos _ _ _ _ H). lia.
Qed.
Lemma content_coll d o e y t e' : P_coll d o e y t e' -> P_fcontent d o e y t e' Done.
Proof.
  intros P L tb K HW Hd HK Ha. destruct (P L true tb _ HW Hd Ha) as (tb' & H1 & H2). exists 0, tb', (o + blen t).
  split; [eapply kend_none; eassumption|]. split; [exact H1|]. intros n Hn. rewrite Nat.add_0_r. now apply H2.
Qed.
(** *** collections *)
Lemma mk_sym B' o c l q tb e : at_ B' o (c :: l) -> sym c (mk B' o q tb e) = (ROk tt, mk B' (o + 1) q tb e).
Proof.
  intros H. rewrite (sym_exec c _ (at_in _ _ _ q tb e H)), (at_rem _ _ _ q tb e H). now rewrite N.eqb_refl.
Qed.
Lemma mk_sym_no B' o x c l q tb e : at_ B' o (x :: l) -> x <> c -> sym c (mk B' o q tb e) = (RErr Mismatch, mk B' q q tb e).
Proof.
  intros H Hx. rewrite (sym_exec c _ (at_in _ _ _ q tb e H)), (at_rem _ _ _ q tb e H). now rewrite (proj2 (N.eqb_neq x c) Hx).
Qed.
Lemma coll_seq d o e v t e' : P_fitems d (o + 1) e v t e' -> P_coll d o e (YSeq v) (lit "[" ++ t) e'.
Proof.
  intros P L fl tb rest HW Hd Ha. change (lit "[" ++ t) with (91%N :: t) in *. rewrite encode_cons_ascii in * by lia. cbn [app] in Ha.
  assert (HW1 : Wd L d (ind_norm L tb)) by now apply Wd_norm.
  destruct (P L (ind_norm L tb) rest o [] HW1 Hd (at_cons _ _ _ _ Ha)) as (tb' & H1 & H2).
  exists tb'. split; [eapply same_trans; [eapply same_norm; [exact HW|apply le_n]|exact H1]|].
  intros n Hn. cbn [List.length] in *. destruct n as [|[|n]]; [lia|lia|].
  rewrite (term_bracket (S n) L fl (mk B o o tb e) 91%N (utf8_encode t ++ rest)); [|eapply at_in; exact Ha|apply mk_AT|apply (at_rem _ _ _ _ _ _ Ha)|auto|].
  2:{ change (p_indent (mk B o o tb e)) with tb. destruct HW as [-> _]. exact Hd. }
  change (set_indent (ind_norm L (p_indent (mk B o o tb e))) (mk B o o tb e)) with (mk B o o (ind_norm L tb) e).
  unfold or_else. cbn [seq_flow]. unfold bind at 1. rewrite (mk_sym _ _ _ _ _ _ _ Ha). rewrite H2 by lia. cbn [app]. f_equal. apply mk_eq; lia.
Qed.
Lemma coll_map d o e m t e' : P_fpairs d (o + 1) e m t e' -> keys_ok m -> P_coll d o e (YMap m) (lit "{" ++ t) e'.
Proof.
  intros P Hm L fl tb rest HW Hd Ha. change (lit "{" ++ t) with (123%N :: t) in *. rewrite encode_cons_ascii in * by lia. cbn [app] in Ha.
  assert (HW1 : Wd L d (ind_norm L tb)) by now apply Wd_norm.
  destruct (P L (ind_norm L tb) rest o [] HW1 Hd (at_cons _ _ _ _ Ha)) as (tb' & H1 & H2).
  exists tb'. split; [eapply same_trans; [eapply same_norm; [exact HW|apply le_n]|exact H1]|].
  intros n Hn. cbn [List.length] in *. destruct n as [|[|n]]; [lia|lia|].
  rewrite (term_bracket (S n) L fl (mk B o o tb e) 123%N (utf8_encode t ++ rest)); [|eapply at_in; exact Ha|apply mk_AT|apply (at_rem _ _ _ _ _ _ Ha)|auto|].
  2:{ change (p_indent (mk B o o tb e)) with tb. destruct HW as [-> _]. exact Hd. }
  change (set_indent (ind_norm L (p_indent (mk B o o tb e))) (mk B o o tb e)) with (mk B o o (ind_norm L tb) e).
  unfold or_else. cbn [seq_flow map_flow]. unfold bind at 1. rewrite (mk_sym_no _ _ _ (chr "[") _ _ _ _ Ha) by discriminate.
  unfold bind at 1. rewrite (mk_sym _ _ _ _ _ _ _ Ha). rewrite H2 by lia. cbn [app]. rewrite build_distinct by exact Hm. f_equal. apply mk_eq; lia.
Qed.
(** *** nodes *)
Lemma starts_node l : starts l -> match l with x :: _ => x <> 38%N /\ x <> 33%N | [] => True end.
Proof. intros H. apply starts_hd in H. destruct (hd_ok_cons l H) as (b & r & -> & Hb & _). split; intros ->; apply Hb; simpl; tauto. Qed.
Lemma starts_ws l : starts l -> match l with x :: _ => is_ws x = false | [] => False end.
Proof. intros H. apply starts_opens in H as (x & q & -> & H & _). unfold is_ws. now rewrite H. Qed.
Lemma node_run d o e y t e' f L tb K : fcontent cyclic tags eol d o e y t e' f -> P_fcontent d o e y t e' f -> 0 < d -> kok eol true f d K ->
  at_ B o (utf8_encode t ++ ktext K) ->
  (Wd L d tb -> exists j tb' q, kend eol K j /\ same_w tb tb' /\
    forall n, 6 * blen t <= n -> scalar_term n L true (mk B o o tb e) = (ROk y, mk B (o + blen t + j) q tb' e'))
  /\ (Wd (L + 1) d tb -> ~ kcolon K -> exists j tb' q, kend eol K j /\ same_w tb tb' /\
    forall n, 6 * blen t + 3 <= n -> inner n L false true (mk B o o tb e) = (ROk y, mk B (o + blen t + j) q tb' e')).
Proof.
  intros H P Hd HK Ha. split.
  - intros HW. exact (P L tb K HW Hd HK Ha).
  - intros HW NK. destruct (P (L + 1) tb K HW Hd HK Ha) as (j & tb' & q & H1 & H2 & H3).
    exists j, tb', (o + blen t + j). split; [exact H1|]. split; [exact H2|]. intros n Hn.
    pose proof (at_app _ _ _ _ Ha) as Ha1. pose proof (at_add _ _ j _ Ha1 (kend_len _ _ _ H1)) as Ha2.
    rewrite (inner_false (6 * blen t) L true (mk B o o tb e) y (mk B (o + blen t + j) q tb' e')); [reflexivity| | | | | | |exact Hn].
    + eapply at_in. exact Ha.
    + apply mk_AT.
    + rewrite (at_rem _ _ _ _ _ _ Ha). apply starts_hd. eapply fcontent_starts; [exact H|]. eapply kok_head; eassumption.
    + exact H3.
    + eapply at_in. exact Ha2.
    + rewrite (at_rem _ _ _ _ _ _ Ha2). eapply kend_no_colon; eassumption.
Qed.
Lemma fnode_bare d o e y t e' f : fcontent cyclic tags eol d o e y t e' f -> P_fcontent d o e y t e' f -> P_fnode d o e (Node (N.of_nat o) [] y) t e' f.
Proof.
  intros H P L tb K Hd HK Ha. destruct (node_run d o e y t e' f L tb K H P Hd HK Ha) as [R1 R2].
  pose proof (starts_node _ (fcontent_starts _ _ _ _ _ _ _ _ H (kok_head eol eol_ok _ _ _ _ HK))) as HS. split.
  - intros HW. destruct (R1 HW) as (j & tb' & q & H1 & H2 & H3). exists j, tb'. split; [exact H1|]. split; [exact H2|].
    intros n Hn. destruct n as [|n]; [lia|]. cbn [scalar_flow].
    eapply node_bare; [exact B_consumed|exact Ha|exact HS|]. apply H3. lia.
  - intros HW NK. destruct (R2 HW NK) as (j & tb' & q & H1 & H2 & H3). exists j, tb'. split; [exact H1|]. split; [exact H2|].
    intros n Hn. destruct n as [|n]; [lia|]. rewrite scalar_inner.
    eapply node_bare; [exact B_consumed|exact Ha|exact HS|]. apply H3. lia.
Qed.
Lemma fnode_props d o e a tg p y t e1 e2 f : props tags false a tg p -> fcontent cyclic tags eol d (o + blen p) e y t e1 f ->
  P_fcontent d (o + blen p) e y t e1 f ->
  named (Node (N.of_nat (o + blen p)) tg y) a e1 e2 -> P_fnode d o e (Node (N.of_nat (o + blen p)) tg y) (p ++ t) e2 f.
Proof.
  intros Hp H P HN L tb K Hd HK Ha. rewrite encode_app, <- app_assoc in Ha. pose proof (at_app _ _ _ _ Ha) as Ha1.
  destruct (node_run d (o + blen p) e y t e1 f L tb K H P Hd HK Ha1) as [R1 R2]. rewrite blen_app.
  pose proof (fcontent_starts _ _ _ _ _ _ _ _ H (kok_head eol eol_ok _ _ _ _ HK)) as HS.
  assert (HR : match utf8_encode t ++ ktext K with x :: _ => x <> 38%N /\ x <> 33%N /\ is_ws x = false /\ (false = true -> x = 10%N \/ x = 13%N) | [] => false = false end).
  { pose proof (starts_node _ HS) as A1. pose proof (starts_ws _ HS) as A2. destruct (utf8_encode t ++ ktext K); [reflexivity|]. repeat split; try tauto; discriminate. }
  split.
  - intros HW. destruct (R1 HW) as (j & tb' & q & H1 & H2 & H3). exists j, tb'. split; [exact H1|]. split; [exact H2|].
    intros n Hn. destruct n as [|n]; [lia|]. cbn [scalar_flow]. rewrite Nat.add_assoc.
    eapply (node_props tags B B_consumed B_tags B_doc false a tg p); [exact Hp|exact Ha|exact HR| |exact HN]. apply H3. lia.
  - intros HW NK. destruct (R2 HW NK) as (j & tb' & q & H1 & H2 & H3). exists j, tb'. split; [exact H1|]. split; [exact H2|].
    intros n Hn. destruct n as [|n]; [lia|]. rewrite scalar_inner, Nat.add_assoc.
    eapply (node_props tags B B_consumed B_tags B_doc false a tg p); [exact Hp|exact Ha|exact HR| |exact HN]. apply H3. lia.
Qed.
(** *** items *)
Lemma mk_inv o w x l q tb e : at_ B o (w ++ x :: l) -> wide w -> is_ascii_ws x = false -> inv (More 0) (mk B o q tb e) = (ROk tt, mk B (o + List.length w) q tb e).
Proof.
  intros H Hw Hx. destruct (inv_tail w x l (mk B o q tb e) (at_in _ _ _ q tb e H) (wide_wsl w Hw) Hx (at_rem _ _ _ q tb e H)) as (E & _). exact E.
Qed.
Lemma wide_skip j w : wide w -> wide (skipn j w).
Proof.
  intros H. apply Forall_forall. intros x Hx. unfold wide in H. rewrite Forall_forall in H. apply H. rewrite <- (firstn_skipn j w). apply in_or_app. now right.
Qed.
Lemma at_gap o w j c r : at_ B o (w ++ c :: r) -> j <= List.length w -> at_ B (o + j) (skipn j w ++ c :: r).
Proof.
  intros H Hj. pose proof (at_add _ _ j _ H ltac:(rewrite app_length; lia)) as K. rewrite skipn_app in K.
  now replace (j - List.length w) with 0 in K by lia.
Qed.
Ltac mfwd := unfold bind at 1, forward at 1, modify at 1; match goal with |- context [set_eaten (p_pos (mk B ?p ?q ?tb ?e)) _] =>
  change (set_eaten (p_pos (mk B p q tb e)) (mk B p q tb e)) with (mk B p p tb e) end.
(** up to the item *)
Lemma seq_open n L acc o q tb e w l : at_ B o (w ++ l) -> wide w -> opens l ->
  seq_flow_loop (S n) L acc (mk B o q tb e)
  = (x <- or_else (scalar n (L + 1) false true) (err (lit "flow sequence item")) ;; seq_after n L (acc ++ [x])) (mk B (o + List.length w) (o + List.length w) tb e).
Proof.
  intros H Hw (x & l' & -> & Hx & Hb & _). cbn [seq_flow_loop]. unfold bind at 1. rewrite (mk_inv _ _ _ _ q tb e H Hw Hx).
  mfwd. pose proof (at_app _ _ _ _ H) as H1. unfold bind at 1. rewrite (is_ok_eq _ _ _ (mk_sym_no _ _ _ (chr "]") _ _ _ _ H1 ltac:(intros ->; apply Hb; simpl; tauto))).
  cbv iota beta. mfwd. reflexivity.
Qed.
Lemma seq_after_close n L v o w r tb e : at_ B o (w ++ 93%N :: r) -> wide w ->
  seq_after n L v (mk B o o tb e) = (ROk (YSeq v), mk B (o + List.length w + 1) (o + List.length w + 1) tb e).
Proof.
  intros H Hw. rewrite (seq_close n L v (mk B o o tb e) w r (at_in _ _ _ _ _ _ H) (mk_AT _ _ _ _) (wide_wsl w Hw) (at_rem _ _ _ _ _ _ H)).
  f_equal. change (at_pos (p_pos (mk B o o tb e) + S (List.length w)) (mk B o o tb e)) with (mk B (o + S (List.length w)) (o + S (List.length w)) tb e). apply mk_eq; lia.
Qed.
Lemma seq_after_comma n L v o w r tb e : at_ B o (w ++ 44%N :: r) -> wide w ->
  seq_after n L v (mk B o o tb e) = seq_flow_loop n L v (mk B (o + List.length w + 1) o tb e).
Proof.
  intros H Hw. rewrite (seq_comma n L v (mk B o o tb e) w r (at_in _ _ _ _ _ _ H) (mk_AT _ _ _ _) (wide_wsl w Hw) (at_rem _ _ _ _ _ _ H)).
  f_equal. change (set_pos (p_pos (mk B o o tb e) + S (List.length w)) (mk B o o tb e)) with (mk B (o + S (List.length w)) o tb e). apply mk_eq; lia.
Qed.
Lemma closer_ws c : closer c -> is_ascii_ws c = false. Proof. intros H. now apply closer_not in H. Qed.
Lemma fitems_none d o e w : wide w -> P_fitems d o e [] (w ++ lit "]") e.
Proof.
  intros Hw L tb rest q acc HW Hd Ha. rewrite encode_app, (wide_encode w Hw), <- app_assoc in Ha. change (utf8_encode (lit "]") ++ rest) with (93%N :: rest) in Ha.
  exists tb. split; [apply same_refl|]. rewrite blen_app, (wide_encode w Hw). change (blen (lit "]")) with 1. intros n Hn. destruct n as [|n]; [lia|].
  cbn [seq_flow_loop]. unfold bind at 1. rewrite (mk_inv _ _ _ _ q tb e Ha Hw eq_refl). mfwd.
  unfold bind at 1. rewrite (is_ok_eq _ _ _ (mk_sym _ _ _ _ _ tb e (at_app _ _ _ _ Ha))). cbv iota beta. mfwd. rewrite app_nil_r. unfold ret. f_equal. apply mk_eq; lia.
Qed.
Lemma item_flow d o e w x t e' f L tb w' c r : wide w -> fnode cyclic tags eol (d + 4) (o + List.length w) e x t e' f ->
  P_fnode (d + 4) (o + List.length w) e x t e' f -> flow_gap f w' -> closer c -> Wd L d tb ->
  at_ B o (w ++ utf8_encode t ++ w' ++ c :: r) ->
  exists j tb', j <= List.length w' /\ same_w tb tb' /\ forall n q acc, 6 * blen t + 4 <= n ->
    seq_flow_loop (S n) L acc (mk B o q tb e) = seq_after n L (acc ++ [x]) (mk B (o + List.length w + blen t + j) (o + List.length w + blen t + j) tb' e').
Proof.
  intros Hw HF P Hw' Hc HW Ha. set (K := KFlow w' c r).
  assert (HK : kok eol true f (d + 4) K) by (cbn; split; [reflexivity|]; split; [exact Hw'|]; split; [exact Hc|lia]).
  assert (HW2 : Wd (L + 1 + 1) (d + 4) tb) by (replace (d + 4) with (d + 2 + 2) by lia; now apply Wd_up, Wd_up).
  destruct (proj2 (P (L + 1) tb K ltac:(lia) HK (at_app _ _ _ _ Ha)) HW2 ltac:(exact (fun x => x))) as (j & tb' & H1 & H2 & H3).
  exists j, tb'. split; [exact H1|]. split; [exact H2|]. intros n q acc Hn.
  rewrite (seq_open n L acc o q tb e w _ Ha Hw) by (eapply fnode_opens; [exact HF|]; exact (kok_head eol eol_ok _ _ _ _ HK)).
  unfold bind at 1, or_else. rewrite H3 by exact Hn. reflexivity.
Qed.
Lemma fitems_one d o e w x t w' e' f : wide w -> fnode cyclic tags eol (d + 4) (o + List.length w) e x t e' f ->
  P_fnode (d + 4) (o + List.length w) e x t e' f -> flow_gap f w' -> P_fitems d o e [x] (w ++ t ++ w' ++ lit "]") e'.
Proof.
  intros Hw HF P Hw' L tb rest q acc HW Hd Ha. pose proof Hw' as (Hw2 & _).
  rewrite !encode_app, (wide_encode w Hw), (wide_encode w' Hw2), <- !app_assoc in Ha. change (utf8_encode (lit "]") ++ rest) with (93%N :: rest) in Ha.
  destruct (item_flow d o e w x t e' f L tb w' 93%N rest Hw HF P Hw' ltac:(right; left; reflexivity) HW Ha) as (j & tb' & H1 & H2 & H3).
  exists tb'. split; [exact H2|]. rewrite !blen_app, (wide_encode w Hw), (wide_encode w' Hw2). change (blen (lit "]")) with 1. intros n Hn. destruct n as [|n]; [lia|].
  rewrite H3 by lia. pose proof (at_app _ _ _ _ (at_app _ _ _ _ Ha)) as Ha1.
  rewrite (seq_after_close n L _ _ _ rest tb' e' (at_gap _ _ _ _ _ Ha1 H1) (wide_skip j w' Hw2)). f_equal. rewrite skipn_length. apply mk_eq; lia.
Qed.
Lemma fitems_more d o e w x t w' v u e1 e' f : wide w -> fnode cyclic tags eol (d + 4) (o + List.length w) e x t e1 f ->
  P_fnode (d + 4) (o + List.length w) e x t e1 f -> flow_gap f w' ->
  P_fitems d (o + List.length w + blen t + List.length w' + 1) e1 v u e' -> P_fitems d o e (x :: v) (w ++ t ++ w' ++ lit "," ++ u) e'.
Proof.
  intros Hw HF P Hw' PU L tb rest q acc HW Hd Ha. pose proof Hw' as (Hw2 & _).
  rewrite !encode_app, (wide_encode w Hw), (wide_encode w' Hw2), <- !app_assoc in Ha.
  change (utf8_encode (lit ",") ++ utf8_encode u ++ rest) with (44%N :: utf8_encode u ++ rest) in Ha.
  destruct (item_flow d o e w x t e1 f L tb w' 44%N _ Hw HF P Hw' ltac:(left; reflexivity) HW Ha) as (j & tb' & H1 & H2 & H3).
  pose proof (at_app _ _ _ _ (at_app _ _ _ _ Ha)) as Ha1.
  assert (HW' : Wd L d tb') by (eapply same_Wd; eassumption).
  destruct (PU L tb' rest (o + List.length w + blen t + j) (acc ++ [x]) HW' Hd (at_cons _ _ _ _ (at_app _ _ _ _ Ha1))) as (tb2 & H4 & H5).
  exists tb2. split; [eapply same_trans; eassumption|]. rewrite !blen_app, (wide_encode w Hw), (wide_encode w' Hw2). change (blen (lit ",")) with 1. intros n Hn. destruct n as [|n]; [lia|].
  rewrite H3 by lia. rewrite (seq_after_comma n L _ _ _ _ tb' e1 (at_gap _ _ _ _ _ Ha1 H1) (wide_skip j w' Hw2)).
  rewrite skipn_length. replace (o + List.length w + blen t + j + (List.length w' - j) + 1) with (o + List.length w + blen t + List.length w' + 1) by lia.
  rewrite H5 by lia. rewrite <- app_assoc. cbn [app]. f_equal. apply mk_eq; lia.
Qed.
(** *** pairs *)
Definition map_colon (n L : nat) (m : list (node * node)) (k : node) : M yaml :=
  e <- is_err (sym (chr ":")) ;;
  if (e : bool) then err (lit "flow map splitter")
  else
    context (unwrap_or tt bound) ;;;
    forward ;;;
    v <- or_else (scalar n (L + 1) false true) (err (lit "flow map value")) ;;
    map_after n L (m ++ [(k, v)]).
Definition map_explicit (n L : nat) (m : list (node * node)) : M yaml :=
  forward ;;;
  k <- or_else (scalar n (L + 1) false true) (err (lit "flow map key")) ;;
  g <- is_ok (gap true) ;;
  (if (g : bool) then ind L else ret tt) ;;;
  map_colon n L m k.
Lemma map_open n L acc o q tb e w l : at_ B o (w ++ l) -> wide w -> opens l ->
  map_flow_loop (S n) L acc (mk B o q tb e)
  = (k <- or_else (scalar_flow n (L + 1) true) (err (lit "flow map key")) ;; map_colon n L acc k) (mk B (o + List.length w) (o + List.length w) tb e).
Proof.
  intros H Hw HO. pose proof HO as (x & l' & -> & Hx & Hb & _). cbn [map_flow_loop]. unfold bind at 1. rewrite (mk_inv _ _ _ _ q tb e H Hw Hx).
  mfwd. pose proof (at_app _ _ _ _ H) as H1. unfold bind at 1. rewrite (is_ok_eq _ _ _ (mk_sym_no _ _ _ (chr "}") _ _ _ _ H1 ltac:(intros ->; apply Hb; simpl; tauto))).
  cbv iota beta. mfwd. unfold bind at 1.
  rewrite (opens_complex _ (at_in _ _ _ _ _ _ H1) (mk_AT _ _ _ _)) by (rewrite (at_rem _ _ _ _ _ _ H1); exact HO). reflexivity.
Qed.
Lemma map_question n L acc o q tb e w s l : at_ B o (w ++ 63%N :: s ++ l) -> wide w -> mark_end s l ->
  map_flow_loop (S n) L acc (mk B o q tb e) = map_explicit n L acc (mk B (o + List.length w + 1 + List.length s) (o + List.length w) tb e).
Proof.
  intros H Hw Hs. cbn [map_flow_loop]. unfold bind at 1. rewrite (mk_inv _ _ _ _ q tb e H Hw eq_refl).
  mfwd. pose proof (at_app _ _ _ _ H) as H1. unfold bind at 1. rewrite (is_ok_eq _ _ _ (mk_sym_no _ _ _ (chr "}") _ _ _ _ H1 ltac:(discriminate))).
  cbv iota beta. mfwd. unfold bind at 1.
  assert (E : complex_mapping (mk B (o + List.length w) (o + List.length w) tb e) = (ROk tt, mk B (o + List.length w + 1 + List.length s) (o + List.length w) tb e)).
  { unfold complex_mapping. unfold bind at 1. rewrite (mk_sym _ _ _ _ _ tb e H1). exact (mk_bound B _ s l _ tb e (at_cons _ _ _ _ H1) Hs). }
  rewrite (is_ok_eq _ _ _ E). cbv iota beta.
  match goal with |- bind ?a _ ?x = _ => change (bind a (fun k => map_colon n L acc k) x = map_explicit n L acc x) end.
  unfold map_explicit, bind, forward, modify, ret. destruct (or_else _ _ _) as [[k|er| |] s1]; try reflexivity.
  destruct (is_ok (gap true) s1) as [[g|er| |] s2]; try reflexivity.
  destruct g; [|reflexivity]. destruct (ind L s2) as [[g'|er| |] s3]; reflexivity.
Qed.
Lemma value_flow d p s e v vt e' f L tb w c r k : sep s \/ s = [] -> fnode cyclic tags eol (d + 4) (p + 1 + List.length s) e v vt e' f ->
  P_fnode (d + 4) (p + 1 + List.length s) e v vt e' f -> flow_gap f w -> closer c -> Wd L d tb ->
  at_ B p (58%N :: s ++ utf8_encode vt ++ w ++ c :: r) ->
  exists j tb', j <= List.length w /\ same_w tb tb' /\ forall n q acc, 6 * blen vt + 4 <= n ->
    map_colon n L acc k (mk B p q tb e)
    = map_after n L (acc ++ [(k, v)]) (mk B (p + 1 + List.length s + blen vt + j) (p + 1 + List.length s + blen vt + j) tb' e').
Proof.
  intros Hs HF P Hw Hc HW Ha. set (K := KFlow w c r).
  assert (HK : kok eol true f (d + 4) K) by (cbn; split; [reflexivity|]; split; [exact Hw|]; split; [exact Hc|lia]).
  assert (HW2 : Wd (L + 1 + 1) (d + 4) tb) by (replace (d + 4) with (d + 2 + 2) by lia; now apply Wd_up, Wd_up).
  pose proof (at_cons _ _ _ _ Ha) as Ha1. pose proof (at_app _ _ _ _ Ha1) as Ha2.
  destruct (proj2 (P (L + 1) tb K ltac:(lia) HK Ha2) HW2 ltac:(exact (fun x => x))) as (j & tb' & H1 & H2 & H3).
  exists j, tb'. split; [exact H1|]. split; [exact H2|]. intros n q acc Hn. unfold map_colon.
  unfold bind at 1. rewrite (is_err_eq _ _ _ (mk_sym _ _ _ _ q tb e Ha)). cbv iota beta.
  pose proof (fnode_opens _ _ _ _ _ _ _ (ktext K) HF (kok_head eol eol_ok _ _ _ _ HK)) as (x & l & Ex & Hx & _). cbn [ktext K] in Ex.
  assert (DW : doc_ws (s ++ utf8_encode vt ++ w ++ c :: r) = List.length s).
  { rewrite Ex. unfold doc_ws. destruct Hs as [Hs| ->].
    - pose proof (mark_end_ws s (x :: l)) as [-> ->]; [|reflexivity]. split; [now left|]. unfold is_ws. now rewrite Hx.
    - cbn [app List.length]. destruct (at_bound (x :: l)); [|reflexivity]. unfold ws_len. apply span_zero. unfold is_ws. now rewrite Hx. }
  unfold bind at 1. rewrite (ctx_bound _ (at_in _ _ _ _ _ _ Ha1)), (at_rem _ _ _ _ _ _ Ha1), DW, set_pos_mk.
  change (p_pos (mk B (p + 1) q tb e)) with (p + 1). mfwd. unfold bind at 1, or_else. rewrite H3 by exact Hn. reflexivity.
Qed.
Lemma fpairs_none d o e w : wide w -> P_fpairs d o e [] (w ++ lit "}") e.
Proof.
  intros Hw L tb rest q acc HW Hd Ha. rewrite encode_app, (wide_encode w Hw), <- app_assoc in Ha. change (utf8_encode (lit "}") ++ rest) with (125%N :: rest) in Ha.
  exists tb. split; [apply same_refl|]. rewrite blen_app, (wide_encode w Hw). change (blen (lit "}")) with 1. intros n Hn. destruct n as [|n]; [lia|].
  cbn [map_flow_loop]. unfold bind at 1. rewrite (mk_inv _ _ _ _ q tb e Ha Hw eq_refl). mfwd.
  unfold bind at 1. rewrite (is_ok_eq _ _ _ (mk_sym _ _ _ _ _ tb e (at_app _ _ _ _ Ha))). cbv iota beta. mfwd. rewrite app_nil_r. f_equal. apply mk_eq; lia.
Qed.
Lemma after_close n L m o w r tb e : at_ B o (w ++ 125%N :: r) -> wide w ->
  map_after n L m (mk B o o tb e) = build_map m (mk B (o + List.length w + 1) (o + List.length w + 1) tb e).
Proof.
  intros H Hw. unfold map_after. unfold bind at 1.
  assert (E : is_err (sym (chr ",")) (mk B o o tb e) = (ROk true, mk B o o tb e)).
  { destruct w as [|x w]; cbn [app] in H; [rewrite (is_err_eq _ _ _ (mk_sym_no _ _ _ (chr ",") _ _ _ _ H ltac:(discriminate))); reflexivity|].
    inversion Hw as [|? ? Hx _]; subst. rewrite (is_err_eq _ _ _ (mk_sym_no _ _ _ (chr ",") _ _ _ _ H ltac:(intros ->; simpl in Hx; lia))). reflexivity. }
  rewrite E. cbv iota beta. unfold bind at 1. rewrite (mk_inv _ _ _ _ o tb e H Hw eq_refl).
  unfold bind at 1. rewrite (mk_sym _ _ _ _ _ tb e (at_app _ _ _ _ H)). mfwd. reflexivity.
Qed.
Lemma fpairs_one d o e k v t w' e' f : P_fpair d o e k v t e' f -> flow_gap f w' -> P_fpairs d o e [(k, v)] (t ++ w' ++ lit "}") e'.
Proof.
  intros P Hw' L tb rest q acc HW Hd Ha. pose proof Hw' as (Hw2 & _).
  rewrite !encode_app, (wide_encode w' Hw2), <- !app_assoc in Ha. change (utf8_encode (lit "}") ++ rest) with (125%N :: rest) in Ha.
  destruct (P L tb q w' 125%N rest HW Hd Hw' ltac:(right; right; left; reflexivity) Ha) as (j & tb' & H1 & H2 & H3).
  exists tb'. split; [exact H2|]. rewrite !blen_app, (wide_encode w' Hw2). change (blen (lit "}")) with 1. intros n Hn. destruct n as [|n]; [lia|].
  rewrite H3 by lia. pose proof (at_app _ _ _ _ Ha) as Ha1.
  rewrite (after_close n L _ _ _ rest tb' e' (at_gap _ _ _ _ _ Ha1 H1) (wide_skip j w' Hw2)). f_equal. rewrite skipn_length. apply mk_eq; lia.
Qed.
Lemma fpairs_more d o e k v t m u e1 e' f : P_fpair d o e k v t e1 f -> P_fpairs d (o + blen t + 1) e1 m u e' ->
  P_fpairs d o e ((k, v) :: m) (t ++ lit "," ++ u) e'.
Proof.
  intros P PU L tb rest q acc HW Hd Ha. rewrite !encode_app, <- !app_assoc in Ha.
  change (utf8_encode (lit ",") ++ utf8_encode u ++ rest) with (44%N :: utf8_encode u ++ rest) in Ha.
  assert (G : flow_gap f []) by (split; [constructor|]; intros _; split; intros []).
  destruct (P L tb q [] 44%N _ HW Hd G ltac:(left; reflexivity) Ha) as (j & tb' & H1 & H2 & H3).
  assert (j = 0) as -> by (simpl in H1; lia).
  pose proof (at_app _ _ _ _ Ha) as Ha1. assert (HW' : Wd L d tb') by (eapply same_Wd; eassumption).
  destruct (PU L tb' rest (o + blen t) (acc ++ [(k, v)]) HW' Hd (at_cons _ _ _ _ Ha1)) as (tb2 & H4 & H5).
  exists tb2. split; [eapply same_trans; eassumption|]. rewrite !blen_app. change (blen (lit ",")) with 1. intros n Hn. destruct n as [|n]; [lia|].
  rewrite H3 by lia. rewrite Nat.add_0_r. unfold map_after. unfold bind at 1. rewrite (is_err_eq _ _ _ (mk_sym _ _ _ _ _ tb' e1 Ha1)). cbv iota beta.
  rewrite H5 by lia. rewrite <- app_assoc. cbn [app]. f_equal. apply mk_eq; lia.
Qed.
Lemma colon_mark s l : sep s -> exists q, s ++ l = 32%N :: q.
Proof. intros (r & -> & _). exists (r ++ l). reflexivity. Qed.
Lemma quoted_node d o e k c q e1 f : c = 34%N \/ c = 39%N -> fnode cyclic tags eol d o e k (c :: q) e1 f ->
  exists y, atom cyclic true e y (c :: q) Done /\ (forall z, ~ worded true (c :: q) z) /\ k = Node (N.of_nat o) [] y /\ e1 = e.
Proof.
  intros Hc. assert (Lc : (c < 128)%N) by (destruct Hc as [->| ->]; lia).
  assert (NL : forall t, int_literal t \/ float_literal t \/ sci_literal t -> forall z, c :: q <> t ++ indent z).
  { intros t H z E. destruct (literal_head _ H) as (b & r & Eb & K). rewrite Eb in E. injection E as <- _. unfold digit in K. destruct Hc as [->| ->]; destruct K as [K|[K _]]; try discriminate; lia. }
  remember (c :: q) as t eqn:Et. intros H. destruct H as [d o e y t e' f H|d o e a tg p y t e1 e2 f Hp H HN].
  - destruct H as [d o e y t f H|d o e t b H|d o e y t e' H].
    2:{ exfalso. destruct H as [br t0 r u _ W _]. destruct t0 as [|c0 t0]; [now apply word_plainb in W|]. injection Et as -> _.
      pose proof (word_first _ _ [] W) as K. rewrite encode_cons_ascii in K by exact Lc. apply K. cbn. destruct Hc as [->| ->]; tauto. }
    + exists y. destruct (atom_kind eol eol_ok cyclic true e y t f H) as [->|(-> & [(u & w & Eu & W & _)|NW])].
      * exfalso. inversion H as [|t' z H' E'|t' v z H' Hv E'|t' z H' E'| | | | |]; subst t; apply (NL t' ltac:(tauto) z); congruence.
      * exfalso. destruct u as [|x u]; [now apply word_plainb in W|]. rewrite Et in Eu. injection Eu as <- _.
        pose proof (word_first _ _ [] W) as K. rewrite encode_cons_ascii in K by exact Lc. apply K. cbn. destruct Hc as [->| ->]; tauto.
      * auto.
    + destruct H; destruct Hc as [->| ->]; discriminate.
  - destruct (props_head _ _ _ _ _ Hp) as (z & q' & E & Hz). exfalso.
    assert (E2 : utf8_encode (p ++ t) = c :: utf8_encode q) by (rewrite Et, encode_cons_ascii by lia; reflexivity).
    rewrite encode_app, E in E2. injection E2 as -> _. destruct Hc as [->| ->]; lia.
Qed.
Lemma fpair_simple d o e w k kt s v vt e1 e2 f f' : wide w -> fnode cyclic tags eol (d + 2) (o + List.length w) e k kt e1 f ->
  P_fnode (d + 2) (o + List.length w) e k kt e1 f -> flow_colon kt s ->
  fnode cyclic tags eol (d + 4) (o + List.length w + blen kt + 1 + List.length s) e1 v vt e2 f' ->
  P_fnode (d + 4) (o + List.length w + blen kt + 1 + List.length s) e1 v vt e2 f' ->
  P_fpair d o e k v (w ++ kt ++ lit ":" ++ s ++ vt) e2 f'.
Proof.
  intros Hw HF P Hs HV PV L tb q w' c r HW Hd Hw' Hc Ha.
  assert (Es : utf8_encode s = s) by (destruct Hs as [Hs|[-> _]]; [now apply sep_encode|reflexivity]).
  assert (Hs' : sep s \/ s = []) by (destruct Hs as [Hs|[-> _]]; auto).
  rewrite !encode_app, (wide_encode w Hw), Es, <- !app_assoc in Ha.
  change (utf8_encode (lit ":") ++ ?x) with (58%N :: x) in Ha.
  pose proof (at_app _ _ _ _ Ha) as Ha1. pose proof (at_app _ _ _ _ Ha1) as Ha2.
  assert (HW1 : Wd (L + 1) (d + 2) tb) by now apply Wd_up.
  assert (KEY : exists tb', same_w tb tb' /\ forall n, 6 * blen kt + 1 <= n ->
    scalar_flow n (L + 1) true (mk B (o + List.length w) (o + List.length w) tb e) = (ROk k, mk B (o + List.length w + blen kt) (o + List.length w + blen kt) tb' e1)).
  { destruct Hs as [Hs|[-> (x & xq & -> & Hx)]].
    - destruct (colon_mark s (utf8_encode vt ++ w' ++ c :: r) Hs) as (z & Ez). rewrite Ez in Ha1.
      destruct (proj1 (P (L + 1) tb (KColon 32%N z) ltac:(lia) ltac:(simpl; tauto) Ha1) HW1) as (j & tb' & H1 & H2 & H3).
      cbn [kend] in H1. subst j. exists tb'. split; [exact H2|]. intros n Hn. rewrite H3 by exact Hn. now rewrite Nat.add_0_r.
    - destruct (quoted_node _ _ _ _ _ _ _ _ Hx HF) as (y & Hy & NW & -> & ->). exists tb. split; [apply same_refl|].
      assert (Lx : (x < 128)%N) by (destruct Hx as [->| ->]; lia).
      intros n Hn. rewrite encode_cons_ascii in Hn by exact Lx. destruct n as [|[|n]]; [cbn [List.length] in Hn; lia|cbn [List.length] in Hn; lia|]. cbn [scalar_flow].
      eapply node_bare; [exact B_consumed|exact Ha1| |].
      + rewrite encode_cons_ascii by exact Lx. cbn [app]. destruct Hx as [->| ->]; split; discriminate.
      + apply (done_reads cyclic B B_cyclic B_doc n (L + 1) true e y _ _ tb _ Hy NW Ha1). split; [reflexivity|discriminate]. }
  destruct KEY as (tb1 & H1 & H2). assert (HW' : Wd L d tb1) by (eapply same_Wd; eassumption).
  destruct (value_flow d _ s e1 v vt e2 f' L tb1 w' c r k Hs' HV PV Hw' Hc HW' Ha2) as (j & tb2 & H3 & H4 & H5).
  exists j, tb2. split; [exact H3|]. split; [eapply same_trans; eassumption|]. rewrite !blen_app, (wide_encode w Hw), Es. change (blen (lit ":")) with 1.
  intros n acc Hn. rewrite (map_open n L acc o q tb e w _ Ha Hw).
  - unfold bind at 1, or_else. rewrite H2 by lia. rewrite H5 by lia. f_equal. apply mk_eq; lia.
  - eapply fnode_opens; [exact HF|]. unfold aw, after_word. simpl. tauto.
Qed.
Lemma fpair_explicit d o e w s k kt b s' v vt e1 e2 f f' : wide w -> sep s -> fnode cyclic tags eol (d + 4) (o + List.length w + 1 + List.length s) e k kt e1 f ->
  P_fnode (d + 4) (o + List.length w + 1 + List.length s) e k kt e1 f -> break_after eol (Some d) f b -> sep s' \/ s' = [] ->
  fnode cyclic tags eol (d + 4) (o + List.length w + 1 + List.length s + blen kt + blen b + d + 1 + List.length s') e1 v vt e2 f' ->
  P_fnode (d + 4) (o + List.length w + 1 + List.length s + blen kt + blen b + d + 1 + List.length s') e1 v vt e2 f' ->
  P_fpair d o e k v (w ++ lit "?" ++ s ++ kt ++ b ++ indent d ++ lit ":" ++ s' ++ vt) e2 f'.
Proof.
  intros Hw Hs HF P Hb Hs' HV PV L tb q w' c r HW Hd Hw' Hc Ha.
  assert (Es' : utf8_encode s' = s') by (destruct Hs' as [Hs'| ->]; [now apply sep_encode|reflexivity]).
  assert (Ei : utf8_encode (indent d) = repeat 32%N d) by (unfold indent; apply encode_asciis; clear; induction d; [reflexivity|exact IHd]).
  rewrite !encode_app, (wide_encode w Hw), (sep_encode s Hs), Es', Ei, <- !app_assoc in Ha.
  change (utf8_encode (lit "?") ++ ?x) with (63%N :: x) in Ha. change (utf8_encode (lit ":") ++ ?x) with (58%N :: x) in Ha.
  set (tl := 58%N :: s' ++ utf8_encode vt ++ w' ++ c :: r) in *. set (K := KBreak b d tl).
  assert (SH : shown tl) by (exists 58%N; eexists; split; [reflexivity|]; unfold visible; simpl; lia).
  assert (HK : kok eol true f (d + 4) K) by (cbn; split; [exact Hb|]; split; [right; exact SH|lia]).
  pose proof (at_app _ _ _ _ Ha) as Ha0. pose proof (at_app _ _ _ _ (at_cons _ _ _ _ Ha0)) as Ha1.
  set (p := o + List.length w + 1 + List.length s) in *.
  assert (HW2 : Wd (L + 1 + 1) (d + 4) tb) by (replace (d + 4) with (d + 2 + 2) by lia; now apply Wd_up, Wd_up).
  destruct (proj2 (P (L + 1) tb K ltac:(lia) HK Ha1) HW2 ltac:(exact (fun x => x))) as (j & tb1 & (b' & LO) & H2 & H3).
  assert (EH : exists pre, utf8_encode b = pre ++ utf8_encode b' /\ List.length pre = j /\ brk eol b').
  { destruct LO as [[LO LB]|[(K0 & _)|(K0 & LB & ->)]]; [|discriminate K0|exists [13%N]; auto]. exists (repeat 32%N j). rewrite repeat_length. auto. }
  destruct EH as (pre & Eb & Lj & Hb').
  pose proof (fnode_opens _ _ _ _ _ _ _ (ktext K) HF (kok_head eol eol_ok _ _ _ _ HK)) as HO.
  assert (ME : mark_end s (utf8_encode kt ++ ktext K)).
  { split; [now left|]. destruct HO as (x & l & -> & Hx & _). unfold is_ws. now rewrite Hx. }
  pose proof (at_app _ _ _ _ Ha1) as Ha2. rewrite Eb, <- app_assoc in Ha2. pose proof (at_app _ _ _ _ Ha2) as Ha3. rewrite Lj in Ha3.
  assert (BL : blen b = j + blen b') by (rewrite Eb, app_length, Lj; reflexivity).
  destruct (brk_gap eol eol_ok b' d tl Hb' ltac:(right; exact SH)) as (g & G).
  pose proof (at_app _ _ _ _ Ha3) as Ha4. pose proof (at_app _ _ _ _ Ha4) as Ha5. rewrite repeat_length in Ha5.
  assert (HW1 : Wd L d tb1) by (eapply same_Wd; eassumption).
  set (tb2 := ind_norm L tb1). assert (HWn : Wd L d tb2) by now apply Wd_norm.
  replace (p + blen kt + j + blen b' + d) with (p + blen kt + blen b + d) in Ha5 by lia.
  destruct (value_flow d _ s' e1 v vt e2 f' L tb2 w' c r k Hs' HV PV Hw' Hc HWn Ha5) as (j2 & tb3 & H4 & H5 & H6).
  exists j2, tb3. split; [exact H4|]. split.
  { eapply same_trans; [exact H2|]. eapply same_trans; [|exact H5]. eapply same_norm; [exact HW1|apply le_n]. }
  rewrite !blen_app, (wide_encode w Hw), (sep_encode s Hs), Es', Ei, repeat_length. change (blen (lit ":")) with 1. change (blen (lit "?")) with 1.
  intros n acc Hn. rewrite (map_question n L acc o q tb e w s _ Ha Hw ME). fold p. unfold map_explicit. mfwd.
  unfold bind at 1, or_else at 1. rewrite H3 by lia.
  unfold bind at 1. rewrite (is_ok_eq _ _ _ (gap_exec true _ (at_in _ _ _ _ _ _ Ha3))), (at_rem _ _ _ _ _ _ Ha3), G. rewrite set_pos_mk.
  change (p_pos (mk B (p + blen kt + j) (p + blen kt + j) tb1 e1)) with (p + blen kt + j). cbv iota beta.
  unfold bind at 1. rewrite (ind_ok L _ (at_in _ _ _ _ _ _ Ha4)).
  2:{ rewrite (at_rem _ _ _ _ _ _ Ha4). change (p_indent (mk B ?a ?b0 ?c0 ?d0)) with c0. destruct HW1 as [-> _].
      destruct (spaces_shown d tl (or_intror SH)) as (_ & _ & -> & _). lia. }
  change (p_indent (mk B ?a ?b0 ?c0 ?d0)) with c0. destruct HW1 as [-> _]. fold tb2.
  change (set_pos (p_pos (mk B (p + blen kt + j + blen b') (p + blen kt + j) tb1 e1) + d) (set_indent tb2 (mk B (p + blen kt + j + blen b') (p + blen kt + j) tb1 e1)))
    with (mk B (p + blen kt + j + blen b' + d) (p + blen kt + j) tb2 e1).
  replace (p + blen kt + j + blen b' + d) with (p + blen kt + blen b + d) by lia. rewrite H6 by lia. f_equal. apply mk_eq; unfold p; lia.
Qed.
Theorem flow_run :
  (forall d o e y t e' f, fcontent cyclic tags eol d o e y t e' f -> P_fcontent d o e y t e' f) /\
  (forall d o e y t e', coll cyclic tags eol d o e y t e' -> P_coll d o e y t e') /\
  (forall d o e x t e' f, fnode cyclic tags eol d o e x t e' f -> P_fnode d o e x t e' f) /\
  (forall d o e v t e', fitems cyclic tags eol d o e v t e' -> P_fitems d o e v t e') /\
  (forall d o e m t e', fpairs cyclic tags eol d o e m t e' -> P_fpairs d o e m t e') /\
  (forall d o e k v t e' f, fpair cyclic tags eol d o e k v t e' f -> P_fpair d o e k v t e' f).
Proof.
  apply (flow_mut cyclic tags eol (fun d o e y t e' f _ => P_fcontent d o e y t e' f) (fun d o e y t e' _ => P_coll d o e y t e')
    (fun d o e x t e' f _ => P_fnode d o e x t e' f) (fun d o e v t e' _ => P_fitems d o e v t e')
    (fun d o e m t e' _ => P_fpairs d o e m t e') (fun d o e k v t e' f _ => P_fpair d o e k v t e' f)); intros.
  - now apply content_atom.
  - now apply content_lines.
  - now apply content_coll.
  - now apply coll_seq.
  - now apply coll_map.
  - now apply fnode_bare.
  - eapply fnode_props; eassumption.
  - now apply fitems_none.
  - eapply fitems_one; eassumption.
  - eapply fitems_more; eassumption.
  - now apply fpairs_none.
  - eapply fpairs_one; eassumption.
  - eapply fpairs_more; eassumption.
  - eapply fpair_simple; eassumption.
  - eapply fpair_explicit; eassumption.
Qed.
End Flow.
