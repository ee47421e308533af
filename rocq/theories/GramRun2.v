(** * C48: block nodes: the loader reads them as they are written *)
From Verif Require Export GramRun.
Open Scope nat_scope.

Section Block.
Variable eol : str.
Hypothesis eol_ok : eol = [10%N] \/ eol = [13; 10]%N.
Variable cyclic : bool.
Variable tags : tagref -> option str.
Variable B : st.
Hypothesis B_cyclic : l_cyclic B = cyclic.
Hypothesis B_consumed : p_consumed B = 0%N.
Hypothesis B_tags : forall r, ref_ok r -> resolve_tab (p_tag B) r = tags r.
Hypothesis B_doc : nth_error (l_anchors B) (l_doc_ind B) <> None.
Local Notation inline := (inline cyclic tags eol).
Local Notation body := (body cyclic tags eol).
Local Notation full := (full cyclic tags eol).
Local Notation content := (content cyclic tags eol).
Local Notation items := (items cyclic tags eol).
Local Notation entries := (entries cyclic tags eol).
Local Notation entry := (entry cyclic tags eol).
Local Notation key := (key cyclic tags eol).
Local Notation left_over := (left_over eol).
Local Notation enters := (enters B).

(** ** Content on one line *)
Definition P_inline (d o : nat) (e : scope) (y : yaml) (t : str) (e' : scope) (f : finish) : Prop :=
  forall L tb K, Wd L d tb -> 0 < d -> kok eol false f d K -> at_ B o (utf8_encode t ++ ktext K) ->
  exists j tb' q, kend eol K j /\ same_w tb tb' /\
    forall n, 6 * blen t <= n -> scalar_term n L false (mk B o o tb e) = (ROk y, mk B (o + blen t + j) q tb' e').
Lemma inline_run d o e y t e' f : inline d o e y t e' f -> P_inline d o e y t e' f.
Proof.
  intros [y0 t0 f0 H|t0 b0 H|y0 t0 e0 H] L tb K W Hd HK Ha.
  2:{ destruct (lines_tail eol eol_ok B L false e t0 b0 d o tb K H Hd (proj1 W) HK Ha) as (j & tb' & H1 & H2 & H3).
    exists j, tb', o. split; [exact H1|]. split; [eapply same_tb; [exact W|apply le_n|exact H2]|].
    intros n Hn. apply H3. pose proof (lines_pos B B_consumed _ _ _ _ H). lia. }
  - rewrite <- (proj1 W) in HK. destruct (atom_tail eol eol_ok cyclic B B_cyclic B_doc L false e y0 t0 f0 o tb K H HK Ha) as (j & tb' & H1 & H2 & H3).
    exists j, tb', o. split; [exact H1|]. split; [eapply same_tb; [exact W|apply le_n|exact H2]|].
    intros n Hn. apply H3. pose proof (atom_pos eol eol_ok cyclic B B_consumed false e y0 t0 f0 H). lia.
  - destruct (flow_run eol eol_ok cyclic tags B B_cyclic B_consumed B_tags B_doc) as (_ & F & _).
    destruct (F _ _ _ _ _ _ H L false tb (ktext K) W Hd Ha) as (tb' & H1 & H2).
    exists 0, tb', (o + blen t0). split; [eapply kend_none; eassumption|]. split; [exact H1|]. intros n Hn. rewrite H2 by exact Hn. f_equal. apply mk_eq; lia.
Qed.
Lemma inline_starts d o e y t e' f rest : inline d o e y t e' f -> aw rest -> starts (utf8_encode t ++ rest).
Proof. intros [y0 t0 f0 H|t0 b0 H|y0 t0 e0 H] Hr; [eapply atom_starts; eassumption|eapply (lines_starts eol eol_ok true); eassumption|eapply coll_starts; eassumption]. Qed.
Lemma inline_pos d o e y t e' f : inline d o e y t e' f -> 1 <= blen t.
Proof. intros [y0 t0 f0 H|t0 b0 H|y0 t0 e0 H]; [eapply atom_pos; eassumption|eapply lines_pos; eassumption|eapply coll_pos; eassumption]. Qed.

(** ** How texts begin *)
Definition ft (f : finish) (l : bytes) : Prop :=
  match l with
  | x :: _ => after_word x /\ (forall w nx, f = Void w nx -> x = 10%N \/ x = 13%N)
  | [] => f = Done \/ exists w, f = Void w false
  end.
Lemma ft_aw f l : ft f l -> aw l.
Proof. destruct l; [reflexivity|]. intros [H _]. exact H. Qed.
Lemma tail_start f b k r : break_after eol (here k r) f b -> line_start k r -> ft f (utf8_encode b ++ repeat 32%N k ++ r).
Proof.
  intros H Hr. destruct (after_head eol eol_ok _ f b H) as [(x & q & -> & Hx)|(HN & -> & Hf)].
  - cbn. unfold after_word. simpl. split; [destruct Hx as [-> |[-> |[_ ->]]]; tauto|]. intros w nx Ef. destruct Hx as [Hx|[Hx|[Hx _]]]; [auto..|congruence].
  - destruct r; [|discriminate HN]. destruct Hr as [[_ ->]|(? & ? & ? & _)]; [exact Hf|discriminate].
Qed.
Lemma colon_aw R : aw (58%N :: R). Proof. cbn. unfold after_word. simpl. tauto. Qed.
(** the beginning of block content: visible, and no properties if [h] *)
Definition bstart (h : bool) (l : bytes) : Prop :=
  exists x q, l = x :: q /\ visible x /\ ~ In x [124; 62; 37]%N /\ (h = true -> x <> 38%N /\ x <> 33%N) .
Lemma bstart_shown h l : bstart h l -> shown l.
Proof. intros (x & q & -> & H & _). exists x, q. auto. Qed.
Lemma starts_cons l : starts l -> exists x q, l = x :: q /\ visible x /\ ~ In x [38; 33; 124; 62; 37]%N /\ not_dash l /\ ~ doc_ends l.
Proof.
  intros ((Hh & M1 & M2 & z & zq & Ez & Hz) & _). apply hd_ok_cons in Hh as (b & r & -> & Hb & Hd). injection Ez as <- <-.
  exists b, r. split; [reflexivity|]. split; [intros K; apply Hb; simpl in K |- *; tauto|]. split; [|split].
  - intros K. simpl in K. destruct K as [K|[K|[K|[K|[K|[]]]]]]; try (apply Hb; simpl; tauto). now symmetry in K.
  - intros q [= -> ->]. apply Hd. now left.
  - intros [K|[K|K]]; congruence.
Qed.
Lemma starts_bstart h l : starts l -> bstart h l.
Proof.
  intros H. destruct (starts_cons l H) as (x & q & -> & V & N & _). exists x, q. split; [reflexivity|]. split; [exact V|]. split.
  - intros K. apply N. simpl in K |- *. tauto.
  - intros _. split; intros ->; apply N; simpl; tauto.
Qed.
(** an entry *)
Definition estart (h : bool) (l : bytes) : Prop := bstart h l /\ not_dash l /\ ~ doc_ends l.
Lemma starts_estart h l : starts l -> estart h l.
Proof. intros H. split; [now apply starts_bstart|]. destruct (starts_cons l H) as (x & q & -> & _ & _ & N). exact N. Qed.
Lemma key_estart d o h e k t e' rest : key d o h e k t e' -> aw rest -> estart h (utf8_encode t ++ rest).
Proof.
  intros [y t0 e0 f H|a tg p y t0 e1 e2 f -> Hp H Hn] Hr.
  - eapply starts_estart, inline_starts; eassumption.
  - destruct (props_head tags false a tg p Hp) as (x & q & Ex & Hx). rewrite encode_app, Ex. cbn [app].
    repeat split.
    + eexists _, _. split; [reflexivity|]. destruct Hx as [-> | ->]; (split; [unfold visible; simpl; lia|split; [simpl; lia|discriminate]]).
    + intros z [= Ez _]. destruct Hx; congruence.
    + destruct Hx as [-> | ->]; intros [K|[K|K]]; discriminate.
Qed.
Lemma lit1 c r R : utf8_encode (c :: r) ++ R = utf8_encode [c] ++ utf8_encode r ++ R.
Proof. change (c :: r) with ([c] ++ r). now rewrite encode_app, <- app_assoc. Qed.
Lemma const_estart c h q : In c [63]%N -> estart h (c :: q).
Proof.
  intros [<-|[]]. repeat split.
  - eexists _, _. split; [reflexivity|]. split; [unfold visible; simpl; lia|]. split; [simpl; lia|]. split; discriminate.
  - intros z [=].
  - intros [K|[K|K]]; discriminate.
Qed.
Lemma entry_estart c o h e k v t e' f R : entry c o h e k v t e' f -> estart h (utf8_encode t ++ R).
Proof.
  intros H. destruct H.
  - rewrite encode_app, <- app_assoc. eapply key_estart; [eassumption|]. rewrite encode_app. apply colon_aw.
  - rewrite encode_app. apply const_estart. now left.
Qed.
Lemma entries_estart c o h e m t e' f R : entries c o h e m t e' f -> estart h (utf8_encode t ++ R).
Proof.
  intros H. destruct H as [c o h e k v t e' f H|c o h e k v t e1 f1 b m u e' f H _ _]; [|rewrite encode_app, <- app_assoc]; eapply entry_estart; eassumption.
Qed.
Lemma body_bstart c o h e y t e' f R : body c o h e y t e' f -> aw R -> bstart h (utf8_encode t ++ R).
Proof.
  intros H HR. destruct H as [c o h e y t e' f H|c o h e nx w v t e' f Hw H|c o h e m t e' f H _].
  - eapply starts_bstart, inline_starts; eassumption.
  - rewrite encode_app. eexists _, _. split; [reflexivity|]. split; [unfold visible; simpl; lia|]. split; [simpl; lia|]. split; discriminate.
  - eapply entries_estart; eassumption.
Qed.
(** a node, or its content *)
Definition nstart (nx : bool) (l : bytes) : Prop := match l with x :: _ => is_ws x = false /\ (nx = true -> x = 10%N \/ x = 13%N) | [] => nx = false end.
Lemma before_head nx b : break_before eol nx b -> exists x q, utf8_encode b = x :: q /\ is_ws x = false /\ (nx = true -> x = 10%N \/ x = 13%N) /\ ~ In x [38; 33; 124; 62]%N.
Proof.
  intros (tr & g & -> & _ & H). rewrite !encode_app, (eol_encode eol eol_ok).
  destruct H as [H|[-> H]].
  - subst tr. cbn [utf8_encode flat_map app]. destruct eol_ok as [-> | ->]; cbn [app]; eexists _, _; (split; [reflexivity|]); (split; [reflexivity|]); (split; [auto|simpl; lia]).
  - destruct (comment_encode tr H) as (r & -> & _). cbn [app]. eexists _, _. split; [reflexivity|]. split; [reflexivity|]. split; [discriminate|simpl; lia].
Qed.
Definition cstart (nx : bool) (l : bytes) : Prop :=
  match l with x :: _ => is_ws x = false /\ (nx = true -> x = 10%N \/ x = 13%N) /\ x <> 38%N /\ x <> 33%N | [] => nx = false end.
Lemma before_cstart nx b R : break_before eol nx b -> cstart nx (utf8_encode b ++ R).
Proof.
  intros H. destruct (before_head nx b H) as (x & q & -> & H1 & H2 & H3). cbn [app cstart]. split; [exact H1|]. split; [exact H2|].
  split; intros ->; apply H3; simpl; tauto.
Qed.
Lemma starts_cstart l : starts l -> cstart false l.
Proof.
  intros H. destruct (starts_cons l H) as (x & q & -> & V & N & _). split; [now apply visible_ws|]. split; [discriminate|].
  split; intros ->; apply N; simpl; tauto.
Qed.
Lemma scalar_lines_head d v t R : scalar_lines eol d v t -> exists x q, utf8_encode t ++ R = x :: q /\ (x = 124%N \/ x = 62%N).
Proof. intros [z ci w c ls _ _ _ _ _|z ci w n c ls _ _ _]; rewrite encode_app; unfold block_header; rewrite encode_cons_ascii by reflexivity; eexists _, _; (split; [reflexivity|]); auto. Qed.
Lemma void_cstart w nx R : ft (Void w nx) R -> cstart nx R.
Proof.
  destruct R as [|x R]; [intros [[=]|(w' & [= _ ->])]; reflexivity|]. intros [_ H]. destruct (H w nx eq_refl) as [-> | ->]; cbn; repeat split; auto; discriminate.
Qed.
Lemma content_cstart m c o nx e y t e' f R : content m c o nx e y t e' f -> ft f R -> cstart nx (utf8_encode t ++ R).
Proof.
  intros H HF. pose proof (ft_aw _ _ HF) as HR. destruct H.
  - destruct (body_bstart _ _ _ _ _ _ _ _ R H HR) as (x & q & -> & V & _ & N). split; [now apply visible_ws|]. split; [discriminate|]. now apply N.
  - rewrite encode_app, <- app_assoc. now apply before_cstart.
  - eapply void_cstart; exact HF.
  - destruct (scalar_lines_head _ _ _ R H0) as (x & q & -> & Hx). destruct Hx as [-> | ->]; repeat split; try discriminate.
  - eapply starts_cstart, inline_starts; eassumption.
  - rewrite encode_app, <- app_assoc. now apply before_cstart.
  - rewrite encode_app, <- app_assoc. now apply before_cstart.
  - eapply void_cstart; exact HF.
  - destruct (scalar_lines_head _ _ _ R H) as (x & q & -> & Hx). destruct Hx as [-> | ->]; repeat split; try discriminate.
Qed.
Lemma full_nstart m c o nx e x t e' f R : full m c o nx e x t e' f -> ft f R -> nstart nx (utf8_encode t ++ R).
Proof.
  intros H HR. destruct H.
  - pose proof (content_cstart _ _ _ _ _ _ _ _ _ R H HR) as K. unfold cstart in K. unfold nstart. destruct (utf8_encode t ++ R); tauto.
  - destruct (props_head _ _ _ _ _ H) as (x & q & E & Hx). rewrite encode_app, E. cbn [app nstart].
    split; [destruct Hx as [-> | ->]; reflexivity|discriminate].
Qed.
Lemma items_nstart c o nx e v t e' f R : items c o nx e v t e' f -> ft f R -> nstart nx (utf8_encode t ++ R).
Proof.
  intros H HR. destruct H; [eapply full_nstart; eassumption|]. rewrite !encode_app, <- !app_assoc, enc_indent. eapply full_nstart; [eassumption|].
  change (utf8_encode (lit "-") ++ ?z) with (45%N :: z). apply tail_start; [assumption|]. right. eexists _, _. split; [reflexivity|unfold visible; simpl; lia].
Qed.
Lemma nstart_mark nx w R : sep_or nx w -> nstart nx R -> mark_end w R.
Proof. intros Hw H. eapply sep_or_mark; [exact Hw|]. exact H. Qed.
(** what stands behind a colon *)
Lemma mark_colon w R : mark_end w R -> exists x q, w ++ R = x :: q /\ In x [32; 10; 13]%N.
Proof. apply mark_end_head. Qed.

(** ** The statements *)
Definition P_items (c o : nat) (nx : bool) (e : scope) (v : list node) (t : str) (e' : scope) (f : finish) : Prop :=
  forall M m acc tb b k r, Wd M c tb -> break_after eol (here k r) f b -> line_start k r -> items_stop c k r ->
  at_ B o (utf8_encode t ++ utf8_encode b ++ repeat 32%N k ++ r) ->
  exists j b' tb', left_over r b j b' /\ agree M tb tb' /\
    forall n, 8 * blen t + 9 <= n -> item_step n M m acc (mk B o o tb e) = (ROk (YSeq (acc ++ v)), mk B (o + blen t + j) (o + blen t + j) tb' e').
Definition P_body (c o : nat) (h : bool) (e : scope) (y : yaml) (t : str) (e' : scope) (f : finish) : Prop :=
  forall M m o0 x tb tb1 b k r l0, enters m M o0 x c tb tb1 e -> o = o0 + x -> at_ B o0 l0 ->
  (match l0 with z :: _ => z <> 124%N /\ z <> 62%N | [] => True end) -> break_after eol (here k r) f b -> line_start k r -> stop_at c k r ->
  at_ B o (utf8_encode t ++ utf8_encode b ++ repeat 32%N k ++ r) ->
  exists j b' tb' q, left_over r b j b' /\ agree M tb1 tb' /\
    forall n, 8 * blen t + 8 <= n -> inner n M m false (mk B o0 o0 tb e) = (ROk y, mk B (o + blen t + j) q tb' e').
Definition lev (m : bool) (L : nat) : nat := if m then L + 1 else L.
Definition stops (m : bool) : nat -> nat -> bytes -> Prop := if m then items_stop else stop_at.
Definition P_content (m : bool) (c o : nat) (nx : bool) (e : scope) (y : yaml) (t : str) (e' : scope) (f : finish) : Prop :=
  forall L tb b k r, Wd L c tb -> break_after eol (here k r) f b -> line_start k r -> stops m c k r ->
  at_ B o (utf8_encode t ++ utf8_encode b ++ repeat 32%N k ++ r) ->
  exists j b' tb' q, left_over r b j b' /\ agree L tb tb' /\
    forall n, 8 * blen t + 8 <= n -> inner n (lev m L) m false (mk B o o tb e) = (ROk y, mk B (o + blen t + j) q tb' e').
Definition P_full (m : bool) (c o : nat) (nx : bool) (e : scope) (x : node) (t : str) (e' : scope) (f : finish) : Prop :=
  forall L tb b k r, Wd L c tb -> break_after eol (here k r) f b -> line_start k r -> stops m c k r ->
  at_ B o (utf8_encode t ++ utf8_encode b ++ repeat 32%N k ++ r) ->
  exists j b' tb', left_over r b j b' /\ agree L tb tb' /\
    forall n, 8 * blen t + 9 <= n -> scalar n (lev m L) m false (mk B o o tb e) = (ROk x, mk B (o + blen t + j) (o + blen t + j) tb' e').
Definition P_entry (c o : nat) (h : bool) (e : scope) (kn v : node) (t : str) (e' : scope) (f : finish) : Prop :=
  forall M tb b k r, Wd M c tb -> break_after eol (here k r) f b -> line_start k r -> items_stop c k r ->
  at_ B o (utf8_encode t ++ utf8_encode b ++ repeat 32%N k ++ r) ->
  exists j b' tb', left_over r b j b' /\ agree M tb tb' /\
    forall fst m acc n, 8 * blen t <= n -> entry_go fst n M m acc (mk B o o tb e)
      = map_loop n M m false (acc ++ [(kn, v)]) (mk B (o + blen t + j) (o + blen t + j) tb' e').
Definition P_entries (c o : nat) (h : bool) (e : scope) (mm : list (node * node)) (t : str) (e' : scope) (f : finish) : Prop :=
  forall M tb b k r, Wd M c tb -> break_after eol (here k r) f b -> line_start k r -> stop_at c k r ->
  at_ B o (utf8_encode t ++ utf8_encode b ++ repeat 32%N k ++ r) ->
  exists j b' tb', left_over r b j b' /\ agree M tb tb' /\
    forall fst m acc n, 8 * blen t <= n -> entry_go fst n M m acc (mk B o o tb e)
      = build_map (acc ++ mm) (mk B (o + blen t + j) (o + blen t + j) tb' e').

(** ** Bodies *)
Lemma scalar_inline d o e y t e' f L tb K : inline d o e y t e' f -> Wd L d tb -> 0 < d -> kok eol false f d K -> at_ B o (utf8_encode t ++ ktext K) ->
  exists j tb', kend eol K j /\ same_w tb tb' /\
    forall n, 6 * blen t + 1 <= n -> scalar_flow n L false (mk B o o tb e) = (ROk (Node (N.of_nat o) [] y), mk B (o + blen t + j) (o + blen t + j) tb' e').
Proof.
  intros H W Hd HK Ha. destruct (inline_run _ _ _ _ _ _ _ H L tb K W Hd HK Ha) as (j & tb' & q & H1 & H2 & H3).
  exists j, tb'. split; [exact H1|]. split; [exact H2|]. intros n Hn. destruct n as [|n]; [lia|]. cbn [scalar_flow].
  eapply (node_bare B B_consumed); [exact Ha| |apply H3; lia].
  apply (starts_node eol eol_ok). eapply inline_starts; [exact H|]. eapply kok_head; eassumption.
Qed.
Lemma body_inline c o h e y t e' f : inline (c + 2) o e y t e' f -> P_body c o h e y t e' f.
Proof.
  intros H M m o0 x tb tb1 b k r l0 En -> H0 Hl0 Hb Hr Hs Ha.
  set (K := KBreak b k r). assert (HK : kok eol false f (c + 2) K).
  { cbn. split; [exact Hb|]. split; [exact Hr|]. destruct Hs as [Hs|[-> _]]; lia. }
  pose proof En as (_ & _ & W). pose proof (Wd_up _ _ _ W) as W1.
  destruct (scalar_inline _ _ _ _ _ _ _ (M + 1) tb1 K H W1 ltac:(lia) HK Ha) as (j & tb' & (b' & LO) & H2 & H3).
  pose proof (inline_starts _ _ _ _ _ _ _ (ktext K) H (kok_head eol eol_ok _ _ _ _ HK)) as HS.
  exists j, b', tb', (o0 + x + blen t + j). split; [exact LO|]. split; [now apply same_agree|].
  intros n Hn. destruct n as [|[|n]]; [lia|lia|].
  rewrite inner_blocks; [|apply (at_in _ _ _ _ _ _ H0)|apply mk_AT|rewrite (at_rem _ _ _ _ _ _ H0); exact Hl0].
  unfold or_else. rewrite (seq_no B n M m o0 x c tb tb1 e _ En Ha) by (destruct (starts_cons _ HS) as (? & ? & _ & _ & _ & ND & _); exact ND).
  rewrite (map_first B n M m o0 x c tb tb1 e En). unfold entry_go. unfold bind at 1.
  rewrite opens_complex; [|apply (at_in _ _ _ _ _ _ Ha)|apply mk_AT|rewrite (at_rem _ _ _ _ _ _ Ha); now apply starts_opens].
  cbv iota. unfold bind at 1. rewrite H3 by lia. unfold entry_colon, bind at 1.
  assert (Ha2 : at_ B (o0 + x + blen t + j) (utf8_encode b' ++ repeat 32%N k ++ r)) by (eapply left_at; [exact LO|]; now apply at_app in Ha).
  rewrite (colon_no B _ _ _ _ Ha2); [reflexivity|].
  pose proof (kend_no_colon eol eol_ok _ _ _ K j HK ltac:(exists b'; auto) ltac:(exact (fun z => z))) as NC.
  replace (utf8_encode b' ++ repeat 32%N k ++ r) with (skipn j (ktext K)); [exact NC|]. cbn [K ktext]. unfold K. cbn [ktext].
  destruct LO as [(Eb & _)|[(_ & -> & ->)|(Eb & _ & ->)]]; [now rewrite Eb, <- app_assoc, repeat_skip|apply skipn_app_len|now rewrite Eb].
Qed.
Lemma body_seq c o h e nx w v t e' f : sep_or nx w -> items c (o + 1 + List.length w) nx e v t e' f -> P_items c (o + 1 + List.length w) nx e v t e' f ->
  P_body c o h e (YSeq v) (lit "-" ++ w ++ t) e' f.
Proof.
  intros Hw H P M m o0 x tb tb1 b k r l0 En -> H0 Hl0 Hb Hr Hs Ha.
  assert (Ew := sep_or_encode nx w Hw).
  rewrite !encode_app, Ew, <- !app_assoc in Ha. change (utf8_encode (lit "-") ++ ?z) with (45%N :: z) in Ha.
  pose proof (nstart_mark nx w _ Hw (items_nstart _ _ _ _ _ _ _ _ _ H (tail_start f b k r Hb Hr))) as HM.
  pose proof (at_app _ _ _ _ (at_cons _ _ _ _ Ha)) as Ha1. pose proof En as (_ & _ & W).
  destruct (P M m [] tb1 b k r W Hb Hr (or_introl Hs) Ha1) as (j & b' & tb' & H1 & H2 & H3).
  assert (EL : blen (lit "-" ++ w ++ t) = 1 + List.length w + blen t) by (rewrite !blen_app, Ew; reflexivity).
  exists j, b', tb'. eexists. split; [exact H1|]. split; [exact H2|]. rewrite EL. intros n Hn. destruct n as [|[|n]]; [lia|lia|].
  rewrite inner_blocks; [|apply (at_in _ _ _ _ _ _ H0)|apply mk_AT|rewrite (at_rem _ _ _ _ _ _ H0); exact Hl0].
  unfold or_else. rewrite (seq_first B n M m o0 x c tb tb1 e w _ En Ha HM). rewrite H3 by lia. cbn [app]. f_equal. apply mk_eq; [lia|reflexivity].
Qed.
Lemma body_map c o h e mm t e' f : entries c o h e mm t e' f -> P_entries c o h e mm t e' f -> keys_ok mm -> P_body c o h e (YMap mm) t e' f.
Proof.
  intros H P HK M m o0 x tb tb1 b k r l0 En -> H0 Hl0 Hb Hr Hs Ha. pose proof En as (_ & _ & W).
  destruct (P M tb1 b k r W Hb Hr Hs Ha) as (j & b' & tb' & H1 & H2 & H3).
  destruct (entries_estart _ _ _ _ _ _ _ _ (utf8_encode b ++ repeat 32%N k ++ r) H) as (_ & ND & _).
  exists j, b', tb'. eexists. split; [exact H1|]. split; [exact H2|]. intros n Hn. destruct n as [|[|n]]; [lia|lia|].
  rewrite inner_blocks; [|apply (at_in _ _ _ _ _ _ H0)|apply mk_AT|rewrite (at_rem _ _ _ _ _ _ H0); exact Hl0].
  unfold or_else. rewrite (seq_no B n M m o0 x c tb tb1 e _ En Ha ND).
  rewrite (map_first B n M m o0 x c tb tb1 e En). rewrite H3 by lia. cbn [app]. rewrite (build_distinct mm _ HK). reflexivity.
Qed.

(** ** Content *)
Lemma content_here c o e y t e' f : body c o true e y t e' f -> P_body c o true e y t e' f -> P_content false c o false e y t e' f.
Proof.
  intros H P L tb b k r W Hb Hr Hs Ha. pose proof (body_bstart _ _ _ _ _ _ _ _ _ H (ft_aw f _ (tail_start f b k r Hb Hr))) as HS.
  pose proof (enters_here B L c o tb e _ Ha (bstart_shown _ _ HS) W) as En.
  destruct (P L false o 0 tb tb b k r _ En ltac:(lia) Ha) as (j & b' & tb' & q & H1 & H2 & H3); try assumption.
  { destruct HS as (x & z & -> & _ & N & _). split; intros ->; apply N; simpl; tauto. }
  exists j, b', tb', q. auto.
Qed.
Lemma before_first nx b R : break_before eol nx b -> match utf8_encode b ++ R with z :: _ => z <> 124%N /\ z <> 62%N | [] => True end.
Proof. intros H. destruct (before_head nx b H) as (x & q & -> & _ & _ & N). cbn [app]. split; intros ->; apply N; simpl; tauto. Qed.
Lemma content_next c o nx e b y t e' f : break_before eol nx b -> body c (o + blen b + c) false e y t e' f -> P_body c (o + blen b + c) false e y t e' f ->
  P_content false c o nx e y (b ++ indent c ++ t) e' f.
Proof.
  intros Hbb H P L tb b2 k r W Hb Hr Hs Ha. rewrite !encode_app, enc_indent, <- !app_assoc in Ha.
  pose proof (body_bstart _ _ _ _ _ _ _ _ _ H (ft_aw f _ (tail_start f b2 k r Hb Hr))) as HS.
  pose proof (before_brk eol nx b Hbb) as HB.
  pose proof (enters_next eol eol_ok B L c o tb e b _ Ha HB (bstart_shown _ _ HS) (proj1 W)) as En.
  pose proof (at_app _ _ _ _ (at_app _ _ _ _ Ha)) as Ha1. rewrite repeat_length in Ha1.
  destruct (P L false o (blen b + c) tb (ind_norm L tb) b2 k r _ En ltac:(lia) Ha) as (j & b' & tb' & q & H1 & H2 & H3); try assumption.
  { eapply before_first; eassumption. }
  exists j, b', tb', q. split; [exact H1|]. split; [eapply agree_trans; [now apply (agree_norm L L)|exact H2]|].
  rewrite !blen_app, blen_indent. intros n Hn. rewrite H3 by lia. f_equal. apply mk_eq; lia.
Qed.
Lemma content_value c o e y t e' f : inline (c + 2) o e y t e' f -> P_content true c o false e y t e' f.
Proof.
  intros H L tb b k r W Hb Hr Hs Ha. set (K := KBreak b k r). assert (HK : kok eol false f (c + 2) K).
  { cbn. split; [exact Hb|]. split; [exact Hr|]. eapply stop_near; [|exact Hs]. lia. }
  pose proof (Wd_up _ _ _ W) as W1.
  destruct (inline_run _ _ _ _ _ _ _ H (L + 1) tb K W1 ltac:(lia) HK Ha) as (j & tb' & q & (b' & LO) & H2 & H3).
  exists j, b', tb', q. split; [exact LO|]. split; [now apply same_agree|]. intros n Hn.
  apply (inner_true (6 * blen t)); [apply (at_in _ _ _ _ _ _ Ha)|apply mk_AT| |exact H3|lia].
  rewrite (at_rem _ _ _ _ _ _ Ha). apply starts_hd. eapply inline_starts; [exact H|]. eapply ft_aw, tail_start; eassumption.
Qed.
Lemma content_deeper c c' o nx e b y t e' f : c < c' -> break_before eol nx b -> body c' (o + blen b + c') false e y t e' f -> P_body c' (o + blen b + c') false e y t e' f ->
  P_content true c o nx e y (b ++ indent c' ++ t) e' f.
Proof.
  intros Hc Hbb H P L tb b2 k r W Hb Hr Hs Ha. rewrite !encode_app, enc_indent, <- !app_assoc in Ha.
  pose proof (body_bstart _ _ _ _ _ _ _ _ _ H (ft_aw f _ (tail_start f b2 k r Hb Hr))) as HS.
  pose proof (before_brk eol nx b Hbb) as HB.
  pose proof (enters_define eol eol_ok B L c c' o tb e b _ Ha HB (bstart_shown _ _ HS) (proj1 W) ltac:(lia)) as En.
  pose proof (at_app _ _ _ _ (at_app _ _ _ _ Ha)) as Ha1. rewrite repeat_length in Ha1.
  destruct (P (L + 1) true o (blen b + c') tb _ b2 k r _ En ltac:(lia) Ha) as (j & b' & tb' & q & H1 & H2 & H3); try assumption.
  { eapply before_first; eassumption. }
  { eapply stop_deeper; eassumption. }
  exists j, b', tb', q. split; [exact H1|]. split; [eapply agree_trans; [apply agree_snoc|]; eapply agree_le; [|exact H2]; lia|].
  rewrite !blen_app, blen_indent. intros n Hn. cbn [lev]. rewrite H3 by lia. f_equal. apply mk_eq; lia.
Qed.
Lemma content_flush c o nx e b nx' w v t e' f : break_before eol nx b -> sep_or nx' w ->
  items c (o + blen b + c + 1 + List.length w) nx' e v t e' f -> P_items c (o + blen b + c + 1 + List.length w) nx' e v t e' f ->
  P_content true c o nx e (YSeq v) (b ++ indent c ++ lit "-" ++ w ++ t) e' f.
Proof.
  intros Hbb Hw H P L tb b2 k r W Hb Hr Hs Ha. assert (Ew := sep_or_encode nx' w Hw).
  rewrite !encode_app, enc_indent, Ew, <- !app_assoc in Ha. change (utf8_encode (lit "-") ++ ?z) with (45%N :: z) in Ha.
  pose proof (before_brk eol nx b Hbb) as HB.
  pose proof (enters_define eol eol_ok B L c c o tb e b _ Ha HB ltac:(eexists _, _; split; [reflexivity|unfold visible; simpl; lia]) (proj1 W) ltac:(lia)) as En.
  pose proof (at_app _ _ _ _ (at_app _ _ _ _ Ha)) as Ha1. rewrite repeat_length in Ha1.
  pose proof (nstart_mark nx' w _ Hw (items_nstart _ _ _ _ _ _ _ _ _ H (tail_start f b2 k r Hb Hr))) as HM.
  pose proof (at_app _ _ _ _ (at_cons _ _ _ _ Ha1)) as Ha2. pose proof En as (_ & _ & W1).
  destruct (P (L + 1) true [] _ b2 k r W1 Hb Hr Hs Ha2) as (j & b' & tb' & H1 & H2 & H3).
  exists j, b', tb'. eexists. split; [exact H1|]. split; [eapply agree_trans; [apply agree_snoc|]; eapply agree_le; [|exact H2]; lia|].
  rewrite !blen_app, blen_indent, Ew. change (blen (lit "-")) with 1. intros n Hn. cbn [lev]. destruct n as [|[|n]]; [lia|lia|].
  rewrite inner_blocks; [|apply (at_in _ _ _ _ _ _ Ha)|apply mk_AT|rewrite (at_rem _ _ _ _ _ _ Ha); eapply before_first; eassumption].
  rewrite <- Nat.add_assoc in Ha1. unfold or_else. rewrite (seq_first B n (L + 1) true o _ c tb _ e w _ En Ha1 HM).
  replace (o + (blen b + c) + 1 + List.length w) with (o + blen b + c + 1 + List.length w) by lia. rewrite H3 by lia. cbn [app]. f_equal. apply mk_eq; [lia|reflexivity].
Qed.
(** a block scalar *)
Lemma lines_break : line_break eol.
Proof. destruct eol_ok as [-> | ->]; [now left|right; now left]. Qed.
Lemma lines_end d b k r : low eol d b -> line_start k r -> k < d -> exists n, block_end eol d n (utf8_encode b ++ repeat 32%N k ++ r).
Proof.
  intros (n & z & -> & Hz) Hr Hk. exists n. destruct Hz as [-> |(k0 & q & -> & Hk0)].
  - exists k, r. rewrite !encode_app, app_nil_r, (rows_encode eol n lines_break), (break_encode eol lines_break), <- !app_assoc. split; [reflexivity|]. split; [exact Hk|].
    destruct Hr as [[-> _]|(x & q & -> & V)]; [now left|]. right. exists x, q. split; [reflexivity|]. unfold visible in V. unfold blank_char. simpl in V. repeat split; intros K; apply V; intuition.
  - exists k0, (35%N :: utf8_encode q ++ repeat 32%N k ++ r). split.
    + rewrite !encode_app, (rows_encode eol n lines_break), (break_encode eol lines_break), enc_indent, encode_cons_ascii by lia. rewrite <- !app_assoc. reflexivity.
    + split; [exact Hk0|]. right. eexists _, _. split; [reflexivity|]. unfold blank_char. repeat split; lia.
Qed.
Lemma lines_run d L m v t o tb e b k r : scalar_lines eol d v t -> 0 < d -> depth tb L = d -> low eol d b -> line_start k r -> k < d ->
  at_ B o (utf8_encode t ++ utf8_encode b ++ repeat 32%N k ++ r) ->
  forall n, inner n L m false (mk B o o tb e) = (ROk (YStr v), mk B (o + blen t + (List.length eol - 1)) o (ind_norm L tb) e).
Proof.
  intros H Hd Hdep Hlow Hr Hk Ha n. destruct (lines_end d b k r Hlow Hr Hk) as (ee & HE).
  destruct H as [z ci w c ls Hci Hw Hc Hls Hse|z ci w n0 c ls Hci Hw Hls].
  - unfold inner, bind.
    assert (E : string_literal L (mk B o o tb e) = (ROk (literal_value c ls ++ z), mk B (o + blen (block_header (chr "|") ci w ++ block_text eol d ((0, c) :: ls)) + (List.length eol - 1)) o (ind_norm L tb) e)).
    { pose proof (C14_literal eol (mk B o o tb e) L ci w c ls ee z (utf8_encode b ++ repeat 32%N k ++ r)) as K.
      change (p_indent (mk B o o tb e)) with tb in K. rewrite Hdep in K. rewrite K; clear K; try assumption; try apply lines_break.
      - reflexivity.
      - apply (at_in _ _ _ _ _ _ Ha).
      - rewrite (at_rem _ _ _ _ _ _ Ha). reflexivity.
      - destruct Hci as [[-> ->]|[-> ->]]; constructor.
      - now right. }
    rewrite (ok_eq _ _ _ E). reflexivity.
  - unfold inner, bind.
    assert (E0 : ok (string_literal L) (mk B o o tb e) = (ROk None, mk B o o tb e)).
    { unfold string_literal. apply ok_miss; [apply (at_in _ _ _ _ _ _ Ha)|apply mk_AT|]. rewrite (at_rem _ _ _ _ _ _ Ha).
      rewrite encode_app. unfold block_header. rewrite encode_cons_ascii by reflexivity. cbn [app]. discriminate. }
    assert (E : string_folded L (mk B o o tb e) = (ROk (breaks n0 ++ folded_value c ls ++ z), mk B (o + blen (block_header (chr ">") ci w ++ block_text eol d ((n0, c) :: ls)) + (List.length eol - 1)) o (ind_norm L tb) e)).
    { pose proof (C14_folded eol (mk B o o tb e) L ci w n0 c ls ee z (utf8_encode b ++ repeat 32%N k ++ r)) as K.
      change (p_indent (mk B o o tb e)) with tb in K. rewrite Hdep in K. rewrite K; clear K; try assumption; try apply lines_break.
      - reflexivity.
      - apply (at_in _ _ _ _ _ _ Ha).
      - rewrite (at_rem _ _ _ _ _ _ Ha). reflexivity.
      - destruct Hci as [[-> ->]|[-> ->]]; constructor. }
    rewrite E0, (ok_eq _ _ _ E). reflexivity.
Qed.
Lemma after_low k w b : break_after eol k (Open w) b -> low eol w b.
Proof. intros [(tr & g & _ & _ & _ & H & _)|(_ & _ & [[=]|(? & [=])])]. now apply H. Qed.
Lemma content_lines c o e v t : 1 <= c -> scalar_lines eol c v t -> P_content false c o false e (YStr v) t e (Open c).
Proof.
  intros Hc H L tb b k r W Hb Hr Hs Ha. destruct (left_open eol eol_ok k r c b Hb) as (b' & LO).
  exists (List.length eol - 1), b', (ind_norm L tb), o. split; [exact LO|]. split; [now apply agree_norm|].
  intros n _. cbn [lev]. rewrite (lines_run c L false v t o tb e b k r H ltac:(lia) (proj1 W) (after_low _ _ _ Hb) Hr ltac:(destruct Hs as [?|[-> _]]; lia) Ha).
  reflexivity.
Qed.
Lemma content_vlines c o e v t : scalar_lines eol (c + 2) v t -> P_content true c o false e (YStr v) t e (Open (c + 2)).
Proof.
  intros H L tb b k r W Hb Hr Hs Ha. pose proof (Wd_up _ _ _ W) as W1. destruct (left_open eol eol_ok k r (c + 2) b Hb) as (b' & LO).
  exists (List.length eol - 1), b', (ind_norm (L + 1) tb), o. split; [exact LO|]. split; [apply agree_norm; lia|].
  intros n _. cbn [lev]. rewrite (lines_run (c + 2) (L + 1) true v t o tb e b k r H ltac:(lia) (proj1 W1) (after_low _ _ _ Hb) Hr ltac:(eapply stop_near; [|exact Hs]; lia) Ha).
  reflexivity.
Qed.

(** nothing *)
Lemma mk_define_no L p q tb e k r : at_ B p (repeat 32%N k ++ r) -> line_start k r -> k < depth tb L ->
  ind_define (L + 1) (mk B p q tb e) = (RErr Mismatch, mk B q q (ind_norm L tb) e).
Proof.
  intros H Hr Hk. unfold ind_define. rewrite (proj2 (Nat.ltb_lt 0 (L + 1))) by lia. rewrite Nat.add_sub.
  unfold bind at 1. now rewrite (mk_ind_no B L p q tb e k r H Hr Hk).
Qed.
Lemma no_prelude L m o tb tb1 e : prelude m L (mk B o o tb e) = (RErr Mismatch, mk B o o tb1 e) ->
  forall n, Loader.seq (S (S n)) L m (mk B o o tb e) = (RErr Mismatch, mk B o o tb1 e) /\ map_ (S (S n)) L m false (mk B o o tb e) = (RErr Mismatch, mk B o o tb1 e).
Proof.
  unfold prelude. intros P n. split; cbn [Loader.seq seq_loop map_ map_loop]; unfold bind at 1, forward at 1, modify at 1;
    change (set_eaten (p_pos (mk B o o tb e)) (mk B o o tb e)) with (mk B o o tb e); rewrite bind_assoc'; unfold bind at 1; now rewrite P.
Qed.
Lemma term_null L o tb e l : at_ B o l -> (match l with x :: _ => x = 10%N \/ x = 13%N | [] => True end) -> ends false (depth tb L) l ->
  exists tb', tb_ok L tb tb' /\ forall n, scalar_term (S (S n)) L false (mk B o o tb e) = (ROk YNull, mk B o o tb' e).
Proof.
  intros Ha Hl He. set (s := mk B o o tb e). assert (H : in_doc s) by exact (at_in _ _ _ _ _ _ Ha). assert (A : AT s) by reflexivity.
  assert (R : rem s = l) by exact (at_rem _ _ _ _ _ _ Ha).
  assert (NN : nonum (rem s)).
  { apply no_num_head_nonum. rewrite R. destruct l as [|x l]; [reflexivity|]. destruct Hl as [-> | ->]; reflexivity. }
  assert (Hx : forall c, In c [42; 39; 34; 91; 123]%N -> match rem s with x :: _ => x <> c | [] => True end).
  { rewrite R. intros c Hc. destruct l as [|x l]; [exact Logic.I|]. destruct Hl as [-> | ->]; intros <-; simpl in Hc; lia. }
  destruct (plain_rest_end (pred (loop_fuel s)) L false [] false s H A ltac:(rewrite R; exact He)) as (x & tb' & E & Hw & T).
  assert (PL : forall n, plain_loop (S n) L false [] false s = plain_rest n L false [] false s).
  { intros n.
    rewrite (proj1 (plain_step n L false [] false s [] l H eq_refl eq_refl ltac:(destruct l as [|z l]; [exact Logic.I|]; change (In z (plain_patt false)); destruct Hl as [-> | ->]; simpl; auto 20) ltac:(exact R))).
    change (List.length (utf8_encode [])) with 0. rewrite Nat.add_0_r. unfold at_pos. now rewrite (set_eaten_AT s A), set_pos_id. }
  exists tb'. split; [exact T|]. intros n. rewrite (term_nonum (S n) L false s H A NN). unfold term2.
  unfold bind at 1, anchor_use. rewrite (ok_miss _ _ s H A) by (apply Hx; simpl; auto).
  unfold bind at 1. rewrite (quoted_miss _ _ s H A) by (apply Hx; simpl; auto).
  unfold bind at 1. rewrite (quoted_miss _ _ s H A) by (apply Hx; simpl; auto).
  assert (EP : ok (string_plain L false) s = (ROk None, set_indent tb' s)).
  { unfold string_plain, context, ok. rewrite (set_eaten_AT s A). unfold bind, gets. change (loop_fuel s) with (S (pred (loop_fuel s))). rewrite PL, E. cbn [app]. rewrite (trim_end_ws x Hw). reflexivity. }
  unfold bind at 1. rewrite EP. set (s1 := set_indent tb' s). assert (H1 : in_doc s1) by exact H. assert (A1 : AT s1) by reflexivity. assert (R1 : rem s1 = rem s) by reflexivity.
  unfold or_else. cbn [seq_flow map_flow].
  assert (S1 : forall (b : N), In b [91; 123]%N -> sym b s1 = (RErr Mismatch, s1)).
  { intros b Hb. rewrite (sym_exec b s1 H1), R1. pose proof (Hx b ltac:(simpl in Hb |- *; tauto)) as K. destruct (rem s) as [|z q]; [now rewrite A1, set_pos_id|].
    rewrite (proj2 (N.eqb_neq z b) K). now rewrite A1, set_pos_id. }
  unfold bind. rewrite !S1 by (simpl; auto). reflexivity.
Qed.
Lemma void_after k r c nx b : break_after eol (here k r) (Void c nx) b -> line_start k r ->
  (b = [] /\ r = [] /\ k = 0) \/ (brk eol b /\ (k < c \/ r = [] /\ k = 0) /\ exists x q, utf8_encode b = x :: q /\ (x = 10%N \/ x = 13%N)).
Proof.
  intros H Hr. destruct (after_head eol eol_ok _ _ _ H) as [(x & q & E & Hx)|(HN & -> & _)].
  - right. destruct (after_brk eol _ _ _ H) as [K|[_ ->]]; [|discriminate E]. split; [exact K|]. split; [|exists x, q; split; [exact E|destruct Hx as [?|[?|[[=] _]]]; auto]].
    destruct H as [(tr & g & _ & _ & _ & _ & HV)|(_ & -> & _)]; [|discriminate E].
    destruct r as [|z r]; [right; destruct Hr as [[_ ?]|(? & ? & ? & _)]; [auto|discriminate]|]. left. eapply HV; reflexivity.
  - left. destruct r; [|discriminate HN]. destruct Hr as [[_ ?]|(? & ? & ? & _)]; [auto|discriminate].
Qed.
Lemma break_ends w b k r x q : brk eol b -> line_start k r -> k < w -> utf8_encode b = x :: q -> x = 10%N \/ x = 13%N -> ends false w (utf8_encode b ++ repeat 32%N k ++ r).
Proof.
  intros Hb Hr Hk E Hx. right. left. split; [lia|]. split.
  - rewrite E. cbn [app]. intros K. destruct (brk_gap eol eol_ok b k r Hb Hr) as (t & G). rewrite E in G. cbn [app] in G. unfold gap_f in G. cbv zeta in G. unfold gap_head in G.
    rewrite comment_head in G by (destruct Hx as [-> | ->]; auto). cbn [skipn] in G. rewrite K in G. discriminate G.
  - destruct (brk_gap eol eol_ok b k r Hb Hr) as (t & G). exists t, (blen b). split; [exact G|]. rewrite skipn_app_len.
    destruct (spaces_shown k r Hr) as (_ & _ & -> & _). exact Hk.
Qed.
Lemma flow_null L o tb e : at_ B o [] -> exists tb', tb_ok L tb tb' /\
  forall n, 3 <= n -> scalar_flow n L false (mk B o o tb e) = (ROk (Node (N.of_nat o) [] YNull), mk B o o tb' e).
Proof.
  intros Ha. destruct (term_null L o tb e [] Ha Logic.I ltac:(left; reflexivity)) as (tb' & T & E). exists tb'. split; [exact T|].
  intros n Hn. destruct n as [|[|[|n]]]; try lia. cbn [scalar_flow]. eapply (node_bare B B_consumed); [exact Ha|exact Logic.I|apply E].
Qed.
Lemma end_complex p tb e : at_ B p [] -> is_ok complex_mapping (mk B p p tb e) = (ROk false, mk B p p tb e).
Proof.
  intros H. unfold complex_mapping, is_ok. unfold bind at 1. rewrite (sym_exec (chr "?") _ (at_in _ _ _ _ _ _ H)), (at_rem _ _ _ _ _ _ H).
  cbv iota beta. rewrite ?set_pos_mk. reflexivity.
Qed.
(** at the end of the file *)
Lemma end_run m M o x c tb tb1 e l0 : enters m M o x c tb tb1 e -> at_ B o l0 -> (match l0 with z :: _ => z <> 124%N /\ z <> 62%N | [] => True end) ->
  at_ B (o + x) [] -> exists tb', agree M tb1 tb' /\ forall n, 5 <= n -> inner n M m false (mk B o o tb e) = (ROk YNull, mk B (o + x) (o + x) tb' e).
Proof.
  intros En H0 Hl0 Ha. destruct (flow_null (M + 1) (o + x) tb1 e Ha) as (tb' & T & E). exists tb'.
  split; [destruct T as [-> | ->]; [apply agree_refl|apply agree_norm; lia]|]. intros n Hn. destruct n as [|[|n]]; try lia.
  rewrite inner_blocks; [|apply (at_in _ _ _ _ _ _ H0)|apply mk_AT|rewrite (at_rem _ _ _ _ _ _ H0); exact Hl0].
  unfold or_else. rewrite (seq_no B n M m o x c tb tb1 e _ En Ha) by (intros ? [=]). rewrite (map_first B n M m o x c tb tb1 e En).
  unfold entry_go. unfold bind at 1. rewrite (end_complex _ _ _ Ha). cbv iota. unfold bind at 1. rewrite E by lia.
  unfold entry_colon, bind at 1. rewrite (colon_no B _ _ _ _ Ha) by (intros ? [=]). reflexivity.
Qed.
Lemma content_empty c o nx e : 1 <= c -> P_content false c o nx e YNull [] e (Void c nx).
Proof.
  intros Hc L tb b k r W Hb Hr Hs Ha. pose proof (left_none eol k r _ b Hb) as LN. cbn [utf8_encode flat_map app] in Ha.
  destruct (void_after k r c nx b Hb Hr) as [(-> & -> & ->)|(HB & Hk & x & q & E & Hx)].
  - cbn [utf8_encode flat_map app repeat] in Ha.
    assert (En : enters false L o 0 c tb tb e).
    { assert (P : prelude false L (mk B o o tb e) = (ROk tt, mk B (o + 0) o tb e)).
      { unfold prelude, bind. rewrite (is_ok_eq _ _ _ (mk_gap_end B o tb e Ha)). cbv iota. unfold ret. now rewrite Nat.add_0_r. }
      repeat split; try exact P; apply W. }
    destruct (end_run false L o 0 c tb tb e [] En Ha Logic.I ltac:(rewrite Nat.add_0_r; exact Ha)) as (tb' & T & EE).
    exists 0, [], tb'. eexists. split; [exact LN|]. split; [exact T|]. intros n Hn. cbn [lev]. rewrite EE by lia. f_equal.
    apply mk_eq; [cbn; lia|reflexivity].
  - assert (Hk' : k < c) by (destruct Hk as [?|[_ ->]]; lia). rewrite <- (proj1 W) in Hk'.
    assert (P : prelude false L (mk B o o tb e) = (RErr Mismatch, mk B o o (ind_norm L tb) e)).
    { destruct (mk_gap eol eol_ok B o o tb e b k r Ha HB Hr) as (t & G & H1). unfold prelude, bind. rewrite (is_ok_eq _ _ _ G).
      apply (mk_ind_no B L _ _ tb e k r H1 Hr Hk'). }
    assert (P2 : prelude false L (mk B o o (ind_norm L tb) e) = (RErr Mismatch, mk B o o (ind_norm L tb) e)).
    { destruct (mk_gap eol eol_ok B o o (ind_norm L tb) e b k r Ha HB Hr) as (t & G & H1). unfold prelude, bind. rewrite (is_ok_eq _ _ _ G).
      rewrite (mk_ind_no B L _ _ _ e k r H1 Hr) by now rewrite depth_norm. now rewrite norm_idem. }
    destruct (term_null L o (ind_norm L tb) e _ Ha ltac:(rewrite E; exact Hx)) as (tb' & T & ET).
    { rewrite depth_norm by lia. eapply break_ends; eassumption. }
    exists 0, b, tb', o. split; [exact LN|]. split; [eapply agree_trans; [now apply (agree_norm L L)|destruct T as [-> | ->]; [apply agree_refl|now apply agree_norm]]|].
    intros n Hn. destruct n as [|[|n]]; try lia. cbn [lev].
    rewrite inner_blocks; [|apply (at_in _ _ _ _ _ _ Ha)|apply mk_AT|rewrite (at_rem _ _ _ _ _ _ Ha), E; destruct Hx as [-> | ->]; split; discriminate].
    unfold or_else. rewrite (proj1 (no_prelude _ _ _ _ _ _ P n)), (proj2 (no_prelude _ _ _ _ _ _ P2 n)), ET. f_equal. apply mk_eq; [cbn; lia|reflexivity].
Qed.
Lemma content_vempty c o nx e : P_content true c o nx e YNull [] e (Void c nx).
Proof.
  intros L tb b k r W Hb Hr Hs Ha. pose proof (left_none eol k r _ b Hb) as LN. cbn [utf8_encode flat_map app] in Ha. cbn [lev].
  destruct (void_after k r c nx b Hb Hr) as [(-> & -> & ->)|(HB & Hk & x & q & E & Hx)].
  - cbn [utf8_encode flat_map app repeat] in Ha.
    assert (P : prelude true (L + 1) (mk B o o tb e) = (RErr Mismatch, mk B o o tb e)) by (unfold prelude, bind; now rewrite (mk_gap_end B o tb e Ha)).
    destruct (term_null (L + 1) o tb e [] Ha Logic.I ltac:(left; reflexivity)) as (tb' & T & ET).
    exists 0, [], tb', o. split; [exact LN|]. split; [destruct T as [-> | ->]; [apply agree_refl|apply agree_norm; lia]|].
    intros n Hn. destruct n as [|[|n]]; try lia.
    rewrite inner_blocks; [|apply (at_in _ _ _ _ _ _ Ha)|apply mk_AT|rewrite (at_rem _ _ _ _ _ _ Ha); exact Logic.I].
    unfold or_else. rewrite (proj1 (no_prelude _ _ _ _ _ _ P n)), (proj2 (no_prelude _ _ _ _ _ _ P n)), ET. f_equal. apply mk_eq; [cbn; lia|reflexivity].
  - assert (D : k < c \/ c = 0 /\ r = [] /\ k = 0) by (destruct Hk as [?|[-> ->]]; [auto|destruct c; [auto|left; lia]]). destruct D as [Hk'|(-> & -> & ->)].
    + rewrite <- (proj1 W) in Hk'.
      assert (P : forall t0, depth t0 L = depth tb L -> prelude true (L + 1) (mk B o o t0 e) = (RErr Mismatch, mk B o o (ind_norm L t0) e)).
      { intros t0 D0. destruct (mk_gap eol eol_ok B o o t0 e b k r Ha HB Hr) as (t & G & H1). unfold prelude, bind. rewrite G.
        apply (mk_define_no L _ _ t0 e k r H1 Hr). lia. }
      pose proof (P (ind_norm L tb) ltac:(now apply depth_norm)) as P2. rewrite norm_idem in P2. pose proof (Wd_up _ _ _ (Wd_of_norm L c tb (proj1 W))) as W1.
      destruct (term_null (L + 1) o (ind_norm L tb) e _ Ha ltac:(rewrite E; exact Hx)) as (tb' & T & ET).
      { rewrite (proj1 W1). eapply break_ends; try eassumption. rewrite (proj1 W) in Hk'. lia. }
      exists 0, b, tb', o. split; [exact LN|]. split; [eapply agree_trans; [now apply (agree_norm L L)|destruct T as [-> | ->]; [apply agree_refl|apply agree_norm; lia]]|].
      intros n Hn. destruct n as [|[|n]]; try lia.
      rewrite inner_blocks; [|apply (at_in _ _ _ _ _ _ Ha)|apply mk_AT|rewrite (at_rem _ _ _ _ _ _ Ha), E; destruct Hx as [-> | ->]; split; discriminate].
      unfold or_else. rewrite (proj1 (no_prelude _ _ _ _ _ _ (P tb eq_refl) n)), (proj2 (no_prelude _ _ _ _ _ _ P2 n)), ET. f_equal. apply mk_eq; [cbn; lia|reflexivity].
    + cbn [repeat app] in Ha.
      assert (P : forall t0, depth t0 L = 0 -> prelude true (L + 1) (mk B o o t0 e) = (ROk tt, mk B (o + blen b) o (ind_norm L t0 ++ [0]) e)).
      { intros t0 D0. destruct (mk_gap eol eol_ok B o o t0 e b 0 [] Ha HB Hr) as (t & G & H1). cbn [repeat app] in H1. unfold prelude, bind. rewrite G.
        rewrite (ind_define_ok (L + 1) _ (at_in _ _ _ _ _ _ H1)); rewrite ?Nat.add_sub, ?mk_indent, ?D0, ?(at_rem _ _ _ _ _ _ H1); [|lia..].
        cbn [skipn]. rewrite (at_rem _ _ _ _ _ _ H1). cbn [span]. rewrite mk_pos, mk_ind. f_equal. apply mk_eq; lia. }
      assert (En : enters true (L + 1) o (blen b) 0 tb (ind_norm L tb ++ [0]) e).
      { split; [apply P; apply W|]. split; [rewrite P by (rewrite depth_snoc; apply W); now rewrite norm_snoc|]. exact (Wd_snoc L 0 tb 0 (proj1 W)). }
      destruct (end_run true (L + 1) o (blen b) 0 tb _ e _ En Ha ltac:(rewrite E; destruct Hx as [-> | ->]; split; discriminate) (at_app _ _ _ _ Ha)) as (tb' & T & EE).
      exists (blen b), [], tb'. eexists. split; [right; auto|]. split; [eapply agree_trans; [apply agree_snoc|]; eapply agree_le; [|exact T]; lia|].
      intros n Hn. rewrite EE by lia. f_equal. apply mk_eq; [cbn; lia|reflexivity].
Qed.

(** ** Nodes *)
Lemma full_bare m c o nx e y t e' f : content m c o nx e y t e' f -> P_content m c o nx e y t e' f -> P_full m c o nx e (Node (N.of_nat o) [] y) t e' f.
Proof.
  intros H P L tb b k r W Hb Hr Hs Ha. destruct (P L tb b k r W Hb Hr Hs Ha) as (j & b' & tb' & q & H1 & H2 & H3).
  exists j, b', tb'. split; [exact H1|]. split; [exact H2|]. intros n Hn. destruct n as [|n]; [lia|]. rewrite scalar_inner.
  eapply (node_bare B B_consumed); [exact Ha| |apply H3; lia].
  pose proof (content_cstart _ _ _ _ _ _ _ _ _ _ H (tail_start f b k r Hb Hr)) as C. unfold cstart in C. destruct (utf8_encode t ++ _); tauto.
Qed.
Lemma full_props m c o nx e a tg p y t e1 e2 f : props tags nx a tg p -> content m c (o + blen p) nx e y t e1 f -> P_content m c (o + blen p) nx e y t e1 f ->
  named (Node (N.of_nat (o + blen p)) tg y) a e1 e2 -> P_full m c o false e (Node (N.of_nat (o + blen p)) tg y) (p ++ t) e2 f.
Proof.
  intros Hp H P Hn L tb b k r W Hb Hr Hs Ha. rewrite encode_app, <- app_assoc in Ha.
  destruct (P L tb b k r W Hb Hr Hs (at_app _ _ _ _ Ha)) as (j & b' & tb' & q & H1 & H2 & H3).
  exists j, b', tb'. split; [exact H1|]. split; [exact H2|]. rewrite blen_app. intros n Hn'. destruct n as [|n]; [lia|]. rewrite scalar_inner, Nat.add_assoc.
  eapply (node_props tags B B_consumed B_tags B_doc); [exact Hp|exact Ha| |apply H3; lia|exact Hn].
  pose proof (content_cstart _ _ _ _ _ _ _ _ _ _ H (tail_start f b k r Hb Hr)) as C. unfold cstart in C. destruct (utf8_encode t ++ _); tauto.
Qed.

(** ** Items *)
Lemma tb_agree L M tb tb' : L <= M -> tb_ok M tb tb' -> agree L tb tb'.
Proof. intros H [-> | ->]; [apply agree_refl|now apply agree_norm]. Qed.
Lemma items_one c o nx e x t e' f : P_full false (c + 2) o nx e x t e' f -> P_items c o nx e [x] t e' f.
Proof.
  intros P M m acc tb b k r W Hb Hr Hs Ha.
  destruct (P (M + 1) tb b k r (Wd_up _ _ _ W) Hb Hr ltac:(eapply stop_deeper; [|exact Hs]; lia) Ha) as (j & b' & tb1 & H1 & H2 & H3).
  assert (Ha2 : at_ B (o + blen t + j) (utf8_encode b' ++ repeat 32%N k ++ r)) by (eapply left_at; [exact H1|]; now apply at_app in Ha).
  assert (A1 : agree M tb tb1) by (eapply agree_le; [|exact H2]; lia).
  assert (D1 : depth tb1 M = c) by (rewrite (agree_depth M tb tb1 M (le_n _) A1); apply W).
  destruct (seq_done eol eol_ok B M m (acc ++ [x]) _ tb1 e' b' k r ltac:(destruct acc; discriminate) Ha2 (left_brkr eol _ _ _ _ H1) Hr ltac:(rewrite D1; exact Hs)) as (tb2 & T & E).
  exists j, b', tb2. split; [exact H1|]. split; [eapply agree_trans; [exact A1|]; eapply tb_agree; [|exact T]; lia|].
  intros n Hn. cbn [lev] in H3. unfold item_step, bind, or_else. rewrite (H3 n Hn). destruct n as [|n]; [lia|]. apply E.
Qed.
Lemma dash_shown w R : shown (45%N :: w ++ R).
Proof. eexists _, _; split; [reflexivity|unfold visible; simpl; lia]. Qed.
Lemma items_more c o nx e x t e1 f1 b1 nx' w v u e' f : P_full false (c + 2) o nx e x t e1 f1 -> break_after eol (Some c) f1 b1 -> sep_or nx' w ->
  items c (o + blen t + blen b1 + c + 1 + List.length w) nx' e1 v u e' f -> P_items c (o + blen t + blen b1 + c + 1 + List.length w) nx' e1 v u e' f ->
  P_items c o nx e (x :: v) (t ++ b1 ++ indent c ++ lit "-" ++ w ++ u) e' f.
Proof.
  intros P Hb1 Hw HI PI M m acc tb b k r W Hb Hr Hs Ha. assert (Ew := sep_or_encode nx' w Hw).
  rewrite !encode_app, enc_indent, Ew, <- !app_assoc in Ha. change (utf8_encode (lit "-") ++ ?z) with (45%N :: z) in Ha.
  destruct (P (M + 1) tb b1 c (45%N :: w ++ utf8_encode u ++ utf8_encode b ++ repeat 32%N k ++ r) (Wd_up _ _ _ W) Hb1 ltac:(right; apply dash_shown) ltac:(left; lia) Ha) as (j & b' & tb1 & H1 & H2 & H3).
  pose proof (left_len eol _ b1 j b' H1) as LB.
  assert (Ha2 : at_ B (o + blen t + j) (utf8_encode b' ++ repeat 32%N c ++ 45%N :: w ++ utf8_encode u ++ utf8_encode b ++ repeat 32%N k ++ r)) by (eapply left_at; [exact H1|]; now apply at_app in Ha).
  assert (A1 : agree M tb tb1) by (eapply agree_le; [|exact H2]; lia).
  assert (D1 : depth tb1 M = c) by (rewrite (agree_depth M tb tb1 M (le_n _) A1); apply W).
  pose proof (nstart_mark nx' w _ Hw (items_nstart _ _ _ _ _ _ _ _ _ HI (tail_start f b k r Hb Hr))) as HM.
  pose proof (at_app _ _ _ _ (at_cons _ _ _ _ (at_app _ _ _ _ (at_app _ _ _ _ Ha2)))) as Ha3. rewrite repeat_length in Ha3.
  replace (o + blen t + j + blen b' + c + 1 + List.length w) with (o + blen t + blen b1 + c + 1 + List.length w) in Ha3 by lia.
  destruct (PI M m (acc ++ [x]) (ind_norm M tb1) b k r (Wd_of_norm M c tb1 D1) Hb Hr Hs Ha3) as (j2 & b2 & tb2 & H4 & H5 & H6).
  exists j2, b2, tb2. split; [exact H4|]. split; [eapply agree_trans; [exact A1|]; eapply agree_trans; [now apply (agree_norm M M)|exact H5]|].
  rewrite !blen_app, blen_indent, Ew. change (blen (lit "-")) with 1. intros n Hn. cbn [lev] in H3. unfold item_step, bind, or_else. rewrite (H3 n) by lia. destruct n as [|n]; [lia|].
  rewrite (seq_more eol eol_ok B n M m (acc ++ [x]) _ tb1 e1 b' c w _ ltac:(destruct acc; discriminate) Ha2 (brkr_brk eol _ _ (left_brkr eol _ _ _ _ H1) ltac:(discriminate)) (eq_sym D1) HM).
  replace (o + blen t + j + blen b' + c + 1 + List.length w) with (o + blen t + blen b1 + c + 1 + List.length w) by lia.
  rewrite H6 by lia. rewrite <- app_assoc. f_equal. apply mk_eq; lia.
Qed.

Lemma colon_shown q : shown (58%N :: q).
Proof. eexists _, _; split; [reflexivity|unfold visible; simpl; lia]. Qed.
(** ** Entries *)
Lemma key_pos d o h e k t e' : key d o h e k t e' -> 1 <= blen t.
Proof. intros [y t0 e0 f H|a tg p y t0 e1 e2 f _ _ H _]; pose proof (inline_pos _ _ _ _ _ _ _ H); rewrite ?blen_app; lia. Qed.
Lemma entry_pos c o h e k v t e' f : entry c o h e k v t e' f -> 1 <= blen t.
Proof. intros [? ? ? ? ? ? ? ? ? ? ? ? ? H _ _|]; rewrite ?blen_app; [pose proof (key_pos _ _ _ _ _ _ _ H); lia|]. change (blen (lit "?")) with 1. lia. Qed.
Lemma entries_one c o h e k v t e' f : entry c o h e k v t e' f -> P_entry c o h e k v t e' f -> P_entries c o h e [(k, v)] t e' f.
Proof.
  intros HE P M tb b kk r W Hb Hr Hs Ha. destruct (P M tb b kk r W Hb Hr (or_introl Hs) Ha) as (j & b' & tb1 & H1 & H2 & H3).
  assert (Ha2 : at_ B (o + blen t + j) (utf8_encode b' ++ repeat 32%N kk ++ r)) by (eapply left_at; [exact H1|]; now apply at_app in Ha).
  assert (D1 : depth tb1 M = c) by (rewrite (agree_depth M tb tb1 M (le_n _) H2); apply W).
  destruct (map_done eol eol_ok B M _ tb1 e' b' kk r Ha2 (left_brkr eol _ _ _ _ H1) Hr ltac:(rewrite D1; exact Hs)) as (tb2 & T & E).
  exists j, b', tb2. split; [exact H1|]. split; [eapply agree_trans; [exact H2|]; eapply tb_agree; [|exact T]; lia|].
  pose proof (entry_pos _ _ _ _ _ _ _ _ _ HE).
  intros fst m acc n Hn. rewrite (H3 fst m acc n Hn). destruct n as [|n]; [lia|]. apply E. destruct acc; discriminate.
Qed.
Lemma here_shown k r : shown r -> here k r = Some k. Proof. intros (x & q & -> & _). reflexivity. Qed.
Lemma shown_ne r : shown r -> r <> []. Proof. intros (x & q & -> & _). discriminate. Qed.
Lemma entries_more c o h e k v t e1 f1 b1 mm u e' f : entry c o h e k v t e1 f1 -> P_entry c o h e k v t e1 f1 -> break_after eol (Some c) f1 b1 ->
  entries c (o + blen t + blen b1 + c) false e1 mm u e' f -> P_entries c (o + blen t + blen b1 + c) false e1 mm u e' f ->
  P_entries c o h e ((k, v) :: mm) (t ++ b1 ++ indent c ++ u) e' f.
Proof.
  intros HE P Hb1 HI PI M tb b kk r W Hb Hr Hs Ha.
  rewrite !encode_app, enc_indent, <- !app_assoc in Ha.
  destruct (entries_estart _ _ _ _ _ _ _ _ (utf8_encode b ++ repeat 32%N kk ++ r) HI) as (S1 & S2 & S3). apply bstart_shown in S1.
  destruct (P M tb b1 c (utf8_encode u ++ utf8_encode b ++ repeat 32%N kk ++ r) W ltac:(rewrite (here_shown c _ S1); exact Hb1) ltac:(right; exact S1) ltac:(right; split; [reflexivity|exact S2]) Ha) as (j & b' & tb1 & H1 & H2 & H3).
  pose proof (left_len eol _ b1 j b' H1) as LB.
  assert (Ha2 : at_ B (o + blen t + j) (utf8_encode b' ++ repeat 32%N c ++ utf8_encode u ++ utf8_encode b ++ repeat 32%N kk ++ r)) by (eapply left_at; [exact H1|]; now apply at_app in Ha).
  assert (D1 : depth tb1 M = c) by (rewrite (agree_depth M tb tb1 M (le_n _) H2); apply W).
  pose proof (at_app _ _ _ _ (at_app _ _ _ _ Ha2)) as Ha3. rewrite repeat_length in Ha3.
  replace (o + blen t + j + blen b' + c) with (o + blen t + blen b1 + c) in Ha3 by lia.
  destruct (PI M (ind_norm M tb1) b kk r (Wd_of_norm M c tb1 D1) Hb Hr Hs Ha3) as (j2 & b2 & tb2 & H4 & H5 & H6).
  exists j2, b2, tb2. split; [exact H4|]. split; [eapply agree_trans; [exact H2|]; eapply agree_trans; [now apply (agree_norm M M)|exact H5]|].
  rewrite !blen_app, blen_indent. pose proof (entry_pos _ _ _ _ _ _ _ _ _ HE).
  intros fst m acc n Hn. rewrite (H3 fst m acc n) by lia. destruct n as [|n]; [lia|].
  rewrite (map_more eol eol_ok B n M m (acc ++ [(k, v)]) _ tb1 e1 b' c _ ltac:(destruct acc; discriminate) Ha2 (brkr_brk eol _ _ (left_brkr eol _ _ _ _ H1) (shown_ne _ S1)) (eq_sym D1) S1 S3).
  replace (o + blen t + j + blen b' + c) with (o + blen t + blen b1 + c) by lia.
  rewrite H6 by lia. rewrite <- app_assoc. f_equal. apply mk_eq; lia.
Qed.
Lemma key_run c o h e k t e' M tb x q : key (c + 2) o h e k t e' -> Wd M c tb -> at_ B o (utf8_encode t ++ 58%N :: x :: q) -> In x [32; 10; 13]%N ->
  opens (utf8_encode t ++ 58%N :: x :: q) /\
  exists tb', same_w tb tb' /\ forall n, 6 * blen t + 1 <= n -> scalar_flow n (M + 1) false (mk B o o tb e) = (ROk k, mk B (o + blen t) (o + blen t) tb' e').
Proof.
  intros H W Ha Hx. apply Wd_up in W. destruct H as [y t e0 f H|a tg p y t e1 e2 f Hh Hp H Hn].
  - split; [apply starts_opens; eapply inline_starts; [exact H|apply colon_aw]|].
    destruct (scalar_inline _ _ _ _ _ _ _ (M + 1) tb (KColon x q) H W ltac:(lia) Hx Ha) as (j & tb' & Hj & SW & E). cbn [kend] in Hj. subst j.
    exists tb'. split; [exact SW|]. intros n Hn. rewrite E by lia. f_equal. apply mk_eq; lia.
  - rewrite encode_app, <- app_assoc in *. split; [eapply props_opens; eassumption|].
    destruct (inline_run _ _ _ _ _ _ _ H (M + 1) tb (KColon x q) W ltac:(lia) Hx (at_app _ _ _ _ Ha)) as (j & tb' & q' & Hj & SW & E). cbn [kend] in Hj. subst j.
    exists tb'. split; [exact SW|]. rewrite app_length. intros n Hn'. destruct n as [|n]; [lia|].
    change (scalar_flow (S n) (M + 1) false) with (scalar_node (scalar_term n (M + 1) false)). rewrite Nat.add_assoc.
    eapply (node_props tags B B_consumed B_tags B_doc); [exact Hp|exact Ha| |rewrite E by lia; f_equal; apply mk_eq; [lia|reflexivity]|exact Hn].
    pose proof (starts_cstart _ (inline_starts _ _ _ _ _ _ _ _ H (colon_aw (x :: q)))) as C. unfold cstart in C. destruct (utf8_encode t ++ _); tauto.
Qed.
(** the value of an entry, behind the colon *)
Lemma value_run c p nx w e v vt e' f M tb b k r q : sep_or nx w -> full true c (p + 1 + List.length w) nx e v vt e' f -> P_full true c (p + 1 + List.length w) nx e v vt e' f ->
  Wd M c tb -> break_after eol (here k r) f b -> line_start k r -> items_stop c k r -> at_ B p (58%N :: w ++ utf8_encode vt ++ utf8_encode b ++ repeat 32%N k ++ r) ->
  exists j b' tb', left_over r b j b' /\ agree M tb tb' /\ forall fst m acc kn n, 8 * blen vt + 9 <= n ->
    entry_colon fst n M m acc kn (mk B p q tb e)
    = map_loop n M m false (acc ++ [(kn, v)]) (mk B (p + 1 + List.length w + blen vt + j) (p + 1 + List.length w + blen vt + j) tb' e').
Proof.
  intros Hw HF P W Hb Hr Hs Ha.
  destruct (P M tb b k r W Hb Hr Hs (at_app _ _ _ _ (at_cons _ _ _ _ Ha))) as (j & b' & tb' & H1 & H2 & H3). cbn [lev] in H3.
  exists j, b', tb'. split; [exact H1|]. split; [exact H2|]. intros fst m acc kn n Hn.
  pose proof (nstart_mark nx w _ Hw (full_nstart _ _ _ _ _ _ _ _ _ _ HF (tail_start f b k r Hb Hr))) as HM.
  unfold entry_colon. unfold bind at 1. rewrite (colon_ok B p q tb e w _ Ha HM). cbv iota. unfold entry_step.
  unfold bind at 1, forward at 1, modify at 1. change (set_eaten (p_pos (mk B ?a ?b ?c ?d)) (mk B ?a ?b ?c ?d)) with (mk B a a c d).
  unfold bind, or_else. rewrite (H3 n) by lia. reflexivity.
Qed.
Lemma entry_simple c o h e kn kt e1 nx w v vt e' f : key (c + 2) o h e kn kt e1 -> sep_or nx w ->
  full true c (o + blen kt + 1 + List.length w) nx e1 v vt e' f -> P_full true c (o + blen kt + 1 + List.length w) nx e1 v vt e' f ->
  P_entry c o h e kn v (kt ++ lit ":" ++ w ++ vt) e' f.
Proof.
  intros HK Hw HF P M tb b k r W Hb Hr Hs Ha. assert (Ew := sep_or_encode nx w Hw).
  rewrite !encode_app, Ew, <- !app_assoc in Ha. change (utf8_encode (lit ":") ++ ?z) with (58%N :: z) in Ha.
  pose proof (nstart_mark nx w _ Hw (full_nstart _ _ _ _ _ _ _ _ _ _ HF (tail_start f b k r Hb Hr))) as HM.
  destruct (mark_colon _ _ HM) as (x & q & Ex & Hx). pose proof Ha as Ha'. rewrite Ex in Ha'.
  destruct (key_run c o h e kn kt e1 M tb x q HK W Ha' Hx) as (HO & tb1 & SW & EK).
  destruct (value_run c (o + blen kt) nx w e1 v vt e' f M tb1 b k r (o + blen kt) Hw HF P (same_Wd _ _ _ _ SW W) Hb Hr Hs (at_app _ _ _ _ Ha)) as (j & b' & tb' & H1 & H2 & H3).
  exists j, b', tb'. split; [exact H1|]. split; [eapply agree_trans; [apply same_agree; exact SW|exact H2]|].
  rewrite !blen_app, Ew. change (blen (lit ":")) with 1. pose proof (key_pos _ _ _ _ _ _ _ HK).
  intros fst m acc n Hn. unfold entry_go. unfold bind at 1.
  rewrite (opens_complex _ (at_in _ _ _ _ _ _ Ha') (mk_AT _ _ _ _)) by (rewrite (at_rem _ _ _ _ _ _ Ha'); exact HO). cbv iota.
  unfold bind. replace ((if fst then scalar_flow n (M + 1) false else or_else (scalar_flow n (M + 1) false) (err (lit "map key"))) (mk B o o tb e))
    with (ROk kn, mk B (o + blen kt) (o + blen kt) tb1 e1) by (destruct fst; unfold or_else; rewrite EK by lia; reflexivity).
  rewrite H3 by lia. f_equal. apply mk_eq; lia.
Qed.
Lemma entry_explicit c o h e nx w kn kt e1 f1 b1 nx' w' v vt e' f : sep_or nx w -> full true c (o + 1 + List.length w) nx e kn kt e1 f1 -> P_full true c (o + 1 + List.length w) nx e kn kt e1 f1 ->
  break_after eol (Some c) f1 b1 -> sep_or nx' w' ->
  full true c (o + 1 + List.length w + blen kt + blen b1 + c + 1 + List.length w') nx' e1 v vt e' f ->
  P_full true c (o + 1 + List.length w + blen kt + blen b1 + c + 1 + List.length w') nx' e1 v vt e' f ->
  P_entry c o h e kn v (lit "?" ++ w ++ kt ++ b1 ++ indent c ++ lit ":" ++ w' ++ vt) e' f.
Proof.
  intros Hw HK PK Hb1 Hw' HF P M tb b k r W Hb Hr Hs Ha. assert (Ew := sep_or_encode nx w Hw). assert (Ew' := sep_or_encode nx' w' Hw').
  rewrite !encode_app, enc_indent, Ew, Ew', <- !app_assoc in Ha. change (utf8_encode (lit ":") ++ ?z) with (58%N :: z) in Ha. change (utf8_encode (lit "?") ++ ?z) with (63%N :: z) in Ha.
  pose proof (at_app _ _ _ _ (at_cons _ _ _ _ Ha)) as Ha1.
  pose proof (nstart_mark nx w _ Hw (full_nstart _ _ _ _ _ _ _ _ _ _ HK (tail_start f1 b1 c (58%N :: w' ++ utf8_encode vt ++ utf8_encode b ++ repeat 32%N k ++ r) Hb1 ltac:(right; apply colon_shown)))) as HM.
  destruct (PK M tb b1 c (58%N :: w' ++ utf8_encode vt ++ utf8_encode b ++ repeat 32%N k ++ r) W Hb1 ltac:(right; apply colon_shown) ltac:(right; split; [reflexivity|intros q0 E0; discriminate E0]) Ha1) as (j & b' & tb1 & H1 & H2 & H3). cbn [lev] in H3.
  pose proof (left_len eol _ b1 j b' H1) as LB.
  assert (Ha2 : at_ B (o + 1 + List.length w + blen kt + j) (utf8_encode b' ++ repeat 32%N c ++ 58%N :: w' ++ utf8_encode vt ++ utf8_encode b ++ repeat 32%N k ++ r)) by (eapply left_at; [exact H1|]; now apply at_app in Ha1).
  set (p1 := o + 1 + List.length w + blen kt + j) in *.
  destruct (mk_gap eol eol_ok B p1 p1 tb1 e1 b' c _ Ha2 (brkr_brk eol _ _ (left_brkr eol _ _ _ _ H1) ltac:(discriminate)) ltac:(right; apply colon_shown)) as (g & EG & Ha3).
  assert (D1 : depth tb1 M = c) by (rewrite (agree_depth M tb tb1 M (le_n _) H2); apply W).
  pose proof (mk_ind_ok B M _ p1 tb1 e1 c _ Ha3 ltac:(right; apply colon_shown) D1) as EI.
  pose proof (at_app _ _ _ _ Ha3) as Ha4. rewrite repeat_length in Ha4.
  assert (EP : p1 + blen b' + c + 1 + List.length w' = o + 1 + List.length w + blen kt + blen b1 + c + 1 + List.length w') by (unfold p1; lia).
  rewrite <- EP in HF, P.
  destruct (value_run c (p1 + blen b' + c) nx' w' e1 v vt e' f M (ind_norm M tb1) b k r p1 Hw' HF P (Wd_of_norm M c tb1 D1) Hb Hr Hs Ha4) as (j2 & b2 & tb' & H4 & H5 & H6).
  exists j2, b2, tb'. split; [exact H4|]. split; [eapply agree_trans; [exact H2|]; eapply agree_trans; [now apply (agree_norm M M)|exact H5]|].
  rewrite !blen_app, Ew, Ew', blen_indent. change (blen (lit ":")) with 1. change (blen (lit "?")) with 1.
  intros fst m acc n Hn. unfold entry_go. unfold bind at 1.
  rewrite (question_ok B o tb e w _ Ha HM). cbv iota. rewrite bind_assoc'.
  unfold bind at 1, forward at 1, modify at 1. change (set_eaten (p_pos (mk B ?a ?b ?c ?d)) (mk B ?a ?b ?c ?d)) with (mk B a a c d).
  rewrite bind_assoc'. unfold bind at 1, or_else. rewrite (H3 n) by lia. rewrite bind_assoc'. fold p1.
  unfold bind at 1. rewrite (is_ok_eq _ _ _ EG). cbv iota. rewrite bind_assoc'. unfold bind at 1. rewrite EI. unfold bind, ret.
  rewrite H6 by lia. f_equal. apply mk_eq; lia.
Qed.

Theorem block_run :
  (forall c o h e y t e' f, body c o h e y t e' f -> P_body c o h e y t e' f) /\
  (forall m c o nx e x t e' f, full m c o nx e x t e' f -> P_full m c o nx e x t e' f) /\
  (forall m c o nx e y t e' f, content m c o nx e y t e' f -> P_content m c o nx e y t e' f) /\
  (forall c o nx e v t e' f, items c o nx e v t e' f -> P_items c o nx e v t e' f) /\
  (forall c o h e mm t e' f, entries c o h e mm t e' f -> P_entries c o h e mm t e' f) /\
  (forall c o h e k v t e' f, entry c o h e k v t e' f -> P_entry c o h e k v t e' f).
Proof.
  apply (gram_mut cyclic tags eol (fun c o h e y t e' f _ => P_body c o h e y t e' f) (fun m c o nx e x t e' f _ => P_full m c o nx e x t e' f)
    (fun m c o nx e y t e' f _ => P_content m c o nx e y t e' f) (fun c o nx e v t e' f _ => P_items c o nx e v t e' f)
    (fun c o h e mm t e' f _ => P_entries c o h e mm t e' f) (fun c o h e k v t e' f _ => P_entry c o h e k v t e' f)); intros.
  - now apply body_inline.
  - eapply body_seq; eassumption.
  - now apply body_map.
  - now apply full_bare.
  - eapply full_props; eassumption.
  - now apply content_here.
  - now apply content_next.
  - now apply content_empty.
  - now apply content_lines.
  - now apply content_value.
  - eapply content_deeper; eassumption.
  - eapply content_flush; eassumption.
  - apply content_vempty.
  - now apply content_vlines.
  - now apply items_one.
  - eapply items_more; eassumption.
  - now apply entries_one.
  - eapply entries_more; eassumption.
  - eapply entry_simple; eassumption.
  - eapply entry_explicit; eassumption.
Qed.
End Block.
