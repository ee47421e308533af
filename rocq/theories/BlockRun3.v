(** * Block collections: the loader reads them as they are written *)
From Verif Require Export BlockRun2.
Open Scope nat_scope.

Combined Scheme block_mut from node_at_mut, item_at_mut, items_mut, value_at_mut, entries_mut.

Notation el t := (List.length (utf8_encode t)).
Lemma enc_indent c : utf8_encode (indent c) = repeat 32%N c.
Proof. unfold indent. induction c; [reflexivity|]. cbn [repeat]. rewrite encode_cons_ascii by lia. now rewrite IHc. Qed.
Lemma enc_line g c t : utf8_encode (10%N :: g ++ indent c ++ t) = (10%N :: utf8_encode g ++ repeat 32%N c) ++ utf8_encode t.
Proof. rewrite encode_cons_ascii by lia. rewrite !encode_app, enc_indent. cbn [app]. now rewrite <- app_assoc. Qed.
Lemma enc_dash t : utf8_encode (lit "- " ++ t) = 45%N :: 32%N :: utf8_encode t.
Proof. rewrite encode_app. reflexivity. Qed.
Lemma enc_colon t : utf8_encode (lit ":" ++ t) = 58%N :: utf8_encode t.
Proof. rewrite encode_app. reflexivity. Qed.

Definition strip_n (n : node) : node := Node 0 [] (strip (n_yaml n)).
Definition strip_p (p : node * node) : node * node := (strip_n (fst p), strip_n (snd p)).
Lemma strip_seq v : strip (YSeq v) = YSeq (List.map strip_n v).
Proof. cbn [strip]. f_equal. apply map_ext. intros [p t y]. reflexivity. Qed.
Lemma strip_map m : strip (YMap m) = YMap (List.map strip_p m).
Proof. cbn [strip]. f_equal. apply map_ext. intros [[p t y] [p' t' y']]. reflexivity. Qed.

(** how texts begin *)
Lemma good_shown l : good l -> shown l /\ (match l with x :: _ => ~ In x [38; 33; 124; 62]%N | [] => True end) /\ (match l with x :: _ => is_ws x = false | [] => True end).
Proof.
  intros (Hh & _). apply hd_ok_cons in Hh as (b & r & -> & Hb & _).
  assert (V : visible b) by (intros K; apply Hb; simpl in K |- *; tauto).
  split; [exists b, r; auto|]. split; [intros K; apply Hb; simpl in K |- *; tauto|]. now apply visible_ws.
Qed.
Lemma value_head c y t : value_at c y t -> exists x q, utf8_encode t = x :: q /\ (x = 32%N \/ x = 10%N).
Proof.
  intros H. inversion H; subst; [change (lit " " ++ t0) with (32%N :: t0)| |]; (rewrite encode_cons_ascii by lia; eauto).
Qed.
Lemma key_good y t c y' vt q : leaf y t -> value_at c y' vt -> good (utf8_encode (t ++ lit ":" ++ vt) ++ q).
Proof.
  intros H Hv. rewrite encode_app, enc_colon, <- app_assoc. eapply leaf_good; [exact H|]. exists 58%N. eexists. split; [reflexivity|auto].
Qed.
Lemma key_good' y t c y' vt z q : leaf y t -> value_at c y' vt -> good (utf8_encode (t ++ lit ":" ++ vt ++ z) ++ q).
Proof.
  intros H Hv. rewrite encode_app, enc_colon, <- app_assoc. eapply leaf_good; [exact H|]. exists 58%N. eexists. split; [reflexivity|auto].
Qed.
Lemma entries_good c m t q : entries c m t -> good (utf8_encode t ++ q).
Proof. intros H. destruct H; [eapply key_good|eapply key_good']; eassumption. Qed.
Definition starts_node (l : bytes) : Prop :=
  shown l /\ (match l with x :: _ => ~ In x [38; 33; 124; 62]%N | [] => True end) /\ starts_with (lit "---") l = false /\ starts_with (lit "...") l = false
  /\ (match l with x :: _ => x <> 37%N | [] => True end).
Lemma good_starts l : good l -> starts_node l.
Proof. intros H. destruct (good_shown l H) as (H1 & H2 & _). destruct H as (_ & M1 & M2 & b & q & -> & Hb). repeat split; auto. Qed.
Lemma node_starts c y t rest : node_at c y t -> cut rest -> starts_node (utf8_encode t ++ rest).
Proof.
  intros H Hr. destruct H as [c y t Hl|c v t Hi|c m t He _].
  - apply good_starts. eapply leaf_good; eassumption.
  - rewrite enc_dash. cbn [app]. repeat split; try reflexivity; [|simpl; intuition discriminate|discriminate].
    eexists _, _. split; [reflexivity|]. intros K. simpl in K. intuition discriminate.
  - apply good_starts. eapply entries_good; eassumption.
Qed.
Lemma visible_no_ws l : shown l -> match l with x :: _ => is_ws x = false | [] => True end.
Proof. intros (c & q & -> & H). now apply visible_ws. Qed.
Lemma item_starts c y t rest : item_at c y t -> cut rest ->
  (match utf8_encode t ++ rest with x :: _ => is_ws x = false /\ ~ In x [38; 33; 124; 62]%N | [] => True end).
Proof.
  intros H Hr. destruct H as [c y t Hn|c y t g Hg Hn].
  - destruct (node_starts c y t rest Hn Hr) as (H1 & H2 & _). apply visible_no_ws in H1. destruct (utf8_encode t ++ rest); auto.
  - rewrite enc_line. cbn [app]. split; [reflexivity|]. simpl. intuition discriminate.
Qed.
Lemma items_starts c v t rest : items c v t -> cut rest ->
  (match utf8_encode t ++ rest with x :: _ => is_ws x = false /\ ~ In x [38; 33; 124; 62]%N | [] => True end).
Proof.
  intros H Hr. destruct H as [c x t Hi|c x t g v u Hi Hg Hu].
  - eapply item_starts; eassumption.
  - rewrite encode_app, <- app_assoc. eapply item_starts; [exact Hi|]. rewrite encode_cons_ascii by lia. exists 10%N. eexists. split; [reflexivity|auto].
Qed.

(** ** The statements *)
Definition is_seq (y : yaml) : bool := match y with YSeq _ => true | _ => false end.
Definition block (n L : nat) (map : bool) : M yaml := or_else (or_else (Loader.seq n L map) (map_ n L map false)) (scalar_term n L false).
Definition P_node (c : nat) (y : yaml) (t : str) : Prop :=
  forall map L s X tb rest, in_doc s -> AT s -> enters map L X c s tb -> rem s = X ++ utf8_encode t ++ rest -> follow (is_seq y) c rest ->
  exists y' s', (forall n, 8 * el t + 8 <= n -> block n L map s = (ROk y', s')) /\ strip y' = strip y
    /\ moves L (List.length X + el t) (set_indent tb s) s'.
Definition P_item (c : nat) (y : yaml) (t : str) : Prop :=
  forall L s rest, in_doc s -> AT s -> Wd L c (p_indent s) -> rem s = utf8_encode t ++ rest -> follow (is_seq y) c rest ->
  exists x s', (forall n, 8 * el t + 9 <= n -> scalar n L false false s = (ROk x, s')) /\ strip (n_yaml x) = strip y
    /\ moves L (el t) s s' /\ AT s'.
Definition P_items (c : nat) (v : list node) (t : str) : Prop :=
  forall map L acc s rest, in_doc s -> AT s -> Wd L c (p_indent s) -> rem s = utf8_encode t ++ rest -> follow true c rest ->
  exists v' s', (forall n, 8 * el t + 9 <= n -> item_step n L map acc s = (ROk (YSeq (acc ++ v')), s')) /\ List.map strip_n v' = List.map strip_n v
    /\ moves L (el t) s s'.
Definition P_value (c : nat) (y : yaml) (t : str) : Prop :=
  forall L s rest, in_doc s -> Wd L c (p_indent s) -> rem s = utf8_encode t ++ rest -> follow true c rest ->
  at_bound (rem s) = true /\
  exists x s', (forall n, 8 * el t + 9 <= n -> scalar n (L + 1) true false (at_pos (p_pos s + ws_len (rem s)) s) = (ROk x, s')) /\ strip (n_yaml x) = strip y
    /\ moves L (el t) s s' /\ AT s'.
Definition same_keys (m' m : list (node * node)) : Prop := Forall2 (fun a b => n_yaml (fst a) = n_yaml (fst b)) m' m.
Definition P_entries (c : nat) (m : list (node * node)) (t : str) : Prop :=
  forall map L s rest, in_doc s -> AT s -> Wd L c (p_indent s) -> rem s = utf8_encode t ++ rest -> follow false c rest ->
  exists kn s3 s4, (forall n, 2 <= n -> scalar_flow n (L + 1) false s = (ROk kn, s3)) /\ colon s3 = (ROk false, s4) /\
  forall acc, exists m' s5, (forall n, 8 * el t <= n -> entry_step n L map acc kn s4 = build_map (acc ++ m') s5)
    /\ List.map strip_p m' = List.map strip_p m /\ same_keys m' m /\ moves L (el t) s s5.

(** ** Maps of distinct keys *)
Lemma extend_distinct hk l : Forall (fun kv => readable (n_yaml (fst kv))) l -> forall m, Forall (fun kv => readable (n_yaml (fst kv))) m ->
  distinct (m ++ l) -> map_extend hk m l = Some (m ++ l).
Proof.
  induction 1 as [|[k v] l Rk H IH]; intros m Hm D; [now rewrite app_nil_r|]. cbn [map_extend fst snd] in *.
  rewrite insert_fresh; [|exact Rk|].
  - change ((k, v) :: l) with ([(k, v)] ++ l) in *. rewrite app_assoc in *. apply IH; [|exact D].
    apply Forall_app. split; [exact Hm|]. constructor; [auto|constructor].
  - intros [k1 v1] Hin. rewrite Forall_forall in Hm. split; [apply (Hm _ Hin)|]. intros S.
    apply in_split in Hin as (m1 & m2 & ->). rewrite <- app_assoc in D. cbn [app] in D.
    assert (G : forall (m1 : list (node * node)) x r, distinct (m1 ++ x :: r) ->
       Forall (fun b => ~ same (n_yaml (fst x)) (n_yaml (fst b))) r).
    { clear. induction m1 as [|a m1 IH]; cbn [app]; intros x r F; inversion F; subst; [assumption|]. now apply IH. }
    apply G in D. rewrite Forall_forall in D. apply (D (k, v)); [apply in_or_app; right; now left|]. cbn [fst]. now apply same_sym.
Qed.
Lemma keys_distinct m' m : same_keys m' m -> distinct m -> distinct m'.
Proof.
  unfold distinct. induction 1 as [|a b m' m Sa F IH]; intros D; [constructor|]. inversion D as [|? ? D1 D2]; subst. constructor; [|auto].
  clear - Sa F D1. induction F as [|c e m' m Sc F IH]; [constructor|]. inversion D1; subst. constructor; [|auto]. now rewrite Sa, Sc.
Qed.
Lemma entries_readable c m t : entries c m t -> Forall (fun kv => readable (n_yaml (fst kv))) m.
Proof. induction 1; constructor; auto. Qed.
Lemma keys_readable m' m : same_keys m' m -> Forall (fun kv => readable (n_yaml (fst kv))) m -> Forall (fun kv => readable (n_yaml (fst kv))) m'.
Proof. induction 1 as [|a b m' m Sa F IH]; intros H; inversion H; subst; constructor; [now rewrite Sa|auto]. Qed.

(** ** The induction *)
Lemma moves_norm L k M s s' : L <= M -> moves L k (set_indent (ind_norm M (p_indent s)) s) s' -> moves L k s s'.
Proof.
  intros HM (tb & E & -> & H). exists tb, E. split; [apply st_ext; reflexivity|]. eapply agree_trans; [|exact H]. now apply agree_norm.
Qed.
Lemma moves_indent L k tb s s' : agree L (p_indent s) tb -> moves L k (set_indent tb s) s' -> moves L k s s'.
Proof.
  intros HM (tb' & E & -> & H). exists tb', E. split; [apply st_ext; reflexivity|]. eapply agree_trans; eassumption.
Qed.
Lemma moves_at L k a s s' tb : agree L (p_indent s) tb -> moves L k (at_pos (p_pos s + a) (set_indent tb s)) s' -> moves L (a + k) s s'.
Proof.
  intros HM (tb' & E & -> & H). exists tb', E. split; [apply st_ext; try reflexivity; cbn; lia|]. eapply agree_trans; eassumption.
Qed.
Lemma at_rem s tb X l : in_doc s -> rem s = X ++ l -> in_doc (at_pos (p_pos s + List.length X) (set_indent tb s)) /\ rem (at_pos (p_pos s + List.length X) (set_indent tb s)) = l.
Proof.
  intros H R. assert (List.length (rem s) = List.length X + List.length l) by now rewrite R, app_length.
  unfold in_doc, rem in *. rewrite skipn_length in *. split; [cbn; lia|]. cbn [at_pos p_pos set_pos p_doc set_indent set_eaten].
  unfold at_pos. cbn [p_pos set_pos p_doc set_indent set_eaten]. rewrite <- skipn_add, R. apply skipn_app_len.
Qed.

Lemma node_leaf c y t : leaf y t -> P_node c y t.
Proof.
  intros Hl map L s X tb rest H A0 En R F. pose proof (leaf_good y t rest Hl (follow_cut _ _ _ F)) as G.
  destruct (at_rem s tb X _ H R) as [H1 R1]. set (s1 := at_pos _ _) in *.
  pose proof En as (_ & _ & W & _).
  destruct (leaf_reads (L + 1) s1 y t rest Hl H1 ltac:(reflexivity) R1) as (s2 & Rd & Af).
  { change (p_indent s1) with tb. destruct (Wd_up L c tb W) as [-> _]. eapply follow_leaf; [|exact F]. lia. }
  destruct (after_props (L + 1) (el t) s1 s2 H1 ltac:(rewrite R1, app_length; lia) Af) as (H2 & R2 & P2).
  rewrite R1, skipn_app_len in R2.
  assert (EF : forall n, 2 <= n -> scalar_flow n (L + 1) false s1 = (ROk (Node (indicator_of s1) [] y), set_eaten (p_pos s2) s2)).
  { intros n Hn. apply (scalar_flow_exec 1); [exact H1|reflexivity| |exact Rd|exact Hn]. rewrite R1. destruct (good_shown _ G) as (_ & G2 & _).
    destruct (utf8_encode t ++ rest); [exact I|]. split; intros ->; apply G2; simpl; auto. }
  set (s3 := set_eaten (p_pos s2) s2) in *.
  assert (EC : colon s3 = (ROk true, s3)).
  { apply no_colon_exec; [exact H2|reflexivity|]. change (rem s3) with (rem s2). rewrite R2. destruct (F) as (g & k & r & B & _). apply brk_cons in B as (q & ->). intros r' [=]. }
  exists y, s3. split; [|split; [reflexivity|]].
  - intros n Hn. destruct n as [|[|n]]; [lia|lia|]. unfold block, or_else.
    rewrite (seq_no n L map s X c tb _ H A0 En R (proj1 G)).
    rewrite (map_first n L map s X c tb _ _ _ _ _ H A0 En R (proj1 G) (EF n ltac:(lia)) EC). reflexivity.
  - apply (moves_at L (el t) (List.length X) (set_indent tb s)) with (tb := tb); [apply agree_refl|].
    change (at_pos (p_pos (set_indent tb s) + List.length X) (set_indent tb (set_indent tb s))) with s1.
    apply moves_eaten. eapply after_moves; [|exact Af]. lia.
Qed.
Lemma node_seq c v t : items c v t -> P_items c v t -> P_node c (YSeq v) (lit "- " ++ t).
Proof.
  intros Hi IH map L s X tb rest H A0 En R F. rewrite enc_dash in R. cbn [app] in R.
  set (X2 := X ++ [45; 32]%N). assert (R' : rem s = X2 ++ utf8_encode t ++ rest) by (unfold X2; now rewrite R, <- app_assoc).
  destruct (at_rem s tb X2 _ H R') as [H1 R1]. set (s1 := at_pos _ _) in *.
  pose proof En as (_ & _ & W & _).
  destruct (IH map L [] s1 rest H1 ltac:(reflexivity) W R1 F) as (v' & s' & E & Hs & Hm).
  exists (YSeq v'), s'. split; [|split].
  - intros n Hn. destruct n as [|[|n]]; [lia|lia|]. unfold block, or_else.
    rewrite (seq_first n L map s X c tb _ H A0 En R).
    + replace (at_pos (p_pos s + (List.length X + 2)) (set_indent tb s)) with s1.
      * rewrite (E n); [reflexivity|]. rewrite enc_dash in Hn. cbn [List.length] in Hn. lia.
      * unfold s1, X2. now rewrite app_length.
    + pose proof (items_starts c v t rest Hi (follow_cut _ _ _ F)) as K. destruct (utf8_encode t ++ rest); [exact I|apply K].
  - rewrite !strip_seq. now rewrite Hs.
  - rewrite enc_dash. cbn [List.length]. replace (List.length X + S (S (el t))) with (List.length X2 + el t) by (unfold X2; rewrite app_length; cbn; lia).
    apply (moves_at L (el t) (List.length X2) (set_indent tb s)) with (tb := tb); [apply agree_refl|]. exact Hm.
Qed.
Lemma node_map c m t : entries c m t -> P_entries c m t -> distinct m -> P_node c (YMap m) t.
Proof.
  intros He IH Hd map L s X tb rest H A0 En R F.
  destruct (at_rem s tb X _ H R) as [H1 R1]. set (s1 := at_pos _ _) in *.
  pose proof En as (_ & _ & W & _). pose proof (entries_good c m t rest He) as G.
  destruct (IH map L s1 rest H1 ltac:(reflexivity) W R1 F) as (kn & s3 & s4 & E1 & E2 & K). destruct (K []) as (m' & s5 & E3 & Hs & Hk & Hm).
  exists (YMap m'), s5. split; [|split].
  - intros n Hn. destruct n as [|[|n]]; [lia|lia|]. unfold block, or_else.
    rewrite (seq_no n L map s X c tb _ H A0 En R (proj1 G)).
    rewrite (map_first n L map s X c tb _ _ _ _ _ H A0 En R (proj1 G) (E1 n ltac:(lia)) E2).
    rewrite (E3 n ltac:(lia)). cbn [app]. unfold build_map, map_collect.
    rewrite extend_distinct; [reflexivity| |constructor|].
    + eapply keys_readable; [exact Hk|]. eapply entries_readable; eassumption.
    + cbn [app]. eapply keys_distinct; eassumption.
  - rewrite !strip_map. now rewrite Hs.
  - apply (moves_at L (el t) (List.length X) (set_indent tb s)) with (tb := tb); [apply agree_refl|]. exact Hm.
Qed.
(** a node through [scalar] *)
Lemma node_scalar c y t map L s X tb rest : P_node c y t -> in_doc s -> AT s -> enters map L X c s tb -> rem s = X ++ utf8_encode t ++ rest ->
  follow (is_seq y) c rest -> (match rem s with x :: _ => ~ In x [38; 33; 124; 62]%N | [] => True end) ->
  exists x s', (forall n, 8 * el t + 9 <= n -> scalar n L map false s = (ROk x, s')) /\ strip (n_yaml x) = strip y
    /\ moves L (List.length X + el t) (set_indent tb s) s' /\ AT s'.
Proof.
  intros P H A0 En R F Hh. destruct (P map L s X tb rest H A0 En R F) as (y' & s' & E & Hs & Hm).
  exists (Node (indicator_of s) [] y'), (set_eaten (p_pos s') s'). split; [|split; [exact Hs|split; [now apply moves_eaten|reflexivity]]].
  intros n Hn. destruct n as [|n]; [lia|]. rewrite (scalar_weak n L map false s H A0 Hh). unfold block in E. rewrite (E n) by lia. reflexivity.
Qed.
Lemma item_here c y t : node_at c y t -> P_node c y t -> P_item c y t.
Proof.
  intros Hn P L s rest H A0 W R F. destruct (node_starts c y t rest Hn (follow_cut _ _ _ F)) as (S1 & S2 & _).
  rewrite <- R in S1, S2.
  destruct (node_scalar c y t false L s [] (p_indent s) rest P H A0 (enters_here L c s H S1 W) R F S2) as (x & s' & E & Hs & Hm & A1).
  exists x, s'. split; [exact E|]. split; [exact Hs|]. split; [|exact A1]. now rewrite set_indent_id in Hm.
Qed.
Lemma item_next c y t g : filler g -> node_at c y t -> P_node c y t -> P_item c y (10%N :: g ++ indent c ++ t).
Proof.
  intros Hg Hn P L s rest H A0 W R F. destruct (node_starts c y t rest Hn (follow_cut _ _ _ F)) as (S1 & _).
  rewrite enc_line, <- app_assoc in R. destruct W as [W1 W2].
  assert (R' : rem s = 10%N :: utf8_encode g ++ repeat 32%N c ++ utf8_encode t ++ rest) by (rewrite R; cbn [app]; now rewrite <- app_assoc).
  pose proof (enters_next L c s g _ H Hg S1 R' W1) as En.
  destruct (node_scalar c y t false L s _ _ rest P H A0 En R F) as (x & s' & E & Hs & Hm & A1).
  { rewrite R'. simpl. intuition discriminate. }
  exists x, s'. split; [|split; [exact Hs|split; [|exact A1]]].
  - intros n Hn'. apply E. rewrite enc_line, app_length in Hn'. lia.
  - rewrite enc_line, app_length. now apply (moves_norm L _ L).
Qed.
Lemma items_one c x t : item_at (c + 2) (n_yaml x) t -> P_item (c + 2) (n_yaml x) t -> P_items c [x] t.
Proof.
  intros Hi P map L acc s rest H A0 W R F.
  destruct (P (L + 1) s rest H A0 (Wd_up L c _ W) R) as (x' & s1 & E & Hs & Hm & A1).
  { eapply follow_deeper; [|exact F]. lia. }
  destruct (moves_rem (L + 1) (el t) (utf8_encode t) rest s s1 H R eq_refl Hm) as [H1 R1].
  assert (D1 : depth (p_indent s1) L = c) by (rewrite (moves_depth (L + 1) _ s s1 L ltac:(lia) Hm); apply W).
  destruct (seq_done L map (acc ++ [x']) s1 ltac:(destruct acc; discriminate) H1 A1 ltac:(rewrite R1, D1; exact F)) as (s2 & E2 & M2 & _).
  exists [x'], s2. split; [|split].
  - intros n Hn. unfold item_step. unfold bind, or_else. rewrite (E n Hn). destruct n as [|n]; [lia|]. apply E2.
  - cbn. unfold strip_n at 1. now rewrite Hs.
  - replace (el t) with (el t + 0) by lia. eapply moves_trans; [|exact M2]. eapply moves_le; [|exact Hm]. lia.
Qed.
Lemma items_cons c x t g v u : item_at (c + 2) (n_yaml x) t -> P_item (c + 2) (n_yaml x) t -> filler g -> items c v u -> P_items c v u ->
  P_items c (x :: v) (t ++ 10%N :: g ++ indent c ++ lit "- " ++ u).
Proof.
  intros Hi P Hg Hu PI map L acc s rest H A0 W R F.
  rewrite encode_app, enc_line, enc_dash, <- app_assoc in R.
  set (rest1 := ((10%N :: utf8_encode g ++ repeat 32%N c) ++ 45%N :: 32%N :: utf8_encode u) ++ rest) in *.
  assert (B : brk rest1 g c (45%N :: 32%N :: utf8_encode u ++ rest)).
  { split; [exact Hg|]. split; [unfold rest1; cbn [app]; rewrite <- !app_assoc; reflexivity|]. right.
    eexists _, _. split; [reflexivity|]. intros K. simpl in K. intuition discriminate. }
  destruct (P (L + 1) s rest1 H A0 (Wd_up L c _ W) R) as (x' & s1 & E & Hs & Hm & A1).
  { exists g, c. eexists. split; [exact B|]. left. split; [lia|discriminate]. }
  destruct (moves_rem (L + 1) (el t) (utf8_encode t) rest1 s s1 H R eq_refl Hm) as [H1 R1].
  assert (D1 : depth (p_indent s1) L = c) by (rewrite (moves_depth (L + 1) _ s s1 L ltac:(lia) Hm); apply W).
  pose proof (fun n => seq_more n L map (acc ++ [x']) s1 g (utf8_encode u ++ rest) ltac:(destruct acc; discriminate) H1 A1 ltac:(rewrite R1, D1; exact B)
    ltac:(pose proof (items_starts c v u rest Hu (follow_cut _ _ _ F)) as K; destruct (utf8_encode u ++ rest); [exact I|apply K])) as E2.
  rewrite D1 in E2.
  set (X := (10%N :: utf8_encode g ++ repeat 32%N c) ++ [45; 32]%N).
  assert (LX : List.length X = S (el g) + c + 2) by (unfold X; rewrite !app_length; cbn [List.length]; rewrite app_length, repeat_length; lia).
  rewrite <- LX in E2.
  assert (R1' : rem s1 = X ++ utf8_encode u ++ rest) by (rewrite R1; unfold rest1, X; rewrite <- !app_assoc; reflexivity).
  destruct (at_rem s1 (ind_norm L (p_indent s1)) X _ H1 R1') as [H2 R2]. set (s2 := at_pos _ _) in *.
  destruct (PI map L (acc ++ [x']) s2 rest H2 ltac:(reflexivity) (Wd_of_norm L c _ D1) R2 F) as (v' & s3 & E3 & Hv & M3).
  assert (EL : el (t ++ 10%N :: g ++ indent c ++ lit "- " ++ u) = el t + (List.length X + el u)).
  { rewrite encode_app, enc_line, enc_dash, LX, !app_length. cbn [List.length]. rewrite app_length, repeat_length. lia. }
  exists (x' :: v'), s3. split; [|split].
  - intros n Hn. rewrite EL in Hn. unfold item_step. unfold bind, or_else. rewrite (E n) by lia. destruct n as [|n]; [lia|].
    rewrite E2. rewrite (E3 n) by lia. now rewrite <- app_assoc.
  - cbn [List.map]. rewrite Hv. unfold strip_n at 1. now rewrite Hs.
  - rewrite EL. eapply moves_trans; [eapply moves_le; [|exact Hm]; lia|]. apply (moves_at L (el u) (List.length X) s1) with (tb := ind_norm L (p_indent s1)).
    + now apply agree_norm.
    + exact M3.
Qed.
Lemma at_pos_same s p : at_pos p s = set_pos p (set_eaten p s). Proof. reflexivity. Qed.
Lemma value_here c y t : leaf y t -> P_value c y (lit " " ++ t).
Proof.
  intros Hl L s rest H W R F. change (lit " " ++ t) with (32%N :: t) in *. rewrite encode_cons_ascii in * by lia. cbn [app List.length] in *.
  rewrite R. split; [reflexivity|]. pose proof (leaf_good y t rest Hl (follow_cut _ _ _ F)) as G. destruct (good_shown _ G) as (_ & _ & G3).
  unfold ws_len. rewrite span_pos by reflexivity. rewrite (span_zero is_ws) by exact G3.
  destruct (at_rem s (p_indent s) [32%N] _ H R) as [H1 R1]. rewrite set_indent_id in H1, R1. cbn [List.length] in H1, R1. set (s1 := at_pos (p_pos s + 1) s) in *.
  destruct (leaf_reads (L + 1) s1 y t rest Hl H1 ltac:(reflexivity) R1) as (s2 & Rd & Af).
  { change (p_indent s1) with (p_indent s). destruct (Wd_up L c _ W) as [-> _]. eapply follow_leaf; [|exact F]. lia. }
  exists (Node (indicator_of s1) [] y), (set_eaten (p_pos s2) s2). split; [|split; [reflexivity|split; [|reflexivity]]].
  - intros n Hn. apply (scalar_leaf_true 1); [exact H1|reflexivity|rewrite R1; apply G|exact Rd|lia].
  - apply moves_eaten. apply (moves_at L (el t) 1 s) with (tb := p_indent s); [apply agree_refl|].
    rewrite set_indent_id. fold s1. eapply after_moves; [|exact Af]. lia.
Qed.
Lemma value_node c c' y t g : c <= c' -> filler g -> P_node c' y t -> (forall rest, cut rest -> starts_node (utf8_encode t ++ rest)) ->
  (forall rest, follow true c rest -> follow (is_seq y) c' rest) -> P_value c y (10%N :: g ++ indent c' ++ t).
Proof.
  intros Hc Hg P Hst Hfw L s rest H W R F. rewrite enc_line, <- app_assoc in R.
  assert (R' : rem s = 10%N :: utf8_encode g ++ repeat 32%N c' ++ utf8_encode t ++ rest) by (rewrite R; cbn [app]; now rewrite <- app_assoc).
  assert (W0 : ws_len (rem s) = 0) by now rewrite R'. rewrite W0. split; [now rewrite R'|].
  set (s1 := at_pos (p_pos s + 0) s).
  assert (P1 : p_pos s1 = p_pos s) by apply Nat.add_0_r.
  assert (R1 : rem s1 = rem s) by (unfold rem; now rewrite P1). assert (H1 : in_doc s1) by (unfold in_doc; now rewrite P1).
  destruct (Hst rest (follow_cut _ _ _ F)) as (S1 & _).
  assert (En := enters_define (L + 1) c c' s1 g _ H1 Hg S1 ltac:(lia) ltac:(rewrite R1; exact R') ltac:(rewrite Nat.add_sub; apply W) Hc).
  destruct (node_scalar c' y t true (L + 1) s1 _ _ rest P H1 ltac:(reflexivity) En ltac:(rewrite R1; exact R) (Hfw _ F)) as (x & s' & E & Hs & Hm & A1).
  { rewrite R1, R'. simpl. intuition discriminate. }
  exists x, s'. split; [|split; [exact Hs|split; [|exact A1]]].
  - intros n Hn. apply E. rewrite enc_line, app_length in Hn. lia.
  - rewrite enc_line, app_length. destruct En as (_ & _ & _ & Ag). rewrite Nat.add_sub in Ag. cbv iota in Ag.
    rewrite Nat.add_sub in Hm. eapply moves_le in Hm; [|apply Nat.le_add_r]. apply moves_indent in Hm; [|exact Ag].
    apply (moves_at L _ 0 s) with (tb := p_indent s); [apply agree_refl|]. rewrite set_indent_id. exact Hm.
Qed.
Lemma value_next c c' y t g : c < c' -> filler g -> node_at c' y t -> P_node c' y t -> P_value c y (10%N :: g ++ indent c' ++ t).
Proof.
  intros Hc Hg Hn P. apply (value_node c c'); [lia|exact Hg|exact P| |].
  - intros rest Hr. eapply node_starts; eassumption.
  - intros rest. now apply follow_deeper.
Qed.
Lemma value_flush c v t g : filler g -> items c v t -> P_items c v t -> P_value c (YSeq v) (10%N :: g ++ indent c ++ lit "- " ++ t).
Proof.
  intros Hg Hi P. apply (value_node c c); [lia|exact Hg|now apply node_seq| |].
  - intros rest Hr. eapply node_starts; [apply (NSeq c); exact Hi|exact Hr].
  - auto.
Qed.

(** one entry *)
Lemma entry_run c k v kt vt L s rest : leaf (n_yaml k) kt -> value_at c (n_yaml v) vt -> P_value c (n_yaml v) vt ->
  in_doc s -> AT s -> Wd L c (p_indent s) -> rem s = utf8_encode (kt ++ lit ":" ++ vt) ++ rest -> follow true c rest ->
  exists kn s3 s4 vn s5, (forall n, 2 <= n -> scalar_flow n (L + 1) false s = (ROk kn, s3)) /\ colon s3 = (ROk false, s4)
    /\ n_yaml kn = n_yaml k /\ strip (n_yaml vn) = strip (n_yaml v)
    /\ (forall n, 8 * el vt + 9 <= n -> scalar n (L + 1) true false (set_eaten (p_pos s4) s4) = (ROk vn, s5))
    /\ moves L (el (kt ++ lit ":" ++ vt)) s s5 /\ AT s5.
Proof.
  intros Hl Hv P H A0 W R F. rewrite encode_app, enc_colon, <- app_assoc in R. cbn [app] in R.
  destruct (value_head _ _ _ Hv) as (hx & hq & Eh & Hh).
  assert (Ecut : cut (58%N :: utf8_encode vt ++ rest)) by (exists 58%N; eexists; split; [reflexivity|auto]).
  pose proof (leaf_good _ _ _ Hl Ecut) as G.
  destruct (leaf_reads (L + 1) s _ kt _ Hl H A0 R) as (s2 & Rd & Af).
  { right. rewrite Eh. cbn [app]. eauto. }
  destruct (after_props (L + 1) (el kt) s s2 H ltac:(rewrite R, app_length; lia) Af) as (H2 & R2 & P2). rewrite R, skipn_app_len in R2.
  set (s3 := set_eaten (p_pos s2) s2).
  assert (H3 : in_doc s3) by exact H2. assert (R3 : rem s3 = 58%N :: utf8_encode vt ++ rest) by exact R2.
  set (sv := set_pos (p_pos s3 + 1) s3).
  assert (Hv1 : in_doc sv) by (apply in_doc_add; [rewrite R3; cbn [List.length]; lia|exact H3]).
  assert (Rv1 : rem sv = utf8_encode vt ++ rest) by (unfold sv; rewrite rem_add, R3; reflexivity).
  assert (Wv : Wd L c (p_indent sv)).
  { destruct Af as (tb & E & Htb). unfold sv, s3. rewrite E. cbn [p_indent set_pos set_eaten set_indent].
    destruct Htb as [-> | ->]; [exact W|]. apply Wd_norm; [lia|exact W]. }
  destruct (P L sv rest Hv1 Wv Rv1 F) as (Bd & vn & s5 & E5 & Hs5 & M5 & A5).
  exists (Node (indicator_of s) [] (n_yaml k)), s3, (set_pos (p_pos sv + ws_len (rem sv)) sv), vn, s5.
  split; [|split; [|split; [reflexivity|split; [exact Hs5|split; [|split; [|exact A5]]]]]].
  - intros n Hn. apply (scalar_flow_exec 1); [exact H|exact A0| |exact Rd|exact Hn]. rewrite R. destruct (good_shown _ G) as (_ & G2 & _).
    destruct (utf8_encode kt ++ 58%N :: utf8_encode vt ++ rest); [exact I|]. split; intros ->; apply G2; simpl; auto.
  - unfold colon, orM, bind. rewrite (is_err_eq _ _ _ (sym_exec (chr ":") s3 H3)), R3. change (N.eqb 58 (chr ":")) with true. cbv iota.
    fold sv. rewrite (is_err_eq _ _ _ (bound_exec sv Hv1)), Bd. reflexivity.
  - intros n Hn. exact (E5 n Hn).
  - rewrite encode_app, enc_colon, app_length. cbn [List.length]. eapply (moves_trans L _ _ s s3).
    + apply moves_eaten. eapply after_moves; [|exact Af]. lia.
    + destruct M5 as (tb & E & -> & Hag). exists tb, E. split; [|exact Hag]. apply st_ext; try reflexivity. unfold sv. cbn [p_pos set_pos set_eaten set_indent]. lia.
Qed.
Lemma entry_step_run n L map acc kn s4 vn s5 : scalar n (L + 1) true false (set_eaten (p_pos s4) s4) = (ROk vn, s5) ->
  entry_step n L map acc kn s4 = map_loop n L map false (acc ++ [(kn, vn)]) s5.
Proof. intros E. unfold entry_step, bind, forward, modify, or_else. now rewrite E. Qed.
Lemma entries_one c k v kt vt : leaf (n_yaml k) kt -> value_at c (n_yaml v) vt -> P_value c (n_yaml v) vt ->
  P_entries c [(k, v)] (kt ++ lit ":" ++ vt).
Proof.
  intros Hl Hv P map L s rest H A0 W R F.
  destruct (entry_run c k v kt vt L s rest Hl Hv P H A0 W R (follow_true _ _ _ F)) as (kn & s3 & s4 & vn & s5 & E1 & E2 & Ek & Ev & E5 & M5 & A5).
  exists kn, s3, s4. split; [exact E1|]. split; [exact E2|]. intros acc.
  destruct (moves_rem L _ _ rest s s5 H R eq_refl M5) as [H5 R5].
  assert (D5 : depth (p_indent s5) L = c) by (rewrite (moves_depth L _ s s5 L ltac:(lia) M5); apply W).
  destruct (map_done L map (acc ++ [(kn, vn)]) s5 ltac:(destruct acc; discriminate) H5 A5 ltac:(rewrite R5, D5; exact F)) as (s6 & E6 & M6 & _).
  exists [(kn, vn)], s6. split; [|split; [|split]].
  - intros n Hn. assert (Hn' : 8 * el vt + 9 <= n).
    { rewrite encode_app, enc_colon, app_length in Hn. cbn [List.length] in Hn.
      assert (1 <= el kt); [|lia]. pose proof (leaf_good _ _ [10%N] Hl ltac:(exists 10%N, []; auto)) as (G & _ & _).
      destruct (utf8_encode kt) as [|z q] eqn:EE; [|cbn; lia]. cbn in G. discriminate. }
    rewrite (entry_step_run n L map acc kn s4 vn s5 (E5 n Hn')). destruct n as [|n]; [lia|]. apply E6.
  - cbn [List.map]. unfold strip_p, strip_n. cbn [fst snd]. now rewrite Ek, Ev.
  - constructor; [exact Ek|constructor].
  - match goal with |- moves L ?k _ _ => replace k with (k + 0) by lia end. eapply moves_trans; eassumption.
Qed.
Lemma entries_cons c k v kt vt g m u : leaf (n_yaml k) kt -> value_at c (n_yaml v) vt -> P_value c (n_yaml v) vt -> filler g ->
  entries c m u -> P_entries c m u -> P_entries c ((k, v) :: m) (kt ++ lit ":" ++ vt ++ 10%N :: g ++ indent c ++ u).
Proof.
  intros Hl Hv P Hg He PE map L s rest H A0 W R F.
  assert (Et : kt ++ lit ":" ++ vt ++ 10%N :: g ++ indent c ++ u = (kt ++ lit ":" ++ vt) ++ 10%N :: g ++ indent c ++ u) by now rewrite <- !app_assoc.
  rewrite Et in *. set (et := kt ++ lit ":" ++ vt) in *.
  rewrite encode_app, enc_line, <- app_assoc in R.
  set (X := 10%N :: utf8_encode g ++ repeat 32%N c) in *. rewrite <- app_assoc in R.
  assert (G : good (utf8_encode u ++ rest)) by (eapply entries_good; eassumption).
  assert (B : brk (X ++ utf8_encode u ++ rest) g c (utf8_encode u ++ rest)).
  { split; [exact Hg|]. split; [unfold X; cbn [app]; now rewrite <- !app_assoc|]. right. now apply good_shown. }
  destruct (entry_run c k v kt vt L s (X ++ utf8_encode u ++ rest) Hl Hv P H A0 W R) as (kn & s3 & s4 & vn & s5 & E1 & E2 & Ek & Ev & E5 & M5 & A5).
  { exists g, c. eexists. split; [exact B|]. right. right. split; [reflexivity|]. split; [reflexivity|apply G]. }
  exists kn, s3, s4. split; [exact E1|]. split; [exact E2|]. intros acc. fold et in M5.
  destruct (moves_rem L _ _ _ s s5 H R eq_refl M5) as [H5 R5].
  assert (D5 : depth (p_indent s5) L = c) by (rewrite (moves_depth L _ s s5 L ltac:(lia) M5); apply W).
  assert (LX : List.length X = S (el g) + c) by (unfold X; cbn [List.length]; rewrite app_length, repeat_length; lia).
  destruct (at_rem s5 (ind_norm L (p_indent s5)) X _ H5 R5) as [H6 R6]. set (s6 := at_pos _ _) in *.
  destruct (PE map L s6 rest H6 ltac:(reflexivity) (Wd_of_norm L c _ D5) R6 F) as (kn2 & s7 & s8 & F1 & F2 & F3).
  destruct (F3 (acc ++ [(kn, vn)])) as (m' & s9 & F4 & Hs & Hk & M9).
  assert (LT : el (et ++ 10%N :: g ++ indent c ++ u) = el et + (List.length X + el u)) by (rewrite encode_app, enc_line; fold X; now rewrite !app_length).
  exists ((kn, vn) :: m'), s9. split; [|split; [|split]].
  - intros n Hn. assert (Hn' : 8 * el vt + 9 <= n).
    { rewrite LT in Hn. unfold et in Hn. rewrite encode_app, enc_colon, app_length in Hn. cbn [List.length] in Hn.
      assert (1 <= el kt); [|lia]. pose proof (leaf_good _ _ [10%N] Hl ltac:(exists 10%N, []; auto)) as (G' & _ & _).
      destruct (utf8_encode kt) as [|z q] eqn:EE; [|cbn; lia]. cbn in G'. discriminate. }
    rewrite (entry_step_run n L map acc kn s4 vn s5 (E5 n Hn')). destruct n as [|n]; [lia|].
    rewrite (map_more n L map (acc ++ [(kn, vn)]) s5 g (utf8_encode u ++ rest) kn2 s7 s8 ltac:(destruct acc; discriminate) H5 A5).
    + rewrite (F4 n) by lia. now rewrite <- app_assoc.
    + rewrite R5, D5. exact B.
    + exact G.
    + rewrite D5, <- LX. apply F1. lia.
    + exact F2.
  - cbn [List.map]. rewrite Hs. unfold strip_p at 1, strip_n. cbn [fst snd]. now rewrite Ek, Ev.
  - constructor; [exact Ek|exact Hk].
  - rewrite LT. eapply moves_trans; [exact M5|]. apply (moves_at L (el u) (List.length X) s5) with (tb := ind_norm L (p_indent s5)).
    + now apply agree_norm.
    + exact M9.
Qed.
Lemma block_run :
  (forall c y t, node_at c y t -> P_node c y t) /\ (forall c y t, item_at c y t -> P_item c y t) /\ (forall c v t, items c v t -> P_items c v t) /\ (forall c y t, value_at c y t -> P_value c y t) /\ (forall c m t, entries c m t -> P_entries c m t).
Proof.
  apply block_mut; intros.
  - now apply node_leaf.
  - now apply node_seq.
  - now apply node_map.
  - now apply item_here.
  - now apply item_next.
  - now apply items_one.
  - now apply items_cons.
  - now apply value_here.
  - now apply value_next.
  - now apply value_flush.
  - now apply entries_one.
  - now apply entries_cons.
Qed.
