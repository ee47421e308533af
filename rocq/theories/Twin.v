(** * Twin: two runs of the parser on one document, in two modes or with two hashers
    (used by PropModes).

    The first part shows that every sub-parser of src/parser/base is blind to the
    mode, to the anchor tables and to the hasher.  The second part relates two
    runs of the recursive sub-parsers step by step. *)
From Verif Require Export PropAnchor PropTag.
Open Scope nat_scope.

(** ** Blind sub-parsers *)
(** the mode, the anchor tables and the hasher of [x], the rest of [s] *)
Definition graft (x s : st) : st :=
  mkSt (p_doc s) (p_indent s) (p_consumed s) (p_version s) (p_tag s) (p_pos s) (p_eaten s)
       (l_cyclic x) (l_anchors x) (l_doc_ind x) (p_hash x).
Definition blind {A} (m : M A) : Prop :=
  forall s, (forall x, m (graft x s) = (fst (m s), graft x (snd (m s)))) /\ p_doc (snd (m s)) = p_doc s.

Lemma bl_ret {A} (a : A) : blind (ret a). Proof. now intros s. Qed.
Lemma bl_fail {A} e : blind (@fail A e). Proof. now intros s. Qed.
Lemma bl_div {A} : blind (@diverge A). Proof. now intros s. Qed.
Lemma bl_gets {A} (f : st -> A) : (forall s x, f (graft x s) = f s) -> blind (gets f).
Proof. intros H s. split; [|reflexivity]. intros x. unfold gets. now rewrite H. Qed.
Lemma bl_modify f : (forall s x, f (graft x s) = graft x (f s)) -> (forall s, p_doc (f s) = p_doc s) -> blind (modify f).
Proof. intros H H' s. split; [|apply H']. intros x. unfold modify. now rewrite H. Qed.
Lemma bl_bind {A B} (m : M A) (f : A -> M B) : blind m -> (forall a, blind (f a)) -> blind (bind m f).
Proof.
  intros Hm Hf s. destruct (Hm s) as [H1 H2]. unfold bind. destruct (m s) as [[a|e| |] s']; cbn [fst snd] in *.
  - destruct (Hf a s') as [H3 H4]. split; [|congruence]. intros x. rewrite H1. apply H3.
  - split; [|exact H2]. intros x. now rewrite H1.
  - split; [|exact H2]. intros x. now rewrite H1.
  - split; [|exact H2]. intros x. now rewrite H1.
Qed.
Lemma bl_ok {A} (m : M A) : blind m -> blind (ok m).
Proof. intros Hm s. destruct (Hm s) as [H1 H2]. unfold ok. destruct (m s) as [[a|e| |] s']; (split; [intros x; now rewrite H1|exact H2]). Qed.
Lemma bl_is_ok {A} (m : M A) : blind m -> blind (is_ok m).
Proof. intros Hm s. destruct (Hm s) as [H1 H2]. unfold is_ok. destruct (m s) as [[a|e| |] s']; (split; [intros x; now rewrite H1|exact H2]). Qed.
Lemma bl_is_err {A} (m : M A) : blind m -> blind (is_err m).
Proof. intros Hm. apply bl_bind; [now apply bl_is_ok|intros; apply bl_ret]. Qed.
Lemma bl_unwrap {A} (a : A) m : blind m -> blind (unwrap_or a m).
Proof. intros Hm. apply bl_bind; [now apply bl_ok|intros; apply bl_ret]. Qed.
Lemma bl_or_else {A} (m f : M A) : blind m -> blind f -> blind (or_else m f).
Proof.
  intros Hm Hf s. destruct (Hm s) as [H1 H2]. unfold or_else. destruct (m s) as [[a|[|nm msg]| |] s']; cbn [fst snd] in *;
    try (split; [intros x; now rewrite H1|exact H2]).
  destruct (Hf s') as [H3 H4]. split; [|congruence]. intros x. rewrite H1. apply H3.
Qed.
Lemma bl_orM a b : blind a -> blind b -> blind (orM a b).
Proof. intros Ha Hb. apply bl_bind; [exact Ha|intros []; [apply bl_ret|exact Hb]]. Qed.
Lemma bl_andM a b : blind a -> blind b -> blind (andM a b).
Proof. intros Ha Hb. apply bl_bind; [exact Ha|intros []; [exact Hb|apply bl_ret]]. Qed.
Lemma bl_notM a : blind a -> blind (notM a).
Proof. intros Ha. apply bl_bind; [exact Ha|intros; apply bl_ret]. Qed.
Lemma bl_context {A} (m : M A) : blind m -> blind (context m).
Proof.
  intros Hm s. destruct (Hm (set_eaten (p_pos s) s)) as [H1 H2]. unfold context. split.
  - intros x. change (p_eaten (graft x s)) with (p_eaten s). change (p_pos (graft x s)) with (p_pos s).
    change (set_eaten (p_pos s) (graft x s)) with (graft x (set_eaten (p_pos s) s)). rewrite H1.
    now destruct (m (set_eaten (p_pos s) s)) as [r s'].
  - now destruct (m (set_eaten (p_pos s) s)) as [r s'].
Qed.
Lemma bl_forward : blind forward. Proof. now apply bl_modify. Qed.
Lemma bl_backward : blind backward. Proof. now apply bl_modify. Qed.
Lemma bl_back n : blind (back n).
Proof. intros s. unfold back. cbn [graft p_pos]. now destruct (Nat.leb n (p_pos s)). Qed.
Lemma bl_food : blind food.
Proof. intros s. unfold food. cbn [graft p_pos p_doc]. now destruct (Nat.leb (p_pos s) _). Qed.
Lemma bl_text : blind text.
Proof. intros s. unfold text. cbn [graft p_pos p_doc p_eaten]. destruct (Nat.ltb (p_eaten s) _); [|now split]. now destruct (Nat.leb (p_pos s) _). Qed.
Lemma bl_err {A} nm : blind (@err A nm).
Proof.
  intros s. unfold err. change (forall x, indicator_of (graft x s) = indicator_of s) with (forall x : st, indicator_of s = indicator_of s).
  cbn [graft p_doc]. split; [intros x; change (indicator_of (graft x s)) with (indicator_of s)|]; now destruct (indicated_msg (p_doc s) _).
Qed.
Lemma bl_count {A} (m : M A) : blind m -> blind (count m).
Proof.
  intros Hm. apply bl_bind; [now apply bl_gets|intros p]. apply bl_bind; [exact Hm|intros _ s].
  cbn [graft p_pos]. now destruct (Nat.leb p (p_pos s)).
Qed.
Lemma bl_take f o : blind (take_while f o).
Proof.
  apply bl_bind; [apply bl_food|intros fd]. cbv zeta. apply bl_bind; [now apply bl_modify|intros _].
  assert (H : blind (backward ;;; @fail unit Mismatch)) by (apply bl_bind; [apply bl_backward|intros; apply bl_fail]).
  destruct (Nat.eqb _ 0); destruct (take_min o) as [[|c]|]; try apply bl_ret; try exact H; destruct (Nat.ltb _ _); try exact H; apply bl_ret.
Qed.
Lemma bl_sym_set l : blind (sym_set l). Proof. apply bl_take. Qed.
Lemma bl_sym c : blind (sym c). Proof. apply bl_take. Qed.
Lemma bl_sym_seq l : blind (sym_seq l).
Proof. induction l as [|c l IH]; [apply bl_ret|]. apply bl_bind; [apply bl_sym|intros; exact IH]. Qed.
Lemma bl_spaces n : blind (spaces n).
Proof. induction n as [|n IH]; [apply bl_ret|]. apply bl_bind; [apply bl_sym|intros; exact IH]. Qed.
Lemma bl_tag_index k : blind (tag_index k).
Proof. intros s. unfold tag_index. cbn [graft p_tag]. now destruct (bt_get k (p_tag s)). Qed.
Lemma bl_ind l : blind (ind l).
Proof. apply bl_bind; [now apply bl_modify|intros _]. apply bl_bind; [now apply bl_gets|intros; apply bl_spaces]. Qed.
Lemma bl_ind_define l : blind (ind_define l).
Proof.
  apply bl_bind; [destruct (Nat.ltb _ _); [apply bl_ind|apply bl_ret]|intros _].
  apply bl_bind; [apply bl_count, bl_take|intros i s]. cbn [graft p_indent].
  destruct (Nat.eqb l (List.length (p_indent s))); [now split|]. now destruct (Nat.ltb l (List.length (p_indent s))).
Qed.

Ltac bw1 :=
  match goal with
  | |- forall _, _ => intros ?
  | |- blind (let _ := _ in _) => cbv zeta
  | |- blind (bind _ _) => apply bl_bind
  | |- blind (ok _) => apply bl_ok
  | |- blind (is_ok _) => apply bl_is_ok
  | |- blind (is_err _) => apply bl_is_err
  | |- blind (unwrap_or _ _) => apply bl_unwrap
  | |- blind (or_else _ _) => apply bl_or_else
  | |- blind (orM _ _) => apply bl_orM
  | |- blind (andM _ _) => apply bl_andM
  | |- blind (notM _) => apply bl_notM
  | |- blind (context _) => apply bl_context
  | |- blind (count _) => apply bl_count
  | |- blind (if ?b then _ else _) => destruct b
  | |- blind (match ?x with _ => _ end) => destruct x
  | |- blind _ => first [apply bl_ret | apply bl_fail | apply bl_div | now apply bl_gets | now apply bl_modify | apply bl_forward | apply bl_backward
                     | apply bl_back | apply bl_food | apply bl_text | apply bl_err | apply bl_sym_seq | apply bl_sym | apply bl_sym_set | apply bl_take
                     | apply bl_tag_index | apply bl_ind_define | apply bl_ind
                     | solve [auto] ]
  end.
Ltac bw := repeat bw1.

Lemma bl_bound : blind bound. Proof. unfold bound, ws. bw. Qed.
Lemma bl_complex : blind complex_mapping. Proof. unfold complex_mapping. pose proof bl_bound. bw. Qed.
Lemma bl_num_prefix : blind num_prefix. Proof. unfold num_prefix. bw. Qed.
Lemma bl_int : blind int. Proof. unfold int, octal, hexadecimal, ws. pose proof bl_bound. pose proof bl_num_prefix. bw. Qed.
Lemma bl_float : blind float. Proof. unfold float, ws. pose proof bl_bound. pose proof bl_num_prefix. bw. Qed.
Lemma bl_sci : blind sci_float. Proof. unfold sci_float, ws. pose proof bl_bound. pose proof bl_num_prefix. bw. Qed.
Lemma bl_nl : blind nl. Proof. unfold nl. bw. Qed.
Lemma bl_comment : blind comment. Proof. unfold comment, ws. bw. Qed.
Lemma bl_gap_loop c : forall n t, blind (gap_loop n c t).
Proof. pose proof bl_comment. pose proof bl_nl. induction n; intros t; cbn [gap_loop]; unfold ws; bw. Qed.
Lemma bl_gap c : blind (gap c).
Proof. pose proof bl_comment. pose proof bl_nl. pose proof (bl_gap_loop c). unfold gap. bw. Qed.
Lemma bl_quoted_loop q ig : forall n v, blind (quoted_loop n q ig v).
Proof. pose proof bl_gap. induction n; intros v; cbn [quoted_loop]; unfold ws; bw. Qed.
Lemma bl_quoted q ig : blind (string_quoted q ig).
Proof. pose proof (bl_quoted_loop q ig). unfold string_quoted, ws. bw. Qed.
Lemma bl_plain_loop l i : forall n v b, blind (plain_loop n l i v b).
Proof. pose proof bl_gap. pose proof bl_nl. induction n; intros v b; cbn [plain_loop]; bw. Qed.
Lemma bl_plain l i : blind (string_plain l i).
Proof. pose proof (bl_plain_loop l i). unfold string_plain. bw. Qed.
Lemma bl_chomp : blind chomp. Proof. unfold chomp. bw. Qed.
Lemma bl_wrapped_loop l sep ld : forall n v, blind (wrapped_loop n l sep ld v).
Proof. pose proof bl_gap. pose proof bl_nl. induction n; intros v; cbn [wrapped_loop]; bw. Qed.
Lemma bl_wrapped l sep ld : blind (string_wrapped l sep ld).
Proof. pose proof (bl_wrapped_loop l sep ld). unfold string_wrapped. bw. Qed.
Lemma bl_literal l : blind (string_literal l).
Proof. pose proof bl_chomp. pose proof (bl_wrapped l). unfold string_literal, ws. bw. Qed.
Lemma bl_folded l : blind (string_folded l).
Proof. pose proof bl_chomp. pose proof (bl_wrapped l). unfold string_folded, ws. bw. Qed.
Lemma bl_identifier : blind identifier. Proof. unfold identifier. bw. Qed.
Lemma bl_tag : blind tag. Proof. pose proof bl_identifier. unfold tag. bw. Qed.
Lemma bl_anchor : blind anchor. Proof. pose proof bl_identifier. unfold anchor. bw. Qed.
Lemma bl_anchor_use : blind anchor_use. Proof. pose proof bl_identifier. unfold anchor_use. bw. Qed.
Lemma bl_doc_end : blind doc_end. Proof. unfold doc_end. bw. Qed.
Lemma bl_directive : blind directive.
Proof.
  pose proof bl_identifier. pose proof bl_gap. unfold directive, directive_yaml, directive_tag, ws. bw.
Qed.
Lemma bl_directives : forall n, blind (directives n).
Proof.
  induction n as [|n IH]; [apply bl_div|]. intros s. cbn [directives]. destruct (bl_context _ bl_directive s) as [H1 H2].
  destruct (context directive s) as [[a|[|nm msg]| |] s']; cbn [fst snd] in *; try (split; [intros x; now rewrite H1|exact H2]).
  destruct (IH s') as [H3 H4]. split; [|congruence]. intros x. rewrite H1. apply H3.
Qed.

(** ** Two runs *)
(** an anchor table with more in it *)
Definition ext (t t' : anchors_t) : Prop := forall a n, bt_get a t = Some n -> bt_get a t' = Some n.
Lemma ext_refl t : ext t t. Proof. intros a n H. exact H. Qed.
Lemma ext_trans a b c : ext a b -> ext b c -> ext a c. Proof. intros H1 H2 k n H. now apply H2, H1. Qed.
Definition cur (s : st) : anchors_t := nth (l_doc_ind s) (l_anchors s) [].
(** what may happen to the anchor tables inside a document *)
Definition grows (s t : st) : Prop :=
  l_doc_ind t = l_doc_ind s /\ List.length (l_anchors t) = List.length (l_anchors s) /\ ext (cur s) (cur t)
  /\ forall i, i <> l_doc_ind s -> nth_error (l_anchors t) i = nth_error (l_anchors s) i.
Lemma grows_refl s : grows s s. Proof. repeat split; auto using ext_refl. Qed.
Lemma grows_trans a b c : grows a b -> grows b c -> grows a c.
Proof.
  intros (A1 & A2 & A3 & A4) (B1 & B2 & B3 & B4). repeat split; try congruence; [eapply ext_trans; eassumption|].
  intros i Hi. rewrite B4, A4; congruence.
Qed.
Definition undefined : str := lit "anchor referenced before definition".

(** the values that come without a number *)
Definition plain_leaf (y : yaml) : Prop :=
  match y with
  | YNull | YBool _ | YStr _ => True
  | YFloat s => In s [lit "NaN"; lit "inf"; lit "-inf"]
  | _ => False
  end.
Lemma plain_value_leaf s : plain_leaf (plain_value s).
Proof. unfold plain_value. repeat (match goal with |- context [if ?b then _ else _] => destruct b end; [cbn; auto|]). exact I. Qed.
(** the numbers of src/parser/mod.rs:268-275, in front of the rest of [scalar_term] *)
Definition number (k : M yaml) : M yaml :=
  o <- ok float ;;
  match o with
  | Some s => ret (YFloat s)
  | None =>
    o <- ok sci_float ;;
    match o with
    | Some s => ret (YFloat s)
    | None => o <- ok int ;; match o with Some s => ret (YInt s) | None => k end
    end
  end.
Section Twin.
Variable lax : Prop.
Variable d : bytes.
Variables c1 c2 : bool.
Variables h1 h2 : hasher.
(** the relation on values, given the anchors of the second run *)
Variable YR : anchors_t -> yaml -> yaml -> Prop.
Hypothesis YR_mono : forall t t' y y', ext t t' -> YR t y y' -> YR t' y y'.
Hypothesis YR_leaf : forall t y, plain_leaf y -> YR t y y.
Definition NR (t : anchors_t) (n n' : node) : Prop := n_pos n = n_pos n' /\ n_rawtag n = n_rawtag n' /\ YR t (n_yaml n) (n_yaml n').
Hypothesis YR_seq : forall t v v', Forall2 (NR t) v v' -> YR t (YSeq v) (YSeq v').
Lemma NR_mono t t' n n' : ext t t' -> NR t n n' -> NR t' n n'.
Proof. intros E (H1 & H2 & H3). repeat split; auto. eapply YR_mono; eassumption. Qed.
Definition PR (t : anchors_t) (x x' : node * node) : Prop := NR t (fst x) (fst x') /\ NR t (snd x) (snd x').
Lemma NRs_mono t t' v v' : ext t t' -> Forall2 (NR t) v v' -> Forall2 (NR t') v v'.
Proof. intros E H. induction H; constructor; eauto using NR_mono. Qed.
Lemma PRs_mono t t' v v' : ext t t' -> Forall2 (PR t) v v' -> Forall2 (PR t') v v'.
Proof. intros E H. induction H as [|? ? ? ? [? ?] ? ?]; constructor; auto. split; eauto using NR_mono. Qed.
(** the same names, for related nodes *)
Definition TR (t t' : anchors_t) : Prop := forall a,
  match bt_get a t, bt_get a t' with
  | Some n, Some n' => NR t' n n'
  | None, None => True
  | _, _ => False
  end.
Definition SR (s s' : st) : Prop :=
  s' = graft s' s /\ p_doc s = d /\ l_doc_ind s = l_doc_ind s' /\ l_cyclic s = c1 /\ l_cyclic s' = c2 /\ p_hash s = h1 /\ p_hash s' = h2
  /\ Forall2 TR (l_anchors s) (l_anchors s').
(** the comparison is off: someone panics, or an alias is not known *)
Definition off {A} (r r' : res A) : Prop :=
  lax /\ (r = RPanic \/ r' = RPanic \/ exists msg, r' = RErr (Terminate undefined msg)).
Definition twin {A} (w : anchors_t) (RA : anchors_t -> A -> A -> Prop) (m m' : M A) : Prop :=
  forall s s', SR s s' -> ext w (cur s') ->
  off (fst (m s)) (fst (m' s')) \/
  match m s, m' s' with
  | (ROk a, t), (ROk a', t') => SR t t' /\ grows s' t' /\ RA (cur t') a a'
  | (RErr Mismatch, t), (RErr Mismatch, t') => SR t t' /\ grows s' t'
  | (RErr e, _), (RErr e', _) => e = e'
  | (RPanic, _), (RPanic, _) => True
  | (RDiv, _), (RDiv, _) => True
  | _, _ => False
  end.

Lemma blind_rest {A} (m : M A) s : blind m -> snd (m s) = graft s (snd (m s)).
Proof.
  intros H. destruct (H s) as [H1 _]. specialize (H1 s). replace (graft s s) with s in H1 by now destruct s.
  rewrite H1 at 1. reflexivity.
Qed.
Lemma SR_blind {A} (m : M A) s s' : blind m -> SR s s' ->
  fst (m s') = fst (m s) /\ SR (snd (m s)) (snd (m s')) /\ grows s' (snd (m s')).
Proof.
  intros Hm (E & D & I & C1 & C2 & H1 & H2 & T). destruct (Hm s) as [B1 B2]. pose proof (blind_rest m s Hm) as R.
  assert (F : m s' = (fst (m s), graft s' (snd (m s)))) by (rewrite E at 1; apply B1). rewrite F. cbn [fst snd].
  split; [reflexivity|]. split.
  - unfold SR. cbn [graft p_doc l_doc_ind l_cyclic p_hash l_anchors]. rewrite R. cbn [graft p_doc l_doc_ind l_cyclic p_hash l_anchors].
    repeat split; auto; congruence.
  - repeat split; cbn; auto using ext_refl.
Qed.
Lemma twin_leaf {A} w (m : M A) : blind m -> twin w (fun _ => eq) m m.
Proof.
  intros Hm s s' HS Hw. destruct (SR_blind m s s' Hm HS) as (F & S1 & G). right.
  destruct (m s) as [r t], (m s') as [r' t']. cbn [fst snd] in *. subst r'.
  destruct r as [a|[|nm msg]| |]; auto.
Qed.
Lemma twin_bind {A B} w (RA : anchors_t -> A -> A -> Prop) (RB : anchors_t -> B -> B -> Prop) m m' f f' :
  twin w RA m m' -> (forall w' a a', ext w w' -> RA w' a a' -> twin w' RB (f a) (f' a')) -> twin w RB (bind m f) (bind m' f').
Proof.
  intros Hm Hf s s' HS Hw. unfold bind. destruct (Hm s s' HS Hw) as [(L & O)|R].
  - left. split; [exact L|]. destruct (m s) as [[a|e| |] t], (m' s') as [[a'|e'| |] t']; cbn [fst] in *;
      destruct O as [O|[O|(msg & O)]]; try discriminate; try injection O as ->; cbn [fst]; eauto.
  - destruct (m s) as [[a|[|nm msg]| |] t], (m' s') as [[a'|[|nm' msg']| |] t']; try contradiction; try (right; exact R); try discriminate.
    + destruct R as (S1 & G & R). destruct (Hf _ _ _ (ext_trans _ _ _ Hw (proj1 (proj2 (proj2 G)))) R t t' S1 (ext_refl _)) as [O|K]; [now left|right].
      destruct (f a t) as [[b|[|nm msg]| |] u], (f' a' t') as [[b'|[|nm' msg']| |] u']; try contradiction; try exact K.
      * destruct K as (K1 & K2 & K3). split; [exact K1|]. split; [eapply grows_trans; eassumption|exact K3].
      * destruct K as (K1 & K2). split; [exact K1|]. eapply grows_trans; eassumption.
Qed.
(** behind a blind step *)
Lemma twin_then {A B} w (RB : anchors_t -> B -> B -> Prop) (m : M A) f f' :
  blind m -> (forall a, twin w RB (f a) (f' a)) -> twin w RB (bind m f) (bind m f').
Proof.
  intros Hm Hf. eapply twin_bind; [apply twin_leaf, Hm|]. intros w' a a' Hw <- s s' HS Hw'. apply Hf; [exact HS|].
  eapply ext_trans; eassumption.
Qed.
Lemma twin_ret {A} w (RA : anchors_t -> A -> A -> Prop) a a' : (forall w', ext w w' -> RA w' a a') -> twin w RA (ret a) (ret a').
Proof. intros H s s' HS Hw. right. cbn. split; [exact HS|]. split; [apply grows_refl|]. now apply H. Qed.
Lemma twin_or_else {A} w (RA : anchors_t -> A -> A -> Prop) m m' f f' : twin w RA m m' -> twin w RA f f' -> twin w RA (or_else m f) (or_else m' f').
Proof.
  intros Hm Hf s s' HS Hw. unfold or_else. destruct (Hm s s' HS Hw) as [(L & O)|R].
  - left. split; [exact L|]. destruct (m s) as [[a|[|nm msg]| |] t], (m' s') as [[a'|[|nm' msg']| |] t']; cbn [fst] in *;
      destruct O as [O|[O|(msg0 & O)]]; try discriminate; try injection O as -> ->; cbn [fst]; eauto.
  - destruct (m s) as [[a|[|nm msg]| |] t], (m' s') as [[a'|[|nm' msg']| |] t']; try contradiction; try (right; exact R); try discriminate.
    destruct R as (S1 & G). destruct (Hf t t' S1 (ext_trans _ _ _ Hw (proj1 (proj2 (proj2 G))))) as [O|K]; [now left|right].
    destruct (f t) as [[b|[|nm msg]| |] u], (f' t') as [[b'|[|nm' msg']| |] u']; try contradiction; try exact K.
    + destruct K as (K1 & K2 & K3). split; [exact K1|]. split; [eapply grows_trans; eassumption|exact K3].
    + destruct K as (K1 & K2). split; [exact K1|]. eapply grows_trans; eassumption.
Qed.
Lemma twin_blind {A} w (RA : anchors_t -> A -> A -> Prop) (m : M A) : blind m -> (forall w' a, RA w' a a) -> twin w RA m m.
Proof.
  intros Hm HR s s' HS Hw. destruct (twin_leaf w m Hm s s' HS Hw) as [O|K]; [now left|right].
  destruct (m s) as [[a|[|nm msg]| |] t], (m s') as [[a'|[|nm' msg']| |] t']; try exact K. destruct K as (K1 & K2 & <-). auto.
Qed.
Lemma twin_err {A} w (RA : anchors_t -> A -> A -> Prop) nm : twin w RA (err nm) (err nm).
Proof.
  intros s s' HS Hw. destruct (twin_leaf w (@err A nm) (bl_err nm) s s' HS Hw) as [O|K]; [now left|right].
  revert K. unfold err. destruct (indicated_msg _ _), (indicated_msg _ _); auto.
Qed.
Lemma twin_weaken {A} w w' (RA : anchors_t -> A -> A -> Prop) m m' : ext w w' -> twin w RA m m' -> twin w' RA m m'.
Proof. intros E H s s' HS Hw. apply H; [exact HS|]. eapply ext_trans; eassumption. Qed.
Lemma twin_if {A} w (RA : anchors_t -> A -> A -> Prop) (b : bool) m m' f f' : twin w RA m m' -> twin w RA f f' -> twin w RA (if b then m else f) (if b then m' else f').
Proof. now destruct b. Qed.

(** *** Naming a node *)
Lemma SR_tab s s' : SR s s' -> match nth_error (l_anchors s) (l_doc_ind s), nth_error (l_anchors s') (l_doc_ind s') with
  | Some t, Some t' => TR t t' /\ cur s' = t' | None, None => True | _, _ => False end.
Proof.
  intros (_ & _ & I & _ & _ & _ & _ & T). rewrite I. unfold cur. generalize (l_doc_ind s') as i. clear I.
  induction T as [|x x' l l' Hx T IH]; intros [|i]; cbn; auto. apply IH.
Qed.
Lemma nth_upd_same {A} (l : list A) i f : nth_error (upd_nth l i f) i = option_map f (nth_error l i).
Proof. revert i. induction l as [|x l IH]; intros [|i]; cbn; auto. Qed.
Lemma nth_upd_other {A} (l : list A) i j f : j <> i -> nth_error (upd_nth l i f) j = nth_error l j.
Proof. revert i j. induction l as [|x l IH]; intros [|i] [|j] H; cbn; try congruence. apply IH. lia. Qed.
Lemma upd_length {A} (l : list A) i f : List.length (upd_nth l i f) = List.length l.
Proof. revert i. induction l as [|x l IH]; intros [|i]; cbn; auto. Qed.
Lemma upd_Forall2 {A} (R : A -> A -> Prop) f f' : forall l l' i, Forall2 R l l' ->
  (forall x x', nth_error l i = Some x -> nth_error l' i = Some x' -> R x x' -> R (f x) (f' x')) -> Forall2 R (upd_nth l i f) (upd_nth l' i f').
Proof.
  intros l l' i H. revert i. induction H as [|x x' l l' Hx H IH]; intros [|i] K; cbn; constructor; auto.
Qed.
Definition name_node (an : str) (nd : node) : M node :=
  if is_nil an then ret nd
  else dup <- anchor_insert an nd ;; if (dup : bool) then err (lit "duplicated anchor definition") else ret nd.
Lemma twin_name w an nd nd' : NR w nd nd' -> twin w NR (name_node an nd) (name_node an nd').
Proof.
  intros HN. unfold name_node. destruct (is_nil an); [apply twin_ret; intros; eapply NR_mono; eassumption|].
  intros s s' HS Hw. pose proof (SR_tab s s' HS) as T. unfold bind, anchor_insert.
  destruct (nth_error (l_anchors s) (l_doc_ind s)) as [t|] eqn:E1, (nth_error (l_anchors s') (l_doc_ind s')) as [t'|] eqn:E2; try contradiction; [|now right].
  destruct T as [T Ec]. pose proof (T an) as Ta. pose proof HS as (E & D & I & C1 & C2 & H1 & H2 & TS).
  destruct (bt_get an t) as [n|] eqn:G1, (bt_get an t') as [n'|] eqn:G2; try contradiction.
  - right. unfold err. change (indicator_of (set_anchors (upd_nth (l_anchors s) (l_doc_ind s) (bt_insert an nd)) s)) with (indicator_of s).
    change (indicator_of (set_anchors (upd_nth (l_anchors s') (l_doc_ind s') (bt_insert an nd')) s')) with (indicator_of s').
    cbn [p_doc set_anchors]. rewrite E. cbn [p_doc graft]. change (indicator_of (graft s' s)) with (indicator_of s).
    now destruct (indicated_msg (p_doc s) (indicator_of s)).
  - right. cbn [ret].
    assert (X : ext t' (bt_insert an nd' t')) by (intros a n Ha; now apply bt_insert_other).
    assert (Cu : cur (set_anchors (upd_nth (l_anchors s') (l_doc_ind s') (bt_insert an nd')) s') = bt_insert an nd' t').
    { unfold cur. cbn [set_anchors l_anchors l_doc_ind]. apply nth_error_nth. now rewrite nth_upd_same, E2. }
    rewrite Cu. rewrite Ec in Hw. split; [|split].
    + unfold SR. cbn [set_anchors p_doc l_doc_ind l_cyclic p_hash l_anchors]. repeat split; auto.
      * rewrite E. reflexivity.
      * rewrite I. apply upd_Forall2; [exact TS|]. intros x x' Hx Hx' _. rewrite <- I, E1 in Hx. rewrite E2 in Hx'. injection Hx as <-. injection Hx' as <-.
        intros a. destruct (str_eqb a an) eqn:Ea.
        -- apply str_eqb_eq in Ea as ->. rewrite !bt_get_insert. eapply NR_mono; [|exact HN]. eapply ext_trans; eassumption.
        -- rewrite !bt_get_insert_other by exact Ea. specialize (T a). destruct (bt_get a t), (bt_get a t'); auto. eapply NR_mono; eassumption.
    + unfold grows. cbn [set_anchors l_doc_ind l_anchors]. rewrite Cu, upd_length. repeat split; auto.
      * now rewrite Ec.
      * intros i Hi. now apply nth_upd_other.
    + eapply NR_mono; [|exact HN]. eapply ext_trans; eassumption.
Qed.
Lemma twin_node w f f' : twin w YR f f' -> twin w NR (scalar_node f) (scalar_node f').
Proof.
  intros Hf. pose proof bl_anchor. pose proof bl_tag. pose proof bl_bound. unfold scalar_node.
  do 10 (apply twin_then; [bw|intros ?]).
  eapply twin_bind; [exact Hf|]. intros w' y y' Hw Hy. apply twin_then; [bw|intros _]. apply twin_name. repeat split. exact Hy.
Qed.

(** two ways to meet [R_num] and [R_alias] *)
Lemma num_leaf : (forall t s, YR t (YInt s) (YInt s) /\ YR t (YFloat s) (YFloat s)) ->
  forall w k k', twin w YR k k' -> twin w YR (number k) (number k').
Proof.
  intros HY w k k' Hk. pose proof bl_float. pose proof bl_sci. pose proof bl_int. unfold number.
  apply twin_then; [bw|intros [x|]]; [apply twin_ret; intros; apply HY|].
  apply twin_then; [bw|intros [x|]]; [apply twin_ret; intros; apply HY|].
  apply twin_then; [bw|intros [x|]]; [apply twin_ret; intros; apply HY|exact Hk].
Qed.
Lemma twin_never {A} w (RA : anchors_t -> A -> A -> Prop) {B} (m : M B) (f f' : B -> M A) k k' :
  blind m -> (forall s b, p_doc s = d -> fst (m s) <> ROk b) -> twin w RA k k' ->
  twin w RA (o <- ok m ;; match o with Some s => f s | None => k end) (o <- ok m ;; match o with Some s => f' s | None => k' end).
Proof.
  intros Hb Hn Hk. eapply (twin_bind w (fun _ (o o' : option B) => o = None /\ o' = None)).
  - intros s s' HS Hw. right. destruct (SR_blind m s s' Hb HS) as (E1 & E2 & E3).
    pose proof (Hn s) as Hs. specialize (fun b => Hs b (proj1 (proj2 HS))). unfold ok.
    destruct (m s) as [[b|e| |] t], (m s') as [r t']; cbn [fst snd] in *; subst r; auto. now elim (Hs b).
  - intros w' a a' Hw [-> ->]. eapply twin_weaken; eassumption.
Qed.

(** *** The recursive sub-parsers *)
Hypothesis R_num : forall w k k', twin w YR k k' -> twin w YR (number k) (number k').
Hypothesis R_alias : forall w k k', twin w YR k k' -> twin w YR
  (o <- ok anchor_use ;; match o with Some s => alias_value s | None => k end)
  (o <- ok anchor_use ;; match o with Some s => alias_value s | None => k' end).
Hypothesis R_map : forall w m m', Forall2 (PR w) m m' -> twin w YR (build_map m) (build_map m').
Record all_twin (n : nat) : Prop := {
  w_scalar : forall w L map flow, twin w NR (scalar n L map flow) (scalar n L map flow);
  w_flow : forall w L flow, twin w NR (scalar_flow n L flow) (scalar_flow n L flow);
  w_term : forall w L flow, twin w YR (scalar_term n L flow) (scalar_term n L flow);
  w_seqf : forall w L, twin w YR (seq_flow n L) (seq_flow n L);
  w_seqfl : forall w L v v', Forall2 (NR w) v v' -> twin w YR (seq_flow_loop n L v) (seq_flow_loop n L v');
  w_mapf : forall w L, twin w YR (map_flow n L) (map_flow n L);
  w_mapfl : forall w L v v', Forall2 (PR w) v v' -> twin w YR (map_flow_loop n L v) (map_flow_loop n L v');
  w_seq : forall w L map, twin w YR (Loader.seq n L map) (Loader.seq n L map);
  w_seql : forall w L map v v', Forall2 (NR w) v v' -> twin w YR (seq_loop n L map v) (seq_loop n L map v');
  w_map : forall w L map flow, twin w YR (map_ n L map flow) (map_ n L map flow);
  w_mapl : forall w L map flow v v', Forall2 (PR w) v v' -> twin w YR (map_loop n L map flow v) (map_loop n L map flow v')
}.
Lemma twin_div {A} w (RA : anchors_t -> A -> A -> Prop) : twin w RA diverge diverge.
Proof. intros s s' HS Hw. now right. Qed.
Lemma Forall2_snoc {A} (R : A -> A -> Prop) l l' x x' : Forall2 R l l' -> R x x' -> Forall2 R (l ++ [x]) (l' ++ [x']).
Proof. intros H Hx. apply Forall2_app; [exact H|now constructor]. Qed.
Lemma seq_ret w v v' : Forall2 (NR w) v v' -> twin w YR (ret (YSeq v)) (ret (YSeq v')).
Proof. intros H. apply twin_ret. intros w' E. apply YR_seq. eapply NRs_mono; eassumption. Qed.
Lemma leaf_ret w y : plain_leaf y -> twin w YR (ret y) (ret y).
Proof. intros H. apply twin_ret. intros w' E. now apply YR_leaf. Qed.
Ltac st := apply twin_then; [unfold inv; bw|intros ?].
Lemma all_twin_all : forall n, all_twin n.
Proof.
  pose proof bl_literal. pose proof bl_folded. pose proof bl_float. pose proof bl_sci. pose proof bl_int. pose proof bl_anchor_use.
  pose proof bl_quoted. pose proof bl_plain. pose proof bl_gap. pose proof bl_complex. pose proof bl_bound. pose proof bl_doc_end.
  induction n as [|n IH]; [split; intros; apply twin_div|]. destruct IH as [I1 I2 I3 I4 I5 I6 I7 I8 I9 I10 I11].
  assert (KEY : forall w L (m m' : M node), twin w NR m m' -> twin w NR
      (forward ;;; k <- m ;; g <- is_ok (gap true) ;; (if (g : bool) then ind L else ret tt) ;;; ret k)
      (forward ;;; k <- m' ;; g <- is_ok (gap true) ;; (if (g : bool) then ind L else ret tt) ;;; ret k)).
  { intros w L m0 m1 Hm. st. eapply twin_bind; [exact Hm|]. intros w' k k' Hw Hk. st. st. apply twin_ret. intros; eapply NR_mono; eassumption. }
  split.
  - intros w L map flow. cbn [scalar]. apply twin_node. apply twin_then; [bw|intros [x|]]; [now apply leaf_ret|].
    apply twin_then; [bw|intros [x|]]; [now apply leaf_ret|]. apply twin_or_else; [apply twin_or_else|]; auto.
  - intros w L flow. cbn [scalar_flow]. apply twin_node. auto.
  - intros w L flow. cbn [scalar_term]. apply R_num.
    apply R_alias. do 2 (apply twin_then; [bw|intros [x|]]; [now apply leaf_ret|]).
    apply twin_then; [bw|intros [x|]]; [apply leaf_ret, plain_value_leaf|]. apply twin_or_else; [apply twin_or_else; auto|now apply leaf_ret].
  - intros w L. cbn [seq_flow]. st. auto.
  - intros w L v v' Hv. cbn [seq_flow_loop]. do 3 st. apply twin_if; [st; now apply seq_ret|].
    st. eapply twin_bind; [apply twin_or_else; [apply I1|apply twin_err]|]. intros w' x x' Hw Hx. cbv zeta.
    assert (Hv' : Forall2 (NR w') (v ++ [x]) (v' ++ [x'])) by (apply Forall2_snoc; [eapply NRs_mono; eassumption|exact Hx]).
    do 2 st. apply twin_if; [|auto]. do 3 st. now apply seq_ret.
  - intros w L. cbn [map_flow]. st. auto.
  - intros w L v v' Hv. cbn [map_flow_loop]. do 3 st. apply twin_if; [st; now apply R_map|]. do 2 st.
    eapply twin_bind; [apply twin_if; [apply KEY, twin_or_else; [apply I1|apply twin_err]|apply twin_or_else; [apply I2|apply twin_err]]|].
    intros w' k k' Hw Hk. st. apply twin_if; [apply twin_err|]. do 2 st.
    eapply twin_bind; [apply twin_or_else; [apply I1|apply twin_err]|]. intros w2 x x' Hw2 Hx. cbv zeta.
    assert (Hv' : Forall2 (PR w2) (v ++ [(k, x)]) (v' ++ [(k', x')])).
    { apply Forall2_snoc; [exact (PRs_mono _ _ _ _ (ext_trans _ _ _ Hw Hw2) Hv)|]. split; [exact (NR_mono _ _ _ _ Hw2 Hk)|exact Hx]. }
    st. apply twin_if; [|auto]. do 3 st. now apply R_map.
  - intros w L map. cbn [Loader.seq]. auto.
  - intros w L map v v' Hv. cbn [seq_loop]. st.
    assert (E : forall b, twin w YR (if b : bool then forward ;;; x <- or_else (scalar n (L + 1) false false) (err (lit "sequence item")) ;; seq_loop n L map (v ++ [x]) else backward ;;; ret (YSeq v))
      (if b : bool then forward ;;; x <- or_else (scalar n (L + 1) false false) (err (lit "sequence item")) ;; seq_loop n L map (v' ++ [x]) else backward ;;; ret (YSeq v'))).
    { intros b. apply twin_if; [|st; now apply seq_ret]. st. eapply twin_bind; [apply twin_or_else; [apply I1|apply twin_err]|].
      intros w' x x' Hw Hx. apply I9. apply Forall2_snoc; [eapply NRs_mono; eassumption|exact Hx]. }
    destruct Hv as [|y y' r r' Hy Hr]; (apply twin_then; [bw|exact E]).
  - intros w L map flow. cbn [map_]. auto.
  - intros w L map flow v v' Hv. cbn [map_loop]. st.
    set (RK := fun (w : anchors_t) (a a' : node + option yaml) => match a, a' with
      | inl k, inl k' => NR w k k' | inr (Some y), inr (Some y') => YR w y y' | inr None, inr None => True | _, _ => False end).
    apply twin_bind with (RA := RK).
    + destruct Hv as [|x x' r r' Hx Hr].
      * do 3 st. eapply twin_bind; [apply twin_if; [apply KEY, twin_or_else; [apply I1|apply twin_err]|apply I2]|].
        intros w' k k' Hw Hk. st. apply twin_if; apply twin_ret; intros w2 Hw2; cbn; [|eapply NR_mono; eassumption].
        eapply YR_mono; [exact Hw2|apply Hk].
      * st. apply twin_if; [apply twin_err|]. st. apply twin_if; [apply twin_ret; intros; exact I|]. do 2 st.
        eapply twin_bind; [apply twin_if; [apply KEY, twin_or_else; [apply I1|apply twin_err]|apply twin_or_else; [apply I2|apply twin_err]]|].
        intros w' k k' Hw Hk. st. apply twin_if; [apply twin_err|]. apply twin_ret; intros w2 Hw2; cbn. eapply NR_mono; eassumption.
    + intros w' [k|[y|]] [k'|[y'|]] Hw Hk; try contradiction.
      * st. eapply twin_bind; [apply twin_or_else; [apply I1|apply twin_err]|]. intros w2 x x' Hw2 Hx. apply I11.
        apply Forall2_snoc; [exact (PRs_mono _ _ _ _ (ext_trans _ _ _ Hw Hw2) Hv)|]. split; [exact (NR_mono _ _ _ _ Hw2 Hk)|exact Hx].
      * apply twin_ret. intros. eapply YR_mono; eassumption.
      * st. apply R_map. eapply PRs_mono; eassumption.
Qed.

(** *** Documents *)
(** the nodes of the documents, each related under the anchors of its document *)
Inductive each : list node -> list node -> list anchors_t -> Prop :=
| ENil : each [] [] []
| ESnoc v v' ts n n' t : each v v' ts -> NR t n n' -> each (v ++ [n]) (v' ++ [n']) (ts ++ [t]).
Lemma each_length v v' ts : each v v' ts -> List.length v = List.length ts /\ List.length v' = List.length ts.
Proof. induction 1 as [|v v' ts n n' t H [IH1 IH2] Hn]; [now split|]. rewrite !app_length. cbn. lia. Qed.
Definition same {A} (P : A -> st -> A -> st -> Prop) (x x' : res A * st) : Prop :=
  off (fst x) (fst x') \/
  match x, x' with
  | (ROk a, t), (ROk a', t') => P a t a' t'
  | (RErr e, _), (RErr e', _) => e = e'
  | (RPanic, _), (RPanic, _) => True
  | (RDiv, _), (RDiv, _) => True
  | _, _ => False
  end.
Lemma same_bind {A B} (P : A -> st -> A -> st -> Prop) (Q : B -> st -> B -> st -> Prop) m m' f f' s s' :
  same P (m s) (m' s') -> (forall a t a' t', P a t a' t' -> same Q (f a t) (f' a' t')) -> same Q (bind m f s) (bind m' f' s').
Proof.
  intros [(L & O)|R] Hf; unfold bind.
  - left. split; [exact L|]. destruct (m s) as [[a|e| |] t], (m' s') as [[a'|e'| |] t']; cbn [fst] in *;
      destruct O as [O|[O|(msg & O)]]; try discriminate; try injection O as ->; cbn [fst]; eauto.
  - destruct (m s) as [[a|e| |] t], (m' s') as [[a'|e'| |] t']; try contradiction; try (right; exact R). now apply Hf.
Qed.
Lemma same_twin {A} (RA : anchors_t -> A -> A -> Prop) m m' s s' : twin [] RA m m' -> SR s s' ->
  same (fun a t a' t' => SR t t' /\ grows s' t' /\ RA (cur t') a a') (m s) (m' s').
Proof.
  intros H HS. destruct (H s s' HS) as [O|K]; [intros a n; discriminate|now left|right].
  destruct (m s) as [[a|[|nm msg]| |] t], (m' s') as [[a'|[|nm' msg']| |] t']; try exact K; try discriminate; reflexivity.
Qed.
Lemma same_blind {A B} (Q : B -> st -> B -> st -> Prop) (m : M A) f f' s s' : blind m -> SR s s' ->
  (forall a t t', SR t t' -> l_anchors t' = l_anchors s' -> l_doc_ind t' = l_doc_ind s' -> same Q (f a t) (f' a t')) ->
  same Q (bind m f s) (bind m f' s').
Proof.
  intros Hm HS Hf. destruct (SR_blind m s s' Hm HS) as (F & S1 & _). destruct (Hm s') as [_ _]. pose proof (blind_rest m s' Hm) as R.
  unfold bind. destruct (m s) as [r t], (m s') as [r' t']. cbn [fst snd] in *. subst r'.
  destruct r as [a|e| |]; try (right; reflexivity); try (now right). apply Hf; [exact S1|rewrite R; reflexivity|rewrite R; reflexivity].
Qed.
Lemma nth_ext' {A} : forall l l' : list A, (forall i, nth_error l i = nth_error l' i) -> l = l'.
Proof.
  induction l as [|x l IH]; intros [|y l'] H; [reflexivity|specialize (H 0); discriminate|specialize (H 0); discriminate|].
  pose proof (H 0) as H0. injection H0 as ->. f_equal. apply IH. intros i. exact (H (S i)).
Qed.
Lemma same_doc n s s' : SR s s' -> l_doc_ind s' = List.length (l_anchors s') ->
  same (fun nd t nd' t' => SR t t' /\ l_doc_ind t' = List.length (l_anchors t') /\ exists T, l_anchors t' = l_anchors s' ++ [T] /\ NR T nd nd')
    (doc n s) (doc n s').
Proof.
  intros HS HI. unfold doc. pose proof bl_bound. pose proof bl_gap.
  apply same_blind; [bw|exact HS|]. intros _ t t' S1 A1 D1. rewrite <- D1, <- A1 in HI. rewrite <- A1. clear dependent s. clear s' A1 D1.
  apply same_blind; [bw|exact S1|]. intros _ s s' HS A1 D1. rewrite <- D1, <- A1 in HI. rewrite <- A1. clear dependent t. clear t' A1 D1.
  eapply same_bind with (P := fun _ t _ t' => SR t t' /\ l_doc_ind t' = l_doc_ind s' /\ l_anchors t' = l_anchors s' ++ [[]]).
  { right. cbn. destruct HS as (E & D & I & C1 & C2 & H1 & H2 & TS). unfold SR. cbn. repeat split; auto.
    - rewrite E. reflexivity.
    - apply Forall2_snoc; [exact TS|]. now intros a. }
  intros _ t _ t' (S1 & D1 & A1).
  eapply same_bind; [apply same_twin; [apply (w_scalar _ (all_twin_all n))|exact S1]|].
  intros nd u nd' u' (S2 & (G1 & G2 & G3 & G4) & HN). cbn beta.
  assert (A2 : l_anchors u' = l_anchors s' ++ [cur u']).
  { assert (Lu : List.length (l_anchors u') = S (List.length (l_anchors s'))) by (rewrite G2, A1, app_length; cbn; lia).
    apply nth_ext'. intros i. destruct (Nat.eq_dec i (l_doc_ind s')) as [-> |Hi].
    - rewrite HI, nth_error_app2, Nat.sub_diag by lia. cbn. unfold cur. rewrite G1, D1, HI. apply nth_error_nth'. lia.
    - rewrite G4 by congruence. rewrite A1. destruct (Nat.lt_ge_cases i (List.length (l_anchors s'))) as [L|L].
      + now rewrite !nth_error_app1 by exact L.
      + rewrite !nth_error_app2 by exact L. destruct (i - List.length (l_anchors s')) as [|j] eqn:Ej; [lia|]. now destruct j. }
  apply same_blind; [bw|exact S2|]. intros _ x1 x1' X1 Y1 Z1.
  apply same_blind; [bw|exact X1|]. intros _ x2 x2' X2 Y2 Z2.
  apply same_blind; [bw|exact X2|]. intros _ x3 x3' X3 Y3 Z3.
  right. cbn. pose proof X3 as (E & Dd & I & C1 & C2 & H1 & H2 & TS). split; [|split].
  - unfold SR. cbn. repeat split; auto; rewrite E; reflexivity.
  - rewrite Y3, Y2, Y1, A2, app_length, Z3, Z2, Z1, G1, D1, HI. cbn. lia.
  - exists (cur u'). split; [congruence|exact HN].
Qed.
Lemma same_docs n : forall k v v' s s', SR s s' -> l_doc_ind s' = List.length (l_anchors s') -> each v v' (l_anchors s') ->
  same (fun r t r' t' => each r r' (l_anchors t') /\ Forall2 TR (l_anchors t) (l_anchors t')) (docs_loop k n v s) (docs_loop k n v' s').
Proof.
  induction k as [|k IH]; intros v v' s s' HS HI HE; [now right|]. cbn [docs_loop]. pose proof bl_gap.
  apply same_blind; [bw|exact HS|]. intros _ t t' S1 A1 D1. rewrite <- D1, <- A1 in HI. rewrite <- A1 in HE. clear dependent s. clear s' A1 D1.
  apply same_blind; [bw|exact S1|]. intros fd s s' HS A1 D1. rewrite <- D1, <- A1 in HI. rewrite <- A1 in HE. clear dependent t. clear t' A1 D1.
  destruct fd as [|x fd]; [right; cbn; split; [exact HE|apply HS]|].
  apply same_blind; [bw|exact HS|]. intros e t t' S1 A1 D1. rewrite <- D1, <- A1 in HI. rewrite <- A1 in HE. clear dependent s. clear s' A1 D1.
  destruct e.
  - destruct (SR_blind (@err (list node) (lit "document splitter")) t t' (bl_err _) S1) as (F & _). right. revert F. unfold err.
    destruct (indicated_msg (p_doc t) (indicator_of t)), (indicated_msg (p_doc t') (indicator_of t')); cbn [fst]; intros F; try discriminate; [|exact I].
    injection F as ->. reflexivity.
  - eapply same_bind; [apply same_doc; eassumption|]. intros nd u nd' u' (S2 & D2 & T & A2 & HN). apply IH; [exact S2|exact D2|].
    rewrite A2. now constructor.
Qed.
Theorem same_parse n : same (fun v t v' t' => each v v' (l_anchors t') /\ Forall2 TR (l_anchors t) (l_anchors t'))
  (parse_fuel n (new_st h1 c1 d)) (parse_fuel n (new_st h2 c2 d)).
Proof.
  assert (HS : SR (new_st h1 c1 d) (new_st h2 c2 d)) by (unfold SR; cbn; repeat split; constructor).
  pose proof bl_gap. pose proof (bl_directives n). unfold parse_fuel.
  apply same_blind; [bw|exact HS|]. intros _ t t' S1 A1 D1.
  apply same_blind; [bw|exact S1|]. intros _ u u' S2 A2 D2.
  apply same_blind; [bw|exact S2|]. intros _ r r' S3 A3 D3.
  assert (A : l_anchors r' = []) by (rewrite A3, A2, A1; reflexivity). assert (D : l_doc_ind r' = 0) by (rewrite D3, D2, D1; reflexivity).
  eapply same_bind; [apply same_doc; [exact S3|now rewrite A, D]|].
  intros nd x nd' x' (S4 & D4 & T & A4 & HN). apply same_docs; [exact S4|exact D4|]. rewrite A4, A. apply (ESnoc [] [] []); [constructor|exact HN].
Qed.
End Twin.
