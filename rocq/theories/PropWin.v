(** * C34, C42 with both kinds of line breaks *)
From Verif Require Export PropDump4 PropString.
Open Scope nat_scope.

Lemma untagged_own n : untagged n -> own_tag (n_rawtag n) = [].
Proof. intros [->|[t ->]]; reflexivity. Qed.
Lemma bare_marks p n : untagged n -> marks_ok [] p n.
Proof. intros H. constructor; [intros kv []|left; now apply untagged_own|discriminate|]. intros _. split; [now apply untagged_own|reflexivity]. Qed.
(** what C34 speaks about fits everywhere *)
Lemma keeps_fits cyclic uni y : forall q t p, keeps uni (Node q t y) -> PropDump3.fits cyclic uni [] p (Node q t y).
Proof.
  induction y as [| b | s | s | s | l IH | m IH | al] using yaml_ind2; intros q t p H;
    (inversion H as [n U S|n v U E Hn F|n w U E Hn D F]; subst; cbn [n_yaml] in *;
     [apply FitScalar; [now apply bare_marks|now left]| |]); try discriminate.
  - injection E as <-. eapply FitSeq; [now apply bare_marks|reflexivity|exact Hn|]. rewrite Forall_forall in *. intros [q' t' x] Hx. apply (IH _ Hx), F, Hx.
  - injection E as <-. destruct m as [|[k x] m]; [congruence|]. inversion F as [|? ? (U1 & S1 & R1 & K1) F2]; subst. inversion IH as [|? ? [_ I1] IH2]; subst. cbn [fst snd] in *.
    eapply FitMap; [now apply bare_marks|reflexivity| | | |].
    + split; [exact D|]. eapply Forall_impl; [|exact F]. intros kv K. apply K.
    + apply FitScalar; [now apply bare_marks|now left].
    + destruct x. now apply I1.
    + clear - IH2 F2. rewrite Forall_forall in *. intros [k [q' t' x]] Hx. destruct (F2 _ Hx) as (U1 & S1 & R1 & K1). destruct (IH2 _ Hx) as [_ I1]. cbn [fst snd] in *.
      split; [apply FitScalar; [now apply bare_marks|now left]|now apply I1].
Qed.
Lemma no_names n : anchored [] n = [].
Proof. unfold anchored. generalize (PropDump3.inside (n_yaml n) ++ [n]). intros l. induction l as [|x l IH]; [reflexivity|]. cbn [flat_map]. rewrite IH. reflexivity. Qed.
Lemma keep_docs cyclic uni : forall ns p ans, no_anchors ans -> Forall (keeps uni) ns -> docs_fit cyclic uni p ns ans.
Proof.
  induction ns as [|n ns IH]; intros p ans Ha H; [exact I|]. inversion H as [|? ? H1 H2]; subst.
  assert (E : hd [] ans = []) by (destruct ans as [|a r]; [reflexivity|]; now inversion Ha). split; [|split].
  - destruct n. replace (hd [] ans) with (@nil (str * node)) by (symmetry; exact E). now apply keeps_fits.
  - replace (hd [] ans) with (@nil (str * node)) by (symmetry; exact E). rewrite no_names. constructor.
  - apply IH; [|exact H2]. destruct ans; [constructor|now inversion Ha].
Qed.
Lemma settle_strips nds ns : List.map settle nds = List.map settle ns -> List.map (fun n => strip (n_yaml n)) nds = List.map (fun n => strip (n_yaml n)) ns.
Proof.
  revert ns. induction nds as [|n nds IH]; intros [|m ns] E; try discriminate; [reflexivity|]. cbn [List.map] in *. f_equal; [|apply IH; congruence].
  apply settled_strip. unfold settle in E. congruence.
Qed.

(** C34 with the line breaks of either platform *)
Theorem C34_any_line_breaks : forall (win : bool) (uni : N -> bool) (hk : hasher) (ns : list node) (ans : list anchors_t),
  ns <> [] -> Forall (keeps uni) ns -> no_anchors ans ->
  exists t nds, dump win uni ns ans = ROk t /\ parse hk t = ROk nds
    /\ List.map (fun n => strip (n_yaml n)) nds = List.map (fun n => strip (n_yaml n)) ns.
Proof.
  intros win uni hk ns ans Hn H Ha. destruct (C57_dump_then_parse win uni hk ns ans Hn (keep_docs false uni ns First ans Ha H)) as (t & nds & D & P & S).
  exists t, nds. split; [exact D|]. split; [exact P|]. now apply settle_strips.
Qed.
(** C42 with the line breaks of either platform *)
Theorem C42_any_line_breaks : forall (win : bool) (uni : N -> bool) (show_f : f64 -> str) (hk : hasher), reads_back show_f ->
  forall (t : ty) (v : val), has t v -> prints uni show_f t v ->
  exists text, to_string win uni show_f hk t v = Some (DOk text) /\ from_str show_f hk t text = Some (DOk [v]).
Proof.
  intros win uni show_f hk Hf t v H Hp. destruct (round_trip show_f hk Hf t v H) as (n & S & D & _).
  destruct (all_kept_ty uni show_f hk Hf t v n H Hp S) as [K _].
  destruct (C34_any_line_breaks win uni hk [n] []) as (text & nds & E & P & Sm); [discriminate|now constructor|constructor|].
  exists text. unfold to_string, from_str. rewrite S, E, P. split; [reflexivity|].
  destruct nds as [|nd [|? ?]]; try discriminate. injection Sm as Sm. cbn [de_all].
  rewrite (de_same_data show_f hk t n nd v); [reflexivity| |exact D]. now symmetry.
Qed.
