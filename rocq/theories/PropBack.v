(** * PropBack: a failed match gives the input back (C03). *)
From Verif Require Export PropFloat2.
Open Scope nat_scope.

(** The only effect of [m] is to move the cursor inside the document; when it
    fails it is with a mismatch and the cursor is at the checkpoint. *)
Definition gives_back {A} (m : M A) : Prop :=
  forall s, p_pos s <= List.length (p_doc s) ->
  (exists a p, m s = (ROk a, set_pos p s) /\ p <= List.length (p_doc s))
  \/ m s = (RErr Mismatch, set_pos (p_eaten s) s).
(** The same, but a failure leaves the cursor where it was. *)
Definition stays {A} (m : M A) : Prop :=
  forall s, p_pos s <= List.length (p_doc s) ->
  (exists a p, m s = (ROk a, set_pos p s) /\ p <= List.length (p_doc s))
  \/ m s = (RErr Mismatch, s).

Lemma gb_bind {A B} (m : M A) (f : A -> M B) :
  gives_back m -> (forall a, gives_back (f a)) -> gives_back (bind m f).
Proof.
  intros Hm Hf s H. destruct (Hm s H) as [(a & p & E & Hp)|E].
  - rewrite (bind_ok _ _ _ _ _ E). destruct (Hf a (set_pos p s) Hp) as [(b & q & E' & Hq)|E'];
      rewrite E'; [left; exists b, q; auto|right; reflexivity].
  - right. now rewrite (bind_err _ _ _ _ _ E).
Qed.
Lemma gb_ret {A} (a : A) : gives_back (ret a).
Proof. intros s H. left. exists a, (p_pos s). now rewrite set_pos_id. Qed.
Lemma gb_take f opt : gives_back (take_while f opt).
Proof.
  intros s H. rewrite take_while_exec by exact H. cbv zeta. destruct (Nat.leb _ _); [|now right].
  left. exists tt. eexists. split; [reflexivity|].
  pose proof (cap_le opt (span f (rem s))). pose proof (span_le f (rem s)).
  rewrite rem_length in *. lia.
Qed.
Lemma gb_sym_seq cs : gives_back (sym_seq cs).
Proof. induction cs as [|c cs IH]; [apply gb_ret|]. apply gb_bind; [apply gb_take|auto]. Qed.
Lemma gb_identifier : gives_back identifier.
Proof. apply gb_bind; intros; apply gb_take. Qed.
Lemma gb_bound : gives_back bound.
Proof.
  intros s H. rewrite bound_exec by exact H. destruct (at_bound _); [|now right].
  left. exists tt. eexists. split; [reflexivity|]. pose proof (span_le is_ws (rem s)) as K.
  fold (ws_len (rem s)) in K. rewrite rem_length in K. lia.
Qed.
Lemma gb_text : gives_back text.
Proof.
  intros s H. left. rewrite text_exec by exact H. eexists _, (p_pos s). now rewrite set_pos_id.
Qed.
(** a failed optional match leaves the cursor at the checkpoint, which has to be
    in the document *)
Definition gb_at {A} (m : M A) : Prop :=
  forall s, p_eaten s <= p_pos s -> p_pos s <= List.length (p_doc s) ->
  (exists a p, m s = (ROk a, set_pos p s) /\ p_eaten s <= p /\ p <= List.length (p_doc s))
  \/ m s = (RErr Mismatch, set_pos (p_eaten s) s).
Lemma at_bind {A B} (m : M A) (f : A -> M B) : gb_at m -> (forall a, gb_at (f a)) -> gb_at (bind m f).
Proof.
  intros Hm Hf s H0 H. destruct (Hm s H0 H) as [(a & p & E & Hp & Hl)|E].
  - rewrite (bind_ok _ _ _ _ _ E). destruct (Hf a (set_pos p s) Hp Hl) as [(b & q & E' & Hq & Hl')|E'];
      rewrite E'; [left; exists b, q; auto|right; reflexivity].
  - right. now rewrite (bind_err _ _ _ _ _ E).
Qed.
Lemma at_ret {A} (a : A) : gb_at (ret a).
Proof. intros s H0 H. left. exists a, (p_pos s). now rewrite set_pos_id. Qed.
Lemma at_take f opt : gb_at (take_while f opt).
Proof.
  intros s H0 H. rewrite take_while_exec by exact H. cbv zeta. destruct (Nat.leb _ _); [|now right].
  left. exists tt. eexists. split; [reflexivity|].
  pose proof (cap_le opt (span f (rem s))). pose proof (span_le f (rem s)).
  rewrite rem_length in *. lia.
Qed.
Lemma at_text : gb_at text.
Proof. intros s H0 H. left. rewrite text_exec by exact H. eexists _, (p_pos s). now rewrite set_pos_id. Qed.
Lemma at_bound_m : gb_at bound.
Proof.
  intros s H0 H. rewrite bound_exec by exact H. destruct (at_bound _); [|now right].
  left. exists tt. eexists. split; [reflexivity|]. pose proof (span_le is_ws (rem s)) as K.
  fold (ws_len (rem s)) in K. rewrite rem_length in K. lia.
Qed.
Lemma at_unwrap {A} (d : A) (m : M A) : gb_at m -> gb_at (unwrap_or d m).
Proof.
  intros Hm s H0 H. left. destruct (Hm s H0 H) as [(a & p & E & Hp & Hl)|E];
    rewrite (unwrap_or_eq _ _ _ _ E); [exists a, p; auto|].
  exists d, (p_eaten s). repeat split; lia.
Qed.
Lemma at_is_ok {A} (m : M A) : gb_at m -> gb_at (is_ok m).
Proof.
  intros Hm s H0 H. left. destruct (Hm s H0 H) as [(a & p & E & Hp & Hl)|E];
    rewrite (is_ok_eq _ _ _ E); [exists true, p; auto|].
  exists false, (p_eaten s). repeat split; lia.
Qed.
Lemma at_context_bool (m : M bool) : gb_at m ->
  (forall s, exists b s', m s = (ROk b, s') \/ ~ (p_eaten s <= p_pos s <= List.length (p_doc s))) ->
  gb_at (context m).
Proof.
  intros Hm Hok s H0 H. left. unfold context.
  destruct (Hm (set_eaten (p_pos s) s)) as [(a & p & E & Hp & Hl)|E]; [simpl; lia|exact H|..].
  - rewrite E. exists a, p. cbn [p_eaten set_eaten] in Hp. split; [|split; [lia|exact Hl]].
    reflexivity.
  - exfalso. destruct (Hok (set_eaten (p_pos s) s)) as (b & s' & [K|K]); [congruence|].
    apply K. cbn [p_eaten p_pos p_doc set_eaten]. lia.
Qed.
Lemma at_num_prefix : gb_at num_prefix.
Proof. apply at_bind; [apply at_unwrap, at_take|intros; apply at_take]. Qed.
Lemma at_octhex : gb_at (context (orM (is_ok octal) (is_ok hexadecimal))).
Proof.
  assert (O : gb_at octal) by (apply at_bind; intros; apply at_take).
  assert (X : gb_at hexadecimal) by (apply at_bind; intros; apply at_take).
  assert (T : gb_at (orM (is_ok octal) (is_ok hexadecimal))).
  { apply at_bind; [now apply at_is_ok|]. intros []; [apply at_ret|now apply at_is_ok]. }
  apply at_context_bool; [exact T|]. intros s.
  destruct (le_lt_dec (p_eaten s) (p_pos s)) as [L1|L1]; [|exists true, s; right; lia].
  destruct (le_lt_dec (p_pos s) (List.length (p_doc s))) as [L2|L2]; [|exists true, s; right; lia].
  unfold orM. destruct (at_is_ok _ O s L1 L2) as [(a & p & E & Hp & Hl)|E].
  - rewrite (bind_ok _ _ _ _ _ E). destruct a; [do 2 eexists; left; reflexivity|].
    destruct (at_is_ok _ X (set_pos p s) Hp Hl) as [(b & q & E' & _)|E']; [do 2 eexists; left; exact E'|].
    exfalso. revert E'. unfold is_ok. destruct (hexadecimal _) as [[]]; discriminate.
  - exfalso. revert E. unfold is_ok. destruct (octal _) as [[]]; discriminate.
Qed.
Lemma at_int : gb_at int.
Proof.
  unfold int. apply at_bind; [apply at_num_prefix|intros _]. apply at_bind; [apply at_text|intros s0].
  apply at_bind; [destruct (str_eqb _ _); [apply at_octhex|apply at_ret]|intros b].
  apply at_bind; [destruct b; [apply at_text|apply at_ret]|intros s1].
  apply at_bind; [apply at_take|intros _]. apply at_bind; [apply at_bound_m|intros _]. apply at_ret.
Qed.
Lemma at_tail (x : str) : gb_at (bind (count (ws (More 0))) (fun n =>
    bind (if Nat.ltb 0 n then back 1 else ret tt) (fun _ => bind bound (fun _ => ret x)))).
Proof.
  intros s H0 H. rewrite (bind_ok _ _ _ _ _ (count_ws_exec s H)).
  set (w := ws_len (rem s)). assert (Hw : w <= List.length (rem s)) by apply span_le. rewrite rem_length in Hw.
  assert (Hb : (if Nat.ltb 0 w then back 1 else ret tt) (set_pos (p_pos s + w) s)
               = (@ROk unit tt, set_pos (p_pos s + (w - 1)) s)).
  { destruct (Nat.ltb_spec 0 w) as [W|W].
    - unfold back. cbn [p_pos set_pos]. rewrite (proj2 (Nat.leb_le 1 _)) by lia.
      f_equal. unfold set_pos; simpl. f_equal. lia.
    - replace w with 0 by lia. reflexivity. }
  rewrite (bind_ok _ _ _ _ _ Hb).
  assert (K : gb_at (bind bound (fun _ => ret x))) by (apply at_bind; [apply at_bound_m|intros; apply at_ret]).
  destruct (K (set_pos (p_pos s + (w - 1)) s)) as [(a & p & E & Hp & Hl)|E]; [simpl; lia|simpl; lia|..]; rewrite E.
  - left. exists a, p. auto.
  - now right.
Qed.
Lemma at_float : gb_at float.
Proof.
  unfold float. apply at_bind; [apply at_num_prefix|intros _]. apply at_bind; [apply at_take|intros _].
  apply at_bind; [apply at_take|intros _]. apply at_bind; [apply at_text|intros t]. apply at_tail.
Qed.
Lemma at_sci : gb_at sci_float.
Proof.
  unfold sci_float. apply at_bind; [apply at_num_prefix|intros _]. apply at_bind; [apply at_take|intros _].
  apply at_bind; [apply at_take|intros _]. apply at_bind; [apply at_take|intros _].
  apply at_bind; [apply at_text|intros t]. apply at_tail.
Qed.

(** ** C03 *)
(** The elementary matchers change nothing but the cursor, never panic inside
    the document, and a failure puts the cursor back at the checkpoint. *)
Theorem C03_mismatch_returns_to_checkpoint :
  (forall f opt, gives_back (take_while f opt))
  /\ (forall c, gives_back (sym c)) /\ (forall cs, gives_back (sym_set cs))
  /\ (forall cs, gives_back (sym_seq cs)) /\ (forall opt, gives_back (ws opt))
  /\ (forall opt, gives_back (inv opt)) /\ gives_back identifier /\ gives_back bound.
Proof.
  repeat split; intros; try apply gb_take; [apply gb_sym_seq|apply gb_identifier|apply gb_bound].
Qed.
(** So do the number matchers, from a checkpoint not behind the cursor. *)
Theorem C03_number_mismatch_returns_to_checkpoint : forall m, In m [int; float; sci_float] ->
  forall s, p_eaten s <= p_pos s -> p_pos s <= List.length (p_doc s) ->
  (exists a p, m s = (ROk a, set_pos p s) /\ p_eaten s <= p /\ p <= List.length (p_doc s))
  \/ m s = (RErr Mismatch, set_pos (p_eaten s) s).
Proof.
  intros m [<-|[<-|[<-|[]]]]; [exact at_int|exact at_float|exact at_sci].
Qed.
(** A failed line break leaves everything as it was.  A failed anchor or alias
    leaves the cursor at the checkpoint when the indicator is missing; when only
    the name is missing, it stays just after the indicator: a partial match is
    not given back. *)
Theorem C03_nl_and_names : 
  stays nl
  /\ (forall s, p_pos s <= List.length (p_doc s) -> forall m c, (m, c) = (anchor, 38%N) \/ (m, c) = (anchor_use, 42%N) ->
      (exists a p, m s = (ROk a, set_pos p s) /\ p <= List.length (p_doc s))
      \/ m s = (RErr Mismatch, set_pos (p_eaten s) s)
      \/ ((exists r, skipn (p_pos s) (p_doc s) = c :: r) /\ m s = (RErr Mismatch, set_pos (p_pos s + 1) s))).
Proof.
  split.
  - intros s H. rewrite nl_exec by exact H. destruct (Nat.eqb _ 0); [now right|]. left.
    exists tt. eexists. split; [reflexivity|]. pose proof (nl_len_le (rem s)) as K. rewrite rem_length in K. lia.
  - intros s H m c Hm.
    assert (Em : m = bind (sym c) (fun _ => context (bind identifier (fun _ => text))))
      by (destruct Hm as [[= -> ->]|[= -> ->]]; reflexivity).
    rewrite Em, (named_exec c s H). cbv zeta. fold (rem s).
    assert (LK : anchor_f c (rem s) + 1 <= List.length (rem s) \/ anchor_f c (rem s) = 0).
    { unfold anchor_f. destruct (rem s) as [|x r]; [now right|]. destruct (N.eqb x c); [|now right].
      pose proof (ident_len_le r). simpl. lia. }
    rewrite rem_length in LK.
    destruct (Nat.eqb_spec (anchor_f c (rem s)) 0) as [A0|A0].
    + right. destruct (rem s) as [|x r] eqn:R; [left; reflexivity|].
      destruct (N.eqb_spec x c) as [->|Hx]; [right; split; [eauto|reflexivity]|left; reflexivity].
    + left. eexists _, _. split; [reflexivity|]. lia.
Qed.
Theorem C03_anchor_gives_back_refuted : exists s s',
  p_pos s <= List.length (p_doc s) /\ anchor s = (RErr Mismatch, s') /\ p_pos s' <> p_eaten s'.
Proof.
  exists (new_st (fun _ => 0%N) false (lit "& x")). eexists.
  split; [simpl; lia|]. split; [vm_compute; reflexivity|]. vm_compute. discriminate.
Qed.
(** context(f) gives the caller's checkpoint back whatever f does, runs f with
    the checkpoint at the cursor, and changes nothing else. *)
Theorem C03_context_restores : forall A (f : M A) s,
  p_eaten (snd (context f s)) = p_eaten s
  /\ fst (context f s) = fst (f (set_eaten (p_pos s) s))
  /\ snd (context f s) = set_eaten (p_eaten s) (snd (f (set_eaten (p_pos s) s)))
  /\ p_pos (snd (context f s)) = p_pos (snd (f (set_eaten (p_pos s) s))).
Proof.
  intros A f s. unfold context. destruct (f _) as [r s']. cbn [fst snd]. repeat split; reflexivity.
Qed.
Example C03_witness :
  let s := set_pos 2 (set_eaten 1 (new_st (fun _ => 0%N) false (lit "ab12.5e"))) in
  p_eaten s <= p_pos s /\ p_pos s <= List.length (p_doc s)
  /\ int s = (RErr Mismatch, set_pos 1 s) /\ fst (sym (chr "1") s) = ROk tt
  /\ sym_seq (lit "13") s = (RErr Mismatch, set_pos 1 s).
Proof. cbv zeta. cbn. repeat split; try lia; vm_compute; reflexivity. Qed.
