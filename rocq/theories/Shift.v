(** * Shift: the parser does not look at what stands before its cursor (used by
    PropShift).  Two runs are compared: one on a document [d], one on the rest of
    [d] from byte [k] on. *)
From Verif Require Export PropFuel.
Open Scope nat_scope.

(** ** Nodes with all their positions moved by [x] *)
Section Move.
Variable x : N.
Fixpoint move_yaml (y : yaml) : yaml :=
  match y with
  | YSeq l => YSeq (List.map (fun n => match n with Node p t z => Node (p + x) t (move_yaml z) end) l)
  | YMap m => YMap (List.map (fun kv => match kv with (Node p t z, Node p' t' z') => (Node (p + x) t (move_yaml z), Node (p' + x) t' (move_yaml z')) end) m)
  | _ => y
  end.
Definition move (n : node) : node := match n with Node p t y => Node (p + x) t (move_yaml y) end.
Definition move_pair (kv : node * node) : node * node := (move (fst kv), move (snd kv)).
Definition move_table (m : anchors_t) : anchors_t := List.map (fun an => (fst an, move (snd an))) m.

Lemma move_seq l : move_yaml (YSeq l) = YSeq (List.map move l).
Proof. reflexivity. Qed.
Lemma move_map m : move_yaml (YMap m) = YMap (List.map move_pair m).
Proof. cbn [move_yaml]. f_equal. apply map_ext. now intros [[p t z] [p' t' z']]. Qed.
Lemma move_hash : forall y, hash_stream (move_yaml y) = hash_stream y.
Proof.
  induction y as [| b0 | s | s | s | l IH | m IH | al] using yaml_ind2; try reflexivity.
  - cbn [move_yaml hash_stream]. f_equal. rewrite map_length. f_equal.
    induction IH as [|[p t z] r Hz Hr IH]; [reflexivity|]. cbn [List.map n_yaml] in *. now rewrite Hz, IH.
  - cbn [move_yaml hash_stream]. f_equal.
    induction IH as [|[[p t z] [p' t' z']] r [Hz Hz'] Hr IH]; [reflexivity|]. cbn [List.map n_yaml fst snd] in *. now rewrite Hz, Hz', IH.
Qed.
Lemma move_eq : forall a b, yaml_eq (move_yaml a) (move_yaml b) = yaml_eq a b.
Proof.
  induction a as [| b0 | s | s | s | l IH | m IH | al] using yaml_ind2; intros b; try (destruct b; reflexivity).
  - destruct b as [| | | | | l' | |]; try reflexivity. cbn [move_yaml yaml_eq]. rewrite !map_length.
    destruct (Nat.eqb _ _); [|reflexivity]. revert l'. induction IH as [|[p t z] r Hz Hr IH]; intros [|[p' t' z'] r']; try reflexivity.
    cbn [List.map n_yaml] in *. rewrite Hz. now rewrite IH.
  - destruct b as [| | | | | | m' |]; try reflexivity. cbn [move_yaml yaml_eq]. rewrite !map_length.
    destruct (Nat.eqb _ _); [|reflexivity]. revert m'.
    induction IH as [|[[p t z] [p' t' z']] r [Hz Hz'] Hr IH]; intros [|[[q u w] [q' u' w']] r']; try reflexivity.
    cbn [List.map n_yaml fst snd] in *. rewrite Hz, Hz'. now rewrite IH.
Qed.
Lemma move_n_yaml n : n_yaml (move n) = move_yaml (n_yaml n).
Proof. now destruct n. Qed.
Lemma move_match hk a b : key_match hk (move a) (move b) = key_match hk a b.
Proof. unfold key_match, node_eq. now rewrite !move_n_yaml, !move_hash, move_eq. Qed.
Lemma move_take hk a : forall m, map_take hk (move a) (List.map move_pair m) =
  match map_take hk a m with Some (o, r) => Some (option_map move o, List.map move_pair r) | None => None end.
Proof.
  induction m as [|[k v] m IH]; [reflexivity|]. cbn [map_take List.map move_pair fst snd]. rewrite move_match.
  destruct (key_match hk a k) as [[|]|]; [reflexivity| |reflexivity]. rewrite IH. now destruct (map_take hk a m) as [[o r]|].
Qed.
Lemma move_extend hk : forall l m, map_extend hk (List.map move_pair m) (List.map move_pair l) = option_map (List.map move_pair) (map_extend hk m l).
Proof.
  induction l as [|[k v] l IH]; intros m; [reflexivity|]. cbn [map_extend List.map move_pair fst snd]. unfold map_insert. rewrite move_take.
  destruct (map_take hk k m) as [[[k'|] r]|]; cbn [option_map]; [| |reflexivity].
  - rewrite <- IH. now rewrite map_app.
  - rewrite <- IH. now rewrite map_app.
Qed.
Lemma move_collect hk l : map_collect hk (List.map move_pair l) = option_map (List.map move_pair) (map_collect hk l).
Proof. apply (move_extend hk l []). Qed.
Lemma move_get a : forall m, bt_get a (move_table m) = option_map move (bt_get a m).
Proof. induction m as [|[b n] m IH]; [reflexivity|]. cbn. destruct (str_eqb _ _); [reflexivity|exact IH]. Qed.
Lemma move_insert a n : forall m, move_table (bt_insert a n m) = bt_insert a (move n) (move_table m).
Proof.
  induction m as [|[b v] m IH]; [reflexivity|]. cbn. destruct (str_eqb _ _); [reflexivity|]. destruct (str_ltb _ _); [reflexivity|].
  cbn. f_equal. exact IH.
Qed.
End Move.

(** ** Two runs *)
(** Indentations that are the same for every level; a level not entered yet counts two. *)
Definition same_indent (l l' : list nat) : Prop := l <> [] /\ l' <> [] /\ forall i, nth i l 2 = nth i l' 2.
Definition alike (e e' : perr) : Prop :=
  match e, e' with
  | Mismatch, Mismatch => True
  | Terminate nm _, Terminate nm' _ => nm = nm'
  | _, _ => False
  end.

Section Shift.
(** [lax]: the second run may panic where the first one does not (when it reports an error) *)
Variable lax : Prop.
Variable d : bytes.
Variable k : nat.
Hypothesis k_in : k <= List.length d.
(** [before]: what the first run has consumed *)
Variables before c x : N.
Hypothesis cx : (before + N.of_nat k = c + x)%N.
Variable prev : list anchors_t.
Definition rest : bytes := skipn k d.
Lemma rest_length : List.length rest + k = List.length d.
Proof. unfold rest. rewrite skipn_length. lia. Qed.

Definition over (l : list nat) (s : st) : st :=
  mkSt d l before (p_version s) (p_tag s) (p_pos s + k) (p_eaten s + k) (l_cyclic s)
    (prev ++ List.map (move_table x) (l_anchors s)) (List.length prev + l_doc_ind s) (p_hash s).
Definition fits (s : st) : Prop := p_doc s = rest /\ p_consumed s = c /\ p_pos s <= List.length rest /\ p_eaten s <= List.length rest.
Definition R (s s' : st) : Prop := exists l, s = over l s' /\ same_indent l (p_indent s') /\ fits s'.

Definition RR {A} (U : A -> A) (a a' : res A * st) : Prop :=
  match fst a' with
  | ROk v => fst a = ROk (U v) /\ R (snd a) (snd a')
  | RErr e' => (exists e, fst a = RErr e /\ alike e e') /\ R (snd a) (snd a')
  | RPanic => fst a = RPanic \/ lax
  | RDiv => fst a = RDiv
  end.
Definition sh {A} (U : A -> A) (m m' : M A) : Prop := forall s s', R s s' -> RR U (m s) (m' s').
Local Notation si := (sh (fun v => v)).

Lemma sh_ret {A} U (a : A) : sh U (ret (U a)) (ret a). Proof. intros s s' H. now split. Qed.
Lemma si_ret {A} (a : A) : si (ret a) (ret a). Proof. intros s s' H. now split. Qed.
Lemma sh_fail {A} U : sh U (@fail A Mismatch) (fail Mismatch).
Proof. intros s s' H. split; [now exists Mismatch|exact H]. Qed.
Lemma sh_div {A} U : sh U (@diverge A) diverge. Proof. now intros s s' H. Qed.
Lemma sh_bind {A B} U V (m m' : M A) (f f' : A -> M B) :
  sh U m m' -> (forall a, sh V (f (U a)) (f' a)) -> sh V (bind m f) (bind m' f').
Proof.
  intros Hm Hf s s' H. specialize (Hm s s' H). unfold bind. destruct (m s) as [r t], (m' s') as [[a|e| |] t']; cbn [fst snd RR] in *;
    unfold RR in *; cbn [fst snd] in *.
  - destruct Hm as [-> Ht]. exact (Hf a t t' Ht).
  - destruct Hm as [(e' & -> & E) Ht]. split; [now exists e'|exact Ht].
  - destruct Hm as [-> |L]; [left; reflexivity|now right].
  - now subst r.
Qed.
Lemma si_bind {A B} V (m m' : M A) (f f' : A -> M B) : si m m' -> (forall a, sh V (f a) (f' a)) -> sh V (bind m f) (bind m' f').
Proof. intros Hm Hf. eapply sh_bind; [exact Hm|exact Hf]. Qed.
Lemma si_ok {A} (m m' : M A) : si m m' -> si (ok m) (ok m').
Proof.
  intros Hm s s' H. specialize (Hm s s' H). unfold ok, RR in *. destruct (m s) as [r t], (m' s') as [[a|e| |] t']; cbn [fst snd] in *.
  - destruct Hm as [-> Ht]. now split.
  - destruct Hm as [(e' & -> & E) Ht]. now split.
  - destruct Hm as [-> |L]; [left; reflexivity|now right].
  - now subst r.
Qed.
Lemma si_is_ok {A} U (m m' : M A) : sh U m m' -> si (is_ok m) (is_ok m').
Proof.
  intros Hm s s' H. specialize (Hm s s' H). unfold is_ok, RR in *. destruct (m s) as [r t], (m' s') as [[a|e| |] t']; cbn [fst snd] in *.
  - destruct Hm as [-> Ht]. now split.
  - destruct Hm as [(e' & -> & E) Ht]. now split.
  - destruct Hm as [-> |L]; [left; reflexivity|now right].
  - now subst r.
Qed.
Lemma si_is_err {A} U (m m' : M A) : sh U m m' -> si (is_err m) (is_err m').
Proof. intros Hm. apply si_bind; [eapply si_is_ok; exact Hm|intros; apply si_ret]. Qed.
Lemma si_unwrap {A} (a : A) m m' : si m m' -> si (unwrap_or a m) (unwrap_or a m').
Proof. intros Hm. apply si_bind; [now apply si_ok|intros; apply si_ret]. Qed.
Lemma sh_or_else {A} U (m m' f f' : M A) : sh U m m' -> sh U f f' -> sh U (or_else m f) (or_else m' f').
Proof.
  intros Hm Hf s s' H. specialize (Hm s s' H). unfold or_else. unfold RR in Hm.
  destruct (m s) as [r t], (m' s') as [[a|e| |] t']; cbn [fst snd] in *.
  - destruct Hm as [-> Ht]. now split.
  - destruct Hm as [(e' & -> & E) Ht]. destruct e as [|nm msg], e' as [|nm' msg']; cbn in E; try contradiction.
    + now apply Hf.
    + split; [now eexists|exact Ht].
  - destruct Hm as [-> |L]; [left; reflexivity|now right].
  - now subst r.
Qed.
Lemma si_orM a a' b b' : si a a' -> si b b' -> si (orM a b) (orM a' b').
Proof. intros Ha Hb. apply si_bind; [exact Ha|intros []; [apply si_ret|exact Hb]]. Qed.
Lemma si_andM a a' b b' : si a a' -> si b b' -> si (andM a b) (andM a' b').
Proof. intros Ha Hb. apply si_bind; [exact Ha|intros []; [exact Hb|apply si_ret]]. Qed.
Lemma si_notM a a' : si a a' -> si (notM a) (notM a').
Proof. intros Ha. apply si_bind; [exact Ha|intros; apply si_ret]. Qed.

Lemma R_eaten s s' e : R s s' -> e <= List.length rest -> R (set_eaten (e + k) s) (set_eaten e s').
Proof. intros (l & -> & I & D & C & P & E) H. exists l. split; [reflexivity|]. split; [exact I|]. now repeat split. Qed.
Lemma R_pos s s' p : R s s' -> p <= List.length rest -> R (set_pos (p + k) s) (set_pos p s').
Proof. intros (l & -> & I & D & C & P & E) H. exists l. split; [reflexivity|]. split; [exact I|]. now repeat split. Qed.
Lemma R_at s s' : R s s' -> p_pos s = p_pos s' + k /\ p_eaten s = p_eaten s' + k /\ p_pos s' <= List.length rest /\ p_eaten s' <= List.length rest.
Proof. intros (l & -> & I & D & C & P & E). now repeat split. Qed.
Lemma sh_context {A} U (m m' : M A) : sh U m m' -> sh U (context m) (context m').
Proof.
  intros Hm s s' H. destruct (R_at s s' H) as (P & E & Pi & Ei). unfold context.
  assert (H1 : R (set_eaten (p_pos s) s) (set_eaten (p_pos s') s')) by (rewrite P; now apply R_eaten).
  specialize (Hm _ _ H1). unfold RR in *. destruct (m _) as [r t], (m' _) as [[a|e| |] t']; cbn [fst snd] in *.
  - destruct Hm as [-> Ht]. split; [reflexivity|]. rewrite E. now apply R_eaten.
  - destruct Hm as [(e' & -> & L) Ht]. split; [now exists e'|]. rewrite E. now apply R_eaten.
  - exact Hm.
  - exact Hm.
Qed.
Lemma si_modify f f' : (forall s s', R s s' -> R (f s) (f' s')) -> si (modify f) (modify f').
Proof. intros H s s' HR. split; [reflexivity|]. now apply H. Qed.
Lemma si_forward : si forward forward.
Proof. apply si_modify. intros s s' H. destruct (R_at s s' H) as (P & E & Pi & Ei). rewrite P. now apply R_eaten. Qed.
Lemma si_backward : si backward backward.
Proof. apply si_modify. intros s s' H. destruct (R_at s s' H) as (P & E & Pi & Ei). rewrite E. now apply R_pos. Qed.
Lemma R_food s s' : R s s' -> skipn (p_pos s) (p_doc s) = skipn (p_pos s') (p_doc s') /\ Nat.leb (p_pos s) (List.length (p_doc s)) = true
  /\ Nat.leb (p_pos s') (List.length (p_doc s')) = true.
Proof.
  intros (l & -> & I & D & C & P & E). cbn [over p_pos p_doc]. rewrite D. pose proof rest_length. split; [|split; apply Nat.leb_le; lia].
  unfold rest. rewrite skipn_add. f_equal. lia.
Qed.
Lemma si_food : si food food.
Proof. intros s s' H. destruct (R_food s s' H) as (E & B & B'). unfold food. rewrite B, B', E. now split. Qed.
Lemma si_text : si text text.
Proof.
  intros s s' H. destruct (R_food s s' H) as (_ & B & B'). unfold text. rewrite B, B'. destruct (R_at s s' H) as (P & E & Pi & Ei).
  replace (Nat.ltb (p_eaten s) (p_pos s)) with (Nat.ltb (p_eaten s') (p_pos s')).
  2:{ rewrite P, E. destruct (Nat.ltb_spec (p_eaten s') (p_pos s')); symmetry; [apply Nat.ltb_lt|apply Nat.ltb_ge]; lia. }
  destruct (Nat.ltb _ _); [|now split]. split; [|exact H]. cbn [fst]. do 2 f_equal. unfold slice. rewrite P, E.
  destruct H as (l & -> & I & D & C & _). cbn [over p_doc]. rewrite D. unfold rest. rewrite skipn_add. f_equal; [lia|]. f_equal. lia.
Qed.
Hypothesis strict : (c = 0%N /\ before = 0%N) \/ (lax /\ x = 0%N).
Lemma msg_some doc p : (p <= N.of_nat (List.length doc))%N -> exists msg, indicated_msg doc p = Some msg.
Proof.
  intros H. destruct (indicated_msg doc p) as [msg|] eqn:E; [now exists msg|]. rewrite <- (N2Nat.id p) in E. apply C23_panics_exactly_beyond in E. lia.
Qed.
Lemma sh_err {A} U nm : sh U (@err A nm) (err nm).
Proof.
  intros s s' H. destruct H as (l & -> & I & D & C & P & E). pose proof rest_length as RL. unfold err.
  destruct strict as [[C0 B0]|[L X0]].
  - destruct (msg_some (p_doc (over l s')) (indicator_of (over l s'))) as (msg & ->).
    { unfold indicator_of. cbn [over p_doc p_pos p_consumed]. rewrite B0. lia. }
    destruct (msg_some (p_doc s') (indicator_of s')) as (msg' & ->).
    { unfold indicator_of. rewrite C, C0, D. lia. }
    split; [eexists; split; [reflexivity|reflexivity]|]. exists l. split; [reflexivity|]. split; [exact I|]. now repeat split.
  - destruct (indicated_msg (p_doc s') (indicator_of s')) as [msg'|] eqn:EM; [|now right].
    destruct (msg_some (p_doc (over l s')) (indicator_of (over l s'))) as (msg & ->).
    { destruct (N.le_gt_cases (indicator_of s') (N.of_nat (List.length (p_doc s')))) as [Q|Q].
      - unfold indicator_of in *. cbn [over p_doc p_pos p_consumed]. rewrite D in Q. rewrite C in Q. lia.
      - rewrite <- (N2Nat.id (indicator_of s')) in EM. rewrite (proj2 (C23_panics_exactly_beyond _ _)) in EM by lia. discriminate. }
    split; [eexists; split; [reflexivity|reflexivity]|]. exists l. split; [reflexivity|]. split; [exact I|]. now repeat split.
Qed.
Lemma si_count {A} (m m' : M A) U : sh U m m' -> si (count m) (count m').
Proof.
  intros Hm s s' H. unfold count, bind, gets. specialize (Hm s s' H). destruct (R_at s s' H) as (P & E & Pi & Ei). unfold RR in *.
  destruct (m s) as [r t], (m' s') as [[a|e| |] t']; cbn [fst snd] in *.
  - destruct Hm as [-> Ht]. destruct (R_at t t' Ht) as (P' & E' & Pi' & Ei'). rewrite P, P'.
    replace (Nat.leb (p_pos s' + k) (p_pos t' + k)) with (Nat.leb (p_pos s') (p_pos t')).
    2:{ destruct (Nat.leb_spec (p_pos s') (p_pos t')); symmetry; [apply Nat.leb_le|apply Nat.leb_gt]; lia. }
    destruct (Nat.leb _ _); cbn [fst snd]; [|now left]. split; [|exact Ht]. f_equal. lia.
  - destruct Hm as [(e' & -> & L) Ht]. split; [now exists e'|exact Ht].
  - destruct Hm as [-> |L]; [left; reflexivity|now right].
  - now subst r.
Qed.
(** going back within the rest *)
Lemma R_back n s s' : R s s' -> n <= p_pos s' -> RR (fun v => v) (back n s) (back n s').
Proof.
  intros H Hn. unfold back. destruct (R_at s s' H) as (P & E & Pi & Ei). rewrite (proj2 (Nat.leb_le n (p_pos s'))) by exact Hn.
  rewrite (proj2 (Nat.leb_le n (p_pos s))) by lia. split; [reflexivity|]. cbn [snd].
  replace (p_pos s - n) with (p_pos s' - n + k) by lia. apply R_pos; [exact H|lia].
Qed.
(** [take_while]: related, and where it ends *)
Lemma take_loop_le f o : forall l n, n <= take_loop f o n l <= n + List.length l.
Proof.
  induction l as [|b l IH]; intros n; cbn [take_loop List.length]; [lia|]. destruct (negb (f b)); [lia|]. cbv zeta.
  destruct o; [lia| |specialize (IH (S n)); lia]. destruct (Nat.eqb _ _); [lia|specialize (IH (S n)); lia].
Qed.
Lemma take_exec f o s : in_doc s -> take_while f o s =
  let n := take_loop f o 0 (rem s) in
  if (if Nat.eqb n 0 then match take_min o with Some 0 => true | _ => false end else match take_min o with Some m => negb (Nat.ltb n m) | None => true end)
  then (ROk tt, set_pos (p_pos s + n) s) else (RErr Mismatch, set_pos (p_eaten s) s).
Proof.
  intros H. unfold take_while, food, bind. rewrite (proj2 (Nat.leb_le _ _) H). fold (rem s). set (n := take_loop f o 0 (rem s)). cbv zeta.
  unfold modify. destruct (Nat.eqb n 0); destruct (take_min o) as [[|m]|]; try reflexivity; destruct (Nat.ltb n _); reflexivity.
Qed.
Lemma R_in s s' : R s s' -> in_doc s /\ in_doc s' /\ rem s = rem s'.
Proof. intros H. destruct (R_food s s' H) as (E & B & B'). apply Nat.leb_le in B, B'. now split. Qed.
Lemma si_take f o : si (take_while f o) (take_while f o).
Proof.
  intros s s' H. destruct (R_in s s' H) as (I & I' & E). rewrite !take_exec by assumption. rewrite E. cbv zeta.
  pose proof (take_loop_le f o (rem s') 0) as B. set (n := take_loop f o 0 (rem s')) in *.
  destruct (R_at s s' H) as (P & Ea & Pi & Ei).
  destruct (if Nat.eqb n 0 then _ else _).
  - split; [reflexivity|]. cbn [snd]. replace (p_pos s + n) with (p_pos s' + n + k) by lia. apply R_pos; [exact H|].
    destruct H as (l & -> & _ & D & _). unfold rem in B. rewrite skipn_length, D in B. unfold in_doc in I'. lia.
  - split; [exists Mismatch; now split|]. cbn [snd]. rewrite Ea. now apply R_pos.
Qed.
Lemma si_sym_set l : si (sym_set l) (sym_set l). Proof. apply si_take. Qed.
Lemma si_sym a : si (sym a) (sym a). Proof. apply si_take. Qed.
Lemma si_sym_seq : forall l, si (sym_seq l) (sym_seq l).
Proof. induction l as [|a l IH]; [apply si_ret|]. apply si_bind; [apply si_sym|intros; exact IH]. Qed.
Lemma si_spaces : forall n, si (spaces n) (spaces n).
Proof. induction n as [|n IH]; [apply si_ret|]. apply si_bind; [apply si_sym|intros; exact IH]. Qed.
Lemma si_tag_index t : si (tag_index t) (tag_index t).
Proof.
  intros s s' H. unfold tag_index. assert (E : p_tag s = p_tag s') by (now destruct H as (l & -> & _)). rewrite E.
  destruct (bt_get t (p_tag s')); [now split|now left].
Qed.
(** *** Indentation *)
Lemma norm_nth v : forall l i, l <> [] -> nth i (ind_norm v l) 2 = if Nat.leb i v then nth i l 2 else 2.
Proof.
  intros l i Hl. unfold ind_norm. destruct (Nat.leb_spec (List.length l) v) as [L|L].
  - destruct (Nat.lt_ge_cases i (List.length l)) as [B|B].
    + rewrite app_nth1 by exact B. now rewrite (proj2 (Nat.leb_le i v)) by lia.
    + rewrite app_nth2 by exact B. rewrite (nth_overflow l) by exact B. destruct (Nat.leb i v); [|].
      * destruct (nth_in_or_default (i - List.length l) (repeat 2 (v - List.length l + 1)) 2) as [K|K]; [now apply repeat_spec in K|exact K].
      * destruct (nth_in_or_default (i - List.length l) (repeat 2 (v - List.length l + 1)) 2) as [K|K]; [now apply repeat_spec in K|exact K].
  - destruct (Nat.leb_spec i v) as [B|B].
    + rewrite <- (firstn_skipn (v + 1) l) at 2. rewrite app_nth1; [reflexivity|]. rewrite firstn_length. lia.
    + apply nth_overflow. rewrite firstn_length. lia.
Qed.
Lemma norm_length v l : List.length (ind_norm v l) = v + 1.
Proof. unfold ind_norm. destruct (Nat.leb_spec (List.length l) v) as [L|L]; [rewrite app_length, repeat_length|rewrite firstn_length]; lia. Qed.
Lemma norm_same v l l' : same_indent l l' -> ind_norm v l = ind_norm v l'.
Proof.
  intros (N1 & N2 & H). apply (nth_ext _ _ 2 2); [now rewrite !norm_length|]. intros i _. rewrite !norm_nth by assumption. now rewrite H.
Qed.
Lemma same_refl l : l <> [] -> same_indent l l. Proof. intros H. now split. Qed.
Lemma R_indent s s' l l' : R s s' -> same_indent l l' -> R (set_indent l s) (set_indent l' s').
Proof. intros (l0 & -> & I & D & C & P & E) H. exists l. split; [reflexivity|]. split; [exact H|]. now repeat split. Qed.
Lemma R_same s s' : R s s' -> same_indent (p_indent s) (p_indent s').
Proof. now intros (l0 & -> & I & _). Qed.
(** after [ind] the indentations are the same lists *)
Definition level_is (n : nat) (t t' : st) : Prop := p_indent t = p_indent t' /\ List.length (p_indent t') = n.
Lemma spaces_indent : forall n s, p_indent (snd (spaces n s)) = p_indent s.
Proof.
  induction n as [|n IH]; intros s; [reflexivity|]. cbn [spaces]. unfold bind, sym, sym_set, take_while, food, bind.
  destruct (Nat.leb _ _); [|reflexivity]. cbv zeta. unfold modify. cbn [take_min].
  destruct (Nat.eqb _ 0); [reflexivity|]. exact (IH _).
Qed.
Lemma si_ind v : si (ind v) (ind v).
Proof.
  intros s s' H. unfold ind. pose proof (R_same s s' H) as S. pose proof (norm_same v _ _ S) as E.
  unfold bind at 1 3, modify at 1 2. rewrite E.
  assert (K : R (set_indent (ind_norm v (p_indent s')) s) (set_indent (ind_norm v (p_indent s')) s')).
  { apply R_indent; [exact H|]. apply same_refl. intros Z. pose proof (norm_length v (p_indent s')) as L. rewrite Z in L. cbn in L. lia. }
  unfold bind, gets. cbn [set_indent p_indent]. now apply si_spaces.
Qed.
Lemma ind_level v s : p_indent (snd (ind v s)) = ind_norm v (p_indent s).
Proof. unfold ind, bind, modify, gets. now rewrite spaces_indent. Qed.
Lemma take_indent f o s : p_indent (snd (take_while f o s)) = p_indent s.
Proof.
  unfold take_while, food, bind. destruct (Nat.leb _ _); [|reflexivity]. cbv zeta. unfold modify.
  destruct (Nat.eqb _ 0); destruct (take_min o) as [[|m]|]; try reflexivity; destruct (Nat.ltb _ _); reflexivity.
Qed.
Lemma set_nth : forall l v i j, v < List.length l -> nth j (list_set l v i) 2 = if Nat.eqb j v then i else nth j l 2.
Proof.
  induction l as [|a l IH]; intros v i j H; cbn in H; [lia|]. destruct v as [|v], j as [|j]; cbn; try reflexivity.
  rewrite IH by lia. reflexivity.
Qed.
Lemma set_length : forall l v i, List.length (list_set l v i) = List.length l.
Proof. induction l as [|a l IH]; intros [|v] i; cbn; auto. Qed.
Lemma si_ind_define v : si (ind_define v) (ind_define v).
Proof.
  intros s s' H. unfold ind_define.
  set (tail := fun (i : nat) (s0 : st) => if Nat.eqb v (List.length (p_indent s0)) then (ROk tt, set_indent (p_indent s0 ++ [i]) s0)
    else if Nat.ltb v (List.length (p_indent s0)) then (ROk tt, set_indent (list_set (p_indent s0) v i) s0) else (RPanic, s0)).
  assert (T : forall t t', R t t' -> (v = 0 \/ level_is v t t') ->
    RR (fun a => a) (bind (count (take_while is_ascii_ws (More 0))) tail t) (bind (count (take_while is_ascii_ws (More 0))) tail t')).
  { intros t t' Ht Hv. pose proof (si_count _ _ _ (si_take is_ascii_ws (More 0)) t t' Ht) as K.
    assert (I1 : forall u, p_indent (snd (count (take_while is_ascii_ws (More 0)) u)) = p_indent u).
    { intros u. unfold count, bind, gets. pose proof (take_indent is_ascii_ws (More 0) u) as E.
      destruct (take_while is_ascii_ws (More 0) u) as [[a|e| |] u']; try exact E. cbn [snd] in *. now destruct (Nat.leb _ _). }
    pose proof (I1 t) as E. pose proof (I1 t') as E'. unfold bind, RR in *.
    destruct (count (take_while is_ascii_ws (More 0)) t) as [r u], (count (take_while is_ascii_ws (More 0)) t') as [[i|e| |] u']; cbn [fst snd] in *.
    - destruct K as [-> Hu]. unfold tail. pose proof (R_same _ _ Hu) as (N1 & N2 & S). destruct Hv as [-> |[Lv Ll]].
      + destruct (p_indent u) as [|a q] eqn:Q; [congruence|]. destruct (p_indent u') as [|a' q'] eqn:Q'; [congruence|]. cbn.
        split; [reflexivity|]. apply R_indent; [exact Hu|]. split; [discriminate|]. split; [discriminate|]. intros [|j]; [reflexivity|]. exact (S (Datatypes.S j)).
      + rewrite E, E', Lv, Ll, Nat.eqb_refl. cbn [fst snd]. split; [reflexivity|]. apply R_indent; [exact Hu|]. apply same_refl. now destruct (p_indent t').
    - destruct K as [(e' & -> & L) Ht']. split; [now exists e'|exact Ht'].
    - destruct K as [-> |L]; [left; reflexivity|now right].
    - now subst r. }
  destruct v as [|v]; cbn [Nat.ltb Nat.leb].
  - apply T; [exact H|now left].
  - replace (Datatypes.S v - 1) with v by lia. change (Nat.ltb 0 (Datatypes.S v)) with true. cbv iota.
    pose proof (si_ind v s s' H) as K. pose proof (ind_level v s) as E. pose proof (ind_level v s') as E'.
    rewrite (norm_same v _ _ (R_same _ _ H)) in E. unfold bind at 1 3. unfold RR in K.
    destruct (ind v s) as [r t], (ind v s') as [[i|e| |] t']; cbn [fst snd] in *.
    + destruct K as [-> Ht]. apply T; [exact Ht|]. right. split; [congruence|]. rewrite E', norm_length. lia.
    + destruct K as [(e' & -> & L) Ht']. split; [now exists e'|exact Ht'].
    + destruct K as [-> |L]; [left; reflexivity|now right].
    + now subst r.
Qed.
(** *** The sub-parsers of src/parser/base *)
Lemma si_post {A B} (P : A -> st -> Prop) V (m m' : M A) (f f' : A -> M B) : si m m' ->
  (forall s' a t', in_doc s' -> m' s' = (ROk a, t') -> P a t') ->
  (forall a s s', R s s' -> P a s' -> RR V (f a s) (f' a s')) -> sh V (bind m f) (bind m' f').
Proof.
  intros Hm HP Hf s s' H. specialize (Hm s s' H). specialize (HP s'). pose proof (R_in s s' H) as (_ & I' & _). unfold bind, RR in *.
  destruct (m s) as [r t], (m' s') as [[a|e| |] t']; cbn [fst snd] in *.
  - destruct Hm as [-> Ht]. apply (Hf a t t' Ht). now apply (HP a t').
  - destruct Hm as [(e' & -> & E) Ht]. split; [now exists e'|exact Ht].
  - destruct Hm as [-> |L]; [left; reflexivity|now right].
  - now subst r.
Qed.
Lemma RR_bind {A B} V (m m' : M A) (f f' : A -> M B) s s' : RR (fun a => a) (m s) (m' s') -> (forall a, sh V (f a) (f' a)) ->
  RR V (bind m f s) (bind m' f' s').
Proof.
  intros Hm Hf. unfold bind, RR in *. destruct (m s) as [r t], (m' s') as [[a|e| |] t']; cbn [fst snd] in *.
  - destruct Hm as [-> Ht]. exact (Hf a t t' Ht).
  - destruct Hm as [(e' & -> & E) Ht]. split; [now exists e'|exact Ht].
  - destruct Hm as [-> |L]; [left; reflexivity|now right].
  - now subst r.
Qed.
Lemma si_fuel {A} V (F : nat -> M A) : (forall n, sh V (F n) (F n)) ->
  (forall n n' s, in_doc s -> List.length (rem s) < n -> List.length (rem s) < n' -> F n s = F n' s) ->
  sh V (n <- gets loop_fuel ;; F n) (n <- gets loop_fuel ;; F n).
Proof.
  intros HF HE s s' H. unfold bind, gets. destruct (R_in s s' H) as (I & I' & E).
  assert (L : List.length (rem s') < loop_fuel s').
  { unfold loop_fuel, rem. rewrite skipn_length. lia. }
  assert (L' : List.length (rem s') < loop_fuel s).
  { rewrite <- E. unfold loop_fuel, rem. rewrite skipn_length. lia. }
  rewrite (HE (loop_fuel s') (loop_fuel s) s' I' L L'). now apply HF.
Qed.
Lemma si_gets {A} (f f' : st -> A) : (forall s s', R s s' -> f s = f' s') -> si (gets f) (gets f').
Proof. intros H s s' HR. unfold gets. split; [cbn [fst]; f_equal; now apply H|exact HR]. Qed.
Lemma si_bound : si bound bound.
Proof.
  unfold bound. apply (si_post (fun _ t => 1 <= p_pos t)); [apply si_sym_set| |].
  - intros s' a t' I. unfold sym_set. rewrite take_exec by exact I. cbv zeta. cbn [take_min].
    set (n := take_loop _ _ _ _). clearbody n. destruct (Nat.eqb_spec n 0); intros E; [discriminate|]. injection E as _ <-. cbn. lia.
  - intros a s s' H P. apply RR_bind; [now apply R_back|]. intros _. apply si_take.
Qed.
Lemma si_num_end {A} (r : A) : si (n <- count (ws (More 0)) ;; (if Nat.ltb 0 n then back 1 else ret tt) ;;; bound ;;; ret r)
  (n <- count (ws (More 0)) ;; (if Nat.ltb 0 n then back 1 else ret tt) ;;; bound ;;; ret r).
Proof.
  apply (si_post (fun n t => n <= p_pos t)).
  - eapply si_count. apply si_take.
  - intros s' n t' I. unfold count, bind, gets. destruct (ws (More 0) s') as [[a|e| |] u]; try discriminate.
    destruct (Nat.leb_spec (p_pos s') (p_pos u)); intros E; [|discriminate]. injection E as <- <-. lia.
  - intros n s s' H P. apply RR_bind; [|intros _; apply si_bind; [apply si_bound|intros; apply si_ret]].
    destruct (Nat.ltb_spec 0 n); [apply R_back; [exact H|lia]|now split].
Qed.

Ltac sw1 :=
  match goal with
  | |- forall _, _ => intros ?
  | |- sh _ (let _ := _ in _) _ => cbv zeta
  | |- sh _ (bind _ _) _ => apply si_bind
  | |- sh _ (ok _) _ => apply si_ok
  | |- sh _ (is_ok _) _ => apply (si_is_ok (fun v => v))
  | |- sh _ (is_err _) _ => apply (si_is_err (fun v => v))
  | |- sh _ (unwrap_or _ _) _ => apply si_unwrap
  | |- sh _ (or_else _ _) _ => apply sh_or_else
  | |- sh _ (orM _ _) _ => apply si_orM
  | |- sh _ (andM _ _) _ => apply si_andM
  | |- sh _ (notM _) _ => apply si_notM
  | |- sh _ (context _) _ => apply sh_context
  | |- sh _ (count _) _ => apply (si_count _ _ (fun v => v))
  | |- sh _ (if ?b then _ else _) _ => destruct b
  | |- sh _ (match ?x with _ => _ end) _ => destruct x
  | |- sh _ _ _ => first [apply si_ret | apply sh_fail | apply sh_div | apply si_forward | apply si_backward
                     | apply si_food | apply si_text | apply sh_err | apply si_sym_seq | apply si_sym | apply si_sym_set | apply si_take
                     | apply si_tag_index | apply si_ind_define | apply si_ind | apply si_bound
                     | solve [auto] ]
  end.
Ltac sw := repeat sw1.

Lemma si_complex : si complex_mapping complex_mapping. Proof. unfold complex_mapping. sw. Qed.
Lemma si_num_prefix : si num_prefix num_prefix. Proof. unfold num_prefix. sw. Qed.
Lemma si_int : si int int. Proof. unfold int, octal, hexadecimal, ws. pose proof si_num_prefix. sw. Qed.
Lemma si_float : si float float.
Proof. unfold float. pose proof si_num_prefix. do 3 (apply si_bind; [sw|intros ?]). apply si_bind; [sw|intros s]. apply si_num_end. Qed.
Lemma si_sci : si sci_float sci_float.
Proof. unfold sci_float. pose proof si_num_prefix. do 4 (apply si_bind; [sw|intros ?]). apply si_bind; [sw|intros s]. apply si_num_end. Qed.
Lemma si_nl : si nl nl. Proof. unfold nl. sw. Qed.
Lemma si_comment : si comment comment. Proof. unfold comment, ws. sw. Qed.
Lemma si_gap_loop b : forall n t, si (gap_loop n b t) (gap_loop n b t).
Proof. pose proof si_comment. pose proof si_nl. induction n; intros t; cbn [gap_loop]; unfold ws; sw. Qed.
Lemma si_gap b : si (gap b) (gap b).
Proof.
  pose proof si_comment. pose proof si_nl. unfold gap. apply sh_context. apply si_bind; [sw|intros ?]. apply si_bind; [sw|intros ?].
  apply (si_fuel _ (fun n => gap_loop n b 1)); [intros n; apply si_gap_loop|]. intros. now apply gap_enough.
Qed.
Lemma si_quoted_loop q ig : forall n v, si (quoted_loop n q ig v) (quoted_loop n q ig v).
Proof. pose proof si_gap. induction n; intros v; cbn [quoted_loop]; unfold ws; sw. Qed.
Lemma si_quoted q ig : ig <> [] -> si (string_quoted q ig) (string_quoted q ig).
Proof.
  intros Hi. unfold string_quoted. apply sh_context. do 3 (apply si_bind; [unfold ws; sw|intros ?]). apply si_bind; [sw|intros v].
  apply (si_fuel _ (fun n => quoted_loop n q ig v)); [intros n; apply si_quoted_loop|]. intros. now apply quoted_enough.
Qed.
Lemma si_plain_loop v i : forall n w b, si (plain_loop n v i w b) (plain_loop n v i w b).
Proof. pose proof si_gap. pose proof si_nl. induction n; intros w b; cbn [plain_loop]; sw. Qed.
Lemma si_plain v i : si (string_plain v i) (string_plain v i).
Proof.
  unfold string_plain. apply sh_context.
  apply (si_fuel _ (fun n => w <- plain_loop n v i [] false ;; let w := trim_end w in match w with [] => fail Mismatch | _ => ret w end)).
  - intros n. pose proof (si_plain_loop v i). apply si_bind; [sw|intros w]. sw.
  - intros n n' s I L L'. unfold bind. now rewrite (plain_enough v i n n' [] false s I L L').
Qed.
Lemma si_chomp : si chomp chomp. Proof. unfold chomp. sw. Qed.
Lemma si_wrapped_loop v sep ld : forall n w, si (wrapped_loop n v sep ld w) (wrapped_loop n v sep ld w).
Proof. pose proof si_gap. pose proof si_nl. induction n; intros w; cbn [wrapped_loop]; sw. Qed.
(** the loop of a block scalar ends behind a line break *)
Lemma wrapped_behind v sep ld n w s r t : c = 0%N -> fits s -> p_indent s <> [] -> p_eaten s = p_pos s ->
  wrapped_loop n v sep ld w s = (ROk r, t) -> 1 <= p_pos t.
Proof.
  intros C0 (D & C & P & E) NI A EW.
  assert (HI : Inv.Iv rest (l_cyclic s) (p_hash s) (fun _ _ => True) [] Wild s).
  { unfold Inv.Iv. rewrite D, C, C0. repeat split; auto; try lia. now intros q []. }
  pose proof (sb_wrapped_loop rest (l_cyclic s) (p_hash s) (fun _ _ => True) False [] Wild noT (p_pos s) sep ld v n (fun u => p_pos s <= p_pos u) w
    (fun u _ X => X) s HI (Nat.le_refl _)) as K.
  rewrite EW in K. destruct K as ((_ & K1 & _) & _ & K2). lia.
Qed.
Lemma si_wrapped v sep ld : si (string_wrapped v sep ld) (string_wrapped v sep ld).
Proof.
  intros s s' H. destruct (R_at s s' H) as (P & Ea & Pi & Ei). unfold string_wrapped.
  change (RR (fun a => a) (context (n <- gets loop_fuel ;; w <- wrapped_loop n v sep ld [] ;; back 1 ;;; ret (w ++ [10%N])) s)
    (context (n <- gets loop_fuel ;; w <- wrapped_loop n v sep ld [] ;; back 1 ;;; ret (w ++ [10%N])) s')).
  assert (X : forall u u', R u u' -> p_eaten u' = p_pos u' ->
    RR (fun a => a) ((n <- gets loop_fuel ;; w <- wrapped_loop n v sep ld [] ;; back 1 ;;; ret (w ++ [10%N])) u)
      ((n <- gets loop_fuel ;; w <- wrapped_loop n v sep ld [] ;; back 1 ;;; ret (w ++ [10%N])) u')).
  { intros u u' Hu A. unfold bind at 1 4, gets. destruct (R_in u u' Hu) as (I & I' & E).
    assert (L : List.length (rem u') < loop_fuel u') by (unfold loop_fuel, rem; rewrite skipn_length; lia).
    assert (L' : List.length (rem u') < loop_fuel u) by (rewrite <- E; unfold loop_fuel, rem; rewrite skipn_length; lia).
    unfold bind at 1 3. rewrite (wrapped_enough v sep ld (loop_fuel u') (loop_fuel u) [] u' I' L L').
    pose proof (si_wrapped_loop v sep ld (loop_fuel u) [] u u' Hu) as K.
    pose proof (wrapped_behind v sep ld (loop_fuel u) [] u') as W. unfold RR in K.
    destruct (wrapped_loop (loop_fuel u) v sep ld [] u) as [r t], (wrapped_loop (loop_fuel u) v sep ld [] u') as [[a|e| |] t']; cbn [fst snd] in *.
    - destruct K as [-> Ht].
      assert (B : 1 <= p_pos t' \/ lax).
      { destruct strict as [[C0 _]|[Lx _]]; [left|now right]. apply (W a t' C0); auto; [now destruct Hu as (l & _ & _ & F)|]. now destruct Hu as (l & _ & (_ & N2 & _) & _). }
      destruct (Nat.le_gt_cases 1 (p_pos t')) as [B1|B1].
      + apply RR_bind; [now apply R_back|]. intros _. apply si_ret.
      + destruct B as [B|Lx]; [lia|]. unfold bind, back. destruct (p_pos t') as [|q]; [|lia]. cbn. now right.
    - destruct K as [(e' & -> & Le) Ht]. split; [now exists e'|exact Ht].
    - destruct K as [-> |Lx]; [left; reflexivity|now right].
    - now subst r. }
  unfold context at 1 2.
  assert (H1 : R (set_eaten (p_pos s) s) (set_eaten (p_pos s') s')) by (rewrite P; now apply R_eaten).
  specialize (X _ _ H1 eq_refl). unfold RR in *.
  destruct ((n <- gets loop_fuel ;; w <- wrapped_loop n v sep ld [] ;; back 1 ;;; ret (w ++ [10%N])) (set_eaten (p_pos s) s)) as [r t],
    ((n <- gets loop_fuel ;; w <- wrapped_loop n v sep ld [] ;; back 1 ;;; ret (w ++ [10%N])) (set_eaten (p_pos s') s')) as [[a|e| |] t']; cbn [fst snd] in *.
  - destruct X as [-> Ht]. split; [reflexivity|]. rewrite Ea. now apply R_eaten.
  - destruct X as [(e' & -> & L) Ht]. split; [now exists e'|]. rewrite Ea. now apply R_eaten.
  - exact X.
  - exact X.
Qed.
Lemma si_literal v : si (string_literal v) (string_literal v).
Proof. pose proof si_chomp. pose proof si_wrapped. unfold string_literal, ws. sw. Qed.
Lemma si_folded v : si (string_folded v) (string_folded v).
Proof. pose proof si_chomp. pose proof si_wrapped. unfold string_folded, ws. sw. Qed.
Lemma si_identifier : si identifier identifier. Proof. unfold identifier. sw. Qed.
Lemma si_tag : si tag tag. Proof. unfold tag. pose proof si_identifier. sw. Qed.
Lemma si_anchor : si anchor anchor. Proof. unfold anchor. pose proof si_identifier. sw. Qed.
Lemma si_anchor_use : si anchor_use anchor_use. Proof. unfold anchor_use. pose proof si_identifier. sw. Qed.
Lemma si_doc_end : si doc_end doc_end. Proof. unfold doc_end. sw. Qed.
Lemma si_directive : si directive directive.
Proof.
  unfold directive, directive_yaml, directive_tag, ws. pose proof si_identifier. pose proof si_gap. sw.
  - apply si_gets. now intros s s' (l & -> & _).
  - apply si_modify. intros s s' (l & -> & I & D & C & P & E). exists l. split; [reflexivity|]. split; [exact I|]. now repeat split.
  - apply si_modify. intros s s' (l & -> & I & D & C & P & E). exists l. split; [reflexivity|]. split; [exact I|]. now repeat split.
Qed.
(** *** The loader *)
Local Notation up := (move x).
Local Notation upy := (move_yaml x).
Local Notation ups := (List.map (move x)).
Local Notation upm := (List.map (move_pair x)).
Lemma sh_build m : sh upy (build_map (upm m)) (build_map m).
Proof.
  intros s s' H. unfold build_map. assert (E : p_hash s = p_hash s') by (now destruct H as (l & -> & _)). rewrite E, move_collect.
  destruct (map_collect (p_hash s') m) as [l|]; cbn [option_map]; [|now left]. split; [cbn [fst]; now rewrite move_map|exact H].
Qed.
Lemma R_table s s' : R s s' -> nth_error (l_anchors s) (l_doc_ind s) = option_map (move_table x) (nth_error (l_anchors s') (l_doc_ind s')).
Proof.
  intros (l & -> & _). cbn [over l_anchors l_doc_ind]. rewrite nth_error_app2 by lia.
  replace (List.length prev + l_doc_ind s' - List.length prev) with (l_doc_ind s') by lia. apply nth_error_map.
Qed.
Lemma sh_alias a : sh upy (alias_value a) (alias_value a).
Proof.
  intros s s' H. unfold alias_value. assert (E : l_cyclic s = l_cyclic s') by (now destruct H as (l & -> & _)). rewrite E.
  destruct (l_cyclic s'); [now split|]. rewrite (R_table s s' H). destruct (nth_error (l_anchors s') (l_doc_ind s')) as [m|]; cbn [option_map]; [|now left].
  rewrite move_get. destruct (bt_get a m) as [n|]; cbn [option_map]; [|now apply sh_err]. split; [cbn [fst]; now rewrite move_n_yaml|exact H].
Qed.
Lemma upd_map {A B} (h : A -> B) (f : A -> A) (g : B -> B) : (forall a, h (f a) = g (h a)) -> forall l i, List.map h (upd_nth l i f) = upd_nth (List.map h l) i g.
Proof. intros H. induction l as [|a l IH]; intros [|i]; cbn; [reflexivity|reflexivity|now rewrite H|now rewrite IH]. Qed.
Lemma upd_app {A} (f : A -> A) : forall p l i, upd_nth (p ++ l) (List.length p + i) f = p ++ upd_nth l i f.
Proof. induction p as [|a p IH]; intros l i; cbn; [reflexivity|now rewrite IH]. Qed.
Lemma si_insert a n : si (anchor_insert a (up n)) (anchor_insert a n).
Proof.
  intros s s' H. unfold anchor_insert. rewrite (R_table s s' H). destruct (nth_error (l_anchors s') (l_doc_ind s')) as [m|]; cbn [option_map]; [|now left].
  split; [cbn [fst]; rewrite move_get; now destruct (bt_get a m)|]. cbn [snd]. destruct H as (l & -> & I & D & C & P & E). exists l.
  split; [|split; [exact I|now repeat split]]. unfold over, set_anchors. cbn. f_equal. rewrite upd_app. f_equal. symmetry.
  apply upd_map. intros t. apply move_insert.
Qed.
Lemma si_pos_node B V (f f' : N -> M B) : (forall p, sh V (f (p + x)%N) (f' p)) -> sh V (bind (gets indicator_of) f) (bind (gets indicator_of) f').
Proof.
  intros Hf s s' H. unfold bind, gets. replace (indicator_of s) with (indicator_of s' + x)%N; [now apply Hf|].
  destruct H as (l & -> & I & D & C & P & E). unfold indicator_of. cbn [over p_consumed p_pos]. rewrite C. lia.
Qed.
Lemma sh_node f f' : sh upy f f' -> sh up (scalar_node f) (scalar_node f').
Proof.
  intros Hf. pose proof si_anchor. pose proof si_tag. unfold scalar_node.
  apply si_bind; [sw|intros na]. do 2 (apply si_bind; [sw|intros ?]). apply si_bind; [sw|intros tg]. do 2 (apply si_bind; [sw|intros ?]).
  apply si_bind; [sw|intros nb]. apply si_bind; [sw|intros an]. apply si_bind; [sw|intros ?]. apply si_pos_node. intros p.
  eapply sh_bind; [exact Hf|intros y]. apply si_bind; [sw|intros ?]. cbv zeta.
  change (Node (p + x) tg (upy y)) with (up (Node p tg y)). destruct (is_nil an); [apply sh_ret|].
  apply si_bind; [apply si_insert|intros [|]]; [apply sh_err|apply sh_ret].
Qed.
Record all_sh (n : nat) : Prop := {
  h_scalar : forall L map flow, sh up (scalar n L map flow) (scalar n L map flow);
  h_flow : forall L flow, sh up (scalar_flow n L flow) (scalar_flow n L flow);
  h_term : forall L flow, sh upy (scalar_term n L flow) (scalar_term n L flow);
  h_seqf : forall L, sh upy (seq_flow n L) (seq_flow n L);
  h_seqfl : forall L v, sh upy (seq_flow_loop n L (ups v)) (seq_flow_loop n L v);
  h_mapf : forall L, sh upy (map_flow n L) (map_flow n L);
  h_mapfl : forall L v, sh upy (map_flow_loop n L (upm v)) (map_flow_loop n L v);
  h_seq : forall L map, sh upy (Loader.seq n L map) (Loader.seq n L map);
  h_seql : forall L map v, sh upy (seq_loop n L map (ups v)) (seq_loop n L map v);
  h_map : forall L map flow, sh upy (map_ n L map flow) (map_ n L map flow);
  h_mapl : forall L map flow v, sh upy (map_loop n L map flow (upm v)) (map_loop n L map flow v)
}.
Lemma upy_ret y y' : y' = upy y -> sh upy (ret y') (ret y). Proof. intros ->. apply sh_ret. Qed.
Lemma plain_up s : plain_value s = upy (plain_value s).
Proof. unfold plain_value. repeat (destruct (_ || _); [reflexivity|]). reflexivity. Qed.
Ltac st := apply si_bind; [unfold inv; sw|intros ?].
Lemma all_sh_all : forall n, all_sh n.
Proof.
  pose proof si_literal. pose proof si_folded. pose proof si_float. pose proof si_sci. pose proof si_int. pose proof si_anchor_use.
  pose proof si_plain. pose proof si_gap. pose proof si_complex. pose proof si_doc_end.
  pose proof (si_quoted 39 (lit "''") ltac:(discriminate)). pose proof (si_quoted 34 [92; 34]%N ltac:(discriminate)).
  induction n as [|n IH]; [split; intros; apply sh_div|]. destruct IH as [I1 I2 I3 I4 I5 I6 I7 I8 I9 I10 I11].
  assert (KEY : forall L (m m' : M node), sh up m m' -> sh up
      (forward ;;; k <- m ;; g <- is_ok (gap true) ;; (if (g : bool) then ind L else ret tt) ;;; ret k)
      (forward ;;; k <- m' ;; g <- is_ok (gap true) ;; (if (g : bool) then ind L else ret tt) ;;; ret k)).
  { intros L m0 m1 Hm. st. eapply sh_bind; [exact Hm|]. intros q. st. st. apply sh_ret. }
  assert (SNOC : forall v y, ups v ++ [up y] = ups (v ++ [y])) by (intros; now rewrite map_app).
  assert (SNOCM : forall v a b, upm v ++ [(up a, up b)] = upm (v ++ [(a, b)])) by (intros; now rewrite map_app).
  split.
  - intros L map flow. cbn [scalar]. apply sh_node. apply si_bind; [sw|intros [s|]]; [now apply upy_ret|].
    apply si_bind; [sw|intros [s|]]; [now apply upy_ret|]. apply sh_or_else; [apply sh_or_else|]; auto.
  - intros L flow. cbn [scalar_flow]. apply sh_node. auto.
  - intros L flow. cbn [scalar_term]. do 3 (apply si_bind; [sw|intros [s|]]; [now apply upy_ret|]).
    apply si_bind; [sw|intros [s|]]; [apply sh_alias|]. do 2 (apply si_bind; [sw|intros [s|]]; [now apply upy_ret|]).
    apply si_bind; [sw|intros [s|]]; [apply upy_ret, plain_up|]. apply sh_or_else; [apply sh_or_else; auto|now apply upy_ret].
  - intros L. cbn [seq_flow]. st. exact (I5 L []).
  - intros L v. cbn [seq_flow_loop]. st. st. apply si_bind; [sw|intros [|]]; [st; now apply upy_ret|].
    st. eapply sh_bind; [apply sh_or_else; [apply I1|apply sh_err]|]. intros y. cbv zeta. rewrite SNOC.
    st. apply si_bind; [sw|intros [|]]; [|auto]. do 3 st. now apply upy_ret.
  - intros L. cbn [map_flow]. st. exact (I7 L []).
  - intros L v. cbn [map_flow_loop]. st. st. apply si_bind; [sw|intros [|]]; [st; apply sh_build|]. st.
    apply si_bind; [sw|intros b]. eapply sh_bind with (U := up).
    { destruct b; [apply KEY, sh_or_else; [apply I1|apply sh_err]|apply sh_or_else; [apply I2|apply sh_err]]. }
    intros q. apply si_bind; [sw|intros [|]]; [apply sh_err|]. do 2 st.
    eapply sh_bind; [apply sh_or_else; [apply I1|apply sh_err]|]. intros y. cbv zeta. rewrite SNOCM.
    apply si_bind; [sw|intros [|]]; [|auto]. do 3 st. apply sh_build.
  - intros L map. cbn [Loader.seq]. exact (I9 L map []).
  - intros L map v. cbn [seq_loop]. st.
    assert (E : forall b, sh upy (if b : bool then forward ;;; x <- or_else (scalar n (L + 1) false false) (err (lit "sequence item")) ;; seq_loop n L map (ups v ++ [x]) else backward ;;; ret (YSeq (ups v)))
      (if b : bool then forward ;;; x <- or_else (scalar n (L + 1) false false) (err (lit "sequence item")) ;; seq_loop n L map (v ++ [x]) else backward ;;; ret (YSeq v))).
    { intros [|]; [|st; now apply upy_ret]. st. eapply sh_bind; [apply sh_or_else; [apply I1|apply sh_err]|].
      intros y. rewrite SNOC. apply I9. }
    destruct v as [|y r]; cbn [List.map]; (apply si_bind; [sw|exact E]).
  - intros L map flow. cbn [map_]. exact (I11 L map flow []).
  - intros L map flow v. cbn [map_loop]. st.
    set (UK := fun a : node + option yaml => match a with inl k => inl (up k) | inr y => inr (option_map upy y) end).
    apply sh_bind with (U := UK).
    + destruct v as [|y r]; cbn [List.map].
      * st. st. apply si_bind; [sw|intros b]. eapply sh_bind with (U := up).
        { destruct b; [apply KEY, sh_or_else; [apply I1|apply sh_err]|apply I2]. }
        intros q. apply si_bind; [sw|intros [|]]; [|apply (sh_ret UK (inl q))]. rewrite move_n_yaml. apply (sh_ret UK (inr (Some (n_yaml q)))).
      * apply si_bind; [sw|intros [|]]; [apply sh_err|]. apply si_bind; [sw|intros [|]]; [apply (sh_ret UK (inr None))|]. st.
        apply si_bind; [sw|intros b]. eapply sh_bind with (U := up).
        { destruct b; [apply KEY, sh_or_else; [apply I1|apply sh_err]|apply sh_or_else; [apply I2|apply sh_err]]. }
        intros q. apply si_bind; [sw|intros [|]]; [apply sh_err|]. apply (sh_ret UK (inl q)).
    + intros [q|[y|]]; cbn [UK option_map].
      * st. eapply sh_bind; [apply sh_or_else; [apply I1|apply sh_err]|]. intros y. rewrite SNOCM. apply I11.
      * apply sh_ret.
      * st. apply sh_build.
Qed.
(** *** Documents *)
Lemma si_anchors : si (modify (fun s => set_anchors (l_anchors s ++ [[]]) s)) (modify (fun s => set_anchors (l_anchors s ++ [[]]) s)).
Proof.
  apply si_modify. intros s s' (l & -> & I & D & C & P & E). exists l. split; [|split; [exact I|now repeat split]].
  unfold over, set_anchors. cbn. f_equal. rewrite map_app. cbn. now rewrite app_assoc.
Qed.
Lemma si_doc_ind : si (modify (fun s => set_doc_ind (l_doc_ind s + 1) s)) (modify (fun s => set_doc_ind (l_doc_ind s + 1) s)).
Proof.
  apply si_modify. intros s s' (l & -> & I & D & C & P & E). exists l. split; [|split; [exact I|now repeat split]].
  unfold over, set_doc_ind. cbn. f_equal. lia.
Qed.
Lemma sh_doc n : sh up (doc n) (doc n).
Proof.
  pose proof si_gap. pose proof si_anchors. pose proof si_doc_ind. unfold doc. do 3 st.
  eapply sh_bind; [apply (h_scalar _ (all_sh_all n))|intros r]. do 4 st. apply sh_ret.
Qed.
Lemma sh_docs n : forall j v w, w = ups v -> forall q, sh (fun r => q ++ ups r) (docs_loop j n (q ++ w)) (docs_loop j n v).
Proof.
  pose proof si_gap. induction j as [|j IH]; intros v w -> q; cbn [docs_loop]; [apply sh_div|]. st. apply si_bind; [sw|intros [|b fd]].
  - apply (sh_ret (fun r => q ++ ups r)).
  - apply si_bind; [sw|intros [|]]; [apply sh_err|]. eapply sh_bind; [apply sh_doc|intros nd]. rewrite <- app_assoc.
    apply IH. now rewrite map_app.
Qed.
Lemma si_directives : forall n, si (directives n) (directives n).
Proof.
  induction n as [|n IH]; [apply sh_div|]. intros s s' H. cbn [directives]. pose proof (sh_context _ _ _ si_directive s s' H) as K. unfold RR in K.
  destruct (context directive s) as [r t], (context directive s') as [[a|e| |] t']; cbn [fst snd] in *.
  - destruct K as [-> Ht]. now apply IH.
  - destruct K as [(e' & -> & L) Ht]. destruct e as [|nm msg], e' as [|nm' msg']; cbn in L; try contradiction; [now split|].
    split; [eexists; split; [reflexivity|exact L]|exact Ht].
  - destruct K as [-> |L]; [left; reflexivity|now right].
  - now subst r.
Qed.
End Shift.
