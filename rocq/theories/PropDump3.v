(** * C57: tags, anchors, aliases, collections as keys and text of several lines
    survive [dump] and [parse], with both kinds of line breaks *)
From Verif Require Export PropGram PropDump PropDump2.
Open Scope nat_scope.
Local Notation same := PropNode.same.
Local Notation distinct := Block.distinct.

(** ** Specification *)
(** the tag a node has of its own: the tags of the core schema are what data of
    that kind has anyway *)
Definition own_tag (t : str) : str := if starts_with (lit "tag:yaml.org,2002:") t then [] else t.
(** a node without its positions *)
Fixpoint settle_y (y : yaml) : yaml :=
  match y with
  | YSeq l => YSeq (List.map (fun n => match n with Node _ t x => Node 0 (own_tag t) (settle_y x) end) l)
  | YMap m => YMap (List.map (fun kv => match kv with
                     | (Node _ t k, Node _ u x) => (Node 0 (own_tag t) (settle_y k), Node 0 (own_tag u) (settle_y x))
                     end) m)
  | y => y
  end.
Definition settle (n : node) : node := Node 0 (own_tag (n_rawtag n)) (settle_y (n_yaml n)).

(** all nodes inside, each behind its parts *)
Fixpoint inside (y : yaml) : list node :=
  match y with
  | YSeq l => flat_map (fun n => match n with Node p t x => inside x ++ [Node p t x] end) l
  | YMap m => flat_map (fun kv => match kv with
                | (Node p t k, Node q u x) => (inside k ++ [Node p t k]) ++ (inside x ++ [Node q u x])
                end) m
  | _ => []
  end.
(** the first entry of the table that equals the node gives its name *)
Definition first_name (an : anchors_t) (n : node) : option str :=
  option_map fst (List.find (fun kv => match node_eq (snd kv) n with Some true => true | _ => false end) an).
(** the nodes of a document that get a name *)
Definition own_name (an : anchors_t) (n : node) : list (str * node) :=
  match first_name an n with Some a => [(a, n)] | None => [] end.
Definition anchored (an : anchors_t) (n : node) : list (str * node) := flat_map (own_name an) (inside (n_yaml n) ++ [n]).

(** where a node stands: a document (the first one or a later one), an item of
    a sequence, the value or the key of an entry, or the key of the first entry
    of a map that is itself the first document or an item *)
Inductive place := First | Later | Item | Value | Key | LeadKey.
Definition lead (p : place) : place := match p with First | Item => LeadKey | _ => Key end.
(** where a tag or an anchor survives *)
Definition may_mark (p : place) (y : yaml) : bool :=
  match p, y with
  | First, _ | Item, _ => true
  | Value, (YSeq _ | YMap _) | Key, (YSeq _ | YMap _) => false
  | Value, _ | Key, _ => true
  | Later, _ | LeadKey, _ => false
  end.
(** a tag that can be written: a name, or what can stand in [!<...>] *)
Definition tag_fits (t : str) : Prop :=
  t = [] \/ name_ok t \/ ref_ok (RFull t) /\ exists c r, t = c :: r /\ ~ ascii_alnum c.
(** text of two or more lines, each ending with a visible character, the first
    one beginning with one; it ends with a line break *)
Definition many_lines (s : str) : Prop := exists c ls, s = literal_value c ls ++ [10%N] /\ ls <> []
  /\ Forall (fun x => PropLiteral.line_ok (fst x) (snd x) /\ seen_end (snd x)) ((0, c) :: ls)
  /\ exists x r, c = x :: r /\ is_uni_ws x = false.

Section Class.
Variables (cyclic : bool) (uni : N -> bool) (an : anchors_t).
Record marks_ok (p : place) (n : node) : Prop := {
  mo_compares : forall kv, In kv an -> node_eq (snd kv) n <> None;
  mo_tag : tag_fits (own_tag (n_rawtag n));
  mo_name : forall a, first_name an n = Some a -> name_ok a;
  mo_place : may_mark p (n_yaml n) = false -> own_tag (n_rawtag n) = [] /\ first_name an n = None
}.
(** aliases only if they are kept *)
Definition scalar_fits (y : yaml) : Prop := scalar_ok uni y \/ cyclic = true /\ exists a, y = YAlias a /\ name_ok a.
Inductive fits : place -> node -> Prop :=
| FitScalar p n : marks_ok p n -> scalar_fits (n_yaml n) -> fits p n
| FitLines p n s : p = Item \/ p = Value -> marks_ok p n -> n_yaml n = YStr s -> many_lines s -> fits p n
| FitSeq p n v : marks_ok p n -> n_yaml n = YSeq v -> v <> [] -> Forall (fits Item) v -> fits p n
| FitMap p n k x m : marks_ok p n -> n_yaml n = YMap ((k, x) :: m) -> keys_ok ((k, x) :: m) ->
    fits (lead p) k -> fits Value x -> Forall (fun kv => fits Key (fst kv) /\ fits Value (snd kv)) m -> fits p n.
End Class.
(** documents: each with its table, every name used once in it *)
Fixpoint docs_fit (cyclic : bool) (uni : N -> bool) (p : place) (ns : list node) (ans : list anchors_t) : Prop :=
  match ns with
  | [] => True
  | n :: r => fits cyclic uni (hd [] ans) p n /\ NoDup (List.map fst (anchored (hd [] ans) n))
              /\ docs_fit cyclic uni Later r (tl ans)
  end.

(** the table of a document: exactly the names of its nodes, each for the node *)
Fixpoint named_nodes (ns : list node) (ans : list anchors_t) (tabs : list anchors_t) : Prop :=
  match ns, tabs with
  | [], [] => True
  | n :: r, tab :: tabs =>
    (forall a, option_map settle (bt_get a tab) = option_map settle (bt_get a (anchored (hd [] ans) n))) /\ named_nodes r (tl ans) tabs
  | _, _ => False
  end.

(** ** Positions *)
Lemma settle_strip y : strip (settle_y y) = strip y.
Proof.
  induction y as [| b | s | s | s | l IH | m IH | a] using yaml_ind2; try reflexivity; cbn [settle_y strip]; f_equal; rewrite List.map_map.
  - induction IH as [|[p t x] l H _ IH']; [reflexivity|]. cbn [List.map n_yaml] in *. now rewrite H, IH'.
  - induction IH as [|[[p t x] [q u z]] m [H1 H2] _ IH']; [reflexivity|]. cbn [List.map fst snd n_yaml] in *. now rewrite H1, H2, IH'.
Qed.
Lemma settled_strip a b : settle_y a = settle_y b -> strip a = strip b.
Proof. intros H. rewrite <- (settle_strip a), <- (settle_strip b). now rewrite H. Qed.
Lemma own_own t : own_tag (own_tag t) = own_tag t.
Proof. unfold own_tag. destruct (starts_with _ t) eqn:E; [reflexivity|]. now rewrite E. Qed.
Lemma settle_seq v w : settle_y (YSeq v) = settle_y (YSeq w) <-> List.map settle v = List.map settle w.
Proof.
  assert (K : forall v, List.map (fun n => match n with Node _ t x => Node 0 (own_tag t) (settle_y x) end) v = List.map settle v).
  { intros l. apply map_ext. now intros []. }
  cbn [settle_y]. rewrite !K. split; [now intros [= H]|congruence].
Qed.
Definition settle_p (kv : node * node) : node * node := (settle (fst kv), settle (snd kv)).
Lemma settle_map m w : settle_y (YMap m) = settle_y (YMap w) <-> List.map settle_p m = List.map settle_p w.
Proof.
  assert (K : forall v, List.map (fun kv => match kv with (Node _ t k, Node _ u x) => (Node 0 (own_tag t) (settle_y k), Node 0 (own_tag u) (settle_y x)) end) v = List.map settle_p v).
  { intros l. apply map_ext. now intros [[] []]. }
  cbn [settle_y]. rewrite !K. split; [now intros [= H]|congruence].
Qed.
Lemma strip_readable a : readable (strip a) <-> readable a.
Proof.
  induction a as [| b | s | s | s | l IH | m IH | al] using yaml_ind2; try tauto; cbn [strip].
  - split; inversion 1 as [| | | | | ? F | |]; subst; constructor.
    + rewrite Forall_map in F. rewrite Forall_forall in *. intros n Hn. specialize (F n Hn). specialize (IH n Hn). destruct n. cbn in *. tauto.
    + rewrite Forall_map. rewrite Forall_forall in *. intros n Hn. specialize (F n Hn). specialize (IH n Hn). destruct n. cbn in *. tauto.
  - split; inversion 1 as [| | | | | | ? F |]; subst; constructor.
    + rewrite Forall_map in F. rewrite Forall_forall in *. intros n Hn. specialize (F n Hn). specialize (IH n Hn). destruct n as [[] []]. cbn in *. tauto.
    + rewrite Forall_map. rewrite Forall_forall in *. intros n Hn. specialize (F n Hn). specialize (IH n Hn). destruct n as [[] []]. cbn in *. tauto.
Qed.
Lemma settled_readable a b : settle_y a = settle_y b -> readable b -> readable a.
Proof. intros H R. apply settled_strip in H. apply strip_readable. rewrite H. now apply strip_readable. Qed.
Lemma settled_same a b : settle_y a = settle_y b -> readable b -> same a b.
Proof.
  intros H R. pose proof (settled_readable a b H R) as R'. destruct (C28_eq_decides_same (Node 0 [] a) (Node 0 [] b) R' R) as (r & E & K).
  apply K. apply settled_strip in H. pose proof (PropBlock.strip_eq_true a b H R) as T. unfold node_eq in E. cbn [n_yaml] in E. congruence.
Qed.
Lemma settled_keys m w : List.map settle_p m = List.map settle_p w -> keys_ok w -> keys_ok m.
Proof.
  intros E [D R]. assert (R' : Forall (fun kv => readable (n_yaml (fst kv))) m).
  { clear D. revert m E. induction R as [|[k x] w Hk R IH]; intros [|[k' x'] m] E; try discriminate; [constructor|]. injection E as _ E1 _ _ E. constructor; [|now apply IH].
    cbn [fst n_yaml] in *. eapply settled_readable; eassumption. }
  split; [|exact R'].
  revert m E R'. revert R. induction D as [|[k x] w Hk D IH]; intros R [|[k' x'] m] E R'; try discriminate; [constructor|].
  inversion R as [|? ? Hr Hrs]; subst. inversion R' as [|? ? Hr' Hrs']; subst. pose proof E as E0. injection E as _ E1 _ _ E. constructor; [|now apply IH].
  cbn [fst] in *. clear IH D E0 R R'. revert w E Hk Hrs Hrs'. induction m as [|[k2 x2] m IH]; intros [|[k3 x3] w] E Hk Hrs Hrs'; try discriminate; [constructor|].
  injection E as _ E2 _ _ E. inversion Hk as [|? ? Hk1 Hk2]; subst. inversion Hrs; subst. inversion Hrs'; subst. constructor; [|eapply IH; eassumption].
  cbn [fst] in *. intros S. apply Hk1. eapply same_trans; [apply same_sym; eapply settled_same; eassumption|]. eapply same_trans; [exact S|]. now apply settled_same.
Qed.

(** ** Names *)
Definition rel (p q : str * node) : Prop := fst p = fst q /\ settle (snd p) = settle (snd q).
Definition ext (l : list (str * node)) (e e' : scope) : Prop := exists l', Forall2 rel l' l /\ e' = rev l' ++ e.
Definition new_in (l : list (str * node)) (e : scope) : Prop := NoDup (List.map fst l) /\ forall a, In a (List.map fst l) -> lookup a e = None.
Lemma ext_nil e : ext [] e e. Proof. exists []. split; [constructor|reflexivity]. Qed.
Lemma ext_app l1 l2 e e1 e2 : ext l1 e e1 -> ext l2 e1 e2 -> ext (l1 ++ l2) e e2.
Proof.
  intros (a & Ha & ->) (b & Hb & ->). exists (a ++ b). split; [now apply Forall2_app|]. now rewrite rev_app_distr, app_assoc.
Qed.
Lemma ext_lookup l e e' : ext l e e' -> forall a, ~ In a (List.map fst l) -> lookup a e' = lookup a e.
Proof.
  intros (l' & H & ->) a Hn. assert (N : ~ In a (List.map fst (rev l'))).
  { rewrite map_rev, <- in_rev. intros K. apply Hn. clear Hn. induction H as [|x y l' l [E _] _ IH]; [exact K|]. cbn [List.map] in *. rewrite E in K. destruct K; [now left|right; auto]. }
  clear H Hn l. induction (rev l') as [|[b n] r IH]; [reflexivity|]. cbn [app lookup]. destruct (str_eqb a b) eqn:E.
  - apply str_eqb_eq in E as ->. exfalso. apply N. now left.
  - apply IH. intros K. apply N. now right.
Qed.
Lemma nodup_parts {A} (a b : list A) : NoDup (a ++ b) -> NoDup a /\ (forall x, In x a -> ~ In x b) /\ NoDup b.
Proof.
  induction a as [|x a IH]; cbn [app]; intros H; [split; [constructor|]; split; [intros ? []|exact H]|].
  inversion H as [|? ? H1 H2]; subst. destruct (IH H2) as (K1 & K2 & K3). split; [constructor; [|exact K1]; intros K; apply H1, in_app_iff; auto|].
  split; [|exact K3]. intros y [<-|Hy]; [intros K; apply H1, in_app_iff; auto|now apply K2].
Qed.
Lemma new_split l1 l2 e e1 : new_in (l1 ++ l2) e -> ext l1 e e1 -> new_in l1 e /\ new_in l2 e1.
Proof.
  intros [H1 H2] E. rewrite List.map_app in *. apply nodup_parts in H1 as (N1 & N2 & N3). split; split; try assumption.
  - intros a Ha. apply H2. apply in_app_iff. auto.
  - intros a Ha. rewrite (ext_lookup _ _ _ E); [apply H2, in_app_iff; auto|]. intros K. exact (N2 a K Ha).
Qed.
Lemma own_new an n e : forall a, first_name an n = Some a -> new_in (own_name an n) e -> lookup a e = None.
Proof. intros a E [_ H]. apply H. unfold own_name. rewrite E. now left. Qed.

(** ** Text of several lines *)
Lemma split_at l r : ~ In 10%N l -> split_nl (l ++ 10%N :: r) = l :: split_nl r.
Proof.
  induction l as [|c l IH]; intros H; [reflexivity|]. cbn [app split_nl]. rewrite (proj2 (N.eqb_neq c 10)) by (intros ->; apply H; now left).
  rewrite IH by (intros K; apply H; now right). reflexivity.
Qed.
Lemma split_ne r : split_nl r <> [].
Proof. destruct r as [|c r]; [discriminate|]. cbn. destruct (N.eqb c 10); [discriminate|]. destruct (split_nl r); discriminate. Qed.
Lemma strip_cr_id l : ~ In 13%N l -> strip_cr l = l.
Proof.
  intros H. unfold strip_cr. destruct (rev l) as [|c r] eqn:E; [reflexivity|]. rewrite (proj2 (N.eqb_neq c 13)); [reflexivity|].
  intros ->. apply H. apply in_rev. rewrite E. now left.
Qed.
Lemma lines_cons l r : ~ In 10%N l -> ~ In 13%N l -> Base.lines (l ++ 10%N :: r) = l :: Base.lines r.
Proof.
  intros H1 H2. unfold Base.lines. rewrite split_at by exact H1. cbn [lines_of]. destruct (split_nl r) eqn:E; [now apply split_ne in E|]. now rewrite strip_cr_id.
Qed.
Lemma lines_breaks k r : Base.lines (breaks k ++ r) = repeat [] k ++ Base.lines r.
Proof. induction k as [|k IH]; [reflexivity|]. cbn [breaks repeat app]. fold (breaks k). change (10%N :: breaks k ++ r) with ([] ++ 10%N :: breaks k ++ r). rewrite lines_cons by (intros []). now rewrite IH. Qed.
Definition line_list (c : str) (ls : block_lines) : list str := c :: flat_map (fun x => repeat [] (fst x) ++ [snd x]) ls.
Lemma lines_literal : forall ls c, Forall (fun x => PropLiteral.line_ok (fst x) (snd x)) ((0, c) :: ls) -> Base.lines (literal_value c ls ++ [10%N]) = line_list c ls.
Proof.
  induction ls as [|[k d] ls IH]; intros c H; inversion H as [|? ? Hc Hls]; subst; cbn [fst snd] in *;
    assert (H1 : ~ In 10%N c /\ ~ In 13%N c) by (destruct Hc as [_ Hc _]; rewrite Forall_forall in Hc; split; intros K; apply Hc in K; lia); destruct H1 as [H1 H2].
  - unfold literal_value. cbn [flat_map]. rewrite app_nil_r. now rewrite lines_cons.
  - replace (literal_value c ((k, d) :: ls) ++ [10%N]) with (c ++ 10%N :: breaks k ++ literal_value d ls ++ [10%N]) by (unfold literal_value; cbn [flat_map fst snd]; apps).
    rewrite lines_cons, lines_breaks, IH by assumption || (inversion Hls as [|? ? [] ?]; subst; constructor; [constructor; cbn [fst snd]; auto; lia|assumption]).
    unfold line_list. cbn [flat_map fst snd]. apps.
Qed.
Lemma trim_end_id s : seen_end s -> trim_end s = s.
Proof.
  intros (x & r & -> & Hx). induction r as [|c r IH]; cbn [app trim_end]; [now rewrite Hx|]. rewrite IH. destruct (r ++ [x]) eqn:E; [destruct r; discriminate|reflexivity].
Qed.
Lemma seen_app a b : seen_end b -> seen_end (a ++ b).
Proof. intros (x & r & -> & Hx). exists x, (a ++ r). split; [now rewrite app_assoc|exact Hx]. Qed.
Lemma seen_ne b : seen_end b -> b <> [].
Proof. intros (x & r & -> & _). destruct r; discriminate. Qed.
Section ManyLines.
Variables (win : bool) (d : nat).
Let br := NL win.
Definition put (l : str) : str := if is_nil l then [] else indent d ++ trim_end l.
Lemma put_seen l : seen_end l -> put l = indent d ++ l.
Proof. intros H. unfold put. destruct l eqn:E; [now apply seen_ne in H|]. rewrite <- E in *. cbn [is_nil]. rewrite E at 1. cbn [is_nil]. now rewrite trim_end_id. Qed.
Lemma join_cons x (l : list str) : l <> [] -> join br (x :: l) = x ++ br ++ join br l.
Proof. intros H. destruct l; [congruence|reflexivity]. Qed.
Lemma join_breaks : forall k t, t <> [] -> join br (List.map put (repeat [] k) ++ t) = rows br k ++ join br t.
Proof.
  induction k as [|k IH]; intros t H; [reflexivity|]. cbn [repeat List.map app]. change (put []) with (@nil N).
  rewrite join_cons by (intros E; apply app_eq_nil in E as [_ ->]; congruence). rewrite IH by exact H. rewrite rows_S. apps.
Qed.
Lemma line_list_cons c k b ls : line_list c ((k, b) :: ls) = c :: repeat [] k ++ line_list b ls.
Proof. unfold line_list. cbn [flat_map fst snd]. now rewrite <- app_assoc. Qed.
Definition on_rows (x : nat * str) : str := br ++ rows br (fst x) ++ repeat 32%N d ++ snd x.
Lemma join_lines : forall ls c, Forall (fun x => seen_end (snd x)) ((0, c) :: ls) ->
  join br (List.map put (line_list c ls)) = indent d ++ c ++ flat_map on_rows ls.
Proof.
  induction ls as [|[k b] ls IH]; intros c H; inversion H as [|? ? Hc Hls]; subst; cbn [snd] in Hc.
  - cbn [flat_map List.map join line_list]. now rewrite put_seen, app_nil_r.
  - cbn [flat_map]. rewrite line_list_cons.
    rewrite List.map_cons, List.map_app.
    rewrite join_cons by (intros K; apply app_eq_nil in K as [_ K]; unfold line_list in K; cbn [List.map] in K; discriminate K).
    rewrite join_breaks by (unfold line_list; cbn [List.map]; discriminate).
    inversion Hls as [|? ? Hb Hr]; subst. rewrite IH by (constructor; [exact Hb|exact Hr]). rewrite put_seen by exact Hc. unfold indent, on_rows. cbn [fst snd]. apps.
Qed.
Lemma trim_indent x r : is_uni_ws x = false -> trim_start (indent d ++ x :: r) = x :: r.
Proof. intros H. unfold indent. induction d as [|k IH]; cbn; [now rewrite H|exact IH]. Qed.
Lemma seen_lines g : forall ls c, Forall (fun x => seen_end (snd x)) ((0, c) :: ls) -> seen_end (c ++ flat_map (fun x : nat * str => g x ++ snd x) ls).
Proof.
  induction ls as [|[k b] ls IH]; intros c F; inversion F as [|? ? Hc Hls]; subst; cbn [snd flat_map] in *; [now rewrite app_nil_r|].
  apply seen_app. inversion Hls as [|? ? Hb Hr]; subst. cbn [snd] in *. specialize (IH b ltac:(constructor; assumption)).
  rewrite <- app_assoc. now apply seen_app.
Qed.
Lemma lines_dump uni s : many_lines s -> exists t, dump_str win uni (indent d) s = ROk t /\ scalar_lines br d s t.
Proof.
  intros (c & ls & -> & Hn & H & x & r & Ec & Hx).
  assert (F1 : Forall (fun x => PropLiteral.line_ok (fst x) (snd x)) ((0, c) :: ls)) by (eapply Forall_impl; [|exact H]; intros ? K; apply K).
  assert (F2 : Forall (fun x => seen_end (snd x)) ((0, c) :: ls)) by (eapply Forall_impl; [|exact H]; intros ? K; apply K).
  exists (lit "|" ++ br ++ indent d ++ c ++ flat_map on_rows ls). split.
  - unfold dump_str. rewrite (lines_literal ls c F1). destruct ls as [|[k b] ls']; [congruence|].
    assert (L : Nat.ltb 1 (List.length (line_list c ((k, b) :: ls'))) = true).
    { apply Nat.ltb_lt. unfold line_list. cbn [List.length flat_map fst snd]. rewrite !app_length. cbn [List.length]. lia. }
    rewrite L. change (fun l : list N => if is_nil l then [] else indent d ++ trim_end l) with put. fold br.
    pose proof (join_lines _ c F2) as J. match goal with |- context [trim ?z] => replace z with (indent d ++ c ++ flat_map on_rows ((k, b) :: ls')) by (symmetry; exact J) end. clear J.
    unfold trim. rewrite Ec. cbn [app]. rewrite trim_indent by exact Hx. f_equal. f_equal. f_equal. f_equal.
    change (x :: r ++ ?z) with ((x :: r) ++ z). rewrite <- Ec. apply trim_end_id.
    replace (flat_map on_rows ((k, b) :: ls')) with (flat_map (fun x : nat * str => (br ++ rows br (fst x) ++ repeat 32%N d) ++ snd x) ((k, b) :: ls'))
      by (apply flat_map_ext; intros a; unfold on_rows; apps).
    now apply seen_lines.
  - assert (T : lit "|" ++ br ++ indent d ++ c ++ flat_map on_rows ls = block_header (chr "|") [] [] ++ block_text br d ((0, c) :: ls)).
    { unfold block_header, block_text. cbn [flat_map fst snd rows repeat List.concat]. unfold indent. change (flat_map on_rows ls) with (flat_map (fun x => br ++ rows br (fst x) ++ repeat 32%N d ++ snd x) ls). apps. }
    rewrite T. apply BLiteral; [auto|constructor|rewrite Ec; discriminate|exact F1|].
    unfold literal_value. now apply (seen_lines (fun x => 10%N :: breaks (fst x)) ls c F2).
Qed.
End ManyLines.

Section Text.
Variables (win cyclic : bool) (uni : N -> bool) (an : anchors_t).
Let eol := NL win.
Let tags := resolve [].
Notation own := (own_name an).
Notation anch := (anchored an).
Lemma eol_ok : eol = [10%N] \/ eol = [13; 10]%N. Proof. unfold eol. destruct win; auto. Qed.
Lemma inside_seq v : flat_map own (inside (YSeq v)) = flat_map anch v.
Proof.
  cbn [inside]. induction v as [|[p t x] v IH]; [reflexivity|]. cbn [flat_map]. rewrite flat_map_app, IH. reflexivity.
Qed.
Lemma inside_map m : flat_map own (inside (YMap m)) = flat_map (fun kv => anch (fst kv) ++ anch (snd kv)) m.
Proof.
  cbn [inside]. induction m as [|[[p t x] [q u y]] m IH]; [reflexivity|]. cbn [flat_map fst snd]. rewrite !flat_map_app, IH. unfold anchored. rewrite !flat_map_app. reflexivity.
Qed.
Lemma anch_eq n : anch n = flat_map own (inside (n_yaml n)) ++ own n.
Proof. unfold anchored. rewrite flat_map_app. cbn [flat_map]. now rewrite app_nil_r. Qed.

(** *** What stands in front of a node *)
Lemma find_first n : (forall kv, In kv an -> node_eq (snd kv) n <> None) -> find_anchor an n = Some (first_name an n).
Proof.
  unfold first_name. induction an as [|[k v] r IH]; intros H; [reflexivity|]. cbn [find_anchor List.find snd]. pose proof (H (k, v) (or_introl eq_refl)) as K. cbn [snd] in K.
  destruct (node_eq v n) as [[]|]; [reflexivity| |congruence]. apply IH. intros kv Hkv. apply H. now right.
Qed.
(** the marks of a node *)
Definition name_of (n : node) : str := match first_name an n with Some a => a | None => [] end.
Definition marks (n : node) (p : str) : Prop :=
  (p = [] /\ own_tag (n_rawtag n) = [] /\ first_name an n = None \/ props tags false (name_of n) (own_tag (n_rawtag n)) p)
  /\ (forall a, first_name an n = Some a -> name_ok a)
  /\ exists a g, anchor_part an n = ROk a /\ tag_part n = ROk g /\ p = a ++ g.
Lemma sp_sep : sep (lit " "). Proof. exists []. split; [reflexivity|constructor]. Qed.
Lemma core_tag n : starts_with (lit "tag:yaml.org,2002:") (node_tag n) = true \/ node_tag n = [] \/ node_tag n = own_tag (n_rawtag n) /\ node_tag n <> [].
Proof.
  unfold node_tag, own_tag. destruct (n_rawtag n) as [|c t]; [destruct (n_yaml n); auto|].
  destruct (starts_with _ (c :: t)); [auto|]. right. right. split; [reflexivity|discriminate].
Qed.
Lemma own_none n : starts_with (lit "tag:yaml.org,2002:") (node_tag n) = true \/ node_tag n = [] -> own_tag (n_rawtag n) = [].
Proof.
  unfold node_tag, own_tag. destruct (n_rawtag n) as [|c t]; [reflexivity|]. intros [-> |]; [reflexivity|discriminate].
Qed.
Lemma tag_text_of n : tag_fits (own_tag (n_rawtag n)) -> own_tag (n_rawtag n) = [] /\ tag_part n = ROk []
  \/ exists r, tag_text tags r (own_tag (n_rawtag n)) /\ tag_part n = ROk (ref_text r ++ lit " ").
Proof.
  intros H. unfold tag_part. destruct (core_tag n) as [E|[E|[E NE]]].
  - left. split; [apply own_none; auto|]. change tag_prefix with (lit "tag:yaml.org,2002:"). rewrite E, andb_false_r. reflexivity.
  - left. split; [apply own_none; auto|]. now rewrite E.
  - right. rewrite <- E in *. assert (NC : starts_with tag_prefix (node_tag n) = false).
    { destruct (starts_with tag_prefix (node_tag n)) eqn:K; [|reflexivity]. rewrite (own_none n (or_introl K)) in E. congruence. }
    rewrite NC. destruct (node_tag n) as [|c t] eqn:Et; [congruence|]. cbn [is_nil negb andb]. rewrite <- Et in *.
    assert (D : in_doc (fresh (node_tag n))) by (unfold in_doc; cbn; lia).
    rewrite (is_ok_eq _ _ _ (identifier_exec _ D)). change (rem (fresh (node_tag n))) with (utf8_encode (node_tag n)). rewrite Et. destruct (first_byte c t) as (b & r & -> & Hb).
    cbn [ident_len]. rewrite Hb. destruct H as [H|[H|[H (c' & r' & E2 & Hc)]]]; [congruence| |]; rewrite Et in *.
    + exists (RLocal (c :: t)). assert (Ha : is_alnum c = true) by (destruct H as (x & y & [= -> ->] & Hx & _); exact Hx). rewrite Ha. cbn [Nat.eqb fst bind_res].
      split; [split; [exact H|split; [reflexivity|discriminate]]|]. cbn [ref_text]. now rewrite <- app_assoc.
    + exists (RFull (c :: t)). injection E2 as <- <-. assert (Ha : is_alnum c = false) by (destruct (is_alnum c) eqn:K; [exfalso; apply Hc; now apply alnum_iff|reflexivity]).
      rewrite Ha. cbn [Nat.eqb fst bind_res]. split; [split; [exact H|split; [reflexivity|discriminate]]|]. cbn [ref_text]. now rewrite <- !app_assoc.
Qed.
Lemma marks_text pl n : marks_ok an pl n -> exists p, marks n p /\ (may_mark pl (n_yaml n) = false -> p = []).
Proof.
  intros [H1 H2 H3 H4]. unfold marks, name_of, anchor_part. rewrite (find_first n H1). destruct (tag_text_of n H2) as [[T1 T2]|(r & T1 & T2)]; rewrite T2;
  destruct (first_name an n) as [a|] eqn:Ea.
  - exists (lit "&" ++ a ++ lit " "). split; [|intros K; destruct (H4 K); congruence]. split; [|split; [exact H3|eexists _, _; repeat split; now rewrite app_nil_r]].
    right. rewrite T1. apply PAnchor; [now apply H3|left; apply sp_sep].
  - exists []. split; [|auto]. split; [auto|]. split; [exact H3|]. eexists _, _; repeat split.
  - exists (lit "&" ++ a ++ lit " " ++ ref_text r ++ lit " "). split; [|intros K; destruct (H4 K); congruence].
    split; [|split; [exact H3|eexists _, _; repeat split; now rewrite <- !app_assoc]]. right. apply PAnchorTag; [now apply H3|apply sp_sep|exact T1|left; apply sp_sep].
  - exists (ref_text r ++ lit " "). split; [|intros K; destruct (H4 K) as [K1 _]; destruct T1 as (_ & _ & T1); congruence]. split; [|split; [exact H3|eexists _, _; repeat split]].
    right. apply PTag; [exact T1|left; apply sp_sep].
Qed.
(** a node from its marks and its content *)
Lemma mark_full n p m c o e y t e1 f l : marks n p -> content cyclic tags eol m c (o + blen p) false e y t e1 f -> settle_y y = settle_y (n_yaml n) ->
  ext l e e1 -> new_in (l ++ own n) e ->
  exists x e2, full cyclic tags eol m c o false e x (p ++ t) e2 f /\ settle x = settle n /\ ext (l ++ own n) e e2.
Proof.
  intros (M & NO & _) C S E Nw. destruct M as [(-> & T & A)|P].
  - unfold own_name. rewrite A, app_nil_r. rewrite Nat.add_0_r in C. exists (Node (N.of_nat o) [] y), e1. split; [now apply Bare|]. split; [|exact E].
    unfold settle. cbn [n_rawtag n_yaml]. now rewrite S, T.
  - set (x := Node (N.of_nat (o + blen p)) (own_tag (n_rawtag n)) y).
    assert (SX : settle x = settle n) by (unfold settle, x; cbn [n_rawtag n_yaml]; now rewrite S, own_own).
    destruct (new_split _ _ _ _ Nw E) as [_ Nw2]. unfold own_name, name_of in *. destruct (first_name an n) as [a|] eqn:Ea.
    + exists x, ((a, x) :: e1). split.
      * eapply Props; [exact P|exact C|]. apply NewName; [|destruct Nw2 as [_ Nw2]; apply Nw2; now left].
        now apply name_ne, NO.
      * split; [exact SX|]. eapply ext_app; [exact E|]. exists [(a, x)]. split; [constructor; [split; [reflexivity|exact SX]|constructor]|reflexivity].
    + exists x, e1. split; [|split; [exact SX|now rewrite app_nil_r]]. eapply Props; [exact P|exact C|constructor].
Qed.

(** *** How nodes end *)
Definition ends (f : finish) : Prop := f = Done \/ f = Num \/ exists w, f = Open w.
Lemma ends_break f k : ends f -> break_after eol k f eol.
Proof.
  intros H. left. exists [], []. split; [now rewrite app_nil_r|]. split; [constructor|]. split; [now left|]. split.
  - intros w ->. exists 0, []. split; [cbn [rows repeat List.concat]; now rewrite !app_nil_r|now left].
  - intros w nx i ->. destruct H as [H|[H|(w' & H)]]; discriminate.
Qed.
Lemma before_eol nx : break_before eol nx eol.
Proof. exists [], []. split; [now rewrite app_nil_r|]. split; [constructor|now left]. Qed.
Lemma drop_eol b : drop_nl win (b ++ eol) = ROk b.
Proof. unfold eol. destruct win; [apply drop_crlf|apply drop_lf]. Qed.
Lemma blen_eol : blen eol = List.length eol. Proof. unfold eol. destruct win; reflexivity. Qed.
Lemma blen_app a b : blen (a ++ b) = blen a + blen b. Proof. now rewrite encode_app, app_length. Qed.
Lemma blen_indent k : blen (indent k) = k. Proof. unfold indent. now rewrite encode_spaces, repeat_length. Qed.

(** *** Scalars *)
Definition clear (t : str) : Prop := match t with c :: _ => is_uni_ws c = false | [] => True end.
Lemma leaf_atom y t : leaf y t -> exists f, (f = Done \/ f = Num) /\ forall e, atom cyclic false e y t f.
Proof.
  intros [t' y' H1 H2 H3 _ H4|t' H|t' H H0|b H].
  - exists Done. split; [auto|]. intros e. apply word_atom; [|exact H4]. repeat split; try assumption; try (apply H1). discriminate.
  - exists Num. split; [auto|]. intros e. now apply int_atom.
  - exists Num. split; [auto|]. intros e. destruct H as [H|H]; [|now apply sci_atom]. apply float_atom; [exact H|]. now apply NoDot0.
  - exists Done. split; [auto|]. intros e. now apply ADouble.
Qed.
Lemma leaf_ne y t : leaf y t -> t <> [].
Proof.
  intros [t' y' H1 _ _ _ _|t' H|t' H _|b _]; try (destruct (literal_head t') as (c & r & -> & _); [tauto|discriminate]); [|discriminate].
  destruct (pl_first t' H1) as (c & r & -> & _). discriminate.
Qed.
Lemma scalar_text n p root level : marks n p -> scalar_fits cyclic uni (n_yaml n) ->
  exists t f, dump_node win uni an n root level = ROk (p ++ t) /\ (f = Done \/ f = Num) /\ (forall e, atom cyclic false e (n_yaml n) t f) /\ clear t /\ t <> [].
Proof.
  intros (_ & _ & a & g & A & G & ->) S. destruct n as [q tg y]. cbn [n_yaml] in *.
  assert (K : exists t, dump_node win uni an (Node q tg y) root level = ROk ((a ++ g) ++ t) /\ clear t /\ t <> [] /\ (leaf y t \/ cyclic = true /\ exists b, y = YAlias b /\ name_ok b /\ t = lit "*" ++ b)).
  { destruct S as [S|(C & b & -> & Hb)].
    - destruct (scalar_dump win uni (node_from y) root level (or_introl eq_refl) S) as (t & E & L & F). exists t. split; [|split; [exact F|split; [eapply leaf_ne; exact L|now left]]].
      pose proof (tag_scalar uni (node_from y) (or_introl eq_refl) S) as T. unfold node_from in *. cbn [dump_node] in *. rewrite A, G. cbn [bind_res]. rewrite T in E.
      change (anchor_part [] (Node 0 [] y)) with (ROk (A:=str) []) in E. cbn [bind_res app] in E. destruct S; cbn [bind_res] in *; try (injection E as <-; reflexivity).
      + destruct b; injection E as <-; reflexivity.
      + destruct (dump_str win uni (repeat_str level (lit "  ")) s); try discriminate. injection E as ->. reflexivity.
      + destruct (dump_str win uni (repeat_str level (lit "  ")) s); try discriminate. injection E as ->. reflexivity.
    - exists (lit "*" ++ b). cbn [dump_node]. rewrite A, G. cbn [bind_res]. split; [reflexivity|]. split; [reflexivity|]. split; [discriminate|]. right. eauto. }
  destruct K as (t & E & F & NE & [L|(C & b & -> & Hb & ->)]).
  - destruct (leaf_atom y t L) as (f & Hf & HA). exists t, f. auto.
  - exists (lit "*" ++ b), Done. split; [exact E|]. split; [auto|]. split; [|auto]. intros e.
    pose proof (AAlias cyclic false e b (Node 0 [] YNull) Hb) as X. unfold alias_of in X. rewrite C in X. rewrite C. apply X. discriminate.
Qed.

(** *** What is to be shown of a node in its place *)
Definition ITEM (n : node) : Prop := forall level o e, 1 <= level -> new_in (anch n) e -> exists t x e' f,
  dump_node win uni an n RArray level = ROk t /\ full cyclic tags eol false (2 * level) o false e x t e' f
  /\ settle x = settle n /\ ext (anch n) e e' /\ ends f.
Definition VALUE (n : node) : Prop := forall root level i o e, new_in (anch n) e -> exists nx w t x e' f,
  value_text win uni an root level i n = ROk (w ++ t) /\ sep_or nx w /\ full cyclic tags eol true (2 * level) (o + List.length w) nx e x t e' f
  /\ settle x = settle n /\ ext (anch n) e e' /\ ends f.
Definition key_form (h : bool) (c o : nat) (e : scope) (x : node) (kt : str) (e1 : scope) : Prop :=
  key cyclic tags eol (c + 2) o h e x kt e1
  \/ exists w t f, kt = lit "?" ++ w ++ t ++ eol ++ indent c /\ sep w /\ full cyclic tags eol true c (o + 1 + List.length w) false e x t e1 f /\ ends f.
Definition KEY (h : bool) (n : node) : Prop := forall level o e, new_in (anch n) e -> exists s x e1 kt,
  dump_node win uni an n RMap (level + 1) = ROk s /\ (forall buf, key_text win level n buf s = buf ++ kt)
  /\ key_form h (2 * level) o e x kt e1 /\ settle x = settle n /\ ext (anch n) e e1 /\ clear kt /\ kt <> [].
Definition SEQ (v : list node) : Prop := forall level o e, new_in (flat_map anch v) e -> exists t xs e' f,
  (forall i buf, items_loop (fun x => dump_node win uni an x RArray (level + 1)) eol (repeat_str level (lit "  ")) level i v buf = ROk (buf ++ indent (2 * level) ++ lit "- " ++ t ++ eol))
  /\ Gram.items cyclic tags eol (2 * level) o false e xs t e' f /\ List.map settle xs = List.map settle v /\ ext (flat_map anch v) e e' /\ ends f.
Definition MAP (h : bool) (m : list (node * node)) : Prop := forall root level i o e, new_in (flat_map (fun kv => anch (fst kv) ++ anch (snd kv)) m) e -> exists t ms e' f,
  (forall buf, entries_loop win uni an root level i m buf = ROk (buf ++ (if negb (Nat.eqb i 0) || is_rmap root then indent (2 * level) else []) ++ t ++ eol))
  /\ Gram.entries cyclic tags eol (2 * level) o h e ms t e' f /\ List.map settle_p ms = List.map settle_p m
  /\ ext (flat_map (fun kv => anch (fst kv) ++ anch (snd kv)) m) e e' /\ ends f /\ clear t /\ t <> [].

Lemma seq_text v : v <> [] -> Forall ITEM v -> SEQ v.
Proof.
  assert (B : forall level i buf, (if negb (Nat.eqb i 0) || negb (Nat.eqb level 0) then buf ++ indent (2 * level) else buf) = buf ++ indent (2 * level)).
  { intros level i buf. destruct (negb (Nat.eqb i 0)); [reflexivity|]. destruct (Nat.eqb_spec level 0) as [->|]; [cbn; now rewrite app_nil_r|reflexivity]. }
  intros Hn H level. induction H as [|x v Hx Hv IH]; [congruence|]. intros o e Nw. cbn [flat_map] in *.
  assert (Nx : new_in (anch x) e).
  { destruct Nw as [N1 N2]. rewrite List.map_app in *. apply nodup_parts in N1 as (N1 & _). split; [exact N1|]. intros a Ha. apply N2, in_app_iff. auto. }
  destruct (Hx (level + 1) o e ltac:(lia) Nx) as (tx & x' & e1 & f1 & E & F & S & X & En). replace (2 * (level + 1)) with (2 * level + 2) in F by lia.
  destruct v as [|y v].
  - exists tx, [x'], e1, f1. split; [|split; [now apply Gram.SOne|split; [cbn; now rewrite S|split; [now rewrite app_nil_r|exact En]]]].
    intros i buf. cbn [items_loop]. rewrite repeat_indent, B, E. cbn [bind_res items_loop]. f_equal; apps.
  - destruct (IH ltac:(discriminate) (o + blen tx + blen eol + 2 * level + 1 + 1) e1 (proj2 (new_split _ _ _ _ Nw X))) as (t & xs & e2 & f & L & I & S2 & X2 & En2).
    exists (tx ++ eol ++ indent (2 * level) ++ lit "-" ++ lit " " ++ t), (x' :: xs), e2, f. split; [|split; [|split; [|split; [|exact En2]]]].
    + intros i buf. cbn [items_loop] in *. rewrite repeat_indent in *. rewrite B, E. cbn [bind_res]. rewrite L. f_equal; apps.
    + eapply Gram.SMore; [exact F|now apply ends_break|left; apply sp_sep|exact I].
    + cbn [List.map]. now rewrite S, S2.
    + eapply ext_app; eassumption.
Qed.
Lemma new_left l1 l2 e : new_in (l1 ++ l2) e -> new_in l1 e.
Proof.
  intros [N1 N2]. rewrite List.map_app in *. apply nodup_parts in N1 as (N1 & _). split; [exact N1|]. intros a Ha. apply N2, in_app_iff. auto.
Qed.
(** one entry *)
Lemma entry_text h k x root level i o e : KEY h k -> VALUE x -> new_in (anch k ++ anch x) e ->
  exists s vs et k' x' e' f, dump_node win uni an k RMap (level + 1) = ROk s /\ value_text win uni an root level i x = ROk vs
    /\ (forall buf, (key_text win level k buf s ++ lit ":") ++ vs = buf ++ et)
    /\ entry cyclic tags eol (2 * level) o h e k' x' et e' f /\ settle_p (k', x') = settle_p (k, x) /\ ext (anch k ++ anch x) e e' /\ ends f /\ clear et /\ et <> [].
Proof.
  intros HK HV Nw. destruct (HK level o e (new_left _ _ _ Nw)) as (s & k' & e1 & kt & E1 & E2 & F & S & X & C & NE).
  assert (HC : forall z, clear (kt ++ z) /\ kt ++ z <> []) by (intros z; destruct kt; [congruence|]; split; [exact C|discriminate]).
  pose proof (proj2 (new_split _ _ _ _ Nw X)) as Nx.
  destruct (HV root level i (o + blen kt + 1) e1 Nx) as (nx & w & t & x' & e2 & f & E3 & W & FV & S2 & X2 & En).
  exists s, (w ++ t), (kt ++ lit ":" ++ w ++ t), k', x', e2, f. split; [exact E1|]. split; [exact E3|]. split; [intros buf; rewrite E2; apps|].
  split; [|split; [unfold settle_p; cbn [fst snd]; now rewrite S, S2|split; [eapply ext_app; eassumption|split; [exact En|apply HC]]]].
  destruct F as [F|(wq & tq & fq & -> & Hw & F & Eq)].
  - eapply ESimple; [exact F|exact W|exact FV].
  - replace ((lit "?" ++ wq ++ tq ++ eol ++ indent (2 * level)) ++ lit ":" ++ w ++ t) with (lit "?" ++ wq ++ tq ++ eol ++ indent (2 * level) ++ lit ":" ++ w ++ t) by apps.
    eapply (EExplicit cyclic tags eol _ _ _ _ false wq); [now left|exact F|now apply ends_break|exact W|].
    rewrite !blen_app, blen_indent, (sep_encode wq Hw) in FV. change (blen (lit "?")) with 1 in FV.
    replace (o + 1 + List.length wq + blen tq + blen eol + 2 * level + 1 + List.length w) with (o + (1 + (List.length wq + (blen tq + (blen eol + 2 * level)))) + 1 + List.length w) by lia. exact FV.
Qed.
Lemma map_text m : forall h k x, KEY h k -> VALUE x -> Forall (fun kv => KEY false (fst kv) /\ VALUE (snd kv)) m -> MAP h ((k, x) :: m).
Proof.
  induction m as [|[k2 x2] m IH]; intros h k x HK HV H root level i o e Nw; cbn [flat_map fst snd] in *.
  - rewrite app_nil_r in *. destruct (entry_text h k x root level i o e HK HV Nw) as (s & vs & et & k' & x' & e' & f & E1 & E2 & E3 & F & S & X & En & C & NE).
    exists et, [(k', x')], e', f. split; [|split; [now apply Gram.EOne|split; [cbn [List.map]; now rewrite S|auto]]].
    intros buf. cbn [entries_loop]. rewrite repeat_indent, E1, E2. cbn [bind_res].
    rewrite (app_assoc (key_text _ _ _ _ _ ++ _)), E3. destruct (negb (Nat.eqb i 0) || is_rmap root); f_equal; apps.
  - inversion H as [|? ? [HK2 HV2] H']; subst. cbn [fst snd] in *. 
    destruct (entry_text h k x root level i o e HK HV (new_left _ _ _ Nw)) as (s & vs & et & k' & x' & e1 & f1 & E1 & E2 & E3 & F & S & X & En & C & NE).
    destruct (IH false k2 x2 HK2 HV2 H' root level (Datatypes.S i) (o + blen et + blen eol + 2 * level) e1 (proj2 (new_split _ _ _ _ Nw X))) as (t & ms & e2 & f & L & I & S2 & X2 & En2 & _).
    exists (et ++ eol ++ indent (2 * level) ++ t), ((k', x') :: ms), e2, f. split; [|split; [|split; [|split; [|split; [exact En2|]]]]].
    + intros buf. cbn [entries_loop] in *. rewrite repeat_indent in *. rewrite E1, E2. cbn [bind_res]. rewrite (app_assoc (key_text _ _ _ _ _ ++ _)), E3.
      rewrite L. cbn [Nat.eqb negb orb]. destruct (negb (Nat.eqb i 0) || is_rmap root); f_equal; apps.
    + eapply Gram.EMore; [exact F|now apply ends_break|exact I].
    + cbn [List.map]. now rewrite S, S2.
    + eapply ext_app; eassumption.
    + destruct et; [congruence|]. split; [exact C|discriminate].
Qed.

(** *** Collections *)
Lemma seq_dump n p v root level t : marks n p -> n_yaml n = YSeq v ->
  (forall i buf, items_loop (fun x => dump_node win uni an x RArray (level + 1)) eol (repeat_str level (lit "  ")) level i v buf = ROk (buf ++ indent (2 * level) ++ lit "- " ++ t ++ eol)) ->
  dump_node win uni an n root level = ROk (p ++ eol ++ indent (2 * level) ++ lit "- " ++ t).
Proof.
  intros (_ & _ & a & g & A & G & ->) E L. destruct n as [q tg y]. cbn [n_yaml] in E. subst y. rewrite seq_body, A, G. cbn [bind_res]. fold eol. rewrite L. cbn [bind_res].
  rewrite !app_assoc, drop_eol. cbn [bind_res]. f_equal; apps.
Qed.
Lemma map_dump n p m root level t : marks n p -> n_yaml n = YMap m ->
  (forall buf, entries_loop win uni an root level 0 m buf = ROk (buf ++ (if negb (Nat.eqb 0 0) || is_rmap root then indent (2 * level) else []) ++ t ++ eol)) ->
  dump_node win uni an n root level = ROk (p ++ (if is_rmap root then eol ++ indent (2 * level) else []) ++ t).
Proof.
  intros (_ & _ & a & g & A & G & ->) E L. destruct n as [q tg y]. cbn [n_yaml] in E. subst y. rewrite map_body, A, G. cbn [bind_res]. rewrite L. cbn [bind_res Nat.eqb negb orb].
  rewrite !app_assoc, drop_eol. cbn [bind_res]. destruct root; cbn [is_rmap]; f_equal; unfold eol; apps.
Qed.
Lemma seq_body_of v level o e : SEQ v -> new_in (flat_map own (inside (YSeq v))) e -> exists bt y e' f,
  (forall n p root, marks n p -> n_yaml n = YSeq v -> dump_node win uni an n root level = ROk (p ++ eol ++ indent (2 * level) ++ bt))
  /\ (exists t xs, bt = lit "-" ++ lit " " ++ t /\ y = YSeq xs /\ Gram.items cyclic tags eol (2 * level) (o + 1 + 1) false e xs t e' f)
  /\ (forall h, body cyclic tags eol (2 * level) o h e y bt e' f) /\ settle_y y = settle_y (YSeq v) /\ ext (flat_map own (inside (YSeq v))) e e' /\ ends f /\ clear bt /\ bt <> [].
Proof.
  intros HS Nw. rewrite inside_seq in *. destruct (HS level (o + 1 + 1) e Nw) as (t & xs & e' & f & L & I & S & X & En).
  exists (lit "-" ++ lit " " ++ t), (YSeq xs), e', f. split; [|split; [eauto|split; [|split; [now apply settle_seq|split; [exact X|split; [exact En|split; [reflexivity|discriminate]]]]]]].
  - intros n p root M E. erewrite seq_dump by eassumption. reflexivity.
  - intros h. eapply Gram.BSeq; [left; apply sp_sep|exact I].
Qed.
Lemma map_body_of h m root level o e : MAP h m -> keys_ok m -> new_in (flat_map own (inside (YMap m))) e -> exists bt y e' f,
  (forall n p, marks n p -> n_yaml n = YMap m -> dump_node win uni an n root level = ROk (p ++ (if is_rmap root then eol ++ indent (2 * level) else []) ++ bt))
  /\ body cyclic tags eol (2 * level) o h e y bt e' f /\ settle_y y = settle_y (YMap m) /\ ext (flat_map own (inside (YMap m))) e e' /\ ends f /\ clear bt /\ bt <> [].
Proof.
  intros HM HK Nw. rewrite inside_map in *. destruct (HM root level 0 o e Nw) as (t & ms & e' & f & L & I & S & X & En & C).
  exists t, (YMap ms), e', f. split; [|split; [|split; [now apply settle_map|auto]]].
  - intros n p M E. now apply map_dump with m.
  - apply Gram.BMap; [exact I|]. eapply settled_keys; eassumption.
Qed.
(** a collection on lines of its own *)
Definition OWN (y : yaml) : Prop := forall level o e, new_in (flat_map own (inside y)) e -> exists bt y' e' f,
  (forall n p, marks n p -> n_yaml n = y -> dump_node win uni an n RMap level = ROk (p ++ eol ++ indent (2 * level) ++ bt))
  /\ body cyclic tags eol (2 * level) o false e y' bt e' f /\ settle_y y' = settle_y y /\ ext (flat_map own (inside y)) e e' /\ ends f.
Definition is_coll (y : yaml) : bool := match y with YSeq _ | YMap _ => true | _ => false end.
Lemma bare_full n m c o nx e y t e1 f l : marks n [] -> content cyclic tags eol m c o nx e y t e1 f -> settle_y y = settle_y (n_yaml n) -> ext l e e1 ->
  exists x, full cyclic tags eol m c o nx e x t e1 f /\ settle x = settle n /\ ext (l ++ own n) e e1.
Proof.
  intros (M & _) C S E. assert (K : own_tag (n_rawtag n) = [] /\ first_name an n = None).
  { destruct M as [(_ & M)|P]; [exact M|]. exfalso. inversion P as [? ? ? ? K|? ? ? ? ? K|? ? ? ? ? ? ? ? ? K|? ? ? ? ? ? ? ? ? K]; subst; try discriminate;
      match goal with K : ref_text ?r ++ _ = [] |- _ => destruct r; discriminate end. }
  destruct K as [T A]. unfold own_name. rewrite A, app_nil_r. exists (Node (N.of_nat o) [] y). split; [now apply Bare|]. split; [|exact E].
  unfold settle. cbn [n_rawtag n_yaml]. now rewrite S, T.
Qed.
Lemma coll_value n : marks n [] -> (forall v, n_yaml n = YSeq v -> SEQ v) -> OWN (n_yaml n) -> is_coll (n_yaml n) = true -> VALUE n.
Proof.
  intros M HS HO HC root level i o e Nw. rewrite anch_eq in *. exists true, []. cbn [List.length]. rewrite Nat.add_0_r.
  assert (V : exists t, (exists y' e' f, dump_node win uni an n RMap (level + 1) = ROk t /\ content cyclic tags eol true (2 * level) o true e y' t e' f
     /\ settle_y y' = settle_y (n_yaml n) /\ ext (flat_map own (inside (n_yaml n))) e e' /\ ends f)).
  { destruct (HO (level + 1) (o + blen eol + 2 * (level + 1)) e (new_left _ _ _ Nw)) as (bt & y' & e' & f & D & Bd & S & X & En).
    exists (eol ++ indent (2 * (level + 1)) ++ bt), y', e', f. split; [now rewrite (D n [] M eq_refl)|]. split; [|auto].
    eapply Gram.VNext; [|apply before_eol|exact Bd]. lia. }
  assert (V' : exists t, (exists y' e' f, value_text win uni an root level i n = ROk t /\ content cyclic tags eol true (2 * level) o true e y' t e' f
     /\ settle_y y' = settle_y (n_yaml n) /\ ext (flat_map own (inside (n_yaml n))) e e' /\ ends f)).
  { unfold value_text. destruct (n_yaml n) as [| | | | |v|m|] eqn:Ey; try discriminate; [|exact V].
    destruct (is_rarray root && Nat.eqb i 0); [|exact V]. clear V.
    destruct (seq_body_of v level (o + blen eol + 2 * level) e (HS v eq_refl) (new_left _ _ _ Nw)) as (bt & y & e' & f & D & (t & xs & -> & -> & I) & _ & S & X & En & _).
    exists (eol ++ indent (2 * level) ++ lit "-" ++ lit " " ++ t), (YSeq xs), e', f. split; [now rewrite (D n [] RMap M Ey)|]. split; [|auto].
    eapply Gram.VFlush; [apply before_eol|left; apply sp_sep|exact I]. }
  destruct V' as (t & y' & e' & f & D & C & S & X & En). destruct (bare_full n _ _ _ _ _ _ _ _ _ _ M C S X) as (x & F & Sx & Xx).
  exists t, x, e', f. split; [exact D|]. split; [right; auto|]. auto.
Qed.
Lemma coll_key h n : marks n [] -> OWN (n_yaml n) -> is_coll (n_yaml n) = true -> KEY h n.
Proof.
  intros M HO HC level o e Nw. rewrite anch_eq in *. set (w := indent (2 * (level + 1))).
  destruct (HO (level + 1) (o + 1 + List.length w + blen (eol ++ eol) + 2 * (level + 1)) e (new_left _ _ _ Nw)) as (bt & y' & e' & f & D & Bd & S & X & En).
  set (T := (eol ++ eol) ++ indent (2 * (level + 1)) ++ bt).
  assert (C : content cyclic tags eol true (2 * level) (o + 1 + List.length w) false e y' T e' f).
  { eapply Gram.VNext; [| |exact Bd]; [lia|]. exists [], eol. split; [reflexivity|]. split; [|now left]. rewrite <- (app_nil_r eol) at 2. apply LEmpty. constructor. }
  destruct (bare_full n _ _ _ _ _ _ _ _ _ _ M C S X) as (x & F & Sx & Xx).
  exists (eol ++ indent (2 * (level + 1)) ++ bt), x, e', (lit "?" ++ w ++ T ++ eol ++ indent (2 * level)). split; [now rewrite (D n [] M eq_refl)|].
  split; [|split; [|split; [exact Sx|split; [exact Xx|split; [reflexivity|discriminate]]]]].
  - intros buf. unfold key_text. rewrite !repeat_indent. fold w. destruct (n_yaml n); try discriminate; unfold T; fold eol; apps.
  - right. exists w, T, f. split; [reflexivity|]. split; [|auto]. unfold w. replace (2 * (level + 1)) with (Datatypes.S (2 * level + 1)) by lia.
    exists (indent (2 * level + 1)). split; [reflexivity|]. apply Forall_forall. intros c Hc. apply repeat_spec in Hc as ->. unfold blank. auto.
Qed.

(** *** Scalars in their places *)
Lemma scalar_item n p : marks n p -> scalar_fits cyclic uni (n_yaml n) -> ITEM n.
Proof.
  intros M S level o e Hl Nw. destruct (scalar_text n p RArray level M S) as (t & f & D & Hf & HA & _).
  assert (I : inside (n_yaml n) = []) by (destruct S as [S|(_ & a & -> & _)]; [destruct S; reflexivity|reflexivity]).
  rewrite anch_eq, I in *. cbn [flat_map app] in *.
  destruct (mark_full n p false (2 * level) o e (n_yaml n) t e f [] M) as (x & e2 & F & Sx & X); [|reflexivity|apply ext_nil|exact Nw|].
  - apply CHere, BInline, IAtom, HA.
  - exists (p ++ t), x, e2, f. unfold ends. tauto.
Qed.
Lemma scalar_value n p : marks n p -> scalar_fits cyclic uni (n_yaml n) -> VALUE n.
Proof.
  intros M S root level i o e Nw. destruct (scalar_text n p RMap (level + 1) M S) as (t & f & D & Hf & HA & _).
  assert (I : inside (n_yaml n) = []) by (destruct S as [S|(_ & a & -> & _)]; [destruct S; reflexivity|reflexivity]).
  rewrite anch_eq, I in *. cbn [flat_map app] in *.
  destruct (mark_full n p true (2 * level) (o + 1) e (n_yaml n) t e f [] M) as (x & e2 & F & Sx & X); [|reflexivity|apply ext_nil|exact Nw|].
  - apply Gram.VHere, IAtom, HA.
  - exists false, (lit " "), (p ++ t), x, e2, f. split; [|split; [left; apply sp_sep|unfold ends; tauto]].
    unfold value_text. destruct S as [S|(_ & a & Ea & _)]; [destruct S|rewrite Ea]; rewrite D; reflexivity.
Qed.
Lemma lines_text n p s root level : marks n p -> n_yaml n = YStr s -> many_lines s ->
  exists t, dump_node win uni an n root level = ROk (p ++ t) /\ scalar_lines eol (2 * level) s t.
Proof.
  intros (_ & _ & a & g & A & G & ->) E H. destruct n as [q tg y]. cbn [n_yaml] in E. subst y.
  destruct (lines_dump win (2 * level) uni s H) as (t & D & K). exists t. split; [|exact K]. cbn [dump_node]. rewrite A, G. cbn [bind_res]. now rewrite repeat_indent, D.
Qed.
Lemma lines_item n p s : marks n p -> n_yaml n = YStr s -> many_lines s -> ITEM n.
Proof.
  intros M E H level o e Hl Nw. destruct (lines_text n p s RArray level M E H) as (t & D & K).
  rewrite anch_eq, E in *. cbn [flat_map app inside] in *.
  destruct (mark_full n p false (2 * level) o e (YStr s) t e (Open (2 * level)) [] M) as (x & e2 & F & Sx & X); [|now rewrite E|apply ext_nil|exact Nw|].
  - apply CLines; [lia|exact K].
  - exists (p ++ t), x, e2, (Open (2 * level)). unfold ends. eauto 10.
Qed.
Lemma lines_value n p s : marks n p -> n_yaml n = YStr s -> many_lines s -> VALUE n.
Proof.
  intros M E H root level i o e Nw. destruct (lines_text n p s RMap (level + 1) M E H) as (t & D & K).
  rewrite anch_eq, E in *. cbn [flat_map app inside] in *. replace (2 * (level + 1)) with (2 * level + 2) in K by lia.
  destruct (mark_full n p true (2 * level) (o + 1) e (YStr s) t e (Open (2 * level + 2)) [] M) as (x & e2 & F & Sx & X); [|now rewrite E|apply ext_nil|exact Nw|].
  - apply VLines; exact K.
  - exists false, (lit " "), (p ++ t), x, e2, (Open (2 * level + 2)). split; [|split; [left; apply sp_sep|unfold ends; eauto 10]].
    unfold value_text. rewrite E, D. reflexivity.
Qed.
Lemma scalar_key h n p : marks n p -> scalar_fits cyclic uni (n_yaml n) -> h = false \/ p = [] -> KEY h n.
Proof.
  intros M S Hh level o e Nw. destruct (scalar_text n p RMap (level + 1) M S) as (t & f & D & Hf & HA & C & NE).
  assert (I : inside (n_yaml n) = []) by (destruct S as [S|(_ & a & -> & _)]; [destruct S; reflexivity|reflexivity]).
  rewrite anch_eq, I in *. cbn [flat_map app] in *.
  assert (KT : forall buf, key_text win level n buf (p ++ t) = buf ++ p ++ t) by (intros buf; unfold key_text; destruct S as [S|(_ & a & Ea & _)]; [destruct S|rewrite Ea]; reflexivity).
  assert (CL : clear (p ++ t) /\ p ++ t <> []).
  { destruct M as ([(-> & _)|P] & _); [split; assumption|]. destruct (props_head _ _ _ _ _ P) as (x & q & Ep & Hx). destruct p as [|c p]; [discriminate|]. split; [|discriminate].
    assert (c = 38%N \/ c = 33%N) as [-> | ->]; [|reflexivity|reflexivity]. inversion P; cbn [app] in *; try congruence; auto;
      match goal with H : ref_text ?r ++ _ = _ |- _ => destruct r; cbn in H; injection H as <- _; auto end. }
  pose proof M as M0. destruct M as ([(-> & T & A)|P] & NO & _).
  - destruct (bare_full n true 0 o false e (n_yaml n) t e f [] M0 ltac:(apply Gram.VHere, IAtom, HA) eq_refl (ext_nil e)) as (x0 & _ & _ & X).
    exists t, (Node (N.of_nat o) [] (n_yaml n)), e, t. cbn [app] in *. split; [exact D|]. split; [exact KT|]. split; [|split; [|split; [exact X|exact CL]]].
    + left. eapply KBare, IAtom, HA.
    + unfold settle. cbn [n_rawtag n_yaml]. now rewrite T.
  - destruct Hh as [-> | ->]; [|exfalso; destruct (props_head _ _ _ _ _ P) as (x & q & Ep & _); discriminate].
    set (x := Node (N.of_nat (o + blen p)) (own_tag (n_rawtag n)) (n_yaml n)).
    assert (SX : settle x = settle n) by (unfold settle, x; cbn [n_rawtag n_yaml]; now rewrite own_own).
    unfold own_name, name_of in *. destruct (first_name an n) as [a|] eqn:Ea.
    + exists (p ++ t), x, ((a, x) :: e), (p ++ t). split; [exact D|]. split; [exact KT|]. split; [|split; [exact SX|split; [|exact CL]]].
      * left. eapply KProps; [reflexivity|exact P|apply IAtom, HA|]. apply NewName; [now apply name_ne, NO|]. apply Nw. now left.
      * exists [(a, x)]. split; [constructor; [split; [reflexivity|exact SX]|constructor]|reflexivity].
    + exists (p ++ t), x, e, (p ++ t). split; [exact D|]. split; [exact KT|]. split; [|split; [exact SX|split; [apply ext_nil|exact CL]]].
      left. eapply KProps; [reflexivity|exact P|apply IAtom, HA|constructor].
Qed.

(** *** All nodes *)
Notation fit := (fits cyclic uni an).
Definition ALL (n : node) : Prop := (fit Item n -> ITEM n) /\ (fit Value n -> VALUE n) /\ (fit Key n -> KEY false n) /\ (fit LeadKey n -> KEY true n).
Definition leads (p : place) : bool := match p with First | Item => true | _ => false end.
Definition parts_all (y : yaml) : Prop :=
  match y with
  | YSeq v => Forall ALL v
  | YMap m => Forall (fun kv => ALL (fst kv) /\ ALL (snd kv)) m
  | _ => True
  end.
Lemma fit_parts p n : fit p n -> parts_all (n_yaml n) -> marks_ok an p n /\
  (scalar_fits cyclic uni (n_yaml n)
   \/ (exists s, (p = Item \/ p = Value) /\ n_yaml n = YStr s /\ many_lines s)
   \/ (exists v, n_yaml n = YSeq v /\ SEQ v)
   \/ (exists m, n_yaml n = YMap m /\ MAP (leads p) m /\ keys_ok m)).
Proof.
  intros [p' n' M S|p' n' s P M E L|p' n' v M E Hn H|p' n' k x m M E K H1 H2 H3] A; (split; [exact M|]).
  - auto.
  - right. left. eauto.
  - right. right. left. exists v. split; [exact E|]. apply seq_text; [exact Hn|]. rewrite E in A. cbn in A. rewrite Forall_forall in *. intros y Hy. apply A; auto.
  - right. right. right. exists ((k, x) :: m). split; [exact E|]. split; [|exact K]. rewrite E in A. cbn in A. inversion A as [|? ? [A1 A2] A3]; subst. cbn [fst snd] in *. apply map_text.
    + destruct p'; cbn [leads lead] in *; apply A1; exact H1.
    + now apply A2.
    + rewrite Forall_forall in *. intros kv Hkv. destruct (A3 kv Hkv) as [B1 B2]. destruct (H3 kv Hkv). split; [now apply B1|now apply B2].
Qed.
Lemma seq_own v : SEQ v -> OWN (YSeq v).
Proof.
  intros HS level o e Nw. destruct (seq_body_of v level o e HS Nw) as (bt & y & e' & f & D & _ & Bd & S & X & En & _). exists bt, y, e', f.
  split; [intros n p M E; now apply D|]. auto.
Qed.
Lemma map_own m : MAP false m -> keys_ok m -> OWN (YMap m).
Proof.
  intros HM HK level o e Nw. destruct (map_body_of false m RMap level o e HM HK Nw) as (bt & y & e' & f & D & Bd & S & X & En & _). exists bt, y, e', f.
  split; [intros n p M E; rewrite (D n p M E); cbn [is_rmap]; f_equal; apps|]. auto.
Qed.
Lemma fit_item n : fit Item n -> parts_all (n_yaml n) -> ITEM n.
Proof.
  intros H A. destruct (fit_parts Item n H A) as [M C]. destruct (marks_text Item n M) as (p & Mp & _).
  destruct C as [C|[(s & _ & E & L)|[(v & E & HS)|(m & E & HM & HK)]]].
  - eapply scalar_item; eassumption.
  - eapply lines_item; eassumption.
  - intros level o e Hl Nw. rewrite anch_eq, E in *. destruct (seq_body_of v level (o + blen p + blen eol + 2 * level) e HS (new_left _ _ _ Nw)) as (bt & y & e' & f & D & _ & Bd & S & X & En & _).
    destruct (mark_full n p false (2 * level) o e y (eol ++ indent (2 * level) ++ bt) e' f (flat_map own (inside (YSeq v))) Mp) with (2 := eq_trans S (f_equal settle_y (eq_sym E))) (3 := X) as (x & e2 & F & Sx & Xx); [|exact Nw|].
    + eapply CNext; [apply before_eol|apply Bd].
    + exists (p ++ eol ++ indent (2 * level) ++ bt), x, e2, f. split; [now apply D|]. auto.
  - intros level o e Hl Nw. rewrite anch_eq, E in *. destruct (map_body_of true m RArray level (o + blen p) e HM HK (new_left _ _ _ Nw)) as (bt & y & e' & f & D & Bd & S & X & En & _).
    destruct (mark_full n p false (2 * level) o e y bt e' f (flat_map own (inside (YMap m))) Mp) with (2 := eq_trans S (f_equal settle_y (eq_sym E))) (3 := X) as (x & e2 & F & Sx & Xx); [|exact Nw|].
    + apply CHere, Bd.
    + exists (p ++ bt), x, e2, f. split; [now rewrite (D n p Mp E)|]. auto.
Qed.
Lemma fit_value n : fit Value n -> parts_all (n_yaml n) -> VALUE n.
Proof.
  intros H A. destruct (fit_parts Value n H A) as [M C]. destruct (marks_text Value n M) as (p & Mp & Hp).
  destruct C as [C|[(s & _ & E & L)|[(v & E & HS)|(m & E & HM & HK)]]].
  - eapply scalar_value; eassumption.
  - eapply lines_value; eassumption.
  - rewrite E in Hp. rewrite (Hp eq_refl) in Mp. apply coll_value; [exact Mp| | |]; rewrite E; [intros v' [= <-]; exact HS|now apply seq_own|reflexivity].
  - rewrite E in Hp. rewrite (Hp eq_refl) in Mp. apply coll_value; [exact Mp| | |]; rewrite E; [discriminate|now apply map_own|reflexivity].
Qed.
Lemma fit_key n (h : bool) : fit (if h then LeadKey else Key) n -> parts_all (n_yaml n) -> KEY h n.
Proof.
  intros H A. destruct (fit_parts _ n H A) as [M C]. destruct (marks_text _ n M) as (p & Mp & Hp).
  destruct C as [C|[(s & K & _)|[(v & E & HS)|(m & E & HM & HK)]]].
  - eapply scalar_key; [exact Mp|exact C|]. destruct h; [|now left]. right. now apply Hp.
  - destruct h, K; discriminate.
  - rewrite E in Hp. rewrite Hp in Mp by (destruct h; reflexivity). apply coll_key; [exact Mp| |]; rewrite E; [now apply seq_own|reflexivity].
  - rewrite E in Hp. rewrite Hp in Mp by (destruct h; reflexivity). apply coll_key; [exact Mp| |]; rewrite E; [|reflexivity]. apply map_own; [|exact HK]. destruct h; exact HM.
Qed.
Lemma parts_ALL n : parts_all (n_yaml n) -> ALL n.
Proof. intros A. split; [|split; [|split]]; intros H; [now apply fit_item|now apply fit_value|now apply (fit_key n false)|now apply (fit_key n true)]. Qed.
Lemma all_parts y : parts_all y.
Proof.
  induction y as [| b | s | s | s | l IH | m IH | a] using yaml_ind2; try exact I; cbn [parts_all].
  - eapply Forall_impl; [|exact IH]. intros n. apply parts_ALL.
  - eapply Forall_impl; [|exact IH]. intros kv [H1 H2]. split; now apply parts_ALL.
Qed.
(** *** Documents *)
Lemma first_text n : fit First n -> new_in (anch n) [] -> exists t x e f,
  dump_node win uni an n RScalar 0 = ROk t /\ full cyclic tags eol false 0 0 false [] x t e f /\ settle x = settle n /\ ext (anch n) [] e /\ ends f.
Proof.
  intros H Nw. destruct (fit_parts First n H (all_parts _)) as [M C]. destruct (marks_text First n M) as (p & Mp & _). rewrite anch_eq in *.
  destruct C as [C|[(s & [K|K] & _)|[(v & E & HS)|(m & E & HM & HK)]]]; try discriminate.
  - destruct (scalar_text n p RScalar 0 Mp C) as (t & f & D & Hf & HA & _).
    assert (I : inside (n_yaml n) = []) by (destruct C as [C|(_ & a & -> & _)]; [destruct C; reflexivity|reflexivity]).
    rewrite I in *. cbn [flat_map app] in *.
    destruct (mark_full n p false 0 0 [] (n_yaml n) t [] f [] Mp) as (x & e2 & F & Sx & X); [|reflexivity|apply ext_nil|exact Nw|].
    + apply CHere, BInline, IAtom, HA.
    + exists (p ++ t), x, e2, f. unfold ends. tauto.
  - rewrite E in *. destruct (seq_body_of v 0 (0 + blen p + blen eol + 0) [] HS (new_left _ _ _ Nw)) as (bt & y & e' & f & D & _ & Bd & S & X & En & _).
    destruct (mark_full n p false 0 0 [] y (eol ++ indent 0 ++ bt) e' f (flat_map own (inside (YSeq v))) Mp) with (2 := eq_trans S (f_equal settle_y (eq_sym E))) (3 := X) as (x & e2 & F & Sx & Xx); [|exact Nw|].
    + eapply CNext; [apply before_eol|apply Bd].
    + exists (p ++ eol ++ indent 0 ++ bt), x, e2, f. split; [now apply D|]. auto.
  - rewrite E in *. destruct (map_body_of true m RScalar 0 (0 + blen p) [] HM HK (new_left _ _ _ Nw)) as (bt & y & e' & f & D & Bd & S & X & En & _).
    destruct (mark_full n p false 0 0 [] y bt e' f (flat_map own (inside (YMap m))) Mp) with (2 := eq_trans S (f_equal settle_y (eq_sym E))) (3 := X) as (x & e2 & F & Sx & Xx); [|exact Nw|].
    + apply CHere, Bd.
    + exists (p ++ bt), x, e2, f. split; [now rewrite (D n p Mp E)|]. auto.
Qed.
Lemma trim_clear t : clear t -> t <> [] -> trim_start (t ++ eol) = t ++ eol /\ trim_start (eol ++ t ++ eol) = t ++ eol.
Proof.
  intros C NE. destruct t as [|c t]; [congruence|]. cbn [clear] in C. cbn [app trim_start]. rewrite C. split; [reflexivity|].
  unfold eol, NL. destruct win; cbn [app trim_start]; now rewrite C.
Qed.
Lemma later_text n o : fit Later n -> new_in (anch n) [] -> exists d t x e f,
  dump_node win uni an n RScalar 0 = ROk d /\ trim_start (d ++ eol) = t ++ eol /\ below cyclic tags eol o true x (eol ++ t) e f
  /\ settle x = settle n /\ ext (anch n) [] e /\ ends f.
Proof.
  intros H Nw. destruct (fit_parts Later n H (all_parts _)) as [M C]. destruct (marks_text Later n M) as (p & Mp & Hp). rewrite Hp in Mp by reflexivity. rewrite anch_eq in *.
  assert (K : exists d t y e f, dump_node win uni an n RScalar 0 = ROk d /\ trim_start (d ++ eol) = t ++ eol /\ body cyclic tags eol 0 (o + blen eol) false [] y t e f
    /\ settle_y y = settle_y (n_yaml n) /\ ext (flat_map own (inside (n_yaml n))) [] e /\ ends f).
  { destruct C as [C|[(s & [K|K] & _)|[(v & E & HS)|(m & E & HM & HK)]]]; try discriminate.
    - destruct (scalar_text n [] RScalar 0 Mp C) as (t & f & D & Hf & HA & Cl & NE).
      assert (I : inside (n_yaml n) = []) by (destruct C as [C|(_ & a & -> & _)]; [destruct C; reflexivity|reflexivity]).
      rewrite I in *. exists t, t, (n_yaml n), [], f. split; [exact D|]. split; [now apply trim_clear|]. split; [apply BInline, IAtom, HA|].
      split; [reflexivity|]. split; [apply ext_nil|]. unfold ends. tauto.
    - rewrite E in *. destruct (seq_body_of v 0 (o + blen eol) [] HS (new_left _ _ _ Nw)) as (bt & y & e' & f & D & _ & Bd & S & X & En & Cl & NE).
      exists (eol ++ bt), bt, y, e', f. split; [now rewrite (D n [] RScalar Mp E)|]. split; [|auto]. rewrite <- app_assoc. now apply trim_clear.
    - rewrite E in *. destruct (map_body_of false m RScalar 0 (o + blen eol) [] HM HK (new_left _ _ _ Nw)) as (bt & y & e' & f & D & Bd & S & X & En & Cl & NE).
      exists bt, bt, y, e', f. split; [now rewrite (D n [] Mp E)|]. split; [|auto]. now apply trim_clear. }
  destruct K as (d & t & y & e & f & D & T & B & S & X & En). exists d, t, (Node (N.of_nat o) [] y), e, f. split; [exact D|]. split; [exact T|].
  split; [apply BelowBare; [apply before_eol|exact B]|]. 
  assert (K : own_tag (n_rawtag n) = [] /\ first_name an n = None) by (destruct M as [_ _ _ M]; now apply M).
  destruct K as [K1 K2]. split; [unfold settle; cbn [n_rawtag n_yaml]; now rewrite S, K1|]. split; [|exact En].
  unfold own_name. rewrite K2. now rewrite app_nil_r.
Qed.
End Text.

(** *** Streams *)
Section Streams.
Variables (win cyclic : bool) (uni : N -> bool).
Let eol := NL win.
(** the names of one document *)
Definition names_in (an : anchors_t) (n : node) (e : scope) : Prop := ext (anchored an n) [] e.
Fixpoint all_names (ns : list node) (ans : list anchors_t) (es : list scope) : Prop :=
  match ns, es with
  | [], [] => True
  | n :: r, e :: es => names_in (hd [] ans) n e /\ all_names r (tl ans) es
  | _, _ => False
  end.
Lemma nth_skip {A} i (l : list A) d : nth i l d = hd d (skipn i l) /\ skipn (Datatypes.S i) l = tl (skipn i l).
Proof.
  revert l. induction i as [|i IH]; intros [|x l]; try (split; reflexivity). cbn [nth hd skipn tl]. apply IH.
Qed.
Lemma nodup_new l : NoDup (List.map fst l) -> new_in l [].
Proof. intros H. split; [exact H|]. intros a _. reflexivity. Qed.
Lemma more_text : forall ns i ans o f, ends f -> docs_fit cyclic uni Later ns (skipn (Datatypes.S i) ans) -> exists u nds es,
  dump_docs win uni (Datatypes.S i) ns ans = ROk u /\ more cyclic (resolve []) eol o f nds es (eol ++ u)
  /\ List.map settle nds = List.map settle ns /\ all_names ns (skipn (Datatypes.S i) ans) es.
Proof.
  induction ns as [|n ns IH]; intros i ans o f En H.
  - exists [], [], []. split; [reflexivity|]. split; [rewrite app_nil_r; apply MEnd, CloseBreak; now apply ends_break|]. split; reflexivity.
  - cbn [docs_fit] in H. destruct H as (H1 & H2 & H3). destruct (nth_skip (Datatypes.S i) ans []) as [N1 N2]. change (@hd (list (str * node)) [] (skipn (Datatypes.S i) ans)) with (@hd anchors_t [] (skipn (Datatypes.S i) ans)) in *. rewrite <- N1 in H1, H2. rewrite <- N2 in H3.
    destruct (later_text win cyclic uni (nth (Datatypes.S i) ans []) n (o + blen eol + 3 + 0) H1 (nodup_new _ H2)) as (d & t & x & e & f' & D & T & B & S & X & En').
    destruct (IH (Datatypes.S i) ans (o + blen eol + 3 + 0 + blen (eol ++ t)) f' En' H3) as (u & nds & es & U & Mo & Sn & An).
    exists (lit "---" ++ eol ++ t ++ eol ++ u), (x :: nds), (e :: es). split; [|split; [|split; [cbn [List.map]; now rewrite S, Sn|]]].
    + cbn [dump_docs]. rewrite D. cbn [bind_res]. fold eol. rewrite U. cbn [bind_res]. change (NL win) with eol in T. rewrite T. f_equal; apps.
    + replace (eol ++ lit "---" ++ eol ++ t ++ eol ++ u) with (eol ++ lit "---" ++ [] ++ (eol ++ t) ++ (eol ++ u)) by apps.
      eapply (MNext cyclic (resolve []) eol o f eol true []); [apply CloseBreak; now apply ends_break|right; auto|apply BelowNode; exact B|exact Mo].
    + cbn [all_names]. rewrite <- N2. split; [|exact An]. change (hd [] (skipn (Datatypes.S i) ans)) with (@hd anchors_t [] (skipn (Datatypes.S i) ans)). rewrite <- N1. exact X.
Qed.
Lemma dump_stream ns ans : ns <> [] -> docs_fit cyclic uni First ns ans -> exists t nds es,
  dump win uni ns ans = ROk t /\ PropGram.stream cyclic eol [] nds es t /\ List.map settle nds = List.map settle ns /\ all_names ns ans es.
Proof.
  destruct ns as [|n ns]; [congruence|]. intros _ (H1 & H2 & H3).
  destruct (first_text win cyclic uni (hd [] ans) n H1 (nodup_new _ H2)) as (t & x & e & f & D & F & S & X & En).
  assert (K : hd [] ans = nth 0 ans [] /\ tl ans = skipn 1 ans) by (destruct ans; split; reflexivity). destruct K as [K1 K2].
  destruct (more_text ns 0 ans (blen t) f En) as (u & nds & es & U & Mo & Sn & An); [now rewrite <- K2|].
  exists (t ++ eol ++ u), (x :: nds), (e :: es). split; [|split; [|split; [cbn [List.map]; now rewrite S, Sn|]]].
  - unfold dump. cbn [dump_docs]. assert (D' : dump_node win uni (nth 0 ans []) n RScalar 0 = ROk t) by (destruct ans; exact D). rewrite D'. cbn [bind_res]. rewrite U. cbn [bind_res]. f_equal. fold eol. apps.
  - eapply PropGram.StPlain; [reflexivity|exact F|exact Mo].
  - cbn [all_names]. split; [exact X|]. now rewrite K2.
Qed.
End Streams.

(** ** C57 *)
Lemma lookup_get a (l : scope) : bt_get a l = lookup a l.
Proof. induction l as [|[b n] l IH]; [reflexivity|]. cbn. destruct (str_eqb a b); [reflexivity|exact IH]. Qed.
Lemma lookup_app a l r : lookup a (l ++ r) = match lookup a l with Some n => Some n | None => lookup a r end.
Proof. induction l as [|[b n] l IH]; [reflexivity|]. cbn [app lookup]. destruct (str_eqb a b); [reflexivity|exact IH]. Qed.
Lemma lookup_out a l : ~ In a (List.map fst l) -> lookup a l = None.
Proof.
  induction l as [|[b n] l IH]; intros H; [reflexivity|]. cbn [lookup]. destruct (str_eqb a b) eqn:E; [apply str_eqb_eq in E as ->; exfalso; apply H; now left|].
  apply IH. intros K. apply H. now right.
Qed.
Lemma lookup_rev a l : NoDup (List.map fst l) -> lookup a (rev l) = lookup a l.
Proof.
  induction l as [|[b n] l IH]; intros H; [reflexivity|]. inversion H as [|? ? H1 H2]; subst. cbn [rev]. rewrite lookup_app, IH by exact H2. cbn [lookup].
  destruct (str_eqb a b) eqn:E; [|now destruct (lookup a l)]. apply str_eqb_eq in E as ->. now rewrite lookup_out.
Qed.
Lemma ext_names l e : NoDup (List.map fst l) -> ext l [] e -> forall a, option_map settle (lookup a e) = option_map settle (lookup a l).
Proof.
  intros H (l' & F & ->) a. rewrite app_nil_r.
  assert (E : List.map fst l' = List.map fst l) by (clear H; induction F as [|x y l' l [E _] _ IH]; [reflexivity|cbn; now rewrite E, IH]).
  rewrite lookup_rev by now rewrite E. clear H E. induction F as [|[x1 x2] [y1 y2] l' l [E1 E2] _ IH]; [reflexivity|]. cbn [fst snd lookup] in *. subst y1.
  destruct (str_eqb a x1); [cbn [option_map]; now rewrite E2|exact IH].
Qed.
Lemma all_named cyclic uni p : forall ns ans es tabs, docs_fit cyclic uni p ns ans -> all_names ns ans es ->
  Forall2 (fun tab e => forall a, bt_get a tab = lookup a e) tabs es -> named_nodes ns ans tabs.
Proof.
  intros ns. revert p. induction ns as [|n ns IH]; intros p ans [|e es] tabs H A F; try contradiction; inversion F as [|tab ? tabs' ? F1 F2]; subst; [exact I|].
  destruct H as (_ & H & Hr). destruct A as [A Ar]. cbn [named_nodes]. split; [|eapply IH; eassumption].
  intros a. rewrite F1, lookup_get. now apply ext_names.
Qed.
(** Documents of that class are written so that reading them gives the same
    nodes, with their tags and aliases, and gives every name to the same node *)
Theorem C57_dump_then_parse_cyclic : forall (win : bool) (uni : N -> bool) (hk : hasher) (ns : list node) (ans : list anchors_t),
  ns <> [] -> docs_fit true uni First ns ans ->
  exists t nds tabs, dump win uni ns ans = ROk t /\ parse_cyclic hk t = ROk (nds, tabs)
    /\ List.map settle nds = List.map settle ns /\ named_nodes ns ans tabs.
Proof.
  intros win uni hk ns ans Hn H. destruct (dump_stream win true uni ns ans Hn H) as (t & nds & es & D & St & S & A).
  destruct (C48_cyclic_exact hk (NL win) [] nds es t) as (tabs & P & F); [unfold NL; destruct win; auto|constructor|cbn; lia|exact St|].
  exists t, nds, tabs. split; [exact D|]. split; [exact P|]. split; [exact S|]. eapply all_named; eassumption.
Qed.
(** without aliases [parse] reads them too *)
Theorem C57_dump_then_parse : forall (win : bool) (uni : N -> bool) (hk : hasher) (ns : list node) (ans : list anchors_t),
  ns <> [] -> docs_fit false uni First ns ans ->
  exists t nds, dump win uni ns ans = ROk t /\ parse hk t = ROk nds /\ List.map settle nds = List.map settle ns.
Proof.
  intros win uni hk ns ans Hn H. destruct (dump_stream win false uni ns ans Hn H) as (t & nds & es & D & St & S & A).
  exists t, nds. split; [exact D|]. split; [|exact S]. eapply C48_parse_exact; [|constructor| |exact St]; [unfold NL; destruct win; auto|cbn; lia].
Qed.
