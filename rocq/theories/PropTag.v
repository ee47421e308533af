(** * C15, C16: documents with directives and tags *)
From Verif Require Export PropDirective PropText.
Open Scope nat_scope.

(** ** Specification *)

(** A tag written before a node. *)
Inductive tagref :=
| RBare                                  (* ! *)
| RLocal (name : bytes)                  (* !name *)
| RSecondary (name : bytes)              (* !!name *)
| RNamed (h : bytes) (name : bytes)      (* !h!name *)
| RFull (uri : str).                     (* !<uri> *)
Definition ref_text (r : tagref) : str :=
  match r with
  | RBare => lit "!"
  | RLocal n => lit "!" ++ n
  | RSecondary n => lit "!!" ++ n
  | RNamed h n => lit "!" ++ h ++ lit "!" ++ n
  | RFull u => lit "!<" ++ u ++ lit ">"
  end.
Definition ref_ok (r : tagref) : Prop :=
  match r with
  | RBare => True
  | RLocal n => name_ok n
  | RSecondary n => n = [] \/ name_ok n
  | RNamed h n => name_ok h /\ (n = [] \/ name_ok n)
  | RFull u => one_line u /\ u <> [] /\ (forall c, In c (lit " <>") -> ~ In c u)
  end.
(** What it stands for after the header [ls]. *)
Definition resolve (ls : list dline) (r : tagref) : option str :=
  match r with
  | RBare => prefix_of Primary ls
  | RLocal n => Some n
  | RSecondary n => option_map (fun p => p ++ n) (prefix_of Secondary ls)
  | RNamed h n => option_map (fun p => p ++ n) (prefix_of (Named h) ls)
  | RFull u => Some u
  end.

(** ** The header *)
Definition tab_of (ls : list dline) (tab : list (str * str)) : list (str * str) := fold_left step_tab ls tab.
Lemma key_handle h h' : match h with Named n => name_ok n | _ => True end -> match h' with Named n => name_ok n | _ => True end ->
  str_eqb (key_of h) (key_of h') = handle_eqb h h'.
Proof.
  assert (K : forall n l, name_ok n -> (exists r, l = 33%N :: r) -> str_eqb n l = false /\ str_eqb l n = false).
  { intros n l (x & t & -> & Hx & _) [r ->]. assert (x <> 33%N) by (intros ->; discriminate).
    cbn [str_eqb]. rewrite (proj2 (N.eqb_neq x 33)), (proj2 (N.eqb_neq 33 x)) by congruence. split; reflexivity. }
  destruct h, h'; intros H H'; cbn [key_of handle_eqb]; try reflexivity;
    first [destruct (K _ (lit "!") H (ex_intro _ _ eq_refl)) as [K1 K2] | destruct (K _ (lit "!") H' (ex_intro _ _ eq_refl)) as [K1 K2] | idtac];
    first [destruct (K _ (lit "!!") H (ex_intro _ _ eq_refl)) as [K3 K4] | destruct (K _ (lit "!!") H' (ex_intro _ _ eq_refl)) as [K3 K4] | idtac];
    auto.
Qed.
Lemma bt_get_insert_other {V} k k' (v : V) m : str_eqb k k' = false -> bt_get k (bt_insert k' v m) = bt_get k m.
Proof.
  intros H. induction m as [|[k1 v1] m IH]; cbn [bt_insert bt_get]; [now rewrite H|].
  destruct (str_eqb k' k1) eqn:E1; cbn [bt_get].
  - apply str_eqb_eq in E1. subst k1. now rewrite H.
  - destruct (str_ltb k' k1); cbn [bt_get]; [now rewrite H|]. destruct (str_eqb k k1); [reflexivity|exact IH].
Qed.
Lemma tab_lookup h ls tab : Forall line_ok ls -> match h with Named n => name_ok n | _ => True end ->
  bt_get (key_of h) (tab_of ls tab) = match defined h ls with Some p => Some p | None => bt_get (key_of h) tab end.
Proof.
  revert tab. induction ls as [|l ls IH]; intros tab Hl Hh; [reflexivity|]. inversion Hl as [|? ? L1 L2]; subst.
  cbn [tab_of fold_left]. change (fold_left step_tab ls (step_tab tab l)) with (tab_of ls (step_tab tab l)).
  rewrite IH by assumption. cbn [defined]. destruct (defined h ls); [reflexivity|].
  destruct l as [v|h' p|t]; try reflexivity. cbn [step_tab]. destruct L1 as [L1 _]. rewrite <- (key_handle h h' Hh L1).
  destruct (str_eqb (key_of h) (key_of h')) eqn:E.
  - apply str_eqb_eq in E. rewrite E. apply bt_get_insert.
  - now apply bt_get_insert_other.
Qed.
Lemma init_lookup h : match h with Named n => name_ok n | _ => True end -> bt_get (key_of h) init_tags = default_prefix h.
Proof.
  destruct h as [| |n]; intros Hn; [reflexivity|reflexivity|]. destruct Hn as (x & t & -> & Hx & _). cbn [key_of default_prefix].
  assert (x <> 33%N) by (intros ->; discriminate).
  change init_tags with [(lit "!", []); (lit "!!", lit "tag:yaml.org,2002:")]. cbn [bt_get str_eqb].
  rewrite (proj2 (N.eqb_neq x 33)) by congruence. reflexivity.
Qed.
Lemma prefix_lookup h ls : Forall line_ok ls -> match h with Named n => name_ok n | _ => True end ->
  bt_get (key_of h) (tab_of ls init_tags) = prefix_of h ls.
Proof.
  intros Hl Hh. rewrite (tab_lookup h ls init_tags Hl Hh), (init_lookup h Hh). reflexivity.
Qed.

Lemma id_ascii c : id_char c -> N.ltb c 128 = true.
Proof. intros [H| ->]; [now apply alnum_ascii|reflexivity]. Qed.
Lemma name_asciis n : name_ok n -> asciis n.
Proof.
  intros (x & t & -> & Hx & Ht). unfold asciis. cbn [forallb]. rewrite (alnum_ascii x Hx). cbn [andb].
  apply forallb_forall. intros c Hc. rewrite Forall_forall in Ht. apply id_ascii. auto.
Qed.
Lemma handle_asciis h : match h with Named n => name_ok n | _ => True end -> asciis (handle_text h).
Proof.
  destruct h as [| |n]; intros H; try reflexivity. unfold handle_text, asciis. rewrite !forallb_app.
  pose proof (name_asciis n H) as K. unfold asciis in K. rewrite K. reflexivity.
Qed.
Definition count_yaml (ls : list dline) : nat := List.length (filter is_yaml ls).
Definition run_line (l : dline) (s : st) : st :=
  set_version (p_version s || is_yaml l) (set_tag (step_tab (p_tag s) l) (set_pos (p_pos s + List.length (utf8_encode (line_of l)) + 1) s)).
Lemma line_run l s rest : in_doc s -> line_ok l -> (is_yaml l = true -> p_version s = false) ->
  rem s = utf8_encode (line_of l) ++ 10%N :: rest -> stop_head rest ->
  directive s = (ROk tt, run_line l s) /\ in_doc (run_line l s) /\ rem (run_line l s) = rest.
Proof.
  intros H Hl Hv R Hs.
  assert (K : in_doc (run_line l s) /\ rem (run_line l s) = rest).
  { unfold run_line. split.
    - pose proof (rem_length s) as RL. rewrite R, app_length in RL. cbn in RL. unfold in_doc in *. cbn. lia.
    - unfold rem in *. cbn [p_pos set_pos set_tag set_version p_doc]. rewrite <- Nat.add_assoc, <- skipn_add, R.
      replace (List.length (utf8_encode (line_of l)) + 1) with (List.length (utf8_encode (line_of l) ++ [10%N])) by (rewrite app_length; reflexivity).
      change (10%N :: rest) with ([10%N] ++ rest). rewrite app_assoc. apply skipn_exact. }
  split; [|exact K]. unfold run_line. destruct l as [v|h p|t].
  - assert (V : utf8_encode v = v /\ List.length v = 3 /\ (starts_with (lit "1.1") (v ++ 10%N :: rest) || starts_with (lit "1.2") (v ++ 10%N :: rest)) = true
        /\ match v ++ 10%N :: rest with [] => True | x :: _ => ~ blank x end).
    { destruct Hl as [-> | ->]; (split; [reflexivity|split; [reflexivity|split; [reflexivity|cbn; intros [|[|]]; discriminate]]]). }
    destruct V as (V1 & V2 & V3 & V4). cbn [line_of] in R. rewrite encode_app, V1 in R.
    change (utf8_encode (lit "%YAML ")) with (lit "%YAML" ++ lit " ") in R. rewrite <- !app_assoc in R.
    rewrite (yaml_line s (lit " ") (v ++ 10%N :: rest) H R); [|repeat constructor|discriminate|exact V4].
    rewrite (Hv eq_refl), V3. set (s1 := set_version true _).
    assert (S1 : in_doc s1). { pose proof (rem_length s) as RL. rewrite R, !app_length in RL. cbn in RL. rewrite V2 in RL. unfold in_doc in *. cbn. lia. }
    assert (S2 : rem s1 = 10%N :: rest).
    { unfold rem, s1. cbn [p_pos set_pos set_version p_doc].
      replace (p_pos s + 5 + List.length (lit " ") + 3) with (p_pos s + List.length (lit "%YAML" ++ lit " " ++ v)) by (rewrite !app_length, V2; cbn; lia).
      rewrite <- skipn_add. change (skipn (p_pos s) (p_doc s)) with (rem s). rewrite R.
      replace (lit "%YAML" ++ lit " " ++ v ++ 10%N :: rest) with ((lit "%YAML" ++ lit " " ++ v) ++ 10%N :: rest) by (now rewrite <- !app_assoc).
      apply skipn_exact. }
    unfold bind. rewrite (gap_stop s1 rest S1 S2 Hs). unfold ret. f_equal. unfold s1.
    apply st_ext; try reflexivity; try (cbn; now rewrite ?Bool.orb_true_r). cbn [p_pos set_pos set_version set_tag line_of is_yaml].
    rewrite encode_app, app_length, V1, V2. change (utf8_encode (lit "%YAML ")) with (lit "%YAML "). cbn. lia.
  - destruct Hl as (L1 & L2 & L3 & L4 & L5 & L6). cbn [line_of] in R |- *. pose proof (encode_asciis _ (handle_asciis h L1)) as EH.
    assert (EL : utf8_encode (lit "%TAG " ++ handle_text h ++ lit " " ++ p) = lit "%TAG " ++ handle_text h ++ lit " " ++ utf8_encode p).
    { rewrite !encode_app, EH. reflexivity. }
    rewrite EL in *. rewrite <- !app_assoc in R.
    rewrite (tag_line s h p rest H L1 L2 L3 L4 L5 L6 R Hs). f_equal.
    apply st_ext; try reflexivity; try (cbn; now rewrite ?Bool.orb_false_r). cbn [p_pos set_pos set_version set_tag].
    rewrite !app_length. cbn. lia.
  - destruct Hl as (L1 & L2 & L3). cbn [line_of] in R |- *.
    assert (EL : utf8_encode (lit "%" ++ t) = 37%N :: utf8_encode t) by (rewrite encode_app; reflexivity).
    rewrite EL in *. rewrite (other_line s t rest H L1 L2 L3 R Hs). f_equal.
    apply st_ext; try reflexivity; try (cbn; now rewrite ?Bool.orb_false_r). cbn. lia.
Qed.
Definition run_lines (ls : list dline) (s : st) : st := fold_left (fun s l => run_line l s) ls s.
Lemma line_head l : exists r, utf8_encode (line_of l) = 37%N :: r.
Proof. destruct l; cbn [line_of]; rewrite ?encode_app; cbn; eauto. Qed.
Lemma header_cons l ls rest : utf8_encode (header (l :: ls)) ++ rest = utf8_encode (line_of l) ++ 10%N :: utf8_encode (header ls) ++ rest.
Proof. unfold header. cbn [flat_map]. rewrite !encode_app. rewrite <- !app_assoc. reflexivity. Qed.
Lemma header_stop ls rest : stop_head rest -> stop_head (utf8_encode (header ls) ++ rest).
Proof.
  intros H. destruct ls as [|l ls]; [exact H|]. rewrite header_cons. destruct (line_head l) as [r ->]. cbn [app].
  exists 37%N. eexists. split; [reflexivity|]. repeat split; discriminate.
Qed.
(** all lines of a good header *)
Lemma header_run ls : forall k s rest, in_doc s -> Forall line_ok ls -> count_yaml ls + (if p_version s then 1 else 0) <= 1 ->
  rem s = utf8_encode (header ls) ++ rest -> stop_head rest ->
  directives (List.length ls + k) s = directives k (run_lines ls s)
  /\ in_doc (run_lines ls s) /\ rem (run_lines ls s) = rest
  /\ p_version (run_lines ls s) = (p_version s || existsb is_yaml ls)
  /\ p_tag (run_lines ls s) = tab_of ls (p_tag s)
  /\ p_pos (run_lines ls s) = p_pos s + List.length (utf8_encode (header ls))
  /\ p_eaten (run_lines ls s) = p_eaten s /\ p_doc (run_lines ls s) = p_doc s /\ p_indent (run_lines ls s) = p_indent s
  /\ p_consumed (run_lines ls s) = p_consumed s /\ l_anchors (run_lines ls s) = l_anchors s /\ l_doc_ind (run_lines ls s) = l_doc_ind s
  /\ p_hash (run_lines ls s) = p_hash s.
Proof.
  induction ls as [|l ls IH]; intros k s rest H Hl Hc R Hs.
  { cbn. rewrite Bool.orb_false_r, Nat.add_0_r. repeat (split; [first [reflexivity|exact H|exact R]|]). reflexivity. }
  inversion Hl as [|? ? L1 L2]; subst. rewrite header_cons in R.
  assert (HV : is_yaml l = true -> p_version s = false).
  { intros E. unfold count_yaml in Hc. cbn [filter] in Hc. rewrite E in Hc. cbn in Hc. destruct (p_version s); [lia|reflexivity]. }
  set (s' := set_eaten (p_pos s) s).
  destruct (line_run l s' _ H L1 HV R (header_stop ls rest Hs)) as (D & D1 & D2).
  assert (E1 : set_eaten (p_eaten s) (run_line l s') = run_line l s) by (apply st_ext; reflexivity).
  assert (D1' : in_doc (run_line l s)) by exact D1.
  assert (D2' : rem (run_line l s) = utf8_encode (header ls) ++ rest) by exact D2.
  assert (HC' : count_yaml ls + (if p_version (run_line l s) then 1 else 0) <= 1).
  { unfold count_yaml in *. cbn [filter] in Hc. unfold run_line. cbn [p_version set_version]. destruct (is_yaml l); cbn in Hc.
    - rewrite (HV eq_refl) in *. cbn. lia.
    - rewrite Bool.orb_false_r. exact Hc. }
  destruct (IH k (run_line l s) rest D1' L2 HC' D2' Hs) as (I1 & I2 & I3 & I4 & I5 & I6 & I7 & I8 & I9 & I10 & I11 & I12 & I13).
  change (run_lines (l :: ls) s) with (run_lines ls (run_line l s)).
  split; [|].
  { cbn [List.length Nat.add directives]. unfold context. fold s'. rewrite D, E1. exact I1. }
  split; [exact I2|]. split; [exact I3|]. split; [rewrite I4; unfold run_line; cbn; now rewrite Bool.orb_assoc|].
  split; [exact I5|]. split; [|split; [exact I7|split; [exact I8|split; [exact I9|split; [exact I10|split; [exact I11|split; [exact I12|exact I13]]]]]]].
  rewrite I6. unfold run_line. cbn [p_pos set_version set_tag set_pos]. 
  pose proof (f_equal (@List.length N) (header_cons l ls [])) as Q. rewrite !app_nil_r, app_length in Q. cbn [List.length] in Q. lia.
Qed.

(** ** One tag *)
Lemma context_eq {A} (m : M A) s r s' : m (set_eaten (p_pos s) s) = (r, s') -> context m s = (r, set_eaten (p_eaten s) s').
Proof. intros E. unfold context. now rewrite E. Qed.
(** the optional name at the end of a tag, in front of a blank *)
Lemma tag_name zz s n rest : is_alnum zz = false -> zz <> 45%N -> in_doc s -> n = [] \/ name_ok n -> rem s = n ++ zz :: rest ->
  context (b <- is_ok identifier ;; if (b : bool) then text else ret []) s = (ROk n, set_pos (p_pos s + List.length n) s).
Proof.
  intros Z1 Z2 H Hn R. set (u := set_eaten (p_pos s) s). assert (U : in_doc u) by exact H. assert (V : rem u = n ++ zz :: rest) by exact R.
  destruct Hn as [-> |Hn].
  - rewrite (@context_eq str _ s (ROk []) u).
    + unfold u. rewrite set_eaten_eaten, set_eaten_id. cbn [List.length]. now rewrite Nat.add_0_r, set_pos_id.
    + fold u. unfold bind. rewrite (is_ok_eq _ _ _ (identifier_exec u U)), V. cbn [app]. rewrite (id_none zz rest Z1). cbn [Nat.eqb].
      now rewrite (set_pos_id u : set_pos (p_eaten u) u = u).
  - assert (NA : name_at n (zz :: rest)) by (split; [exact Hn|intros [K|K]; [unfold is_alnum in *; congruence|congruence]]).
    rewrite (@context_eq str _ s (ROk n) (set_pos (p_pos s + List.length n) u)); [f_equal; unfold u; apply st_ext; reflexivity|].
    fold u. unfold bind. rewrite (is_ok_eq _ _ _ (identifier_exec u U)), V, (ident_len_name _ _ NA).
    assert (NL : Nat.eqb (List.length n) 0 = false) by (destruct Hn as (? & ? & -> & _); reflexivity). rewrite NL.
    assert (VI : in_doc (set_pos (p_pos u + List.length n) u)) by (apply moved_in; [exact U|rewrite V, app_length; lia]).
    rewrite (text_exec _ VI). cbn [p_pos set_pos p_doc p_eaten]. rewrite slice_rem by reflexivity. rewrite V.
    rewrite firstn_app, Nat.sub_diag, firstn_all. cbn [firstn]. rewrite app_nil_r, (name_ascii _ _ NA). reflexivity.
Qed.
Definition ref_len (r : tagref) : nat := List.length (utf8_encode (ref_text r)).
Definition resolve_tab (tab : list (str * str)) (r : tagref) : option str :=
  match r with
  | RBare => bt_get (lit "!") tab
  | RLocal n => Some n
  | RSecondary n => option_map (fun p => p ++ n) (bt_get (lit "!!") tab)
  | RNamed h n => option_map (fun p => p ++ n) (bt_get h tab)
  | RFull u => Some u
  end.
Lemma tag_exec_z zz r s rest : is_alnum zz = false -> ~ In zz [45; 33; 60]%N -> in_doc s -> ref_ok r -> rem s = utf8_encode (ref_text r) ++ zz :: rest ->
  match resolve_tab (p_tag s) r with
  | Some t => tag s = (ROk t, set_pos (p_pos s + ref_len r) s)
  | None => fst (tag s) = RPanic
  end.
Proof.
  intros Z1 ZI H Hr R. unfold tag. change (chr "!") with 33%N.
  assert (Z2 : zz <> 45%N) by (intros ->; apply ZI; simpl; auto). assert (Z3 : zz <> 33%N) by (intros ->; apply ZI; simpl; auto).
  assert (Z4 : zz <> 60%N) by (intros ->; apply ZI; simpl; auto).
  assert (HB : exists x, utf8_encode (ref_text r) = 33%N :: x) by (destruct r; cbn [ref_text]; rewrite ?encode_app; cbn; eauto).
  destruct HB as [x Hx].
  assert (LX : ref_len r = S (List.length x)) by (unfold ref_len; rewrite Hx; reflexivity).
  rewrite Hx in R. cbn [app] in R. rewrite !(bind_ok _ _ _ _ _ (sym_hit 33%N s _ H R)). set (s1 := set_pos (p_pos s + 1) s).
  assert (LR : List.length (rem s) = 2 + List.length x + List.length rest) by (rewrite R; cbn [List.length]; rewrite app_length; cbn; lia).
  assert (H1 : in_doc s1) by (apply moved_in; [exact H|lia]).
  assert (R1 : rem s1 = x ++ zz :: rest) by (unfold s1; rewrite rem_add, R; reflexivity).
  set (u := set_eaten (p_pos s1) s1). assert (U : in_doc u) by exact H1. assert (V : rem u = x ++ zz :: rest) by exact R1.
  assert (BU : set_pos (p_eaten u) u = u) by exact (set_pos_id u).
  assert (FIN : forall k, k = List.length x -> set_eaten (p_eaten s1) (set_pos (p_pos u + k) u) = set_pos (p_pos s + ref_len r) s).
  { intros k ->. unfold u, s1. apply st_ext; try reflexivity. cbn. lia. }
  assert (TX0 : text u = (ROk [], u)).
  { rewrite (text_exec u U). unfold slice. change (p_eaten u) with (p_pos u). rewrite Nat.sub_diag. reflexivity. }
  assert (NOID : (match x ++ zz :: rest with [] => True | c :: _ => is_alnum c = false end) -> unwrap_or tt identifier u = (ROk tt, u)).
  { intros K. rewrite (unwrap_or_eq _ _ _ _ (identifier_exec u U)), V. destruct (x ++ zz :: rest) as [|c l]; [cbn [ident_len Nat.eqb]; now rewrite BU|].
    rewrite (id_none c l K). cbn [Nat.eqb]. now rewrite BU. }
  assert (NA : forall n tl, n ++ tl = x ++ zz :: rest -> name_ok n -> (match tl with [] => True | c :: _ => ~ id_char c end) ->
     forall B (g : str -> M B), (unwrap_or tt identifier ;;; (tg <- text ;; g tg)) u = g n (set_pos (p_pos u + List.length n) u)).
  { intros n tl E Hn Ht B g. assert (NAn : name_at n tl) by (split; assumption). unfold bind at 1.
    rewrite (unwrap_or_eq _ _ _ _ (identifier_exec u U)), V, <- E, (ident_len_name _ _ NAn).
    assert (NL : Nat.eqb (List.length n) 0 = false) by (destruct Hn as (? & ? & -> & _); reflexivity). rewrite NL.
    unfold bind. assert (VI : in_doc (set_pos (p_pos u + List.length n) u)) by (apply moved_in; [exact U|rewrite V, <- E, app_length; lia]).
    rewrite (text_exec _ VI). cbn [p_pos set_pos p_doc p_eaten]. rewrite slice_rem by reflexivity. rewrite V, <- E.
    rewrite firstn_app, Nat.sub_diag, firstn_all. cbn [firstn]. rewrite app_nil_r, (name_ascii _ _ NAn). reflexivity. }
  change (p_tag s) with (p_tag u). destruct r as [|n|n|h n|t]; cbn [ref_text] in Hx; rewrite ?encode_app in Hx; cbn [resolve_tab].
  - (* bare *)
    injection Hx as <-. cbn [app] in *. 
    assert (M1 : forall A (k : M A) c, c <> zz -> is_ok (sym c) u = (ROk false, u)).
    { intros A k c Hc. rewrite (is_ok_eq _ _ _ (sym_exec c u U)), V, (proj2 (N.eqb_neq zz c)) by congruence. now rewrite BU. }
    destruct (bt_get (lit "!") (p_tag u)) as [p|] eqn:E.
    + rewrite (@context_eq str _ s1 (ROk p) u); [f_equal; pose proof (FIN 0 eq_refl) as F; rewrite Nat.add_0_r in F; exact F|]. fold u.
      unfold bind at 1. rewrite (NOID Z1). unfold bind at 1. rewrite TX0. cbn [is_nil negb].
      unfold bind at 1. unfold bind at 1. rewrite (M1 _ (ret tt)) by (change (chr "<") with 60%N; congruence). unfold bind at 1. rewrite (M1 _ (ret tt)) by congruence.
      unfold tag_index. rewrite E. unfold bind at 1.
      rewrite (tag_name zz u [] rest Z1 Z2 U (or_introl eq_refl) V). unfold ret. cbn [List.length]. now rewrite app_nil_r, Nat.add_0_r, set_pos_id.
    + unfold context. fold u. unfold bind at 1. rewrite (NOID Z1). unfold bind at 1. rewrite TX0. cbn [is_nil negb].
      unfold bind at 1. unfold bind at 1. rewrite (M1 _ (ret tt)) by (change (chr "<") with 60%N; congruence). unfold bind at 1. rewrite (M1 _ (ret tt)) by congruence.
      unfold tag_index. rewrite E. reflexivity.
  - (* local *)
    assert (EX : x = n). { pose proof (encode_asciis n (name_asciis n Hr)) as EE. rewrite EE in Hx. injection Hx as <-. reflexivity. }
    subst x. rewrite (@context_eq str _ s1 (ROk n) (set_pos (p_pos u + List.length n) u)); [f_equal; now apply FIN|]. fold u.
    rewrite (NA n (zz :: rest) eq_refl Hr ltac:(intros [K|K]; [unfold is_alnum in *; congruence|congruence])).
    assert (NN : negb (is_nil n) = true) by (destruct Hr as (? & ? & -> & _); reflexivity). rewrite NN.
    set (v := set_pos _ u). assert (VI : in_doc v) by (apply moved_in; [exact U|rewrite V, app_length; lia]).
    assert (VR : rem v = zz :: rest) by (unfold v; rewrite rem_add, V; apply skipn_exact).
    assert (SB : is_ok (sym 33%N) v = (ROk false, u)).
    { rewrite (is_ok_eq _ _ _ (sym_exec 33%N v VI)), VR. rewrite (proj2 (N.eqb_neq zz 33) Z3). cbv iota. f_equal. }
    unfold bind at 1. unfold bind at 1. rewrite SB. unfold ret at 1. cbv iota beta. unfold bind at 1.
    rewrite (tag_name zz u n rest Z1 Z2 U (or_intror Hr) V). reflexivity.
  - (* secondary *)
    assert (EX : x = 33%N :: n).
    { assert (K : utf8_encode n = n) by (destruct Hr as [-> |Hr]; [reflexivity|apply encode_asciis, (name_asciis n Hr)]). rewrite K in Hx. injection Hx as <-. reflexivity. }
    subst x. cbn [app] in *. assert (S1 : is_ok (sym (chr "<")) u = (ROk false, u)).
    { rewrite (is_ok_eq _ _ _ (sym_exec _ u U)), V. change (N.eqb 33 (chr "<")) with false. cbv iota. now rewrite BU. }
    set (v := set_pos (p_pos u + 1) u). assert (VI : in_doc v) by (apply moved_in; [exact U|rewrite V; cbn; lia]).
    assert (VR : rem v = n ++ zz :: rest) by (unfold v; rewrite rem_add, V; reflexivity).
    change (p_tag u) with (p_tag v). destruct (bt_get (lit "!!") (p_tag v)) as [p|] eqn:E; cbn [option_map].
    + rewrite (@context_eq str _ s1 (ROk (p ++ n)) (set_pos (p_pos v + List.length n) v)).
      2:{ fold u. unfold bind at 1. rewrite (NOID eq_refl). unfold bind at 1. rewrite TX0. cbn [is_nil negb].
          unfold bind at 1. unfold bind at 1. rewrite S1. unfold bind at 1. rewrite (is_ok_eq _ _ _ (sym_hit 33%N u _ U V)). fold v.
          unfold tag_index. rewrite E. unfold bind at 1. rewrite (tag_name zz v n rest Z1 Z2 VI Hr VR). reflexivity. }
      f_equal. rewrite <- (FIN (S (List.length n)) eq_refl). unfold v. apply st_ext; try reflexivity. cbn. lia.
    + unfold context. fold u. unfold bind at 1. rewrite (NOID eq_refl). unfold bind at 1. rewrite TX0. cbn [is_nil negb].
      unfold bind at 1. unfold bind at 1. rewrite S1. unfold bind at 1. rewrite (is_ok_eq _ _ _ (sym_hit 33%N u _ U V)). fold v.
      unfold tag_index. rewrite E. reflexivity.
  - (* named *)
    destruct Hr as [Hh Hn].
    assert (EX : x = h ++ 33%N :: n).
    { assert (K : utf8_encode n = n) by (destruct Hn as [-> |Hn]; [reflexivity|apply encode_asciis, (name_asciis n Hn)]).
      pose proof (encode_asciis h (name_asciis h Hh)) as Kh. rewrite K, Kh in Hx. injection Hx as <-. reflexivity. }
    subst x. rewrite <- app_assoc in *. cbn [app] in *.
    assert (NN : negb (is_nil h) = true) by (destruct Hh as (? & ? & -> & _); reflexivity).
    pose proof (NA h (33%N :: n ++ zz :: rest) eq_refl Hh ltac:(intros [K|K]; discriminate)) as NAh.
    set (v := set_pos (p_pos u + List.length h) u) in *. assert (VI : in_doc v) by (apply moved_in; [exact U|rewrite V, app_length; lia]).
    assert (VR : rem v = 33%N :: n ++ zz :: rest) by (unfold v; rewrite rem_add, V; apply skipn_exact).
    set (v' := set_pos (p_pos v + 1) v). assert (VI' : in_doc v') by (apply moved_in; [exact VI|rewrite VR; cbn; lia]).
    assert (VR' : rem v' = n ++ zz :: rest) by (unfold v'; rewrite rem_add, VR; reflexivity).
    change (p_tag u) with (p_tag v'). destruct (bt_get h (p_tag v')) as [p|] eqn:E; cbn [option_map].
    + rewrite (@context_eq str _ s1 (ROk (p ++ n)) (set_pos (p_pos v' + List.length n) v')).
      2:{ fold u. rewrite NAh, NN. unfold bind at 1. unfold bind at 1. rewrite (is_ok_eq _ _ _ (sym_hit 33%N v _ VI VR)). fold v'.
          unfold tag_index. rewrite E. unfold bind at 1. rewrite (tag_name zz v' n rest Z1 Z2 VI' Hn VR'). reflexivity. }
      f_equal. rewrite <- (FIN (List.length h + S (List.length n))) by (rewrite app_length; reflexivity).
      unfold v', v. apply st_ext; try reflexivity. cbn. lia.
    + unfold context. fold u. rewrite NAh, NN. unfold bind at 1. unfold bind at 1. rewrite (is_ok_eq _ _ _ (sym_hit 33%N v _ VI VR)). fold v'.
      unfold tag_index. rewrite E. reflexivity.
  - (* full *)
    destruct Hr as ((Hv & H10 & H13) & Hne & Hbad).
    assert (EX : x = 60%N :: utf8_encode t ++ [62%N]) by (injection Hx as <-; reflexivity). subst x. cbn [app] in *. rewrite <- app_assoc in *. cbn [app] in *.
    set (k := List.length (utf8_encode t)).
    set (v := set_pos (p_pos u + 1) u). assert (VI : in_doc v) by (apply moved_in; [exact U|rewrite V; cbn; lia]).
    assert (VR : rem v = utf8_encode t ++ 62%N :: zz :: rest) by (unfold v; rewrite rem_add, V; reflexivity).
    assert (DC : context (take_while (not_in (lit " <>" ++ [10; 13]%N)) (More 1) ;;; text) v = (ROk t, set_pos (p_pos v + k) v)).
    { unfold context. set (z := set_eaten (p_pos v) v). assert (Z : in_doc z) by exact VI. assert (ZR : rem z = utf8_encode t ++ 62%N :: zz :: rest) by exact VR.
      unfold bind at 1. rewrite (more_exec _ 1 z Z), ZR.
      assert (SP : span (not_in (lit " <>" ++ [10; 13]%N)) (utf8_encode t ++ 62%N :: zz :: rest) = k).
      { unfold k. apply span_app; [|reflexivity]. apply encode_not_in; [reflexivity|].
        apply forallb_forall. intros c Hc. apply not_in_spec. intros K. apply in_app_iff in K as [K|K]; [exact (Hbad c K Hc)|].
        destruct K as [<-|[<-|[]]]; contradiction. }
      rewrite SP. assert (K1 : 1 <= k). { unfold k. destruct t as [|c p']; [congruence|]. destruct (first_byte c p') as (b & r & E & _). rewrite E. cbn. lia. }
      rewrite (proj2 (Nat.leb_le _ _) K1).
      set (z1 := set_pos (p_pos z + k) z). assert (ZZ1 : in_doc z1) by (apply moved_in; [exact Z|rewrite ZR, app_length; unfold k; lia]).
      rewrite (text_exec z1 ZZ1). unfold z1. cbn [p_pos set_pos p_doc p_eaten]. rewrite slice_rem by reflexivity. rewrite ZR.
      unfold k at 1. rewrite firstn_app, Nat.sub_diag, firstn_all. cbn [firstn]. rewrite app_nil_r, (C27_decode_encode t Hv).
      f_equal. }
    set (v1 := set_pos (p_pos v + k) v) in *. assert (VI1 : in_doc v1) by (apply moved_in; [exact VI|rewrite VR, app_length; unfold k; lia]).
    assert (VR1 : rem v1 = 62%N :: zz :: rest) by (unfold v1; rewrite rem_add, VR; apply skipn_exact).
    set (v2 := set_pos (p_pos v1 + 1) v1). assert (VI2 : in_doc v2) by (apply moved_in; [exact VI1|rewrite VR1; cbn; lia]).
    assert (VR2 : rem v2 = zz :: rest) by (unfold v2; rewrite rem_add, VR1; reflexivity).
    rewrite (@context_eq str _ s1 (ROk t) v2).
    + f_equal. rewrite <- (FIN (S (k + 1))) by (cbn [List.length]; rewrite app_length; reflexivity).
      unfold v2, v1, v. apply st_ext; try reflexivity. cbn. lia.
    + fold u. unfold bind at 1. rewrite (NOID eq_refl). unfold bind at 1. rewrite TX0. cbn [is_nil negb].
      unfold bind at 1. unfold bind at 1. change (chr "<") with 60%N. rewrite (is_ok_eq _ _ _ (sym_hit 60%N u _ U V)). fold v.
      unfold bind at 1. change [32; 60; 62; 10; 13]%N with (lit " <>" ++ [10; 13]%N). rewrite DC. unfold bind at 1. change (chr ">") with 62%N. rewrite (sym_hit 62%N v1 _ VI1 VR1). fold v2. unfold ret at 1. cbv beta iota.
      unfold bind at 1. rewrite (tag_name zz v2 [] rest Z1 Z2 VI2 (or_introl eq_refl) VR2). unfold ret. cbn [List.length].
      now rewrite app_nil_r, Nat.add_0_r, set_pos_id.
Qed.
Lemma tag_exec r s rest : in_doc s -> ref_ok r -> rem s = utf8_encode (ref_text r) ++ 32%N :: rest ->
  match resolve_tab (p_tag s) r with
  | Some t => tag s = (ROk t, set_pos (p_pos s + ref_len r) s)
  | None => fst (tag s) = RPanic
  end.
Proof. apply tag_exec_z; [reflexivity|simpl; intuition discriminate]. Qed.

(** ** A tagged node *)
Lemma ws_len_one c r : ~ blank c -> ws_len (32%N :: c :: r) = 1.
Proof. intros H. apply (ws_len_app [32%N] (c :: r)); [repeat constructor|exact H]. Qed.
Lemma scalar_node_tagged f s r t rest y s2 : in_doc s -> AT s -> ref_ok r -> resolve_tab (p_tag s) r = Some t -> t <> [] ->
  rem s = utf8_encode (ref_text r) ++ 32%N :: rest ->
  (match rest with x :: _ => x <> 38%N /\ x <> 33%N /\ ~ blank x | [] => False end) ->
  let s1 := at_pos (p_pos s + ref_len r + 1) s in
  f s1 = (ROk y, s2) ->
  scalar_node f s = (ROk (Node (indicator_of s1) t y), set_eaten (p_pos s2) s2) /\ in_doc s1 /\ AT s1 /\ rem s1 = rest.
Proof.
  intros H A0 Hr Ht Hne R Hrest s1 F.
  assert (LX : List.length (utf8_encode (ref_text r)) = ref_len r) by reflexivity.
  assert (HB : exists x, utf8_encode (ref_text r) = 33%N :: x) by (destruct r; cbn [ref_text]; rewrite ?encode_app; cbn; eauto). destruct HB as [x Hx].
  assert (I1 : in_doc s1).
  { pose proof (rem_length s) as RL. rewrite R, app_length, LX in RL. cbn [List.length] in RL. unfold in_doc in *. unfold s1. cbn. lia. }
  assert (R1 : rem s1 = rest).
  { unfold rem, s1. cbn [p_pos at_pos set_pos set_eaten p_doc]. rewrite <- Nat.add_assoc, <- skipn_add. fold (rem s). rewrite R.
    replace (ref_len r + 1) with (List.length (utf8_encode (ref_text r) ++ [32%N])) by (rewrite app_length, LX; reflexivity).
    change (32%N :: rest) with ([32%N] ++ rest). rewrite app_assoc. apply skipn_exact. }
  split; [|split; [exact I1|split; [reflexivity|exact R1]]].
  unfold scalar_node. unfold bind at 1. unfold anchor at 1.
  rewrite (unwrap_or_eq _ _ _ _ (miss (chr "&") _ s H A0 ltac:(rewrite R, Hx; discriminate))). cbn [is_nil].
  unfold bind at 1, ret at 1. unfold bind at 1, forward at 1, modify at 1. rewrite (set_eaten_AT s A0).
  pose proof (tag_exec r s rest H Hr R) as TE. rewrite Ht in TE. unfold bind at 1. rewrite (unwrap_or_eq _ _ _ _ TE). cbv iota beta.
  destruct t as [|t0 t']; [congruence|]. cbn [is_nil].
  set (v := set_pos (p_pos s + ref_len r) s).
  assert (V : in_doc v) by (apply moved_in; [exact H|rewrite R, app_length; lia]).
  assert (VR : rem v = 32%N :: rest) by (unfold v; rewrite rem_add, R, <- LX; apply skipn_exact).
  destruct rest as [|c rest]; [destruct Hrest|]. destruct Hrest as (N1 & N2 & N3).
  unfold bind at 1. rewrite (bound_exec v V), VR. change (at_bound (32%N :: c :: rest)) with true. cbv iota. rewrite (ws_len_one c rest N3).
  unfold bind at 1, forward at 1, modify at 1. 
  assert (E1 : set_eaten (p_pos (set_pos (p_pos v + 1) v)) (set_pos (p_pos v + 1) v) = s1) by (unfold s1, v; apply st_ext; reflexivity).
  rewrite E1. unfold bind at 1. unfold anchor at 1.
  rewrite (unwrap_or_eq _ _ _ _ (miss (chr "&") _ s1 I1 eq_refl ltac:(rewrite R1; exact N1))). cbn [is_nil].
  unfold bind at 1, ret at 1. unfold bind at 1, forward at 1, modify at 1. rewrite (set_eaten_AT s1 eq_refl).
  unfold bind at 1, gets at 1. unfold bind at 1. rewrite F. reflexivity.
Qed.
Lemma scalar_tagged n L mp fl s r t rest p y s2 : in_doc s -> AT s -> ref_ok r -> resolve_tab (p_tag s) r = Some t -> t <> [] ->
  rem s = utf8_encode (ref_text r) ++ 32%N :: rest ->
  (match rest with x :: _ => x <> 38%N /\ x <> 33%N /\ ~ blank x | [] => False end) ->
  scalar n L mp fl (at_pos (p_pos s + ref_len r + 1) s) = (ROk (Node p [] y), s2) ->
  scalar n L mp fl s = (ROk (Node p t y), s2).
Proof.
  intros H A0 Hr Ht Hne R Hrest E. destruct n as [|n]; [discriminate|]. cbn [scalar] in *.
  match type of E with scalar_node ?f _ = _ => set (F := f) in * end.
  pose proof (fun y s2 => scalar_node_tagged F s r t rest y s2 H A0 Hr Ht Hne R Hrest) as K. cbv zeta in K.
  set (s1 := at_pos _ s) in *.
  assert (I1 : in_doc s1 /\ rem s1 = rest).
  { pose proof (rem_length s) as RL. rewrite R, app_length in RL. cbn [List.length] in RL. fold (ref_len r) in RL. split; [unfold in_doc in *; unfold s1; cbn; lia|].
    unfold rem, s1. cbn [p_pos at_pos set_pos set_eaten p_doc]. rewrite <- Nat.add_assoc, <- skipn_add. fold (rem s). rewrite R.
    replace (ref_len r + 1) with (List.length (utf8_encode (ref_text r) ++ [32%N])) by (rewrite app_length; reflexivity).
    change (32%N :: rest) with ([32%N] ++ rest). rewrite app_assoc. apply skipn_exact. }
  destruct I1 as [I1 R1]. rewrite (scalar_node_exec F s1 I1 eq_refl) in E by (rewrite R1; destruct rest; tauto).
  destruct (F s1) as [[y'|e| |] s'] eqn:EF; try discriminate. injection E as <- <- <-. now destruct (K _ _ eq_refl) as [K' _].
Qed.

(** ** Documents *)
Definition quoted (b : str) : str := [34%N] ++ flat_map json_char b ++ [34%N].
Definition tdoc_text (d : tagref * str) : str := lit "--- " ++ ref_text (fst d) ++ lit " " ++ quoted (snd d) ++ [10%N].
Definition body_ok (b : str) : Prop := valid b /\ last b 0%N <> 92%N.
Definition tdoc_ok (ls : list dline) (d : tagref * str) : Prop :=
  ref_ok (fst d) /\ body_ok (snd d) /\ exists t, resolve ls (fst d) = Some t /\ t <> [].

Lemma resolve_ok ls r : Forall line_ok ls -> ref_ok r -> resolve_tab (tab_of ls init_tags) r = resolve ls r.
Proof.
  intros Hl Hr. destruct r as [|n|n|h n|u]; cbn [resolve_tab resolve]; try reflexivity.
  - exact (prefix_lookup Primary ls Hl I).
  - now rewrite <- (prefix_lookup Secondary ls Hl I).
  - destruct Hr as [Hh _]. now rewrite <- (prefix_lookup (Named h) ls Hl Hh).
Qed.
Definition next_ok (rest : bytes) : Prop := rest = [] \/ exists r, rest = lit "---" ++ r.
Lemma next_gap rest : next_ok rest -> gap_f true (10%N :: rest) = Some (1, 1).
Proof. intros [-> |[r ->]]; [reflexivity|]. apply gap_nl; [reflexivity|discriminate..]. Qed.
Lemma tag_head r : exists x, utf8_encode (ref_text r) = 33%N :: x.
Proof. destruct r; cbn [ref_text]; rewrite ?encode_app; cbn; eauto. Qed.
Lemma with_doc_one s c r : in_doc s -> rem s = 32%N :: c :: r -> ~ blank c ->
  p_pos (with_doc s) = p_pos s + 1 /\ in_doc (with_doc s) /\ AT (with_doc s) /\ rem (with_doc s) = c :: r /\ p_tag (with_doc s) = p_tag s.
Proof.
  intros H R Hc. assert (W : doc_ws (rem s) = 1) by (rewrite R; unfold doc_ws; change (at_bound (32%N :: c :: r)) with true; cbv iota; now apply ws_len_one).
  assert (P : p_pos (with_doc s) = p_pos s + 1) by (unfold with_doc; cbn [p_pos set_anchors at_pos set_pos set_eaten]; now rewrite W).
  split; [exact P|]. split.
  { pose proof (rem_length s) as RL. rewrite R in RL. cbn in RL. unfold in_doc in *. rewrite P. change (p_doc (with_doc s)) with (p_doc s). lia. }
  split; [reflexivity|]. split; [|reflexivity].
  unfold rem. rewrite P. change (p_doc (with_doc s)) with (p_doc s). rewrite <- skipn_add. fold (rem s). now rewrite R.
Qed.
Lemma doc_tagged n s r b t rest : in_doc s -> ref_ok r -> body_ok b -> resolve_tab (p_tag s) r = Some t -> t <> [] ->
  rem s = 32%N :: utf8_encode (ref_text r) ++ 32%N :: utf8_encode (quoted b) ++ 10%N :: rest -> next_ok rest -> 6 <= n ->
  exists p s1, doc n s = (ROk (Node p t (YStr b)), s1) /\ in_doc s1 /\ rem s1 = 10%N :: rest /\ p_tag s1 = p_tag s.
Proof.
  intros H Hr [Hv Hl] Ht Hne R Hn Nn. destruct (tag_head r) as [x Hx].
  assert (R' := R). rewrite Hx in R'. cbn [app] in R'.
  destruct (with_doc_one s 33%N _ H R' ltac:(intros [|[|]]; discriminate)) as (P0 & I0 & A0 & R0 & T0).
  change (33%N :: x ++ ?w) with ((33%N :: x) ++ w) in R0. rewrite <- Hx in R0.
  set (s0 := with_doc s) in *. set (s1 := at_pos (p_pos s0 + ref_len r + 1) s0).
  set (e := utf8_encode (flat_map json_char b)).
  assert (EQ : utf8_encode (quoted b) = 34%N :: e ++ [34%N]) by (unfold quoted, e; rewrite !encode_app; reflexivity).
  assert (Q0 : rem s0 = utf8_encode (ref_text r) ++ 32%N :: 34%N :: e ++ 34%N :: 10%N :: rest).
  { rewrite R0, EQ. cbn [app]. now rewrite <- app_assoc. }
  assert (I1 : in_doc s1 /\ rem s1 = 34%N :: e ++ 34%N :: 10%N :: rest).
  { pose proof (rem_length s0) as RL. rewrite Q0, app_length in RL. cbn [List.length] in RL. fold (ref_len r) in RL. split; [unfold in_doc in *; unfold s1; cbn [p_pos at_pos set_pos set_eaten p_doc]; lia|].
    unfold rem, s1. cbn [p_pos at_pos set_pos set_eaten p_doc]. rewrite <- Nat.add_assoc, <- skipn_add. fold (rem s0). rewrite Q0.
    replace (ref_len r + 1) with (List.length (utf8_encode (ref_text r) ++ [32%N])) by (rewrite app_length; reflexivity).
    change (32%N :: 34%N :: ?w) with ([32%N] ++ (34%N :: w)). rewrite app_assoc. apply skipn_exact. }
  destruct I1 as [I1 R1]. set (s2 := set_pos (p_pos s1 + List.length e + 2) s1).
  assert (I2 : in_doc s2 /\ rem s2 = 10%N :: rest).
  { pose proof (rem_length s1) as RL. rewrite R1 in RL. cbn [List.length] in RL. rewrite app_length in RL. cbn [List.length] in RL.
    split; [unfold in_doc in *; unfold s2; cbn [p_pos set_pos p_doc]; lia|].
    unfold s2. replace (p_pos s1 + List.length e + 2) with (p_pos s1 + (1 + (List.length e + 1))) by lia.
    rewrite rem_add, R1, <- !skipn_add. cbn [skipn]. now rewrite skipn_app_len. }
  destruct I2 as [I2 R2].
  assert (RD : reads 1 1 false s1 (YStr b) s2).
  { intros k Hk. destruct k as [|k]; [lia|].
    rewrite (term_double k 1 false s1 (json_str b) (10%N :: rest) I1 eq_refl (json_valid b Hv) (json_qok b Hl) R1). now rewrite json_escape. }
  assert (SC : scalar n 0 false false s1 = (ROk (Node (indicator_of s1) [] (YStr b)), set_eaten (p_pos s2) s2)).
  { apply (scalar_leaf_false 1); try assumption; try reflexivity; [now rewrite R1|rewrite R2; intros ? [=]|lia]. }
  assert (ST : scalar n 0 false false s0 = (ROk (Node (indicator_of s1) t (YStr b)), set_eaten (p_pos s2) s2)).
  { apply (scalar_tagged n 0 false false s0 r t (34%N :: e ++ 34%N :: 10%N :: rest)); try assumption. split; [discriminate|split; [discriminate|intros [|[|]]; discriminate]]. }
  exists (indicator_of s1), (set_doc_ind (l_doc_ind s2 + 1) (set_eaten (p_pos s2) s2)).
  split; [|split; [exact I2|split; [exact R2|reflexivity]]].
  apply (doc_exec n s _ (set_eaten (p_pos s2) s2) H ST I2 eq_refl).
  - change (rem (set_eaten (p_pos s2) s2)) with (rem s2). rewrite R2. unfold gap_len. rewrite (next_gap rest Hn). cbn [skipn].
    destruct Hn as [-> |[q ->]]; reflexivity.
  - change (rem (set_eaten (p_pos s2) s2)) with (rem s2). rewrite R2, (next_gap rest Hn). discriminate.
Qed.
Lemma tdoc_cons d : utf8_encode (tdoc_text d) = lit "---" ++ 32%N :: utf8_encode (ref_text (fst d)) ++ 32%N :: utf8_encode (quoted (snd d)) ++ [10%N].
Proof. unfold tdoc_text. rewrite !encode_app. reflexivity. Qed.
Lemma tdoc_app d l : utf8_encode (tdoc_text d) ++ l = lit "---" ++ 32%N :: utf8_encode (ref_text (fst d)) ++ 32%N :: utf8_encode (quoted (snd d)) ++ 10%N :: l.
Proof. rewrite tdoc_cons. rewrite <- app_assoc. cbn [app]. rewrite <- app_assoc. cbn [app]. rewrite <- app_assoc. reflexivity. Qed.
Lemma tdocs_next ds rest : next_ok rest -> next_ok (utf8_encode (flat_map tdoc_text ds) ++ rest).
Proof.
  intros H. destruct ds as [|d ds]; [exact H|]. right. cbn [flat_map]. rewrite encode_app, <- app_assoc, tdoc_app. eauto.
Qed.
(** the documents after the first one *)
Lemma docs_tagged n ls ds : forall k v s rest, in_doc s -> Forall line_ok ls -> p_tag s = tab_of ls init_tags -> Forall (tdoc_ok ls) ds ->
  rem s = 10%N :: utf8_encode (flat_map tdoc_text ds) ++ rest -> next_ok rest -> 6 <= n ->
  exists v' s', docs_loop (List.length ds + k) n v s = docs_loop k n (v ++ v') s' /\ in_doc s' /\ p_tag s' = tab_of ls init_tags
   /\ rem s' = 10%N :: rest
   /\ map (fun x => (Some (n_rawtag x), n_yaml x)) v' = map (fun d => (resolve ls (fst d), YStr (snd d))) ds.
Proof.
  induction ds as [|d ds IH]; intros k v s rest H Hl Ht Hd R Hn Nn.
  { exists [], s. rewrite app_nil_r. cbn [List.length Nat.add]. repeat split; try assumption. }
  inversion Hd as [|? ? (D1 & D2 & t & D3 & D4) Hd']; subst.
  cbn [flat_map] in R. rewrite encode_app, <- app_assoc, tdoc_app in R.
  set (rest' := utf8_encode (flat_map tdoc_text ds) ++ rest) in *.
  assert (N' : next_ok rest') by (apply tdocs_next, Hn).
  assert (GL : gap_f true (rem s) = Some (1, 1)) by (rewrite R; apply next_gap; right; eauto).
  assert (GL' : gap_len (rem s) = 1) by (unfold gap_len; now rewrite GL).
  set (s0 := set_pos (p_pos s + gap_len (rem s) + 3) s).
  assert (I0 : in_doc s0).
  { pose proof (rem_length s) as RL. rewrite R in RL. cbn [List.length] in RL. rewrite app_length in RL. change (List.length (lit "---")) with 3 in RL. unfold in_doc in *. unfold s0. cbn. rewrite GL'. lia. }
  assert (R0 : rem s0 = 32%N :: utf8_encode (ref_text (fst d)) ++ 32%N :: utf8_encode (quoted (snd d)) ++ 10%N :: rest').
  { unfold s0. rewrite GL', <- Nat.add_assoc, rem_add, R. reflexivity. }
  assert (T0 : resolve_tab (p_tag s0) (fst d) = Some t) by (change (p_tag s0) with (p_tag s); rewrite Ht, (resolve_ok ls _ Hl D1); exact D3).
  destruct (doc_tagged n s0 (fst d) (snd d) t rest' I0 D1 D2 T0 D4 R0 N' Nn) as (p & s1 & E & I1 & R1 & T1).
  destruct (IH k (v ++ [Node p t (YStr (snd d))]) s1 rest I1 Hl (eq_trans T1 Ht) Hd' R1 Hn Nn) as (v' & s' & L1 & L2 & L3 & L4 & L5).
  exists (Node p t (YStr (snd d)) :: v'), s'. split.
  { cbn [List.length Nat.add]. rewrite (docs_next _ _ v s (Node p t (YStr (snd d))) s1 (32%N :: utf8_encode (ref_text (fst d)) ++ 32%N :: utf8_encode (quoted (snd d)) ++ 10%N :: rest')).
    - rewrite L1, <- app_assoc. reflexivity.
    - exact H.
    - rewrite GL', R. reflexivity.
    - rewrite GL. discriminate.
    - cbv zeta. intros _ _. exact E. }
  split; [exact L2|split; [exact L3|split; [exact L4|]]]. cbn [map n_rawtag n_yaml]. rewrite L5, D3. reflexivity.
Qed.

(** *** From the start of the text to the first document *)
Lemma header_length ls : List.length ls <= List.length (utf8_encode (header ls)).
Proof.
  induction ls as [|l ls IH]; [cbn; lia|]. unfold header in *. cbn [flat_map List.length]. rewrite encode_app, app_length.
  pose proof (encode_length (line_of l ++ [10%N])) as K. rewrite app_length in K. cbn in K. lia.
Qed.
Lemma start_header hk ls body : Forall line_ok ls -> count_yaml ls <= 1 -> stop_head body ->
  let s := start hk (utf8_encode (header ls) ++ body) in let s' := run_lines ls s in
  in_doc s' /\ rem s' = body /\ p_version s' = existsb is_yaml ls /\ p_tag s' = tab_of ls init_tags
  /\ p_eaten s' = 0 /\ p_consumed s' = 0%N /\ (forall k, directives (List.length ls + k) s = directives k s').
Proof.
  intros Hl Hc Hs s s'. assert (H0 : in_doc s) by (unfold in_doc, s, start; cbn; lia).
  destruct (header_run ls 0 s body H0 Hl) as (_ & D2 & D3 & D4 & D5 & D6 & D7 & _ & _ & D8 & _); try assumption; [cbn; lia|reflexivity|].
  repeat (split; [first [exact D2|exact D3|exact D4|exact D5|exact D7|exact D8]|]).
  intros k. destruct (header_run ls k s body H0 Hl) as (D1 & _); try assumption; [cbn; lia|reflexivity].
Qed.
Lemma header_marker hk ls r : Forall line_ok ls -> count_yaml ls <= 1 ->
  exists s', in_doc s' /\ rem s' = r /\ p_tag s' = tab_of ls init_tags
   /\ forall n, List.length ls < n -> parse_fuel n (start hk (utf8_encode (header ls) ++ lit "---" ++ r)) = (d <- doc n ;; docs_loop n n [d]) s'.
Proof.
  intros Hl Hc. assert (Hs : stop_head (lit "---" ++ r)) by (exists 45%N; eexists; split; [reflexivity|]; repeat split; discriminate).
  destruct (start_header hk ls (lit "---" ++ r) Hl Hc Hs) as (D2 & D3 & D4 & D5 & D6 & D7 & D1). cbv zeta in *.
  set (s := start hk _) in *. set (s' := run_lines ls s) in *.
  exists (set_pos (p_pos s' + 3) s'). 
  assert (J : in_doc (set_pos (p_pos s' + 3) s')) by (apply moved_in; [exact D2|rewrite D3, app_length; cbn; lia]).
  split; [exact J|]. split; [rewrite rem_add, D3; reflexivity|]. split; [exact D5|].
  intros n Hn. unfold parse_fuel. destruct n as [|n]; [lia|]. replace (S n) with (List.length ls + (S (n - List.length ls))) at 1 by lia.
  unfold bind at 1. rewrite D1. cbn [directives].
  assert (DN : context directive s' = (RErr Mismatch, set_pos (p_pos s') s')).
  { unfold context. set (u := set_eaten (p_pos s') s'). assert (U : in_doc u) by exact D2. assert (V : rem u = lit "---" ++ r) by exact D3.
    unfold directive. unfold bind at 1. rewrite (sym_exec (chr "%") u U), V. cbn [app]. change (N.eqb 45 (chr "%")) with false. cbv iota.
    f_equal. }
  rewrite DN, set_pos_id. unfold bind at 1.
  assert (HH : hd_ok (rem s') = true) by (rewrite D3; reflexivity).
  destruct (hd_gap _ HH) as [G1 G2]. rewrite (unwrap_or_eq _ _ _ _ (gap_exec true s' D2)), G1, G2, Nat.add_0_r, set_pos_id. cbv iota beta.
  unfold bind at 1. rewrite (unwrap_or_eq _ _ _ _ (seq_hit (lit "---") s' r D2 D3)). cbv iota beta. reflexivity.
Qed.

(** ** C16 *)

(** Every document of a text sees the tags the header defines: any number of
    directives before, any number of documents after. *)
Theorem C16_tagged_documents : forall (hk : hasher) (ls : list dline) (ds : list (tagref * str)),
  Forall line_ok ls -> count_yaml ls <= 1 -> ds <> [] -> Forall (tdoc_ok ls) ds ->
  exists v, parse hk (header ls ++ flat_map tdoc_text ds) = ROk v
   /\ map (fun x => (Some (n_rawtag x), n_yaml x)) v = map (fun d => (resolve ls (fst d), YStr (snd d))) ds.
Proof.
  intros hk ls ds Hl Hc Hne Hd. unfold parse, parse_bytes, load. rewrite encode_app.
  destruct ds as [|d ds]; [congruence|]. cbn [flat_map]. rewrite encode_app, tdoc_app.
  inversion Hd as [|? ? (D1 & D2 & t & D3 & D4) Hd']; subst.
  set (rest := utf8_encode (flat_map tdoc_text ds)).
  assert (Hn : next_ok rest) by (unfold rest; rewrite <- (app_nil_r (utf8_encode _)); apply tdocs_next; now left).
  set (r := 32%N :: utf8_encode (ref_text (fst d)) ++ 32%N :: utf8_encode (quoted (snd d)) ++ 10%N :: rest).
  destruct (header_marker hk ls r Hl Hc) as (s' & I0 & R0 & T0 & P). fold (start hk (utf8_encode (header ls) ++ lit "---" ++ r)).
  set (n := fuel_doc _).
  assert (LD : List.length ds <= List.length rest).
  { unfold rest. clear. induction ds as [|d ds IH]; [cbn; lia|]. cbn [flat_map]. rewrite encode_app, app_length, tdoc_cons. cbn [List.length app]. cbn. lia. }
  assert (FN : List.length ls + List.length ds + 6 < n).
  { unfold n, fuel_doc, start. cbn [p_doc new_st]. rewrite !app_length. pose proof (header_length ls). unfold r. cbn [List.length].
    rewrite app_length. cbn [List.length]. rewrite app_length. cbn [List.length]. lia. }
  rewrite P by lia.
  assert (TT : resolve_tab (p_tag s') (fst d) = Some t) by (rewrite T0, (resolve_ok ls _ Hl D1); exact D3).
  destruct (doc_tagged n s' (fst d) (snd d) t rest I0 D1 D2 TT D4 R0 Hn ltac:(lia)) as (p & s1 & E & I1 & R1 & T1).
  unfold bind. rewrite E. 
  destruct (docs_tagged n ls ds (n - List.length ds) [Node p t (YStr (snd d))] s1 [] I1 Hl (eq_trans T1 T0) Hd') as (v' & s2 & L1 & L2 & L3 & L4 & L5).
  { now rewrite app_nil_r. }
  { now left. }
  { lia. }
  replace (List.length ds + (n - List.length ds)) with n in L1 by lia. rewrite L1.
  replace (n - List.length ds) with (S (n - List.length ds - 1)) by lia.
  rewrite docs_end; [|exact L2|rewrite L4; reflexivity]. cbn [fst]. eexists. split; [reflexivity|].
  cbn [app map n_rawtag n_yaml]. rewrite L5, D3. reflexivity.
Qed.
(** A handle without a definition: the parser panics, whatever stands around. *)
Theorem C16_unknown_handle_panics_refuted : forall (hk : hasher) (ls : list dline) (r : tagref) (rest : str),
  Forall line_ok ls -> count_yaml ls <= 1 -> ref_ok r -> resolve ls r = None ->
  parse hk (header ls ++ lit "--- " ++ ref_text r ++ lit " " ++ rest) = RPanic.
Proof.
  intros hk ls r rest Hl Hc Hr Hn. unfold parse, parse_bytes, load. rewrite !encode_app.
  change (utf8_encode (lit "--- ")) with (lit "---" ++ lit " "). rewrite <- app_assoc.
  set (q := lit " " ++ utf8_encode (ref_text r) ++ utf8_encode (lit " ") ++ utf8_encode rest).
  destruct (header_marker hk ls q Hl Hc) as (s' & I0 & R0 & T0 & P). fold (start hk (utf8_encode (header ls) ++ lit "---" ++ q)).
  set (n := fuel_doc _).
  assert (FN : List.length ls + 6 < n).
  { unfold n, fuel_doc, start. cbn [p_doc new_st]. rewrite !app_length. pose proof (header_length ls). lia. }
  rewrite P by lia. destruct (tag_head r) as [x Hx].
  assert (R' : rem s' = 32%N :: 33%N :: x ++ 32%N :: utf8_encode rest) by (rewrite R0; unfold q; rewrite Hx; reflexivity).
  destruct (with_doc_one s' 33%N _ I0 R' ltac:(intros [|[|]]; discriminate)) as (P1 & I1 & A1 & R1 & T1).
  change (33%N :: x ++ ?w) with ((33%N :: x) ++ w) in R1. rewrite <- Hx in R1.
  unfold bind at 1. unfold doc at 1. unfold bind at 1. unfold context.
  assert (H0 : in_doc (set_eaten (p_pos s') s')) by exact I0.
  rewrite (unwrap_or_eq _ _ _ _ (bound_exec _ H0)). change (rem (set_eaten (p_pos s') s')) with (rem s').
  assert (AB : at_bound (rem s') = true) by (rewrite R'; reflexivity). rewrite AB. cbv iota beta.
  unfold bind at 1, forward at 1, modify at 1. unfold bind at 1, modify at 1.
  match goal with |- context [set_anchors ?a ?b] => set (w := set_anchors a b) end.
  assert (EW : w = with_doc s') by (unfold w, with_doc, doc_ws; rewrite AB; apply st_ext; reflexivity).
  rewrite EW. unfold bind at 1. destruct n as [|n]; [lia|]. cbn [scalar]. unfold scalar_node at 1.
  set (s0 := with_doc s') in *.
  unfold bind at 1. unfold anchor at 1.
  rewrite (unwrap_or_eq _ _ _ _ (miss (chr "&") _ s0 I1 A1 ltac:(rewrite R1, Hx; discriminate))). cbn [is_nil].
  unfold bind at 1, ret at 1. unfold bind at 1, forward at 1, modify at 1. rewrite (set_eaten_AT s0 A1).
  pose proof (tag_exec r s0 (utf8_encode rest) I1 Hr R1) as TE. rewrite T1, T0, (resolve_ok ls r Hl Hr), Hn in TE.
  assert (UP : exists s1, unwrap_or [] tag s0 = (RPanic, s1)) by (unfold unwrap_or, bind, ok; destruct (tag s0) as [[t|e| |] s1]; cbn [fst] in TE; try discriminate; eexists; reflexivity). destruct UP as [s1 UP]. unfold bind at 1. rewrite UP. reflexivity.
Qed.

(** What the bare [!] and [!name] do with the primary handle: [!name] ignores
    its definition, and the bare [!] with the (default) empty prefix leaves the
    blank in front of the value. *)
Theorem C16_primary_handle_refuted : forall hk : hasher,
  parse hk (lit "%TAG ! tag:x," ++ [10%N] ++ lit "--- !a b" ++ [10%N]) = ROk [Node 21 (lit "a") (YStr (lit "b"))]
  /\ parse hk (lit "--- ! b" ++ [10%N]) = ROk [Node 5 [] (YStr (lit " b"))].
Proof. intros hk. split; vm_compute; reflexivity. Qed.
(** The hypotheses are met: a header that defines, redefines and overrides. *)
Example C16_witness :
  let ls := [DYaml (lit "1.2"); DTag (Named (lit "e")) (lit "old"); DTag (Named (lit "e")) (lit "tag:e.org,1:"); DTag Secondary (lit "s:"); DOther (lit "FOO bar")] in
  let ds := [(RNamed (lit "e") (lit "t"), lit "v" ++ [34; 233; 10]%N); (RSecondary (lit "str"), []); (RLocal (lit "x"), lit "y"); (RFull (lit "a:b,c!"), lit "w")] in
  Forall line_ok ls /\ count_yaml ls <= 1 /\ ds <> [] /\ Forall (tdoc_ok ls) ds
  /\ map (fun d => resolve ls (fst d)) ds = [Some (lit "tag:e.org,1:t"); Some (lit "s:str"); Some (lit "x"); Some (lit "a:b,c!")]
  /\ resolve ls (RNamed (lit "q") (lit "t")) = None.
Proof.
  assert (OL : forall t, valid t -> forallb (fun c => negb (N.eqb c 10) && negb (N.eqb c 13)) t = true -> one_line t).
  { intros t H0 H. rewrite forallb_forall in H. split; [exact H0|split; intros K; specialize (H _ K); discriminate]. }
  assert (NM : forall n, match n with [] => false | x :: t => is_alnum x && forallb is_alnum t end = true -> name_ok n).
  { intros [|x t] H; [discriminate|]. apply andb_prop in H as [H1 H2]. exists x, t. repeat split; [exact H1|]. rewrite forallb_forall in H2.
    apply Forall_forall. intros c Hc. left. auto. }
  cbv zeta. split; [|split; [cbn; lia|split; [discriminate|split; [|split; reflexivity]]]].
  - repeat (apply Forall_cons || apply Forall_nil); cbn [line_ok]; repeat split; try (now apply OL); try (now apply NM); try discriminate; try (intros K; cbn in K; intuition discriminate); try (intros r; discriminate); try (right; reflexivity).
  - repeat (apply Forall_cons || apply Forall_nil); unfold tdoc_ok, body_ok; cbn [fst snd ref_ok];
     (split; [repeat split; first [now apply NM | right; now apply NM | now apply OL | discriminate | intros c Hc K; cbn in Hc, K; intuition (subst; discriminate) | idtac]
             |split; [split; [|discriminate]|eexists; split; [reflexivity|discriminate]]]).
    all: reflexivity.
Qed.

(** ** C15 *)

(** A header with at most one [%YAML 1.1] or [%YAML 1.2] is accepted
    ([C16_tagged_documents]).  A [%YAML] line with any other text is an error
    and the documents are not read... *)
Lemma directive_err hk ls w rest nm : Forall line_ok ls -> count_yaml ls <= 1 ->
  Forall blank w -> w <> [] -> (match rest with [] => True | x :: _ => ~ blank x end) ->
  (nm = lit "checked version" /\ existsb is_yaml ls = true
   \/ nm = lit "invalid version" /\ existsb is_yaml ls = false /\ starts_with (lit "1.1") (utf8_encode rest) = false /\ starts_with (lit "1.2") (utf8_encode rest) = false) ->
  exists msg, parse hk (header ls ++ lit "%YAML" ++ w ++ rest) = RErr (Terminate nm msg).
Proof.
  intros Hl Hc Hw Hwn Hr HN. unfold parse, parse_bytes, load. rewrite !encode_app. change (utf8_encode (lit "%YAML")) with (lit "%YAML").
  assert (EW : utf8_encode w = w).
  { apply encode_ws. apply forallb_forall. intros c Hc'. rewrite Forall_forall in Hw. destruct (Hw c Hc') as [->|[->| ->]]; reflexivity. }
  rewrite EW. set (body := lit "%YAML" ++ w ++ utf8_encode rest).
  assert (Hs : stop_head body) by (exists 37%N; eexists; split; [reflexivity|]; repeat split; discriminate).
  destruct (start_header hk ls body Hl Hc Hs) as (D2 & D3 & D4 & D5 & D6 & D7 & D1). cbv zeta in *.
  fold (start hk (utf8_encode (header ls) ++ body)). set (n := fuel_doc _).
  assert (FN : List.length ls < n).
  { unfold n, fuel_doc, start. cbn [p_doc new_st]. rewrite !app_length. pose proof (header_length ls). lia. }
  set (s := start hk _) in *. set (s' := run_lines ls s) in *.
  unfold parse_fuel. unfold bind at 1. replace (directives n s) with (directives (List.length ls + S (n - List.length ls - 1)) s) by (f_equal; lia).
  rewrite D1. cbn [directives].
  assert (RB : match utf8_encode rest with [] => True | x :: _ => ~ blank x end).
  { destruct rest as [|c r]; [exact I|]. destruct (first_byte c r) as (b & q & E & K). rewrite E. destruct K as [(_ & -> & _)|[_ K]]; [exact Hr|].
    intros [->|[->| ->]]; lia. }
  unfold context. set (u := set_eaten (p_pos s') s').
  assert (U : in_doc u) by exact D2. assert (V : rem u = lit "%YAML" ++ w ++ utf8_encode rest) by exact D3.
  rewrite (yaml_line u w (utf8_encode rest) U V Hw Hwn RB). change (p_version u) with (p_version s'). rewrite D4.
  assert (ER : forall nm' p, p <= List.length (p_doc u) -> exists msg, @err unit nm' (set_pos p u) = (RErr (Terminate nm' msg), set_pos p u)).
  { intros nm' p Hp. unfold err. unfold indicator_of. cbn [p_pos set_pos p_doc p_consumed].
    change (p_consumed u) with (p_consumed s'). rewrite D7, N.add_0_l. destruct (indicated_msg (p_doc u) (N.of_nat p)) as [msg|] eqn:E; [eauto|]. apply C23_panics_exactly_beyond in E. lia. }
  assert (PP : p_pos u + 5 + List.length w <= List.length (p_doc u)).
  { pose proof (rem_length u) as RL. rewrite V, !app_length in RL. change (List.length (lit "%YAML")) with 5 in RL. unfold in_doc in U. lia. }
  destruct HN as [[-> ->]|(-> & -> & -> & ->)]; cbn [orb];
    match goal with |- context [@err unit ?nm' (set_pos ?p u)] => destruct (ER nm' p PP) as [msg ->] end; cbn [fst]; eauto.
Qed.
Theorem C15_other_version_rejected : forall (hk : hasher) (ls : list dline) (w rest : str),
  Forall line_ok ls -> count_yaml ls = 0 ->
  Forall blank w -> w <> [] -> (match rest with [] => True | x :: _ => ~ blank x end) ->
  (forall r, rest <> lit "1.1" ++ r) -> (forall r, rest <> lit "1.2" ++ r) ->
  exists msg, parse hk (header ls ++ lit "%YAML" ++ w ++ rest) = RErr (Terminate (lit "invalid version") msg).
Proof.
  intros hk ls w rest Hl Hc Hw Hn Hr H1 H2. apply directive_err; try assumption; [lia|]. right. split; [reflexivity|].
  assert (K : forall p, asciis p -> (forall r, rest <> p ++ r) -> starts_with p (utf8_encode rest) = false).
  { intros p Hp Hx. destruct (starts_with p (utf8_encode rest)) eqn:E; [|reflexivity]. exfalso.
    rewrite <- (app_nil_r (utf8_encode rest)) in E. destruct (starts_encode p rest [] Hp E) as [[r ->]|(a & b & _ & Hb & _ & K)]; [now apply (Hx r)|].
    destruct b; [congruence|discriminate]. }
  split; [|split; apply K; try reflexivity; assumption].
  unfold count_yaml in Hc. clear - Hc. induction ls as [|l ls IH]; [reflexivity|]. cbn [filter existsb] in *. destruct (is_yaml l); [discriminate|auto].
Qed.
(** ... and so is a second one, however far away and whatever its version. *)
Theorem C15_second_version_rejected : forall (hk : hasher) (ls : list dline) (w rest : str),
  Forall line_ok ls -> count_yaml ls = 1 ->
  Forall blank w -> w <> [] -> (match rest with [] => True | x :: _ => ~ blank x end) ->
  exists msg, parse hk (header ls ++ lit "%YAML" ++ w ++ rest) = RErr (Terminate (lit "checked version") msg).
Proof.
  intros hk ls w rest Hl Hc Hw Hn Hr. apply directive_err; try assumption; [lia|]. left. split; [reflexivity|].
  unfold count_yaml in Hc. clear - Hc. induction ls as [|l ls IH]; [discriminate|]. cbn [filter existsb] in *. destruct (is_yaml l); [reflexivity|auto].
Qed.
(** Document content changes neither the version mark nor the tag table, in
    any state, whatever the outcome. *)
Theorem C15_documents_leave_directives_alone : forall (n k : nat) (v : list node) (s : st),
  p_version (snd (docs_loop k n v s)) = p_version s /\ p_tag (snd (docs_loop k n v s)) = p_tag s
  /\ p_version (snd (doc n s)) = p_version s /\ p_tag (snd (doc n s)) = p_tag s.
Proof.
  intros n k v s.
  set (Rel := fun a b : st => p_version b = p_version a /\ p_tag b = p_tag a).
  assert (A : Rel s (snd (docs_loop k n v s))).
  { apply (fr_docs_loop Rel); unfold Rel; cbn; intuition congruence. }
  assert (B : Rel s (snd (doc n s))).
  { apply (fr_doc Rel); unfold Rel; cbn; intuition congruence. }
  destruct A, B. auto.
Qed.
(** A tag directive touches only the table, another one nothing. *)
Theorem C15_directives_keep_version : forall (l : dline) (s : st) (rest : bytes),
  in_doc s -> line_ok l -> is_yaml l = false -> rem s = utf8_encode (line_of l) ++ 10%N :: rest -> stop_head rest ->
  fst (directive s) = ROk tt /\ p_version (snd (directive s)) = p_version s
  /\ p_tag (snd (directive s)) = match l with DTag h p => bt_insert (key_of h) p (p_tag s) | _ => p_tag s end.
Proof.
  intros l s rest H Hl Hy R Hs. destruct (line_run l s rest H Hl) as (D & _); try assumption; [congruence|].
  rewrite D. unfold run_line. cbn [fst snd p_version set_version p_tag set_tag]. rewrite Hy, Bool.orb_false_r. split; [reflexivity|split; [reflexivity|]].
  now destruct l.
Qed.
(** A directive needs the marker [---] after it: without it the text is read
    again from its start. *)
Theorem C15_marker_needed_refuted : forall hk : hasher,
  exists msg, parse hk (lit "%YAML 1.2" ++ [10%N] ++ lit "a: b" ++ [10%N]) = RErr (Terminate (lit "document splitter") msg).
Proof. intros hk. vm_compute. eexists. reflexivity. Qed.
Example C15_witness : Forall line_ok [DOther (lit "FOO"); DYaml (lit "1.1")]
  /\ count_yaml [DOther (lit "FOO"); DYaml (lit "1.1")] = 1 /\ count_yaml [DOther (lit "FOO")] = 0
  /\ (forall r, lit "1.3" <> lit "1.1" ++ r) /\ (forall r, lit "1.3" <> lit "1.2" ++ r) /\ stop_head (lit "--- a").
Proof.
  repeat split; try discriminate.
  - constructor; [|constructor; [now left|constructor]]. cbn [line_ok]. repeat split; try (intros r; discriminate); try (intros K; cbn in K; intuition discriminate).
  - exists 45%N. eexists. split; [reflexivity|]. repeat split; discriminate.
Qed.

(** ** C26 with declared handles *)

(** Whatever stands after the [---] of a good header: if every handle [!name!] of
    the text is declared in the header (and integer literals have values), there
    is no panic. *)
Lemma known_no_panic hk cyc ls body n : Forall line_ok ls -> count_yaml ls <= 1 -> List.length ls < n ->
  let d := utf8_encode (header ls) ++ lit "---" ++ body in
  (forall name, writes_handle d name -> prefix_of (Named name) ls <> None) ->
  ints_readable d -> fst (parse_fuel n (new_st hk cyc d)) <> RPanic.
Proof.
  intros Hl Hc Hn d Hd Hi.
  assert (Hs : stop_head (lit "---" ++ body)) by (exists 45%N; eexists; split; [reflexivity|]; repeat split; discriminate).
  set (s0 := new_st hk cyc d). assert (H0 : in_doc s0) by (unfold in_doc, s0; cbn; lia).
  destruct (header_run ls (n - List.length ls) s0 (lit "---" ++ body) H0 Hl ltac:(cbn; lia) eq_refl Hs) as (D1 & D2 & D3 & _ & D5 & _).
  replace (List.length ls + (n - List.length ls)) with n in D1 by lia.
  set (s' := run_lines ls s0) in *. clearbody s'.
  assert (DN : fst (directives (n - List.length ls) s') = ROk tt /\ p_tag (snd (directives (n - List.length ls) s')) = p_tag s').
  { destruct (n - List.length ls) as [|m] eqn:Em; [lia|]. cbn [directives]. unfold context. set (u := set_eaten (p_pos s') s').
    assert (U : in_doc u) by exact D2. assert (V : rem u = lit "---" ++ body) by exact D3.
    assert (DD : directive u = (RErr Mismatch, set_pos (p_eaten u) u)).
    { unfold directive. unfold bind at 1. rewrite (sym_exec (chr "%") u U), V. reflexivity. }
    rewrite DD. split; reflexivity. }
  apply (no_panic_known hk cyc d n (fun k => bt_get k (tab_of ls init_tags) <> None)); [| | | |exact Hi].
  - intros name Hw. pose proof (Hd name Hw) as K. destruct Hw as [Hw _].
    rewrite <- (prefix_lookup (Named name) ls Hl Hw) in K. exact K.
  - change (lit "!") with (key_of Primary). rewrite (prefix_lookup Primary ls Hl I). unfold prefix_of. destruct (defined Primary ls); intros K; discriminate K.
  - change (lit "!!") with (key_of Secondary). rewrite (prefix_lookup Secondary ls Hl I). unfold prefix_of. destruct (defined Secondary ls); intros K; discriminate K.
  - intros s E k Hk. fold s0 in E. rewrite D1 in E. rewrite E in DN. cbn [fst snd] in DN. destruct DN as [_ ->]. rewrite D5. exact Hk.
Qed.
Theorem C26_declared_handles_never_panic : forall (hk : hasher) (ls : list dline) (body : str),
  let text := header ls ++ lit "---" ++ body in
  Forall line_ok ls -> count_yaml ls <= 1 ->
  (forall name a b, handle_name name -> utf8_encode text = a ++ 33%N :: name ++ 33%N :: b -> prefix_of (Named name) ls <> None) ->
  (forall t a b, int_literal t -> utf8_encode text = a ++ t ++ b -> to_i64 t <> None) ->
  parse hk text <> RPanic /\ parse_cyclic hk text <> RPanic.
Proof.
  intros hk ls body text Hl Hc Hd Hi.
  assert (ET : utf8_encode text = utf8_encode (header ls) ++ lit "---" ++ utf8_encode body) by (unfold text; now rewrite !encode_app).
  assert (K : forall cyc, fst (parse_fuel (fuel_doc (new_st hk cyc (utf8_encode text))) (new_st hk cyc (utf8_encode text))) <> RPanic).
  { intros cyc. rewrite ET. apply known_no_panic; [exact Hl|exact Hc| | |].
    - unfold fuel_doc. cbn [p_doc new_st]. rewrite !app_length. pose proof (header_length ls). lia.
    - intros name (Hn & a & b & E). apply (Hd name a b Hn). now rewrite ET.
    - intros t a b Ht E. apply (Hi t a b Ht). now rewrite ET. }
  split.
  - exact (K false).
  - specialize (K true). unfold parse_cyclic, load. destruct (parse_fuel _ _) as [[v|e| |] s]; cbn in *; congruence.
Qed.
(** The hypotheses are met: a named handle, declared and used. *)
Fixpoint handles (l : bytes) : list bytes :=
  match l with
  | [] => []
  | c :: r => if N.eqb c 33 && starts_with (lit "!") (skipn (ident_len r) r) then firstn (ident_len r) r :: handles r else handles r
  end.
Lemma handles_all name b : handle_name name -> forall a, In name (handles (a ++ 33%N :: name ++ 33%N :: b)).
Proof.
  intros Hn. induction a as [|c a IH]; cbn [app handles].
  - rewrite (ident_len_name name (33%N :: b)) by (split; [exact Hn|intros [K|K]; discriminate]).
    rewrite skipn_app, skipn_all, Nat.sub_diag, firstn_app, firstn_all, Nat.sub_diag, app_nil_r. now left.
  - destruct (N.eqb c 33 && _); [right|]; exact IH.
Qed.
Lemma no_digits_readable d : existsb is_digit d = false -> forall t a b, int_literal t -> d = a ++ t ++ b -> to_i64 t <> None.
Proof.
  intros K t a b Hl ->. destruct (int_literal_digit t Hl) as (c & Hc & Hd).
  assert (K' : existsb is_digit (a ++ t ++ b) = true); [|congruence].
  apply existsb_exists. exists c. split; [|exact Hd]. apply in_or_app. right. apply in_or_app. now left.
Qed.
Example C26_declared_witness :
  let ls := [DTag (Named (lit "e")) (lit "p:")] in
  let text := header ls ++ lit "---" ++ lit " !e!x v" ++ [10%N] in
  Forall line_ok ls /\ count_yaml ls <= 1
  /\ (forall name a b, handle_name name -> utf8_encode text = a ++ 33%N :: name ++ 33%N :: b -> prefix_of (Named name) ls <> None)
  /\ (forall t a b, int_literal t -> utf8_encode text = a ++ t ++ b -> to_i64 t <> None)
  /\ parse (fun _ => 0%N) text = ROk [Node 21 (lit "p:x") (YStr (lit "v"))].
Proof.
  cbv zeta. split; [|split; [cbn; lia|split; [|split; [|vm_compute; reflexivity]]]].
  - constructor; [|constructor]. cbn [line_ok]. repeat split; try discriminate; try (intros K; cbn in K; intuition discriminate).
    exists 101%N, []. repeat split; constructor.
  - intros name a b Hn E. pose proof (handles_all name b Hn a) as K. rewrite <- E in K. vm_compute in K.
    destruct K as [<-|[<-|[]]]; discriminate.
  - apply no_digits_readable. vm_compute. reflexivity.
Qed.
