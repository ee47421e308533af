(** * C60: plain scalars on several lines *)
From Verif Require Export PropFold.
Open Scope nat_scope.

(** ** C60 *)
(** A plain scalar on any number of lines, each of them after the first indented
    by two columns or more, is the text its lines fold into: a line break is a
    space, [n] empty lines are [n] line feeds, and the indentation of a line does
    not count. *)
Theorem C60_document : forall (hk : hasher) (eol t b : str),
  eol = [10%N] \/ eol = [13; 10]%N -> plain_lines false 2 t b ->
  parse hk (t ++ eol) = ROk [Node 0 [] (YStr b)].
Proof.
  intros hk eol t b He F.
  apply (C48_parse_exact hk eol [] _ [[]]); [exact He|constructor|cbn; lia|].
  apply (PropGram.StPlain false eol [] false (Node 0 [] (YStr b)) t [] Done [] [] eol); [reflexivity| |].
  - apply (Bare false (resolve []) eol false 0 0). apply CHere. apply BInline. now apply ILines.
  - apply MEnd. apply CloseBreak. left. exists [], []. split; [now rewrite app_nil_r|]. split; [constructor|]. split; [now left|].
    split; intros; discriminate.
Qed.
(** The text may also end where the scalar does. *)
Theorem C60_to_the_end : forall (hk : hasher) (t b : str),
  plain_lines false 2 t b -> parse hk t = ROk [Node 0 [] (YStr b)].
Proof.
  intros hk t b F. rewrite <- (app_nil_r t) at 1.
  apply (C48_parse_exact hk [10%N] [] _ [[]]); [now left|constructor|cbn; lia|].
  apply (PropGram.StPlain false [10%N] [] false (Node 0 [] (YStr b)) t [] Done [] [] []); [reflexivity| |].
  - apply (Bare false (resolve []) [10%N] false 0 0). apply CHere. apply BInline. now apply ILines.
  - apply MEnd. apply CloseBreak. right. auto.
Qed.
(** As the value of any one-line key. *)
Theorem C60_as_value : forall (hk : hasher) (eol k t b : str) (y : yaml),
  eol = [10%N] \/ eol = [13; 10]%N -> word false k -> meaning k y -> plain_lines false 2 t b ->
  parse hk (k ++ lit ": " ++ t ++ eol)
  = ROk [Node 0 [] (YMap [(Node 0 [] y, Node (N.of_nat (List.length (utf8_encode k) + 2)) [] (YStr b))])].
Proof.
  intros hk eol k t b y He Hk Hm F.
  replace (k ++ lit ": " ++ t ++ eol) with ((k ++ lit ":" ++ lit " " ++ t) ++ eol)
    by (rewrite <- !app_assoc; reflexivity).
  apply (C48_parse_exact hk eol [] _ [[]]); [exact He|constructor|cbn; lia|].
  apply (PropGram.StPlain false eol [] false (Node 0 [] (YMap [(Node 0 [] y, Node (N.of_nat (List.length (utf8_encode k) + 2)) [] (YStr b))]))
    (k ++ lit ":" ++ lit " " ++ t) [] Done [] [] eol); [reflexivity| |].
  - apply (Bare false (resolve []) eol false 0 0). apply CHere. apply Gram.BMap.
    + apply Gram.EOne. apply (ESimple false (resolve []) eol 0 0 true [] _ k [] false (lit " ")).
      * apply (KBare false (resolve []) eol 2 0 true [] y k [] Done). apply IAtom. now apply word_atom.
      * left. exists []. split; [reflexivity|constructor].
      * replace (List.length (utf8_encode k) + 2) with (0 + blen k + 1 + List.length (lit " ")) by (cbn [List.length]; lia).
        apply Bare. apply Gram.VHere. now apply ILines.
    + split; [repeat constructor; intros []|]. repeat constructor. cbn [fst n_yaml].
      clear - Hm. destruct Hm as [y K|K]; [|constructor].
      assert (RF : Forall (fun kv => readable (snd kv)) keywords) by (repeat constructor; eapply ReadFloat; reflexivity).
      rewrite Forall_forall in RF. exact (RF _ K).
  - apply MEnd. apply CloseBreak. left. exists [], []. split; [now rewrite app_nil_r|]. split; [constructor|]. split; [now left|].
    split; intros; discriminate.
Qed.
(** In a flow sequence, whose items on several lines have to be six columns in. *)
Theorem C60_in_flow : forall (hk : hasher) (t b : str),
  plain_lines true 6 t b ->
  parse hk (lit "[" ++ t ++ lit "]") = ROk [Node 0 [] (YSeq [Node 1 [] (YStr b)])].
Proof.
  intros hk t b F. rewrite <- (app_nil_r (lit "[" ++ t ++ lit "]")).
  apply (C48_parse_exact hk [10%N] [] _ [[]]); [now left|constructor|cbn; lia|].
  apply (PropGram.StPlain false [10%N] [] false (Node 0 [] (YSeq [Node 1 [] (YStr b)])) (lit "[" ++ t ++ lit "]") [] Done [] [] []); [reflexivity| |].
  - apply (Bare false (resolve []) [10%N] false 0 0). apply CHere. apply BInline. apply IColl.
    apply FSeq. apply (FIOne false (resolve []) [10%N] 2 1 [] [] (Node 1 [] (YStr b)) t [] [] Done); [constructor| |split; [constructor|discriminate]].
    apply (FBare false (resolve []) [10%N] 6 1). now apply FLines.
  - apply MEnd. apply CloseBreak. right. auto.
Qed.
(** The reader of plain scalars itself, from any place in any text and at any
    nesting level that has an indentation [d]: it returns the folded text and
    stops right behind the scalar, in front of the colon that makes it a key or,
    inside brackets, the comma or the bracket. *)
Theorem C60_reads : forall (L d : nat) (flow : bool) (s : st) (t b : str) (rest : bytes),
  0 < d -> depth (p_indent s) L = d -> p_pos s <= List.length (p_doc s) -> plain_lines flow d t b ->
  (exists x q, rest = 58%N :: x :: q /\ In x [32; 10; 13]%N)
    \/ flow = true /\ (exists x q, rest = x :: q /\ In x (lit ",]}")) ->
  skipn (p_pos s) (p_doc s) = utf8_encode t ++ rest ->
  exists tb, string_plain L flow s = (ROk b, set_pos (p_pos s + List.length (utf8_encode t)) (set_indent tb s)).
Proof.
  intros L d flow s t b rest Hd HL H F HR Er.
  assert (FI : fins L flow d rest (fun j => j = 0)).
  { destruct HR as [(x & q & -> & Hx)|(-> & x & q & -> & Hx)].
    - apply (tail_fins [10%N] (or_introl eq_refl) L flow d (KColon x q) Hx).
    - apply (fins_ws L d [] x q); [constructor|simpl in Hx; unfold closer; simpl; intuition congruence|exact Hd|cbn; lia]. }
  destruct (string_plain_lines L flow d t b rest _ s Hd F FI H Er HL) as (j & tb & E & -> & _).
  exists tb. rewrite E. now rewrite Nat.add_0_r.
Qed.

(** ** Witnesses: an empty line, two of them, a line indented more than needed,
    lines with the characters of other places *)
Fixpoint infix (p t : str) : bool := starts_with p t || match t with [] => false | _ :: r => infix p r end.
Lemma infix_spec p t : infix p t = false -> forall a b, t <> a ++ p ++ b.
Proof.
  intros E a b ->. revert E. induction a as [|x a IH]; cbn [app].
  - intros E. assert (K : starts_with p (p ++ b) = true) by (clear; induction p as [|c p IH]; cbn; [reflexivity|now rewrite N.eqb_refl]).
    destruct (p ++ b) eqn:Q; cbn [infix] in E; rewrite K in E; discriminate.
  - cbn [infix]. intros E. apply orb_false_iff in E as [_ E]. auto.
Qed.
Definition more_lineb (t : str) : bool :=
  match t with c :: _ => negb (is_uni_ws c) && negb (N.eqb c 35) | [] => false end
  && match rev t with c :: _ => negb (is_uni_ws c) && negb (N.eqb c 58) | [] => false end
  && negb (existsb (fun c => N.eqb c 10 || N.eqb c 13) t) && negb (infix (lit ": ") t) && negb (infix (lit " #") t)
  && negb (existsb (fun c => is_uni_ws c && infix [c; 32%N] t) t).
Lemma more_line_ok t : valid t -> more_lineb t = true -> more_line false t.
Proof.
  intros V H. unfold more_lineb in H. rewrite !andb_true_iff, !negb_true_iff in H. destruct H as (((((H1 & H2) & H3) & H4) & H5) & H6).
  destruct t as [|c r]; [discriminate|]. apply andb_true_iff in H1 as [H1 H1']. apply negb_true_iff in H1, H1'. apply N.eqb_neq in H1'.
  assert (L : forall a x, c :: r = a ++ [x] -> is_uni_ws x = false /\ x <> 58%N).
  { intros a x E. rewrite E, rev_app_distr in H2. cbn in H2. apply andb_true_iff in H2 as [A B].
    apply negb_true_iff in A, B. apply N.eqb_neq in B. auto. }
  assert (NI : forall x, In x (c :: r) -> x <> 10%N /\ x <> 13%N).
  { intros x Hx. split; intros ->; rewrite <- not_true_iff_false in H3; apply H3; apply existsb_exists; eexists; split; try exact Hx; reflexivity. }
  split; [exact V|]. split; [eauto|]. split; [intros a x E; apply (proj1 (L a x E))|].
  split; [intros K; now destruct (NI _ K)|]. split; [intros K; now destruct (NI _ K)|].
  split; [now apply infix_spec|]. split; [intros a E; now destruct (L _ _ E)|]. split; [now apply infix_spec|]. split; [|discriminate].
  intros a x b E. destruct (is_uni_ws x) eqn:U; [|reflexivity]. exfalso. rewrite <- not_true_iff_false in H6. apply H6. apply existsb_exists.
  exists x. split; [rewrite E; apply in_app_iff; right; now left|]. rewrite U. cbn [andb].
  destruct (infix [x; 32%N] (c :: r)) eqn:I; [reflexivity|]. exfalso. apply (infix_spec _ _ I a b). exact E.
Qed.
Ltac lines := apply more_line_ok; [reflexivity|vm_compute; reflexivity].
Definition wp1 : str := lit "b#c:d [x], "  ++ [34; 233; 34]%N.
Definition wp2 : str := lit "- it's".
Definition wp3 : str := lit "%a !b *c | 12".
Definition wplain_text (br : str) : str := lit "one" ++ br ++ lit "   " ++ wp1 ++ br ++ br ++ br ++ lit "  " ++ wp2 ++ br ++ lit "  " ++ wp3.
Definition wplain_value : str := lit "one " ++ wp1 ++ [10; 10]%N ++ wp2 ++ lit " " ++ wp3.
Theorem C60_witness : forall hk br, line_break br -> plain_lines false 2 (wplain_text br) wplain_value
  /\ (br = [10%N] \/ br = [13; 10]%N -> parse hk (lit "key: " ++ wplain_text br ++ br) =
      ROk [Node 0 [] (YMap [(Node 0 [] (YStr (lit "key")), Node 5 [] (YStr wplain_value))])]).
Proof.
  intros hk br Hb. assert (F : plain_lines false 2 (wplain_text br) wplain_value).
  { apply (PlainLines false 2 br (lit "one") (br ++ lit "   " ++ wp1 ++ br ++ br ++ br ++ lit "  " ++ wp2 ++ br ++ lit "  " ++ wp3)
      (lit " " ++ wp1 ++ [10; 10]%N ++ wp2 ++ lit " " ++ wp3)); [exact Hb|apply (PropGram.letters_word false); [discriminate|reflexivity|reflexivity]|].
    rewrite (app_assoc br (lit "   ")).
    apply (MoreNext false 2 br (br ++ indent 3) [32%N] wp1 (br ++ br ++ br ++ lit "  " ++ wp2 ++ br ++ lit "  " ++ wp3)
      ([10; 10]%N ++ wp2 ++ lit " " ++ wp3)); [apply JSpace; lia|lines|].
    replace (br ++ br ++ br ++ lit "  " ++ wp2 ++ br ++ lit "  " ++ wp3)
      with ((br ++ List.concat (repeat br 2) ++ indent 2) ++ wp2 ++ (br ++ indent 2) ++ wp3)
      by (cbn [repeat List.concat indent]; rewrite ?app_nil_r, <- !app_assoc; reflexivity).
    apply MoreNext; [apply (JFeeds 2 br 1)|lines|].
    apply (MoreOne false 2 br (br ++ indent 2) (lit " ") wp3); [apply JSpace; lia|lines]. }
  split; [exact F|]. intros He.
  apply (C60_as_value hk br (lit "key") _ _ (YStr (lit "key")) He); [apply (PropGram.letters_word false); [discriminate|reflexivity|reflexivity]| |exact F].
  apply (PropGram.letters_word false); [discriminate|reflexivity|reflexivity].
Qed.
Theorem C60_flow_witness : forall hk, plain_lines true 6 (lit "a" ++ [10%N] ++ lit "      b c") (lit "a b c")
  /\ parse hk (lit "[" ++ (lit "a" ++ [10%N] ++ lit "      b c") ++ lit "]") = ROk [Node 0 [] (YSeq [Node 1 [] (YStr (lit "a b c"))])].
Proof.
  intros hk. assert (F : plain_lines true 6 (lit "a" ++ [10%N] ++ lit "      b c") (lit "a b c")).
  { apply (PlainLines true 6 [10%N] (lit "a") ([10%N] ++ lit "      b c") (lit " b c")); [now left|apply (PropGram.letters_word true); [discriminate|reflexivity|reflexivity]|].
    apply (MoreOne true 6 [10%N] ([10%N] ++ indent 6) (lit " ") (lit "b c")); [apply JSpace; lia|].
    destruct (more_line_ok (lit "b c") eq_refl eq_refl) as (A1 & A2 & A3 & A4 & A5 & A6 & A7 & A8 & A9 & _).
    repeat (split; [assumption|]). intros _ c Hc K. simpl in Hc, K. intuition (subst; discriminate). }
  split; [exact F|]. now apply C60_in_flow.
Qed.

(** Outside the class: where YAML gives these a value the parser reports an
    error or reads another one.  A continuation line not indented by two columns
    (at the top, below a key, below a dash), or in brackets by fewer than six;
    blanks at the end of a line, which stay; two spaces inside of a continuation
    line, which become one; more indentation behind an empty line, which removes
    the line feed; and a comment line, which ought to end the scalar. *)
Theorem C60_other_lines_refuted : forall hk,
  (exists e, parse hk (lit "abc" ++ [10%N] ++ lit "def" ++ [10%N]) = RErr e)
  /\ (exists e, parse hk (lit "a: b" ++ [10%N] ++ lit " c" ++ [10%N]) = RErr e)
  /\ (exists e, parse hk (lit "- b" ++ [10%N] ++ lit "  c" ++ [10%N]) = RErr e)
  /\ (exists e, parse hk (lit "[a" ++ [10%N] ++ lit "    c]") = RErr e)
  /\ parse hk (lit "b  " ++ [10%N] ++ lit "  c") = ROk [Node 0 [] (YStr (lit "b   c"))]
  /\ parse hk (lit "b" ++ [10%N] ++ lit "  c   d") = ROk [Node 0 [] (YStr (lit "b c d"))]
  /\ parse hk (lit "b" ++ [10; 10]%N ++ lit "    c") = ROk [Node 0 [] (YStr (lit "b c"))]
  /\ parse hk (lit "b" ++ [10%N] ++ lit "  # no" ++ [10%N] ++ lit "  c") = ROk [Node 0 [] (YStr (lit "b" ++ [10%N] ++ lit "c"))].
Proof. intros hk. repeat split; try (eexists; vm_compute; reflexivity); vm_compute; reflexivity. Qed.
