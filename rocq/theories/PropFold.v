(** * C59: quoted scalars on several lines *)
From Verif Require Export PropGram.
Open Scope nat_scope.

(** ** C59 *)
(** A scalar between double quotes, on any number of lines, is the text its
    lines fold into: a line break is a space, [n] empty lines are [n] line
    feeds, and the indentation of a line does not count. *)
Theorem C59_double : forall (hk : hasher) (br t b : str),
  line_break br -> folded_double br t b ->
  parse hk ([34%N] ++ t ++ [34%N]) = ROk [Node 0 [] (YStr b)].
Proof.
  intros hk br t b Hb F.
  rewrite <- (app_nil_r ([34%N] ++ t ++ [34%N])). apply (C48_parse_exact hk [10%N] [] _ [[]]); [now left|constructor|cbn; lia|].
  apply (PropGram.StPlain false [10%N] [] false (Node 0 [] (YStr b)) ([34%N] ++ t ++ [34%N]) [] Done [] [] []); [reflexivity| |].
  - apply (Bare false (resolve []) [10%N] false 0 0). apply CHere. apply BInline. apply IAtom. now apply ADoubleLines with br.
  - apply MEnd. apply CloseBreak. right. auto.
Qed.
(** ... and so is one between single quotes. *)
Theorem C59_single : forall (hk : hasher) (br t b : str),
  line_break br -> folded_single br t b ->
  parse hk (lit "'" ++ t ++ lit "'") = ROk [Node 0 [] (YStr b)].
Proof.
  intros hk br t b Hb F.
  rewrite <- (app_nil_r (lit "'" ++ t ++ lit "'")). apply (C48_parse_exact hk [10%N] [] _ [[]]); [now left|constructor|cbn; lia|].
  apply (PropGram.StPlain false [10%N] [] false (Node 0 [] (YStr b)) (lit "'" ++ t ++ lit "'") [] Done [] [] []); [reflexivity| |].
  - apply (Bare false (resolve []) [10%N] false 0 0). apply CHere. apply BInline. apply IAtom. now apply ASingleLines with br.
  - apply MEnd. apply CloseBreak. right. auto.
Qed.
(** The reader of quoted scalars itself, from any place in any text: it takes
    exactly the text up to the closing quote, and what it returns is, with the
    escapes replaced, the folded text. *)
Theorem C59_double_reads : forall (s : st) (br t b : str) (rest : bytes),
  p_pos s <= List.length (p_doc s) -> line_break br -> folded_double br t b ->
  skipn (p_pos s) (p_doc s) = 34%N :: utf8_encode t ++ 34%N :: rest ->
  exists v, string_quoted 34 [92; 34]%N s = (ROk v, set_pos (p_pos s + List.length (utf8_encode t) + 2) s)
            /\ escape v = b.
Proof. intros s br t b rest H Hb F Er. destruct (double_folded br s t b rest Hb H F Er) as (V & E & K). exists V. auto. Qed.
Theorem C59_single_reads : forall (s : st) (br t b : str) (rest : bytes),
  p_pos s <= List.length (p_doc s) -> line_break br -> folded_single br t b -> ~ (exists r, rest = 39%N :: r) ->
  skipn (p_pos s) (p_doc s) = 39%N :: utf8_encode t ++ 39%N :: rest ->
  string_quoted 39 (lit "''") s = (ROk b, set_pos (p_pos s + List.length (utf8_encode t) + 2) s).
Proof. intros s br t b rest H Hb F Hr Er. exact (single_folded br s t b rest Hb H F Hr Er). Qed.
(** As the value of any one-line key, in files of both kinds. *)
Theorem C59_as_value : forall (hk : hasher) (eol br k t b : str) (y : yaml),
  eol = [10%N] \/ eol = [13; 10]%N -> word false k -> meaning k y -> line_break br -> folded_double br t b ->
  parse hk (k ++ lit ": " ++ [34%N] ++ t ++ [34%N] ++ eol)
  = ROk [Node 0 [] (YMap [(Node 0 [] y, Node (N.of_nat (List.length (utf8_encode k) + 2)) [] (YStr b))])].
Proof.
  intros hk eol br k t b y He Hk Hm Hb F.
  set (v := [34%N] ++ t ++ [34%N]).
  replace (k ++ lit ": " ++ [34%N] ++ t ++ [34%N] ++ eol) with ((k ++ lit ":" ++ lit " " ++ v) ++ eol)
    by (unfold v; rewrite <- !app_assoc; reflexivity).
  apply (C48_parse_exact hk eol [] _ [[]]); [exact He|constructor|cbn; lia|].
  apply (PropGram.StPlain false eol [] false (Node 0 [] (YMap [(Node 0 [] y, Node (N.of_nat (List.length (utf8_encode k) + 2)) [] (YStr b))]))
    (k ++ lit ":" ++ lit " " ++ v) [] Done [] [] eol); [reflexivity| |].
  - apply (Bare false (resolve []) eol false 0 0). apply CHere. apply Gram.BMap.
    + apply Gram.EOne. apply (ESimple false (resolve []) eol 0 0 true [] _ k [] false (lit " ")).
      * apply (KBare false (resolve []) eol 2 0 true [] y k [] Done). apply IAtom. now apply word_atom.
      * left. exists []. split; [reflexivity|constructor].
      * replace (List.length (utf8_encode k) + 2) with (0 + blen k + 1 + List.length (lit " ")) by (cbn [List.length]; lia).
        apply Bare. apply Gram.VHere. apply IAtom. now apply ADoubleLines with br.
    + split; [repeat constructor; intros []|]. repeat constructor. cbn [fst n_yaml].
      clear - Hm. destruct Hm as [y K|K]; [|constructor].
      assert (RF : Forall (fun kv => readable (snd kv)) keywords) by (repeat constructor; eapply ReadFloat; reflexivity).
      rewrite Forall_forall in RF. exact (RF _ K).
  - apply MEnd. apply CloseBreak. left. exists [], []. split; [now rewrite app_nil_r|]. split; [constructor|]. split; [now left|].
    split; intros; discriminate.
Qed.

(** ** Witnesses: an indented line, an empty line, escapes, blanks before a line
    break, a line break of Windows, a last line without text *)
Definition wfold : str := lit "  one \" ++ [34%N] ++ lit "two" ++ [9; 32; 13; 10; 32; 32]%N ++ lit "three" ++ [13; 10; 32; 13; 10; 13; 10]%N ++ lit "\tfour" ++ [13; 10; 32]%N.
Definition wfolded : str := lit "  one " ++ [34%N] ++ lit "two three" ++ [10; 10; 9]%N ++ lit "four ".
Ltac blanks := repeat first [apply Forall_nil | apply Forall_cons; [unfold blank; auto|]].
Lemma line_end (x : str) c : is_uni_ws c = false -> c <> 92%N -> c <> 110%N -> line_tail false (x ++ [c]).
Proof. intros H1 H2 H3. right. exists x, c. repeat split; try assumption. intros [K _]. contradiction. Qed.
Theorem C59_double_witness : forall hk, folded_double [13; 10]%N wfold wfolded
  /\ parse hk ([34%N] ++ wfold ++ [34%N]) = ROk [Node 0 [] (YStr wfolded)].
Proof.
  intros hk. assert (F : folded_double [13; 10]%N wfold wfolded).
  { unfold folded_double.
    assert (F3 : folded (flat_map json_char) str_ok [13; 10]%N false (lit "") (lit "")).
    { apply (LastLine (flat_map json_char) str_ok [13; 10]%N false []); [split; [reflexivity|discriminate]|right; exact Logic.I]. }
    assert (F2 : folded (flat_map json_char) str_ok [13; 10]%N false (flat_map json_char (9%N :: lit "four") ++ [13; 10; 32]%N ++ lit "") ((9%N :: lit "four") ++ [32%N] ++ lit "")).
    { apply (NextLine (flat_map json_char) str_ok [13; 10]%N false (9%N :: lit "four")); [split; [reflexivity|discriminate]| | |apply (FoldSpace [13; 10]%N [] [32%N]); repeat constructor|exact F3].
      - right. cbn. intros [K|[K|K]]; discriminate.
      - apply (line_end (9%N :: lit "fou") (chr "r")); [reflexivity|discriminate|discriminate]. }
    assert (F1 : folded (flat_map json_char) str_ok [13; 10]%N false
      (flat_map json_char (lit "three") ++ ([13; 10]%N ++ [32; 13; 10; 13; 10]%N) ++ flat_map json_char (9%N :: lit "four") ++ [13; 10; 32]%N ++ lit "")
      (lit "three" ++ [10; 10]%N ++ (9%N :: lit "four") ++ [32%N] ++ lit "")).
    { apply (NextLine (flat_map json_char) str_ok [13; 10]%N false (lit "three")); [split; [reflexivity|discriminate]| | | |exact F2].
      - right. cbn. intros [K|[K|K]]; discriminate.
      - apply (line_end (lit "thre") (chr "e")); [reflexivity|discriminate|discriminate].
      - apply (FoldFeeds [13; 10]%N 1). apply (EmptyMore [13; 10]%N [32%N] 1 [13; 10]%N); [repeat constructor|].
        apply (EmptyMore [13; 10]%N [] 0 []); repeat constructor. }
    apply (NextLine (flat_map json_char) str_ok [13; 10]%N true (lit "  one " ++ [34%N] ++ lit "two") [9; 32; 13; 10; 32; 32]%N [32%N] _ _); [split; [reflexivity|discriminate]|now left| | |exact F1].
    - right. exists (lit "  one " ++ [34%N] ++ lit "tw"), (chr "o"). repeat split; try discriminate. intros [K _]. discriminate.
    - apply (FoldSpace [13; 10]%N [9; 32]%N [32; 32]%N); blanks. }
  split; [exact F|]. apply (C59_double hk [13; 10]%N); [right; now left|exact F].
Qed.
Definition wsingle : str := lit "it''s" ++ [10; 32; 32]%N ++ lit "on" ++ [10; 10]%N ++ lit "two".
Theorem C59_single_witness : forall hk, folded_single [10%N] wsingle (lit "it's on" ++ [10%N] ++ lit "two")
  /\ parse hk (lit "'" ++ wsingle ++ lit "'") = ROk [Node 0 [] (YStr (lit "it's on" ++ [10%N] ++ lit "two"))].
Proof.
  intros hk. assert (OL : forall b, existsb (fun c => N.eqb c 10 || N.eqb c 13) b = false -> valid b -> one_line b).
  { intros b E V. split; [exact V|]. split; intros K; [assert (K' := proj2 (existsb_exists (fun c => N.eqb c 10 || N.eqb c 13)%bool b) (ex_intro _ 10%N (conj K eq_refl)))
      |assert (K' := proj2 (existsb_exists (fun c => N.eqb c 10 || N.eqb c 13)%bool b) (ex_intro _ 13%N (conj K eq_refl)))]; rewrite E in K'; discriminate. }
  assert (F : folded_single [10%N] wsingle (lit "it's on" ++ [10%N] ++ lit "two")).
  { apply (NextLine dq one_line [10%N] true (lit "it's") [10; 32; 32]%N [32%N] (lit "on" ++ [10; 10]%N ++ lit "two") (lit "on" ++ [10%N] ++ lit "two"));
      [apply OL; reflexivity|now left|right; exists (lit "it'"), (chr "s"); repeat split; try discriminate; intros [K _]; discriminate| |].
    - apply (FoldSpace [10%N] [] [32; 32]%N); blanks.
    - apply (NextLine dq one_line [10%N] false (lit "on") [10; 10]%N [10%N] (lit "two") (lit "two"));
      [apply OL; reflexivity|right; cbn; intros [K|[K|K]]; discriminate| | |].
      + right. exists (lit "o"), (chr "n"). repeat split; try discriminate. intros [_ (y & K)]. destruct y as [|? [|? y]]; discriminate.
      + apply (FoldFeeds [10%N] 0). apply (EmptyMore [10%N] [] 0 []); [constructor|]. constructor. constructor.
      + apply (LastLine dq one_line [10%N] false (lit "two")); [apply OL; reflexivity|right; cbn; intros [K|[K|K]]; discriminate]. }
  split; [exact F|]. apply (C59_single hk [10%N]); [now left|exact F].
Qed.

(** Outside the class, where YAML defines another value: a line break behind a
    backslash between single quotes, an escaped line break, an escaped backslash
    before a line break, an escaped line feed before one, blanks before an empty
    line, and a no-break space before a line break. *)
Theorem C59_other_lines_refuted : forall hk,
  parse hk (lit "'a\" ++ [10%N] ++ lit "b'") = ROk [Node 0 [] (YStr (lit "a\b"))]
  /\ parse hk ([34%N] ++ lit "a\" ++ [10%N] ++ lit "b" ++ [34%N]) = ROk [Node 0 [] (YStr (lit "a" ++ [8%N]))]
  /\ parse hk ([34%N] ++ lit "a\\" ++ [10%N] ++ lit "b" ++ [34%N]) = ROk [Node 0 [] (YStr (lit "a\b"))]
  /\ parse hk ([34%N] ++ lit "a\n" ++ [10%N] ++ lit "b" ++ [34%N]) = ROk [Node 0 [] (YStr (lit "a" ++ [10%N] ++ lit "b"))]
  /\ parse hk ([34%N] ++ lit "a  " ++ [10; 10]%N ++ lit "b" ++ [34%N]) = ROk [Node 0 [] (YStr (lit "a  " ++ [10%N] ++ lit "b"))]
  /\ parse hk ([34%N] ++ lit "a" ++ [160; 10]%N ++ lit "b" ++ [34%N]) = ROk [Node 0 [] (YStr (lit "a b"))].
Proof. intros hk. repeat split; vm_compute; reflexivity. Qed.
