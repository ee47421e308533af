(** * C48: a grammar of YAML texts, with the nodes they stand for.

    This file is only specification.  Every relation below says: the text [t],
    which begins at byte [o] of the file, stands for a node or for the content
    of one.  Nodes carry the byte where their content begins and their tag; the
    anchors defined so far go in and those defined afterwards come out. *)
From Verif Require Export PropTag PropLiteral Block FoldSpec.
Open Scope nat_scope.

(** the bytes of a text *)
Notation blen t := (List.length (utf8_encode t)).

(** ** Anchors *)
(** newest first *)
Definition scope := list (str * node).
Fixpoint lookup (a : str) (e : scope) : option node :=
  match e with
  | [] => None
  | (b, n) :: r => if str_eqb a b then Some n else lookup a r
  end.
(** a node gets the name [a], which must be new; [[]] is no name *)
Inductive named (n : node) : str -> scope -> scope -> Prop :=
| Nameless e : named n [] e e
| NewName a e : a <> [] -> lookup a e = None -> named n a e ((a, n) :: e).

(** ** How a node ends, and what may come behind it *)
Inductive finish :=
| Done             (* nothing special *)
| Num              (* with a number: no comment on the same line *)
| Open (w : nat)   (* with the lines of a block scalar, [w] columns in *)
| Void (w : nat) (nx : bool).  (* it is empty: the next line begins before
                      column [w]; [nx]: there must be a line break *)

(** blanks that separate two tokens: a space, then spaces and tabs *)
Definition sep (w : str) : Prop := exists r, w = 32%N :: r /\ Forall blank r.
(** behind a dash, a question mark or a colon: a separator, or the end of the line *)
Definition sep_or (nx : bool) (w : str) : Prop := sep w \/ nx = true /\ w = [].
Definition comment_text (c : str) : Prop := exists r, c = 35%N :: r /\ ~ In 10%N r /\ ~ In 13%N r.

Section Grammar.
(** do aliases stay references ([parse_cyclic]) or are they replaced ([parse])? *)
Variable cyclic : bool.
(** what a tag stands for *)
Variable tags : tagref -> option str.
(** the line break of the file *)
Variable eol : str.

(** ** Line breaks with empty lines and comment lines behind them *)
Inductive lines : str -> Prop :=
| LNone : lines []
| LEmpty g : lines g -> lines (eol ++ g)
| LComment w c g : Forall blank w -> comment_text c -> lines g -> lines (w ++ c ++ eol ++ g).
(** where the content of a node begins on a later line; [nx]: no blank in front,
    so no comment *)
Definition break_before (nx : bool) (b : str) : Prop :=
  exists tr g, b = tr ++ eol ++ g /\ lines g /\ (tr = [] \/ nx = false /\ comment_text tr).
(** behind a node *)
Definition low (w : nat) (b : str) : Prop := exists n z, b = eol ++ rows eol n ++ z
  /\ (z = [] \/ exists k q, z = indent k ++ 35%N :: q /\ k < w).
(** [k]: the column in which the next line begins, or the file ends; after a
    plain or quoted scalar, an alias, a flow collection or an empty node it may
    end at once *)
Definition break_after (k : option nat) (f : finish) (b : str) : Prop :=
  (exists tr g, b = tr ++ eol ++ g /\ lines g
   /\ (tr = [] \/ f = Done /\ exists j c, tr = indent (S j) ++ c /\ comment_text c)
   /\ (forall w, f = Open w -> low w b)
   /\ (forall w nx i, f = Void w nx -> k = Some i -> i < w))
  \/ k = None /\ b = [] /\ (f = Done \/ exists w, f = Void w false).

(** ** Scalars: on one line or several (for the quoted ones see [FoldSpec]) *)
(** unquoted; inside a flow collection without the flow indicators *)
Definition word (flow : bool) (t : str) : Prop :=
  plain_line t /\ (forall b, t <> lit "..." ++ b) /\ ~ number_line (utf8_encode t ++ [10%N])
  /\ (flow = true -> forall c, In c (lit "[]{},") -> ~ In c t).
(** on several lines: the first one is a word; the others, each at least [d]
    columns in, are text without key and comment, and no blank in front of a
    space *)
Definition more_line (flow : bool) (t : str) : Prop :=
  valid t /\ (exists c r, t = c :: r /\ is_uni_ws c = false /\ c <> 35%N) /\ (forall a c, t = a ++ [c] -> is_uni_ws c = false)
  /\ ~ In 10%N t /\ ~ In 13%N t /\ (forall a b, t <> a ++ lit ": " ++ b) /\ (forall a, t <> a ++ lit ":") /\ (forall a b, t <> a ++ lit " #" ++ b)
  /\ (forall a c b, t = a ++ c :: 32%N :: b -> is_uni_ws c = false)
  /\ (flow = true -> forall c, In c (lit "[]{},") -> ~ In c t).
(** a line break is a space; with [n] empty lines behind it, it is [n] line feeds *)
Inductive plain_joint (d : nat) (br : str) : str -> str -> Prop :=
| JSpace k : d <= k -> plain_joint d br (br ++ indent k) [32%N]
| JFeeds n : plain_joint d br (br ++ List.concat (repeat br (S n)) ++ indent d) (repeat 10%N (S n)).
Inductive more_lines (flow : bool) (d : nat) (br : str) : str -> str -> Prop :=
| MoreOne j v t : plain_joint d br j v -> more_line flow t -> more_lines flow d br (j ++ t) (v ++ t)
| MoreNext j v t r u : plain_joint d br j v -> more_line flow t -> more_lines flow d br r u ->
    more_lines flow d br (j ++ t ++ r) (v ++ t ++ u).
Inductive plain_lines (flow : bool) (d : nat) : str -> str -> Prop :=
| PlainLines br t r u : line_break br -> word flow t -> more_lines flow d br r u -> plain_lines flow d (t ++ r) (t ++ u).
Definition alias_of (a : str) (n : node) : yaml := if cyclic then YAlias a else n_yaml n.
Inductive atom (flow : bool) (e : scope) : yaml -> str -> finish -> Prop :=
(** blanks may stand behind a word, spaces behind a number *)
| AWord t w y : word flow t -> Forall blank w -> meaning t y -> atom flow e y (t ++ w) Done
| AInt t z : int_literal t -> atom flow e (YInt t) (t ++ indent z) Num
| AFloat t v z : float_literal t -> without_dot0 t v -> atom flow e (YFloat v) (t ++ indent z) Num
| ASci t z : sci_literal t -> atom flow e (YFloat t) (t ++ indent z) Num
| ADouble b : str_ok b -> atom flow e (YStr b) (quote b) Done
| ASingle b : valid b -> ~ In 10%N b -> ~ In 13%N b -> atom flow e (YStr b) (lit "'" ++ dq b ++ lit "'") Done
| ADoubleLines br t b : line_break br -> folded_double br t b -> atom flow e (YStr b) ([34%N] ++ t ++ [34%N]) Done
| ASingleLines br t b : line_break br -> folded_single br t b -> atom flow e (YStr b) (lit "'" ++ t ++ lit "'") Done
| AAlias a n : name_ok a -> (cyclic = false -> lookup a e = Some n) -> atom flow e (alias_of a n) (lit "*" ++ a) Done.

(** ** Properties: an anchor, a tag or both; [nx]: at the end of the line *)
Definition tag_text (r : tagref) (t : str) : Prop := ref_ok r /\ tags r = Some t /\ t <> [].
Inductive props (nx : bool) : str -> str -> str -> Prop :=
| PAnchor a w : name_ok a -> sep_or nx w -> props nx a [] (lit "&" ++ a ++ w)
| PTag r t w : tag_text r t -> sep_or nx w -> props nx [] t (ref_text r ++ w)
| PAnchorTag a s r t w : name_ok a -> sep s -> tag_text r t -> sep_or nx w -> props nx a t (lit "&" ++ a ++ s ++ ref_text r ++ w)
| PTagAnchor a s r t w : name_ok a -> sep s -> tag_text r t -> sep_or nx w -> props nx a t (ref_text r ++ s ++ lit "&" ++ a ++ w).

(** ** Flow collections *)
(** no two keys of a map are the same data, and all can be compared *)
Definition keys_ok (m : list (node * node)) : Prop := distinct m /\ Forall (fun kv => readable (n_yaml (fst kv))) m.
(** white space behind an item *)
Definition flow_gap (f : finish) (w : str) : Prop := wide w /\ (f = Num -> ~ In 9%N w /\ ~ In 12%N w).
(** behind the colon of a key [kt]: a separator, needed unless the key is quoted *)
Definition flow_colon (kt w : str) : Prop := sep w \/ w = [] /\ exists c q, kt = c :: q /\ (c = 34%N \/ c = 39%N).
(** content, in a place whose indentation would be [d] columns *)
Inductive fcontent : nat -> nat -> scope -> yaml -> str -> scope -> finish -> Prop :=
| FAtom d o e y t f : atom true e y t f -> fcontent d o e y t e f
| FLines d o e t b : plain_lines true d t b -> fcontent d o e (YStr b) t e Done
| FColl d o e y t e' : coll d o e y t e' -> fcontent d o e y t e' Done
with coll : nat -> nat -> scope -> yaml -> str -> scope -> Prop :=
| FSeq d o e v t e' : fitems d (o + 1) e v t e' -> coll d o e (YSeq v) (lit "[" ++ t) e'
| FMap d o e m t e' : fpairs d (o + 1) e m t e' -> keys_ok m -> coll d o e (YMap m) (lit "{" ++ t) e'
with fnode : nat -> nat -> scope -> node -> str -> scope -> finish -> Prop :=
| FBare d o e y t e' f : fcontent d o e y t e' f -> fnode d o e (Node (N.of_nat o) [] y) t e' f
| FProps d o e a tg p y t e1 e2 f : props false a tg p -> fcontent d (o + blen p) e y t e1 f ->
    named (Node (N.of_nat (o + blen p)) tg y) a e1 e2 -> fnode d o e (Node (N.of_nat (o + blen p)) tg y) (p ++ t) e2 f
with fitems : nat -> nat -> scope -> list node -> str -> scope -> Prop :=
| FINone d o e w : wide w -> fitems d o e [] (w ++ lit "]") e
| FIOne d o e w x t w' e' f : wide w -> fnode (d + 4) (o + List.length w) e x t e' f -> flow_gap f w' ->
    fitems d o e [x] (w ++ t ++ w' ++ lit "]") e'
| FIMore d o e w x t w' v u e1 e' f : wide w -> fnode (d + 4) (o + List.length w) e x t e1 f -> flow_gap f w' ->
    fitems d (o + List.length w + blen t + List.length w' + 1) e1 v u e' ->
    fitems d o e (x :: v) (w ++ t ++ w' ++ lit "," ++ u) e'
with fpairs : nat -> nat -> scope -> list (node * node) -> str -> scope -> Prop :=
| FPNone d o e w : wide w -> fpairs d o e [] (w ++ lit "}") e
| FPOne d o e k v t w' e' f : fpair d o e k v t e' f -> flow_gap f w' -> fpairs d o e [(k, v)] (t ++ w' ++ lit "}") e'
| FPMore d o e k v t m u e1 e' f : fpair d o e k v t e1 f -> fpairs d (o + blen t + 1) e1 m u e' ->
    fpairs d o e ((k, v) :: m) (t ++ lit "," ++ u) e'
with fpair : nat -> nat -> scope -> node -> node -> str -> scope -> finish -> Prop :=
| FPair d o e w k kt s v vt e1 e2 f f' : wide w -> fnode (d + 2) (o + List.length w) e k kt e1 f -> flow_colon kt s ->
    fnode (d + 4) (o + List.length w + blen kt + 1 + List.length s) e1 v vt e2 f' ->
    fpair d o e k v (w ++ kt ++ lit ":" ++ s ++ vt) e2 f'
(** an explicit key: its colon is on a later line, [d] columns in *)
| FExplicit d o e w q k kt b s v vt e1 e2 f f' : wide w -> sep q -> fnode (d + 4) (o + List.length w + 1 + List.length q) e k kt e1 f ->
    break_after (Some d) f b -> sep s \/ s = [] ->
    fnode (d + 4) (o + List.length w + 1 + List.length q + blen kt + blen b + d + 1 + List.length s) e1 v vt e2 f' ->
    fpair d o e k v (w ++ lit "?" ++ q ++ kt ++ b ++ indent d ++ lit ":" ++ s ++ vt) e2 f'.

(** ** Block nodes *)
(** a scalar, or a flow collection *)
Inductive inline (d o : nat) (e : scope) : yaml -> str -> scope -> finish -> Prop :=
| IAtom y t f : atom false e y t f -> inline d o e y t e f
| ILines t b : plain_lines false d t b -> inline d o e (YStr b) t e Done
| IColl y t e' : coll d o e y t e' -> inline d o e y t e' Done.
(** a block scalar with its lines [d] columns in *)
Inductive scalar_lines (d : nat) : str -> str -> Prop :=
| BLiteral z ci w c ls : ci = [] /\ z = [10%N] \/ ci = lit "-" /\ z = [] -> Forall blank_char w -> c <> [] ->
    Forall (fun x => PropLiteral.line_ok (fst x) (snd x)) ((0, c) :: ls) -> seen_end (literal_value c ls) ->
    scalar_lines d (literal_value c ls ++ z) (block_header (chr "|") ci w ++ block_text eol d ((0, c) :: ls))
| BFolded z ci w n c ls : ci = [] /\ z = [10%N] \/ ci = lit "-" /\ z = [] -> Forall blank_char w ->
    Forall (fun x => PropLiteral.line_ok (fst x) (snd x) /\ trimmed (snd x)) ((n, c) :: ls) ->
    scalar_lines d (breaks n ++ folded_value c ls ++ z) (block_header (chr ">") ci w ++ block_text eol d ((n, c) :: ls)).

(** the key of an entry; [h]: the properties in front of it belong to the map *)
Inductive key (d o : nat) (h : bool) (e : scope) : node -> str -> scope -> Prop :=
| KBare y t e' f : inline d o e y t e' f -> key d o h e (Node (N.of_nat o) [] y) t e'
| KProps a tg p y t e1 e2 f : h = false -> props false a tg p -> inline d (o + blen p) e y t e1 f ->
    named (Node (N.of_nat (o + blen p)) tg y) a e1 e2 -> key d o h e (Node (N.of_nat (o + blen p)) tg y) (p ++ t) e2.

(** [body c]: content that begins in column [c] or behind the properties of its
    node; [full m c]: a node, with [m = false] one in column [c] (a document, an
    item of a sequence), with [m = true] what belongs to a key in column [c];
    [nx]: its text begins with a line break *)
Inductive body : nat -> nat -> bool -> scope -> yaml -> str -> scope -> finish -> Prop :=
| BInline c o h e y t e' f : inline (c + 2) o e y t e' f -> body c o h e y t e' f
| BSeq c o h e nx w v t e' f : sep_or nx w -> items c (o + 1 + List.length w) nx e v t e' f ->
    body c o h e (YSeq v) (lit "-" ++ w ++ t) e' f
| BMap c o h e m t e' f : entries c o h e m t e' f -> keys_ok m -> body c o h e (YMap m) t e' f
with full : bool -> nat -> nat -> bool -> scope -> node -> str -> scope -> finish -> Prop :=
| Bare m c o nx e y t e' f : content m c o nx e y t e' f -> full m c o nx e (Node (N.of_nat o) [] y) t e' f
| Props m c o nx e a tg p y t e1 e2 f : props nx a tg p -> content m c (o + blen p) nx e y t e1 f ->
    named (Node (N.of_nat (o + blen p)) tg y) a e1 e2 -> full m c o false e (Node (N.of_nat (o + blen p)) tg y) (p ++ t) e2 f
with content : bool -> nat -> nat -> bool -> scope -> yaml -> str -> scope -> finish -> Prop :=
(** in column [c]: here, on a later line, nothing, or a block scalar *)
| CHere c o e y t e' f : body c o true e y t e' f -> content false c o false e y t e' f
| CNext c o nx e b y t e' f : break_before nx b -> body c (o + blen b + c) false e y t e' f ->
    content false c o nx e y (b ++ indent c ++ t) e' f
| CEmpty c o nx e : 1 <= c -> content false c o nx e YNull [] e (Void c nx)
| CLines c o e v t : 1 <= c -> scalar_lines c v t -> content false c o false e (YStr v) t e (Open c)
(** for a key in column [c]: on its line, deeper on a later line, a sequence in
    the same column, nothing, or a block scalar *)
| VHere c o e y t e' f : inline (c + 2) o e y t e' f -> content true c o false e y t e' f
| VNext c c' o nx e b y t e' f : c < c' -> break_before nx b -> body c' (o + blen b + c') false e y t e' f ->
    content true c o nx e y (b ++ indent c' ++ t) e' f
| VFlush c o nx e b nx' w v t e' f : break_before nx b -> sep_or nx' w ->
    items c (o + blen b + c + 1 + List.length w) nx' e v t e' f ->
    content true c o nx e (YSeq v) (b ++ indent c ++ lit "-" ++ w ++ t) e' f
| VEmpty c o nx e : content true c o nx e YNull [] e (Void c nx)
| VLines c o e v t : scalar_lines (c + 2) v t -> content true c o false e (YStr v) t e (Open (c + 2))
(** the items of a sequence with its dashes in column [c], behind the first dash *)
with items : nat -> nat -> bool -> scope -> list node -> str -> scope -> finish -> Prop :=
| SOne c o nx e x t e' f : full false (c + 2) o nx e x t e' f -> items c o nx e [x] t e' f
| SMore c o nx e x t e1 f1 b nx' w v u e' f : full false (c + 2) o nx e x t e1 f1 -> break_after (Some c) f1 b -> sep_or nx' w ->
    items c (o + blen t + blen b + c + 1 + List.length w) nx' e1 v u e' f ->
    items c o nx e (x :: v) (t ++ b ++ indent c ++ lit "-" ++ w ++ u) e' f
(** the entries of a map with its keys in column [c] *)
with entries : nat -> nat -> bool -> scope -> list (node * node) -> str -> scope -> finish -> Prop :=
| EOne c o h e k v t e' f : entry c o h e k v t e' f -> entries c o h e [(k, v)] t e' f
| EMore c o h e k v t e1 f1 b m u e' f : entry c o h e k v t e1 f1 -> break_after (Some c) f1 b ->
    entries c (o + blen t + blen b + c) false e1 m u e' f ->
    entries c o h e ((k, v) :: m) (t ++ b ++ indent c ++ u) e' f
with entry : nat -> nat -> bool -> scope -> node -> node -> str -> scope -> finish -> Prop :=
| ESimple c o h e k kt e1 nx w v vt e' f : key (c + 2) o h e k kt e1 -> sep_or nx w ->
    full true c (o + blen kt + 1 + List.length w) nx e1 v vt e' f ->
    entry c o h e k v (kt ++ lit ":" ++ w ++ vt) e' f
| EExplicit c o h e nx w k kt e1 f1 b nx' w' v vt e' f : sep_or nx w -> full true c (o + 1 + List.length w) nx e k kt e1 f1 ->
    break_after (Some c) f1 b -> sep_or nx' w' ->
    full true c (o + 1 + List.length w + blen kt + blen b + c + 1 + List.length w') nx' e1 v vt e' f ->
    entry c o h e k v (lit "?" ++ w ++ kt ++ b ++ indent c ++ lit ":" ++ w' ++ vt) e' f.
End Grammar.

Scheme fcontent_mut := Induction for fcontent Sort Prop
with coll_mut := Induction for coll Sort Prop
with fnode_mut := Induction for fnode Sort Prop
with fitems_mut := Induction for fitems Sort Prop
with fpairs_mut := Induction for fpairs Sort Prop
with fpair_mut := Induction for fpair Sort Prop.
Combined Scheme flow_mut from fcontent_mut, coll_mut, fnode_mut, fitems_mut, fpairs_mut, fpair_mut.
Scheme body_mut := Induction for body Sort Prop
with full_mut := Induction for full Sort Prop
with content_mut := Induction for content Sort Prop
with items_mut := Induction for items Sort Prop
with entries_mut := Induction for entries Sort Prop
with entry_mut := Induction for entry Sort Prop.
Combined Scheme gram_mut from body_mut, full_mut, content_mut, items_mut, entries_mut, entry_mut.
