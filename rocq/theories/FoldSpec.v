(** * C59: the lines of a quoted scalar, and the text they stand for.

    This file is only specification. *)
From Verif Require Export PropJson2.
Open Scope nat_scope.

Definition line_break (e : str) : Prop := e = [10%N] \/ e = [13; 10]%N \/ e = [13%N].
(** [n] empty lines and the indentation of the next one *)
Inductive empties (e : str) : nat -> str -> Prop :=
| EmptyNone w : Forall blank w -> empties e 0 w
| EmptyMore w n g : Forall blank w -> empties e n g -> empties e (S n) (w ++ e ++ g).
(** the end of a line: alone, with the blanks around it, it stands for a space;
    with [n] empty lines behind it, for [n] line feeds *)
Inductive fold_at (e : str) : str -> str -> Prop :=
| FoldSpace w w' : Forall blank w -> Forall blank w' -> fold_at e (w ++ e ++ w') [32%N]
| FoldFeeds n g : empties e (S n) g -> fold_at e (e ++ g) (repeat 10%N (S n)).

(** a line but the first one, as it is written: no blank in front *)
Definition line_head (first : bool) (a : str) : Prop :=
  first = true \/ match a with c :: _ => ~ blank c | [] => True end.
(** a line but the last one: it ends in a visible character, which is not a
    backslash, nor the letter n behind one; the first one may be empty *)
Definition line_tail (first : bool) (a : str) : Prop :=
  first = true /\ a = []
  \/ exists x c, a = x ++ [c] /\ is_uni_ws c = false /\ c <> 92%N /\ ~ (c = 110%N /\ exists y, x = y ++ [92%N]).
(** [folded enc good e true t u]: the text [t], whose lines are written with
    [enc], stands for [u] *)
Inductive folded (enc : str -> str) (good : str -> Prop) (e : str) : bool -> str -> str -> Prop :=
| LastLine first a : good a -> line_head first (enc a) -> folded enc good e first (enc a) a
| NextLine first a j v t u : good a -> line_head first (enc a) -> line_tail first a ->
    fold_at e j v -> folded enc good e false t u -> folded enc good e first (enc a ++ j ++ t) (a ++ v ++ u).

(** between double quotes: with the escapes of JSON; between single ones: every
    quote doubled *)
Definition folded_double (e : str) : str -> str -> Prop := folded (flat_map json_char) str_ok e true.
Definition one_line (b : str) : Prop := valid b /\ ~ In 10%N b /\ ~ In 13%N b.
Definition folded_single (e : str) : str -> str -> Prop := folded dq one_line e true.
