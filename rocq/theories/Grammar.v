(** * Grammar: src/parser/base/grammar.rs and src/parser/base/directive.rs *)
From Verif Require Export Parser.
Open Scope N_scope.

(** Fuel for the loops of one sub-parser on a document (it suffices: C49_loops,
    PropFuel.v). *)
Definition loop_fuel (s : st) : nat := S (S (List.length (p_doc s))).

(** grammar.rs:345-350 [ws] *)
Definition is_ws (c : N) : bool := is_ascii_ws c && negb (c =? 10) && negb (c =? 13).
Definition ws (opt : take_opt) : M unit := take_while is_ws opt.

(** grammar.rs:11-15 [bound] *)
Definition bound : M unit :=
  sym_set (lit ":{}[] ," ++ [10; 13]) ;;;
  back 1 ;;;
  ws (More 0).

(** grammar.rs:18-21 [complex_mapping] *)
Definition complex_mapping : M unit := sym (chr "?") ;;; bound.

(** grammar.rs:23-26 [num_prefix] *)
Definition num_prefix : M unit :=
  unwrap_or tt (sym (chr "-")) ;;;
  take_while is_digit (More 1).

(** grammar.rs:50-52 [ascii_digit] *)
Definition ascii_digit (i : N) (c : N) : bool :=
  is_digit c || ((97 <? c) && (c <? 97 + i)) || ((65 <? c) && (c <? 65 + i)).

(** grammar.rs:40-48 [octal], [hexadecimal] *)
Definition octal : M unit := sym (chr "o") ;;; take_while (ascii_digit 8) (More 1).
Definition hexadecimal : M unit := sym (chr "x") ;;; take_while (ascii_digit 16) (More 1).

(** grammar.rs:29-38 [int] *)
Definition int : M str :=
  num_prefix ;;;
  s0 <- text ;;
  b <- (if str_eqb s0 (lit "0")
        then context (orM (is_ok octal) (is_ok hexadecimal)) else ret false) ;;
  s1 <- (if (b : bool) then text else ret s0) ;;
  ws (More 0) ;;;
  bound ;;;
  ret s1.

(** grammar.rs:55-65 [float] *)
Definition float : M str :=
  num_prefix ;;;
  sym (chr ".") ;;;
  take_while is_digit (More 0) ;;;
  s <- text ;;
  n <- count (ws (More 0)) ;;
  (if Nat.ltb 0 n then back 1 else ret tt) ;;;
  bound ;;;
  ret (trim_end_dot0 s).

(** grammar.rs:68-79 [sci_float] *)
Definition sci_float : M str :=
  num_prefix ;;;
  sym_set (lit "eE") ;;;
  take_while (is_in (lit "+-")) (Range 0 1) ;;;
  take_while is_digit (More 1) ;;;
  s <- text ;;
  n <- count (ws (More 0)) ;;
  (if Nat.ltb 0 n then back 1 else ret tt) ;;;
  bound ;;;
  ret s.

(** grammar.rs:353-362 [nl] *)
Definition nl : M unit :=
  context (
    b <- orM (is_ok (sym_seq [13; 10]))
        (orM (is_ok (sym_seq [10; 13]))
        (orM (is_ok (sym 10)) (is_ok (sym 13)))) ;;
    if (b : bool) then ret tt else fail Mismatch).

(** grammar.rs:365-367 [inv] *)
Definition inv (opt : take_opt) : M unit := take_while is_ascii_ws opt.

(** grammar.rs:410-414 [comment] *)
Definition comment : M unit :=
  ws (More 0) ;;;
  sym (chr "#") ;;;
  take_while (not_in [10; 13]) (More 0).

(** grammar.rs:386-407 [gap] *)
Fixpoint gap_loop (n : nat) (cmt : bool) (t : nat) : M nat :=
  match n with
  | O => diverge
  | S n' =>
    forward ;;;
    ws (More 0) ;;;
    (if cmt then unwrap_or tt comment else ret tt) ;;;
    b <- is_err nl ;;
    if (b : bool) then backward ;;; ret t else gap_loop n' cmt (t + 1)
  end.
Definition gap (cmt : bool) : M nat :=
  context (
    (if cmt then unwrap_or tt comment else ret tt) ;;;
    nl ;;;
    n <- gets loop_fuel ;;
    gap_loop n cmt 1).

(** grammar.rs:370-381 [ind_define] *)
Fixpoint list_set (l : list nat) (i v : nat) : list nat :=
  match l, i with
  | [], _ => []
  | _ :: r, O => v :: r
  | x :: r, S i' => x :: list_set r i' v
  end.
Definition ind_define (level : nat) : M unit :=
  (if Nat.ltb 0 level then ind (level - 1) else ret tt) ;;;
  i <- count (take_while is_ascii_ws (More 0)) ;;
  fun s =>
    if Nat.eqb level (List.length (p_indent s))
    then (ROk tt, set_indent (p_indent s ++ [i]) s)
    else if Nat.ltb level (List.length (p_indent s))
    then (ROk tt, set_indent (list_set (p_indent s) level i) s)
    else (RPanic, s).

(** grammar.rs:82-125 [string_quoted] *)
Fixpoint quoted_loop (n : nat) (q : N) (ignore : bytes) (v : str) : M str :=
  match n with
  | O => diverge
  | S n' =>
    forward ;;;
    take_while (not_in [10; 13; 92; q]) (More 0) ;;;
    tx <- text ;;
    let v := v ++ tx in
    forward ;;;
    b <- is_ok (sym_seq ignore) ;;
    if (b : bool) then quoted_loop n' q ignore (v ++ [q])
    else
      g <- ok (gap false) ;;
      match g with
      | Some t =>
        let t := if ends_with [92] v then (t - 1)%nat else t in
        let v :=
          match t with
          | O => v
          | S O =>
            let v := trim_end v in
            if ends_with (lit "\n") v then v else v ++ [32]
          | S t' => v ++ repeat 10 t'
          end in
        ws (More 0) ;;;
        quoted_loop n' q ignore v
      | None =>
        b <- is_ok (sym 92) ;;
        if (b : bool) then quoted_loop n' q ignore (v ++ [92])
        else
          b <- is_ok (sym q) ;;
          if (b : bool) then ret v else quoted_loop n' q ignore v
      end
  end.
Definition string_quoted (q : N) (ignore : bytes) : M str :=
  context (
    sym q ;;;
    forward ;;;
    ws (More 0) ;;;
    v <- text ;;
    n <- gets loop_fuel ;;
    quoted_loop n q ignore v).

(** grammar.rs:128-183 [string_plain] *)
Definition plain_patt (inner : bool) : bytes :=
  lit "[]{}: " ++ [10; 13] ++ (if inner then lit "," else []).
Fixpoint plain_loop (n : nat) (level : nat) (inner : bool) (v : str) (is_leading : bool)
  : M str :=
  match n with
  | O => diverge
  | S n' =>
    forward ;;;
    take_while (not_in (plain_patt inner)) (More 0) ;;;
    tx <- text ;;
    let v := v ++ tx in
    forward ;;;
    stop <- orM (fd <- food ;; ret (match fd with [] => true | _ => false end))
           (orM (is_ok (sym_seq (lit ": ")))
           (orM (andM (is_ok (sym (chr ":"))) (is_ok nl))
                (is_ok (sym_seq (lit " #"))))) ;;
    if (stop : bool) then backward ;;; ret v
    else
      forward ;;;
      b <- is_ok (sym_set (lit ": ")) ;;
      if (b : bool) then
        tx <- text ;;
        let v := if is_leading && str_eqb tx (lit " ") then trim_end v else v in
        plain_loop n' level inner (v ++ tx) is_leading
      else
        b <- (if negb inner && negb (match v with [] => true | _ => false end)
              then is_ok (sym_set (lit "{}[]")) else ret false) ;;
        if (b : bool) then
          tx <- text ;;
          plain_loop n' level inner (v ++ tx) false
        else
          e <- is_err (ind level) ;;
          if (e : bool) then
            g <- ok (gap true) ;;
            match g with
            | Some t =>
              let v := (if Nat.eqb t 1 then v ++ [32] else v) ++ repeat 10 (t - 1)%nat in
              e <- is_err (ind level) ;;
              if (e : bool) then ret v else plain_loop n' level inner v true
            | None => ret v
            end
          else plain_loop n' level inner v is_leading
  end.
Definition string_plain (level : nat) (inner : bool) : M str :=
  context (
    n <- gets loop_fuel ;;
    v <- plain_loop n level inner [] false ;;
    let v := trim_end v in
    match v with [] => fail Mismatch | _ => ret v end).

(** grammar.rs:204-214 [chomp]: which of the three closures is returned *)
Inductive chomp_opt := Strip | Keep | Clip.
Definition chomp : M chomp_opt :=
  context (
    b <- is_ok (sym (chr "-")) ;;
    if (b : bool) then ret Strip
    else b <- is_ok (sym (chr "+")) ;; if (b : bool) then ret Keep else ret Clip).
Definition apply_chomp (c : chomp_opt) (s : str) : str :=
  match c with
  | Strip => trim_end s
  | Keep => s
  | Clip => trim_end s ++ [10]
  end.

(** grammar.rs:217-255 [string_wrapped] *)
Definition ends_with_ws (v : str) : bool :=
  match rev v with [] => false | c :: _ => is_uni_ws c end.
Definition is_nil {A} (l : list A) : bool := match l with [] => true | _ => false end.
Fixpoint wrapped_loop (n : nat) (level : nat) (sep : N) (leading : bool) (v : str) : M str :=
  match n with
  | O => diverge
  | S n' =>
    nl ;;;
    forward ;;;
    e <- is_err (ind level) ;;
    r <- (if (e : bool) then
            g <- ok (gap false) ;;
            match g with
            | Some t =>
              let v := v ++ repeat 10 t in
              e <- is_err (ind level) ;;
              ret (v, (e : bool))
            | None => ret (v, true)
            end
          else ret (v, false)) ;;
    let '(v, stop) := r in
    if (stop : bool) then ret v
    else
      forward ;;;
      take_while (not_in [10; 13]) (More 0) ;;;
      s <- text ;;
      let v :=
        if (leading : bool) then (if is_nil v then v else v ++ [sep]) ++ s
        else (if negb (is_nil v) && negb (ends_with_ws v) then v ++ [sep] else v)
             ++ trim_start s in
      wrapped_loop n' level sep leading v
  end.
Definition string_wrapped (level : nat) (sep : N) (leading : bool) : M str :=
  context (
    n <- gets loop_fuel ;;
    v <- wrapped_loop n level sep leading [] ;;
    back 1 ;;;
    ret (v ++ [10])).

(** grammar.rs:186-201 [string_literal], [string_folded] *)
Definition string_literal (level : nat) : M str :=
  sym (chr "|") ;;;
  c <- chomp ;;
  ws (More 0) ;;;
  s <- string_wrapped level 10 true ;;
  ret (apply_chomp c s).
Definition string_folded (level : nat) : M str :=
  sym (chr ">") ;;;
  c <- chomp ;;
  ws (More 0) ;;;
  s <- string_wrapped level 32 false ;;
  ret (apply_chomp c s).

(** grammar.rs:258-278 [escape] *)
Fixpoint escape_loop (b : bool) (doc : str) : str :=
  match doc with
  | [] => []
  | c :: r =>
    if (c =? 92) && negb b then escape_loop true r
    else
      (if (c =? 92) && b then 92
       else if (c =? 110) && b then 10
       else if (c =? 114) && b then 13
       else if (c =? 116) && b then 9
       else if (c =? 98) && b then 8
       else if (c =? 102) && b then 12
       else c) :: escape_loop false r
  end.
Definition escape (doc : str) : str := escape_loop false doc.

(** grammar.rs:281-287 [identifier] *)
Definition identifier : M unit :=
  take_while is_alnum One ;;;
  take_while (fun c => is_alnum c || (c =? chr "-")) (More 0).

(** [p.tag[&k]]: indexing a [BTreeMap], panics on a missing key *)
Definition tag_index (k : str) : M str :=
  fun s => match bt_get k (p_tag s) with
           | Some v => (ROk v, s)
           | None => (RPanic, s)
           end.

(** grammar.rs:290-324 [tag] *)
Definition tag : M str :=
  sym (chr "!") ;;;
  context (
    unwrap_or tt identifier ;;;
    tg <- text ;;
    prefix <-
      (if negb (is_nil tg) then
         b <- is_ok (sym (chr "!")) ;;
         if (b : bool) then tag_index tg else ret []
       else
         b <- is_ok (sym (chr "<")) ;;
         if (b : bool) then
           t <- context (take_while (not_in (lit " <>" ++ [10; 13])) (More 1) ;;; text) ;;
           sym (chr ">") ;;;
           ret t
         else
           b <- is_ok (sym (chr "!")) ;;
           if (b : bool) then tag_index (lit "!!") else tag_index (lit "!")) ;;
    doc <- context (b <- is_ok identifier ;; if (b : bool) then text else ret []) ;;
    ret (prefix ++ doc)).

(** grammar.rs:327-333 [anchor], 336-342 [anchor_use] *)
Definition anchor : M str := sym (chr "&") ;;; context (identifier ;;; text).
Definition anchor_use : M str := sym (chr "*") ;;; context (identifier ;;; text).

(** ** src/parser/base/directive.rs *)

(** lines 21-31 [directive_yaml] *)
Definition directive_yaml : M unit :=
  ws (More 1) ;;;
  vc <- gets p_version ;;
  if (vc : bool) then err (lit "checked version")
  else
    b <- context (orM (is_ok (sym_seq (lit "1.1"))) (is_ok (sym_seq (lit "1.2")))) ;;
    if negb b then err (lit "invalid version")
    else modify (set_version true).

(** lines 33-54 [directive_tag] *)
Definition directive_tag : M unit :=
  ws (More 1) ;;;
  sym (chr "!") ;;;
  context (
    b <- is_ok identifier ;;
    tg <- (if (b : bool) then t <- text ;; sym (chr "!") ;;; ret t
           else b <- is_ok (sym (chr "!")) ;;
                if (b : bool) then ret (lit "!!") else ret (lit "!")) ;;
    ws (More 1) ;;;
    doc <- context (take_while (not_in (lit " " ++ [10; 13])) (More 1) ;;; text) ;;
    modify (fun s => set_tag (bt_insert tg doc (p_tag s)) s)).

(** lines 6-19 [directive] *)
Definition directive : M unit :=
  sym (chr "%") ;;;
  context (
    b <- is_ok (sym_seq (lit "YAML")) ;;
    if (b : bool) then directive_yaml
    else b <- is_ok (sym_seq (lit "TAG")) ;;
         if (b : bool) then directive_tag
         else take_while (not_in [10; 13]) (More 0)) ;;;
  gap true ;;;
  ret tt.
