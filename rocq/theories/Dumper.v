(** * Dumper: src/dumper.rs *)
From Verif Require Export Loader.
Open Scope N_scope.

(** line 16 [NL]; [win] is [cfg!(windows)] *)
Definition NL (win : bool) : str := if win then [13; 10] else [10].

(** lines 18-23 [Root] *)
Inductive root_t := RScalar | RMap | RArray.
Definition is_rmap (r : root_t) : bool := match r with RMap => true | _ => false end.
Definition is_rarray (r : root_t) : bool := match r with RArray => true | _ => false end.

(** [{s:?}] (line 90): [Debug for str].  [uni] tells which characters >= U+0080
    are printed as they are (a Unicode table of the standard library, left
    arbitrary). *)
Definition hex_digit (d : N) : N := if d <? 10 then 48 + d else 87 + d.
Fixpoint show_hex (fuel : nat) (n : N) (acc : str) : str :=
  match fuel with
  | O => acc
  | S f => let acc := hex_digit (n mod 16) :: acc in
           if n / 16 =? 0 then acc else show_hex f (n / 16) acc
  end.
Definition debug_char (uni : N -> bool) (c : N) : str :=
  if c =? 0 then [92; 48]
  else if c =? 9 then [92; 116]
  else if c =? 10 then [92; 110]
  else if c =? 13 then [92; 114]
  else if c =? 34 then [92; 34]
  else if c =? 92 then [92; 92]
  else if (if c <? 32 then false else if c <? 127 then true
           else if c =? 127 then false else uni c) then [c]
  else lit "\u{" ++ show_hex 8 c [] ++ lit "}".
Definition debug_str (uni : N -> bool) (s : str) : str :=
  34 :: flat_map (debug_char uni) s ++ [34].

Definition bind_res {A B} (r : res A) (f : A -> res B) : res B :=
  match r with
  | ROk a => f a
  | RErr e => RErr e
  | RPanic => RPanic
  | RDiv => RDiv
  end.
Notation "'do!' x := r ;; k" := (bind_res r (fun x => k))
  (at level 61, x name, r at next level, right associativity).

(** A parser on a string of its own, lines 57 and 87: the hasher is unused. *)
Definition fresh (s : str) : st := new_st (fun _ => 0) false (utf8_encode s).

(** lines 46-52: the first anchor (in key order) whose node equals this one *)
Fixpoint find_anchor (an : anchors_t) (n : node) : may_panic (option str) :=
  match an with
  | [] => Some None
  | (k, v) :: r =>
    match node_eq v n with
    | None => None
    | Some true => Some (Some k)
    | Some false => find_anchor r n
    end
  end.
Definition anchor_part (an : anchors_t) (n : node) : res str :=
  match find_anchor an n with
  | None => RPanic
  | Some None => ROk []
  | Some (Some a) => ROk (lit "&" ++ a ++ lit " ")
  end.

(** lines 53-62 *)
Definition tag_part (n : node) : res str :=
  let tg := node_tag n in
  if negb (is_nil tg) && negb (starts_with tag_prefix tg) then
    do! b := fst (is_ok identifier (fresh tg)) ;;
    ROk (if (b : bool) then lit "!" ++ tg ++ lit " " else lit "!<" ++ tg ++ lit "> ")
  else ROk [].

(** lines 68-97: a scalar string *)
Definition dump_str (win : bool) (uni : N -> bool) (indent : str) (s : str) : res str :=
  if Nat.ltb 1 (List.length (lines s)) then
    let body :=
      join (NL win)
        (List.map (fun l => if is_nil l then [] else indent ++ trim_end l) (lines s)) in
    ROk (lit "|" ++ NL win ++ indent ++ trim body)
  else
    match fst (string_plain 0 false (fresh s)) with
    | RErr _ => ROk (debug_str uni s)
    | ROk _ => ROk s
    | RPanic => RPanic
    | RDiv => RDiv
    end.

(** [buf.truncate(buf.len() - NL.len())] (lines 107, 138): the subtraction
    panics on underflow (debug build; the release build wraps and leaves [buf]
    unchanged). *)
Definition drop_nl (win : bool) (buf : str) : res str :=
  if Nat.ltb (List.length buf) (List.length (NL win)) then RPanic
  else ROk (firstn (List.length buf - List.length (NL win)) buf).

(** lines 44-144 [Dumper::dump] with fields (node, root, level, anchors) *)
Fixpoint dump_node (win : bool) (uni : N -> bool) (an : anchors_t)
    (n : node) (root : root_t) (level : nat) {struct n} : res str :=
  match n with
  | Node p t y =>
    let nl := NL win in
    do! a := anchor_part an (Node p t y) ;;
    do! tg := tag_part (Node p t y) ;;
    let pre := a ++ tg in
    let indent := repeat_str level (lit "  ") in
    do! body :=
      match y with
      | YNull => ROk (lit "null")
      | YBool true => ROk (lit "true")
      | YBool false => ROk (lit "false")
      | YInt s | YFloat s => ROk s
      | YStr s => dump_str win uni indent s
      | YSeq v =>
        do! buf :=
          (fix go (i : nat) (v : list node) (buf : str) : res str :=
             match v with
             | [] => ROk buf
             | x :: r =>
               let buf := if negb (Nat.eqb i 0) || negb (Nat.eqb level 0)
                          then buf ++ indent else buf in
               do! s := dump_node win uni an x RArray (level + 1) ;;
               go (S i) r (buf ++ lit "- " ++ s ++ nl)
             end) O v nl ;;
        drop_nl win buf
      | YMap m =>
        do! buf :=
          (fix go (i : nat) (m : list (node * node)) (buf : str) : res str :=
             match m with
             | [] => ROk buf
             | (k, v) :: r =>
               let buf := if negb (Nat.eqb i 0) || is_rmap root
                          then buf ++ indent else buf in
               do! s := dump_node win uni an k RMap (level + 1) ;;
               let buf :=
                 match n_yaml k with
                 | YMap _ | YSeq _ =>
                   buf ++ lit "?" ++ repeat_str (level + 1) (lit "  ") ++ nl
                       ++ s ++ nl ++ indent
                 | _ => buf ++ s
                 end in
               let buf := buf ++ lit ":" in
               do! vs :=
                 match n_yaml v with
                 | YMap _ => dump_node win uni an v RMap (level + 1)
                 | YSeq _ =>
                   if is_rarray root && Nat.eqb i 0
                   then dump_node win uni an v RMap level
                   else dump_node win uni an v RMap (level + 1)
                 | _ => do! d := dump_node win uni an v RMap (level + 1) ;; ROk (32 :: d)
                 end ;;
               go (S i) r (buf ++ vs ++ nl)
             end) O m (match root with RMap => nl | _ => [] end) ;;
        drop_nl win buf
      | YAlias s => ROk (lit "*" ++ s)
      end ;;
    ROk (pre ++ body)
  end.

(** lines 167-185 [dump] *)
Fixpoint dump_docs (win : bool) (uni : N -> bool) (i : nat) (nodes : list node)
    (ans : list anchors_t) : res str :=
  match nodes with
  | [] => ROk []
  | n :: r =>
    let an := nth i ans [] in
    do! d := dump_node win uni an n RScalar 0 ;;
    let d := d ++ NL win in
    let d := match i with
             | O => d
             | _ => lit "---" ++ NL win ++ trim_start d
             end in
    do! rest := dump_docs win uni (S i) r ans ;;
    ROk (d ++ rest)
  end.
Definition dump (win : bool) (uni : N -> bool) (nodes : list node) (ans : list anchors_t)
  : res str := dump_docs win uni 0 nodes ans.
