(** * Loader: src/parser/mod.rs *)
From Verif Require Export Grammar.
Open Scope N_scope.

(** lines 194-206 [doc_end] *)
Definition doc_end : M bool :=
  fd <- food ;;
  match fd with
  | [] => ret true
  | _ =>
    context (
      b <- orM (is_ok (sym_seq (lit "---"))) (is_ok (sym_seq (lit "..."))) ;;
      (if (b : bool) then backward else ret tt) ;;;
      ret b)
  end.

(** [self.anchors[self.doc_ind].insert(a, node)]: [true] when the key was
    already there; panics when there is no map for the current document *)
Fixpoint upd_nth {A} (l : list A) (i : nat) (f : A -> A) : list A :=
  match l, i with
  | [], _ => []
  | x :: r, O => f x :: r
  | x :: r, S i' => x :: upd_nth r i' f
  end.
Definition anchor_insert (a : str) (n : node) : M bool :=
  fun s =>
    match nth_error (l_anchors s) (l_doc_ind s) with
    | None => (RPanic, s)
    | Some m =>
      (ROk (match bt_get a m with Some _ => true | None => false end),
       set_anchors (upd_nth (l_anchors s) (l_doc_ind s) (bt_insert a n)) s)
    end.

(** lines 228-265 [scalar_node] *)
Definition scalar_node (f : M yaml) : M node :=
  anchor1 <- unwrap_or [] anchor ;;
  (if is_nil anchor1 then ret tt else bound) ;;;
  forward ;;;
  tg <- unwrap_or [] tag ;;
  (if is_nil tg then ret tt else bound) ;;;
  forward ;;;
  anchor2 <- unwrap_or [] anchor ;;
  an <- (if is_nil anchor2 then ret anchor1
         else if is_nil anchor1 then bound ;;; ret anchor2
         else err (lit "duplicated anchor definition")) ;;
  forward ;;;
  pos <- gets indicator_of ;;
  y <- f ;;
  forward ;;;
  let nd := Node pos tg y in
  if is_nil an then ret nd
  else
    dup <- anchor_insert an nd ;;
    if (dup : bool) then err (lit "duplicated anchor definition") else ret nd.

(** lines 286-294: the keywords of plain scalars *)
Definition plain_value (s : str) : yaml :=
  if str_eqb s (lit "~") || str_eqb s (lit "null") || str_eqb s (lit "Null")
     || str_eqb s (lit "NULL") then YNull
  else if str_eqb s (lit "true") || str_eqb s (lit "True") || str_eqb s (lit "TRUE")
  then YBool true
  else if str_eqb s (lit "false") || str_eqb s (lit "False") || str_eqb s (lit "FALSE")
  then YBool false
  else if str_eqb s (lit ".nan") || str_eqb s (lit ".NaN") || str_eqb s (lit ".NAN")
  then YFloat (lit "NaN")
  else if str_eqb s (lit ".inf") || str_eqb s (lit ".Inf") || str_eqb s (lit ".INF")
  then YFloat (lit "inf")
  else if str_eqb s (lit "-.inf") || str_eqb s (lit "-.Inf") || str_eqb s (lit "-.INF")
  then YFloat (lit "-inf")
  else YStr s.

(** [R::new_rc(m.into_iter().collect())] for a map: panics when key comparison
    does *)
Definition build_map (m : list (node * node)) : M yaml :=
  fun s =>
    match map_collect (p_hash s) m with
    | Some l => (ROk (YMap l), s)
    | None => (RPanic, s)
    end.

(** lines 276-283: an alias, in cyclic and in direct mode *)
Definition alias_value (a : str) : M yaml :=
  fun s =>
    if l_cyclic s then (ROk (YAlias a), s)
    else match nth_error (l_anchors s) (l_doc_ind s) with
         | None => (RPanic, s)
         | Some m =>
           match bt_get a m with
           | Some n => (ROk (n_yaml n), s)
           | None => err (lit "anchor referenced before definition") s
           end
         end.

(** The mutually recursive sub-parsers.  Recursion is on fuel [n]; every call
    and every loop iteration uses one unit ([fuel_doc] below suffices: C49,
    PropFuel.v). *)
Fixpoint scalar (n : nat) (level : nat) (map flow : bool) {struct n} : M node :=
  (* lines 209-221 *)
  match n with
  | O => diverge
  | S n =>
    scalar_node (
      l <- ok (string_literal level) ;;
      match l with
      | Some s => ret (YStr s)
      | None =>
        f <- ok (string_folded level) ;;
        match f with
        | Some s => ret (YStr s)
        | None =>
          or_else (or_else (seq n level map) (map_ n level map flow))
                  (scalar_term n level flow)
        end
      end)
  end

with scalar_flow (n : nat) (level : nat) (flow : bool) {struct n} : M node :=
  (* lines 224-226 *)
  match n with
  | O => diverge
  | S n => scalar_node (scalar_term n level flow)
  end

with scalar_term (n : nat) (level : nat) (flow : bool) {struct n} : M yaml :=
  (* lines 268-303 *)
  match n with
  | O => diverge
  | S n =>
    o <- ok float ;;
    match o with
    | Some s => ret (YFloat s)
    | None =>
    o <- ok sci_float ;;
    match o with
    | Some s => ret (YFloat s)
    | None =>
    o <- ok int ;;
    match o with
    | Some s => ret (YInt s)
    | None =>
    o <- ok anchor_use ;;
    match o with
    | Some s => alias_value s
    | None =>
    o <- ok (string_quoted 39 (lit "''")) ;;
    match o with
    | Some s => ret (YStr s)
    | None =>
    o <- ok (string_quoted 34 [92; 34]) ;;
    match o with
    | Some s => ret (YStr (escape s))
    | None =>
    o <- ok (string_plain level flow) ;;
    match o with
    | Some s => ret (plain_value s)
    | None =>
      or_else (or_else (seq_flow n level) (map_flow n level)) (ret YNull)
    end end end end end end end
  end

with seq_flow (n : nat) (level : nat) {struct n} : M yaml :=
  (* lines 306-329 *)
  match n with
  | O => diverge
  | S n => sym (chr "[") ;;; seq_flow_loop n level []
  end

with seq_flow_loop (n : nat) (level : nat) (v : list node) {struct n} : M yaml :=
  match n with
  | O => diverge
  | S n =>
    inv (More 0) ;;;
    forward ;;;
    close <- is_ok (sym (chr "]")) ;;
    if (close : bool) then forward ;;; ret (YSeq v)
    else
      forward ;;;
      x <- or_else (scalar n (level + 1) false true) (err (lit "flow sequence item")) ;;
      let v := v ++ [x] in
      inv (More 0) ;;;
      e <- is_err (sym (chr ",")) ;;
      if (e : bool) then
        inv (More 0) ;;;
        sym (chr "]") ;;;
        forward ;;;
        ret (YSeq v)
      else seq_flow_loop n level v
  end

with map_flow (n : nat) (level : nat) {struct n} : M yaml :=
  (* lines 332-372 *)
  match n with
  | O => diverge
  | S n => sym (chr "{") ;;; map_flow_loop n level []
  end

with map_flow_loop (n : nat) (level : nat) (m : list (node * node)) {struct n} : M yaml :=
  match n with
  | O => diverge
  | S n =>
    inv (More 0) ;;;
    forward ;;;
    close <- is_ok (sym (chr "}")) ;;
    if (close : bool) then forward ;;; build_map m
    else
      forward ;;;
      c <- is_ok complex_mapping ;;
      k <- (if (c : bool) then
              forward ;;;
              k <- or_else (scalar n (level + 1) false true) (err (lit "flow map key")) ;;
              g <- is_ok (gap true) ;;
              (if (g : bool) then ind level else ret tt) ;;;
              ret k
            else or_else (scalar_flow n (level + 1) true) (err (lit "flow map key"))) ;;
      e <- is_err (sym (chr ":")) ;;
      if (e : bool) then err (lit "flow map splitter")
      else
        context (unwrap_or tt bound) ;;;
        forward ;;;
        v <- or_else (scalar n (level + 1) false true) (err (lit "flow map value")) ;;
        let m := m ++ [(k, v)] in
        e <- is_err (sym (chr ",")) ;;
        if (e : bool) then
          inv (More 0) ;;;
          sym (chr "}") ;;;
          forward ;;;
          build_map m
        else map_flow_loop n level m
  end

with seq (n : nat) (level : nat) (map : bool) {struct n} : M yaml :=
  (* lines 375-411 *)
  match n with
  | O => diverge
  | S n => seq_loop n level map []
  end

with seq_loop (n : nat) (level : nat) (map : bool) (v : list node) {struct n} : M yaml :=
  match n with
  | O => diverge
  | S n =>
    forward ;;;
    more <-
      (match v with
       | [] =>
         (if (map : bool) then gap true ;;; ind_define level
          else g <- is_ok (gap true) ;; if (g : bool) then ind level else ret tt) ;;;
         sym (chr "-") ;;;
         bound ;;;
         ret true
       | _ =>
         bad <- andM (is_err (gap true)) (notM doc_end) ;;
         if (bad : bool) then err (lit "sequence terminator")
         else
           stop <- orM doc_end (is_err (ind level)) ;;
           if (stop : bool) then ret false
           else
             stop <- orM (is_err (sym (chr "-"))) (is_err bound) ;;
             if (stop : bool) then ret false
             else forward ;;; ret true
       end) ;;
    if (more : bool) then
      forward ;;;
      x <- or_else (scalar n (level + 1) false false) (err (lit "sequence item")) ;;
      seq_loop n level map (v ++ [x])
    else
      backward ;;; ret (YSeq v)
  end

with map_ (n : nat) (level : nat) (map flow : bool) {struct n} : M yaml :=
  (* lines 414-480 *)
  match n with
  | O => diverge
  | S n => map_loop n level map flow []
  end

with map_loop (n : nat) (level : nat) (map flow : bool) (m : list (node * node))
    {struct n} : M yaml :=
  match n with
  | O => diverge
  | S n =>
    forward ;;;
    (* [inl k]: go on with key k; [inr (Some y)]: return y; [inr None]: break *)
    ko <-
      (match m with
       | [] =>
         (if (map : bool) then gap true ;;; ind_define level
          else g <- is_ok (gap true) ;; if (g : bool) then ind level else ret tt) ;;;
         forward ;;;
         c <- is_ok complex_mapping ;;
         k <- (if (c : bool) then
                 forward ;;;
                 k <- or_else (scalar n (level + 1) true flow) (err (lit "map key")) ;;
                 g <- is_ok (gap true) ;;
                 (if (g : bool) then ind level else ret tt) ;;;
                 ret k
               else scalar_flow n (level + 1) flow) ;;
         bad <- orM (is_err (sym (chr ":"))) (is_err bound) ;;
         if (bad : bool) then ret (inr (Some (n_yaml k))) else ret (inl k)
       | _ =>
         bad <- andM (is_err (gap true)) (notM doc_end) ;;
         if (bad : bool) then err (lit "map terminator")
         else
           stop <- orM doc_end (is_err (ind level)) ;;
           if (stop : bool) then ret (inr None)
           else
             forward ;;;
             c <- is_ok complex_mapping ;;
             k <- (if (c : bool) then
                     forward ;;;
                     k <- or_else (scalar n (level + 1) true flow) (err (lit "map key")) ;;
                     g <- is_ok (gap true) ;;
                     (if (g : bool) then ind level else ret tt) ;;;
                     ret k
                   else or_else (scalar_flow n (level + 1) flow) (err (lit "map key"))) ;;
             bad <- orM (is_err (sym (chr ":"))) (is_err bound) ;;
             if (bad : bool) then err (lit "map splitter") else ret (inl k)
       end) ;;
    match ko with
    | inl k =>
      forward ;;;
      v <- or_else (scalar n (level + 1) true false) (err (lit "map value")) ;;
      map_loop n level map flow (m ++ [(k, v)])
    | inr (Some y) => ret y
    | inr None => backward ;;; build_map m
    end
  end.

(** Fuel for a whole document. *)
Definition fuel_doc (s : st) : nat := (20 * (List.length (p_doc s) + 2))%nat.

(** lines 181-191 [doc] *)
Definition doc (n : nat) : M node :=
  context (unwrap_or tt bound) ;;;
  forward ;;;
  modify (fun s => set_anchors (l_anchors s ++ [[]]) s) ;;;
  r <- scalar n 0 false false ;;
  unwrap_or 0%nat (gap true) ;;;
  unwrap_or tt (sym_seq (lit "...")) ;;;
  forward ;;;
  modify (fun s => set_doc_ind (l_doc_ind s + 1)%nat s) ;;;
  ret r.

(** lines 157-163: the directives *)
Fixpoint directives (n : nat) : M unit :=
  match n with
  | O => diverge
  | S n =>
    fun s =>
      match context directive s with
      | (ROk _, s') => directives n s'
      | (RErr Mismatch, s') => (ROk tt, s')
      | (RErr e, s') => (RErr e, s')
      | (RPanic, s') => (RPanic, s')
      | (RDiv, s') => (RDiv, s')
      end
  end.

(** lines 167-176: the following documents *)
Fixpoint docs_loop (k n : nat) (v : list node) : M (list node) :=
  match k with
  | O => diverge
  | S k =>
    unwrap_or 0%nat (gap true) ;;;
    fd <- food ;;
    match fd with
    | [] => ret v
    | _ =>
      e <- is_err (sym_seq (lit "---")) ;;
      if (e : bool) then err (lit "document splitter")
      else
        d <- doc n ;;
        docs_loop k n (v ++ [d])
    end
  end.

(** lines 156-178 [Loader::parse], with fuel [n] for every loop and call depth *)
Definition parse_fuel (n : nat) : M (list node) :=
  directives n ;;;
  unwrap_or 0%nat (gap true) ;;;
  unwrap_or tt (sym_seq (lit "---")) ;;;
  d <- doc n ;;
  docs_loop n n [d].

Definition load : M (list node) := fun s => parse_fuel (fuel_doc s) s.

(** lines 525-527 [parse], on the bytes of the document *)
Definition parse_bytes (hk : hasher) (d : bytes) : res (list node) :=
  fst (load (new_st hk false d)).
Definition parse (hk : hasher) (d : str) : res (list node) :=
  parse_bytes hk (utf8_encode d).

(** lines 543-546 [parse_cyclic] *)
Definition parse_cyclic (hk : hasher) (d : str) : res (list node * list anchors_t) :=
  match load (new_st hk true (utf8_encode d)) with
  | (ROk v, s) => ROk (v, l_anchors s)
  | (RErr e, _) => RErr e
  | (RPanic, _) => RPanic
  | (RDiv, _) => RDiv
  end.
