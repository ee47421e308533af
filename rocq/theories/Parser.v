(** * Parser: src/indicator.rs, src/parser/error.rs and src/parser/base/mod.rs *)
From Verif Require Export Yaml.
Open Scope N_scope.

(** src/parser/error.rs:11-21 [PError].  [name] is a [&'static str]. *)
Inductive perr : Type :=
| Mismatch
| Terminate (name : str) (msg : str).

(** Outcome of running a piece of parser code: a Rust [Result], a panic, or no
    answer.  [RDiv] is reported only when a loop has used up its fuel; the
    adequacy theorems (C49, PropFuel.v) show that the fuel given below always suffices
    unless the Rust loop really never ends. *)
Inductive res (A : Type) : Type :=
| ROk (a : A)
| RErr (e : perr)
| RPanic
| RDiv.
Arguments ROk {A} a.
Arguments RErr {A} e.
Arguments RPanic {A}.
Arguments RDiv {A}.

(** src/parser/base/mod.rs:22-32 [Parser] together with the remaining fields of
    [Loader] (src/parser/mod.rs:102-108), which dereferences to it.
    Simplification: one record for both; [p_hash] is the hasher of the maps that
    get built (no field in Rust, the [BuildHasher] inside the maps). *)
Record st : Type := mkSt {
  p_doc : bytes;
  p_indent : list nat;
  p_consumed : N;
  p_version : bool;
  p_tag : list (str * str);
  p_pos : nat;
  p_eaten : nat;
  l_cyclic : bool;
  l_anchors : list anchors_t;
  l_doc_ind : nat;
  p_hash : hasher
}.

Definition set_pos (x : nat) (s : st) : st :=
  mkSt (p_doc s) (p_indent s) (p_consumed s) (p_version s) (p_tag s) x (p_eaten s)
       (l_cyclic s) (l_anchors s) (l_doc_ind s) (p_hash s).
Definition set_eaten (x : nat) (s : st) : st :=
  mkSt (p_doc s) (p_indent s) (p_consumed s) (p_version s) (p_tag s) (p_pos s) x
       (l_cyclic s) (l_anchors s) (l_doc_ind s) (p_hash s).
Definition set_indent (x : list nat) (s : st) : st :=
  mkSt (p_doc s) x (p_consumed s) (p_version s) (p_tag s) (p_pos s) (p_eaten s)
       (l_cyclic s) (l_anchors s) (l_doc_ind s) (p_hash s).
Definition set_consumed (x : N) (s : st) : st :=
  mkSt (p_doc s) (p_indent s) x (p_version s) (p_tag s) (p_pos s) (p_eaten s)
       (l_cyclic s) (l_anchors s) (l_doc_ind s) (p_hash s).
Definition set_version (x : bool) (s : st) : st :=
  mkSt (p_doc s) (p_indent s) (p_consumed s) x (p_tag s) (p_pos s) (p_eaten s)
       (l_cyclic s) (l_anchors s) (l_doc_ind s) (p_hash s).
Definition set_tag (x : list (str * str)) (s : st) : st :=
  mkSt (p_doc s) (p_indent s) (p_consumed s) (p_version s) x (p_pos s) (p_eaten s)
       (l_cyclic s) (l_anchors s) (l_doc_ind s) (p_hash s).
Definition set_anchors (x : list anchors_t) (s : st) : st :=
  mkSt (p_doc s) (p_indent s) (p_consumed s) (p_version s) (p_tag s) (p_pos s) (p_eaten s)
       (l_cyclic s) x (l_doc_ind s) (p_hash s).
Definition set_doc_ind (x : nat) (s : st) : st :=
  mkSt (p_doc s) (p_indent s) (p_consumed s) (p_version s) (p_tag s) (p_pos s) (p_eaten s)
       (l_cyclic s) (l_anchors s) x (p_hash s).

(** ** The monad: [&mut self] methods returning a [Result].
    The state survives an [Err], exactly as [&mut self] does. *)
Definition M (A : Type) := st -> res A * st.

Definition ret {A} (a : A) : M A := fun s => (ROk a, s).
Definition fail {A} (e : perr) : M A := fun s => (RErr e, s).
Definition panic {A} : M A := fun s => (RPanic, s).
Definition diverge {A} : M A := fun s => (RDiv, s).
(** the [?] operator *)
Definition bind {A B} (m : M A) (f : A -> M B) : M B :=
  fun s =>
    match m s with
    | (ROk a, s') => f a s'
    | (RErr e, s') => (RErr e, s')
    | (RPanic, s') => (RPanic, s')
    | (RDiv, s') => (RDiv, s')
    end.
Notation "x <- m ;; k" := (bind m (fun x => k))
  (at level 61, m at next level, right associativity).
Notation "m ;;; k" := (bind m (fun _ => k)) (at level 61, right associativity).

Definition gets {A} (f : st -> A) : M A := fun s => (ROk (f s), s).
Definition modify (f : st -> st) : M unit := fun s => (ROk tt, f s).

(** [r.is_ok()] *)
Definition is_ok {A} (m : M A) : M bool :=
  fun s =>
    match m s with
    | (ROk _, s') => (ROk true, s')
    | (RErr _, s') => (ROk false, s')
    | (RPanic, s') => (RPanic, s')
    | (RDiv, s') => (RDiv, s')
    end.
(** [r.is_err()] *)
Definition is_err {A} (m : M A) : M bool := b <- is_ok m ;; ret (negb b).
(** [if let Ok(x) = r] / [r.ok()] *)
Definition ok {A} (m : M A) : M (option A) :=
  fun s =>
    match m s with
    | (ROk a, s') => (ROk (Some a), s')
    | (RErr _, s') => (ROk None, s')
    | (RPanic, s') => (RPanic, s')
    | (RDiv, s') => (RDiv, s')
    end.
(** [r.unwrap_or_default()] *)
Definition unwrap_or {A} (d : A) (m : M A) : M A :=
  o <- ok m ;; ret (match o with Some a => a | None => d end).
(** src/parser/error.rs:26-34 with [or_else]: [r.or_else(|e| e.or(f))] *)
Definition or_else {A} (m f : M A) : M A :=
  fun s =>
    match m s with
    | (RErr Mismatch, s') => f s'
    | r => r
    end.
(** short-circuiting [a || b] and [a && b] on effectful conditions *)
Definition orM (a b : M bool) : M bool := x <- a ;; if x then ret true else b.
Definition andM (a b : M bool) : M bool := x <- a ;; if x then b else ret false.
Definition notM (a : M bool) : M bool := x <- a ;; ret (negb x).

(** ** src/indicator.rs:23-41 [indicated_msg]; [None] is [unreachable!()].
    [line] counts from 0. *)
Fixpoint indicated_loop (pieces : list bytes) (line pos : N) : option str :=
  match pieces with
  | [] => None
  | l :: r =>
    let full := N.of_nat (List.length l) + 1 in
    if pos <? full then
      Some (show_N (line + 1) ++ lit ":" ++ show_N (pos + 1) ++ [10]
            ++ utf8_lossy l ++ [10] ++ repeat_str (N.to_nat pos) [32] ++ lit "^")
    else indicated_loop r (line + 1) (pos - full)
  end.
Definition indicated_msg (doc : bytes) (pos : N) : option str :=
  indicated_loop (split_nl doc) 0 pos.

(** src/indicator.rs:58-60 *)
Definition indicated_msg_file (path : str) (doc : bytes) (pos : N) : option str :=
  option_map (fun m => path ++ lit ":" ++ m) (indicated_msg doc pos).

(** ** src/parser/base/mod.rs *)

(** lines 8-18 [TakeOpt] *)
Inductive take_opt : Type :=
| One
| Range (lo hi : nat)
| More (lo : nat).

(** lines 34-49, 54-61: [Parser::new] (in a fresh [Loader], src/parser/mod.rs:112-119) *)
Definition init_tags : list (str * str) :=
  bt_insert (lit "!!") tag_prefix (bt_insert (lit "!") [] []).
Definition new_st (hk : hasher) (cyclic : bool) (doc : bytes) : st :=
  mkSt doc [0%nat] 0 false init_tags 0 0 cyclic [] 0 hk.

(** lines 64-66 [food]: panics when [pos] is past the end *)
Definition food : M bytes :=
  fun s => if Nat.leb (p_pos s) (List.length (p_doc s))
           then (ROk (skipn (p_pos s) (p_doc s)), s) else (RPanic, s).

(** lines 69-71 [food_str] *)
Definition food_str : M str :=
  fun s => if Nat.leb (p_pos s) (List.length (p_doc s))
           then (ROk (utf8_lossy (skipn (p_pos s) (p_doc s))), s) else (RPanic, s).

(** [&doc[a..b]] for a < b *)
Definition slice (a b : nat) (d : bytes) : bytes := firstn (b - a) (skipn a d).

(** lines 74-80 [text] *)
Definition text : M str :=
  fun s =>
    if Nat.ltb (p_eaten s) (p_pos s) then
      if Nat.leb (p_pos s) (List.length (p_doc s))
      then (ROk (utf8_lossy (slice (p_eaten s) (p_pos s) (p_doc s))), s)
      else (RPanic, s)
    else (ROk [], s).

(** lines 94-96 [indicator] *)
Definition indicator_of (s : st) : N := p_consumed s + N.of_nat (p_pos s).

(** lines 99-104 [err] *)
Definition err {A} (name : str) : M A :=
  fun s => match indicated_msg (p_doc s) (indicator_of s) with
           | Some msg => (RErr (Terminate name msg), s)
           | None => (RPanic, s)
           end.

(** lines 115-117 [forward] *)
Definition forward : M unit := modify (fun s => set_eaten (p_pos s) s).
(** lines 120-122 [backward] *)
Definition backward : M unit := modify (fun s => set_pos (p_eaten s) s).
(** lines 125-127 [back]; underflow is a panic (debug build; the release build
    wraps and panics at the next slice) *)
Definition back (n : nat) : M unit :=
  fun s => if Nat.leb n (p_pos s) then (ROk tt, set_pos (p_pos s - n) s)
           else (RPanic, s).

(** lines 107-112 [consume] *)
Definition consume : M unit :=
  forward ;;;
  modify (fun s => set_consumed (p_consumed s + N.of_nat (p_eaten s)) s) ;;;
  modify (set_eaten 0) ;;;
  backward.

(** lines 150-188 [take_while]: the [for] loop, returning how many bytes were
    taken *)
Fixpoint take_loop (f : N -> bool) (opt : take_opt) (counter : nat) (l : bytes) : nat :=
  match l with
  | [] => counter
  | c :: r =>
    if negb (f c) then counter
    else
      let counter := S counter in
      match opt with
      | One => counter
      | Range _ m => if Nat.eqb counter m then counter else take_loop f opt counter r
      | More _ => take_loop f opt counter r
      end
  end.
Definition take_min (opt : take_opt) : option nat :=
  match opt with One => None | Range c _ => Some c | More c => Some c end.
Definition take_while (f : N -> bool) (opt : take_opt) : M unit :=
  fd <- food ;;
  let counter := take_loop f opt 0 fd in
  modify (fun s => set_pos (p_pos s + counter) s) ;;;
  if Nat.eqb counter 0 then
    match take_min opt with
    | Some O => ret tt
    | _ => backward ;;; fail Mismatch
    end
  else
    match take_min opt with
    | Some c => if Nat.ltb counter c then backward ;;; fail Mismatch else ret tt
    | None => ret tt
    end.

(** lines 218-227 [not_in], 213-215 [is_in] *)
Fixpoint not_in (set : bytes) (c : N) : bool :=
  match set with
  | [] => true
  | x :: r => if c =? x then false else not_in r c
  end.
Definition is_in (set : bytes) (c : N) : bool := negb (not_in set c).

(** lines 135-137 [sym_set], 130-132 [sym], 140-145 [sym_seq] *)
Definition sym_set (set : bytes) : M unit := take_while (is_in set) One.
Definition sym (c : N) : M unit := sym_set [c].
Fixpoint sym_seq (cs : bytes) : M unit :=
  match cs with
  | [] => ret tt
  | c :: r => sym c ;;; sym_seq r
  end.

(** lines 191-198 [count] *)
Definition count {A} (f : M A) : M nat :=
  p <- gets p_pos ;;
  f ;;;
  fun s => if Nat.leb p (p_pos s) then (ROk (p_pos s - p)%nat, s) else (RPanic, s).

(** lines 201-210 [context]: the checkpoint is restored whatever [f] returns *)
Definition context {A} (f : M A) : M A :=
  fun s =>
    let e := p_eaten s in
    let '(r, s') := f (set_eaten (p_pos s) s) in
    (r, set_eaten e s').

(** lines 230-243 [ind] *)
Fixpoint spaces (n : nat) : M unit :=
  match n with O => ret tt | S n' => sym 32 ;;; spaces n' end.
Definition list_sum (l : list nat) : nat := fold_right Nat.add 0%nat l.
Definition ind_norm (level : nat) (l : list nat) : list nat :=
  if Nat.leb (List.length l) level
  then l ++ repeat 2%nat (level - List.length l + 1)
  else firstn (level + 1) l.
Definition ind (level : nat) : M unit :=
  modify (fun s => set_indent (ind_norm level (p_indent s)) s) ;;;
  n <- gets (fun s => list_sum (firstn (level + 1) (p_indent s))) ;;
  spaces n.

(** lines 58-61 [with_doc]: attach a document; the cursor stays *)
Definition attach_doc (doc : bytes) (s : st) : st :=
  mkSt doc (p_indent s) (p_consumed s) (p_version s) (p_tag s) (p_pos s) (p_eaten s)
       (l_cyclic s) (l_anchors s) (l_doc_ind s) (p_hash s).
(** lines 89-91 [pos]: set the starting point *)
Definition start_at (p : nat) (s : st) : st := set_eaten p (set_pos p s).
