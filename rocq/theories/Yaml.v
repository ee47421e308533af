(** * Yaml: the data types [Yaml], [Node], their equality, hashing, maps and
    accessors.  Models src/yaml.rs and src/node.rs.

    Not modelled: the reference counters (src/repr.rs) — [R::Rc] is the value it
    points to, so [Rc]/[Arc] nodes are the same model value, sharing and
    [strong_count] are invisible, and the pointer-equality shortcut of
    [Rc == Rc] (which only turns a panicking comparison of a node with itself
    into [true]: C55, Sharing.v) is absent. *)
From Verif Require Export Num.
Open Scope N_scope.

(** src/yaml.rs:83-100 [Yaml] and src/node.rs:116-121 [Node].  A [Map] is a
    [ritelinked::LinkedHashMap]: its entries in iteration order. *)
Inductive yaml : Type :=
| YNull
| YBool (b : bool)
| YInt (s : str)
| YFloat (s : str)
| YStr (s : str)
| YSeq (l : list node)
| YMap (m : list (node * node))
| YAlias (a : str)
with node : Type :=
| Node (pos : N) (tag : str) (y : yaml).

(** src/node.rs:150 [pos], the stored tag, src/node.rs:175 [yaml]. *)
Definition n_pos (n : node) : N := match n with Node p _ _ => p end.
Definition n_rawtag (n : node) : str := match n with Node _ t _ => t end.
Definition n_yaml (n : node) : yaml := match n with Node _ _ y => y end.

(** Outcome of a function that may panic: [None] is a panic. *)
Definition may_panic (A : Type) := option A.

(** ** Equality: src/yaml.rs:168-190 (and src/node.rs:469-473: the node's
    position and tag are ignored).  [None] is the panic of [unwrap] on an
    unreadable number.  [Vec == Vec]: length first, then elements left to right,
    stopping at the first difference; [LinkedHashMap == LinkedHashMap]: length,
    then entries pairwise in iteration order, key before value. *)
Fixpoint yaml_eq (a b : yaml) {struct a} : may_panic bool :=
  match a, b with
  | YNull, YNull => Some true
  | YBool x, YBool y => Some (Bool.eqb x y)
  | YInt s, YInt t =>
    match to_i64 s with
    | None => None
    | Some x => match to_i64 t with
                | None => None
                | Some y => Some (x =? y)%Z
                end
    end
  | YFloat s, YFloat t =>
    match to_f64 s with
    | None => None
    | Some x => match to_f64 t with
                | None => None
                | Some y => Some (if f_is_nan x && f_is_nan y then true else f_eqb x y)
                end
    end
  | YStr s, YStr t => Some (str_eqb s t)
  | YSeq l, YSeq l' =>
    if Nat.eqb (List.length l) (List.length l') then
      (fix go (l l' : list node) : may_panic bool :=
         match l, l' with
         | Node _ _ x :: r, Node _ _ y :: r' =>
           match yaml_eq x y with
           | None => None
           | Some false => Some false
           | Some true => go r r'
           end
         | _, _ => Some true
         end) l l'
    else Some false
  | YMap m, YMap m' =>
    if Nat.eqb (List.length m) (List.length m') then
      (fix go (l l' : list (node * node)) : may_panic bool :=
         match l, l' with
         | (Node _ _ k, Node _ _ x) :: r, (Node _ _ k', Node _ _ y) :: r' =>
           match yaml_eq k k' with
           | None => None
           | Some false => Some false
           | Some true =>
             match yaml_eq x y with
             | None => None
             | Some false => Some false
             | Some true => go r r'
             end
           end
         | _, _ => Some true
         end) m m'
    else Some false
  | YAlias s, YAlias t => Some (str_eqb s t)
  | _, _ => Some false
  end.

(** src/node.rs:469-473 *)
Definition node_eq (a b : node) : may_panic bool := yaml_eq (n_yaml a) (n_yaml b).

(** ** Hash: src/yaml.rs:132-166, src/node.rs:463-467.

    The sequence of values written to the [Hasher]: a variant byte, then the
    payload.  [str::hash] writes the UTF-8 bytes and 0xff; [Vec::hash] writes the
    length, then the elements; [LinkedHashMap::hash] writes key and value of
    each entry in order. *)
Fixpoint hash_stream (y : yaml) : list N :=
  match y with
  | YNull => [1]
  | YBool b => [2; if b then 1 else 0]
  | YInt s => 3 :: utf8_encode s ++ [255]
  | YFloat s => 4 :: utf8_encode s ++ [255]
  | YStr s => 5 :: utf8_encode s ++ [255]
  | YSeq l =>
    6 :: N.of_nat (List.length l)
      :: (fix go (l : list node) : list N :=
            match l with
            | Node _ _ x :: r => hash_stream x ++ go r
            | [] => []
            end) l
  | YMap m =>
    7 :: (fix go (m : list (node * node)) : list N :=
            match m with
            | (Node _ _ k, Node _ _ x) :: r => hash_stream k ++ hash_stream x ++ go r
            | [] => []
            end) m
  | YAlias s => 8 :: utf8_encode s ++ [255]
  end.

(** ** The map type: [ritelinked::LinkedHashMap<Node, Node>] (src/yaml.rs:40)

    External crate, modelled from its documentation: an entry is found when its
    key has the same hash and compares equal; [insert] on a present key keeps
    the stored key, replaces the value and moves the entry to the back; on an
    absent key it appends.  The hasher is an arbitrary function [hk] of the
    written stream, so every theorem holds for every hasher, collisions
    included.  Simplification: hashbrown compares the keys whose 7-bit tags agree
    in the groups it probes, so a key that is equal but hashes differently (a
    number written in another way) may also be found, depending on the size of
    the table; here it is found only if [hk] gives it the same value. *)
Definition hasher := list N -> N.

Definition key_match (hk : hasher) (k k' : node) : may_panic bool :=
  if hk (hash_stream (n_yaml k)) =? hk (hash_stream (n_yaml k'))
  then node_eq k k' else Some false.

(** [LinkedHashMap::get] *)
Fixpoint map_get (hk : hasher) (k : node) (m : list (node * node))
  : may_panic (option node) :=
  match m with
  | [] => Some None
  | (k', v) :: r =>
    match key_match hk k k' with
    | None => None
    | Some true => Some (Some v)
    | Some false => map_get hk k r
    end
  end.

(** Take the entry of [k] out: the stored key (if any) and the other entries. *)
Fixpoint map_take (hk : hasher) (k : node) (m : list (node * node))
  : may_panic (option node * list (node * node)) :=
  match m with
  | [] => Some (None, [])
  | (k', v) :: r =>
    match key_match hk k k' with
    | None => None
    | Some true => Some (Some k', r)
    | Some false =>
      match map_take hk k r with
      | None => None
      | Some (o, r') => Some (o, (k', v) :: r')
      end
    end
  end.

(** [LinkedHashMap::insert] *)
Definition map_insert (hk : hasher) (k v : node) (m : list (node * node))
  : may_panic (list (node * node)) :=
  match map_take hk k m with
  | None => None
  | Some (None, r) => Some (r ++ [(k, v)])
  | Some (Some k', r) => Some (r ++ [(k', v)])
  end.

(** [FromIterator<(Node, Node)>]: insert the pairs one by one
    (src/yaml.rs:26-28, 224-227). *)
Fixpoint map_extend (hk : hasher) (m l : list (node * node))
  : may_panic (list (node * node)) :=
  match l with
  | [] => Some m
  | (k, v) :: r =>
    match map_insert hk k v m with
    | None => None
    | Some m' => map_extend hk m' r
    end
  end.
Definition map_collect (hk : hasher) (l : list (node * node)) := map_extend hk [] l.

(** ** Construction: [From] conversions, src/yaml.rs:194-210, src/node.rs:509-517 *)
Definition node_from (y : yaml) : node := Node 0 [] y.

(** ** Accessors of src/node.rs.  [inl v] is [Ok v], [inr p] is [Err p]. *)
Definition tag_prefix : str := lit "tag:yaml.org,2002:".

(** src/node.rs:158-172 [Node::tag] *)
Definition node_tag (n : node) : str :=
  match n_rawtag n with
  | [] =>
    match n_yaml n with
    | YNull => lit "tag:yaml.org,2002:null"
    | YBool _ => lit "tag:yaml.org,2002:bool"
    | YInt _ => lit "tag:yaml.org,2002:int"
    | YFloat _ => lit "tag:yaml.org,2002:float"
    | YStr _ => lit "tag:yaml.org,2002:str"
    | YSeq _ => lit "tag:yaml.org,2002:seq"
    | YMap _ => lit "tag:yaml.org,2002:map"
    | YAlias _ => []
    end
  | t => t
  end.

(** src/node.rs:206-208 [is_null] *)
Definition is_null (n : node) : bool :=
  match yaml_eq (n_yaml n) YNull with Some b => b | None => false end.

(** src/node.rs:217-222 [as_int] *)
Definition as_int (n : node) : Z + N :=
  match n_yaml n with
  | YInt s => match to_i64 s with Some z => inl z | None => inr (n_pos n) end
  | _ => inr (n_pos n)
  end.

(** src/node.rs:231-236 [as_float] *)
Definition as_float (n : node) : f64 + N :=
  match n_yaml n with
  | YFloat s => match to_f64 s with Some z => inl z | None => inr (n_pos n) end
  | _ => inr (n_pos n)
  end.

(** src/node.rs:246-252 [as_number] *)
Definition as_number (n : node) : f64 + N :=
  match n_yaml n with
  | YInt s => match to_i64 s with Some z => inl (f64_of_Z z) | None => inr (n_pos n) end
  | YFloat s => match to_f64 s with Some z => inl z | None => inr (n_pos n) end
  | _ => inr (n_pos n)
  end.

(** src/node.rs:262 [as_bool] (macro at 11-24) *)
Definition as_bool (n : node) : bool + N :=
  match n_yaml n with YBool b => inl b | _ => inr (n_pos n) end.

(** src/node.rs:275 [as_str]: null reads as the empty string *)
Definition as_str (n : node) : str + N :=
  match n_yaml n with
  | YStr s => inl s
  | YNull => inl []
  | _ => inr (n_pos n)
  end.

(** src/node.rs:288 [as_seq] *)
Definition as_seq (n : node) : list node + N :=
  match n_yaml n with YSeq l => inl l | _ => inr (n_pos n) end.

(** src/node.rs:302 [as_map] *)
Definition as_map (n : node) : list (node * node) + N :=
  match n_yaml n with YMap m => inl m | _ => inr (n_pos n) end.

(** src/node.rs:319-327 [as_value] *)
Definition as_value (n : node) : str + N :=
  match n_yaml n with
  | YStr s | YInt s | YFloat s => inl s
  | YBool true => inl (lit "true")
  | YBool false => inl (lit "false")
  | YNull => inl []
  | _ => inr (n_pos n)
  end.

Definition anchors_t := list (str * node).

(** src/node.rs:341-347 [as_anchor] *)
Definition as_anchor (n : node) (an : anchors_t) : node + N :=
  match n_yaml n with
  | YAlias a => match bt_get a an with Some m => inl m | None => inr (n_pos n) end
  | _ => inl n
  end.

(** src/node.rs:361-367 [get]; outer [None] is a panic inside key comparison *)
Definition node_get (hk : hasher) (n key : node) : may_panic (node + N) :=
  match n_yaml n with
  | YMap m =>
    match map_get hk key m with
    | None => None
    | Some (Some v) => Some (inl v)
    | Some None => Some (inr (n_pos n))
    end
  | _ => Some (inr (n_pos n))
  end.

(** src/node.rs:407-426 [get_default] *)
Definition node_get_default {A} (hk : hasher) (n key : node) (default : A)
    (factory : node -> A + N) : may_panic (A + N) :=
  match n_yaml n with
  | YMap m =>
    match map_get hk key m with
    | None => None
    | Some (Some v) => Some (factory v)
    | Some None => Some (inl default)
    end
  | _ => Some (inr (n_pos n))
  end.

(** src/node.rs:438-444 [get_ind] *)
Definition get_ind (n : node) (i : nat) : node + N :=
  match n_yaml n with
  | YSeq l => match nth_error l i with Some v => inl v | None => inr (n_pos n) end
  | _ => inr (n_pos n)
  end.

(** src/node.rs:480-490 [Index<Ind>]: [None] is a panic *)
Definition index_ind (n : node) (i : nat) : may_panic node :=
  match n_yaml n with
  | YSeq l => nth_error l i
  | _ => None
  end.

(** src/node.rs:492-507 [Index<I>]: [None] is a panic *)
Definition index_key (hk : hasher) (n key : node) : may_panic node :=
  match n_yaml n with
  | YMap m => match map_get hk key m with Some (Some v) => Some v | _ => None end
  | _ => None
  end.

(** src/node.rs:140-147 [set_yaml]/[set_repr] *)
Definition set_yaml (n : node) (y : yaml) : node :=
  match n with Node p t _ => Node p t y end.
