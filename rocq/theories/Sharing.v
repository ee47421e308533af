(** * Sharing: nodes with the addresses of their data (src/repr.rs).

    A [Node] holds an [Rc<Yaml>] or [Arc<Yaml>]; cloning a node copies the
    pointer (src/node.rs:453-461), so nodes may share data.  Everywhere else in
    the model a node is the value it points to; here the pointer is kept, because
    one operation of the standard library looks at it: for [T: Eq],
    [Rc<T> == Rc<T>] is [ptr_eq(a, b) || **a == **b] (and the same for [Arc]). *)
From Verif Require Export Yaml.
Open Scope N_scope.

(** src/yaml.rs:83-100, src/node.rs:116-121 with the address of the data.  The
    reference counts themselves are not modelled. *)
Inductive syaml : Type :=
| SNull
| SBool (b : bool)
| SInt (s : str)
| SFloat (s : str)
| SStr (s : str)
| SSeq (l : list snode)
| SMap (m : list (snode * snode))
| SAlias (a : str)
with snode : Type :=
| SNode (pos : N) (tag : str) (addr : nat) (y : syaml).
Definition s_addr (n : snode) : nat := match n with SNode _ _ a _ => a end.
Definition s_yaml (n : snode) : syaml := match n with SNode _ _ _ y => y end.

(** the node without its addresses *)
Fixpoint value (y : syaml) : yaml :=
  match y with
  | SNull => YNull
  | SBool b => YBool b
  | SInt s => YInt s
  | SFloat s => YFloat s
  | SStr s => YStr s
  | SSeq l => YSeq (List.map (fun n => match n with SNode p t _ x => Node p t (value x) end) l)
  | SMap m => YMap (List.map (fun kv => match kv with (SNode p t _ x, SNode p' t' _ x') => (Node p t (value x), Node p' t' (value x')) end) m)
  | SAlias a => YAlias a
  end.
Definition node_value (n : snode) : node := match n with SNode p t _ y => Node p t (value y) end.

(** src/yaml.rs:168-190 and src/node.rs:469-473 with [Rc]'s equality *)
Fixpoint s_yaml_eq (a b : syaml) {struct a} : may_panic bool :=
  match a, b with
  | SSeq l, SSeq l' =>
    if Nat.eqb (List.length l) (List.length l') then
      (fix go (l l' : list snode) : may_panic bool :=
         match l, l' with
         | SNode _ _ i x :: r, SNode _ _ j y :: r' =>
           match (if Nat.eqb i j then Some true else s_yaml_eq x y) with
           | None => None
           | Some false => Some false
           | Some true => go r r'
           end
         | _, _ => Some true
         end) l l'
    else Some false
  | SMap m, SMap m' =>
    if Nat.eqb (List.length m) (List.length m') then
      (fix go (l l' : list (snode * snode)) : may_panic bool :=
         match l, l' with
         | (SNode _ _ i k, SNode _ _ j x) :: r, (SNode _ _ i' k', SNode _ _ j' y) :: r' =>
           match (if Nat.eqb i i' then Some true else s_yaml_eq k k') with
           | None => None
           | Some false => Some false
           | Some true =>
             match (if Nat.eqb j j' then Some true else s_yaml_eq x y) with
             | None => None
             | Some false => Some false
             | Some true => go r r'
             end
           end
         | _, _ => Some true
         end) m m'
    else Some false
  | (SSeq _ | SMap _), _ | _, (SSeq _ | SMap _) => Some false
  | _, _ => yaml_eq (value a) (value b)
  end.
Definition s_node_eq (a b : snode) : may_panic bool :=
  if Nat.eqb (s_addr a) (s_addr b) then Some true else s_yaml_eq (s_yaml a) (s_yaml b).

(** [LinkedHashMap::get], [insert] and [collect] as in Yaml.v, with this equality.
    The hash does not look at addresses ([Rc]'s [Hash] is that of the data). *)
Definition s_key_match (hk : hasher) (k k' : snode) : may_panic bool :=
  if hk (hash_stream (value (s_yaml k))) =? hk (hash_stream (value (s_yaml k')))
  then s_node_eq k k' else Some false.
Fixpoint s_map_get (hk : hasher) (k : snode) (m : list (snode * snode)) : may_panic (option snode) :=
  match m with
  | [] => Some None
  | (k', v) :: r =>
    match s_key_match hk k k' with
    | None => None
    | Some true => Some (Some v)
    | Some false => s_map_get hk k r
    end
  end.
Fixpoint s_map_take (hk : hasher) (k : snode) (m : list (snode * snode))
  : may_panic (option snode * list (snode * snode)) :=
  match m with
  | [] => Some (None, [])
  | (k', v) :: r =>
    match s_key_match hk k k' with
    | None => None
    | Some true => Some (Some k', r)
    | Some false =>
      match s_map_take hk k r with
      | None => None
      | Some (o, r') => Some (o, (k', v) :: r')
      end
    end
  end.
Definition s_map_insert (hk : hasher) (k v : snode) (m : list (snode * snode)) : may_panic (list (snode * snode)) :=
  match s_map_take hk k m with
  | None => None
  | Some (None, r) => Some (r ++ [(k, v)])
  | Some (Some k', r) => Some (r ++ [(k', v)])
  end.
Fixpoint s_map_extend (hk : hasher) (m l : list (snode * snode)) : may_panic (list (snode * snode)) :=
  match l with
  | [] => Some m
  | (k, v) :: r =>
    match s_map_insert hk k v m with
    | None => None
    | Some m' => s_map_extend hk m' r
    end
  end.
Definition s_map_collect (hk : hasher) (l : list (snode * snode)) := s_map_extend hk [] l.
