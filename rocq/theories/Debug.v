(** * Debug: the texts of [{:?}] and [{}]
    (src/yaml.rs:101-115, src/node.rs:447-451, src/parser/error.rs:36-45,
    src/serde/error.rs:12-36).  Only the plain form, not [{:#?}]. *)
From Verif Require Export Dumper.
Open Scope N_scope.

(** [f.debug_list()], as used by [Debug for Vec]: the items between brackets,
    separated by a comma and a space; and [f.debug_map()], as used by
    [Debug for LinkedHashMap]. *)
Fixpoint comma_sep (l : list str) : str :=
  match l with
  | [] => []
  | [x] => x
  | x :: r => x ++ lit ", " ++ comma_sep r
  end.

(** src/yaml.rs:101-115; a node (src/node.rs:447-451) is [Node] followed by its
    data; [debug_tuple(name).field(x).finish()] is [name(x)]. *)
Fixpoint debug_yaml (uni : N -> bool) (y : yaml) : str :=
  match y with
  | YNull => lit "Null"
  | YBool b => lit "Bool(" ++ (if b then lit "true" else lit "false") ++ lit ")"
  | YInt s => lit "Int(" ++ debug_str uni s ++ lit ")"
  | YFloat s => lit "Float(" ++ debug_str uni s ++ lit ")"
  | YStr s => lit "Str(" ++ debug_str uni s ++ lit ")"
  | YSeq l =>
    lit "Seq([" ++ comma_sep (List.map (fun n => match n with Node _ _ x => lit "Node" ++ debug_yaml uni x end) l) ++ lit "])"
  | YMap m =>
    lit "Map({" ++ comma_sep (List.map (fun kv => match kv with
      (Node _ _ k, Node _ _ x) => (lit "Node" ++ debug_yaml uni k) ++ lit ": " ++ (lit "Node" ++ debug_yaml uni x) end) m) ++ lit "})"
  | YAlias a => lit "Alias(" ++ debug_str uni a ++ lit ")"
  end.
(** src/node.rs:447-451 *)
Definition debug_node (uni : N -> bool) (n : node) : str := lit "Node" ++ debug_yaml uni (n_yaml n).

(** src/parser/error.rs:36-45 [Display for PError] *)
Definition display_perr (e : perr) : str :=
  match e with
  | Mismatch => lit "not matched"
  | Terminate name msg => lit "invalid " ++ name ++ lit ": " ++ [10; 10] ++ msg
  end.
(** src/serde/error.rs:12-36: [Display] is the derived [Debug] *)
Definition display_serde_error (uni : N -> bool) (msg : str) (pos : N) : str :=
  lit "SerdeError { msg: " ++ debug_str uni msg ++ lit ", pos: " ++ show_N pos ++ lit " }".
