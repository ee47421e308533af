(** * Build: making nodes by hand.  Models the conversions of src/yaml.rs:13-30,
    193-227 and src/node.rs:26-34, 123-147, 509-522, and the [node!] macro of
    src/lib.rs:88-120. *)
From Verif Require Export Dumper.
Open Scope N_scope.

(** what an expression in [node!] may be: anything with a conversion into [Yaml],
    a [Yaml] or a [Node].  Simplification: [Vec] and [LinkedHashMap] arguments
    are [AYaml (YSeq _)] and [AYaml (YMap _)], and the four text types are one
    (their [to_string] is the text itself).  [From<f32>] is in Single.v ([ser_f32]);
    the text of an [f64] is a parameter. *)
Inductive arg : Type :=
| AUnit | ABool (b : bool) | AInteger (z : Z) | AF64 (f : f64) | AText (s : str) | AChar (c : N)
| AYaml (y : yaml) | ANode (n : node).

Section Build.
Variable show_f : f64 -> str.
Variable hk : hasher.

(** src/yaml.rs:193-222 [From<_> for Yaml] *)
Definition yaml_into (a : arg) : yaml :=
  match a with
  | AUnit => YNull
  | ABool b => YBool b
  | AInteger z => YInt (show_Z z)
  | AF64 f => YFloat (show_f f)
  | AText s => YStr s
  | AChar c => YStr [c]
  | AYaml y => y
  | ANode n => n_yaml n
  end.
(** src/node.rs:124-137 [Node::new], [Node::new_repr] *)
Definition node_new (a : arg) (pos : N) (tag : str) : node := Node pos tag (yaml_into a).
(** src/node.rs:509-517 [From<Y> for Node]; a node is passed on as it is (the
    reflexive [From]), src/lib.rs:109-111 *)
Definition node_into (a : arg) : node := match a with ANode n => n | _ => node_new a 0 [] end.
(** src/yaml.rs:23-30, 224-227, src/node.rs:26-34, 519-522 [FromIterator] *)
Definition node_from_iter (l : list node) : node := node_new (AYaml (YSeq l)) 0 [].
Definition node_from_pairs (l : list (node * node)) : may_panic node :=
  match map_collect hk l with Some m => Some (node_new (AYaml (YMap m)) 0 []) | None => None end.
(** src/lib.rs:88-120 [node!]: [[v; n]], [[v, ..]], [{k => v, ..}], [*name] and an
    expression.  The elements of brackets and braces are expressions. *)
Inductive form : Type :=
| FRepeat (v : arg) (n : nat) | FList (l : list arg) | FEntries (l : list (arg * arg)) | FName (a : str) | FValue (v : arg).
Definition node_macro (f : form) : may_panic node :=
  match f with
  | FRepeat v n => Some (node_into (AYaml (YSeq (repeat (node_into v) n))))
  | FList l => Some (node_into (AYaml (YSeq (List.map node_into l))))
  | FEntries l =>
    match map_collect hk (List.map (fun kv => (node_into (fst kv), node_into (snd kv))) l) with
    | Some m => Some (node_into (AYaml (YMap m)))
    | None => None
    end
  | FName a => Some (node_into (AYaml (YAlias a)))
  | FValue v => Some (node_into v)
  end.
End Build.
