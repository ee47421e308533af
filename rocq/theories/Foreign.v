(** * Foreign: nodes read from and written to other formats

    [Node] implements serde's [Deserialize] and [Serialize] for any format; here the
    other side is a tree of serde's data model. *)
From Verif Require Export Serde.
Open Scope N_scope.

(** What a format hands to a visitor (integers of up to 32 bits arrive as 64 bits, f32
    as f64, characters and byte strings of UTF-8 as text).  [SOther] is anything that
    [NodeVisitor] has no method for: 128-bit integers, bytes, newtypes, enums. *)
Inductive sdata : Type :=
| SUnit | SNone | SSome (d : sdata)
| SBool (b : bool) | SI64 (z : Z) | SU64 (z : Z) | SF64 (x : f64) | SStr (s : str)
| SSeq (l : list sdata) | SMap (l : list (sdata * sdata))
| SOther.

(** src/serde/de.rs:82-127, [NodeVisitor], [impl_visitor] (de.rs:9-40): the conversions
    of yaml.rs.  The error is one of the other format, which knows no place here. *)
Fixpoint node_of (show_f : f64 -> str) (hk : hasher) (d : sdata) : dres node :=
  match d with
  | SUnit | SNone => DOk (node_from YNull)
  | SSome d => node_of show_f hk d
  | SBool b => DOk (node_from (YBool b))
  | SI64 z | SU64 z => DOk (node_from (YInt (show_Z z)))
  | SF64 x => DOk (node_from (YFloat (show_f x)))
  | SStr s => DOk (node_from (YStr s))
  | SSeq l =>
    let! l' :=
      (fix go (l : list sdata) : dres (list node) :=
         match l with
         | [] => DOk []
         | d :: r => let! x := node_of show_f hk d in let! xs := go r in DOk (x :: xs)
         end) l in
    DOk (node_from (YSeq l'))
  | SMap l =>
    let! m :=
      (fix go (l : list (sdata * sdata)) (acc : list (node * node)) : dres (list (node * node)) :=
         match l with
         | [] => DOk acc
         | (k, v) :: r =>
           let! a := node_of show_f hk k in
           let! b := node_of show_f hk v in
           let! acc' := of_mp (map_insert hk a b acc) in
           go r acc'
         end) l [] in
    let! m' := of_mp (map_collect hk m) in
    DOk (node_from (YMap m'))
  | SOther => DErr 0
  end.

(** src/serde/ser_node.rs:8-30 [Serialize for Node], into any format *)
Fixpoint data_of (y : yaml) : dres sdata :=
  match y with
  | YNull => DOk SUnit
  | YBool b => DOk (SBool b)
  | YInt s => match to_i64 s with Some z => DOk (SI64 z) | None => DPanic end
  | YFloat s => match to_f64 s with Some x => DOk (SF64 x) | None => DPanic end
  | YStr s => DOk (SStr s)
  | YSeq l =>
    let! l' :=
      (fix go (l : list node) : dres (list sdata) :=
         match l with
         | [] => DOk []
         | Node _ _ y :: r => let! x := data_of y in let! xs := go r in DOk (x :: xs)
         end) l in
    DOk (SSeq l')
  | YMap m =>
    let! m' :=
      (fix go (m : list (node * node)) : dres (list (sdata * sdata)) :=
         match m with
         | [] => DOk []
         | (Node _ _ y1, Node _ _ y2) :: r =>
           let! k := data_of y1 in let! v := data_of y2 in let! xs := go r in DOk ((k, v) :: xs)
         end) m in
    DOk (SMap m')
  | YAlias _ => DErr 0
  end.
