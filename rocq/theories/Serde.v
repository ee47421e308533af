(** * Serde: src/serde/ser.rs, de.rs, ser_node.rs, error.rs, inline_list.rs,
    optional.rs, stringify.rs

    The crate implements one [Serializer] (to [Node]) and one [Deserializer]
    (from [Node]).  What they are asked to do comes from the [Serialize] and
    [Deserialize] implementations of the user's type (derived, or serde's own).
    [ty] is a universe of such types; [ser]/[de] say which method of the crate
    each type calls and what that method does.  The parts that are serde's
    (derive macro, impls for [Vec], tuples, [Option], maps) are modelled from
    serde's documentation and generated code: they call the crate's methods in
    the order written here. *)
From Verif Require Export Dumper.
Open Scope N_scope.

(** Result of a (de)serialization: [DErr p] is [Err(SerdeError { pos: p, .. })]
    (error.rs:10-25; the message text is not modelled). *)
Inductive dres (A : Type) : Type :=
| DOk (a : A)
| DErr (pos : N)
| DPanic.
Arguments DOk {A} a.
Arguments DErr {A} pos.
Arguments DPanic {A}.
Definition dbind {A B} (r : dres A) (f : A -> dres B) : dres B :=
  match r with DOk a => f a | DErr p => DErr p | DPanic => DPanic end.
Notation "'let!' x := r 'in' k" := (dbind r (fun x => k))
  (at level 61, x name, r at next level, right associativity).

(** Rust types.  [TInt signed bits] are i8..i128, u8..u128; [TTuple] is a tuple
    or a tuple struct; [TMap] is a map type (its value is the list of the
    entries in iteration order); [TStruct] a struct with named fields;
    [TNewtype] a newtype struct; [TEnum] an externally tagged enum; [TNode] the
    crate's own [Node]. [f32] is in Single.v. *)
Inductive ty : Type :=
| TBool
| TInt (signed : bool) (bits : N)
| TF64
| TChar
| TString
| TBytes
| TUnit
| TOption (t : ty)
| TSeq (t : ty)
| TTuple (ts : list ty)
| TMap (k v : ty)
| TStruct (fs : list (str * ty))
| TNewtype (t : ty)
| TEnum (vs : list (str * variant))
| TNode
with variant : Type :=
| UnitV
| NewtypeV (t : ty)
| TupleV (ts : list ty)
| StructV (fs : list (str * ty)).

(** Rust values.  A tuple, a struct (fields in declaration order) and a [Vec] are
    [VList]; a newtype struct is the value inside. *)
Inductive val : Type :=
| VBool (b : bool)
| VInt (z : Z)
| VFloat (f : f64)
| VChar (c : N)
| VStr (s : str)
| VBytes (l : list N)
| VUnit
| VNone
| VSome (v : val)
| VList (l : list val)
| VMap (l : list (val * val))
| VEnum (name : str) (payload : val)
| VNode (n : node).

(** ** Deserialization: de.rs *)

(** de.rs:516-529 [unexpected]: the error carries the node's position; the
    numbers are formatted into the message, which panics when they are
    unreadable. *)
Definition unexpected {A} (n : node) : dres A :=
  match n_yaml n with
  | YInt s => match to_i64 s with Some _ => DErr (n_pos n) | None => DPanic end
  | YFloat s => match to_f64 s with Some _ => DErr (n_pos n) | None => DPanic end
  | _ => DErr (n_pos n)
  end.

(** [x as iN] / [x as uN] on an i64: the value modulo 2^bits *)
Definition wrap_int (signed : bool) (bits : N) (z : Z) : Z :=
  let m := (2 ^ Z.of_N bits)%Z in
  let r := (z mod m)%Z in
  if signed && (2 ^ (Z.of_N bits - 1) <=? r)%Z then (r - m)%Z else r.

(** de.rs:293-300, 308-309: the integer methods *)
Definition de_int (signed : bool) (bits : N) (n : node) : dres Z :=
  match n_yaml n with
  | YInt s => match to_i64 s with
              | Some z => DOk (wrap_int signed bits z)
              | None => DPanic
              end
  | _ => unexpected n
  end.

(** de.rs:313-339 [deserialize_string], [deserialize_str] *)
Definition de_str (n : node) : dres str :=
  match n_yaml n with
  | YStr s | YInt s | YFloat s => DOk s
  | YBool true => DOk (lit "true")
  | YBool false => DOk (lit "false")
  | YNull => DOk (lit "null")
  | _ => unexpected n
  end.

(** de.rs:352-361 [deserialize_f64] *)
Definition de_f64 (n : node) : dres f64 :=
  match n_yaml n with
  | YFloat s => match to_f64 s with Some x => DOk x | None => DPanic end
  | YInt s => match to_i64 s with Some z => DOk (f64_of_Z z) | None => DPanic end
  | _ => unexpected n
  end.

(** de.rs:363-384 [deserialize_char]: the test is on the length in bytes *)
Definition de_char (n : node) : dres N :=
  match n_yaml n with
  | YStr s | YInt s =>
    match s with
    | [c] => if Nat.eqb (List.length (encode_char c)) 1 then DOk c else unexpected n
    | _ => unexpected n
    end
  | _ => unexpected n
  end.

(** de.rs:303 [deserialize_identifier] *)
Definition de_ident (n : node) : dres str :=
  match n_yaml n with YStr s => DOk s | _ => unexpected n end.

(** de.rs:414-434 [deserialize_unit], [deserialize_unit_struct] *)
Definition de_unit (n : node) : dres unit :=
  if is_null n then DOk tt else unexpected n.

(** de.rs:386-402 [deserialize_byte_buf], with a byte buffer type's visitor
    ([visit_str] takes the bytes, [visit_seq] reads u8 elements) *)
Fixpoint de_u8s (l : list node) : dres (list N) :=
  match l with
  | [] => DOk []
  | x :: r =>
    let! b := de_int false 8 x in
    let! bs := de_u8s r in
    DOk (Z.to_N b :: bs)
  end.
Definition de_bytes (n : node) : dres (list N) :=
  match n_yaml n with
  | YStr s => DOk (utf8_encode s)
  | YSeq l => de_u8s l
  | _ => unexpected n
  end.

(** de.rs:80-127 [NodeVisitor] through de.rs:275-289 [deserialize_any]: a node
    read back as a node.  [show_f] is f64's [Display]. *)
Fixpoint de_yaml (show_f : f64 -> str) (hk : hasher) (p : N) (y : yaml) : dres node :=
  match y with
  | YNull => DOk (node_from YNull)
  | YBool b => DOk (node_from (YBool b))
  | YInt s => match to_i64 s with
              | Some z => DOk (node_from (YInt (show_Z z)))
              | None => DPanic
              end
  | YFloat s => match to_f64 s with
                | Some x => DOk (node_from (YFloat (show_f x)))
                | None => DPanic
                end
  | YStr s => DOk (node_from (YStr s))
  | YSeq l =>
    let! l' :=
      (fix go (l : list node) : dres (list node) :=
         match l with
         | [] => DOk []
         | Node p' _ y' :: r =>
           let! x := de_yaml show_f hk p' y' in
           let! xs := go r in
           DOk (x :: xs)
         end) l in
    DOk (node_from (YSeq l'))
  | YMap m =>
    let! m' :=
      (fix go (m : list (node * node)) (acc : list (node * node))
         : dres (list (node * node)) :=
         match m with
         | [] => DOk acc
         | (Node p1 _ y1, Node p2 _ y2) :: r =>
           let! k := de_yaml show_f hk p1 y1 in
           let! v := de_yaml show_f hk p2 y2 in
           match map_insert hk k v acc with
           | None => DPanic
           | Some acc' => go r acc'
           end
         end) m [] in
    (* [m.into_iter().collect()] re-inserts the entries, de.rs:125 *)
    match map_collect hk m' with
    | None => DPanic
    | Some m'' => DOk (node_from (YMap m''))
    end
  | YAlias _ => DErr p
  end.
Definition de_node (show_f : f64 -> str) (hk : hasher) (n : node) : dres node :=
  de_yaml show_f hk (n_pos n) (n_yaml n).

(** serde's [missing_field]: an [Option] field is [None], others are an error
    (without position) *)
Definition missing (t : ty) : dres val :=
  match t with TOption _ => DOk VNone | _ => DErr 0 end.

Fixpoint collect_fields (fs : list (str * ty)) (acc : list (str * val)) : dres (list val) :=
  match fs with
  | [] => DOk []
  | (f, t) :: r =>
    let! v := match bt_get f acc with Some v => DOk v | None => missing t end in
    let! vs := collect_fields r acc in
    DOk (v :: vs)
  end.

(** The visitor of a struct, as [derive(Deserialize)] generates it: unknown
    fields are skipped ([deserialize_ignored_any], de.rs:508-513), a field given
    twice is an error; [df f x] deserializes field [f] from [x], [None] when
    there is no such field.  Over MapVisitor (de.rs:151-184). *)
Fixpoint visit_fields (df : str -> node -> option (dres val))
    (m : list (node * node)) (acc : list (str * val)) : dres (list (str * val)) :=
  match m with
  | [] => DOk acc
  | (k, x) :: r =>
    let! f := de_ident k in
    match df f x with
    | None => visit_fields df r acc
    | Some d =>
      match bt_get f acc with
      | Some _ => DErr 0
      | None => let! v := d in visit_fields df r (acc ++ [(f, v)])
      end
    end
  end.

(** A [Vec]: [SeqVisitor] (de.rs:129-149, 301) to the end. *)
Fixpoint visit_all (d : node -> dres val) (l : list node) : dres (list val) :=
  match l with
  | [] => DOk []
  | x :: r => let! v := d x in let! vs := visit_all d r in DOk (v :: vs)
  end.

(** A map: all entries of [MapVisitor] (de.rs:151-184, 302). *)
Fixpoint visit_entries (dk dv : node -> dres val) (m : list (node * node))
  : dres (list (val * val)) :=
  match m with
  | [] => DOk []
  | (k, x) :: r =>
    let! a := dk k in
    let! b := dv x in
    let! vs := visit_entries dk dv r in
    DOk ((a, b) :: vs)
  end.

(** [Deserialize::deserialize] of type [t] on a node. *)
Fixpoint de (show_f : f64 -> str) (hk : hasher) (t : ty) (n : node) {struct t} : dres val :=
  (* a tuple: takes as many elements as it needs and ignores the rest *)
  let de_tuple :=
    fix go (ts : list ty) (l : list node) : dres (list val) :=
      match ts with
      | [] => DOk []
      | t :: ts' =>
        match l with
        | [] => DErr 0 (* invalid length *)
        | x :: r =>
          let! v := de show_f hk t x in
          let! vs := go ts' r in
          DOk (v :: vs)
        end
      end in
  let de_fields_seq :=
    fix go (fs : list (str * ty)) (l : list node) : dres (list val) :=
      match fs with
      | [] => DOk []
      | (_, t) :: fs' =>
        match l with
        | [] => DErr 0
        | x :: r =>
          let! v := de show_f hk t x in
          let! vs := go fs' r in
          DOk (v :: vs)
        end
      end in
  let de_field :=
    fix go (fs : list (str * ty)) (f : str) (x : node) : option (dres val) :=
      match fs with
      | [] => None
      | (f', t) :: r => if str_eqb f' f then Some (de show_f hk t x) else go r f x
      end in
  match t with
  | TBool => match n_yaml n with YBool b => DOk (VBool b) | _ => unexpected n end
  | TInt sg bits => let! z := de_int sg bits n in DOk (VInt z)
  | TF64 => let! f := de_f64 n in DOk (VFloat f)
  | TChar => let! c := de_char n in DOk (VChar c)
  | TString => let! s := de_str n in DOk (VStr s)
  | TBytes => let! l := de_bytes n in DOk (VBytes l)
  | TUnit => let! _u := de_unit n in DOk VUnit
  | TOption t' =>
    (* de.rs:404-412 *)
    match n_yaml n with
    | YNull => DOk VNone
    | _ => let! v := de show_f hk t' n in DOk (VSome v)
    end
  | TSeq t' =>
    match n_yaml n with
    | YSeq l => let! vs := visit_all (de show_f hk t') l in DOk (VList vs)
    | _ => unexpected n
    end
  | TTuple ts =>
    (* de.rs:447-464 *)
    match n_yaml n with
    | YSeq l => let! vs := de_tuple ts l in DOk (VList vs)
    | _ => unexpected n
    end
  | TMap k v =>
    match n_yaml n with
    | YMap m =>
      let! es := visit_entries (de show_f hk k) (de show_f hk v) m in DOk (VMap es)
    | _ => unexpected n
    end
  | TStruct fs =>
    (* de.rs:466-480 *)
    match n_yaml n with
    | YSeq l => let! vs := de_fields_seq fs l in DOk (VList vs)
    | YMap m =>
      let! acc := visit_fields (de_field fs) m [] in
      let! vs := collect_fields fs acc in
      DOk (VList vs)
    | _ => unexpected n
    end
  | TNewtype t' => de show_f hk t' n (* de.rs:436-445 *)
  | TEnum vs =>
    (* de.rs:482-506, EnumVisitor/VariantVisitor 186-261 *)
    let! kv :=
      match n_yaml n with
      | YMap [(k, x)] => DOk (k, Some x)
      | YMap _ => unexpected n
      | YStr _ => DOk (n, None)
      | _ => unexpected n
      end in
    let '(k, o) := kv in
    let! name := de_ident k in
    (fix find (vs : list (str * variant)) : dres val :=
       match vs with
       | [] => DErr 0 (* unknown variant *)
       | (name', vr) :: r =>
         if str_eqb name' name then
           let! pl :=
             match vr, o with
             | UnitV, None => DOk VUnit
             | UnitV, Some x => let! _u := de_unit x in DOk VUnit
             | NewtypeV t', Some x => de show_f hk t' x
             | TupleV ts, Some x =>
               match n_yaml x with
               | YSeq l => let! vs := de_tuple ts l in DOk (VList vs)
               | _ => unexpected x
               end
             | StructV fs, Some x =>
               match n_yaml x with
               | YMap m =>
                 let! acc := visit_fields (de_field fs) m [] in
                 let! vs := collect_fields fs acc in
                 DOk (VList vs)
               | _ => unexpected x
               end
             | _, None => DErr 0
             end in
           DOk (VEnum name pl)
         else find r
       end) vs
  | TNode => let! x := de_node show_f hk n in DOk (VNode x)
  end.

(** ** Serialization: ser.rs *)

Definition of_mp {A} (o : may_panic A) : dres A :=
  match o with Some a => DOk a | None => DPanic end.

(** ser.rs:162-302 and ser_node.rs:8-30: a node serialized to a node *)
Fixpoint ser_yaml (show_f : f64 -> str) (hk : hasher) (y : yaml) : dres node :=
  match y with
  | YNull => DOk (node_from YNull)
  | YBool b => DOk (node_from (YBool b))
  | YInt s => match to_i64 s with
              | Some z => DOk (node_from (YInt (show_Z z)))
              | None => DPanic
              end
  | YFloat s => match to_f64 s with
                | Some x => DOk (node_from (YFloat (show_f x)))
                | None => DPanic
                end
  | YStr s => DOk (node_from (YStr s))
  | YSeq l =>
    let! l' :=
      (fix go (l : list node) : dres (list node) :=
         match l with
         | [] => DOk []
         | Node _ _ y' :: r =>
           let! x := ser_yaml show_f hk y' in
           let! xs := go r in
           DOk (x :: xs)
         end) l in
    DOk (node_from (YSeq l'))
  | YMap m =>
    let! m' :=
      (fix go (m : list (node * node)) (acc : list (node * node))
         : dres (list (node * node)) :=
         match m with
         | [] => DOk acc
         | (Node _ _ y1, Node _ _ y2) :: r =>
           let! k := ser_yaml show_f hk y1 in
           let! v := ser_yaml show_f hk y2 in
           let! acc' := of_mp (map_insert hk k v acc) in
           go r acc'
         end) m [] in
    DOk (node_from (YMap m'))
  | YAlias _ => DErr 0
  end.

(** ser.rs:104-106 [to_node] (methods at 162-362) of a value [v] of type [t].  [DErr 0] on an
    ill-typed pair, which Rust rules out. *)
Fixpoint ser (show_f : f64 -> str) (hk : hasher) (t : ty) (v : val) {struct t} : dres node :=
  let ser_tuple :=
    fix go (ts : list ty) (l : list val) : dres (list node) :=
      match ts, l with
      | [], [] => DOk []
      | t :: ts', x :: r =>
        let! n := ser show_f hk t x in
        let! ns := go ts' r in
        DOk (n :: ns)
      | _, _ => DErr 0
      end in
  (* ser.rs:53-75: fields are inserted into the map one by one *)
  let ser_fields :=
    fix go (fs : list (str * ty)) (l : list val) (acc : list (node * node))
      : dres (list (node * node)) :=
      match fs, l with
      | [], [] => DOk acc
      | (f, t) :: fs', x :: r =>
        let! n := ser show_f hk t x in
        let! acc' := of_mp (map_insert hk (node_from (YStr f)) n acc) in
        go fs' r acc'
      | _, _ => DErr 0
      end in
  match t, v with
  | TBool, VBool b => DOk (node_from (YBool b))
  | TInt _ _, VInt z => DOk (node_from (YInt (show_Z z)))
  | TF64, VFloat f => DOk (node_from (YFloat (show_f f)))
  | TChar, VChar c => DOk (node_from (YStr [c]))
  | TString, VStr s => DOk (node_from (YStr s))
  | TBytes, VBytes l =>
    DOk (node_from (YSeq (List.map (fun b => node_from (YInt (show_N b))) l)))
  | TUnit, VUnit => DOk (node_from YNull)
  | TOption _, VNone => DOk (node_from YNull)
  | TOption t', VSome x => ser show_f hk t' x
  | TSeq t', VList l =>
    let! ns :=
      (fix go (l : list val) : dres (list node) :=
         match l with
         | [] => DOk []
         | x :: r =>
           let! n := ser show_f hk t' x in
           let! ns := go r in
           DOk (n :: ns)
         end) l in
    DOk (node_from (YSeq ns))
  | TTuple ts, VList l => let! ns := ser_tuple ts l in DOk (node_from (YSeq ns))
  | TMap tk tv, VMap l =>
    let! m :=
      (fix go (l : list (val * val)) (acc : list (node * node))
         : dres (list (node * node)) :=
         match l with
         | [] => DOk acc
         | (a, b) :: r =>
           let! k := ser show_f hk tk a in
           let! x := ser show_f hk tv b in
           let! acc' := of_mp (map_insert hk k x acc) in
           go r acc'
         end) l [] in
    DOk (node_from (YMap m))
  | TStruct fs, VList l => let! m := ser_fields fs l [] in DOk (node_from (YMap m))
  | TNewtype t', x => ser show_f hk t' x
  | TEnum vs, VEnum name pl =>
    (fix find (vs : list (str * variant)) : dres node :=
       match vs with
       | [] => DErr 0
       | (name', vr) :: r =>
         if str_eqb name' name then
           let tagged (x : node) := node_from (YMap [(node_from (YStr name), x)]) in
           match vr, pl with
           | UnitV, VUnit => DOk (node_from (YStr name))
           | NewtypeV t', x => let! n := ser show_f hk t' x in DOk (tagged n)
           | TupleV ts, VList l =>
             let! ns := ser_tuple ts l in DOk (tagged (node_from (YSeq ns)))
           | StructV fs, VList l =>
             let! m := ser_fields fs l [] in DOk (tagged (node_from (YMap m)))
           | _, _ => DErr 0
           end
         else find r
       end) vs
  | TNode, VNode n => ser_yaml show_f hk (n_yaml n)
  | _, _ => DErr 0
  end.
Definition to_node := ser.

(** de.rs:72-78 [from_str] and ser.rs:156-158 [to_string].  A parse error has
    position 0 (error.rs:26-30); [None] stands for "no answer" (divergence). *)
Fixpoint de_all (show_f : f64 -> str) (hk : hasher) (t : ty) (l : list node)
  : dres (list val) :=
  match l with
  | [] => DOk []
  | n :: r =>
    let! v := de show_f hk t n in
    let! vs := de_all show_f hk t r in
    DOk (v :: vs)
  end.
Definition from_str (show_f : f64 -> str) (hk : hasher) (t : ty) (d : str)
  : option (dres (list val)) :=
  match parse hk d with
  | ROk l => Some (de_all show_f hk t l)
  | RErr _ => Some (DErr 0)
  | RPanic => Some DPanic
  | RDiv => None
  end.
Definition to_string (win : bool) (uni : N -> bool) (show_f : f64 -> str) (hk : hasher)
    (t : ty) (v : val) : option (dres str) :=
  match ser show_f hk t v with
  | DOk n =>
    match dump win uni [n] [] with
    | ROk s => Some (DOk s)
    | RErr _ => Some (DErr 0)
    | RPanic => Some DPanic
    | RDiv => None
    end
  | DErr p => Some (DErr p)
  | DPanic => Some DPanic
  end.

(** ** The helper types *)

(** inline_list.rs:36-95 *)
Inductive inline_list (T : Type) :=
| IList (v : list T)
| IInline (e : T).
Arguments IList {T} v.
Arguments IInline {T} e.
Definition il_iter {T} (x : inline_list T) : list T :=
  match x with IList v => v | IInline e => [e] end.
Definition il_len {T} (x : inline_list T) : nat :=
  match x with IList v => List.length v | IInline _ => 1%nat end.
Definition il_is_empty {T} (x : inline_list T) : bool :=
  match x with IList v => is_nil v | IInline _ => false end.
Definition il_is_single {T} (x : inline_list T) : bool :=
  match x with IList v => Nat.eqb (List.length v) 1 | IInline _ => true end.
Definition il_into_iter {T} (x : inline_list T) : list T :=
  match x with IList v => v | IInline e => [e] end.
Definition il_default {T} : inline_list T := IList [].

(** optional.rs:41-108.  The effect of the callbacks is a value: [ok]/[ok_instead]
    give the arguments the callback is called with, in order. *)
Inductive optional (T : Type) :=
| OBool (b : bool)
| OSome (t : T).
Arguments OBool {T} b.
Arguments OSome {T} t.
Definition o_default {T} : optional T := OBool true.
Definition o_ok {T} (dflt : T) (x : optional T) : list T :=
  match x with OBool false => [] | OBool true => [dflt] | OSome t => [t] end.
Definition o_ok_instead {T} (x : optional T) (dflt : T) : list T :=
  match x with OBool false => [] | OBool true => [dflt] | OSome t => [t] end.
Definition o_ok_or {T R} (dflt : T) (x : optional T) (okf : T -> R) (orf : R) : R :=
  match x with OBool false => orf | OBool true => okf dflt | OSome t => okf t end.
Definition o_ok_or_instead {T R} (x : optional T) (okf : T -> R) (dflt : T) (orf : R) : R :=
  match x with OBool false => orf | OBool true => okf dflt | OSome t => okf t end.
(** stringify.rs is in Untagged.v. *)
