(** * Untagged: how the helper types of src/serde/inline_list.rs, optional.rs and
    stringify.rs are read and written.

    The three types derive [Serialize] and [Deserialize] with
    [#[serde(untagged)]].  The derived code reads a value with the crate's
    [deserialize_any] (de.rs:275-289) into serde's buffer type [Content] and then
    tries the variants in order, each from the buffer; the first that fits is
    the result; when none fits the error is a custom one without position.  The
    part that is serde's ([Content], [ContentRefDeserializer], the visitors of
    the standard types) is modelled from serde 1's source: every error of a
    variant is discarded, so it is [None] here. *)
From Verif Require Export Serde.
Open Scope N_scope.

(** The cases of serde's [Content] that this crate's [deserialize_any] gives. *)
Inductive content : Type :=
| CUnit
| CBool (b : bool)
| CI64 (z : Z)
| CF64 (x : f64)
| CStr (s : str)
| CSeq (l : list content)
| CMap (m : list (content * content)).

(** de.rs:275-289 [deserialize_any] with the visitor of [Content] *)
Fixpoint buffer (p : N) (y : yaml) : dres content :=
  match y with
  | YNull => DOk CUnit
  | YBool b => DOk (CBool b)
  | YInt s => match to_i64 s with Some z => DOk (CI64 z) | None => DPanic end
  | YFloat s => match to_f64 s with Some x => DOk (CF64 x) | None => DPanic end
  | YStr s => DOk (CStr s)
  | YSeq l =>
    let! l' :=
      (fix go (l : list node) : dres (list content) :=
         match l with
         | [] => DOk []
         | Node p' _ y' :: r => let! x := buffer p' y' in let! xs := go r in DOk (x :: xs)
         end) l in
    DOk (CSeq l')
  | YMap m =>
    let! m' :=
      (fix go (m : list (node * node)) : dres (list (content * content)) :=
         match m with
         | [] => DOk []
         | (Node p1 _ y1, Node p2 _ y2) :: r =>
           let! k := buffer p1 y1 in
           let! v := buffer p2 y2 in
           let! xs := go r in
           DOk ((k, v) :: xs)
         end) m in
    DOk (CMap m')
  | YAlias _ => DErr p
  end.
Definition buffer_node (n : node) : dres content := buffer (n_pos n) (n_yaml n).

(** the range check of serde's integer visitors; [i128] and [u128] are not
    supported by the buffer *)
Definition in_range (signed : bool) (bits : N) (z : Z) : bool :=
  (bits <=? 64) &&
  (if signed then (- 2 ^ (Z.of_N bits - 1) <=? z)%Z && (z <? 2 ^ (Z.of_N bits - 1))%Z
   else (0 <=? z)%Z && (z <? 2 ^ Z.of_N bits)%Z).

Definition obind {A B} (o : option A) (f : A -> option B) : option B :=
  match o with Some a => f a | None => None end.
Notation "'let?' x := r 'in' k" := (obind r (fun x => k)) (at level 61, x name, r at next level, right associativity).

Fixpoint c_u8s (l : list content) : option (list N) :=
  match l with
  | [] => Some []
  | CI64 z :: r => if in_range false 8 z then let? bs := c_u8s r in Some (Z.to_N z :: bs) else None
  | _ => None
  end.
Fixpoint c_all (d : content -> option val) (l : list content) : option (list val) :=
  match l with
  | [] => Some []
  | x :: r => let? v := d x in let? vs := c_all d r in Some (v :: vs)
  end.
Fixpoint c_entries (dk dv : content -> option val) (m : list (content * content)) : option (list (val * val)) :=
  match m with
  | [] => Some []
  | (k, x) :: r => let? a := dk k in let? b := dv x in let? vs := c_entries dk dv r in Some ((a, b) :: vs)
  end.
Fixpoint c_fields (df : str -> content -> option (option val)) (m : list (content * content))
    (acc : list (str * val)) : option (list (str * val)) :=
  match m with
  | [] => Some acc
  | (k, x) :: r =>
    match k with
    | CStr f =>
      match df f x with
      | None => c_fields df r acc
      | Some d =>
        match bt_get f acc with
        | Some _ => None
        | None => let? v := d in c_fields df r (acc ++ [(f, v)])
        end
      end
    | _ => None
    end
  end.
Fixpoint c_collect (fs : list (str * ty)) (acc : list (str * val)) : option (list val) :=
  match fs with
  | [] => Some []
  | (f, t) :: r =>
    let? v := match bt_get f acc with
              | Some v => Some v
              | None => match t with TOption _ => Some VNone | _ => None end
              end in
    let? vs := c_collect r acc in Some (v :: vs)
  end.
(** [NodeVisitor] (de.rs:80-127) over the buffer *)
Fixpoint c_node (show_f : f64 -> str) (hk : hasher) (c : content) : option node :=
  match c with
  | CUnit => Some (node_from YNull)
  | CBool b => Some (node_from (YBool b))
  | CI64 z => Some (node_from (YInt (show_Z z)))
  | CF64 x => Some (node_from (YFloat (show_f x)))
  | CStr s => Some (node_from (YStr s))
  | CSeq l =>
    let? l' :=
      (fix go (l : list content) : option (list node) :=
         match l with [] => Some [] | x :: r => let? a := c_node show_f hk x in let? b := go r in Some (a :: b) end) l in
    Some (node_from (YSeq l'))
  | CMap m =>
    let? m' :=
      (fix go (m : list (content * content)) (acc : list (node * node)) : option (list (node * node)) :=
         match m with
         | [] => Some acc
         | (k, x) :: r =>
           let? a := c_node show_f hk k in
           let? b := c_node show_f hk x in
           let? acc' := map_insert hk a b acc in go r acc'
         end) m [] in
    let? m'' := map_collect hk m' in Some (node_from (YMap m''))
  end.

(** [T::deserialize(ContentRefDeserializer::new(&content))].  (A key comparison
    that panics would be a panic, not an error; it cannot happen here because
    the numbers of the buffer are readable.) *)
Fixpoint from_buffer (show_f : f64 -> str) (hk : hasher) (t : ty) (c : content) {struct t} : option val :=
  (* all elements must be used *)
  let c_tuple :=
    fix go (ts : list ty) (l : list content) : option (list val) :=
      match ts, l with
      | [], [] => Some []
      | t :: ts', x :: r => let? v := from_buffer show_f hk t x in let? vs := go ts' r in Some (v :: vs)
      | _, _ => None
      end in
  let c_fields_seq :=
    fix go (fs : list (str * ty)) (l : list content) : option (list val) :=
      match fs, l with
      | [], [] => Some []
      | (_, t) :: fs', x :: r => let? v := from_buffer show_f hk t x in let? vs := go fs' r in Some (v :: vs)
      | _, _ => None
      end in
  let c_field :=
    fix go (fs : list (str * ty)) (f : str) (x : content) : option (option val) :=
      match fs with
      | [] => None
      | (f', t) :: r => if str_eqb f' f then Some (from_buffer show_f hk t x) else go r f x
      end in
  match t with
  | TBool => match c with CBool b => Some (VBool b) | _ => None end
  | TInt sg bits => match c with CI64 z => if in_range sg bits z then Some (VInt z) else None | _ => None end
  | TF64 => match c with CF64 x => Some (VFloat x) | CI64 z => Some (VFloat (f64_of_Z z)) | _ => None end
  | TChar => match c with CStr [a] => Some (VChar a) | _ => None end
  | TString => match c with CStr s => Some (VStr s) | _ => None end
  | TBytes =>
    match c with
    | CStr s => Some (VBytes (utf8_encode s))
    | CSeq l => let? bs := c_u8s l in Some (VBytes bs)
    | _ => None
    end
  | TUnit => match c with CUnit => Some VUnit | _ => None end
  | TOption t' =>
    match c with
    | CUnit => Some VNone
    | _ => let? v := from_buffer show_f hk t' c in Some (VSome v)
    end
  | TSeq t' => match c with CSeq l => let? vs := c_all (from_buffer show_f hk t') l in Some (VList vs) | _ => None end
  | TTuple ts => match c with CSeq l => let? vs := c_tuple ts l in Some (VList vs) | _ => None end
  | TMap k v =>
    match c with
    | CMap m => let? es := c_entries (from_buffer show_f hk k) (from_buffer show_f hk v) m in Some (VMap es)
    | _ => None
    end
  | TStruct fs =>
    match c with
    | CSeq l => let? vs := c_fields_seq fs l in Some (VList vs)
    | CMap m => let? acc := c_fields (c_field fs) m [] in let? vs := c_collect fs acc in Some (VList vs)
    | _ => None
    end
  | TNewtype t' => from_buffer show_f hk t' c
  | TEnum vs =>
    let? kv :=
      match c with
      | CMap [(CStr name, x)] => Some (name, Some x)
      | CStr name => Some (name, None)
      | _ => None
      end in
    let '(name, o) := kv in
    (fix find (vs : list (str * variant)) : option val :=
       match vs with
       | [] => None
       | (name', vr) :: r =>
         if str_eqb name' name then
           let? pl :=
             match vr, o with
             | UnitV, None => Some VUnit
             | UnitV, Some x => match x with CUnit => Some VUnit | _ => None end
             | NewtypeV t', Some x => from_buffer show_f hk t' x
             | TupleV ts, Some x =>
               match x with CSeq l => let? vs := c_tuple ts l in Some (VList vs) | _ => None end
             | StructV fs, Some x =>
               match x with
               | CMap m => let? acc := c_fields (c_field fs) m [] in let? vs := c_collect fs acc in Some (VList vs)
               | CSeq l => let? vs := c_fields_seq fs l in Some (VList vs)
               | _ => None
               end
             | _, None => None
             end in
           Some (VEnum name pl)
         else find r
       end) vs
  | TNode => let? n := c_node show_f hk c in Some (VNode n)
  end.

(** inline_list.rs:36-43: [List] is tried first *)
Definition de_inline_list (show_f : f64 -> str) (hk : hasher) (t : ty) (n : node) : dres (inline_list val) :=
  let! c := buffer_node n in
  match from_buffer show_f hk (TSeq t) c with
  | Some (VList l) => DOk (IList l)
  | _ =>
    match from_buffer show_f hk t c with
    | Some v => DOk (IInline v)
    | None => DErr 0
    end
  end.
Definition ser_inline_list (show_f : f64 -> str) (hk : hasher) (t : ty) (x : inline_list val) : dres node :=
  match x with IList l => ser show_f hk (TSeq t) (VList l) | IInline v => ser show_f hk t v end.

(** optional.rs:40-47: [Bool] is tried first *)
Definition de_optional (show_f : f64 -> str) (hk : hasher) (t : ty) (n : node) : dres (optional val) :=
  let! c := buffer_node n in
  match from_buffer show_f hk TBool c with
  | Some (VBool b) => DOk (OBool b)
  | _ =>
    match from_buffer show_f hk t c with
    | Some v => DOk (OSome v)
    | None => DErr 0
    end
  end.
Definition ser_optional (show_f : f64 -> str) (hk : hasher) (t : ty) (x : optional val) : dres node :=
  match x with OBool b => ser show_f hk TBool (VBool b) | OSome v => ser show_f hk t v end.

(** stringify.rs:27-39, with the floats.  An f32 is represented by the number it
    is rounded from: [FromInt z] is [z as f32] and [FromFloat x] is [x as f32].
    ([Single.f32_number] is that f32; its [Display] is the parameter [show32].) *)
Inductive f32_of := FromInt (z : Z) | FromFloat (x : f64).
Inductive text_like :=
| TLBool (b : bool)
| TLInt (z : Z)
| TLFloat (x : f32_of)
| TLStr (s : str).
Definition de_stringify (show_f : f64 -> str) (hk : hasher) (n : node) : dres text_like :=
  let! c := buffer_node n in
  match from_buffer show_f hk TBool c with
  | Some (VBool b) => DOk (TLBool b)
  | _ =>
    match from_buffer show_f hk (TInt true 32) c with
    | Some (VInt z) => DOk (TLInt z)
    | _ =>
      match c with
      | CF64 x => DOk (TLFloat (FromFloat x))
      | CI64 z => DOk (TLFloat (FromInt z))
      | _ =>
        match from_buffer show_f hk TString c with
        | Some (VStr s) => DOk (TLStr s)
        | _ => DErr 0
        end
      end
    end
  end.
(** stringify.rs:41-51 [Display] *)
Definition display_text_like (show32 : f32_of -> str) (x : text_like) : str :=
  match x with
  | TLBool true => lit "true"
  | TLBool false => lit "false"
  | TLInt z => show_Z z
  | TLFloat x => show32 x
  | TLStr s => s
  end.
(** ser.rs: [serialize_bool], [serialize_i32], [serialize_f32], [serialize_str] *)
Definition ser_stringify (show32 : f32_of -> str) (x : text_like) : node :=
  match x with
  | TLBool b => node_from (YBool b)
  | TLInt z => node_from (YInt (show_Z z))
  | TLFloat x => node_from (YFloat (show32 x))
  | TLStr s => node_from (YStr s)
  end.
