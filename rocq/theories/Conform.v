(** * The repository's own tests, run on the model

    This file proves nothing general: it is evidence that the model computes
    what the program computes.  Every assertion of src/tests/mod.rs and of the
    documentation tests that the model can express is restated here with the
    same input bytes and evaluated by the kernel.  [is a b] is [assert_eq!] on
    nodes: it uses the modelled [PartialEq], which ignores positions and tags. *)
From Verif Require Import Untagged PropSerde2.
Open Scope nat_scope.

(** the [node!] macro and [From] (src/lib.rs:79-118, src/yaml.rs:193-228), with
    numbers given by the text their [to_string] makes *)
Definition t (s : str) : node := node_from (YStr s).
Definition int (s : str) : node := node_from (YInt s).
Definition fl (s : str) : node := node_from (YFloat s).
Definition null : node := node_from YNull.
Definition boolean (b : bool) : node := node_from (YBool b).
Definition seq (l : list node) : node := node_from (YSeq l).
Definition al (a : str) : node := node_from (YAlias a).
(** any hash function will do: the keys are collected with the modelled map *)
Definition hk : hasher := fun l => fold_left (fun a b => ((a * 31 + b) mod 4294967296)%N) l 7%N.
Definition map (m : list (node * node)) : node :=
  node_from (YMap (match map_collect hk m with Some r => r | None => [] end)).
Definition is (a b : node) : Prop := node_eq a b = Some true.
Definition all_are (r : res (list node)) (l : list node) : Prop :=
  exists v, r = ROk v /\ List.length v = List.length l
    /\ Forall (fun p => is (fst p) (snd p)) (combine v l).
Definition read (d : bytes) : res (list node) := parse_bytes hk d.
Definition nodes (d : bytes) : list node := match read d with ROk v => v | _ => [] end.
Definition root (d : bytes) (i : nat) : node := nth i (nodes d) (t (lit "no such document")).
(** [unwrap]: there is a result and it satisfies [P] *)
Definition some {A} (o : option A) (P : A -> Prop) : Prop := match o with Some a => P a | None => False end.
Definition ok_or {A} (o : A + N) (P : A -> Prop) : Prop := match o with inl a => P a | inr _ => False end.
Definition got {A} (o : may_panic (A + N)) (P : A -> Prop) : Prop := some o (fun r => ok_or r P).
Definition dgot {A} (o : dres A) (P : A -> Prop) : Prop := match o with DOk a => P a | _ => False end.
(** src/tests/anchor.yaml *)
Definition file_anchor : bytes := [45; 32; 97; 58; 32; 38; 97; 32; 98; 10; 45; 32; 97; 58; 32; 42; 97; 10; 45; 32; 38; 109; 97; 112; 10; 32; 32; 97; 58; 32; 98; 10; 45; 32; 42; 109; 97; 112; 10; 45; 32; 38; 115; 101; 113; 10; 32; 32; 45; 32; 97; 58; 32; 38; 115; 117; 98; 32; 98; 10; 32; 32; 45; 32; 97; 58; 32; 42; 115; 117; 98; 10; 45; 32; 42; 115; 101; 113; 10]%N.
(** src/tests/complete_doc.yaml *)
Definition file_complete_doc : bytes := [37; 89; 65; 77; 76; 32; 49; 46; 50; 10; 37; 84; 65; 71; 32; 33; 33; 32; 116; 97; 103; 58; 116; 101; 115; 116; 46; 112; 114; 101; 102; 105; 120; 58; 10; 37; 84; 65; 71; 32; 33; 120; 33; 32; 116; 97; 103; 58; 116; 101; 115; 116; 46; 120; 46; 112; 114; 101; 102; 105; 120; 58; 10; 45; 45; 45; 32; 33; 120; 33; 114; 111; 111; 116; 10; 97; 48; 32; 98; 98; 58; 32; 33; 120; 33; 102; 111; 111; 32; 46; 118; 97; 108; 46; 10; 58; 58; 97; 49; 58; 32; 32; 35; 32; 84; 101; 115; 116; 32; 99; 111; 109; 109; 101; 110; 116; 32; 97; 102; 116; 101; 114; 32; 119; 114; 97; 112; 112; 101; 100; 33; 32; 40; 49; 41; 10; 32; 32; 98; 49; 32; 32; 58; 32; 52; 46; 10; 32; 32; 98; 50; 58; 10; 32; 32; 32; 32; 45; 32; 49; 50; 51; 32; 32; 32; 97; 98; 99; 10; 32; 32; 32; 32; 45; 32; 53; 48; 37; 10; 32; 32; 32; 32; 45; 32; 48; 111; 49; 48; 10; 32; 32; 32; 32; 45; 32; 48; 120; 49; 48; 10; 32; 32; 32; 32; 45; 32; 50; 101; 45; 52; 10; 32; 32; 32; 32; 45; 32; 46; 110; 97; 110; 10; 32; 32; 32; 32; 45; 32; 45; 46; 105; 110; 102; 10; 32; 32; 32; 32; 45; 32; 45; 46; 105; 110; 102; 115; 10; 32; 32; 32; 32; 45; 32; 50; 48; 48; 49; 45; 49; 49; 45; 50; 51; 32; 49; 53; 58; 48; 49; 58; 52; 50; 32; 45; 53; 10; 32; 32; 32; 32; 45; 32; 104; 116; 116; 112; 115; 58; 47; 47; 119; 119; 119; 46; 103; 111; 111; 103; 108; 101; 46; 99; 111; 109; 47; 10; 45; 97; 50; 58; 32; 33; 33; 116; 49; 32; 52; 46; 48; 51; 32; 32; 35; 32; 84; 101; 115; 116; 32; 99; 111; 109; 109; 101; 110; 116; 32; 97; 102; 116; 101; 114; 32; 110; 111; 114; 109; 97; 108; 32; 115; 99; 97; 108; 97; 114; 115; 46; 10; 63; 32; 32; 35; 32; 84; 101; 115; 116; 32; 99; 111; 109; 109; 101; 110; 116; 32; 97; 102; 116; 101; 114; 32; 119; 114; 97; 112; 112; 101; 100; 33; 32; 40; 50; 41; 10; 32; 32; 45; 32; 113; 10; 32; 32; 45; 32; 114; 32; 32; 35; 32; 84; 101; 115; 116; 32; 99; 111; 109; 109; 101; 110; 116; 32; 97; 102; 116; 101; 114; 32; 112; 108; 97; 105; 110; 32; 115; 116; 114; 105; 110; 103; 46; 46; 46; 10; 32; 32; 45; 32; 115; 10; 58; 32; 33; 33; 116; 50; 32; 123; 32; 49; 58; 32; 50; 44; 32; 51; 58; 52; 32; 125; 32; 32; 35; 32; 84; 101; 115; 116; 32; 99; 111; 109; 109; 101; 110; 116; 32; 97; 102; 116; 101; 114; 32; 119; 114; 97; 112; 112; 101; 100; 33; 32; 40; 51; 41; 10; 63; 97; 51; 58; 32; 33; 60; 116; 97; 103; 58; 109; 121; 46; 116; 97; 103; 46; 112; 114; 101; 102; 105; 120; 58; 116; 116; 62; 10; 32; 32; 45; 32; 91; 100; 49; 240; 159; 128; 132; 240; 159; 131; 143; 44; 32; 228; 184; 173; 230; 150; 135; 93; 10; 32; 32; 45; 32; 38; 120; 32; 126; 10; 32; 32; 45; 32; 42; 120; 10; 32; 32; 45; 10; 63; 32; 38; 121; 10; 32; 32; 97; 52; 58; 10; 58; 32; 45; 51; 48; 10; 63; 32; 42; 121; 58; 32; 98; 51; 44; 32; 98; 52; 10; 35; 32; 84; 101; 115; 116; 32; 119; 114; 97; 112; 112; 105; 110; 103; 10; 63; 32; 116; 101; 115; 116; 10; 32; 32; 109; 117; 108; 116; 105; 108; 105; 110; 101; 58; 10; 32; 32; 45; 32; 102; 111; 108; 100; 101; 100; 58; 32; 62; 10; 32; 32; 32; 32; 32; 32; 97; 97; 97; 123; 125; 91; 93; 10; 32; 32; 32; 32; 32; 32; 98; 98; 98; 10; 32; 32; 32; 32; 32; 32; 32; 32; 99; 99; 99; 10; 10; 32; 32; 32; 32; 32; 32; 32; 32; 100; 100; 100; 10; 10; 32; 32; 32; 32; 32; 32; 35; 32; 101; 101; 101; 10; 32; 32; 32; 32; 108; 105; 116; 101; 114; 97; 108; 58; 32; 124; 10; 32; 32; 32; 32; 32; 32; 97; 97; 97; 123; 125; 91; 93; 10; 32; 32; 32; 32; 32; 32; 98; 98; 98; 10; 32; 32; 32; 32; 32; 32; 32; 32; 99; 99; 99; 10; 10; 32; 32; 32; 32; 32; 32; 32; 32; 100; 100; 100; 10; 10; 32; 32; 32; 32; 32; 32; 35; 32; 101; 101; 101; 10; 32; 32; 45; 32; 112; 108; 97; 105; 110; 58; 32; 97; 97; 97; 123; 125; 91; 93; 32; 34; 98; 98; 98; 34; 32; 39; 99; 99; 99; 39; 44; 10; 32; 32; 32; 32; 32; 32; 100; 100; 100; 92; 110; 10; 10; 32; 32; 32; 32; 32; 32; 101; 101; 101; 10; 32; 32; 32; 32; 32; 32; 32; 32; 102; 102; 102; 10; 10; 32; 32; 32; 32; 32; 32; 35; 32; 103; 103; 103; 10; 32; 32; 32; 32; 115; 105; 110; 103; 108; 101; 32; 113; 117; 111; 116; 101; 100; 58; 32; 39; 97; 97; 97; 123; 125; 91; 93; 32; 34; 98; 98; 98; 34; 32; 39; 39; 99; 99; 99; 39; 39; 44; 10; 32; 32; 32; 32; 32; 32; 100; 100; 100; 92; 110; 10; 10; 32; 32; 32; 32; 32; 32; 101; 101; 101; 10; 32; 32; 32; 32; 32; 32; 32; 32; 102; 102; 102; 10; 10; 32; 32; 32; 32; 32; 32; 35; 32; 103; 103; 103; 39; 10; 32; 32; 32; 32; 100; 111; 117; 98; 108; 101; 32; 113; 117; 111; 116; 101; 100; 58; 32; 34; 97; 97; 97; 123; 125; 91; 93; 32; 92; 34; 98; 98; 98; 92; 34; 32; 39; 99; 99; 99; 39; 44; 10; 32; 32; 32; 32; 32; 32; 100; 100; 92; 10; 32; 32; 32; 32; 32; 32; 100; 92; 92; 110; 92; 110; 10; 32; 32; 32; 32; 32; 32; 101; 101; 101; 10; 32; 32; 32; 32; 32; 32; 32; 32; 102; 102; 102; 10; 10; 32; 32; 32; 32; 32; 32; 35; 32; 103; 103; 103; 34; 10; 32; 32; 45; 32; 124; 43; 10; 32; 32; 32; 32; 108; 105; 116; 101; 114; 97; 108; 10; 10; 32; 32; 45; 32; 62; 45; 10; 32; 32; 32; 32; 108; 105; 116; 101; 114; 97; 108; 10; 10; 45; 45; 45; 10; 35; 32; 82; 101; 118; 101; 97; 108; 46; 121; 97; 109; 108; 32; 116; 101; 115; 116; 32; 40; 99; 111; 109; 112; 97; 99; 116; 32; 109; 111; 100; 101; 41; 10; 116; 105; 116; 108; 101; 58; 32; 73; 109; 97; 103; 101; 115; 10; 102; 105; 116; 58; 10; 45; 32; 97; 10; 45; 32; 98; 10; 115; 117; 98; 58; 10; 45; 32; 116; 105; 116; 108; 101; 58; 32; 76; 97; 121; 32; 119; 105; 116; 104; 32; 73; 109; 97; 103; 101; 115; 10; 32; 32; 108; 97; 121; 45; 105; 109; 103; 58; 10; 32; 32; 45; 32; 115; 114; 99; 58; 32; 104; 116; 116; 112; 115; 58; 47; 47; 112; 108; 97; 99; 101; 107; 105; 116; 116; 101; 110; 46; 99; 111; 109; 47; 52; 53; 48; 47; 52; 53; 48; 10; 32; 32; 32; 32; 102; 114; 97; 103; 58; 32; 102; 97; 100; 101; 45; 114; 105; 103; 104; 116; 10; 32; 32; 45; 32; 115; 114; 99; 58; 32; 104; 116; 116; 112; 115; 58; 47; 47; 112; 108; 97; 99; 101; 107; 105; 116; 116; 101; 110; 46; 99; 111; 109; 47; 54; 48; 48; 47; 51; 48; 48; 10; 32; 32; 32; 32; 102; 114; 97; 103; 58; 32; 102; 97; 100; 101; 45; 108; 101; 102; 116; 10; 46; 46; 46; 10]%N.
(** src/tests/dump_result.yaml *)
Definition file_dump_result : bytes := [97; 58; 32; 98; 10; 99; 58; 10; 32; 32; 45; 32; 100; 58; 32; 101; 10; 32; 32; 45; 32; 102; 58; 10; 32; 32; 32; 32; 32; 32; 103; 58; 32; 104; 10; 32; 32; 45; 32; 105; 58; 10; 32; 32; 32; 32; 45; 32; 106; 10; 45; 45; 45; 10; 45; 32; 97; 10; 45; 32; 98; 10]%N.
(** src/tests/indent.yaml *)
Definition file_indent : bytes := [118; 101; 114; 115; 105; 111; 110; 58; 32; 50; 10; 109; 111; 100; 101; 108; 115; 58; 10; 32; 32; 32; 32; 45; 32; 110; 97; 109; 101; 58; 32; 111; 114; 100; 101; 114; 115; 10; 32; 32; 32; 32; 32; 32; 99; 111; 108; 117; 109; 110; 115; 58; 10; 32; 32; 32; 32; 32; 32; 32; 32; 32; 32; 45; 32; 110; 97; 109; 101; 58; 32; 99; 95; 99; 117; 115; 116; 107; 101; 121; 10; 32; 32; 32; 32; 32; 32; 32; 32; 32; 32; 32; 32; 116; 101; 115; 116; 115; 58; 10; 32; 32; 32; 32; 32; 32; 32; 32; 32; 32; 32; 32; 32; 32; 32; 32; 45; 32; 110; 111; 116; 95; 110; 117; 108; 108; 10; 109; 97; 112; 58; 10; 45; 32; 97; 10; 45; 32; 98; 10; 45; 32; 99; 10; 45; 45; 45; 32; 33; 110; 111; 114; 109; 97; 108; 45; 115; 101; 113; 117; 101; 110; 99; 101; 10; 35; 32; 78; 111; 114; 109; 97; 108; 32; 115; 101; 113; 117; 101; 110; 99; 101; 10; 45; 32; 97; 49; 10; 45; 32; 116; 114; 117; 101; 32; 111; 102; 10; 45; 32; 97; 50; 10]%N.
(** src/tests/json_compatibility.json *)
Definition file_json_compatibility : bytes := [10; 123; 10; 32; 32; 32; 32; 34; 97; 34; 58; 32; 34; 98; 34; 44; 10; 32; 32; 32; 32; 34; 99; 34; 58; 32; 91; 49; 50; 51; 44; 32; 51; 50; 49; 44; 32; 49; 50; 51; 52; 53; 54; 55; 93; 44; 10; 32; 32; 32; 32; 34; 100; 34; 58; 32; 123; 125; 44; 10; 32; 32; 32; 32; 34; 101; 58; 102; 34; 58; 32; 34; 103; 34; 10; 125; 10]%N.
(** src/tests/nofinalnewline_map.yaml *)
Definition file_nofinalnewline_map : bytes := [97; 58; 32; 98]%N.
(** src/tests/nofinalnewline_scalar.yaml *)
Definition file_nofinalnewline_scalar : bytes := [102; 111; 111]%N.
(** src/tests/nofinalnewline_seq.yaml *)
Definition file_nofinalnewline_seq : bytes := [45; 32; 97; 10; 45; 32; 98]%N.

(** ** src/tests/mod.rs *)
(** test_yaml_nofinalnewline *)
Example nofinalnewline :
  is (root file_nofinalnewline_seq 0) (seq [t (lit "a"); t (lit "b")])
  /\ is (root file_nofinalnewline_map 0) (map [(t (lit "a"), t (lit "b"))])
  /\ is (root file_nofinalnewline_scalar 0) (t (lit "foo")).
Proof. vm_compute. repeat split. Qed.
(** test_json *)
Example json :
  let n := root file_json_compatibility 0 in
  is n (map [(t (lit "a"), t (lit "b")); (t (lit "c"), seq [int (lit "123"); int (lit "321"); int (lit "1234567")]); (t (lit "d"), map []); (t (lit "e:f"), t (lit "g"))])
  /\ got (node_get hk n (t (lit "a"))) (fun b => is b (t (lit "b"))).
Proof. vm_compute. split; reflexivity. Qed.
(** test_yaml *)
Definition complete1 : node := 
map [(t (lit "a0 bb"), t (lit ".val."));
 (t (lit "::a1"), map [(t (lit "b1"), fl (lit "4"));
   (t (lit "b2"), seq [t (lit "123   abc"); t (lit "50%"); int (lit "8"); int (lit "16"); fl (lit "0.0002"); fl (lit "NaN"); fl (lit "-inf"); t (lit "-.infs");
      t (lit "2001-11-23 15:01:42 -5"); t (lit "https://www.google.com/")])]);
 (t (lit "-a2"), fl (lit "4.03"));
 (seq [t (lit "q"); t (lit "r"); t (lit "s")], map [(int (lit "1"), int (lit "2")); (int (lit "3"), int (lit "4"))]);
 (t (lit "?a3"), seq [seq [t [100; 49; 126980; 127183]%N; t [20013; 25991]%N]; null; null; null]);
 (map [(t (lit "a4"), null)], int (lit "-30"));
 (map [(t (lit "a4"), null)], t (lit "b3, b4"));
 (t (lit "test multiline"), seq [
    map [(t (lit "folded"), t [97; 97; 97; 123; 125; 91; 93; 32; 98; 98; 98; 32; 99; 99; 99; 10; 100; 100; 100; 10; 35; 32; 101; 101; 101; 10]%N);
         (t (lit "literal"), t [97; 97; 97; 123; 125; 91; 93; 10; 98; 98; 98; 10; 32; 32; 99; 99; 99; 10; 10; 32; 32; 100; 100; 100; 10; 10; 35; 32; 101; 101; 101; 10]%N)];
    map [(t (lit "plain"), t [97; 97; 97; 123; 125; 91; 93; 32; 34; 98; 98; 98; 34; 32; 39; 99; 99; 99; 39; 44; 32; 100; 100; 100; 92; 110; 10; 101; 101; 101; 32; 102; 102; 102]%N);
         (t (lit "single quoted"), t [97; 97; 97; 123; 125; 91; 93; 32; 34; 98; 98; 98; 34; 32; 39; 99; 99; 99; 39; 44; 32; 100; 100; 100; 92; 110; 10; 101; 101; 101; 32; 102; 102; 102; 10; 35; 32; 103; 103; 103]%N);
         (t (lit "double quoted"), t [97; 97; 97; 123; 125; 91; 93; 32; 34; 98; 98; 98; 34; 32; 39; 99; 99; 99; 39; 44; 32; 100; 100; 100; 92; 110; 10; 101; 101; 101; 32; 102; 102; 102; 10; 35; 32; 103; 103; 103]%N)];
    t [108; 105; 116; 101; 114; 97; 108; 10; 10]%N;
    t (lit "literal")])].
Definition complete2 : node := 
map [(t (lit "title"), t (lit "Images")); (t (lit "fit"), seq [t (lit "a"); t (lit "b")]);
 (t (lit "sub"), seq [map [(t (lit "title"), t (lit "Lay with Images"));
   (t (lit "lay-img"), seq [map [(t (lit "src"), t (lit "https://placekitten.com/450/450")); (t (lit "frag"), t (lit "fade-right"))];
                      map [(t (lit "src"), t (lit "https://placekitten.com/600/300")); (t (lit "frag"), t (lit "fade-left"))]])]])].
Definition tag_at (n : node) (k : str) : option str := option_map node_tag (index_key hk n (t k)).
Example complete :
  let n1 := root file_complete_doc 0 in
  List.length (nodes file_complete_doc) = 2
  /\ is n1 complete1 /\ is (root file_complete_doc 1) complete2
  /\ node_tag n1 = lit "tag:test.x.prefix:root"
  /\ tag_at n1 (lit "a0 bb") = Some (lit "tag:test.x.prefix:foo")
  /\ tag_at n1 (lit "-a2") = Some (lit "tag:test.prefix:t1")
  /\ tag_at n1 (lit "?a3") = Some (lit "tag:my.tag.prefix:tt").
Proof. vm_compute. repeat split. Qed.
(** test_dump, on Unix and on Windows *)
Definition dumped : list node :=
  [map [(t (lit "a"), t (lit "b")); (t (lit "c"), seq [map [(t (lit "d"), t (lit "e"))]; map [(t (lit "f"), map [(t (lit "g"), t (lit "h"))])]; map [(t (lit "i"), seq [t (lit "j")])]])];
   seq [t (lit "a"); t (lit "b")]].
Definition text (win : bool) (l : list node) : option bytes :=
  match dump win (fun _ => true) l [] with ROk s => Some (utf8_encode s) | _ => None end.
Example dump_result : text false dumped = Some file_dump_result
  /\ option_map (remove2 13 10) (text true dumped) = Some (filter (fun c => negb (c =? 10)%N) file_dump_result).
Proof. vm_compute. split; reflexivity. Qed.
(** test_indent *)
Example indented :
  is (root file_indent 0) (map [(t (lit "version"), int (lit "2"));
     (t (lit "models"), seq [map [(t (lit "name"), t (lit "orders")); (t (lit "columns"), seq [map [(t (lit "name"), t (lit "c_custkey")); (t (lit "tests"), seq [t (lit "not_null")])]])]]);
     (t (lit "map"), seq [t (lit "a"); t (lit "b"); t (lit "c")])])
  /\ node_tag (root file_indent 1) = lit "normal-sequence"
  /\ is (root file_indent 1) (seq [t (lit "a1"); t (lit "true of"); t (lit "a2")]).
Proof. vm_compute. repeat split. Qed.
(** test_anchor *)
Example anchors :
  let ab := map [(t (lit "a"), t (lit "b"))] in
  is (root file_anchor 0) (seq [ab; ab; ab; ab; seq [ab; ab]; seq [ab; ab]]).
Proof. vm_compute. reflexivity. Qed.

(** ** Documentation tests *)
Definition bob : node := map [(t (lit "name"), t (lit "Bob")); (t (lit "married"), boolean true); (t (lit "age"), int (lit "46"))].
Definition bob_doc : bytes := [10; 45; 45; 45; 10; 110; 97; 109; 101; 58; 32; 66; 111; 98; 10; 109; 97; 114; 114; 105; 101; 100; 58; 32; 116; 114; 117; 101; 10; 97; 103; 101; 58; 32; 52; 54; 10]%N.
(** src/parser/mod.rs:82-87 *)
Example loader_true : List.length (nodes [116; 114; 117; 101]%N) = 1 /\ is (root [116; 114; 117; 101]%N 0) (boolean true).
Proof. vm_compute. split; reflexivity. Qed.
(** src/parser/mod.rs:501-524, README.md *)
Example parse_bob : List.length (nodes bob_doc) = 1 /\ is (root bob_doc 0) bob.
Proof. vm_compute. split; reflexivity. Qed.
(** src/parser/mod.rs:532-542 *)
Example cyclic_root : match parse_cyclic hk (utf8_lossy [10; 45; 45; 45; 32; 38; 114; 111; 111; 116; 10; 109; 97; 112; 58; 32; 42; 114; 111; 111; 116; 10]%N) with
  | ROk ([r], an :: _) => is r (map [(t (lit "map"), al (lit "root"))]) /\ some (bt_get (lit "root") an) (fun x => is x r)
  | _ => False
  end.
Proof. vm_compute. split; reflexivity. Qed.
(** src/dumper.rs:147-161 *)
Example dump_doc : text false [map [(t (lit "a"), t (lit "b")); (t (lit "c"), t (lit "d"))]] = Some [97; 58; 32; 98; 10; 99; 58; 32; 100; 10]%N.
Proof. vm_compute. reflexivity. Qed.
(** src/indicator.rs:6-11 *)
Example indicated : indicated_msg [123; 34; 97; 34; 58; 32; 10; 91; 34; 98; 34; 44; 32; 34; 99; 34; 44; 32; 34; 100; 34; 93; 125]%N 13 = Some (utf8_lossy [50; 58; 55; 10; 91; 34; 98; 34; 44; 32; 34; 99; 34; 44; 32; 34; 100; 34; 93; 125; 10; 32; 32; 32; 32; 32; 32; 94]%N).
Proof. vm_compute. reflexivity. Qed.
(** src/yaml.rs:60-65 *)
Example floats : is (fl (lit "0.001")) (fl (lit "1e-3")) /\ is (int (lit "20")) (node_from (YInt (show_Z 20))).
Proof. vm_compute. split; reflexivity. Qed.
(** src/node.rs:63-75 *)
Example index : some (index_ind (seq [t (lit "a"); t (lit "b"); t (lit "c")]) 1) (is (t (lit "b")))
  /\ index_key hk null (t (lit "a")) = None.
Proof. vm_compute. split; reflexivity. Qed.
(** src/node.rs:87-105 *)
Example as_str_error : got (node_get hk (map [(t (lit "title"), fl (lit "12"))]) (t (lit "title"))) (fun n => as_str n = inr 0%N).
Proof. vm_compute. reflexivity. Qed.
(** src/node.rs:212-275, 309-320 *)
Example accessors : as_int (int (lit "60")) = inl 60%Z
  /\ ok_or (as_float (fl (lit "20.06"))) (fun x => some (to_f64 (lit "20.06")) (fun y => f_eqb x y = true))
  /\ ok_or (as_number (int (lit "60"))) (fun x => some (to_f64 (lit "60.")) (fun y => f_eqb x y = true))
  /\ as_bool (boolean true) = inl true /\ as_str (t (lit "abc")) = inl (lit "abc") /\ as_str null = inl []
  /\ as_value (t (lit "abc")) = inl (lit "abc") /\ as_value (int (lit "123")) = inl (lit "123") /\ as_value (fl (lit "12.04")) = inl (lit "12.04")
  /\ as_value (boolean true) = inl (lit "true") /\ as_value (boolean false) = inl (lit "false") /\ as_value null = inl [].
Proof. vm_compute. repeat split. Qed.
(** src/node.rs:331-340 *)
Example anchor_of : ok_or (as_anchor (al (lit "a")) (bt_insert (lit "a") (int (lit "20")) [])) (fun n => as_int n = inl 20%Z).
Proof. vm_compute. reflexivity. Qed.
(** src/node.rs:353-405, 430-436 *)
Example getters :
  got (node_get hk (map [(t (lit "a"), map [(t (lit "b"), fl (lit "30"))])]) (t (lit "a"))) (fun a => got (node_get hk a (t (lit "b"))) (is (fl (lit "30"))))
  /\ node_get_default hk (map [(t (lit "b"), t (lit "c"))]) (t (lit "b")) (lit "d") as_str = Some (inl (lit "c"))
  /\ node_get_default hk (map []) (t (lit "b")) (lit "d") as_str = Some (inl (lit "d"))
  /\ node_get_default hk (map [(t (lit "b"), fl (lit "20"))]) (t (lit "b")) (lit "d") as_str = Some (inr 0%N)
  /\ node_get_default hk (map [(t (lit "a"), seq [int (lit "1"); int (lit "2"); int (lit "3")])]) (t (lit "c")) [] as_seq = Some (inl [])
  /\ ok_or (get_ind (seq [t (lit "a"); t (lit "b"); t (lit "c")]) 1) (is (t (lit "b"))).
Proof. vm_compute. repeat split. Qed.

(** ** Serde documentation tests *)
Definition show_f : f64 -> str := fun _ => [].
Definition Member : ty := TStruct [(lit "name", TString); (lit "married", TBool); (lit "age", TInt false 8)].
Definition officer : val := VList [VStr (lit "Bob"); VBool true; VInt 46].
(** src/serde/de.rs:49-70, src/serde/mod.rs:5-25 and 60-80 *)
Example member_de : from_str show_f hk Member (utf8_lossy bob_doc) = Some (DOk [officer]) /\ de show_f hk Member bob = DOk officer
  /\ from_str show_f hk Member (utf8_lossy [10; 110; 97; 109; 101; 58; 32; 66; 111; 98; 10; 109; 97; 114; 114; 105; 101; 100; 58; 32; 56; 52; 10; 97; 103; 101; 58; 32; 52; 54; 10]%N) = Some (DErr 20).
Proof. vm_compute. repeat split. Qed.
(** src/serde/ser.rs:82-99, 137-155 *)
Example member_ser : dgot (to_node show_f hk Member officer) (is bob)
  /\ to_string false (fun _ => true) show_f hk Member officer = Some (DOk (utf8_lossy [110; 97; 109; 101; 58; 32; 66; 111; 98; 10; 109; 97; 114; 114; 105; 101; 100; 58; 32; 116; 114; 117; 101; 10; 97; 103; 101; 58; 32; 52; 54; 10]%N)).
Proof. vm_compute. split; reflexivity. Qed.
(** src/serde/inline_list.rs:11-35; [Content] is read through its only field *)
Definition Img : ty := TStruct [(lit "src", TString)].
Definition img (s : str) : node := map [(t (lit "src"), t s)].
Example inline_doc :
  dgot (de_inline_list show_f hk Img (seq [img (lit "img/1.png"); img (lit "img/2.png")])) (fun x => il_iter x = [VList [VStr (lit "img/1.png")]; VList [VStr (lit "img/2.png")]])
  /\ dgot (de_inline_list show_f hk Img (img (lit "img/1.png"))) (fun x => il_into_iter x = [VList [VStr (lit "img/1.png")]]).
Proof. vm_compute. split; reflexivity. Qed.
(** src/serde/optional.rs:6-40 *)
Example optional_doc : let d := VList [VStr (lit "~/img/.desktop.png")] in
  dgot (de_optional show_f hk Img (boolean false)) (fun x => o_ok d x = [])
  /\ dgot (de_optional show_f hk Img (boolean true)) (fun x => o_ok d x = [d])
  /\ dgot (de_optional show_f hk Img (img (lit "img/1.png"))) (fun x => o_ok d x = [VList [VStr (lit "img/1.png")]]).
Proof. vm_compute. repeat split. Qed.
(** src/serde/stringify.rs:12-27 *)
Example stringify_doc : forall show32,
  dgot (de_stringify show_f hk (int (lit "20"))) (fun x => display_text_like show32 x = lit "20")
  /\ dgot (de_stringify show_f hk (t (lit "20%"))) (fun x => display_text_like show32 x = lit "20%").
Proof. intros. vm_compute. split; reflexivity. Qed.
