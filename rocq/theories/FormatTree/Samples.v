(* Sources and their trees, for the examples of Props.v.  Generated by tools/fmtcases.py --samples. *)
From Coq Require Import List Arith Bool ZArith NArith Ascii String.
From Verif Require Import Base Strs.
From Verif.Format Require Import Model.
From Verif.FormatTree Require Import Model.
Import ListNotations.
Open Scope list_scope.

Definition tk k t ws line := Token k t [] [] ws line false.
(* alg.go:33-35 in exact arithmetic: size is at least 2.5 times, or at most 0.4 times, the geometric
   mean of the sizes. *)
Definition exact_dec (sizes : list nat) (size : nat) : bool :=
  let n := N.of_nat (List.length sizes) in
  let prod := fold_right (fun a p => N.of_nat a * p)%N 1%N sizes in
  let s := N.of_nat size in
  ((5 ^ n * prod <=? (2 * s) ^ n) || ((5 * s) ^ n <=? 2 ^ n * prod))%N.
(* format.go:96-109: PrintNode drops one newline at each end *)
Definition print_node (s : bytes) : bytes :=
  let s1 := match s with c :: r => if Ascii.eqb c nl then r else s | [] => [] end in
  match rev s1 with c :: r => if Ascii.eqb c nl then rev r else s1 | [] => [] end.
Definition printed (f : file) : bytes * bool * bool :=
  let r := format exact_dec (fun l => l) (fun l => l) f in (print_node (out r), err r, crash r).

Definition whole_text : bytes := (b_ "// License." ++ [nl] ++ [nl] ++ b_ "syntax = " ++ [dq] ++ b_ "proto3" ++ [dq] ++ b_ ";" ++ [nl] ++ b_ "package a.b; // the package" ++ [nl] ++ b_ "import 'x.proto';" ++ [nl] ++ b_ "import public " ++ [dq] ++ b_ "x.proto" ++ [dq] ++ b_ "; // kept" ++ [nl] ++ b_ "import " ++ [dq] ++ b_ "y.proto" ++ [dq] ++ b_ ";" ++ [nl] ++ b_ "option java_package = 'p';" ++ [nl] ++ b_ "option (opt).f = {a: 1; b {c: [1, 2] d: -3.5}};" ++ [nl] ++ [nl] ++ b_ "// A message." ++ [nl] ++ b_ "message M {" ++ [nl] ++ b_ "  int32 f = 1 [deprecated = true, (x) = " ++ [dq] ++ b_ "s" ++ [dq] ++ b_ "]; /* one */" ++ [nl] ++ b_ "  repeated .a.b.N  g = 2;" ++ [nl] ++ b_ "  map<string, a.b.N> m = 3;" ++ [nl] ++ b_ "  oneof o {" ++ [nl] ++ b_ "    string s = 4 [" ++ [nl] ++ b_ "      json_name = 't'," ++ [nl] ++ b_ "      (y) = {u: " ++ [dq] ++ b_ "v" ++ [dq] ++ b_ " 'w'}," ++ [nl] ++ b_ "    ];" ++ [nl] ++ b_ "  }" ++ [nl] ++ b_ "  reserved 5 to 7, 9 to max;" ++ [nl] ++ b_ "  message N { ; }" ++ [nl] ++ b_ "  enum E { option allow_alias = true; A = 0; B = -1; }" ++ [nl] ++ b_ "}" ++ [nl] ++ b_ "service S {" ++ [nl] ++ b_ "  rpc Get(M) returns (stream M) {}" ++ [nl] ++ b_ "  rpc Put(stream .a.b.M) returns (M) {" ++ [nl] ++ b_ "    option deprecated = true;" ++ [nl] ++ b_ "  }" ++ [nl] ++ b_ "}" ++ [nl] ++ b_ "// The end." ++ [nl]).
Definition whole_file : file := File (Some ((Token KId (b_ "syntax") [Comment (b_ "// License.") [] false] [] ([nl] ++ [nl]) 2 false), (tk KRune (b_ "=") (b_ " ") 2), (VTok (tk KStr ([dq] ++ b_ "proto3" ++ [dq]) (b_ " ") 2)), Some (tk KRune (b_ ";") [] 2))) [FPackage (tk KId (b_ "package") ([nl]) 3) (Some (Cid [(tk KId (b_ "a") (b_ " ") 3); (tk KRune (b_ ".") [] 3); (tk KId (b_ "b") [] 3)])) (Some (Token KRune (b_ ";") [] [Comment (b_ "// the package") (b_ " ") false] [] 3 false)); FImport (Import (tk KId (b_ "import") ([nl]) 4) None (VTok (tk KStr (b_ "'x.proto'") (b_ " ") 4)) (b_ "x.proto") (Some (tk KRune (b_ ";") [] 4))); FImport (Import (tk KId (b_ "import") ([nl]) 5) (Some (tk KId (b_ "public") (b_ " ") 5)) (VTok (tk KStr ([dq] ++ b_ "x.proto" ++ [dq]) (b_ " ") 5)) (b_ "x.proto") (Some (Token KRune (b_ ";") [] [Comment (b_ "// kept") (b_ " ") false] [] 5 false))); FImport (Import (tk KId (b_ "import") ([nl]) 6) None (VTok (tk KStr ([dq] ++ b_ "y.proto" ++ [dq]) (b_ " ") 6)) (b_ "y.proto") (Some (tk KRune (b_ ";") [] 6))); FOption (Opt (Some (tk KId (b_ "option") ([nl]) 7)) (Some [PRef (FieldRef None None None (Id (tk KId (b_ "java_package") (b_ " ") 7)) None)]) (Some (tk KRune (b_ "=") (b_ " ") 7)) (Some (VTok (tk KStr (b_ "'p'") (b_ " ") 7))) (Some (tk KRune (b_ ";") [] 7))); FOption (Opt (Some (tk KId (b_ "option") ([nl]) 8)) (Some [PRef (FieldRef (Some (tk KRune (b_ "(") (b_ " ") 8)) None None (Id (tk KId (b_ "opt") [] 8)) (Some (tk KRune (b_ ")") [] 8))); PDot (tk KRune (b_ ".") [] 8); PRef (FieldRef None None None (Id (tk KId (b_ "f") [] 8)) None)]) (Some (tk KRune (b_ "=") (b_ " ") 8)) (Some (VMsg (tk KRune (b_ "{") (b_ " ") 8) [MField (FieldRef None None None (Id (tk KId (b_ "a") [] 8)) None) (Some (tk KRune (b_ ":") [] 8)) (VTok (tk KNum (b_ "1") (b_ " ") 8)) (Some (tk KRune (b_ ";") [] 8)); MField (FieldRef None None None (Id (tk KId (b_ "b") (b_ " ") 8)) None) None (VMsg (tk KRune (b_ "{") (b_ " ") 8) [MField (FieldRef None None None (Id (tk KId (b_ "c") [] 8)) None) (Some (tk KRune (b_ ":") [] 8)) (VArr (tk KRune (b_ "[") (b_ " ") 8) [(VTok (tk KNum (b_ "1") [] 8)); (VTok (tk KNum (b_ "2") (b_ " ") 8))] [(tk KRune (b_ ",") [] 8)] (tk KRune (b_ "]") [] 8) None) None; MField (FieldRef None None None (Id (tk KId (b_ "d") (b_ " ") 8)) None) (Some (tk KRune (b_ ":") [] 8)) (VNum (tk KRune (b_ "-") (b_ " ") 8) (tk KNum (b_ "3.5") [] 8)) None] (tk KRune (b_ "}") [] 8) None) None] (tk KRune (b_ "}") [] 8) None)) (Some (tk KRune (b_ ";") [] 8))); FDecl (DMessage (Token KId (b_ "message") [Comment (b_ "// A message.") ([nl] ++ [nl]) false] [] ([nl]) 11 false) (tk KId (b_ "M") (b_ " ") 11) (tk KRune (b_ "{") (b_ " ") 11) [DField None (Id (tk KId (b_ "int32") ([nl] ++ b_ "  ") 12)) (Some (tk KId (b_ "f") (b_ " ") 12)) (Some (tk KRune (b_ "=") (b_ " ") 12)) (Some (VTok (tk KNum (b_ "1") (b_ " ") 12))) (Some (COpts (tk KRune (b_ "[") (b_ " ") 12) [Opt None (Some [PRef (FieldRef None None None (Id (tk KId (b_ "deprecated") [] 12)) None)]) (Some (tk KRune (b_ "=") (b_ " ") 12)) (Some (VTok (tk KId (b_ "true") (b_ " ") 12))) (Some (tk KRune (b_ ",") [] 12)); Opt None (Some [PRef (FieldRef (Some (tk KRune (b_ "(") (b_ " ") 12)) None None (Id (tk KId (b_ "x") [] 12)) (Some (tk KRune (b_ ")") [] 12)))]) (Some (tk KRune (b_ "=") (b_ " ") 12)) (Some (VTok (tk KStr ([dq] ++ b_ "s" ++ [dq]) (b_ " ") 12))) None] (tk KRune (b_ "]") [] 12) None)) (Some (Token KRune (b_ ";") [] [Comment (b_ "/* one */") (b_ " ") false] [] 12 false)); DField (Some (tk KId (b_ "repeated") ([nl] ++ b_ "  ") 13)) (Cid [(tk KRune (b_ ".") (b_ " ") 13); (tk KId (b_ "a") [] 13); (tk KRune (b_ ".") [] 13); (tk KId (b_ "b") [] 13); (tk KRune (b_ ".") [] 13); (tk KId (b_ "N") [] 13)]) (Some (tk KId (b_ "g") (b_ "  ") 13)) (Some (tk KRune (b_ "=") (b_ " ") 13)) (Some (VTok (tk KNum (b_ "2") (b_ " ") 13))) None (Some (tk KRune (b_ ";") [] 13)); DMap (tk KId (b_ "map") ([nl] ++ b_ "  ") 14) (tk KRune (b_ "<") [] 14) (Id (tk KId (b_ "string") [] 14)) (tk KRune (b_ ",") [] 14) (Cid [(tk KId (b_ "a") (b_ " ") 14); (tk KRune (b_ ".") [] 14); (tk KId (b_ "b") [] 14); (tk KRune (b_ ".") [] 14); (tk KId (b_ "N") [] 14)]) (tk KRune (b_ ">") [] 14) None (tk KId (b_ "m") (b_ " ") 14) (tk KRune (b_ "=") (b_ " ") 14) (VTok (tk KNum (b_ "3") (b_ " ") 14)) None (Some (tk KRune (b_ ";") [] 14)); DOneof (tk KId (b_ "oneof") ([nl] ++ b_ "  ") 15) (tk KId (b_ "o") (b_ " ") 15) (tk KRune (b_ "{") (b_ " ") 15) [DField None (Id (tk KId (b_ "string") ([nl] ++ b_ "    ") 16)) (Some (tk KId (b_ "s") (b_ " ") 16)) (Some (tk KRune (b_ "=") (b_ " ") 16)) (Some (VTok (tk KNum (b_ "4") (b_ " ") 16))) (Some (COpts (tk KRune (b_ "[") (b_ " ") 16) [Opt None (Some [PRef (FieldRef None None None (Id (tk KId (b_ "json_name") ([nl] ++ b_ "      ") 17)) None)]) (Some (tk KRune (b_ "=") (b_ " ") 17)) (Some (VTok (tk KStr (b_ "'t'") (b_ " ") 17))) (Some (tk KRune (b_ ",") [] 17)); Opt None (Some [PRef (FieldRef (Some (tk KRune (b_ "(") ([nl] ++ b_ "      ") 18)) None None (Id (tk KId (b_ "y") [] 18)) (Some (tk KRune (b_ ")") [] 18)))]) (Some (tk KRune (b_ "=") (b_ " ") 18)) (Some (VMsg (tk KRune (b_ "{") (b_ " ") 18) [MField (FieldRef None None None (Id (tk KId (b_ "u") [] 18)) None) (Some (tk KRune (b_ ":") [] 18)) (VStr [(tk KStr ([dq] ++ b_ "v" ++ [dq]) (b_ " ") 18); (tk KStr (b_ "'w'") (b_ " ") 18)]) None] (tk KRune (b_ "}") [] 18) None)) (Some (tk KRune (b_ ",") [] 18))] (tk KRune (b_ "]") ([nl] ++ b_ "    ") 19) None)) (Some (tk KRune (b_ ";") [] 19))] (tk KRune (b_ "}") ([nl] ++ b_ "  ") 20) None; DReserved (tk KId (b_ "reserved") ([nl] ++ b_ "  ") 21) [RRange (VTok (tk KNum (b_ "5") (b_ " ") 21)) (Some (tk KId (b_ "to") (b_ " ") 21)) (Some (VTok (tk KNum (b_ "7") (b_ " ") 21))) None; RComma (tk KRune (b_ ",") [] 21); RRange (VTok (tk KNum (b_ "9") (b_ " ") 21)) (Some (tk KId (b_ "to") (b_ " ") 21)) None (Some (tk KId (b_ "max") (b_ " ") 21))] (Some (tk KRune (b_ ";") [] 21)); DMessage (tk KId (b_ "message") ([nl] ++ b_ "  ") 22) (tk KId (b_ "N") (b_ " ") 22) (tk KRune (b_ "{") (b_ " ") 22) [DEmpty (tk KRune (b_ ";") (b_ " ") 22)] (tk KRune (b_ "}") (b_ " ") 22) None; DEnum (tk KId (b_ "enum") ([nl] ++ b_ "  ") 23) (tk KId (b_ "E") (b_ " ") 23) (tk KRune (b_ "{") (b_ " ") 23) [DOption (Opt (Some (tk KId (b_ "option") (b_ " ") 23)) (Some [PRef (FieldRef None None None (Id (tk KId (b_ "allow_alias") (b_ " ") 23)) None)]) (Some (tk KRune (b_ "=") (b_ " ") 23)) (Some (VTok (tk KId (b_ "true") (b_ " ") 23))) (Some (tk KRune (b_ ";") [] 23))); DEnumValue (tk KId (b_ "A") (b_ " ") 23) (tk KRune (b_ "=") (b_ " ") 23) (VTok (tk KNum (b_ "0") (b_ " ") 23)) None (Some (tk KRune (b_ ";") [] 23)); DEnumValue (tk KId (b_ "B") (b_ " ") 23) (tk KRune (b_ "=") (b_ " ") 23) (VNum (tk KRune (b_ "-") (b_ " ") 23) (tk KNum (b_ "1") [] 23)) None (Some (tk KRune (b_ ";") [] 23))] (tk KRune (b_ "}") (b_ " ") 23) None] (tk KRune (b_ "}") ([nl]) 24) None); FDecl (DService (tk KId (b_ "service") ([nl]) 25) (tk KId (b_ "S") (b_ " ") 25) (tk KRune (b_ "{") (b_ " ") 25) [DRpc (tk KId (b_ "rpc") ([nl] ++ b_ "  ") 26) (tk KId (b_ "Get") (b_ " ") 26) (RpcType (tk KRune (b_ "(") [] 26) None (Id (tk KId (b_ "M") [] 26)) (tk KRune (b_ ")") [] 26)) (tk KId (b_ "returns") (b_ " ") 26) (RpcType (tk KRune (b_ "(") (b_ " ") 26) (Some (tk KId (b_ "stream") [] 26)) (Id (tk KId (b_ "M") (b_ " ") 26)) (tk KRune (b_ ")") [] 26)) (Some ((tk KRune (b_ "{") (b_ " ") 26), (tk KRune (b_ "}") [] 26))) [] None; DRpc (tk KId (b_ "rpc") ([nl] ++ b_ "  ") 27) (tk KId (b_ "Put") (b_ " ") 27) (RpcType (tk KRune (b_ "(") [] 27) (Some (tk KId (b_ "stream") [] 27)) (Cid [(tk KRune (b_ ".") (b_ " ") 27); (tk KId (b_ "a") [] 27); (tk KRune (b_ ".") [] 27); (tk KId (b_ "b") [] 27); (tk KRune (b_ ".") [] 27); (tk KId (b_ "M") [] 27)]) (tk KRune (b_ ")") [] 27)) (tk KId (b_ "returns") (b_ " ") 27) (RpcType (tk KRune (b_ "(") (b_ " ") 27) None (Id (tk KId (b_ "M") [] 27)) (tk KRune (b_ ")") [] 27)) (Some ((tk KRune (b_ "{") (b_ " ") 27), (tk KRune (b_ "}") ([nl] ++ b_ "  ") 29))) [DOption (Opt (Some (tk KId (b_ "option") ([nl] ++ b_ "    ") 28)) (Some [PRef (FieldRef None None None (Id (tk KId (b_ "deprecated") (b_ " ") 28)) None)]) (Some (tk KRune (b_ "=") (b_ " ") 28)) (Some (VTok (tk KId (b_ "true") (b_ " ") 28))) (Some (tk KRune (b_ ";") [] 28)))] None] (tk KRune (b_ "}") ([nl]) 30) None)] (Some (Token KRune [] [Comment (b_ "// The end.") ([nl]) false] [] ([nl]) 32 false)).

Definition leading_dot_text : bytes := (b_ "message A {" ++ [nl] ++ b_ "  .foo.Bar f = 1;" ++ [nl] ++ b_ "}" ++ [nl]).
Definition leading_dot_file : file := File None [FDecl (DMessage (tk KId (b_ "message") [] 0) (tk KId (b_ "A") (b_ " ") 0) (tk KRune (b_ "{") (b_ " ") 0) [DField None (Cid [(tk KRune (b_ ".") ([nl] ++ b_ "  ") 1); (tk KId (b_ "foo") [] 1); (tk KRune (b_ ".") [] 1); (tk KId (b_ "Bar") [] 1)]) (Some (tk KId (b_ "f") (b_ " ") 1)) (Some (tk KRune (b_ "=") (b_ " ") 1)) (Some (VTok (tk KNum (b_ "1") (b_ " ") 1))) None (Some (tk KRune (b_ ";") [] 1))] (tk KRune (b_ "}") ([nl]) 2) None)] (Some (tk KRune [] ([nl]) 3)).

Definition dropped_option_text : bytes := (b_ "message A {" ++ [nl] ++ b_ "  int32 f = 1 [(x) = " ++ [dq] ++ b_ "a" ++ [dq] ++ b_ " " ++ [dq] ++ b_ "b" ++ [dq] ++ b_ ", deprecated = true];" ++ [nl] ++ b_ "}" ++ [nl]).
Definition dropped_option_file : file := File None [FDecl (DMessage (tk KId (b_ "message") [] 0) (tk KId (b_ "A") (b_ " ") 0) (tk KRune (b_ "{") (b_ " ") 0) [DField None (Id (tk KId (b_ "int32") ([nl] ++ b_ "  ") 1)) (Some (tk KId (b_ "f") (b_ " ") 1)) (Some (tk KRune (b_ "=") (b_ " ") 1)) (Some (VTok (tk KNum (b_ "1") (b_ " ") 1))) (Some (COpts (tk KRune (b_ "[") (b_ " ") 1) [Opt None (Some [PRef (FieldRef (Some (tk KRune (b_ "(") [] 1)) None None (Id (tk KId (b_ "x") [] 1)) (Some (tk KRune (b_ ")") [] 1)))]) (Some (tk KRune (b_ "=") (b_ " ") 1)) (Some (VStr [(tk KStr ([dq] ++ b_ "a" ++ [dq]) (b_ " ") 1); (tk KStr ([dq] ++ b_ "b" ++ [dq]) (b_ " ") 1)])) (Some (tk KRune (b_ ",") [] 1)); Opt None (Some [PRef (FieldRef None None None (Id (tk KId (b_ "deprecated") (b_ " ") 1)) None)]) (Some (tk KRune (b_ "=") (b_ " ") 1)) (Some (VTok (tk KId (b_ "true") (b_ " ") 1))) None] (tk KRune (b_ "]") [] 1) None)) (Some (tk KRune (b_ ";") [] 1))] (tk KRune (b_ "}") ([nl]) 2) None)] (Some (tk KRune [] ([nl]) 3)).

Definition compound_last_text : bytes := (b_ "message A {" ++ [nl] ++ b_ "  int32 f = 1 [" ++ [nl] ++ b_ "    (x) = " ++ [dq] ++ b_ "a" ++ [dq] ++ [nl] ++ b_ "    " ++ [dq] ++ b_ "b" ++ [dq] ++ [nl] ++ b_ "  ];" ++ [nl] ++ b_ "}" ++ [nl]).
Definition compound_last_file : file := File None [FDecl (DMessage (tk KId (b_ "message") [] 0) (tk KId (b_ "A") (b_ " ") 0) (tk KRune (b_ "{") (b_ " ") 0) [DField None (Id (tk KId (b_ "int32") ([nl] ++ b_ "  ") 1)) (Some (tk KId (b_ "f") (b_ " ") 1)) (Some (tk KRune (b_ "=") (b_ " ") 1)) (Some (VTok (tk KNum (b_ "1") (b_ " ") 1))) (Some (COpts (tk KRune (b_ "[") (b_ " ") 1) [Opt None (Some [PRef (FieldRef (Some (tk KRune (b_ "(") ([nl] ++ b_ "    ") 2)) None None (Id (tk KId (b_ "x") [] 2)) (Some (tk KRune (b_ ")") [] 2)))]) (Some (tk KRune (b_ "=") (b_ " ") 2)) (Some (VStr [(tk KStr ([dq] ++ b_ "a" ++ [dq]) (b_ " ") 2); (tk KStr ([dq] ++ b_ "b" ++ [dq]) ([nl] ++ b_ "    ") 3)])) None] (tk KRune (b_ "]") ([nl] ++ b_ "  ") 4) None)) (Some (tk KRune (b_ ";") [] 4))] (tk KRune (b_ "}") ([nl]) 5) None)] (Some (tk KRune [] ([nl]) 6)).

Definition unbalanced_text : bytes := (b_ "message A {" ++ [nl] ++ b_ "  option (x) = {a: {b: " ++ [dq] ++ b_ "x" ++ [dq] ++ b_ " " ++ [dq] ++ b_ "y" ++ [dq] ++ b_ "}, c: " ++ [dq] ++ b_ "z" ++ [dq] ++ b_ " " ++ [dq] ++ b_ "w" ++ [dq] ++ b_ "};" ++ [nl] ++ b_ "}" ++ [nl]).
Definition unbalanced_file : file := File None [FDecl (DMessage (tk KId (b_ "message") [] 0) (tk KId (b_ "A") (b_ " ") 0) (tk KRune (b_ "{") (b_ " ") 0) [DOption (Opt (Some (tk KId (b_ "option") ([nl] ++ b_ "  ") 1)) (Some [PRef (FieldRef (Some (tk KRune (b_ "(") (b_ " ") 1)) None None (Id (tk KId (b_ "x") [] 1)) (Some (tk KRune (b_ ")") [] 1)))]) (Some (tk KRune (b_ "=") (b_ " ") 1)) (Some (VMsg (tk KRune (b_ "{") (b_ " ") 1) [MField (FieldRef None None None (Id (tk KId (b_ "a") [] 1)) None) (Some (tk KRune (b_ ":") [] 1)) (VMsg (tk KRune (b_ "{") (b_ " ") 1) [MField (FieldRef None None None (Id (tk KId (b_ "b") [] 1)) None) (Some (tk KRune (b_ ":") [] 1)) (VStr [(tk KStr ([dq] ++ b_ "x" ++ [dq]) (b_ " ") 1); (tk KStr ([dq] ++ b_ "y" ++ [dq]) (b_ " ") 1)]) None] (tk KRune (b_ "}") [] 1) None) (Some (tk KRune (b_ ",") [] 1)); MField (FieldRef None None None (Id (tk KId (b_ "c") (b_ " ") 1)) None) (Some (tk KRune (b_ ":") [] 1)) (VStr [(tk KStr ([dq] ++ b_ "z" ++ [dq]) (b_ " ") 1); (tk KStr ([dq] ++ b_ "w" ++ [dq]) (b_ " ") 1)]) None] (tk KRune (b_ "}") [] 1) None)) (Some (tk KRune (b_ ";") [] 1)))] (tk KRune (b_ "}") ([nl]) 2) None)] (Some (tk KRune [] ([nl]) 3)).

Definition uneven_text : bytes := (b_ "message A {" ++ [nl] ++ b_ "  option (x) = {a: {b: {" ++ [nl] ++ b_ "    c: 1" ++ [nl] ++ b_ "  }}, e: {" ++ [nl] ++ b_ "    f: 1" ++ [nl] ++ b_ "  }, g: {" ++ [nl] ++ b_ "    f: 1" ++ [nl] ++ b_ "  }};" ++ [nl] ++ b_ "}" ++ [nl]).
Definition uneven_file : file := File None [FDecl (DMessage (tk KId (b_ "message") [] 0) (tk KId (b_ "A") (b_ " ") 0) (tk KRune (b_ "{") (b_ " ") 0) [DOption (Opt (Some (tk KId (b_ "option") ([nl] ++ b_ "  ") 1)) (Some [PRef (FieldRef (Some (tk KRune (b_ "(") (b_ " ") 1)) None None (Id (tk KId (b_ "x") [] 1)) (Some (tk KRune (b_ ")") [] 1)))]) (Some (tk KRune (b_ "=") (b_ " ") 1)) (Some (VMsg (tk KRune (b_ "{") (b_ " ") 1) [MField (FieldRef None None None (Id (tk KId (b_ "a") [] 1)) None) (Some (tk KRune (b_ ":") [] 1)) (VMsg (tk KRune (b_ "{") (b_ " ") 1) [MField (FieldRef None None None (Id (tk KId (b_ "b") [] 1)) None) (Some (tk KRune (b_ ":") [] 1)) (VMsg (tk KRune (b_ "{") (b_ " ") 1) [MField (FieldRef None None None (Id (tk KId (b_ "c") ([nl] ++ b_ "    ") 2)) None) (Some (tk KRune (b_ ":") [] 2)) (VTok (tk KNum (b_ "1") (b_ " ") 2)) None] (tk KRune (b_ "}") ([nl] ++ b_ "  ") 3) None) None] (tk KRune (b_ "}") [] 3) None) (Some (tk KRune (b_ ",") [] 3)); MField (FieldRef None None None (Id (tk KId (b_ "e") (b_ " ") 3)) None) (Some (tk KRune (b_ ":") [] 3)) (VMsg (tk KRune (b_ "{") (b_ " ") 3) [MField (FieldRef None None None (Id (tk KId (b_ "f") ([nl] ++ b_ "    ") 4)) None) (Some (tk KRune (b_ ":") [] 4)) (VTok (tk KNum (b_ "1") (b_ " ") 4)) None] (tk KRune (b_ "}") ([nl] ++ b_ "  ") 5) None) (Some (tk KRune (b_ ",") [] 5)); MField (FieldRef None None None (Id (tk KId (b_ "g") (b_ " ") 5)) None) (Some (tk KRune (b_ ":") [] 5)) (VMsg (tk KRune (b_ "{") (b_ " ") 5) [MField (FieldRef None None None (Id (tk KId (b_ "f") ([nl] ++ b_ "    ") 6)) None) (Some (tk KRune (b_ ":") [] 6)) (VTok (tk KNum (b_ "1") (b_ " ") 6)) None] (tk KRune (b_ "}") ([nl] ++ b_ "  ") 7) None) None] (tk KRune (b_ "}") [] 7) None)) (Some (tk KRune (b_ ";") [] 7)))] (tk KRune (b_ "}") ([nl]) 8) None)] (Some (tk KRune [] ([nl]) 9)).

Definition even_text : bytes := (b_ "option (x) = {a: {b: {" ++ [nl] ++ b_ " c: " ++ [dq] ++ b_ "x" ++ [dq] ++ b_ " " ++ [dq] ++ b_ "y" ++ [dq] ++ [nl] ++ b_ " d: [1, {" ++ [nl] ++ b_ "   q: 1" ++ [nl] ++ b_ " }]" ++ [nl] ++ b_ "}}};" ++ [nl] ++ b_ "message A {" ++ [nl] ++ b_ "  int32 f = 1 [(y) = {" ++ [nl] ++ b_ "    z: [{a: 1, b: {" ++ [nl] ++ b_ "      c: 2" ++ [nl] ++ b_ "    }}]" ++ [nl] ++ b_ "  }, deprecated = true];" ++ [nl] ++ b_ "  int32 g = 2 [" ++ [nl] ++ b_ "    deprecated = true" ++ [nl] ++ b_ "  ];" ++ [nl] ++ b_ "  reserved 1 to 3, " ++ [dq] ++ b_ "a" ++ [dq] ++ b_ ", " ++ [dq] ++ b_ "b" ++ [dq] ++ b_ ";" ++ [nl] ++ b_ "}" ++ [nl]).
Definition even_file : file := File None [FOption (Opt (Some (tk KId (b_ "option") [] 0)) (Some [PRef (FieldRef (Some (tk KRune (b_ "(") (b_ " ") 0)) None None (Id (tk KId (b_ "x") [] 0)) (Some (tk KRune (b_ ")") [] 0)))]) (Some (tk KRune (b_ "=") (b_ " ") 0)) (Some (VMsg (tk KRune (b_ "{") (b_ " ") 0) [MField (FieldRef None None None (Id (tk KId (b_ "a") [] 0)) None) (Some (tk KRune (b_ ":") [] 0)) (VMsg (tk KRune (b_ "{") (b_ " ") 0) [MField (FieldRef None None None (Id (tk KId (b_ "b") [] 0)) None) (Some (tk KRune (b_ ":") [] 0)) (VMsg (tk KRune (b_ "{") (b_ " ") 0) [MField (FieldRef None None None (Id (tk KId (b_ "c") ([nl] ++ b_ " ") 1)) None) (Some (tk KRune (b_ ":") [] 1)) (VStr [(tk KStr ([dq] ++ b_ "x" ++ [dq]) (b_ " ") 1); (tk KStr ([dq] ++ b_ "y" ++ [dq]) (b_ " ") 1)]) None; MField (FieldRef None None None (Id (tk KId (b_ "d") ([nl] ++ b_ " ") 2)) None) (Some (tk KRune (b_ ":") [] 2)) (VArr (tk KRune (b_ "[") (b_ " ") 2) [(VTok (tk KNum (b_ "1") [] 2)); (VMsg (tk KRune (b_ "{") (b_ " ") 2) [MField (FieldRef None None None (Id (tk KId (b_ "q") ([nl] ++ b_ "   ") 3)) None) (Some (tk KRune (b_ ":") [] 3)) (VTok (tk KNum (b_ "1") (b_ " ") 3)) None] (tk KRune (b_ "}") ([nl] ++ b_ " ") 4) None)] [(tk KRune (b_ ",") [] 2)] (tk KRune (b_ "]") [] 4) None) None] (tk KRune (b_ "}") ([nl]) 5) None) None] (tk KRune (b_ "}") [] 5) None) None] (tk KRune (b_ "}") [] 5) None)) (Some (tk KRune (b_ ";") [] 5))); FDecl (DMessage (tk KId (b_ "message") ([nl]) 6) (tk KId (b_ "A") (b_ " ") 6) (tk KRune (b_ "{") (b_ " ") 6) [DField None (Id (tk KId (b_ "int32") ([nl] ++ b_ "  ") 7)) (Some (tk KId (b_ "f") (b_ " ") 7)) (Some (tk KRune (b_ "=") (b_ " ") 7)) (Some (VTok (tk KNum (b_ "1") (b_ " ") 7))) (Some (COpts (tk KRune (b_ "[") (b_ " ") 7) [Opt None (Some [PRef (FieldRef (Some (tk KRune (b_ "(") [] 7)) None None (Id (tk KId (b_ "y") [] 7)) (Some (tk KRune (b_ ")") [] 7)))]) (Some (tk KRune (b_ "=") (b_ " ") 7)) (Some (VMsg (tk KRune (b_ "{") (b_ " ") 7) [MField (FieldRef None None None (Id (tk KId (b_ "z") ([nl] ++ b_ "    ") 8)) None) (Some (tk KRune (b_ ":") [] 8)) (VArr (tk KRune (b_ "[") (b_ " ") 8) [(VMsg (tk KRune (b_ "{") [] 8) [MField (FieldRef None None None (Id (tk KId (b_ "a") [] 8)) None) (Some (tk KRune (b_ ":") [] 8)) (VTok (tk KNum (b_ "1") (b_ " ") 8)) (Some (tk KRune (b_ ",") [] 8)); MField (FieldRef None None None (Id (tk KId (b_ "b") (b_ " ") 8)) None) (Some (tk KRune (b_ ":") [] 8)) (VMsg (tk KRune (b_ "{") (b_ " ") 8) [MField (FieldRef None None None (Id (tk KId (b_ "c") ([nl] ++ b_ "      ") 9)) None) (Some (tk KRune (b_ ":") [] 9)) (VTok (tk KNum (b_ "2") (b_ " ") 9)) None] (tk KRune (b_ "}") ([nl] ++ b_ "    ") 10) None) None] (tk KRune (b_ "}") [] 10) None)] [] (tk KRune (b_ "]") [] 10) None) None] (tk KRune (b_ "}") ([nl] ++ b_ "  ") 11) None)) (Some (tk KRune (b_ ",") [] 11)); Opt None (Some [PRef (FieldRef None None None (Id (tk KId (b_ "deprecated") (b_ " ") 11)) None)]) (Some (tk KRune (b_ "=") (b_ " ") 11)) (Some (VTok (tk KId (b_ "true") (b_ " ") 11))) None] (tk KRune (b_ "]") [] 11) None)) (Some (tk KRune (b_ ";") [] 11)); DField None (Id (tk KId (b_ "int32") ([nl] ++ b_ "  ") 12)) (Some (tk KId (b_ "g") (b_ " ") 12)) (Some (tk KRune (b_ "=") (b_ " ") 12)) (Some (VTok (tk KNum (b_ "2") (b_ " ") 12))) (Some (COpts (tk KRune (b_ "[") (b_ " ") 12) [Opt None (Some [PRef (FieldRef None None None (Id (tk KId (b_ "deprecated") ([nl] ++ b_ "    ") 13)) None)]) (Some (tk KRune (b_ "=") (b_ " ") 13)) (Some (VTok (tk KId (b_ "true") (b_ " ") 13))) None] (tk KRune (b_ "]") ([nl] ++ b_ "  ") 14) None)) (Some (tk KRune (b_ ";") [] 14)); DReserved (tk KId (b_ "reserved") ([nl] ++ b_ "  ") 15) [RRange (VTok (tk KNum (b_ "1") (b_ " ") 15)) (Some (tk KId (b_ "to") (b_ " ") 15)) (Some (VTok (tk KNum (b_ "3") (b_ " ") 15))) None; RComma (tk KRune (b_ ",") [] 15); RVal (VTok (tk KStr ([dq] ++ b_ "a" ++ [dq]) (b_ " ") 15)); RComma (tk KRune (b_ ",") [] 15); RVal (VTok (tk KStr ([dq] ++ b_ "b" ++ [dq]) (b_ " ") 15))] (Some (tk KRune (b_ ";") [] 15))] (tk KRune (b_ "}") ([nl]) 16) None)] (Some (tk KRune [] ([nl]) 17)).

Definition rpc_comment_text : bytes := (b_ "service S {" ++ [nl] ++ b_ "  rpc M(A) returns (B) {" ++ [nl] ++ b_ "    // todo" ++ [nl] ++ b_ "  }" ++ [nl] ++ b_ "}" ++ [nl]).
Definition rpc_comment_file : file := File None [FDecl (DService (tk KId (b_ "service") [] 0) (tk KId (b_ "S") (b_ " ") 0) (tk KRune (b_ "{") (b_ " ") 0) [DRpc (tk KId (b_ "rpc") ([nl] ++ b_ "  ") 1) (tk KId (b_ "M") (b_ " ") 1) (RpcType (tk KRune (b_ "(") [] 1) None (Id (tk KId (b_ "A") [] 1)) (tk KRune (b_ ")") [] 1)) (tk KId (b_ "returns") (b_ " ") 1) (RpcType (tk KRune (b_ "(") (b_ " ") 1) None (Id (tk KId (b_ "B") [] 1)) (tk KRune (b_ ")") [] 1)) (Some ((tk KRune (b_ "{") (b_ " ") 1), (Token KRune (b_ "}") [Comment (b_ "// todo") ([nl] ++ b_ "    ") false] [] ([nl] ++ b_ "  ") 3 false))) [] None] (tk KRune (b_ "}") ([nl]) 4) None)] (Some (tk KRune [] ([nl]) 5)).

Definition empty_comment_text : bytes := (b_ "message A {" ++ [nl] ++ b_ "  ; // note" ++ [nl] ++ b_ "}" ++ [nl]).
Definition empty_comment_file : file := File None [FDecl (DMessage (tk KId (b_ "message") [] 0) (tk KId (b_ "A") (b_ " ") 0) (tk KRune (b_ "{") (b_ " ") 0) [DEmpty (Token KRune (b_ ";") [] [Comment (b_ "// note") (b_ " ") false] ([nl] ++ b_ "  ") 1 false)] (tk KRune (b_ "}") ([nl]) 2) None)] (Some (tk KRune [] ([nl]) 3)).

Definition two_packages_text : bytes := (b_ "package a;" ++ [nl] ++ b_ "package b;" ++ [nl]).
Definition two_packages_file : file := File None [FPackage (tk KId (b_ "package") [] 0) (Some (Id (tk KId (b_ "a") (b_ " ") 0))) (Some (tk KRune (b_ ";") [] 0)); FPackage (tk KId (b_ "package") ([nl]) 1) (Some (Id (tk KId (b_ "b") (b_ " ") 1))) (Some (tk KRune (b_ ";") [] 1))] (Some (tk KRune [] ([nl]) 2)).

Definition rpc_semi_text : bytes := (b_ "service S {" ++ [nl] ++ b_ "  rpc A(B) returns (C); // x" ++ [nl] ++ b_ "}" ++ [nl]).
Definition rpc_semi_file : file := File None [FDecl (DService (tk KId (b_ "service") [] 0) (tk KId (b_ "S") (b_ " ") 0) (tk KRune (b_ "{") (b_ " ") 0) [DRpc (tk KId (b_ "rpc") ([nl] ++ b_ "  ") 1) (tk KId (b_ "A") (b_ " ") 1) (RpcType (tk KRune (b_ "(") [] 1) None (Id (tk KId (b_ "B") [] 1)) (tk KRune (b_ ")") [] 1)) (tk KId (b_ "returns") (b_ " ") 1) (RpcType (tk KRune (b_ "(") (b_ " ") 1) None (Id (tk KId (b_ "C") [] 1)) (tk KRune (b_ ")") [] 1)) None [] (Some (Token KRune (b_ ";") [] [Comment (b_ "// x") (b_ " ") false] [] 1 false))] (tk KRune (b_ "}") ([nl]) 2) None)] (Some (tk KRune [] ([nl]) 3)).

Definition brace_semi_text : bytes := (b_ "message A {}; // x" ++ [nl]).
Definition brace_semi_file : file := File None [FDecl (DMessage (tk KId (b_ "message") [] 0) (tk KId (b_ "A") (b_ " ") 0) (tk KRune (b_ "{") (b_ " ") 0) [] (tk KRune (b_ "}") [] 0) None); FDecl (DEmpty (Token KRune (b_ ";") [] [Comment (b_ "// x") (b_ " ") false] [] 0 false))] (Some (tk KRune [] ([nl]) 1)).

Definition option_value_text : bytes := (b_ "option a = 1 // x" ++ [nl] ++ b_ ";" ++ [nl]).
Definition option_value_file : file := File None [FOption (Opt (Some (tk KId (b_ "option") [] 0)) (Some [PRef (FieldRef None None None (Id (tk KId (b_ "a") (b_ " ") 0)) None)]) (Some (tk KRune (b_ "=") (b_ " ") 0)) (Some (VTok (Token KNum (b_ "1") [] [Comment (b_ "// x") (b_ " ") false] (b_ " ") 0 false))) (Some (tk KRune (b_ ";") ([nl]) 1)))] (Some (tk KRune [] ([nl]) 2)).

Definition option_dot_text : bytes := (b_ "option (a). /* x */ b = 1;" ++ [nl]).
Definition option_dot_file : file := File None [FOption (Opt (Some (tk KId (b_ "option") [] 0)) (Some [PRef (FieldRef (Some (tk KRune (b_ "(") (b_ " ") 0)) None None (Id (tk KId (b_ "a") [] 0)) (Some (tk KRune (b_ ")") [] 0))); PDot (Token KRune (b_ ".") [] [Comment (b_ "/* x */") (b_ " ") false] [] 0 false); PRef (FieldRef None None None (Id (tk KId (b_ "b") (b_ " ") 0)) None)]) (Some (tk KRune (b_ "=") (b_ " ") 0)) (Some (VTok (tk KNum (b_ "1") (b_ " ") 0))) (Some (tk KRune (b_ ";") [] 0)))] (Some (tk KRune [] ([nl]) 1)).

Definition doubled_text : bytes := (b_ "message M {" ++ [nl] ++ b_ "  int32 f = 1 [" ++ [nl] ++ b_ "    deprecated /* c */ = true" ++ [nl] ++ b_ "  ];" ++ [nl] ++ b_ "}" ++ [nl]).
Definition doubled_file : file := File None [FDecl (DMessage (tk KId (b_ "message") [] 0) (tk KId (b_ "M") (b_ " ") 0) (tk KRune (b_ "{") (b_ " ") 0) [DField None (Id (tk KId (b_ "int32") ([nl] ++ b_ "  ") 1)) (Some (tk KId (b_ "f") (b_ " ") 1)) (Some (tk KRune (b_ "=") (b_ " ") 1)) (Some (VTok (tk KNum (b_ "1") (b_ " ") 1))) (Some (COpts (tk KRune (b_ "[") (b_ " ") 1) [Opt None (Some [PRef (FieldRef None None None (Id (Token KId (b_ "deprecated") [] [Comment (b_ "/* c */") (b_ " ") false] ([nl] ++ b_ "    ") 2 false)) None)]) (Some (tk KRune (b_ "=") (b_ " ") 2)) (Some (VTok (tk KId (b_ "true") (b_ " ") 2))) None] (tk KRune (b_ "]") ([nl] ++ b_ "  ") 3) None)) (Some (tk KRune (b_ ";") [] 3))] (tk KRune (b_ "}") ([nl]) 4) None)] (Some (tk KRune [] ([nl]) 5)).

Definition doubled_again_text : bytes := (b_ "message M {" ++ [nl] ++ b_ "  int32 f = 1 [" ++ [nl] ++ b_ "    deprecated /* c */ /* c */ = true" ++ [nl] ++ b_ "  ];" ++ [nl] ++ b_ "}" ++ [nl]).
Definition doubled_again_file : file := File None [FDecl (DMessage (tk KId (b_ "message") [] 0) (tk KId (b_ "M") (b_ " ") 0) (tk KRune (b_ "{") (b_ " ") 0) [DField None (Id (tk KId (b_ "int32") ([nl] ++ b_ "  ") 1)) (Some (tk KId (b_ "f") (b_ " ") 1)) (Some (tk KRune (b_ "=") (b_ " ") 1)) (Some (VTok (tk KNum (b_ "1") (b_ " ") 1))) (Some (COpts (tk KRune (b_ "[") (b_ " ") 1) [Opt None (Some [PRef (FieldRef None None None (Id (Token KId (b_ "deprecated") [] [Comment (b_ "/* c */") (b_ " ") false; Comment (b_ "/* c */") (b_ " ") false] ([nl] ++ b_ "    ") 2 false)) None)]) (Some (tk KRune (b_ "=") (b_ " ") 2)) (Some (VTok (tk KId (b_ "true") (b_ " ") 2))) None] (tk KRune (b_ "]") ([nl] ++ b_ "  ") 3) None)) (Some (tk KRune (b_ ";") [] 3))] (tk KRune (b_ "}") ([nl]) 4) None)] (Some (tk KRune [] ([nl]) 5)).

Definition lossy_text : bytes := (b_ "// Head." ++ [nl] ++ b_ "message A { // open" ++ [nl] ++ b_ "  // f" ++ [nl] ++ b_ "  int32 f = 1 [(x) = {a /* a */ : 1 /* v */, b: [1, // b" ++ [nl] ++ b_ " 2]}]; // one" ++ [nl] ++ b_ "  ; // gone" ++ [nl] ++ b_ "  reserved /* r */ 5 to max; // res" ++ [nl] ++ b_ "}" ++ [nl] ++ b_ "// eof" ++ [nl]).
Definition lossy_file : file := File None [FDecl (DMessage (Token KId (b_ "message") [Comment (b_ "// Head.") [] false] [] ([nl]) 1 false) (tk KId (b_ "A") (b_ " ") 1) (Token KRune (b_ "{") [] [Comment (b_ "// open") (b_ " ") false] (b_ " ") 1 false) [DField None (Id (Token KId (b_ "int32") [Comment (b_ "// f") ([nl] ++ b_ "  ") false] [] ([nl] ++ b_ "  ") 3 false)) (Some (tk KId (b_ "f") (b_ " ") 3)) (Some (tk KRune (b_ "=") (b_ " ") 3)) (Some (VTok (tk KNum (b_ "1") (b_ " ") 3))) (Some (COpts (tk KRune (b_ "[") (b_ " ") 3) [Opt None (Some [PRef (FieldRef (Some (tk KRune (b_ "(") [] 3)) None None (Id (tk KId (b_ "x") [] 3)) (Some (tk KRune (b_ ")") [] 3)))]) (Some (tk KRune (b_ "=") (b_ " ") 3)) (Some (VMsg (tk KRune (b_ "{") (b_ " ") 3) [MField (FieldRef None None None (Id (Token KId (b_ "a") [] [Comment (b_ "/* a */") (b_ " ") false] [] 3 false)) None) (Some (tk KRune (b_ ":") (b_ " ") 3)) (VTok (Token KNum (b_ "1") [] [Comment (b_ "/* v */") (b_ " ") false] (b_ " ") 3 false)) (Some (tk KRune (b_ ",") [] 3)); MField (FieldRef None None None (Id (tk KId (b_ "b") (b_ " ") 3)) None) (Some (tk KRune (b_ ":") [] 3)) (VArr (tk KRune (b_ "[") (b_ " ") 3) [(VTok (tk KNum (b_ "1") [] 3)); (VTok (tk KNum (b_ "2") ([nl] ++ b_ " ") 4))] [(Token KRune (b_ ",") [] [Comment (b_ "// b") (b_ " ") false] [] 3 false)] (tk KRune (b_ "]") [] 4) None) None] (tk KRune (b_ "}") [] 4) None)) None] (tk KRune (b_ "]") [] 4) None)) (Some (Token KRune (b_ ";") [] [Comment (b_ "// one") (b_ " ") false] [] 4 false)); DEmpty (Token KRune (b_ ";") [] [Comment (b_ "// gone") (b_ " ") false] ([nl] ++ b_ "  ") 5 false); DReserved (Token KId (b_ "reserved") [] [Comment (b_ "/* r */") (b_ " ") false] ([nl] ++ b_ "  ") 6 false) [RRange (VTok (tk KNum (b_ "5") (b_ " ") 6)) (Some (tk KId (b_ "to") (b_ " ") 6)) None (Some (tk KId (b_ "max") (b_ " ") 6))] (Some (Token KRune (b_ ";") [] [Comment (b_ "// res") (b_ " ") false] [] 6 false))] (tk KRune (b_ "}") ([nl]) 7) None)] (Some (Token KRune [] [Comment (b_ "// eof") ([nl]) false] [] ([nl]) 9 false)).

Definition commented_text : bytes := (b_ "// Head." ++ [nl] ++ [nl] ++ b_ "/* A. */" ++ [nl] ++ b_ "message A {" ++ [nl] ++ b_ "  // f" ++ [nl] ++ b_ "  int32 f = 1; // one" ++ [nl] ++ b_ "  // tail" ++ [nl] ++ b_ "}" ++ [nl] ++ b_ "// eof" ++ [nl]).
Definition commented_file : file := File None [FDecl (DMessage (Token KId (b_ "message") [Comment (b_ "// Head.") [] false; Comment (b_ "/* A. */") ([nl] ++ [nl]) false] [] ([nl]) 3 false) (tk KId (b_ "A") (b_ " ") 3) (tk KRune (b_ "{") (b_ " ") 3) [DField None (Id (Token KId (b_ "int32") [Comment (b_ "// f") ([nl] ++ b_ "  ") false] [] ([nl] ++ b_ "  ") 5 false)) (Some (tk KId (b_ "f") (b_ " ") 5)) (Some (tk KRune (b_ "=") (b_ " ") 5)) (Some (VTok (tk KNum (b_ "1") (b_ " ") 5))) None (Some (Token KRune (b_ ";") [] [Comment (b_ "// one") (b_ " ") false] [] 5 false))] (Token KRune (b_ "}") [Comment (b_ "// tail") ([nl] ++ b_ "  ") false] [] ([nl]) 7 false) None)] (Some (Token KRune [] [Comment (b_ "// eof") ([nl]) false] [] ([nl]) 9 false)).

Definition parts_text : bytes := (b_ "message A {" ++ [nl] ++ b_ "  map<string, int32> m = 1;" ++ [nl] ++ b_ "  oneof o {" ++ [nl] ++ b_ "    int32 x = 2;" ++ [nl] ++ b_ "  }" ++ [nl] ++ b_ "  optional group G = 3 {" ++ [nl] ++ b_ "    optional int32 y = 1;" ++ [nl] ++ b_ "  }" ++ [nl] ++ b_ "}" ++ [nl]).
Definition parts_file : file := File None [FDecl (DMessage (tk KId (b_ "message") [] 0) (tk KId (b_ "A") (b_ " ") 0) (tk KRune (b_ "{") (b_ " ") 0) [DMap (tk KId (b_ "map") ([nl] ++ b_ "  ") 1) (tk KRune (b_ "<") [] 1) (Id (tk KId (b_ "string") [] 1)) (tk KRune (b_ ",") [] 1) (Id (tk KId (b_ "int32") (b_ " ") 1)) (tk KRune (b_ ">") [] 1) None (tk KId (b_ "m") (b_ " ") 1) (tk KRune (b_ "=") (b_ " ") 1) (VTok (tk KNum (b_ "1") (b_ " ") 1)) None (Some (tk KRune (b_ ";") [] 1)); DOneof (tk KId (b_ "oneof") ([nl] ++ b_ "  ") 2) (tk KId (b_ "o") (b_ " ") 2) (tk KRune (b_ "{") (b_ " ") 2) [DField None (Id (tk KId (b_ "int32") ([nl] ++ b_ "    ") 3)) (Some (tk KId (b_ "x") (b_ " ") 3)) (Some (tk KRune (b_ "=") (b_ " ") 3)) (Some (VTok (tk KNum (b_ "2") (b_ " ") 3))) None (Some (tk KRune (b_ ";") [] 3))] (tk KRune (b_ "}") ([nl] ++ b_ "  ") 4) None; DGroup (Some (tk KId (b_ "optional") ([nl] ++ b_ "  ") 5)) (tk KId (b_ "group") (b_ " ") 5) (tk KId (b_ "G") (b_ " ") 5) (tk KRune (b_ "=") (b_ " ") 5) (VTok (tk KNum (b_ "3") (b_ " ") 5)) None (tk KRune (b_ "{") (b_ " ") 5) [DField (Some (tk KId (b_ "optional") ([nl] ++ b_ "    ") 6)) (Id (tk KId (b_ "int32") (b_ " ") 6)) (Some (tk KId (b_ "y") (b_ " ") 6)) (Some (tk KRune (b_ "=") (b_ " ") 6)) (Some (VTok (tk KNum (b_ "1") (b_ " ") 6))) None (Some (tk KRune (b_ ";") [] 6))] (tk KRune (b_ "}") ([nl] ++ b_ "  ") 7) None] (tk KRune (b_ "}") ([nl]) 8) None)] (Some (tk KRune [] ([nl]) 9)).

Definition fence_text : bytes := (b_ "message A {" ++ [nl] ++ b_ "  /* as in:" ++ [nl] ++ b_ "  ```" ++ [nl] ++ b_ "  A {}" ++ [nl] ++ b_ "  ```" ++ [nl] ++ b_ "  */" ++ [nl] ++ b_ "  int32 f = 1;" ++ [nl] ++ b_ "}" ++ [nl]).
Definition fence_file : file := File None [FDecl (DMessage (tk KId (b_ "message") [] 0) (tk KId (b_ "A") (b_ " ") 0) (tk KRune (b_ "{") (b_ " ") 0) [DField None (Id (Token KId (b_ "int32") [Comment (b_ "/* as in:" ++ [nl] ++ b_ "  ```" ++ [nl] ++ b_ "  A {}" ++ [nl] ++ b_ "  ```" ++ [nl] ++ b_ "  */") ([nl] ++ b_ "  ") false] [] ([nl] ++ b_ "  ") 6 false)) (Some (tk KId (b_ "f") (b_ " ") 6)) (Some (tk KRune (b_ "=") (b_ " ") 6)) (Some (VTok (tk KNum (b_ "1") (b_ " ") 6))) None (Some (tk KRune (b_ ";") [] 6))] (tk KRune (b_ "}") ([nl]) 7) None)] (Some (tk KRune [] ([nl]) 8)).

