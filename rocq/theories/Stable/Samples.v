(* Sources and their trees, for the examples of Stable/Props.v.  Generated by tools/fmtcases.py --stable. *)
From Coq Require Import List Arith Bool ZArith NArith Ascii String.
From Verif Require Import Base Strs.
From Verif.Format Require Import Model.
From Verif.FormatTree Require Import Model Samples.
Import ListNotations.
Open Scope list_scope.

Definition lines0_text : bytes := (b_ "message A {" ++ [nl] ++ b_ "  int32 a" ++ [nl] ++ b_ " = 1;" ++ [nl] ++ b_ "  string bb = 2;" ++ [nl] ++ b_ "}" ++ [nl]).
Definition lines0 : file := File None [FDecl (DMessage (tk KId (b_ "message") [] 0) (tk KId (b_ "A") (b_ " ") 0) (tk KRune (b_ "{") (b_ " ") 0) [DField None (Id (tk KId (b_ "int32") ([nl] ++ b_ "  ") 1)) (Some (tk KId (b_ "a") (b_ " ") 1)) (Some (tk KRune (b_ "=") ([nl] ++ b_ " ") 2)) (Some (VTok (tk KNum (b_ "1") (b_ " ") 2))) None (Some (tk KRune (b_ ";") [] 2)); DField None (Id (tk KId (b_ "string") ([nl] ++ b_ "  ") 3)) (Some (tk KId (b_ "bb") (b_ " ") 3)) (Some (tk KRune (b_ "=") (b_ " ") 3)) (Some (VTok (tk KNum (b_ "2") (b_ " ") 3))) None (Some (tk KRune (b_ ";") [] 3))] (tk KRune (b_ "}") ([nl]) 4) None)] (Some (tk KRune [] ([nl]) 5)).

Definition lines1_text : bytes := (b_ "message A {" ++ [nl] ++ b_ "  int32 a = 1;" ++ [nl] ++ b_ "  string bb = 2;" ++ [nl] ++ b_ "}" ++ [nl]).
Definition lines1 : file := File None [FDecl (DMessage (tk KId (b_ "message") [] 0) (tk KId (b_ "A") (b_ " ") 0) (tk KRune (b_ "{") (b_ " ") 0) [DField None (Id (tk KId (b_ "int32") ([nl] ++ b_ "  ") 1)) (Some (tk KId (b_ "a") (b_ " ") 1)) (Some (tk KRune (b_ "=") (b_ " ") 1)) (Some (VTok (tk KNum (b_ "1") (b_ " ") 1))) None (Some (tk KRune (b_ ";") [] 1)); DField None (Id (tk KId (b_ "string") ([nl] ++ b_ "  ") 2)) (Some (tk KId (b_ "bb") (b_ " ") 2)) (Some (tk KRune (b_ "=") (b_ " ") 2)) (Some (VTok (tk KNum (b_ "2") (b_ " ") 2))) None (Some (tk KRune (b_ ";") [] 2))] (tk KRune (b_ "}") ([nl]) 3) None)] (Some (tk KRune [] ([nl]) 4)).

Definition lines2_text : bytes := (b_ "message A {" ++ [nl] ++ b_ "  int32  a  = 1;" ++ [nl] ++ b_ "  string bb = 2;" ++ [nl] ++ b_ "}" ++ [nl]).
Definition lines2 : file := File None [FDecl (DMessage (tk KId (b_ "message") [] 0) (tk KId (b_ "A") (b_ " ") 0) (tk KRune (b_ "{") (b_ " ") 0) [DField None (Id (tk KId (b_ "int32") ([nl] ++ b_ "  ") 1)) (Some (tk KId (b_ "a") (b_ "  ") 1)) (Some (tk KRune (b_ "=") (b_ "  ") 1)) (Some (VTok (tk KNum (b_ "1") (b_ " ") 1))) None (Some (tk KRune (b_ ";") [] 1)); DField None (Id (tk KId (b_ "string") ([nl] ++ b_ "  ") 2)) (Some (tk KId (b_ "bb") (b_ " ") 2)) (Some (tk KRune (b_ "=") (b_ " ") 2)) (Some (VTok (tk KNum (b_ "2") (b_ " ") 2))) None (Some (tk KRune (b_ ";") [] 2))] (tk KRune (b_ "}") ([nl]) 3) None)] (Some (tk KRune [] ([nl]) 4)).

Definition opts0_text : bytes := (b_ "message A {" ++ [nl] ++ b_ "  int32 a = 1 [" ++ [nl] ++ b_ " deprecated = true]; int32 bbbb = 2;" ++ [nl] ++ b_ "  int32 c = 3;" ++ [nl] ++ b_ "}" ++ [nl]).
Definition opts0 : file := File None [FDecl (DMessage (tk KId (b_ "message") [] 0) (tk KId (b_ "A") (b_ " ") 0) (tk KRune (b_ "{") (b_ " ") 0) [DField None (Id (tk KId (b_ "int32") ([nl] ++ b_ "  ") 1)) (Some (tk KId (b_ "a") (b_ " ") 1)) (Some (tk KRune (b_ "=") (b_ " ") 1)) (Some (VTok (tk KNum (b_ "1") (b_ " ") 1))) (Some (COpts (tk KRune (b_ "[") (b_ " ") 1) [Opt None (Some [PRef (FieldRef None None None (Id (tk KId (b_ "deprecated") ([nl] ++ b_ " ") 2)) None)]) (Some (tk KRune (b_ "=") (b_ " ") 2)) (Some (VTok (tk KId (b_ "true") (b_ " ") 2))) None] (tk KRune (b_ "]") [] 2) None)) (Some (tk KRune (b_ ";") [] 2)); DField None (Id (tk KId (b_ "int32") (b_ " ") 2)) (Some (tk KId (b_ "bbbb") (b_ " ") 2)) (Some (tk KRune (b_ "=") (b_ " ") 2)) (Some (VTok (tk KNum (b_ "2") (b_ " ") 2))) None (Some (tk KRune (b_ ";") [] 2)); DField None (Id (tk KId (b_ "int32") ([nl] ++ b_ "  ") 3)) (Some (tk KId (b_ "c") (b_ " ") 3)) (Some (tk KRune (b_ "=") (b_ " ") 3)) (Some (VTok (tk KNum (b_ "3") (b_ " ") 3))) None (Some (tk KRune (b_ ";") [] 3))] (tk KRune (b_ "}") ([nl]) 4) None)] (Some (tk KRune [] ([nl]) 5)).

Definition opts1_text : bytes := (b_ "message A {" ++ [nl] ++ b_ "  int32 a    = 1 [" ++ [nl] ++ b_ "    deprecated = true" ++ [nl] ++ b_ "  ];" ++ [nl] ++ b_ "  int32 bbbb = 2;" ++ [nl] ++ b_ "  int32 c    = 3;" ++ [nl] ++ b_ "}" ++ [nl]).
Definition opts1 : file := File None [FDecl (DMessage (tk KId (b_ "message") [] 0) (tk KId (b_ "A") (b_ " ") 0) (tk KRune (b_ "{") (b_ " ") 0) [DField None (Id (tk KId (b_ "int32") ([nl] ++ b_ "  ") 1)) (Some (tk KId (b_ "a") (b_ " ") 1)) (Some (tk KRune (b_ "=") (b_ "    ") 1)) (Some (VTok (tk KNum (b_ "1") (b_ " ") 1))) (Some (COpts (tk KRune (b_ "[") (b_ " ") 1) [Opt None (Some [PRef (FieldRef None None None (Id (tk KId (b_ "deprecated") ([nl] ++ b_ "    ") 2)) None)]) (Some (tk KRune (b_ "=") (b_ " ") 2)) (Some (VTok (tk KId (b_ "true") (b_ " ") 2))) None] (tk KRune (b_ "]") ([nl] ++ b_ "  ") 3) None)) (Some (tk KRune (b_ ";") [] 3)); DField None (Id (tk KId (b_ "int32") ([nl] ++ b_ "  ") 4)) (Some (tk KId (b_ "bbbb") (b_ " ") 4)) (Some (tk KRune (b_ "=") (b_ " ") 4)) (Some (VTok (tk KNum (b_ "2") (b_ " ") 4))) None (Some (tk KRune (b_ ";") [] 4)); DField None (Id (tk KId (b_ "int32") ([nl] ++ b_ "  ") 5)) (Some (tk KId (b_ "c") (b_ " ") 5)) (Some (tk KRune (b_ "=") (b_ "    ") 5)) (Some (VTok (tk KNum (b_ "3") (b_ " ") 5))) None (Some (tk KRune (b_ ";") [] 5))] (tk KRune (b_ "}") ([nl]) 6) None)] (Some (tk KRune [] ([nl]) 7)).

Definition opts2_text : bytes := (b_ "message A {" ++ [nl] ++ b_ "  int32 a = 1 [" ++ [nl] ++ b_ "    deprecated = true" ++ [nl] ++ b_ "  ];" ++ [nl] ++ b_ "  int32 bbbb = 2;" ++ [nl] ++ b_ "  int32 c    = 3;" ++ [nl] ++ b_ "}" ++ [nl]).
Definition opts2 : file := File None [FDecl (DMessage (tk KId (b_ "message") [] 0) (tk KId (b_ "A") (b_ " ") 0) (tk KRune (b_ "{") (b_ " ") 0) [DField None (Id (tk KId (b_ "int32") ([nl] ++ b_ "  ") 1)) (Some (tk KId (b_ "a") (b_ " ") 1)) (Some (tk KRune (b_ "=") (b_ " ") 1)) (Some (VTok (tk KNum (b_ "1") (b_ " ") 1))) (Some (COpts (tk KRune (b_ "[") (b_ " ") 1) [Opt None (Some [PRef (FieldRef None None None (Id (tk KId (b_ "deprecated") ([nl] ++ b_ "    ") 2)) None)]) (Some (tk KRune (b_ "=") (b_ " ") 2)) (Some (VTok (tk KId (b_ "true") (b_ " ") 2))) None] (tk KRune (b_ "]") ([nl] ++ b_ "  ") 3) None)) (Some (tk KRune (b_ ";") [] 3)); DField None (Id (tk KId (b_ "int32") ([nl] ++ b_ "  ") 4)) (Some (tk KId (b_ "bbbb") (b_ " ") 4)) (Some (tk KRune (b_ "=") (b_ " ") 4)) (Some (VTok (tk KNum (b_ "2") (b_ " ") 4))) None (Some (tk KRune (b_ ";") [] 4)); DField None (Id (tk KId (b_ "int32") ([nl] ++ b_ "  ") 5)) (Some (tk KId (b_ "c") (b_ " ") 5)) (Some (tk KRune (b_ "=") (b_ "    ") 5)) (Some (VTok (tk KNum (b_ "3") (b_ " ") 5))) None (Some (tk KRune (b_ ";") [] 5))] (tk KRune (b_ "}") ([nl]) 6) None)] (Some (tk KRune [] ([nl]) 7)).

Definition maps0_text : bytes := (b_ "message A {" ++ [nl] ++ b_ "  map<string," ++ [nl] ++ b_ " int32> a = 1;" ++ [nl] ++ b_ "  string bb = 2;" ++ [nl] ++ b_ "}" ++ [nl]).
Definition maps0 : file := File None [FDecl (DMessage (tk KId (b_ "message") [] 0) (tk KId (b_ "A") (b_ " ") 0) (tk KRune (b_ "{") (b_ " ") 0) [DMap (tk KId (b_ "map") ([nl] ++ b_ "  ") 1) (tk KRune (b_ "<") [] 1) (Id (tk KId (b_ "string") [] 1)) (tk KRune (b_ ",") [] 1) (Id (tk KId (b_ "int32") ([nl] ++ b_ " ") 2)) (tk KRune (b_ ">") [] 2) None (tk KId (b_ "a") (b_ " ") 2) (tk KRune (b_ "=") (b_ " ") 2) (VTok (tk KNum (b_ "1") (b_ " ") 2)) None (Some (tk KRune (b_ ";") [] 2)); DField None (Id (tk KId (b_ "string") ([nl] ++ b_ "  ") 3)) (Some (tk KId (b_ "bb") (b_ " ") 3)) (Some (tk KRune (b_ "=") (b_ " ") 3)) (Some (VTok (tk KNum (b_ "2") (b_ " ") 3))) None (Some (tk KRune (b_ ";") [] 3))] (tk KRune (b_ "}") ([nl]) 4) None)] (Some (tk KRune [] ([nl]) 5)).

Definition maps1_text : bytes := (b_ "message A {" ++ [nl] ++ b_ "  map<string, int32> a = 1;" ++ [nl] ++ b_ "  string bb = 2;" ++ [nl] ++ b_ "}" ++ [nl]).
Definition maps1 : file := File None [FDecl (DMessage (tk KId (b_ "message") [] 0) (tk KId (b_ "A") (b_ " ") 0) (tk KRune (b_ "{") (b_ " ") 0) [DMap (tk KId (b_ "map") ([nl] ++ b_ "  ") 1) (tk KRune (b_ "<") [] 1) (Id (tk KId (b_ "string") [] 1)) (tk KRune (b_ ",") [] 1) (Id (tk KId (b_ "int32") (b_ " ") 1)) (tk KRune (b_ ">") [] 1) None (tk KId (b_ "a") (b_ " ") 1) (tk KRune (b_ "=") (b_ " ") 1) (VTok (tk KNum (b_ "1") (b_ " ") 1)) None (Some (tk KRune (b_ ";") [] 1)); DField None (Id (tk KId (b_ "string") ([nl] ++ b_ "  ") 2)) (Some (tk KId (b_ "bb") (b_ " ") 2)) (Some (tk KRune (b_ "=") (b_ " ") 2)) (Some (VTok (tk KNum (b_ "2") (b_ " ") 2))) None (Some (tk KRune (b_ ";") [] 2))] (tk KRune (b_ "}") ([nl]) 3) None)] (Some (tk KRune [] ([nl]) 4)).

Definition maps2_text : bytes := (b_ "message A {" ++ [nl] ++ b_ "  map<string, int32> a  = 1;" ++ [nl] ++ b_ "  string             bb = 2;" ++ [nl] ++ b_ "}" ++ [nl]).
Definition maps2 : file := File None [FDecl (DMessage (tk KId (b_ "message") [] 0) (tk KId (b_ "A") (b_ " ") 0) (tk KRune (b_ "{") (b_ " ") 0) [DMap (tk KId (b_ "map") ([nl] ++ b_ "  ") 1) (tk KRune (b_ "<") [] 1) (Id (tk KId (b_ "string") [] 1)) (tk KRune (b_ ",") [] 1) (Id (tk KId (b_ "int32") (b_ " ") 1)) (tk KRune (b_ ">") [] 1) None (tk KId (b_ "a") (b_ " ") 1) (tk KRune (b_ "=") (b_ "  ") 1) (VTok (tk KNum (b_ "1") (b_ " ") 1)) None (Some (tk KRune (b_ ";") [] 1)); DField None (Id (tk KId (b_ "string") ([nl] ++ b_ "  ") 2)) (Some (tk KId (b_ "bb") (b_ "             ") 2)) (Some (tk KRune (b_ "=") (b_ " ") 2)) (Some (VTok (tk KNum (b_ "2") (b_ " ") 2))) None (Some (tk KRune (b_ ";") [] 2))] (tk KRune (b_ "}") ([nl]) 3) None)] (Some (tk KRune [] ([nl]) 4)).

Definition head0_text : bytes := ([nl] ++ [nl] ++ b_ "message A {}" ++ [nl]).
Definition head0 : file := File None [FDecl (DMessage (tk KId (b_ "message") ([nl] ++ [nl]) 2) (tk KId (b_ "A") (b_ " ") 2) (tk KRune (b_ "{") (b_ " ") 2) [] (tk KRune (b_ "}") [] 2) None)] (Some (tk KRune [] ([nl]) 3)).

Definition head1_text : bytes := ([nl] ++ b_ "message A {}" ++ [nl]).
Definition head1 : file := File None [FDecl (DMessage (tk KId (b_ "message") ([nl]) 1) (tk KId (b_ "A") (b_ " ") 1) (tk KRune (b_ "{") (b_ " ") 1) [] (tk KRune (b_ "}") [] 1) None)] (Some (tk KRune [] ([nl]) 2)).

Definition head2_text : bytes := (b_ "message A {}" ++ [nl]).
Definition head2 : file := File None [FDecl (DMessage (tk KId (b_ "message") [] 0) (tk KId (b_ "A") (b_ " ") 0) (tk KRune (b_ "{") (b_ " ") 0) [] (tk KRune (b_ "}") [] 0) None)] (Some (tk KRune [] ([nl]) 1)).

Definition neat0_text : bytes := (b_ "syntax=" ++ [dq] ++ b_ "proto3" ++ [dq] ++ b_ "; package a.b;" ++ [nl] ++ b_ "import " ++ [dq] ++ b_ "x.proto" ++ [dq] ++ b_ ";" ++ [nl] ++ b_ "import public " ++ [dq] ++ b_ "y.proto" ++ [dq] ++ b_ ";" ++ [nl] ++ b_ "option java_package = " ++ [dq] ++ b_ "p" ++ [dq] ++ b_ ";" ++ [nl] ++ b_ "message M { int32 f = 1 [deprecated = true];" ++ [nl] ++ [nl] ++ [nl] ++ [nl] ++ b_ " repeated .a.b.N ggg = 2;" ++ [nl] ++ b_ " map<string, a.b.N> m = 3; oneof o { string s = 4; }" ++ [nl] ++ b_ " reserved 5 to 7, 9 to max; message N {}" ++ [nl] ++ b_ "enum E { option allow_alias = true; A = 0; B = -1; } }" ++ [nl] ++ b_ "service S { rpc Get(M) returns (stream M);" ++ [nl] ++ b_ "rpc Put(stream .a.b.M) returns (M) { option deprecated = true; } }" ++ [nl]).
Definition neat0 : file := File (Some ((tk KId (b_ "syntax") [] 0), (tk KRune (b_ "=") [] 0), (VTok (tk KStr ([dq] ++ b_ "proto3" ++ [dq]) [] 0)), Some (tk KRune (b_ ";") [] 0))) [FPackage (tk KId (b_ "package") (b_ " ") 0) (Some (Cid [(tk KId (b_ "a") (b_ " ") 0); (tk KRune (b_ ".") [] 0); (tk KId (b_ "b") [] 0)])) (Some (tk KRune (b_ ";") [] 0)); FImport (Import (tk KId (b_ "import") ([nl]) 1) None (VTok (tk KStr ([dq] ++ b_ "x.proto" ++ [dq]) (b_ " ") 1)) (b_ "x.proto") (Some (tk KRune (b_ ";") [] 1))); FImport (Import (tk KId (b_ "import") ([nl]) 2) (Some (tk KId (b_ "public") (b_ " ") 2)) (VTok (tk KStr ([dq] ++ b_ "y.proto" ++ [dq]) (b_ " ") 2)) (b_ "y.proto") (Some (tk KRune (b_ ";") [] 2))); FOption (Opt (Some (tk KId (b_ "option") ([nl]) 3)) (Some [PRef (FieldRef None None None (Id (tk KId (b_ "java_package") (b_ " ") 3)) None)]) (Some (tk KRune (b_ "=") (b_ " ") 3)) (Some (VTok (tk KStr ([dq] ++ b_ "p" ++ [dq]) (b_ " ") 3))) (Some (tk KRune (b_ ";") [] 3))); FDecl (DMessage (tk KId (b_ "message") ([nl]) 4) (tk KId (b_ "M") (b_ " ") 4) (tk KRune (b_ "{") (b_ " ") 4) [DField None (Id (tk KId (b_ "int32") (b_ " ") 4)) (Some (tk KId (b_ "f") (b_ " ") 4)) (Some (tk KRune (b_ "=") (b_ " ") 4)) (Some (VTok (tk KNum (b_ "1") (b_ " ") 4))) (Some (COpts (tk KRune (b_ "[") (b_ " ") 4) [Opt None (Some [PRef (FieldRef None None None (Id (tk KId (b_ "deprecated") [] 4)) None)]) (Some (tk KRune (b_ "=") (b_ " ") 4)) (Some (VTok (tk KId (b_ "true") (b_ " ") 4))) None] (tk KRune (b_ "]") [] 4) None)) (Some (tk KRune (b_ ";") [] 4)); DField (Some (tk KId (b_ "repeated") ([nl] ++ [nl] ++ [nl] ++ [nl] ++ b_ " ") 8)) (Cid [(tk KRune (b_ ".") (b_ " ") 8); (tk KId (b_ "a") [] 8); (tk KRune (b_ ".") [] 8); (tk KId (b_ "b") [] 8); (tk KRune (b_ ".") [] 8); (tk KId (b_ "N") [] 8)]) (Some (tk KId (b_ "ggg") (b_ " ") 8)) (Some (tk KRune (b_ "=") (b_ " ") 8)) (Some (VTok (tk KNum (b_ "2") (b_ " ") 8))) None (Some (tk KRune (b_ ";") [] 8)); DMap (tk KId (b_ "map") ([nl] ++ b_ " ") 9) (tk KRune (b_ "<") [] 9) (Id (tk KId (b_ "string") [] 9)) (tk KRune (b_ ",") [] 9) (Cid [(tk KId (b_ "a") (b_ " ") 9); (tk KRune (b_ ".") [] 9); (tk KId (b_ "b") [] 9); (tk KRune (b_ ".") [] 9); (tk KId (b_ "N") [] 9)]) (tk KRune (b_ ">") [] 9) None (tk KId (b_ "m") (b_ " ") 9) (tk KRune (b_ "=") (b_ " ") 9) (VTok (tk KNum (b_ "3") (b_ " ") 9)) None (Some (tk KRune (b_ ";") [] 9)); DOneof (tk KId (b_ "oneof") (b_ " ") 9) (tk KId (b_ "o") (b_ " ") 9) (tk KRune (b_ "{") (b_ " ") 9) [DField None (Id (tk KId (b_ "string") (b_ " ") 9)) (Some (tk KId (b_ "s") (b_ " ") 9)) (Some (tk KRune (b_ "=") (b_ " ") 9)) (Some (VTok (tk KNum (b_ "4") (b_ " ") 9))) None (Some (tk KRune (b_ ";") [] 9))] (tk KRune (b_ "}") (b_ " ") 9) None; DReserved (tk KId (b_ "reserved") ([nl] ++ b_ " ") 10) [RRange (VTok (tk KNum (b_ "5") (b_ " ") 10)) (Some (tk KId (b_ "to") (b_ " ") 10)) (Some (VTok (tk KNum (b_ "7") (b_ " ") 10))) None; RComma (tk KRune (b_ ",") [] 10); RRange (VTok (tk KNum (b_ "9") (b_ " ") 10)) (Some (tk KId (b_ "to") (b_ " ") 10)) None (Some (tk KId (b_ "max") (b_ " ") 10))] (Some (tk KRune (b_ ";") [] 10)); DMessage (tk KId (b_ "message") (b_ " ") 10) (tk KId (b_ "N") (b_ " ") 10) (tk KRune (b_ "{") (b_ " ") 10) [] (tk KRune (b_ "}") [] 10) None; DEnum (tk KId (b_ "enum") ([nl]) 11) (tk KId (b_ "E") (b_ " ") 11) (tk KRune (b_ "{") (b_ " ") 11) [DOption (Opt (Some (tk KId (b_ "option") (b_ " ") 11)) (Some [PRef (FieldRef None None None (Id (tk KId (b_ "allow_alias") (b_ " ") 11)) None)]) (Some (tk KRune (b_ "=") (b_ " ") 11)) (Some (VTok (tk KId (b_ "true") (b_ " ") 11))) (Some (tk KRune (b_ ";") [] 11))); DEnumValue (tk KId (b_ "A") (b_ " ") 11) (tk KRune (b_ "=") (b_ " ") 11) (VTok (tk KNum (b_ "0") (b_ " ") 11)) None (Some (tk KRune (b_ ";") [] 11)); DEnumValue (tk KId (b_ "B") (b_ " ") 11) (tk KRune (b_ "=") (b_ " ") 11) (VNum (tk KRune (b_ "-") (b_ " ") 11) (tk KNum (b_ "1") [] 11)) None (Some (tk KRune (b_ ";") [] 11))] (tk KRune (b_ "}") (b_ " ") 11) None] (tk KRune (b_ "}") (b_ " ") 11) None); FDecl (DService (tk KId (b_ "service") ([nl]) 12) (tk KId (b_ "S") (b_ " ") 12) (tk KRune (b_ "{") (b_ " ") 12) [DRpc (tk KId (b_ "rpc") (b_ " ") 12) (tk KId (b_ "Get") (b_ " ") 12) (RpcType (tk KRune (b_ "(") [] 12) None (Id (tk KId (b_ "M") [] 12)) (tk KRune (b_ ")") [] 12)) (tk KId (b_ "returns") (b_ " ") 12) (RpcType (tk KRune (b_ "(") (b_ " ") 12) (Some (tk KId (b_ "stream") [] 12)) (Id (tk KId (b_ "M") (b_ " ") 12)) (tk KRune (b_ ")") [] 12)) None [] (Some (tk KRune (b_ ";") [] 12)); DRpc (tk KId (b_ "rpc") ([nl]) 13) (tk KId (b_ "Put") (b_ " ") 13) (RpcType (tk KRune (b_ "(") [] 13) (Some (tk KId (b_ "stream") [] 13)) (Cid [(tk KRune (b_ ".") (b_ " ") 13); (tk KId (b_ "a") [] 13); (tk KRune (b_ ".") [] 13); (tk KId (b_ "b") [] 13); (tk KRune (b_ ".") [] 13); (tk KId (b_ "M") [] 13)]) (tk KRune (b_ ")") [] 13)) (tk KId (b_ "returns") (b_ " ") 13) (RpcType (tk KRune (b_ "(") (b_ " ") 13) None (Id (tk KId (b_ "M") [] 13)) (tk KRune (b_ ")") [] 13)) (Some ((tk KRune (b_ "{") (b_ " ") 13), (tk KRune (b_ "}") (b_ " ") 13))) [DOption (Opt (Some (tk KId (b_ "option") (b_ " ") 13)) (Some [PRef (FieldRef None None None (Id (tk KId (b_ "deprecated") (b_ " ") 13)) None)]) (Some (tk KRune (b_ "=") (b_ " ") 13)) (Some (VTok (tk KId (b_ "true") (b_ " ") 13))) (Some (tk KRune (b_ ";") [] 13)))] None] (tk KRune (b_ "}") (b_ " ") 13) None)] (Some (tk KRune [] ([nl]) 14)).

Definition neat1_text : bytes := (b_ "syntax = " ++ [dq] ++ b_ "proto3" ++ [dq] ++ b_ ";" ++ [nl] ++ b_ "package a.b;" ++ [nl] ++ [nl] ++ b_ "import " ++ [dq] ++ b_ "x.proto" ++ [dq] ++ b_ ";" ++ [nl] ++ b_ "import public " ++ [dq] ++ b_ "y.proto" ++ [dq] ++ b_ ";" ++ [nl] ++ [nl] ++ b_ "option java_package = " ++ [dq] ++ b_ "p" ++ [dq] ++ b_ ";" ++ [nl] ++ [nl] ++ b_ "message M {" ++ [nl] ++ b_ "  int32 f = 1 [deprecated = true];" ++ [nl] ++ [nl] ++ b_ "  repeated .a.b.N    ggg = 2;" ++ [nl] ++ b_ "  map<string, a.b.N> m   = 3;" ++ [nl] ++ b_ "  oneof o {" ++ [nl] ++ b_ "    string s = 4;" ++ [nl] ++ b_ "  }" ++ [nl] ++ b_ "  reserved 5 to 7, 9 to max;" ++ [nl] ++ b_ "  message N {}" ++ [nl] ++ b_ "  enum E {" ++ [nl] ++ b_ "    option allow_alias = true;" ++ [nl] ++ b_ "    A = 0;" ++ [nl] ++ b_ "    B = -1;" ++ [nl] ++ b_ "  }" ++ [nl] ++ b_ "}" ++ [nl] ++ [nl] ++ b_ "service S {" ++ [nl] ++ b_ "  rpc Get(M) returns (stream M);" ++ [nl] ++ b_ "  rpc Put(stream .a.b.M) returns (M) {" ++ [nl] ++ b_ "    option deprecated = true;" ++ [nl] ++ b_ "  }" ++ [nl] ++ b_ "}" ++ [nl]).
Definition neat1 : file := File (Some ((tk KId (b_ "syntax") [] 0), (tk KRune (b_ "=") (b_ " ") 0), (VTok (tk KStr ([dq] ++ b_ "proto3" ++ [dq]) (b_ " ") 0)), Some (tk KRune (b_ ";") [] 0))) [FPackage (tk KId (b_ "package") ([nl]) 1) (Some (Cid [(tk KId (b_ "a") (b_ " ") 1); (tk KRune (b_ ".") [] 1); (tk KId (b_ "b") [] 1)])) (Some (tk KRune (b_ ";") [] 1)); FImport (Import (tk KId (b_ "import") ([nl] ++ [nl]) 3) None (VTok (tk KStr ([dq] ++ b_ "x.proto" ++ [dq]) (b_ " ") 3)) (b_ "x.proto") (Some (tk KRune (b_ ";") [] 3))); FImport (Import (tk KId (b_ "import") ([nl]) 4) (Some (tk KId (b_ "public") (b_ " ") 4)) (VTok (tk KStr ([dq] ++ b_ "y.proto" ++ [dq]) (b_ " ") 4)) (b_ "y.proto") (Some (tk KRune (b_ ";") [] 4))); FOption (Opt (Some (tk KId (b_ "option") ([nl] ++ [nl]) 6)) (Some [PRef (FieldRef None None None (Id (tk KId (b_ "java_package") (b_ " ") 6)) None)]) (Some (tk KRune (b_ "=") (b_ " ") 6)) (Some (VTok (tk KStr ([dq] ++ b_ "p" ++ [dq]) (b_ " ") 6))) (Some (tk KRune (b_ ";") [] 6))); FDecl (DMessage (tk KId (b_ "message") ([nl] ++ [nl]) 8) (tk KId (b_ "M") (b_ " ") 8) (tk KRune (b_ "{") (b_ " ") 8) [DField None (Id (tk KId (b_ "int32") ([nl] ++ b_ "  ") 9)) (Some (tk KId (b_ "f") (b_ " ") 9)) (Some (tk KRune (b_ "=") (b_ " ") 9)) (Some (VTok (tk KNum (b_ "1") (b_ " ") 9))) (Some (COpts (tk KRune (b_ "[") (b_ " ") 9) [Opt None (Some [PRef (FieldRef None None None (Id (tk KId (b_ "deprecated") [] 9)) None)]) (Some (tk KRune (b_ "=") (b_ " ") 9)) (Some (VTok (tk KId (b_ "true") (b_ " ") 9))) None] (tk KRune (b_ "]") [] 9) None)) (Some (tk KRune (b_ ";") [] 9)); DField (Some (tk KId (b_ "repeated") ([nl] ++ [nl] ++ b_ "  ") 11)) (Cid [(tk KRune (b_ ".") (b_ " ") 11); (tk KId (b_ "a") [] 11); (tk KRune (b_ ".") [] 11); (tk KId (b_ "b") [] 11); (tk KRune (b_ ".") [] 11); (tk KId (b_ "N") [] 11)]) (Some (tk KId (b_ "ggg") (b_ "    ") 11)) (Some (tk KRune (b_ "=") (b_ " ") 11)) (Some (VTok (tk KNum (b_ "2") (b_ " ") 11))) None (Some (tk KRune (b_ ";") [] 11)); DMap (tk KId (b_ "map") ([nl] ++ b_ "  ") 12) (tk KRune (b_ "<") [] 12) (Id (tk KId (b_ "string") [] 12)) (tk KRune (b_ ",") [] 12) (Cid [(tk KId (b_ "a") (b_ " ") 12); (tk KRune (b_ ".") [] 12); (tk KId (b_ "b") [] 12); (tk KRune (b_ ".") [] 12); (tk KId (b_ "N") [] 12)]) (tk KRune (b_ ">") [] 12) None (tk KId (b_ "m") (b_ " ") 12) (tk KRune (b_ "=") (b_ "   ") 12) (VTok (tk KNum (b_ "3") (b_ " ") 12)) None (Some (tk KRune (b_ ";") [] 12)); DOneof (tk KId (b_ "oneof") ([nl] ++ b_ "  ") 13) (tk KId (b_ "o") (b_ " ") 13) (tk KRune (b_ "{") (b_ " ") 13) [DField None (Id (tk KId (b_ "string") ([nl] ++ b_ "    ") 14)) (Some (tk KId (b_ "s") (b_ " ") 14)) (Some (tk KRune (b_ "=") (b_ " ") 14)) (Some (VTok (tk KNum (b_ "4") (b_ " ") 14))) None (Some (tk KRune (b_ ";") [] 14))] (tk KRune (b_ "}") ([nl] ++ b_ "  ") 15) None; DReserved (tk KId (b_ "reserved") ([nl] ++ b_ "  ") 16) [RRange (VTok (tk KNum (b_ "5") (b_ " ") 16)) (Some (tk KId (b_ "to") (b_ " ") 16)) (Some (VTok (tk KNum (b_ "7") (b_ " ") 16))) None; RComma (tk KRune (b_ ",") [] 16); RRange (VTok (tk KNum (b_ "9") (b_ " ") 16)) (Some (tk KId (b_ "to") (b_ " ") 16)) None (Some (tk KId (b_ "max") (b_ " ") 16))] (Some (tk KRune (b_ ";") [] 16)); DMessage (tk KId (b_ "message") ([nl] ++ b_ "  ") 17) (tk KId (b_ "N") (b_ " ") 17) (tk KRune (b_ "{") (b_ " ") 17) [] (tk KRune (b_ "}") [] 17) None; DEnum (tk KId (b_ "enum") ([nl] ++ b_ "  ") 18) (tk KId (b_ "E") (b_ " ") 18) (tk KRune (b_ "{") (b_ " ") 18) [DOption (Opt (Some (tk KId (b_ "option") ([nl] ++ b_ "    ") 19)) (Some [PRef (FieldRef None None None (Id (tk KId (b_ "allow_alias") (b_ " ") 19)) None)]) (Some (tk KRune (b_ "=") (b_ " ") 19)) (Some (VTok (tk KId (b_ "true") (b_ " ") 19))) (Some (tk KRune (b_ ";") [] 19))); DEnumValue (tk KId (b_ "A") ([nl] ++ b_ "    ") 20) (tk KRune (b_ "=") (b_ " ") 20) (VTok (tk KNum (b_ "0") (b_ " ") 20)) None (Some (tk KRune (b_ ";") [] 20)); DEnumValue (tk KId (b_ "B") ([nl] ++ b_ "    ") 21) (tk KRune (b_ "=") (b_ " ") 21) (VNum (tk KRune (b_ "-") (b_ " ") 21) (tk KNum (b_ "1") [] 21)) None (Some (tk KRune (b_ ";") [] 21))] (tk KRune (b_ "}") ([nl] ++ b_ "  ") 22) None] (tk KRune (b_ "}") ([nl]) 23) None); FDecl (DService (tk KId (b_ "service") ([nl] ++ [nl]) 25) (tk KId (b_ "S") (b_ " ") 25) (tk KRune (b_ "{") (b_ " ") 25) [DRpc (tk KId (b_ "rpc") ([nl] ++ b_ "  ") 26) (tk KId (b_ "Get") (b_ " ") 26) (RpcType (tk KRune (b_ "(") [] 26) None (Id (tk KId (b_ "M") [] 26)) (tk KRune (b_ ")") [] 26)) (tk KId (b_ "returns") (b_ " ") 26) (RpcType (tk KRune (b_ "(") (b_ " ") 26) (Some (tk KId (b_ "stream") [] 26)) (Id (tk KId (b_ "M") (b_ " ") 26)) (tk KRune (b_ ")") [] 26)) None [] (Some (tk KRune (b_ ";") [] 26)); DRpc (tk KId (b_ "rpc") ([nl] ++ b_ "  ") 27) (tk KId (b_ "Put") (b_ " ") 27) (RpcType (tk KRune (b_ "(") [] 27) (Some (tk KId (b_ "stream") [] 27)) (Cid [(tk KRune (b_ ".") (b_ " ") 27); (tk KId (b_ "a") [] 27); (tk KRune (b_ ".") [] 27); (tk KId (b_ "b") [] 27); (tk KRune (b_ ".") [] 27); (tk KId (b_ "M") [] 27)]) (tk KRune (b_ ")") [] 27)) (tk KId (b_ "returns") (b_ " ") 27) (RpcType (tk KRune (b_ "(") (b_ " ") 27) None (Id (tk KId (b_ "M") [] 27)) (tk KRune (b_ ")") [] 27)) (Some ((tk KRune (b_ "{") (b_ " ") 27), (tk KRune (b_ "}") ([nl] ++ b_ "  ") 29))) [DOption (Opt (Some (tk KId (b_ "option") ([nl] ++ b_ "    ") 28)) (Some [PRef (FieldRef None None None (Id (tk KId (b_ "deprecated") (b_ " ") 28)) None)]) (Some (tk KRune (b_ "=") (b_ " ") 28)) (Some (VTok (tk KId (b_ "true") (b_ " ") 28))) (Some (tk KRune (b_ ";") [] 28)))] None] (tk KRune (b_ "}") ([nl]) 30) None)] (Some (tk KRune [] ([nl]) 31)).

