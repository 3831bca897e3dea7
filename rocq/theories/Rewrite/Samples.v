(* Sources and their trees, for the examples of Rewrite/Props.v.  Generated by tools/fmtcases.py --rewrite. *)
From Coq Require Import List Arith Bool ZArith NArith Ascii String.
From Verif Require Import Base Strs.
From Verif.Format Require Import Model.
From Verif.FormatTree Require Import Model Samples.
Import ListNotations.
Open Scope list_scope.

Definition nested_before : bytes := (b_ "message Outer {" ++ [nl] ++ b_ "  // a point" ++ [nl] ++ b_ "  ").
Definition nested_it : bytes := (b_ "message P {" ++ [nl] ++ b_ "    // how far" ++ [nl] ++ b_ "    int32 x = 7; // x" ++ [nl] ++ b_ "    repeated string tags = 3 [deprecated = true];" ++ [nl] ++ b_ "    reserved 9;" ++ [nl] ++ b_ "    P next = 5; /* the" ++ [nl] ++ b_ "      next */" ++ [nl] ++ b_ "  }").
Definition nested_after : bytes := (b_ " // end" ++ [nl] ++ [nl] ++ b_ "  P p = 1;" ++ [nl] ++ b_ "}" ++ [nl]).
Definition nested_file : file := File None [FDecl (DMessage (tk KId (b_ "message") [] 0) (tk KId (b_ "Outer") (b_ " ") 0) (tk KRune (b_ "{") (b_ " ") 0) [DMessage (Token KId (b_ "message") [Comment (b_ "// a point") ([nl] ++ b_ "  ") false] [] ([nl] ++ b_ "  ") 2 false) (tk KId (b_ "P") (b_ " ") 2) (tk KRune (b_ "{") (b_ " ") 2) [DField None (Id (Token KId (b_ "int32") [Comment (b_ "// how far") ([nl] ++ b_ "    ") false] [] ([nl] ++ b_ "    ") 4 false)) (Some (tk KId (b_ "x") (b_ " ") 4)) (Some (tk KRune (b_ "=") (b_ " ") 4)) (Some (VTok (tk KNum (b_ "7") (b_ " ") 4))) None (Some (Token KRune (b_ ";") [] [Comment (b_ "// x") (b_ " ") false] [] 4 false)); DField (Some (tk KId (b_ "repeated") ([nl] ++ b_ "    ") 5)) (Id (tk KId (b_ "string") (b_ " ") 5)) (Some (tk KId (b_ "tags") (b_ " ") 5)) (Some (tk KRune (b_ "=") (b_ " ") 5)) (Some (VTok (tk KNum (b_ "3") (b_ " ") 5))) (Some (COpts (tk KRune (b_ "[") (b_ " ") 5) [Opt None (Some [PRef (FieldRef None None None (Id (tk KId (b_ "deprecated") [] 5)) None)]) (Some (tk KRune (b_ "=") (b_ " ") 5)) (Some (VTok (tk KId (b_ "true") (b_ " ") 5))) None] (tk KRune (b_ "]") [] 5) None)) (Some (tk KRune (b_ ";") [] 5)); DReserved (tk KId (b_ "reserved") ([nl] ++ b_ "    ") 6) [RRange (VTok (tk KNum (b_ "9") (b_ " ") 6)) None None None] (Some (tk KRune (b_ ";") [] 6)); DField None (Id (tk KId (b_ "P") ([nl] ++ b_ "    ") 7)) (Some (tk KId (b_ "next") (b_ " ") 7)) (Some (tk KRune (b_ "=") (b_ " ") 7)) (Some (VTok (tk KNum (b_ "5") (b_ " ") 7))) None (Some (Token KRune (b_ ";") [] [Comment (b_ "/* the" ++ [nl] ++ b_ "      next */") (b_ " ") false] [] 7 false))] (Token KRune (b_ "}") [] [Comment (b_ "// end") (b_ " ") false] ([nl] ++ b_ "  ") 9 false) None; DField None (Id (tk KId (b_ "P") ([nl] ++ [nl] ++ b_ "  ") 11)) (Some (tk KId (b_ "p") (b_ " ") 11)) (Some (tk KRune (b_ "=") (b_ " ") 11)) (Some (VTok (tk KNum (b_ "1") (b_ " ") 11))) None (Some (tk KRune (b_ ";") [] 11))] (tk KRune (b_ "}") ([nl]) 12) None)] (Some (tk KRune [] ([nl]) 13)).

Definition keyword_before : bytes := [].
Definition keyword_it : bytes := (b_ "message /* lost */ A {" ++ [nl] ++ b_ "  int32 x = 2;" ++ [nl] ++ b_ "}").
Definition keyword_after : bytes := ([nl]).
Definition keyword_file : file := File None [FDecl (DMessage (Token KId (b_ "message") [] [Comment (b_ "/* lost */") (b_ " ") false] [] 0 false) (tk KId (b_ "A") (b_ " ") 0) (tk KRune (b_ "{") (b_ " ") 0) [DField None (Id (tk KId (b_ "int32") ([nl] ++ b_ "  ") 1)) (Some (tk KId (b_ "x") (b_ " ") 1)) (Some (tk KRune (b_ "=") (b_ " ") 1)) (Some (VTok (tk KNum (b_ "2") (b_ " ") 1))) None (Some (tk KRune (b_ ";") [] 1))] (tk KRune (b_ "}") ([nl]) 2) None)] (Some (tk KRune [] ([nl]) 3)).

Definition tagged_before : bytes := [].
Definition tagged_it : bytes := (b_ "message A {" ++ [nl] ++ b_ "  int32 x = 2 /* lost */;" ++ [nl] ++ b_ "}").
Definition tagged_after : bytes := ([nl]).
Definition tagged_file : file := File None [FDecl (DMessage (tk KId (b_ "message") [] 0) (tk KId (b_ "A") (b_ " ") 0) (tk KRune (b_ "{") (b_ " ") 0) [DField None (Id (tk KId (b_ "int32") ([nl] ++ b_ "  ") 1)) (Some (tk KId (b_ "x") (b_ " ") 1)) (Some (tk KRune (b_ "=") (b_ " ") 1)) (Some (VTok (Token KNum (b_ "2") [] [Comment (b_ "/* lost */") (b_ " ") false] (b_ " ") 1 false))) None (Some (tk KRune (b_ ";") [] 1))] (tk KRune (b_ "}") ([nl]) 2) None)] (Some (tk KRune [] ([nl]) 3)).

Definition doubled_before : bytes := [].
Definition doubled_it : bytes := (b_ "message A {" ++ [nl] ++ b_ "  int32 x = 2;" ++ [nl] ++ b_ "}").
Definition doubled_after : bytes := (b_ " // end" ++ [nl]).
Definition doubled_file : file := File None [FDecl (DMessage (tk KId (b_ "message") [] 0) (tk KId (b_ "A") (b_ " ") 0) (tk KRune (b_ "{") (b_ " ") 0) [DField None (Id (tk KId (b_ "int32") ([nl] ++ b_ "  ") 1)) (Some (tk KId (b_ "x") (b_ " ") 1)) (Some (tk KRune (b_ "=") (b_ " ") 1)) (Some (VTok (tk KNum (b_ "2") (b_ " ") 1))) None (Some (tk KRune (b_ ";") [] 1))] (Token KRune (b_ "}") [] [Comment (b_ "// end") (b_ " ") false] ([nl]) 2 false) None)] (Some (tk KRune [] ([nl]) 3)).

Definition inlined_before : bytes := [].
Definition inlined_it : bytes := (b_ "message A {" ++ [nl] ++ b_ "  // lost" ++ [nl] ++ b_ "  B b = 2;" ++ [nl] ++ b_ "}").
Definition inlined_after : bytes := ([nl] ++ [nl] ++ b_ "message B {" ++ [nl] ++ b_ "  int32 x = 1;" ++ [nl] ++ b_ "}" ++ [nl]).
Definition inlined_file : file := File None [FDecl (DMessage (tk KId (b_ "message") [] 0) (tk KId (b_ "A") (b_ " ") 0) (tk KRune (b_ "{") (b_ " ") 0) [DField None (Id (Token KId (b_ "B") [Comment (b_ "// lost") ([nl] ++ b_ "  ") false] [] ([nl] ++ b_ "  ") 2 false)) (Some (tk KId (b_ "b") (b_ " ") 2)) (Some (tk KRune (b_ "=") (b_ " ") 2)) (Some (VTok (tk KNum (b_ "2") (b_ " ") 2))) None (Some (tk KRune (b_ ";") [] 2))] (tk KRune (b_ "}") ([nl]) 3) None); FDecl (DMessage (tk KId (b_ "message") ([nl] ++ [nl]) 5) (tk KId (b_ "B") (b_ " ") 5) (tk KRune (b_ "{") (b_ " ") 5) [DField None (Id (tk KId (b_ "int32") ([nl] ++ b_ "  ") 6)) (Some (tk KId (b_ "x") (b_ " ") 6)) (Some (tk KRune (b_ "=") (b_ " ") 6)) (Some (VTok (tk KNum (b_ "1") (b_ " ") 6))) None (Some (tk KRune (b_ ";") [] 6))] (tk KRune (b_ "}") ([nl]) 7) None)] (Some (tk KRune [] ([nl]) 8)).

