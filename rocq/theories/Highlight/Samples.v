(* Sources and their trees, for the examples of Highlight/Props.v.  Generated by tools/fmtcases.py --highlight. *)
From Coq Require Import List Arith Bool ZArith NArith Ascii String.
From Verif Require Import Base Strs.
From Verif.Format Require Import Model.
From Verif.FormatTree Require Import Model Samples.
Import ListNotations.
Open Scope list_scope.

Definition url_text : bytes := (b_ "option (x) = {[a.com/b.C] {f: 1}};" ++ [nl]).
Definition url_file : file := File None [FOption (Opt (Some (tk KId (b_ "option") [] 0)) (Some [PRef (FieldRef (Some (tk KRune (b_ "(") (b_ " ") 0)) None None (Id (tk KId (b_ "x") [] 0)) (Some (tk KRune (b_ ")") [] 0)))]) (Some (tk KRune (b_ "=") (b_ " ") 0)) (Some (VMsg (tk KRune (b_ "{") (b_ " ") 0) [MField (FieldRef (Some (tk KRune (b_ "[") [] 0)) (Some (Cid [(tk KId (b_ "a") [] 0); (tk KRune (b_ ".") [] 0); (tk KId (b_ "com") [] 0)])) (Some (tk KRune (b_ "/") [] 0)) (Cid [(tk KId (b_ "b") [] 0); (tk KRune (b_ ".") [] 0); (tk KId (b_ "C") [] 0)]) (Some (tk KRune (b_ "]") [] 0))) None (VMsg (tk KRune (b_ "{") (b_ " ") 0) [MField (FieldRef None None None (Id (tk KId (b_ "f") [] 0)) None) (Some (tk KRune (b_ ":") [] 0)) (VTok (tk KNum (b_ "1") (b_ " ") 0)) None] (tk KRune (b_ "}") [] 0) None) None] (tk KRune (b_ "}") [] 0) None)) (Some (tk KRune (b_ ";") [] 0)))] (Some (tk KRune [] ([nl]) 1)).

Definition special_text : bytes := (b_ "option (x) = {f: inf, g: [true, false]};" ++ [nl]).
Definition special_file : file := File None [FOption (Opt (Some (tk KId (b_ "option") [] 0)) (Some [PRef (FieldRef (Some (tk KRune (b_ "(") (b_ " ") 0)) None None (Id (tk KId (b_ "x") [] 0)) (Some (tk KRune (b_ ")") [] 0)))]) (Some (tk KRune (b_ "=") (b_ " ") 0)) (Some (VMsg (tk KRune (b_ "{") (b_ " ") 0) [MField (FieldRef None None None (Id (tk KId (b_ "f") [] 0)) None) (Some (tk KRune (b_ ":") [] 0)) (VTok (tk KId (b_ "inf") (b_ " ") 0)) (Some (tk KRune (b_ ",") [] 0)); MField (FieldRef None None None (Id (tk KId (b_ "g") (b_ " ") 0)) None) (Some (tk KRune (b_ ":") [] 0)) (VArr (tk KRune (b_ "[") (b_ " ") 0) [(VTok (tk KId (b_ "true") [] 0)); (VTok (tk KId (b_ "false") (b_ " ") 0))] [(tk KRune (b_ ",") [] 0)] (tk KRune (b_ "]") [] 0) None) None] (tk KRune (b_ "}") [] 0) None)) (Some (tk KRune (b_ ";") [] 0)))] (Some (tk KRune [] ([nl]) 1)).

Definition dotted_text : bytes := (b_ "message A {" ++ [nl] ++ b_ "  // the field" ++ [nl] ++ b_ "  .foo.Bar f = 1;" ++ [nl] ++ b_ "}" ++ [nl]).
Definition dotted_file : file := File None [FDecl (DMessage (tk KId (b_ "message") [] 0) (tk KId (b_ "A") (b_ " ") 0) (tk KRune (b_ "{") (b_ " ") 0) [DField None (Cid [(Token KRune (b_ ".") [Comment (b_ "// the field") ([nl] ++ b_ "  ") false] [] ([nl] ++ b_ "  ") 2 false); (tk KId (b_ "foo") [] 2); (tk KRune (b_ ".") [] 2); (tk KId (b_ "Bar") [] 2)]) (Some (tk KId (b_ "f") (b_ " ") 2)) (Some (tk KRune (b_ "=") (b_ " ") 2)) (Some (VTok (tk KNum (b_ "1") (b_ " ") 2))) None (Some (tk KRune (b_ ";") [] 2))] (tk KRune (b_ "}") ([nl]) 3) None)] (Some (tk KRune [] ([nl]) 4)).

Definition ending_text : bytes := (b_ "message A {}" ++ [nl] ++ b_ "// the end" ++ [nl]).
Definition ending_file : file := File None [FDecl (DMessage (tk KId (b_ "message") [] 0) (tk KId (b_ "A") (b_ " ") 0) (tk KRune (b_ "{") (b_ " ") 0) [] (tk KRune (b_ "}") [] 0) None)] (Some (Token KRune [] [Comment (b_ "// the end") ([nl]) false] [] ([nl]) 2 false)).

Definition why_text : bytes := (b_ "option deprecated = true /* why */;" ++ [nl]).
Definition why_file : file := File None [FOption (Opt (Some (tk KId (b_ "option") [] 0)) (Some [PRef (FieldRef None None None (Id (tk KId (b_ "deprecated") (b_ " ") 0)) None)]) (Some (tk KRune (b_ "=") (b_ " ") 0)) (Some (VTok (Token KId (b_ "true") [] [Comment (b_ "/* why */") (b_ " ") false] (b_ " ") 0 false))) (Some (tk KRune (b_ ";") [] 0)))] (Some (tk KRune [] ([nl]) 1)).

Definition broken_text : bytes := (b_ "service S {" ++ [nl] ++ b_ "  rpc Get(a." ++ [nl] ++ b_ "      B) returns (C);" ++ [nl] ++ b_ "}" ++ [nl]).
Definition broken_file : file := File None [FDecl (DService (tk KId (b_ "service") [] 0) (tk KId (b_ "S") (b_ " ") 0) (tk KRune (b_ "{") (b_ " ") 0) [DRpc (tk KId (b_ "rpc") ([nl] ++ b_ "  ") 1) (tk KId (b_ "Get") (b_ " ") 1) (RpcType (tk KRune (b_ "(") [] 1) None (Cid [(tk KId (b_ "a") [] 1); (tk KRune (b_ ".") [] 1); (tk KId (b_ "B") ([nl] ++ b_ "      ") 2)]) (tk KRune (b_ ")") [] 2)) (tk KId (b_ "returns") (b_ " ") 2) (RpcType (tk KRune (b_ "(") (b_ " ") 2) None (Id (tk KId (b_ "C") [] 2)) (tk KRune (b_ ")") [] 2)) None [] (Some (tk KRune (b_ ";") [] 2))] (tk KRune (b_ "}") ([nl]) 3) None)] (Some (tk KRune [] ([nl]) 4)).

Definition foreign_text : bytes := (b_ "message A {" ++ [nl] ++ b_ "  my.google.protobuf.Any f = 1;" ++ [nl] ++ b_ "}" ++ [nl]).
Definition foreign_file : file := File None [FDecl (DMessage (tk KId (b_ "message") [] 0) (tk KId (b_ "A") (b_ " ") 0) (tk KRune (b_ "{") (b_ " ") 0) [DField None (Cid [(tk KId (b_ "my") ([nl] ++ b_ "  ") 1); (tk KRune (b_ ".") [] 1); (tk KId (b_ "google") [] 1); (tk KRune (b_ ".") [] 1); (tk KId (b_ "protobuf") [] 1); (tk KRune (b_ ".") [] 1); (tk KId (b_ "Any") [] 1)]) (Some (tk KId (b_ "f") (b_ " ") 1)) (Some (tk KRune (b_ "=") (b_ " ") 1)) (Some (VTok (tk KNum (b_ "1") (b_ " ") 1))) None (Some (tk KRune (b_ ";") [] 1))] (tk KRune (b_ "}") ([nl]) 2) None)] (Some (tk KRune [] ([nl]) 3)).

