(* The unit tests of the formatter (pkg/format/formatter_test.go:15-290), as computations of the
   model.  Generated by tools/fmtcases.py, which lexes and parses the inputs; do not edit. *)
From Coq Require Import List Arith Bool ZArith NArith Ascii String.
From Verif Require Import Base Strs.
From Verif.Format Require Import Model.
From Verif.FormatTree Require Import Model Samples.
Import ListNotations.
Open Scope list_scope.

Example unit_test_0 : printed (File None [FDecl (DMessage (tk KId (b_ "message") [] 0) (tk KId (b_ "Simple") (b_ " ") 0) (tk KRune (b_ "{") (b_ " ") 0) [DField (Some (tk KId (b_ "optional") ([nl] ++ b_ "   ") 1)) (Id (tk KId (b_ "string") (b_ " ") 1)) (Some (tk KId (b_ "name") (b_ " ") 1)) (Some (tk KRune (b_ "=") (b_ " ") 1)) (Some (VTok (tk KNum (b_ "1") (b_ " ") 1))) None (Some (tk KRune (b_ ";") [] 1)); DField (Some (tk KId (b_ "optional") ([nl] ++ b_ "   ") 2)) (Id (tk KId (b_ "uint64") (b_ " ") 2)) (Some (tk KId (b_ "id") (b_ " ") 2)) (Some (tk KRune (b_ "=") (b_ " ") 2)) (Some (VTok (tk KNum (b_ "2") (b_ " ") 2))) None (Some (tk KRune (b_ ";") [] 2)); DField (Some (tk KId (b_ "optional") ([nl] ++ b_ "   ") 3)) (Id (tk KId (b_ "bytes") (b_ " ") 3)) (Some (tk KId (b_ "_extra") (b_ " ") 3)) (Some (tk KRune (b_ "=") (b_ " ") 3)) (Some (VTok (tk KNum (b_ "3") (b_ " ") 3))) None (Some (Token KRune (b_ ";") [] [Comment (b_ "// default JSON name will be capitalized") (b_ " ") false] [] 3 false)); DField (Some (tk KId (b_ "repeated") ([nl] ++ b_ "   ") 4)) (Id (tk KId (b_ "bool") (b_ " ") 4)) (Some (tk KId (b_ "_") (b_ " ") 4)) (Some (tk KRune (b_ "=") (b_ " ") 4)) (Some (VTok (tk KNum (b_ "4") (b_ " ") 4))) None (Some (Token KRune (b_ ";") [] [Comment (b_ "// default JSON name will be empty(!)") (b_ " ") false] [] 4 false))] (tk KRune (b_ "}") ([nl]) 5) None)] (Some (tk KRune [] [] 5)))
  = ((b_ "message Simple {" ++ [nl] ++ b_ "  optional string name   = 1;" ++ [nl] ++ b_ "  optional uint64 id     = 2;" ++ [nl] ++ b_ "  optional bytes  _extra = 3; // default JSON name will be capitalized" ++ [nl] ++ b_ "  repeated bool   _      = 4; // default JSON name will be empty(!)" ++ [nl] ++ b_ "}"), false, false).
Proof. vm_compute. reflexivity. Qed.

Example unit_test_0_again : printed (File None [FDecl (DMessage (tk KId (b_ "message") [] 0) (tk KId (b_ "Simple") (b_ " ") 0) (tk KRune (b_ "{") (b_ " ") 0) [DField (Some (tk KId (b_ "optional") ([nl] ++ b_ "  ") 1)) (Id (tk KId (b_ "string") (b_ " ") 1)) (Some (tk KId (b_ "name") (b_ " ") 1)) (Some (tk KRune (b_ "=") (b_ "   ") 1)) (Some (VTok (tk KNum (b_ "1") (b_ " ") 1))) None (Some (tk KRune (b_ ";") [] 1)); DField (Some (tk KId (b_ "optional") ([nl] ++ b_ "  ") 2)) (Id (tk KId (b_ "uint64") (b_ " ") 2)) (Some (tk KId (b_ "id") (b_ " ") 2)) (Some (tk KRune (b_ "=") (b_ "     ") 2)) (Some (VTok (tk KNum (b_ "2") (b_ " ") 2))) None (Some (tk KRune (b_ ";") [] 2)); DField (Some (tk KId (b_ "optional") ([nl] ++ b_ "  ") 3)) (Id (tk KId (b_ "bytes") (b_ " ") 3)) (Some (tk KId (b_ "_extra") (b_ "  ") 3)) (Some (tk KRune (b_ "=") (b_ " ") 3)) (Some (VTok (tk KNum (b_ "3") (b_ " ") 3))) None (Some (Token KRune (b_ ";") [] [Comment (b_ "// default JSON name will be capitalized") (b_ " ") false] [] 3 false)); DField (Some (tk KId (b_ "repeated") ([nl] ++ b_ "  ") 4)) (Id (tk KId (b_ "bool") (b_ " ") 4)) (Some (tk KId (b_ "_") (b_ "   ") 4)) (Some (tk KRune (b_ "=") (b_ "      ") 4)) (Some (VTok (tk KNum (b_ "4") (b_ " ") 4))) None (Some (Token KRune (b_ ";") [] [Comment (b_ "// default JSON name will be empty(!)") (b_ " ") false] [] 4 false))] (tk KRune (b_ "}") ([nl]) 5) None)] (Some (tk KRune [] [] 5)))
  = ((b_ "message Simple {" ++ [nl] ++ b_ "  optional string name   = 1;" ++ [nl] ++ b_ "  optional uint64 id     = 2;" ++ [nl] ++ b_ "  optional bytes  _extra = 3; // default JSON name will be capitalized" ++ [nl] ++ b_ "  repeated bool   _      = 4; // default JSON name will be empty(!)" ++ [nl] ++ b_ "}"), false, false).
Proof. vm_compute. reflexivity. Qed.

Example unit_test_1 : printed (File None [FDecl (DExtend (tk KId (b_ "extend") [] 0) (Some (Cid [(tk KRune (b_ ".") (b_ " ") 0); (tk KId (b_ "google") (b_ " ") 0); (Token KRune (b_ ".") [] [Comment (b_ "// identifier broken up strangely should still be accepted") (b_ " ") false] [] 0 false); (tk KId (b_ "protobuf") ([nl] ++ b_ "  ") 1); (tk KRune (b_ ".") (b_ " ") 1); (tk KId (b_ "ExtensionRangeOptions") ([nl] ++ b_ "   ") 2)])) (tk KRune (b_ "{") (b_ " ") 2) [DField (Some (tk KId (b_ "optional") ([nl] ++ b_ "  ") 3)) (Id (tk KId (b_ "string") (b_ " ") 3)) (Some (tk KId (b_ "label") (b_ " ") 3)) (Some (tk KRune (b_ "=") (b_ " ") 3)) (Some (VTok (tk KNum (b_ "20000") (b_ " ") 3))) None (Some (tk KRune (b_ ";") [] 3))] (tk KRune (b_ "}") ([nl]) 4) None)] (Some (tk KRune [] [] 4)))
  = ((b_ "extend .google. /* identifier broken up strangely should still be accepted */protobuf.ExtensionRangeOptions {" ++ [nl] ++ b_ "  optional string label = 20000;" ++ [nl] ++ b_ "}"), false, false).
Proof. vm_compute. reflexivity. Qed.

Example unit_test_1_again : printed (File None [FDecl (DExtend (tk KId (b_ "extend") [] 0) (Some (Cid [(tk KRune (b_ ".") (b_ " ") 0); (tk KId (b_ "google") [] 0); (Token KRune (b_ ".") [] [Comment (b_ "/* identifier broken up strangely should still be accepted */") (b_ " ") false] [] 0 false); (tk KId (b_ "protobuf") [] 0); (tk KRune (b_ ".") [] 0); (tk KId (b_ "ExtensionRangeOptions") [] 0)])) (tk KRune (b_ "{") (b_ " ") 0) [DField (Some (tk KId (b_ "optional") ([nl] ++ b_ "  ") 1)) (Id (tk KId (b_ "string") (b_ " ") 1)) (Some (tk KId (b_ "label") (b_ " ") 1)) (Some (tk KRune (b_ "=") (b_ " ") 1)) (Some (VTok (tk KNum (b_ "20000") (b_ " ") 1))) None (Some (tk KRune (b_ ";") [] 1))] (tk KRune (b_ "}") ([nl]) 2) None)] (Some (tk KRune [] [] 2)))
  = ((b_ "extend .google. /* identifier broken up strangely should still be accepted */protobuf.ExtensionRangeOptions {" ++ [nl] ++ b_ "  optional string label = 20000;" ++ [nl] ++ b_ "}"), false, false).
Proof. vm_compute. reflexivity. Qed.

Example unit_test_2 : printed (File None [FDecl (DMessage (tk KId (b_ "message") [] 0) (tk KId (b_ "Test") (b_ " ") 0) (tk KRune (b_ "{") (b_ " ") 0) [DField (Some (tk KId (b_ "optional") ([nl] ++ b_ "  ") 1)) (Id (tk KId (b_ "string") (b_ " ") 1)) (Some (tk KId (b_ "foo") (b_ " ") 1)) (Some (tk KRune (b_ "=") (b_ " ") 1)) (Some (VTok (tk KNum (b_ "1") (b_ " ") 1))) (Some (COpts (tk KRune (b_ "[") (b_ " ") 1) [Opt None (Some [PRef (FieldRef None None None (Id (tk KId (b_ "json_name") [] 1)) None)]) (Some (tk KRune (b_ "=") (b_ " ") 1)) (Some (VTok (tk KStr ([dq] ++ b_ "|foo|" ++ [dq]) (b_ " ") 1))) None] (tk KRune (b_ "]") [] 1) None)) (Some (tk KRune (b_ ";") [] 1)); DField (Some (tk KId (b_ "repeated") ([nl] ++ b_ "  ") 2)) (Id (tk KId (b_ "int32") (b_ " ") 2)) (Some (tk KId (b_ "array") (b_ " ") 2)) (Some (tk KRune (b_ "=") (b_ " ") 2)) (Some (VTok (tk KNum (b_ "2") (b_ " ") 2))) None (Some (tk KRune (b_ ";") [] 2)); DField (Some (tk KId (b_ "optional") ([nl] ++ b_ "  ") 3)) (Id (tk KId (b_ "Simple") (b_ " ") 3)) (Some (tk KId (b_ "s") (b_ " ") 3)) (Some (tk KRune (b_ "=") (b_ " ") 3)) (Some (VTok (tk KNum (b_ "3") (b_ " ") 3))) None (Some (tk KRune (b_ ";") [] 3)); DField (Some (tk KId (b_ "repeated") ([nl] ++ b_ "  ") 4)) (Id (tk KId (b_ "Simple") (b_ " ") 4)) (Some (tk KId (b_ "r") (b_ " ") 4)) (Some (tk KRune (b_ "=") (b_ " ") 4)) (Some (VTok (tk KNum (b_ "4") (b_ " ") 4))) None (Some (tk KRune (b_ ";") [] 4)); DMap (tk KId (b_ "map") ([nl] ++ b_ "  ") 5) (tk KRune (b_ "<") [] 5) (Id (tk KId (b_ "string") [] 5)) (tk KRune (b_ ",") [] 5) (Id (tk KId (b_ "int32") (b_ " ") 5)) (tk KRune (b_ ">") [] 5) None (tk KId (b_ "m") (b_ " ") 5) (tk KRune (b_ "=") (b_ " ") 5) (VTok (tk KNum (b_ "5") (b_ " ") 5)) None (Some (tk KRune (b_ ";") [] 5)); DField (Some (tk KId (b_ "optional") ([nl] ++ [nl] ++ b_ "  ") 7)) (Id (tk KId (b_ "bytes") (b_ " ") 7)) (Some (tk KId (b_ "b") (b_ " ") 7)) (Some (tk KRune (b_ "=") (b_ " ") 7)) (Some (VTok (tk KNum (b_ "6") (b_ " ") 7))) (Some (COpts (tk KRune (b_ "[") (b_ " ") 7) [Opt None (Some [PRef (FieldRef None None None (Id (tk KId (b_ "default") [] 7)) None)]) (Some (tk KRune (b_ "=") (b_ " ") 7)) (Some (VTok (tk KStr ([dq] ++ b_ "\0\1\2\3\4\5\6\7fubar!" ++ [dq]) (b_ " ") 7))) None] (tk KRune (b_ "]") [] 7) None)) (Some (tk KRune (b_ ";") [] 7)); DField (Some (tk KId (b_ "repeated") ([nl] ++ b_ "  ") 8)) (Id (tk KId (b_ "float") (b_ " ") 8)) (Some (tk KId (b_ "floats") (b_ " ") 8)) (Some (tk KRune (b_ "=") (b_ " ") 8)) (Some (VTok (tk KNum (b_ "7") (b_ " ") 8))) None (Some (tk KRune (b_ ";") [] 8)); DField (Some (tk KId (b_ "repeated") ([nl] ++ b_ "  ") 9)) (Id (tk KId (b_ "bool") (b_ " ") 9)) (Some (tk KId (b_ "bools") (b_ " ") 9)) (Some (tk KRune (b_ "=") (b_ " ") 9)) (Some (VTok (tk KNum (b_ "8") (b_ " ") 9))) None (Some (tk KRune (b_ ";") [] 9)); DField (Some (tk KId (b_ "repeated") ([nl] ++ b_ "  ") 10)) (Cid [(tk KId (b_ "Test") (b_ " ") 10); (tk KRune (b_ ".") [] 10); (tk KId (b_ "Nested") [] 10); (tk KRune (b_ ".") [] 10); (tk KId (b_ "_NestedNested") [] 10); (tk KRune (b_ ".") [] 10); (tk KId (b_ "EEE") [] 10)]) (Some (tk KId (b_ "enums") (b_ " ") 10)) (Some (tk KRune (b_ "=") (b_ " ") 10)) (Some (VTok (tk KNum (b_ "9") (b_ " ") 10))) None (Some (tk KRune (b_ ";") [] 10))] (tk KRune (b_ "}") ([nl]) 11) None)] (Some (tk KRune [] [] 11)))
  = ((b_ "message Test {" ++ [nl] ++ b_ "  optional string    foo   = 1 [json_name = " ++ [dq] ++ b_ "|foo|" ++ [dq] ++ b_ "];" ++ [nl] ++ b_ "  repeated int32     array = 2;" ++ [nl] ++ b_ "  optional Simple    s     = 3;" ++ [nl] ++ b_ "  repeated Simple    r     = 4;" ++ [nl] ++ b_ "  map<string, int32> m     = 5;" ++ [nl] ++ [nl] ++ b_ "  optional bytes b      = 6 [default = " ++ [dq] ++ b_ "\0\1\2\3\4\5\6\7fubar!" ++ [dq] ++ b_ "];" ++ [nl] ++ b_ "  repeated float floats = 7;" ++ [nl] ++ b_ "  repeated bool  bools  = 8;" ++ [nl] ++ b_ "  repeated Test.Nested._NestedNested.EEE enums = 9;" ++ [nl] ++ b_ "}"), false, false).
Proof. vm_compute. reflexivity. Qed.

Example unit_test_2_again : printed (File None [FDecl (DMessage (tk KId (b_ "message") [] 0) (tk KId (b_ "Test") (b_ " ") 0) (tk KRune (b_ "{") (b_ " ") 0) [DField (Some (tk KId (b_ "optional") ([nl] ++ b_ "  ") 1)) (Id (tk KId (b_ "string") (b_ " ") 1)) (Some (tk KId (b_ "foo") (b_ "    ") 1)) (Some (tk KRune (b_ "=") (b_ "   ") 1)) (Some (VTok (tk KNum (b_ "1") (b_ " ") 1))) (Some (COpts (tk KRune (b_ "[") (b_ " ") 1) [Opt None (Some [PRef (FieldRef None None None (Id (tk KId (b_ "json_name") [] 1)) None)]) (Some (tk KRune (b_ "=") (b_ " ") 1)) (Some (VTok (tk KStr ([dq] ++ b_ "|foo|" ++ [dq]) (b_ " ") 1))) None] (tk KRune (b_ "]") [] 1) None)) (Some (tk KRune (b_ ";") [] 1)); DField (Some (tk KId (b_ "repeated") ([nl] ++ b_ "  ") 2)) (Id (tk KId (b_ "int32") (b_ " ") 2)) (Some (tk KId (b_ "array") (b_ "     ") 2)) (Some (tk KRune (b_ "=") (b_ " ") 2)) (Some (VTok (tk KNum (b_ "2") (b_ " ") 2))) None (Some (tk KRune (b_ ";") [] 2)); DField (Some (tk KId (b_ "optional") ([nl] ++ b_ "  ") 3)) (Id (tk KId (b_ "Simple") (b_ " ") 3)) (Some (tk KId (b_ "s") (b_ "    ") 3)) (Some (tk KRune (b_ "=") (b_ "     ") 3)) (Some (VTok (tk KNum (b_ "3") (b_ " ") 3))) None (Some (tk KRune (b_ ";") [] 3)); DField (Some (tk KId (b_ "repeated") ([nl] ++ b_ "  ") 4)) (Id (tk KId (b_ "Simple") (b_ " ") 4)) (Some (tk KId (b_ "r") (b_ "    ") 4)) (Some (tk KRune (b_ "=") (b_ "     ") 4)) (Some (VTok (tk KNum (b_ "4") (b_ " ") 4))) None (Some (tk KRune (b_ ";") [] 4)); DMap (tk KId (b_ "map") ([nl] ++ b_ "  ") 5) (tk KRune (b_ "<") [] 5) (Id (tk KId (b_ "string") [] 5)) (tk KRune (b_ ",") [] 5) (Id (tk KId (b_ "int32") (b_ " ") 5)) (tk KRune (b_ ">") [] 5) None (tk KId (b_ "m") (b_ " ") 5) (tk KRune (b_ "=") (b_ "     ") 5) (VTok (tk KNum (b_ "5") (b_ " ") 5)) None (Some (tk KRune (b_ ";") [] 5)); DField (Some (tk KId (b_ "optional") ([nl] ++ [nl] ++ b_ "  ") 7)) (Id (tk KId (b_ "bytes") (b_ " ") 7)) (Some (tk KId (b_ "b") (b_ " ") 7)) (Some (tk KRune (b_ "=") (b_ "      ") 7)) (Some (VTok (tk KNum (b_ "6") (b_ " ") 7))) (Some (COpts (tk KRune (b_ "[") (b_ " ") 7) [Opt None (Some [PRef (FieldRef None None None (Id (tk KId (b_ "default") [] 7)) None)]) (Some (tk KRune (b_ "=") (b_ " ") 7)) (Some (VTok (tk KStr ([dq] ++ b_ "\0\1\2\3\4\5\6\7fubar!" ++ [dq]) (b_ " ") 7))) None] (tk KRune (b_ "]") [] 7) None)) (Some (tk KRune (b_ ";") [] 7)); DField (Some (tk KId (b_ "repeated") ([nl] ++ b_ "  ") 8)) (Id (tk KId (b_ "float") (b_ " ") 8)) (Some (tk KId (b_ "floats") (b_ " ") 8)) (Some (tk KRune (b_ "=") (b_ " ") 8)) (Some (VTok (tk KNum (b_ "7") (b_ " ") 8))) None (Some (tk KRune (b_ ";") [] 8)); DField (Some (tk KId (b_ "repeated") ([nl] ++ b_ "  ") 9)) (Id (tk KId (b_ "bool") (b_ " ") 9)) (Some (tk KId (b_ "bools") (b_ "  ") 9)) (Some (tk KRune (b_ "=") (b_ "  ") 9)) (Some (VTok (tk KNum (b_ "8") (b_ " ") 9))) None (Some (tk KRune (b_ ";") [] 9)); DField (Some (tk KId (b_ "repeated") ([nl] ++ b_ "  ") 10)) (Cid [(tk KId (b_ "Test") (b_ " ") 10); (tk KRune (b_ ".") [] 10); (tk KId (b_ "Nested") [] 10); (tk KRune (b_ ".") [] 10); (tk KId (b_ "_NestedNested") [] 10); (tk KRune (b_ ".") [] 10); (tk KId (b_ "EEE") [] 10)]) (Some (tk KId (b_ "enums") (b_ " ") 10)) (Some (tk KRune (b_ "=") (b_ " ") 10)) (Some (VTok (tk KNum (b_ "9") (b_ " ") 10))) None (Some (tk KRune (b_ ";") [] 10))] (tk KRune (b_ "}") ([nl]) 11) None)] (Some (tk KRune [] [] 11)))
  = ((b_ "message Test {" ++ [nl] ++ b_ "  optional string    foo   = 1 [json_name = " ++ [dq] ++ b_ "|foo|" ++ [dq] ++ b_ "];" ++ [nl] ++ b_ "  repeated int32     array = 2;" ++ [nl] ++ b_ "  optional Simple    s     = 3;" ++ [nl] ++ b_ "  repeated Simple    r     = 4;" ++ [nl] ++ b_ "  map<string, int32> m     = 5;" ++ [nl] ++ [nl] ++ b_ "  optional bytes b      = 6 [default = " ++ [dq] ++ b_ "\0\1\2\3\4\5\6\7fubar!" ++ [dq] ++ b_ "];" ++ [nl] ++ b_ "  repeated float floats = 7;" ++ [nl] ++ b_ "  repeated bool  bools  = 8;" ++ [nl] ++ b_ "  repeated Test.Nested._NestedNested.EEE enums = 9;" ++ [nl] ++ b_ "}"), false, false).
Proof. vm_compute. reflexivity. Qed.

Example unit_test_3 : printed (File None [FDecl (DMessage (tk KId (b_ "message") [] 0) (tk KId (b_ "Another") (b_ " ") 0) (tk KRune (b_ "{") (b_ " ") 0) [DOption (Opt (Some (tk KId (b_ "option") ([nl] ++ b_ "  ") 1)) (Some [PRef (FieldRef (Some (tk KRune (b_ "(") (b_ " ") 1)) None None (Cid [(tk KRune (b_ ".") [] 1); (tk KId (b_ "foo") [] 1); (tk KRune (b_ ".") [] 1); (tk KId (b_ "bar") [] 1); (tk KRune (b_ ".") [] 1); (tk KId (b_ "rept") [] 1)]) (Some (tk KRune (b_ ")") [] 1)))]) (Some (tk KRune (b_ "=") (b_ " ") 1)) (Some (VMsg (tk KRune (b_ "{") (b_ " ") 1) [MField (FieldRef None None None (Id (tk KId (b_ "foo") ([nl] ++ b_ "    ") 2)) None) (Some (tk KRune (b_ ":") [] 2)) (VTok (tk KStr ([dq] ++ b_ "abc" ++ [dq]) (b_ " ") 2)) None; MField (FieldRef None None None (Id (tk KId (b_ "s") (b_ " ") 2)) None) None (VMsg (tk KRune (b_ "<") (b_ " ") 2) [MField (FieldRef None None None (Id (tk KId (b_ "name") (b_ " ") 2)) None) (Some (tk KRune (b_ ":") [] 2)) (VTok (tk KStr ([dq] ++ b_ "foo" ++ [dq]) (b_ " ") 2)) (Some (tk KRune (b_ ",") [] 2)); MField (FieldRef None None None (Id (tk KId (b_ "id") (b_ " ") 2)) None) (Some (tk KRune (b_ ":") [] 2)) (VTok (tk KNum (b_ "123") (b_ " ") 2)) None] (tk KRune (b_ ">") (b_ " ") 2) None) (Some (tk KRune (b_ ",") [] 2)); MField (FieldRef None None None (Id (tk KId (b_ "array") (b_ " ") 2)) None) (Some (tk KRune (b_ ":") [] 2)) (VArr (tk KRune (b_ "[") (b_ " ") 2) [(VTok (tk KNum (b_ "1") [] 2)); (VTok (tk KNum (b_ "2") (b_ " ") 2)); (VTok (tk KNum (b_ "3") [] 2))] [(tk KRune (b_ ",") [] 2); (tk KRune (b_ ",") (b_ " ") 2)] (tk KRune (b_ "]") [] 2) None) (Some (tk KRune (b_ ",") [] 2)); MField (FieldRef None None None (Id (tk KId (b_ "r") (b_ " ") 2)) None) (Some (tk KRune (b_ ":") [] 2)) (VArr (tk KRune (b_ "[") [] 2) [(VMsg (tk KRune (b_ "<") [] 2) [MField (FieldRef None None None (Id (tk KId (b_ "name") [] 2)) None) (Some (tk KRune (b_ ":") [] 2)) (VTok (tk KStr ([dq] ++ b_ "f" ++ [dq]) [] 2)) None] (tk KRune (b_ ">") [] 2) None); (VMsg (tk KRune (b_ "{") (b_ " ") 2) [MField (FieldRef None None None (Id (tk KId (b_ "name") [] 2)) None) (Some (tk KRune (b_ ":") [] 2)) (VTok (tk KStr ([dq] ++ b_ "s" ++ [dq]) [] 2)) None] (tk KRune (b_ "}") [] 2) None); (VMsg (tk KRune (b_ "{") (b_ " ") 2) [MField (FieldRef None None None (Id (tk KId (b_ "id") [] 2)) None) (Some (tk KRune (b_ ":") [] 2)) (VTok (tk KNum (b_ "456") [] 2)) None] (tk KRune (b_ "}") [] 2) None)] [(tk KRune (b_ ",") [] 2); (tk KRune (b_ ",") [] 2)] (tk KRune (b_ "]") (b_ " ") 2) None) (Some (tk KRune (b_ ",") [] 2))] (tk KRune (b_ "}") ([nl] ++ b_ "  ") 3) None)) (Some (tk KRune (b_ ";") [] 3))); DOption (Opt (Some (tk KId (b_ "option") ([nl] ++ b_ "  ") 4)) (Some [PRef (FieldRef (Some (tk KRune (b_ "(") (b_ " ") 4)) None None (Cid [(tk KId (b_ "foo") [] 4); (tk KRune (b_ ".") [] 4); (tk KId (b_ "bar") [] 4); (tk KRune (b_ ".") [] 4); (tk KId (b_ "rept") [] 4)]) (Some (tk KRune (b_ ")") [] 4)))]) (Some (tk KRune (b_ "=") (b_ " ") 4)) (Some (VMsg (tk KRune (b_ "{") (b_ " ") 4) [MField (FieldRef None None None (Id (tk KId (b_ "foo") ([nl] ++ b_ "    ") 5)) None) (Some (tk KRune (b_ ":") [] 5)) (VTok (tk KStr ([dq] ++ b_ "def" ++ [dq]) (b_ " ") 5)) None; MField (FieldRef None None None (Id (tk KId (b_ "s") (b_ " ") 5)) None) None (VMsg (tk KRune (b_ "{") (b_ " ") 5) [MField (FieldRef None None None (Id (tk KId (b_ "name") (b_ " ") 5)) None) (Some (tk KRune (b_ ":") [] 5)) (VTok (tk KStr ([dq] ++ b_ "bar" ++ [dq]) (b_ " ") 5)) (Some (tk KRune (b_ ",") [] 5)); MField (FieldRef None None None (Id (tk KId (b_ "id") (b_ " ") 5)) None) (Some (tk KRune (b_ ":") [] 5)) (VTok (tk KNum (b_ "321") (b_ " ") 5)) None] (tk KRune (b_ "}") (b_ " ") 5) None) (Some (tk KRune (b_ ",") [] 5)); MField (FieldRef None None None (Id (tk KId (b_ "array") (b_ " ") 5)) None) (Some (tk KRune (b_ ":") [] 5)) (VArr (tk KRune (b_ "[") (b_ " ") 5) [(VTok (tk KNum (b_ "3") [] 5)); (VTok (tk KNum (b_ "2") (b_ " ") 5)); (VTok (tk KNum (b_ "1") [] 5))] [(tk KRune (b_ ",") [] 5); (tk KRune (b_ ",") (b_ " ") 5)] (tk KRune (b_ "]") [] 5) None) (Some (tk KRune (b_ ",") [] 5)); MField (FieldRef None None None (Id (tk KId (b_ "r") (b_ " ") 5)) None) (Some (tk KRune (b_ ":") [] 5)) (VMsg (tk KRune (b_ "{") [] 5) [MField (FieldRef None None None (Id (tk KId (b_ "name") [] 5)) None) (Some (tk KRune (b_ ":") [] 5)) (VTok (tk KStr ([dq] ++ b_ "g" ++ [dq]) [] 5)) None] (tk KRune (b_ "}") [] 5) None) None; MField (FieldRef None None None (Id (tk KId (b_ "r") (b_ " ") 5)) None) (Some (tk KRune (b_ ":") [] 5)) (VMsg (tk KRune (b_ "{") [] 5) [MField (FieldRef None None None (Id (tk KId (b_ "name") [] 5)) None) (Some (tk KRune (b_ ":") [] 5)) (VTok (tk KStr ([dq] ++ b_ "s" ++ [dq]) [] 5)) None] (tk KRune (b_ "}") [] 5) None) None] (tk KRune (b_ "}") [] 5) None)) (Some (tk KRune (b_ ";") [] 5))); DOption (Opt (Some (tk KId (b_ "option") ([nl] ++ b_ "  ") 6)) (Some [PRef (FieldRef (Some (tk KRune (b_ "(") (b_ " ") 6)) None None (Id (tk KId (b_ "rept") [] 6)) (Some (tk KRune (b_ ")") [] 6)))]) (Some (tk KRune (b_ "=") (b_ " ") 6)) (Some (VMsg (tk KRune (b_ "{") (b_ " ") 6) [MField (FieldRef None None None (Id (tk KId (b_ "foo") (b_ " ") 6)) None) (Some (tk KRune (b_ ":") [] 6)) (VTok (tk KStr ([dq] ++ b_ "def" ++ [dq]) (b_ " ") 6)) None] (tk KRune (b_ "}") (b_ " ") 6) None)) (Some (tk KRune (b_ ";") [] 6))); DOption (Opt (Some (tk KId (b_ "option") ([nl] ++ b_ "  ") 7)) (Some [PRef (FieldRef (Some (tk KRune (b_ "(") (b_ " ") 7)) None None (Id (tk KId (b_ "eee") [] 7)) (Some (tk KRune (b_ ")") [] 7)))]) (Some (tk KRune (b_ "=") (b_ " ") 7)) (Some (VTok (tk KId (b_ "V1") (b_ " ") 7))) (Some (tk KRune (b_ ";") [] 7))); DOption (Opt (Some (tk KId (b_ "option") ([nl]) 8)) (Some [PRef (FieldRef (Some (tk KRune (b_ "(") (b_ " ") 8)) None None (Id (tk KId (b_ "a") [] 8)) (Some (tk KRune (b_ ")") [] 8)))]) (Some (tk KRune (b_ "=") (b_ " ") 8)) (Some (VMsg (tk KRune (b_ "{") (b_ " ") 8) [MField (FieldRef None None None (Id (tk KId (b_ "fff") (b_ " ") 8)) None) (Some (tk KRune (b_ ":") [] 8)) (VTok (tk KId (b_ "OK") (b_ " ") 8)) None] (tk KRune (b_ "}") (b_ " ") 8) None)) (Some (tk KRune (b_ ";") [] 8))); DOption (Opt (Some (tk KId (b_ "option") ([nl]) 9)) (Some [PRef (FieldRef (Some (tk KRune (b_ "(") (b_ " ") 9)) None None (Id (tk KId (b_ "a") [] 9)) (Some (tk KRune (b_ ")") [] 9))); PDot (tk KRune (b_ ".") [] 9); PRef (FieldRef None None None (Id (tk KId (b_ "test") [] 9)) None)]) (Some (tk KRune (b_ "=") (b_ " ") 9)) (Some (VMsg (tk KRune (b_ "{") (b_ " ") 9) [MField (FieldRef None None None (Id (tk KId (b_ "m") (b_ " ") 9)) None) None (VMsg (tk KRune (b_ "{") (b_ " ") 9) [MField (FieldRef None None None (Id (tk KId (b_ "key") (b_ " ") 9)) None) (Some (tk KRune (b_ ":") [] 9)) (VTok (tk KStr ([dq] ++ b_ "foo" ++ [dq]) (b_ " ") 9)) None; MField (FieldRef None None None (Id (tk KId (b_ "value") (b_ " ") 9)) None) (Some (tk KRune (b_ ":") [] 9)) (VTok (tk KNum (b_ "100") (b_ " ") 9)) None] (tk KRune (b_ "}") (b_ " ") 9) None) None; MField (FieldRef None None None (Id (tk KId (b_ "m") (b_ " ") 9)) None) None (VMsg (tk KRune (b_ "{") (b_ " ") 9) [MField (FieldRef None None None (Id (tk KId (b_ "key") (b_ " ") 9)) None) (Some (tk KRune (b_ ":") [] 9)) (VTok (tk KStr ([dq] ++ b_ "bar" ++ [dq]) (b_ " ") 9)) None; MField (FieldRef None None None (Id (tk KId (b_ "value") (b_ " ") 9)) None) (Some (tk KRune (b_ ":") [] 9)) (VTok (tk KNum (b_ "200") (b_ " ") 9)) None] (tk KRune (b_ "}") (b_ " ") 9) None) None] (tk KRune (b_ "}") [] 9) None)) (Some (tk KRune (b_ ";") [] 9))); DOption (Opt (Some (tk KId (b_ "option") ([nl]) 10)) (Some [PRef (FieldRef (Some (tk KRune (b_ "(") (b_ " ") 10)) None None (Id (tk KId (b_ "a") [] 10)) (Some (tk KRune (b_ ")") [] 10))); PDot (tk KRune (b_ ".") [] 10); PRef (FieldRef None None None (Id (tk KId (b_ "test") [] 10)) None); PDot (tk KRune (b_ ".") [] 10); PRef (FieldRef None None None (Id (tk KId (b_ "foo") [] 10)) None)]) (Some (tk KRune (b_ "=") (b_ " ") 10)) (Some (VTok (tk KStr ([dq] ++ b_ "m&m" ++ [dq]) (b_ " ") 10))) (Some (tk KRune (b_ ";") [] 10))); DOption (Opt (Some (tk KId (b_ "option") ([nl]) 11)) (Some [PRef (FieldRef (Some (tk KRune (b_ "(") (b_ " ") 11)) None None (Id (tk KId (b_ "a") [] 11)) (Some (tk KRune (b_ ")") [] 11))); PDot (tk KRune (b_ ".") [] 11); PRef (FieldRef None None None (Id (tk KId (b_ "test") [] 11)) None); PDot (tk KRune (b_ ".") [] 11); PRef (FieldRef None None None (Id (tk KId (b_ "s") [] 11)) None); PDot (tk KRune (b_ ".") [] 11); PRef (FieldRef None None None (Id (tk KId (b_ "name") [] 11)) None)]) (Some (tk KRune (b_ "=") (b_ " ") 11)) (Some (VTok (tk KStr ([dq] ++ b_ "yolo" ++ [dq]) (b_ " ") 11))) (Some (tk KRune (b_ ";") [] 11))); DOption (Opt (Some (tk KId (b_ "option") ([nl] ++ b_ "  ") 12)) (Some [PRef (FieldRef (Some (tk KRune (b_ "(") (b_ " ") 12)) None None (Id (tk KId (b_ "a") [] 12)) (Some (tk KRune (b_ ")") [] 12))); PDot (tk KRune (b_ ".") [] 12); PRef (FieldRef None None None (Id (tk KId (b_ "test") [] 12)) None); PDot (tk KRune (b_ ".") [] 12); PRef (FieldRef None None None (Id (tk KId (b_ "s") [] 12)) None); PDot (tk KRune (b_ ".") [] 12); PRef (FieldRef None None None (Id (tk KId (b_ "id") [] 12)) None)]) (Some (tk KRune (b_ "=") (b_ " ") 12)) (Some (VTok (tk KNum (b_ "98765") (b_ " ") 12))) (Some (tk KRune (b_ ";") [] 12))); DOption (Opt (Some (tk KId (b_ "option") ([nl] ++ b_ "  ") 13)) (Some [PRef (FieldRef (Some (tk KRune (b_ "(") (b_ " ") 13)) None None (Id (tk KId (b_ "a") [] 13)) (Some (tk KRune (b_ ")") [] 13))); PDot (tk KRune (b_ ".") [] 13); PRef (FieldRef None None None (Id (tk KId (b_ "test") [] 13)) None); PDot (tk KRune (b_ ".") [] 13); PRef (FieldRef None None None (Id (tk KId (b_ "array") [] 13)) None)]) (Some (tk KRune (b_ "=") (b_ " ") 13)) (Some (VTok (tk KNum (b_ "1") (b_ " ") 13))) (Some (tk KRune (b_ ";") [] 13))); DOption (Opt (Some (tk KId (b_ "option") ([nl] ++ b_ "  ") 14)) (Some [PRef (FieldRef (Some (tk KRune (b_ "(") (b_ " ") 14)) None None (Id (tk KId (b_ "a") [] 14)) (Some (tk KRune (b_ ")") [] 14))); PDot (tk KRune (b_ ".") [] 14); PRef (FieldRef None None None (Id (tk KId (b_ "test") [] 14)) None); PDot (tk KRune (b_ ".") [] 14); PRef (FieldRef None None None (Id (tk KId (b_ "array") [] 14)) None)]) (Some (tk KRune (b_ "=") (b_ " ") 14)) (Some (VTok (tk KNum (b_ "2") (b_ " ") 14))) (Some (tk KRune (b_ ";") [] 14))); DOption (Opt (Some (tk KId (b_ "option") ([nl] ++ b_ "  ") 15)) (Some [PRef (FieldRef (Some (tk KRune (b_ "(") (b_ " ") 15)) None None (Id (tk KId (b_ "a") [] 15)) (Some (tk KRune (b_ ")") [] 15))); PDot (tk KRune (b_ ".") [] 15); PRef (FieldRef None None None (Id (tk KId (b_ "test") [] 15)) None); PDot (tk KRune (b_ ".") [] 15); PRef (FieldRef (Some (tk KRune (b_ "(") [] 15)) None None (Cid [(tk KRune (b_ ".") [] 15); (tk KId (b_ "foo") [] 15); (tk KRune (b_ ".") [] 15); (tk KId (b_ "bar") [] 15); (tk KRune (b_ ".") [] 15); (tk KId (b_ "Test") [] 15); (tk KRune (b_ ".") [] 15); (tk KId (b_ "Nested") [] 15); (tk KRune (b_ ".") [] 15); (tk KId (b_ "_NestedNested") [] 15); (tk KRune (b_ ".") [] 15); (tk KId (b_ "_garblez2") [] 15)]) (Some (tk KRune (b_ ")") [] 15)))]) (Some (tk KRune (b_ "=") (b_ " ") 15)) (Some (VTok (tk KStr ([dq] ++ b_ "whoah!" ++ [dq]) (b_ " ") 15))) (Some (tk KRune (b_ ";") [] 15)))] (tk KRune (b_ "}") ([nl]) 16) None)] (Some (tk KRune [] [] 16)))
  = ((b_ "message Another {" ++ [nl] ++ b_ "  option (.foo.bar.rept) = {" ++ [nl] ++ b_ "    foo:   " ++ [dq] ++ b_ "abc" ++ [dq] ++ b_ "," ++ [nl] ++ b_ "    s:     <name: " ++ [dq] ++ b_ "foo" ++ [dq] ++ b_ ", id: 123>," ++ [nl] ++ b_ "    array: [1, 2, 3]," ++ [nl] ++ b_ "    r:     [<name: " ++ [dq] ++ b_ "f" ++ [dq] ++ b_ ">, {name: " ++ [dq] ++ b_ "s" ++ [dq] ++ b_ "}, {id: 456}]," ++ [nl] ++ b_ "  };" ++ [nl] ++ b_ "  option (foo.bar.rept) = {" ++ [nl] ++ b_ "    foo:   " ++ [dq] ++ b_ "def" ++ [dq] ++ b_ "," ++ [nl] ++ b_ "    s:     {name: " ++ [dq] ++ b_ "bar" ++ [dq] ++ b_ ", id: 321}," ++ [nl] ++ b_ "    array: [3, 2, 1]," ++ [nl] ++ b_ "    r:     {name: " ++ [dq] ++ b_ "g" ++ [dq] ++ b_ "}," ++ [nl] ++ b_ "    r:     {name: " ++ [dq] ++ b_ "s" ++ [dq] ++ b_ "}," ++ [nl] ++ b_ "  };" ++ [nl] ++ b_ "  option (rept)          = {foo: " ++ [dq] ++ b_ "def" ++ [dq] ++ b_ "};" ++ [nl] ++ b_ "  option (eee)           = V1;" ++ [nl] ++ b_ "  option (a)             = {fff: OK};" ++ [nl] ++ b_ "  option (a).test        = {m: {key: " ++ [dq] ++ b_ "foo" ++ [dq] ++ b_ ", value: 100}, m: {key: " ++ [dq] ++ b_ "bar" ++ [dq] ++ b_ ", value: 200}};" ++ [nl] ++ b_ "  option (a).test.foo    = " ++ [dq] ++ b_ "m&m" ++ [dq] ++ b_ ";" ++ [nl] ++ b_ "  option (a).test.s.name = " ++ [dq] ++ b_ "yolo" ++ [dq] ++ b_ ";" ++ [nl] ++ b_ "  option (a).test.s.id   = 98765;" ++ [nl] ++ b_ "  option (a).test.array  = 1;" ++ [nl] ++ b_ "  option (a).test.array  = 2;" ++ [nl] ++ b_ "  option (a).test.(.foo.bar.Test.Nested._NestedNested._garblez2) = " ++ [dq] ++ b_ "whoah!" ++ [dq] ++ b_ ";" ++ [nl] ++ b_ "}"), false, false).
Proof. vm_compute. reflexivity. Qed.

Example unit_test_3_again : printed (File None [FDecl (DMessage (tk KId (b_ "message") [] 0) (tk KId (b_ "Another") (b_ " ") 0) (tk KRune (b_ "{") (b_ " ") 0) [DOption (Opt (Some (tk KId (b_ "option") ([nl] ++ b_ "  ") 1)) (Some [PRef (FieldRef (Some (tk KRune (b_ "(") (b_ " ") 1)) None None (Cid [(tk KRune (b_ ".") [] 1); (tk KId (b_ "foo") [] 1); (tk KRune (b_ ".") [] 1); (tk KId (b_ "bar") [] 1); (tk KRune (b_ ".") [] 1); (tk KId (b_ "rept") [] 1)]) (Some (tk KRune (b_ ")") [] 1)))]) (Some (tk KRune (b_ "=") (b_ " ") 1)) (Some (VMsg (tk KRune (b_ "{") (b_ " ") 1) [MField (FieldRef None None None (Id (tk KId (b_ "foo") ([nl] ++ b_ "    ") 2)) None) (Some (tk KRune (b_ ":") [] 2)) (VTok (tk KStr ([dq] ++ b_ "abc" ++ [dq]) (b_ "   ") 2)) (Some (tk KRune (b_ ",") [] 2)); MField (FieldRef None None None (Id (tk KId (b_ "s") ([nl] ++ b_ "    ") 3)) None) (Some (tk KRune (b_ ":") [] 3)) (VMsg (tk KRune (b_ "<") (b_ "     ") 3) [MField (FieldRef None None None (Id (tk KId (b_ "name") [] 3)) None) (Some (tk KRune (b_ ":") [] 3)) (VTok (tk KStr ([dq] ++ b_ "foo" ++ [dq]) (b_ " ") 3)) (Some (tk KRune (b_ ",") [] 3)); MField (FieldRef None None None (Id (tk KId (b_ "id") (b_ " ") 3)) None) (Some (tk KRune (b_ ":") [] 3)) (VTok (tk KNum (b_ "123") (b_ " ") 3)) None] (tk KRune (b_ ">") [] 3) None) (Some (tk KRune (b_ ",") [] 3)); MField (FieldRef None None None (Id (tk KId (b_ "array") ([nl] ++ b_ "    ") 4)) None) (Some (tk KRune (b_ ":") [] 4)) (VArr (tk KRune (b_ "[") (b_ " ") 4) [(VTok (tk KNum (b_ "1") [] 4)); (VTok (tk KNum (b_ "2") (b_ " ") 4)); (VTok (tk KNum (b_ "3") (b_ " ") 4))] [(tk KRune (b_ ",") [] 4); (tk KRune (b_ ",") [] 4)] (tk KRune (b_ "]") [] 4) None) (Some (tk KRune (b_ ",") [] 4)); MField (FieldRef None None None (Id (tk KId (b_ "r") ([nl] ++ b_ "    ") 5)) None) (Some (tk KRune (b_ ":") [] 5)) (VArr (tk KRune (b_ "[") (b_ "     ") 5) [(VMsg (tk KRune (b_ "<") [] 5) [MField (FieldRef None None None (Id (tk KId (b_ "name") [] 5)) None) (Some (tk KRune (b_ ":") [] 5)) (VTok (tk KStr ([dq] ++ b_ "f" ++ [dq]) (b_ " ") 5)) None] (tk KRune (b_ ">") [] 5) None); (VMsg (tk KRune (b_ "{") (b_ " ") 5) [MField (FieldRef None None None (Id (tk KId (b_ "name") [] 5)) None) (Some (tk KRune (b_ ":") [] 5)) (VTok (tk KStr ([dq] ++ b_ "s" ++ [dq]) (b_ " ") 5)) None] (tk KRune (b_ "}") [] 5) None); (VMsg (tk KRune (b_ "{") (b_ " ") 5) [MField (FieldRef None None None (Id (tk KId (b_ "id") [] 5)) None) (Some (tk KRune (b_ ":") [] 5)) (VTok (tk KNum (b_ "456") (b_ " ") 5)) None] (tk KRune (b_ "}") [] 5) None)] [(tk KRune (b_ ",") [] 5); (tk KRune (b_ ",") [] 5)] (tk KRune (b_ "]") [] 5) None) (Some (tk KRune (b_ ",") [] 5))] (tk KRune (b_ "}") ([nl] ++ b_ "  ") 6) None)) (Some (tk KRune (b_ ";") [] 6))); DOption (Opt (Some (tk KId (b_ "option") ([nl] ++ b_ "  ") 7)) (Some [PRef (FieldRef (Some (tk KRune (b_ "(") (b_ " ") 7)) None None (Cid [(tk KId (b_ "foo") [] 7); (tk KRune (b_ ".") [] 7); (tk KId (b_ "bar") [] 7); (tk KRune (b_ ".") [] 7); (tk KId (b_ "rept") [] 7)]) (Some (tk KRune (b_ ")") [] 7)))]) (Some (tk KRune (b_ "=") (b_ " ") 7)) (Some (VMsg (tk KRune (b_ "{") (b_ " ") 7) [MField (FieldRef None None None (Id (tk KId (b_ "foo") ([nl] ++ b_ "    ") 8)) None) (Some (tk KRune (b_ ":") [] 8)) (VTok (tk KStr ([dq] ++ b_ "def" ++ [dq]) (b_ "   ") 8)) (Some (tk KRune (b_ ",") [] 8)); MField (FieldRef None None None (Id (tk KId (b_ "s") ([nl] ++ b_ "    ") 9)) None) (Some (tk KRune (b_ ":") [] 9)) (VMsg (tk KRune (b_ "{") (b_ "     ") 9) [MField (FieldRef None None None (Id (tk KId (b_ "name") [] 9)) None) (Some (tk KRune (b_ ":") [] 9)) (VTok (tk KStr ([dq] ++ b_ "bar" ++ [dq]) (b_ " ") 9)) (Some (tk KRune (b_ ",") [] 9)); MField (FieldRef None None None (Id (tk KId (b_ "id") (b_ " ") 9)) None) (Some (tk KRune (b_ ":") [] 9)) (VTok (tk KNum (b_ "321") (b_ " ") 9)) None] (tk KRune (b_ "}") [] 9) None) (Some (tk KRune (b_ ",") [] 9)); MField (FieldRef None None None (Id (tk KId (b_ "array") ([nl] ++ b_ "    ") 10)) None) (Some (tk KRune (b_ ":") [] 10)) (VArr (tk KRune (b_ "[") (b_ " ") 10) [(VTok (tk KNum (b_ "3") [] 10)); (VTok (tk KNum (b_ "2") (b_ " ") 10)); (VTok (tk KNum (b_ "1") (b_ " ") 10))] [(tk KRune (b_ ",") [] 10); (tk KRune (b_ ",") [] 10)] (tk KRune (b_ "]") [] 10) None) (Some (tk KRune (b_ ",") [] 10)); MField (FieldRef None None None (Id (tk KId (b_ "r") ([nl] ++ b_ "    ") 11)) None) (Some (tk KRune (b_ ":") [] 11)) (VMsg (tk KRune (b_ "{") (b_ "     ") 11) [MField (FieldRef None None None (Id (tk KId (b_ "name") [] 11)) None) (Some (tk KRune (b_ ":") [] 11)) (VTok (tk KStr ([dq] ++ b_ "g" ++ [dq]) (b_ " ") 11)) None] (tk KRune (b_ "}") [] 11) None) (Some (tk KRune (b_ ",") [] 11)); MField (FieldRef None None None (Id (tk KId (b_ "r") ([nl] ++ b_ "    ") 12)) None) (Some (tk KRune (b_ ":") [] 12)) (VMsg (tk KRune (b_ "{") (b_ "     ") 12) [MField (FieldRef None None None (Id (tk KId (b_ "name") [] 12)) None) (Some (tk KRune (b_ ":") [] 12)) (VTok (tk KStr ([dq] ++ b_ "s" ++ [dq]) (b_ " ") 12)) None] (tk KRune (b_ "}") [] 12) None) (Some (tk KRune (b_ ",") [] 12))] (tk KRune (b_ "}") ([nl] ++ b_ "  ") 13) None)) (Some (tk KRune (b_ ";") [] 13))); DOption (Opt (Some (tk KId (b_ "option") ([nl] ++ b_ "  ") 14)) (Some [PRef (FieldRef (Some (tk KRune (b_ "(") (b_ " ") 14)) None None (Id (tk KId (b_ "rept") [] 14)) (Some (tk KRune (b_ ")") [] 14)))]) (Some (tk KRune (b_ "=") (b_ "          ") 14)) (Some (VMsg (tk KRune (b_ "{") (b_ " ") 14) [MField (FieldRef None None None (Id (tk KId (b_ "foo") [] 14)) None) (Some (tk KRune (b_ ":") [] 14)) (VTok (tk KStr ([dq] ++ b_ "def" ++ [dq]) (b_ " ") 14)) None] (tk KRune (b_ "}") [] 14) None)) (Some (tk KRune (b_ ";") [] 14))); DOption (Opt (Some (tk KId (b_ "option") ([nl] ++ b_ "  ") 15)) (Some [PRef (FieldRef (Some (tk KRune (b_ "(") (b_ " ") 15)) None None (Id (tk KId (b_ "eee") [] 15)) (Some (tk KRune (b_ ")") [] 15)))]) (Some (tk KRune (b_ "=") (b_ "           ") 15)) (Some (VTok (tk KId (b_ "V1") (b_ " ") 15))) (Some (tk KRune (b_ ";") [] 15))); DOption (Opt (Some (tk KId (b_ "option") ([nl] ++ b_ "  ") 16)) (Some [PRef (FieldRef (Some (tk KRune (b_ "(") (b_ " ") 16)) None None (Id (tk KId (b_ "a") [] 16)) (Some (tk KRune (b_ ")") [] 16)))]) (Some (tk KRune (b_ "=") (b_ "             ") 16)) (Some (VMsg (tk KRune (b_ "{") (b_ " ") 16) [MField (FieldRef None None None (Id (tk KId (b_ "fff") [] 16)) None) (Some (tk KRune (b_ ":") [] 16)) (VTok (tk KId (b_ "OK") (b_ " ") 16)) None] (tk KRune (b_ "}") [] 16) None)) (Some (tk KRune (b_ ";") [] 16))); DOption (Opt (Some (tk KId (b_ "option") ([nl] ++ b_ "  ") 17)) (Some [PRef (FieldRef (Some (tk KRune (b_ "(") (b_ " ") 17)) None None (Id (tk KId (b_ "a") [] 17)) (Some (tk KRune (b_ ")") [] 17))); PDot (tk KRune (b_ ".") [] 17); PRef (FieldRef None None None (Id (tk KId (b_ "test") [] 17)) None)]) (Some (tk KRune (b_ "=") (b_ "        ") 17)) (Some (VMsg (tk KRune (b_ "{") (b_ " ") 17) [MField (FieldRef None None None (Id (tk KId (b_ "m") [] 17)) None) (Some (tk KRune (b_ ":") [] 17)) (VMsg (tk KRune (b_ "{") (b_ " ") 17) [MField (FieldRef None None None (Id (tk KId (b_ "key") [] 17)) None) (Some (tk KRune (b_ ":") [] 17)) (VTok (tk KStr ([dq] ++ b_ "foo" ++ [dq]) (b_ " ") 17)) (Some (tk KRune (b_ ",") [] 17)); MField (FieldRef None None None (Id (tk KId (b_ "value") (b_ " ") 17)) None) (Some (tk KRune (b_ ":") [] 17)) (VTok (tk KNum (b_ "100") (b_ " ") 17)) None] (tk KRune (b_ "}") [] 17) None) (Some (tk KRune (b_ ",") [] 17)); MField (FieldRef None None None (Id (tk KId (b_ "m") (b_ " ") 17)) None) (Some (tk KRune (b_ ":") [] 17)) (VMsg (tk KRune (b_ "{") (b_ " ") 17) [MField (FieldRef None None None (Id (tk KId (b_ "key") [] 17)) None) (Some (tk KRune (b_ ":") [] 17)) (VTok (tk KStr ([dq] ++ b_ "bar" ++ [dq]) (b_ " ") 17)) (Some (tk KRune (b_ ",") [] 17)); MField (FieldRef None None None (Id (tk KId (b_ "value") (b_ " ") 17)) None) (Some (tk KRune (b_ ":") [] 17)) (VTok (tk KNum (b_ "200") (b_ " ") 17)) None] (tk KRune (b_ "}") [] 17) None) None] (tk KRune (b_ "}") [] 17) None)) (Some (tk KRune (b_ ";") [] 17))); DOption (Opt (Some (tk KId (b_ "option") ([nl] ++ b_ "  ") 18)) (Some [PRef (FieldRef (Some (tk KRune (b_ "(") (b_ " ") 18)) None None (Id (tk KId (b_ "a") [] 18)) (Some (tk KRune (b_ ")") [] 18))); PDot (tk KRune (b_ ".") [] 18); PRef (FieldRef None None None (Id (tk KId (b_ "test") [] 18)) None); PDot (tk KRune (b_ ".") [] 18); PRef (FieldRef None None None (Id (tk KId (b_ "foo") [] 18)) None)]) (Some (tk KRune (b_ "=") (b_ "    ") 18)) (Some (VTok (tk KStr ([dq] ++ b_ "m&m" ++ [dq]) (b_ " ") 18))) (Some (tk KRune (b_ ";") [] 18))); DOption (Opt (Some (tk KId (b_ "option") ([nl] ++ b_ "  ") 19)) (Some [PRef (FieldRef (Some (tk KRune (b_ "(") (b_ " ") 19)) None None (Id (tk KId (b_ "a") [] 19)) (Some (tk KRune (b_ ")") [] 19))); PDot (tk KRune (b_ ".") [] 19); PRef (FieldRef None None None (Id (tk KId (b_ "test") [] 19)) None); PDot (tk KRune (b_ ".") [] 19); PRef (FieldRef None None None (Id (tk KId (b_ "s") [] 19)) None); PDot (tk KRune (b_ ".") [] 19); PRef (FieldRef None None None (Id (tk KId (b_ "name") [] 19)) None)]) (Some (tk KRune (b_ "=") (b_ " ") 19)) (Some (VTok (tk KStr ([dq] ++ b_ "yolo" ++ [dq]) (b_ " ") 19))) (Some (tk KRune (b_ ";") [] 19))); DOption (Opt (Some (tk KId (b_ "option") ([nl] ++ b_ "  ") 20)) (Some [PRef (FieldRef (Some (tk KRune (b_ "(") (b_ " ") 20)) None None (Id (tk KId (b_ "a") [] 20)) (Some (tk KRune (b_ ")") [] 20))); PDot (tk KRune (b_ ".") [] 20); PRef (FieldRef None None None (Id (tk KId (b_ "test") [] 20)) None); PDot (tk KRune (b_ ".") [] 20); PRef (FieldRef None None None (Id (tk KId (b_ "s") [] 20)) None); PDot (tk KRune (b_ ".") [] 20); PRef (FieldRef None None None (Id (tk KId (b_ "id") [] 20)) None)]) (Some (tk KRune (b_ "=") (b_ "   ") 20)) (Some (VTok (tk KNum (b_ "98765") (b_ " ") 20))) (Some (tk KRune (b_ ";") [] 20))); DOption (Opt (Some (tk KId (b_ "option") ([nl] ++ b_ "  ") 21)) (Some [PRef (FieldRef (Some (tk KRune (b_ "(") (b_ " ") 21)) None None (Id (tk KId (b_ "a") [] 21)) (Some (tk KRune (b_ ")") [] 21))); PDot (tk KRune (b_ ".") [] 21); PRef (FieldRef None None None (Id (tk KId (b_ "test") [] 21)) None); PDot (tk KRune (b_ ".") [] 21); PRef (FieldRef None None None (Id (tk KId (b_ "array") [] 21)) None)]) (Some (tk KRune (b_ "=") (b_ "  ") 21)) (Some (VTok (tk KNum (b_ "1") (b_ " ") 21))) (Some (tk KRune (b_ ";") [] 21))); DOption (Opt (Some (tk KId (b_ "option") ([nl] ++ b_ "  ") 22)) (Some [PRef (FieldRef (Some (tk KRune (b_ "(") (b_ " ") 22)) None None (Id (tk KId (b_ "a") [] 22)) (Some (tk KRune (b_ ")") [] 22))); PDot (tk KRune (b_ ".") [] 22); PRef (FieldRef None None None (Id (tk KId (b_ "test") [] 22)) None); PDot (tk KRune (b_ ".") [] 22); PRef (FieldRef None None None (Id (tk KId (b_ "array") [] 22)) None)]) (Some (tk KRune (b_ "=") (b_ "  ") 22)) (Some (VTok (tk KNum (b_ "2") (b_ " ") 22))) (Some (tk KRune (b_ ";") [] 22))); DOption (Opt (Some (tk KId (b_ "option") ([nl] ++ b_ "  ") 23)) (Some [PRef (FieldRef (Some (tk KRune (b_ "(") (b_ " ") 23)) None None (Id (tk KId (b_ "a") [] 23)) (Some (tk KRune (b_ ")") [] 23))); PDot (tk KRune (b_ ".") [] 23); PRef (FieldRef None None None (Id (tk KId (b_ "test") [] 23)) None); PDot (tk KRune (b_ ".") [] 23); PRef (FieldRef (Some (tk KRune (b_ "(") [] 23)) None None (Cid [(tk KRune (b_ ".") [] 23); (tk KId (b_ "foo") [] 23); (tk KRune (b_ ".") [] 23); (tk KId (b_ "bar") [] 23); (tk KRune (b_ ".") [] 23); (tk KId (b_ "Test") [] 23); (tk KRune (b_ ".") [] 23); (tk KId (b_ "Nested") [] 23); (tk KRune (b_ ".") [] 23); (tk KId (b_ "_NestedNested") [] 23); (tk KRune (b_ ".") [] 23); (tk KId (b_ "_garblez2") [] 23)]) (Some (tk KRune (b_ ")") [] 23)))]) (Some (tk KRune (b_ "=") (b_ " ") 23)) (Some (VTok (tk KStr ([dq] ++ b_ "whoah!" ++ [dq]) (b_ " ") 23))) (Some (tk KRune (b_ ";") [] 23)))] (tk KRune (b_ "}") ([nl]) 24) None)] (Some (tk KRune [] [] 24)))
  = ((b_ "message Another {" ++ [nl] ++ b_ "  option (.foo.bar.rept) = {" ++ [nl] ++ b_ "    foo:   " ++ [dq] ++ b_ "abc" ++ [dq] ++ b_ "," ++ [nl] ++ b_ "    s:     <name: " ++ [dq] ++ b_ "foo" ++ [dq] ++ b_ ", id: 123>," ++ [nl] ++ b_ "    array: [1, 2, 3]," ++ [nl] ++ b_ "    r:     [<name: " ++ [dq] ++ b_ "f" ++ [dq] ++ b_ ">, {name: " ++ [dq] ++ b_ "s" ++ [dq] ++ b_ "}, {id: 456}]," ++ [nl] ++ b_ "  };" ++ [nl] ++ b_ "  option (foo.bar.rept) = {" ++ [nl] ++ b_ "    foo:   " ++ [dq] ++ b_ "def" ++ [dq] ++ b_ "," ++ [nl] ++ b_ "    s:     {name: " ++ [dq] ++ b_ "bar" ++ [dq] ++ b_ ", id: 321}," ++ [nl] ++ b_ "    array: [3, 2, 1]," ++ [nl] ++ b_ "    r:     {name: " ++ [dq] ++ b_ "g" ++ [dq] ++ b_ "}," ++ [nl] ++ b_ "    r:     {name: " ++ [dq] ++ b_ "s" ++ [dq] ++ b_ "}," ++ [nl] ++ b_ "  };" ++ [nl] ++ b_ "  option (rept)          = {foo: " ++ [dq] ++ b_ "def" ++ [dq] ++ b_ "};" ++ [nl] ++ b_ "  option (eee)           = V1;" ++ [nl] ++ b_ "  option (a)             = {fff: OK};" ++ [nl] ++ b_ "  option (a).test        = {m: {key: " ++ [dq] ++ b_ "foo" ++ [dq] ++ b_ ", value: 100}, m: {key: " ++ [dq] ++ b_ "bar" ++ [dq] ++ b_ ", value: 200}};" ++ [nl] ++ b_ "  option (a).test.foo    = " ++ [dq] ++ b_ "m&m" ++ [dq] ++ b_ ";" ++ [nl] ++ b_ "  option (a).test.s.name = " ++ [dq] ++ b_ "yolo" ++ [dq] ++ b_ ";" ++ [nl] ++ b_ "  option (a).test.s.id   = 98765;" ++ [nl] ++ b_ "  option (a).test.array  = 1;" ++ [nl] ++ b_ "  option (a).test.array  = 2;" ++ [nl] ++ b_ "  option (a).test.(.foo.bar.Test.Nested._NestedNested._garblez2) = " ++ [dq] ++ b_ "whoah!" ++ [dq] ++ b_ ";" ++ [nl] ++ b_ "}"), false, false).
Proof. vm_compute. reflexivity. Qed.

Example unit_test_4 : printed (File None [FOption (Opt (Some (tk KId (b_ "option") [] 0)) (Some [PRef (FieldRef (Some (tk KRune (b_ "(") (b_ " ") 0)) None None (Cid [(tk KRune (b_ ".") [] 0); (tk KId (b_ "foo") [] 0); (tk KRune (b_ ".") [] 0); (tk KId (b_ "bar") [] 0); (tk KRune (b_ ".") [] 0); (tk KId (b_ "rept") [] 0)]) (Some (tk KRune (b_ ")") [] 0)))]) (Some (tk KRune (b_ "=") (b_ " ") 0)) (Some (VMsg (tk KRune (b_ "{") (b_ " ") 0) [MField (FieldRef None None None (Id (tk KId (b_ "r") (b_ " ") 0)) None) (Some (tk KRune (b_ ":") [] 0)) (VArr (tk KRune (b_ "[") [] 0) [(VMsg (tk KRune (b_ "<") [] 0) [MField (FieldRef None None None (Id (tk KId (b_ "name") [] 0)) None) (Some (tk KRune (b_ ":") [] 0)) (VTok (tk KStr ([dq] ++ b_ "f" ++ [dq]) [] 0)) None] (tk KRune (b_ ">") [] 0) None); (VMsg (tk KRune (b_ "{") (b_ " ") 0) [MField (FieldRef None None None (Id (tk KId (b_ "name") [] 0)) None) (Some (tk KRune (b_ ":") [] 0)) (VTok (tk KStr ([dq] ++ b_ "s" ++ [dq]) [] 0)) None] (tk KRune (b_ "}") [] 0) None); (VMsg (tk KRune (b_ "{") (b_ " ") 0) [MField (FieldRef None None None (Id (tk KId (b_ "id") [] 0)) None) (Some (tk KRune (b_ ":") [] 0)) (VTok (tk KNum (b_ "456") [] 0)) None] (tk KRune (b_ "}") [] 0) None)] [(tk KRune (b_ ",") [] 0); (tk KRune (b_ ",") [] 0)] (tk KRune (b_ "]") (b_ " ") 0) None) (Some (tk KRune (b_ ",") [] 0))] (tk KRune (b_ "}") (b_ " ") 0) None)) (Some (tk KRune (b_ ";") [] 0)))] (Some (tk KRune [] [] 0)))
  = ((b_ "option (.foo.bar.rept) = {r: [<name: " ++ [dq] ++ b_ "f" ++ [dq] ++ b_ ">, {name: " ++ [dq] ++ b_ "s" ++ [dq] ++ b_ "}, {id: 456}]};"), false, false).
Proof. vm_compute. reflexivity. Qed.

Example unit_test_4_again : printed (File None [FOption (Opt (Some (tk KId (b_ "option") [] 0)) (Some [PRef (FieldRef (Some (tk KRune (b_ "(") (b_ " ") 0)) None None (Cid [(tk KRune (b_ ".") [] 0); (tk KId (b_ "foo") [] 0); (tk KRune (b_ ".") [] 0); (tk KId (b_ "bar") [] 0); (tk KRune (b_ ".") [] 0); (tk KId (b_ "rept") [] 0)]) (Some (tk KRune (b_ ")") [] 0)))]) (Some (tk KRune (b_ "=") (b_ " ") 0)) (Some (VMsg (tk KRune (b_ "{") (b_ " ") 0) [MField (FieldRef None None None (Id (tk KId (b_ "r") [] 0)) None) (Some (tk KRune (b_ ":") [] 0)) (VArr (tk KRune (b_ "[") (b_ " ") 0) [(VMsg (tk KRune (b_ "<") [] 0) [MField (FieldRef None None None (Id (tk KId (b_ "name") [] 0)) None) (Some (tk KRune (b_ ":") [] 0)) (VTok (tk KStr ([dq] ++ b_ "f" ++ [dq]) (b_ " ") 0)) None] (tk KRune (b_ ">") [] 0) None); (VMsg (tk KRune (b_ "{") (b_ " ") 0) [MField (FieldRef None None None (Id (tk KId (b_ "name") [] 0)) None) (Some (tk KRune (b_ ":") [] 0)) (VTok (tk KStr ([dq] ++ b_ "s" ++ [dq]) (b_ " ") 0)) None] (tk KRune (b_ "}") [] 0) None); (VMsg (tk KRune (b_ "{") (b_ " ") 0) [MField (FieldRef None None None (Id (tk KId (b_ "id") [] 0)) None) (Some (tk KRune (b_ ":") [] 0)) (VTok (tk KNum (b_ "456") (b_ " ") 0)) None] (tk KRune (b_ "}") [] 0) None)] [(tk KRune (b_ ",") [] 0); (tk KRune (b_ ",") [] 0)] (tk KRune (b_ "]") [] 0) None) None] (tk KRune (b_ "}") [] 0) None)) (Some (tk KRune (b_ ";") [] 0)))] (Some (tk KRune [] [] 0)))
  = ((b_ "option (.foo.bar.rept) = {r: [<name: " ++ [dq] ++ b_ "f" ++ [dq] ++ b_ ">, {name: " ++ [dq] ++ b_ "s" ++ [dq] ++ b_ "}, {id: 456}]};"), false, false).
Proof. vm_compute. reflexivity. Qed.

Example unit_test_5 : printed (File None [FOption (Opt (Some (tk KId (b_ "option") [] 0)) (Some [PRef (FieldRef (Some (tk KRune (b_ "(") (b_ " ") 0)) None None (Cid [(tk KRune (b_ ".") [] 0); (tk KId (b_ "foo") [] 0); (tk KRune (b_ ".") [] 0); (tk KId (b_ "bar") [] 0); (tk KRune (b_ ".") [] 0); (tk KId (b_ "rept") [] 0)]) (Some (tk KRune (b_ ")") [] 0)))]) (Some (tk KRune (b_ "=") (b_ " ") 0)) (Some (VMsg (tk KRune (b_ "{") (b_ " ") 0) [MField (FieldRef None None None (Id (tk KId (b_ "foo") (b_ " ") 0)) None) (Some (tk KRune (b_ ":") [] 0)) (VTok (tk KStr ([dq] ++ b_ "abc" ++ [dq]) (b_ " ") 0)) None; MField (FieldRef None None None (Id (tk KId (b_ "s") (b_ " ") 0)) None) None (VMsg (tk KRune (b_ "<") (b_ " ") 0) [MField (FieldRef None None None (Id (tk KId (b_ "name") (b_ " ") 0)) None) (Some (tk KRune (b_ ":") [] 0)) (VTok (tk KStr ([dq] ++ b_ "foo" ++ [dq]) (b_ " ") 0)) (Some (tk KRune (b_ ",") [] 0)); MField (FieldRef None None None (Id (tk KId (b_ "id") (b_ " ") 0)) None) (Some (tk KRune (b_ ":") [] 0)) (VTok (tk KNum (b_ "123") (b_ " ") 0)) None] (tk KRune (b_ ">") (b_ " ") 0) None) (Some (tk KRune (b_ ",") [] 0)); MField (FieldRef None None None (Id (tk KId (b_ "array") (b_ " ") 0)) None) (Some (tk KRune (b_ ":") [] 0)) (VArr (tk KRune (b_ "[") (b_ " ") 0) [(VTok (tk KNum (b_ "1") [] 0)); (VTok (tk KNum (b_ "2") (b_ " ") 0)); (VTok (tk KNum (b_ "3") [] 0))] [(tk KRune (b_ ",") [] 0); (tk KRune (b_ ",") (b_ " ") 0)] (tk KRune (b_ "]") [] 0) None) (Some (tk KRune (b_ ",") [] 0))] (tk KRune (b_ "}") (b_ " ") 0) None)) (Some (tk KRune (b_ ";") [] 0)))] (Some (tk KRune [] [] 0)))
  = ((b_ "option (.foo.bar.rept) = {foo: " ++ [dq] ++ b_ "abc" ++ [dq] ++ b_ ", s: <name: " ++ [dq] ++ b_ "foo" ++ [dq] ++ b_ ", id: 123>, array: [1, 2, 3]};"), false, false).
Proof. vm_compute. reflexivity. Qed.

Example unit_test_5_again : printed (File None [FOption (Opt (Some (tk KId (b_ "option") [] 0)) (Some [PRef (FieldRef (Some (tk KRune (b_ "(") (b_ " ") 0)) None None (Cid [(tk KRune (b_ ".") [] 0); (tk KId (b_ "foo") [] 0); (tk KRune (b_ ".") [] 0); (tk KId (b_ "bar") [] 0); (tk KRune (b_ ".") [] 0); (tk KId (b_ "rept") [] 0)]) (Some (tk KRune (b_ ")") [] 0)))]) (Some (tk KRune (b_ "=") (b_ " ") 0)) (Some (VMsg (tk KRune (b_ "{") (b_ " ") 0) [MField (FieldRef None None None (Id (tk KId (b_ "foo") [] 0)) None) (Some (tk KRune (b_ ":") [] 0)) (VTok (tk KStr ([dq] ++ b_ "abc" ++ [dq]) (b_ " ") 0)) (Some (tk KRune (b_ ",") [] 0)); MField (FieldRef None None None (Id (tk KId (b_ "s") (b_ " ") 0)) None) (Some (tk KRune (b_ ":") [] 0)) (VMsg (tk KRune (b_ "<") (b_ " ") 0) [MField (FieldRef None None None (Id (tk KId (b_ "name") [] 0)) None) (Some (tk KRune (b_ ":") [] 0)) (VTok (tk KStr ([dq] ++ b_ "foo" ++ [dq]) (b_ " ") 0)) (Some (tk KRune (b_ ",") [] 0)); MField (FieldRef None None None (Id (tk KId (b_ "id") (b_ " ") 0)) None) (Some (tk KRune (b_ ":") [] 0)) (VTok (tk KNum (b_ "123") (b_ " ") 0)) None] (tk KRune (b_ ">") [] 0) None) (Some (tk KRune (b_ ",") [] 0)); MField (FieldRef None None None (Id (tk KId (b_ "array") (b_ " ") 0)) None) (Some (tk KRune (b_ ":") [] 0)) (VArr (tk KRune (b_ "[") (b_ " ") 0) [(VTok (tk KNum (b_ "1") [] 0)); (VTok (tk KNum (b_ "2") (b_ " ") 0)); (VTok (tk KNum (b_ "3") (b_ " ") 0))] [(tk KRune (b_ ",") [] 0); (tk KRune (b_ ",") [] 0)] (tk KRune (b_ "]") [] 0) None) None] (tk KRune (b_ "}") [] 0) None)) (Some (tk KRune (b_ ";") [] 0)))] (Some (tk KRune [] [] 0)))
  = ((b_ "option (.foo.bar.rept) = {foo: " ++ [dq] ++ b_ "abc" ++ [dq] ++ b_ ", s: <name: " ++ [dq] ++ b_ "foo" ++ [dq] ++ b_ ", id: 123>, array: [1, 2, 3]};"), false, false).
Proof. vm_compute. reflexivity. Qed.

Example unit_test_6 : printed (File None [FOption (Opt (Some (tk KId (b_ "option") [] 0)) (Some [PRef (FieldRef (Some (tk KRune (b_ "(") (b_ " ") 0)) None None (Cid [(tk KRune (b_ ".") [] 0); (tk KId (b_ "foo") [] 0); (tk KRune (b_ ".") [] 0); (tk KId (b_ "bar") [] 0); (tk KRune (b_ ".") [] 0); (tk KId (b_ "rept") [] 0)]) (Some (tk KRune (b_ ")") [] 0)))]) (Some (tk KRune (b_ "=") (b_ " ") 0)) (Some (VMsg (tk KRune (b_ "{") (b_ " ") 0) [MField (FieldRef None None None (Id (tk KId (b_ "foo") ([nl] ++ b_ "        ") 1)) None) (Some (tk KRune (b_ ":") [] 1)) (VTok (tk KStr ([dq] ++ b_ "abc" ++ [dq]) (b_ " ") 1)) None; MField (FieldRef None None None (Id (tk KId (b_ "s") (b_ " ") 1)) None) None (VMsg (tk KRune (b_ "<") (b_ " ") 1) [MField (FieldRef None None None (Id (tk KId (b_ "name") (b_ " ") 1)) None) (Some (tk KRune (b_ ":") [] 1)) (VTok (tk KStr ([dq] ++ b_ "foo" ++ [dq]) (b_ " ") 1)) (Some (tk KRune (b_ ",") [] 1)); MField (FieldRef None None None (Id (tk KId (b_ "id") (b_ " ") 1)) None) (Some (tk KRune (b_ ":") [] 1)) (VTok (tk KNum (b_ "123") (b_ " ") 1)) None] (tk KRune (b_ ">") (b_ " ") 1) None) (Some (tk KRune (b_ ",") [] 1)); MField (FieldRef None None None (Id (tk KId (b_ "array") (b_ " ") 1)) None) (Some (tk KRune (b_ ":") [] 1)) (VArr (tk KRune (b_ "[") (b_ " ") 1) [(VTok (tk KNum (b_ "1") [] 1)); (VTok (tk KNum (b_ "2") (b_ " ") 1)); (VTok (tk KNum (b_ "3") [] 1))] [(tk KRune (b_ ",") [] 1); (tk KRune (b_ ",") (b_ " ") 1)] (tk KRune (b_ "]") [] 1) None) (Some (tk KRune (b_ ",") [] 1))] (tk KRune (b_ "}") (b_ " ") 1) None)) (Some (tk KRune (b_ ";") [] 1)))] (Some (tk KRune [] [] 1)))
  = ((b_ "option (.foo.bar.rept) = {" ++ [nl] ++ b_ "  foo:   " ++ [dq] ++ b_ "abc" ++ [dq] ++ b_ "," ++ [nl] ++ b_ "  s:     <name: " ++ [dq] ++ b_ "foo" ++ [dq] ++ b_ ", id: 123>," ++ [nl] ++ b_ "  array: [1, 2, 3]," ++ [nl] ++ b_ "};"), false, false).
Proof. vm_compute. reflexivity. Qed.

Example unit_test_6_again : printed (File None [FOption (Opt (Some (tk KId (b_ "option") [] 0)) (Some [PRef (FieldRef (Some (tk KRune (b_ "(") (b_ " ") 0)) None None (Cid [(tk KRune (b_ ".") [] 0); (tk KId (b_ "foo") [] 0); (tk KRune (b_ ".") [] 0); (tk KId (b_ "bar") [] 0); (tk KRune (b_ ".") [] 0); (tk KId (b_ "rept") [] 0)]) (Some (tk KRune (b_ ")") [] 0)))]) (Some (tk KRune (b_ "=") (b_ " ") 0)) (Some (VMsg (tk KRune (b_ "{") (b_ " ") 0) [MField (FieldRef None None None (Id (tk KId (b_ "foo") ([nl] ++ b_ "  ") 1)) None) (Some (tk KRune (b_ ":") [] 1)) (VTok (tk KStr ([dq] ++ b_ "abc" ++ [dq]) (b_ "   ") 1)) (Some (tk KRune (b_ ",") [] 1)); MField (FieldRef None None None (Id (tk KId (b_ "s") ([nl] ++ b_ "  ") 2)) None) (Some (tk KRune (b_ ":") [] 2)) (VMsg (tk KRune (b_ "<") (b_ "     ") 2) [MField (FieldRef None None None (Id (tk KId (b_ "name") [] 2)) None) (Some (tk KRune (b_ ":") [] 2)) (VTok (tk KStr ([dq] ++ b_ "foo" ++ [dq]) (b_ " ") 2)) (Some (tk KRune (b_ ",") [] 2)); MField (FieldRef None None None (Id (tk KId (b_ "id") (b_ " ") 2)) None) (Some (tk KRune (b_ ":") [] 2)) (VTok (tk KNum (b_ "123") (b_ " ") 2)) None] (tk KRune (b_ ">") [] 2) None) (Some (tk KRune (b_ ",") [] 2)); MField (FieldRef None None None (Id (tk KId (b_ "array") ([nl] ++ b_ "  ") 3)) None) (Some (tk KRune (b_ ":") [] 3)) (VArr (tk KRune (b_ "[") (b_ " ") 3) [(VTok (tk KNum (b_ "1") [] 3)); (VTok (tk KNum (b_ "2") (b_ " ") 3)); (VTok (tk KNum (b_ "3") (b_ " ") 3))] [(tk KRune (b_ ",") [] 3); (tk KRune (b_ ",") [] 3)] (tk KRune (b_ "]") [] 3) None) (Some (tk KRune (b_ ",") [] 3))] (tk KRune (b_ "}") ([nl]) 4) None)) (Some (tk KRune (b_ ";") [] 4)))] (Some (tk KRune [] [] 4)))
  = ((b_ "option (.foo.bar.rept) = {" ++ [nl] ++ b_ "  foo:   " ++ [dq] ++ b_ "abc" ++ [dq] ++ b_ "," ++ [nl] ++ b_ "  s:     <name: " ++ [dq] ++ b_ "foo" ++ [dq] ++ b_ ", id: 123>," ++ [nl] ++ b_ "  array: [1, 2, 3]," ++ [nl] ++ b_ "};"), false, false).
Proof. vm_compute. reflexivity. Qed.

Example unit_test_7 : printed (File None [FOption (Opt (Some (tk KId (b_ "option") [] 0)) (Some [PRef (FieldRef (Some (tk KRune (b_ "(") (b_ " ") 0)) None None (Cid [(tk KRune (b_ ".") [] 0); (tk KId (b_ "foo") [] 0); (tk KRune (b_ ".") [] 0); (tk KId (b_ "bar") [] 0); (tk KRune (b_ ".") [] 0); (tk KId (b_ "rept") [] 0)]) (Some (tk KRune (b_ ")") [] 0)))]) (Some (tk KRune (b_ "=") (b_ " ") 0)) (Some (VMsg (tk KRune (b_ "{") (b_ " ") 0) [MField (FieldRef None None None (Id (tk KId (b_ "foo") ([nl] ++ b_ "        ") 1)) None) (Some (tk KRune (b_ ":") [] 1)) (VTok (tk KStr ([dq] ++ b_ "abc" ++ [dq]) (b_ " ") 1)) None; MField (FieldRef None None None (Id (tk KId (b_ "s") (b_ " ") 1)) None) None (VMsg (tk KRune (b_ "<") (b_ " ") 1) [MField (FieldRef None None None (Id (tk KId (b_ "name") (b_ " ") 1)) None) (Some (tk KRune (b_ ":") [] 1)) (VTok (tk KStr ([dq] ++ b_ "foo" ++ [dq]) (b_ " ") 1)) (Some (tk KRune (b_ ",") [] 1)); MField (FieldRef None None None (Id (tk KId (b_ "id") (b_ " ") 1)) None) (Some (tk KRune (b_ ":") [] 1)) (VTok (tk KNum (b_ "123") (b_ " ") 1)) None] (tk KRune (b_ ">") (b_ " ") 1) None) (Some (tk KRune (b_ ",") [] 1)); MField (FieldRef None None None (Id (tk KId (b_ "array") (b_ " ") 1)) None) (Some (tk KRune (b_ ":") [] 1)) (VArr (tk KRune (b_ "[") (b_ " ") 1) [(VTok (tk KNum (b_ "1") ([nl] ++ b_ "          ") 2)); (VTok (tk KNum (b_ "2") (b_ " ") 2)); (VTok (tk KNum (b_ "3") [] 2))] [(tk KRune (b_ ",") [] 2); (tk KRune (b_ ",") (b_ " ") 2)] (tk KRune (b_ "]") [] 2) None) (Some (tk KRune (b_ ",") [] 2))] (tk KRune (b_ "}") (b_ " ") 2) None)) (Some (tk KRune (b_ ";") [] 2)))] (Some (tk KRune [] [] 2)))
  = ((b_ "option (.foo.bar.rept) = {" ++ [nl] ++ b_ "  foo: " ++ [dq] ++ b_ "abc" ++ [dq] ++ b_ "," ++ [nl] ++ b_ "  s:   <name: " ++ [dq] ++ b_ "foo" ++ [dq] ++ b_ ", id: 123>," ++ [nl] ++ b_ "  array: [" ++ [nl] ++ b_ "    1," ++ [nl] ++ b_ "    2," ++ [nl] ++ b_ "    3" ++ [nl] ++ b_ "  ]," ++ [nl] ++ b_ "};"), false, false).
Proof. vm_compute. reflexivity. Qed.

Example unit_test_7_again : printed (File None [FOption (Opt (Some (tk KId (b_ "option") [] 0)) (Some [PRef (FieldRef (Some (tk KRune (b_ "(") (b_ " ") 0)) None None (Cid [(tk KRune (b_ ".") [] 0); (tk KId (b_ "foo") [] 0); (tk KRune (b_ ".") [] 0); (tk KId (b_ "bar") [] 0); (tk KRune (b_ ".") [] 0); (tk KId (b_ "rept") [] 0)]) (Some (tk KRune (b_ ")") [] 0)))]) (Some (tk KRune (b_ "=") (b_ " ") 0)) (Some (VMsg (tk KRune (b_ "{") (b_ " ") 0) [MField (FieldRef None None None (Id (tk KId (b_ "foo") ([nl] ++ b_ "  ") 1)) None) (Some (tk KRune (b_ ":") [] 1)) (VTok (tk KStr ([dq] ++ b_ "abc" ++ [dq]) (b_ " ") 1)) (Some (tk KRune (b_ ",") [] 1)); MField (FieldRef None None None (Id (tk KId (b_ "s") ([nl] ++ b_ "  ") 2)) None) (Some (tk KRune (b_ ":") [] 2)) (VMsg (tk KRune (b_ "<") (b_ "   ") 2) [MField (FieldRef None None None (Id (tk KId (b_ "name") [] 2)) None) (Some (tk KRune (b_ ":") [] 2)) (VTok (tk KStr ([dq] ++ b_ "foo" ++ [dq]) (b_ " ") 2)) (Some (tk KRune (b_ ",") [] 2)); MField (FieldRef None None None (Id (tk KId (b_ "id") (b_ " ") 2)) None) (Some (tk KRune (b_ ":") [] 2)) (VTok (tk KNum (b_ "123") (b_ " ") 2)) None] (tk KRune (b_ ">") [] 2) None) (Some (tk KRune (b_ ",") [] 2)); MField (FieldRef None None None (Id (tk KId (b_ "array") ([nl] ++ b_ "  ") 3)) None) (Some (tk KRune (b_ ":") [] 3)) (VArr (tk KRune (b_ "[") (b_ " ") 3) [(VTok (tk KNum (b_ "1") ([nl] ++ b_ "    ") 4)); (VTok (tk KNum (b_ "2") ([nl] ++ b_ "    ") 5)); (VTok (tk KNum (b_ "3") ([nl] ++ b_ "    ") 6))] [(tk KRune (b_ ",") [] 4); (tk KRune (b_ ",") [] 5)] (tk KRune (b_ "]") ([nl] ++ b_ "  ") 7) None) (Some (tk KRune (b_ ",") [] 7))] (tk KRune (b_ "}") ([nl]) 8) None)) (Some (tk KRune (b_ ";") [] 8)))] (Some (tk KRune [] [] 8)))
  = ((b_ "option (.foo.bar.rept) = {" ++ [nl] ++ b_ "  foo: " ++ [dq] ++ b_ "abc" ++ [dq] ++ b_ "," ++ [nl] ++ b_ "  s:   <name: " ++ [dq] ++ b_ "foo" ++ [dq] ++ b_ ", id: 123>," ++ [nl] ++ b_ "  array: [" ++ [nl] ++ b_ "    1," ++ [nl] ++ b_ "    2," ++ [nl] ++ b_ "    3" ++ [nl] ++ b_ "  ]," ++ [nl] ++ b_ "};"), false, false).
Proof. vm_compute. reflexivity. Qed.

Example unit_test_8 : printed (File None [FOption (Opt (Some (tk KId (b_ "option") [] 0)) (Some [PRef (FieldRef (Some (tk KRune (b_ "(") (b_ " ") 0)) None None (Cid [(tk KId (b_ "foo") [] 0); (tk KRune (b_ ".") [] 0); (tk KId (b_ "bar") [] 0); (tk KRune (b_ ".") [] 0); (tk KId (b_ "rept") [] 0)]) (Some (tk KRune (b_ ")") [] 0)))]) (Some (tk KRune (b_ "=") (b_ " ") 0)) (Some (VMsg (tk KRune (b_ "{") (b_ " ") 0) [MField (FieldRef None None None (Id (tk KId (b_ "foo") ([nl] ++ b_ "  ") 1)) None) (Some (tk KRune (b_ ":") [] 1)) (VTok (Token KStr ([dq] ++ b_ "def" ++ [dq]) [] [Comment (b_ "// foo") (b_ " ") false] (b_ " ") 1 false)) None; MField (FieldRef None None None (Id (tk KId (b_ "s") ([nl] ++ b_ "  ") 2)) None) (Some (tk KRune (b_ ":") [] 2)) (VMsg (tk KRune (b_ "{") (b_ "   ") 2) [MField (FieldRef None None None (Id (tk KId (b_ "name") [] 2)) None) (Some (tk KRune (b_ ":") [] 2)) (VTok (tk KStr ([dq] ++ b_ "bar" ++ [dq]) (b_ " ") 2)) (Some (tk KRune (b_ ",") [] 2)); MField (FieldRef None None None (Id (tk KId (b_ "id") (b_ " ") 2)) None) (Some (tk KRune (b_ ":") [] 2)) (VTok (tk KNum (b_ "321") (b_ " ") 2)) None] (tk KRune (b_ "}") [] 2) None) (Some (Token KRune (b_ ",") [] [Comment (b_ "// s") (b_ " ") false] [] 2 false)); MField (FieldRef None None None (Id (tk KId (b_ "array") ([nl] ++ b_ "  ") 3)) None) (Some (tk KRune (b_ ":") [] 3)) (VArr (tk KRune (b_ "[") (b_ " ") 3) [(VTok (tk KNum (b_ "3") (b_ "      ") 3)); (VTok (tk KNum (b_ "2") ([nl] ++ b_ "    ") 4)); (VTok (tk KNum (b_ "1") ([nl] ++ b_ "    ") 5))] [(tk KRune (b_ ",") [] 3); (tk KRune (b_ ",") [] 4)] (tk KRune (b_ "]") ([nl] ++ b_ "  ") 6) None) (Some (Token KRune (b_ ",") [] [Comment (b_ "// array") (b_ " ") false] [] 6 false)); MField (FieldRef None None None (Id (tk KId (b_ "r") ([nl] ++ b_ "  ") 7)) None) (Some (tk KRune (b_ ":") [] 7)) (VMsg (tk KRune (b_ "{") (b_ " ") 7) [MField (FieldRef None None None (Id (tk KId (b_ "name") [] 7)) None) (Some (tk KRune (b_ ":") [] 7)) (VTok (tk KStr ([dq] ++ b_ "g" ++ [dq]) (b_ " ") 7)) None] (tk KRune (b_ "}") [] 7) None) (Some (tk KRune (b_ ",") [] 7)); MField (FieldRef None None None (Id (tk KId (b_ "r") ([nl] ++ b_ "  ") 8)) None) (Some (tk KRune (b_ ":") [] 8)) (VMsg (tk KRune (b_ "{") (b_ " ") 8) [MField (FieldRef None None None (Id (tk KId (b_ "name") [] 8)) None) (Some (tk KRune (b_ ":") [] 8)) (VTok (tk KStr ([dq] ++ b_ "s" ++ [dq]) (b_ " ") 8)) None] (tk KRune (b_ "}") [] 8) None) (Some (tk KRune (b_ ",") [] 8))] (tk KRune (b_ "}") ([nl]) 9) None)) (Some (tk KRune (b_ ";") [] 9)))] (Some (tk KRune [] [] 9)))
  = ((b_ "option (foo.bar.rept) = {" ++ [nl] ++ b_ "  foo:   " ++ [dq] ++ b_ "def" ++ [dq] ++ b_ ", // foo" ++ [nl] ++ b_ "  s:     {name: " ++ [dq] ++ b_ "bar" ++ [dq] ++ b_ ", id: 321}, // s" ++ [nl] ++ b_ "  array: [3, 2, 1], // array" ++ [nl] ++ b_ "  r:     {name: " ++ [dq] ++ b_ "g" ++ [dq] ++ b_ "}," ++ [nl] ++ b_ "  r:     {name: " ++ [dq] ++ b_ "s" ++ [dq] ++ b_ "}," ++ [nl] ++ b_ "};"), false, false).
Proof. vm_compute. reflexivity. Qed.

Example unit_test_8_again : printed (File None [FOption (Opt (Some (tk KId (b_ "option") [] 0)) (Some [PRef (FieldRef (Some (tk KRune (b_ "(") (b_ " ") 0)) None None (Cid [(tk KId (b_ "foo") [] 0); (tk KRune (b_ ".") [] 0); (tk KId (b_ "bar") [] 0); (tk KRune (b_ ".") [] 0); (tk KId (b_ "rept") [] 0)]) (Some (tk KRune (b_ ")") [] 0)))]) (Some (tk KRune (b_ "=") (b_ " ") 0)) (Some (VMsg (tk KRune (b_ "{") (b_ " ") 0) [MField (FieldRef None None None (Id (tk KId (b_ "foo") ([nl] ++ b_ "  ") 1)) None) (Some (tk KRune (b_ ":") [] 1)) (VTok (tk KStr ([dq] ++ b_ "def" ++ [dq]) (b_ "   ") 1)) (Some (Token KRune (b_ ",") [] [Comment (b_ "// foo") (b_ " ") false] [] 1 false)); MField (FieldRef None None None (Id (tk KId (b_ "s") ([nl] ++ b_ "  ") 2)) None) (Some (tk KRune (b_ ":") [] 2)) (VMsg (tk KRune (b_ "{") (b_ "     ") 2) [MField (FieldRef None None None (Id (tk KId (b_ "name") [] 2)) None) (Some (tk KRune (b_ ":") [] 2)) (VTok (tk KStr ([dq] ++ b_ "bar" ++ [dq]) (b_ " ") 2)) (Some (tk KRune (b_ ",") [] 2)); MField (FieldRef None None None (Id (tk KId (b_ "id") (b_ " ") 2)) None) (Some (tk KRune (b_ ":") [] 2)) (VTok (tk KNum (b_ "321") (b_ " ") 2)) None] (tk KRune (b_ "}") [] 2) None) (Some (Token KRune (b_ ",") [] [Comment (b_ "// s") (b_ " ") false] [] 2 false)); MField (FieldRef None None None (Id (tk KId (b_ "array") ([nl] ++ b_ "  ") 3)) None) (Some (tk KRune (b_ ":") [] 3)) (VArr (tk KRune (b_ "[") (b_ " ") 3) [(VTok (tk KNum (b_ "3") [] 3)); (VTok (tk KNum (b_ "2") (b_ " ") 3)); (VTok (tk KNum (b_ "1") (b_ " ") 3))] [(tk KRune (b_ ",") [] 3); (tk KRune (b_ ",") [] 3)] (tk KRune (b_ "]") [] 3) None) (Some (Token KRune (b_ ",") [] [Comment (b_ "// array") (b_ " ") false] [] 3 false)); MField (FieldRef None None None (Id (tk KId (b_ "r") ([nl] ++ b_ "  ") 4)) None) (Some (tk KRune (b_ ":") [] 4)) (VMsg (tk KRune (b_ "{") (b_ "     ") 4) [MField (FieldRef None None None (Id (tk KId (b_ "name") [] 4)) None) (Some (tk KRune (b_ ":") [] 4)) (VTok (tk KStr ([dq] ++ b_ "g" ++ [dq]) (b_ " ") 4)) None] (tk KRune (b_ "}") [] 4) None) (Some (tk KRune (b_ ",") [] 4)); MField (FieldRef None None None (Id (tk KId (b_ "r") ([nl] ++ b_ "  ") 5)) None) (Some (tk KRune (b_ ":") [] 5)) (VMsg (tk KRune (b_ "{") (b_ "     ") 5) [MField (FieldRef None None None (Id (tk KId (b_ "name") [] 5)) None) (Some (tk KRune (b_ ":") [] 5)) (VTok (tk KStr ([dq] ++ b_ "s" ++ [dq]) (b_ " ") 5)) None] (tk KRune (b_ "}") [] 5) None) (Some (tk KRune (b_ ",") [] 5))] (tk KRune (b_ "}") ([nl]) 6) None)) (Some (tk KRune (b_ ";") [] 6)))] (Some (tk KRune [] [] 6)))
  = ((b_ "option (foo.bar.rept) = {" ++ [nl] ++ b_ "  foo:   " ++ [dq] ++ b_ "def" ++ [dq] ++ b_ ", // foo" ++ [nl] ++ b_ "  s:     {name: " ++ [dq] ++ b_ "bar" ++ [dq] ++ b_ ", id: 321}, // s" ++ [nl] ++ b_ "  array: [3, 2, 1], // array" ++ [nl] ++ b_ "  r:     {name: " ++ [dq] ++ b_ "g" ++ [dq] ++ b_ "}," ++ [nl] ++ b_ "  r:     {name: " ++ [dq] ++ b_ "s" ++ [dq] ++ b_ "}," ++ [nl] ++ b_ "};"), false, false).
Proof. vm_compute. reflexivity. Qed.

Example unit_test_9 : printed (File None [FDecl (DMessage (tk KId (b_ "message") [] 0) (tk KId (b_ "Foo") (b_ " ") 0) (tk KRune (b_ "{") (b_ " ") 0) [DField (Some (tk KId (b_ "optional") (b_ " ") 0)) (Id (tk KId (b_ "int32") (b_ " ") 0)) (Some (tk KId (b_ "foo") (b_ " ") 0)) (Some (tk KRune (b_ "=") (b_ " ") 0)) (Some (VTok (tk KNum (b_ "1") (b_ " ") 0))) (Some (COpts (tk KRune (b_ "[") (b_ " ") 0) [Opt None None None None (Some (tk KRune (b_ ",") (b_ " ") 0)); Opt None (Some [PRef (FieldRef None None None (Id (tk KId (b_ "json_name") (b_ " ") 0)) None)]) (Some (tk KRune (b_ "=") (b_ " ") 0)) (Some (VTok (tk KStr ([dq] ++ b_ "foo" ++ [dq]) (b_ " ") 0))) (Some (tk KRune (b_ ",") [] 0))] (tk KRune (b_ "]") (b_ " ") 0) None)) (Some (tk KRune (b_ ";") [] 0))] (tk KRune (b_ "}") (b_ " ") 0) None)] (Some (tk KRune [] [] 0)))
  = ((b_ "message Foo {" ++ [nl] ++ b_ "  optional int32 foo = 1 [json_name = " ++ [dq] ++ b_ "foo" ++ [dq] ++ b_ "];" ++ [nl] ++ b_ "}"), false, false).
Proof. vm_compute. reflexivity. Qed.

Example unit_test_9_again : printed (File None [FDecl (DMessage (tk KId (b_ "message") [] 0) (tk KId (b_ "Foo") (b_ " ") 0) (tk KRune (b_ "{") (b_ " ") 0) [DField (Some (tk KId (b_ "optional") ([nl] ++ b_ "  ") 1)) (Id (tk KId (b_ "int32") (b_ " ") 1)) (Some (tk KId (b_ "foo") (b_ " ") 1)) (Some (tk KRune (b_ "=") (b_ " ") 1)) (Some (VTok (tk KNum (b_ "1") (b_ " ") 1))) (Some (COpts (tk KRune (b_ "[") (b_ " ") 1) [Opt None (Some [PRef (FieldRef None None None (Id (tk KId (b_ "json_name") [] 1)) None)]) (Some (tk KRune (b_ "=") (b_ " ") 1)) (Some (VTok (tk KStr ([dq] ++ b_ "foo" ++ [dq]) (b_ " ") 1))) None] (tk KRune (b_ "]") [] 1) None)) (Some (tk KRune (b_ ";") [] 1))] (tk KRune (b_ "}") ([nl]) 2) None)] (Some (tk KRune [] [] 2)))
  = ((b_ "message Foo {" ++ [nl] ++ b_ "  optional int32 foo = 1 [json_name = " ++ [dq] ++ b_ "foo" ++ [dq] ++ b_ "];" ++ [nl] ++ b_ "}"), false, false).
Proof. vm_compute. reflexivity. Qed.

Example unit_test_10 : printed (File None [FDecl (DMessage (tk KId (b_ "message") [] 0) (tk KId (b_ "Foo") (b_ " ") 0) (tk KRune (b_ "{") (b_ " ") 0) [DReserved (tk KId (b_ "reserved") (b_ " ") 0) [RRange (VTok (tk KNum (b_ "1") (b_ "  ") 0)) (Some (tk KId (b_ "to") (b_ "  ") 0)) None (Some (tk KId (b_ "max") (b_ "  ") 0))] (Some (Token KRune (b_ ";") [] [] [] 0 true))] (tk KRune (b_ "}") (b_ " ") 0) None)] (Some (tk KRune [] [] 0)))
  = ((b_ "message Foo {" ++ [nl] ++ b_ "  reserved 1 to max;" ++ [nl] ++ b_ "}"), false, false).
Proof. vm_compute. reflexivity. Qed.

Example unit_test_10_again : printed (File None [FDecl (DMessage (tk KId (b_ "message") [] 0) (tk KId (b_ "Foo") (b_ " ") 0) (tk KRune (b_ "{") (b_ " ") 0) [DReserved (tk KId (b_ "reserved") ([nl] ++ b_ "  ") 1) [RRange (VTok (tk KNum (b_ "1") (b_ " ") 1)) (Some (tk KId (b_ "to") (b_ " ") 1)) None (Some (tk KId (b_ "max") (b_ " ") 1))] (Some (tk KRune (b_ ";") [] 1))] (tk KRune (b_ "}") ([nl]) 2) None)] (Some (tk KRune [] [] 2)))
  = ((b_ "message Foo {" ++ [nl] ++ b_ "  reserved 1 to max;" ++ [nl] ++ b_ "}"), false, false).
Proof. vm_compute. reflexivity. Qed.

Example unit_test_11 : printed (File None [FDecl (DMessage (tk KId (b_ "message") ([nl]) 1) (tk KId (b_ "Foo") (b_ " ") 1) (tk KRune (b_ "{") (b_ " ") 1) [DReserved (tk KId (b_ "reserved") ([nl] ++ b_ "  ") 2) [RRange (VTok (tk KNum (b_ "1") (b_ " ") 2)) None None None; RComma (tk KRune (b_ ",") [] 2); RRange (VTok (tk KNum (b_ "10") (b_ " ") 2)) (Some (tk KId (b_ "to") (b_ " ") 2)) (Some (VTok (tk KNum (b_ "12") (b_ " ") 2))) None; RComma (tk KRune (b_ ",") (b_ " ") 2); RRange (VTok (tk KNum (b_ "15") (b_ " ") 2)) None None None] (Some (tk KRune (b_ ";") (b_ " ") 2)); DReserved (tk KId (b_ "reserved") ([nl] ++ b_ "  ") 3) [RVal (VTok (tk KStr ([dq] ++ b_ "foo" ++ [dq]) (b_ "  ") 3)); RComma (tk KRune (b_ ",") (b_ " ") 3); RVal (VTok (tk KStr ([dq] ++ b_ "bar" ++ [dq]) [] 3))] (Some (tk KRune (b_ ";") (b_ " ") 3)); DReserved (tk KId (b_ "reserved") ([nl] ++ b_ "  ") 4) [RVal (VTok (tk KId (b_ "foo") (b_ " ") 4)); RComma (tk KRune (b_ ",") [] 4); RVal (VTok (tk KId (b_ "bar") (b_ " ") 4)); RComma (tk KRune (b_ ",") [] 4); RVal (VTok (tk KId (b_ "baz") (b_ " ") 4))] (Some (tk KRune (b_ ";") [] 4)); DExtensions (tk KId (b_ "extensions") ([nl] ++ b_ "  ") 5) [RRange (VTok (tk KNum (b_ "100") (b_ "  ") 5)) (Some (tk KId (b_ "to") (b_ "  ") 5)) None (Some (tk KId (b_ "max") (b_ "  ") 5))] (Some (COpts (tk KRune (b_ "[") (b_ " ") 5) [Opt None (Some [PRef (FieldRef None None None (Id (tk KId (b_ "key") (b_ " ") 5)) None)]) (Some (tk KRune (b_ "=") [] 5)) (Some (VTok (tk KStr ([dq] ++ b_ "value" ++ [dq]) [] 5))) (Some (tk KRune (b_ ",") [] 5))] (tk KRune (b_ "]") (b_ " ") 5) None)) (Some (tk KRune (b_ ";") [] 5))] (tk KRune (b_ "}") ([nl]) 6) None)] (Some (tk KRune [] [] 6)))
  = ((b_ "message Foo {" ++ [nl] ++ b_ "  reserved 1, 10 to 12, 15;" ++ [nl] ++ b_ "  reserved " ++ [dq] ++ b_ "foo" ++ [dq] ++ b_ ", " ++ [dq] ++ b_ "bar" ++ [dq] ++ b_ ";" ++ [nl] ++ b_ "  reserved foo, bar, baz;" ++ [nl] ++ b_ "  extensions 100 to max [key = " ++ [dq] ++ b_ "value" ++ [dq] ++ b_ "];" ++ [nl] ++ b_ "}"), false, false).
Proof. vm_compute. reflexivity. Qed.

Example unit_test_11_again : printed (File None [FDecl (DMessage (tk KId (b_ "message") [] 0) (tk KId (b_ "Foo") (b_ " ") 0) (tk KRune (b_ "{") (b_ " ") 0) [DReserved (tk KId (b_ "reserved") ([nl] ++ b_ "  ") 1) [RRange (VTok (tk KNum (b_ "1") (b_ " ") 1)) None None None; RComma (tk KRune (b_ ",") [] 1); RRange (VTok (tk KNum (b_ "10") (b_ " ") 1)) (Some (tk KId (b_ "to") (b_ " ") 1)) (Some (VTok (tk KNum (b_ "12") (b_ " ") 1))) None; RComma (tk KRune (b_ ",") [] 1); RRange (VTok (tk KNum (b_ "15") (b_ " ") 1)) None None None] (Some (tk KRune (b_ ";") [] 1)); DReserved (tk KId (b_ "reserved") ([nl] ++ b_ "  ") 2) [RVal (VTok (tk KStr ([dq] ++ b_ "foo" ++ [dq]) (b_ " ") 2)); RComma (tk KRune (b_ ",") [] 2); RVal (VTok (tk KStr ([dq] ++ b_ "bar" ++ [dq]) (b_ " ") 2))] (Some (tk KRune (b_ ";") [] 2)); DReserved (tk KId (b_ "reserved") ([nl] ++ b_ "  ") 3) [RVal (VTok (tk KId (b_ "foo") (b_ " ") 3)); RComma (tk KRune (b_ ",") [] 3); RVal (VTok (tk KId (b_ "bar") (b_ " ") 3)); RComma (tk KRune (b_ ",") [] 3); RVal (VTok (tk KId (b_ "baz") (b_ " ") 3))] (Some (tk KRune (b_ ";") [] 3)); DExtensions (tk KId (b_ "extensions") ([nl] ++ b_ "  ") 4) [RRange (VTok (tk KNum (b_ "100") (b_ " ") 4)) (Some (tk KId (b_ "to") (b_ " ") 4)) None (Some (tk KId (b_ "max") (b_ " ") 4))] (Some (COpts (tk KRune (b_ "[") (b_ " ") 4) [Opt None (Some [PRef (FieldRef None None None (Id (tk KId (b_ "key") [] 4)) None)]) (Some (tk KRune (b_ "=") (b_ " ") 4)) (Some (VTok (tk KStr ([dq] ++ b_ "value" ++ [dq]) (b_ " ") 4))) None] (tk KRune (b_ "]") [] 4) None)) (Some (tk KRune (b_ ";") [] 4))] (tk KRune (b_ "}") ([nl]) 5) None)] (Some (tk KRune [] [] 5)))
  = ((b_ "message Foo {" ++ [nl] ++ b_ "  reserved 1, 10 to 12, 15;" ++ [nl] ++ b_ "  reserved " ++ [dq] ++ b_ "foo" ++ [dq] ++ b_ ", " ++ [dq] ++ b_ "bar" ++ [dq] ++ b_ ";" ++ [nl] ++ b_ "  reserved foo, bar, baz;" ++ [nl] ++ b_ "  extensions 100 to max [key = " ++ [dq] ++ b_ "value" ++ [dq] ++ b_ "];" ++ [nl] ++ b_ "}"), false, false).
Proof. vm_compute. reflexivity. Qed.

Example unit_test_12 : printed (File None [FDecl (DMessage (tk KId (b_ "message") [] 0) (tk KId (b_ "Foo") (b_ " ") 0) (tk KRune (b_ "{") (b_ " ") 0) [DField (Some (tk KId (b_ "optional") ([nl] ++ b_ "  ") 1)) (Id (tk KId (b_ "uint64") (b_ " ") 1)) (Some (tk KId (b_ "id") (b_ " ") 1)) (Some (tk KRune (b_ "=") (b_ " ") 1)) (Some (VTok (tk KNum (b_ "1") (b_ " ") 1))) (Some (COpts (tk KRune (b_ "[") (b_ " ") 1) [Opt None (Some [PRef (FieldRef None None None (Id (tk KId (b_ "default") ([nl] ++ b_ "    ") 2)) None)]) (Some (tk KRune (b_ "=") (b_ " ") 2)) (Some (VTok (tk KNum (b_ "1") (b_ " ") 2))) None] (Token KRune (b_ "]") [Comment (b_ "// comment 1") ([nl] ++ b_ "    ") false; Comment (b_ "// comment 2") ([nl] ++ b_ "    ") false] [] ([nl] ++ b_ "  ") 5 false) None)) (Some (tk KRune (b_ ";") [] 5))] (tk KRune (b_ "}") ([nl]) 6) None)] (Some (tk KRune [] [] 6)))
  = ((b_ "message Foo {" ++ [nl] ++ b_ "  optional uint64 id = 1 [" ++ [nl] ++ b_ "    default = 1" ++ [nl] ++ b_ "    // comment 1" ++ [nl] ++ b_ "    // comment 2" ++ [nl] ++ b_ "  ];" ++ [nl] ++ b_ "}"), false, false).
Proof. vm_compute. reflexivity. Qed.

Example unit_test_13 : printed (File None [FDecl (DMessage (tk KId (b_ "message") [] 0) (tk KId (b_ "Foo") (b_ " ") 0) (tk KRune (b_ "{") (b_ " ") 0) [DReserved (tk KId (b_ "reserved") ([nl]) 1) [RRange (VTok (tk KNum (b_ "50") (b_ " ") 1)) None None None] (Some (Token KRune (b_ ";") [] [Comment (b_ "// comment") (b_ " ") false] [] 1 false)); DField (Some (tk KId (b_ "repeated") ([nl]) 2)) (Id (tk KId (b_ "string") (b_ " ") 2)) (Some (tk KId (b_ "field1") (b_ " ") 2)) (Some (tk KRune (b_ "=") (b_ " ") 2)) (Some (VTok (tk KNum (b_ "52") (b_ " ") 2))) None (Some (tk KRune (b_ ";") [] 2)); DField (Some (tk KId (b_ "optional") ([nl]) 3)) (Id (tk KId (b_ "string") (b_ " ") 3)) (Some (tk KId (b_ "field2") (b_ " ") 3)) (Some (tk KRune (b_ "=") (b_ " ") 3)) (Some (VTok (tk KNum (b_ "84") (b_ " ") 3))) (Some (COpts (tk KRune (b_ "[") (b_ " ") 3) [Opt None (Some [PRef (FieldRef (Some (tk KRune (b_ "(") (b_ "    ") 3)) None None (Id (tk KId (b_ "opt") [] 3)) (Some (tk KRune (b_ ")") [] 3)))]) (Some (tk KRune (b_ "=") (b_ " ") 3)) (Some (VMsg (tk KRune (b_ "{") (b_ " ") 3) [MField (FieldRef None None None (Id (tk KId (b_ "foo") [] 3)) None) (Some (tk KRune (b_ ":") [] 3)) (VTok (tk KId (b_ "true") (b_ " ") 3)) (Some (tk KRune (b_ ",") [] 3)); MField (FieldRef None None None (Id (tk KId (b_ "bar") (b_ " ") 3)) None) (Some (tk KRune (b_ ":") [] 3)) (VTok (tk KId (b_ "ENUM_VALUE") (b_ " ") 3)) None] (tk KRune (b_ "}") [] 3) None)) None] (tk KRune (b_ "]") ([nl]) 4) None)) (Some (tk KRune (b_ ";") [] 4)); DField (Some (tk KId (b_ "optional") ([nl]) 5)) (Id (tk KId (b_ "string") (b_ " ") 5)) (Some (tk KId (b_ "field3") (b_ "                 ") 5)) (Some (tk KRune (b_ "=") (b_ "              ") 5)) (Some (VTok (tk KNum (b_ "101") (b_ " ") 5))) None (Some (tk KRune (b_ ";") [] 5)); DField (Some (tk KId (b_ "optional") ([nl]) 6)) (Id (tk KId (b_ "string") (b_ " ") 6)) (Some (tk KId (b_ "field4") (b_ "                 ") 6)) (Some (tk KRune (b_ "=") (b_ " ") 6)) (Some (VTok (tk KNum (b_ "102") (b_ " ") 6))) (Some (COpts (tk KRune (b_ "[") (b_ " ") 6) [Opt None (Some [PRef (FieldRef (Some (tk KRune (b_ "(") [] 6)) None None (Id (tk KId (b_ "opt") [] 6)) (Some (tk KRune (b_ ")") [] 6))); PDot (tk KRune (b_ ".") [] 6); PRef (FieldRef None None None (Id (tk KId (b_ "test") [] 6)) None)]) (Some (tk KRune (b_ "=") (b_ " ") 6)) (Some (VTok (tk KId (b_ "true") (b_ " ") 6))) None] (tk KRune (b_ "]") [] 6) None)) (Some (tk KRune (b_ ";") [] 6)); DField (Some (tk KId (b_ "optional") ([nl]) 7)) (Id (tk KId (b_ "bool") (b_ " ") 7)) (Some (tk KId (b_ "field5") (b_ "                   ") 7)) (Some (tk KRune (b_ "=") (b_ "   ") 7)) (Some (VTok (tk KNum (b_ "106") (b_ " ") 7))) None (Some (tk KRune (b_ ";") [] 7)); DField (Some (tk KId (b_ "optional") ([nl]) 8)) (Id (tk KId (b_ "Aaaaaaaaaaaaaaaaaaaaaa") (b_ " ") 8)) (Some (tk KId (b_ "field6") (b_ " ") 8)) (Some (tk KRune (b_ "=") (b_ "                      ") 8)) (Some (VTok (tk KNum (b_ "116") (b_ " ") 8))) None (Some (tk KRune (b_ ";") [] 8))] (tk KRune (b_ "}") [] 8) None)] (Some (tk KRune [] ([nl]) 9)))
  = ((b_ "message Foo {" ++ [nl] ++ b_ "  reserved 50; // comment" ++ [nl] ++ b_ "  repeated string                 field1 = 52;" ++ [nl] ++ b_ "  optional string                 field2 = 84  [(opt) = {foo: true, bar: ENUM_VALUE}];" ++ [nl] ++ b_ "  optional string                 field3 = 101;" ++ [nl] ++ b_ "  optional string                 field4 = 102 [(opt).test = true];" ++ [nl] ++ b_ "  optional bool                   field5 = 106;" ++ [nl] ++ b_ "  optional Aaaaaaaaaaaaaaaaaaaaaa field6 = 116;" ++ [nl] ++ b_ "}"), false, false).
Proof. vm_compute. reflexivity. Qed.

Example unit_test_13_again : printed (File None [FDecl (DMessage (tk KId (b_ "message") [] 0) (tk KId (b_ "Foo") (b_ " ") 0) (tk KRune (b_ "{") (b_ " ") 0) [DReserved (tk KId (b_ "reserved") ([nl] ++ b_ "  ") 1) [RRange (VTok (tk KNum (b_ "50") (b_ " ") 1)) None None None] (Some (Token KRune (b_ ";") [] [Comment (b_ "// comment") (b_ " ") false] [] 1 false)); DField (Some (tk KId (b_ "repeated") ([nl] ++ b_ "  ") 2)) (Id (tk KId (b_ "string") (b_ " ") 2)) (Some (tk KId (b_ "field1") (b_ "                 ") 2)) (Some (tk KRune (b_ "=") (b_ " ") 2)) (Some (VTok (tk KNum (b_ "52") (b_ " ") 2))) None (Some (tk KRune (b_ ";") [] 2)); DField (Some (tk KId (b_ "optional") ([nl] ++ b_ "  ") 3)) (Id (tk KId (b_ "string") (b_ " ") 3)) (Some (tk KId (b_ "field2") (b_ "                 ") 3)) (Some (tk KRune (b_ "=") (b_ " ") 3)) (Some (VTok (tk KNum (b_ "84") (b_ " ") 3))) (Some (COpts (tk KRune (b_ "[") (b_ "  ") 3) [Opt None (Some [PRef (FieldRef (Some (tk KRune (b_ "(") [] 3)) None None (Id (tk KId (b_ "opt") [] 3)) (Some (tk KRune (b_ ")") [] 3)))]) (Some (tk KRune (b_ "=") (b_ " ") 3)) (Some (VMsg (tk KRune (b_ "{") (b_ " ") 3) [MField (FieldRef None None None (Id (tk KId (b_ "foo") [] 3)) None) (Some (tk KRune (b_ ":") [] 3)) (VTok (tk KId (b_ "true") (b_ " ") 3)) (Some (tk KRune (b_ ",") [] 3)); MField (FieldRef None None None (Id (tk KId (b_ "bar") (b_ " ") 3)) None) (Some (tk KRune (b_ ":") [] 3)) (VTok (tk KId (b_ "ENUM_VALUE") (b_ " ") 3)) None] (tk KRune (b_ "}") [] 3) None)) None] (tk KRune (b_ "]") [] 3) None)) (Some (tk KRune (b_ ";") [] 3)); DField (Some (tk KId (b_ "optional") ([nl] ++ b_ "  ") 4)) (Id (tk KId (b_ "string") (b_ " ") 4)) (Some (tk KId (b_ "field3") (b_ "                 ") 4)) (Some (tk KRune (b_ "=") (b_ " ") 4)) (Some (VTok (tk KNum (b_ "101") (b_ " ") 4))) None (Some (tk KRune (b_ ";") [] 4)); DField (Some (tk KId (b_ "optional") ([nl] ++ b_ "  ") 5)) (Id (tk KId (b_ "string") (b_ " ") 5)) (Some (tk KId (b_ "field4") (b_ "                 ") 5)) (Some (tk KRune (b_ "=") (b_ " ") 5)) (Some (VTok (tk KNum (b_ "102") (b_ " ") 5))) (Some (COpts (tk KRune (b_ "[") (b_ " ") 5) [Opt None (Some [PRef (FieldRef (Some (tk KRune (b_ "(") [] 5)) None None (Id (tk KId (b_ "opt") [] 5)) (Some (tk KRune (b_ ")") [] 5))); PDot (tk KRune (b_ ".") [] 5); PRef (FieldRef None None None (Id (tk KId (b_ "test") [] 5)) None)]) (Some (tk KRune (b_ "=") (b_ " ") 5)) (Some (VTok (tk KId (b_ "true") (b_ " ") 5))) None] (tk KRune (b_ "]") [] 5) None)) (Some (tk KRune (b_ ";") [] 5)); DField (Some (tk KId (b_ "optional") ([nl] ++ b_ "  ") 6)) (Id (tk KId (b_ "bool") (b_ " ") 6)) (Some (tk KId (b_ "field5") (b_ "                   ") 6)) (Some (tk KRune (b_ "=") (b_ " ") 6)) (Some (VTok (tk KNum (b_ "106") (b_ " ") 6))) None (Some (tk KRune (b_ ";") [] 6)); DField (Some (tk KId (b_ "optional") ([nl] ++ b_ "  ") 7)) (Id (tk KId (b_ "Aaaaaaaaaaaaaaaaaaaaaa") (b_ " ") 7)) (Some (tk KId (b_ "field6") (b_ " ") 7)) (Some (tk KRune (b_ "=") (b_ " ") 7)) (Some (VTok (tk KNum (b_ "116") (b_ " ") 7))) None (Some (tk KRune (b_ ";") [] 7))] (tk KRune (b_ "}") ([nl]) 8) None)] (Some (tk KRune [] [] 8)))
  = ((b_ "message Foo {" ++ [nl] ++ b_ "  reserved 50; // comment" ++ [nl] ++ b_ "  repeated string                 field1 = 52;" ++ [nl] ++ b_ "  optional string                 field2 = 84  [(opt) = {foo: true, bar: ENUM_VALUE}];" ++ [nl] ++ b_ "  optional string                 field3 = 101;" ++ [nl] ++ b_ "  optional string                 field4 = 102 [(opt).test = true];" ++ [nl] ++ b_ "  optional bool                   field5 = 106;" ++ [nl] ++ b_ "  optional Aaaaaaaaaaaaaaaaaaaaaa field6 = 116;" ++ [nl] ++ b_ "}"), false, false).
Proof. vm_compute. reflexivity. Qed.

Example unit_test_14 : printed (File None [FDecl (DMessage (tk KId (b_ "message") [] 0) (tk KId (b_ "Foo") (b_ " ") 0) (tk KRune (b_ "{") (b_ " ") 0) [DField (Some (tk KId (b_ "optional") ([nl] ++ b_ "  ") 1)) (Id (tk KId (b_ "string") (b_ " ") 1)) (Some (tk KId (b_ "aaaa") (b_ " ") 1)) (Some (tk KRune (b_ "=") (b_ " ") 1)) (Some (VTok (tk KNum (b_ "1") (b_ " ") 1))) None (Some (tk KRune (b_ ";") [] 1)); DField (Some (tk KId (b_ "optional") ([nl] ++ b_ "  ") 2)) (Id (tk KId (b_ "string") (b_ " ") 2)) (Some (tk KId (b_ "aaaaa") (b_ " ") 2)) (Some (tk KRune (b_ "=") (b_ " ") 2)) (Some (VTok (tk KNum (b_ "2") (b_ " ") 2))) None (Some (tk KRune (b_ ";") [] 2)); DField (Some (tk KId (b_ "optional") ([nl] ++ b_ "  ") 3)) (Id (tk KId (b_ "string") (b_ " ") 3)) (Some (tk KId (b_ "aaaaaa") (b_ " ") 3)) (Some (tk KRune (b_ "=") (b_ " ") 3)) (Some (VTok (tk KNum (b_ "3") (b_ " ") 3))) None (Some (tk KRune (b_ ";") [] 3)); DField (Some (tk KId (b_ "optional") ([nl] ++ b_ "  ") 4)) (Id (tk KId (b_ "string") (b_ " ") 4)) (Some (tk KId (b_ "aaaaaaaaaaaaaaaaaaaaaaaaaaaaaaaaaaaaaaaaaaaaaaaaaaaaaaa") (b_ " ") 4)) (Some (tk KRune (b_ "=") (b_ " ") 4)) (Some (VTok (tk KNum (b_ "4") (b_ " ") 4))) None (Some (tk KRune (b_ ";") [] 4)); DField (Some (tk KId (b_ "optional") ([nl] ++ b_ "  ") 5)) (Id (tk KId (b_ "string") (b_ " ") 5)) (Some (tk KId (b_ "bbbbbbbb") (b_ " ") 5)) (Some (tk KRune (b_ "=") (b_ " ") 5)) (Some (VTok (tk KNum (b_ "1") (b_ " ") 5))) None (Some (tk KRune (b_ ";") [] 5)); DField (Some (tk KId (b_ "optional") ([nl] ++ b_ "  ") 6)) (Id (tk KId (b_ "string") (b_ " ") 6)) (Some (tk KId (b_ "bbbbb") (b_ " ") 6)) (Some (tk KRune (b_ "=") (b_ " ") 6)) (Some (VTok (tk KNum (b_ "2") (b_ " ") 6))) None (Some (tk KRune (b_ ";") [] 6)); DField (Some (tk KId (b_ "optional") ([nl] ++ b_ "  ") 7)) (Id (tk KId (b_ "string") (b_ " ") 7)) (Some (tk KId (b_ "bbbbbbb") (b_ " ") 7)) (Some (tk KRune (b_ "=") (b_ " ") 7)) (Some (VTok (tk KNum (b_ "3") (b_ " ") 7))) None (Some (tk KRune (b_ ";") [] 7))] (tk KRune (b_ "}") ([nl]) 8) None)] (Some (tk KRune [] [] 8)))
  = ((b_ "message Foo {" ++ [nl] ++ b_ "  optional string aaaa   = 1;" ++ [nl] ++ b_ "  optional string aaaaa  = 2;" ++ [nl] ++ b_ "  optional string aaaaaa = 3;" ++ [nl] ++ b_ "  optional string aaaaaaaaaaaaaaaaaaaaaaaaaaaaaaaaaaaaaaaaaaaaaaaaaaaaaaa = 4;" ++ [nl] ++ b_ "  optional string bbbbbbbb = 1;" ++ [nl] ++ b_ "  optional string bbbbb    = 2;" ++ [nl] ++ b_ "  optional string bbbbbbb  = 3;" ++ [nl] ++ b_ "}"), false, false).
Proof. vm_compute. reflexivity. Qed.

Example unit_test_14_again : printed (File None [FDecl (DMessage (tk KId (b_ "message") [] 0) (tk KId (b_ "Foo") (b_ " ") 0) (tk KRune (b_ "{") (b_ " ") 0) [DField (Some (tk KId (b_ "optional") ([nl] ++ b_ "  ") 1)) (Id (tk KId (b_ "string") (b_ " ") 1)) (Some (tk KId (b_ "aaaa") (b_ " ") 1)) (Some (tk KRune (b_ "=") (b_ "   ") 1)) (Some (VTok (tk KNum (b_ "1") (b_ " ") 1))) None (Some (tk KRune (b_ ";") [] 1)); DField (Some (tk KId (b_ "optional") ([nl] ++ b_ "  ") 2)) (Id (tk KId (b_ "string") (b_ " ") 2)) (Some (tk KId (b_ "aaaaa") (b_ " ") 2)) (Some (tk KRune (b_ "=") (b_ "  ") 2)) (Some (VTok (tk KNum (b_ "2") (b_ " ") 2))) None (Some (tk KRune (b_ ";") [] 2)); DField (Some (tk KId (b_ "optional") ([nl] ++ b_ "  ") 3)) (Id (tk KId (b_ "string") (b_ " ") 3)) (Some (tk KId (b_ "aaaaaa") (b_ " ") 3)) (Some (tk KRune (b_ "=") (b_ " ") 3)) (Some (VTok (tk KNum (b_ "3") (b_ " ") 3))) None (Some (tk KRune (b_ ";") [] 3)); DField (Some (tk KId (b_ "optional") ([nl] ++ b_ "  ") 4)) (Id (tk KId (b_ "string") (b_ " ") 4)) (Some (tk KId (b_ "aaaaaaaaaaaaaaaaaaaaaaaaaaaaaaaaaaaaaaaaaaaaaaaaaaaaaaa") (b_ " ") 4)) (Some (tk KRune (b_ "=") (b_ " ") 4)) (Some (VTok (tk KNum (b_ "4") (b_ " ") 4))) None (Some (tk KRune (b_ ";") [] 4)); DField (Some (tk KId (b_ "optional") ([nl] ++ b_ "  ") 5)) (Id (tk KId (b_ "string") (b_ " ") 5)) (Some (tk KId (b_ "bbbbbbbb") (b_ " ") 5)) (Some (tk KRune (b_ "=") (b_ " ") 5)) (Some (VTok (tk KNum (b_ "1") (b_ " ") 5))) None (Some (tk KRune (b_ ";") [] 5)); DField (Some (tk KId (b_ "optional") ([nl] ++ b_ "  ") 6)) (Id (tk KId (b_ "string") (b_ " ") 6)) (Some (tk KId (b_ "bbbbb") (b_ " ") 6)) (Some (tk KRune (b_ "=") (b_ "    ") 6)) (Some (VTok (tk KNum (b_ "2") (b_ " ") 6))) None (Some (tk KRune (b_ ";") [] 6)); DField (Some (tk KId (b_ "optional") ([nl] ++ b_ "  ") 7)) (Id (tk KId (b_ "string") (b_ " ") 7)) (Some (tk KId (b_ "bbbbbbb") (b_ " ") 7)) (Some (tk KRune (b_ "=") (b_ "  ") 7)) (Some (VTok (tk KNum (b_ "3") (b_ " ") 7))) None (Some (tk KRune (b_ ";") [] 7))] (tk KRune (b_ "}") ([nl]) 8) None)] (Some (tk KRune [] [] 8)))
  = ((b_ "message Foo {" ++ [nl] ++ b_ "  optional string aaaa   = 1;" ++ [nl] ++ b_ "  optional string aaaaa  = 2;" ++ [nl] ++ b_ "  optional string aaaaaa = 3;" ++ [nl] ++ b_ "  optional string aaaaaaaaaaaaaaaaaaaaaaaaaaaaaaaaaaaaaaaaaaaaaaaaaaaaaaa = 4;" ++ [nl] ++ b_ "  optional string bbbbbbbb = 1;" ++ [nl] ++ b_ "  optional string bbbbb    = 2;" ++ [nl] ++ b_ "  optional string bbbbbbb  = 3;" ++ [nl] ++ b_ "}"), false, false).
Proof. vm_compute. reflexivity. Qed.

Example unit_test_15 : printed (File None [FDecl (DMessage (tk KId (b_ "message") [] 0) (tk KId (b_ "Foo") (b_ " ") 0) (tk KRune (b_ "{") (b_ " ") 0) [DField (Some (tk KId (b_ "optional") ([nl] ++ b_ "  ") 1)) (Id (tk KId (b_ "string") (b_ " ") 1)) (Some (tk KId (b_ "aaaa") (b_ " ") 1)) (Some (tk KRune (b_ "=") (b_ " ") 1)) (Some (VTok (tk KNum (b_ "1") (b_ " ") 1))) None (Some (tk KRune (b_ ";") [] 1)); DField (Some (tk KId (b_ "optional") ([nl] ++ b_ "  ") 2)) (Id (tk KId (b_ "string") (b_ " ") 2)) (Some (tk KId (b_ "aaaaa") (b_ " ") 2)) (Some (tk KRune (b_ "=") (b_ " ") 2)) (Some (VTok (tk KNum (b_ "2") (b_ " ") 2))) None (Some (tk KRune (b_ ";") [] 2)); DField (Some (tk KId (b_ "optional") ([nl] ++ b_ "  ") 3)) (Id (tk KId (b_ "string") (b_ " ") 3)) (Some (tk KId (b_ "aaaaaa") (b_ " ") 3)) (Some (tk KRune (b_ "=") (b_ " ") 3)) (Some (VTok (tk KNum (b_ "3") (b_ " ") 3))) None (Some (tk KRune (b_ ";") [] 3)); DField (Some (tk KId (b_ "optional") ([nl] ++ b_ "  ") 4)) (Cid [(tk KId (b_ "aaaaa") (b_ " ") 4); (tk KRune (b_ ".") [] 4); (tk KId (b_ "bbbbbbbbb") [] 4); (tk KRune (b_ ".") [] 4); (tk KId (b_ "cccccccc") [] 4); (tk KRune (b_ ".") [] 4); (tk KId (b_ "ddddddd") [] 4); (tk KRune (b_ ".") [] 4); (tk KId (b_ "eeeeeeeeeeeeeeeee") ([nl] ++ b_ "    ") 5); (tk KRune (b_ ".") [] 5); (tk KId (b_ "fffffffffffffffffffffffffffffffff") [] 5)]) (Some (tk KId (b_ "very_long_type") (b_ " ") 5)) (Some (tk KRune (b_ "=") (b_ " ") 5)) (Some (VTok (tk KNum (b_ "4") (b_ " ") 5))) None (Some (tk KRune (b_ ";") [] 5)); DField (Some (tk KId (b_ "optional") ([nl] ++ b_ "  ") 6)) (Cid [(tk KId (b_ "aaaaa") (b_ " ") 6); (tk KRune (b_ ".") [] 6); (tk KId (b_ "bbbbbbbbb") [] 6); (tk KRune (b_ ".") [] 6); (tk KId (b_ "cccccccc") [] 6); (tk KRune (b_ ".") [] 6); (tk KId (b_ "ddddddd") [] 6); (tk KRune (b_ ".") [] 6); (tk KId (b_ "eeeeeeeeee") [] 6); (tk KRune (b_ ".") [] 6); (tk KId (b_ "fffffffffffff") ([nl] ++ b_ "    ") 7)]) (Some (tk KId (b_ "long_type") (b_ " ") 7)) (Some (tk KRune (b_ "=") (b_ " ") 7)) (Some (VTok (tk KNum (b_ "5") (b_ " ") 7))) None (Some (tk KRune (b_ ";") [] 7)); DField (Some (tk KId (b_ "optional") ([nl] ++ b_ "  ") 8)) (Id (tk KId (b_ "string") (b_ " ") 8)) (Some (tk KId (b_ "bbbbbbbb") (b_ " ") 8)) (Some (tk KRune (b_ "=") (b_ " ") 8)) (Some (VTok (tk KNum (b_ "1") (b_ " ") 8))) None (Some (tk KRune (b_ ";") [] 8)); DField (Some (tk KId (b_ "optional") ([nl] ++ b_ "  ") 9)) (Id (tk KId (b_ "string") (b_ " ") 9)) (Some (tk KId (b_ "bbbbb") (b_ " ") 9)) (Some (tk KRune (b_ "=") (b_ " ") 9)) (Some (VTok (tk KNum (b_ "2") (b_ " ") 9))) None (Some (tk KRune (b_ ";") [] 9)); DField (Some (tk KId (b_ "optional") ([nl] ++ b_ "  ") 10)) (Id (tk KId (b_ "string") (b_ " ") 10)) (Some (tk KId (b_ "bbbbbbb") (b_ " ") 10)) (Some (tk KRune (b_ "=") (b_ " ") 10)) (Some (VTok (tk KNum (b_ "3") (b_ " ") 10))) None (Some (tk KRune (b_ ";") [] 10))] (tk KRune (b_ "}") ([nl]) 11) None)] (Some (tk KRune [] [] 11)))
  = ((b_ "message Foo {" ++ [nl] ++ b_ "  optional string aaaa   = 1;" ++ [nl] ++ b_ "  optional string aaaaa  = 2;" ++ [nl] ++ b_ "  optional string aaaaaa = 3;" ++ [nl] ++ b_ "  optional aaaaa.bbbbbbbbb.cccccccc.ddddddd.eeeeeeeeeeeeeeeee.fffffffffffffffffffffffffffffffff very_long_type = 4;" ++ [nl] ++ b_ "  optional aaaaa.bbbbbbbbb.cccccccc.ddddddd.eeeeeeeeee.fffffffffffff                            long_type      = 5;" ++ [nl] ++ b_ "  optional string bbbbbbbb = 1;" ++ [nl] ++ b_ "  optional string bbbbb    = 2;" ++ [nl] ++ b_ "  optional string bbbbbbb  = 3;" ++ [nl] ++ b_ "}"), false, false).
Proof. vm_compute. reflexivity. Qed.

Example unit_test_15_again : printed (File None [FDecl (DMessage (tk KId (b_ "message") [] 0) (tk KId (b_ "Foo") (b_ " ") 0) (tk KRune (b_ "{") (b_ " ") 0) [DField (Some (tk KId (b_ "optional") ([nl] ++ b_ "  ") 1)) (Id (tk KId (b_ "string") (b_ " ") 1)) (Some (tk KId (b_ "aaaa") (b_ " ") 1)) (Some (tk KRune (b_ "=") (b_ "   ") 1)) (Some (VTok (tk KNum (b_ "1") (b_ " ") 1))) None (Some (tk KRune (b_ ";") [] 1)); DField (Some (tk KId (b_ "optional") ([nl] ++ b_ "  ") 2)) (Id (tk KId (b_ "string") (b_ " ") 2)) (Some (tk KId (b_ "aaaaa") (b_ " ") 2)) (Some (tk KRune (b_ "=") (b_ "  ") 2)) (Some (VTok (tk KNum (b_ "2") (b_ " ") 2))) None (Some (tk KRune (b_ ";") [] 2)); DField (Some (tk KId (b_ "optional") ([nl] ++ b_ "  ") 3)) (Id (tk KId (b_ "string") (b_ " ") 3)) (Some (tk KId (b_ "aaaaaa") (b_ " ") 3)) (Some (tk KRune (b_ "=") (b_ " ") 3)) (Some (VTok (tk KNum (b_ "3") (b_ " ") 3))) None (Some (tk KRune (b_ ";") [] 3)); DField (Some (tk KId (b_ "optional") ([nl] ++ b_ "  ") 4)) (Cid [(tk KId (b_ "aaaaa") (b_ " ") 4); (tk KRune (b_ ".") [] 4); (tk KId (b_ "bbbbbbbbb") [] 4); (tk KRune (b_ ".") [] 4); (tk KId (b_ "cccccccc") [] 4); (tk KRune (b_ ".") [] 4); (tk KId (b_ "ddddddd") [] 4); (tk KRune (b_ ".") [] 4); (tk KId (b_ "eeeeeeeeeeeeeeeee") [] 4); (tk KRune (b_ ".") [] 4); (tk KId (b_ "fffffffffffffffffffffffffffffffff") [] 4)]) (Some (tk KId (b_ "very_long_type") (b_ " ") 4)) (Some (tk KRune (b_ "=") (b_ " ") 4)) (Some (VTok (tk KNum (b_ "4") (b_ " ") 4))) None (Some (tk KRune (b_ ";") [] 4)); DField (Some (tk KId (b_ "optional") ([nl] ++ b_ "  ") 5)) (Cid [(tk KId (b_ "aaaaa") (b_ " ") 5); (tk KRune (b_ ".") [] 5); (tk KId (b_ "bbbbbbbbb") [] 5); (tk KRune (b_ ".") [] 5); (tk KId (b_ "cccccccc") [] 5); (tk KRune (b_ ".") [] 5); (tk KId (b_ "ddddddd") [] 5); (tk KRune (b_ ".") [] 5); (tk KId (b_ "eeeeeeeeee") [] 5); (tk KRune (b_ ".") [] 5); (tk KId (b_ "fffffffffffff") [] 5)]) (Some (tk KId (b_ "long_type") (b_ "                            ") 5)) (Some (tk KRune (b_ "=") (b_ "      ") 5)) (Some (VTok (tk KNum (b_ "5") (b_ " ") 5))) None (Some (tk KRune (b_ ";") [] 5)); DField (Some (tk KId (b_ "optional") ([nl] ++ b_ "  ") 6)) (Id (tk KId (b_ "string") (b_ " ") 6)) (Some (tk KId (b_ "bbbbbbbb") (b_ " ") 6)) (Some (tk KRune (b_ "=") (b_ " ") 6)) (Some (VTok (tk KNum (b_ "1") (b_ " ") 6))) None (Some (tk KRune (b_ ";") [] 6)); DField (Some (tk KId (b_ "optional") ([nl] ++ b_ "  ") 7)) (Id (tk KId (b_ "string") (b_ " ") 7)) (Some (tk KId (b_ "bbbbb") (b_ " ") 7)) (Some (tk KRune (b_ "=") (b_ "    ") 7)) (Some (VTok (tk KNum (b_ "2") (b_ " ") 7))) None (Some (tk KRune (b_ ";") [] 7)); DField (Some (tk KId (b_ "optional") ([nl] ++ b_ "  ") 8)) (Id (tk KId (b_ "string") (b_ " ") 8)) (Some (tk KId (b_ "bbbbbbb") (b_ " ") 8)) (Some (tk KRune (b_ "=") (b_ "  ") 8)) (Some (VTok (tk KNum (b_ "3") (b_ " ") 8))) None (Some (tk KRune (b_ ";") [] 8))] (tk KRune (b_ "}") ([nl]) 9) None)] (Some (tk KRune [] [] 9)))
  = ((b_ "message Foo {" ++ [nl] ++ b_ "  optional string aaaa   = 1;" ++ [nl] ++ b_ "  optional string aaaaa  = 2;" ++ [nl] ++ b_ "  optional string aaaaaa = 3;" ++ [nl] ++ b_ "  optional aaaaa.bbbbbbbbb.cccccccc.ddddddd.eeeeeeeeeeeeeeeee.fffffffffffffffffffffffffffffffff very_long_type = 4;" ++ [nl] ++ b_ "  optional aaaaa.bbbbbbbbb.cccccccc.ddddddd.eeeeeeeeee.fffffffffffff                            long_type      = 5;" ++ [nl] ++ b_ "  optional string bbbbbbbb = 1;" ++ [nl] ++ b_ "  optional string bbbbb    = 2;" ++ [nl] ++ b_ "  optional string bbbbbbb  = 3;" ++ [nl] ++ b_ "}"), false, false).
Proof. vm_compute. reflexivity. Qed.

