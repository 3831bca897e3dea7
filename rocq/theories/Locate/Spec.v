(** Which declaration a name is the name of, and which type a type name stands for. *)
From Coq Require Import Ascii String.
From Verif Require Import Base Strs.
From Verif.Locate Require Import Model.
Open Scope list_scope.

(** [names p es c d]: from a scope p with the declarations es, the nodes c lead to the name of the
    declaration d. *)
Inductive names (p : way) : list elem -> list node -> way -> Prop :=
| nm_field es n : In (EField n) es -> names p es [NField n; NIdent n AsName] (p ++ [(KField, n)])
| nm_map es n v : In (EMap n v) es -> names p es [NMap n v; NIdent n AsName] (p ++ [(KField, n)])
| nm_oneof es n b : In (EOneof n b) es -> names p es [NOneof n; NIdent n AsName] (p ++ [(KOneof, n)])
| nm_oneof_field es n b f : In (EOneof n b) es -> In (OField f) b -> names p es [NOneof n; NField f; NIdent f AsName] (p ++ [(KField, f)])
| nm_oneof_group es n b g c : In (EOneof n b) es -> In (OGroup g c) b -> names p es [NOneof n; NGroup g; NIdent g AsName] (p ++ [(KMsg, g)])
| nm_in_oneof es n b g c l d : In (EOneof n b) es -> In (OGroup g c) b -> names (p ++ [(KMsg, g)]) c l d -> names p es (NOneof n :: NGroup g :: l) d
| nm_group es n b : In (EGroup n b) es -> names p es [NGroup n; NIdent n AsName] (p ++ [(KMsg, n)])
| nm_in_group es n b l d : In (EGroup n b) es -> names (p ++ [(KMsg, n)]) b l d -> names p es (NGroup n :: l) d
| nm_msg es n b : In (EMsg n b) es -> names p es [NMsg n; NIdent n AsName] (p ++ [(KMsg, n)])
| nm_in_msg es n b l d : In (EMsg n b) es -> names (p ++ [(KMsg, n)]) b l d -> names p es (NMsg n :: l) d
| nm_enum es n vs : In (EEnum n vs) es -> names p es [NEnum n; NIdent n AsName] (p ++ [(KEnum, n)])
| nm_value es n vs v : In (EEnum n vs) es -> In v vs -> names p es [NEnum n; NVal v; NIdent v AsName] ((p ++ [(KEnum, n)]) ++ [(KVal, v)])
| nm_ext es x b f : In (EExtend x b) es -> In (OField f) b -> names p es [NExtend x; NField f; NIdent f AsName] (p ++ [(KExt, f)])
| nm_ext_group es x b g c : In (EExtend x b) es -> In (OGroup g c) b -> names p es [NExtend x; NGroup g; NIdent g AsName] (p ++ [(KMsg, g)])
| nm_in_ext es x b g c l d : In (EExtend x b) es -> In (OGroup g c) b -> names (p ++ [(KMsg, g)]) c l d -> names p es (NExtend x :: NGroup g :: l) d.
Definition as_elem (t : top) : list elem := match t with TMsg n b => [EMsg n b] | TEnum n vs => [EEnum n vs] | TExtend x b => [EExtend x b] | TSvc _ _ => [] end.
Inductive names_in (f : list top) : list node -> way -> Prop :=
| ni_elem l d : names [] (flat_map as_elem f) l d -> names_in f (NFile :: l) d
| ni_svc n ms : In (TSvc n ms) f -> names_in f [NFile; NSvc n; NIdent n AsName] [(KSvc, n)]
| ni_rpc n ms m : In (TSvc n ms) f -> In m ms -> names_in f [NFile; NSvc n; NRpc m; NIdent m AsName] [(KSvc, n); (KMethod, m)].

(** The path of a type name: that of the name of the field or method, with the type in place of the name.  A
    type is written as one word or several (semantic.go:517-530); in a map and in a method the path ends at
    the node around it (semantic.go:655-665). *)
Inductive type_path : list node -> list node -> Prop :=
| tp_word l n t : type_path (l ++ [NField n; NIdent n AsName]) (l ++ [NField n; NIdent t AsType])
| tp_words l n t : type_path (l ++ [NField n; NIdent n AsName]) (l ++ [NField n; NCompound t])
| tp_map l n v : type_path (l ++ [NMap n v; NIdent n AsName]) (l ++ [NMap n v; NMapType]).
Inductive rpc_path (input : bool) : list node -> list node -> Prop :=
| rp l m : rpc_path input (l ++ [NRpc m; NIdent m AsName]) (l ++ [NRpc m; NRpcType input]).

(** ** Paths that are found
    messages and enums are declared in messages or in the file, groups in messages, and the value type of a
    map is not spelled like a message of the file, unless the map is in a message in a message *)
Definition file_msg (f : list top) (v : bytes) : Prop := (exists b, In (TMsg v b) f) \/ exists x b c, In (TExtend x b) f /\ In (OGroup v c) b.
Definition msg_or_file (x : node) : Prop := match x with NMsg _ | NFile => True | _ => False end.
Definition at_ok (f : list top) (up above x : node) : Prop :=
  match x with
  | NMsg _ | NEnum _ => msg_or_file above
  | NGroup _ => exists n, above = NMsg n
  | NMap _ v => ~ file_msg f v \/ exists n, up = NMsg n
  | _ => True
  end.
Fixpoint plain_from (f : list top) (up above : node) (l : list node) : Prop :=
  match l with [] => True | x :: r => at_ok f up above x /\ plain_from f above x r end.
Definition plain (f : list top) (above : node) (l : list node) : Prop := plain_from f NFile above l.
