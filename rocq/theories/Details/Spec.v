(** The type of a field as it is written in the language. *)
From Coq Require Import Ascii String.
From Verif Require Import Base Strs.
From Verif.Details Require Import Model.
Open Scope list_scope.

Fixpoint type_text (k : kind) : bytes :=
  match k with
  | KScalar s => s
  | KEnum n | KGroup n | KMessage n => n
  | KMap _ _ key _ v => b_ "map<" ++ key ++ b_ ", " ++ type_text v ++ b_ ">"
  end.
(** with the label, which maps do not have *)
Definition declared_type (f : field) : bytes :=
  match f_kind f with
  | KMap _ _ _ _ _ => type_text (f_kind f)
  | k => if f_repeated f then b_ "repeated " ++ type_text k else type_text k
  end.
(** a field of the descriptor of a compiled file: maps are repeated, their entries have two fields that are named after
    the entry, and values are no maps *)
Definition compiled (f : field) : Prop :=
  match f_kind f with
  | KMap e k _ v val => f_repeated f = true /\ f_extension f = false /\ k = e ++ b_ ".key" /\ v = e ++ b_ ".value" /\ (forall a b c d x, val <> KMap a b c d x)
  | _ => True
  end.
(** the kinds whose types have names or keywords that are shown *)
Inductive shown_kind : kind -> Prop :=
| sk_scalar s : shown_kind (KScalar s)
| sk_message n : shown_kind (KMessage n).
(** the keyword of a scalar, and else the kind of declaration *)
Definition kind_word (k : kind) : bytes :=
  match k with
  | KScalar s => s
  | KEnum _ => b_ "enum"
  | KGroup _ => b_ "group"
  | _ => b_ "message"
  end.
