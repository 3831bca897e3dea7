(** Names of options, and what can be set. *)
From Coq Require Import Ascii String ZArith.
From Verif Require Import Base Strs.
From Verif.Raw Require Import Model.
Open Scope list_scope.

(** parts as the grammar has them: an extension in parentheses, which its name does not contain, or an identifier *)
Definition proper (p : part) : Prop :=
  if extension p then ~ In ")"%char (part_name p) else part_name p <> [] /\ ~ In "."%char (part_name p) /\ ~ In "("%char (part_name p).
(** the values of a field, in order; those of enums by name *)
Inductive shows (enum_name : Z -> option bytes) : value -> bytes -> Prop :=
| sh_enum n t : enum_name n = Some t -> shows enum_name (VEnum n) t
| sh_other t : shows enum_name (VOther t) t.
Definition named (enum_name : Z -> option bytes) (v : value) : Prop := forall n, v = VEnum n -> enum_name n <> None.
(** what an option that was not interpreted is set to *)
Inductive setting := SIdentifier (s : bytes) | SText (s : bytes) | SNumber (s : bytes) | SAggregate (s : bytes).
Inductive set_to (u : raw) : setting -> Prop :=
| st_identifier s : identifier u = Some s -> set_to u (SIdentifier s)
| st_text s : text u = Some s -> set_to u (SText s)
| st_double s : double u = Some s -> set_to u (SNumber s)
| st_positive s : positive u = Some s -> set_to u (SNumber s)
| st_negative s : negative u = Some s -> set_to u (SNumber s)
| st_aggregate s : aggregate u = Some s -> set_to u (SAggregate s).
Definition written (quoted : bytes -> bytes) (x : setting) : bytes :=
  match x with SIdentifier s | SNumber s => s | SText s => quoted s | SAggregate s => b_ "{ " ++ s ++ b_ " }" end.
