(** What the check should answer, in terms of the history of reports. *)
From Coq Require Import Ascii String.
From Verif Require Import Base Strs.
From Verif.Diagnostics Require Import Model.
From Verif.Gate Require Import Model.
Open Scope list_scope.

(** an error that makes the text unfit for a request *)
Inductive unfit (class_of : nat -> class) : bool -> diag -> Prop :=
| unfit_syntax strict d : class_of (what d) = ParseError -> unfit class_of strict d
| unfit_format d : class_of (what d) = Extended false -> unfit class_of true d.
(** reported for the file in the part of the history *)
Definition reported (p : nat) (d : diag) (h : list op) : Prop := exists t, In (Add p d t) h.
Definition cleared (p : nat) (h : list op) : Prop := exists t, In (Clear p t) h.
(** removed when another file that refers to this place was cleared *)
Definition withdrawn (d : diag) (h : list op) : Prop := exists t, In (DeleteRelated (drange d) t) h.
