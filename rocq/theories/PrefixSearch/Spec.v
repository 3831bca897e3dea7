From Coq Require Import Ascii String.
From Verif Require Import Base Strs.
From Verif.PrefixSearch Require Import Model.
Open Scope list_scope.

(** [n] is the full name of a descriptor of a file with a package *)
Definition declared (fs : list file) (f : file) (n : bytes) : Prop :=
  In f fs /\ pkg f <> [] /\ In n (names f).

(** [n] starts with [p] *)
Definition starts (n p : bytes) : Prop := exists r, n = p ++ r.

Definition found (res : list (list bytes)) (n : bytes) : Prop := exists l, In l res /\ In n l.
