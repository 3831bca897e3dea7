(** The name of an option as it is written, and what it leads to. *)
From Coq Require Import Ascii String.
From Verif Require Import Base Strs.
From Verif.Offers Require Import Model Spec.
From Verif.Dots Require Import Model.
Open Scope list_scope.

(** one of the names between the dots: of an extension or not, with the type of its field if that is a message *)
Record piece := mkPiece { ext : bool; word : bytes; type : option message }.
Definition shown (p : piece) : bytes := if ext p then b_ "(" ++ word p ++ b_ ")" else word p.
Definition dotted (ps : list piece) : bytes := List.concat (map (fun p => shown p ++ b_ ".") ps).
(** the tree of such a name, from a column on *)
Definition node_at (c : nat) (p : piece) : part := Ref (if ext p then paren_ref c (word p) else plain_ref c (word p)) (word p) (PField (type p)).
Fixpoint tree (c : nat) (ps : list piece) : list part :=
  match ps with [] => [] | p :: r => node_at c p :: Dot :: tree (c + List.length (shown p) + 1) r end.
(** a field of the message that starts as typed *)
Definition member (m : message) (typed n : bytes) : Prop := exists f r, In f (fields m) /\ fname f = n /\ n = typed ++ r.
