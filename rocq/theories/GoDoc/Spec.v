(** Lines of Go code. *)
From Coq Require Import Ascii String.
From Verif Require Import Base Strs.
From Verif.GoDoc Require Import Model.
Open Scope list_scope.

(** a text that is made of these lines *)
Definition made_of (ls : list bytes) (text : bytes) : Prop := Forall (fun l => ~ In nl l) ls /\ text = List.concat (map (fun l => l ++ [nl]) ls).
Definition comment_line (l : bytes) : Prop := exists r, l = b_ "//" ++ r.
Definition blank_line (l : bytes) : Prop := l = [].
(** the Go command takes such a line as an instruction, go help buildconstraint and go help generate *)
Definition directive (l : bytes) : Prop := exists r, l = b_ "//go:" ++ r.
(** the text of a comment, whose last line may end or not *)
Definition says (ls : list bytes) (comment : bytes) : Prop :=
  exists rs, ls = map (fun r => b_ "//" ++ r) rs /\ (made_of rs comment \/ made_of rs (comment ++ [nl])).
