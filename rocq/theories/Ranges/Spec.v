(** What a range of the protocol selects: Documents.Spec says which byte a line and a UTF-16 column denote. *)
From Coq Require Import Ascii NArith.
From Verif Require Import Base.
From Verif.Print Require Import Model.
From Verif.Documents Require Import Model Spec.
Open Scope list_scope.

Definition denotes (t : text) (p : N * N) (k : nat) : Prop := position t (N.to_nat (fst p)) (N.to_nat (snd p)) k.
Definition selects (t : text) (r : (N * N) * (N * N)) (a b : nat) : Prop := denotes t (fst r) a /\ denotes t (snd r) b.
Definition ascii_only (s : text) : Prop := Forall (fun c => (code c < 128)%N) s.
(** byte k comes after the bytes [line] of its line *)
Definition on_line (t : text) (k : nat) (line : text) : Prop :=
  exists before after l, t = before ++ line ++ after /\ k = List.length (before ++ line) /\ whole_lines before l /\ ~ In newline line.
(** texts whose lines and columns fit 32 bits *)
Definition fits (t : text) : Prop := (N.of_nat (List.length t) < 4294967295)%N.
