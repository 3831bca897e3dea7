(** What accepting a fix does to the text, and how names are found. *)
From Coq Require Import Ascii String.
From Verif Require Import Base Strs.
From Verif.Fixes Require Import Model.
Open Scope list_scope.

(** the offset of a position; beyond the end of a line or of the text, that end (LSP 3.17, Position) *)
Fixpoint offset (t : bytes) (l c : nat) : nat :=
  match t with
  | [] => 0
  | x :: r =>
      match l with
      | S l' => S (offset r (if Ascii.eqb x nl then l' else l) c)
      | 0 => match c with 0 => 0 | S c' => if Ascii.eqb x nl then 0 else S (offset r 0 c') end
      end
  end.
Definition off (t : bytes) (p : pos) : nat := offset t (fst p) (snd p).
Definition accept (t : bytes) (e : edit) : bytes := firstn (off t (e_from e)) t ++ e_text e ++ skipn (off t (e_to e)) t.
(** the place just after a text *)
Fixpoint place (t : bytes) : pos :=
  match t with
  | [] => (0, 0)
  | x :: r => let '(l, c) := place r in if Ascii.eqb x nl then (S l, c) else (l, if Nat.eqb l 0 then S c else c)
  end.
(** the compiler's position there *)
Definition spos_of (t : bytes) : spos := mkSpos (S (fst (place t))) (S (snd (place t))).
Definition one_line (t : bytes) : Prop := ~ In nl t.
Definition blank (t : bytes) : Prop := forall c, In c t -> c = " "%char.
(** a text that ends where a line begins *)
Definition whole_lines (t : bytes) : Prop := t = [] \/ exists r, t = r ++ [nl].
Definition visible (t : bytes) : bytes := filter (fun c => negb (Ascii.eqb c " " || Ascii.eqb c nl)) t.
