(** What a message says, without its colours. *)
From Coq Require Import Ascii String NArith DecimalString.
From Verif Require Import Base Strs.
From Verif.Documents Require Import Model Spec.
From Verif.Vet Require Import Model.
Open Scope list_scope.

(** a terminal shows nothing for an escape character and what follows it up to the next "m" *)
Fixpoint seen_ (within : bool) (s : bytes) : bytes :=
  match s with
  | [] => []
  | c :: r => if within then seen_ (negb (Ascii.eqb c "m")) r
              else if Ascii.eqb c "027" then seen_ true r else c :: seen_ false r
  end.
Definition seen (s : bytes) : bytes := seen_ false s.
Definition clean (s : bytes) : Prop := ~ In "027"%char s.

Definition number (s : bytes) (n : N) : Prop := exists u, s = b_ (NilEmpty.string_of_uint u) /\ N.of_uint u = n.
Definition word (sev : nat) : bytes :=
  match sev with 1 => b_ "error" | 2 => b_ "warning" | 3 => b_ "info" | 4 => b_ "hint" | _ => [] end.
(** [line] is line [l] of the text, from 0, and a line feed follows *)
Definition line_of (t : text) (l : N) (line : text) : Prop :=
  exists before after, t = before ++ line ++ newline :: after /\ whole_lines before (N.to_nat l) /\ ~ In newline line.

Definition one_line (d : diagnostic) : Prop := fst (fst (d_range d)) = fst (snd (d_range d)).
(** what a user wants to be told of a problem: what it is, where it is, and the line it is in, unless it is minor *)
Definition minor (d : diagnostic) : Prop := 2 < d_sev d \/ d_unnecessary d = true.
Definition says (shown : bytes) (t : text) (d : diagnostic) (m : bytes) : Prop :=
  exists l digits head, l = fst (fst (d_range d)) /\ number digits (l + 1) /\
    head = word (d_sev d) ++ b_ ": " ++ shown ++ b_ ":" ++ digits ++ b_ " " ++ d_msg d /\
    (minor d /\ seen m = head \/ ~ minor d /\ exists line, line_of t l line /\ seen m = head ++ newline :: "009"%char :: line).

(** problems as the compiler finds them: they have a place in the text *)
Definition placed (t : text) (d : diagnostic) : Prop :=
  exists line, line_of t (fst (fst (d_range d))) line /\ (fst (fst (d_range d)) < 4294967295)%N.
Definition tame (shown : bytes) (t : text) (d : diagnostic) : Prop := clean shown /\ clean t /\ clean (d_msg d).
(** texts whose lines can be numbered *)
Definition roomy (t : text) : Prop := (N.of_nat (List.length t) < 4294967294)%N.

(** the codes of a terminal: faint text, and red, yellow, green and blue for error, warning, information and hint *)
Definition with_code (code : string) (s : bytes) : bytes := "027"%char :: b_ "[" ++ b_ code ++ b_ "m" ++ s ++ "027"%char :: b_ "[0m".
Definition faint (s : bytes) : bytes := with_code "2" s.
Definition marked (sev : nat) (s : bytes) : bytes :=
  match sev with 1 => with_code "31" s | 2 => with_code "33" s | 3 => with_code "32" s | 4 => with_code "34" s | _ => s ++ "027"%char :: b_ "[0m" end.
