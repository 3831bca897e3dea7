(** Model of the positions the server reports, pkg/lsp/range.go (line numbers without a file), and of their
    use for reading what is typed, pkg/lsp/completion.go:374-384 and 1517-1535.

    A text is a list of bytes.  The external parser gives a place by its line and its column, both from 1
    (ast.SourcePos); how many columns it counts for what is before the place on its line is a parameter,
    [cols].  The contract used elsewhere is that it counts bytes, [cols] = [length].  The mapper's conversion
    of protocol positions to offsets is that of Documents. *)
From Coq Require Import Ascii NArith.
From Verif Require Import Base.
From Verif.Documents Require Import Model.
Open Scope list_scope.

(** ast.SourcePos; line 0 and column 0 if it is unknown *)
Definition source_pos := (N * N)%type.
Definition position := (N * N)%type.
Definition range := (position * position)%type.

(** Go's uint32(x - 1) for an int x and uint32 addition *)
Definition pow32 : N := 4294967296.
Definition pred32 (x : N) : N := ((x + 4294967295) mod pow32)%N.
Definition add32 (x : N) (d : Z) : N := Z.to_N ((Z.of_N x + d) mod Z.of_N pow32).

(** 17-22 toPosition, 24-29 positionsToRange (and 13-15 toRange), 31-36 pointToRange *)
Definition to_position (p : source_pos) : position := (pred32 (fst p), pred32 (snd p)).
Definition positions_to_range (a b : source_pos) : range := (to_position a, to_position b).
Definition point_to_range (a : source_pos) : range := (to_position a, to_position a).
(** 38-49 adjustColumns *)
Definition adjust_columns (r : range) (left right : Z) : range :=
  let '((l1, c1), (l2, c2)) := r in ((l1, add32 c1 left), (l2, add32 c2 right)).

(** the bytes after the last line feed *)
Fixpoint last_line (t : text) : text :=
  match t with
  | [] => []
  | x :: t' => if existsb (Ascii.eqb newline) t' then last_line t' else if Ascii.eqb x newline then t' else t
  end.

Section Columns.
Variable cols : text -> nat.

(** parser: the place of byte k *)
Definition place (t : text) (k : nat) : source_pos :=
  let before := firstn k t in
  (N.of_nat (S (List.length (filter (Ascii.eqb newline) before))), N.of_nat (S (cols (last_line before)))).

(** the range of a node that starts at byte a and ends before byte b *)
Definition node_range (t : text) (a b : nat) : range := positions_to_range (place t a) (place t b).

(** mapper.PositionOffset and RangeOffsets (Documents) *)
Definition offset (t : text) (p : position) : option nat := poff t (N.to_nat (fst p)) (N.to_nat (snd p)).

(** content[i:j] *)
Definition slice (t : text) (i j : nat) : text := firstn (j - i) (skipn i t).

(** completion.go:1517-1535 findPartialNames, for a node with a place; [None]: an error *)
Definition partial_names (t : text) (a b pos : nat) : option (text * text) :=
  let r := node_range t a b in
  match offset t (fst r), offset t (snd r) with
  | Some s, Some e =>
      Some (if s <? pos then slice t s (Nat.min pos e) else [],
            if pos <? e then slice t (Nat.max s pos) e else [])
  | _, _ => None
  end.

(** completion.go:374-384: a field's type is cut at the cursor; [type] is its text, which starts at byte a *)
Inductive cut := Cut (typed rest : text) | CutError | CutPanics.
Definition cut_type (t type : text) (a pos : nat) : cut :=
  match offset t (to_position (place t a)) with
  | None => CutError
  | Some s =>
      if pos <? s then CutPanics                          (* a negative index, for which the test of 381 holds *)
      else if pos - s <=? List.length type then Cut (firstn (pos - s) type) (skipn (pos - s) type)
      else Cut type []
  end.
End Columns.
