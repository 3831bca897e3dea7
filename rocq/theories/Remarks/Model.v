(** Model of how the descriptor printer writes an element with its comments: pkg/format/protoprint/print.go:2511-2620
    (printBlockElement, printElement, includeCommentType, printLeadingComments, printTrailingComments) and 510-514
    (newLine), on top of the writer and of printComment (Print); and of the loops over the fields of a message,
    938-955, and over the options of a field or enum value, 1662-1726.

    What an element writes itself, with its indentation, is a text (PrintTree); simplified: it goes to the writer in one
    piece (C81 is about pieces). *)
From Coq Require Import Ascii String ZArith.
From Verif Require Import Base Strs.
From Verif.Print Require Import Model.
Open Scope list_scope.

(** protoreflect.SourceLocation: its comments *)
Record location := mkL { l_detached : list bytes; l_leading : bytes; l_trailing : bytes }.
(** The options of a Printer that are used here (print.go:48-160).  The first four: the kind of comments is not
    omitted (2559-2561). *)
Record printer := mkP {
  with_detached : bool; with_leading : bool; with_trailing : bool; with_tokens : bool;
  compact_comments : bool; compact_trailing : bool; compact_fields : bool;
  prefer_block : bool; separate_line : bool; unit_ : bytes }.
(** pkg/format/format.go:68-74 and print.go:42: CompactDefault has CompactFields and CompactTrailingComments *)
Definition default_printer : printer := mkP true true true true false true true false false (b_ "  ").

Definition put (w : writer) (s : bytes) : writer := fst (write w s).
Definition new_line (compact : bool) (w : writer) : writer := if compact then w else put w [nl].
(** a call of printComment; [None]: it panics *)
Definition comment (p : printer) (w : writer) (n : Z) (force : bool) (c : bytes) : option (writer * bool) :=
  match print_comment (prefer_block p) (unit_ p) c (w_newline w) (w_space w) n force with
  | Panics => None
  | Prints out e => Some (put w out, e)
  end.

(** 2567-2587 *)
Fixpoint detached (p : printer) (w : writer) (n : Z) (cs : list bytes) : option writer :=
  match cs with
  | [] => Some w
  | c :: r =>
      match comment p w n true c with
      | None => None
      | Some (w1, ends) =>
          detached p (if ends then new_line (compact_comments p) w1
                      else if (n <? 0)%Z then put w1 [sp]
                      else new_line (compact_comments p) (put w1 [nl])) n r
      end
  end.
(** 2563-2605; its result is not used *)
Definition leading (p : printer) (l : location) (w : writer) (n : Z) : option writer :=
  match (if with_detached p then detached p w n (l_detached l) else Some w) with
  | None => None
  | Some w1 =>
      if (with_leading p && negb (beq (l_leading l) []))%bool then
        match comment p w1 n true (l_leading l) with
        | None => None
        | Some (w2, ends) => Some (if ends then w2 else if (0 <=? n)%Z then put w2 [nl] else put w2 [sp])
        end
      else Some w1
  end.
(** 2607-2620 *)
Definition trailing (p : printer) (l : location) (w : writer) (n : Z) : option (writer * bool) :=
  if (with_trailing p && negb (beq (l_trailing l) []))%bool then
    match comment p w n (separate_line p) (l_trailing l) with
    | None => None
    | Some (w1, ends) =>
        Some (if (negb ends && (0 <=? n)%Z)%bool then put w1 [nl] else if (n <? 0)%Z then put w1 [sp] else w1, true)
    end
  else Some (w, false).
(** 2541-2544, 2525-2528 *)
Definition end_line (w : writer) (n : Z) : writer := if ((0 <=? n)%Z && negb (w_newline w))%bool then put w [nl] else w.

(** 2531-2545; [l]: no location is [None] *)
Definition print_element (p : printer) (is_descriptor : bool) (l : option location) (w : writer) (n : Z) (el : bytes) : option writer :=
  match (if is_descriptor || with_tokens p then l else None)%bool with
  | None => Some (end_line (put w el) n)
  | Some l =>
      match leading p l w n with
      | None => None
      | Some w1 =>
          match trailing p l (put w1 el) n with
          | None => None
          | Some (w2, _) => Some (end_line w2 n)
          end
      end
  end.
(** 2511-2529: the element writes [opening], has the trailing comment written with the indentation [n'], and writes [body] *)
Definition print_block (p : printer) (is_descriptor : bool) (l : option location) (w : writer) (n : Z) (opening : bytes) (n' : Z) (want : bool) (body : bytes) : option writer :=
  match (if is_descriptor || with_tokens p then l else None)%bool with
  | None => Some (end_line (put (put w opening) body) n)
  | Some l =>
      match leading p l w n with
      | None => None
      | Some w1 =>
          match trailing p l (put w1 opening) n' with
          | None => None
          | Some (w2, written) =>
              Some (end_line (put (if (written && want && negb (compact_trailing p))%bool then put w2 [nl] else w2) body) n)
          end
      end
  end.
(** the fields of a message, 938-955 and printField *)
Fixpoint print_fields (p : printer) (first : bool) (w : writer) (n : Z) (fs : list (location * bytes)) : option writer :=
  match fs with
  | [] => Some w
  | (l, el) :: r =>
      match print_element p true (Some l) (if first then w else new_line (compact_fields p) w) n el with
      | None => None
      | Some w1 => print_fields p false w1 n r
      end
  end.
Definition printed (p : printer) (n : Z) (fs : list (location * bytes)) : option bytes :=
  match print_fields p true new_writer n fs with Some w => Some (w_out w) | None => None end.
(** printOptions, 1714-1726, with what printOptionElementsShort has it write for each option, 1692-1707: [n] is the
    indentation for options on lines of their own ([expand]), and negative otherwise *)
Fixpoint print_options (p : printer) (expand : bool) (w : writer) (n : Z) (os : list (option location * bytes)) : option writer :=
  match os with
  | [] => Some w
  | (l, t) :: r =>
      match print_element p false l w n
              ((if expand then indent_text (unit_ p) n else []) ++ t ++
               (match r with [] => [] | _ => if expand then b_ "," ++ [nl] else b_ ", " end)) with
      | None => None
      | Some w1 => print_options p expand w1 n r
      end
  end.
Definition printed_options (p : printer) (expand : bool) (n : Z) (os : list (option location * bytes)) : option bytes :=
  match print_options p expand new_writer n os with Some w => Some (w_out w) | None => None end.
