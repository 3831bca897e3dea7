(** Model of completion at the dots of an option's name, and in the types of fields and of
    extensions, pkg/lsp/completion.go (line numbers without a file).

    A line of text is a list of ASCII characters, so that a column is an offset (C61 is about other characters).  What is
    offered for a message and a typed name, deepCompleteOptionNames, is Offers.Model.complete_names. *)
From Coq Require Import Ascii String.
From Verif Require Import Base Strs.
From Verif.Offers Require Import Model.
Import ListNotations.
Open Scope list_scope.

(** ** Dots: 295-358 *)
(** a part of an OptionNameNode: a reference with its name, or a dot *)
Inductive part := Ref (r : ref) (name : bytes) | Dot.
(** the index of the last part that is a reference *)
Fixpoint last_ref (ps : list part) (n : nat) : option nat :=
  match ps with
  | [] => None
  | p :: r => match last_ref r (S n) with Some m => Some m | None => match p with Ref _ _ => Some n | Dot => None end end
  end.
(** where the message whose fields are offered comes from: the options of the element, or the type of the field that the part of
    the given index denotes (FindFieldDescriptorByFieldReferenceNode); nothing is offered otherwise *)
Inductive origin := OfOptions | OfPart (i : nat).
(** [k]: the part whose token is at the cursor; [before]: the cursor is at its start.  The result: where the message comes from,
    the typed name, and the reference whose brackets are looked at *)
Definition at_part (ps : list part) (k : nat) (before : bool) : option origin * bytes * option ref :=
  match nth_error ps k with
  | None => (None, [], None)
  | Some p =>
      let '(i, partial) :=
        match p, k with
        | Dot, 0 => (Some 0, [])
        | Dot, S k' =>
            if before then (if k <? 3 then None else Some (k - 3), match nth_error ps k' with Some (Ref _ n) => n | _ => [] end)
            else (Some (S k), [])
        | Ref _ _, 0 => (None, [])
        | Ref _ _, S k' => (Some k', [])
        end in
      match i with
      | None => (Some OfOptions, partial, match ps with Ref r _ :: _ => Some r | _ => None end)
      | Some i =>
          match nth_error ps i with
          | None => (option_map OfPart (last_ref ps 0), partial, None)
          | Some (Ref r _) => (Some (OfPart i), partial, Some r)
          | Some Dot => (None, partial, None)
          end
      end
  end.
(** [options]: the message of the options; [types]: what a part denotes; 353-357 *)
Definition at_dot (exts : list bytes) (pkg : bytes) (options : message) (types : nat -> prev) (ps : list part) (k : nat) (before : bool) (pos : nat) : list item :=
  let '(o, partial, r) := at_part ps k before in
  complete_names exts pkg [] (match o with None => POther | Some OfOptions => PMsg options | Some (OfPart i) => types i end) partial [] r pos.

(** ** Types of fields, 377-398, and extendees, 453-476 *)
(** [ident]: AsIdentifier, the name without blanks and comments; [start]: where it starts.  The result: what is typed and
    the rest.  [None]: types are not completed *)
Definition in_field_type (ident : bytes) (start pos : nat) : option (bytes * bytes) :=
  if pos - start <=? List.length ident then Some (firstn (pos - start) ident, skipn (pos - start) ident) else None.
(** [None] is a panic (slice bounds out of range); a cursor before the name is not modelled *)
Definition in_extendee (ident : bytes) (start pos : nat) : option (bytes * bytes) :=
  if List.length ident <? pos - start then None else Some (firstn (pos - start) ident, skipn (pos - start) ident).
(** 1087-1097: the range that the label of a type replaces *)
Definition type_edit (typed : bytes * bytes) (pos : nat) (label : bytes) : edit :=
  mkEdit (pos - List.length (fst typed)) (pos + List.length (snd typed)) label.
