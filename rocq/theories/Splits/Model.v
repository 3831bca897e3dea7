(** Model of what completion takes as typed in the type of a field and in the name of an extended message:
    pkg/lsp/completion.go:358-423 (GetCompletions, the case of ast.FieldNode) and 460-485 (ast.ExtendNode).  What is
    offered for it is Types/Model.v. *)
From Coq Require Import Ascii String ZArith.
From Verif Require Import Base Strs.
From Verif.Cel Require Model.
Open Scope list_scope.

(** [Panics]: a slice with bounds out of range.  [Nothing]: the request ends without a list.  [Asked]: the texts before
    and after the cursor for which types are offered, if any are, and whether keywords are offered *)
Inductive outcome := Panics | Nothing | Asked (types : option (bytes * bytes)) (keywords : bool).

(** s[i:] and s[:i] *)
Definition split_at (s : bytes) (i : Z) : option (bytes * bytes) :=
  if ((i <? 0) || (Z.of_nat (List.length s) <? i))%Z%bool then None else Some (firstn (Z.to_nat i) s, skipn (Z.to_nat i) s).

(** where the cursor is: at a token of the name of the field; at one of its type, [at_] bytes from its start; at none,
    while the field is complete and has a label, with the lines and columns of the cursor and of the end of the label and
    the line of the type; or at anything else *)
Inductive place :=
| InName
| InType (at_ : Z) (same_start : bool)               (** [same_start]: the label starts where the type does, 387 *)
| AtNone (line char label_line label_char type_line : N)
| Elsewhere.
(** 358-423.  [type]: AsIdentifier of the type, if there is one *)
Definition in_field (type : option bytes) (w : place) : outcome :=
  match type, w with
  | None, _ => Asked (Some ([], [])) false                                  (* 368 *)
  | Some _, InName => Nothing                                               (* 370-372 *)
  | Some t, InType i same =>                                                (* 373-394 *)
      let typed := if (i <=? Z.of_nat (List.length t))%Z then match split_at t i with Some x => Some (Some x) | None => None end else Some None in
      match typed with
      | None => Panics
      | Some x =>
          if same then Asked (Some ([], match x with Some (_, s) => s | None => [] end)) false
          else match x with Some x => Asked (Some x) true | None => Asked None true end
      end
  | Some _, AtNone l c ll lc tl => Asked (if ((ll =? l) && (lc <? c) && (l <? tl))%N%bool then Some ([], []) else None) false     (* 395-411 *)
  | Some _, Elsewhere => Asked None false
  end.
(** 460-485.  [extendee]: AsIdentifier of the message, if there is one; [at_]: the cursor is at a token of it, so many
    bytes from its start; [preceding]: the text of the line before the cursor.  Simplified: a statement without a message
    is incomplete *)
Definition in_extend (extendee : option bytes) (at_ : option Z) (preceding : bytes) : outcome :=
  match extendee with
  | None => if beq (Cel.Model.trim preceding) (b_ "extend") then Asked (Some ([], [])) false else Asked None false
  | Some t =>
      match at_ with
      | None => Asked None false
      | Some i => if (i <? 0)%Z then Asked None false else match split_at t i with Some x => Asked (Some x) false | None => Panics end
      end
  end.
