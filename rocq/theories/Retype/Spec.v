(** What a type written in a file means.  Independent of Retype/Model.v except for its data. *)
From Coq Require Import Ascii String.
From Verif Require Import Base Strs.
From Verif.Retype Require Import Model.
Import ListNotations.
Open Scope list_scope.

Definition path := list bytes.
(** [declared]: the full names of all packages and types, as lists of parts. *)
Definition is_declared (declared : list path) (p : path) : bool :=
  existsb (fun d => if list_eq_dec (list_eq_dec ascii_dec) d p then true else false) declared.
Definition closed (declared : list path) : Prop := forall p x, p <> [] -> In (p ++ [x]) declared -> In p declared.

(** The scope whose declaration of the first part of a name decides: the innermost of those around the place ([rev]ersed). *)
Fixpoint deciding (declared : list path) (rplace : list bytes) (first : bytes) : option path :=
  if is_declared declared (rev rplace ++ [first]) then Some (rev rplace)
  else match rplace with [] => None | _ :: outer => deciding declared outer first end.

(** Names, as bytes: with a dot in front they are full names; else they are looked up from the place outwards. *)
Definition scalars : list bytes := map b_
  ["double"; "float"; "int32"; "int64"; "uint32"; "uint64"; "sint32"; "sint64"; "fixed32"; "fixed64"; "sfixed32"; "sfixed64";
   "bool"; "string"; "bytes"]%string.
Inductive meaning := Scalar (w : bytes) | Named (p : path).
Definition means (declared : list path) (place : path) (w : bytes) : option meaning :=
  if existsb (beq w) scalars then Some (Scalar w)
  else match w with
  | "."%char :: r => let p := split_on "."%char r in if is_declared declared p then Some (Named p) else None
  | _ => match split_on "."%char w with
         | [] => None
         | first :: _ =>
             match deciding declared (rev place) first with
             | Some s => let p := s ++ split_on "."%char w in if is_declared declared p then Some (Named p) else None
             | None => None
             end
         end
  end.

(** A scope inside [s], on the way down [x], declares the name too. *)
Definition hidden (declared : list path) (s x : path) (first : bytes) : Prop :=
  exists y z, x = y ++ z /\ y <> [] /\ In (s ++ y ++ [first]) declared.

(** What a field is to those who use the message: how many values there are, and of which type. *)
Inductive count := AtMostOne | ExactlyOne | AnyNumber.
Inductive shape := Plain (c : count) (m : meaning) | MapOf (entry : path).
Definition count_of (l : label) : count := match l with LRepeated => AnyNumber | LRequired => ExactlyOne | _ => AtMostOne end.
Definition kind_meaning (k : kind) : meaning :=
  match k with KScalar w => Scalar w | KMessage full | KGroup full | KEnum full => Named (split_on "."%char full) end.
(** of a field of a compiled message *)
Definition shape_of (f : field) : shape :=
  if f_map f then match kind_meaning (f_kind f) with Named p => MapOf p | m => Plain AnyNumber m end
  else Plain (count_of (f_label f)) (kind_meaning (f_kind f)).
(** of a field that is written with a label and a type *)
Definition written_shape (declared : list path) (place : path) (w : label * bytes) : option shape :=
  match means declared place (snd w) with Some m => Some (Plain (count_of (fst w)) m) | None => None end.
