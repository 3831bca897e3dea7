(** * What the location of an option should be *)
From Coq Require Import List Arith ZArith.
Import ListNotations.
Open Scope list_scope.

(** The places of a descriptor that have options, by the path that leads to
    the options message.  Written from descriptor.proto, not from the model:
    a file's options are field 8, its messages field 4, and so on. *)
Inductive in_message : list Z -> Prop :=
| im_here : in_message [7%Z]
| im_field n : in_message [2%Z; n; 8%Z]
| im_extension n : in_message [6%Z; n; 8%Z]
| im_oneof n : in_message [8%Z; n; 2%Z]
| im_range n : in_message [5%Z; n; 3%Z]
| im_enum n : in_message [4%Z; n; 3%Z]
| im_value n v : in_message [4%Z; n; 2%Z; v; 3%Z]
| im_nested n p : in_message p -> in_message (3%Z :: n :: p).

Inductive options_path : list Z -> Prop :=
| op_file : options_path [8%Z]
| op_message n p : in_message p -> options_path (4%Z :: n :: p)
| op_enum n : options_path [5%Z; n; 3%Z]
| op_value n v : options_path [5%Z; n; 2%Z; v; 3%Z]
| op_extension n : options_path [7%Z; n; 8%Z]
| op_service n : options_path [6%Z; n; 3%Z]
| op_method n v : options_path [6%Z; n; 2%Z; v; 4%Z].

Definition under (p q : list Z) : Prop := exists r, q = p ++ r.

(** the first of the locations for which the property holds *)
Definition first_of {A} (P : list Z -> Prop) (locs : list (list Z * A)) (r : option A) : Prop :=
  match r with
  | None => forall q a, In (q, a) locs -> ~ P q
  | Some a => exists before q after,
      locs = before ++ (q, a) :: after /\ P q /\
      forall q' a', In (q', a') before -> ~ P q'
  end.
