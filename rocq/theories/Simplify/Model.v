(** Simplifying repeated options (refactor.go:256-430, 939-1129): collecting the
    values given to one repeated field of an extension option into one array.

    Simplified: comments, commas and names are left out; a scope holds at most
    one declaration 'option (ext) = {...}' (protobuf rejects a second one), and
    message literals nested in it do not mention the field. *)
From Verif Require Import Base.

(** value of the field: an array literal or a single value *)
Inductive val := Arr (vs : list nat) | One (v : nat).
(** element of the message literal of 'option (ext) = {...}' *)
Inductive elem := EField (v : val) | EOther (n : nat).
(** other declarations of the scope: 'option (ext).field = ...', or anything else *)
Inductive item := IRef (v : val) | IOther (n : nat).
(** the scope's declarations: those before the container, the container, those after it *)
Record body := mkBody { pre : list item; cont : option (list elem); post : list item }.

Definition val_list (v : val) : list nat := match v with Arr vs => vs | One v => [v] end.

Definition refs_of (is : list item) : list val := flat_map (fun i => match i with IRef v => [v] | _ => [] end) is.
Definition fields_of (es : list elem) : list val := flat_map (fun e => match e with EField v => [v] | _ => [] end) es.

(** refactor.go:1000-1006: the first array among the fields of the container *)
Fixpoint first_array (vs : list val) : option (list nat) :=
  match vs with
  | [] => None
  | Arr a :: _ => Some a
  | One _ :: r => first_array r
  end.
(** refactor.go:1043-1073: values moved into the array: those of every field but the array itself *)
Fixpoint moved_within (vs : list val) (found : bool) : list nat :=
  match vs with
  | [] => []
  | Arr a :: r => if found then a ++ moved_within r true else moved_within r true
  | One v :: r => v :: moved_within r found
  end.
(** refactor.go:1071-1076: the container with the array extended and the other fields removed *)
Fixpoint update_container (es : list elem) (new : list nat) (found : bool) : list elem :=
  match es with
  | [] => []
  | EField (Arr _) :: r => if found then update_container r new true else EField (Arr new) :: update_container r new true
  | EField (One _) :: r => update_container r new found
  | EOther n :: r => EOther n :: update_container r new found
  end.
Definition drop_refs (is : list item) : list item := filter (fun i => match i with IRef _ => false | _ => true end) is.

Inductive result :=
| Unchanged                (* no edits, refactor.go:945-947 *)
| Panic                    (* slices.Replace at index -1 *)
| Done (b : body).

(** replaceWithinParent only knows messages and files (refactor.go:956-973);
    in other scopes (enums, services, ...) it does nothing. *)
Inductive scope := MessageOrFile | OtherScope.

(** calcSimplifyRepeatedOptionsEdits, refactor.go:939-1129 *)
Definition simplify (s : scope) (b : body) : result :=
  let outside := refs_of (pre b) ++ refs_of (post b) in
  let outside_vals := flat_map val_list outside in
  match cont b with
  | None =>
      match outside with
      | [] => Unchanged
      | _ => match s with
             | MessageOrFile => Panic (* the first option was removed at 1103-1105, then is looked up at 1115 *)
             | OtherScope => Done b (* neither removed nor replaced *)
             end
      end
  | Some es =>
      let within := fields_of es in
      match refs_of (pre b), within, outside with
      | [], [], [] => Unchanged
      | [], _ :: _, _ =>                 (* refs[0] is in the container *)
          match first_array within with
          | Some a =>
              let es' := update_container es (a ++ moved_within within false ++ outside_vals) false in
              match s with
              | MessageOrFile => Done (mkBody (drop_refs (pre b)) (Some es') (drop_refs (post b)))
              | OtherScope => Done (mkBody (pre b) (Some es') (post b))
              end
          | None =>
              match s with
              | MessageOrFile =>
                  (* 1008-1037: a new option takes the place of the container *)
                  Done (mkBody (drop_refs (pre b)) (Some [EField (Arr (flat_map val_list within ++ outside_vals))]) (drop_refs (post b)))
              | OtherScope =>
                  (* removed from the container, the new option is not inserted *)
                  Done (mkBody (pre b) (Some (update_container es [] false)) (post b))
              end
          end
      | _, _, _ =>                        (* refs[0] is outside: removed at 1103-1105, then looked up at 1115 *)
          match s with
          | MessageOrFile => Panic
          | OtherScope =>
              match first_array within with
              | Some a => Done (mkBody (pre b) (Some (update_container es (a ++ moved_within within false ++ outside_vals) false)) (post b))
              | None => Done (mkBody (pre b) (Some (update_container es [] false)) (post b))
              end
          end
      end
  end.
