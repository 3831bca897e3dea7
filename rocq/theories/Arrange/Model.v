(** Model of the order in which the descriptor printer writes elements when there is source information, as for compiled
    files: pkg/format/protoprint/print.go:2358-2465 (elementSrcOrder.Less), 2473-2479 (customSortOrder.Less) with
    pkg/format/sort.go:14-48 (SortElements); and of the extend statements that extensions are attributed to, 677-709
    (findExtSi, isSpanWithin) and 717-749 (computeExtensions). *)
From Coq Require Import Ascii String ZArith.
From Verif Require Import Base Strs.
From Verif.PrintTree Require Import Model.
Open Scope list_scope.

(** protoreflect.SourceLocation: its path and where it starts (comments: Remarks) *)
Record place := mkPlace { p_path : list Z; p_line : nat }.
(** an element with what sort.go looks at (protoprint/sort.go:36-84), as in PrintTree, its index, and the location that
    the source information has for its path *)
Record element := mkE { e_kind : atag; e_index : nat; e_name : bytes; e_num : Z; e_custom : bool; e_place : option place }.
(** what the elements are members of; [OOther]: a field, oneof, enum value, method or extension range *)
Inductive owner := OFile | OMessage | OEnum | OService | OOther.

(** 2451-2464 *)
Fixpoint path_less (p q : list Z) : bool :=
  match q, p with
  | [], _ => false
  | _ :: _, [] => true
  | y :: q', x :: p' => if (x <? y)%Z then true else if (y <? x)%Z then false else path_less p' q'
  end.
(** 2396-2446: an element without a location, of kind [i], comes before one of kind [j] with a location *)
Definition unknown_first (o : owner) (i j : atag) : bool :=
  match o, i with
  | OFile, APackage => true
  | OFile, AImport => match j with APackage => false | _ => true end
  | OFile, AOption => match j with APackage | AImport => false | _ => true end
  | OMessage, AOption | OEnum, AOption | OService, AOption => true
  | _, _ => false
  end.
(** 2358-2465 *)
Definition src_less (o : owner) (a b : element) : bool :=
  match e_place a, e_place b with
  | Some p, Some q => path_less (p_path p) (p_path q)
  | Some _, None => negb (unknown_first o (e_kind b) (e_kind a))
  | None, Some _ => unknown_first o (e_kind a) (e_kind b)
  | None, None => false
  end.
(** sort.go:14-48 *)
Definition less (o : owner) (a b : element) : bool :=
  if atag_eqb (e_kind a) (e_kind b) then
    match e_kind a with
    | AOption => if Bool.eqb (e_custom a) (e_custom b) then src_less o a b else negb (e_custom a)
    | AField | AExt | AValue => (e_num a <? e_num b)%Z
    | AImport => bytes_lt (e_name a) (e_name b)
    | _ => src_less o a b
    end
  else
    match e_kind a, e_kind b with
    | APackage, _ => true | _, APackage => false
    | AImport, _ => true | _, AImport => false
    | AOption, _ => true | _, AOption => false
    | _, _ => src_less o a b
    end.

(** 689-709; [None]: an index is out of range *)
Definition span_within (span enclosing : list Z) : option bool :=
  match nth_error enclosing 0, (if List.length enclosing =? 3 then nth_error enclosing 0 else nth_error enclosing 2), nth_error span 0 with
  | Some start, Some stop, Some s =>
      if ((s <? start) || (stop <? s))%Z then Some false
      else if (s =? start)%Z then
        match nth_error span 1, nth_error enclosing 1 with Some x, Some y => Some (y <=? x)%Z | _, _ => None end
      else if (s =? stop)%Z then
        match nth_error span 1 with Some x => Some (x <=? last enclosing 0)%Z | None => None end
      else Some true
  | _, _, _ => None
  end.
(** 677-687: [Some None]: there is none *)
Fixpoint find_ext (path : list Z) (sis : list place) : option (option place) :=
  match sis with
  | [] => Some None
  | si :: r => match span_within path (p_path si) with None => None | Some true => Some (Some si) | Some false => find_ext path r end
  end.
Definition find_ext_si (path : list Z) (sis : list place) : option (option place) := match path with [] => Some None | _ => find_ext path sis end.
(** an extension: the message it extends and the path of its location *)
Record extension := mkX { x_extendee : bytes; x_path : list Z }.
(** 717-749: two extensions are in one block if these are the same, and the block has the comments of the location;
    simplified: locations are compared by their contents *)
Definition block (sis : list place) (x : extension) : option (bytes * option place) :=
  match find_ext_si (x_path x) sis with None => None | Some si => Some (x_extendee x, si) end.
