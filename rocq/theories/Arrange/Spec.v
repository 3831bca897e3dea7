(** What an order of elements is, and where elements are. *)
From Coq Require Import Ascii String ZArith Sorting.
From Verif Require Import Base Strs.
From Verif.PrintTree Require Import Model.
From Verif.Arrange Require Import Model.
Open Scope list_scope.

(** what sort.Stable asks of a comparison, for the elements [D] *)
Definition weak_order (D : element -> Prop) (lt : element -> element -> bool) : Prop :=
  (forall a, D a -> lt a a = false) /\
  (forall a b c, D a -> D b -> D c -> lt a b = true -> lt b c = true -> lt a c = true) /\
  (forall a b c, D a -> D b -> D c -> lt a b = false -> lt b c = false -> lt a c = false).
(** then its result is such a list *)
Definition in_order (lt : element -> element -> bool) (s : list element) : Prop := forall a x b y c, s = a ++ x :: b ++ y :: c -> lt y x = false.

(** the numbers of the fields of FileDescriptorProto, DescriptorProto, EnumDescriptorProto and ServiceDescriptorProto in
    descriptor.proto *)
Definition field_number (o : owner) (k : atag) : option Z :=
  match o, k with
  | OFile, APackage => Some 2 | OFile, AImport => Some 3 | OFile, AMessage => Some 4 | OFile, AEnum => Some 5 | OFile, AService => Some 6 | OFile, AExt => Some 7 | OFile, AOption => Some 8
  | OMessage, AField => Some 2 | OMessage, AMessage => Some 3 | OMessage, AEnum => Some 4 | OMessage, AXRange => Some 5 | OMessage, AExt => Some 6 | OMessage, AOption => Some 7
  | OMessage, ARange => Some 9 | OMessage, AName => Some 10
  | OEnum, AValue => Some 2 | OEnum, AOption => Some 3 | OEnum, ARange => Some 4 | OEnum, AName => Some 5
  | OService, AMethod => Some 2 | OService, AOption => Some 3
  | _, _ => None
  end%Z.
Definition numbered (k : atag) : Prop := k = AField \/ k = AExt \/ k = AValue.
Definition leads (k : atag) : Prop := k = APackage \/ k = AImport \/ k = AOption.
(** the elements of the declaration at the path [prefix], as the compiler describes them: all but options and the messages
    of map fields have their location *)
Definition described (o : owner) (prefix : list Z) (e : element) : Prop :=
  exists n, field_number o (e_kind e) = Some n /\
    (leads (e_kind e) \/ (exists p, e_place e = Some p /\ p_path p = prefix ++ [n; Z.of_nat (e_index e)]) \/ ~ numbered (e_kind e) /\ e_place e = None).
Definition located (e : element) : Prop := e_place e <> None.
Definition earlier (a b : element) : Prop := exists p q, e_place a = Some p /\ e_place b = Some q /\ p_line p < p_line q.
