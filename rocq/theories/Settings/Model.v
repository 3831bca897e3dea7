(** * Where the comments of an option are looked up

    Model of the source information the printer looks options up in
    (pkg/format/protoprint/print.go:351, 1585-1600, 1661-1693, 1795-1902 and
    pkg/format/protoprint/internal/source_info.go:12-80).

    Simplification: the map from the bytes of a path to a list of locations is
    the list of what was stored, in order; that different paths have different
    keys is C44. *)
From Coq Require Import List Arith ZArith Lia.
Import ListNotations.
Open Scope list_scope.

(** print.go:1795-1810 (edgeKind) *)
Inductive edge :=
| EOption | EFile | EMessage | EField | EOneOf | EExtensionRange
| EReservedRange | EReservedName | EEnum | EEnumVal | EService | EMethod.

(** print.go:1816-1860 (edges), with the tags of
    pkg/format/protoprint/internal/util.go:35-182 *)
Definition edges (k : edge) (t : Z) : option edge :=
  match k, t with
  | EFile, 8%Z => Some EOption
  | EFile, 4%Z => Some EMessage
  | EFile, 5%Z => Some EEnum
  | EFile, 7%Z => Some EField
  | EFile, 6%Z => Some EService
  | EMessage, 7%Z => Some EOption
  | EMessage, 2%Z => Some EField
  | EMessage, 8%Z => Some EOneOf
  | EMessage, 3%Z => Some EMessage
  | EMessage, 4%Z => Some EEnum
  | EMessage, 6%Z => Some EField
  | EMessage, 5%Z => Some EExtensionRange
  | EMessage, 9%Z => Some EReservedRange
  | EMessage, 10%Z => Some EReservedName
  | EField, 8%Z => Some EOption
  | EOneOf, 2%Z => Some EOption
  | EExtensionRange, 3%Z => Some EOption
  | EEnum, 3%Z => Some EOption
  | EEnum, 2%Z => Some EEnumVal
  | EEnum, 4%Z => Some EReservedRange
  | EEnum, 5%Z => Some EReservedName
  | EEnumVal, 3%Z => Some EOption
  | EService, 3%Z => Some EOption
  | EService, 2%Z => Some EMethod
  | EMethod, 4%Z => Some EOption
  | _, _ => None
  end.

(** print.go:1868-1901 (the inner loop of extendOptionLocations): the index [i]
    at which the path reaches the options of an element, if it does *)
Fixpoint option_at (k : edge) (path : list Z) (i : nat) : option nat :=
  match path with
  | t :: _ :: rest =>
      match edges k t with
      | None => None
      | Some EOption => Some i
      | Some k' => option_at k' rest (i + 2)
      end
  | _ => None
  end.

Section Places.
Variable A : Type.

Definition info := list (list Z * A).

Definition path_dec := list_eq_dec Z.eq_dec.

(** source_info.go:14-20 (Get): the first location stored under the path *)
Fixpoint get (m : info) (p : list Z) : option A :=
  match m with
  | [] => None
  | (q, a) :: m' => if path_dec q p then Some a else get m' p
  end.

(** source_info.go:28-30 (Add) *)
Definition add (m : info) (p : list Z) (a : A) : info := m ++ [(p, a)].

(** source_info.go:35-42 (PutIfAbsent) *)
Definition put_if_absent (m : info) (p : list Z) (a : A) : info :=
  match get m p with
  | Some _ => m
  | None => m ++ [(p, a)]
  end.

(** source_info.go:65-80 (CreateSourceInfoMap, PopulateSourceInfoMap) *)
Definition populate (locs : list (list Z * A)) : info :=
  fold_left (fun m l => add m (fst l) (snd l)) locs [].

(** print.go:1884-1885: a path of [n] numbers with the given ones copied over
    its beginning *)
Definition sized (n : nat) (p : list Z) : list Z :=
  firstn n p ++ repeat 0%Z (n - List.length p).

(** print.go:1866-1902 (the body of the outer loop of extendOptionLocations) *)
Definition extend_one (m : info) (l : list Z * A) : info :=
  match option_at EFile (fst l) 0 with
  | None => m
  | Some i =>
      let np := sized (i + 3) (fst l) in
      let m := put_if_absent m np (snd l) in
      let np0 := firstn (i + 2) np ++ [0%Z] in
      let m := put_if_absent m np0 (snd l) in
      put_if_absent m (firstn (i + 2) np0) (snd l)
  end.

(** print.go:1862-1902 (extendOptionLocations), run after the map is made,
    print.go:349-351 *)
Definition source_info (locs : list (list Z * A)) : info :=
  fold_left extend_one locs (populate locs).

(** print.go:1585-1589 and 1680-1686 (siFetch of printOptionsLong and of
    printOptionElementsShort for an option that is not a pseudo-option): the
    location of the [i]-th value of the option at the path *)
Definition fetched (locs : list (list Z * A)) (path : list Z) (i : nat) : option A :=
  get (source_info locs) (path ++ [Z.of_nat i]).
End Places.

Arguments get {A}. Arguments add {A}. Arguments put_if_absent {A}.
Arguments populate {A}. Arguments extend_one {A}. Arguments source_info {A}.
Arguments fetched {A}.
