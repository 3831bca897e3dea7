From Coq Require Import Ascii String.
From Verif Require Import Base Strs.
From Verif.Refactor Require Import Model.
Open Scope list_scope.

(** field numbers used in a message *)
Definition decl_nums (d : decl) : list nat :=
  match d with
  | DField f => [fnum f]
  | DMap _ n => [n]
  | DGroup _ n => [n]
  | DOneof fs => map fnum fs
  | DOther _ => []
  end.
Definition nums (ds : list decl) : list nat := flat_map decl_nums ds.
Definition is_plain (d : decl) : bool := match d with DField _ => true | _ => false end.
(** numbers used by other kinds of fields than plain ones *)
Definition other_nums (ds : list decl) : list nat := nums (filter (fun d => negb (is_plain d)) ds).
Definition plain_count (ds : list decl) : nat := List.length (filter is_plain ds).
(** every element with a field is a plain field *)
Definition all_plain (ds : list decl) : Prop := forall d, In d ds -> is_plain d = true \/ decl_nums d = [].

(** the highest number of a plain field, 0 if there is none *)
Definition highest (ds : list decl) (n : nat) : Prop :=
  (forall f, In (DField f) ds -> fnum f <= n) /\ (n = 0 \/ exists f, In (DField f) ds /\ fnum f = n).

(** everything declared in a scope shares one name space *)
Record scope := mkScope { messages : list bytes; enums : list bytes; others : list bytes }.
Definition declared (s : scope) : list bytes := messages s ++ enums s ++ others s.

(** the [i]-th name to be tried for a field: the name, and then the name with a number, which is set apart if the
    name ends in a digit *)
Definition attempt (p : bytes) (i : nat) : bytes :=
  match i with
  | 0 => p
  | S _ => p ++ (if existsb (Ascii.eqb (last p "a"%char)) (b_ "0123456789") then b_ "_" else []) ++ dec i
  end.
