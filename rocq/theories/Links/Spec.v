From Coq Require Import Ascii String.
From Verif Require Import Base Strs.
From Verif.Links Require Import Model.
Open Scope list_scope.

(** the file that options need *)
Definition desc_file : bytes := b_ "google/protobuf/descriptor.proto".
(** What the compiler records: the path each import resolved to, in order, and
    possibly the descriptor that options need, somewhere. *)
Definition records (imports : list import) (resolved deps : list bytes) : Prop :=
  List.length resolved = List.length imports /\
  (deps = resolved \/ exists a b, resolved = a ++ b /\ deps = a ++ desc_file :: b).
(** an import has that name *)
Definition named (imports : list import) : Prop := exists i, In i imports /\ i_name i = desc_file.
(** the descriptor is imported by its name or not at all *)
Definition plain (imports : list import) (resolved deps : list bytes) : Prop :=
  (named imports -> deps = resolved) /\ (~ named imports -> ~ In desc_file resolved).

(** the links a user expects *)
Definition expected (target : bytes -> option bytes) (imports : list import) (resolved : list bytes) : list link :=
  flat_map (fun ip => match target (snd ip) with Some u => [(fst ip, u)] | None => [] end) (combine imports resolved).

(** a line with an import: its literal is between quotes *)
Definition literal_at (line : bytes) (i : import) (quote : ascii) (pre inside post : bytes) : Prop :=
  line = pre ++ quote :: inside ++ quote :: post /\ i_start i = List.length pre /\
  i_end i = List.length pre + List.length inside + 2.

(** all that was typed has been compiled *)
Definition settled (parses : bytes -> bool) (s : server) : Prop :=
  bad s = negb (parses (overlay s)) /\ (parses (overlay s) = true -> parsed s = overlay s).
