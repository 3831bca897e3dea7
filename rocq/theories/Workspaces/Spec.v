(** What users expect of workspace folders, stated on paths and texts. *)
From Coq Require Import Ascii String Permutation.
From Verif Require Import Base Strs.
From Verif.Workspaces Require Import Model.
Open Scope list_scope.

Definition starts (p s : bytes) : Prop := exists r, s = p ++ r.
(** [path] is the folder itself or something in it *)
Definition inside (dir path : bytes) : Prop :=
  path = dir \/ exists r, path = dir ++ slash :: r.

(** [c] can be the answer: for some iteration order of the map *)
Definition possible (m : list (bytes * cache)) (uri frag path : bytes) (a : answer) : Prop :=
  exists order, Permutation m order /\ cache_for_uri order uri frag path = a.

(** folders by path, as a set *)
Definition paths (s : state) : list bytes := map fst (caches s).
Definition ids (s : state) : list nat := map (fun e => fst (snd e)) (caches s).

(** no folder of the list is known, or repeated *)
Fixpoint fresh_adds (path_of : bytes -> bytes) (known : list bytes) (fs : list folder) : Prop :=
  match fs with
  | [] => True
  | f :: r => ~ In (path_of (f_uri f)) known /\ fresh_adds path_of (path_of (f_uri f) :: known) r
  end.
(** in the history, a folder is only added while no folder with its path is known *)
Fixpoint no_readd (path_of : bytes -> bytes) (s : state) (ops : list op) : Prop :=
  match ops with
  | [] => True
  | o :: r =>
      match o with Initialize fs | ChangeFolders fs _ => fresh_adds path_of (paths s) fs | _ => True end /\
      no_readd path_of (step path_of s o) r
  end.

(** a request accesses the map only under the lock, and writes only under the write lock *)
Inductive mode := MNone | MRead | MWrite.
Fixpoint guarded (m : mode) (iter : bool) (p : list act) : Prop :=
  match p with
  | [] => m = MNone /\ iter = false
  | RL :: r => m = MNone /\ iter = false /\ guarded MRead false r
  | RU :: r => m = MRead /\ iter = false /\ guarded MNone false r
  | WL :: r => m = MNone /\ iter = false /\ guarded MWrite false r
  | WU :: r => m = MWrite /\ iter = false /\ guarded MNone false r
  | IterB :: r => m <> MNone /\ iter = false /\ guarded m true r
  | IterE :: r => iter = true /\ guarded m false r
  | Write :: r => m = MWrite /\ iter = false /\ guarded m false r
  end.

(** text with the columns [from, to) replaced *)
Definition replace_cols (line : bytes) (from to : nat) (new : bytes) : bytes := firstn from line ++ new ++ skipn to line.

(** the import the compiler adds by itself (it records it among the dependencies of files that use options) *)
Definition implicit_import : bytes := b_ "google/protobuf/descriptor.proto".
