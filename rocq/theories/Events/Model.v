(** Model of the notifications about files, pkg/lsp/server.go: DidChangeWatchedFiles, changeTypeToFileAction,
    DidCreateFiles, DidDeleteFiles and DidRenameFiles (392-506), and of what a workspace does with them:
    resolver.go UpdateURIPathMappings (110-205, only the map from URIs to paths) followed by documents.go
    DidModifyFiles (Documents).

    URIs, paths and workspaces are numbers.  Versions are -1 and OnDisk is set in all of these. *)
From Coq Require Import ZArith List Bool.
From Verif Require Import Base.
From Verif.Versions Require Import Model.
From Verif.Documents Require Import Model.
Import ListNotations.

Definition cache := nat.
(** protocol.FileChangeType; the protocol has no others, but the handler reads a number *)
Inductive change_type := Created | Changed | Deleted | Unknown.
Inductive notification :=
| Watched (l : list (uri * change_type))
| DidCreate (us : list uri)
| DidDelete (us : list uri)
| DidRename (l : list (uri * uri)).

(** server.go:419-429 *)
Definition file_action (t : change_type) : action :=
  match t with Changed => AChange | Created => ACreate | Deleted => ADelete | Unknown => AUnknown end.
Definition disk (u : uri) (a : action) : modification := mkMod u a (-1) false.

(** a map from caches to lists of modifications (394, 433, 455, 477): its entries in the order in which they
    were first made, although ranging over it later takes any order *)
Definition groups := list (cache * list modification).
Fixpoint put (c : cache) (m : modification) (g : groups) : groups :=
  match g with
  | [] => [(c, [m])]
  | (c', ms) :: r => if Nat.eqb c' c then (c', ms ++ [m]) :: r else (c', ms) :: put c m r
  end.

Section Dispatch.
(** URI.IsFile, and CacheForURI (see Workspaces): None is its error *)
Variable is_file : uri -> bool.
Variable cache_for : uri -> option cache.

(** 393-415 *)
Fixpoint watched (l : list (uri * change_type)) (g : groups) : groups :=
  match l with
  | [] => g
  | (u, t) :: r =>
      if is_file u then match cache_for u with Some c => watched r (put c (disk u (file_action t)) g) | None => watched r g end
      else watched r g
  end.
(** 432-450, 453-471: None is the error, upon which nothing is done *)
Fixpoint all_or_error (a : action) (us : list uri) (g : groups) : option groups :=
  match us with
  | [] => Some g
  | u :: r => match cache_for u with Some c => all_or_error a r (put c (disk u a) g) | None => None end
  end.
(** 474-505 *)
Fixpoint renamed (l : list (uri * uri)) (g : groups) : option groups :=
  match l with
  | [] => Some g
  | (o, n) :: r =>
      match cache_for o, cache_for n with
      | Some oc, Some nc => renamed r (put nc (disk n ACreate) (put oc (disk o ADelete) g))
      | _, _ => None
      end
  end.
(** the calls of DidModifyFiles a notification leads to, or its error *)
Definition dispatch (n : notification) : option groups :=
  match n with
  | Watched l => Some (watched l [])
  | DidCreate us => all_or_error ACreate us []
  | DidDelete us => all_or_error ADelete us []
  | DidRename l => renamed l []
  end.
End Dispatch.

(** ** In a workspace *)
(** what the resolver knows, and what it reads from the disk: the path of a created file (None if it cannot be
    opened or its module cannot be determined), that of a changed one (None: stays as it is, else what it is
    afterwards) *)
Record world := mkWorld { known : uri -> option nat; on_create : uri -> option nat; on_change : uri -> option (option nat); rd_fails : uri -> bool; rd_version : uri -> Z }.
Definition set (k : uri -> option nat) (u : uri) (p : option nat) : uri -> option nat := fun v => if Nat.eqb v u then p else k v.
(** resolver.go:113-204 *)
Definition update1 (w : world) (k : uri -> option nat) (m : modification) : uri -> option nat :=
  match m_action m with
  | AClose | AOpen | AUnknown => k
  | AChange | ASave => match on_change w (m_uri m) with Some p => set k (m_uri m) p | None => k end
  | ACreate => match on_create w (m_uri m) with Some p => set k (m_uri m) (Some p) | None => k end
  | ADelete => set k (m_uri m) None
  end.
Definition update (w : world) (mods : list modification) : uri -> option nat := fold_left (update1 w) mods (known w).
(** documents.go:52-103; None is a panic *)
Definition modify (w : world) (mods : list modification) : option outcome :=
  did_modify (mkEnv (known w) (update w mods) (rd_fails w) (rd_version w)) mods.
