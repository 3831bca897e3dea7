(** The tables of paths of a workspace (resolver.go:47-55, Go maps), the results of its files (cache.go:33-41) and the locks that requests hold while they use them:
    pathsMu of the resolver (resolver.go:47) and resultsMu of the cache (cache.go:32). *)
From Verif Require Import Base.
Open Scope list_scope.

Inductive lock := Results | Paths.
Inductive mode := R | W.
(** [Begin m] ... [End]: one use of the tables, or of the results, by reading or by writing *)
Inductive action := Acq (x : lock * mode) | Rel (x : lock * mode) | Begin (m : mode) | End.
Record thread := mkThread { prog : list action; held : list (lock * mode); busy : option mode }.

Definition lock_eqb (a b : lock) : bool := match a, b with Results, Results | Paths, Paths => true | _, _ => false end.
Definition mode_eqb (a b : mode) : bool := match a, b with R, R | W, W => true | _, _ => false end.
Definition hold_eqb (a b : lock * mode) : bool := (lock_eqb (fst a) (fst b) && mode_eqb (snd a) (snd b))%bool.
(** sync.RWMutex: readers share, a writer is alone.  That a waiting writer keeps new readers out is left out, which only
    adds runs. *)
Definition compatible (a b : lock * mode) : bool := (negb (lock_eqb (fst a) (fst b)) || (mode_eqb (snd a) R && mode_eqb (snd b) R))%bool.
Definition free (x : lock * mode) (ts : list thread) : bool := forallb (fun t => forallb (compatible x) (held t)) ts.
Fixpoint release (x : lock * mode) (h : list (lock * mode)) : list (lock * mode) :=
  match h with [] => [] | y :: r => if hold_eqb x y then r else y :: release x r end.
Definition set_nth {A} (i : nat) (x : A) (l : list A) : list A := firstn i l ++ x :: skipn (S i) l.
(** one step of thread [i]; None if it is blocked or has ended *)
Definition step (i : nat) (ts : list thread) : option (list thread) :=
  match nth_error ts i with
  | Some (mkThread (Acq x :: p) h b) => if free x ts then Some (set_nth i (mkThread p (x :: h) b) ts) else None
  | Some (mkThread (Rel x :: p) h b) => Some (set_nth i (mkThread p (release x h) b) ts)
  | Some (mkThread (Begin m :: p) h b) => Some (set_nth i (mkThread p h (Some m)) ts)
  | Some (mkThread (End :: p) h b) => Some (set_nth i (mkThread p h None) ts)
  | Some (mkThread [] _ _) | None => None
  end.
Definition init (ps : list (list action)) : list thread := map (fun p => mkThread p [] None) ps.
Inductive reach : list thread -> list thread -> Prop :=
| r_refl s : reach s s
| r_step s t u i : reach s t -> step i t = Some u -> reach s u.

(** ** Calls of the resolver *)
Definition use (m : mode) : list action := [Begin m; End].
Definition locked (x : lock * mode) (p : list action) : list action := Acq x :: p ++ [Rel x].
(** resolver.go:74-108 (PathToURI, URIToPath, SyntheticFileContents), 572-612 (IsRealWorkspaceLocalFile), 624-634
    (findImportPathsByPrefix) *)
Definition lookup : list action := locked (Paths, R) (use R).
(** 277-318 FindFileByPath, 210-267 CheckIncompleteDescriptors, 110-205 UpdateURIPathMappings: [n] tables are read and
    written in turn *)
Definition update (n : nat) : list action := locked (Paths, W) (List.concat (repeat (use R ++ use W) n)).

Inductive call := Lookup | Find (n : nat).
Definition call_program (c : call) : list action := match c with Lookup => lookup | Find n => update n end.
Definition calls (cs : list call) : list action := flat_map call_program cs.

Inductive request :=
| Edit (before : list call) (n : nat) (between compiling : list call) (** documents.go:52-103, compiler.go:62-163: the calls before the update, the update, those after it and those while compiling *)
| Query (cs : list call) (** a request that reads the results while it asks the resolver: links.go:12-84, codelens.go, cache.go:155-235 *)
| Ask (cs : list call) (** one that does not: documents.go:130-160, completion.go:1107 *)
| Generate (cs : list call) (** lsprpc/handler.go:123-190: externalapi.go:63-71 XGetURIPathMappings, then further calls *)
| GenerateWorkspace (n : nat) (cs : list call). (** handler.go:115: externalapi.go:73-83 XListWorkspaceLocalURIs for [n] files, then Generate *)
(** externalapi.go:64-70: three tables are copied *)
Definition mappings : list action := locked (Results, R) (use R ++ use R ++ use R).
(** 74-82: each step of the iteration uses the table *)
Definition list_uris (n : nat) : list action := locked (Results, R) (List.concat (repeat (use R ++ lookup) n)).
Definition program (r : request) : list action :=
  match r with
  | Edit before n between compiling => calls before ++ update n ++ calls between ++ locked (Results, W) (calls compiling)
  | Query cs => locked (Results, R) (calls cs)
  | Ask cs => calls cs
  | Generate cs => mappings ++ calls cs
  | GenerateWorkspace n cs => list_uris n ++ mappings ++ calls cs
  end.

(** ** Uses of the results *)
Inductive results_request :=
| Compile (n : nat) (** compiler.go:62-163 and the hooks it calls, 32-43: [n] results are looked for and replaced *)
| Reads (looks : list nat) (** cache.go:117-251, 298-300, 359-361, 404-405, 455-477, documents.go:107-111 and the requests that hold the lock throughout: lookups one after the other *)
| PackageNames (looks : list nat) (n : nat). (** completion.go:43-90 with 501 and 597-632: lookups, then [n] files without the lock *)
Definition look (n : nat) : list action := locked (Results, R) (List.concat (repeat (use R) n)).
Definition results_program (r : results_request) : list action :=
  match r with
  | Compile n => locked (Results, W) (List.concat (repeat (use R ++ use W) n))
  | Reads ns => flat_map look ns
  | PackageNames ns n => flat_map look ns ++ List.concat (repeat (use R) n)
  end.
