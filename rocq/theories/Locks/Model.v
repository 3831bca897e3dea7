(** The results lock of a workspace cache (cache.go:32 resultsMu, a
    sync.RWMutex) and the server's cache lock (server.go:25 cachesMu), and the
    way requests use them. *)
From Verif Require Import Base.

(** Calls on one RWMutex. *)
Inductive action := RLock | RUnlock | Lock | Unlock.

(** Go's sync.RWMutex by its documented contract: a pending Lock call excludes
    new readers and waits for the readers already in. [writer] is the pending
    ([false]) or active ([true]) writer. Threads are the programs they still
    have to run. *)
Record state := mkState { threads : list (list action); readers : nat; writer : option (nat * bool) }.

Definition set_nth {A} (i : nat) (x : A) (l : list A) : list A := firstn i l ++ x :: skipn (S i) l.

(** One step of thread [i]; [None] if it has nothing to do or is blocked. *)
Definition step (i : nat) (s : state) : option state :=
  match nth_error (threads s) i with
  | Some (RLock :: p) =>
      match writer s with
      | None => Some (mkState (set_nth i p (threads s)) (S (readers s)) None)
      | Some _ => None
      end
  | Some (RUnlock :: p) => Some (mkState (set_nth i p (threads s)) (pred (readers s)) (writer s))
  | Some (Lock :: p) =>
      match writer s with
      | None => Some (mkState (threads s) (readers s) (Some (i, false)))
      | Some (j, false) =>
          if j =? i then
            match readers s with
            | 0 => Some (mkState (set_nth i p (threads s)) 0 (Some (i, true)))
            | S _ => None
            end
          else None
      | Some (_, true) => None
      end
  | Some (Unlock :: p) => Some (mkState (set_nth i p (threads s)) (readers s) None)
  | Some [] | None => None
  end.

Definition init (ps : list (list action)) : state := mkState ps 0 None.

(** runs of the system *)
Inductive reach : state -> state -> nat -> Prop :=
| r_refl s : reach s s 0
| r_step s t u i n : reach s t n -> step i t = Some u -> reach s u (S n).

(** ** Lock calls of the requests on the results lock *)

Definition rd : list action := [RLock; RUnlock].  (* a lookup that locks on its own: cache.go:117-251, 298-300, 359-361, 455-477; documents.go:107-111 *)
Definition under (p : list action) : list action := RLock :: p ++ [RUnlock].

Inductive request :=
| Edit (* documents.go:96-101 -> compiler.go:62-69 Compile *)
| Hover (* hover.go:12-37 *)
| Definition_ (* server.go:290-312 *)
| References (* references.go:40-74 *)
| Formatting (* format.go:14-27 *)
| Completion (n : nat) (* completion.go:43-90 and one lookup per completion source *)
| CodeAction (* codeactions.go:63 *)
| CodeLens (* codelens.go:11-19 *)
| DocumentSymbols (* symbols.go:16-23 *)
| WorkspaceSymbols (n : nat) (* symbols.go:50-66; n symbols resolved; the callback runs in a second goroutine that the request waits for *)
| InlayHints (n : nat) (* inlayhints.go:12-30, 34, 75 (n times), 93-99 *)
| DocumentLinks (* links.go:12-18 *)
| SemanticTokens (* semantic.go:119-121, 151, 155 *)
| PrepareRename (* rename.go:11-15, 22 -> 55, 65 *)
| GeneratedDefinition (* generated.go:18-21 *).

(** FindTypeDescriptorAtLocation, cache.go:253-263 *)
Definition type_at_location : list action := rd ++ rd.

Fixpoint times (n : nat) (p : list action) : list action :=
  match n with 0 => [] | S n' => p ++ times n' p end.

(** The longest path of each request; simplified: error exits release the
    locks held by the deferred unlocks and are prefixes as far as acquisition
    is concerned. *)
Definition program (r : request) : list action :=
  match r with
  | Edit => [Lock; Unlock]
  | Hover => type_at_location ++ rd ++ rd
  | Definition_ => type_at_location ++ rd
  | References => type_at_location ++ rd ++ rd
  | Formatting => rd ++ rd
  | Completion n => rd ++ rd ++ rd ++ times n rd
  | CodeAction => rd
  | CodeLens => under rd
  | DocumentSymbols => under rd
  | WorkspaceSymbols n => under (times n rd)
  | InlayHints n => under (rd ++ times n rd ++ under rd)
  | DocumentLinks => under rd
  | SemanticTokens => under (rd ++ rd)
  | PrepareRename => under (type_at_location ++ rd ++ rd)
  | GeneratedDefinition => under type_at_location
  end.

(** ** Commands and the cache lock *)

(** commands.go:166-175 "protols/refreshModules": for each workspace, does it
    have a Go language driver (golang.go NewGoLanguageDriver may return nil)?
    Returns the lock calls made and whether an error is returned. *)
Fixpoint refresh_loop (drivers : list bool) : bool :=
  match drivers with
  | [] => true
  | false :: _ => false
  | true :: r => refresh_loop r
  end.
Definition refresh_modules (drivers : list bool) : list action * bool :=
  if refresh_loop drivers then ([Lock; Unlock], true) else ([Lock], false).

(** commands.go:109-165 "protols/reindexWorkspaces" *)
Definition reindex : list action := [Lock; Unlock].

(** CacheForURI / CacheForWorkspace (server.go:217-219, 251-252), called by
    every other request *)
Definition cache_lookup : list action := rd.
