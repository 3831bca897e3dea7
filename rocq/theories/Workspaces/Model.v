(** Workspace folders: pkg/lsp/server.go (folder lookup and folder changes), pkg/lsp/commands.go
    (reindexing), pkg/lsp/links.go and pkg/lsp/inlayhints.go (imports), and
    resolver.go IsRealWorkspaceLocalFile.

    Go maps are association lists with distinct keys; the order in which a map is iterated is the order
    of the list, so statements about every order quantify over permutations. *)
From Coq Require Import Ascii String.
From Verif Require Import Base Strs.
Open Scope list_scope.

(** ** Lookup *)

(** protocol.WorkspaceFolder *)
Record folder := mkFolder { f_uri : bytes; f_name : bytes }.
(** a cache as far as lookup is concerned: its workspace and which URIs it tracks (cache.go:234-237, whether
    the resolver knows the URI) *)
Record cache := mkCache { c_id : nat; c_ws : folder; c_tracks : bytes -> bool }.

Inductive answer := Served (c : cache) | UnknownName | NoWorkspace.

Definition vendor : bytes := b_ "/vendor".

(** server.go:233-241: the body of the loop returns *)
Definition takes (path : bytes) (e : bytes * cache) : bool :=
  (has_prefix path (fst e) && negb (has_prefix path (fst e ++ vendor)))%bool.

(** server.go:216-248 CacheForURI; [order] is the cloned map in iteration order, [frag] and [path] are the
    fragment and the path of the parsed URI. Simplified: parse errors are left out; the map is iterated in
    the same order in each loop. *)
Definition cache_for_uri (order : list (bytes * cache)) (uri frag path : bytes) : answer :=
  if negb (beq frag []) then
    match find (fun e => beq (f_name (c_ws (snd e))) frag) order with Some e => Served (snd e) | None => UnknownName end
  else match find (takes path) order with
  | Some e => Served (snd e)
  | None => match find (fun e => c_tracks (snd e) uri) order with Some e => Served (snd e) | None => NoWorkspace end
  end.

(** server.go:250-259 CacheForWorkspace *)
Definition cache_for_workspace (order : list (bytes * cache)) (w : folder) : answer :=
  match find (fun e => beq (f_uri (c_ws (snd e))) (f_uri w)) order with Some e => Served (snd e) | None => NoWorkspace end.

(** ** Folder changes *)

Definition aget {A} (k : bytes) (m : list (bytes * A)) : option A :=
  match find (fun e => beq (fst e) k) m with Some e => Some (snd e) | None => None end.
Definition adel {A} (k : bytes) (m : list (bytes * A)) : list (bytes * A) := filter (fun e => negb (beq (fst e) k)) m.
Definition aset {A} (k : bytes) (v : A) (m : list (bytes * A)) : list (bytes * A) := (k, v) :: adel k m.

(** server.go:22-31; [live]: the caches whose two background goroutines (server.go:89-106, streaming and
    publishing diagnostics) have not been told to stop; [next]: number of caches created so far, which
    identifies a cache; [panicked]: a nil function was called. *)
Record state := mkState {
  caches : list (bytes * (nat * folder));
  cancels : list (bytes * nat);
  live : list nat;
  next : nat;
  panicked : bool
}.
Definition init : state := mkState [] [] [] 0 false.

Section Folders.
Variable path_of : bytes -> bytes.    (* DocumentURI.Path *)

(** server.go:80-107 cacheInitLocked and its call NewCache(folder) *)
Definition add (s : state) (f : folder) : state :=
  let p := path_of (f_uri f) in
  mkState (aset p (next s, f) (caches s)) (aset p (next s) (cancels s)) (next s :: live s) (S (next s)) (panicked s).

(** server.go:110-117 cacheDestroyLocked *)
Definition destroy (s : state) (p : bytes) : state :=
  match aget p (caches s) with
  | None => s
  | Some _ =>
      match aget p (cancels s) with
      | Some id => mkState (adel p (caches s)) (adel p (cancels s)) (remove Nat.eq_dec id (live s)) (next s) (panicked s)
      | None => mkState (adel p (caches s)) (cancels s) (live s) (next s) true
      end
  end.

Inductive op :=
| Initialize (fs : list folder)                 (* server.go:124-131 *)
| ChangeFolders (added removed : list folder)   (* server.go:779-796 *)
| Reindex                                       (* commands.go:110-164 *)
| Shutdown.                                     (* server.go:770-776 *)

Definition destroy_all (s : state) : state :=
  let s' := fold_left destroy (map fst (caches s)) s in
  mkState [] (cancels s') (live s') (next s') (panicked s').

Definition step (s : state) (o : op) : state :=
  match o with
  | Initialize fs => fold_left add fs s
  | ChangeFolders a r => fold_left destroy (map (fun f => path_of (f_uri f)) r) (fold_left add a s)
  | Reindex => fold_left add (map (fun e => snd (snd e)) (caches s)) (destroy_all s)
  | Shutdown => destroy_all s
  end.
Definition run (ops : list op) : state := fold_left step ops init.
End Folders.

(** ** Reindexing and open documents *)

(** an open document: its version and text in the editor, and whether the overlay is marked as having the
    contents of the file on disk *)
Record overlay := mkOverlay { o_uri : bytes; o_version : Z; o_text : bytes; o_same : bool }.

(** commands.go:116-146: the modifications replayed for one overlay. [disk]: the file on disk, [None] if it
    cannot be opened or read; [dv]: the version of a file opened from disk. *)
Inductive modification := MOpen (u : bytes) (v : Z) (t : bytes) | MChange (u : bytes) (v : Z) (t : bytes).
Definition replay (disk : bytes -> option bytes) (dv : Z) (o : overlay) : list modification :=
  match disk (o_uri o) with
  | None => []
  | Some t =>
      MOpen (o_uri o) dv t ::
      (if o_same o then [] else [MChange (o_uri o) (Z.max (o_version o) 2) (o_text o)])
  end.

(** the effect of a modification on the documents open in the new cache (whole-document texts); simplified
    from documents.go, see Documents/Model.v for the event handling itself *)
Definition apply_mod (m : bytes -> option (Z * bytes)) (e : modification) : bytes -> option (Z * bytes) :=
  match e with MOpen u v t | MChange u v t => fun u' => if beq u' u then Some (v, t) else m u' end.
Definition reindexed (disk : bytes -> option bytes) (dv : Z) (os : list overlay) : bytes -> option (Z * bytes) :=
  fold_left apply_mod (flat_map (replay disk dv) os) (fun _ => None).

(** ** The map of caches and its lock *)

(** What a request does with s.cachesMu (RL, RU, WL, WU) and s.caches (begin and end of an iteration or
    lookup; a write). A request is its remaining actions. *)
Inductive act := RL | RU | WL | WU | IterB | IterE | Write.
Record mstate := mkM { m_threads : list (list act); m_readers : nat; m_writer : bool; m_iters : nat; m_fatal : bool }.

Definition set_nth {A} (i : nat) (x : A) (l : list A) : list A := firstn i l ++ x :: skipn (S i) l.

(** One action of thread [i]. The Go runtime stops the process when a map is written while it is being
    iterated by another goroutine ("concurrent map iteration and map write"). *)
Definition mstep (i : nat) (s : mstate) : option mstate :=
  match nth_error (m_threads s) i with
  | Some (RL :: p) => if m_writer s then None else Some (mkM (set_nth i p (m_threads s)) (S (m_readers s)) false (m_iters s) (m_fatal s))
  | Some (RU :: p) => Some (mkM (set_nth i p (m_threads s)) (pred (m_readers s)) (m_writer s) (m_iters s) (m_fatal s))
  | Some (WL :: p) =>
      if (m_writer s || negb (m_readers s =? 0))%bool then None
      else Some (mkM (set_nth i p (m_threads s)) 0 true (m_iters s) (m_fatal s))
  | Some (WU :: p) => Some (mkM (set_nth i p (m_threads s)) (m_readers s) false (m_iters s) (m_fatal s))
  | Some (IterB :: p) => Some (mkM (set_nth i p (m_threads s)) (m_readers s) (m_writer s) (S (m_iters s)) (m_fatal s))
  | Some (IterE :: p) => Some (mkM (set_nth i p (m_threads s)) (m_readers s) (m_writer s) (pred (m_iters s)) (m_fatal s))
  | Some (Write :: p) => Some (mkM (set_nth i p (m_threads s)) (m_readers s) (m_writer s) (m_iters s) (m_fatal s || negb (m_iters s =? 0))%bool)
  | Some [] | None => None
  end.
Definition minit (ps : list (list act)) : mstate := mkM ps 0 false 0 false.
Fixpoint mrun (sched : list nat) (s : mstate) : option mstate :=
  match sched with [] => Some s | i :: r => match mstep i s with Some s' => mrun r s' | None => None end end.

Inductive request := RLookup | RConfiguration | RChangeFolders (n : nat) | RReindex (n : nat) | RSymbol | RShutdown (n : nat).

(** The uses of the map; the deletions at commands.go:151-153 and server.go:772-774 happen in the goroutine
    that iterates, which the runtime allows, and are modelled as plain writes. *)
Definition program (r : request) : list act :=
  match r with
  | RLookup => [RL; IterB; IterE; RU]                                    (* server.go:217-219, 251-257 *)
  | RConfiguration => [RL; IterB; IterE; RU]                             (* server.go:880-884 *)
  | RChangeFolders n => WL :: repeat Write n ++ [WU]                     (* server.go:124-131, 782-794 *)
  | RReindex n => WL :: IterB :: IterE :: repeat Write n ++ [WU]         (* commands.go:110-164 *)
  | RSymbol => [IterB; IterE]                                            (* server.go:857-859 *)
  | RShutdown n => repeat Write n                                        (* server.go:770-776 *)
  end.

(** ** Imports of a document *)

Definition descriptor_proto : bytes := b_ "google/protobuf/descriptor.proto".

Fixpoint index_of (x : bytes) (l : list bytes) : option nat :=
  match l with
  | [] => None
  | y :: r => if beq y x then Some 0 else match index_of x r with Some n => Some (S n) | None => None end
  end.

(** links.go:37-54 = inlayhints.go:118-135: [deps] is the Dependency slice of the compiled file; the result is the
    slice used from here on and the contents of the compiled file's own slice afterwards:
    append(deps[:i], deps[i+1:]...) moves the later elements in the shared array. *)
Definition filter_deps (names deps : list bytes) : list bytes * list bytes :=
  if existsb (fun n => beq n descriptor_proto) names then (deps, deps)
  else match index_of descriptor_proto deps with
       | None => (deps, deps)
       | Some i =>
           let l := firstn i deps ++ skipn (S i) deps in
           (l, l ++ skipn (List.length deps - 1) deps)
       end.

Inductive result (A : Type) := Ok (x : A) | IndexPanic.
Arguments Ok {A}. Arguments IndexPanic {A}.

(** links.go:56-83: the i-th import is looked up by the i-th dependency path; [resolve]: FindFileByPath followed
    by PathToURI. Links are given by the number of the import. *)
Fixpoint link_loop {A} (resolve : bytes -> option A) (i : nat) (names deps : list bytes) : result (list (nat * A)) :=
  match names with
  | [] => Ok []
  | _ :: ns =>
      match deps with
      | [] => IndexPanic
      | d :: ds =>
          match link_loop resolve (S i) ns ds with
          | IndexPanic => IndexPanic
          | Ok r => Ok (match resolve d with Some t => (i, t) :: r | None => r end)
          end
      end
  end.
Definition document_links {A} (resolve : bytes -> option A) (names deps : list bytes) : result (list (nat * A)) * list bytes :=
  let '(l, after) := filter_deps names deps in (link_loop resolve 0 names l, after).

(** inlayhints.go:137-183. An import's name is on one line at columns [q, e): [q] is the column of the opening
    quote and [e] the column after the closing quote (0-based). [h_col]: where the hint is shown; [h_edit]: the
    columns replaced if the hint is accepted and the new text. nameInfo.Start().Col is 1-based: q + 1. The end
    column of a node info is the 0-based column after the node plus 1 (toRange subtracts 1 and LSP ranges are
    end-exclusive). *)
Record hint := mkHint { h_import : nat; h_col : nat; h_label : bytes; h_from : nat; h_to : nat; h_new : bytes }.
(** strings.TrimSuffix *)
Definition trim_suffix (s p : bytes) : bytes := if has_suffix s p then firstn (List.length s - List.length p) s else s.
Definition import_hint (i : nat) (name dep : bytes) (q e : nat) : list hint :=
  if beq dep name then []
  else if has_suffix dep name then [mkHint i (q + 1) (trim_suffix dep name) (q + 1) (e - 1) dep]
  else [mkHint i (e + 1 + 2) dep (q + 1) (e - 1) dep].
Fixpoint hint_loop (i : nat) (names : list (bytes * nat * nat)) (deps : list bytes) : result (list hint) :=
  match names with
  | [] => Ok []
  | (n, q, e) :: ns =>
      match deps with
      | [] => IndexPanic
      | d :: ds => match hint_loop (S i) ns ds with IndexPanic => IndexPanic | Ok r => Ok (import_hint i n d q e ++ r) end
      end
  end.
Definition import_hints (names : list (bytes * nat * nat)) (deps : list bytes) : result (list hint) * list bytes :=
  let '(l, after) := filter_deps (map (fun x => fst (fst x)) names) deps in (hint_loop 0 names l, after).

(** ** Files of the workspace *)

Inductive origin := OSynthetic | OModuleCache | OWellKnown | OOther.
(** what the resolver and the file system say about a URI (resolver.go:573-604) *)
Record file_facts := mkFacts { is_file : bool; is_synthetic : bool; source : option origin; readable : bool; regular : bool; filename : bytes }.
(** resolver.go:572-609 IsRealWorkspaceLocalFile *)
Definition is_local_file (root : bytes) (f : file_facts) : bool :=
  if negb (is_file f) then false
  else if is_synthetic f then false
  else if match source f with Some OSynthetic | Some OModuleCache | Some OWellKnown => true | _ => false end then false
  else if negb (readable f) then false
  else if negb (regular f) then false
  else has_prefix (filename f) root.
