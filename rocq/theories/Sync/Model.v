(** What the server holds of one document during a session: the handlers of pkg/lsp/server.go (DidOpen, DidClose,
    DidChange 324-390, DidChangeWatchedFiles 393-415, DidSave 508-522, DidChangeWorkspaceFolders 779-796), which
    call DidModifyFiles of documents.go (52-103, Documents/Model.v) for one document, with the texts of the
    modifications, UpdateURIPathMappings of resolver.go (110-205) and the panic of documents.go:92-94.

    Notifications are handled one after the other, each to its end (lsprpc/handler.go:66-90, see Rpc).

    Third-party contracts: the file system with overlays (gopls' cache.OverlayFS) reads a document from its overlay
    and else from the disk; UpdateOverlays makes an overlay when a document is opened, replaces its text when it is
    changed, removes it when it is closed, ignores events on disk of documents without an overlay, keeps the text of
    an overlay when the file below it changes, and gives an error for any other event of a document without an
    overlay. A compilation reads what the file system has for the path, and has no result for a path without a
    file (C08, C09). *)
From Coq Require Import ZArith.
From Verif Require Import Base Strs.
From Verif.Documents Require Import Model.
Open Scope list_scope.

Definition text := bytes.
(** what one workspace holds of the document: whether the resolver has a path for it, its overlay, and the text
    that its result was compiled from *)
Record holding := mkH { h_path : bool; h_overlay : option text; h_compiled : option text }.
(** the editor of the client (None: not open there), the file on disk, the workspace that CacheForURI gives, and the
    workspaces made so far *)
Record state := mkS { editor : option text; disk : option text; route : option nat; ws : nat -> option holding }.

(** OverlayFS.ReadFile followed by Content *)
Definition read (ov dsk : option text) : option text := match ov with Some t => Some t | None => dsk end.

(** file.Modification; [n_mod] has the fields that Documents uses *)
Record notice := mkN { n_mod : modification; n_text : option text; n_disk : bool }.
(** OverlayFS.UpdateOverlays for one modification; the outer None is its error *)
Definition update_overlay (n : notice) (ov : option text) : option (option text) :=
  match ov with
  | None => if n_disk n then Some None else match m_action (n_mod n) with AOpen => Some (n_text n) | _ => None end
  | Some t => match m_action (n_mod n) with AClose => Some None | _ => Some (Some (match n_text n with Some t' => t' | None => t end)) end
  end.
(** documents.go:52-103 for one modification; [after]: whether the resolver has a path after line 62. None: the
    server panics. *)
Definition deliver (dsk : option text) (after : bool) (h : holding) (n : notice) : option holding :=
  let path (b : bool) (_ : nat) := if b then Some 0 else None in
  match did_modify (mkEnv (path (h_path h)) (path after) (fun _ => false) (fun _ => 0%Z)) [n_mod n] with
  | None => None
  | Some o =>
      match (match o_applied o with [] => Some (h_overlay h) | _ => update_overlay n (h_overlay h) end) with
      | None => None
      | Some ov => Some (mkH after ov (match o_recompiled o with [] => h_compiled h | _ => if after then read ov dsk else None end))
      end
  end.

(** the changes of a didChange; Incremental: what they do to a text, None if they do not fit (see C06 for which
    changes the server applies as the protocol says) *)
Inductive changes := Full (t : text) | Incremental (f : text -> option text).
Definition edited (c : changes) (t : text) : option text := match c with Full t' => Some t' | Incremental f => f t end.
(** documents.go:18-38 ChangedText *)
Definition changed_text (c : changes) (base : option text) : option text :=
  match c with Full t => Some t | Incremental f => match base with Some t => f t | None => None end end.

(** What happens. [gone]: the resolver finds that the document has no module any more (resolver.go:137-143);
    [ok]: a path is found for a file that is created and can be opened (resolver.go:164-194). *)
Inductive event :=
| Open (t : text) (proto : bool)
| Edit (c : changes) (gone : bool)
| Save (gone : bool)
| Close
| Written (t : option text)              (* the file on disk changes; the server is told later or not at all *)
| Told (a : action) (ok gone : bool)     (* a notification about the file on disk *)
| Folders (c : option nat) (ok : bool).  (* afterwards the document belongs to c *)

Definition is_some {A} (o : option A) : bool := match o with Some _ => true | None => false end.
(** resolver.go:110-205 *)
Definition path_after (a : action) (exists_ ok gone before : bool) : bool :=
  match a with
  | AOpen | AClose | AUnknown => before
  | AChange | ASave => before && negb gone
  | ACreate => (exists_ && ok) || before
  | ADelete => false
  end.
Definition set_ws (s : state) (c : nat) (h : holding) : state :=
  mkS (editor s) (disk s) (route s) (fun x => if Nat.eqb x c then Some h else ws s x).
(** a handler: CacheForURI, then DidModifyFiles; [text_of]: the text sent, from what is held, None if the handler
    returns an error *)
Definition serve (s : state) (a : action) (v : Z) (proto on_disk ok gone : bool) (text_of : holding -> option (option text)) : option state :=
  match route s with
  | None => Some s
  | Some c =>
      match ws s c with
      | None => Some s
      | Some h =>
          match text_of h with
          | None => Some s
          | Some t =>
              match deliver (disk s) (path_after a (is_some (disk s)) ok gone (h_path h)) h (mkN (mkMod 0 a v proto) t on_disk) with
              | Some h' => Some (set_ws s c h')
              | None => None
              end
          end
      end
  end.
(** One event, first in the client or on disk, then in the server. None: the server has panicked. The versions play
    no part here (see Documents). *)
Definition step (s : state) (e : event) : option state :=
  match e with
  | Open t proto => serve (mkS (Some t) (disk s) (route s) (ws s)) AOpen 1 proto false false false (fun _ => Some (Some t))
  | Edit c gone =>
      let t' := match editor s with Some t => edited c t | None => None end in
      serve (mkS t' (disk s) (route s) (ws s)) AChange 2 false false false gone
        (fun h => match changed_text c (read (h_overlay h) (disk s)) with Some t => Some (Some t) | None => None end)
  | Save gone => serve (mkS (editor s) (editor s) (route s) (ws s)) ASave 0 false false false gone (fun _ => Some None)
  | Close => serve (mkS None (disk s) (route s) (ws s)) AClose (-1) false false false false (fun _ => Some None)
  | Written t => Some (mkS (editor s) t (route s) (ws s))
  | Told a ok gone => serve s a (-1) false true ok gone (fun _ => Some None)
  | Folders c ok =>
      (* server.go:80-107 with LoadFiles (cache.go:104-116) for a workspace that is new *)
      let s' := mkS (editor s) (disk s) c (ws s) in
      match c with
      | None => Some s'
      | Some i => match ws s i with
                  | Some _ => Some s'
                  | None => let found := (is_some (disk s) && ok)%bool in Some (set_ws s' i (mkH found None (if found then disk s else None)))
                  end
      end
  end.
Fixpoint run (s : state) (es : list event) : option state :=
  match es with [] => Some s | e :: r => match step s e with Some s' => run s' r | None => None end end.
(** before anything happens *)
Definition start (d : option text) : state := mkS None d None (fun _ => None).
