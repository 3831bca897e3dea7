(** Model of how a refactoring gets from the server into the client's document: pkg/lsp/refactor.go:59-104
    (enqueue, resolve, resolveCodeAction), 243, 524, 698, 846 (what is enqueued) and pkg/lsp/server.go:829-832,
    863-876 (clientSupportsResolveEdits, ResolveCodeAction).

    What a refactoring computes is a parameter, a function of the text that was compiled (243-251, 524-650,
    698-800, 846-900; see the Refactor, Simplify, Rewrite and Retype areas); the function may fail.  The
    mapper of a document has the address it was asked for (documents.go:140-157), so that the address in the
    data of an action is the one its edits are for.  Timers are the Expire step (61-64); the queue itself is
    C26.  The client follows the protocol: it numbers the versions of a document, a change increments the
    number, opening it starts at 1, it refuses a versioned edit of another version and applies one without. *)
From Verif Require Import Base Strs.
Open Scope list_scope.

Section Apply.
Variable edits : Type.
(** the refactoring of a number (which analyzer, for which selection) on a text *)
Variable compute : nat -> bytes -> option edits.
(** the client applies edits *)
Variable apply : edits -> bytes -> bytes.
(** 829-832: textDocument.codeAction.resolveSupport.properties contains "edit" *)
Variable supports : bool.

Record doc := mkDoc { version : nat; text : bytes }.
(** a pendingCodeAction (refactor.go:40-45): its closure has the compiled file and the request *)
Record pending := mkPending { p_id : nat; p_kind : nat; p_text : bytes }.
(** a protocol.CodeAction as returned by enqueue: the data (53-57); there is no edit in it (81-85) *)
Record action := mkAction { c_id : nat; c_uri : nat; c_version : nat; c_edit : option edits }.
(** a resolved action under way to the client: versioned document changes or plain changes *)
Record answer := mkAnswer { a_id : nat; a_uri : nat; a_version : option nat; a_edits : edits }.
(** an application of edits by the client: the action, the document, its text before, the edits *)
Record applied := mkApplied { l_id : nat; l_uri : nat; l_before : bytes; l_edits : edits }.
Record state := mkState {
  docs : nat -> doc;
  compiled : nat -> doc;
  fresh : nat;
  queue : list pending;
  actions : list action;
  answers : list answer;
  log : list applied
}.
Definition upd {A} (f : nat -> A) (u : nat) (a : A) : nat -> A := fun v => if v =? u then a else f v.
Definition init : state := let d := fun _ => mkDoc 1 [] in mkState d d 0 [] [] [] [].

(** the client's changes of a document: an edit, and closing and opening it with another content; a
    compilation; an offer of a refactoring of the file as compiled; the end of an action's 30 seconds; choosing
    an action in a client that does not resolve; resolving one; receiving the answer *)
Inductive op :=
| Change (u : nat) (t : bytes) | Reopen (u : nat) (t : bytes) | Compile (u : nat)
| Offer (u k : nat) | Expire (i : nat) | Choose (i : nat) | Resolve (i : nat) | Deliver (i : nat).

(** gsync.Map Load and Delete *)
Definition lookup (i : nat) (q : list pending) : option pending := find (fun p => p_id p =? i) q.
Definition delete (i : nat) (q : list pending) : list pending := filter (fun p => negb (p_id p =? i)) q.
(** 59-86 enqueue; the version is that of the compiled file *)
Definition offer (s : state) (u k : nat) : state :=
  let c := compiled s u in
  mkState (docs s) (compiled s) (S (fresh s)) (mkPending (fresh s) k (text c) :: queue s)
    (mkAction (fresh s) u (version c) None :: actions s) (answers s) (log s).
(** refactor.go:88-100 and server.go:864-876; an error is no answer *)
Definition resolve (s : state) (i : nat) : state :=
  match find (fun a => c_id a =? i) (actions s) with
  | None => s
  | Some a =>
      match lookup i (queue s) with
      | None => s
      | Some p =>
          mkState (docs s) (compiled s) (fresh s) (delete i (queue s)) (actions s)
            (match compute (p_kind p) (p_text p) with
             | None => answers s
             | Some e => mkAnswer i (c_uri a) (if supports then Some (c_version a) else None) e :: answers s
             end) (log s)
      end
  end.
(** the client *)
Definition perform (s : state) (i u : nat) (e : edits) : state :=
  let d := docs s u in
  mkState (upd (docs s) u (mkDoc (S (version d)) (apply e (text d)))) (compiled s) (fresh s) (queue s) (actions s) (answers s)
    (mkApplied i u (text d) e :: log s).
Definition deliver (s : state) (i : nat) : state :=
  match find (fun a => a_id a =? i) (answers s) with
  | None => s
  | Some a =>
      let s := mkState (docs s) (compiled s) (fresh s) (queue s) (actions s) (filter (fun b => negb (a_id b =? i)) (answers s)) (log s) in
      match a_version a with
      | Some v => if v =? version (docs s (a_uri a)) then perform s i (a_uri a) (a_edits a) else s
      | None => perform s i (a_uri a) (a_edits a)
      end
  end.
Definition choose (s : state) (i : nat) : state :=
  match find (fun a => c_id a =? i) (actions s) with
  | Some a => match c_edit a with Some e => perform s i (c_uri a) e | None => s end
  | None => s
  end.
Definition set_doc (s : state) (u : nat) (d : doc) : state :=
  mkState (upd (docs s) u d) (compiled s) (fresh s) (queue s) (actions s) (answers s) (log s).
Definition step (s : state) (o : op) : state :=
  match o with
  | Change u t => set_doc s u (mkDoc (S (version (docs s u))) t)
  | Reopen u t => set_doc s u (mkDoc 1 t)
  | Compile u => mkState (docs s) (upd (compiled s) u (docs s u)) (fresh s) (queue s) (actions s) (answers s) (log s)
  | Offer u k => offer s u k
  | Expire i => mkState (docs s) (compiled s) (fresh s) (delete i (queue s)) (actions s) (answers s) (log s)
  | Choose i => choose s i
  | Resolve i => resolve s i
  | Deliver i => deliver s i
  end.
Definition run (h : list op) : state := fold_left step h init.
End Apply.
