(** Model of pkg/lsp/links.go, the import hints of pkg/lsp/inlayhints.go:93-186
    and pkg/lsp/format.go. *)
From Coq Require Import Ascii String.
From Verif Require Import Base Strs.
Open Scope list_scope.

(** ** Imports and dependencies *)

(** A complete import statement (links.go:28-35): the value of the literal, its
    line, and the columns of its first and after its last character (from 0). *)
Record import := mkImport { i_name : bytes; i_line : nat; i_start : nat; i_end : nat }.

Definition descriptor : bytes := b_ "google/protobuf/descriptor.proto".

(** The index of the first occurrence (48-49) *)
Fixpoint find_dep (deps : list bytes) : option nat :=
  match deps with
  | [] => None
  | d :: r => if beq d descriptor then Some 0 else option_map S (find_dep r)
  end.
Definition spelled (imports : list import) : bool := existsb (fun i => beq (i_name i) descriptor) imports.

(** append(deps[:i], deps[i+1:]...), line 50: the slice it evaluates to, and
    what the array shared with the descriptor holds afterwards. The
    descriptor's own slice keeps its length. *)
Definition cut (deps : list bytes) (i : nat) : list bytes := firstn i deps ++ skipn (S i) deps.
Definition after_cut (deps : list bytes) (i : nat) : list bytes := cut deps i ++ [last deps []].

(** links.go:37-54 and inlayhints.go:118-135: the paths used, and the stored
    dependency list afterwards *)
Definition view (imports : list import) (deps : list bytes) : list bytes * list bytes :=
  if spelled imports then (deps, deps)
  else match find_dep deps with
       | Some i => (cut deps i, after_cut deps i)
       | None => (deps, deps)
       end.

(** the loop over imports; None: index out of range *)
Fixpoint zip {A} (f : import -> bytes -> list A) (imports : list import) (paths : list bytes) : option (list A) :=
  match imports, paths with
  | [], _ => Some []
  | _ :: _, [] => None
  | i :: r, p :: ps => option_map (app (f i p)) (zip f r ps)
  end.

(** ** Links, links.go:56-81 *)

Definition link := (import * bytes)%type.       (* the literal and the target URI *)
(** [target]: FindFileByPath and PathToURI, None if either fails *)
Definition links (target : bytes -> option bytes) (imports : list import) (deps : list bytes)
  : option (list link) * list bytes :=
  let '(paths, stored) := view imports deps in
  (zip (fun i p => match target p with Some u => [(i, u)] | None => [] end) imports paths, stored).

(** ** Import hints, inlayhints.go:137-183 *)

Definition trim_suffix (s t : bytes) : bytes := firstn (List.length s - List.length t) s.
Record hint := mkHint { h_line : nat; h_col : nat; h_label : bytes; h_from : nat; h_to : nat; h_new : bytes }.
Definition hint_for (i : import) (p : bytes) : list hint :=
  if beq p (i_name i) then []
  else
    let '(col, label) :=
      if has_suffix p (i_name i) then (i_start i + 1, trim_suffix p (i_name i))      (* 145-151 *)
      else (i_end i + 3, p) in                                                       (* 154-158: the column counted from 1, plus 2 *)
    [mkHint (i_line i) col label (i_start i + 1) (i_end i - 1) p].                   (* 167-172 *)
Definition hints (imports : list import) (deps : list bytes) : option (list hint) * list bytes :=
  let '(paths, stored) := view imports deps in (zip hint_for imports paths, stored).

(** A client's requests in order; the stored list is carried along. *)
Inductive request := Links | Hints.
Inductive answer := ALinks (l : option (list link)) | AHints (l : option (list hint)).
Definition serve (target : bytes -> option bytes) (imports : list import) (deps : list bytes) (r : request)
  : answer * list bytes :=
  match r with
  | Links => let '(l, d) := links target imports deps in (ALinks l, d)
  | Hints => let '(l, d) := hints imports deps in (AHints l, d)
  end.
Fixpoint serve_all (target : bytes -> option bytes) (imports : list import) (deps : list bytes) (rs : list request)
  : list answer * list bytes :=
  match rs with
  | [] => ([], deps)
  | r :: rest =>
      let '(a, d) := serve target imports deps r in
      let '(as_, d') := serve_all target imports d rest in (a :: as_, d')
  end.

(** Accepting a hint: the text edit of lines 167-172 on its line *)
Definition accept (line : bytes) (h : hint) : bytes := firstn (h_from h) line ++ h_new h ++ skipn (h_to h) line.

(** ** Formatting a document, format.go:11-44 *)

(** What the three reads of a formatting request see: whether the diagnostics
    contain a syntax error (line 15), the overlay's content (20), the content
    the stored syntax tree was parsed from (24; the tree of a text with syntax
    errors is not stored). *)
Record server := mkServer { bad : bool; overlay : bytes; parsed : bytes }.

Section Formatting.
  Variable parses : bytes -> bool.
  Variable nofmt : bytes -> bool.             (* the pragma, line 32 *)
  Variable format : bytes -> bytes.

  (** a change is two steps: documents.go:92 and, with the lock held, 96-101 *)
  Inductive event :=
  | Change (c : bytes)
  | Compile
  | Read (n : nat).                           (* the next read of request n *)

  (** A request: what it has read so far, or its answer: no edits, or edits
      that turn the first text into the second (diff.Bytes). The range of a
      range request is ignored (line 11). *)
  Inductive req := Before | Checked | Got (c : bytes) | NoEdits | Edits (old new : bytes).

  Definition step_req (s : server) (r : req) : req :=
    match r with
    | Before => if bad s then NoEdits else Checked
    | Checked => Got (overlay s)
    | Got c => if nofmt (parsed s) then NoEdits else Edits c (format (parsed s))
    | r => r
    end.
  Definition step (st : server * (nat -> req)) (e : event) : server * (nat -> req) :=
    let '(s, rs) := st in
    match e with
    | Change c => (mkServer (bad s) c (parsed s), rs)
    | Compile => (mkServer (negb (parses (overlay s))) (overlay s)
                    (if parses (overlay s) then overlay s else parsed s), rs)
    | Read n => (s, upd rs n (step_req s (rs n)))
    end.
  Definition run (es : list event) (st : server * (nat -> req)) : server * (nat -> req) := fold_left step es st.
End Formatting.
