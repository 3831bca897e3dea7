(** Model of the compilation result cache:
    pkg/lsp/compiler.go:24-162 and the lookups of pkg/lsp/cache.go:199-222,
    366-451, 481-484.

    Simplifications: file paths are numbers; a result of the external compiler
    is a number identifying it; timing maps and logging are left out. The
    external compiler is the input: each call of [compileLocked] comes with the
    set of paths its PreCompile hook was called for and with what it returned.
    The recursive call for synthetic files (compiler.go:153-161) is a further
    [Compile] operation. All of a [Compile] operation happens under the write
    lock (compiler.go:62-69), all lookups under the read lock, so operations
    are atomic with respect to each other. *)
From Verif Require Import Base.

Definition path := nat.
Definition rid := nat.      (** a result object of the external compiler *)
Definition prag := nat.     (** the pragma table of a file's AST *)

(** an element of c.results *)
Inductive entry := Linked (p : path) (r : rid) | Placeholder (p : path).

Definition epath (e : entry) : path := match e with Linked p _ => p | Placeholder p => p end.

Record state := mkState {
  results : list entry;                  (** c.results *)
  partials : path -> option rid;         (** c.partiallyLinkedResults *)
  unlinkeds : path -> option rid;        (** c.unlinkedResults *)
  pragmas : path -> option prag          (** c.pragmas *)
}.

(** cache.go:82-90 *)
Definition init : state := mkState [] (fun _ => None) (fun _ => None) (fun _ => None).

(** one reported file: path, result, pragmas of its AST *)
Definition item := (path * rid * prag)%type.

(** what compiler.Compile returned (compiler.go:78) *)
Record report := mkReport {
  r_files : list item;       (** res.Files *)
  r_partial : list item;     (** res.PartialLinkResults; a map, any order *)
  r_unlinked : list item     (** res.UnlinkedParserResults; a map, any order *)
}.

Inductive op :=
| Compile (pre : list path) (rep : option report)
    (** compileLocked; None: an error other than ErrInvalidSource, lines 79-84 *)
| Invalidate (p : path) (will_recompile : bool).

(** compiler.go:35-40: drop the first entry with the path *)
Fixpoint remove_first (l : list entry) (p : path) : list entry :=
  match l with
  | [] => []
  | e :: l' => if Nat.eqb (epath e) p then l' else e :: remove_first l' p
  end.

(** compiler.go:97-108, 122-127, 139-144: overwrite the first entry with the path *)
Fixpoint replace_first (l : list entry) (p : path) (e' : entry) : option (list entry) :=
  match l with
  | [] => None
  | e :: l' => if Nat.eqb (epath e) p then Some (e' :: l')
               else match replace_first l' p e' with Some r => Some (e :: r) | None => None end
  end.

(** compiler.go:44-51 *)
Definition pre_compile (s : state) (p : path) : state :=
  mkState (results s) (upd (partials s) p None) (upd (unlinkeds s) p None) (pragmas s).

(** compiler.go:87-116 *)
Definition add_file (s : state) (i : item) : state :=
  let '(p, r, g) := i in
  match replace_first (results s) p (Linked p r) with
  | Some l =>
      mkState l (upd (partials s) p None) (upd (unlinkeds s) p None)
        (match pragmas s p with Some _ => upd (pragmas s) p (Some g) | None => pragmas s end)
  | None =>
      mkState (results s ++ [Linked p r]) (upd (partials s) p None) (upd (unlinkeds s) p None)
        (upd (pragmas s) p (Some g))
  end.

Definition put_placeholder (l : list entry) (p : path) : list entry :=
  match replace_first l p (Placeholder p) with Some l' => l' | None => l end.

(** compiler.go:117-133 *)
Definition add_partial (s : state) (i : item) : state :=
  let '(p, r, g) := i in
  mkState (put_placeholder (results s) p) (upd (partials s) p (Some r)) (upd (unlinkeds s) p None)
    (upd (pragmas s) p (Some g)).

(** compiler.go:134-150 *)
Definition add_unlinked (s : state) (i : item) : state :=
  let '(p, r, g) := i in
  mkState (put_placeholder (results s) p) (upd (partials s) p None) (upd (unlinkeds s) p (Some r))
    (upd (pragmas s) p (Some g)).

Definition step (s : state) (o : op) : state :=
  match o with
  | Invalidate p will =>                                   (* compiler.go:30-42 *)
      if will then s
      else mkState (remove_first (results s) p) (partials s) (unlinkeds s) (pragmas s)
  | Compile pre rep =>
      let s1 := fold_left pre_compile pre s in
      match rep with
      | None => s1
      | Some rp =>
          let s2 := fold_left add_file (r_files rp) s1 in
          let s3 := fold_left add_partial (r_partial rp) s2 in
          fold_left add_unlinked (r_unlinked rp) s3
      end
  end.

Definition run (ops : list op) : state := fold_left step ops init.

Inductive lookup := Found (r : rid) | NotFound | Panicked.

Fixpoint find_file (l : list entry) (p : path) : option entry :=
  match l with
  | [] => None
  | e :: l' => if Nat.eqb (epath e) p then Some e else find_file l' p
  end.

(** cache.go:199-208; a placeholder is not a linker.Result, so the type
    assertion of line 207 panics on it *)
Definition find_result (s : state) (p : path) : lookup :=
  match find_file (results s) p with
  | None => NotFound
  | Some (Linked _ r) => Found r
  | Some (Placeholder _) => Panicked
  end.

(** cache.go:210-215 *)
Definition find_result_or_partial (s : state) (p : path) : lookup :=
  match partials s p with Some r => Found r | None => find_result s p end.

(** cache.go:217-222 *)
Definition find_parse (s : state) (p : path) : lookup :=
  match unlinkeds s p with Some r => Found r | None => find_result_or_partial s p end.

(** cache.go:371-380 and 420-427: the result objects a workspace-wide search visits *)
Definition searched (s : state) : list rid :=
  flat_map (fun e => match e with
                     | Linked _ r => [r]
                     | Placeholder p => match partials s p with Some r => [r] | None => [] end
                     end) (results s).
