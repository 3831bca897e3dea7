(** Model of pkg/lsp/diagnostics.go: per-file diagnostic lists, clearing,
    flushing to the attached stream, queries by result id, and the elevation of
    warnings. *)
From Coq Require Import Ascii String.
From Verif Require Import Base Strs.
Open Scope list_scope.

Notation path := nat (only parsing).
Notation time := nat (only parsing).

(** ast.SourceSpan as far as it is used here: the file it starts in and its
    extent. Compared with [==] at diagnostics.go:220. *)
Record span := mkSpan { sfile : path; sfrom : nat; sto : nat }.
Definition span_eqb (a b : span) : bool :=
  (sfile a =? sfile b) && (sfrom a =? sfrom b) && (sto a =? sto b).

(** diagnostics.go:130-149 ProtoDiagnostic, RelatedInformation. [what] stands
    for the fields that are only passed through (Version, Error, Tags,
    CodeActions, Metadata); severity and WerrorCategory are modelled separately
    below ([report]). Simplified: RelatedInformation without its Message. *)
Record diag := mkDiag { drange : span; drelated : list span; what : nat }.

(** diagnostics.go:177-182 DiagnosticList. resultId is [None] for the initial
    empty string and [Some t] for the formatted clock reading [t]
    (diagnostics.go:240; time.Format with RFC3339Nano is taken to be injective
    on clock readings of one process). *)
Record dlist := mkList { items : list diag; resultId : option time; dirty : bool }.

(** diagnostics.go:413 new list *)
Definition new_list : dlist := mkList [] None false.

(** diagnostics.go:184-192 Add (the clock reads [t]) *)
Definition l_add (d : diag) (t : time) (l : dlist) : dlist := mkList (items l ++ [d]) (Some t) true.

(** diagnostics.go:207-214 Clear *)
Definition l_clear (t : time) (l : dlist) : dlist := mkList [] (Some t) true.

(** diagnostics.go:216-226 DeleteRelated: the first diagnostic with that range *)
Fixpoint remove_first (r : span) (ds : list diag) : option (list diag) :=
  match ds with
  | [] => None
  | d :: ds' => if span_eqb (drange d) r then Some ds'
                else match remove_first r ds' with Some x => Some (d :: x) | None => None end
  end.
Definition l_delete_related (r : span) (t : time) (l : dlist) : dlist :=
  match remove_first r (items l) with
  | Some ds => mkList ds (Some t) true
  | None => l
  end.

(** diagnostics.go:194-205 Get with one previous result id: [None] is the
    answer "unchanged" *)
Definition l_get (prev : option (option time)) (l : dlist) : option (list diag) * option time :=
  match prev with
  | Some p => if (match resultId l, p with Some a, Some b => a =? b | None, None => true | _, _ => false end)
              then (None, resultId l) else (Some (items l), resultId l)
  | None => (Some (items l), resultId l)
  end.

(** diagnostics.go:249-254 DiagnosticHandler, together with the environment
    the stream callback of StreamWorkspaceDiagnostics (112-128) looks at: which
    paths currently map to a URI (resolver.go:74-87), and what was sent. *)
Record state := mkState {
  lists : path -> option dlist;
  listening : bool;
  mapped : path -> bool;
  sent : list (path * list diag)  (* newest last *)
}.
Definition init : state := mkState (fun _ => None) false (fun _ => true) [].

Definition on_list (p : path) (f : dlist -> dlist) (s : state) : state :=
  match lists s p with
  | Some l => mkState (upd (lists s) p (Some (f l))) (listening s) (mapped s) (sent s)
  | None => s
  end.

(** diagnostics.go:410-417 getOrCreateDiagnosticListLocked *)
Definition create (p : path) (s : state) : state :=
  match lists s p with
  | Some _ => s
  | None => mkState (upd (lists s) p (Some new_list)) (listening s) (mapped s) (sent s)
  end.

(** diagnostics.go:598-606, one iteration of Flush, with 228-236 (list Flush)
    and the callback 113-127, which sends nothing if the path has no URI *)
Definition flush_one (p : path) (s : state) : state :=
  match lists s p with
  | Some l =>
      if dirty l then
        mkState (upd (lists s) p (Some (mkList (items l) (resultId l) false))) (listening s) (mapped s)
          (if listening s && mapped s p then sent s ++ [(p, items l)] else sent s)
      else s
  | None => s
  end.

(** The atomic actions; everything concurrent is an interleaving of these.
    HandleError/HandleWarning (419-497) = Create then Add; Stream (571-591) =
    Attach ... Detach; Map/Unmap: resolver.go:110-205. *)
Inductive op :=
| Create (p : path)
| Add (p : path) (d : diag) (t : time)
| Clear (p : path) (t : time)
| DeleteRelated (r : span) (t : time)
| FlushOne (p : path)
| Attach | Detach
| Map (p : path) | Unmap (p : path).

Definition step (s : state) (o : op) : state :=
  match o with
  | Create p => create p s
  | Add p d t => on_list p (l_add d t) s
  | Clear p t => on_list p (l_clear t) s
  | DeleteRelated r t => on_list (sfile r) (l_delete_related r t) s
  | FlushOne p => flush_one p s
  | Attach => mkState (lists s) true (mapped s) (sent s)
  | Detach => mkState (lists s) false (mapped s) (sent s)
  | Map p => mkState (lists s) (listening s) (upd (mapped s) p true) (sent s)
  | Unmap p => mkState (lists s) (listening s) (upd (mapped s) p false) (sent s)
  end.
Definition run_from (s : state) (h : list op) : state := fold_left step h s.
Definition run (h : list op) : state := run_from init h.

(** diagnostics.go:593-608 Flush: every list in some order (Go's map order). *)
Definition flush_ops (order : list path) : list op := map FlushOne order.

(** diagnostics.go:537-569 ClearDiagnosticsForPath as the actions it performs;
    the clock reads [ts 0], [ts 1], ... *)
Definition clear_ops (s : state) (p : path) (ts : nat -> time) : list op :=
  match lists s p with
  | Some l => Clear p (ts 0) ::
              map (fun ir => DeleteRelated (snd ir) (ts (S (fst ir))))
                  (combine (seq 0 (List.length (flat_map drelated (items l)))) (flat_map drelated (items l)))
  | None => []
  end.
Definition clear_path (s : state) (p : path) (ts : nat -> time) : state := run_from s (clear_ops s p ts).

(** diagnostics.go:499-510 GetDiagnosticsForPath *)
Definition get (s : state) (p : path) (prev : option (option time)) : option (list diag) * option time :=
  match lists s p with
  | Some l => l_get prev l
  | None => (Some [], None)
  end.

(** ** Warning elevation, diagnostics.go:65-83 *)

Inductive severity := Error | Warning | Other.

(** unicode.IsSpace restricted to ASCII *)
Definition is_space (c : ascii) : bool :=
  let n := nat_of_ascii c in (n =? 32) || ((9 <=? n) && (n <=? 13)).

(** strings.Fields *)
Fixpoint fields_from (cur s : bytes) : list bytes :=
  match s with
  | [] => match cur with [] => [] | _ => [rev cur] end
  | c :: s' => if is_space c
               then (match cur with [] => fields_from [] s' | _ => rev cur :: fields_from [] s' end)
               else fields_from (c :: cur) s'
  end.
Definition fields (s : bytes) : list bytes := fields_from [] s.

Definition eqc : ascii := "="%char.
(** strings.Cut(v, "=") *)
Fixpoint cut_eq (s : bytes) : option (bytes * bytes) :=
  match s with
  | [] => None
  | c :: s' => if Ascii.eqb c eqc then Some ([], s')
               else match cut_eq s' with Some (k, v) => Some (c :: k, v) | None => None end
  end.

(** diagnostics.go:70-77, one field *)
Definition suppresses (cat v : bytes) : bool :=
  match cut_eq v with
  | Some (k, v') => beq k (b_ "Wnoerror") && (beq v' cat || beq v' (b_ "all"))
  | None => false
  end.

(** diagnostics.go:65-83; [dbg] is the value of the file's debug pragma if it
    has one. The result is stored back into the diagnostic (line 81). *)
Definition elevate (dbg : option bytes) (cat : bytes) (sev : severity) : severity :=
  match sev, cat with
  | Warning, _ :: _ =>
      if match dbg with Some s => existsb (suppresses cat) (fields s) | None => false end then Warning else Error
  | _, _ => sev
  end.

(** reporting one diagnostic repeatedly, with the debug pragma in force each
    time; returns the severities reported *)
Fixpoint report_all (cat : bytes) (sev : severity) (dbgs : list (option bytes)) : list severity :=
  match dbgs with
  | [] => []
  | dbg :: r => let s := elevate dbg cat sev in s :: report_all cat s r
  end.
