(** Code action requests (codeactions.go) and deferred code actions
    (refactor.go:40-104). *)
From Coq Require Import Ascii String.
From Verif Require Import Base Strs.
Open Scope list_scope.

Definition dot : ascii := "."%char.

(** ** Requested kinds *)

Definition quickfix := b_ "quickfix".
Definition organize := b_ "source.organizeImports".
Definition fix_all := b_ "source.fixAll".
Definition rewrite_kind := b_ "refactor.rewrite".
Definition inline_kind := b_ "refactor.inline".
Definition extract_kind := b_ "refactor.extract".

(** codeactions.go:149-156; the iteration order of the map is immaterial *)
Definition supported : list bytes := [fix_all; organize; quickfix; rewrite_kind; inline_kind; extract_kind].
(** codeactions.go:166-168, protocol.GoTest *)
Definition explicit_kind (k : bytes) : bool := beq k (b_ "source.test").

Notation kmap := (list (bytes * bool)).
Fixpoint kget (m : kmap) (k : bytes) : bool :=
  match m with [] => false | (k', v) :: r => if beq k k' then v else kget r k end.
Definition kset (m : kmap) (k : bytes) (v : bool) : kmap := (k, v) :: m.

(** codeactions.go:175-179: one requested kind against the supported ones *)
Fixpoint add_supported (only : bytes) (ks : list bytes) (m : kmap) : kmap :=
  match ks with
  | [] => m
  | k :: r =>
      add_supported only r
        (if beq only k || has_prefix k (only ++ [dot])%list then kset m k (kget m k || true) else m)
  end.
(** codeactions.go:174-181 *)
Fixpoint add_all (onlys : list bytes) (m : kmap) : kmap :=
  match onlys with
  | [] => m
  | o :: r => let m' := add_supported o supported m in
              add_all r (kset m' o (kget m' o || explicit_kind o))
  end.
(** requestedActionKinds, codeactions.go:159-188; [None] is the error *)
Definition requested (only : list bytes) : option kmap :=
  match only with
  | [] => Some (map (fun k => (k, true)) supported)
  | _ => match add_all only [] with [] => None | m => Some m end
  end.

(** ** Collecting actions *)

Record edit := mkEdit { erange : nat; etext : bytes }.
(** the Changes of an action, in the iteration order of the map *)
Notation changes := (list (nat * list edit)).
Record action := mkAction { kind : bytes; title : nat; chg : changes }.

(** An action stored with a diagnostic, and the document its path resolves to
    ([None]: PathToURI fails, codeactions.go:84-91) *)
Record raw := mkRaw { rkind : bytes; rtitle : nat; ruri : option nat; redits : list edit }.

(** A diagnostic sent along with a request: without data, with data that does
    not parse, or with stored actions and perhaps an undeclared name *)
Inductive diag := NoData | BadData | Data (raws : list raw) (undeclared : option nat).

(** codeactions.go:78-108 *)
Fixpoint to_protocol (want : kmap) (rs : list raw) : list action :=
  match rs with
  | [] => []
  | r :: rest =>
      match ruri r with
      | None => to_protocol want rest
      | Some u => if kget want (rkind r)
                  then mkAction (rkind r) (rtitle r) [(u, redits r)] :: to_protocol want rest
                  else to_protocol want rest
      end
  end.

Section Collect.
(** the import suggestions for a name (RefactorUndeclaredName, refactor.go:132-188): documents, titles and edits *)
Variable suggestions : nat -> list (nat * changes).
(** what the analyzers of a kind report (refactor.go:26-38, 106-130); every action they enqueue has that kind (refactor.go:243, 524, 698, 846) *)
Variable analyzers : bytes -> list (nat * changes).
(** the document has a compilation result and a mapper; [Some false] if only the mapper fails (codeactions.go:63-67) *)
Variable result_state : option bool.

(** codeactions.go:41-50: the kind used for import suggestions *)
Definition undeclared_kind (want : kmap) : option bytes :=
  if kget want quickfix then Some quickfix
  else if kget want organize then Some organize
  else if kget want fix_all then Some fix_all
  else None.

(** codeactions.go:38-58 *)
Definition undeclared_actions (want : kmap) (name : nat) : list action :=
  match undeclared_kind want with
  | None => []
  | Some k =>
      let acts := map (fun s => mkAction k (fst s) (snd s)) (suggestions name) in
      if negb (List.length acts =? 1) && beq k organize then [] else acts
  end.

(** codeactions.go:21-61 *)
Fixpoint collect (want : kmap) (ds : list diag) : option (list action) :=
  match ds with
  | [] => Some []
  | NoData :: r => collect want r
  | BadData :: _ => None
  | Data rs u :: r =>
      match collect want r with
      | None => None
      | Some rest => Some (to_protocol want rs ++ match u with None => [] | Some n => undeclared_actions want n end ++ rest)%list
      end
  end.

(** refactor.go:106-130; the map and channel orders are arbitrary, here rewrite, extract, inline *)
Definition refactor_actions (want : kmap) : list action :=
  flat_map (fun k => if kget want k then map (fun s => mkAction k (fst s) (snd s)) (analyzers k) else [])
           [rewrite_kind; extract_kind; inline_kind].

(** ** Merging organize-imports actions, codeactions.go:110-147 *)
Definition mem (x : bytes) (l : list bytes) : bool := existsb (beq x) l.

Fixpoint cget (c : changes) (u : nat) : list edit :=
  match c with [] => [] | (u', es) :: r => if u =? u' then es else cget r u end.
Fixpoint cadd (c : changes) (u : nat) (e : edit) : changes :=
  match c with
  | [] => [(u, [e])]
  | (u', es) :: r => if u =? u' then (u', es ++ [e])%list :: r else (u', es) :: cadd r u e
  end.

(** codeactions.go:123-131 *)
Fixpoint merge_edits (u : nat) (es : list edit) (seen : list bytes) (c : changes) : list bytes * changes :=
  match es with
  | [] => (seen, c)
  | e :: r =>
      match etext e with
      | [] => merge_edits u r seen (cadd c u e)
      | _ => if mem (etext e) seen then merge_edits u r seen c
             else merge_edits u r (etext e :: seen) (cadd c u e)
      end
  end.
(** codeactions.go:122-132 *)
Fixpoint merge_changes (cs : changes) (seen : list bytes) (c : changes) : list bytes * changes :=
  match cs with
  | [] => (seen, c)
  | (u, es) :: r => let '(seen', c') := merge_edits u es seen c in merge_changes r seen' c'
  end.
(** codeactions.go:120-136; every organize-imports action carries an edit, so the nil dereference at 122 is not modelled *)
Fixpoint aggregate_loop (acts : list action) (filtered : list action) (seen : list bytes) (c : changes) : list action * changes :=
  match acts with
  | [] => (filtered, c)
  | a :: r =>
      if beq (kind a) organize then
        let '(seen', c') := merge_changes (chg a) seen c in aggregate_loop r filtered seen' c'
      else aggregate_loop r (filtered ++ [a])%list seen c
  end.
Definition organize_title : nat := 0.
Definition aggregate (acts : list action) : list action :=
  let '(filtered, c) := aggregate_loop acts [] [] [] in
  match c with [] => filtered | _ => (filtered ++ [mkAction organize organize_title c])%list end.

(** GetCodeActions, codeactions.go:13-76; [None] is an error *)
Definition get_code_actions (only : list bytes) (ds : list diag) : option (list action) :=
  match requested only with
  | None => None
  | Some want =>
      match collect want ds with
      | None => None
      | Some acts =>
          let refactors := kget want extract_kind || kget want inline_kind || kget want rewrite_kind in
          match (if refactors then result_state else None) with
          | Some false => None
          | st =>
              let acts' := (acts ++ match st with Some true => refactor_actions want | _ => [] end)%list in
              Some (if kget want organize then aggregate acts' else acts')
          end
      end
  end.
End Collect.

(** ** Deferred actions, refactor.go:40-104 *)

(** Timer of an action: running, expired with its delete still to run, or over
    (delete has run, or it was stopped in time by cancelDelete). *)
Inductive timer := Running | Expired | Over.

Record queue := mkQueue {
  next : nat;                       (* fresh ids: uuid.NewString never repeats *)
  stored : list nat;                (* keys of q.queue *)
  timers : nat -> option timer;     (* context.AfterFunc of each id *)
  prepared : list nat;              (* enqueue calls between setting the timer (line 61-64) and storing (line 65) *)
  executed : list nat;              (* ids whose computation has been run, latest first *)
  failed : nat                      (* resolve calls that returned an error before computing *)
}.

Inductive qevent :=
| QPrepare          (* refactor.go:60-64 *)
| QStore (id : nat) (* refactor.go:65-70 *)
| QExpire (id : nat) (* the 30 s context ends: the delete function is started *)
| QDelete (id : nat) (* refactor.go:63 *)
| QResolve (id : option nat). (* refactor.go:84-99; None: missing or malformed data *)

Definition remove_id (id : nat) (l : list nat) : list nat := filter (fun x => negb (x =? id)) l.
Definition mem_id (id : nat) (l : list nat) : bool := existsb (Nat.eqb id) l.

Definition qstep (e : qevent) (q : queue) : option queue :=
  let 'mkQueue n st t p ex f := q in
  match e with
  | QPrepare => Some (mkQueue (S n) st (upd t n (Some Running)) (n :: p) ex f)
  | QStore id => if mem_id id p then Some (mkQueue n (id :: st) t (remove_id id p) ex f) else None
  | QExpire id => match t id with Some Running => Some (mkQueue n st (upd t id (Some Expired)) p ex f) | _ => None end
  | QDelete id => match t id with Some Expired => Some (mkQueue n (remove_id id st) (upd t id (Some Over)) p ex f) | _ => None end
  | QResolve None => Some (mkQueue n st t p ex (S f))
  | QResolve (Some id) =>
      if mem_id id st then
        Some (mkQueue n (remove_id id st)
                (match t id with Some Running => upd t id (Some Over) | _ => t end) p (id :: ex) f)
      else Some (mkQueue n st t p ex (S f))
  end.
Fixpoint qrun (es : list qevent) (q : queue) : option queue :=
  match es with [] => Some q | e :: r => match qstep e q with Some q' => qrun r q' | None => None end end.
Definition qinit : queue := mkQueue 0 [] (fun _ => None) [] [] 0.
