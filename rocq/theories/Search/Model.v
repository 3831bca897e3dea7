(** Model of position and reference search: pkg/lsp/search.go:571-931. *)
From Verif Require Import Base.
Open Scope list_scope.

(** ** The token at a position, search.go:571-610 *)

(** What a token's node is: none, a punctuation rune, or anything else. *)
Inductive tnode := NoNode | RuneTok | NodeTok (id : nat).

(** A semanticItem (semantic_tokens.go): language, 0-based line, start column,
    length and node. Columns are uint32 in the code; the sum start+len is taken
    not to overflow. *)
Record item := mkItem { proto : bool; line : nat; start : nat; len : nat; node : tnode }.

(** findNarrowestSemanticToken, the loop of 572-608 *)
Fixpoint lookup (ts : list item) (l c : nat) : option item :=
  match ts with
  | [] => None
  | t :: r =>
      if negb (proto t) then lookup r l c                    (* 573 *)
      else if negb (l =? line t) then
        if l <? line t then None else lookup r l c           (* 577-583 *)
      else if len t =? 0 then lookup r l c                   (* 584 *)
      else if start t + len t <? c then lookup r l c         (* 590 *)
      else if c <? start t then None                         (* 594 *)
      else match node t with
           | NoNode => lookup r l c                          (* 598 *)
           | RuneTok => lookup r l c                         (* 602 *)
           | NodeTok _ => Some t                             (* 606 *)
           end
  end.

(** ** References from all files, search.go:906-931 *)

Section Refs.
  Context {ref : Type}.
  Variable key : ref -> nat.        (* NodeReference.String() *)

  (** One goroutine (915-923): the references still to look at; one claimed by
      LoadOrStore and about to be sent; or finished (wg.Done). *)
  Inductive worker := Look (todo : list ref) | Sending (r : ref) (todo : list ref) | Finished.

  (** The wait group's counter is the number of unfinished workers. [over]: the
      consumer's range loop has ended (references.go:17, 35). *)
  Record state := mkState {
    workers : list worker; seen : list nat; buffer : list ref; cap : nat;
    closed : bool; received : list ref; over : bool }.

  (** Files: None is a placeholder, otherwise what FindReferences returns. The
      channel's capacity counts placeholders too (908). *)
  Definition begin (files : list (option (list ref))) : state :=
    mkState (flat_map (fun f => match f with None => [] | Some rs => [Look rs] end) files)
      [] [] (length files) false [] false.

  Inductive act := Work (i : nat) | Close | Receive | End.

  Fixpoint set_nth (i : nat) (w : worker) (ws : list worker) : list worker :=
    match ws, i with
    | [], _ => []
    | _ :: r, 0 => w :: r
    | x :: r, S j => x :: set_nth j w r
    end.

  Definition is_finished (w : worker) : bool := match w with Finished => true | _ => false end.

  (** One atomic step. A send waits for room in the buffer; it would panic on a
      closed channel. None: not enabled. *)
  Inductive outcome := Next (s : state) | Panic.

  Definition step (s : state) (a : act) : option outcome :=
    if over s then None else
    match a with
    | Work i =>
        match nth_error (workers s) i with
        | None | Some Finished => None
        | Some (Look []) =>
            Some (Next (mkState (set_nth i Finished (workers s)) (seen s) (buffer s) (cap s) (closed s) (received s) (over s)))
        | Some (Look (r :: t)) =>                              (* LoadOrStore, 919 *)
            if existsb (Nat.eqb (key r)) (seen s)
            then Some (Next (mkState (set_nth i (Look t) (workers s)) (seen s) (buffer s) (cap s) (closed s) (received s) (over s)))
            else Some (Next (mkState (set_nth i (Sending r t) (workers s)) (key r :: seen s) (buffer s) (cap s) (closed s) (received s) (over s)))
        | Some (Sending r t) =>                                (* 920 *)
            if closed s then Some Panic
            else if length (buffer s) <? cap s
            then Some (Next (mkState (set_nth i (Look t) (workers s)) (seen s) (buffer s ++ [r]) (cap s) (closed s) (received s) (over s)))
            else None
        end
    | Close =>                                                 (* 925-928 *)
        if forallb is_finished (workers s) && negb (closed s)
        then Some (Next (mkState (workers s) (seen s) (buffer s) (cap s) true (received s) (over s)))
        else None
    | Receive =>
        match buffer s with
        | [] => None
        | r :: b => Some (Next (mkState (workers s) (seen s) b (cap s) (closed s) (received s ++ [r]) (over s)))
        end
    | End =>
        match buffer s with
        | [] => if closed s then Some (Next (mkState (workers s) (seen s) [] (cap s) true (received s) true)) else None
        | _ :: _ => None
        end
    end.

  Fixpoint run (s : state) (acts : list act) : option outcome :=
    match acts with
    | [] => Some (Next s)
    | a :: r => match step s a with
                | Some (Next s') => run s' r
                | Some Panic => Some Panic
                | None => None
                end
    end.
End Refs.
Arguments worker : clear implicits.
Arguments state : clear implicits.
Arguments outcome : clear implicits.

(** ** Paths, search.go:648-851 *)

(** Source positions, 0-based. *)
Record pos := mkPos { pl : nat; pc : nat }.

(** protocol.Intersect of a node's range with the empty range at [p] (gopls):
    both ends count as inside. *)
Definition intersects (s e p : pos) : bool :=
  if (pl p <? pl s) || (pl e <? pl p) then false
  else negb ((pl s =? pl p) && (pc p <? pc s) || (pl e =? pl p) && (pc e <? pc p)).

(** The last node of a declaration (semicolon, brace, ...): missing, a virtual
    rune, or a real one with its end position. *)
Inductive closing := NoClose | VirtualClose | ClosesAt (e : pos).

(** intersectsLocationExclusive, 656-669 *)
Definition intersects_exclusive (s e : pos) (c : closing) (p : pos) : bool :=
  match c with
  | NoClose | VirtualClose => intersects s e p
  | ClosesAt q => if intersects s q p then (pl p <? pl q) || (pc p <? pc q) else false
  end.

(** How the visitor of 677-772 treats a node.
    [Scoped c]: import, syntax, message, enum, enum value, service, option,
    message literal, compact options, field, rpc type, package (679-771, exclusive
    of the closing token); [Spanned]: option name, field reference, error;
    [Rpc semi close]; [Extend incomplete c]; [MsgField sep]: a message literal
    field, with its separator's token if it has one; [Plain]: anything else. *)
Inductive kind :=
| Scoped (c : closing) | Spanned
| Rpc (semi close : closing) | Extend (incomplete : bool) (c : closing)
| MsgField (sep : option nat) | Plain.

(** Does the visitor record the path of the node itself? *)
Definition records (k : kind) (s e p : pos) : bool :=
  match k with
  | Scoped c => intersects_exclusive s e c p
  | Spanned | MsgField _ => intersects s e p
  | Rpc semi close =>                                          (* 703-714 *)
      match semi, close with
      | NoClose, NoClose => false
      | NoClose, _ => false                                    (* the condition repeats Semicolon != nil *)
      | c, _ => intersects_exclusive s e c p
      end
  | Extend true _ => intersects s e p
  | Extend false c => intersects_exclusive s e c p
  | Plain => false
  end.

(** A syntax tree: each child is reached by some path steps (a field, a list
    index, a wrapper node). *)
Inductive tree := Tree (id : nat) (k : kind) (s e : pos) (children : list (list nat * tree)).

Definition t_id (t : tree) := let 'Tree i _ _ _ _ := t in i.

(** The paths recorded on a walk, in order: length of the path and the node it
    ends at. [name_step]: the extra path to a field's name (739-747), which ends
    at another node, here identified by [name_of]. [enter]: the walker's own
    filter (ast.WithIntersection, ast.WithRange). *)
Section Walk.
  Variable enter : nat -> bool.

  Variable name_of : nat -> nat.

  Fixpoint visit (p : pos) (token : nat) (depth : nat) (t : tree) : list (nat * nat) :=
    match t with
    | Tree i k s e cs =>
        if enter i then
          (if records k s e p then [(depth, i)] else [])
          ++ match k with
             | MsgField (Some sep) => if token =? sep then [(depth + 1, name_of i)] else []
             | _ => []
             end
          ++ flat_map (fun c => visit p token (depth + length (fst c)) (snd c)) cs
        else []
    end.

  (** take the longest path, 779-785: the index only moves to a strictly longer one *)
  Fixpoint longest (best : nat * nat) (ps : list (nat * nat)) : nat * nat :=
    match ps with
    | [] => best
    | q :: r => longest (if fst best <? fst q then q else best) r
    end.

  (** findPathIntersectingToken, 648-787 *)
  Definition path_at (p : pos) (token : nat) (t : tree) : option (nat * nat) :=
    match visit p token 1 t with
    | [] => None
    | q :: r => Some (longest q (q :: r))
    end.

  (** *** Innermost nodes enclosing a range, 789-851 *)

  (** What DefaultEnclosingRangeVisitor does with a node: the file is entered
      but not recorded, the listed kinds are recorded and entered, others are
      left alone (799-827). *)
  Variable role : nat -> option bool.     (* Some false: file; Some true: recorded; None: skipped *)

  (** the tracker's paths at the recorded nodes in walking order *)
  Fixpoint enclosing (depth : nat) (t : tree) : list (nat * nat) :=
    match t with
    | Tree i _ _ _ cs =>
        if enter i then
          match role i with
          | None => []
          | Some recorded =>
              (if recorded then [(depth, i)] else [])
              ++ flat_map (fun c => enclosing (depth + length (fst c)) (snd c)) cs
          end
        else []
    end.
End Walk.

(** visitEnclosingRange, 789-797, on the list of recorded paths *)
Definition keep (acc : list (nat * nat)) (q : nat * nat) : list (nat * nat) :=
  match rev acc with
  | [] => [q]
  | l :: _ => if fst l <=? fst q then acc ++ [q] else acc
  end.

(** the loop of 843-850 on the reversed list: the last entries of equal length *)
Fixpoint tail_run (n : nat) (rps : list (nat * nat)) : list (nat * nat) :=
  match rps with
  | [] => []
  | q :: r => if fst q <? n then [] else q :: tail_run (fst q) r
  end.

(** findPathsEnclosingRange, 829-851 *)
Definition enclosing_range (enter : nat -> bool) (role : nat -> option bool) (t : tree) : option (list (nat * nat)) :=
  let ps := fold_left keep (enclosing enter role 1 t) [] in
  match rev ps with
  | [] => None
  | q :: r => Some (rev (q :: tail_run (fst q) r))
  end.
