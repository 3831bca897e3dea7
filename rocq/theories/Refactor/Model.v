(** Refactorings on message declarations (refactor.go:444-929). Simplified:
    types, options and comments of declarations are left out; a group counts
    with the name and number of its field. *)
From Coq Require Import Ascii String.
From Verif Require Import Base Strs.
Open Scope list_scope.

Record field := mkField { fname : bytes; fnum : nat; frep : bool (* label "repeated" *) }.

(** Elements of a message body (ast.MessageElement): plain fields, map fields,
    groups, oneofs with their fields, and elements without fields. *)
Inductive decl :=
| DField (f : field)
| DMap (n : bytes) (num : nat)
| DGroup (n : bytes) (num : nat)
| DOneof (fs : list field)
| DOther (n : nat).

(** names of the fields of a message descriptor (desc.Fields()) *)
Definition decl_names (d : decl) : list bytes :=
  match d with
  | DField f => [fname f]
  | DMap n _ => [n]
  | DGroup n _ => [n]
  | DOneof fs => map fname fs
  | DOther _ => []
  end.
Definition names (ds : list decl) : list bytes := flat_map decl_names ds.

Definition mem (x : bytes) (l : list bytes) : bool := existsb (beq x) l.

(** fmt's %d for numbers below 100 *)
Definition digit (n : nat) : ascii := ascii_of_nat (48 + n).
Definition dec (n : nat) : bytes := if n <? 10 then [digit n] else [digit (n / 10); digit (n mod 10)].

(** the loop of refactor.go:907-912 and 922-927 *)
Fixpoint search (used : list bytes) (prefix : bytes) (fuel i : nat) (name : bytes) : bytes :=
  match fuel with
  | 0 => name
  | S fuel' => if mem name used then search used prefix fuel' (S i) (prefix ++ dec i) else name
  end.

Definition is_digit (c : ascii) : bool := (48 <=? nat_of_ascii c) && (nat_of_ascii c <=? 57).
Definition underscore : ascii := "_"%char.
(** refactor.go:919-921; the name is not empty *)
Definition field_prefix (p : bytes) : bytes := if is_digit (last p "a"%char) then p ++ [underscore] else p.

(** findNewUnusedFieldName, refactor.go:917-929 *)
Definition unused_field_name (used : list bytes) (p : bytes) : bytes := search used (field_prefix p) 99 1 p.
(** findNewUnusedMessageName, refactor.go:900-915; [msgs] are the names of the messages of the enclosing scope *)
Definition unused_message_name (msgs : list bytes) : bytes := search msgs (b_ "NewMessage") 99 1 (b_ "NewMessage").

(** ** Inlining, refactor.go:698-797 *)

(** refactor.go:709-720 *)
Fixpoint largest (ds : list decl) : nat :=
  match ds with
  | [] => 0
  | DField f :: r => Nat.max (fnum f) (largest r)
  | _ :: r => largest r
  end.
(** refactor.go:737-763: fields made for the inlined message's fields; the label is never "repeated" *)
Fixpoint make_fields (existing : list bytes) (news : list field) (start : nat) : list field :=
  match news with
  | [] => []
  | f :: r =>
      let n := if mem (fname f) existing then unused_field_name existing (fname f) else fname f in
      mkField n start false :: make_fields existing r (S start)
  end.
(** [None] is the index panic of refactor.go:765 *)
Definition inline (ds : list decl) (i : nat) (news : list field) : option (list decl) :=
  match make_fields (names ds) news (S (largest ds)) with
  | [] => None
  | fs => Some (firstn i ds ++ map DField fs ++ skipn (S i) ds)
  end.

(** ** Renumbering, refactor.go:846-871 *)
Fixpoint renumber (ds : list decl) (number : nat) : list decl :=
  match ds with
  | [] => []
  | DField f :: r => DField (mkField (fname f) number (frep f)) :: renumber r (S number)
  | d :: r => d :: renumber r number
  end.

(** ** Extracting, refactor.go:524-617 *)

(** refactor.go:535-546 and 604-609; [sel]: the selected fields, as positions; [new]: the field that replaces them *)
Fixpoint replace_selected (ds : list decl) (pos : nat) (sel : list nat) (new : decl) (inserted : bool) : list decl :=
  match ds with
  | [] => []
  | d :: r =>
      if existsb (Nat.eqb pos) sel then
        if inserted then replace_selected r (S pos) sel new true
        else new :: replace_selected r (S pos) sel new true
      else d :: replace_selected r (S pos) sel new inserted
  end.
(** refactor.go:547-580: fields of the new message, numbered from 1 *)
Fixpoint extracted (fs : list field) (number : nat) : list field :=
  match fs with
  | [] => []
  | f :: r => mkField (fname f) number (frep f) :: extracted r (S number)
  end.
Fixpoint selected (ds : list decl) (sel : list nat) : list field :=
  match sel with
  | [] => []
  | i :: r => match nth_error ds i with
              | Some (DField f) => f :: selected ds r
              | _ => selected ds r
              end
  end.
(** the updated parent and the new message's fields *)
Definition extract (ds : list decl) (sel : list nat) : option (list decl * list field) :=
  match selected ds sel with
  | [] => None
  | f :: r =>
      let new := DField (mkField (unused_field_name (names ds) (b_ "newField")) (fnum f) false) in
      Some (replace_selected ds 0 sel new false, extracted (f :: r) 1)
  end.

(** Which selections are offered for extraction, refactor.go:479-497. A path
    found in the selection ends in a node of some message; [inr] says whether
    the node lies entirely within the selection. *)
Inductive node := NMsg (id : nat) | NField (id : nat) | NOther (id : nat).
Definition node_eqb (a b : node) : bool :=
  match a, b with
  | NMsg x, NMsg y => x =? y
  | NField x, NField y => x =? y
  | NOther x, NOther y => x =? y
  | _, _ => false
  end.
Record npath := mkPath { parent : node; leaf : node; inr : bool }.
(** refactor.go:479-493; [None]: not offered. Line 486 compares the parent of
    the first field with the last node of the current path, which is the field. *)
Fixpoint gather (ps : list npath) (par : option node) (acc : list nat) : option (option node * list nat) :=
  match ps with
  | [] => Some (par, acc)
  | p :: r =>
      match leaf p with
      | NField f =>
          if inr p then
            match par with
            | None => gather r (Some (parent p)) (acc ++ [f])
            | Some q => if node_eqb q (leaf p) then gather r par (acc ++ [f]) else None
            end
          else gather r par acc
      | _ => None
      end
  end.
Definition offered (ps : list npath) : option (node * list nat) :=
  match gather ps None [] with
  | Some (Some p, f :: fs) => Some (p, f :: fs)
  | _ => None
  end.
