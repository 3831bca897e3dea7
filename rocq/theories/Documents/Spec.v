(** What the protocol says about file events and text synchronisation. *)
From Coq Require Import Ascii NArith.
From Verif Require Import Base.
From Verif.Print Require Import Model.
From Verif.Versions Require Import Model Spec.
From Verif.Documents Require Import Model.

(** An event is resolvable if it needs no path (opening a document of another
    language) or its URI resolves. *)
Definition resolvable (e : env) (m : modification) : bool :=
  match m_action m, m_proto m with
  | AOpen, false => true
  | _, _ => match path_after e (m_uri m) with Some _ => true | None => false end
  end.

Definition unresolvable_count (e : env) (mods : list modification) : nat :=
  length (filter (fun m => negb (resolvable e m)) mods).

(** LSP 3.17, Position: zero-based line, and UTF-16 units from its start.
    [chars s n]: [s] is the UTF-8 encoding of characters of one line that take
    [n] UTF-16 units. *)
Definition scalar (r : N) : Prop := (r <= 1114111 /\ ~ (55296 <= r <= 57343))%N.
Inductive chars : text -> nat -> Prop :=
| chars_nil : chars [] 0
| chars_one r s n : scalar r -> r <> 10%N -> (r < 65536)%N -> chars s n -> chars (encode_rune r ++ s) (S n)
| chars_two r s n : scalar r -> (65536 <= r)%N -> chars s n -> chars (encode_rune r ++ s) (S (S n)).

Definition lines_before (t : text) : nat := length (filter (Ascii.eqb newline) t).
(** [before] is [l] whole lines *)
Definition whole_lines (before : text) (l : nat) : Prop :=
  lines_before before = l /\ (before = [] \/ exists b, before = b ++ [newline]).

(** byte [k] of the text is at line [l] and column [c] *)
Definition position (t : text) (l c k : nat) : Prop :=
  exists before line after,
    t = before ++ line ++ after /\ k = length (before ++ line) /\
    whole_lines before l /\ chars line c.
(** column [c] lies between the two units of the character at byte [k] *)
Definition inside (t : text) (l c k : nat) : Prop :=
  exists c' r before line after,
    c = S c' /\ scalar r /\ (65536 <= r)%N /\
    t = before ++ line ++ encode_rune r ++ after /\ k = length (before ++ line) /\
    whole_lines before l /\ chars line c'.
(** the start of the line after the last one, where [k] is the end *)
Definition past_end (t : text) (l c k : nat) : Prop :=
  l = S (lines_before t) /\ c = 0 /\ k = length t.

(** LSP 3.17, didChange: "apply the changes in the order they are given, each
    to the result of the previous one". A change without a range replaces the
    whole document. Positions refer to the text the change is applied to. *)
Definition apply_change (t : text) (c : change) : option text :=
  match c_range c with
  | None => Some (c_text c)
  | Some ((l1, c1), (l2, c2)) =>
      match poff t l1 c1, poff t l2 c2 with
      | Some s, Some e =>
          if Nat.leb s e then Some (firstn s t ++ c_text c ++ skipn e t) else None
      | _, _ => None
      end
  end.

Fixpoint apply_changes (t : text) (cs : list change) : option text :=
  match cs with
  | [] => Some t
  | c :: cs' => match apply_change t c with
                | Some t' => apply_changes t' cs'
                | None => None
                end
  end.

(** Each change lies before the previous one (in the original text), and no
    two are insertions at the same place. *)
Fixpoint descending (t : text) (bound : nat) (bound_ins : bool) (cs : list change) : Prop :=
  match cs with
  | [] => True
  | c :: cs' =>
      exists l1 c1 l2 c2 s e,
        c_range c = Some ((l1, c1), (l2, c2)) /\
        position t l1 c1 s /\ position t l2 c2 e /\
        s <= e /\ e <= bound /\
        ~ (bound_ins = true /\ s = e /\ e = bound) /\
        descending t s (Nat.eqb s e) cs'
  end.

(** The paths that a batch of events asks to be compiled: those of files that
    were deleted, by the name they had, and those of files that were changed,
    created or deleted, and of documents opened as protobuf or saved unless
    the file cannot be read and has the version of the event. *)
Definition asks (e : env) (m : modification) (p : nat) : Prop :=
  (m_action m = ADelete /\ path_before e (m_uri m) = Some p) \/
  (path_after e (m_uri m) = Some p /\
   (m_action m = AChange \/ m_action m = ACreate \/ m_action m = ADelete \/
    ((m_action m = ASave \/ m_action m = AOpen /\ m_proto m = true) /\
     (read_fails e (m_uri m) = false \/ fh_version e (m_uri m) <> m_version m)))).
