(** What an offer should write and what should be offered. *)
From Coq Require Import Ascii String.
From Verif Require Import Base Strs.
From Verif.Offers Require Import Model.
Open Scope list_scope.

(** ** Accepting an offer *)
Definition accept (line : bytes) (e : edit) : bytes := firstn (from e) line ++ text e ++ skipn (upto e) line.
(** how an option is named: an extension in parentheses, in a message literal in brackets *)
Definition written (in_literal : bool) (t : target) : bytes :=
  match t with
  | TField n => n
  | TExt n => if in_literal then b_ "[" ++ n ++ b_ "]" else b_ "(" ++ n ++ b_ ")"
  end.
(** the reference at column c that is written with the given text *)
Definition plain_ref (c : nat) (n : bytes) : ref := mkRef None None c (c + List.length n).
Definition paren_ref (c : nat) (n : bytes) : ref := mkRef (Some c) (Some (c + 1 + List.length n)) (c + 1) (c + 1 + List.length n).
(** a name in parentheses with blanks around it *)
Definition spaced_ref (c : nat) (n : bytes) : ref := mkRef (Some c) (Some (c + 3 + List.length n)) (c + 2) (c + 2 + List.length n).

(** ** Setting options *)
(** may still be set: not set yet, or more than one value *)
Definition settable (existing : list bytes) (f : field) : Prop := repeated f = true \/ ~ In (ffull f) existing.
(** left out: extensions of package gogoproto, unless the name typed starts with "gogo" *)
Definition left_out (typed x : bytes) : Prop := (exists r, x = b_ "gogoproto." ++ r) /\ ~ exists r, typed = b_ "gogo" ++ r.

(** ** Imports *)
Definition has_file (ws : list source) (s : source) : Prop := In s ws.
(** what a file sees of a file it imports: its declarations and those of the files it imports publicly *)
Inductive shows (ws : list source) : bytes -> bytes -> Prop :=
| sh_own s n : In s ws -> In n (declares s) -> shows ws (path s) n
| sh_public s q n : In s ws -> In (q, true) (imports s) -> shows ws q n -> shows ws (path s) n.
Inductive sees (ws : list source) (f : bytes) (n : bytes) : Prop :=
| se_own s : In s ws -> path s = f -> In n (declares s) -> sees ws f n
| se_import s q b : In s ws -> path s = f -> In (q, b) (imports s) -> shows ws q n -> sees ws f n.
Definition imports_file (ws : list source) (p q : bytes) : Prop := exists s b, In s ws /\ path s = p /\ In (q, b) (imports s).
Inductive reaches (ws : list source) : bytes -> bytes -> Prop :=
| re_refl p : reaches ws p p
| re_step p q r : imports_file ws p q -> reaches ws q r -> reaches ws p r.
Definition acyclic (ws : list source) : Prop := forall p q, imports_file ws p q -> ~ reaches ws q p.
(** the path that an import statement on its own line names; a backslash starts an escape, which no path has *)
Fixpoint literal (s : bytes) : option (bytes * bytes) :=
  match s with
  | [] => None
  | c :: r => if Ascii.eqb c """"%char then Some ([], r)
              else if Ascii.eqb c "\"%char then None
              else option_map (fun x : bytes * bytes => (c :: fst x, snd x)) (literal r)
  end.
Definition import_named (s : bytes) : option bytes :=
  if has_prefix s (nl :: b_ "import """) then match literal (skipn 9 s) with Some (p, r) => if beq r (b_ ";") then Some p else None | None => None end else None.

(** ** Package names *)
(** words of letters, digits and underscores that do not start with a digit, with dots between them *)
Definition letters : bytes := b_ "abcdefghijklmnopqrstuvwxyzABCDEFGHIJKLMNOPQRSTUVWXYZ_".
Definition digits : bytes := b_ "0123456789".
Inductive package_name : bytes -> Prop :=
| one_word c w : In c letters -> Forall (fun x => In x (letters ++ digits)) w -> package_name (c :: w)
| more_words c w s : In c letters -> Forall (fun x => In x (letters ++ digits)) w -> package_name s -> package_name (c :: w ++ "."%char :: s).
