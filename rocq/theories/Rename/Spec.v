(** Documents with references in them, what a rename should make of them, and
    how names are resolved. *)
From Coq Require Import Ascii String.
From Verif Require Import Base Strs.
From Verif.Rename Require Import Model.
Open Scope list_scope.

(** An identifier of the protobuf grammar. *)
Definition letters : bytes := b_ "abcdefghijklmnopqrstuvwxyzABCDEFGHIJKLMNOPQRSTUVWXYZ_".
Definition identifier (w : bytes) : Prop :=
  exists c r, w = c :: r /\ In c letters /\ forall x, In x r -> In x (letters ++ b_ "0123456789").

(** A document is text with uses of the renamed symbol in it. *)
Inductive use := UName | UFieldRef | UDecl | URpcType.
Inductive seg := Text (t : bytes) | Use (k : use) (qualifier : bytes).   (* the qualifier ends with a dot or is empty *)

(** the text when the symbol is called [n] *)
Fixpoint render (n : bytes) (d : list seg) : bytes :=
  match d with
  | [] => []
  | Text t :: r => t ++ render n r
  | Use _ q :: r => q ++ n ++ render n r
  end.

(** what the linker reports for one use at an offset *)
Definition node_of (off : nat) (old : bytes) (k : use) (q : bytes) : node :=
  let stop := off + List.length q + List.length old in
  match k, q with
  | UDecl, _ => NDecl (off + List.length q, stop)
  | URpcType, _ => NRpcType (off, stop)
  | UName, [] => NIdent (off, stop)
  | UName, _ => NCompound [Some (off, off + List.length q); Some (off + List.length q, stop)]
  | UFieldRef, [] => NFieldRef (off, stop)
  | UFieldRef, _ => NFieldRefCompound [Some (off, off + List.length q); Some (off + List.length q, stop)]
  end.

Fixpoint refs_of (file old : bytes) (off : nat) (d : list seg) : list ref :=
  match d with
  | [] => []
  | Text t :: r => refs_of file old (off + List.length t) r
  | Use k q :: r => mkRef file (node_of off old k q) :: refs_of file old (off + List.length q + List.length old) r
  end.

(** an rpc's type is not qualified *)
Definition plain_rpc (s : seg) : Prop := match s with Use URpcType q => q = [] | _ => True end.

(** Text edits, in ascending order and not overlapping, all by the same text. *)
Fixpoint splice (pos : nat) (t : bytes) (es : list range) (new : bytes) : bytes :=
  match es with
  | [] => t
  | (a, b) :: r => firstn (a - pos) t ++ new ++ splice b (skipn (b - pos) t) r new
  end.

(** ** Resolution: a name used in a scope means the first of the enclosing
    scopes' members of that name, innermost scope first. *)
Definition path := list bytes.
Definition path_eq (a b : path) : bool := if list_eq_dec (list_eq_dec ascii_dec) a b then true else false.
Fixpoint enclosing_scopes (inner_first : path) : list path :=   (* the scope is given innermost name first *)
  match inner_first with
  | [] => [[]]
  | _ :: r => rev inner_first :: enclosing_scopes r
  end.
Definition resolve (defs : list path) (scope : path) (n : bytes) : option path :=
  find (fun p => existsb (path_eq p) defs) (map (fun s => s ++ [n]) (enclosing_scopes (rev scope))).
(** the definitions after a rename; members of a renamed scope move with it *)
Fixpoint strip_path (p q : path) : option path :=
  match p, q with
  | [], _ => Some q
  | x :: p', y :: q' => if beq x y then strip_path p' q' else None
  | _ :: _, [] => None
  end.
Definition renamed (old new : path) (q : path) : path :=
  match strip_path old q with Some r => new ++ r | None => q end.

(** edits in ascending order that do not overlap *)
Fixpoint ascending (from : nat) (es : list range) : Prop :=
  match es with [] => True | (a, b) :: r => from <= a /\ a <= b /\ ascending b r end.
