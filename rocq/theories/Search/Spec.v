(** What position and reference search should do, in words of the caller. *)
From Verif Require Import Base.
From Verif.Search Require Import Model.
Open Scope list_scope.

(** ** Tokens *)

(** The cursor touches a token: it is inside it or at one of its ends. *)
Definition touches (l c : nat) (t : item) : Prop :=
  line t = l /\ 0 < len t /\ start t <= c <= start t + len t.

(** A token that can be looked up: proto syntax with a node that is not punctuation. *)
Definition meaningful (t : item) : Prop := proto t = true /\ exists n, node t = NodeTok n.

(** Tokens in the order of the text. *)
Definition before (a b : item) : Prop := line a < line b \/ line a = line b /\ start a <= start b.
Inductive ordered : list item -> Prop :=
| ordered_nil : ordered []
| ordered_cons t ts : (forall u, In u ts -> before t u) -> ordered ts -> ordered (t :: ts).

(** No two tokens share a character. *)
Definition apart (a b : item) : Prop := line a = line b -> start a + len a <= start b.
Inductive disjoint : list item -> Prop :=
| disjoint_nil : disjoint []
| disjoint_cons t ts : (forall u, In u ts -> apart t u) -> disjoint ts -> disjoint (t :: ts).

(** The cursor is between two characters of the token. *)
Definition inside (l c : nat) (t : item) : Prop := line t = l /\ start t < c < start t + len t.

(** ** References *)
Section Refs.
  Context {ref : Type}.

  (** reported by some file *)
  Definition found_in (files : list (option (list ref))) (r : ref) : Prop :=
    exists rs, In (Some rs) files /\ In r rs.
End Refs.

(** ** Paths *)
Definition le_pos (a b : pos) : Prop := pl a < pl b \/ pl a = pl b /\ pc a <= pc b.
Definition lt_pos (a b : pos) : Prop := pl a < pl b \/ pl a = pl b /\ pc a < pc b.

(** A node of the tree with its depth, reached through nodes that the walk enters. *)
Inductive reached (enter : nat -> bool) (through : nat -> bool) : nat -> tree -> nat -> tree -> Prop :=
| reached_here d i k s e cs : enter i = true -> reached enter through d (Tree i k s e cs) d (Tree i k s e cs)
| reached_below d i k s e cs steps c d' t :
    enter i = true -> through i = true -> In (steps, c) cs ->
    reached enter through (d + length steps) c d' t ->
    reached enter through d (Tree i k s e cs) d' t.

(** All nodes of a tree in the order of the source, with their depths. *)
Fixpoint preorder (depth : nat) (t : tree) : list (nat * nat) :=
  match t with
  | Tree i _ _ _ cs => (depth, i) :: flat_map (fun c => preorder (depth + length (fst c)) (snd c)) cs
  end.

(** The elements of [a] occur in [b] in the same order. *)
Inductive sublist {A} : list A -> list A -> Prop :=
| sub_nil : sublist [] []
| sub_skip x a b : sublist a b -> sublist a (x :: b)
| sub_keep x a b : sublist a b -> sublist (x :: a) (x :: b).
