From Coq Require Import Sorted.
From Verif Require Import Base Strs.
From Verif.Window Require Import Model.
Open Scope list_scope.

(** the tokens of a file are not empty and follow each other *)
Definition layout (ts : list span) : Prop :=
  (forall i s, nth_error ts i = Some s -> fst s < snd s) /\
  (forall i j s t, i < j -> nth_error ts i = Some s -> nth_error ts j = Some t -> snd s <= fst t).
(** an offset is on a token *)
Definition on_token (ts : list span) (o : nat) : Prop := exists s, In s ts /\ fst s <= o < snd s.
(** the text of the tokens from [x] to [y] and the characters from [a] to [b] have one in common, or [b] is where
    the text begins *)
Definition overlaps (ts : list span) (a b x y : nat) : Prop :=
  exists sx sy, nth_error ts x = Some sx /\ nth_error ts y = Some sy /\ fst sx <= b /\ a < snd sy.
(** a tree of a file: its terminals are tokens of the file in order, no node is without tokens, and what a node
    reports covers tokens of the node *)
Fixpoint grown (n : tree) : Prop :=
  match n with
  | Leaf t own => Forall (fun i => i_from i = t /\ i_to i = t) own
  | Node own ks => ks <> [] /\ Forall (fun i => In (i_from i) (flat_map tokens ks) /\ In (i_to i) (flat_map tokens ks)) own
                   /\ fold_right (fun k P => grown k /\ P) True ks
  end.
Definition file_tree (ts : list span) (n : tree) : Prop :=
  grown n /\ StronglySorted lt (tokens n) /\ forall t, In t (tokens n) -> t < List.length ts.
(** the sublists *)
Inductive sublist {A} : list A -> list A -> Prop :=
| sub_nil : sublist [] []
| sub_keep x a b : sublist a b -> sublist (x :: a) (x :: b)
| sub_drop x a b : sublist a b -> sublist a (x :: b).
(** the nodes of a tree, and what visiting one reports *)
Inductive within (m : tree) : tree -> Prop :=
| within_here : within m m
| within_kid own ks k : In k ks -> within m k -> within m (Node own ks).
Definition reports (m : tree) (i : item) : Prop := match m with Leaf _ own | Node own _ => In i own end.
