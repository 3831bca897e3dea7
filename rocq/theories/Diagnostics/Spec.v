(** What the diagnostics properties mean. *)
From Coq Require Import Ascii String.
From Verif Require Import Base Strs.
From Verif.Diagnostics Require Import Model.
Open Scope list_scope.

(** The client's view of a file: the last report it received, initially nothing. *)
Inductive view : list (path * list diag) -> path -> list diag -> Prop :=
| v_none p : view [] p []
| v_this log p ds : view (log ++ [(p, ds)]) p ds
| v_other log q ds' p ds : q <> p -> view log p ds -> view (log ++ [(q, ds')]) p ds.

(** What a query without a previous result id answers. *)
Definition current (s : state) (p : path) (ds : list diag) : Prop := fst (get s p None) = Some ds.

(** actions that change the diagnostics of [p] (or might) *)
Definition touches (p : path) (o : op) : Prop :=
  match o with
  | Create q | Add q _ _ | Clear q _ => q = p
  | DeleteRelated r _ => sfile r = p
  | _ => False
  end.
Definition untouched (p : path) (h : list op) : Prop := forall o, In o h -> ~ touches p o.

(** an unconditional change of [p]'s list *)
Definition reports (p : path) (o : op) : Prop :=
  match o with Add q _ _ | Clear q _ => q = p | _ => False end.

(** the files that have a diagnostic list *)
Definition known (h : list op) (p : path) : Prop := In (Create p) h.

(** clock readings used by a history *)
Fixpoint times (h : list op) : list time :=
  match h with
  | [] => []
  | (Add _ _ t | Clear _ t | DeleteRelated _ t) :: h' => t :: times h'
  | _ :: h' => times h'
  end.

(** [l'] is [l] without some elements that satisfy [R] *)
Inductive without {A} (R : A -> Prop) : list A -> list A -> Prop :=
| w_nil : without R [] []
| w_keep x l l' : without R l l' -> without R (x :: l) (x :: l')
| w_drop x l l' : R x -> without R l l' -> without R (x :: l) l'.

(** [r] is named as related information by one of the diagnostics [ds] *)
Definition names (ds : list diag) (r : span) : Prop := exists d, In d ds /\ In r (drelated d).

(** [w] is a whitespace-separated word of [s] *)
Definition space (c : ascii) : Prop := In (nat_of_ascii c) [9; 10; 11; 12; 13; 32].
Definition word (s w : bytes) : Prop :=
  w <> [] /\ (forall c, In c w -> ~ space c) /\
  exists a b, s = a ++ w ++ b /\
    (a = [] \/ exists a' c, a = a' ++ [c] /\ space c) /\
    (b = [] \/ exists c b', b = c :: b' /\ space c).

(** the debug pragma asks not to elevate warnings of category [cat] *)
Definition suppressed (dbg : option bytes) (cat : bytes) : Prop :=
  exists s, dbg = Some s /\ (word s (b_ "Wnoerror=" ++ cat) \/ word s (b_ "Wnoerror=all")).
