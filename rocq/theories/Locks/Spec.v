From Verif Require Import Base.
From Verif.Locks Require Import Model.

(** everything has run to its end *)
Definition finished (s : state) : Prop := forall p, In p (threads s) -> p = [].
(** nobody can move *)
Definition stuck (s : state) : Prop := forall i, step i s = None.
Definition deadlocked (s : state) : Prop := stuck s /\ ~ finished s.

(** a program that never acquires the lock while it holds it, and releases it *)
Inductive flat : list action -> Prop :=
| f_nil : flat []
| f_read p : flat p -> flat (RLock :: RUnlock :: p)
| f_write p : flat p -> flat (Lock :: Unlock :: p).

Fixpoint size (ps : list (list action)) : nat :=
  match ps with [] => 0 | p :: r => 2 * List.length p + size r end.

(** a program that only reads, and releases the lock as often as it takes it *)
Inductive balanced : list action -> Prop :=
| bal_nil : balanced []
| bal_nest p q : balanced p -> balanced q -> balanced (RLock :: p ++ RUnlock :: q).
