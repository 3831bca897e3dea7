From Verif Require Import Base.
From Verif.Publish Require Import Model.

(** everything handed to a flush in a run *)
Fixpoint flushed (es : list event) : list nat :=
  match es with
  | [] => []
  | EFlush rs :: r => rs ++ flushed r
  | _ :: r => flushed r
  end.

Definition opt {A} (o : option A) : list A := match o with Some x => [x] | None => [] end.

(** [a] is [b] with some elements left out *)
Inductive subseq : list nat -> list nat -> Prop :=
| ss_nil : subseq [] []
| ss_take x a b : subseq a b -> subseq (x :: a) (x :: b)
| ss_drop x a b : subseq a b -> subseq a (x :: b).

(** work that completes a flush; not new flushes or workspace events *)
Definition internal (e : event) : Prop := In e [EEnter; ESkip; ESend; ERecv].
(** the whole flush has been handed over *)
Definition done (s : state) : Prop := pending s = [] /\ inside s = None.
Definition can_finish (s : state) : Prop := exists es s', run es s = Some s' /\ done s'.
(** cost of the work left *)
Definition cost (s : state) : nat :=
  3 * List.length (pending s) + 2 * List.length (opt (inside s)) + List.length (opt (buf s)).
