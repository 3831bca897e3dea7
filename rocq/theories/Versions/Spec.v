(** What it means to wait for a document version, in terms of the history of
    calls only (no queue, no channels). *)
From Verif Require Import Base.
From Verif.Versions Require Import Model.

(** The stream of published versions, in order. *)
Definition pubs1 (o : op) : list (uri * Z) :=
  match o with OUpdate mods => mods | _ => [] end.
Definition pubs (h : list op) : list (uri * Z) := flat_map pubs1 h.

(** The version of [u] published last in a stream. *)
Fixpoint latest (p : list (uri * Z)) (u : uri) : option Z :=
  match p with
  | [] => None
  | (u', v) :: p' =>
      match latest p' u with
      | Some x => Some x
      | None => if Nat.eqb u' u then Some v else None
      end
  end.

(** A document published at version [x] satisfies a wait for [v]. *)
Definition satisfies (x : option Z) (v : Z) : Prop :=
  exists c, x = Some c /\ (v <= c \/ c = -1)%Z.

(** The call Wait(u, v) of goroutine [w] is the one at the end of [h1], and [w]
    made no other call before. *)
Definition calls_wait (h : list op) (w : waiter) (u : uri) (v : Z)
           (h1 h2 : list op) : Prop :=
  h = h1 ++ OEnter w u v :: h2 /\
  (forall u' v', ~ In (OEnter w u' v') h1).

(** At some moment from the call until the end of [h], the version published
    last for [u] satisfied [v]. A moment is a prefix of the publication
    stream. *)
Definition satisfied_since (h1 h : list op) (u : uri) (v : Z) : Prop :=
  exists p, prefix_of (pubs h1) p /\ prefix_of p (pubs h) /\
            satisfies (latest p u) v.

(** [w] has returned success. *)
Definition returned_ok (s : st) (w : waiter) : Prop := wait s w = WRet true.
Definition returned_err (s : st) (w : waiter) : Prop := wait s w = WRet false.
(** [w] has returned success or will do so as soon as it is scheduled. *)
Definition released (s : st) (w : waiter) : Prop :=
  returned_ok (step s (ORecv w)) w.
