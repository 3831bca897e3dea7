(** What "requests are handled in order" means, on event sequences only. *)
From Verif Require Import Base.
From Verif.Rpc Require Import Model.

(** the kinds (streaming or not) of the requests that arrived, in order *)
Definition arrivals (t : list event) : list bool :=
  flat_map (fun e => match e with Arrive s => [s] | _ => [] end) t.

(** a possible history of the server *)
Definition possible (t : list event) : Prop := exists l, run init t = Ok l.

(** in [t], [e2] happens only after [e1] *)
Definition only_after (t : list event) (e1 e2 : event) : Prop :=
  forall pre post, t = pre ++ e2 :: post -> In e1 pre.

Definition kind (ks : list bool) (n : nat) : bool := nth n ks false.

(** no handler is stuck: every request that arrived was started and replied to *)
Definition all_replied (t : list event) : Prop :=
  forall n, n < length (arrivals t) -> In (Start n) t /\ In (Reply n) t.

Definition is_arrive (e : event) : bool := match e with Arrive _ => true | _ => false end.
