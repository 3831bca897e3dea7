(** Model of the request queue: pkg/lsprpc/handler.go:61-93 (AsyncHandler).

    Requests are numbered in arrival order. Request n owns channel n
    ([nextRequest] after the call); it waits on channel n-1 (channel "-1" is the
    one closed at line 69). Simplifications: the wrapped handler is reduced to
    the moment it starts (after line 85) and the moment it calls [reply]; what
    it does in between, and after replying, does not touch the queue. Request
    arrival is sequential, as in jsonrpc2's read loop. *)
From Verif Require Import Base.

Inductive event :=
| Arrive (streaming : bool)   (** AsyncHandler's function is called, lines 70-91 *)
| Start (n : nat)             (** goroutine n passes line 85 and calls the handler *)
| Reply (n : nat).            (** handler n calls reply, lines 78-81 *)

Inductive phase := Waiting | Running | Replied.

Record req := mkReq { streaming : bool; ph : phase; chan_closed : bool }.

(** handler.go:68-69: no requests yet *)
Definition init : list req := [].

Fixpoint set_nth (l : list req) (n : nat) (r : req) : list req :=
  match l, n with
  | [], _ => []
  | _ :: l', 0 => r :: l'
  | x :: l', S n' => x :: set_nth l' n' r
  end.

(** handler.go:71 and 85: is the channel request n waits on closed? *)
Definition prev_closed (l : list req) (n : nat) : bool :=
  match n with
  | 0 => true
  | S m => match nth_error l m with Some r => chan_closed r | None => false end
  end.

Inductive outcome := Ok (l : list req) | Blocked | Panic.

(** One event. [Blocked]: the event cannot happen in this state. [Panic]: a
    channel would be closed twice (line 79). *)
Definition step (l : list req) (e : event) : outcome :=
  match e with
  | Arrive s => Ok (l ++ [mkReq s Waiting s])          (* lines 72-76 *)
  | Start n =>
      match nth_error l n with
      | Some (mkReq s Waiting c) =>
          if prev_closed l n then Ok (set_nth l n (mkReq s Running c)) else Blocked
      | _ => Blocked
      end
  | Reply n =>
      match nth_error l n with
      | Some (mkReq s Running c) =>
          if s then Ok (set_nth l n (mkReq s Replied c))
          else if c then Panic else Ok (set_nth l n (mkReq s Replied true))  (* line 79 *)
      | _ => Blocked
      end
  end.

Fixpoint run (l : list req) (t : list event) : outcome :=
  match t with
  | [] => Ok l
  | e :: t' => match step l e with Ok l' => run l' t' | o => o end
  end.
