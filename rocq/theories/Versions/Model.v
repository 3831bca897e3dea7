(** Model of pkg/lsp/versions.go (documentVersionQueue).

    Concurrency: [Wait] is split at its blocking point. The part under the
    mutex (lines 31-44) is one atomic step [OEnter]; the [select] (lines 46-51)
    is one of the two steps [ORecv] (channel closed) or [OCancel] (context
    done). [Update] (lines 54-66) holds the mutex throughout and is one atomic
    step. A history is any list of such steps, so every interleaving of any
    number of goroutines is covered.

    Simplifications: URIs are only used as map keys and are natural numbers
    here; versions are only compared, never computed with, so int32 values are
    integers; [int32(mod.Version)] is the identity on an int32 field. *)
From Verif Require Import Base.

Definition uri := nat.
Definition chan := nat.
Definition waiter := nat.

(** A goroutine inside [Wait]: lines 30-52. *)
Inductive wstatus :=
| WNone                      (* has not called Wait *)
| WBlocked (c : chan)        (* in the select of line 46, on channel qc = c *)
| WRet (ok : bool).          (* returned: true = nil, false = ctx.Err() *)

(** One file.Modification as read by Update (lines 57-60): URI and Version. *)
Definition modif := (uri * Z)%type.

Inductive op :=
| OEnter (w : waiter) (u : uri) (v : Z)
| ORecv (w : waiter)
| OCancel (w : waiter)
| OUpdate (mods : list modif).

(** versions.go:11-15; plus the channel heap (open/closed), the goroutines and
    a flag for the run-time panic "close of closed channel". *)
Record st := mkSt {
  versions : uri -> option Z;
  queue : list (uri * Z * chan);
  nextc : chan;
  closed : chan -> bool;
  wait : waiter -> wstatus;
  panicked : bool
}.

(** versions.go:17-22 *)
Definition init : st :=
  mkSt (fun _ => None) [] 0 (fun _ => false) (fun _ => WNone) false.

(** versions.go:24-28: Get returns the zero value for an unknown URI. *)
Definition get (s : st) (u : uri) : Z :=
  match versions s u with Some v => v | None => 0%Z end.

(** versions.go:39: lookup t.queue[uri][version]. *)
Fixpoint qfind (q : list (uri * Z * chan)) (u : uri) (v : Z) : option chan :=
  match q with
  | [] => None
  | (u', v', c) :: q' =>
      if (Nat.eqb u' u && Z.eqb v' v)%bool then Some c else qfind q' u v
  end.

(** versions.go:32: the immediate-return condition. *)
Definition immediate (cur : option Z) (v : Z) : bool :=
  match cur with
  | Some c => (Z.leb v c || Z.eqb c (-1))%bool
  | None => false
  end.

(** versions.go:30-44, the critical section of Wait. A goroutine calls Wait at
    most once in the model (fresh goroutine identifiers). *)
Definition enter (s : st) (w : waiter) (u : uri) (v : Z) : st :=
  match wait s w with
  | WNone =>
      if immediate (versions s u) v then
        mkSt (versions s) (queue s) (nextc s) (closed s)
             (upd (wait s) w (WRet true)) (panicked s)
      else
        match qfind (queue s) u v with
        | Some c =>
            mkSt (versions s) (queue s) (nextc s) (closed s)
                 (upd (wait s) w (WBlocked c)) (panicked s)
        | None =>
            let c := nextc s in
            mkSt (versions s) ((u, v, c) :: queue s) (S c) (closed s)
                 (upd (wait s) w (WBlocked c)) (panicked s)
        end
  | _ => s
  end.

(** versions.go:49-50 *)
Definition recv (s : st) (w : waiter) : st :=
  match wait s w with
  | WBlocked c =>
      if closed s c then
        mkSt (versions s) (queue s) (nextc s) (closed s)
             (upd (wait s) w (WRet true)) (panicked s)
      else s
  | _ => s
  end.

(** versions.go:47-48 *)
Definition cancel (s : st) (w : waiter) : st :=
  match wait s w with
  | WBlocked _ =>
      mkSt (versions s) (queue s) (nextc s) (closed s)
           (upd (wait s) w (WRet false)) (panicked s)
  | _ => s
  end.

(** versions.go:60: the release condition for a queued version v. *)
Definition releases (mv v : Z) : bool := (Z.eqb mv (-1) || Z.leb v mv)%bool.

Definition hit (m : modif) (e : uri * Z * chan) : bool :=
  let '(u', v', _) := e in (Nat.eqb u' (fst m) && releases (snd m) v')%bool.

(** versions.go:62: close(qc); closing a closed channel panics. *)
Definition close1 (cp : (chan -> bool) * bool) (e : uri * Z * chan) :
  (chan -> bool) * bool :=
  let '(cl, p) := cp in
  let '(_, _, c) := e in
  (upd cl c true, (p || cl c)%bool).

(** versions.go:57-65, one iteration of the outer loop. The inner loop ranges
    over a map in unspecified order; the entries hit are closed and deleted.
    Here they are visited in list order (the proofs show the channels are
    pairwise distinct and open, so the order does not matter). *)
Definition update1 (s : st) (m : modif) : st :=
  let hits := filter (hit m) (queue s) in
  let rest := filter (fun e => negb (hit m e)) (queue s) in
  let '(cl, p) := fold_left close1 hits (closed s, panicked s) in
  mkSt (upd (versions s) (fst m) (Some (snd m))) rest (nextc s) cl (wait s) p.

(** versions.go:54-66 *)
Definition update (s : st) (mods : list modif) : st := fold_left update1 mods s.

Definition step (s : st) (o : op) : st :=
  match o with
  | OEnter w u v => enter s w u v
  | ORecv w => recv s w
  | OCancel w => cancel s w
  | OUpdate mods => update s mods
  end.

Definition run (h : list op) : st := fold_left step h init.
