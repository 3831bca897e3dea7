(** The path of a diagnostics report from a flush to the client:
    DiagnosticHandler.Flush and Stream (diagnostics.go:571-609), the callback of
    StreamWorkspaceDiagnostics (diagnostics.go:112-128) and the two goroutines
    and the one-element channel of cacheInitLocked (server.go:88-106), under
    cancellation by cacheDestroyLocked (server.go:110-117). Simplified: a report
    is a number; the flush list is the dirty files in the iteration order of
    the map (any order); publishing is atomic with receiving. *)
From Verif Require Import Base.

Record state := mkState {
  pending : list nat;      (* dirty files the running flush still has to pass on *)
  inside : option nat;     (* the report the flush is sending, listenerMu held for reading *)
  buf : option nat;        (* the channel, capacity 1 (server.go:88) *)
  alive : bool;            (* the receiving goroutine runs (server.go:90-106) *)
  cancelled : bool;        (* the workspace's context *)
  attached : bool;         (* listener <> nil *)
  delivered : list nat     (* published to the client, in order *)
}.

Inductive event :=
| EFlush (rs : list nat) (* diagnostics.go:593-595; excluded by diagnosticsMu while another runs *)
| EEnter                 (* diagnostics.go:601-603 up to the channel send *)
| ESkip                  (* diagnostics.go:602, no listener *)
| ESend                  (* diagnostics.go:118 *)
| ERecv                  (* server.go:95-103 *)
| ECancel                (* server.go:115 *)
| EQuit                  (* server.go:93-94 *)
| EAttach                (* diagnostics.go:574-576 *)
| EDetach.               (* diagnostics.go:586-590 *)

Definition busy (s : state) : bool :=
  match pending s, inside s with [], None => false | _, _ => true end.

Definition step (e : event) (s : state) : option state :=
  let 'mkState p i b a c t d := s in
  match e with
  | EFlush rs => if busy s then None else Some (mkState rs i b a c t d)
  | EEnter => match p, i, t with
              | r :: p', None, true => Some (mkState p' (Some r) b a c t d)
              | _, _, _ => None
              end
  | ESkip => match p, i, t with
             | _ :: p', None, false => Some (mkState p' None b a c t d)
             | _, _, _ => None
             end
  | ESend => match i, b with
             | Some r, None => Some (mkState p None (Some r) a c t d)
             | _, _ => None
             end
  | ERecv => match b, a with
             | Some r, true => Some (mkState p i None a c t (d ++ [r]))
             | _, _ => None
             end
  | ECancel => Some (mkState p i b a true t d)
  | EQuit => if c && a then Some (mkState p i b false c t d) else None
  | EAttach => match i with
               | None => if negb c && negb t then Some (mkState p i b a c true d) else None
               | Some _ => None
               end
  | EDetach => match i with
               | None => if c && t then Some (mkState p i b a c false d) else None
               | Some _ => None
               end
  end.

Fixpoint run (es : list event) (s : state) : option state :=
  match es with
  | [] => Some s
  | e :: r => match step e s with Some s' => run r s' | None => None end
  end.

(** a workspace that has just been set up, before and after its stream goroutine attached *)
Definition init : state := mkState [] None None true false false [].
Definition ready : state := mkState [] None None true false true [].
