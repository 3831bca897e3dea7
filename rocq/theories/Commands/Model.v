(** Commands sent by the client: pkg/lsp/commands.go ExecuteCommand (how arguments are read and which
    workspace a command is given to), pkg/lsprpc/handler.go unknownHandler.Execute and the registration in
    ServeStream. What a command then does in its workspace is the subject of other areas (Generate, Generated,
    Workspaces, Versions). *)
From Coq Require Import Ascii String.
From Verif Require Import Base Strs.
From Verif.Workspaces Require Import Model.
Open Scope list_scope.

(** A value of encoding/json. The argument of a command is part of a message that was parsed, so it is always
    a value. Simplified: a number is an integer, or [None] for one that is not. *)
Inductive json := JNull | JBool (b : bool) | JNum (n : option Z) | JStr (s : bytes) | JArr (l : list json) | JObj (l : list (bytes * json)).

Inductive failure := BadArguments | InvalidUri | UnknownWorkspace | NotInWorkspace | NoCache | UnknownCommand | NoGoDriver.

(** what becomes of a command: the server process ends ([Crash]: a panic in the goroutine of the request,
    which nothing recovers, handler.go:81-87), an error reply, or the call made with the cache of a workspace *)
Inductive outcome :=
| Crash
| Fail (e : failure)
| Contents (c : cache) (uri : bytes)
| Ast (c : cache) (uri : bytes) (version : Z)
| GoTo (c : cache) (uri : bytes) (line char : Z)
| Reindex
| Refresh
| Generate (c : cache) (uris : list bytes)
| GenerateAll (c : cache).

(** encoding/json, decoding into a map: the last of several equal keys wins *)
Fixpoint map_get (k : bytes) (o : list (bytes * json)) : option json :=
  match o with
  | [] => None
  | (k', v) :: o' => match map_get k o' with Some w => Some w | None => if beq k' k then Some v else None end
  end.

(** encoding/json, decoding into a struct: keys are compared without regard to case. Simplified: only ASCII
    letters are folded. *)
Definition lower (c : ascii) : ascii :=
  let n := nat_of_ascii c in if ((65 <=? n) && (n <=? 90))%bool then ascii_of_nat (n + 32) else c.
Definition folds (k f : bytes) : bool := beq (map lower k) (map lower f).

(** one field of a struct: each key that matches is decoded in turn into what is there; [set] gives the new
    contents, [None] for an error. After an error decoding goes on, but the error is returned in the end. *)
Fixpoint field {A} (set : A -> json -> option A) (f : bytes) (x : A) (o : list (bytes * json)) : option A :=
  match o with
  | [] => Some x
  | (k, v) :: o' => if folds k f then match set x v with Some y => field set f y o' | None => None end else field set f x o'
  end.

Definition set_string (x : bytes) (v : json) : option bytes :=
  match v with JStr s => Some s | JNull => Some x | _ => None end.
(** an integer of a given range: int32 (commands.go:44), uint32 (protocol.Position) *)
Definition set_int (lo hi : Z) (x : Z) (v : json) : option Z :=
  match v with JNum (Some z) => if ((lo <=? z) && (z <=? hi))%Z%bool then Some z else None | JNull => Some x | _ => None end.

Section Execute.
(** url.Parse: the fragment and the path *)
Variable parse : bytes -> option (bytes * bytes).
(** protocol.DocumentURI.UnmarshalText: the normal form of a URI, or an error *)
Variable normal : bytes -> option bytes.
(** the workspaces, in the order the map is iterated *)
Variable order : list (bytes * cache).
(** whether every workspace has a Go language driver *)
Variable drivers : bool.
(** the commands registered with WithUnknownCommandHandler *)
Variable registered : list bytes.

Definition set_uri (x : bytes) (v : json) : option bytes :=
  match v with JStr s => normal s | JNull => Some x | _ => None end.
(** a []protocol.DocumentURI. Simplified: null for an element gives the empty URI also where an earlier list of
    the same message had one at that place. *)
Fixpoint set_elems (l : list json) : option (list bytes) :=
  match l with
  | [] => Some []
  | v :: l' => match set_uri [] v, set_elems l' with Some u, Some us => Some (u :: us) | _, _ => None end
  end.
Definition set_uris (x : list bytes) (v : json) : option (list bytes) :=
  match v with JArr l => set_elems l | JNull => Some [] | _ => None end.

(** an object, or null, decoded into a struct *)
Definition entries (v : json) : option (list (bytes * json)) :=
  match v with JObj o => Some o | JNull => Some [] | _ => None end.

(** server.go:216-248 CacheForURI, then the call made with the cache *)
Definition with_uri (u : bytes) (k : cache -> outcome) : outcome :=
  match parse u with
  | None => Fail InvalidUri
  | Some (frag, path) =>
      match cache_for_uri order u frag path with
      | Served c => k c
      | UnknownName => Fail UnknownWorkspace
      | NoWorkspace => Fail NotInWorkspace
      end
  end.

(** protocol.TextDocumentIdentifier in TextDocumentPositionParams *)
Definition set_document (x : bytes) (v : json) : option bytes :=
  match v with JObj o => field set_uri (b_ "uri") x o | JNull => Some x | _ => None end.
Definition uint32 : Z -> json -> option Z := set_int 0 4294967295.
Definition set_position (x : Z * Z) (v : json) : option (Z * Z) :=
  match v with
  | JObj o => match field uint32 (b_ "line") (fst x) o, field uint32 (b_ "character") (snd x) o with Some l, Some c => Some (l, c) | _, _ => None end
  | JNull => Some x
  | _ => None
  end.

(** handler.go:95-117 unknownHandler.Execute; [c]: the cache that was found, if any *)
Definition handle (cmd : bytes) (arg : json) (c : option cache) : outcome :=
  if beq cmd (b_ "protols/generate") then
    match entries arg with
    | None => Fail BadArguments
    | Some o => match field set_uris (b_ "uris") [] o with
                | None => Fail BadArguments
                | Some us => match c with None => Fail NoCache | Some c => Generate c us end
                end
    end
  else if beq cmd (b_ "protols/generateWorkspace") then
    match c with None => Fail NoCache | Some c => GenerateAll c end
  else Crash.

(** commands.go:219-222 *)
Definition dispatch (cmd : bytes) (arg : json) (c : option cache) : outcome :=
  if existsb (beq cmd) registered then handle cmd arg c else Fail UnknownCommand.

(** commands.go:185-223, the default case *)
Definition other (cmd : bytes) (arg : json) : outcome :=
  match entries arg with
  | None => Fail BadArguments
  | Some o =>
      match map_get (b_ "uri") o with
      | Some (JStr u) => with_uri u (fun c => dispatch cmd arg (Some c))
      | Some _ => Crash                                                     (* 196: type assertion *)
      | None =>
          match map_get (b_ "uris") o with
          | Some (JArr (JStr u :: _)) => with_uri u (fun c => dispatch cmd arg (Some c))
          | Some _ => Crash                                                 (* 203: type assertions, index *)
          | None =>
              match map_get (b_ "workspace") o with
              | Some (JObj w) =>
                  match map_get (b_ "uri") w, map_get (b_ "name") w with
                  | Some (JStr u), Some (JStr n) =>
                      match cache_for_workspace order (mkFolder u n) with
                      | Served c => dispatch cmd arg (Some c)
                      | _ => Fail UnknownWorkspace
                      end
                  | _, _ => Crash                                           (* 210-211 *)
                  end
              | Some _ => Crash
              | None => dispatch cmd arg None
              end
          end
      end
  end.

(** commands.go:81-224 ExecuteCommand *)
Definition execute (cmd : bytes) (args : list json) : outcome :=
  if beq cmd (b_ "protols/reindexWorkspaces") then Reindex
  else if beq cmd (b_ "protols/refreshModules") then (if drivers then Refresh else Fail NoGoDriver)
  else match args with
  | [] => Crash                                                             (* params.Arguments[0] *)
  | arg :: _ =>
      if beq cmd (b_ "protols/syntheticFileContents") then
        match entries arg with
        | None => Fail BadArguments
        | Some o => match field set_string (b_ "uri") [] o with
                    | None => Fail BadArguments
                    | Some u => with_uri u (fun c => Contents c u)
                    end
        end
      else if beq cmd (b_ "protols/ast") then
        match entries arg with
        | None => Fail BadArguments
        | Some o => match field set_string (b_ "uri") [] o, field (set_int (-2147483648) 2147483647) (b_ "version") 0%Z o with
                    | Some u, Some v => with_uri u (fun c => Ast c u v)
                    | _, _ => Fail BadArguments
                    end
        end
      else if beq cmd (b_ "protols/goToGeneratedDefinition") then
        match entries arg with
        | None => Fail BadArguments
        | Some o => match field set_document (b_ "textDocument") [] o, field set_position (b_ "position") (0, 0)%Z o with
                    | Some u, Some (l, ch) => with_uri u (fun c => GoTo c u l ch)
                    | _, _ => Fail BadArguments
                    end
        end
      else other cmd arg
  end.

(** the commands of a session in the order they are executed; nothing is answered after a panic *)
Fixpoint session (cmds : list (bytes * list json)) : list outcome :=
  match cmds with
  | [] => []
  | (c, a) :: r => match execute c a with Crash => [] | x => x :: session r end
  end.
End Execute.

(** handler.go:35-49 ServeStream: the commands that the server registers *)
Definition served : list bytes := [b_ "protols/generate"; b_ "protols/generateWorkspace"].
