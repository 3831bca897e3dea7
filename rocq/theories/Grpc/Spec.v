(** What a generated Go file means: the names it declares, the methods its types have, and what happens
    on a call under grpc-go's contract. *)
From Coq Require Import Ascii String.
From Verif Require Import Base Strs.
From Verif.Grpc Require Import Model.
Open Scope list_scope.

(** ** The package scope: Go rejects a file that declares a name twice *)
Definition declared (d : decl) : list bytes :=
  match d with
  | DConst n _ | DInterface n _ | DStruct n | DAlias n _ | DFunc n _ | DVar n _ => [n]
  | DMethod _ _ _ _ => []
  end.
Definition scope (ds : list decl) : list bytes := flat_map declared ds.
(** and a type that has two methods of one name *)
Definition member (d : decl) : list (bytes * bytes) := match d with DMethod r n _ _ => [(r, n)] | _ => [] end.
Definition members (ds : list decl) : list (bytes * bytes) := flat_map member ds.

(** A concrete type has all methods of an interface. *)
Definition implements (ds : list decl) (t i : bytes) : Prop :=
  exists ms, In (DInterface i ms) ds /\ In (DStruct t) ds /\ forall n s, In (n, s) ms -> exists b, In (DMethod t n s b) ds.

(** ** Calls *)
(** A call on the wire: a unary call of a path, or a stream to a path opened with the directions of a
    stream description; [sends]: the request is sent and the sending side closed at once *)
Inductive call := Unary (path : bytes) | Stream (path : bytes) (ss cs : bool) (sends : bool).
Inductive const_ (ds : list decl) (n v : bytes) : Prop := const_intro : In (DConst n v) ds -> const_ ds n v.
(** the call made by method n of a generated client type; indexing out of range has no outcome *)
Inductive calls (ds : list decl) (client n : bytes) : call -> Prop :=
| calls_unary s symbol out path : In (DMethod client n s (BInvoke symbol out)) ds -> const_ ds symbol path -> calls ds client n (Unary path)
| calls_stream s dv i symbol x send path d e :
    In (DMethod client n s (BStream dv i symbol x send)) ds -> const_ ds symbol path ->
    In (DVar dv d) ds -> nth_error (sd_streams d) i = Some e -> calls ds client n (Stream path (en_ss e) (en_cs e) send).

(** A server that has registered services: the path is cut at its last slash (grpc-go Server.handleStream);
    methods come before streams; of several entries with one name the last wins (Server.register). *)
Definition is_path (path svc m : bytes) : Prop := path = b_ "/" ++ svc ++ b_ "/" ++ m /\ ~ In "/"%char m.
Definition named (n : bytes) (e : entry) : bool := beq (en_name e) n.
Definition entry_of (es : list entry) (n : bytes) : option entry := find (named n) (rev es).
(** what the server runs: a method of the service's implementation, with the decoded request if there is one *)
Inductive run := RunUnary (server method input : bytes) | RunStream (server method : bytes) (input : option bytes).
Inductive serves (ds : list decl) (registered : list bytes) (path : bytes) : run -> Prop :=
| serves_unary svc m dv d e i t n symbol :
    is_path path svc m -> In dv registered -> In (DVar dv d) ds -> sd_name d = svc -> entry_of (sd_methods d) m = Some e ->
    In (DFunc (en_handler e) (BUnary i t n symbol)) ds -> serves ds registered path (RunUnary t n i)
| serves_stream svc m dv d e i t n x :
    is_path path svc m -> In dv registered -> In (DVar dv d) ds -> sd_name d = svc -> entry_of (sd_methods d) m = None -> entry_of (sd_streams d) m = Some e ->
    In (DFunc (en_handler e) (BHandle i t n x)) ds -> serves ds registered path (RunStream t n i).

(** ** What a service declares *)
Definition proto_ident (n : bytes) : Prop :=
  exists c r, n = c :: r /\ (Generated.Model.is_letter c = true \/ c = "_"%char) /\
    Forall (fun d => Generated.Model.is_letter d = true \/ Generated.Model.is_digit d = true \/ d = "_"%char) r.
Definition service_ok (s : service) : Prop :=
  proto_ident (sv_name s) /\ Forall (fun m => proto_ident (me_name m)) (sv_methods s) /\ NoDup (map me_name (sv_methods s)).
(** the call a client makes of a method, and what the server does on it *)
Definition wanted_call (s : service) (m : method) : call :=
  let path := b_ "/" ++ sv_full s ++ b_ "/" ++ me_name m in
  if me_cs m || me_ss m then Stream path (me_ss m) (me_cs m) (negb (me_cs m)) else Unary path.
Definition wanted_run (s : service) (m : method) : run :=
  let t := go_name (sv_name s) ++ b_ "Server" in
  if me_cs m || me_ss m then RunStream t (go_name (me_name m)) (if me_cs m then None else Some (me_in m)) else RunUnary t (go_name (me_name m)) (me_in m).

(** ** Files *)
(** Go accepts the declarations of a file as far as names go. *)
Definition compiles (ds : list decl) : Prop := NoDup (scope ds) /\ NoDup (members ds).
Definition grpc_file (f : file) : bytes := fi_prefix f ++ b_ "_grpc.pb.go".
(** a file as the compiler accepts it: service names are identifiers and distinct, and so for methods *)
Definition file_ok (f : file) : Prop :=
  Forall service_ok (fi_services f) /\ NoDup (map sv_name (fi_services f)) /\ NoDup (map sv_full (fi_services f)).
(** names that leave the generator's additions distinct: Go names differ, those of services have no
    underscore and none is that of another service after New, Register, Unimplemented or Unsafe *)
Definition separate (f : file) : Prop :=
  NoDup (map (fun s => go_name (sv_name s)) (fi_services f)) /\
  (forall s, In s (fi_services f) -> ~ In "_"%char (go_name (sv_name s)) /\ NoDup (map (fun m => go_name (me_name m)) (sv_methods s))) /\
  (forall s s' w, In s (fi_services f) -> In s' (fi_services f) -> In w (map b_ ["New"; "Register"; "Unimplemented"; "Unsafe"]%string) -> go_name (sv_name s) <> w ++ go_name (sv_name s')).

(** ** Types *)
(** a stream object can be used as a value of a type: a struct of the file that has the methods of an
    interface of the file, or the generic streams of grpc-go with the same messages *)
Inductive provides (ds : list decl) : impl -> gtype -> Prop :=
| prov_own t i : implements ds t i -> provides ds (IOwn t) (TNamed i)
| prov_bidi c i o : provides ds (IGeneric i o) (TBidi c i o)
| prov_client c i o : provides ds (IGeneric i o) (TClientStreaming c i o)
| prov_server c i o : provides ds (IGeneric i o) (TServerStreaming c o).
(** a declaration fits the others: what a client method returns has its result type, and a handler calls
    a method that the server interface has, with the arguments that method takes *)
Definition request (i : option bytes) : list gtype := match i with Some t => [TPtr t] | None => [] end.
Definition fits (ds : list decl) (d : decl) : Prop :=
  match d with
  | DMethod _ _ sg (BInvoke _ out) => sg_results sg = [TPtr out; TError]
  | DMethod _ _ sg (BStream _ _ _ x send) =>
      exists i t, sg = Sig ([TContext] ++ request i ++ [TOptions]) [t; TError] /\ provides ds x t /\ (send = true <-> i <> None)
  | DFunc _ (BNewClient t) => In (DStruct t) ds
  | DFunc _ (BUnary input server n _) =>
      exists ms out, In (DInterface server ms) ds /\ In (n, Sig [TContext; TPtr input] [TPtr out; TError]) ms
  | DFunc _ (BHandle input server n x) =>
      exists ms t, In (DInterface server ms) ds /\ In (n, Sig (request input ++ [t]) [TError]) ms /\ provides ds x t
  | DVar _ d => exists ms, In (DInterface (sd_type d) ms) ds
  | _ => True
  end.

(** ** Streams *)
(** what can be done with a value of a stream type: the methods of an interface of the file, or those of
    the stream interfaces of grpc-go besides the ones of ClientStream and ServerStream *)
Inductive operations (ds : list decl) : gtype -> list (bytes * sig) -> Prop :=
| ops_named n ms : In (DInterface n ms) ds -> operations ds (TNamed n) ms
| ops_bidi_client i o : operations ds (TBidi true i o) [(b_ "Send", Sig [TPtr i] [TError]); (b_ "Recv", Sig [] [TPtr o; TError])]
| ops_bidi_server i o : operations ds (TBidi false i o) [(b_ "Send", Sig [TPtr o] [TError]); (b_ "Recv", Sig [] [TPtr i; TError])]
| ops_cs_client i o : operations ds (TClientStreaming true i o) [(b_ "Send", Sig [TPtr i] [TError]); (b_ "CloseAndRecv", Sig [] [TPtr o; TError])]
| ops_cs_server i o : operations ds (TClientStreaming false i o) [(b_ "SendAndClose", Sig [TPtr o] [TError]); (b_ "Recv", Sig [] [TPtr i; TError])]
| ops_ss_client o : operations ds (TServerStreaming true o) [(b_ "Recv", Sig [] [TPtr o; TError])]
| ops_ss_server o : operations ds (TServerStreaming false o) [(b_ "Send", Sig [TPtr o] [TError])].
(** what the two ends of a streaming method do *)
Definition client_does (m : method) : list (bytes * sig) :=
  (if me_cs m then [(b_ "Send", Sig [TPtr (me_in m)] [TError])] else []) ++
  [(if me_ss m then b_ "Recv" else b_ "CloseAndRecv", Sig [] [TPtr (me_out m); TError])].
Definition server_does (m : method) : list (bytes * sig) :=
  [(if me_ss m then b_ "Send" else b_ "SendAndClose", Sig [TPtr (me_out m)] [TError])] ++
  (if me_cs m then [(b_ "Recv", Sig [] [TPtr (me_in m); TError])] else []).
