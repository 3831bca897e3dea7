(** Model of the gRPC code generator, sdk/codegen/generators/golang/grpc/upstream_gen.go (line numbers
    without a file) and generator.go.

    What the generator writes with g.P is kept as a list of Go declarations with the parts that matter to
    their meaning, in the order written; comments, the file header and AnnotateSymbol are left out (but
    see Generated.Model for the header).  A Go identifier of another package, as QualifiedGoIdent gives
    it, is one name.  Go names of services and methods are protogen's, GoCamelCase of the declared name
    (Generated.Model has the copy of it in pkg/x/protogen/strs). *)
From Coq Require Import Ascii String.
From Verif Require Import Base Strs.
From Verif.Generated Require Model.
Open Scope list_scope.

Definition go_name : bytes -> bytes := Generated.Model.go_camel_case.

(** protogen.Method, protogen.Service and protogen.File: [me_in] and [me_out] are the qualified Go names of
    the messages, [sv_full] the full name of the service (Desc.FullName) *)
Record method := Method { me_name : bytes; me_in : bytes; me_out : bytes; me_cs : bool; me_ss : bool }.
Record service := Service { sv_name : bytes; sv_full : bytes; sv_methods : list method }.
Record file := File { fi_generate : bool; fi_prefix : bytes; fi_services : list service; fi_unimplemented : option bool; fi_generic : option bool }.
Definition me_go (m : method) : bytes := go_name (me_name m).
Definition sv_go (s : service) : bytes := go_name (sv_name s).
Definition streaming (m : method) : bool := me_cs m || me_ss m.

(** ** Go *)
(** the types that occur: context.Context, ...grpc.CallOption, error, a pointer to a message, a named type,
    and the generic stream types of package grpc *)
Inductive gtype := TContext | TOptions | TError | TPtr (n : bytes) | TNamed (n : bytes)
| TBidi (client : bool) (i o : bytes) | TClientStreaming (client : bool) (i o : bytes) | TServerStreaming (client : bool) (o : bytes).
Record sig := Sig { sg_args : list gtype; sg_results : list gtype }.
(** a stream object: a type of this file, or grpc.GenericClientStream / GenericServerStream *)
Inductive impl := IOwn (n : bytes) | IGeneric (i o : bytes).
Inductive body :=
| BInvoke (symbol : bytes) (out : bytes)
| BStream (desc : bytes) (index : nat) (symbol : bytes) (x : impl) (send : bool)
| BNewClient (struct_ : bytes)
| BUnimplemented (value : bool)
| BEmpty
| BRegister (desc : bytes)
| BUnary (input : bytes) (server : bytes) (method : bytes) (symbol : bytes)
| BHandle (input : option bytes) (server : bytes) (method : bytes) (x : impl)
| BSend | BRecv (t : bytes) | BCloseAndRecv (t : bytes).
Record entry := Entry { en_name : bytes; en_handler : bytes; en_ss : bool; en_cs : bool }.
Record sdesc := SDesc { sd_name : bytes; sd_type : bytes; sd_methods : list entry; sd_streams : list entry }.
Inductive decl :=
| DConst (n : bytes) (v : bytes)
| DInterface (n : bytes) (ms : list (bytes * sig))
| DStruct (n : bytes)
| DAlias (n : bytes) (t : gtype)
| DFunc (n : bytes) (b : body)
| DMethod (recv n : bytes) (s : sig) (b : body)
| DVar (n : bytes) (d : sdesc).

(** ** Names *)
(** 630: strings.ToLower of the first byte (names are ASCII) *)
Definition to_lower (c : ascii) : ascii := if Generated.Model.is_upper c then ascii_of_nat (Generated.Model.code c + 32) else c.
Definition unexport (s : bytes) : bytes := match s with c :: r => to_lower c :: r | [] => [] end.
(** 50-52 formatFullMethodSymbol *)
Definition method_symbol (s : service) (m : method) : bytes := sv_go s ++ b_ "_" ++ me_go m ++ b_ "_FullMethodName".
(** 59-60 *)
Definition full_method (s : service) (m : method) : bytes := b_ "/" ++ sv_full s ++ b_ "/" ++ me_name m.
Definition client_name (s : service) : bytes := sv_go s ++ b_ "Client".
Definition server_type (s : service) : bytes := sv_go s ++ b_ "Server".
Definition desc_var (s : service) : bytes := sv_go s ++ b_ "_ServiceDesc".
(** 520 *)
Definition handler_name (s : service) (m : method) : bytes := b_ "_" ++ sv_go s ++ b_ "_" ++ me_go m ++ b_ "_Handler".
(** 401, 334 / 572, 454 *)
Definition client_stream_type (s : service) (m : method) : bytes := sv_go s ++ b_ "_" ++ me_go m ++ b_ "Client".
Definition server_stream_type (s : service) (m : method) : bytes := sv_go s ++ b_ "_" ++ me_go m ++ b_ "Server".

Section Generator.
(** generator.go:32-35 *)
Variable require_unimplemented : bool.
Variable generic : bool.

(** 56-67 genFullMethods *)
Definition gen_full_methods (s : service) : list decl := map (fun m => DConst (method_symbol s m) (full_method s m)) (sv_methods s).
(** 341-350 clientStreamInterface, 507-516 serverStreamInterface *)
Definition stream_interface (client : bool) (m : method) : gtype :=
  if me_cs m && me_ss m then TBidi client (me_in m) (me_out m)
  else if me_cs m then TClientStreaming client (me_in m) (me_out m)
  else TServerStreaming client (me_out m).
(** 323-339 clientSignature *)
Definition client_sig (s : service) (m : method) : sig :=
  Sig ([TContext] ++ (if me_cs m then [] else [TPtr (me_in m)]) ++ [TOptions])
      [if negb (me_cs m) && negb (me_ss m) then TPtr (me_out m)
       else if generic then stream_interface true m else TNamed (client_stream_type s m); TError].
(** 443-461 serverSignature *)
Definition server_sig (s : service) (m : method) : sig :=
  let unary := negb (me_cs m) && negb (me_ss m) in
  Sig ((if unary then [TContext] else []) ++ (if me_cs m then [] else [TPtr (me_in m)]) ++
       (if streaming m then [if generic then stream_interface false m else TNamed (server_stream_type s m)] else []))
      ((if unary then [TPtr (me_out m)] else []) ++ [TError]).

(** 352-441 genClientMethod *)
Definition gen_client_method (s : service) (m : method) (index : nat) : list decl :=
  let recv := unexport (sv_go s) ++ b_ "Client" in
  if negb (me_ss m) && negb (me_cs m) then [DMethod recv (me_go m) (client_sig s m) (BInvoke (method_symbol s m) (me_out m))]
  else
    let own := unexport (sv_go s) ++ me_go m ++ b_ "Client" in
    let x := if generic then IGeneric (me_in m) (me_out m) else IOwn own in
    [DMethod recv (me_go m) (client_sig s m) (BStream (desc_var s) index (method_symbol s m) x (negb (me_cs m)))] ++
    if generic then [DAlias (client_stream_type s m) (stream_interface true m)]
    else
      let send := Sig [TPtr (me_in m)] [TError] in
      let recv_ := Sig [] [TPtr (me_out m); TError] in
      [DInterface (client_stream_type s m)
         ((if me_cs m then [(b_ "Send", send)] else []) ++ (if me_ss m then [(b_ "Recv", recv_)] else []) ++ (if me_ss m then [] else [(b_ "CloseAndRecv", recv_)]));
       DStruct own] ++
      (if me_cs m then [DMethod own (b_ "Send") send BSend] else []) ++
      (if me_ss m then [DMethod own (b_ "Recv") recv_ (BRecv (me_out m))] else []) ++
      (if me_ss m then [] else [DMethod own (b_ "CloseAndRecv") recv_ (BCloseAndRecv (me_out m))]).
(** 250-261: two counters *)
Fixpoint gen_client_methods (s : service) (ms : list method) (mi si : nat) : list decl :=
  match ms with
  | [] => []
  | m :: r => if negb (me_ss m) && negb (me_cs m) then gen_client_method s m mi ++ gen_client_methods s r (S mi) si
              else gen_client_method s m si ++ gen_client_methods s r mi (S si)
  end.
(** 80-109 generateUnimplementedServerType *)
Definition must_embed (s : service) : bytes := b_ "mustEmbedUnimplemented" ++ server_type s.
Definition gen_unimplemented (s : service) : list decl :=
  let t := b_ "Unimplemented" ++ server_type s in
  [DStruct t] ++ map (fun m => DMethod t (me_go m) (server_sig s m) (BUnimplemented (negb (streaming m)))) (sv_methods s) ++
  (if require_unimplemented then [DMethod t (must_embed s) (Sig [] []) BEmpty] else []) ++
  [DMethod t (b_ "testEmbeddedByValue") (Sig [] []) BEmpty].
(** 518-614 genServerMethod *)
Definition gen_server_method (s : service) (m : method) : list decl :=
  if negb (me_cs m) && negb (me_ss m) then [DFunc (handler_name s m) (BUnary (me_in m) (server_type s) (me_go m) (method_symbol s m))]
  else
    let own := unexport (sv_go s) ++ me_go m ++ b_ "Server" in
    let x := if generic then IGeneric (me_in m) (me_out m) else IOwn own in
    [DFunc (handler_name s m) (BHandle (if me_cs m then None else Some (me_in m)) (server_type s) (me_go m) x)] ++
    if generic then [DAlias (server_stream_type s m) (stream_interface false m)]
    else
      let send := Sig [TPtr (me_out m)] [TError] in
      let recv_ := Sig [] [TPtr (me_in m); TError] in
      [DInterface (server_stream_type s m)
         ((if me_ss m then [(b_ "Send", send)] else []) ++ (if me_ss m then [] else [(b_ "SendAndClose", send)]) ++ (if me_cs m then [(b_ "Recv", recv_)] else []));
       DStruct own] ++
      (if me_ss m then [DMethod own (b_ "Send") send BSend] else []) ++
      (if me_ss m then [] else [DMethod own (b_ "SendAndClose") send BSend]) ++
      (if me_cs m then [DMethod own (b_ "Recv") recv_ (BRecv (me_in m))] else []).
(** 463-505 genServiceDesc: the handler names are indexed by the method's position (471, 483) *)
Fixpoint entries (keep : method -> bool) (names : list bytes) (ms : list method) (i : nat) : list entry :=
  match ms with
  | [] => []
  | m :: r => (if keep m then [Entry (me_name m) (nth i names []) (me_ss m) (me_cs m)] else []) ++ entries keep names r (S i)
  end.
Definition gen_service_desc (s : service) (names : list bytes) : list decl :=
  [DVar (desc_var s) (SDesc (sv_full s) (server_type s)
     (entries (fun m => negb (streaming m)) names (sv_methods s) 0)
     (entries streaming names (sv_methods s) 0))].
(** 111-121 generateServerFunctions *)
Definition gen_server_functions (s : service) : list decl :=
  flat_map (gen_server_method s) (sv_methods s) ++ gen_service_desc s (map (handler_name s) (sv_methods s)).
(** 206-321 genService *)
Definition gen_service (s : service) : list decl :=
  gen_full_methods s ++
  [DInterface (client_name s) (map (fun m => (me_go m, client_sig s m)) (sv_methods s));
   DStruct (unexport (client_name s));
   DFunc (b_ "New" ++ client_name s) (BNewClient (unexport (client_name s)))] ++
  gen_client_methods s (sv_methods s) 0 0 ++
  [DInterface (server_type s) (map (fun m => (me_go m, server_sig s m)) (sv_methods s) ++ (if require_unimplemented then [(must_embed s, Sig [] [])] else []))] ++
  gen_unimplemented s ++
  [DInterface (b_ "Unsafe" ++ server_type s) [(must_embed s, Sig [] [])];
   DFunc (b_ "Register" ++ server_type s) (BRegister (desc_var s))] ++
  gen_server_functions s.
(** 171-190 generateFileContent *)
Definition gen_content (services : list service) : list decl := flat_map gen_service services.
End Generator.

(** generator.go:37-64 Generate and 130-158 generateFile: the files written, by name *)
Definition or_ (o : option bool) (d : bool) : bool := match o with Some b => b | None => d end.
Definition generate (fs : list file) : list (bytes * list decl) :=
  flat_map (fun f =>
    if fi_generate f then
      match fi_services f with
      | [] => []
      | ss => [(fi_prefix f ++ b_ "_grpc.pb.go", gen_content (or_ (fi_unimplemented f) false) (or_ (fi_generic f) true) ss)]
      end
    else []) fs.
