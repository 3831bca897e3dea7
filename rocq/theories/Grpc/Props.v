From Coq Require Import Ascii String.
From Verif Require Import Base Strs.
From Verif.Grpc Require Import Model Spec Proofs Names Distinct Typed.
Open Scope list_scope.

(** ** A case *)
Definition w (n : string) (i o : string) (cs ss : bool) : method := Method (b_ n) (b_ i) (b_ o) cs ss.
Definition foo : service := Service (b_ "Foo") (b_ "pkg.v1.Foo")
  [w "Get" "GetRequest" "GetResponse" false false; w "watch_all" "WatchRequest" "Event" false true; w "Push" "Chunk" "Status" true false; w "Put" "PutRequest" "PutResponse" false false; w "Chat" "Line" "Line" true true].
Definition bar : service := Service (b_ "bar") (b_ "pkg.v1.bar") [w "Get" "GetRequest" "GetResponse" false false; w "Watch" "WatchRequest" "Event" false true].
Definition file1 : file := File true (b_ "pkg/v1/foo") [foo; bar] None None.
Definition file2 : file := File true (b_ "pkg/v1/own") [foo] (Some true) (Some false).
Ltac ident := eexists; eexists; split; [reflexivity|]; split; [first [left; reflexivity|right; reflexivity]|]; repeat (constructor; [first [left; reflexivity|right; left; reflexivity|right; right; reflexivity]|]); constructor.
Ltac nodup := repeat (constructor; [cbn; intuition discriminate|]); constructor.
Ltac okay := split; [ident|split; [repeat (constructor; [ident|]); constructor|nodup]].
Lemma foo_ok : service_ok foo. Proof. okay. Qed.
Lemma bar_ok : service_ok bar. Proof. okay. Qed.
Lemma file1_ok : file_ok file1. Proof. split; [repeat (constructor; [apply foo_ok || apply bar_ok|]); constructor|split; nodup]. Qed.
Lemma file1_separate : separate file1.
Proof.
  split; [vm_compute; nodup|]. split.
  - intros s [<-|[<-|[]]]; (split; [vm_compute; intuition discriminate|vm_compute; nodup]).
  - intros s s' x [<-|[<-|[]]] [<-|[<-|[]]] Hx; cbn in Hx; destruct Hx as [<-|[<-|[<-|[<-|[]]]]]; vm_compute; discriminate.
Qed.

(** ** C116: a call through the generated client arrives at that method of the registered server *)
Theorem C116_file : forall fs f, In f fs -> fi_generate f = true -> fi_services f <> [] -> exists ds, In (grpc_file f, ds) (generate fs).
Proof.
  intros fs f Hf Hg Hs. destruct (fi_services f) as [|s ss] eqn:E; [easy|]. eexists. apply in_flat_map. exists f. split; [exact Hf|]. rewrite Hg, E. left. reflexivity.
Qed.
Theorem C116_call : forall fs f ds s m c,
  NoDup (map fi_prefix fs) -> In f fs -> In (grpc_file f, ds) (generate fs) -> compiles ds ->
  In s (fi_services f) -> service_ok s -> In m (sv_methods s) ->
  (calls ds (unexport (go_name (sv_name s) ++ b_ "Client")) (go_name (me_name m)) c <-> c = wanted_call s m).
Proof. intros fs f ds s m c HN Hf Hds [H1 H2] Hs Hok Hm. destruct (written fs f ds HN Hf Hds) as [_ ->]. now apply calls_iff. Qed.
Theorem C116_served : forall fs f ds s m registered r,
  NoDup (map fi_prefix fs) -> In f fs -> In (grpc_file f, ds) (generate fs) -> compiles ds ->
  In s (fi_services f) -> service_ok s -> NoDup (map sv_full (fi_services f)) -> In m (sv_methods s) ->
  (exists dv, In (DFunc (b_ "Register" ++ go_name (sv_name s) ++ b_ "Server") (BRegister dv)) ds /\ In dv registered) ->
  (serves ds registered (b_ "/" ++ sv_full s ++ b_ "/" ++ me_name m) r <-> r = wanted_run s m).
Proof.
  intros fs f ds s m registered r HN Hf Hds [H1 H2] Hs Hok Hfull Hm (dv & Hd & Hr). destruct (written fs f ds HN Hf Hds) as [_ ->].
  apply (serves_iff _ _ (fi_services f)); try assumption.
  pose proof (flat_same declared _ _ _ (b_ "Register" ++ server_type s) H1 Hd (in_content _ _ _ s _ Hs (part_register _ _ s)) (or_introl eq_refl) (or_introl eq_refl)) as E.
  injection E as ->. exact Hr.
Qed.
(** A generated file that compiles, and what happens on two of its calls. *)
Example C116_case :
  NoDup (map fi_prefix [file1; file2]) /\ (exists ds, In (grpc_file file1, ds) (generate [file1; file2]) /\ compiles ds) /\
  wanted_call foo (w "watch_all" "WatchRequest" "Event" false true) = Stream (b_ "/pkg.v1.Foo/watch_all") true false true /\
  wanted_run foo (w "Get" "GetRequest" "GetResponse" false false) = RunUnary (b_ "FooServer") (b_ "Get") (b_ "GetRequest").
Proof.
  split; [nodup|]. split; [|split; reflexivity]. eexists. split; [now left|]. apply (distinct false file1); [apply file1_ok|apply file1_separate].
Qed.

(** ** C117: the names declared in a generated file are distinct *)
(** With generic streams, for services whose Go names are separate. *)
Theorem C117_distinct_partial : forall fs f ds,
  NoDup (map fi_prefix fs) -> In f fs -> In (grpc_file f, ds) (generate fs) -> file_ok f -> separate f -> fi_generic f <> Some false -> compiles ds.
Proof.
  intros fs f ds HN Hf Hds Hok Hsep Hg. destruct (written fs f ds HN Hf Hds) as [_ ->]. replace (or_ (fi_generic f) true) with true; [now apply distinct|].
  destruct (fi_generic f) as [[]|]; [reflexivity|now destruct Hg|reflexivity].
Qed.
Example C117_case : NoDup (map fi_prefix [file1]) /\ file_ok file1 /\ separate file1 /\ fi_generic file1 <> Some false.
Proof. split; [nodup|]. split; [apply file1_ok|]. split; [apply file1_separate|discriminate]. Qed.
(** What is missing: files that the compiler accepts whose generated code declares a name twice. *)
Definition clash (f : file) (n : bytes) : Prop :=
  file_ok f /\ exists ds a b c, In (grpc_file f, ds) (generate [f]) /\ scope ds = a ++ n :: b ++ n :: c.
Lemma clash_no f n : clash f n -> exists fs ds, In f fs /\ file_ok f /\ In (grpc_file f, ds) (generate fs) /\ ~ compiles ds.
Proof.
  intros (Hok & ds & a & b & c & H & E). exists [f], ds. split; [now left|]. split; [exact Hok|]. split; [exact H|]. intros [HN _]. rewrite E in HN.
  apply nodup_app in HN as (_ & HN & _). inversion HN as [|? ? N _]; subst. apply N, in_or_app. right. now left.
Qed.
Fixpoint find_twice (n : bytes) (l : list bytes) (seen : list bytes) : option (list bytes * list bytes) :=
  match l with [] => None | x :: r => if beq x n then Some (rev seen, r) else find_twice n r (x :: seen) end.
Lemma find_twice_eq n l : forall seen a r, find_twice n l seen = Some (a, r) -> rev seen ++ l = a ++ n :: r.
Proof.
  induction l as [|x l IH]; intros seen a r H; [discriminate|]. cbn [find_twice] in H. destruct (beq x n) eqn:E.
  - injection H as <- <-. apply beq_eq in E as ->. reflexivity.
  - apply IH in H. cbn [rev] in H. now rewrite <- app_assoc in H.
Qed.
Definition twice (n : bytes) (l : list bytes) : bool := match find_twice n l [] with Some (_, r) => match find_twice n r [] with Some _ => true | None => false end | None => false end.
Lemma twice_split n l : twice n l = true -> exists a b c, l = a ++ n :: b ++ n :: c.
Proof.
  unfold twice. destruct (find_twice n l []) as [[a r]|] eqn:E; [|easy]. destruct (find_twice n r []) as [[b c]|] eqn:E2; [|easy]. intros _.
  apply find_twice_eq in E. apply find_twice_eq in E2. cbn [rev app] in *. subst. eauto.
Qed.
Ltac clashes := split; [split; [repeat (constructor; [okay|]); constructor|split; nodup]|];
  match goal with |- exists ds a b c, In (_, _) (generate [?f]) /\ scope _ = _ ++ ?n :: _ =>
    exists (gen_content (or_ (fi_unimplemented f) false) (or_ (fi_generic f) true) (fi_services f));
    let H := fresh in assert (H : twice n (scope (gen_content (or_ (fi_unimplemented f) false) (or_ (fi_generic f) true) (fi_services f))) = true) by (vm_compute; reflexivity);
    apply twice_split in H as (a & b & c & E); exists a, b, c; split; [now left|exact E] end.
Definition one (ss : list service) (g : option bool) : file := File true (b_ "a") ss None g.
Definition rpc (n : string) : method := w n "I" "O" false false.
Definition svc (n : string) (ms : list method) : service := Service (b_ n) (b_ n) ms.
(** NewFooClient: the constructor of Foo's client and the client interface of NewFoo *)
Theorem C117_new_refuted : exists f n, clash f n /\ n = b_ "NewFooClient".
Proof. exists (one [svc "Foo" [rpc "Get"]; svc "NewFoo" [rpc "Get"]] None), (b_ "NewFooClient"). split; [clashes|reflexivity]. Qed.
(** UnsafeFooServer, likewise RegisterFooServer and UnimplementedFooServer *)
Theorem C117_unsafe_refuted : exists f n, clash f n /\ n = b_ "UnsafeFooServer".
Proof. exists (one [svc "Foo" [rpc "Get"]; svc "UnsafeFoo" [rpc "Get"]] None), (b_ "UnsafeFooServer"). split; [clashes|reflexivity]. Qed.
(** A_B_C_FullMethodName: method B_C of A and method C of A_B *)
Theorem C117_underscore_refuted : exists f n, clash f n /\ n = b_ "A_B_C_FullMethodName".
Proof. exists (one [svc "A" [rpc "B_C"]; svc "A_B" [rpc "C"]] None), (b_ "A_B_C_FullMethodName"). split; [clashes|reflexivity]. Qed.
(** A_BClient: the stream type of method B of A and the client of service A_B *)
Theorem C117_stream_refuted : exists f n, clash f n /\ n = b_ "A_BClient".
Proof. exists (one [svc "A" [w "B" "I" "O" false true]; svc "A_B" [rpc "C"]] None), (b_ "A_BClient"). split; [clashes|reflexivity]. Qed.
(** two methods of one service with the same Go name *)
Theorem C117_case_refuted : exists f n, clash f n /\ n = b_ "Foo_Get_FullMethodName".
Proof. exists (one [svc "Foo" [rpc "get"; rpc "Get"]] None), (b_ "Foo_Get_FullMethodName"). split; [clashes|reflexivity]. Qed.
(** fooBarClient, without generic streams: the stream object of Foo's method Bar and the client of FooBar,
    although the names are separate *)
Theorem C117_own_refuted : exists f n, separate f /\ clash f n /\ n = b_ "fooBarClient".
Proof.
  exists (one [svc "Foo" [w "Bar" "I" "O" false true]; svc "FooBar" [rpc "Get"]] (Some false)), (b_ "fooBarClient"). split; [|split; [clashes|reflexivity]].
  split; [vm_compute; nodup|]. split.
  - intros s [<-|[<-|[]]]; (split; [vm_compute; intuition discriminate|vm_compute; nodup]).
  - intros s s' x [<-|[<-|[]]] [<-|[<-|[]]] Hx; cbn in Hx; destruct Hx as [<-|[<-|[<-|[<-|[]]]]]; vm_compute; discriminate.
Qed.
(** and none of them compiles *)
Theorem C117_refuted : exists fs f ds, In f fs /\ file_ok f /\ In (grpc_file f, ds) (generate fs) /\ ~ compiles ds.
Proof. destruct C117_new_refuted as (f & n & H & _). apply clash_no in H as (fs & ds & H). exists fs, f, ds. exact H. Qed.

(** ** C118: generated types implement the generated interfaces *)
Theorem C118_client : forall fs f ds s, NoDup (map fi_prefix fs) -> In f fs -> In (grpc_file f, ds) (generate fs) -> In s (fi_services f) -> service_ok s ->
  implements ds (unexport (go_name (sv_name s) ++ b_ "Client")) (go_name (sv_name s) ++ b_ "Client") /\
  exists b, b = BNewClient (unexport (go_name (sv_name s) ++ b_ "Client")) /\ In (DFunc (b_ "New" ++ go_name (sv_name s) ++ b_ "Client") b) ds.
Proof.
  intros fs f ds s HN Hf Hds Hs Hok. destruct (written fs f ds HN Hf Hds) as [_ ->]. split; [now apply client_implements|]. eexists. split; [reflexivity|]. apply (in_content _ _ _ s _ Hs), part_three. do 2 right. now left.
Qed.
Theorem C118_server : forall fs f ds s, NoDup (map fi_prefix fs) -> In f fs -> In (grpc_file f, ds) (generate fs) -> In s (fi_services f) ->
  implements ds (b_ "Unimplemented" ++ go_name (sv_name s) ++ b_ "Server") (go_name (sv_name s) ++ b_ "Server").
Proof. intros fs f ds s HN Hf Hds Hs. destruct (written fs f ds HN Hf Hds) as [_ ->]. now apply server_implements. Qed.
Theorem C118_fits : forall fs f ds d, NoDup (map fi_prefix fs) -> In f fs -> In (grpc_file f, ds) (generate fs) -> Forall service_ok (fi_services f) -> In d ds -> fits ds d.
Proof. intros fs f ds d HN Hf Hds Hok Hd. destruct (written fs f ds HN Hf Hds) as [_ E]. subst ds. now apply all_fit. Qed.
Example C118_case : exists ds, In (grpc_file file2, ds) (generate [file1; file2]) /\ In (b_ "Foo_ChatServer") (scope ds) /\
  In (DFunc (b_ "_Foo_Chat_Handler") (BHandle None (b_ "FooServer") (b_ "Chat") (IOwn (b_ "fooChatServer")))) ds.
Proof.
  eexists. split; [right; now left|]. split.
  - vm_compute. auto 50.
  - apply (in_content _ _ _ foo); [now left|]. apply (part_handler _ _ foo (w "Chat" "Line" "Line" true true)); [cbn; auto 10|]. left. reflexivity.
Qed.

(** Both ends of a streaming method can send and receive what its declaration says, and nothing else. *)
Theorem C118_streams : forall fs f ds s m, NoDup (map fi_prefix fs) -> In f fs -> In (grpc_file f, ds) (generate fs) -> In s (fi_services f) -> In m (sv_methods s) ->
  me_cs m = true \/ me_ss m = true ->
  (exists ms t, In (DInterface (go_name (sv_name s) ++ b_ "Client") ms) ds /\
     In (go_name (me_name m), Sig ([TContext] ++ (if me_cs m then [] else [TPtr (me_in m)]) ++ [TOptions]) [t; TError]) ms /\ operations ds t (client_does m)) /\
  (exists ms t, In (DInterface (go_name (sv_name s) ++ b_ "Server") ms) ds /\
     In (go_name (me_name m), Sig ((if me_cs m then [] else [TPtr (me_in m)]) ++ [t]) [TError]) ms /\ operations ds t (server_does m)).
Proof.
  intros fs f ds s m HN Hf Hds Hs Hm Hst. destruct (written fs f ds HN Hf Hds) as [_ ->]. apply orb_true_iff in Hst.
  split; [now apply client_operations|now apply server_operations].
Qed.
Example C118_streams_case : let m := w "Chat" "Line" "Line" true true in
  In m (sv_methods foo) /\ map fst (client_does m) = [b_ "Send"; b_ "Recv"] /\
  map fst (client_does (w "Put" "I" "O" true false)) = [b_ "Send"; b_ "CloseAndRecv"] /\ map fst (server_does (w "Put" "I" "O" true false)) = [b_ "SendAndClose"; b_ "Recv"].
Proof. split; [cbn; auto 10|repeat split; reflexivity]. Qed.

Print Assumptions C116_file.
Print Assumptions C116_call.
Print Assumptions C116_served.
Print Assumptions C117_distinct_partial.
Print Assumptions C117_new_refuted.
Print Assumptions C117_unsafe_refuted.
Print Assumptions C117_underscore_refuted.
Print Assumptions C117_stream_refuted.
Print Assumptions C117_case_refuted.
Print Assumptions C117_own_refuted.
Print Assumptions C117_refuted.
Print Assumptions C118_client.
Print Assumptions C118_server.
Print Assumptions C118_fits.
Print Assumptions C118_streams.
