(** C37, C39, C64-C68: import path resolution. *)
From Coq Require Import Ascii String NArith.
From Verif Require Import Base Strs Paths.
From Verif.Resolver Require Import Model Spec Proofs.
Open Scope list_scope.

Ltac normals := repeat (apply Forall_cons; [split; [discriminate|split; [discriminate|split; [discriminate|vm_compute; intuition discriminate]]]|]); apply Forall_nil.

(** ** C37: documents and import paths correspond one to one *)

(** As long as no operation records a path that another document has, the two maps are inverse. *)
Theorem C37_inverse_partial : forall folder ops, all_harmless folder init ops -> inverse (run folder ops).
Proof. intros folder ops H. apply inv_inverse. apply inv_run; [apply inv_init|exact H]. Qed.
(* Missing: histories in which two documents get the same path, or one document two paths; see the
   refutations below. *)

(** In a workspace that is a Go module this holds for every history of events of its files, and a file is
    known by its path in the module exactly while it exists. *)
Theorem C37_module_workspace : forall md mn folder ops,
  Forall normal md -> Forall normal mn -> mn <> [] -> Forall (fun c => ~ In semi c) mn ->
  Forall (module_event md mn) ops ->
  inverse (run folder ops) /\
  forall d g, Forall normal (d ++ [g]) ->
    uri_to_path (run folder ops) (uri_of_file (abs (md ++ d ++ [g]))) =
      if present (uri_of_file (abs (md ++ d ++ [g]))) ops then Some (rel (mn ++ d ++ [g])) else None.
Proof.
  intros md mn folder ops Hm Hn N Hs F. split; [apply inv_inverse; now apply (module_run md mn)|].
  intros d g Hd. now apply module_present.
Qed.
(** The same without a Go module: a file is known by its path in the folder. *)
Theorem C37_plain_workspace : forall wd ops, Forall normal wd -> wd <> [] -> Forall (plain_event wd) ops ->
  inverse (run (abs wd) ops) /\
  forall d, d <> [] -> Forall normal d ->
    uri_to_path (run (abs wd) ops) (uri_of_file (abs (wd ++ d))) =
      if present (uri_of_file (abs (wd ++ d))) ops then Some (rel d) else None.
Proof.
  intros wd ops Hw N F. split; [apply inv_inverse; now apply plain_run|]. intros d Nd Hd. now apply plain_present.
Qed.
(** Without any assumption: a path leads to the document recorded for it last, and a document to the path
    recorded for it last. *)
Theorem C37_latest : forall folder ops,
  (forall p u, path_to_uri (run folder ops) p = Some u -> latest (fun b => beq (snd b) (strip_semi p)) (bindings folder init ops) = Some (u, strip_semi p)) /\
  (forall u p, uri_to_path (run folder ops) u = Some p -> latest (fun b => beq (fst b) u) (bindings folder init ops) = Some (u, p)).
Proof.
  intros folder ops. destruct (logged_run folder ops init [] logged_init) as [A B]. cbn [app] in *. split; intros; auto.
Qed.
(** When a document of a Go module changes, it is known by its new path, and no longer by the old one; when it is no longer in
    a Go module, it is not known at all. Documents outside Go modules keep their path. *)
Theorem C37_change_moves : forall folder m u f pkg, srcs m u = Some LocalGoModule ->
  (forall p, paths m u = Some p -> uris m p = Some u) ->
  let m' := step folder m (Change u f (LPackage pkg)) in let p' := path_join pkg (path_base f) in p' <> [] ->
  paths m' u = Some p' /\ uris m' p' = Some u /\ (forall p, paths m u = Some p -> p <> [] -> p <> p' -> uris m' p = None) /\
  (forall v, v <> u -> paths m' v = paths m v).
Proof.
  intros folder m u f pkg L H m' p' N. unfold m'. cbn [step]. unfold is_local_module. rewrite L. change (canonical pkg f) with p'. destruct (paths m u) as [p|] eqn:P.
  - destruct (beq p' p) eqn:E.
    + apply beq_eq in E. subst p. rewrite P. repeat split; auto. intros p Q. injection Q as <-. congruence.
    + apply beq_neq in E. cbn [paths uris]. rewrite bset_same. split; [reflexivity|]. split; [|split].
      * destruct p; [apply bset_same|]. rewrite bset_other by exact E. apply bset_same.
      * intros q Q Nq _. injection Q as <-. destruct p; [congruence|]. apply bset_same.
      * intros v V. now apply bset_other.
  - rewrite (proj2 (beq_neq _ _) N). cbn [paths uris]. rewrite !bset_same. repeat split; [discriminate|]. intros v V. now apply bset_other.
Qed.
Theorem C37_change_leaves : forall folder m u f, srcs m u = Some LocalGoModule ->
  let m' := step folder m (Change u f LNoModule) in
  paths m' u = None /\ srcs m' u = None /\ (forall p, paths m u = Some p -> uris m' p = None) /\ (forall v, v <> u -> paths m' v = paths m v).
Proof.
  intros folder m u f L m'. unfold m'. cbn [step]. unfold is_local_module. rewrite L. cbn [paths uris srcs]. rewrite !bset_same. repeat split.
  - intros p ->. apply bset_same.
  - intros v V. now apply bset_other.
Qed.
Theorem C37_change_elsewhere : forall folder m u f r, srcs m u <> Some LocalGoModule -> step folder m (Change u f r) = m.
Proof. intros folder m u f r N. cbn [step]. destruct (srcs m u) as [[]|]; try reflexivity. congruence. Qed.
(** Two files, one outside the directory of the module, get the same path; when one is deleted, the other
    cannot be found by its path any more. *)
Theorem C37_shared_path_refuted : exists md mn f1 f2 text,
  let r f := lookup_go_module (Some (md, mn)) f text in
  let m := run md [Create (uri_of_file f1) f1 (r f1); Create (uri_of_file f2) f2 (r f2); Delete (uri_of_file f2)] in
  exists p, uri_to_path m (uri_of_file f1) = Some p /\ path_to_uri m p = None.
Proof.
  exists (b_ "/w/q"), (b_ "example.com/m"), (b_ "/w/q/f.proto"), (b_ "/w/m/f.proto"), []. cbv zeta.
  exists (b_ "example.com/m/f.proto"). split; vm_compute; reflexivity.
Qed.
(** A file whose name contains a semicolon is not found by its own path. *)
Theorem C37_semicolon_refuted : exists f,
  let m := run (b_ "/w") [Create (uri_of_file f) f LNoModule] in
  exists p, uri_to_path m (uri_of_file f) = Some p /\ path_to_uri m p = None.
Proof. exists (b_ "/w/a;b.proto"). cbv zeta. exists (b_ "a;b.proto"). split; vm_compute; reflexivity. Qed.

Example C37_example :
  let md := [b_ "w"; b_ "mod"] in let mn := [b_ "example.com"; b_ "mod"] in
  let file := abs (md ++ [b_ "api"] ++ [b_ "x.proto"]) in
  let ops := [Create (uri_of_file file) file (lookup_go_module (Some (abs md, rel mn)) file []);
              Change (uri_of_file file) file (lookup_go_module (Some (abs md, rel mn)) file [])] in
  Forall (module_event md mn) ops /\ all_harmless (abs md) init ops /\
  path_to_uri (run (abs md) ops) (b_ "example.com/mod/api/x.proto") = Some (b_ "file:///w/mod/api/x.proto").
Proof.
  cbv zeta. split; [|split].
  - assert (F : exists d g, abs ([b_ "w"; b_ "mod"] ++ [b_ "api"] ++ [b_ "x.proto"]) = abs ([b_ "w"; b_ "mod"] ++ d ++ [g]) /\
      Forall normal (d ++ [g]) /\ Forall (fun c => ~ In semi c) (d ++ [g])).
    { exists [b_ "api"], (b_ "x.proto"). split; [reflexivity|]. split.
      - apply Forall_cons; [|apply Forall_cons; [|apply Forall_nil]]; (split; [|split; [|split]]); try discriminate; vm_compute; intuition discriminate.
      - apply Forall_cons; [|apply Forall_cons; [|apply Forall_nil]]; vm_compute; intuition discriminate. }
    apply Forall_cons; [|apply Forall_cons; [|apply Forall_nil]]; (split; [reflexivity|split; [exact F|right; now exists []]]).
  - cbn [all_harmless]. split; [|split; [|exact I]]; unfold harmless; vm_compute; repeat split; auto; try discriminate; intuition discriminate.
  - vm_compute. reflexivity.
Qed.

(** ** C39: the go_package directive is found *)
Theorem C39_directive_found : forall pre line post p,
  Forall other_line pre -> go_package_line p line ->
  (forall l, In l (pre ++ line :: post) -> ~ In nl l) ->
  fast_lookup (join_with nl (pre ++ line :: post)) = Some p.
Proof.
  intros pre line post p H G N. unfold fast_lookup. rewrite split_join; [now apply scan_lines_skip|now destruct pre|exact N].
Qed.
(** Outside the canonical form the answer can be wrong: the last quote of the line is taken, not the
    closing one; comments are not recognised; an indented directive is not seen; and another statement
    on the line can shift the cut at the semicolon. *)
Theorem C39_quotes_in_comment_refuted : exists text, 
  text = b_ "option go_package = ""a/b""; // ""x""" /\ fast_lookup text = Some (b_ "a/b""").
Proof. eexists. split; [reflexivity|]. vm_compute. reflexivity. Qed.
Theorem C39_commented_out_refuted : exists text,
  text = b_ "/*" ++ nl :: b_ "option go_package = ""old"";" ++ nl :: b_ "*/" ++ nl :: b_ "option go_package = ""new"";" /\
  fast_lookup text = Some (b_ "old").
Proof. eexists. split; [reflexivity|]. vm_compute. reflexivity. Qed.
Theorem C39_indented_refuted : exists text,
  text = b_ " option go_package = ""a/b"";" /\ fast_lookup text = None.
Proof. eexists. split; [reflexivity|]. vm_compute. reflexivity. Qed.
Theorem C39_two_statements_refuted : exists text,
  text = b_ "option java_package = ""j""; option go_package = ""a/b;c"";" /\ fast_lookup text = Some (b_ "a/b;c").
Proof. eexists. split; [reflexivity|]. vm_compute. reflexivity. Qed.
Example C39_example :
  go_package_line (b_ "example.com/p") (b_ "option go_package = ""example.com/p;pb"";  // generated") /\
  other_line (b_ "syntax = ""proto3"";") /\ other_line (b_ "option java_package = ""com.example"";") /\
  fast_lookup (b_ "syntax = ""proto3"";" ++ nl :: b_ "option go_package = ""example.com/p;pb"";  // generated") = Some (b_ "example.com/p").
Proof.
  split; [|split; [|split]].
  - exists (b_ " "), (b_ " "), (b_ " "), (b_ ";pb"), [], (b_ "  // generated").
    split; [repeat constructor|]. split; [repeat constructor|]. split; [repeat constructor|]. split; [constructor|].
    split; [discriminate|]. split; [vm_compute; intuition discriminate|]. split; [vm_compute; intuition discriminate|].
    split; [right; exists (b_ "pb"); split; [reflexivity|vm_compute; intuition discriminate]|].
    split; [vm_compute; intuition discriminate|reflexivity].
  - left. reflexivity.
  - right. reflexivity.
  - vm_compute. reflexivity.
Qed.

(** ** C64: what an import path resolves to *)

(** A path recorded for a readable document is served from that document, whatever Go modules or importers
    there are, and nothing is recorded. *)
Theorem C64_document_wins : forall regular lk e m importer p u t,
  well_known p = false -> uris m p = Some u -> is_synthetic u = false -> e_read e u = Some t -> large (List.length t) = false ->
  resolve regular lk e m importer p = (m, Served p (FromFile u t)).
Proof. intros. unfold resolve. erewrite find_file_document by eassumption. reflexivity. Qed.
(** One of more than 1 MiB is refused. *)
Theorem C64_size_limit : forall e m p u t, well_known p = false -> uris m p = Some u -> is_synthetic u = false -> e_read e u = Some t ->
  ((N.of_nat (List.length t) <= 1024 * 1024)%N -> find_file e m p = (m, Served p (FromFile u t))) /\
  ((1024 * 1024 < N.of_nat (List.length t))%N -> find_file e m p = (m, Failed)).
Proof.
  intros e m p u t W U S R. split; intro L.
  - apply find_file_document with (u := u) (t := t); auto. unfold large. apply N.ltb_ge. exact L.
  - unfold find_file, check_well_known, check_fs. rewrite W, U, S, R. unfold large. apply N.ltb_lt in L. change (1024 * 1024)%N with 1048576%N in L. now rewrite L.
Qed.
(** Go modules are consulted only for paths outside google/ without a document. *)
Theorem C64_module_last : forall e m p m' r u, find_file e m p = (m', Served r (FromModule u)) ->
  well_known p = false /\ no_document e m p.
Proof.
  intros e m p m' r u H. apply served_cases in H. destruct H as [(_ & H)|[(_ & _ & _ & v & t & H & _)|[(W & N & _)|(W & N & _)]]]; auto; [|discriminate].
  unfold check_global in H. destruct (e_registry e p); [|discriminate]. destruct (synth m _); discriminate.
Qed.
(** A path under google/ is answered by the built-in files alone. *)
Theorem C64_google : forall e m p, well_known p = true ->
  match e_registry e p with
  | Some _ => exists t, snd (find_file e m p) = Served p (FromRegistry t)
  | None => snd (find_file e m p) = Failed
  end.
Proof.
  intros e m p W. rewrite find_file_well_known by exact W. unfold check_global. destruct (e_registry e p); [|reflexivity].
  destruct (synth m _); eexists; reflexivity.
Qed.
(** These are the paths that begin with google/; behind github.com/gogo/googleapis/ they mean the same files for
    workspaces with Go modules. *)
Theorem C64_google_paths : forall p, well_known p = true <-> exists r, p = b_ "google/" ++ r.
Proof. intros p. apply has_prefix_spec. Qed.
Theorem C64_gogo_googleapis : forall e m r, e_has_module e = true -> no_document e m (b_ "github.com/gogo/googleapis/google/" ++ r) ->
  e_registry e (b_ "google/" ++ r) <> None ->
  find_file e m (b_ "github.com/gogo/googleapis/google/" ++ r) = find_file e m (b_ "google/" ++ r).
Proof.
  intros e m r M ND REG. set (p := b_ "github.com/gogo/googleapis/google/" ++ r) in *.
  assert (G : skipn (List.length gogo_prefix) p = b_ "google/" ++ r) by reflexivity.
  assert (P : has_prefix p gogo_prefix = true) by reflexivity.
  assert (W : well_known (b_ "google/" ++ r) = true) by (apply has_prefix_spec; now exists r).
  assert (C : check_module e m p = check_global e m (b_ "google/" ++ r)).
  { unfold check_module. rewrite M, P, G. cbn [negb]. unfold check_well_known. now rewrite W. }
  rewrite (find_file_well_known e m _ W). unfold find_file, check_well_known at 1. change (well_known p) with false. cbv iota.
  assert (N : (if match uris m p with Some u => is_synthetic u | None => false end then NotExist else check_fs e m p) = NotExist).
  { unfold check_fs. destruct ND as [-> | (u & -> & [-> | ->])]; [reflexivity|reflexivity|now destruct (is_synthetic u)]. }
  rewrite N, C. unfold check_global. destruct (e_registry e (b_ "google/" ++ r)) as [t|]; [|congruence].
  destruct (synth m _); reflexivity.
Qed.
(** Asking again gives the same document. *)
Theorem C64_same_answer_partial : forall e ps p m' r o, alternates_plain e -> modules_readable e ->
  find_file e (lookups e ps) p = (m', Served r o) ->
  exists o', snd (find_file e m' p) = Served r o' /\ same_document o o'.
Proof. intros e ps p m' r o A R H. eapply find_again; eauto. now apply tidy_lookups. Qed.
(* Missing: .proto files of Go modules longer than 1 MiB; see the refutation. *)

(** Workspace files under google/ cannot be imported. *)
Theorem C64_google_document_refuted : exists regular lk e m p u t importer,
  uris m p = Some u /\ is_synthetic u = false /\ e_read e u = Some t /\ large (List.length t) = false /\
  snd (resolve regular lk e m importer p) = Failed.
Proof.
  exists (fun _ => true), (fun _ => LError).
  exists (mkEnv (b_ "w") false (fun _ => None) (fun _ => Some (b_ "x")) (fun _ => MNotExist)).
  exists (run (b_ "/w") [Create (b_ "file:///w/google/type/date.proto") (b_ "/w/google/type/date.proto") LNoModule]).
  exists (b_ "google/type/date.proto"), (b_ "file:///w/google/type/date.proto"), (b_ "x"), (Some (b_ "a.proto")).
  repeat split; vm_compute; reflexivity.
Qed.
(** A module file over 1 MiB is served the first time and fails the second time. *)
Theorem C64_large_module_file_refuted : exists e p m' r o,
  find_file e init p = (m', Served r o) /\ snd (find_file e m' p) = Failed.
Proof.
  exists (mkEnv (b_ "w") true (fun _ => None) (fun _ => Some (repeat "x"%char (N.to_nat 1048577))) (fun _ => MSource (b_ "file:///m/a.proto") true false)).
  exists (b_ "m/a.proto"). eexists. eexists. eexists. split; [reflexivity|].
  unfold find_file, check_well_known, check_fs. change (well_known (b_ "m/a.proto")) with false. cbn iota. cbn [bind uris].
  rewrite bset_same. change (is_synthetic (b_ "file:///m/a.proto")) with false. cbn iota. cbn [e_read].
  unfold large. rewrite repeat_length, Nnat.N2Nat.id. reflexivity.
Qed.
(** gogo.proto is not looked for in its usual place if generated code was found for the path as written
    but could not be turned into a descriptor. *)
Theorem C64_gogo_fallback_refuted : exists e p u,
  path_base p = b_ "gogo.proto" /\ e_module e gogo_proto = MSource u true false /\ snd (find_file e init p) = Failed.
Proof.
  exists (mkEnv (b_ "w") true (fun _ => None) (fun _ => None) (fun q => if beq q gogo_proto then MSource (b_ "file:///g") true false else MGenerated None None)).
  exists (b_ "vendored/gogo.proto"), (b_ "file:///g"). repeat split; vm_compute; reflexivity.
Qed.
Definition ex_env : env :=
  mkEnv (b_ "w") true (fun p => if beq p (b_ "google/protobuf/any.proto") then Some (b_ "any") else None)
    (fun u => if beq u (b_ "file:///m/a.proto") then Some (b_ "text") else None)
    (fun q => if beq q (b_ "m/a.proto") then MSource (b_ "file:///m/a.proto") true false else MNotExist).
Example C64_example :
  alternates_plain ex_env /\ modules_readable ex_env /\
  snd (find_file ex_env (lookups ex_env [b_ "google/protobuf/any.proto"]) (b_ "m/a.proto")) = Served (b_ "m/a.proto") (FromModule (b_ "file:///m/a.proto")) /\
  snd (find_file ex_env (lookups ex_env [b_ "m/a.proto"]) (b_ "m/a.proto")) = Served (b_ "m/a.proto") (FromFile (b_ "file:///m/a.proto") (b_ "text")).
Proof.
  split; [|split; [|split]].
  - intros q a d H. cbn in H. destruct (beq q _); discriminate.
  - intros q u l H. cbn in H. destruct (beq q _); [|discriminate]. injection H as <- <-. split; [reflexivity|]. exists (b_ "text"). split; reflexivity.
  - vm_compute. reflexivity.
  - vm_compute. reflexivity.
Qed.

(** ** C65: the URI of a resolved path denotes the document that was served *)
Theorem C65_uri_of_resolved_path_partial : forall e ps p m' r o, alternates_plain e -> ~ In semi r ->
  find_file e (lookups e ps) p = (m', Served r o) -> exists u, path_to_uri m' r = Some u /\ serves m' u o.
Proof.
  intros e ps p m' r o A Hs H. unfold path_to_uri. rewrite strip_semi_id by exact Hs. eapply find_serves; eauto. now apply tidy_lookups.
Qed.
(** the package name that may follow a path does not matter *)
Theorem C65_alias_ignored : forall m p alias, ~ In semi p -> path_to_uri m (p ++ semi :: alias) = path_to_uri m p.
Proof.
  intros m p alias H. unfold path_to_uri. rewrite (strip_semi_id p H). f_equal.
  induction p as [|c p IH]; [reflexivity|]. cbn [app strip_semi]. destruct (Ascii.eqb_spec c semi) as [->|N]; [exfalso; apply H; now left|].
  f_equal. apply IH. intros I. apply H. now right.
Qed.
Example C65_alias_ex : path_to_uri (run (b_ "/w") [Create (b_ "file:///w/a.proto") (b_ "/w/a.proto") LNoModule]) (b_ "a.proto;apb") = Some (b_ "file:///w/a.proto").
Proof. vm_compute. reflexivity. Qed.
(** A built-in file has the URI proto://path#workspace. *)
Theorem C65_built_in : forall e ps p m' r o, alternates_plain e -> well_known p = true -> find_file e (lookups e ps) p = (m', Served r o) ->
  ~ In semi p -> path_to_uri m' r = Some (b_ "proto://" ++ p ++ b_ "#" ++ e_name e).
Proof.
  intros e ps p m' r o A W H N. pose proof (tidy_lookups e ps A) as T. rewrite find_file_well_known in H by exact W.
  unfold check_global in H. destruct (e_registry e p) as [text|] eqn:R; [|discriminate].
  assert (U : forall m, path_to_uri m p = uris m p) by (intro m; unfold path_to_uri; now rewrite (strip_semi_id p N)).
  destruct (synth _ _) as [t|] eqn:S; injection H as <- <- <-; rewrite U.
  - destruct (T _ _ S) as (q & E & _ & V & _). apply synthetic_inj in E. subst q. exact V.
  - cbn. apply bset_same.
Qed.
(* Missing: workspace files that take over a google/ path in between; see the refutation. *)
Theorem C65_google_document_refuted : exists e p u,
  let m := step (b_ "/w") (fst (find_file e init p)) (Create u (b_ "/w/google/a.proto") LNoModule) in
  exists m' r o, find_file e m p = (m', Served r o) /\ path_to_uri m' r = Some u /\ ~ serves m' u o.
Proof.
  exists (mkEnv (b_ "w") false (fun _ => Some (b_ "built in")) (fun _ => None) (fun _ => MNotExist)), (b_ "google/a.proto"), (b_ "file:///w/google/a.proto").
  cbv zeta. eexists. eexists. eexists. split; [vm_compute; reflexivity|]. split; [vm_compute; reflexivity|]. vm_compute. discriminate.
Qed.
Example C65_example : exists m', find_file ex_env (lookups ex_env []) (b_ "google/protobuf/any.proto") = (m', Served (b_ "google/protobuf/any.proto") (FromRegistry (b_ "any"))) /\
  path_to_uri m' (b_ "google/protobuf/any.proto") = Some (b_ "proto://google/protobuf/any.proto#w").
Proof. eexists. split; [reflexivity|]. vm_compute. reflexivity. Qed.

(** ** C66: imports relative to the importing file *)

(** In a Go module: an import that names a file below the importing file's directory and is not a known
    path is served from that file, under its path in the module. *)
Theorem C66_module_relative_import : forall regular lk e m m1 a i md mn d g q b t text,
  Forall normal md -> Forall normal mn -> mn <> [] -> Forall normal d -> Forall normal (q ++ [b]) -> ~ In slash g ->
  find_file e m (rel (q ++ [b])) = (m1, a) -> not_served a ->
  uris m1 (rel (q ++ [b])) = None -> uris m1 i = Some (uri_of_file (abs (md ++ d ++ [g]))) ->
  srcs m1 (uri_of_file (abs (md ++ d ++ [g]))) = Some LocalGoModule ->
  let file := abs (md ++ (d ++ q) ++ [b]) in let p := rel (mn ++ (d ++ q) ++ [b]) in
  regular file = true -> lk file = lookup_go_module (Some (abs md, rel mn)) file text ->
  e_read e (uri_of_file file) = Some t -> large (List.length t) = false -> well_known p = false ->
  snd (resolve regular lk e m (Some i) (rel (q ++ [b]))) = Served p (FromFile (uri_of_file file) t).
Proof.
  intros regular lk e m m1 a i md mn d g q b t text Hm Hn Nn Hd Hq Hg F NS U I S file p R L Rd Lg W.
  assert (Hdq : Forall normal ((d ++ q) ++ [b])).
  { apply Forall_app in Hq. destruct Hq as [Hq Hb]. apply Forall_app. split; [now apply Forall_app|exact Hb]. }
  assert (E : (md ++ d) ++ q ++ [b] = md ++ (d ++ q) ++ [b]) by (now rewrite <- !app_assoc).
  unfold file in L. rewrite module_lookup in L by assumption. fold file in L.
  rewrite app_assoc in I, S.
  pose proof (translate_local regular lk m1 i (md ++ d) g q b (rel (mn ++ d ++ q))) as T. rewrite E in T.
  specialize (T ltac:(now apply Forall_app) Hq Hg U I S R L).
  rewrite module_canonical in T by assumption. fold p in T.
  eapply resolve_translated; [exact F|exact NS|exact T|].
  rewrite (find_file_document e _ p (uri_of_file file) t); [reflexivity|exact W|cbn [bind uris]; apply bset_same|apply file_not_synthetic|exact Rd|exact Lg].
Qed.
(** In a module of the module cache: the same, under the importing file's package path. *)
Theorem C66_cache_relative_import : forall regular lk e m m1 a i d g q b pk g' t,
  Forall normal d -> Forall normal (q ++ [b]) -> ~ In slash g -> pk <> [] -> Forall normal pk -> ~ In slash g' ->
  find_file e m (rel (q ++ [b])) = (m1, a) -> not_served a ->
  uris m1 (rel (q ++ [b])) = None -> uris m1 i = Some (uri_of_file (abs (d ++ [g]))) ->
  srcs m1 (uri_of_file (abs (d ++ [g]))) = Some GoModuleCache -> paths m1 (uri_of_file (abs (d ++ [g]))) = Some (rel (pk ++ [g'])) ->
  let file := abs (d ++ q ++ [b]) in let p := rel (pk ++ q ++ [b]) in
  regular file = true -> e_read e (uri_of_file file) = Some t -> large (List.length t) = false -> well_known p = false ->
  snd (resolve regular lk e m (Some i) (rel (q ++ [b]))) = Served p (FromFile (uri_of_file file) t).
Proof.
  intros regular lk e m m1 a i d g q b pk g' t Hd Hq Hg Np Hp Hg' F NS U I S P file p R Rd Lg W.
  eapply resolve_translated; [exact F|exact NS|exact (translate_cache regular lk m1 i d g q b pk g' Hd Hq Hg Np Hp Hg' U I S P R)|].
  rewrite (find_file_document e _ p (uri_of_file file) t); [reflexivity|exact W|cbn [bind uris]; apply bset_same|apply file_not_synthetic|exact Rd|exact Lg].
Qed.
(** Which file an import stands for: the one below the directory of the importing file, and if there is none and the import starts
    with the name of that directory, the one below its parent. *)
Theorem C66_located : forall regular d n g q, Forall normal (d ++ [n]) -> Forall normal q -> ~ In slash g -> q <> [] ->
  (regular (abs ((d ++ [n]) ++ q)) = true -> locate regular (rel q) (abs ((d ++ [n]) ++ [g])) = Some (abs ((d ++ [n]) ++ q))) /\
  (regular (abs ((d ++ [n]) ++ q)) = false -> forall q', q = n :: q' -> q' <> [] -> regular (abs (d ++ q)) = true ->
   locate regular (rel q) (abs ((d ++ [n]) ++ [g])) = Some (abs (d ++ q))).
Proof.
  intros regular d n g q Hd Hq Hg N. split; [now apply locate_sibling|]. intros R q' -> N' R'. now apply locate_parent.
Qed.
(** An absolute path, no path at all and a path that leads out of the directory stand for no file. *)
Theorem C66_not_local : forall regular filename, (forall p, locate regular (slash :: p) filename = None) /\ locate regular [] filename = None /\
  (forall q, Forall normal q -> locate regular (join_with slash (b_ ".." :: q)) filename = None).
Proof.
  intros regular f. split; [intro p; unfold locate, is_local; assert (R : is_rooted (slash :: p) = true) by (apply has_prefix_spec; now exists p); now rewrite R|]. split; [reflexivity|]. intros q Hq. unfold locate. rewrite not_local by exact Hq. reflexivity.
Qed.
Example C66_located_case : locate (beq (b_ "/w/api/b.proto")) (b_ "api/b.proto") (b_ "/w/api/a.proto") = Some (b_ "/w/api/b.proto").
Proof. reflexivity. Qed.
(** A path that is known is not taken for another file: if its own document cannot be read, the import fails. *)
Theorem C66_known_path_kept : forall regular lk e m m1 a importer p u,
  find_file e m p = (m1, a) -> not_served a -> uris m p = Some u ->
  resolve regular lk e m (Some importer) p = (m, a).
Proof.
  intros regular lk e m m1 a importer p u F NS U. pose proof (find_failed e m p m1 a F NS) as ->.
  unfold resolve. rewrite F. assert (T : translate regular lk m importer p = (m, Some p)) by (unfold translate; now rewrite U).
  destruct a as [r o| | |]; [now exfalso; apply (NS r o)| | |]; rewrite T, F; reflexivity.
Qed.
(** Without a Go module such an import fails, even if the file is known to the workspace. *)
Theorem C66_plain_workspace_refuted : exists regular lk e m i p file,
  uris m i = Some (b_ "file:///w/api/a.proto") /\ regular file = true /\ file = b_ "/w/api/" ++ p /\
  (exists k, uris m k = Some (uri_of_file file)) /\ e_read e (uri_of_file file) = Some (b_ "x") /\
  snd (resolve regular lk e m (Some i) p) = NotExist.
Proof.
  exists (fun _ => true), (fun _ => LNoModule), (mkEnv (b_ "w") false (fun _ => None) (fun _ => Some (b_ "x")) (fun _ => MNotExist)).
  exists (run (b_ "/w") [Create (b_ "file:///w/api/a.proto") (b_ "/w/api/a.proto") LNoModule; Create (b_ "file:///w/api/b.proto") (b_ "/w/api/b.proto") LNoModule]).
  exists (b_ "api/a.proto"), (b_ "b.proto"), (b_ "/w/api/b.proto").
  split; [reflexivity|]. split; [reflexivity|]. split; [reflexivity|]. split; [exists (b_ "api/b.proto"); reflexivity|].
  split; [reflexivity|]. vm_compute. reflexivity.
Qed.
Example C66_example :
  let e := mkEnv (b_ "w") true (fun _ => None) (fun u => if beq u (b_ "file:///w/api/sub/b.proto") then Some (b_ "x") else None) (fun _ => MNotExist) in
  let lk f := lookup_go_module (Some (b_ "/w", b_ "ex.com/w")) f [] in
  let m := run (b_ "/w") [Create (b_ "file:///w/api/a.proto") (b_ "/w/api/a.proto") (lk (b_ "/w/api/a.proto"))] in
  snd (resolve (fun f => beq f (b_ "/w/api/sub/b.proto")) lk e m (Some (b_ "ex.com/w/api/a.proto")) (b_ "sub/b.proto")) =
    Served (b_ "ex.com/w/api/sub/b.proto") (FromFile (b_ "file:///w/api/sub/b.proto") (b_ "x")).
Proof. vm_compute. reflexivity. Qed.

(** ** C67: the package of a file follows from its place in the module *)
Theorem C67_module_relative_package : forall md mn d g text,
  mn <> [] -> Forall normal md -> Forall normal mn -> Forall normal (d ++ [g]) ->
  lookup_go_module (Some (abs md, rel mn)) (abs (md ++ d ++ [g])) text = LPackage (rel (mn ++ d)) /\
  canonical (rel (mn ++ d)) (abs (md ++ d ++ [g])) = rel (mn ++ d ++ [g]).
Proof. intros md mn d g text N Hm Hn Hd. split; [now apply module_lookup|now apply module_canonical]. Qed.
(** Two files of a module never get the same import path. *)
Theorem C67_import_paths_distinct : forall mn d g d' g',
  mn <> [] -> Forall normal mn -> Forall normal (d ++ [g]) -> Forall normal (d' ++ [g']) ->
  rel (mn ++ d ++ [g]) = rel (mn ++ d' ++ [g']) -> d = d' /\ g = g'.
Proof.
  intros mn d g d' g' N Hn Hd Hd' E. apply rel_inj in E; [|now destruct mn|now destruct mn|now apply Forall_app|now apply Forall_app].
  apply app_inv_head in E. now apply app_inj_tail in E.
Qed.
(** The go_package option of a file is never consulted while there is a local module. *)
Theorem C67_directive_ignored : forall dir name filename text text',
  is_rooted dir = true -> is_rooted filename = true ->
  lookup_go_module (Some (dir, name)) filename text = lookup_go_module (Some (dir, name)) filename text' /\
  exists pkg, lookup_go_module (Some (dir, name)) filename text = LPackage pkg.
Proof.
  intros dir name filename text text' Hd Hf. cbn [lookup_go_module]. unfold implicit_package, rel_path. rewrite Hd, Hf. cbn [andb].
  destruct (strip_common _ _). split; [reflexivity|]. eauto.
Qed.
(** A file outside the module gets a package of no existing module, whatever its go_package says. *)
Theorem C67_outside_module_refuted : exists dir name filename text,
  has_prefix filename (dir ++ [slash]) = false /\ fast_lookup text = Some (b_ "example.com/real") /\
  lookup_go_module (Some (dir, name)) filename text = LPackage (b_ "example.com/other").
Proof.
  exists (b_ "/w/mod"), (b_ "example.com/mod"), (b_ "/w/other/x.proto"), (b_ "option go_package = ""example.com/real"";").
  repeat split; vm_compute; reflexivity.
Qed.
Example C67_example : lookup_go_module (Some (b_ "/w/mod", b_ "example.com/mod")) (b_ "/w/mod/a/x.proto") [] = LPackage (b_ "example.com/mod/a").
Proof. vm_compute. reflexivity. Qed.

(** ** C68: suffix matching of relative imports *)

(** an import without a directory names a file next to the importing one *)
Theorem C68_bare_name : forall base src g, normal base -> Forall normal src -> ~ In slash g ->
  find_suffix_matched (rel [base]) (abs (src ++ [g])) = Some (abs (src ++ [base])).
Proof.
  intros base src g Hb Hs Hg. unfold find_suffix_matched. change (rel [base]) with (rel ([] ++ [base])) at 1.
  rewrite (dir_rel [] base) by (auto; now apply normal_slash).
  rewrite beq_refl. rewrite dir_abs by assumption. rewrite join_abs by (auto; discriminate). reflexivity.
Qed.

(** The result is always the import laid over the importing file's directory so that they agree in at
    least one component, and there is a result if such a place exists. *)
Theorem C68_match_exact : forall t0 tl base src g, Forall normal (t0 :: tl) -> normal base -> Forall normal src -> src <> [] -> ~ In slash g ->
  (forall c, find_suffix_matched (rel ((t0 :: tl) ++ [base])) (abs (src ++ [g])) = Some c -> exists n, overlay src (t0 :: tl) base c n) /\
  (find_suffix_matched (rel ((t0 :: tl) ++ [base])) (abs (src ++ [g])) = None <-> forall c n, ~ overlay src (t0 :: tl) base c n).
Proof. intros. split; [intros; now apply matched_some with (g := g)|now apply matched_none]. Qed.
(** It is a place of greatest agreement, if the import's first component does not occur again in it. *)
Theorem C68_longest_match_partial : forall t0 tl base src g c, Forall normal (t0 :: tl) -> normal base -> Forall normal src -> src <> [] -> ~ In slash g ->
  ~ In t0 tl -> find_suffix_matched (rel ((t0 :: tl) ++ [base])) (abs (src ++ [g])) = Some c ->
  exists n, overlay src (t0 :: tl) base c n /\ forall c' n', overlay src (t0 :: tl) base c' n' -> n' <= n.
Proof. intros. now apply matched_best with (g := g). Qed.
(* Missing: imports that repeat their first component. The loop appends to a slice of the array it still
   reads, so later scores are computed on overwritten components. *)
Theorem C68_longest_match_refuted : exists target src base g c c' n',
  find_suffix_matched (rel (target ++ [base])) (abs (src ++ [g])) = Some c /\
  overlay src target base c' n' /\ forall n, overlay src target base c n -> n < n'.
Proof.
  exists [b_ "a"; b_ "a"; b_ "a"], [b_ "a"; b_ "a"; b_ "a"; b_ "b"; b_ "a"], (b_ "x"), (b_ "g"), (abs [b_ "a"; b_ "a"; b_ "a"; b_ "a"; b_ "x"]),
    (abs [b_ "a"; b_ "a"; b_ "a"; b_ "x"]), 3.
  split; [vm_compute; reflexivity|]. split.
  - exists [], [b_ "a"; b_ "a"; b_ "a"; b_ "b"; b_ "a"]. repeat split. vm_compute. lia.
  - intros n (pre & rest & E & -> & Hn & Ec).
    assert (L : List.length pre = 1).
    { assert (Hp : Forall normal (pre ++ [b_ "a"; b_ "a"; b_ "a"] ++ [b_ "x"])).
      { apply Forall_app. split.
        - assert (H : Forall normal (pre ++ rest)) by (rewrite <- E; normals).
          now apply Forall_app in H.
        - normals. }
      apply abs_inj in Ec; [|normals|exact Hp].
      apply (f_equal (@List.length _)) in Ec. rewrite app_length in Ec. cbn in Ec. lia. }
    destruct pre as [|x [|y pre]]; try discriminate. cbn [app] in E. injection E as _ <-. vm_compute. lia.
Qed.
Example C68_example : find_suffix_matched (b_ "store/storepb/types.proto") (b_ "/go/thanos/pkg/store/storepb/rpc.proto") = Some (b_ "/go/thanos/pkg/store/storepb/types.proto").
Proof. vm_compute. reflexivity. Qed.

Print Assumptions C37_inverse_partial.
Print Assumptions C37_module_workspace.
Print Assumptions C37_plain_workspace.
Print Assumptions C37_latest.
Print Assumptions C37_change_moves.
Print Assumptions C37_change_leaves.
Print Assumptions C37_change_elsewhere.
Print Assumptions C37_shared_path_refuted.
Print Assumptions C37_semicolon_refuted.
Print Assumptions C39_directive_found.
Print Assumptions C39_quotes_in_comment_refuted.
Print Assumptions C39_commented_out_refuted.
Print Assumptions C39_indented_refuted.
Print Assumptions C39_two_statements_refuted.
Print Assumptions C64_document_wins.
Print Assumptions C64_size_limit.
Print Assumptions C64_module_last.
Print Assumptions C64_google.
Print Assumptions C64_same_answer_partial.
Print Assumptions C64_google_document_refuted.
Print Assumptions C64_large_module_file_refuted.
Print Assumptions C64_gogo_fallback_refuted.
Print Assumptions C65_uri_of_resolved_path_partial.
Print Assumptions C65_alias_ignored.
Print Assumptions C65_built_in.
Print Assumptions C65_google_document_refuted.
Print Assumptions C66_module_relative_import.
Print Assumptions C66_cache_relative_import.
Print Assumptions C66_located.
Print Assumptions C66_not_local.
Print Assumptions C66_known_path_kept.
Print Assumptions C66_plain_workspace_refuted.
Print Assumptions C67_module_relative_package.
Print Assumptions C67_import_paths_distinct.
Print Assumptions C67_directive_ignored.
Print Assumptions C67_outside_module_refuted.
Print Assumptions C68_bare_name.
Print Assumptions C68_match_exact.
Print Assumptions C68_longest_match_partial.
Print Assumptions C68_longest_match_refuted.
Print Assumptions C64_google_paths.
Print Assumptions C64_gogo_googleapis.
