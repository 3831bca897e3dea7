From Coq Require Import Ascii String.
From Verif Require Import Base Strs.
From Verif.Workspaces Require Import Model.
From Verif.Commands Require Import Model Spec Proofs.
Open Scope list_scope.

(** two workspaces, and URIs that are their own paths *)
Definition ex_parse (u : bytes) : option (bytes * bytes) := Some ([], u).
Definition ex_normal (u : bytes) : option bytes := Some u.
Definition ca := mkCache 0 (mkFolder (b_ "/a") (b_ "A")) (fun _ => false).
Definition cb := mkCache 1 (mkFolder (b_ "/b") (b_ "B")) (fun _ => false).
Definition ex_order : list (bytes * cache) := [(b_ "/a", ca); (b_ "/b", cb)].
Definition ex := execute ex_parse ex_normal ex_order true served.

(** * C150: commands are answered *)

(** Exactly which messages end the server: the command takes an argument and there is none; or the command is
    not one of those with an argument of a fixed type, whether it exists or not, and its argument has an address
    of another form than expected. *)
Theorem C150_deadly parse normal order drivers cmd args :
  execute parse normal order drivers served cmd args = Crash <-> deadly cmd args.
Proof. apply execute_crash. Qed.

(** In a session every command is answered if and only if none of them is such a message. *)
Theorem C150_session parse normal order drivers cmds :
  List.length (session parse normal order drivers served cmds) = List.length cmds
  <-> forall c a, In (c, a) cmds -> ~ deadly c a.
Proof. apply session_all. Qed.

Definition good : bytes * list json := (b_ "protols/generate", [JObj [(b_ "uris", JArr [JStr (b_ "/a/x.proto")])]]).
Example C150_case :
  session ex_parse ex_normal ex_order true served [good; (b_ "protols/refreshModules", []); (b_ "nothing", [JObj []]); (b_ "nothing", [JNum None])]
  = [Generate ca [b_ "/a/x.proto"]; Refresh; Fail UnknownCommand; Fail BadArguments].
Proof. vm_compute. reflexivity. Qed.

(** Not every command is answered: generating code for an empty list of files ends the server, and so do a
    command without arguments and a command that does not exist with a number for a URI; the good request after
    it is not answered. *)
Theorem C150_refuted : exists parse normal order bad,
  execute parse normal order true served (fst good) (snd good) = Generate ca [b_ "/a/x.proto"]
  /\ Forall (fun b => session parse normal order true served [b; good] = []) bad
  /\ In (b_ "protols/generate", [JObj [(b_ "uris", JArr [])]]) bad
  /\ In (b_ "protols/ast", []) bad
  /\ In (b_ "nothing", [JObj [(b_ "uri", JNum (Some 5%Z))]]) bad
  /\ In (b_ "protols/generateWorkspace", [JObj [(b_ "workspace", JObj [(b_ "uri", JStr (b_ "/a"))])]]) bad.
Proof.
  exists ex_parse, ex_normal, ex_order,
    [(b_ "protols/generate", [JObj [(b_ "uris", JArr [])]]); (b_ "protols/ast", []); (b_ "nothing", [JObj [(b_ "uri", JNum (Some 5%Z))]]);
     (b_ "protols/generateWorkspace", [JObj [(b_ "workspace", JObj [(b_ "uri", JStr (b_ "/a"))])]])].
  split; [vm_compute; reflexivity|]. split; [repeat (constructor; [vm_compute; reflexivity|]); constructor|].
  split; [now left|]. split; [right; now left|]. split; [do 2 right; now left|do 3 right; now left].
Qed.

(** * C151: commands work in the workspace they name *)

(** A command that is not built in does something only if it is one of the two that are registered, and then in
    the workspace that its argument names. *)
Theorem C151_workspace parse normal order drivers cmd args :
  ~ In cmd argument_free -> ~ In cmd typed -> works (execute parse normal order drivers served cmd args) ->
  exists o r c, args = JObj o :: r /\ addressed parse order o c /\ In c (map snd order)
    /\ (cmd = b_ "protols/generate" /\ (exists us, execute parse normal order drivers served cmd args = Generate c us)
        \/ cmd = b_ "protols/generateWorkspace" /\ execute parse normal order drivers served cmd args = GenerateAll c).
Proof.
  intros NA NT [NC NF]. destruct args as [|arg r].
  - exfalso. apply NC. apply execute_crash. split; [exact NA|now left].
  - rewrite execute_other in * by assumption.
    destruct (other_inv parse normal order served cmd arg _ eq_refl NC NF) as (o & c & E & S & D).
    rewrite <- D in *. unfold dispatch in *.
    destruct (existsb (beq cmd) served) eqn:R; [|exfalso; now apply (NF UnknownCommand)].
    destruct c as [c|].
    + assert (arg = JObj o) as ->.
      { destruct arg; try discriminate; injection E as E; subst; [|reflexivity].
        destruct S as [(u & (l & r0 & Q & _) & _) | [(_ & u & l0 & (l & r0 & Q & _) & _) | (_ & _ & w & u & n & (l & r0 & Q & _) & _)]]; now destruct l. }
      exists o, r, c. split; [reflexivity|]. split; [exact S|]. split; [eapply source_in; exact S|].
      unfold handle in *. apply in_served in R as [-> | ->].
      * left. split; [reflexivity|]. rewrite beq_refl in *. cbn [entries] in *.
        destruct (field _ _ _ o) as [us|]; [now exists us|]. exfalso. now apply (NF BadArguments).
      * right. split; [reflexivity|]. rewrite beq_refl. reflexivity.
    + exfalso. unfold handle in NF. apply in_served in R as [-> | ->].
      * rewrite beq_refl, E in NF. destruct (field _ _ _ o); [now apply (NF NoCache)|now apply (NF BadArguments)].
      * now apply (NF NoCache).
Qed.
Example C151_workspace_case :
  ex (b_ "protols/generateWorkspace") [JObj [(b_ "workspace", JObj [(b_ "uri", JStr (b_ "/b")); (b_ "name", JStr (b_ "other"))])]] = GenerateAll cb.
Proof. vm_compute. reflexivity. Qed.

(** Generating code for a list of files is done for exactly these files, in their order, in the workspace of the
    first, if the message has no member but the list that is read as the list or is called "uri". *)
Theorem C151_generate_partial parse normal order drivers l r u us rest c out :
  only (b_ "uris") l r -> ~ has (b_ "uri") (l ++ r) ->
  execute parse normal order drivers served (b_ "protols/generate") (JObj (l ++ (b_ "uris", JArr (map JStr (u :: us))) :: r) :: rest) = Generate c out
  <-> belongs parse order u c /\ Forall2 (fun a b => normal a = Some b) (u :: us) out.
Proof.
  intros O N. set (o := l ++ (b_ "uris", JArr (map JStr (u :: us))) :: r).
  assert (folds (b_ "uris") (b_ "uris") = true) as FU by reflexivity.
  assert (forall q : list (bytes * json), (forall k, In k (map fst q) -> In k (map fst (l ++ r))) -> forall k, In k (map fst q) -> folds k (b_ "uris") = false) as NF.
  { intros q Q k I. unfold folds. apply beq_neq. now apply O, Q. }
  assert (map_get (b_ "uri") o = None) as G1.
  { apply map_get_none. unfold has, o in *. rewrite map_app in *. cbn [map fst]. intros I. apply N. apply in_or_app. apply in_app_or in I as [I | [I | I]]; [now left|discriminate|now right]. }
  assert (map_get (b_ "uris") o = Some (JArr (map JStr (u :: us)))) as G2.
  { apply map_get_some. exists l, r. split; [reflexivity|]. intros I. apply (O (b_ "uris")); [|reflexivity]. rewrite map_app. apply in_or_app. now right. }
  assert (field (set_uris normal) (b_ "uris") [] o = set_elems normal (map JStr (u :: us))) as FF.
  { unfold o. rewrite field_one; auto.
    - intros k. apply (NF l). intros k0 I. rewrite map_app. apply in_or_app. now left.
    - intros k. apply (NF r). intros k0 I. rewrite map_app. apply in_or_app. now right. }
  assert (forall out, set_elems normal (map JStr (u :: us)) = Some out <-> Forall2 (fun a b => normal a = Some b) (u :: us) out) as SE.
  { intros x. rewrite set_elems_spec. clear. generalize (u :: us). intros w. revert x. induction w as [|a w IH]; intros x; split; intros H; inversion H; subst; constructor; auto; now apply IH. }
  rewrite execute_other; [|vm_compute; intuition discriminate|vm_compute; intuition discriminate].
  unfold other. cbn [entries]. rewrite G1, G2. cbn [map].
  split.
  - intros H. apply with_uri_inv in H as [(c' & B & H) | [e E]]; [|discriminate].
    unfold dispatch in H. replace (existsb (beq (b_ "protols/generate")) served) with true in H by reflexivity.
    unfold handle in H. rewrite beq_refl in H. cbn [entries] in H. rewrite FF in H.
    destruct (set_elems normal (map JStr (u :: us))) as [x|] eqn:S; [|discriminate]. injection H as -> ->.
    split; [exact B|]. now apply SE.
  - intros [B F]. apply SE in F. rewrite (with_uri_belongs parse order u _ c B).
    unfold dispatch. replace (existsb (beq (b_ "protols/generate")) served) with true by reflexivity.
    unfold handle. rewrite beq_refl. cbn [entries]. rewrite FF, F. reflexivity.
Qed.
Example C151_generate_case :
  ex (b_ "protols/generate") [JObj [(b_ "x", JNull); (b_ "uris", JArr [JStr (b_ "/b/x"); JStr (b_ "/a/y")]); (b_ "workspace", JNull)]]
  = Generate cb [b_ "/b/x"; b_ "/a/y"].
Proof. vm_compute. reflexivity. Qed.

(** In general the files and the workspace do not go together: the workspace is found by the member with exactly
    this name, the files are read from members whose names differ in case too; a "uri" also comes first. *)
Theorem C151_split_refuted : exists parse normal order args c u,
  execute parse normal order true served (b_ "protols/generate") args = Generate c [u] /\ ~ belongs parse order u c
  /\ exists c', belongs parse order u c' /\ In c' (map snd order).
Proof.
  exists ex_parse, ex_normal, ex_order, [JObj [(b_ "uris", JArr [JStr (b_ "/a/x")]); (b_ "Uris", JArr [JStr (b_ "/b/y")])]], ca, (b_ "/b/y").
  split; [vm_compute; reflexivity|]. split.
  - intros (f & p & E & Q). injection E as <- <-. revert Q. vm_compute. discriminate.
  - exists cb. split; [|right; now left]. exists [], (b_ "/b/y"). split; reflexivity.
Qed.

(** The files of one request may also be in different workspaces: the first decides for all of them. *)
Theorem C151_others_refuted : exists parse normal order u v c,
  execute parse normal order true served (b_ "protols/generate") [JObj [(b_ "uris", JArr [JStr u; JStr v])]] = Generate c [u; v]
  /\ belongs parse order u c /\ ~ belongs parse order v c.
Proof.
  exists ex_parse, ex_normal, ex_order, (b_ "/a/x"), (b_ "/b/y"), ca. split; [vm_compute; reflexivity|]. split.
  - exists [], (b_ "/a/x"). split; reflexivity.
  - intros (f & p & E & Q). injection E as <- <-. revert Q. vm_compute. discriminate.
Qed.

(** Generating for a workspace is done in the first workspace with the URI that was sent, whatever the name. *)
Theorem C151_folder parse normal order drivers u n rest x :
  execute parse normal order drivers served (b_ "protols/generateWorkspace") (JObj [(b_ "workspace", JObj [(b_ "uri", JStr u); (b_ "name", JStr n)])] :: rest) = x
  <-> (exists l c r p, order = l ++ (p, c) :: r /\ f_uri (c_ws c) = u /\ (forall e, In e l -> f_uri (c_ws (snd e)) <> u) /\ x = GenerateAll c)
      \/ ((forall e, In e order -> f_uri (c_ws (snd e)) <> u) /\ x = Fail UnknownWorkspace).
Proof.
  rewrite execute_other; [|vm_compute; intuition discriminate|vm_compute; intuition discriminate].
  unfold other. cbn [entries].
  replace (map_get (b_ "uri") [(b_ "workspace", JObj [(b_ "uri", JStr u); (b_ "name", JStr n)])]) with (@None json) by reflexivity.
  replace (map_get (b_ "uris") [(b_ "workspace", JObj [(b_ "uri", JStr u); (b_ "name", JStr n)])]) with (@None json) by reflexivity.
  replace (map_get (b_ "workspace") [(b_ "workspace", JObj [(b_ "uri", JStr u); (b_ "name", JStr n)])]) with (Some (JObj [(b_ "uri", JStr u); (b_ "name", JStr n)])) by reflexivity.
  replace (map_get (b_ "uri") [(b_ "uri", JStr u); (b_ "name", JStr n)]) with (Some (JStr u)) by reflexivity.
  replace (map_get (b_ "name") [(b_ "uri", JStr u); (b_ "name", JStr n)]) with (Some (JStr n)) by reflexivity.
  cbv beta iota. unfold cache_for_workspace. cbn [f_uri].
  assert (forall a c, dispatch normal served (b_ "protols/generateWorkspace") a (Some c) = GenerateAll c) as D by reflexivity.
  destruct (find (fun e => beq (f_uri (c_ws (snd e))) u) order) as [[p c]|] eqn:F.
  - cbn [snd]. rewrite D. apply find_split in F as (l & r & -> & F & N). cbn [snd] in F. apply beq_eq in F.
    assert (forall e, In e l -> f_uri (c_ws (snd e)) <> u) as N' by (intros e I; apply beq_neq; now apply N).
    split.
    + intros <-. left. exists l, c, r, p. repeat split; assumption.
    + intros [(l' & c' & r' & p' & E & F' & M & ->) | [M _]].
      * assert (find (fun e => beq (f_uri (c_ws (snd e))) u) (l ++ (p, c) :: r) = Some (p, c)) as G.
        { apply find_first; [now apply beq_eq|]. intros y I. now apply beq_neq, N'. }
        rewrite E in G. rewrite find_first in G; [congruence|now apply beq_eq|]. intros y I. now apply beq_neq, M.
      * exfalso. apply (M (p, c)); [apply in_or_app; right; now left|exact F].
  - assert (forall e, In e order -> f_uri (c_ws (snd e)) <> u) as N by (intros e I; apply beq_neq; now apply (find_none _ _ F)).
    split.
    + intros <-. right. now split.
    + intros [(l' & c' & r' & p' & -> & F' & _ & _) | [_ ->]]; [|reflexivity].
      exfalso. apply (N (p', c')); [apply in_or_app; right; now left|exact F'].
Qed.

(** The commands about one document go to the workspace of the document that is named, with its URI, version and
    position. *)
Theorem C151_document parse normal order drivers u v rest c l ch u' :
  (-2147483648 <= v <= 2147483647)%Z -> (0 <= l <= 4294967295)%Z -> (0 <= ch <= 4294967295)%Z -> normal u = Some u' ->
  (belongs parse order u c ->
     execute parse normal order drivers served (b_ "protols/syntheticFileContents") (JObj [(b_ "uri", JStr u)] :: rest) = Contents c u
     /\ execute parse normal order drivers served (b_ "protols/ast") (JObj [(b_ "uri", JStr u); (b_ "version", JNum (Some v))] :: rest) = Ast c u v)
  /\ (belongs parse order u' c ->
     execute parse normal order drivers served (b_ "protols/goToGeneratedDefinition")
       (JObj [(b_ "textDocument", JObj [(b_ "uri", JStr u)]); (b_ "position", JObj [(b_ "line", JNum (Some l)); (b_ "character", JNum (Some ch))])] :: rest) = GoTo c u' l ch).
Proof.
  intros V L C N. split.
  - intros B. split.
    + change (with_uri parse order u (fun c => Contents c u) = Contents c u). now rewrite (with_uri_belongs parse order u _ c B).
    + change (match (match set_int (-2147483648) 2147483647 0%Z (JNum (Some v)) with Some y => Some y | None => None end) with Some v => with_uri parse order u (fun c => Ast c u v) | None => Fail BadArguments end = Ast c u v).
      unfold set_int. replace ((-2147483648 <=? v) && (v <=? 2147483647))%Z%bool with true by (symmetry; apply andb_true_iff; split; apply Z.leb_le; lia).
      now rewrite (with_uri_belongs parse order u _ c B).
  - intros B.
    change (match (match (match normal u with Some y => Some y | None => None end) with Some y => Some y | None => None end), (match (match (match uint32 0%Z (JNum (Some l)) with Some y => Some y | None => None end), (match uint32 0%Z (JNum (Some ch)) with Some y => Some y | None => None end) with Some l, Some c => Some (l, c) | _, _ => None end) with Some y => Some y | None => None end) with
      | Some u, Some (l, ch) => with_uri parse order u (fun c => GoTo c u l ch) | _, _ => Fail BadArguments end = GoTo c u' l ch).
    rewrite N. unfold uint32, set_int.
    replace ((0 <=? l) && (l <=? 4294967295))%Z%bool with true by (symmetry; apply andb_true_iff; split; apply Z.leb_le; lia).
    replace ((0 <=? ch) && (ch <=? 4294967295))%Z%bool with true by (symmetry; apply andb_true_iff; split; apply Z.leb_le; lia).
    now rewrite (with_uri_belongs parse order u' _ c B).
Qed.
Example C151_document_case :
  ex (b_ "protols/ast") [JObj [(b_ "uri", JStr (b_ "/b/x")); (b_ "version", JNum (Some 3%Z))]] = Ast cb (b_ "/b/x") 3
  /\ ex (b_ "protols/ast") [JObj [(b_ "uri", JStr (b_ "/b/x")); (b_ "version", JNum (Some 4294967296%Z))]] = Fail BadArguments
  /\ ex (b_ "protols/ast") [JObj [(b_ "version", JNum (Some 3%Z))]] = Fail NotInWorkspace.
Proof. vm_compute. repeat split. Qed.

Print Assumptions C150_deadly.
Print Assumptions C150_session.
Print Assumptions C150_refuted.
Print Assumptions C151_workspace.
Print Assumptions C151_generate_partial.
Print Assumptions C151_split_refuted.
Print Assumptions C151_others_refuted.
Print Assumptions C151_folder.
Print Assumptions C151_document.
