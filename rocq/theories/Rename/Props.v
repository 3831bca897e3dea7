(** Renaming: theorems C95 to C98. *)
From Coq Require Import Ascii String Permutation.
From Verif Require Import Base Strs.
From Verif.Rename Require Import Model Spec Proofs.
Open Scope list_scope.

Definition yes (_ : bytes) : bool := true.
Definition no (_ : bytes) : bool := false.
Definition doc_uri (f : bytes) : option bytes := Some (b_ "file:///" ++ f).
Definition msg (full : bytes) : target := mkTarget DDeclared full (Some (b_ "file:///a.proto")) true.
Definition at_ (f : string) (n : node) : ref := mkRef (b_ f) n.

(** ** C95: which names are accepted *)

(** A rename that succeeds leaves the symbol in its scope under a name that
    nothing has; a name without dots is an identifier and becomes the symbol's
    name. *)
Theorem C95_accepted : forall local well_formed taken uri_of t new refs definition es,
  rename local well_formed taken uri_of t new refs definition = Some es ->
  ~ In dot new ->
  identifier (short (append (parent (t_full t)) new)) /\
  short (append (parent (t_full t)) new) = new /\
  parent (append (parent (t_full t)) new) = parent (t_full t) /\
  taken (append (parent (t_full t)) new) = false.
Proof.
  intros local wf taken uri_of t new refs df es H N. unfold rename in H.
  destruct (can_rename local wf t); [|discriminate]. cbn [negb] in H.
  destruct (valid_full _) eqn:V; [|discriminate]. cbn [negb] in H.
  destruct (taken _) eqn:T; [discriminate|].
  rewrite short_append, parent_append by exact N. repeat split.
  apply ident_iff. unfold valid_full in V. rewrite forallb_forall in V. apply V.
  unfold append. destruct (parent (t_full t)) as [|c p].
  - rewrite split_on_no_sep by exact N. now left.
  - rewrite (split_mid (c :: p) new), (split_on_no_sep _ _ N). apply in_or_app. right. now left.
Qed.

Example C95_accepted_case :
  rename yes yes no doc_uri (msg (b_ "pkg.Old")) (b_ "New") [at_ "b.proto" (NIdent (4, 7))] (at_ "a.proto" (NDecl (10, 13)))
  = Some [(b_ "file:///b.proto", (4, 7)); (b_ "file:///a.proto", (10, 13))] /\ ~ In dot (b_ "New").
Proof. split; [vm_compute; reflexivity|]. vm_compute. intuition discriminate. Qed.

(** The check of the new name is exactly that each of its parts between dots is
    an identifier, whatever scope the symbol is in. *)
Theorem C95_name_check : forall full new, valid_full full = true ->
  (valid_full (append (parent full) new) = true <-> forall w, In w (split_on dot new) -> identifier w).
Proof.
  intros full new V. rewrite (valid_append full new V), forallb_forall. split; intros H w I; apply ident_iff, H, I.
Qed.

Example C95_name_check_case : valid_full (b_ "pkg.Outer.Old") = true /\
  valid_full (append (parent (b_ "pkg.Outer.Old")) (b_ "9x")) = false /\
  valid_full (append (parent (b_ "pkg.Outer.Old")) (b_ "New_1")) = true /\
  valid_full (append (parent (b_ "Old")) []) = false.
Proof. vm_compute. auto. Qed.

(** So a name without dots is accepted only if it is an identifier, *)
Theorem C95_identifier_partial : forall full new, valid_full full = true -> ~ In dot new ->
  (valid_full (append (parent full) new) = true <-> identifier new).
Proof.
  intros full new V N. rewrite (valid_append full new V), (split_on_no_sep _ _ N), <- ident_iff. cbn.
  now rewrite andb_true_r.
Qed.
Example C95_identifier_partial_case : valid_full (b_ "pkg.Old") = true /\ ~ In dot (b_ "a-b") /\ ~ identifier (b_ "a-b") /\ identifier (b_ "b2").
Proof.
  split; [reflexivity|]. split; [vm_compute; intuition discriminate|]. split; [intro H; apply ident_iff in H; discriminate H|apply ident_iff; reflexivity].
Qed.

(** but one with dots can be accepted too, and is then written where an
    identifier has to be. *)
Theorem C95_identifier_refuted : exists t new refs definition es,
  valid_full (t_full t) = true /\
  rename yes yes no doc_uri t new refs definition = Some es /\ es <> [] /\ ~ identifier new.
Proof.
  exists (msg (b_ "pkg.Old")), (b_ "a.b"), [], (at_ "a.proto" (NDecl (10, 13))), [(b_ "file:///a.proto", (10, 13))].
  split; [vm_compute; reflexivity|]. split; [vm_compute; reflexivity|]. split; [discriminate | intro H; apply ident_iff in H; vm_compute in H; discriminate].
Qed.

(** A taken name is refused, and so is the symbol's own. *)
Theorem C95_taken : forall local well_formed taken uri_of t new refs definition,
  taken (append (parent (t_full t)) new) = true ->
  rename local well_formed taken uri_of t new refs definition = None.
Proof.
  intros. unfold rename. rewrite H. destruct (can_rename _ _ _); cbn; [|reflexivity]. now destruct (valid_full _).
Qed.
Example C95_taken_case : let taken := fun n => beq n (b_ "pkg.New") in
  taken (append (parent (t_full (msg (b_ "pkg.Old")))) (b_ "New")) = true.
Proof. vm_compute. reflexivity. Qed.

(** ** C96: the edits *)

(** Every edit is in a document of the workspace, *)
Theorem C96_local : forall local well_formed taken uri_of t new refs definition es u rg,
  rename local well_formed taken uri_of t new refs definition = Some es ->
  In (u, rg) es -> local u = true.
Proof.
  intros local wf taken uri_of t new refs df es u rg H I. unfold rename in H.
  destruct (can_rename _ _ _); [|discriminate]. cbn [negb] in H.
  destruct (valid_full _); [|discriminate]. cbn [negb] in H. destruct (taken _); [discriminate|].
  destruct (t_source t); [|discriminate]. cbn [negb] in H.
  apply edits_some in H as [-> F]. apply in_flat_map in I as (r & Ir & I). apply F in Ir. unfold fine in Ir. unfold plan in I.
  destruct (edit_range (r_node r)); [|destruct I|destruct I].
  destruct Ir as (v & Ev & L). rewrite Ev in I. destruct I as [E|[]]. congruence.
Qed.
Example C96_local_case : exists es,
  rename yes yes no doc_uri (msg (b_ "pkg.Old")) (b_ "New") [at_ "b.proto" (NIdent (4, 7))] (at_ "a.proto" (NDecl (10, 13))) = Some es /\
  In (b_ "file:///b.proto", (4, 7)) es.
Proof. eexists. split; [vm_compute; reflexivity|]. now left. Qed.

(** and nothing is renamed when something would have to be outside of it. *)
Theorem C96_all_or_nothing : forall local well_formed taken uri_of t new refs definition r rg,
  In r (definition :: refs) -> edit_range (r_node r) = At rg ->
  (forall u, uri_of (r_file r) = Some u -> local u = false) ->
  rename local well_formed taken uri_of t new refs definition = None.
Proof.
  intros local wf taken uri_of t new refs df r rg I E O. unfold rename.
  destruct (can_rename _ _ _); [|reflexivity]. cbn [negb].
  destruct (valid_full _); [|reflexivity]. cbn [negb]. destruct (taken _); [reflexivity|].
  destruct (t_source t); [|reflexivity]. cbn [negb].
  destruct (edits local uri_of (refs ++ [df])) as [es|] eqn:Es; [|reflexivity]. exfalso.
  apply edits_some in Es as [_ F]. assert (J : In r (refs ++ [df])).
  { apply in_or_app. destruct I as [->|I]; [right; now left | now left]. }
  apply F in J. unfold fine in J. rewrite E in J. destruct J as (u & Eu & L). specialize (O u Eu). congruence.
Qed.
Example C96_all_or_nothing_case :
  let local := fun u => beq u (b_ "file:///a.proto") in
  let r := at_ "vendor.proto" (NIdent (4, 7)) in
  edit_range (r_node r) = At (4, 7) /\ (forall u, doc_uri (r_file r) = Some u -> local u = false) /\
  can_rename local yes (msg (b_ "pkg.Old")) = true.
Proof.
  cbn zeta. split; [reflexivity|]. split; [|vm_compute; reflexivity].
  intros u E. unfold doc_uri in E. injection E as <-. vm_compute. reflexivity.
Qed.

(** The edits of each document, put in order, turn the document in which the
    symbol has its old name into the one in which it has the new name: every use
    changes, with its qualification kept, and nothing else does. References may
    be listed in any order and over any number of documents; documents without a
    use get no edit. *)
Theorem C96_renamed_partial : forall local well_formed taken uri_of t old new refs definition ws,
  can_rename local well_formed t = true -> t_source t = true ->
  valid_full (append (parent (t_full t)) new) = true -> taken (append (parent (t_full t)) new) = false ->
  (forall f d, In (f, d) ws -> exists u, uri_of f = Some u /\ local u = true) ->
  NoDup (map (fun fd => uri_of (fst fd)) ws) ->
  (forall f d s, In (f, d) ws -> In s d -> plain_rpc s) ->
  Permutation (refs ++ [definition]) (flat_map (fun fd => refs_of (fst fd) old 0 (snd fd)) ws) ->
  exists es, rename local well_formed taken uri_of t new refs definition = Some es /\
    (forall f d u, In (f, d) ws -> uri_of f = Some u ->
       exists es', Permutation es' (edits_of u es) /\ ascending 0 es' /\
                   splice 0 (render old d) es' new = render new d) /\
    (forall u, (forall f d, In (f, d) ws -> uri_of f <> Some u) -> edits_of u es = []).
Proof.
  intros local wf taken uri_of t old new refs df ws C S V T U N P PM.
  fold (all_refs old ws) in PM.
  exists (flat_map (plan uri_of) (refs ++ [df])). split; [|split].
  - unfold rename. rewrite C, V, T, S. cbn [negb]. apply edits_ok. intros r I.
    apply (refs_fine local uri_of old ws); [exact U|]. eapply Permutation_in; [exact PM | exact I].
  - intros f d u I E. exists (ranges old 0 d). split; [|split].
    + rewrite <- (proj1 (plan_all uri_of old ws u
        (fun f d J => match U f d J with ex_intro _ v X => ex_intro _ v (proj1 X) end) P N) f d I E).
      apply edits_of_perm, flat_map_perm, Permutation_sym, PM.
    + apply ranges_ascending.
    + exact (splice_ranges old new d 0 []).
  - intros u H. apply Permutation_nil.
    rewrite <- (proj2 (plan_all uri_of old ws u
        (fun f d J => match U f d J with ex_intro _ v X => ex_intro _ v (proj1 X) end) P N) H).
    apply edits_of_perm, flat_map_perm, Permutation_sym, PM.
Qed.

Example C96_renamed_partial_case :
  let d1 := [Text (b_ "message "); Use UDecl []; Text (b_ " {} message M { "); Use UName []; Text (b_ " x=1;}")] in
  let d2 := [Text (b_ "message N { "); Use UName (b_ ".pkg."); Text (b_ " y=1; }")] in
  let old := b_ "Old" in
  let ws := [(b_ "a.proto", d1); (b_ "b.proto", d2)] in
  Permutation (rev (flat_map (fun fd => refs_of (fst fd) old 0 (snd fd)) ws)) (flat_map (fun fd => refs_of (fst fd) old 0 (snd fd)) ws) /\
  render old d2 = b_ "message N { .pkg.Old y=1; }" /\
  rename yes yes no doc_uri (msg (b_ "pkg.Old")) (b_ "New")
    (removelast (rev (flat_map (fun fd => refs_of (fst fd) old 0 (snd fd)) ws)))
    (hd (at_ "" NOther) (flat_map (fun fd => refs_of (fst fd) old 0 (snd fd)) ws))
  = Some [(b_ "file:///b.proto", (17, 20)); (b_ "file:///a.proto", (27, 30)); (b_ "file:///a.proto", (8, 11))] /\
  splice 0 (render old d2) [(17, 20)] (b_ "New") = b_ "message N { .pkg.New y=1; }".
Proof. cbn zeta. split; [apply Permutation_sym, Permutation_rev|]. vm_compute. auto. Qed.

(** The exception is real: a qualified request or response type loses its
    qualification. *)
Theorem C96_rpc_refuted : exists t old new refs definition d es,
  Permutation (refs ++ [definition]) (refs_of (b_ "a.proto") old 0 d) /\
  rename yes yes no doc_uri t new refs definition = Some es /\
  splice 0 (render old d) (edits_of (b_ "file:///a.proto") es) new <> render new d.
Proof.
  exists (msg (b_ "other.Req")), (b_ "Req"), (b_ "Ask"),
    [at_ "a.proto" (NRpcType (6, 15))], (at_ "a.proto" (NDecl (29, 32))),
    [Text (b_ "rpc R("); Use URpcType (b_ "other."); Text (b_ ") returns (X)");  Text (b_ ";"); Use UDecl []].
  eexists. split; [vm_compute; apply Permutation_refl|]. split; [vm_compute; reflexivity|]. vm_compute. discriminate.
Qed.

(** A reference whose position is unknown is left with its old name without
    the request failing. *)
Theorem C96_skipped_refuted : exists t new refs definition es r,
  In r refs /\ edit_range (r_node r) = Skip /\
  rename yes yes no doc_uri t new refs definition = Some es /\
  edits_of (b_ "file:///b.proto") es = [] /\ r_file r = b_ "b.proto".
Proof.
  exists (msg (b_ "pkg.Old")), (b_ "New"), [at_ "b.proto" (NCompound [Some (0, 4); None])], (at_ "a.proto" (NDecl (10, 13))).
  eexists. exists (at_ "b.proto" (NCompound [Some (0, 4); None])).
  split; [now left|]. split; [reflexivity|]. split; [vm_compute; reflexivity|]. split; vm_compute; reflexivity.
Qed.

(** ** C97: what the edited documents mean *)

(** A use of the symbol by its simple name, from a scope that keeps its name,
    means the symbol afterwards exactly if no scope between the use and the
    symbol has a member of the new name. *)
Theorem C97_resolves_partial : forall defs scope ctx old new,
  resolve defs scope old = Some (ctx ++ [old]) -> prefix_of ctx scope ->
  let defs' := map (renamed (ctx ++ [old]) (ctx ++ [new])) defs in
  (resolve defs' scope new = Some (ctx ++ [new]) <->
   forall s, prefix_of s scope -> List.length ctx < List.length s -> ~ In (s ++ [new]) defs').
Proof.
  intros defs scope ctx old new R P defs'. rewrite (resolve_iff defs' scope ctx new P).
  split; [now intros [_ H]|]. intros H. split; [|exact H].
  apply (resolve_iff defs scope ctx old P) in R as [I _]. unfold defs'. apply in_map_iff.
  exists (ctx ++ [old]). split; [apply renamed_self | exact I].
Qed.

Definition pth (l : list string) : path := map b_ l.
Example C97_resolves_partial_case :
  let defs := [pth ["pkg"]; pth ["pkg"; "Old"]; pth ["pkg"; "M"]; pth ["pkg"; "M"; "Inner"]]%string in
  resolve defs (pth ["pkg"; "M"]%string) (b_ "Old") = Some (pth ["pkg"]%string ++ [b_ "Old"]) /\
  prefix_of (pth ["pkg"]%string) (pth ["pkg"; "M"]%string) /\
  resolve (map (renamed (pth ["pkg"; "Old"]%string) (pth ["pkg"; "New"]%string)) defs) (pth ["pkg"; "M"]%string) (b_ "New")
  = Some (pth ["pkg"; "New"]%string).
Proof.
  cbn zeta. split; [vm_compute; reflexivity|]. split; [|vm_compute; reflexivity].
  exists [b_ "M"]. reflexivity.
Qed.

(** The check that the new name is free in the symbol's own scope does not
    establish this: a nested message of that name captures the use. *)
Theorem C97_captured_refuted : exists defs scope ctx old new q,
  resolve defs scope old = Some (ctx ++ [old]) /\ ~ In (ctx ++ [new]) defs /\
  resolve (map (renamed (ctx ++ [old]) (ctx ++ [new])) defs) scope new = Some q /\ q <> ctx ++ [new].
Proof.
  exists [pth ["pkg"]; pth ["pkg"; "Old"]; pth ["pkg"; "M"]; pth ["pkg"; "M"; "New"]]%string,
    (pth ["pkg"; "M"]%string), (pth ["pkg"]%string), (b_ "Old"), (b_ "New"), (pth ["pkg"; "M"; "New"]%string).
  split; [vm_compute; reflexivity|]. split; [vm_compute; intuition discriminate|].
  split; [vm_compute; reflexivity | vm_compute; discriminate].
Qed.

(** Nor does it protect uses of other symbols: the renamed symbol can capture
    one that is further out. *)
Theorem C97_capturing_refuted : exists defs scope old new other n,
  resolve defs scope n = Some other /\ other <> old /\ ~ In new defs /\
  resolve (map (renamed old new) defs) scope n = Some new.
Proof.
  exists [pth ["pkg"]; pth ["pkg"; "Time"]; pth ["pkg"; "M"]; pth ["pkg"; "M"; "Stamp"]]%string,
    (pth ["pkg"; "M"]%string), (pth ["pkg"; "M"; "Stamp"]%string), (pth ["pkg"; "M"; "Time"]%string),
    (pth ["pkg"; "Time"]%string), (b_ "Time").
  split; [vm_compute; reflexivity|]. split; [vm_compute; discriminate|].
  split; [vm_compute; intuition discriminate | vm_compute; reflexivity].
Qed.

(** ** C98: asking first *)

(** What is offered is the symbol's name, for a declaration whose document is in
    the workspace and parses; *)
Theorem C98_offered : forall local well_formed t p,
  prepare local well_formed t = Some p <->
  p = short (t_full t) /\ t_kind t = DDeclared /\
  exists u, t_definition t = Some u /\ local u = true /\ well_formed u = true.
Proof.
  intros local wf t p. unfold prepare, can_rename. destruct (t_kind t).
  1,2,4: split; [discriminate | intros (_ & E & _); discriminate].
  destruct (t_definition t) as [u|].
  - destruct (local u) eqn:L, (wf u) eqn:W; cbn; split; intros H; try discriminate.
    + injection H as <-. repeat split. now exists u.
    + destruct H as (-> & _). reflexivity.
    + destruct H as (_ & _ & v & E & ? & ?). congruence.
    + destruct H as (_ & _ & v & E & ? & ?). congruence.
    + destruct H as (_ & _ & v & E & ? & ?). congruence.
  - split; [discriminate|]. intros (_ & _ & v & E & _). discriminate.
Qed.
Example C98_offered_case : prepare yes yes (msg (b_ "pkg.Outer.Old")) = Some (b_ "Old").
Proof. vm_compute. reflexivity. Qed.

(** where nothing is offered nothing is renamed; *)
Theorem C98_not_offered : forall local well_formed taken uri_of t new refs definition,
  prepare local well_formed t = None -> rename local well_formed taken uri_of t new refs definition = None.
Proof.
  intros local wf taken uri_of t new refs df H. unfold prepare in H. unfold rename.
  destruct (t_kind t) eqn:K.
  1:{ unfold can_rename. now rewrite K. }
  all: destruct (can_rename local wf t); [discriminate | reflexivity].
Qed.
Example C98_not_offered_case : prepare no yes (msg (b_ "pkg.Old")) = None.
Proof. vm_compute. reflexivity. Qed.

(** and what is offered is renamed unless the new name is bad or taken, the
    symbol's source is unknown, or a reference cannot be edited. *)
Theorem C98_offer_kept : forall local well_formed taken uri_of t new refs definition p,
  prepare local well_formed t = Some p ->
  (rename local well_formed taken uri_of t new refs definition = None <->
   valid_full (append (parent (t_full t)) new) = false \/
   taken (append (parent (t_full t)) new) = true \/
   t_source t = false \/
   exists r, In r (definition :: refs) /\
     (edit_range (r_node r) = Refuse \/
      exists rg, edit_range (r_node r) = At rg /\ forall u, uri_of (r_file r) = Some u -> local u = false)).
Proof.
  intros local wf taken uri_of t new refs df p H.
  assert (C : can_rename local wf t = true).
  { unfold prepare in H. destruct (t_kind t); [discriminate|..]; destruct (can_rename local wf t); congruence. }
  unfold rename. rewrite C. cbn [negb].
  destruct (valid_full _); cbn [negb]; [|split; auto]. destruct (taken _); [split; auto|].
  destruct (t_source t); cbn [negb]; [|split; auto].
  split.
  - intros E. do 3 right.
    assert (X : forall rs, edits local uri_of rs = None -> exists r, In r rs /\
       (edit_range (r_node r) = Refuse \/
        exists rg, edit_range (r_node r) = At rg /\ forall u, uri_of (r_file r) = Some u -> local u = false)).
    { induction rs as [|r rs IH]; cbn [edits]; [discriminate|]. intros N.
      destruct (edit_range (r_node r)) as [rg| |] eqn:Er.
      - destruct (uri_of (r_file r)) as [u|] eqn:Eu.
        + destruct (local u) eqn:L.
          * destruct (edits local uri_of rs); [discriminate|]. destruct (IH eq_refl) as (x & I & Q). exists x. split; [now right|exact Q].
          * exists r. split; [now left|]. right. exists rg. split; [exact Er|]. intros v Ev. congruence.
        + exists r. split; [now left|]. right. exists rg. split; [exact Er|]. intros v Ev. congruence.
      - destruct (IH N) as (x & I & Q). exists x. split; [now right|exact Q].
      - exists r. split; [now left|]. now left. }
    destruct (X _ E) as (r & I & Q). exists r. split; [|exact Q]. apply in_app_or in I as [I|[->|[]]]; [now right | now left].
  - intros [D|[D|[D|(r & I & Q)]]]; try discriminate.
    destruct (edits local uri_of (refs ++ [df])) as [es|] eqn:Es; [|reflexivity]. exfalso.
    apply edits_some in Es as [_ F].
    assert (J : In r (refs ++ [df])). { apply in_or_app. destruct I as [->|I]; [right; now left | now left]. }
    apply F in J. unfold fine in J. destruct Q as [Q|(rg & Q & O)]; rewrite Q in J; [exact J|].
    destruct J as (u & Eu & L). specialize (O u Eu). congruence.
Qed.
Example C98_offer_kept_case : prepare yes yes (msg (b_ "pkg.Old")) = Some (b_ "Old") /\
  rename yes yes no doc_uri (msg (b_ "pkg.Old")) (b_ "New") [at_ "b.proto" NOther] (at_ "a.proto" (NDecl (10, 13))) = None.
Proof. vm_compute. auto. Qed.

Print Assumptions C95_accepted.
Print Assumptions C95_name_check.
Print Assumptions C95_identifier_partial.
Print Assumptions C95_identifier_refuted.
Print Assumptions C95_taken.
Print Assumptions C96_local.
Print Assumptions C96_all_or_nothing.
Print Assumptions C96_renamed_partial.
Print Assumptions C96_rpc_refuted.
Print Assumptions C96_skipped_refuted.
Print Assumptions C97_resolves_partial.
Print Assumptions C97_captured_refuted.
Print Assumptions C97_capturing_refuted.
Print Assumptions C98_offered.
Print Assumptions C98_not_offered.
Print Assumptions C98_offer_kept.
