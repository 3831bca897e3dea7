(** The outline and the code lenses: theorems C101 and C102. *)
From Coq Require Import Ascii String.
From Verif Require Import Base Strs.
From Verif.Outline Require Import Model Spec Proofs.
Open Scope list_scope.

Definition at_ (n : string) (a b : nat) : info := mkInfo (b_ n) (a, b) (a, a + 1).
Definition sample : list decl :=
  [OtherDecl;
   Message (at_ "M" 10 90)
     [Field true (at_ "x" 20 25); MapField (at_ "m" 26 30);
      Message (at_ "N" 31 60) [Field true (at_ "y" 40 45); Enum (at_ "E" 46 55) [EnumValue (at_ "A" 50 52)]];
      Extend (61, 80) [Field true (at_ "ext" 65 70)]; OtherDecl];
   Service (at_ "S" 91 99) [Rpc (at_ "Do" 93 96)]].

(** ** C101: the outline *)

(** Everything shown is declared, with that name, kind and place and inside the
    declarations it is shown in, in the order of the source and not more often
    than it is declared. *)
Theorem C101_sound : forall file scope,
  sub (flat_map (shown scope) (outline file)) (flat_map (declared scope) file).
Proof.
  intros file scope. unfold outline. rewrite flat_map_flat_map. apply sub_flat. intros d _. apply top_sub.
Qed.
Example C101_sound_case : flat_map (shown []) (outline sample) <> [].
Proof. vm_compute. discriminate. Qed.

(** If the file has no oneofs, no groups and no unfinished fields, exactly what
    is declared is shown. *)
Theorem C101_complete_partial : forall file scope,
  (forall d, In d file -> at_top d = true /\ plain d = true) ->
  flat_map (shown scope) (outline file) = flat_map (declared scope) file.
Proof.
  intros file scope H. unfold outline. rewrite flat_map_flat_map. apply flat_map_ext_in. intros d I.
  destruct (H d I). now apply top_exact.
Qed.
Example C101_complete_partial_case : (forall d, In d sample -> at_top d = true /\ plain d = true) /\
  map (fun e => (fst (fst e), i_name (snd e))) (flat_map (shown []) (outline sample)) =
  [([], b_ "M"); ([b_ "M"], b_ "x"); ([b_ "M"], b_ "m"); ([b_ "M"], b_ "N");
   ([b_ "M"; b_ "N"], b_ "y"); ([b_ "M"; b_ "N"], b_ "E"); ([b_ "M"; b_ "N"; b_ "E"], b_ "A");
   ([b_ "M"], b_ "ext"); ([], b_ "S"); ([b_ "S"], b_ "Do")].
Proof.
  split; [|vm_compute; reflexivity]. intros d I. repeat (destruct I as [<-|I]; [split; reflexivity|]). destruct I.
Qed.

(** Messages, enums, services, rpcs and enum values outside of groups are shown
    whatever else the file has. *)
Theorem C101_types_shown : forall file scope,
  (forall d, In d file -> at_top d = true /\ no_groups d = true) ->
  filter is_type (flat_map (shown scope) (outline file)) = filter is_type (flat_map (declared scope) file).
Proof.
  intros file scope H. unfold outline. rewrite flat_map_flat_map, !filter_flat. apply flat_map_ext_in. intros d I.
  destruct (H d I) as [G N]. destruct d; cbn [at_top] in G; try discriminate; try reflexivity.
  - exact (message_types (Message i body) scope G N).
  - exact (message_types (Enum i body) scope G N).
  - exact (message_types (Extend r body) scope G N).
  - cbn [top_child]. unfold service_symbol. cbn [flat_map shown declared]. rewrite app_nil_r. cbn [filter is_type fst snd]. f_equal.
    now rewrite service_exact.
Qed.
Example C101_types_shown_case :
  let file := [Message (at_ "M" 0 99) [Oneof (at_ "o" 10 40) [Field true (at_ "a" 15 20)]; Message (at_ "N" 50 60) []]] in
  (forall d, In d file -> at_top d = true /\ no_groups d = true) /\
  filter is_type (flat_map (shown []) (outline file)) = [([], KClass, at_ "M" 0 99); ([b_ "M"], KClass, at_ "N" 50 60)].
Proof. cbn zeta. split; [|vm_compute; reflexivity]. intros d [<-|[]]. split; reflexivity. Qed.

(** The fields of a oneof are not shown, *)
Theorem C101_oneof_refuted : exists file e,
  (forall d, In d file -> at_top d = true) /\ In e (flat_map (declared []) file) /\ ~ In e (flat_map (shown []) (outline file)).
Proof.
  exists [Message (at_ "M" 0 99) [Oneof (at_ "o" 10 40) [Field true (at_ "a" 15 20)]]], ([b_ "M"], KField, at_ "a" 15 20).
  split; [intros d [<-|[]]; reflexivity|]. split; [vm_compute; auto|]. vm_compute. intuition discriminate.
Qed.

(** nor is a group or a type that is declared in one. *)
Theorem C101_group_refuted : exists file e,
  (forall d, In d file -> at_top d = true) /\ In e (flat_map (declared []) file) /\ is_type e = true /\
  ~ In e (flat_map (shown []) (outline file)).
Proof.
  exists [Message (at_ "M" 0 99) [Group (at_ "G" 10 40) [Enum (at_ "E" 15 20) []]]], ([b_ "M"; b_ "G"], KEnum, at_ "E" 15 20).
  split; [intros d [<-|[]]; reflexivity|]. split; [vm_compute; auto|]. split; [reflexivity|]. vm_compute. intuition discriminate.
Qed.

(** Every symbol is inside its parent and its name is inside itself, as the
    protocol requires. *)
Theorem C101_ranges : forall file whole,
  (forall d, In d file -> placed whole d) -> Forall (well_placed whole) (outline file).
Proof.
  intros file whole H. unfold outline. apply Forall_flat_map. rewrite Forall_forall. intros d I. apply top_placed, H, I.
Qed.
Example C101_ranges_case : forall d, In d sample -> placed (0, 100) d.
Proof.
  intros d I. repeat (destruct I as [<-|I]; [repeat (constructor; unfold inside; cbn; try lia)|]). destruct I.
Qed.

(** ** C102: code lenses *)

(** Lenses are offered exactly for workspace files without the pragma; first for
    the file itself, last for the workspace, and one for its package exactly if
    it has one. *)
Theorem C102_offered : forall local uri_of files uri pkg nogen ls,
  lenses local uri_of files uri (Some (pkg, nogen)) = Some ls ->
  (ls <> [] <-> local uri = true /\ nogen = false) /\
  (ls <> [] -> In (GenerateFile uri) ls /\ In GenerateWorkspace ls /\
               ((exists us, In (GeneratePackage us) ls) <-> pkg <> [])) /\
  (forall u, In (GenerateFile u) ls -> u = uri).
Proof.
  intros local uri_of files uri pkg nogen ls H. unfold lenses in H. destruct (local uri); cbn [negb] in H.
  2:{ injection H as <-. repeat split; try congruence; intros; cbn in *; intuition congruence. }
  destruct nogen.
  { injection H as <-. repeat split; try congruence; intros; cbn in *; intuition congruence. }
  injection H as <-. split; [|split].
  - split; [auto|]. discriminate.
  - intros _. split; [now left|]. split; [right; apply in_or_app; right; now left|].
    destruct (beq pkg []) eqn:E.
    + apply beq_eq in E. subst pkg. split; [|congruence]. intros (us & I). cbn in I. intuition discriminate.
    + split; [|intros _; eexists; right; now left]. intros _ ->. rewrite beq_refl in E. discriminate.
  - intros u I. destruct I as [I|I]; [congruence|]. destruct (beq pkg []); cbn in I; intuition congruence.
Qed.
Example C102_offered_case :
  lenses (fun _ => true) (fun p => Some p) [mkEntry (b_ "a") (b_ "p"); mkEntry (b_ "b") (b_ "q"); mkEntry (b_ "c") (b_ "p")]
    (b_ "a") (Some (b_ "p", false)) = Some [GenerateFile (b_ "a"); GeneratePackage [b_ "a"; b_ "c"]; GenerateWorkspace].
Proof. vm_compute. reflexivity. Qed.

(** The lens for the package asks for exactly its files that have a URI. *)
Theorem C102_package : forall local uri_of files uri pkg nogen ls us u,
  lenses local uri_of files uri (Some (pkg, nogen)) = Some ls -> In (GeneratePackage us) ls ->
  (In u us <-> exists e, In e files /\ e_package e = pkg /\ uri_of (e_path e) = Some u).
Proof.
  intros local uri_of files uri pkg nogen ls us u H I. unfold lenses in H. destruct (local uri); cbn [negb] in H.
  2:{ injection H as <-. destruct I. }
  destruct nogen; [injection H as <-; destruct I|]. injection H as <-.
  destruct I as [I|I]; [discriminate|]. destruct (beq pkg []); [cbn in I; intuition discriminate|].
  destruct I as [I|[I|[]]]; [|discriminate]. injection I as <-. unfold package_uris. rewrite in_flat_map. split.
  - intros (e & Ie & J). apply filter_In in Ie as [Ie P]. apply beq_eq in P. destruct (uri_of (e_path e)) eqn:E; [|destruct J].
    destruct J as [->|[]]. now exists e.
  - intros (e & Ie & <- & E). exists e. rewrite filter_In, beq_refl, E. split; [now split|now left].
Qed.
Example C102_package_case : exists ls, lenses (fun _ => true) (fun p => Some p) [mkEntry (b_ "a") (b_ "p")] (b_ "a") (Some (b_ "p", false)) = Some ls /\
  In (GeneratePackage [b_ "a"]) ls.
Proof. eexists. split; [vm_compute; reflexivity|]. right. now left. Qed.

(** Files outside of the workspace have no lens of their own but are part of
    their package's, for which files would then be generated next to them. *)
Theorem C102_outside_refuted : exists local uri_of files uri pkg ls us u,
  lenses local uri_of files uri (Some (pkg, false)) = Some ls /\ In (GeneratePackage us) ls /\
  In u us /\ local u = false.
Proof.
  exists (fun u => beq u (b_ "mine")), (fun p => Some p), [mkEntry (b_ "mine") (b_ "p"); mkEntry (b_ "vendored") (b_ "p")],
    (b_ "mine"), (b_ "p").
  eexists. eexists. exists (b_ "vendored"). split; [vm_compute; reflexivity|]. split; [right; now left|].
  split; [right; now left | vm_compute; reflexivity].
Qed.

Print Assumptions C101_sound.
Print Assumptions C101_complete_partial.
Print Assumptions C101_types_shown.
Print Assumptions C101_oneof_refuted.
Print Assumptions C101_group_refuted.
Print Assumptions C101_ranges.
Print Assumptions C102_offered.
Print Assumptions C102_package.
Print Assumptions C102_outside_refuted.
