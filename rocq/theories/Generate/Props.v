(** Property theorems for writing generated files (C47). *)
From Coq Require Import Ascii String.
From Verif Require Import Base Strs.
From Verif.Generate Require Import Model Spec Proofs.
Open Scope list_scope.

(** C47: whatever the generators return and whichever writes fail, every file
    that changes is directly inside the directory of a requested document that
    takes part in generation, carries the base name of an output that the
    generators return for the participating documents, and that
    output belongs to the document. *)
Theorem C47_writes_only_beside_documents :
  forall gen io f ds f' r, docs_exist f ds -> do_generate gen io f ds = (f', r) ->
  forall p, files f' p <> files f p ->
  exists outs name c, gen (participants ds) = Some outs /\ In (name, c) outs /\ placed ds name p.
Proof. exact do_generate_frame. Qed.

(** Success means that no output was dropped: each one has a place, which holds
    it or another output with the same place; everything else is unchanged. *)
Theorem C47_success_means_all_written :
  forall gen io f ds f', docs_exist f ds -> do_generate gen io f ds = (f', Done) ->
  exists outs, gen (participants ds) = Some outs /\
  (forall name c, In (name, c) outs -> exists p, placed ds name p /\
     exists name' c', In (name', c') outs /\ placed ds name' p /\ files f' p = Some c') /\
  (forall p, (forall name c, In (name, c) outs -> ~ placed ds name p) -> files f' p = files f p).
Proof. exact do_generate_done. Qed.

(** An output that belongs to no requested document is reported ... *)
Theorem C47_foreign_output_reported :
  forall gen io f ds f' r, docs_exist f ds -> do_generate gen io f ds = (f', r) ->
  (exists outs name c, gen (participants ds) = Some outs /\ In (name, c) outs /\
     forall d, In d ds -> selected d -> ~ belongs name d) -> r <> Done.
Proof.
  intros gen io f ds f' r He H Hf ->. destruct (do_generate_done gen io f ds f' He H) as (outs & Hg & Hw & _).
  destruct Hf as (outs' & name & c & Hg' & Hin & Hno). rewrite Hg in Hg'. injection Hg' as <-.
  destruct (Hw name c Hin) as (p & Hp & _). destruct (placed_belongs _ _ _ Hp) as (d & Hd & Hs & Hb). now apply (Hno d).
Qed.

(** ... and no output that belongs to a requested document is rejected. *)
Theorem C47_own_output_not_rejected :
  forall gen io f ds f' r,
  (forall outs name c, gen (participants ds) = Some outs -> In (name, c) outs ->
     exists d, In d ds /\ selected d /\ belongs name d) ->
  do_generate gen io f ds = (f', r) -> r <> DoneWithErrors.
Proof. exact do_generate_accepts. Qed.

(** Two documents in different directories with the same go_package: the output
    for the first document is written into the directory of the second. *)
Definition docA := mkDoc (b_ "/w/a/a.proto") true (b_ "p") false (b_ "m/a/a.proto") (Some (b_ "m/gen;gen")).
Definition docB := mkDoc (b_ "/w/b/b.proto") true (b_ "p") false (b_ "m/b/b.proto") (Some (b_ "m/gen;gen")).
Definition fs0 := mkFs (fun _ => None)
  (fun p => (beq p (b_ "/w/a") || beq p (b_ "/w/b") || beq p (b_ "/w"))%bool).
Definition genA (roots : list doc) := Some [(b_ "m/gen/a.pb.go", b_ "code")].

Lemma docs0 : docs_exist fs0 [docA; docB].
Proof.
  intros d [<-|[<-|[]]]; (split; [eexists; reflexivity|split; reflexivity]).
Qed.

Theorem C47_output_beside_own_source_refuted :
  exists gen io f ds f' r d name c, docs_exist f ds /\ do_generate gen io f ds = (f', r) /\
    In d ds /\ selected d /\ belongs name d /\ gen ds = Some [(name, c)] /\ r = Done /\
    files f' (path_dir (d_uri_path d) ++ b_ "/a.pb.go") = None /\
    files f' (b_ "/w/b/a.pb.go") = Some c.
Proof.
  exists genA, (fun _ => None), fs0, [docA; docB]. eexists. exists Done, docA, (b_ "m/gen/a.pb.go"), (b_ "code").
  split; [apply docs0|]. split; [reflexivity|]. split; [now left|].
  split; [split; [discriminate|reflexivity]|]. split.
  { right. exists (b_ "m/gen;gen"), (b_ "gen"). split; [reflexivity|]. split; [|right; reflexivity].
    cbn. intuition discriminate. }
  repeat split; reflexivity.
Qed.

Example C47_example :
  docs_exist fs0 [docA; docB] /\
  exists f', do_generate genA (fun _ => None) fs0 [docA; docB] = (f', Done) /\
    files f' (b_ "/w/b/a.pb.go") <> files fs0 (b_ "/w/b/a.pb.go").
Proof. split; [apply docs0|]. eexists. split; [reflexivity|]. discriminate. Qed.

Print Assumptions C47_writes_only_beside_documents.
Print Assumptions C47_success_means_all_written.
Print Assumptions C47_foreign_output_reported.
Print Assumptions C47_own_output_not_rejected.
Print Assumptions C47_output_beside_own_source_refuted.
