From Coq Require Import Ascii String Permutation.
From Verif Require Import Base Strs Paths.
From Verif.Sdk Require Import Model Spec Proofs.
Open Scope list_scope.

(** ** C45: dependencies before dependents *)

(** The sort always ends; it crashes exactly when some file imports a file
    that is not among the results. *)
Theorem C45_panics_exactly fs : NoDup (paths fs) ->
  topological_sort fs <> Deep /\ (topological_sort fs = NilPanic <-> ~ closed fs).
Proof.
  intros N. split; [apply sort_not_deep|]. split.
  - intros E C. exact (sort_no_panic fs C E).
  - intros NC. destruct (topological_sort fs) as [s e| |] eqn:T; [|reflexivity|now elim (sort_not_deep fs)].
    elim NC. destruct (sort_inv _ _ _ T) as (_ & _ & _ & _ & C).
    intros f p If Ip. apply (C f p); [|assumption].
    now apply Permutation_in with fs; [apply Permutation_sym; eapply sort_perm; eauto|].
Qed.
(** Each file exactly once. *)
Theorem C45_complete fs : NoDup (paths fs) -> closed fs ->
  exists s e, topological_sort fs = Sorted s e /\ Permutation s fs.
Proof.
  intros N C. destruct (topological_sort fs) as [s e| |] eqn:T.
  - exists s, e. split; [reflexivity|]. eapply sort_perm; eauto.
  - now elim (sort_no_panic fs).
  - now elim (sort_not_deep fs).
Qed.
(** A file comes after each of its imports that does not import it back. *)
Theorem C45_order fs s e l1 f l2 p : topological_sort fs = Sorted s e ->
  s = l1 ++ f :: l2 -> In p (f_imports f) -> ~ reaches fs p (f_path f) -> In p (paths l1).
Proof.
  intros T E I NR. destruct (sort_inv _ _ _ T) as (_ & _ & _ & F & _).
  destruct (F _ _ _ E p I); [assumption|contradiction].
Qed.
(** Without import cycles the whole list is in order. *)
Theorem C45_acyclic fs s e : acyclic fs -> topological_sort fs = Sorted s e -> in_order s.
Proof.
  intros A T l1 f l2 p E I. eapply C45_order; eauto. apply A; [|assumption].
  destruct (sort_inv _ _ _ T) as (_ & Inc & _). apply Inc. subst. apply in_app_iff. right. now left.
Qed.
Definition ex_a := mkFile (b_ "a.proto") [b_ "b.proto"; b_ "c.proto"].
Definition ex_b := mkFile (b_ "b.proto") [b_ "c.proto"].
Definition ex_c := mkFile (b_ "c.proto") [].
Example C45_ex : exists e, topological_sort [ex_a; ex_b; ex_c] = Sorted [ex_c; ex_b; ex_a] e.
Proof. eexists. vm_compute. reflexivity. Qed.
Example C45_ex_hyps : NoDup (paths [ex_a; ex_b; ex_c]) /\ closed [ex_a; ex_b; ex_c].
Proof.
  split; [repeat constructor; vm_compute; intuition discriminate|].
  intros f p [<-|[<-|[<-|[]]]]; cbn [f_imports ex_a ex_b ex_c In]; intros I; decompose [or] I; subst;
    try contradiction; vm_compute; tauto.
Qed.
(** Cycles do not stop the sort. *)
Example C45_ex_cycle : exists e,
  topological_sort [mkFile (b_ "a") [b_ "b"]; mkFile (b_ "b") [b_ "a"]] = Sorted [mkFile (b_ "b") [b_ "a"]; mkFile (b_ "a") [b_ "b"]] e.
Proof. eexists. vm_compute. reflexivity. Qed.
Example C45_ex_panic : topological_sort [ex_a; ex_b] = NilPanic.
Proof. vm_compute. reflexivity. Qed.

(** The driver sorts what is left after dropping files written in an edition:
    a successful compilation whose files are all there crashes exactly if a
    kept file imports a dropped one. *)
Theorem C45_driver_panics_exactly cs : NoDup (paths (map c_file cs)) -> closed (map c_file cs) ->
  (topological_sort (linker_results cs) = NilPanic <->
   exists c d, In c cs /\ In d cs /\ c_placeholder c = false /\ c_editions c = false /\
     (c_placeholder d = true \/ c_editions d = true) /\ In (f_path (c_file d)) (f_imports (c_file c))).
Proof.
  intros N C.
  assert (Sub : incl (linker_results cs) (map c_file cs)).
  { intros f I. apply in_map_iff in I as (c & <- & I). apply filter_In in I as [I _]. now apply in_map. }
  assert (N2 : NoDup (paths (linker_results cs))).
  { clear C Sub. unfold linker_results, paths in *. rewrite map_map in *.
    induction cs as [|c cs IH]; [constructor|]. cbn [filter map] in *. inversion N as [|? ? H1 H2]; subst.
    destruct (_ && _)%bool; cbn [map]; [|now apply IH]. constructor; [|now apply IH].
    intros I. apply H1. apply in_map_iff in I as (d & E & I). apply filter_In in I as [I _].
    apply in_map_iff. now exists d. }
  assert (Inj : forall c d, In c cs -> In d cs -> f_path (c_file c) = f_path (c_file d) -> c = d).
  { clear - N. unfold paths in N. rewrite map_map in N. intros c d Ic Id E.
    apply in_split in Ic as (a & b & ->). rewrite map_app in N. cbn in N. apply NoDup_remove_2 in N.
    rewrite <- map_app in N. apply in_app_iff in Id as [I|[I|I]]; [|assumption|]; elim N; rewrite E;
      apply (in_map (fun x => f_path (c_file x))), in_app_iff; tauto. }
  destruct (C45_panics_exactly _ N2) as [_ ->]. split.
  - intros NC.
    destruct (existsb (fun c => (negb (c_placeholder c) && negb (c_editions c)) &&
        existsb (fun p => negb (seen_in p (paths (linker_results cs)))) (f_imports (c_file c)))%bool cs) eqn:X.
    + apply existsb_exists in X as (c & Ic & X). apply andb_true_iff in X as [K X]. apply existsb_exists in X as (p & Ip & Np).
      apply negb_true_iff, seen_out_spec in Np.
      assert (Hp : In p (paths (map c_file cs))) by (apply (C (c_file c)); [now apply in_map|assumption]).
      unfold paths in Hp. rewrite map_map in Hp. apply in_map_iff in Hp as (d & <- & Id).
      exists c, d. apply andb_true_iff in K as [K1 K2]. apply negb_true_iff in K1, K2.
      repeat split; try assumption.
      destruct (c_placeholder d) eqn:P1; [now left|]. destruct (c_editions d) eqn:P2; [now right|].
      elim Np. apply (in_map f_path), (in_map c_file), filter_In. split; [assumption|now rewrite P1, P2].
    + elim NC. intros f p If Ip. apply in_map_iff in If as (c & <- & I). apply filter_In in I as [Ic K].
      destruct (seen_in p (paths (linker_results cs))) eqn:S; [now apply seen_in_spec|].
      exfalso. assert (true = false); [|discriminate]. rewrite <- X. symmetry.
      apply existsb_exists. exists c. split; [assumption|]. rewrite K. cbn [andb].
      apply existsb_exists. exists p. split; [assumption|]. now rewrite S.
  - intros (c & d & Ic & Id & P1 & P2 & Pd & I) Cl.
    assert (Hc : In (c_file c) (linker_results cs)).
    { apply in_map, filter_In. split; [assumption|now rewrite P1, P2]. }
    specialize (Cl _ _ Hc I). unfold paths, linker_results in Cl. rewrite map_map in Cl.
    apply in_map_iff in Cl as (d' & E & Id'). apply filter_In in Id' as [Id' K].
    assert (d' = d) by (now apply Inj). subst d'.
    destruct Pd as [Pd|Pd]; rewrite Pd in K; [discriminate|]. now rewrite andb_false_r in K.
Qed.
(** So compiling a proto3 file that imports an editions file crashes. *)
Theorem C45_editions_refuted : exists cs, NoDup (paths (map c_file cs)) /\ closed (map c_file cs) /\
  acyclic (map c_file cs) /\ Forall (fun c => c_placeholder c = false) cs /\
  topological_sort (linker_results cs) = NilPanic.
Proof.
  exists [mkCompiled ex_b false false; mkCompiled ex_c false true]. repeat split.
  - repeat constructor; vm_compute; intuition discriminate.
  - intros f p [<-|[<-|[]]]; cbn [c_file f_imports ex_b ex_c In]; intros I; [|contradiction].
    destruct I as [<-|[]]. vm_compute. tauto.
  - intros f p [<-|[<-|[]]]; cbn [c_file f_imports ex_b ex_c In]; intros I; [|contradiction].
    destruct I as [<-|[]]. intros R. inversion R as [|g q r Ig Ip R']; subst.
    destruct Ig as [<-|[<-|[]]]; [vm_compute in H; discriminate|]. destruct Ip.
  - repeat constructor.
Qed.

(** ** C83: workspace-local files *)

(** Among the files with a location on disk, exactly those below the workspace
    are chosen for which a file of the same relative path exists below the
    current directory. *)
Theorem C83_exact disk_path exists_ cwd ws sorted f d :
  disk_path (f_path f) = Some d -> Forall normal d ->
  (In f (workspace_local disk_path exists_ cwd ws sorted) <->
   In f sorted /\ exists r, d = ws ++ r /\ exists_ (cwd ++ r) = true).
Proof.
  intros D N. unfold workspace_local. rewrite filter_In. unfold local_one. rewrite D. cbv zeta.
  rewrite andb_true_iff. split.
  - intros (I & Ex & Lo). split; [assumption|].
    destruct (below_dec ws d) as [(r & ->)|NB].
    + exists r. split; [reflexivity|]. rewrite rel_below in Ex. rewrite resolve_plain in Ex; [assumption|].
      now apply Forall_app in N.
    + rewrite rel_not_below in Lo by assumption. discriminate.
  - intros (I & r & -> & Ex). split; [assumption|]. rewrite rel_below. apply Forall_app in N as [_ N].
    rewrite resolve_plain, is_local_normal by assumption. now split.
Qed.
(** In the workspace's own directory: the existing files below the workspace. *)
Theorem C83_at_workspace disk_path exists_ ws sorted f d :
  disk_path (f_path f) = Some d -> Forall normal d ->
  (In f (workspace_local disk_path exists_ ws ws sorted) <-> In f sorted /\ below ws d /\ exists_ d = true).
Proof.
  intros D N. rewrite C83_exact by eassumption. split.
  - intros (I & r & -> & E). split; [assumption|]. split; [now exists r|assumption].
  - intros (I & (r & ->) & E). split; [assumption|]. now exists r.
Qed.
(** Files without a location on disk are never chosen; the order is kept. *)
Theorem C83_sublist disk_path exists_ cwd ws a b :
  workspace_local disk_path exists_ cwd ws (a ++ b) =
  workspace_local disk_path exists_ cwd ws a ++ workspace_local disk_path exists_ cwd ws b.
Proof. apply filter_app. Qed.
Theorem C83_no_location disk_path exists_ cwd ws sorted f :
  disk_path (f_path f) = None -> ~ In f (workspace_local disk_path exists_ cwd ws sorted).
Proof.
  intros D I. apply filter_In in I as [_ I]. unfold local_one in I. now rewrite D in I.
Qed.
(** Elsewhere an existing workspace file is lost, and one that does not exist
    is kept. *)
Definition at_ (s : string) : list bytes := split_on slash (b_ s).
Definition is_path (l : list (list bytes)) (p : list bytes) : bool :=
  existsb (fun q => if list_eq_dec (list_eq_dec ascii_dec) p q then true else false) l.
Theorem C83_other_directory_refuted :
  (exists disk_path exists_ cwd ws f d, disk_path (f_path f) = Some d /\ Forall normal d /\ below ws d /\
    exists_ d = true /\ ~ In f (workspace_local disk_path exists_ cwd ws [f])) /\
  (exists disk_path exists_ cwd ws f d, disk_path (f_path f) = Some d /\ Forall normal d /\
    exists_ d = false /\ In f (workspace_local disk_path exists_ cwd ws [f])).
Proof.
  assert (N : Forall normal (at_ "home/ws/a.proto")).
  { repeat constructor; try (vm_compute; discriminate); vm_compute; intuition discriminate. }
  split.
  - exists (fun _ => Some (at_ "home/ws/a.proto")), (is_path [at_ "home/ws/a.proto"]), (at_ "home"), (at_ "home/ws"),
      ex_a, (at_ "home/ws/a.proto").
    split; [reflexivity|]. split; [assumption|]. split; [exists [b_ "a.proto"]; vm_compute; reflexivity|].
    split; vm_compute; tauto.
  - exists (fun _ => Some (at_ "home/ws/a.proto")), (is_path [at_ "home/a.proto"]), (at_ "home"), (at_ "home/ws"),
      ex_a, (at_ "home/ws/a.proto").
    split; [reflexivity|]. split; [assumption|]. split; vm_compute; tauto.
Qed.
Example C83_ex : workspace_local (fun p => Some (at_ "ws" ++ [p])) (is_path [at_ "ws/a.proto"]) (at_ "ws") (at_ "ws") [ex_a; ex_b] = [ex_a].
Proof. vm_compute. reflexivity. Qed.

(** ** C46: original names *)

(** A file's own name is always restored. *)
Theorem C46_names uri_of orig_of fs :
  Forall2 (fun f g => original uri_of orig_of (name f) (name g)) fs (restore_all uri_of orig_of fs).
Proof.
  induction fs as [|f fs IH]; constructor; [|exact IH]. rewrite restore_name. apply restore_dep_original.
Qed.
(** A file is restored completely, unless it has no URI or its name already is
    the original one: then its imports must have their original names already. *)
Theorem C46_exact uri_of orig_of f :
  restored uri_of orig_of f (restore uri_of orig_of f) <->
  ((exists u, uri_of (name f) = Some u /\ orig_of u <> Some (name f)) \/
   Forall (fun d => original uri_of orig_of d d) (deps f)).
Proof.
  rewrite restored_iff. split.
  - intros E. destruct (skipped_dec uri_of orig_of f) as [S|N].
    + right. rewrite restore_skipped in E by assumption. apply map_fixed.
      apply (f_equal deps) in E. now symmetry.
    + left. unfold skipped in N. destruct (uri_of (name f)) as [u|] eqn:U; [|tauto].
      exists u. split; [reflexivity|]. intros O. apply N. right. now exists u.
  - intros H. destruct (skipped_dec uri_of orig_of f) as [S|N]; [|now apply restore_not_skipped].
    destruct H as [(u & U & O)|H].
    + exfalso. destruct S as [S|(u' & U' & O')]; congruence.
    + rewrite restore_skipped by assumption. apply map_fixed in H. rewrite H.
      destruct f as [n ds]. cbn [name deps] in *. f_equal. apply original_iff.
      destruct S as [S|(u' & U' & O')]; cbn [name] in *.
      * right. split; [congruence|reflexivity].
      * left. now exists u'.
Qed.
(** Both exceptions lose the restoration of an import. *)
Theorem C46_complete_refuted :
  (exists uri_of orig_of f, uri_of (name f) = None /\ ~ restored uri_of orig_of f (restore uri_of orig_of f)) /\
  (exists uri_of orig_of f u, uri_of (name f) = Some u /\ orig_of u = Some (name f) /\
     ~ restored uri_of orig_of f (restore uri_of orig_of f)).
Proof.
  split.
  - exists (fun p => if beq p (b_ "m/d.proto") then Some (b_ "u") else None), (fun _ => Some (b_ "d.proto")),
      (mkDesc (b_ "a.proto") [b_ "m/d.proto"]).
    split; [vm_compute; reflexivity|]. rewrite restored_iff. vm_compute. discriminate.
  - exists (fun p => Some p), (fun u => if beq u (b_ "m/d.proto") then Some (b_ "d.proto") else Some u),
      (mkDesc (b_ "a.proto") [b_ "m/d.proto"]), (b_ "a.proto").
    split; [vm_compute; reflexivity|]. split; [vm_compute; reflexivity|]. rewrite restored_iff. vm_compute. discriminate.
Qed.
(** Imports keep pointing at the file they pointed at. *)
Theorem C46_references uri_of orig_of f g : In (name g) (deps f) ->
  (exists u, uri_of (name f) = Some u /\ orig_of u <> Some (name f)) ->
  In (name (restore uri_of orig_of g)) (deps (restore uri_of orig_of f)).
Proof.
  intros I H. rewrite restore_name.
  rewrite (proj1 (restored_iff _ _ _ _) (proj2 (C46_exact uri_of orig_of f) (or_introl H))).
  cbn [deps]. now apply in_map.
Qed.
(** The driver restores workspace-local files twice, which renames an import a
    second time if its original name is the path of another synthesised file. *)
Theorem C46_twice_refuted : exists uri_of orig_of f,
  restored uri_of orig_of f (restore uri_of orig_of f) /\
  compile_restore uri_of orig_of (fun _ => true) [f] <> restore_all uri_of orig_of [f].
Proof.
  exists (fun p => Some p),
    (fun u => if beq u (b_ "m/v1.proto") then Some (b_ "v1.proto")
              else if beq u (b_ "v1.proto") then Some (b_ "old/v1.proto") else None),
    (mkDesc (b_ "a.proto") [b_ "m/v1.proto"]).
  split; [apply restored_iff; vm_compute; reflexivity|vm_compute; discriminate].
Qed.
(** It is harmless if original names are not themselves renamed. *)
Theorem C46_twice uri_of orig_of local fs :
  (forall n o, original uri_of orig_of n o -> original uri_of orig_of o o) ->
  compile_restore uri_of orig_of local fs = restore_all uri_of orig_of fs.
Proof.
  intros St. apply map_ext. intros f. destruct (local f); [|reflexivity].
  assert (Fix : forall n, restore_dep uri_of orig_of (restore_dep uri_of orig_of n) = restore_dep uri_of orig_of n).
  { intros n. symmetry. apply original_iff, St with n, restore_dep_original. }
  destruct (skipped_dec uri_of orig_of (restore uri_of orig_of f)) as [S|N]; [now apply restore_skipped|].
  rewrite (restore_not_skipped _ _ (restore uri_of orig_of f)) by assumption.
  destruct (skipped_dec uri_of orig_of f) as [S|N2].
  - exfalso. apply N. now rewrite restore_skipped.
  - rewrite (restore_not_skipped _ _ f) by assumption. cbn [name deps]. rewrite Fix, map_map. f_equal.
    apply map_ext. exact Fix.
Qed.
Example C46_ex : restore (fun p => Some p) (fun u => if beq u (b_ "m/d.proto") then Some (b_ "d.proto") else None)
  (mkDesc (b_ "a.proto") [b_ "m/d.proto"; b_ "e.proto"]) = mkDesc (b_ "a.proto") [b_ "d.proto"; b_ "e.proto"].
Proof. vm_compute. reflexivity. Qed.

(** ** C84: inferred Go packages *)

(** If there are no problems every file has a Go package, which is its
    directory or the (completed) one of a file of the same directory. *)
Theorem C84_from_directory sp fs gs : go_packages sp (fun _ => None) [] fs = (gs, []) ->
  Forall2 (fun d og => exists g, og = Some g /\ (g = path_dir (s_path d) \/
    exists b h, In b fs /\ same_dir d b /\ s_go b = Some h /\ g = sanitize (path_dir (s_path d)) h)) fs gs.
Proof.
  intros E. replace gs with (fst (go_packages sp (fun _ => None) [] fs)) by now rewrite E.
  apply go_from; [reflexivity|intros ? ? [=]|now rewrite E].
Qed.
(** A go_package that names a path is left alone. *)
Theorem C84_explicit_kept sp fs gs es : go_packages sp (fun _ => None) [] fs = (gs, es) ->
  Forall2 (fun d og => forall h, s_go d = Some h -> In "."%char h \/ In slash h -> og = Some h) fs gs.
Proof.
  intros E. pose proof (go_explicit sp fs (fun _ => None) []) as F. rewrite E in F. cbn [fst] in F.
  clear E. induction F as [|d og l l' H F IH]; [constructor|]. constructor; [|exact IH].
  intros h Hh D. rewrite (H h Hh). unfold sanitize.
  replace (contains dot h || contains slash h)%bool with true; [reflexivity|].
  symmetry. rewrite orb_true_iff, !contains_spec. exact D.
Qed.
(** In consistent directories inference succeeds and gives what is meant,
    whatever the order of the files. *)
Theorem C84_consistent sp fs : consistent fs -> exists gs,
  go_packages sp (fun _ => None) [] fs = (gs, []) /\ Forall2 (fun d og => exists g, og = Some g /\ meant fs d g) fs gs.
Proof.
  intros C. destruct (go_consistent sp fs C fs (fun _ => None) []) as [E F]; [reflexivity|intros ? ? ? [=]|].
  exists (fst (go_packages sp (fun _ => None) [] fs)). split; [|assumption].
  destruct (go_packages sp (fun _ => None) [] fs). cbn in *. now subst.
Qed.
Theorem C84_meant_unique fs a g h : consistent fs -> In a fs -> meant fs a g -> meant fs a h -> g = h.
Proof. apply meant_fun. Qed.
(** With two packages in a directory the order of the files decides between an
    error and silently using another package's go_package. *)
Definition s_a := mkSrc (b_ "d/a.proto") (b_ "p") None [].
Definition s_b := mkSrc (b_ "d/b.proto") (b_ "p") (Some (b_ "example.com/p")) [].
Definition s_c := mkSrc (b_ "d/c.proto") (b_ "q") None [].
Theorem C84_order_refuted : exists sp fs fs' gs p, Permutation fs fs' /\
  go_packages sp (fun _ => None) [] fs = (gs, []) /\ In p (snd (go_packages sp (fun _ => None) [] fs')).
Proof.
  exists (fun a b => (a, b)), [s_a; s_b; s_c], [s_c; s_a; s_b]. do 2 eexists. split.
  - change [s_a; s_b; s_c] with ([s_a; s_b] ++ [s_c]). symmetry. apply Permutation_cons_append.
  - split; [vm_compute; reflexivity|]. vm_compute. left. reflexivity.
Qed.
Theorem C84_other_package_refuted : exists sp fs gs d b g h, go_packages sp (fun _ => None) [] fs = (gs, []) /\
  nth_error fs 2 = Some d /\ nth_error gs 2 = Some (Some g) /\ s_go d = None /\
  In b fs /\ s_go b = Some h /\ g = h /\ s_pkg b <> s_pkg d /\
  (forall c, In c fs -> s_pkg c = s_pkg d -> s_go c = None).
Proof.
  exists (fun a b => (a, b)), [s_a; s_b; s_c]. do 4 eexists. exists (b_ "example.com/p").
  split; [vm_compute; reflexivity|]. split; [reflexivity|]. split; [reflexivity|]. split; [reflexivity|].
  split; [right; left; reflexivity|]. split; [reflexivity|]. split; [reflexivity|]. split; [vm_compute; discriminate|].
  intros c [<-|[<-|[<-|[]]]]; vm_compute; [discriminate|discriminate|reflexivity].
Qed.
Example C84_ex : go_packages (fun a b => (a, b)) (fun _ => None) []
  [s_a; s_b; mkSrc (b_ "e/x.proto") (b_ "e") None []] =
  ([Some (b_ "example.com/p"); Some (b_ "example.com/p"); Some (b_ "e")], []).
Proof. vm_compute. reflexivity. Qed.
Example C84_ex_consistent : consistent [s_a; s_b].
Proof.
  intros x y [<-|[<-|[]]] [<-|[<-|[]]] S; (split; [reflexivity|]); cbn [s_go s_a s_b]; intros; congruence.
Qed.

(** ** C85: completing a go_package *)

(** A bare name is completed to the file's directory as import path; its
    package name is kept exactly if the directory does not merely end in the
    same letters. *)
Theorem C85_exact dir g : ~ In "."%char g -> ~ In slash g -> ~ In ";"%char g -> ~ In ";"%char dir ->
  import_path (sanitize dir g) = dir /\
  (go_name (sanitize dir g) = g <-> (has_suffix dir g = false \/ snd (cut_last_slash dir) = g)).
Proof.
  intros N1 N2 N3 N4. unfold sanitize.
  rewrite (proj2 (contains_false dot _) N1), (proj2 (contains_false _ _) N2). cbn [orb].
  destruct (has_suffix dir g) eqn:S.
  - unfold import_path, go_name. rewrite split_on_no_sep by assumption. cbn [hd]. split; [reflexivity|].
    split; [now right|intros [?|?]; [discriminate|assumption]].
  - unfold import_path, go_name. rewrite split_on_app, split_on_no_sep by assumption. cbn [hd join_with].
    split; [reflexivity|]. split; [now left|reflexivity].
Qed.
Theorem C85_name_refuted : exists dir g, ~ In "."%char g /\ ~ In slash g /\ ~ In ";"%char g /\ ~ In ";"%char dir /\ g <> [] /\
  go_name (sanitize dir g) <> g.
Proof. exists (b_ "example/foobar"), (b_ "bar"). repeat split; vm_compute; intuition discriminate. Qed.
(** An option with a name but no path is mangled. *)
Theorem C85_named_refuted : exists dir g, go_name g = b_ "pb" /\ go_name (sanitize dir g) <> b_ "pb".
Proof. exists (b_ "example/foo"), (b_ "foo;pb"). vm_compute. split; [reflexivity|discriminate]. Qed.
Example C85_ex : sanitize (b_ "example/foo") (b_ "foo") = b_ "example/foo" /\
  sanitize (b_ "example/foo") (b_ "pb") = b_ "example/foo;pb".
Proof. vm_compute. now split. Qed.

(** ** C86: creating the plugin does not crash *)
Section C86.
Variables uri_of orig_of : bytes -> option bytes.
Variable sp : bytes -> bytes -> bytes * bytes.

(** For a closure in import order, targets of the closure that are not
    renamed, distinct restored names, and every file either fully restored or
    not affected, creation succeeds or reports problems. *)
Theorem C86_no_panic targets closure :
  (forall l1 d l2 p, closure = l1 ++ d :: l2 -> In p (s_deps d) -> In p (map s_path l1)) ->
  (forall t, In t targets -> In t (map s_path closure) /\ original uri_of orig_of t t) ->
  NoDup (map (restore_dep uri_of orig_of) (map s_path closure)) ->
  (forall d, In d closure -> (exists u, uri_of (s_path d) = Some u /\ orig_of u <> Some (s_path d)) \/
     Forall (fun p => original uri_of orig_of p p) (s_deps d)) ->
  plugin_new sp uri_of orig_of targets closure <> Panics.
Proof.
  intros Ord Tg ND Ok. unfold plugin_new.
  destruct (go_packages sp (fun _ => None) [] closure) as [gs [|e es]]; [|discriminate].
  set (fs := restore_all uri_of orig_of (map (fun d => mkDesc (s_path d) (s_deps d)) closure)).
  assert (Nm : forall l, map name (restore_all uri_of orig_of (map (fun d => mkDesc (s_path d) (s_deps d)) l)) =
      map (restore_dep uri_of orig_of) (map s_path l)).
  { intros l. unfold restore_all. rewrite !map_map. apply map_ext. intros d. now rewrite restore_name. }
  assert (A : protogen_accepts fs targets = true); [|now rewrite A].
  unfold protogen_accepts. apply andb_true_iff. split.
  - apply accepts_iff; [constructor|]. cbn [app]. split; [unfold fs; rewrite Nm; exact ND|].
    intros l1 f l2 p E I. unfold fs, restore_all in E. rewrite map_map in E.
    apply map_eq_app in E as (k1 & k2 & -> & <- & E2).
    apply map_eq_cons in E2 as (d & k3 & -> & <- & <-).
    assert (M : map name (map (fun x => restore uri_of orig_of (mkDesc (s_path x) (s_deps x))) k1) =
        map (restore_dep uri_of orig_of) (map s_path k1)).
    { rewrite !map_map. apply map_ext. intros x. now rewrite restore_name. }
    rewrite M. clear M.
    assert (Id : In d (k1 ++ d :: k3)) by (apply in_app_iff; right; now left).
    specialize (Ok d Id).
    assert (R : restored uri_of orig_of (mkDesc (s_path d) (s_deps d)) (restore uri_of orig_of (mkDesc (s_path d) (s_deps d)))).
    { apply C46_exact. cbn [name deps]. exact Ok. }
    apply restored_iff in R. cbn [name deps] in R. rewrite R in I. cbn [deps] in I.
    apply in_map_iff in I as (q & <- & Iq). apply in_map. now apply (Ord k1 d k3 q).
  - apply forallb_forall. intros t It. destruct (Tg t It) as [I O]. apply existsb_beq.
    unfold fs. rewrite Nm. apply original_iff in O. rewrite O. now apply in_map.
Qed.
(** A plugin is created from all files of the closure, each with a Go package;
    if one has none the problems are reported, all of them. *)
Theorem C86_all_or_problems targets closure :
  match plugin_new sp uri_of orig_of targets closure with
  | Plugin fs gs => map name fs = map (restore_dep uri_of orig_of) (map s_path closure) /\
      go_packages sp (fun _ => None) [] closure = (map Some gs, [])
  | Problems es => es = snd (go_packages sp (fun _ => None) [] closure) /\ es <> []
  | Panics => snd (go_packages sp (fun _ => None) [] closure) = []
  end.
Proof.
  unfold plugin_new. pose proof (no_problem_all sp closure (fun _ => None) []) as H.
  destruct (go_packages sp (fun _ => None) [] closure) as [gs [|e es]]; [|now split].
  destruct (protogen_accepts _ _); [|reflexivity]. split.
  - unfold restore_all. rewrite !map_map. apply map_ext. intros d. now rewrite restore_name.
  - f_equal. specialize (H gs eq_refl). rewrite map_map. clear -H. induction H as [|g gs N H IH]; [reflexivity|].
    cbn [map]. destruct g; [cbn; now f_equal | congruence].
Qed.
(** Files in one directory with different packages are such a problem. *)
Theorem C86_two_packages targets a b : s_go a = None -> path_dir (s_path a) = path_dir (s_path b) -> s_pkg a <> s_pkg b ->
  exists es, plugin_new sp uri_of orig_of targets [a; b] = Problems es.
Proof.
  intros G D P. unfold plugin_new.
  assert (X : exists e, one sp (fun _ => None) [] a [b] = (fun _ => None, None, [e])).
  { unfold one. rewrite G. cbn [app scan_others]. rewrite <- D, beq_refl. apply beq_neq in P. cbn [negb]. rewrite P.
    destruct (s_go b); eexists; reflexivity. }
  destruct X as [e X].
  change (go_packages sp (fun _ => None) [] [a; b]) with
    (let '(m', g, e) := one sp (fun _ => None) [] a [b] in let '(gs, es) := go_packages sp m' [a] [b] in (g :: gs, e ++ es)).
  rewrite X. destruct (go_packages sp (fun _ => None) [a] [b]) as [gs es]. cbn [app]. eexists. reflexivity.
Qed.
End C86.
(** Generating for a synthesised file crashes: it is looked up by the name it
    no longer has. *)
Theorem C86_renamed_target_refuted : exists sp uri_of orig_of d,
  plugin_new sp uri_of orig_of [s_path d] [d] = Panics /\ s_deps d = [].
Proof.
  exists (fun a b => (a, b)), (fun p => Some p), (fun _ => Some (b_ "d.proto")),
    (mkSrc (b_ "m/d.proto") (b_ "m") (Some (b_ "example.com/m")) []).
  split; [vm_compute; reflexivity|reflexivity].
Qed.
(** So does importing a renamed file from a file whose name is original already,
    and two files that get the same name. *)
Theorem C86_renamed_import_refuted : exists sp uri_of orig_of a b,
  plugin_new sp uri_of orig_of [s_path a] [b; a] = Panics /\ s_deps a = [s_path b] /\ s_deps b = [] /\
  original uri_of orig_of (s_path a) (s_path a).
Proof.
  exists (fun a b => (a, b)), (fun p => Some p), (fun u => if beq u (b_ "m/d.proto") then Some (b_ "d.proto") else Some u),
    (mkSrc (b_ "a.proto") (b_ "a") None [b_ "m/d.proto"]), (mkSrc (b_ "m/d.proto") (b_ "m") None []).
  split; [vm_compute; reflexivity|]. split; [reflexivity|]. split; [reflexivity|].
  apply original_iff. vm_compute. reflexivity.
Qed.
Theorem C86_collision_refuted : exists sp uri_of orig_of a b,
  plugin_new sp uri_of orig_of [s_path a] [b; a] = Panics /\ s_path a <> s_path b /\ s_deps a = [] /\ s_deps b = [].
Proof.
  exists (fun a b => (a, b)), (fun p => Some p), (fun u => if beq u (b_ "m/d.proto") then Some (b_ "d.proto") else None),
    (mkSrc (b_ "d.proto") (b_ "a") None []), (mkSrc (b_ "m/d.proto") (b_ "m") None []).
  split; [vm_compute; reflexivity|]. split; [vm_compute; discriminate|now split].
Qed.
Example C86_ex : plugin_new (fun a b => (a, b)) (fun p => Some p) (fun u => if beq u (b_ "m/d.proto") then Some (b_ "d.proto") else None)
  [b_ "a.proto"] [mkSrc (b_ "m/d.proto") (b_ "m") None []; mkSrc (b_ "a.proto") (b_ "a") (Some (b_ "x.org/a")) [b_ "m/d.proto"]] =
  Plugin [mkDesc (b_ "d.proto") []; mkDesc (b_ "a.proto") [b_ "d.proto"]] [b_ "m"; b_ "x.org/a"].
Proof. vm_compute. reflexivity. Qed.
Print Assumptions C45_panics_exactly.
Print Assumptions C45_complete.
Print Assumptions C45_order.
Print Assumptions C45_acyclic.
Print Assumptions C45_driver_panics_exactly.
Print Assumptions C45_editions_refuted.
Print Assumptions C83_exact.
Print Assumptions C83_at_workspace.
Print Assumptions C83_sublist.
Print Assumptions C83_no_location.
Print Assumptions C83_other_directory_refuted.
Print Assumptions C46_names.
Print Assumptions C46_exact.
Print Assumptions C46_complete_refuted.
Print Assumptions C46_references.
Print Assumptions C46_twice_refuted.
Print Assumptions C46_twice.
Print Assumptions C84_from_directory.
Print Assumptions C84_explicit_kept.
Print Assumptions C84_consistent.
Print Assumptions C84_meant_unique.
Print Assumptions C84_order_refuted.
Print Assumptions C84_other_package_refuted.
Print Assumptions C85_exact.
Print Assumptions C85_name_refuted.
Print Assumptions C85_named_refuted.
Print Assumptions C86_no_panic.
Print Assumptions C86_all_or_problems.
Print Assumptions C86_two_packages.
Print Assumptions C86_renamed_target_refuted.
Print Assumptions C86_renamed_import_refuted.
Print Assumptions C86_collision_refuted.
