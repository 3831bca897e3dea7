From Coq Require Import Ascii String.
From Verif Require Import Base Strs Paths.
From Verif.Codegen Require Import Model Spec Proofs.
Open Scope list_scope.

(** ** C87: messages for diagnostics *)

(** A warning or error on any line but the last is shown with its line, cut
    at the range if that lies within the line. *)
Theorem C87_line content d x : single_line d -> with_context d ->
  nth_error (lines content) (line1 d) = Some x -> S (line1 d) < List.length (lines content) ->
  exists m, render content d = Shown m /\ about d m /\ shows m x /\
    (char1 d <= char2 d -> char2 d <= List.length x ->
     m_source m = Some (firstn (char1 d) x, firstn (char2 d - char1 d) (skipn (char1 d) x), skipn (char2 d) x)).
Proof.
  intros Si Cx N L. rewrite (render_context _ _ _ Si Cx N).
  replace (S (line1 d) =? _) with false by (symmetry; apply Nat.eqb_neq; lia).
  eexists. split; [reflexivity|]. split; [now repeat split|]. split.
  - pose proof (cut_all d x) as C. destruct (cut d x) as [[a b] c]. now exists a, b, c.
  - intros L1 L2. cbn [m_source]. unfold cut.
    replace (_ || _ || _)%bool with false; [reflexivity|]. symmetry. rewrite !orb_false_iff, !Nat.ltb_ge. lia.
Qed.
(** On the last line the last character is cut off, and an empty last line is a
    crash. *)
Theorem C87_last_line content d x : single_line d -> with_context d ->
  nth_error (lines content) (line1 d) = Some x -> S (line1 d) = List.length (lines content) ->
  (x = [] -> render content d = Panics) /\
  (x <> [] -> exists m, render content d = Shown m /\ about d m /\ shows m (removelast x)).
Proof.
  intros Si Cx N L. rewrite (render_context _ _ _ Si Cx N). rewrite (proj2 (Nat.eqb_eq _ _) L).
  split; [now intros ->|]. intros Nx. destruct x as [|c x]; [now elim Nx|].
  eexists. split; [reflexivity|]. split; [now repeat split|].
  pose proof (cut_all d (removelast (c :: x))) as C. destruct (cut d _) as [[a b] e]. now exists a, b, e.
Qed.
(** The rest: other diagnostics on existing lines are shown without source,
    lines that do not exist are an error, several lines are not shown at all. *)
Theorem C87_other content d :
  (~ single_line d -> render content d = Dropped) /\
  (single_line d -> List.length (lines content) <= line1 d -> render content d = Fails) /\
  (single_line d -> ~ with_context d -> line1 d < List.length (lines content) ->
     exists m, render content d = Shown m /\ about d m /\ m_source m = None).
Proof.
  split; [apply render_multi|]. split; [apply render_outside|].
  intros Si Cx L. rewrite render_plain by assumption. eexists. split; [reflexivity|]. now repeat split.
Qed.
(** Over all diagnostics: one message per single-line diagnostic, in order; the
    error flag is set exactly if there is an error. *)
Theorem C87_all ds ms err : messages ds [] false = CDone ms err ->
  Forall2 (fun cd m => about (snd cd) m) (filter (fun cd => line1 (snd cd) =? line2 (snd cd)) ds) ms /\
  (err = true <-> exists c d, In (c, d) ds /\ sev d = 1).
Proof.
  assert (G : forall ds acc e ms err, messages ds acc e = CDone ms err -> exists rest, ms = acc ++ rest /\
    Forall2 (fun cd m => about (snd cd) m) (filter (fun cd => line1 (snd cd) =? line2 (snd cd)) ds) rest /\
    (err = true <-> e = true \/ exists c d, In (c, d) ds /\ sev d = 1)).
  { clear. induction ds as [|[c d] ds IH]; intros acc e ms err; cbn [messages].
    - intros [= <- <-]. exists []. rewrite app_nil_r. split; [reflexivity|]. split; [constructor|].
      split; [now left|]. intros [->|(? & ? & [] & _)]. reflexivity.
    - assert (Er : forall acc' ms, messages ds acc' (e || (sev d =? 1))%bool = CDone ms err ->
          (err = true <-> e = true \/ exists c' d', In (c', d') ((c, d) :: ds) /\ sev d' = 1)).
      { intros acc' ms' M. destruct (IH _ _ _ _ M) as (_ & _ & _ & ->). rewrite orb_true_iff, Nat.eqb_eq. split.
        - intros [[E|E]|(c' & d' & I & E)]; [now left|right; exists c, d; split; [now left|assumption]|].
          right. exists c', d'. split; [now right|assumption].
        - intros [E|(c' & d' & [I|I] & E)]; [left; now left|injection I as <- <-; left; now right|].
          right. now exists c', d'. }
      destruct (Nat.eq_dec (line1 d) (line2 d)) as [Si|Si].
      + destruct (render c d) as [m| | |] eqn:R; try discriminate.
        * intros M. destruct (IH _ _ _ _ M) as (rest & -> & F & _). exists (m :: rest).
          split; [now rewrite <- app_assoc|]. split; [|now apply Er in M].
          cbn [filter snd]. rewrite (proj2 (Nat.eqb_eq _ _) Si). constructor; [|assumption].
          assert (L : line1 d < List.length (lines c)).
          { apply Nat.nle_gt. intros L. rewrite render_outside in R by assumption. discriminate. }
          destruct (context_dec d) as [Cx|Cx].
          -- destruct (nth_error (lines c) (line1 d)) as [x|] eqn:N; [|apply nth_error_None in N; lia].
             rewrite (render_context _ _ _ Si Cx N) in R. cbn [snd].
             revert R. destruct (S (line1 d) =? List.length (lines c)); [destruct x as [|x0 x]; [intros R; discriminate R|]|]; intros R; injection R as <-; now repeat split.
          -- rewrite render_plain in R by assumption. injection R as <-. now repeat split.
        * exfalso. unfold render in R. rewrite (proj2 (Nat.eqb_eq _ _) Si) in R. cbn [negb] in R. cbv zeta in R.
          destruct (line_start _ _); [|discriminate]. destruct (line_start _ _); [|discriminate].
          destruct (negb _); [discriminate|]. destruct (slice _ _ _); [|discriminate].
          destruct (_ || _ || _)%bool; discriminate.
      + rewrite render_multi by assumption. intros M. destruct (IH _ _ _ _ M) as (rest & -> & F & _). exists rest.
        split; [reflexivity|]. split; [|now apply Er in M].
        cbn [filter snd]. now rewrite (proj2 (Nat.eqb_neq _ _) Si). }
  intros M. destruct (G _ _ _ _ _ M) as (rest & -> & F & E). split; [exact F|].
  rewrite E. split; [intros [?|?]; [discriminate|assumption]|now right].
Qed.
Definition doc1 : bytes := b_ "syntax;" ++ [nl] ++ b_ "message".
(** Compilation does crash: an error at the end of a file that ends in a newline. *)
Theorem C87_crash_refuted : exists content d, single_line d /\ line1 d < List.length (lines content) /\
  messages [(content, d)] [] false = CPanics.
Proof.
  exists (b_ "message A {" ++ [nl]), (mkDiag 1 1 0 1 0 false (b_ "unexpected EOF")).
  split; [reflexivity|]. split; [vm_compute; repeat constructor|vm_compute; reflexivity].
Qed.
(** A diagnostic over several lines sets the error flag without a message. *)
Theorem C87_dropped_refuted : exists content d, line2 d < List.length (lines content) /\
  messages [(content, d)] [] false = CDone [] true.
Proof. exists doc1, (mkDiag 1 0 0 1 0 false (b_ "m")). split; [vm_compute; repeat constructor|vm_compute; reflexivity]. Qed.
(** The last character of a file without final newline is not shown. *)
Theorem C87_last_character_refuted : exists content d m x, nth_error (lines content) (line1 d) = Some x /\
  render content d = Shown m /\ m_source m <> None /\ ~ shows m x.
Proof.
  exists doc1, (mkDiag 1 1 0 1 7 false (b_ "m")). do 2 eexists. split; [vm_compute; reflexivity|].
  split; [vm_compute; reflexivity|]. split; [discriminate|]. intros (a & b & c & E & J). injection E as <- <- <-.
  vm_compute in J. discriminate.
Qed.
Example C87_ex : render doc1 (mkDiag 2 0 0 0 6 false (b_ "m")) =
  Shown (mkMessage 2 1 (b_ "m") (Some ([], b_ "syntax", b_ ";"))).
Proof. vm_compute. reflexivity. Qed.

(** ** C88: which files are generated *)

(** Exactly the workspace-local files for whose import directory a directory
    was recorded that has a search directory as textual prefix, in order. *)
Theorem C88_exact all local search p : In p (to_generate all local search) <->
  exists f s r, In f local /\ c_path f = p /\ In s search /\ or_empty (source_dirs all (path_dir p)) = s ++ r.
Proof.
  unfold to_generate. rewrite in_map_iff. split.
  - intros (f & <- & I). apply filter_In in I as [I E]. apply existsb_exists in E as (s & Is & E).
    apply has_prefix_spec in E as (r & E). now exists f, s, r.
  - intros (f & s & r & I & <- & Is & E). exists f. split; [reflexivity|]. apply filter_In. split; [assumption|].
    apply existsb_exists. exists s. split; [assumption|]. apply has_prefix_spec. now exists r.
Qed.
(** A file below a search directory is generated, if its import directory is
    one directory on disk and the search directory is written without
    trailing slash. *)
Theorem C88_below all local search f x s r : one_place all -> incl local all -> In f local -> c_disk f = Some x ->
  path_dir x = abs (s ++ r) -> In (abs s) search -> In (c_path f) (to_generate all local search).
Proof.
  intros O Inc I D P Is. apply C88_exact.
  rewrite (source_dirs_place _ _ _ O (Inc _ I) D). cbn [or_empty]. rewrite P.
  pose proof (abs_prefix s r) as H. apply has_prefix_spec in H as (t & E). exists f, (abs s), t. now repeat split.
Qed.
(** The same for a search directory given relative to the working directory. *)
Theorem C88_below_relative all local search f x w s r : one_place all -> incl local all -> In f local -> c_disk f = Some x ->
  Forall normal w -> Forall normal s -> s <> [] ->
  path_dir x = abs (w ++ s ++ r) -> In (search_dir (abs w) (rel s)) search -> In (c_path f) (to_generate all local search).
Proof.
  intros O Inc I D Nw Ns Ne P Is. apply (C88_below all local search f x (w ++ s) r O Inc I D).
  - now rewrite <- app_assoc.
  - unfold search_dir in Is. rewrite rooted_rel in Is by exact Ns. now rewrite join_abs in Is.
Qed.
(** A file beside the search directory is generated too if its directory's
    name merely begins with the search directory's. *)
Theorem C88_neighbour_refuted : exists all local search f x, one_place all /\ incl local all /\ In f local /\ c_disk f = Some x /\
  search = [abs [b_ "w"; b_ "api"]] /\ path_dir x = abs [b_ "w"; b_ "apiv2"] /\ In (c_path f) (to_generate all local search).
Proof.
  set (f := mkCfile (b_ "apiv2/b.proto") (Some (b_ "/w/apiv2/b.proto"))).
  exists [f], [f], [abs [b_ "w"; b_ "api"]], f, (b_ "/w/apiv2/b.proto"). split.
  - intros a b d e [<-|[]] [<-|[]] E1 E2 _. congruence.
  - split; [apply incl_refl|]. split; [now left|]. split; [reflexivity|]. split; [reflexivity|].
    split; [vm_compute; reflexivity|]. vm_compute. now left.
Qed.
(** Nothing is generated for an absolute search directory with a trailing slash. *)
Theorem C88_trailing_slash_refuted : exists all f x wd d, c_disk f = Some x /\ all = [f] /\ path_dir x = path_clean d /\
  to_generate all all [search_dir wd d] = [].
Proof.
  set (f := mkCfile (b_ "api/b.proto") (Some (b_ "/w/api/b.proto"))).
  exists [f], f, (b_ "/w/api/b.proto"), (b_ "/w"), (b_ "/w/api/"). repeat split; vm_compute; reflexivity.
Qed.
(** Two files of one import directory in different places: the place of the
    last decides for both. *)
Theorem C88_two_places_refuted : exists f g s, c_disk f = Some (s ++ b_ "/b.proto") /\
  In (c_path f) (to_generate [g; f] [f] [s]) /\ ~ In (c_path f) (to_generate [f; g] [f] [s]).
Proof.
  exists (mkCfile (b_ "api/b.proto") (Some (b_ "/w/b.proto"))), (mkCfile (b_ "api/c.proto") (Some (b_ "/v/c.proto"))), (b_ "/w").
  split; [reflexivity|]. split; [vm_compute; now left|vm_compute; easy].
Qed.
Example C88_ex : to_generate [mkCfile (b_ "api/b.proto") (Some (b_ "/w/api/b.proto")); mkCfile (b_ "x/c.proto") (Some (b_ "/w/x/c.proto"))]
  [mkCfile (b_ "api/b.proto") (Some (b_ "/w/api/b.proto")); mkCfile (b_ "x/c.proto") (Some (b_ "/w/x/c.proto"))] [search_dir (b_ "/w") (b_ "api")] = [b_ "api/b.proto"].
Proof. vm_compute. reflexivity. Qed.

(** ** C89: where outputs go *)

(** An output named after the import directory of a source file is placed in
    the directory of that file. *)
Theorem C89_beside_source all f x name : one_place all -> In f all -> c_disk f = Some x -> ~ In slash name ->
  output_path (source_dirs all) (path_dir (c_path f) ++ slash :: name) = path_join (path_dir x) name.
Proof.
  intros O I D N. unfold output_path. rewrite cut_last_split by assumption.
  rewrite trim_slash_snoc, (source_dirs_place _ _ _ O I D). reflexivity.
Qed.
Theorem C89_absolute all f cs file name : one_place all -> In f all -> c_disk f = Some (abs (cs ++ [file])) ->
  Forall normal cs -> normal file -> normal name ->
  output_path (source_dirs all) (path_dir (c_path f) ++ slash :: name) = abs (cs ++ [name]).
Proof.
  intros O I D N Nf Nn. rewrite (C89_beside_source _ _ _ _ O I D) by now apply normal_slash.
  rewrite dir_abs; [|assumption|now apply normal_slash].
  change name with (rel [name]) at 1. apply join_abs; [discriminate|assumption|now constructor].
Qed.
(** Always: an output in a known directory goes to the directory of a source. *)
Theorem C89_known all d name : ~ In slash name -> source_dirs all d <> None ->
  exists f x, In f all /\ c_disk f = Some x /\ path_dir (c_path f) = d /\
    output_path (source_dirs all) (d ++ slash :: name) = path_join (path_dir x) name.
Proof.
  intros N K. destruct (source_dirs all d) as [e|] eqn:E; [|now elim K].
  destruct (source_dirs_some _ _ _ E) as (f & x & I & D & P & ->). exists f, x. repeat split; try assumption.
  unfold output_path. rewrite cut_last_split by assumption. now rewrite trim_slash_snoc, E.
Qed.
(** The output of a package that no source belongs to is written below the current directory, in the directory of its name, or of what
    follows the first "google/" in it. *)
Theorem C89_unknown all d name : ~ In slash name -> source_dirs all d = None -> exists dir,
  output_path (source_dirs all) (d ++ slash :: name) = path_join dir name /\
  ((dir = d /\ forall a b, d <> a ++ b_ "google/" ++ b) \/
   exists a b, d = a ++ b_ "google/" ++ b /\ dir = b_ "google/" ++ b /\ forall a' b', d = a' ++ b_ "google/" ++ b' -> List.length a <= List.length a').
Proof.
  intros N E. unfold output_path. rewrite cut_last_split by assumption. rewrite trim_slash_snoc, E. eexists. split; [reflexivity|].
  destruct (from_first (b_ "google/") d) as [r|] eqn:F.
  - right. apply from_first_some in F as (a & b & H & -> & L). now exists a, b.
  - left. split; [reflexivity|]. now apply from_first_none.
Qed.
Example C89_unknown_case : output_path (source_dirs []) (b_ "github.com/google/cel/a.pb.go") = b_ "google/cel/a.pb.go".
Proof. reflexivity. Qed.
(** Other outputs get a path relative to the current directory: with a
    go_package that differs from the import directory, and for files without
    directory. *)
Theorem C89_unknown_refuted : exists all f x, all = [f] /\ c_disk f = Some x /\
  output_path (source_dirs all) (b_ "example.com/other/b.pb.go") = b_ "example.com/other/b.pb.go".
Proof.
  set (f := mkCfile (b_ "example.com/api/b.proto") (Some (b_ "/w/api/b.proto"))).
  exists [f], f, (b_ "/w/api/b.proto"). repeat split; vm_compute; reflexivity.
Qed.
Theorem C89_top_level_refuted : exists all f x, all = [f] /\ c_disk f = Some x /\ c_path f = b_ "b.proto" /\
  path_dir x = b_ "/w/src" /\ output_path (source_dirs all) (b_ "b.pb.go") = b_ "b.pb.go".
Proof.
  set (f := mkCfile (b_ "b.proto") (Some (b_ "/w/src/b.proto"))).
  exists [f], f, (b_ "/w/src/b.proto"). repeat split; vm_compute; reflexivity.
Qed.
Example C89_ex : let f := mkCfile (b_ "example.com/api/b.proto") (Some (b_ "/w/api/b.proto")) in
  output_path (source_dirs [f]) (b_ "example.com/api/b.pb.go") = b_ "/w/api/b.pb.go" /\ one_place [f].
Proof.
  split; [vm_compute; reflexivity|]. intros a b d e [<-|[]] [<-|[]] E1 E2 _. congruence.
Qed.

(** ** C90: generated files as readers *)

(** A single read into a large enough buffer gives the content, and into any other as much of it as fits. *)
Theorem C90_single content size : snd (read content size) = false /\
  exists rest, content = fst (read content size) ++ rest /\ List.length (fst (read content size)) = Nat.min size (List.length content).
Proof. split; [reflexivity|]. exists (skipn size content). split; [symmetry; apply firstn_skipn|apply firstn_length]. Qed.
Example C90_single_case : fst (read (b_ "package a") 7) = b_ "package".
Proof. reflexivity. Qed.
(** Every read starts at the beginning again and the end is never reported:
    reading to the end never finishes, for no content. *)
Theorem C90_never_ends content sizes fuel got : read_all (read content) sizes fuel got = None.
Proof. apply read_all_never. Qed.
Theorem C90_reader_refuted : exists content, content <> [] /\ ~ delivers (read content) content.
Proof.
  exists (b_ "package a"). split; [vm_compute; discriminate|]. intros D.
  destruct (D (fun _ => 1)) as (fuel & E); [lia|]. now rewrite read_all_never in E.
Qed.
(** The notion is satisfiable: a reader that reports the end. *)
Example C90_ex : delivers (fun _ => (b_ "abc", true)) (b_ "abc").
Proof. intros sizes _. exists 1. reflexivity. Qed.

(** ** C91: external plugins *)

(** With a plugin that reads its input before it answers, every execution
    ends, no state is stuck, and the answer is complete - whatever the
    capacity of the pipes. *)
Theorem C91_batch f cap req s : 0 < cap -> steps (batch f) cap (start req (Collect [])) s ->
  (over s \/ exists t, step (batch f) cap s t) /\ Acc (fun t s => step (batch f) cap s t) s /\
  (over s -> h s = Finished (f req)).
Proof.
  intros pos St. pose proof (inv_steps f cap req _ _ (inv_start f req) St) as I.
  split; [now apply (progress f cap pos req)|]. split; [now apply (batch_ends f cap pos req)|].
  unfold inv, over in *. destruct (h s), (pl s) as [|[|]]; try easy. now subst.
Qed.
(** A plugin that answers while it reads blocks forever on a large request. *)
Theorem C91_streaming_refuted : exists req s, forall cap, 0 < cap ->
  exists t, steps echo cap (start (req cap) s) t /\ ~ over t /\ forall u, ~ step echo cap t u.
Proof.
  exists (fun cap => repeat "x"%char (2 * cap + 2)), Wait. intros cap. apply echo_deadlock.
Qed.
Example C91_ex : exists s, steps (batch (fun r => rev r)) 1 (start [ "a"%char ] (Collect [])) s /\ h s = Finished ["a"%char].
Proof.
  eexists. split.
  - eapply steps_more; [apply host_write; [cbn; lia|discriminate]|].
    eapply steps_more; [eapply plugin_read; reflexivity|].
    eapply steps_more; [apply host_close|].
    eapply steps_more; [eapply plugin_eof; reflexivity|].
    eapply steps_more; [eapply plugin_write; [reflexivity|cbn; lia]|].
    eapply steps_more; [apply host_read|].
    eapply steps_more; [apply host_eof; reflexivity|]. apply steps_refl.
  - reflexivity.
Qed.

(** ** C92: searching for sources *)

(** Exactly the .proto files in whose directories no marker comes first. *)
Theorem C92_exact path n t q : In q (fst (walk path n t)) <-> exists p, q = path ++ p /\ visible n t p.
Proof. apply walk_exact. Qed.
(** Without markers: all .proto files outside of the special directories. *)
Theorem C92_unmarked path n t q : unmarked t -> (In q (fst (walk path n t)) <-> exists p, q = path ++ p /\ source n t p).
Proof.
  intros U. rewrite walk_exact. split; intros (p & E & H); exists p; (split; [assumption|]).
  - now apply visible_source.
  - now apply source_visible.
Qed.
(** Always: nothing else, and each once. *)
Theorem C92_sound path n t q : In q (fst (walk path n t)) -> exists p, q = path ++ p /\ source n t p.
Proof. rewrite walk_exact. intros (p & E & H). exists p. split; [assumption|now apply visible_source]. Qed.
Theorem C92_once path n t : distinct t -> NoDup (fst (walk path n t)).
Proof. intros D. now apply walk_once. Qed.
(** A marked directory is not excluded: what sorts before the marker is found. *)
Theorem C92_marker_refuted : exists es p, In (mark, File) es /\ es = [(b_ "A.proto", File); (mark, File); (b_ "b.proto", File)] /\
  In p (fst (walk [] (b_ "src") (Dir es))).
Proof.
  eexists. exists [b_ "src"; b_ "A.proto"]. split; [|split; [reflexivity|]].
  - right. left. reflexivity.
  - vm_compute. left. reflexivity.
Qed.
(** Overlapping directories give a file twice, a missing one is a crash, and a
    directory called vendor gives nothing even if it is asked for. *)
Definition ex_tree := Dir [(b_ "a", Dir [(b_ "x.proto", File)])].
Theorem C92_overlap_refuted : exists roots fs, search_dirs roots = Some fs /\ ~ NoDup fs.
Proof.
  exists [([], b_ "w", Some ex_tree); ([b_ "w"], b_ "a", Some (Dir [(b_ "x.proto", File)]))]. eexists.
  split; [vm_compute; reflexivity|]. intros N. inversion N as [|? ? H _]; subst. apply H. now left.
Qed.
Theorem C92_missing_refuted : exists roots, search_dirs roots = None.
Proof. now exists [([], b_ "w", None)]. Qed.
Theorem C92_vendor_refuted : exists t, source (b_ "w") t [b_ "w"; b_ "x.proto"] /\ search_dirs [([], b_ "vendor", Some t)] = Some [].
Proof.
  exists (Dir [(b_ "x.proto", File)]). split; [|vm_compute; reflexivity].
  econstructor; [|left; reflexivity|].
  - intros [E|[E|[r E]]]; discriminate.
  - constructor. now exists (b_ "x").
Qed.
Example C92_ex : search_dirs [([b_ "home"], b_ "w", Some (Dir [(b_ "a.proto", File); (b_ "node_modules", Dir [(b_ "b.proto", File)]);
  (b_ "s", Dir [(b_ "c.proto", File); (b_ "d.go", File)])]))] = Some [[b_ "home"; b_ "w"; b_ "a.proto"]; [b_ "home"; b_ "w"; b_ "s"; b_ "c.proto"]].
Proof. vm_compute. reflexivity. Qed.
Print Assumptions C87_line.
Print Assumptions C87_last_line.
Print Assumptions C87_other.
Print Assumptions C87_all.
Print Assumptions C87_crash_refuted.
Print Assumptions C87_dropped_refuted.
Print Assumptions C87_last_character_refuted.
Print Assumptions C88_exact.
Print Assumptions C88_below.
Print Assumptions C88_neighbour_refuted.
Print Assumptions C88_trailing_slash_refuted.
Print Assumptions C88_two_places_refuted.
Print Assumptions C89_beside_source.
Print Assumptions C89_absolute.
Print Assumptions C89_known.
Print Assumptions C89_unknown.
Print Assumptions C89_unknown_refuted.
Print Assumptions C89_top_level_refuted.
Print Assumptions C90_single.
Print Assumptions C90_never_ends.
Print Assumptions C90_reader_refuted.
Print Assumptions C91_batch.
Print Assumptions C91_streaming_refuted.
Print Assumptions C92_exact.
Print Assumptions C92_unmarked.
Print Assumptions C92_sound.
Print Assumptions C92_once.
Print Assumptions C92_marker_refuted.
Print Assumptions C92_overlap_refuted.
Print Assumptions C92_missing_refuted.
Print Assumptions C92_vendor_refuted.
