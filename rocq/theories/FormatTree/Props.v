(* C110-C112: the formatter writes back the file it was given.
   The model is FormatTree/Model.v (pkg/format/formatter.go and column_format.go on syntax trees),
   the lexical grammar and the spellings of a tree are in FormatTree/Spec.v. *)
From Coq Require Import Ascii String Permutation.
From Verif Require Import Base Strs.
From Verif.Format Require Import Model Spec Proofs.
From Verif.FormatTree Require Import CommentSpec Comments BalanceSpec Balance Model Spec Lexing Proofs Words Samples Wf.
Import ListNotations.
Open Scope list_scope.

(* C110.  Full statement: the text the formatter writes for a file reads as the same file: its words
   are a spelling of the declarations that were parsed, in their order, with file options and imports
   moved to the front and repeated imports removed.
   Missing: file_ok leaves out trees the formatter does not write back (an unlabelled field whose type
   starts with a dot, an option list on one line in which a string of several literals is not last,
   a list over several lines whose last option is such a string without a comma, more than one
   package) and lists directly inside lists. *)
Theorem C110_words_partial dec isort osort f :
  (forall l, Permutation (isort l) l) -> (forall l, Permutation (osort l) l) -> file_ok f ->
  let text := out (format dec isort osort f) in
  complete text /\
  exists is wsyn wpkg wimp wopt wty,
    sp_syntax (f_syntax f) wsyn /\ sp_list sp_package (packages (f_decls f)) wpkg /\
    deduped None (isort (imports (f_decls f))) is /\ sp_list sp_import is wimp /\
    sp_list sp_option (osort (options (f_decls f))) wopt /\ sp_decls (types (f_decls f)) wty /\
    words_of text = wsyn ++ wpkg ++ wimp ++ wopt ++ wty.
Proof.
  intros Pi Po O. destruct (file_write dec isort osort Pi Po f O) as (l & w1 & w2 & w3 & w4 & w5 & S1 & S2 & D & S3 & S4 & S5 & h).
  destruct (h start eq_refl eq_refl) as (I & W & _ & _). split.
  - unfold complete. change (fst (lrun S0 (out (format dec isort osort f)))) with (st (write_file dec isort osort f start)). rewrite I. exact Logic.I.
  - exists l, w1, w2, w3, w4, w5. do 6 (split; [assumption|]). exact W.
Qed.
(* The same without the grammar: apart from separators and brackets, the words of the output are the
   tokens of the source, declaration by declaration, and every file stays imported. *)
Theorem C110_tokens_partial dec isort osort f :
  (forall l, Permutation (isort l) l) -> (forall l, Permutation (osort l) l) -> file_ok f ->
  exists is, incl is (imports (f_decls f)) /\
    (forall i, In i (imports (f_decls f)) -> In (i_path i) (map i_path is)) /\
    core (words_of (out (format dec isort osort f))) =
    core (map wtext (syntax_toks (f_syntax f) ++ flat_map fdecl_toks (packages (f_decls f)) ++ flat_map import_toks is ++
                     flat_map opt_node_toks (osort (options (f_decls f))) ++ flat_map decl_toks (types (f_decls f)))).
Proof.
  intros Pi Po O. destruct (C110_words_partial dec isort osort f Pi Po O) as (_ & is & w1 & w2 & w3 & w4 & w5 & S1 & S2 & D & S3 & S4 & S5 & W).
  destruct O as (Os & Od & _). pose proof (forall_imports _ Od) as Oi. pose proof (forall_options _ Od) as Oo. exists is. split; [|split].
  - intros i I. apply (Permutation_in _ (Pi _)). exact (deduped_incl _ _ _ D i I).
  - intros i I. destruct (deduped_paths _ _ _ D i) as [E|J]; [apply (Permutation_in _ (Permutation_sym (Pi _))); exact I|discriminate|exact J].
  - rewrite W. change (core (map wtext ?l)) with (wt l). rewrite !core_app, !wt_app. f_equal; [exact (core_syntax _ _ S1 Os)|].
    f_equal; [apply (core_list sp_package fdecl_ok fdecl_toks _ _ core_package S2); apply incl_Forall with (l1 := f_decls f); [apply incl_filter|exact Od]|].
    f_equal; [apply (core_list sp_import import_ok import_toks _ _ core_import S3); eapply incl_Forall; [exact (deduped_incl _ _ _ D)|exact (Permutation_Forall (Permutation_sym (Pi _)) Oi)]|].
    f_equal; [apply (core_list sp_option keyword_option_ok opt_node_toks _ _ core_option S4); exact (Permutation_Forall (Permutation_sym (Po _)) Oo)|].
    apply (proj2 core_decl_all _ _ S5). now apply fdecls_types.
Qed.
(* A file whose output has other words than the source: the leading dot of a field type is written
   twice, so the output is not a proto file any more (formatter.go:1655-1668). *)
Theorem C110_leading_dot_refuted : exists text f,
  source_of text f /\ crash (format exact_dec (fun l => l) (fun l => l) f) = false /\
  core (words_of (out (format exact_dec (fun l => l) (fun l => l) f))) <> core (words_of text).
Proof. exists leading_dot_text, leading_dot_file. vm_compute. repeat split. discriminate. Qed.
(* Options are lost: the list on one line ends after a string of several literals (1343-1371). *)
Theorem C110_dropped_option_refuted : exists text f w,
  source_of text f /\ In w (core (words_of text)) /\ ~ In w (core (words_of (out (format exact_dec (fun l => l) (fun l => l) f)))).
Proof.
  exists dropped_option_text, dropped_option_file, (b_ "deprecated"). vm_compute. repeat split; [tauto|]. intro I. repeat destruct I as [I|I]; discriminate || exact I.
Qed.
(* Of two package declarations the first is lost (262-351). *)
Theorem C110_two_packages_refuted : exists text f w,
  source_of text f /\ In w (core (words_of text)) /\ ~ In w (core (words_of (out (format exact_dec (fun l => l) (fun l => l) f)))).
Proof.
  exists two_packages_text, two_packages_file, (b_ "a"). vm_compute. repeat split; [tauto|]. intro I. repeat destruct I as [I|I]; discriminate || exact I.
Qed.

(* C111.  Full statement: formatting a file without syntax errors ends without a crash and without an
   error.  Missing: the trees file_ok leaves out, and errors (C111_error_refuted). *)
Theorem C111_no_crash_partial dec isort osort f :
  (forall l, Permutation (isort l) l) -> (forall l, Permutation (osort l) l) -> file_ok f ->
  crash (format dec isort osort f) = false.
Proof.
  intros Pi Po O. destruct (file_write dec isort osort Pi Po f O) as (l & w1 & w2 & w3 & w4 & w5 & _ & _ & _ & _ & _ & _ & h).
  exact (proj2 (proj2 (proj2 (h start eq_refl eq_refl)))).
Qed.
(* The last option of a list over several lines is a string of several literals: the comma that is
   not there is dereferenced (column_format.go:385-396). *)
Theorem C111_crash_refuted : exists text f, source_of text f /\ crash (format exact_dec (fun l => l) (fun l => l) f) = true.
Proof. exists compound_last_text, compound_last_file. vm_compute. repeat split. Qed.
(* Strings of several literals inside a message literal on one line lower the indentation more often
   than they raise it, and the formatter reports an error although the file is valid. *)
Theorem C111_error_refuted : exists text f, source_of text f /\ file_ok f /\ err (format exact_dec (fun l => l) (fun l => l) f) = true.
Proof.
  exists unbalanced_text, unbalanced_file. split; [vm_compute; repeat split|split; [unfold unbalanced_file; filew|vm_compute; reflexivity]].
Qed.
(* The same happens without strings, when two literals inside one that is on one line start their
   lines at different depths. *)
Theorem C111_uneven_refuted : exists text f, source_of text f /\ file_ok f /\ err (format exact_dec (fun l => l) (fun l => l) f) = true.
Proof.
  exists uneven_text, uneven_file. split; [vm_compute; repeat split|split; [unfold uneven_file; filew|vm_compute; reflexivity]].
Qed.
(* There is no other way to an error: it is not reported for files whose literals break into lines
   evenly (neat_file, BalanceSpec.v), and the indentation is back at the margin at their end.
   Missing: neat_file also leaves out one-line lists with comments or blank lines between the values. *)
Theorem C111_no_error_partial dec isort osort f :
  (forall l, Permutation (isort l) l) -> (forall l, Permutation (osort l) l) -> file_ok f -> neat_file f ->
  err (format dec isort osort f) = false /\ indent (format dec isort osort f) = 0.
Proof. exact (no_error dec isort osort f). Qed.

(* C112.  Full statement: every comment of the source is in the output, once.
   It holds of the comments outside the places listed in CommentSpec.v (file_lost): the text contains
   a comment with the same content.  Missing: at these places comments may be lost, as the
   refutations show, and a comment may be written more than once. *)
Theorem C112_comments_kept_partial : forall dec isort osort f c,
  (forall l, Permutation (isort l) l) -> (forall l, Permutation (osort l) l) -> file_ok f ->
  In c (file_comments f) -> comment_ok c -> c_virtual c = false ->
  shown (c_text c) (out (format dec isort osort f)) \/ In c (file_lost f).
Proof. exact comments_kept. Qed.
(* The comments inside the braces of a method without options, and those around an empty
   declaration, are lost. *)
Theorem C112_method_comment_refuted : exists text f,
  source_of text f /\ file_ok f /\ comments_of text <> [] /\
  comments_of (out (format exact_dec (fun l => l) (fun l => l) f)) = [].
Proof.
  exists rpc_comment_text, rpc_comment_file.
  split; [vm_compute; repeat split|split; [unfold rpc_comment_file; filew|split; [vm_compute; discriminate|vm_compute; reflexivity]]].
Qed.
Theorem C112_empty_comment_refuted : exists text f,
  source_of text f /\ file_ok f /\ comments_of text <> [] /\
  comments_of (out (format exact_dec (fun l => l) (fun l => l) f)) = [].
Proof.
  exists empty_comment_text, empty_comment_file.
  split; [vm_compute; repeat split|split; [unfold empty_comment_file; filew|split; [vm_compute; discriminate|vm_compute; reflexivity]]].
Qed.

(* The comment after a method without options. *)
Theorem C112_method_end_refuted : exists text f,
  source_of text f /\ file_ok f /\ comments_of text <> [] /\
  comments_of (out (format exact_dec (fun l => l) (fun l => l) f)) = [].
Proof.
  exists rpc_semi_text, rpc_semi_file.
  split; [vm_compute; repeat split|split; [unfold rpc_semi_file; filew|split; [vm_compute; discriminate|vm_compute; reflexivity]]].
Qed.
(* The comment after a semicolon that follows a closing brace. *)
Theorem C112_brace_end_refuted : exists text f,
  source_of text f /\ file_ok f /\ comments_of text <> [] /\
  comments_of (out (format exact_dec (fun l => l) (fun l => l) f)) = [].
Proof.
  exists brace_semi_text, brace_semi_file.
  split; [vm_compute; repeat split|split; [unfold brace_semi_file; filew|split; [vm_compute; discriminate|vm_compute; reflexivity]]].
Qed.
(* The comment after the value of an option. *)
Theorem C112_option_value_refuted : exists text f,
  source_of text f /\ file_ok f /\ comments_of text <> [] /\
  comments_of (out (format exact_dec (fun l => l) (fun l => l) f)) = [].
Proof.
  exists option_value_text, option_value_file.
  split; [vm_compute; repeat split|split; [unfold option_value_file; filew|split; [vm_compute; discriminate|vm_compute; reflexivity]]].
Qed.
(* The comment after a dot in the name of an option. *)
Theorem C112_option_dot_refuted : exists text f,
  source_of text f /\ file_ok f /\ comments_of text <> [] /\
  comments_of (out (format exact_dec (fun l => l) (fun l => l) f)) = [].
Proof.
  exists option_dot_text, option_dot_file.
  split; [vm_compute; repeat split|split; [unfold option_dot_file; filew|split; [vm_compute; discriminate|vm_compute; reflexivity]]].
Qed.
(* A comment after the name of an option in a list over several lines is written twice, so the file
   grows every time it is formatted. *)
Theorem C112_doubled_refuted : exists text f f2, let formatted f := out (format exact_dec (fun l => l) (fun l => l) f) in
  source_of text f /\ file_ok f /\ source_of (formatted f) f2 /\ file_ok f2 /\
  List.length (comments_of text) < List.length (comments_of (formatted f)) < List.length (comments_of (formatted f2)).
Proof.
  exists doubled_text, doubled_file, doubled_again_file. cbv zeta.
  split; [vm_compute; repeat split|]. split; [unfold doubled_file; filew|]. split; [vm_compute; repeat split|]. split; [unfold doubled_again_file; filew|].
  vm_compute. lia.
Qed.

(* A file with most of the grammar meets the hypotheses, and so does its text. *)
Example C110_case : source_of whole_text whole_file /\ file_ok whole_file /\
  List.length (words_of (out (format exact_dec (fun l => l) (fun l => l) whole_file))) = 192.
Proof. split; [vm_compute; repeat split|split; [unfold whole_file; filew|vm_compute; reflexivity]]. Qed.
Example C111_case : let r := format exact_dec (fun l => l) (fun l => l) whole_file in crash r = false /\ err r = false.
Proof. vm_compute. split; reflexivity. Qed.
Ltac levelw := let x := fresh in let y := fresh in let X := fresh in let Y := fresh in
  intros x y X Y; cbv in X, Y; intuition congruence.
Ltac barew := split; [reflexivity|vm_compute; repeat constructor].
Ltac neatw := match goal with
  | |- _ /\ _ => split; neatw
  | |- True => exact I
  | |- level _ => levelw
  | |- bare _ => barew
  | |- _ -> _ => let E := fresh in intro E; first [discriminate E|neatw]
  | |- Forall ?P ?l => let l' := eval hnf in l in change (Forall P l'); constructor; neatw
  | |- _ = _ => reflexivity
  | |- ?g => let h := eval hnf in g in change h; neatw
  end.
Example C111_even_case : file_ok even_file /\ neat_file even_file /\ file_ok whole_file /\ neat_file whole_file.
Proof. split; [unfold even_file; filew|split; [unfold even_file; neatw|split; [unfold whole_file; filew|unfold whole_file; neatw]]]. Qed.
Example C112_case : source_of commented_text commented_file /\
  comments_of (out (format exact_dec (fun l => l) (fun l => l) commented_file)) = comments_of commented_text.
Proof. vm_compute. repeat split. Qed.
(* Comments almost everywhere, of which one may be lost. *)
Example C112_kept_case : source_of lossy_text lossy_file /\ file_ok lossy_file /\ List.length (file_comments lossy_file) = 11 /\
  map c_text (file_lost lossy_file) = [b_ "// gone"] /\ Forall comment_ok (file_comments lossy_file) /\
  forallb (fun c => negb (c_virtual c)) (file_comments lossy_file) = true.
Proof.
  split; [vm_compute; repeat split|]. split; [unfold lossy_file; filew|]. split; [vm_compute; reflexivity|]. split; [vm_compute; reflexivity|]. split; [|vm_compute; reflexivity].
  let l := eval vm_compute in (file_comments lossy_file) in change (Forall comment_ok l). repeat (constructor; [coms1|]). constructor.
Qed.
Print Assumptions C110_words_partial.
Print Assumptions C110_tokens_partial.
Print Assumptions C110_leading_dot_refuted.
Print Assumptions C110_dropped_option_refuted.
Print Assumptions C110_two_packages_refuted.
Print Assumptions C111_no_crash_partial.
Print Assumptions C111_crash_refuted.
Print Assumptions C111_error_refuted.
Print Assumptions C111_uneven_refuted.
Print Assumptions C111_no_error_partial.
Print Assumptions C112_method_comment_refuted.
Print Assumptions C112_empty_comment_refuted.
Print Assumptions C112_comments_kept_partial.
Print Assumptions C112_method_end_refuted.
Print Assumptions C112_brace_end_refuted.
Print Assumptions C112_option_value_refuted.
Print Assumptions C112_option_dot_refuted.
Print Assumptions C112_doubled_refuted.
