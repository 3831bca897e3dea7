(* C33-C36 and C62, C63: the text-level parts of the formatter. *)
From Coq Require Import List Arith Bool Lia Ascii String NArith Permutation Sorted.
From Verif Require Import Base Strs.
From Verif.Completion Require Import Model Proofs.
From Verif.Format Require Import Model Spec Proofs.
Import ListNotations.
Open Scope list_scope.

(* ---- C33: column alignment ---- *)
Theorem C33_segments_partition : forall dec fs, grouping (split_fields dec fs) fs.
Proof.
  intros dec fs. split.
  - apply (split_loop_concat dec fs [] [] 0).
  - intros HN. apply (split_loop_nonempty dec fs [] [] 0); [auto|exact HN].
Qed.
Print Assumptions C33_segments_partition.

(* Alignment never panics, keeps all pieces in order, separates them, and aligns each group. *)
Theorem C33_columns_written : forall dec fs,
  exists groups liness, write_columns dec fs = Some (List.concat (List.concat liness)) /\
    grouping groups fs /\
    Forall2 (fun g lines => exists ct cf ce, Forall2 (aligned_line ct cf ce) g lines) groups liness.
Proof.
  intros dec fs. destruct (write_blocks_ok (split_fields dec fs)) as (ll & E & HF).
  exists (split_fields dec fs), ll. split; [exact E|]. split; [apply C33_segments_partition|exact HF].
Qed.
Print Assumptions C33_columns_written.

Definition fld t n e l := {| ctx := b_ "  "; typeName := b_ t; fieldName := b_ n; equalsTag := b_ e; lineEnd := b_ l |}.
Example C33_example :
  write_columns (fun _ _ => false) [fld "string" "a" "= 1" ";"; fld "int32" "name" "= 10" " [deprecated = true];"]
  = Some (b_ "  string a    = 1;  int32  name = 10 [deprecated = true];").
Proof. reflexivity. Qed.
Definition long_name : bytes := repeat "a"%char 70.
Example C33_split_example :
  map (@List.length _) (split_fields (fun _ s => 30 <? s)
    [fld "string" "a" "= 1" ";"; {| ctx := []; typeName := b_ "string"; fieldName := long_name; equalsTag := b_ "= 2"; lineEnd := b_ ";" |}])
  = [1; 1].
Proof. reflexivity. Qed.

(* ---- C34: imports ---- *)
(* For any order sort.Slice may produce (a permutation in ascending order of name and modifier). *)
Theorem C34_imported_files_kept : forall l sorted, Permutation l sorted -> StronglySorted import_le sorted ->
  (forall n, In n (map iname (write_imports sorted)) <-> In n (map iname l)) /\
  StronglySorted import_le (write_imports sorted) /\
  (forall i, In i (write_imports sorted) -> In i l) /\
  (forall i, In i l -> icommented i = true -> In i (write_imports sorted)).
Proof.
  intros l sorted HP HS. split; [|split; [|split]].
  - intro n. split; intro H.
    + apply in_map_iff in H. destruct H as (i & <- & Hi). apply dedupe_in in Hi. apply in_map.
      apply (Permutation_in _ (Permutation_sym HP)). exact Hi.
    + apply (Permutation_in _ (Permutation_map iname HP)) in H.
      destruct (dedupe_names sorted None n H) as [E|E]; [discriminate|exact E].
  - apply dedupe_sorted. exact HS.
  - intros i Hi. apply dedupe_in in Hi. apply (Permutation_in _ (Permutation_sym HP)). exact Hi.
  - intros i Hi Hc. apply dedupe_commented; [|exact Hc]. apply (Permutation_in _ HP). exact Hi.
Qed.
Print Assumptions C34_imported_files_kept.

(* Without comments every file is imported once, with the strongest of its modifiers in the order
   plain, public, weak; so nothing changes if no file is imported twice. *)
Theorem C34_each_once_partial : forall l sorted, Permutation l sorted -> StronglySorted import_le sorted ->
  (forall i, In i l -> icommented i = false) ->
  NoDup (map iname (write_imports sorted)) /\
  (forall i j, In i (write_imports sorted) -> In j l -> iname j = iname i -> import_order j <= import_order i).
Proof.
  intros l sorted HP HS HC. split.
  - apply dedupe_nodup; [exact HS|]. intros i Hi. apply HC. apply (Permutation_in _ (Permutation_sym HP)). exact Hi.
  - intros i j Hi Hj E. refine (dedupe_first sorted None i HS Hi _ j (Permutation_in _ HP Hj) E).
    apply HC. apply (Permutation_in _ (Permutation_sym HP)). exact (dedupe_in _ _ _ Hi).
Qed.
Print Assumptions C34_each_once_partial.

Theorem C34_distinct_imports_kept : forall l sorted, Permutation l sorted -> NoDup (map iname l) ->
  Permutation l (write_imports sorted).
Proof.
  intros l sorted HP HN. unfold write_imports. rewrite dedupe_distinct; [exact HP| |discriminate].
  apply (Permutation_NoDup (Permutation_map iname HP)). exact HN.
Qed.
Print Assumptions C34_distinct_imports_kept.

(* The comparison function is not a strict order (two equal uncommented imports are each less than
   the other), yet insertion sort, which sort.Slice uses for up to 12 elements, does what the
   theorems above assume. *)
Theorem C34_insertion_sorts : forall l,
  Permutation l (insertion_sort import_less l) /\ StronglySorted import_le (insertion_sort import_less l).
Proof.
  intro l. split; [symmetry; apply insertion_sort_perm|].
  apply insertion_sort_sorted; [apply import_less_le|apply import_not_less|apply import_le_trans].
Qed.
Print Assumptions C34_insertion_sorts.

Definition imp n m c := {| iname := b_ n; imd := m; icommented := c |}.
Theorem C34_modifier_kept_refuted : exists l,
  (forall i, In i l -> icommented i = false) /\
  (exists i, In i l /\ imd i = IPublic) /\ forall i, In i (write_imports (insertion_sort import_less l)) -> imd i <> IPublic.
Proof.
  exists [imp "a.proto" IPlain false; imp "a.proto" IPublic false]. split; [|split].
  - intros i [<-|[<-|[]]]; reflexivity.
  - eexists. split; [right; left; reflexivity|reflexivity].
  - intros i Hi. vm_compute in Hi. destruct Hi as [<-|[]]. discriminate.
Qed.
Print Assumptions C34_modifier_kept_refuted.
Theorem C34_commented_once_refuted : exists l, ~ NoDup (map iname (write_imports (insertion_sort import_less l))).
Proof.
  exists [imp "a.proto" IPlain false; imp "a.proto" IPlain true; imp "a.proto" IPlain true]. vm_compute. intro H.
  inversion H as [|? ? N _]. apply N. left. reflexivity.
Qed.
Print Assumptions C34_commented_once_refuted.
Example C34_example :
  write_imports (insertion_sort import_less [imp "b" IPublic false; imp "a" IWeak false; imp "b" IPlain false; imp "a" IPublic true])
  = [imp "a" IPublic true; imp "b" IPlain false].
Proof. reflexivity. Qed.

(* ---- C35: string literals ---- *)
(* Exactly: a literal keeps its value unless it is single-quoted and contains a bare double quote. *)
Theorem C35_literal_value_iff : forall raw v, denotes raw = Some v ->
  (denotes (write_string_literal raw) = Some v <->
   ~ (exists body, raw = sq :: body ++ [sq] /\ bare_dq false body = true)).
Proof.
  intros raw v H. destruct raw as [|q r]; [discriminate|]. cbn [denotes] in H.
  destruct (Ascii.eqb_spec q sq) as [->|Nq].
  - cbn [orb] in H. destruct (lex_closed _ _ _ _ H) as [body ->]. rewrite write_single. cbn [denotes].
    replace (Ascii.eqb dq sq || Ascii.eqb dq dq) with true by reflexivity.
    rewrite (requote_lex body Norm v H). cbn [is_esc]. split.
    + intros E (b & Eb & Hb). injection Eb as Eb. apply app_inv_tail in Eb. subst b. congruence.
    + intro N. destruct (bare_dq false body) eqn:E; [|reflexivity]. destruct N. eauto.
  - cbn [orb] in H. destruct (Ascii.eqb_spec q dq) as [->|]; [|discriminate].
    rewrite write_double. cbn [denotes]. rewrite orb_true_r. split; [|intros _; exact H].
    intros _ (b & E & _). discriminate.
Qed.
Print Assumptions C35_literal_value_iff.

Theorem C35_literal_value_refuted : exists raw v, denotes raw = Some v /\ denotes (write_string_literal raw) = None.
Proof. exists (b_ "'a" ++ [dq] ++ b_ "b'"), [IByte 97; IByte 34; IByte 98]. split; reflexivity. Qed.
Print Assumptions C35_literal_value_refuted.
(* The file then means something else even though it still parses: the literal is cut. *)
Example C35_meaning_changed :
  let raw := b_ "'" ++ [dq] ++ b_ " " ++ [dq] ++ b_ "x'" in
  denotes raw = Some [IByte 34; IByte 32; IByte 34; IByte 120] /\
  write_string_literal raw = [dq; dq] ++ b_ " " ++ [dq] ++ b_ "x" ++ [dq].
Proof. split; reflexivity. Qed.
Example C35_example :
  let raw := b_ "'it\'s \x41\101" ++ [backslash; dq] ++ b_ "é'" in
  denotes raw <> None /\ denotes (write_string_literal raw) = denotes raw.
Proof. split; [discriminate|reflexivity]. Qed.

(* ---- C36: comments written inline ---- *)
Theorem C36_block_comment_inline : forall t, one_block t ->
  one_block (inline_comment t) /\ visible (inline_comment t) = visible t /\ ~ In nl (inline_comment t).
Proof.
  intros t H. split; [apply inline_block_one_block; exact H|]. split; [|apply inline_no_nl; right; exact H].
  apply inline_block_visible. destruct H as (b & -> & _). reflexivity.
Qed.
Print Assumptions C36_block_comment_inline.
(* A line comment becomes one block comment with the same text exactly if it contains no "*/". *)
Theorem C36_line_comment_inline_iff : forall body, ~ In nl body ->
  (one_block (inline_comment (b_ "//" ++ body)) <-> after_end body = None) /\
  inline_comment (b_ "//" ++ body) = b_ "/* " ++ trim body ++ b_ " */" /\
  ~ In nl (inline_comment (b_ "//" ++ body)).
Proof.
  intros body H. split; [apply inline_line_one_block; exact H|]. split; [apply inline_line_text; exact H|].
  apply inline_no_nl. left. exists body. auto.
Qed.
Print Assumptions C36_line_comment_inline_iff.
Theorem C36_one_comment_refuted : exists t, one_line t /\ ~ one_block (inline_comment t).
Proof.
  exists (b_ "// matches */bar"). split; [exists (b_ " matches */bar"); split; [reflexivity|]|].
  - vm_compute. intuition discriminate.
  - intro H. apply (inline_line_one_block (b_ " matches */bar")) in H; [discriminate|]. vm_compute. intuition discriminate.
Qed.
Print Assumptions C36_one_comment_refuted.
Example C36_example :
  inline_comment (b_ "/* one" ++ [nl] ++ b_ "   * two */") = b_ "/* one * two */" /\
  one_block (b_ "/* one" ++ [nl] ++ b_ "   * two */") /\ inline_comment (b_ "//  three ") = b_ "/* three */".
Proof. split; [reflexivity|]. split; [|reflexivity]. eexists. split; reflexivity. Qed.

(* ---- C62: comments on lines of their own ---- *)
Theorem C62_comment_text_kept : forall k t, one_block t \/ one_line t ->
  visible (written_comment k t) = visible t.
Proof. exact written_visible. Qed.
Print Assumptions C62_comment_text_kept.
Theorem C62_comment_stays_one : forall k t,
  (one_block t -> one_block (written_comment k t)) /\ (one_line t -> one_line (written_comment k t)).
Proof.
  intros k t. split; [apply written_one_block|]. intros (b & -> & H). rewrite written_line. exists (trim_right b). split; [reflexivity|].
  intro X. apply H. exact (trim_right_in _ _ X).
Qed.
Print Assumptions C62_comment_stays_one.
(* Formatting the comment again, at any indentation, changes nothing more. *)
Theorem C62_comment_idempotent_partial : forall k k' t, one_block t -> (forall l, In l (split_on nl t) -> ~ odd_blank l) ->
  written_comment k' (written_comment k t) = written_comment k' t.
Proof. intros k k' t H HO. unfold written_comment at 1 3. rewrite (comment_lines_again k t H HO). reflexivity. Qed.
Print Assumptions C62_comment_idempotent_partial.
(* In a file with Windows line ends, a blank line in a comment makes each of the first two
   formattings indent the comment differently. *)
Theorem C62_comment_idempotent_refuted : exists k t, one_block t /\ written_comment k (written_comment k t) <> written_comment k t.
Proof.
  exists 0, (b_ "/*" ++ [nl] ++ b_ "    some text" ++ [nl; cr; nl] ++ b_ "    more" ++ [nl] ++ b_ "*/"). split.
  - eexists. split; [reflexivity|reflexivity].
  - vm_compute. discriminate.
Qed.
Print Assumptions C62_comment_idempotent_refuted.
Example C62_example :
  let t := b_ "/*" ++ [nl] ++ b_ "      some" ++ [nl] ++ [nl] ++ b_ "        text */" in
  written_comment 2 t = b_ "/*" ++ [nl] ++ b_ "     some" ++ [nl] ++ [nl] ++ b_ "       text */" /\
  one_block t /\ (forall l, In l (split_on nl t) -> ~ odd_blank l).
Proof.
  split; [reflexivity|]. split; [eexists; split; reflexivity|].
  intros l Hl [E (c & Hc & H1 & H2)]. vm_compute in Hl. destruct Hl as [<-|[<-|[<-|[<-|[]]]]]; try discriminate. destruct Hc.
Qed.

(* ---- C63: file options ---- *)
(* Up to 12 options sort.Slice is an insertion sort: standard options first, by name, and the
   values of an option given several times stay in order. *)
Theorem C63_file_options_order_partial : forall l, List.length l <= 12 ->
  let s := insertion_sort fopt_less l in
  Permutation l s /\ StronglySorted option_le s /\ forall n, values_of n s = values_of n l.
Proof.
  intros l _ s. split; [symmetry; apply insertion_sort_perm|]. split.
  - apply insertion_sort_sorted; [apply option_less_le|apply option_not_less|apply option_le_trans].
  - intro n. unfold values_of. f_equal. apply insertion_sort_stable. intros a b. apply fopt_same.
Qed.
Print Assumptions C63_file_options_order_partial.
(* What sort.Slice documents for larger inputs does not determine the order of the values. *)
Theorem C63_values_order_refuted : exists l s n, Permutation l s /\ StronglySorted option_le s /\ values_of n s <> values_of n l.
Proof.
  exists [(b_ "(r)", 1); (b_ "(r)", 2)], [(b_ "(r)", 2); (b_ "(r)", 1)], (b_ "(r)"). split; [apply perm_swap|]. split.
  - apply SSorted_cons; [apply SSorted_cons; constructor|]. apply Forall_cons; [|constructor].
    right. split; [reflexivity|right; reflexivity].
  - vm_compute. discriminate.
Qed.
Print Assumptions C63_values_order_refuted.
Example C63_example :
  insertion_sort fopt_less [(b_ "(r)", 1); (b_ "go_package", 7); (b_ "(r)", 2); (b_ "cc", 3)]
  = [(b_ "cc", 3); (b_ "go_package", 7); (b_ "(r)", 1); (b_ "(r)", 2)].
Proof. reflexivity. Qed.
