(* C130: hovering over a name shows the declaration it stands for.
   The model is Hover/Model.v; what a Markdown viewer shows is in Hover/Spec.v, the lexical grammar and the
   spellings of a declaration in FormatTree/Spec.v. *)
From Coq Require Import Ascii String Lia.
From Verif Require Import Base Strs.
From Verif.Format Require Import Model Spec.
From Verif.FormatTree Require Import CommentSpec Model Spec Samples Wf.
From Verif.Hover Require Import Model Spec Proofs.
Import ListNotations.
Open Scope list_scope.

(* C130.  Full statement: hovering over the name of a declaration shows that declaration: one code block whose
   code is a spelling of the declaration, with its comments, and nothing else.
   Missing: maps, oneofs and groups (C130_map_refuted, C130_oneof_refuted, C130_group_refuted), a code that
   contains a line ending the block (C130_fence_refuted; C130_fence_partial says where), and the declarations
   decl_ok leaves out (see C110). *)
Theorem C130_shows_partial dec chain d :
  ordinary d -> decl_ok d ->
  exists md text ws, hover dec (chain ++ [d]) = Some md /\ sp_decl d ws /\ words_of (text ++ [nl]) = ws /\ complete (text ++ [nl]) /\
  (all_closed text -> code_block md = Some (text, [[]])).
Proof.
  intros R O. destruct (node_lines dec d O) as (ws & S & Z & W). exists (fenced (print_node dec d)), (print_node dec d), ws.
  split; [unfold hover; now rewrite (innermost_last _ _ (ordinary_recorded d R))|]. split; [exact S|]. split; [exact W|]. split; [unfold complete; now rewrite Z|]. apply fenced_block.
Qed.
(* Cutting the line breaks at the ends of what the formatter writes does not fail, and cuts no more than these. *)
Theorem C130_cut dec d : ordinary d -> decl_ok d ->
  exists a b, (a = [] \/ a = [nl]) /\ (b = [] \/ b = [nl]) /\ cut (out (write_decl dec d start)) = Some (print_node dec d) /\ out (write_decl dec d start) = a ++ print_node dec d ++ b.
Proof.
  intros R O. pose proof (node_cut dec d R O) as C. unfold print_node in *. destruct (trim_front_cases (trim_back (out (write_decl dec d start)))) as [F|F], (trim_back_cases (out (write_decl dec d start))) as [(x & E & B)|B].
  - exists [nl], [nl]. split; [now right|]. split; [now right|]. split; [exact C|]. rewrite E at 1. rewrite <- B at 1. rewrite F at 1. reflexivity.
  - exists [nl], []. split; [now right|]. split; [now left|]. split; [exact C|]. rewrite app_nil_r. rewrite <- B at 1. exact F.
  - exists [], [nl]. split; [now left|]. split; [now right|]. split; [exact C|]. rewrite E at 1. rewrite F, B. reflexivity.
  - exists [], []. split; [now left|]. split; [now left|]. split; [exact C|]. rewrite app_nil_r, F, B. reflexivity.
Qed.
Example C130_cut_fails : cut [nl] = None /\ cut [nl; nl] = Some [].
Proof. split; reflexivity. Qed.
(* Every comment of the declaration is in the code, except those the formatter may lose (C112). *)
Theorem C130_comments_partial dec chain d c :
  ordinary d -> decl_ok d -> In c (comments (decl_toks d)) -> comment_ok c -> c_virtual c = false -> ~ In c (decl_lost false d) ->
  exists md text, hover dec (chain ++ [d]) = Some md /\ shown (c_text c) (text ++ [nl]) /\ (all_closed text -> code_block md = Some (text, [[]])).
Proof.
  intros R O I C V L. exists (fenced (print_node dec d)), (print_node dec d). split; [unfold hover; now rewrite (innermost_last _ _ (ordinary_recorded d R))|]. split; [|apply fenced_block].
  destruct (node_comments dec d c O I C V) as [X|X]; [exact X|contradiction].
Qed.
(* A line that ends the block too early is a line of a block comment or of a literal over several lines. *)
Theorem C130_fence_partial dec chain d before l :
  ordinary d -> decl_ok d ->
  exists md text, hover dec (chain ++ [d]) = Some md /\ md = b_ "```protobuf" ++ [nl] ++ text ++ [nl] ++ b_ "```" ++ [nl] /\
  (line_after before l text -> closes_fence l = true -> open_after before).
Proof.
  intros R O. exists (fenced (print_node dec d)), (print_node dec d). split; [unfold hover; now rewrite (innermost_last _ _ (ordinary_recorded d R))|]. split; [reflexivity|].
  intros (rest & E & A) C. unfold open_after. destruct (fence_inside dec d before l rest O E A C) as [(b & w & ->)|(q & w & ->)]; exact I.
Qed.

Definition parts_message : decl := match parts_file with File _ (FDecl d :: _) _ => d | _ => DEmpty (tk KRune [] [] 0) end.
Definition part (k : nat) : decl := nth k (body_of parts_message) parts_message.
(* Hovering over the name of a map field shows the message around it (search.go:648-771 does not record the
   nodes of maps, oneofs and groups). *)
Theorem C130_map_refuted : exists text f chain d md, source_of text f /\ file_ok f /\ chain_of f (chain ++ [d]) /\ named d = true /\
  hover exact_dec (chain ++ [d]) = Some md /\ forall code rest ws, code_block md = Some (code, rest) -> sp_decl d ws -> words_of code <> ws.
Proof.
  exists parts_text, parts_file, [parts_message], (part 0). eexists. split; [vm_compute; repeat split|]. split; [unfold parts_file; filew|].
  split; [cbn; repeat split; now left|]. split; [reflexivity|]. split; [vm_compute; reflexivity|].
  intros code rest ws E S X. vm_compute in E. injection E as <- _. vm_compute in X. inversion S; subst. discriminate.
Qed.
Theorem C130_oneof_refuted : exists text f chain d md, source_of text f /\ file_ok f /\ chain_of f (chain ++ [d]) /\ named d = true /\
  hover exact_dec (chain ++ [d]) = Some md /\ forall code rest ws, code_block md = Some (code, rest) -> sp_decl d ws -> words_of code <> ws.
Proof.
  exists parts_text, parts_file, [parts_message], (part 1). eexists. split; [vm_compute; repeat split|]. split; [unfold parts_file; filew|].
  split; [cbn; tauto|]. split; [reflexivity|]. split; [vm_compute; reflexivity|].
  intros code rest ws E S X. vm_compute in E. injection E as <- _. vm_compute in X. inversion S; subst. discriminate.
Qed.
Theorem C130_group_refuted : exists text f chain d md, source_of text f /\ file_ok f /\ chain_of f (chain ++ [d]) /\ named d = true /\
  hover exact_dec (chain ++ [d]) = Some md /\ forall code rest ws, code_block md = Some (code, rest) -> sp_decl d ws -> words_of code <> ws.
Proof.
  exists parts_text, parts_file, [parts_message], (part 2). eexists. split; [vm_compute; repeat split|]. split; [unfold parts_file; filew|].
  split; [cbn; tauto|]. split; [reflexivity|]. split; [vm_compute; reflexivity|].
  intros code rest ws E S X. vm_compute in E. injection E as <- _. vm_compute in X. inversion S; subst. discriminate.
Qed.
(* A block comment with a line of three backquotes ends the code: the declaration itself is shown as prose. *)
Definition fence_message : decl := match fence_file with File _ (FDecl d :: _) _ => d | _ => DEmpty (tk KRune [] [] 0) end.
Definition fence_field : decl := nth 0 (body_of fence_message) fence_message.
Theorem C130_fence_refuted : exists text f chain d md code rest, source_of text f /\ file_ok f /\ chain_of f (chain ++ [d]) /\ ordinary d /\
  hover exact_dec (chain ++ [d]) = Some md /\ code_block md = Some (code, rest) /\ ~ complete code /\ words_of code = [] /\ In (b_ "int32 f = 1;") rest.
Proof.
  exists fence_text, fence_file, [fence_message], fence_field. do 3 eexists. split; [vm_compute; repeat split|]. split; [unfold fence_file; filew|].
  split; [cbn; tauto|]. split; [constructor|]. split; [vm_compute; reflexivity|]. split; [vm_compute; reflexivity|]. vm_compute. tauto.
Qed.

(* Exactly: over the name of a map field, a oneof, a group or a method without a semicolon, what is around it is
   shown, and nothing if nothing else is around it. *)
Theorem C130_around dec chain d : named d = true -> ~ ordinary d -> hover dec (chain ++ [d]) = hover dec chain.
Proof.
  intros N O. unfold hover. rewrite innermost_not; [reflexivity|]. destruct d as [| | | | | | | | | | | |kw n i rt u br b [s|]|]; try discriminate; try reflexivity; destruct O; constructor.
Qed.
Theorem C130_nothing dec : hover dec [] = None.
Proof. reflexivity. Qed.
Example C130_around_case : named (part 1) = true /\ ~ ordinary (part 1).
Proof. split; [reflexivity|]. intro O. vm_compute in O. inversion O. Qed.

(* The message of the sample meets the hypotheses and is shown as it is written. *)
Example C130_case : chain_of parts_file [parts_message] /\ ordinary parts_message /\ decl_ok parts_message /\
  hover exact_dec [parts_message] = Some (b_ "```protobuf" ++ [nl] ++ parts_text ++ b_ "```" ++ [nl]) /\ all_closed (removelast parts_text).
Proof.
  split; [cbn; tauto|]. split; [constructor|]. split; [unfold parts_message; cbv delta [parts_file] iota beta; declw|]. split; [vm_compute; reflexivity|].
  intros l I. vm_compute in I. repeat destruct I as [<-|I]; try reflexivity. destruct I.
Qed.
(* A comment that is shown, and one that ends the block inside a block comment. *)
Example C130_comment_case : exists c, decl_ok fence_field /\ comments (decl_toks fence_field) = [c] /\ comment_ok c /\ c_virtual c = false /\ ~ In c (decl_lost false fence_field) /\
  line_after (b_ "/* as in:" ++ [nl]) (b_ "   ```") (print_node exact_dec fence_field) /\ closes_fence (b_ "   ```") = true /\ open_after (b_ "/* as in:" ++ [nl]).
Proof.
  eexists. split; [unfold fence_field, fence_message; cbv delta [fence_file] iota beta; cbn [body_of nth]; declw|]. split; [vm_compute; reflexivity|]. split; [coms1|]. split; [reflexivity|]. split; [vm_compute; tauto|].
  split; [eexists; split; [vm_compute; reflexivity|right; exists (b_ "/* as in:"); reflexivity]|]. split; [reflexivity|exact I].
Qed.

Print Assumptions C130_shows_partial.
Print Assumptions C130_cut.
Print Assumptions C130_around.
Print Assumptions C130_nothing.
Print Assumptions C130_comments_partial.
Print Assumptions C130_fence_partial.
Print Assumptions C130_map_refuted.
Print Assumptions C130_oneof_refuted.
Print Assumptions C130_group_refuted.
Print Assumptions C130_fence_refuted.
