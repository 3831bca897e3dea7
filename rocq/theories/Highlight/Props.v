(* C131-C132: what is highlighted in a file.
   The walk over the syntax tree is Highlight/Model.v; what every token of a file is and how it is to be shown
   is in Highlight/Spec.v (file_marks, style_of), and so are well-formed trees (h_file). *)
From Coq Require Import Ascii String Lia Permutation.
From Verif Require Import Base Strs.
From Verif.FormatTree Require Import Model Spec Samples.
From Verif.Highlight Require Import Perm Model Spec Proofs Library Samples.
Import ListNotations.
Open Scope list_scope.

(* C131.  Full statement: every token of a file is highlighted once, as what it is; punctuation is not.
   The roles of Spec.v are given to the tokens of the file, all of them and in order. *)
Theorem C131_roles f : h_file f -> map fst (file_marks f) = file_toks f.
Proof. apply file_F. Qed.
(* Without results of the linker: exactly the tokens with a style are reported, each once and with its style,
   and the slashes of type URLs a second time, as operators. *)
Theorem C131_shown_partial lib f :
  h_file f -> Permutation (tokens_shown (walk_file lib no_kw no_field no_option f)) (expected (file_marks f) ++ file_again f).
Proof. apply file_T. Qed.
(* With them: the same, and besides tokens that are the value of a field or an option, again or for the first
   time, as keyword, enum member, number or variable. *)
Theorem C131_linked_partial lib kw fk ok f : h_file f -> exists more : list (token * ttype),
  Permutation (tokens_shown (walk_file lib kw fk ok f)) (expected (file_marks f) ++ file_again f ++ map (fun x => (fst x, snd x, false)) more) /\
  forall t ty, In (t, ty) more -> (In (t, ValueName) (file_marks f) \/ In (t, Number) (file_marks f)) /\ In ty [TKeyword; TEnumMember; TNumber; TVariable].
Proof.
  intro O. destruct (file_E lib kw fk ok (val_tok (file_marks f)) f (fun t H => H)) as (X & P & _ & F). exists X. rewrite P, (file_T lib f O). split; [now rewrite <- app_assoc|].
  intros t ty I. rewrite Forall_forall in F. exact (F (t, ty) I).
Qed.
(* The value of an option that is a name, once the linker knows the option: a boolean is a keyword, the name of
   a value of the enum is an enum member, anything else is a variable. *)
Theorem C131_option_value kw fk ok o t :
  o_val o = Some (VTok t) -> t_kind t = KId -> kw t = false ->
  match ok o with
  | Some VBool => In (t, if truth (t_text t) then TKeyword else TVariable, false) (tokens_shown (walk_option kw fk ok o))
  | Some (VEnum ms) => In (t, if member (t_text t) ms then TEnumMember else TVariable, false) (tokens_shown (walk_option kw fk ok o))
  | _ => True
  end.
Proof.
  intros Ev Ek Kw. rewrite <- bool_truth. unfold walk_option. rewrite Ev. cbn [option_value_items]. unfold is_id. rewrite Ek, Kw. cbn [negb andb]. destruct (ok o) as [[| |ms|]|]; try exact I; cbn [mk app tokens_shown flat_map shown map]; left; [now destruct (is_bool _)|now destruct (member _ _)].
Qed.
(* A field of a message literal: names of enum values and booleans. *)
Theorem C131_field_value kw fk n s t sm :
  t_kind t = KId ->
  match fk (MField n s (VTok t) sm) with
  | Some VBool => truth (t_text t) = true -> In (t, TKeyword, false) (tokens_shown (walk_field kw fk (MField n s (VTok t) sm)))
  | Some (VEnum ms) => In (t_text t) ms -> In (t, TEnumMember, false) (tokens_shown (walk_field kw fk (MField n s (VTok t) sm)))
  | _ => True
  end.
Proof.
  intro Ek. rewrite <- bool_truth, wf'_field. destruct (fk _) as [[| |ms|]|]; try exact I; intro H; rewrite !T_app; apply in_or_app; right; apply in_or_app; left; cbn [field_value_items literal_items]; unfold is_id; rewrite Ek; cbn [andb].
  - rewrite H. now left.
  - assert (M : member (t_text t) ms = true) by (apply existsb_exists; exists (t_text t); split; [exact H|now apply beq_eq]). rewrite M. now left.
Qed.
(* A slash is reported twice, at the same place: as a type and as an operator. *)
Definition slash_tok : token := tk KRune (b_ "/") [] 0.
Theorem C131_url_refuted : exists text f t, source_of text f /\ h_file f /\ In t (file_toks f) /\
  forall lib kw fk ok, In (t, TType, false) (tokens_shown (walk_file lib kw fk ok f)) /\ In (t, TOperator, false) (tokens_shown (walk_file lib kw fk ok f)).
Proof.
  exists url_text, url_file, slash_tok. assert (O : h_file url_file) by hw. split; [vm_compute; repeat split|]. split; [exact O|]. split; [vm_compute; tauto|]. intros lib kw fk ok.
  destruct (C131_linked_partial lib kw fk ok url_file O) as (more & P & _). split; (eapply Permutation_in; [apply Permutation_sym; exact P|]); apply in_or_app; [left|right; apply in_or_app; left]; vm_compute; tauto.
Qed.
(* A number that is a word, as value of a field the linker knows: reported twice, by the field and by the walk. *)
Theorem C131_special_refuted : exists n s t sm, h_field (MField n s (VTok t) sm) /\
  forall kw fk, fk (MField n s (VTok t) sm) = Some VFloat ->
  List.length (filter (fun x => beq (t_text (fst (fst x))) (t_text t)) (tokens_shown (walk_field kw fk (MField n s (VTok t) sm)))) = 2.
Proof.
  exists (FieldRef None None None (Id (tk KId (b_ "f") [] 0)) None), (Some (tk KRune (b_ ":") [] 0)), (tk KNum (b_ "inf") [] 0), None. split; [hw|]. intros kw fk E. rewrite wf'_field, E. reflexivity.
Qed.
(* The booleans in a list, in a file that links: whatever the parser says, each is reported twice or not at all. *)
Theorem C131_list_refuted : exists text f, source_of text f /\ h_file f /\
  List.length (filter (fun t => beq (t_text t) (b_ "true")) (file_toks f)) = 1 /\
  forall lib kw ok, List.length (filter (fun x => beq (t_text (fst (fst x))) (b_ "true")) (tokens_shown (walk_file lib kw (fun _ => Some VBool) ok f))) <> 1.
Proof.
  exists special_text, special_file. split; [vm_compute; repeat split|]. split; [hw|]. split; [reflexivity|]. intros lib kw ok. vm_compute. repeat destruct (kw _); discriminate.
Qed.
(* A name over several lines is reported as one item, whose length is computed from its columns (296). *)
Theorem C131_lines_refuted : exists text f ts t u, source_of text f /\ h_file f /\ hd_error ts = Some t /\ last ts t = u /\ t_line t < t_line u /\
  forall lib kw fk ok, In (Tok ts (sty TType)) (walk_file lib kw fk ok f).
Proof.
  exists broken_text, broken_file. do 3 eexists. split; [vm_compute; repeat split|]. split; [hw|]. split; [|split; [|split; [|intros lib kw fk ok; cbn; do 4 right; left; reflexivity]]]; [reflexivity|reflexivity|cbn; lia].
Qed.
(* A type of one's own is marked as a library type if its name contains "google.protobuf.". *)
Theorem C131_library_refuted : exists text f ts, source_of text f /\ h_file f /\ name_text ts = b_ "my.google.protobuf.Any" /\
  forall lib kw fk ok, In (Tok ts (Style TType true false)) (walk_file lib kw fk ok f).
Proof.
  exists foreign_text, foreign_file. eexists. split; [vm_compute; repeat split|]. split; [hw|]. split; [|intros lib kw fk ok; cbn; tauto]; reflexivity.
Qed.

(* The type of a field is marked as a library type: a name of several parts if it contains "google.protobuf.",
   any other as [lib] says. *)
Theorem C131_library lib kw fk ok l ty n e tg os sm : exists own others,
  walk lib kw fk ok (DField l ty n e tg os sm) = own ++ others /\ tokens_shown own = map (fun t => (t, TType, false)) (ident_toks ty) /\
  forall us s, In (Tok us s) own ->
    (s_lib s = true <-> match ty with Id t => lib (t_text t) = true | Cid ts => exists a b, flat_map t_text ts = a ++ b_ "google.protobuf." ++ b end).
Proof.
  exists (type_items ty (Style TType (lib (name_text (ident_toks ty))) false)). eexists. split; [reflexivity|]. destruct ty as [t|ts]; cbn [type_items ident_toks].
  - split; [rewrite (T_gen [t] (Style TType _ false) TypeName eq_refl); reflexivity|]. intros us s I. apply in_mk in I as ->. unfold name_text. cbn [s_lib flat_map]. now rewrite app_nil_r.
  - split; [|intros us s I; rewrite (compound_lib _ _ _ I); apply library_spec].
    assert (E := compound_T ts). unfold expected, all_ in E. rewrite E. clear. induction ts as [|t ts IH]; [reflexivity|]. cbn [map flat_map style_of app]. now rewrite IH.
Qed.
(* A number as the value of a floating-point field is reported once, but inf and nan, in any case, are reported again. *)
Theorem C131_float_value kw fk n s t sm : t_kind t = KNum -> fk (MField n s (VTok t) sm) = Some VFloat ->
  Permutation (tokens_shown (walk_field kw fk (MField n s (VTok t) sm)))
    (tokens_shown (walk_field kw no_field (MField n s (VTok t) sm)) ++ (if word_number (t_text t) then [(t, TNumber, false)] else [])).
Proof.
  intros K F. rewrite !wf'_field, F. cbn [no_field field_value_items literal_items]. unfold special. rewrite K, special_word. rewrite !T_app. cbn [app walk_value]. change (no_field (MField n s (VTok t) sm)) with (@None vkind). cbn [literal_items tokens_shown flat_map app]. destruct (word_number (t_text t)).
  - rewrite (T_gen [t] (sty TNumber) Number eq_refl). cbn [all_ map expected flat_map style_of app]. perm.
  - cbn [tokens_shown flat_map app]. rewrite !app_nil_r. reflexivity.
Qed.

(* C132.  Full statement: every comment of a file is highlighted, once.
   Without results of the linker: the comments reported, and those of Spec.v's file_missed, are all the
   comments of the file and those of file_doubled once more.  Missed: comments at names that are values, inside
   names, at tokens the parser inserted and at the end of the file.  Doubled: comments at the dots of types, at
   the leading dots of names and at the brackets and slashes of field names. *)
Theorem C132_comments_partial lib f : h_file f ->
  Permutation (comments_shown (walk_file lib no_kw no_field no_option f) ++ file_missed f) (seen (file_toks f) ++ seen (otoks (f_eof f)) ++ file_doubled f).
Proof. apply file_K. Qed.
(* With them, the comments of values may be reported (again). *)
Theorem C132_linked_partial lib kw fk ok f : exists more,
  Permutation (comments_shown (walk_file lib kw fk ok f)) (comments_shown (walk_file lib no_kw no_field no_option f) ++ seen more) /\
  forall t, In t more -> In (t, ValueName) (file_marks f) \/ In (t, Number) (file_marks f).
Proof.
  destruct (file_E lib kw fk ok (val_tok (file_marks f)) f (fun t H => H)) as (X & _ & P & F). exists (map fst X). split.
  - rewrite P. apply Permutation_app_head. apply eq_perm. clear. induction X as [|x X IH]; [reflexivity|]. cbn [map flat_map]. now rewrite S_cons, IH.
  - intros t I. apply in_map_iff in I as (x & <- & I). rewrite Forall_forall in F. exact (proj1 (F x I)).
Qed.
(* Nothing else is reported as a comment. *)
Theorem C132_no_other lib kw fk ok f c : h_file f -> In c (comments_shown (walk_file lib kw fk ok f)) -> In c (seen (file_toks f)).
Proof.
  intros O I. destruct (C132_linked_partial lib kw fk ok f) as (more & P & V). apply (Permutation_in _ P) in I. apply in_app_or in I as [I|I].
  - assert (Q := C132_comments_partial lib f O). unfold file_missed in Q. assert (R : Permutation (comments_shown (walk_file lib no_kw no_field no_option f) ++ match f_syntax f with Some (_, e, v, sm) => mute e ++ value_missed v ++ omute sm | None => [] end ++ flat_map fdecl_missed (f_decls f)) (seen (file_toks f) ++ file_doubled f)) by (use Q; perm).
    assert (J : In c (seen (file_toks f) ++ file_doubled f)) by (apply (Permutation_in _ R); apply in_or_app; now left). apply in_app_or in J as [J|J]; [exact J|exact (D_file c f J)].
  - unfold seen in I. apply in_flat_map in I as (t & It & Ic). unfold seen. apply in_flat_map. exists t. split; [|exact Ic]. rewrite <- (file_F f O). destruct (V t It) as [H|H]; exact (in_map fst _ _ H).
Qed.
(* A comment at the end of the file is not highlighted. *)
Theorem C132_end_refuted : exists text f c, source_of text f /\ h_file f /\ In c (seen (otoks (f_eof f))) /\
  forall lib kw fk ok, ~ In c (comments_shown (walk_file lib kw fk ok f)).
Proof.
  exists ending_text, ending_file. eexists. assert (O : h_file ending_file) by hw. split; [vm_compute; repeat split|]. split; [exact O|]. split; [vm_compute; left; reflexivity|].
  intros lib kw fk ok I. exact (C132_no_other _ _ _ _ _ _ O I).
Qed.
(* Nor is a comment at the value of an option, if the linker has no results. *)
Theorem C132_value_refuted : exists text f c, source_of text f /\ h_file f /\ In c (seen (file_toks f)) /\
  forall lib, ~ In c (comments_shown (walk_file lib no_kw no_field no_option f)).
Proof.
  exists why_text, why_file. eexists. split; [vm_compute; repeat split|]. split; [hw|]. split; [vm_compute; left; reflexivity|]. intros lib I. exact I.
Qed.
(* A comment before a field whose type starts with a dot is reported twice. *)
Theorem C132_dot_refuted : exists text f c, source_of text f /\ h_file f /\ seen (file_toks f) = [c] /\
  forall lib kw fk ok, comments_shown (walk_file lib kw fk ok f) = [c; c].
Proof.
  exists dotted_text, dotted_file. eexists. split; [vm_compute; repeat split|]. split; [hw|]. split; [vm_compute; reflexivity|]. intros lib kw fk ok. reflexivity.
Qed.

(* In a whole file: the tokens marked as coming from a library are, in order, those of such types of fields, of
   extended names of several parts that contain "google.protobuf.", and the type URLs in message literals up to
   their slash.  No name that is declared is marked. *)
Theorem C131_library_marks lib kw fk ok f : library_shown (walk_file lib kw fk ok f) = file_library lib f.
Proof. apply L_file. Qed.
Example C131_library_marks_case : In slash_tok (file_library (fun _ => false) url_file) /\
  List.length (file_library (fun _ => false) foreign_file) = 7.
Proof. vm_compute. split; [tauto|reflexivity]. Qed.
(* The sample of C110 meets the hypotheses; 126 of its 193 tokens are reported, all with a style of their own. *)
Example C131_case : h_file whole_file /\ file_again whole_file = [] /\
  List.length (file_toks whole_file) = 193 /\ List.length (tokens_shown (walk_file (fun _ => false) no_kw no_field no_option whole_file)) = 126.
Proof. split; [hw|]. vm_compute. repeat split. Qed.
Example C131_library_case : exists a b, b_ ".google.protobuf.Any" = a ++ b_ "google.protobuf." ++ b.
Proof. now exists (b_ "."), (b_ "Any"). Qed.
Example C131_float_case : word_number (b_ "NaN") = true /\ word_number (b_ "1e3") = false /\ t_kind (tk KNum (b_ "NaN") [] 0) = KNum.
Proof. repeat split. Qed.
Example C131_value_case : exists o t, o_val o = Some (VTok t) /\ t_kind t = KId /\ is_bool (t_text t) = true /\
  tokens_shown (walk_option no_kw no_field (fun _ => Some VBool) o) = [(t, TKeyword, false)].
Proof. exists (Opt None None None (Some (VTok (tk KId (b_ "true") [] 0))) None). eexists. split; [reflexivity|]. vm_compute. repeat split. Qed.
(* All comments of this file but the one at its end are highlighted, each once. *)
Example C132_case : exists e, h_file commented_file /\ file_missed commented_file = [e] /\ seen (otoks (f_eof commented_file)) = [e] /\ file_doubled commented_file = [] /\
  List.length (comments_shown (walk_file (fun _ => false) no_kw no_field no_option commented_file)) = 5.
Proof. eexists. split; [hw|]. split; [vm_compute; reflexivity|]. vm_compute. repeat split. Qed.

Print Assumptions C131_roles.
Print Assumptions C131_shown_partial.
Print Assumptions C131_linked_partial.
Print Assumptions C131_option_value.
Print Assumptions C131_field_value.
Print Assumptions C131_url_refuted.
Print Assumptions C131_special_refuted.
Print Assumptions C131_list_refuted.
Print Assumptions C131_lines_refuted.
Print Assumptions C131_library_refuted.
Print Assumptions C131_library.
Print Assumptions C131_library_marks.
Print Assumptions C131_float_value.
Print Assumptions C132_comments_partial.
Print Assumptions C132_linked_partial.
Print Assumptions C132_no_other.
Print Assumptions C132_end_refuted.
Print Assumptions C132_value_refuted.
Print Assumptions C132_dot_refuted.
