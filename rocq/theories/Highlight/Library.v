(** Proofs for C131_library_marks: the tokens that are marked as coming from a library. *)
From Coq Require Import Ascii String Lia Permutation.
From Verif Require Import Base Strs.
From Verif.FormatTree Require Import Model Spec Lexing Proofs.
From Verif.Highlight Require Import Perm Model Spec Proofs.
Import ListNotations.
Open Scope list_scope.

Notation L := library_shown.
Lemma L_app a b : L (a ++ b) = L a ++ L b.
Proof. apply flat_map_app. Qed.
Lemma L_map (l : list comment) : L (map Com l) = [].
Proof. induction l; [reflexivity|assumption]. Qed.
Lemma L_coms ts : L (coms ts) = [].
Proof. unfold coms. now rewrite L_app, !L_map. Qed.
Lemma L_mk ts s : L (mk ts s) = if s_lib s then ts else [].
Proof.
  destruct ts as [|t ts]; [now destruct (s_lib s)|]. unfold mk. change (L (Tok (t :: ts) s :: coms (t :: ts))) with ((if s_lib s then t :: ts else []) ++ L (coms (t :: ts))).
  now rewrite L_coms, app_nil_r.
Qed.
Lemma L_visit t : L (visit t) = [].
Proof.
  unfold visit, visit_rune. destruct (t_kind t); try reflexivity; try now rewrite L_mk. destruct (t_virtual t); [reflexivity|]. destruct (is_punct t); [apply L_coms|now rewrite L_mk].
Qed.
Lemma L_visits ts : L (visits ts) = [].
Proof. induction ts as [|t ts IH]; [reflexivity|]. change (visits (t :: ts)) with (visit t ++ visits ts). now rewrite L_app, L_visit, IH. Qed.
Lemma L_ovisit o : L (ovisit o) = [].
Proof. apply L_visits. Qed.
Lemma L_keyword t : L (keyword t) = [].
Proof. unfold keyword. now rewrite L_mk. Qed.
Lemma L_okeyword o : L (okeyword o) = [].
Proof. destruct o; [apply L_keyword|reflexivity]. Qed.
Lemma L_flat {A} (f : A -> list item) (g : A -> list token) l : Forall (fun a => L (f a) = g a) l -> L (flat_map f l) = flat_map g l.
Proof. induction 1 as [|a l H _ IH]; [reflexivity|]. cbn [flat_map]. now rewrite L_app, H, IH. Qed.
Lemma L_none {A} (f : A -> list item) l : (forall a, L (f a) = []) -> L (flat_map f l) = [].
Proof. intro H. induction l as [|a l IH]; [reflexivity|]. cbn [flat_map]. now rewrite L_app, H, IH. Qed.
Create HintDb lib discriminated.
#[local] Hint Rewrite L_app L_mk L_visit L_visits L_ovisit L_keyword L_okeyword : lib.
Ltac lib := repeat (autorewrite with lib; cbn [s_lib sty def app]); rewrite ?app_nil_r; try reflexivity.

Lemma inside_contains w s : w <> [] -> inside w s = contains s w.
Proof.
  intro N. apply eq_true_iff_eq. rewrite contains_spec. unfold inside. rewrite existsb_exists. split.
  - intros (k & _ & E). apply beq_eq in E. exists (firstn k s), (skipn (List.length w) (skipn k s)).
    rewrite <- E at 1. rewrite app_assoc, <- (firstn_skipn k s) at 1. rewrite <- app_assoc. f_equal. symmetry. apply firstn_skipn.
  - intros (a & c & ->). exists (List.length a). split; [apply in_seq; rewrite app_length; lia|]. rewrite beq_eq, skipn_app, skipn_all, Nat.sub_diag. cbn [app skipn]. rewrite firstn_app, firstn_all, Nat.sub_diag. now rewrite firstn_O, app_nil_r.
Qed.
Lemma inside_google s : inside (b_ "google.protobuf.") s = contains (trim_dot s) (b_ "google.protobuf.").
Proof. rewrite inside_contains by discriminate. apply eq_true_iff_eq. rewrite library_spec. apply contains_spec. Qed.
Lemma L_compound ts : L (compound ts) = if inside (b_ "google.protobuf.") (flat_map t_text ts) then ts else [].
Proof.
  rewrite inside_google. unfold compound. change (flat_map t_text ts) with (name_text ts). set (c := contains _ _). clearbody c. destruct (tight ts); [now rewrite L_mk|].
  rewrite (L_flat _ (fun t => if c then [t] else [])) by (induction ts; constructor; [now rewrite L_mk|assumption]). destruct c; [|now induction ts].
  induction ts as [|t ts IH]; [reflexivity|]. cbn [flat_map app]. now f_equal.
Qed.
Lemma L_type ty lib : L (type_items ty (Style TType (lib (name_text (ident_toks ty))) false)) = of_library lib ty.
Proof. destruct ty as [t|ts]; cbn [type_items of_library ident_toks]; [|apply L_compound]. rewrite L_mk. unfold name_text. cbn [s_lib flat_map]. now rewrite app_nil_r. Qed.

Section Marks.
Variable lib : bytes -> bool.
Variable kw : token -> bool.
Variable fk : mfield -> option vkind.
Variable ok : opt -> option vkind.
Lemma L_ref r : L (ref_items r) = url_toks r.
Proof. unfold ref_items, url_toks. destruct (fr_open r); [destruct (fr_slash r); [destruct (fr_url r)|]|]; lib. Qed.
Lemma L_literal k v : L (literal_items k v) = [].
Proof. destruct k as [[| |ms|]|]; try reflexivity; destruct v as [t| | | | |]; try reflexivity; cbn [literal_items]; match goal with |- context [if ?b then _ else _] => destruct b end; lib. Qed.
Lemma L_element k v : L (element_items kw k v) = [].
Proof. unfold element_items. destruct k as [[| |ms|]|]; try apply L_literal. destruct v as [t| | | | |]; try reflexivity. match goal with |- context [if ?b then _ else _] => destruct b end; lib. Qed.
Lemma L_field_value k v : L (field_value_items kw k v) = [].
Proof. destruct v; try apply L_literal. apply L_none. intro. apply L_element. Qed.
Lemma L_weave : forall vs gs cs, Forall2 (fun v g => L v = g) vs gs -> L (weave vs cs) = List.concat gs.
Proof. intros vs gs cs H. revert cs. induction H as [|v g vs gs H _ IH]; intros cs; [apply L_visits|]. cbn [weave List.concat]. destruct cs; lib; now rewrite H, IH. Qed.
Lemma L_value : forall v, L (walk_value kw fk v) = value_library v.
Proof.
  apply (value_ind2 (fun v => L (walk_value kw fk v) = value_library v) (fun m => L (walk_field kw fk m) = field_library m)).
  - intro t. cbn [walk_value value_library]. unfold visit_value. destruct (is_id t); [destruct (kw t)|]; lib.
  - intros. apply L_visits.
  - intros. apply L_visits.
  - intros. cbn [walk_value value_library]. lib.
  - intros o fs c sm H. cbn [walk_value value_library]. lib. now apply L_flat.
  - intros o vs cs c sm H. cbn [walk_value value_library]. lib. rewrite (L_weave _ (map value_library vs)); [symmetry; apply flat_map_concat_map|]. induction H; constructor; assumption.
  - intros n s v sm H. change (L (ref_items n ++ field_value_items kw (fk (MField n s v sm)) v ++ visits (ref_toks n) ++ ovisit s ++ walk_value kw fk v ++ ovisit sm) = url_toks n ++ value_library v). lib. now rewrite L_ref, L_field_value, H.
Qed.
Lemma L_ovalue o : L (ovalue kw fk o) = ovalue_library o.
Proof. destruct o; [apply L_value|reflexivity]. Qed.
Lemma L_part p : L (part_items p) = [].
Proof. destruct p as [r|t]; cbn [part_items]; [destruct (fr_open r)|]; lib. Qed.
Lemma L_option_value k v : L (option_value_items kw k v) = [].
Proof. destruct v as [[t| | | | |]|]; try reflexivity. cbn [option_value_items]. destruct (_ && _); [|reflexivity]. destruct k as [[| |ms|]|]; try reflexivity; [destruct (is_special _)| |]; lib. Qed.
Lemma L_option o : L (walk_option kw fk ok o) = option_library o.
Proof.
  unfold walk_option, option_library. lib. rewrite L_option_value. fold (ovalue kw fk (o_val o)). rewrite L_ovalue. destruct (o_name o); [|reflexivity]. now rewrite (L_none _ _ L_part).
Qed.
Lemma L_copts o : L (ocopts kw fk ok o) = copts_library o.
Proof. destruct o as [c|]; [|reflexivity]. cbn [ocopts copts_library]. unfold walk_copts. lib. apply L_flat. apply Forall_forall. intros. apply L_option. Qed.
Lemma L_relem e : L (walk_relem kw fk e) = relem_library e.
Proof. destruct e; cbn [walk_relem relem_library]; [apply L_visit|apply L_value|]. lib. now rewrite L_value, L_ovalue. Qed.
Lemma L_relems es : L (flat_map (walk_relem kw fk) es) = flat_map relem_library es.
Proof. apply L_flat. apply Forall_forall. intros. apply L_relem. Qed.
Lemma L_rpctype r : L (walk_rpctype r) = [].
Proof. unfold walk_rpctype. lib. Qed.
#[local] Hint Rewrite L_value L_ovalue L_option L_copts L_relems L_rpctype : lib.
Lemma L_decl : forall d, L (walk lib kw fk ok d) = decl_library lib d.
Proof.
  apply (decl_ind2 (fun d => L (walk lib kw fk ok d) = decl_library lib d)); intros; cbn [walk decl_library]; lib;
    try (match goal with H : Forall _ _ |- _ => apply (L_flat (walk lib kw fk ok) (decl_library lib)) in H end).
  - now rewrite L_type.
  - assumption.
  - assumption.
  - assumption.
  - destruct x as [i|]; lib; rewrite H; [|reflexivity]. now rewrite <- (L_type i (fun _ => false)).
  - now rewrite H.
  - assumption.
  - destruct br as [[? ?]|]; lib; assumption.
Qed.
Lemma L_file f : L (walk_file lib kw fk ok f) = file_library lib f.
Proof.
  unfold walk_file, file_library. rewrite L_app. f_equal; [destruct (f_syntax f) as [[[[k e] v] sm]|]; lib|]. apply L_flat. apply Forall_forall. intros d _.
  destruct d as [k n sm|i|o|d]; cbn [walk_fdecl fdecl_library]; [destruct n; lib|unfold walk_import; lib|apply L_option|apply L_decl].
Qed.
End Marks.
