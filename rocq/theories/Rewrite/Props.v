(** C133-C135: what the refactorings of messages write in the place of the message.
    The model is Rewrite/Model.v; words, comments and spellings are those of FormatTree/Spec.v. *)
From Coq Require Import Ascii String.
From Verif Require Import Base Strs.
From Verif.Hover Require Model.
From Verif.Format Require Import Model Spec.
From Verif.FormatTree Require Import CommentSpec Comments Model Spec Lexing Proofs Words Samples Wf.
From Verif.Rewrite Require Import Model Spec Samples Proofs.
Import ListNotations.
Open Scope list_scope.

Definition outer (f : file) : decl := match f_decls f with FDecl d :: _ => d | _ => DEmpty (fill ";") end.
Definition member (d : decl) : decl := match message_body d with d' :: _ => d' | [] => d end.
Ltac stood := vm_compute; repeat split.
Ltac lines := let t := fresh in let I := fresh in intros t I; vm_compute in I; repeat destruct I as [<-|I]; try destruct I; vm_compute; intro I; repeat destruct I as [I|I]; discriminate || exact I.

(** C133.  Full statement: renumbering the fields of a message changes the field numbers and nothing else: the words
    before and after the message are the same, the words of the message spell the same declarations in the same
    order with the fields numbered from 1 on, and all comments are kept.
    Missing: the trees the formatter does not write back ([decl_ok], see C110), literals that go on over the end of
    a line, a message with a line comment after it that is followed by words on that line in the text the edit is
    applied to (it cannot be, unless the document changed), and the comments named below. *)
Theorem C133_words_partial dec text s kw n o b c sm : let d := DMessage kw n o b c sm in
  decl_ok d -> single_lined d -> stands text s d -> ends_well d (after_it s) ->
  exists b' w, renumbered 1 b b' /\ sp_decls b' w /\
    words_of text = words_of (before s) ++ map t_text (filter in_source (message_toks d)) ++ words_of (after_it s) /\
    words_of (renumber_edit dec s d) = words_of (before s) ++ (wtext kw :: wtext n :: wtext o :: w ++ [wtext c]) ++ words_of (after_it s) /\
    (complete text -> complete (renumber_edit dec s d)).
Proof.
  intros d O L (it & T & B & I & W) E. destruct (okd_with kw n o b c sm (renumber 1 b) O L) as [O' L']; [apply renumber_okd; exact (okd_body _ _ _ _ _ _ O L)|].
  destruct (spliced dec (col s) (before s) (after_it s) (bare kw) n o (renumber 1 b) c sm O' L' B E) as (w & S & X & C).
  exists (renumber 1 b), w. split; [apply renumber_spec|]. split; [exact S|]. split; [rewrite T, <- W; now apply words_pieces|]. split; [exact X|].
  intro K. apply C. rewrite T in K. exact (complete_pieces _ _ _ B I K).
Qed.
Theorem C133_comments_partial dec s kw n o b c sm x : let d := DMessage kw n o b c sm in
  decl_ok d -> single_lined d -> In x (inner_comments d) -> comment_ok x -> c_virtual x = false ->
  shown (c_text x) (renumber_edit dec s d) \/ In x (flat_map tag_comments b) \/ In x (decl_lost false d).
Proof.
  intros d O L I K V. destruct (okd_with kw n o b c sm (renumber 1 b) O L) as [O' _]; [apply renumber_okd; exact (okd_body _ _ _ _ _ _ O L)|].
  assert (J : In x (inner_comments (DMessage (bare kw) n o (renumber 1 b) c sm)) \/ In x (flat_map tag_comments b)).
  { apply inner_parts in I. rewrite inner_parts. destruct I as [I|[I|I]]; [auto| |auto]. destruct (renumber_comments x b 1 I); auto. }
  destruct J as [J|J]; [|auto]. destruct (edit_comments dec (col s) _ _ _ _ _ _ _ O' J K V) as [S|S].
  - left. unfold renumber_edit, replace. apply shown_app_l. now apply shown_app_r.
  - right. right. cbn [decl_lost]. apply in_app_or in S as [S|S]; apply in_or_app; [left; now apply renumber_lost in S|now right].
Qed.
(** The comment between the keyword and the name is lost: the information of the keyword is replaced by an empty one
    (refactor.go:849). *)
Theorem C133_keyword_refuted : exists text s d, stands text s d /\ decl_ok d /\ single_lined d /\
  comments_of text = [b_ "/* lost */"] /\ comments_of (renumber_edit exact_dec s d) = [].
Proof. exists (keyword_before ++ keyword_it ++ keyword_after), (Site keyword_before 0 keyword_after), (outer keyword_file). split; [exists keyword_it; stood|]. split; [declw|]. split; [lines|]. vm_compute. auto. Qed.
(** The comments around a field number are lost (855-862). *)
Theorem C133_tag_refuted : exists text s d, stands text s d /\ decl_ok d /\ single_lined d /\
  comments_of text = [b_ "/* lost */"] /\ comments_of (renumber_edit exact_dec s d) = [].
Proof. exists (tagged_before ++ tagged_it ++ tagged_after), (Site tagged_before 0 tagged_after), (outer tagged_file). split; [exists tagged_it; stood|]. split; [declw|]. split; [lines|]. vm_compute. auto. Qed.
(** The comment after the message is written again: it is printed with the message, but the range that is replaced
    ends at the closing brace (847). *)
Theorem C133_end_refuted : exists text s d, stands text s d /\ decl_ok d /\ single_lined d /\ ends_well d (after_it s) /\
  comments_of text = [b_ "// end"] /\ comments_of (renumber_edit exact_dec s d) = [b_ "// end // end"].
Proof.
  exists (doubled_before ++ doubled_it ++ doubled_after), (Site doubled_before 0 doubled_after), (outer doubled_file). split; [exists doubled_it; stood|]. split; [declw|]. split; [lines|].
  split; [right; split; vm_compute; auto|]. vm_compute. auto.
Qed.
(** A message in another one, with comments, options and a reserved number. *)
Definition nested_site : site := Site nested_before 2 nested_after.
Definition nested_decl : decl := member (outer nested_file).
Example C133_case : stands (nested_before ++ nested_it ++ nested_after) nested_site nested_decl /\ decl_ok nested_decl /\ single_lined nested_decl /\
  ends_well nested_decl nested_after /\ complete (nested_before ++ nested_it ++ nested_after) /\
  renumber_edit exact_dec nested_site nested_decl = nested_before ++
    b_ "message P {" ++ nl :: b_ "    // how far" ++ nl :: b_ "    int32           x    = 1; // x" ++ nl ::
    b_ "    repeated string tags = 2 [deprecated = true];" ++ nl :: b_ "    reserved 9;" ++ nl :: b_ "    P next = 3; /* the" ++ nl ::
    b_ "       next */" ++ nl :: b_ "  }// end" ++ nested_after.
Proof.
  split; [exists nested_it; stood|]. split; [declw|]. split; [lines|]. split; [right; split; vm_compute; auto|]. split; [vm_compute; exact I|]. vm_compute. reflexivity.
Qed.

(** C134.  Full statement: extracting fields of a message moves them, in their order and with new numbers, to a new
    message that is written after it; in their place, at the first of them, stands a field of the new message's
    type.  All other words and all comments are kept.
    Missing: as for C133.  [tail] is the text between the closing brace and the place where the new message goes. *)
Theorem C134_words_partial dec text s tail chosen retype proto2 message field num0 kw n o pre d1 post c sm :
  let d := DMessage kw n o (pre ++ d1 :: post) c sm in
  decl_ok d -> single_lined d -> stands text (Site (before s) (col s) (tail ++ after_it s)) d -> ends_well d tail -> breaks tail (after_it s) ->
  name message -> name field ->
  Forall (fun x => chosen x = false) pre -> chosen d1 = true -> Forall (fun x => chosen x = true -> is_field x = true) (d1 :: post) ->
  Forall (type_fits retype) (filter chosen (d1 :: post)) ->
  exists wa wb wn num fs, sp_decls pre wa /\ sp_decls (filter (fun x => negb (chosen x)) post) wb /\ numeral num num0 /\
    moved (retyped retype) 1 (filter chosen (d1 :: post)) fs /\ sp_decls fs wn /\
    words_of text = words_of (before s) ++ map t_text (filter in_source (message_toks d)) ++ words_of tail ++ words_of (after_it s) /\
    words_of (extract_edit dec s tail chosen retype proto2 message field num0 d) =
      words_of (before s) ++
      ([wtext kw; wtext n; wtext o] ++ wa ++ field_words proto2 [message] field num ++ wb ++ [wtext c]) ++ words_of tail ++
      ([b_ "message"; message; b_ "{"] ++ wn ++ [b_ "}"]) ++ words_of (after_it s) /\
    (complete text -> complete (extract_edit dec s tail chosen retype proto2 message field num0 d)).
Proof.
  intros d O L (it & T & B & I & W) E K Nm Nf P C1 F R. pose proof (okd_body _ _ _ _ _ _ O L) as Ob. cbn [before col after_it] in *.
  apply Forall_app in Ob as Ob2. destruct Ob2 as [Op Or].
  assert (EB : replace_chosen chosen [new_field proto2 [message] field num0] (pre ++ d1 :: post) = pre ++ new_field proto2 [message] field num0 :: filter (fun x => negb (chosen x)) post) by (now rewrite (replace_first pre chosen _ d1 post P C1)).
  assert (EF : filter chosen (pre ++ d1 :: post) = filter chosen (d1 :: post)) by (rewrite filter_app; now rewrite (filter_false chosen pre P)).
  assert (Ob' : Forall okd (pre ++ new_field proto2 [message] field num0 :: filter (fun x => negb (chosen x)) post)).
  { apply Forall_app. split; [exact Op|]. inversion Or; subst. constructor; [now apply new_field_okd|now apply okd_filter]. }
  destruct (okd_with kw n o _ c sm _ O L Ob') as [O1 L1].
  destruct (new_message_okd message (extracted retype 1 (filter chosen (d1 :: post))) Nm) as [O2 L2]; [apply extracted_okd; [now apply okd_filter|exact R]|].
  set (bef2 := (tail ++ [nl]) ++ [nl] ++ repeat sp (col s)).
  assert (B2 : fst (lrun S0 bef2) = S0 /\ words_of bef2 = words_of tail).
  { unfold bef2. rewrite app_assoc. assert (C0 : complete (tail ++ [nl])) by (unfold complete; rewrite (nl_after tail (proj1 K)); exact Logic.I).
    destruct (words_spaces ((tail ++ [nl]) ++ [nl]) (col s) (nl_after _ C0)) as [X1 X2]. split; [exact X1|]. rewrite X2, (words_nl _ C0). apply words_nl. apply K. }
  destruct B2 as [B2 W2].
  destruct (spliced dec (col s) bef2 (after_it s) (word (b_ "message")) (word message) (punct "{") (extracted retype 1 (filter chosen (d1 :: post))) (punct "}") (Some (punct ";")) O2 L2 B2) as (wn & Sn & Xn & Cn); [left; constructor|].
  set (rest := bef2 ++ hanging (col s) (Hover.Model.print_node dec (new_message message (extracted retype 1 (filter chosen (d1 :: post))))) ++ after_it s) in *.
  assert (Q : blocks c sm \/ quiet_line rest). { destruct E as [E|E]; [left; exact E|right]. unfold rest, bef2. rewrite <- !app_assoc. now apply quiet_app. }
  destruct (spliced dec (col s) (before s) rest (bare kw) n o _ c sm O1 L1 B Q) as (w & S & X & C).
  apply sp_decls_app in S as (wa & wr & -> & Sa & Sr). inversion Sr as [|d0 r0 wf wb Sf Sb]; subst. destruct (new_field_words proto2 message [] field num0 wf Nm (Forall_nil _) Sf) as (num & Nn & ->).
  exists wa, wb, wn, num, (extracted retype 1 (filter chosen (d1 :: post))). split; [exact Sa|]. split; [exact Sb|]. split; [exact Nn|]. split; [apply extracted_spec; apply Forall_forall; intros x J; apply filter_In in J as [J1 J2]; rewrite Forall_forall in F; now apply F|]. split; [exact Sn|].
  destruct (tail_words tail (after_it s) K) as [TW TC].
  split; [rewrite <- W, <- TW; now apply words_pieces|].
  assert (G : extract_edit dec s tail chosen retype proto2 message field num0 d = before s ++ hanging (col s) (Hover.Model.print_node dec (DMessage (bare kw) n o (pre ++ new_field proto2 [message] field num0 :: filter (fun x => negb (chosen x)) post) c sm)) ++ rest).
  { unfold extract_edit, d. cbn [message_body with_body]. rewrite EB, EF. unfold rest, bef2, indented. rewrite <- !app_assoc. reflexivity. }
  rewrite G. split.
  - etransitivity; [exact X|]. change (words_of rest) with (words_of (bef2 ++ hanging (col s) (Hover.Model.print_node dec (new_message message (extracted retype 1 (filter chosen (d1 :: post))))) ++ after_it s)). etransitivity; [apply f_equal; apply f_equal; exact Xn|]. rewrite W2. cbn [app]. rewrite <- !app_assoc. reflexivity.
  - intro CT. apply C. apply Cn. apply TC. exact (complete_pieces _ _ _ B I CT).
Qed.
Theorem C134_comments_partial dec s tail chosen retype proto2 message field num0 kw n o pre d1 post c sm x :
  let d := DMessage kw n o (pre ++ d1 :: post) c sm in
  decl_ok d -> single_lined d -> name message -> name field ->
  Forall (fun x => chosen x = false) pre -> chosen d1 = true -> Forall (fun x => chosen x = true -> is_field x = true) (d1 :: post) ->
  Forall (type_fits retype) (filter chosen (d1 :: post)) ->
  In x (inner_comments d) -> comment_ok x -> c_virtual x = false ->
  shown (c_text x) (extract_edit dec s tail chosen retype proto2 message field num0 d) \/
  In x (chosen_comments tag_comments chosen d) \/ In x (chosen_comments type_comments chosen d) \/ In x (decl_lost false d).
Proof.
  intros d O L Nm Nf P C1 F R I K V. pose proof (okd_body _ _ _ _ _ _ O L) as Ob. apply Forall_app in Ob as Ob2. destruct Ob2 as [Op Or].
  assert (EB : replace_chosen chosen [new_field proto2 [message] field num0] (pre ++ d1 :: post) = pre ++ new_field proto2 [message] field num0 :: filter (fun x => negb (chosen x)) post) by (now rewrite (replace_first pre chosen _ d1 post P C1)).
  assert (EF : filter chosen (pre ++ d1 :: post) = filter chosen (d1 :: post)) by (rewrite filter_app; now rewrite (filter_false chosen pre P)).
  set (b' := pre ++ new_field proto2 [message] field num0 :: filter (fun x => negb (chosen x)) post) in *.
  assert (Ob' : Forall okd b').
  { apply Forall_app. split; [exact Op|]. inversion Or; subst. constructor; [now apply new_field_okd|now apply okd_filter]. }
  destruct (okd_with kw n o _ c sm _ O L Ob') as [O1 _].
  set (fs := extracted retype 1 (filter chosen (d1 :: post))) in *.
  destruct (new_message_okd message fs Nm) as [O2 _]; [apply extracted_okd; [now apply okd_filter|exact R]|].
  unfold chosen_comments, d. cbn [message_body]. rewrite EF.
  assert (J : In x (inner_comments (DMessage (bare kw) n o b' c sm)) \/ In x (inner_comments (new_message message fs)) \/ In x (flat_map tag_comments (filter chosen (d1 :: post))) \/ In x (flat_map type_comments (filter chosen (d1 :: post)))).
  { apply inner_parts in I. unfold new_message. rewrite !inner_parts. destruct I as [I|[I|I]]; [auto| |auto]. apply body_comments in I as (y & Iy & Iy'). apply in_app_or in Iy as [Iy|Iy].
    - left. right. left. apply body_comments. exists y. split; [apply in_or_app; now left|exact Iy'].
    - destruct (chosen y) eqn:Cy.
      + assert (Fc : In y (filter chosen (d1 :: post))) by (apply filter_In; now split).
        destruct (extracted_comments x retype (filter chosen (d1 :: post)) 1) as [Z|[Z|Z]]; [apply Forall_forall; intros z Jz; apply filter_In in Jz as [J1 J2]; rewrite Forall_forall in F; now apply F|apply body_comments; now exists y|auto|auto|auto].
      + destruct Iy as [->|Iy]; [congruence|]. left. right. left. apply body_comments. exists y. split; [|exact Iy']. apply in_or_app. right. right. apply filter_In. split; [exact Iy|now rewrite Cy]. }
  assert (G : forall r, extract_edit dec s tail chosen retype proto2 message field num0 d = r -> r = before s ++ hanging (col s) (Hover.Model.print_node dec (DMessage (bare kw) n o b' c sm)) ++ (tail ++ nl :: nl :: repeat sp (col s)) ++ hanging (col s) (Hover.Model.print_node dec (new_message message fs)) ++ after_it s).
  { intros r <-. unfold extract_edit, d. cbn [message_body with_body]. rewrite EB, EF. fold fs. unfold indented. cbn [app]. repeat (rewrite <- app_assoc; cbn [app]). reflexivity. }
  fold d. rewrite (G _ eq_refl). unfold d. destruct J as [J|[J|[J|J]]]; [| |auto|auto].
  - destruct (edit_comments dec (col s) _ _ _ _ _ _ _ O1 J K V) as [S|S]; [left; apply shown_app_l; now apply shown_app_r|]. right. right. right. cbn [decl_lost]. apply in_app_or in S as [S|S]; apply in_or_app; [left|now right].
    apply in_flat_map in S as (y & Iy & Iy'). apply in_flat_map. apply in_app_or in Iy as [Iy|[<-|Iy]]; [exists y; split; [apply in_or_app; now left|exact Iy']|destruct Iy'|]. apply filter_In in Iy as [Iy _]. exists y. split; [apply in_or_app; right; now right|exact Iy'].
  - destruct (edit_comments dec (col s) _ _ _ _ _ _ _ O2 J K V) as [S|S]; [left; apply shown_app_l, shown_app_l, shown_app_l; now apply shown_app_r|]. right. right. right. cbn [decl_lost]. apply in_app_or in S as [S|S]; [|destruct S]. apply extracted_lost in S.
    apply in_or_app. left. apply in_flat_map in S as (y & Iy & Iy'). apply filter_In in Iy as [Iy _]. apply in_flat_map. exists y. split; [apply in_or_app; now right|exact Iy'].
Qed.
(** The comments around the number of a moved field are lost (570-578). *)
Theorem C134_tag_refuted : exists text s d, stands text s d /\ decl_ok d /\ single_lined d /\
  comments_of text = [b_ "/* lost */"] /\
  comments_of (extract_edit exact_dec s [] is_field (fun _ t => t) false (b_ "NewMessage") (b_ "newField") 1 d) = [].
Proof. exists (tagged_before ++ tagged_it ++ tagged_after), (Site tagged_before 0 tagged_after), (outer tagged_file). split; [exists tagged_it; stood|]. split; [declw|]. split; [lines|]. vm_compute. auto. Qed.
(** The first two fields of the message above are extracted. *)
Definition first_two (d : decl) : bool := match d with DField _ _ (Some t) _ _ _ _ => beq (t_text t) (b_ "x") || beq (t_text t) (b_ "tags") | _ => false end.
Definition extract_site : site := Site nested_before 2 (nl :: nl :: b_ "  P p = 1;" ++ nl :: b_ "}" ++ [nl]).
Example C134_case : exists d1 post, message_body nested_decl = d1 :: post /\ first_two d1 = true /\
  Forall (fun x => first_two x = true -> is_field x = true) (d1 :: post) /\ Forall (type_fits (fun _ t => t)) (filter first_two (d1 :: post)) /\
  name (b_ "NewMessage") /\ name (b_ "newField") /\
  stands (nested_before ++ nested_it ++ nested_after) (Site nested_before 2 (b_ " // end" ++ after_it extract_site)) nested_decl /\
  ends_well nested_decl (b_ " // end") /\ breaks (b_ " // end") (after_it extract_site) /\
  extract_edit exact_dec extract_site (b_ " // end") first_two (fun _ t => t) false (b_ "NewMessage") (b_ "newField") 7 nested_decl = nested_before ++
    b_ "message P {" ++ nl :: b_ "    NewMessage newField = 7;" ++ nl :: b_ "    reserved 9;" ++ nl :: b_ "    P next = 5; /* the" ++ nl :: b_ "       next */" ++ nl ::
    b_ "  }// end // end" ++ nl :: nl ::
    b_ "  message NewMessage {" ++ nl :: b_ "    // how far" ++ nl :: b_ "    int32           x    = 1; // x" ++ nl ::
    b_ "    repeated string tags = 2 [deprecated = true];" ++ nl :: b_ "  }" ++ after_it extract_site.
Proof.
  let l := eval vm_compute in (message_body nested_decl) in match l with ?a :: ?r => exists a, r end.
  split; [vm_compute; reflexivity|]. split; [reflexivity|]. split; [repeat constructor; discriminate|]. split; [vm_compute; repeat constructor; now left|].
  split; [eexists _, _; repeat split; reflexivity|]. split; [eexists _, _; repeat split; reflexivity|]. split; [exists nested_it; stood|]. split; [right; split; vm_compute; auto|]. split; [split; [vm_compute; exact I|right; eexists; reflexivity]|]. vm_compute. reflexivity.
Qed.

(** C135.  Full statement: inlining a field replaces it by the fields it is given, in their order; everything else, and
    all comments but those of the replaced field, are kept.  Missing: as for C133. *)
Theorem C135_words_partial dec text s chosen proto2 fs kw n o pre d1 post c sm :
  let d := DMessage kw n o (pre ++ d1 :: post) c sm in
  decl_ok d -> single_lined d -> stands text s d -> ends_well d (after_it s) ->
  Forall (fun x => chosen x = false) pre -> chosen d1 = true -> Forall field_named fs ->
  exists wa wn wb, sp_decls pre wa /\ fields_words proto2 fs wn /\ sp_decls post wb /\
    words_of text = words_of (before s) ++ map t_text (filter in_source (message_toks d)) ++ words_of (after_it s) /\
    words_of (inline_edit dec s chosen (map (fun '(ty, nm, k) => new_field proto2 ty nm k) fs) d) =
      words_of (before s) ++ ([wtext kw; wtext n; wtext o] ++ wa ++ wn ++ wb ++ [wtext c]) ++ words_of (after_it s) /\
    (complete text -> complete (inline_edit dec s chosen (map (fun '(ty, nm, k) => new_field proto2 ty nm k) fs) d)).
Proof.
  intros d O L (it & T & B & I & W) E P C1 F. pose proof (okd_body _ _ _ _ _ _ O L) as Ob. apply Forall_app in Ob as [Op Or]. inversion Or as [|? ? _ Or']; subst.
  set (new := map (fun '(ty, nm, k) => new_field proto2 ty nm k) fs).
  assert (Ob' : Forall okd (pre ++ new ++ post)) by (apply Forall_app; split; [exact Op|]; apply Forall_app; split; [now apply new_fields_okd|exact Or']).
  destruct (okd_with kw n o _ c sm _ O L Ob') as [O1 L1]. destruct (spliced dec (col s) (before s) (after_it s) (bare kw) n o _ c sm O1 L1 B E) as (w & S & X & C).
  apply sp_decls_app in S as (wa & wr & -> & Sa & Sr). apply sp_decls_app in Sr as (wn & wb & -> & Sn & Sb).
  exists wa, wn, wb. split; [exact Sa|]. split; [exact (new_fields_words proto2 fs F wn Sn)|]. split; [exact Sb|].
  split; [rewrite <- W; now apply words_pieces|]. unfold inline_edit, replace, d. cbn [message_body with_body]. rewrite (inline_first pre chosen new d1 post P C1). split.
  - etransitivity; [exact X|]. cbn [app]. rewrite <- !app_assoc. reflexivity.
  - intro CT. apply C. exact (complete_pieces _ _ _ B I CT).
Qed.
Theorem C135_comments_partial dec s chosen proto2 fs kw n o pre d1 post c sm x :
  let d := DMessage kw n o (pre ++ d1 :: post) c sm in
  decl_ok d -> single_lined d -> Forall (fun x => chosen x = false) pre -> chosen d1 = true -> Forall field_named fs ->
  In x (inner_comments d) -> comment_ok x -> c_virtual x = false ->
  shown (c_text x) (inline_edit dec s chosen (map (fun '(ty, nm, k) => new_field proto2 ty nm k) fs) d) \/
  In x (comments (decl_toks d1)) \/ In x (decl_lost false d).
Proof.
  intros d O L P C1 F I K V. pose proof (okd_body _ _ _ _ _ _ O L) as Ob. apply Forall_app in Ob as [Op Or]. inversion Or as [|? ? _ Or']; subst.
  set (new := map (fun '(ty, nm, k) => new_field proto2 ty nm k) fs).
  assert (Ob' : Forall okd (pre ++ new ++ post)) by (apply Forall_app; split; [exact Op|]; apply Forall_app; split; [now apply new_fields_okd|exact Or']).
  destruct (okd_with kw n o _ c sm _ O L Ob') as [O1 _]. unfold inline_edit, replace, d. cbn [message_body with_body]. rewrite (inline_first pre chosen new d1 post P C1).
  assert (J : In x (inner_comments (DMessage (bare kw) n o (pre ++ new ++ post) c sm)) \/ In x (comments (decl_toks d1))).
  { apply inner_parts in I. rewrite !inner_parts. destruct I as [I|[I|I]]; [auto| |auto]. apply body_comments in I as (y & Iy & Iy'). apply in_app_or in Iy as [Iy|[<-|Iy]]; [|now right|]; left; right; left; apply body_comments; exists y; (split; [|exact Iy']); rewrite !in_app_iff; auto. }
  destruct J as [J|J]; [|auto]. destruct (edit_comments dec (col s) _ _ _ _ _ _ _ O1 J K V) as [S|S]; [left; apply shown_app_l; now apply shown_app_r|]. right. right. cbn [decl_lost]. apply in_app_or in S as [S|S]; apply in_or_app; [left|now right].
  apply in_flat_map in S as (y & Iy & Iy'). apply in_flat_map. rewrite !in_app_iff in Iy. destruct Iy as [Iy|[Iy|Iy]]; [exists y; split; [apply in_or_app; now left|exact Iy']| |exists y; split; [apply in_or_app; right; now right|exact Iy']].
  exfalso. apply in_map_iff in Iy as ([[ty nm] k] & <- & _). destruct Iy'.
Qed.
(** The comments of the field that is replaced are lost (724-763: the new fields have none). *)
Theorem C135_comment_refuted : exists text s d chosen fs, stands text s d /\ decl_ok d /\ single_lined d /\ Forall field_named fs /\
  comments_of text = [b_ "// lost"] /\ comments_of (inline_edit exact_dec s chosen (map (fun '(ty, nm, k) => new_field false ty nm k) fs) d) = [].
Proof.
  exists (inlined_before ++ inlined_it ++ inlined_after), (Site inlined_before 0 inlined_after), (outer inlined_file), is_field, [([b_ "int32"], b_ "x", 3)].
  split; [exists inlined_it; stood|]. split; [declw|]. split; [lines|]. split; [constructor; [split; [discriminate|split; [constructor; [eexists _, _; repeat split; reflexivity|constructor]|eexists _, _; repeat split; reflexivity]]|constructor]|]. vm_compute. auto.
Qed.
(** The last field of the message above is replaced by two. *)
Definition is_next (d : decl) : bool := match d with DField _ _ (Some t) _ _ _ _ => beq (t_text t) (b_ "next") | _ => false end.
Definition two_fields : list (list bytes * bytes * nat) := [([b_ "Q"; b_ "R"], b_ "r", 8); ([b_ "bool"], b_ "b", 9)].
Example C135_case : exists pre d1, message_body nested_decl = pre ++ [d1] /\ Forall (fun x => is_next x = false) pre /\ is_next d1 = true /\ Forall field_named two_fields /\
  inline_edit exact_dec nested_site is_next (map (fun '(ty, nm, k) => new_field true ty nm k) two_fields) nested_decl = nested_before ++
    b_ "message P {" ++ nl :: b_ "    // how far" ++ nl :: b_ "    int32           x    = 7; // x" ++ nl ::
    b_ "    repeated string tags = 3 [deprecated = true];" ++ nl :: b_ "    reserved 9;" ++ nl :: b_ "    optional Q.R  r = 8;" ++ nl ::
    b_ "    optional bool b = 9;" ++ nl :: b_ "  }// end" ++ nested_after.
Proof.
  let l := eval vm_compute in (message_body nested_decl) in match l with [?a; ?b; ?c; ?d] => exists [a; b; c], d end.
  split; [vm_compute; reflexivity|]. split; [repeat constructor|]. split; [reflexivity|]. split; [repeat (constructor; [split; [discriminate|split; [repeat (constructor; [eexists _, _; repeat split; reflexivity|]); constructor|eexists _, _; repeat split; reflexivity]]|]); constructor|]. vm_compute. reflexivity.
Qed.

Print Assumptions C133_words_partial.
Print Assumptions C133_comments_partial.
Print Assumptions C133_keyword_refuted.
Print Assumptions C133_tag_refuted.
Print Assumptions C133_end_refuted.
Print Assumptions C134_words_partial.
Print Assumptions C134_comments_partial.
Print Assumptions C134_tag_refuted.
Print Assumptions C135_words_partial.
Print Assumptions C135_comments_partial.
Print Assumptions C135_comment_refuted.
