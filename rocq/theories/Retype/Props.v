(** C144, C145: what the types of fields mean after refactorings move them.
    The model is Retype/Model.v; the meaning of names is Retype/Spec.v. *)
From Coq Require Import Ascii String.
From Verif Require Import Base Strs.
From Verif.Completion Require Import Model Spec Proofs Props.
From Verif.Retype Require Import Model Spec Proofs.
Import ListNotations.
Open Scope list_scope.

(** C144.  Full statement: after fields are extracted to a new message, their types mean what they meant, and their labels are the same.
    Missing: what the refutations below show, and packages whose names are textual prefixes of one another without
    being enclosing packages (C30).
    Types that are messages: the exact condition is that the shortened name is not that of a scalar and no scope between the new
    message and the package declares its first part. *)
Theorem C144_messages_partial d F M new T n f :
  closed d -> parts T -> part n -> parts F -> In (T ++ [n]) d -> f_kind f = KMessage (dotted (T ++ [n])) ->
  (exists R, T = F ++ R) \/ (exists R, F = T ++ R) \/ (has_prefix (dotted T) (dotted F) = false /\ has_prefix (dotted F) (dotted T) = false) ->
  exists S X h R, F = S ++ X /\ T ++ [n] = S ++ h :: R /\ extract (dotted F) f = (f_label f, dotted (h :: R)) /\
    (means ((F ++ M ++ [new]) :: d) (F ++ M ++ [new]) (snd (extract (dotted F) f)) = Some (Named (T ++ [n])) <->
     ~ In (dotted (h :: R)) scalars /\ ~ hidden ((F ++ M ++ [new]) :: d) S (X ++ M ++ [new]) h).
Proof.
  intros C PT Pn PF D K R. destruct (C30_relative_name_partial T n F PT Pn PF R) as (S & Q & X & EF & ET & EQ & _).
  destruct Q as [|h Q]; [exfalso; apply (relative_full T n (dotted F) Pn); now rewrite EQ|].
  exists S, X, h, Q. unfold extract, extracted_type. rewrite K. cbn [snd]. split; [exact EF|]. split; [exact ET|]. split; [now rewrite EQ|].
  rewrite EQ.
  assert (P : parts (h :: Q)) by (assert (Y : parts (S ++ h :: Q)) by (rewrite <- ET; apply Forall_app; split; [exact PT|now constructor]); now apply Forall_app in Y).
  rewrite ET in *. set (d' := (F ++ M ++ [new]) :: d).
  assert (D1 : In (S ++ [h]) d') by (right; apply (closed_prefix d (S ++ [h]) C) with (q := Q); [now destruct S|now rewrite <- app_assoc]).
  assert (D2 : In (S ++ h :: Q) d') by (now right).
  replace (F ++ M ++ [new]) with (S ++ X ++ M ++ [new]) by (rewrite EF; now rewrite <- app_assoc).
  now apply means_exact.
Qed.
(** For a message that is not nested and types of its own package nothing can be in between. *)
Theorem C144_top_level_partial d F new Q n f :
  closed d -> parts (F ++ Q) -> part n -> In (F ++ Q ++ [n]) d -> f_kind f = KMessage (dotted (F ++ Q ++ [n])) ->
  ~ In (F ++ [new]) d -> ~ In (dotted (Q ++ [n])) scalars ->
  means ((F ++ [new]) :: d) (F ++ [new]) (snd (extract (dotted F) f)) = Some (Named (F ++ Q ++ [n])).
Proof.
  intros C P Pn D K N NS. rewrite app_assoc in *. assert (PF : parts F) by now apply Forall_app in P.
  destruct (C30_relative_name_partial (F ++ Q) n F P Pn PF) as (S & R & X & EF & ET & EQ & MIN); [left; now exists Q|].
  assert (X = []) as ->.
  { specialize (MIN F (Q ++ [n]) []). rewrite app_nil_r in MIN. assert (L : List.length R <= List.length (Q ++ [n])) by (apply MIN; [reflexivity|now rewrite app_assoc|now destruct Q]).
    apply (f_equal (@List.length bytes)) in ET, EF. rewrite !app_length in *. destruct X; [reflexivity|]. cbn [List.length] in *. lia. }
  rewrite app_nil_r in EF. subst S. rewrite <- app_assoc in ET. apply app_inv_head in ET. subst R.
  unfold extract, extracted_type. rewrite K. cbn [snd]. rewrite EQ. destruct (Q ++ [n]) as [|h R] eqn:E; [now destruct Q|].
  rewrite <- app_assoc, E in *. apply (means_exact ((F ++ [new]) :: d) F h R [new]).
  - right. apply (closed_prefix d (F ++ [h]) C) with (q := R); [now destruct F|now rewrite <- app_assoc].
  - rewrite <- E. apply Forall_app. split; [now apply Forall_app in P|now constructor].
  - now right.
  - split; [exact NS|]. intros (y & z & Y & NY & [I|I]).
    + apply (f_equal (@List.length bytes)) in I. rewrite !app_length in I. destruct y; [congruence|]. cbn in I. lia.
    + destruct y as [|y0 y]; [congruence|]. cbn in Y. injection Y as <- Y. symmetry in Y. apply app_eq_nil in Y as [-> ->]. cbn [app] in I.
      apply N. apply (C (F ++ [new]) h); [now destruct F|now rewrite <- app_assoc].
Qed.
(** Types of other kinds are written as before, which means the same unless the old message itself declares the name, or
    the new message has it. *)
Theorem C144_others_partial d outer par new f m :
  closed d -> ~ In (outer ++ [new]) d -> (forall full, f_kind f <> KMessage full) -> f_written f <> [] ->
  means d (outer ++ [par]) (f_written f) = Some m ->
  (forall first r, split_on "."%char (f_written f) = first :: r -> ~ In (outer ++ [par; first]) d /\ first <> new) ->
  forall pkg, means ((outer ++ [new]) :: d) (outer ++ [new]) (snd (extract pkg f)) = Some m.
Proof.
  intros C N K W M H pkg. unfold extract, extracted_type. cbn [snd]. destruct (f_kind f) eqn:E; try (now apply (moved_meaning d outer par new)). now destruct (K full).
Qed.

Definition p_ (s : string) : path := split_on "."%char (b_ s).
Ltac shut := intros p x N I; cbn in I; repeat destruct I as [I|I]; try contradiction;
  (apply (f_equal (@rev bytes)) in I; rewrite rev_app_distr in I; cbn in I; injection I as _ I; apply (f_equal (@rev bytes)) in I; rewrite rev_involutive in I; subst p; cbn in *; tauto).

(** An enum of the old message is not found from the new one (551: only the types that are messages are written anew). *)
Theorem C144_enum_refuted : exists d f, closed d /\ ~ In (p_ "p.NewMessage") d /\ f_kind f = KEnum (b_ "p.M.E") /\
  means d (p_ "p.M") (f_written f) = Some (Named (p_ "p.M.E")) /\
  means (p_ "p.NewMessage" :: d) (p_ "p.NewMessage") (snd (extract (b_ "p") f)) = None.
Proof.
  exists [p_ "p"; p_ "p.M"; p_ "p.M.E"], (Field (KEnum (b_ "p.M.E")) (b_ "E") LNone false).
  split; [shut|]. split; [vm_compute; intuition discriminate|]. repeat split; vm_compute; reflexivity.
Qed.
(** The same for a message type with delimited encoding (its kind is GroupKind). *)
Theorem C144_delimited_refuted : exists d f, closed d /\ f_kind f = KGroup (b_ "p.M.N") /\
  means d (p_ "p.M") (f_written f) = Some (Named (p_ "p.M.N")) /\
  means (p_ "p.NewMessage" :: d) (p_ "p.NewMessage") (snd (extract (b_ "p") f)) = None.
Proof.
  exists [p_ "p"; p_ "p.M"; p_ "p.M.N"], (Field (KGroup (b_ "p.M.N")) (b_ "N") LNone false).
  split; [shut|]. repeat split; vm_compute; reflexivity.
Qed.
(** The dot in front of a full name is taken away, and a message of the enclosing one has the name (553). *)
Theorem C144_hidden_refuted : exists d f, closed d /\ f_kind f = KMessage (b_ "p.A") /\
  means d (p_ "p.Outer.M") (f_written f) = Some (Named (p_ "p.A")) /\
  means (p_ "p.Outer.NewMessage" :: d) (p_ "p.Outer.NewMessage") (snd (extract (b_ "p") f)) = Some (Named (p_ "p.Outer.A")).
Proof.
  exists [p_ "p"; p_ "p.A"; p_ "p.Outer"; p_ "p.Outer.A"; p_ "p.Outer.M"], (Field (KMessage (b_ "p.A")) (b_ ".p.A") LNone false).
  split; [shut|]. repeat split; vm_compute; reflexivity.
Qed.
(** The new message itself has the name of a type: names are compared with those next to it only (900-915). *)
Theorem C144_new_name_refuted : exists d f, closed d /\ ~ In (p_ "p.Outer.NewMessage") d /\ f_kind f = KMessage (b_ "p.NewMessage") /\
  means d (p_ "p.Outer.M") (f_written f) = Some (Named (p_ "p.NewMessage")) /\
  means (p_ "p.Outer.NewMessage" :: d) (p_ "p.Outer.NewMessage") (snd (extract (b_ "p") f)) = Some (Named (p_ "p.Outer.NewMessage")).
Proof.
  exists [p_ "p"; p_ "p.NewMessage"; p_ "p.Outer"; p_ "p.Outer.M"], (Field (KMessage (b_ "p.NewMessage")) (b_ "NewMessage") LNone false).
  split; [shut|]. split; [vm_compute; intuition discriminate|]. repeat split; vm_compute; reflexivity.
Qed.
(** A message may be called like a scalar; its full name does not mean the scalar, its short name does. *)
Theorem C144_scalar_refuted : exists d f, closed d /\ f_kind f = KMessage (b_ "p.bytes") /\
  means d (p_ "p.M") (f_written f) = Some (Named (p_ "p.bytes")) /\
  means (p_ "p.NewMessage" :: d) (p_ "p.NewMessage") (snd (extract (b_ "p") f)) = Some (Scalar (b_ "bytes")).
Proof.
  exists [p_ "p"; p_ "p.bytes"; p_ "p.M"], (Field (KMessage (b_ "p.bytes")) (b_ "p.bytes") LNone false).
  split; [shut|]. repeat split; vm_compute; reflexivity.
Qed.
(** A message of the old one, from a message that is nested itself; an enum of the package. *)
Definition case_names : list path := [p_ "a"; p_ "a.b"; p_ "a.b.Outer"; p_ "a.b.Outer.M"; p_ "a.b.Outer.M.N"; p_ "a.b.Color"].
Example C144_case : closed case_names /\ ~ In (p_ "a.b.Outer.NewMessage") case_names /\
  (let f := Field (KMessage (b_ "a.b.Outer.M.N")) (b_ "N") LRepeated false in
   extract (b_ "a.b") f = (LRepeated, b_ "Outer.M.N") /\
   ~ In (b_ "Outer.M.N") scalars /\ ~ hidden (p_ "a.b.Outer.NewMessage" :: case_names) (p_ "a.b") (p_ "Outer.NewMessage") (b_ "Outer") /\
   means (p_ "a.b.Outer.NewMessage" :: case_names) (p_ "a.b.Outer.NewMessage") (b_ "Outer.M.N") = Some (Named (p_ "a.b.Outer.M.N"))) /\
  (let f := Field (KEnum (b_ "a.b.Color")) (b_ "b.Color") LNone false in
   means case_names (p_ "a.b.Outer.M") (f_written f) = Some (Named (p_ "a.b.Color")) /\
   means (p_ "a.b.Outer.NewMessage" :: case_names) (p_ "a.b.Outer.NewMessage") (snd (extract (b_ "a.b") f)) = Some (Named (p_ "a.b.Color"))).
Proof.
  split; [shut|]. split; [vm_compute; intuition discriminate|]. split; [|split; vm_compute; reflexivity].
  cbv zeta. split; [vm_compute; reflexivity|]. split; [vm_compute; intuition discriminate|]. split; [|vm_compute; reflexivity].
  intros (y & z & E & N & I). destruct y as [|y0 y]; [congruence|]. destruct y as [|y1 y].
  - vm_compute in E. injection E as <- _. vm_compute in I. intuition discriminate.
  - destruct y as [|y2 y]; [|vm_compute in E; discriminate]. vm_compute in E. injection E as <- <- _. vm_compute in I. intuition discriminate.
Qed.

(** C145.  Full statement: after a field is replaced by the fields of its message type, those have the types and labels they
    had there.
    Missing: what the refutations below show, and package names as for C144.
    [M] are the names of the messages around the field. *)
Theorem C145_scalars proto2 pkg d place f w :
  f_kind f = KScalar w -> In w scalars -> f_map f = false -> count_of (f_label f) = AtMostOne ->
  written_shape d place (inline proto2 pkg f) = Some (shape_of f).
Proof.
  intros K I N L. unfold inline, inlined_type, shape_of, written_shape. rewrite K, N. cbn [fst snd kind_meaning]. unfold means. apply scalar_in in I. rewrite I, L. now destruct proto2.
Qed.
Theorem C145_names_partial proto2 d F M T n f :
  closed d -> parts T -> part n -> parts F -> In (T ++ [n]) d ->
  f_kind f = KMessage (dotted (T ++ [n])) \/ f_kind f = KEnum (dotted (T ++ [n])) -> f_map f = false -> count_of (f_label f) = AtMostOne ->
  (exists R, T = F ++ R) \/ (exists R, F = T ++ R) \/ (has_prefix (dotted T) (dotted F) = false /\ has_prefix (dotted F) (dotted T) = false) ->
  exists S X h R, F = S ++ X /\ T ++ [n] = S ++ h :: R /\ snd (inline proto2 (dotted F) f) = dotted (h :: R) /\
    (written_shape d (F ++ M) (inline proto2 (dotted F) f) = Some (shape_of f) <->
     ~ In (dotted (h :: R)) scalars /\ ~ hidden d S (X ++ M) h).
Proof.
  intros C PT Pn PF D K NM L R. destruct (C30_relative_name_partial T n F PT Pn PF R) as (S & Q & X & EF & ET & EQ & _).
  destruct Q as [|h Q]; [exfalso; apply (relative_full T n (dotted F) Pn); now rewrite EQ|].
  assert (EI : inlined_type (dotted F) f = dotted (h :: Q)) by (unfold inlined_type; destruct K as [-> | ->]; now rewrite EQ).
  assert (PTn : parts (T ++ [n])) by (apply Forall_app; split; [exact PT|now constructor]).
  assert (ES : shape_of f = Plain AtMostOne (Named (T ++ [n]))).
  { unfold shape_of. rewrite NM, L. destruct K as [-> | ->]; cbn [kind_meaning]; unfold dotted; rewrite split_join; try reflexivity; try (now destruct T); intros w I; exact (proj2 (proj1 (Forall_forall _ _) PTn w I)). }
  exists S, X, h, Q. split; [exact EF|]. split; [exact ET|]. split; [exact EI|].
  assert (P : parts (h :: Q)) by (rewrite ET in PTn; now apply Forall_app in PTn).
  rewrite ES. unfold written_shape, inline. cbn [fst snd]. rewrite EI, ET in *.
  assert (D1 : In (S ++ [h]) d) by (apply (closed_prefix d (S ++ [h]) C) with (q := Q); [now destruct S|now rewrite <- app_assoc]).
  rewrite <- (means_exact d S h Q (X ++ M) D1 P D). replace (F ++ M) with (S ++ X ++ M) by (rewrite EF; now rewrite <- app_assoc).
  destruct (means d (S ++ X ++ M) (dotted (h :: Q))) as [m|]; [|split; discriminate]. destruct proto2; (split; [intros [= ->]; reflexivity|intros [= ->]; reflexivity]).
Qed.
(** The message that the fields are put in declares the name of their type (739-745). *)
Theorem C145_hidden_refuted : exists d f, closed d /\ shape_of f = Plain AtMostOne (Named (p_ "p.A")) /\ means d (p_ "p.N") (f_written f) = Some (Named (p_ "p.A")) /\
  written_shape d (p_ "p.M") (inline false (b_ "p") f) = Some (Plain AtMostOne (Named (p_ "p.M.A"))).
Proof.
  exists [p_ "p"; p_ "p.A"; p_ "p.M"; p_ "p.M.A"; p_ "p.N"], (Field (KMessage (b_ "p.A")) (b_ "A") LNone false).
  split; [shut|]. repeat split; vm_compute; reflexivity.
Qed.
(** Repeated and required fields become optional ones (730-733). *)
Theorem C145_label_refuted : exists f g, shape_of f = Plain AnyNumber (Scalar (b_ "int32")) /\ shape_of g = Plain ExactlyOne (Scalar (b_ "int32")) /\
  forall proto2 pkg d place, written_shape d place (inline proto2 pkg f) = Some (Plain AtMostOne (Scalar (b_ "int32"))) /\
    written_shape d place (inline proto2 pkg g) = Some (Plain AtMostOne (Scalar (b_ "int32"))).
Proof.
  exists (Field (KScalar (b_ "int32")) (b_ "int32") LRepeated false), (Field (KScalar (b_ "int32")) (b_ "int32") LRequired false).
  split; [reflexivity|]. split; [reflexivity|]. intros [] pkg d place; split; reflexivity.
Qed.
(** A map becomes one value of the type of its entries, which cannot be written in a file (742). *)
Theorem C145_map_refuted : exists d f, closed d /\ shape_of f = MapOf (p_ "p.N.TagsEntry") /\ inline false (b_ "p") f = (LNone, b_ "N.TagsEntry") /\
  written_shape d (p_ "p.M") (inline false (b_ "p") f) = Some (Plain AtMostOne (Named (p_ "p.N.TagsEntry"))).
Proof.
  exists [p_ "p"; p_ "p.M"; p_ "p.N"; p_ "p.N.TagsEntry"], (Field (KMessage (b_ "p.N.TagsEntry")) (b_ "map<string, string>") LRepeated true).
  split; [shut|]. repeat split; vm_compute; reflexivity.
Qed.
(** A group, or a message with delimited encoding, becomes a field whose type is called "group" (746). *)
Theorem C145_group_refuted : exists d f, closed d /\ shape_of f = Plain AtMostOne (Named (p_ "p.N.G")) /\ inline true (b_ "p") f = (LOptional, b_ "group") /\
  written_shape d (p_ "p.M") (inline true (b_ "p") f) = None.
Proof.
  exists [p_ "p"; p_ "p.M"; p_ "p.N"; p_ "p.N.G"], (Field (KGroup (b_ "p.N.G")) (b_ "group") LOptional false).
  split; [shut|]. repeat split; vm_compute; reflexivity.
Qed.
Example C145_case : let f := Field (KEnum (b_ "a.b.Outer.M.N")) (b_ "M.N") LOptional false in
  closed case_names /\ inline true (b_ "a.b") f = (LOptional, b_ "Outer.M.N") /\ ~ hidden case_names (p_ "a.b") (p_ "Outer") (b_ "Outer") /\
  written_shape case_names (p_ "a.b.Outer") (inline true (b_ "a.b") f) = Some (shape_of f) /\
  written_shape case_names (p_ "a.b.Outer") (inline false (b_ "a.b") (Field (KScalar (b_ "fixed64")) (b_ "fixed64") LNone false)) = Some (Plain AtMostOne (Scalar (b_ "fixed64"))).
Proof.
  cbv zeta. split; [shut|]. split; [vm_compute; reflexivity|]. split; [|split; vm_compute; reflexivity].
  intros (y & z & E & N & I). destruct y as [|y0 y]; [congruence|]. destruct y as [|y1 y]; [|vm_compute in E; discriminate]. vm_compute in E. injection E as <- _. vm_compute in I. intuition discriminate.
Qed.
Print Assumptions C144_messages_partial.
Print Assumptions C144_top_level_partial.
Print Assumptions C144_others_partial.
Print Assumptions C144_enum_refuted.
Print Assumptions C144_delimited_refuted.
Print Assumptions C144_hidden_refuted.
Print Assumptions C144_new_name_refuted.
Print Assumptions C144_scalar_refuted.
Print Assumptions C145_scalars.
Print Assumptions C145_names_partial.
Print Assumptions C145_hidden_refuted.
Print Assumptions C145_label_refuted.
Print Assumptions C145_map_refuted.
Print Assumptions C145_group_refuted.
