(** Property theorems for what completion takes as typed (C169). *)
From Coq Require Import Ascii String ZArith Lia.
From Verif Require Import Base Strs.
From Verif.Splits Require Import Model Spec Proofs.
Open Scope list_scope.

(** Types are looked for by the part of the name before the cursor, and the part after it is to be replaced, in the type
    of a field and in the name of an extended message.  Missing: names with blanks or comments in them, see below. *)
Theorem C169_typed_partial : forall w k, closed_up w -> k <= List.length (source w) ->
  exists rest, so_far w k ++ rest = meant w /\
    in_field (Some (meant w)) (InType (Z.of_nat k) false) = Asked (Some (so_far w k, rest)) true /\
    forall line, in_extend (Some (meant w)) (Some (Z.of_nat k)) line = Asked (Some (so_far w k, rest)) false.
Proof.
  intros w k C L. rewrite (closed_source w C) in L. rewrite (closed_so_far w C k L). exists (skipn k (meant w)). split; [apply firstn_skipn|].
  split.
  - cbn [in_field]. destruct (Z.leb_spec (Z.of_nat k) (Z.of_nat (List.length (meant w)))); [|lia]. now rewrite split_nat by exact L.
  - intro line. cbn [in_extend]. destruct (Z.ltb_spec (Z.of_nat k) 0); [lia|]. now rewrite split_nat by exact L.
Qed.
(** In the type of a field, the request does not fail wherever the cursor is in the text of the type. *)
Theorem C169_field_total : forall w k same, in_field (Some (meant w)) (InType (Z.of_nat k) same) <> Panics.
Proof.
  intros w k same. cbn [in_field]. destruct (Z.leb_spec (Z.of_nat k) (Z.of_nat (List.length (meant w)))) as [L|L].
  - rewrite split_nat by lia. destruct same; discriminate.
  - destruct same; discriminate.
Qed.
(** In the name of an extended message it fails exactly if the cursor is further in than the name is long. *)
Theorem C169_extend_fails_iff : forall w k line, in_extend (Some (meant w)) (Some (Z.of_nat k)) line = Panics <-> List.length (meant w) < k.
Proof.
  intros w k line. cbn [in_extend]. destruct (Z.ltb_spec (Z.of_nat k) 0); [lia|]. destruct (le_lt_dec k (List.length (meant w))) as [L|L].
  - rewrite split_nat by exact L. split; [discriminate|lia].
  - rewrite split_beyond by lia. split; [intros _; exact L|reflexivity].
Qed.
Definition spaced : written := [(b_ "foo", b_ " "); (b_ ".", b_ " "); (b_ "Bar", [])].
Theorem C169_extend_refuted : exists w k line, k <= List.length (source w) /\ source w = b_ "foo . Bar" /\ in_extend (Some (meant w)) (Some (Z.of_nat k)) line = Panics.
Proof. exists spaced, 9, (b_ "extend foo . Bar"). split; [cbn; lia|]. split; reflexivity. Qed.
(** With blanks in the name of the type of a field, more is taken as typed than is, or nothing at all. *)
Theorem C169_typed_refuted : exists w k, k <= List.length (source w) /\ so_far w k = b_ "foo." /\
  in_field (Some (meant w)) (InType (Z.of_nat k) false) = Asked (Some (b_ "foo.B", b_ "ar")) true /\
  in_field (Some (meant w)) (InType (Z.of_nat (List.length (source w))) false) = Asked None true.
Proof. exists spaced, 5. split; [cbn; lia|]. repeat split. Qed.
(** Where there is no type yet, after a label or a keyword, types are offered with nothing typed; *)
Theorem C169_empty : forall w line t rest, 
  in_field None w = Asked (Some ([], [])) false /\
  (beq (Cel.Model.trim line) (b_ "extend") = true -> in_extend None None line = Asked (Some ([], [])) false) /\
  in_field (Some (t ++ rest)) (InType (Z.of_nat (List.length t)) true) = Asked (Some ([], rest)) false.
Proof.
  intros w line t rest. split; [reflexivity|]. split; [intro E; cbn [in_extend]; now rewrite E|]. cbn [in_field]. rewrite app_length.
  destruct (Z.leb_spec (Z.of_nat (List.length t)) (Z.of_nat (List.length t + List.length rest))); [|lia]. rewrite split_nat by (rewrite app_length; lia).
  rewrite skipn_app, skipn_all, Nat.sub_diag. reflexivity.
Qed.
(** so are they after a label that a type follows only on a later line. *)
Theorem C169_label : forall t l c ll lc tl, in_field (Some t) (AtNone l c ll lc tl) = Asked (Some ([], [])) false <-> ll = l /\ (lc < c)%N /\ (l < tl)%N.
Proof.
  intros t l c ll lc tl. cbn [in_field]. destruct (N.eqb_spec ll l), (N.ltb_spec lc c), (N.ltb_spec l tl); cbn [andb]; split; try (intros [= ]; lia); try discriminate; try lia; auto.
Qed.
(** In the name of the field nothing is offered. *)
Example C169_name_case : in_field (Some (b_ "foo.Bar")) InName = Nothing.
Proof. reflexivity. Qed.
Example C169_case : closed_up [(b_ "foo", []); (b_ ".", []); (b_ "Bar", [])] /\
  in_field (Some (b_ "foo.Bar")) (InType 5 false) = Asked (Some (b_ "foo.B", b_ "ar")) true.
Proof. split; [repeat constructor|reflexivity]. Qed.

Print Assumptions C169_typed_partial.
Print Assumptions C169_field_total.
Print Assumptions C169_extend_fails_iff.
Print Assumptions C169_extend_refuted.
Print Assumptions C169_typed_refuted.
Print Assumptions C169_empty.
Print Assumptions C169_label.
