(** Property theorems for what is shown beside offered fields (C166). *)
From Coq Require Import Ascii String.
From Verif Require Import Base Strs.
From Verif.Completion Require Import Model.
From Verif.Details Require Import Model Spec Proofs.
Open Scope list_scope.

(** ** C166 *)
(** A field of a scalar or message type that is no extension is shown with its type, with the label in message
    literals.  Missing: enums, groups, maps and extensions. *)
Theorem C166_type_partial : forall f, f_extension f = false -> shown_kind (f_kind f) ->
  literal_detail f = declared_type f /\ option_detail f = type_text (f_kind f).
Proof.
  intros [n e r k] E S. cbn in E. subst e. unfold literal_detail, option_detail, declared_type, type_detail. cbn [f_kind f_repeated f_extension] in *.
  destruct S; cbn [type_text kind_string]; now destruct r.
Qed.
(** An extension is shown with its name in brackets, in the scope it is declared in, *)
Theorem C166_extension : forall scope n r k, ~ In dot n -> scope <> [] ->
  option_detail (mkField (scope ++ dot :: n) true r k) = scope ++ b_ ".(" ++ n ++ b_ "): " ++ kind_word k /\
  option_detail (mkField n true r k) = b_ "(" ++ n ++ b_ "): " ++ kind_word k.
Proof.
  intros scope n r k N S. replace (kind_word k) with (kind_string k) by (now destruct k). unfold option_detail, type_detail. cbn [f_extension f_full f_kind]. unfold parent, name. rewrite cut_last_dot by exact N. rewrite (cut_last_none n N).
  destruct scope as [|c scope]; [congruence|]. split; [|reflexivity]. reflexivity.
Qed.
(** so that the types of scalar extensions can be told apart, *)
Theorem C166_extension_scalar : forall full r r' s t, option_detail (mkField full true r (KScalar s)) = option_detail (mkField full true r' (KScalar t)) -> s = t.
Proof.
  intros full r r' s t. unfold option_detail, type_detail, append. cbn [f_extension f_full f_kind kind_string].
  destruct (parent full) as [|c p]; intro E; repeat (apply app_inv_head in E || (injection E as E)); exact E.
Qed.
(** but those of other extensions cannot. *)
Theorem C166_extension_refuted : exists full a b, a <> b /\ type_text (KMessage a) <> type_text (KMessage b) /\
  option_detail (mkField full true false (KMessage a)) = option_detail (mkField full true false (KMessage b)).
Proof. exists (b_ "p.x"), (b_ "p.A"), (b_ "p.B"). repeat split; discriminate. Qed.
(** Every enum is shown as the word enum, and every group as the word group; *)
Theorem C166_enum : forall full r n, option_detail (mkField full false r (KEnum n)) = b_ "enum" /\ option_detail (mkField full false r (KGroup n)) = b_ "group".
Proof. split; reflexivity. Qed.
Theorem C166_enum_refuted : exists f, compiled f /\ f_extension f = false /\ option_detail f <> type_text (f_kind f) /\ literal_detail f <> declared_type f.
Proof. exists (mkField (b_ "p.M.e") false false (KEnum (b_ "p.E"))). repeat split; discriminate. Qed.
(** a map is shown with the names of the fields of its entry, not their types, and as repeated. *)
Theorem C166_map : forall full e k key v val, compiled (mkField full false true (KMap e k key v val)) ->
  literal_detail (mkField full false true (KMap e k key v val)) = b_ "repeated map<" ++ e ++ b_ ".key, " ++ e ++ b_ ".value>".
Proof.
  intros full e k key v val (_ & _ & -> & -> & _). unfold literal_detail, type_detail. cbn [f_repeated f_extension f_kind]. rewrite <- !app_assoc. reflexivity.
Qed.
Theorem C166_map_refuted : exists f g, compiled f /\ compiled g /\ declared_type f <> declared_type g /\ literal_detail f = literal_detail g /\ literal_detail f <> declared_type f.
Proof.
  exists (mkField (b_ "p.M.m") false true (KMap (b_ "p.M.MEntry") (b_ "p.M.MEntry.key") (b_ "int32") (b_ "p.M.MEntry.value") (KScalar (b_ "bool")))),
         (mkField (b_ "p.M.m") false true (KMap (b_ "p.M.MEntry") (b_ "p.M.MEntry.key") (b_ "string") (b_ "p.M.MEntry.value") (KScalar (b_ "bool")))).
  repeat split; discriminate.
Qed.
(** What is offered from another package, or needs an import, is shown with its file; an import is added exactly if the
    name is not visible. *)
Theorem C166_file : forall visible same path label detail d i, resolve_import visible same path label detail = (d, i) ->
  (i = true <-> visible = false) /\
  (visible = true -> same = true -> d = detail) /\
  (visible = false \/ same = false -> exists before after, d = before ++ b_ "from " ++ path ++ after /\ (label = detail \/ exists r, before = detail ++ r)).
Proof.
  intros visible same path label detail d i. unfold resolve_import. intro E. destruct visible.
  - injection E as <- <-. split; [split; discriminate|]. split; [now intros _ ->|]. intros [|Q]; [discriminate|]. rewrite Q. exists (detail ++ b_ " ("), (b_ ")"). split; [now rewrite <- app_assoc|]. right. now exists (b_ " (").
  - injection E as <- <-. split; [split; reflexivity|]. split; [discriminate|]. intros _. destruct (beq label detail) eqn:B.
    + apply beq_eq in B. exists [], []. split; [now rewrite app_nil_r|now left].
    + exists (detail ++ b_ " ("), (b_ ")"). split; [now rewrite <- app_assoc|]. right. now exists (b_ " (").
Qed.
Example C166_case : let f := mkField (b_ "p.M.a") false true (KMessage (b_ "q.A")) in
  shown_kind (f_kind f) /\ literal_detail f = b_ "repeated q.A" /\
  compiled (mkField (b_ "p.M.m") false true (KMap (b_ "p.M.MEntry") (b_ "p.M.MEntry.key") (b_ "int32") (b_ "p.M.MEntry.value") (KScalar (b_ "bool")))) /\
  resolve_import false false (b_ """q.proto""") (b_ "q.A") (b_ "q.A") = (b_ "from ""q.proto""", true).
Proof. repeat split; try constructor; try discriminate. Qed.

Print Assumptions C166_type_partial.
Print Assumptions C166_extension.
Print Assumptions C166_extension_scalar.
Print Assumptions C166_extension_refuted.
Print Assumptions C166_enum.
Print Assumptions C166_enum_refuted.
Print Assumptions C166_map.
Print Assumptions C166_map_refuted.
Print Assumptions C166_file.
