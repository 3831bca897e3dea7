From Coq Require Import Ascii String Lia.
From Verif Require Import Base Strs.
From Verif.Print Require Spec.
From Verif.Fixes Require Import Model Spec Proofs.
Open Scope list_scope.
Definition nls : bytes := [nl].

(** ** C126: adding the definition of an undeclared name *)
(** It is offered for names without qualification, and adds a message of that name after the last token; *)
Theorem C126_text : forall pre post name hint start stop, ~ In "."%char name -> one_line name ->
  exists e sel rev, code_actions (UndeclaredName name hint (spos_of pre)) start stop = [mkAction (b_ "Add definition for " ++ name ++ b_ " in this file") QuickFix false [e] (Some (sel, sel)) (Some rev)] /\
    let t := accept (pre ++ post) e in
    t = pre ++ nls ++ nls ++ b_ "message " ++ name ++ b_ " {" ++ nls ++ b_ "  " ++ nls ++ b_ "}" ++ post /\
    (* the cursor is put into its body, and the message is what is shown *)
    off t sel = List.length (pre ++ nls ++ nls ++ b_ "message " ++ name ++ b_ " {" ++ nls ++ b_ "  ") /\
    off t (fst rev) = List.length (pre ++ nls ++ nls) /\
    off t (snd rev) = List.length (pre ++ nls ++ nls ++ b_ "message " ++ name ++ b_ " {" ++ nls ++ b_ "  " ++ nls ++ b_ "}").
Proof.
  intros pre post name hint start stop Hd H1. cbn [code_actions].
  replace (contains_dot name) with false. 2:{ symmetry. unfold contains_dot. destruct (existsb _ name) eqn:E; [|reflexivity]. apply existsb_exists in E as (x & Hx & Ex). apply Ascii.eqb_eq in Ex. subst x. contradiction. }
  rewrite spos_place. eexists _, _, _. split; [reflexivity|]. cbn zeta. rewrite accept_insert. cbn [fst snd]. unfold spos_of. cbn [p_line].
  assert (T : pre ++ definition_text name ++ post = pre ++ nls ++ nls ++ b_ "message " ++ name ++ b_ " {" ++ nls ++ b_ "  " ++ nls ++ b_ "}" ++ post) by (unfold definition_text, nls; now rewrite <- !app_assoc).
  split; [exact T|]. split; [|split].
  - rewrite definition_split, <- app_assoc. replace (S (fst (place pre)) + 2) with (fst (place pre) + 3) by lia. rewrite (off_at pre (upto_body name) _ 2 2 (place_body name H1)). unfold upto_body, head_text, nls. now rewrite <- !app_assoc.
  - replace (S (fst (place pre)) + 1) with (fst (place pre) + 2) by lia. unfold definition_text. rewrite <- (app_assoc [nl; nl]). rewrite (off_at pre [nl; nl] _ 1 0 place_two). reflexivity.
  - replace (S (fst (place pre)) + 3) with (fst (place pre) + 4) by lia. rewrite (off_at pre (definition_text name) post 3 1 (place_definition name H1)). reflexivity.
Qed.
Theorem C126_qualified : forall name hint e start stop, In "."%char name -> code_actions (UndeclaredName name hint e) start stop = [].
Proof.
  intros name hint e start stop H. cbn. replace (contains_dot name) with true; [reflexivity|]. symmetry. apply existsb_exists. exists "."%char. split; [exact H|reflexivity].
Qed.
(** the name, which was found from no scope around its use, is then found, and is the message of the file's package; *)
Theorem C126_declared : forall defined P R w, Print.Spec.resolves_to defined (P ++ R) [w] = None ->
  Print.Spec.resolves_to (with_name defined (P ++ [w])) (P ++ R) [w] = Some (P ++ [w]).
Proof. exact now_found. Qed.
(** and no other name in the file changes its meaning. *)
Theorem C126_others : forall defined P R R' w name F, Print.Spec.resolves_to defined (P ++ R) [w] = None ->
  Print.Spec.resolves_to defined (P ++ R') name = Some F -> Print.Spec.resolves_to (with_name defined (P ++ [w])) (P ++ R') name = Some F.
Proof. exact others_found. Qed.
Example C126_case : let pre := b_ "message A { B b = 1; }" in
  ~ In "."%char (b_ "B") /\ one_line (b_ "B") /\
  (forall start stop, map a_edits (code_actions (UndeclaredName (b_ "B") [] (spos_of pre)) start stop) = [[mkEdit (0, 22) (0, 22) (definition_text (b_ "B"))]]) /\
  Print.Spec.resolves_to (fun p => if list_eq_dec (list_eq_dec ascii_dec) p [b_ "A"] then true else false) ([] ++ [b_ "A"]) [b_ "B"] = None.
Proof.
  cbn zeta. repeat split; try (intros X; cbn in X; intuition discriminate).
Qed.
(** A comment behind the last declaration, on its line, is not a token: it ends up behind the new message. *)
Theorem C126_comment_refuted : exists pre post name e, pre = b_ "message A {}" /\ post = b_ " // about A" /\
  map a_edits (code_actions (UndeclaredName name [] (spos_of pre)) (spos_of pre) (spos_of pre)) = [[e]] /\
  accept (pre ++ post) e = b_ "message A {}" ++ nls ++ nls ++ b_ "message B {" ++ nls ++ b_ "  " ++ nls ++ b_ "} // about A".
Proof. eexists _, _, (b_ "B"), _. split; [reflexivity|]. split; [reflexivity|]. split; [reflexivity|]. vm_compute. reflexivity. Qed.

(** ** C127: removing an unused import *)
(** All lines of the statement go, and no others; *)
Theorem C127_lines : forall A ws stmt rest B path e, whole_lines A -> one_line ws -> one_line rest ->
  map a_edits (code_actions (UnusedImport path) (spos_of (A ++ ws)) (spos_of (A ++ ws ++ stmt))) = [[e]] ->
  accept (A ++ ws ++ stmt ++ rest ++ nls ++ B) e = A ++ B /\ accept (A ++ ws ++ stmt ++ rest) e = A.
Proof.
  intros A ws stmt rest B path e HA Hw Hr E. cbn in E. injection E as <-. split.
  - exact (removed A ws stmt rest (nls ++ B) HA Hw Hr (or_intror (ex_intro _ B eq_refl))).
  - pose proof (removed A ws stmt rest [] HA Hw Hr (or_introl eq_refl)) as H. now rewrite !app_nil_r in H.
Qed.
(** so what is visible stays, but for the statement, if that is alone on them. *)
Theorem C127_alone_partial : forall A ws stmt rest B path e, whole_lines A -> blank ws -> blank rest ->
  map a_edits (code_actions (UnusedImport path) (spos_of (A ++ ws)) (spos_of (A ++ ws ++ stmt))) = [[e]] ->
  let t := A ++ ws ++ stmt ++ rest ++ nls ++ B in
  visible t = visible A ++ visible stmt ++ visible B /\ visible (accept t e) = visible A ++ visible B.
Proof.
  intros A ws stmt rest B path e HA Hw Hr E. cbn zeta.
  assert (O : forall x, blank x -> one_line x) by (intros x Hx X; apply Hx in X; discriminate).
  assert (V : forall x, blank x -> visible x = []). { intros x. induction x as [|c x IH]; intros Hx; [reflexivity|]. rewrite (Hx c (or_introl eq_refl)). cbn. apply IH. intros d Hd. apply Hx. now right. }
  split.
  - unfold visible in *. rewrite !filter_app, (V ws Hw), (V rest Hr). reflexivity.
  - rewrite (proj1 (C127_lines A ws stmt rest B path e HA (O _ Hw) (O _ Hr) E)). unfold visible. apply filter_app.
Qed.
Example C127_case : let A := b_ "syntax = 'proto3';" ++ nls in let s := b_ "import" ++ nls ++ b_ "  'b.proto';" in
  whole_lines A /\ blank (b_ " ") /\ blank [] /\
  map a_edits (code_actions (UnusedImport (b_ "b.proto")) (spos_of (A ++ b_ " ")) (spos_of (A ++ b_ " " ++ s))) = [[mkEdit (1, 0) (3, 0) []]].
Proof.
  cbn zeta. split; [right; eexists; reflexivity|]. split; [intros c [<-|[]]; reflexivity|]. split; [intros c []|]. vm_compute. reflexivity.
Qed.
(** What else stands on them is lost: another import, or the beginning of a declaration. *)
Theorem C127_neighbour_refuted : exists stmt rest e, stmt = b_ "import 'a.proto';" /\ rest = b_ " import 'b.proto';" /\
  map a_edits (code_actions (UnusedImport (b_ "a.proto")) (spos_of []) (spos_of stmt)) = [[e]] /\ accept (stmt ++ rest ++ nls) e = [].
Proof. eexists _, _, _. split; [reflexivity|]. split; [reflexivity|]. split; [reflexivity|]. vm_compute. reflexivity. Qed.
Theorem C127_broken_refuted : exists stmt rest B e, stmt = b_ "import 'a.proto';" /\ rest = b_ " message A {" /\ B = b_ "}" /\
  map a_edits (code_actions (UnusedImport (b_ "a.proto")) (spos_of []) (spos_of stmt)) = [[e]] /\ accept (stmt ++ rest ++ nls ++ B) e = B.
Proof. eexists _, _, _, _. split; [reflexivity|]. split; [reflexivity|]. split; [reflexivity|]. split; [reflexivity|]. vm_compute. reflexivity. Qed.
(** An unused import is never an error, and nothing else becomes less than it was. *)
(* Unused imports, and nothing else, are shown as unnecessary. *)
Theorem C127_greyed : forall p, unnecessary p = true <-> exists path, p = UnusedImport path.
Proof. intro p. split; [destruct p; try discriminate; eauto|intros (path & ->); reflexivity]. Qed.
Theorem C127_severity : forall o p, severity_for o p = Error <-> o = Error /\ forall path, p <> UnusedImport path.
Proof.
  intros o p. destruct p; cbn; split; try discriminate; try (intros ->; split; [reflexivity|discriminate]); try tauto. intros [_ H]. destruct (H path eq_refl).
Qed.

Print Assumptions C126_text.
Print Assumptions C126_qualified.
Print Assumptions C126_declared.
Print Assumptions C126_others.
Print Assumptions C126_comment_refuted.
Print Assumptions C127_lines.
Print Assumptions C127_alone_partial.
Print Assumptions C127_neighbour_refuted.
Print Assumptions C127_broken_refuted.
Print Assumptions C127_severity.
Print Assumptions C127_greyed.
