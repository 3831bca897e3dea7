(** Property theorems for "go to definition" (C156). *)
From Coq Require Import Ascii String.
From Verif Require Import Base Strs.
From Verif.Compile Require Import Spec.
From Verif.Locate Require Import Model Spec.
From Verif.Definition Require Import Model Spec Proofs.
Open Scope list_scope.

(** C156: the histories are those up to the three lookups; other files may be compiled in between.  Missing:
    the file declaring what is asked for may be, too. *)
Theorem C156_definition_partial : forall units uri_of h1 h2 h3 doc q r c d t w g u,
  well_behaved h1 -> well_behaved h2 -> well_behaved h3 ->
  current h1 doc r -> current h2 doc r -> u_focus (units r) q = Some c -> stands_for (units r) c d ->
  declared units r d t w -> w <> [] -> current h3 (u_path (units t)) t ->
  u_source (units t) = true -> u_name (units t) w = Some g -> uri_of (u_path (units t)) = Some u ->
  definition units uri_of (Compile.Model.run h1) (Compile.Model.run h2) (Compile.Model.run h3) doc q = Location u g.
Proof.
  intros units uri_of h1 h2 h3 doc q r c d t w g u W1 W2 W3 C1 C2 F St M Hw C3 Hs Hn Hu. unfold definition.
  rewrite (at_found units h1 h2 doc q r c d W1 W2 C1 C2 F St). replace (made_by units r d) with (t, w) by now destruct M. now apply (located units uri_of h3 t w (u_path (units t)) g u).
Qed.

(** a place is never given for a declaration that is not in the current text of its file, *)
Theorem C156_only_current : forall units uri_of h doc t w u g st,
  well_behaved h -> w <> [] -> u_path (units t) = doc -> latest h doc st ->
  locate units uri_of (Compile.Model.run h) (t, w) = Location u g ->
  (st = IsLinked t \/ st = IsPartial t) /\ u_name (units t) w = Some g /\ uri_of doc = Some u.
Proof.
  intros units uri_of h doc t w u g st W Hw Hp L E. destruct (location_declared _ _ _ _ _ _ _ Hw E) as [F [N U]]. rewrite Hp in F, U.
  split; [|auto]. destruct (Compile.Props.C08_lookups_current_partial h doc st W L) as [_ [H _]]. now apply H.
Qed.

(** of a file without a source there is no place, *)
Theorem C156_no_source : forall units uri_of s t w u g,
  u_source (units t) = false -> w <> [] -> locate units uri_of s (t, w) <> Location u g.
Proof.
  intros units uri_of s t w u g Hs Hw E. unfold locate in E. cbn [fst] in E.
  destruct (Compile.Model.find_result_or_partial s (u_path (units t))) as [r| |]; try discriminate. unfold find_definition in E.
  destruct w; [now destruct Hw|]. destruct (Nat.eqb t r) eqn:Et; [|discriminate]. apply Nat.eqb_eq in Et. subst r. now rewrite Hs in E.
Qed.

(** An import leads to its file as it is now, whichever result the importing file was linked with. *)
Theorem C156_file : forall units uri_of h t r u,
  well_behaved h -> current h (u_path (units t)) r -> u_source (units r) = true -> uri_of (u_path (units r)) = Some u ->
  locate units uri_of (Compile.Model.run h) (t, []) = Location u (u_whole (units r)).
Proof.
  intros units uri_of h t r u W C Hs Hu. unfold locate. cbn [fst]. rewrite (current_found _ _ _ W C). unfold find_definition. now rewrite Hs, Hu.
Qed.
Theorem C156_file_no_source : forall units uri_of h t r,
  well_behaved h -> current h (u_path (units t)) r -> u_source (units r) = false -> locate units uri_of (Compile.Model.run h) (t, []) = Error.
Proof. intros units uri_of h t r W C Hs. unfold locate. cbn [fst]. rewrite (current_found _ _ _ W C). unfold find_definition. now rewrite Hs. Qed.

(** and references list the declaration first, when asked to. *)
Theorem C156_references : forall units uri_of s d uses,
  references units uri_of s d false uses = Some uses /\
  (forall u g, locate units uri_of s d = Location u g -> references units uri_of s d true uses = Some ((u, g) :: uses)) /\
  ((forall u g, locate units uri_of s d <> Location u g) -> references units uri_of s d true uses = None).
Proof.
  intros units uri_of s d uses. unfold references. split; [reflexivity|]. split.
  - intros u g ->. reflexivity.
  - intros H. destruct (locate units uri_of s d) as [u g| | |]; try reflexivity. now destruct (H u g).
Qed.

(** ** A case: a.proto (1) has a field of a type of b.proto (2) *)
Definition b (s : string) : bytes := b_ s.
Definition none_ : unit_ := mkUnit 0 [] (fun _ => TgNone) (fun _ _ => Own []) (fun _ => Own []) (fun _ => []) (fun _ => None) true (fun _ => 0) true (fun _ => None) (0, 0) (fun _ => None).
Definition unit_a (dep : rid) : unit_ :=
  mkUnit 1 [TMsg (b "A") [EField (b "f")]] (fun _ => TgMsg (Other (b "b.proto") [(KMsg, b "B")])) (fun _ _ => Own []) (fun _ => Own []) (fun _ => []) (fun _ => None) true
    (fun _ => dep) true (fun _ => Some (5, 6)) (0, 50)
    (fun q => if q =? 0 then Some [NFile; NMsg (b "A"); NField (b "f"); NIdent (b "B") AsType] else Some [NFile; NMsg (b "A"); NField (b "f"); NIdent (b "f") AsName]).
Definition unit_b : unit_ :=
  mkUnit 2 [TMsg (b "B") []] (fun _ => TgNone) (fun _ _ => Own []) (fun _ => Own []) (fun _ => []) (fun _ => None) true
    (fun _ => 0) true (fun _ => Some (8, 9)) (0, 20) (fun _ => None).
(** results 20 and 21 are of the same text of b.proto; 10 was linked with 20 and 11 with 21 *)
Definition units1 (r : rid) : unit_ :=
  if r =? 10 then unit_a 20 else if r =? 11 then unit_a 21 else if r =? 20 then unit_b else if r =? 21 then unit_b else none_.
Definition uris (p : path) : option bytes := Some (if p =? 1 then b "file:///a.proto" else b "file:///b.proto").
Definition first_ : Compile.Model.op := Compile.Model.Compile [1; 2] (Some (Compile.Model.mkReport [(1, 10, 0); (2, 20, 0)] [] [])).
Definition again : Compile.Model.op := Compile.Model.Compile [1; 2] (Some (Compile.Model.mkReport [(1, 11, 0); (2, 21, 0)] [] [])).

Lemma first_behaves : well_behaved [first_].
Proof.
  cbn. split; [|exact I]. split; [unfold wf_report; cbn; repeat constructor; cbn; intuition discriminate|].
  intros p [<-|[<-|[]]]; eexists; eapply says_linked; [now left|right; now left].
Qed.
Lemma again_behaves : well_behaved [first_; again].
Proof.
  cbn. repeat split; try (unfold wf_report; cbn; repeat constructor; cbn; intuition discriminate);
  intros p [<-|[<-|[]]]; eexists; eapply says_linked; (now left) || (right; now left).
Qed.
Lemma a_current : current [first_] 1 10. Proof. left. apply (l_say []). eapply says_linked. now left. Qed.
Lemma b_current : current [first_] 2 20. Proof. left. apply (l_say []). eapply says_linked. right. now left. Qed.
Lemma b_current_again : current [first_; again] 2 21. Proof. left. apply (l_say [first_]). eapply says_linked. right. now left. Qed.
Lemma a_names_f : names_in (u_tops (units1 10)) [NFile; NMsg (b "A"); NField (b "f"); NIdent (b "f") AsName] [(KMsg, b "A"); (KField, b "f")].
Proof. apply ni_elem. eapply (nm_in_msg [] _ (b "A")); [now left|]. apply (nm_field [(KMsg, b "A")]). now left. Qed.
Lemma a_stands : stands_for (units1 10) [NFile; NMsg (b "A"); NField (b "f"); NIdent (b "B") AsType] (Other (b "b.proto") [(KMsg, b "B")]).
Proof.
  eapply (sf_message _ [NFile; NMsg (b "A"); NField (b "f"); NIdent (b "f") AsName]); [exact a_names_f|cbn; tauto| |reflexivity].
  apply (tp_word [NFile; NMsg (b "A")]).
Qed.
Example C156_case :
  definition units1 uris (Compile.Model.run [first_]) (Compile.Model.run [first_]) (Compile.Model.run [first_]) 1 0 = Location (b "file:///b.proto") (8, 9).
Proof.
  apply (C156_definition_partial units1 uris [first_] [first_] [first_] 1 0 10 _ _ 20 [(KMsg, b "B")] (8, 9) (b "file:///b.proto")
    first_behaves first_behaves first_behaves a_current a_current eq_refl a_stands); try reflexivity; [apply (dl_import units1 10)|discriminate|exact b_current].
Qed.
Example C156_name_case :
  definition units1 uris (Compile.Model.run [first_]) (Compile.Model.run [first_]) (Compile.Model.run [first_]) 1 1 = Location (b "file:///a.proto") (5, 6).
Proof.
  apply (C156_definition_partial units1 uris [first_] [first_] [first_] 1 1 10 _ _ 10 [(KMsg, b "A"); (KField, b "f")] (5, 6) (b "file:///a.proto")
    first_behaves first_behaves first_behaves a_current a_current eq_refl (sf_name _ _ _ a_names_f ltac:(cbn; tauto))); try reflexivity; [constructor|discriminate|exact a_current].
Qed.

Example C156_file_case : locate units1 uris (Compile.Model.run [first_; again]) (20, []) = Location (b "file:///b.proto") (u_whole unit_b).
Proof. now apply (C156_file units1 uris [first_; again] 20 21 _ again_behaves b_current_again). Qed.

(** Both files are compiled again, with the same texts, between the second and the third lookup: the request
    fails, though it succeeds before and after. *)
Theorem C156_recompiled_refuted : exists units uri_of h o doc q u g,
  well_behaved h /\ well_behaved (h ++ [o]) /\
  definition units uri_of (Compile.Model.run h) (Compile.Model.run h) (Compile.Model.run h) doc q = Location u g /\
  definition units uri_of (Compile.Model.run (h ++ [o])) (Compile.Model.run (h ++ [o])) (Compile.Model.run (h ++ [o])) doc q = Location u g /\
  definition units uri_of (Compile.Model.run h) (Compile.Model.run h) (Compile.Model.run (h ++ [o])) doc q = Error.
Proof.
  exists units1, uris, [first_], again, 1, 0, (b "file:///b.proto"), (8, 9).
  split; [exact first_behaves|]. split; [exact again_behaves|]. split; [exact C156_case|]. split; reflexivity.
Qed.
(** So it does after any compilation of the file in between. *)
Theorem C156_recompiled : forall units uri_of h1 h2 h3 doc q r c d t t' w,
  well_behaved h1 -> well_behaved h2 -> well_behaved h3 ->
  current h1 doc r -> current h2 doc r -> u_focus (units r) q = Some c -> stands_for (units r) c d ->
  declared units r d t w -> w <> [] -> current h3 (u_path (units t)) t' -> t <> t' ->
  definition units uri_of (Compile.Model.run h1) (Compile.Model.run h2) (Compile.Model.run h3) doc q = Error.
Proof.
  intros units uri_of h1 h2 h3 doc q r c d t t' w W1 W2 W3 C1 C2 F St M Hw C3 Hne. unfold definition.
  rewrite (at_found units h1 h2 doc q r c d W1 W2 C1 C2 F St). replace (made_by units r d) with (t, w) by now destruct M. now apply (not_located units uri_of h3 t t' w (u_path (units t))).
Qed.
(** A syntax error anywhere in a document that had none makes each request for it panic. *)
Definition broken : list Compile.Model.op := [first_; Compile.Model.Compile [1] (Some (Compile.Model.mkReport [] [] [(1, 12, 0)]))].
Theorem C156_syntax_error_refuted : exists h doc, well_behaved h /\ (exists r, latest h doc (IsUnlinked r)) /\
  forall units uri_of s3 q, definition units uri_of (Compile.Model.run h) (Compile.Model.run h) s3 doc q = Panics.
Proof.
  exists broken, 1. split; [|split].
  - cbn. repeat split; try (unfold wf_report; cbn; repeat constructor; cbn; intuition discriminate).
    + intros p [<-|[<-|[]]]; eexists; eapply says_linked; [now left|right; now left].
    + intros p [<-|[]]. eexists. eapply says_unlinked. now left.
  - exists 12. apply (l_say [first_]). eapply says_unlinked. now left.
  - reflexivity.
Qed.

Print Assumptions C156_definition_partial.
Print Assumptions C156_only_current.
Print Assumptions C156_no_source.
Print Assumptions C156_file.
Print Assumptions C156_file_no_source.
Print Assumptions C156_references.
Print Assumptions C156_recompiled_refuted.
Print Assumptions C156_recompiled.
Print Assumptions C156_syntax_error_refuted.
