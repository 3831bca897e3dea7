(** Property theorems for simplifying repeated options (C60). *)
From Coq Require Import Permutation.
From Verif Require Import Base.
From Verif.Simplify Require Import Model Spec Proofs.

(** C60, where the first mention is in a container that has the field as an
    array: all values are kept, in one place, and so is everything else. *)
Theorem C60_values_kept_partial :
  forall p es q a, refs_of p = [] -> first_array (fields_of es) = Some a ->
  exists b', simplify MessageOrFile (mkBody p (Some es) q) = Done b' /\
    Permutation (values b') (values (mkBody p (Some es) q)) /\
    others b' = others (mkBody p (Some es) q) /\ other_elems b' = other_elems (mkBody p (Some es) q) /\ places b' = 1.
Proof.
  intros p es q a HP HA. unfold simplify. cbn [pre cont post]. rewrite HP, HA.
  assert (NE := first_array_nonempty _ _ HA).
  assert (FN : first_array (fields_of es) <> None) by congruence.
  destruct (fields_of es) as [|v vs] eqn:F; [congruence|]. rewrite <- F in *. eexists. split; [reflexivity|].
  split; [|split; [|split]]; unfold values, others, other_elems, places; cbn [pre cont post].
  - rewrite !drop_vals, update_vals by assumption. rewrite (no_refs_vals p HP). cbn [app]. rewrite app_nil_r, app_assoc.
    rewrite (moved_perm _ _ HA), fields_vals, refs_vals. reflexivity.
  - rewrite !flat_map_app, !drop_others. reflexivity.
  - apply update_others.
  - rewrite filter_app, !drop_places, update_places by assumption. reflexivity.
Qed.
(** Their order is kept if the array is the field's first mention. *)
Theorem C60_order_kept_partial :
  forall p es q a vs, refs_of p = [] -> fields_of es = Arr a :: vs ->
  exists b', simplify MessageOrFile (mkBody p (Some es) q) = Done b' /\ values b' = values (mkBody p (Some es) q).
Proof.
  intros p es q a vs HP HF. unfold simplify. cbn [pre cont post]. rewrite HP, HF. cbn [first_array moved_within].
  assert (FN : first_array (fields_of es) <> None) by (rewrite HF; discriminate).
  eexists. split; [reflexivity|]. unfold values. cbn [pre cont post].
  rewrite !drop_vals, update_vals by assumption. rewrite (no_refs_vals p HP), moved_true, <- fields_vals, HF. cbn [flat_map val_list app].
  rewrite refs_vals, app_nil_r, <- app_assoc. reflexivity.
Qed.
Example C60_example :
  simplify MessageOrFile (mkBody [IOther 0] (Some [EField (Arr [1]); EOther 7; EField (Arr [2]); EField (One 3)]) [IRef (One 4); IOther 1; IRef (Arr [5; 6])])
  = Done (mkBody [IOther 0] (Some [EField (Arr [1; 2; 3; 4; 5; 6]); EOther 7]) [IOther 1]).
Proof. reflexivity. Qed.

(** The documented use, without a container, panics ... *)
Theorem C60_documented_case_panics_refuted :
  forall p q, refs_of p ++ refs_of q <> [] -> simplify MessageOrFile (mkBody p None q) = Panic.
Proof. intros p q H. unfold simplify. cbn [pre cont post]. destruct (refs_of p ++ refs_of q); [congruence|reflexivity]. Qed.
(** ... and so does every use whose first mention precedes the container or is
    not in it. *)
Theorem C60_first_outside_panics_refuted :
  forall p es q, refs_of p <> [] \/ (fields_of es = [] /\ refs_of q <> []) ->
  simplify MessageOrFile (mkBody p (Some es) q) = Panic.
Proof.
  intros p es q H. unfold simplify. cbn [pre cont post].
  destruct (refs_of p) as [|x r]; cbn [app]; [|reflexivity].
  destruct H as [H|[HF HQ]]; [congruence|]. rewrite HF. destruct (refs_of q); [congruence|reflexivity].
Qed.
(** Without an array in it, the container is replaced: its other elements are lost. *)
Theorem C60_other_elements_lost_refuted :
  exists b b', simplify MessageOrFile b = Done b' /\ other_elems b = [7] /\ other_elems b' = [].
Proof. exists (mkBody [] (Some [EOther 7; EField (One 1)]) [IRef (One 2)]). eexists. split; [reflexivity|]. split; reflexivity. Qed.
(** The order can change. *)
Theorem C60_order_changed_refuted :
  exists b b', simplify MessageOrFile b = Done b' /\ values b = [1; 2] /\ values b' = [2; 1].
Proof. exists (mkBody [] (Some [EField (One 1); EField (Arr [2])]) []). eexists. split; [reflexivity|]. split; reflexivity. Qed.
(** In scopes other than messages and files values are duplicated or lost. *)
Theorem C60_other_scopes_refuted :
  exists b b' c c', simplify OtherScope b = Done b' /\ values b = [1; 2] /\ values b' = [1; 2; 2] /\
    simplify OtherScope c = Done c' /\ values c = [1] /\ values c' = [].
Proof.
  exists (mkBody [] (Some [EField (Arr [1])]) [IRef (One 2)]). eexists. exists (mkBody [] (Some [EField (One 1)]) []). eexists.
  split; [reflexivity|]. split; [reflexivity|]. split; [reflexivity|]. split; [reflexivity|]. split; reflexivity.
Qed.

Print Assumptions C60_values_kept_partial.
Print Assumptions C60_order_kept_partial.
Print Assumptions C60_documented_case_panics_refuted.
Print Assumptions C60_first_outside_panics_refuted.
Print Assumptions C60_other_elements_lost_refuted.
Print Assumptions C60_order_changed_refuted.
Print Assumptions C60_other_scopes_refuted.
