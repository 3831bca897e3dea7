From Coq Require Import Permutation.
From Verif Require Import Base.
From Verif.Simplify Require Import Model Spec.

Lemma refs_vals is : flat_map val_list (refs_of is) = flat_map item_vals is.
Proof. induction is as [|i is IH]; [reflexivity|]. destruct i as [[a|v]|n]; cbn; unfold refs_of in IH; now rewrite IH. Qed.
Lemma fields_vals es : flat_map val_list (fields_of es) = flat_map elem_vals es.
Proof. induction es as [|i es IH]; [reflexivity|]. destruct i as [[a|v]|n]; cbn; unfold fields_of in IH; now rewrite IH. Qed.
Lemma drop_vals is : flat_map item_vals (drop_refs is) = [].
Proof. induction is as [|i is IH]; [reflexivity|]. destruct i; cbn; exact IH. Qed.
Lemma drop_others is : flat_map (fun i => match i with IOther n => [n] | _ => [] end) (drop_refs is) = flat_map (fun i => match i with IOther n => [n] | _ => [] end) is.
Proof. induction is as [|i is IH]; [reflexivity|]. destruct i; cbn; unfold drop_refs in IH; now rewrite IH. Qed.
Lemma drop_places is : filter (fun i => match i with IRef _ => true | _ => false end) (drop_refs is) = [].
Proof. induction is as [|i is IH]; [reflexivity|]. destruct i; cbn; exact IH. Qed.
Lemma no_refs_vals is : refs_of is = [] -> flat_map item_vals is = [].
Proof. intros H. now rewrite <- refs_vals, H. Qed.

Lemma update_vals_true es new : flat_map elem_vals (update_container es new true) = [].
Proof. induction es as [|e es IH]; [reflexivity|]. destruct e as [[a|v]|n]; cbn; exact IH. Qed.
Lemma update_vals es new : first_array (fields_of es) <> None -> flat_map elem_vals (update_container es new false) = new.
Proof.
  induction es as [|e es IH]; cbn; [congruence|]. destruct e as [[a|v]|n]; cbn.
  - intros _. now rewrite update_vals_true, app_nil_r.
  - exact IH.
  - exact IH.
Qed.
Lemma update_others es new found :
  flat_map (fun e => match e with EOther n => [n] | _ => [] end) (update_container es new found) = flat_map (fun e => match e with EOther n => [n] | _ => [] end) es.
Proof. revert found. induction es as [|e es IH]; intros found; [reflexivity|]. destruct e as [[a|v]|n]; cbn; [destruct found; cbn; apply IH|apply IH|now rewrite IH]. Qed.
Lemma update_places_true es new : filter (fun e => match e with EField _ => true | _ => false end) (update_container es new true) = [].
Proof. induction es as [|e es IH]; [reflexivity|]. destruct e as [[a|v]|n]; cbn; exact IH. Qed.
Lemma update_places es new : first_array (fields_of es) <> None ->
  List.length (filter (fun e => match e with EField _ => true | _ => false end) (update_container es new false)) = 1.
Proof.
  induction es as [|e es IH]; cbn; [congruence|]. destruct e as [[a|v]|n]; cbn.
  - intros _. now rewrite update_places_true.
  - exact IH.
  - exact IH.
Qed.
Lemma moved_true vs : moved_within vs true = flat_map val_list vs.
Proof. induction vs as [|v vs IH]; [reflexivity|]. destruct v; cbn; now rewrite IH. Qed.
Lemma moved_perm vs a : first_array vs = Some a -> Permutation (a ++ moved_within vs false) (flat_map val_list vs).
Proof.
  induction vs as [|v vs IH]; cbn; [discriminate|]. destruct v as [b|x]; cbn.
  - intros [= ->]. now rewrite moved_true.
  - intros H. rewrite <- IH by assumption. symmetry. apply Permutation_middle.
Qed.
Lemma first_array_nonempty vs a : first_array vs = Some a -> vs <> []. Proof. intros H ->. discriminate. Qed.
