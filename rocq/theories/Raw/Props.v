(** Property theorems for the values of options that are printed (C175). *)
From Coq Require Import Ascii String ZArith Lia.
From Verif Require Import Base Strs.
From Verif.Raw Require Import Model Spec Proofs.
Open Scope list_scope.

(** One option is printed for every value of the field, in their order, with the name of the field.  Missing: numbers of
    enums without a name, see below. *)
Theorem C175_values_partial : forall enum_name entry_text name vs, (forall v, In v vs -> named enum_name v) ->
  Forall2 (fun v o => fst o = name /\ shows enum_name v (snd o)) vs (value_to_options enum_name entry_text name (Repeated vs)).
Proof.
  intros enum_name entry_text name vs N. cbn. assert (F : Forall2 (fun v y => value_for_option enum_name v = Some y) vs (keep_some (map (value_for_option enum_name) vs))).
  { apply keep_map. intros [n|t] I; cbn; [exact (N _ I n eq_refl)|discriminate]. }
  induction F as [|v y vs ys E F IH]; [constructor|]. cbn [map]. constructor; [|apply IH; intros; apply N; now right]. split; [reflexivity|]. cbn. destruct v; cbn in E; [now constructor|]. injection E as ->. constructor.
Qed.
Theorem C175_single_partial : forall enum_name entry_text name v, named enum_name v -> exists t, value_to_options enum_name entry_text name (Single v) = [(name, t)] /\ shows enum_name v t.
Proof. intros enum_name entry_text name [n|t] N; cbn; [|exists t; split; [reflexivity|constructor]]. destruct (enum_name n) as [t|] eqn:E; [|destruct (N n eq_refl E)]. exists t. split; [reflexivity|now constructor]. Qed.
Theorem C175_map_partial : forall enum_name entry_text name es, (forall k v, In (k, v) es -> named enum_name v) ->
  value_to_options enum_name entry_text name (Map es) = map (fun e => (name, entry_text (fst e) (snd e))) es.
Proof.
  intros enum_name entry_text name es N. cbn. f_equal. induction es as [|[k v] es IH]; [reflexivity|]. cbn [filter snd]. rewrite IH by (intros k' v' I; apply (N k' v'); now right).
  destruct v as [n|t]; [|reflexivity]. pose proof (N k (VEnum n) (or_introl eq_refl) n eq_refl) as X. destruct (enum_name n); [reflexivity|congruence].
Qed.
(** A value of an enum that has no name is left out. *)
Theorem C175_values_refuted : exists enum_name entry_text name vs, List.length (value_to_options enum_name entry_text name (Repeated vs)) <> List.length vs.
Proof. exists (fun n => if (n =? 1)%Z then Some (b_ "A") else None), (fun _ _ => []), (b_ "o"), [VEnum 1; VEnum 7]. cbn. discriminate. Qed.
Example C175_case : value_to_options (fun n => if (n =? 1)%Z then Some (b_ "A") else None) (fun _ _ => []) (b_ "o") (Repeated [VEnum 1; VOther (b_ "x")]) = [(b_ "o", b_ "A"); (b_ "o", b_ "x")] /\
  named (fun n => if (n =? 1)%Z then Some (b_ "A") else None) (VEnum 1).
Proof. split; [reflexivity|]. intros n [= <-]. discriminate. Qed.

(** Options that were not interpreted have different names if their parts differ. *)
Theorem C175_name : forall ps qs, Forall proper ps -> Forall proper qs -> raw_name true ps = raw_name true qs -> ps = qs.
Proof.
  intros [|p ps] [|q qs] P Q E; [reflexivity| | |].
  - inversion Q as [|? ? Pq Pqs]; subst. symmetry in E. change (part_text q ++ raw_name false qs = []) in E. apply app_eq_nil in E. destruct (text_not_nil q Pq). tauto.
  - inversion P as [|? ? Pp Pps]; subst. change (part_text p ++ raw_name false ps = []) in E. apply app_eq_nil in E. destruct (text_not_nil p Pp). tauto.
  - change (part_text p ++ raw_name false ps = part_text q ++ raw_name false qs) in E. inversion P as [|? ? Pp Pps]; subst. inversion Q as [|? ? Pq Pqs]; subst. destruct (text_inj p q ps qs Pp Pq E) as [-> E']. f_equal. now apply rest_inj.
Qed.
Example C175_name_case : raw_name true [mkPart (b_ "a.b") true; mkPart (b_ "c") false; mkPart (b_ "d") true] = b_ "(a.b).c.(d)" /\
  Forall proper [mkPart (b_ "a.b") true; mkPart (b_ "c") false; mkPart (b_ "d") true].
Proof. split; [reflexivity|]. repeat constructor; cbn; intuition discriminate. Qed.
(** Printed is what the option is set to, *)
Theorem C175_set : forall quoted u x, set_to u x -> (forall y, set_to u y -> y = x) -> print_raw quoted u = Some (raw_name true (parts u) ++ b_ " = " ++ written quoted x).
Proof.
  intros quoted u x S U. unfold print_raw. replace (raw_value quoted u) with (Some (written quoted x)); [reflexivity|]. unfold raw_value.
  destruct (identifier u) as [s|] eqn:E1; [now rewrite <- (U _ (st_identifier u s E1))|].
  destruct (text u) as [s|] eqn:E2; [now rewrite <- (U _ (st_text u s E2))|].
  destruct (double u) as [s|] eqn:E3; [now rewrite <- (U _ (st_double u s E3))|].
  destruct (positive u) as [s|] eqn:E4; [now rewrite <- (U _ (st_positive u s E4))|].
  destruct (negative u) as [s|] eqn:E5; [now rewrite <- (U _ (st_negative u s E5))|].
  destruct (aggregate u) as [s|] eqn:E6; [now rewrite <- (U _ (st_aggregate u s E6))|].
  exfalso. destruct S; congruence.
Qed.
Example C175_set_case : print_raw (fun s => b_ "'" ++ s ++ b_ "'") (mkRaw [mkPart (b_ "o") true] None (Some (b_ "x")) None None None None) = Some (b_ "(o) = 'x'") /\
  (forall y, set_to (mkRaw [mkPart (b_ "o") true] None (Some (b_ "x")) None None None None) y -> y = SText (b_ "x")).
Proof. split; [reflexivity|]. intros y S. destruct S as [s E|s E|s E|s E|s E|s E]; cbn in E; try discriminate. now injection E as <-. Qed.
(** and printing fails exactly for an option that is set to nothing. *)
Theorem C175_fails_iff : forall quoted u, print_raw quoted u = None <-> forall x, ~ set_to u x.
Proof.
  intros quoted u. unfold print_raw, raw_value. split.
  - intros E x S. destruct (identifier u) eqn:E1; [discriminate|]. destruct (text u) eqn:E2; [discriminate|]. destruct (double u) eqn:E3; [discriminate|].
    destruct (positive u) eqn:E4; [discriminate|]. destruct (negative u) eqn:E5; [discriminate|]. destruct (aggregate u) eqn:E6; [discriminate|]. destruct S; congruence.
  - intro N. destruct (identifier u) as [s|] eqn:E1; [destruct (N _ (st_identifier u s E1))|]. destruct (text u) as [s|] eqn:E2; [destruct (N _ (st_text u s E2))|].
    destruct (double u) as [s|] eqn:E3; [destruct (N _ (st_double u s E3))|]. destruct (positive u) as [s|] eqn:E4; [destruct (N _ (st_positive u s E4))|].
    destruct (negative u) as [s|] eqn:E5; [destruct (N _ (st_negative u s E5))|]. destruct (aggregate u) as [s|] eqn:E6; [destruct (N _ (st_aggregate u s E6))|]. reflexivity.
Qed.
Example C175_fails_case : print_raw (fun s => s) (mkRaw [mkPart (b_ "o") true] None None None None None None) = None.
Proof. reflexivity. Qed.

Print Assumptions C175_values_partial.
Print Assumptions C175_single_partial.
Print Assumptions C175_map_partial.
Print Assumptions C175_values_refuted.
Print Assumptions C175_name.
Print Assumptions C175_set.
Print Assumptions C175_fails_iff.
