From Coq Require Import Ascii String.
From Verif Require Import Base Strs.
From Verif.Compile Require Import Spec.
From Verif.Compile Require Props.
From Verif.Locate Require Import Model Spec.
From Verif.Locate Require Props.
From Verif.Definition Require Import Model Spec.
Open Scope list_scope.

Lemma current_found h p r : well_behaved h -> current h p r -> Compile.Model.find_result_or_partial (Compile.Model.run h) p = Compile.Model.Found r.
Proof.
  intros W [L|L]; destruct (Compile.Props.C08_lookups_current_partial h p _ W L) as [_ [H _]]; apply H; auto.
Qed.
Lemma current_parsed h p r : well_behaved h -> current h p r -> Compile.Model.find_parse (Compile.Model.run h) p = Compile.Model.Found r.
Proof.
  intros W [L|L]; destruct (Compile.Props.C08_lookups_current_partial h p _ W L) as [_ [_ H]]; apply H; auto.
Qed.
Lemma stands_found u g c d : stands_for u c d ->
  search (table (u_tops u)) (u_types u) (u_io u) (u_extends u) (u_full u) (u_extendee u) g c = Found d.
Proof.
  intros [c0 d0 N P|c0 c' d0 t N P T E|c0 c' d0 t N P T L E|c0 c' d0 i N P T].
  - now apply Locate.Props.C119_name_partial.
  - apply (Locate.Props.C120_type_partial (u_tops u) _ _ _ _ _ _ c0 c' d0 t N P T). now left.
  - apply (Locate.Props.C120_type_partial (u_tops u) _ _ _ _ _ _ c0 c' d0 t N P T). right. now split.
  - now apply (Locate.Props.C120_method (u_tops u) _ _ _ _ _ _ c0 c' d0 i).
Qed.

Section P.
Variable units : rid -> unit_.
Variable uri_of : path -> option bytes.

Lemma at_found h1 h2 doc q r c d :
  well_behaved h1 -> well_behaved h2 -> current h1 doc r -> current h2 doc r ->
  u_focus (units r) q = Some c -> stands_for (units r) c d ->
  descriptor_at units (Compile.Model.run h1) (Compile.Model.run h2) doc q = At (made_by units r d).
Proof.
  intros W1 W2 C1 C2 F St. unfold descriptor_at. rewrite (current_parsed _ _ _ W1 C1), (current_found _ _ _ W2 C2), F.
  now rewrite (stands_found _ _ _ _ St).
Qed.
Lemma located h t w p g u :
  well_behaved h -> current h p t -> u_path (units t) = p -> u_source (units t) = true -> w <> [] -> u_name (units t) w = Some g -> uri_of p = Some u ->
  locate units uri_of (Compile.Model.run h) (t, w) = Location u g.
Proof.
  intros W C Hp Hs Hw Hn Hu. unfold locate. cbn [fst]. rewrite Hp, (current_found _ _ _ W C). unfold find_definition.
  rewrite Nat.eqb_refl, Hs. destruct w; [now destruct Hw|]. now rewrite Hn, Hp, Hu.
Qed.
Lemma not_located h t t' w p :
  well_behaved h -> current h p t' -> u_path (units t) = p -> t <> t' -> w <> [] ->
  locate units uri_of (Compile.Model.run h) (t, w) = Error.
Proof.
  intros W C Hp Hne Hw. unfold locate. cbn [fst]. rewrite Hp, (current_found _ _ _ W C). unfold find_definition.
  destruct w; [now destruct Hw|]. apply Nat.eqb_neq in Hne. now rewrite Hne.
Qed.
Lemma location_declared s t w u g : w <> [] ->
  locate units uri_of s (t, w) = Location u g ->
  Compile.Model.find_result_or_partial s (u_path (units t)) = Compile.Model.Found t /\ u_name (units t) w = Some g /\ uri_of (u_path (units t)) = Some u.
Proof.
  intros Hw. unfold locate. cbn [fst]. destruct (Compile.Model.find_result_or_partial s (u_path (units t))) as [r| |] eqn:E; try discriminate.
  unfold find_definition. destruct w; [now destruct Hw|]. destruct (Nat.eqb t r) eqn:Et; [|discriminate]. apply Nat.eqb_eq in Et. subst r.
  destruct (u_source (units t)); [|discriminate]. destruct (u_name (units t) (p :: w)) eqn:En; [|discriminate].
  destruct (uri_of (u_path (units t))) eqn:Eu; [|discriminate]. intro H. injection H as <- <-. auto.
Qed.
End P.
