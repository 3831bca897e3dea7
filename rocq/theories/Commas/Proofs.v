From Coq Require Import Lia.
From Verif Require Import Base.
From Verif.Commas Require Import Model Spec.
Open Scope list_scope.

Lemma ends_snoc ts t : ends_comma (ts ++ [t]) = match t with Comma => true | V _ => false end.
Proof. induction ts as [|x ts IH]; [now destruct t|]. cbn [app ends_comma]. destruct (ts ++ [t]) as [|y r] eqn:E; [now destruct ts|]. rewrite IH. now destruct x. Qed.
Lemma array_values l ts vs : array l ts vs -> split_values ts = vs.
Proof. unfold split_values. induction 1 as [|v|v w ts vs A IH]; [reflexivity|now destruct l|]. cbn [flat_map app]. now rewrite IH. Qed.
Lemma array_commas l ts vs : array l ts vs -> List.length (split_commas ts) = if l then List.length vs else pred (List.length vs).
Proof.
  unfold split_commas. induction 1 as [|v|v w ts vs A IH]; [now destruct l|now destruct l|]. cbn [flat_map app List.length] in *. rewrite IH. destruct l; reflexivity.
Qed.
Lemma array_ends l ts vs : array l ts vs -> vs <> [] -> ends_comma ts = l.
Proof.
  induction 1 as [|v|v w ts vs A IH]; intro N; [congruence|now destruct l|]. specialize (IH ltac:(discriminate)). destruct ts as [|t ts]; [inversion A as [|? H0|]; destruct l; discriminate H0|]. exact IH.
Qed.
Lemma array_nil l ts : array l ts [] -> ts = [].
Proof. inversion 1. reflexivity. Qed.
(** what one piece adds: its values, one comma for each, the last at the end *)
Lemma values_app a b : split_values (a ++ b) = split_values a ++ split_values b.
Proof. apply flat_map_app. Qed.
Lemma commas_app a b : split_commas (a ++ b) = split_commas a ++ split_commas b.
Proof. apply flat_map_app. Qed.
Definition closed (ts : list token) : Prop := List.length (split_commas ts) = List.length (split_values ts) /\ (split_values ts <> [] -> exists r, ts = r ++ [Comma]) /\ (split_values ts = [] -> ts = []).
Lemma closed_nil : closed [].
Proof. split; [reflexivity|]. split; [intro H; now destruct H|reflexivity]. Qed.
Lemma ends_inv ts : ends_comma ts = true -> exists r, ts = r ++ [Comma].
Proof.
  induction ts as [|x ts IH]; [discriminate|]. destruct ts as [|y ts]; [destruct x; [discriminate|now exists []]|]. intro E. change (ends_comma (x :: y :: ts)) with (match x with V _ | Comma => ends_comma (y :: ts) end) in E. destruct IH as [r E']; [now destruct x|]. exists (x :: r). now rewrite E'.
Qed.
Lemma append_closed acc p vs : gives p vs -> exists ts, append_piece acc p = acc ++ ts /\ split_values ts = vs /\ closed ts.
Proof.
  intros G. destruct G as [l ts vs A|v].
  - destruct ts as [|t ts].
    + exists []. pose proof (array_values _ _ _ A) as E. cbn in E. subst vs. rewrite app_nil_r. split; [reflexivity|]. split; [reflexivity|exact closed_nil].
    + set (l' := t :: ts) in *. assert (N : vs <> []) by (intros ->; now apply array_nil in A). exists (l' ++ if ends_comma l' then [] else [Comma]). split; [reflexivity|].
      rewrite (array_ends _ _ _ A N). pose proof (array_values _ _ _ A) as EV. pose proof (array_commas _ _ _ A) as EC. destruct l.
      * rewrite app_nil_r. split; [exact EV|]. repeat split; [now rewrite EC, EV|intros _; apply ends_inv; now apply (array_ends true l' vs)|congruence].
      * assert (EV' : split_values (l' ++ [Comma]) = vs) by (rewrite values_app, EV; apply app_nil_r). split; [exact EV'|]. repeat split; [|intros _; now exists l'|congruence].
        rewrite EV', commas_app, app_length, EC. destruct vs; [congruence|]. cbn. lia.
  - exists [V v; Comma]. split; [reflexivity|]. split; [reflexivity|]. repeat split; [intros _; now exists [V v]|discriminate].
Qed.
Lemma fold_closed ps : forall acc vss, Forall2 gives ps vss -> exists ts, fold_left append_piece ps acc = acc ++ ts /\ split_values ts = List.concat vss /\ closed ts.
Proof.
  induction ps as [|p ps IH]; intros acc vss F; inversion F as [|? vs ? vss' G F']; subst.
  - exists []. rewrite app_nil_r. split; [reflexivity|]. split; [reflexivity|exact closed_nil].
  - destruct (append_closed acc p vs G) as (t1 & E1 & V1 & L1 & C1 & N1). cbn [fold_left]. rewrite E1. destruct (IH (acc ++ t1) vss' F') as (t2 & E2 & V2 & L2 & C2 & N2).
    exists (t1 ++ t2). rewrite E2, <- app_assoc. split; [reflexivity|]. cbn [List.concat]. rewrite values_app, V1, V2. split; [reflexivity|]. repeat split.
    + rewrite commas_app, values_app, !app_length. lia.
    + intros N. destruct (split_values t2) as [|x xs] eqn:X.
      * rewrite (N2 eq_refl), app_nil_r. apply C1. rewrite values_app, X, app_nil_r in N. exact N.
      * destruct C2 as [r E]; [discriminate|]. exists (t1 ++ r). rewrite E. apply app_assoc.
    + rewrite values_app. intros E. apply app_eq_nil in E. now rewrite (N1 (proj1 E)), (N2 (proj2 E)).
Qed.
Lemma trim_snoc ts : trim (ts ++ [Comma]) = ts.
Proof. unfold trim. rewrite ends_snoc. apply removelast_last. Qed.

Lemma commas_all ts : Forall (eq Comma) (split_commas ts).
Proof. unfold split_commas. induction ts as [|[v|] ts IH]; cbn; [constructor|exact IH|now constructor]. Qed.
Lemma write_ok vs : forall cs, Forall (eq Comma) cs -> pred (List.length vs) <= List.length cs -> exists ts, write vs cs = Some ts /\ array false ts vs.
Proof.
  induction vs as [|v vs IH]; intros cs F L; [exists []; split; [reflexivity|constructor]|]. destruct vs as [|w vs]; [exists [V v]; split; [destruct cs; reflexivity|apply (arr_one false)]|].
  destruct cs as [|c cs]; [cbn in L; lia|]. inversion F as [|? ? E F']; subst. destruct (IH cs F') as (ts & E & A); [cbn in *; lia|]. exists (V v :: Comma :: ts). split; [|now constructor].
  change (match write (w :: vs) cs with Some ts => Some (V v :: Comma :: ts) | None => None end = Some (V v :: Comma :: ts)). now rewrite E.
Qed.
Lemma write_fails vs : forall cs, List.length cs < pred (List.length vs) -> write vs cs = None.
Proof.
  induction vs as [|v vs IH]; intros cs L; [cbn in L; lia|]. destruct vs as [|w vs]; [cbn in L; lia|]. destruct cs as [|c cs]; [reflexivity|].
  change (match write (w :: vs) cs with Some ts => Some (V v :: c :: ts) | None => None end = None). rewrite IH; [reflexivity|cbn in *; lia].
Qed.

(** the array that is put together: its values, and whether there are enough commas *)
Lemma join_counts l ts vs ps vss : array l ts vs -> Forall2 gives ps vss ->
  split_values (join ts ps) = vs ++ List.concat vss /\
  (List.length (split_commas (join ts ps)) < pred (List.length (vs ++ List.concat vss)) <-> vs <> [] /\ l = false /\ List.concat vss <> []).
Proof.
  intros A F. destruct (fold_closed ps ts vss F) as (n & E & EV & L & C & N). unfold join. rewrite E. pose proof (array_values _ _ _ A) as AV. pose proof (array_commas _ _ _ A) as AC. rewrite <- EV in *. clear F E.
  destruct (split_values n) as [|x xs] eqn:X.
  - rewrite (N eq_refl), !app_nil_r. destruct vs as [|v vs]; [rewrite (array_nil _ _ A); split; [reflexivity|]; cbn; split; [lia|tauto]|].
    assert (EN := array_ends _ _ _ A ltac:(discriminate)). unfold trim. rewrite EN. destruct l.
    + destruct (ends_inv ts EN) as [r ->]. rewrite removelast_last. rewrite values_app, app_nil_r in AV. split; [exact AV|]. rewrite commas_app, app_length in AC. cbn [List.length split_commas flat_map app] in AC. cbn [List.length] in *. split; [lia|]. intros (_ & ? & _). discriminate.
    + split; [exact AV|]. rewrite AC. split; [lia|tauto].
  - destruct C as [r E]; [discriminate|]. rewrite E in *. rewrite app_assoc, trim_snoc. rewrite values_app, app_nil_r in X. rewrite commas_app, app_length in L. cbn [List.length split_commas flat_map app] in L.
    split; [now rewrite values_app, AV, X|]. rewrite commas_app, !app_length, AC. unfold split_commas in *. cbn [List.length] in *. destruct vs as [|v vs], l; cbn [List.length pred] in *; split; try (intros (H1 & H2 & H3); try congruence); try lia; intros _; repeat split; discriminate.
Qed.
