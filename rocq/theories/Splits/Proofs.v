From Coq Require Import Ascii String ZArith Lia.
From Verif Require Import Base Strs.
From Verif.Splits Require Import Model Spec.
Open Scope list_scope.

Lemma split_nat s k : k <= List.length s -> split_at s (Z.of_nat k) = Some (firstn k s, skipn k s).
Proof.
  intro L. unfold split_at. destruct (Z.ltb_spec (Z.of_nat k) 0); [lia|]. destruct (Z.ltb_spec (Z.of_nat (List.length s)) (Z.of_nat k)); [lia|]. cbn [orb]. now rewrite Nat2Z.id.
Qed.
Lemma split_beyond s i : (i < 0)%Z \/ (Z.of_nat (List.length s) < i)%Z -> split_at s i = None.
Proof. intro L. unfold split_at. destruct (Z.ltb_spec i 0); [reflexivity|]. destruct (Z.ltb_spec (Z.of_nat (List.length s)) i); [reflexivity|lia]. Qed.
Lemma closed_source w : closed_up w -> source w = meant w.
Proof. unfold source, meant. induction 1 as [|[t g] w E _ IH]; [reflexivity|]. cbn in *. now rewrite E, app_nil_r, IH. Qed.
Lemma closed_so_far w : closed_up w -> forall k, k <= List.length (meant w) -> so_far w k = firstn k (meant w).
Proof.
  unfold meant. induction 1 as [|[t g] w E _ IH]; intros k L; [now destruct k|]. cbn in *. rewrite E, app_nil_r. rewrite app_length in L.
  destruct (Nat.leb_spec k (List.length t)).
  - rewrite firstn_app. replace (k - List.length t) with 0 by lia. now rewrite firstn_O, app_nil_r.
  - rewrite IH by lia. rewrite firstn_app. now rewrite (firstn_all2 t) by lia.
Qed.
