From Coq Require Import Ascii String ZArith Lia.
From Verif Require Import Base Strs.
From Verif.Raw Require Import Model Spec.
Open Scope list_scope.

Lemma cut_at (c : ascii) a : forall b r s, ~ In c a -> ~ In c b -> a ++ c :: r = b ++ c :: s -> a = b /\ r = s.
Proof.
  induction a as [|x a IH]; intros [|y b] r s Na Nb E; cbn in E.
  - injection E as ->. auto.
  - injection E as -> _. destruct Nb. now left.
  - injection E as -> _. destruct Na. now left.
  - injection E as -> E. destruct (IH b r s) as [-> ->]; auto; intro I; [apply Na|apply Nb]; now right.
Qed.
Definition part_text (p : part) : bytes := if extension p then b_ "(" ++ part_name p ++ b_ ")" else part_name p.
Lemma raw_rest ps : raw_name false ps = [] \/ exists r, raw_name false ps = "."%char :: r.
Proof. destruct ps as [|p ps]; [now left|right]. cbn. eauto. Qed.
Lemma raw_rest_nil ps : raw_name false ps = [] -> ps = [].
Proof. destruct ps as [|p ps]; [reflexivity|]. cbn. discriminate. Qed.
Lemma raw_rest_cons p ps : raw_name false (p :: ps) = "."%char :: part_text p ++ raw_name false ps.
Proof. reflexivity. Qed.
Lemma text_inj p q r s : proper p -> proper q -> part_text p ++ raw_name false r = part_text q ++ raw_name false s -> p = q /\ raw_name false r = raw_name false s.
Proof.
  destruct p as [a e], q as [b f]. unfold proper, part_text. cbn [extension part_name]. destruct e, f; intros P Q E.
  - cbn in E. injection E as E. rewrite <- !app_assoc in E. destruct (cut_at _ _ _ _ _ P Q E) as [-> E']. auto.
  - exfalso. destruct Q as (N & _ & Nb). destruct b as [|c b]; [congruence|]. cbn in E. injection E as <- _. apply Nb. now left.
  - exfalso. destruct P as (N & _ & Na). destruct a as [|c a]; [congruence|]. cbn in E. injection E as -> _. apply Na. now left.
  - destruct P as (_ & P & _), Q as (_ & Q & _). destruct (raw_rest r) as [Er|[r' Er]], (raw_rest s) as [Es|[s' Es]]; rewrite Er, Es in E |- *.
    + rewrite !app_nil_r in E. subst. auto.
    + rewrite app_nil_r in E. subst. destruct P. apply in_or_app. right. now left.
    + rewrite app_nil_r in E. subst. destruct Q. apply in_or_app. right. now left.
    + destruct (cut_at _ _ _ _ _ P Q E) as [-> ->]. auto.
Qed.
Lemma rest_inj ps : forall qs, Forall proper ps -> Forall proper qs -> raw_name false ps = raw_name false qs -> ps = qs.
Proof.
  induction ps as [|p ps IH]; intros [|q qs] P Q E; [reflexivity|discriminate|discriminate|]. rewrite !raw_rest_cons in E. injection E as E. inversion P; subst. inversion Q; subst.
  destruct (text_inj p q ps qs) as [-> E']; auto. f_equal. now apply IH.
Qed.
Lemma text_not_nil p : proper p -> part_text p <> [].
Proof. destruct p as [a []]; unfold proper, part_text; cbn; [discriminate|tauto]. Qed.
Lemma keep_map {A B} (f : A -> option B) l : (forall x, In x l -> f x <> None) -> Forall2 (fun x y => f x = Some y) l (keep_some (map f l)).
Proof.
  induction l as [|x l IH]; intro H; [constructor|]. cbn. destruct (f x) as [y|] eqn:E; [constructor; [exact E|apply IH; intros; apply H; now right]|]. destruct (H x); [now left|exact E].
Qed.
