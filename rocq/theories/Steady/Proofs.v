From Coq Require Import Ascii String ZArith Lia Permutation Sorted.
From Verif Require Import Base Strs.
From Verif.Completion Require Import Model Proofs.
From Verif.Steady Require Import Model Spec.
Open Scope list_scope.

Lemma app_sorted {A} (R : A -> A -> Prop) l r : StronglySorted R l -> StronglySorted R r -> (forall x y, In x l -> In y r -> R x y) -> StronglySorted R (l ++ r).
Proof.
  induction 1 as [|a l S IH F]; intros Sr H; [exact Sr|]. cbn. constructor; [apply IH; [exact Sr|intros; apply H; auto; now right]|].
  apply Forall_app. split; [exact F|]. apply Forall_forall. intros y I. apply H; [now left|exact I].
Qed.
Section Sort.
Variable A : Type.
Variable less : A -> A -> bool.
Variable P : A -> Prop.
Hypothesis asym : forall a b, P a -> P b -> less a b = true -> less b a = false.
Hypothesis neg : forall a b c, P a -> P b -> P c -> less a b = false -> less b c = false -> less a c = false.

Lemma insert_perm x l : Permutation (x :: l) (insert_left less x l).
Proof. induction l as [|y l IH]; [apply Permutation_refl|]. cbn. destruct (less x y); [|apply Permutation_refl]. eapply perm_trans; [apply perm_swap|]. now constructor. Qed.
Lemma insert_sorted x l : P x -> Forall P l -> StronglySorted (fun a b => less a b = false) l -> StronglySorted (fun a b => less a b = false) (insert_left less x l).
Proof.
  intros Px Pl. induction 1 as [|y l S IH F]; [repeat constructor|]. inversion Pl as [|? ? Py Pl']; subst. cbn. destruct (less x y) eqn:E.
  - constructor; [now apply IH|]. eapply Permutation_Forall; [apply insert_perm|]. constructor; [now apply asym|exact F].
  - constructor; [now constructor|]. constructor; [exact E|]. apply Forall_forall. intros z I. apply (neg x y z); auto; [now apply (proj1 (Forall_forall P l) Pl')|exact (proj1 (Forall_forall _ _) F z I)].
Qed.
Lemma fold_sorted l : forall seen, Forall P l -> Forall P seen -> StronglySorted (fun a b => less a b = false) seen ->
  StronglySorted (fun a b => less a b = false) (fold_left (fun seen x => insert_left less x seen) l seen) /\ Permutation (l ++ seen) (fold_left (fun seen x => insert_left less x seen) l seen).
Proof.
  induction l as [|x l IH]; intros seen Pl Ps S; [split; [exact S|apply Permutation_refl]|]. inversion Pl as [|? ? Px Pl']; subst. cbn [fold_left].
  destruct (IH (insert_left less x seen) Pl') as [S' E]; [eapply Permutation_Forall; [apply insert_perm|now constructor]|now apply insert_sorted|].
  split; [exact S'|]. eapply perm_trans; [|exact E]. cbn. eapply perm_trans; [apply Permutation_middle|]. apply Permutation_app_head. apply insert_perm.
Qed.
Lemma rev_sorted l : StronglySorted (fun a b => less a b = false) l -> StronglySorted (fun a b => less b a = false) (rev l).
Proof.
  induction 1 as [|a l S IH F]; [constructor|]. cbn. apply app_sorted; [exact IH|repeat constructor|]. intros x y I [<-|[]]. apply (proj1 (Forall_forall _ _) F). now apply in_rev.
Qed.
Lemma go_sorts long l : sorts less l (long l) -> Forall P l -> Permutation l (go_sort less long l) /\ StronglySorted (fun a b => less b a = false) (go_sort less long l).
Proof.
  intros C Pl. unfold go_sort. destruct (_ <=? _); [|exact C]. destruct (fold_sorted l [] Pl) as [S E]; [constructor|constructor|]. rewrite app_nil_r in E. split.
  - unfold insertion_sort. eapply perm_trans; [exact E|apply Permutation_rev].
  - now apply rev_sorted.
Qed.
(** elements that are all comparable are sorted in one way only *)
Lemma sorted_unique l : forall r, (forall a b, In a l -> In b l -> less a b = false -> less b a = false -> a = b) -> Permutation l r ->
  StronglySorted (fun a b => less b a = false) l -> StronglySorted (fun a b => less b a = false) r -> l = r.
Proof.
  induction l as [|a l IH]; intros r T E Sl Sr; [apply Permutation_nil in E; now subst|]. destruct r as [|b r]; [apply Permutation_sym, Permutation_nil in E; discriminate|].
  inversion Sl as [|? ? Sl' Fl]; subst. inversion Sr as [|? ? Sr' Fr]; subst.
  assert (a = b).
  { assert (Ia : In a (b :: r)) by (eapply Permutation_in; [exact E|now left]). assert (Ib : In b (a :: l)) by (eapply Permutation_in; [apply Permutation_sym; exact E|now left]).
    destruct Ia as [->|Ia]; [reflexivity|]. destruct Ib as [->|Ib]; [reflexivity|]. apply T; [now left|now right|exact (proj1 (Forall_forall _ _) Fr a Ia)|exact (proj1 (Forall_forall _ _) Fl b Ib)]. }
  subst b. f_equal. apply IH; [intros; apply T; auto; now right|now apply Permutation_cons_inv in E|exact Sl'|exact Sr'].
Qed.
Lemma steady long long' l l' : sorts less l (long l) -> sorts less l' (long' l') -> Forall P l -> (forall a b, In a l -> In b l -> less a b = false -> less b a = false -> a = b) ->
  Permutation l l' -> go_sort less long l = go_sort less long' l'.
Proof.
  intros C C' Pl T E. destruct (go_sorts long l C Pl) as [E1 S1]. destruct (go_sorts long' l' C') as [E2 S2]; [eapply Permutation_Forall; [exact E|exact Pl]|].
  apply sorted_unique; [|eapply perm_trans; [apply Permutation_sym; exact E1|]; eapply perm_trans; [exact E|exact E2]|exact S1|exact S2].
  intros a b Ia Ib. apply T; eapply Permutation_in; try (apply Permutation_sym; exact E1); assumption.
Qed.
End Sort.

(** dictionary order *)
Lemma dict_inv a b : dict a b -> (exists x r, b = a ++ x :: r) \/ (exists p x r y s, a = p ++ x :: r /\ b = p ++ y :: s /\ (N_of_ascii x < N_of_ascii y)%N).
Proof. intros [p x r|p x r y s L]; [left; eauto|right]. exists p, x, r, y, s. auto. Qed.
Lemma dict_nil a : ~ dict a [].
Proof. intro H. apply dict_inv in H. destruct H as [(x & r & E)|(p & x & r & y & s & _ & E & _)]; symmetry in E; apply app_eq_nil in E; destruct E; discriminate. Qed.
Lemma blt_dict a : forall b, blt a b = true <-> dict a b.
Proof.
  induction a as [|x a IH]; intros [|y b].
  - cbn. split; [discriminate|]. intro H. now apply dict_nil in H.
  - cbn. split; [intros _; apply (d_shorter [] y b)|reflexivity].
  - cbn. split; [discriminate|]. intro H. now apply dict_nil in H.
  - cbn [blt]. destruct (Ascii.eqb_spec x y) as [<-|N].
    + rewrite IH. split; intro H; apply dict_inv in H.
      * destruct H as [(z & r & ->)|(p & z & r & w & s & -> & -> & L)]; [apply (d_shorter (x :: a))|apply (d_first (x :: p)); assumption].
      * destruct H as [(z & r & E)|(p & z & r & w & s & E1 & E2 & L)]; [injection E as ->; constructor|]. destruct p as [|c p]; cbn in *; [injection E1 as <- <-; injection E2 as <- <-; lia|].
        injection E1 as -> ->. injection E2 as ->. now constructor.
    + rewrite N.ltb_lt. split; intro H; [apply (d_first []); exact H|]. apply dict_inv in H. destruct H as [(z & r & E)|(p & z & r & w & s & E1 & E2 & L)]; [injection E as -> _; congruence|].
      destruct p as [|c p]; cbn in *; [injection E1 as <- <-; injection E2 as <- <-; exact L|]. injection E1 as -> ->. injection E2 as -> _. congruence.
Qed.
Lemma blt_as a b : blt a b = true -> blt b a = false.
Proof. intro H. destruct (blt b a) eqn:E; [|reflexivity]. pose proof (blt_trans _ _ _ H E) as X. now rewrite blt_irrefl in X. Qed.
Lemma blt_eq a b : blt a b = false -> blt b a = false -> a = b.
Proof. intros H1 H2. destruct (blt_total a b) as [E|[E|E]]; [exact E|congruence|congruence]. Qed.
Lemma blt_neg a b c : blt a b = false -> blt b c = false -> blt a c = false.
Proof.
  intros H1 H2. destruct (blt a c) eqn:E; [|reflexivity]. destruct (blt_total a b) as [->|[X|X]]; [congruence|congruence|]. pose proof (blt_trans _ _ _ X E). congruence.
Qed.
Lemma bracketed_iff n : bracketed n = true <-> exists r, n = "("%char :: r.
Proof. destruct n as [|c n]; cbn; [split; [discriminate|intros [r H]; discriminate]|]. rewrite Ascii.eqb_eq. split; [intros ->; eauto|intros [r [= -> _]]; reflexivity]. Qed.
Lemma option_less_iff a b : option_less a b = true <-> option_before a b.
Proof.
  unfold option_less. pose proof (bracketed_iff (name a)) as A. pose proof (bracketed_iff (name b)) as B. fold (custom a) in A. fold (custom b) in B.
  destruct (bracketed (name a)), (bracketed (name b)); cbn [negb andb]; rewrite ?blt_dict.
  - split; [intro D; apply ob_name; [tauto|exact D]|]. intros [N _|_ D]; [destruct N; tauto|exact D].
  - split; [discriminate|]. intros [_ C|C _]; exfalso; [assert (false = true) by tauto; discriminate|assert (false = true) by tauto; discriminate].
  - split; [|reflexivity]. intros _. apply ob_custom; [|tauto]. intro C. assert (false = true) by tauto. discriminate.
  - split; [intro D; apply ob_name; [|exact D]; split; intro C; exfalso; assert (false = true) by tauto; discriminate|]. intros [_ C|_ D]; [|exact D]. assert (false = true) by tauto. discriminate.
Qed.
Lemma option_asym a b : option_less a b = true -> option_less b a = false.
Proof. unfold option_less. destruct (bracketed (name a)), (bracketed (name b)); cbn; try discriminate; try reflexivity; apply blt_as. Qed.
Lemma option_neg a b c : option_less a b = false -> option_less b c = false -> option_less a c = false.
Proof. unfold option_less. destruct (bracketed (name a)), (bracketed (name b)), (bracketed (name c)); cbn; try discriminate; try reflexivity; apply blt_neg. Qed.
Lemma option_eq a b : option_less a b = false -> option_less b a = false -> name a = name b.
Proof. unfold option_less. destruct (bracketed (name a)), (bracketed (name b)); cbn; try discriminate; apply blt_eq. Qed.
Lemma key_less_iff a b : key_less a b = true <-> key_before a b.
Proof.
  destruct a as [x|s|[]], b as [y|t|[]]; cbn; try (split; [discriminate|inversion 1]).
  - rewrite Z.ltb_lt. split; [now constructor|now inversion 1].
  - rewrite blt_dict. split; [now constructor|now inversion 1].
  - split; [constructor|reflexivity].
Qed.
