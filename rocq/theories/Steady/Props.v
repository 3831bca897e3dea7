(** Property theorems for the orders in which maps are printed (C170). *)
From Coq Require Import Ascii String ZArith Lia Permutation Sorted.
From Verif Require Import Base Strs.
From Verif.Steady Require Import Model Spec Proofs.
Open Scope list_scope.

(** Options are listed in the same order each time, whatever the order of iteration and the way of sorting; the options
    of the language come before extensions, each by name.  Missing: options of the same name, see below. *)
Theorem C170_options_partial : forall long long' l l', sorts option_less l (long l) -> sorts option_less l' (long' l') -> Permutation l l' ->
  (forall a b, In a l -> In b l -> name a = name b -> a = b) -> NoDup l ->
  options_in_order long l = options_in_order long' l' /\ Permutation l (options_in_order long l) /\ StronglySorted option_before (options_in_order long l).
Proof.
  intros long long' l l' C C' E D N. unfold options_in_order.
  assert (T : forall a b, In a l -> In b l -> option_less a b = false -> option_less b a = false -> a = b) by (intros a b Ia Ib H1 H2; apply D; auto; now apply option_eq).
  split; [apply (steady _ _ (fun _ => True)); auto; [intros; now apply option_asym|intros a b c _ _ _; apply option_neg|now apply Forall_forall]|].
  destruct (go_sorts _ option_less (fun _ => True)) with (long := long) (l := l) as [P S]; auto; [intros; now apply option_asym|intros a b c _ _ _; apply option_neg|now apply Forall_forall|].
  split; [exact P|]. assert (N' : NoDup (go_sort option_less long l)) by (eapply Permutation_NoDup; eauto).
  assert (T' : forall a b, In a (go_sort option_less long l) -> In b (go_sort option_less long l) -> option_less a b = false -> option_less b a = false -> a = b)
    by (intros a b Ia Ib; apply T; eapply Permutation_in; try (apply Permutation_sym; exact P); assumption).
  clear - S N' T'. induction S as [|a r S IH F]; [constructor|]. inversion N'; subst. constructor; [apply IH; [assumption|intros; apply T'; auto; now right]|].
  apply Forall_forall. intros b I. apply option_less_iff. destruct (option_less a b) eqn:O; [reflexivity|]. exfalso. assert (a = b); [|subst; contradiction].
  apply T'; [now left|now right|exact O|exact (proj1 (Forall_forall _ _) F b I)].
Qed.
(** So are the keys of a map, *)
Theorem C170_keys : forall long long' l l', sorts key_less l (long l) -> sorts key_less l' (long' l') -> Permutation l l' -> NoDup l -> (forall a b, In a l -> In b l -> same_type a b) ->
  keys_in_order long l = keys_in_order long' l' /\ Permutation l (keys_in_order long l) /\ StronglySorted key_before (keys_in_order long l).
Proof.
  intros long long' l l' C C' E N Ty. unfold keys_in_order.
  assert (G : exists P : key -> Prop, Forall P l /\ (forall a b, P a -> P b -> key_less a b = true -> key_less b a = false) /\
    (forall a b c, P a -> P b -> P c -> key_less a b = false -> key_less b c = false -> key_less a c = false) /\ (forall a b, P a -> P b -> key_less a b = false -> key_less b a = false -> a = b)).
  { destruct l as [|k l]; [exists (fun _ => False); repeat split; try contradiction; constructor|]. exists (same_type k). split; [apply Forall_forall; intros b I; apply Ty; [now left|exact I]|].
    destruct k as [x|s|b]; (split; [|split]); intros [?|?|?] [?|?|?]; cbn [same_type]; try contradiction; try (intros [?|?|?]; cbn [same_type]; try contradiction); intros; cbn [key_less] in *;
      rewrite ?Z.ltb_lt, ?Z.ltb_ge in *; try lia; try (f_equal; lia).
    - now apply blt_as.
    - eapply blt_neg; eauto.
    - f_equal. now apply blt_eq.
    - now destruct b0, b1.
    - now destruct b0, b1, b2.
    - f_equal. now destruct b0, b1. }
  destruct G as (P & FP & A & Ne & Eq).
  assert (T : forall a b, In a l -> In b l -> key_less a b = false -> key_less b a = false -> a = b) by (intros a b Ia Ib; apply Eq; now apply (proj1 (Forall_forall _ _) FP)).
  split; [now apply (steady _ _ P)|]. destruct (go_sorts _ key_less P A Ne long l C FP) as [Pm S]. split; [exact Pm|].
  assert (N' : NoDup (go_sort key_less long l)) by (eapply Permutation_NoDup; eauto).
  assert (T' : forall a b, In a (go_sort key_less long l) -> In b (go_sort key_less long l) -> key_less a b = false -> key_less b a = false -> a = b)
    by (intros a b Ia Ib; apply T; eapply Permutation_in; try (apply Permutation_sym; exact Pm); assumption).
  clear - S N' T'. induction S as [|a r S IH F]; [constructor|]. inversion N'; subst. constructor; [apply IH; [assumption|intros; apply T'; auto; now right]|].
  apply Forall_forall. intros b I. apply key_less_iff. destruct (key_less a b) eqn:O; [reflexivity|]. exfalso. assert (a = b); [|subst; contradiction].
  apply T'; [now left|now right|exact O|exact (proj1 (Forall_forall _ _) F b I)].
Qed.
(** and the fields of a message literal, by number. *)
Theorem C170_fields : forall long long' l l', sorts field_less l (long l) -> sorts field_less l' (long' l') -> Permutation l l' -> NoDup (map fst l) ->
  fields_in_order long l = fields_in_order long' l' /\ Permutation l (fields_in_order long l) /\ StronglySorted (fun a b => (fst a < fst b)%Z) (fields_in_order long l).
Proof.
  intros long long' l l' C C' E N. unfold fields_in_order.
  assert (A : forall a b : Z * bytes, True -> True -> field_less a b = true -> field_less b a = false) by (unfold field_less; intros a b _ _; rewrite Z.ltb_lt, Z.ltb_ge; lia).
  assert (Ne : forall a b c : Z * bytes, True -> True -> True -> field_less a b = false -> field_less b c = false -> field_less a c = false) by (unfold field_less; intros a b c _ _ _; rewrite !Z.ltb_ge; lia).
  assert (T : forall a b, In a l -> In b l -> fst a = fst b -> a = b).
  { clear - N. induction l as [|x l IH]; [intros a b []|]. cbn in N. inversion N as [|? ? Nx Nl]; subst. intros a b [<-|Ia] [<-|Ib] F; [reflexivity| | |now apply IH].
    - destruct Nx. rewrite F. now apply in_map.
    - destruct Nx. rewrite <- F. now apply in_map. }
  assert (T2 : forall a b, In a l -> In b l -> field_less a b = false -> field_less b a = false -> a = b) by (intros a b Ia Ib; unfold field_less; rewrite !Z.ltb_ge; intros; apply T; auto; lia).
  split; [apply (steady _ _ (fun _ => True)); auto; now apply Forall_forall|].
  destruct (go_sorts _ field_less (fun _ => True) A Ne long l C) as [P S]; [now apply Forall_forall|]. split; [exact P|].
  assert (N' : NoDup (map fst (go_sort field_less long l))) by (eapply Permutation_NoDup; [apply Permutation_map; exact P|exact N]).
  clear - S N'. induction S as [|a r S IH F]; [constructor|]. cbn in N'. inversion N' as [|? ? Na Nr]; subst. constructor; [now apply IH|].
  apply Forall_forall. intros b I. pose proof (proj1 (Forall_forall _ _) F b I) as O. unfold field_less in O. apply Z.ltb_ge in O. destruct (Z.eq_dec (fst a) (fst b)) as [X|X]; [|lia].
  exfalso. apply Na. rewrite X. now apply in_map.
Qed.

(** the contract can be met *)
Lemma insertion_sorts_options l : sorts option_less l (insertion_sort option_less l).
Proof.
  destruct (fold_sorted _ option_less (fun _ => True)) with (l := l) (seen := @nil entry) as [S E]; [intros; now apply option_asym|intros a b c _ _ _; apply option_neg|now apply Forall_forall|constructor|constructor|].
  rewrite app_nil_r in E. split; [unfold insertion_sort; eapply perm_trans; [exact E|apply Permutation_rev]|now apply rev_sorted].
Qed.
Definition deprecated := mkEntry 33 (b_ "deprecated").
Definition custom1 := mkEntry 50000 (b_ "(a.b)").
Definition uninterpreted := mkEntry 999 (b_ "deprecated").
Example C170_case : options_in_order (insertion_sort option_less) [custom1; deprecated] = [deprecated; custom1] /\
  options_in_order (insertion_sort option_less) [custom1; deprecated] = options_in_order (insertion_sort option_less) [deprecated; custom1].
Proof.
  split; [reflexivity|]. apply (C170_options_partial _ _ _ [deprecated; custom1] (insertion_sorts_options _) (insertion_sorts_options _)); [apply perm_swap| |repeat constructor; cbn; intuition discriminate].
  intros x y [<-|[<-|[]]] [<-|[<-|[]]]; cbn; intro E; try reflexivity; discriminate.
Qed.
Definition ab := [KText (b_ "b"); KText (b_ "ab"); KText (b_ "a")].
Example C170_keys_case : keys_in_order (insertion_sort key_less) ab = rev ab /\ keys_in_order (insertion_sort key_less) ab = keys_in_order (insertion_sort key_less) (rev ab) /\
  keys_in_order (fun l => l) [KBool true; KBool false] = [KBool false; KBool true].
Proof.
  split; [reflexivity|]. split; [|reflexivity]. assert (X : insertion_sort key_less ab = rev ab) by reflexivity. assert (Y : insertion_sort key_less (rev ab) = rev ab) by reflexivity.
  apply C170_keys; [rewrite X|rewrite Y| | |].
  - split; [apply Permutation_rev|cbn; repeat constructor].
  - split; [apply Permutation_refl|cbn; repeat constructor].
  - apply Permutation_rev.
  - repeat constructor; cbn; intuition discriminate.
  - intros x y [<-|[<-|[<-|[]]]] [<-|[<-|[<-|[]]]]; exact I.
Qed.
Definition two := [(2%Z, b_ "b"); (1%Z, b_ "a")].
Example C170_fields_case : fields_in_order (insertion_sort field_less) two = rev two /\ fields_in_order (insertion_sort field_less) two = fields_in_order (insertion_sort field_less) (rev two).
Proof.
  split; [reflexivity|]. assert (X : insertion_sort field_less two = rev two) by reflexivity. assert (Y : insertion_sort field_less (rev two) = rev two) by reflexivity.
  apply C170_fields; [rewrite X|rewrite Y| |].
  - split; [apply Permutation_rev|cbn; repeat constructor].
  - split; [apply Permutation_refl|cbn; repeat constructor].
  - apply Permutation_rev.
  - repeat constructor; cbn; intuition discriminate.
Qed.
(** An option of the language that is set and also among the options not yet interpreted comes first or second by chance. *)
Theorem C170_options_refuted : exists a b, name a = name b /\ tag a <> tag b /\ forall long, options_in_order long [a; b] = [a; b] /\ options_in_order long [b; a] = [b; a] /\ Permutation [a; b] [b; a].
Proof. exists deprecated, uninterpreted. split; [reflexivity|]. split; [discriminate|]. intro long. split; [reflexivity|]. split; [reflexivity|apply perm_swap]. Qed.

Print Assumptions C170_options_partial.
Print Assumptions C170_keys.
Print Assumptions C170_fields.
Print Assumptions C170_options_refuted.
