From Coq Require Import Ascii String Lia.
From Verif Require Import Base Strs.
From Verif.Offers Require Import Model Spec Proofs.
From Verif.Dots Require Import Model Spec.
Open Scope list_scope.

Lemma tree_app a : forall c z, tree c (a ++ z) = tree c a ++ tree (c + List.length (dotted a)) z.
Proof.
  induction a as [|p a IH]; intros c z; [cbn; now rewrite Nat.add_0_r|]. cbn [app tree]. rewrite IH. unfold dotted. cbn [map List.concat]. rewrite !app_length. cbn [List.length b_ list_ascii_of_string].
  do 4 f_equal. unfold dotted. lia.
Qed.
Lemma tree_length c ps : List.length (tree c ps) = 2 * List.length ps.
Proof. revert c. induction ps as [|p ps IH]; intro c; [reflexivity|]. cbn [tree List.length]. rewrite IH. lia. Qed.
Lemma last_app a z q : last_ref z = Some q -> last_ref (a ++ z) = Some q.
Proof. intro E. induction a as [|[r n p|] a IH]; [exact E| |exact IH]. cbn [app last_ref]. now rewrite IH. Qed.
Lemma nth_tree a c z k x : nth_error z k = Some x -> nth_error (tree c a ++ z) (2 * List.length a + k) = Some x.
Proof. intro E. rewrite nth_error_app2 by (rewrite tree_length; lia). rewrite tree_length. now replace (_ + k - _) with k by lia. Qed.

(** what the cursor is taken to be at *)
Lemma at_trailing options c a p : at_part options (tree c (a ++ [p])) (2 * List.length a + 1) false = (PField (type p), [], None).
Proof.
  unfold at_part. rewrite tree_app. cbn [tree]. erewrite (nth_tree a c _ 1 Dot) by reflexivity. destruct (Nat.ltb_spec 0 (2 * List.length a + 1)); [|lia].
  rewrite app_length, tree_length. cbn [List.length]. destruct (Nat.ltb_spec (2 * List.length a + 2 - 1) (2 * List.length a + 1 + 1)); [|lia].
  now rewrite (last_app _ [node_at (c + List.length (dotted a)) p; Dot] (PField (type p))).
Qed.
Lemma at_first options c p z : at_part options (tree c (p :: z)) 1 true = (PMsg options, word p, Some (if ext p then paren_ref c (word p) else plain_ref c (word p))).
Proof. reflexivity. Qed.
Lemma at_inner options c a q p z : at_part options (tree c (a ++ q :: p :: z)) (2 * List.length a + 3) true =
  (PField (type q), word p, Some (if ext q then paren_ref (c + List.length (dotted a)) (word q) else plain_ref (c + List.length (dotted a)) (word q))).
Proof.
  unfold at_part. rewrite tree_app. cbn [tree]. erewrite (nth_tree a c _ 3 Dot) by reflexivity. destruct (Nat.ltb_spec 0 (2 * List.length a + 3)); [|lia].
  replace (2 * List.length a + 3 - 1) with (2 * List.length a + 2) by lia. erewrite (nth_tree a c _ 2) by reflexivity. cbn [node_at].
  unfold back. destruct (Nat.ltb_spec (2 * List.length a + 3) 3) as [L|L]; [lia|]. replace (2 * List.length a + 3 - 3) with (2 * List.length a + 0) by lia.
  rewrite app_length, tree_length. cbn [List.length]. destruct (Nat.ltb_spec (2 * List.length a + S (S (S (S (List.length (tree (c + List.length (dotted a) + List.length (shown q) + 1 + List.length (shown p) + 1) z))))) - 1) (2 * List.length a + 0)); [lia|].
  erewrite (nth_tree a c _ 0) by reflexivity. reflexivity.
Qed.

(** what is offered *)
Lemma prefix_iff n t : has_prefix n t = true <-> exists r, n = t ++ r.
Proof. apply has_prefix_spec. Qed.
Lemma fields_offered exts pkg p m partial r pos t :
  (p = PMsg m /\ (forall r', r = Some r' -> is_extension r' = false) \/ p = PField (Some m) /\ (forall r', r = Some r' -> is_extension r' = true -> ranges m = false)) -> map_entry m = false ->
  ((exists i, In i (complete_names exts pkg [] p partial [] r pos) /\ goal i = TField t) <-> member m partial t).
Proof.
  intros P M.
  assert (E : exists b : bool, complete_names exts pkg [] p partial [] r pos =
    map (field_item pos partial []) (filter (fun f => negb (skipped [] partial [] f)) (fields m)) ++ (if b then map (ext_item pkg pos partial [] r) (filter (fun x => negb (gogo partial x)) exts) else [])).
  { destruct P as [[-> P]|[-> P]]; unfold complete_names; rewrite M.
    - exists true. destruct r as [r|]; [|reflexivity]. rewrite (P r eq_refl). reflexivity.
    - exists (ranges m). destruct r as [r|]; [|reflexivity]. specialize (P r eq_refl). destruct (is_extension r); [rewrite P by reflexivity; reflexivity|rewrite andb_false_r; reflexivity]. }
  destruct E as [b ->]. split.
  - intros (i & I & G). apply in_app_or in I as [I|I].
    + apply in_map_iff in I as (f & <- & I). apply filter_In in I as [I K]. cbn in G. injection G as <-. apply negb_true_iff in K. unfold skipped in K. apply orb_false_iff in K as [K _]. apply negb_false_iff in K.
      apply prefix_iff in K as [x K]. now exists f, x.
    + destruct b; [|destruct I]. apply in_map_iff in I as (x & <- & _). discriminate.
  - intros (f & x & I & <- & E). exists (field_item pos partial [] f). split; [|reflexivity]. apply in_or_app. left. apply in_map. apply filter_In. split; [exact I|]. apply negb_true_iff. unfold skipped.
    apply orb_false_iff. split; [apply negb_false_iff, prefix_iff; now exists x|]. apply andb_false_iff. now right.
Qed.

Lemma accept_at x y z e : from e = List.length x -> upto e = List.length x + List.length y -> accept (x ++ y ++ z) e = x ++ text e ++ z.
Proof.
  intros F U. unfold accept. rewrite F, U. rewrite firstn_app, firstn_all, Nat.sub_diag, firstn_O, app_nil_r. do 2 f_equal.
  rewrite app_assoc, <- app_length, skipn_app, skipn_all, Nat.sub_diag. reflexivity.
Qed.
