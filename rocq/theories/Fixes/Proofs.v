From Coq Require Import Ascii String Lia.
From Verif Require Import Base Strs.
From Verif.Print Require Spec Proofs.
From Verif.Fixes Require Import Model Spec.
Open Scope list_scope.

Lemma offset_app a : forall r m c, offset (a ++ r) (fst (place a) + m) (if Nat.eqb m 0 then snd (place a) + c else c) = List.length a + offset r m c.
Proof.
  induction a as [|x a IH]; intros r m c.
  - cbn [place fst snd app List.length Nat.add]. destruct m; reflexivity.
  - cbn [place app List.length]. specialize (IH r m c). destruct (place a) as [l k] eqn:Ep. cbn [fst snd] in IH. destruct (Ascii.eqb x nl) eqn:Ex; cbn [fst snd].
    + cbn [Nat.add offset]. rewrite Ex, IH. reflexivity.
    + destruct l as [|l]; cbn [Nat.eqb Nat.add].
      * destruct m as [|m]; cbn [Nat.eqb Nat.add offset]; rewrite ?Ex; cbn [Nat.eqb] in IH; cbn [Nat.add] in IH; now rewrite IH.
      * cbn [offset]. rewrite Ex. cbn [Nat.add] in IH. now rewrite IH.
Qed.
Lemma off_place a r : off (a ++ r) (place a) = List.length a.
Proof.
  unfold off. pose proof (offset_app a r 0 0) as H. cbn [Nat.eqb] in H. rewrite !Nat.add_0_r in H. rewrite H. destruct r; cbn; lia.
Qed.
Lemma place_app a b : place (a ++ b) = (fst (place a) + fst (place b), if Nat.eqb (fst (place b)) 0 then snd (place a) + snd (place b) else snd (place b)).
Proof.
  induction a as [|x a IH]; cbn [app place].
  - cbn. destruct (place b) as [l c]. cbn. destruct l; reflexivity.
  - rewrite IH. destruct (place a) as [l k], (place b) as [l' k']. cbn [fst snd]. destruct (Ascii.eqb x nl); [reflexivity|]. cbn [fst snd]. destruct l, l'; cbn; reflexivity.
Qed.
Lemma place_line a : one_line a -> place a = (0, List.length a).
Proof.
  induction a as [|x a IH]; intros H; [reflexivity|]. cbn [place List.length]. rewrite IH by (intros X; apply H; now right). destruct (Ascii.eqb_spec x nl) as [->|N]; [destruct H; now left|reflexivity].
Qed.
Lemma place_nl : place [nl] = (1, 0).
Proof. reflexivity. Qed.
Lemma firstn_len {A} (a b : list A) : firstn (List.length a) (a ++ b) = a.
Proof. rewrite firstn_app, Nat.sub_diag, firstn_all. cbn. apply app_nil_r. Qed.
Lemma skipn_len {A} (a b : list A) : skipn (List.length a) (a ++ b) = b.
Proof. rewrite skipn_app, Nat.sub_diag, skipn_all. reflexivity. Qed.

(** ** Adding a definition *)
Lemma accept_insert pre post t : accept (pre ++ post) (mkEdit (place pre) (place pre) t) = pre ++ t ++ post.
Proof. unfold accept. cbn [e_from e_to e_text]. rewrite !off_place, firstn_len, skipn_len. reflexivity. Qed.
Lemma spos_place pre : (p_line (spos_of pre) - 1, p_col (spos_of pre) - 1) = place pre.
Proof. unfold spos_of. cbn. rewrite !Nat.sub_0_r. now destruct (place pre). Qed.
(** a position m lines below *)
Lemma off_below pre x c : 0 < fst (place x) -> c <= snd (place x) -> forall post, off (pre ++ x ++ post) (fst (place pre) + fst (place x), c) = List.length pre + offset (x ++ post) (fst (place x)) c.
Proof.
  intros H _ post. unfold off. cbn [fst snd]. pose proof (offset_app pre (x ++ post) (fst (place x)) c) as K. destruct (Nat.eqb_spec (fst (place x)) 0); [lia|]. exact K.
Qed.
Definition head_text (name : bytes) : bytes := b_ "message " ++ name ++ b_ " {".
Lemma head_line name : one_line name -> one_line (head_text name).
Proof. intros H X. unfold head_text in X. apply in_app_iff in X as [X|X]; [cbn in X; intuition discriminate|]. apply in_app_iff in X as [X|X]; [contradiction|]. cbn in X. intuition discriminate. Qed.
Definition upto_body (name : bytes) : bytes := [nl; nl] ++ head_text name ++ [nl] ++ b_ "  ".
Lemma definition_split name : definition_text name = upto_body name ++ [nl] ++ b_ "}".
Proof. unfold definition_text, upto_body, head_text. now rewrite <- !app_assoc. Qed.
Lemma place_body name : one_line name -> place (upto_body name) = (3, 2).
Proof.
  intros H. unfold upto_body. rewrite !place_app. rewrite (place_line (head_text name)) by now apply head_line. reflexivity.
Qed.
Lemma place_two : place [nl; nl] = (2, 0).
Proof. reflexivity. Qed.
Lemma place_definition name : one_line name -> place (definition_text name) = (4, 1).
Proof. intros H. rewrite definition_split, !place_app, place_body by exact H. reflexivity. Qed.
Lemma off_at pre x post l c : place x = (S l, c) -> off (pre ++ x ++ post) (fst (place pre) + S l, c) = List.length (pre ++ x).
Proof.
  intros H. assert (E : (fst (place pre) + S l, c) = place (pre ++ x)). { rewrite place_app, H. reflexivity. }
  rewrite E, app_assoc. apply off_place.
Qed.

(** ** Names *)
Definition with_name (defined : list bytes -> bool) (n : list bytes) : list bytes -> bool :=
  fun p => if list_eq_dec (list_eq_dec ascii_dec) p n then true else defined p.
Lemma find_scopes_none f sc n : find f (Print.Spec.scopes_from sc n) = None -> forall k, k <= n -> f (firstn k sc) = false.
Proof.
  induction n as [|n IH]; cbn [Print.Spec.scopes_from]; intros H k Hk.
  - assert (k = 0) by lia. subst k. cbn in H |- *. destruct (f []); [discriminate|reflexivity].
  - cbn [find] in H. destruct (f (firstn (S n) sc)) eqn:E; [discriminate|]. destruct (Nat.eq_dec k (S n)) as [->|N]; [exact E|]. apply IH; [exact H|lia].
Qed.
Lemma find_scopes_at f sc n k : k <= n -> f (firstn k sc) = true -> (forall i, k < i -> i <= n -> f (firstn i sc) = false) -> find f (Print.Spec.scopes_from sc n) = Some (firstn k sc).
Proof.
  induction n as [|n IH]; intros Hk Hf Hn; cbn [Print.Spec.scopes_from].
  - assert (k = 0) by lia. subst k. cbn in *. now rewrite Hf.
  - cbn [find]. destruct (Nat.eq_dec k (S n)) as [->|N]; [now rewrite Hf|]. rewrite (Hn (S n)) by lia. apply IH; [lia|exact Hf|]. intros i Hi Hin. apply Hn; lia.
Qed.
Lemma find_scopes_some f sc n s : find f (Print.Spec.scopes_from sc n) = Some s -> exists k, k <= n /\ s = firstn k sc /\ f s = true /\ (forall i, k < i -> i <= n -> f (firstn i sc) = false).
Proof.
  induction n as [|n IH]; cbn [Print.Spec.scopes_from find]; intros H.
  - destruct (f []) eqn:E; [|discriminate]. injection H as <-. exists 0. repeat split; auto. lia.
  - destruct (f (firstn (S n) sc)) eqn:E.
    + injection H as <-. exists (S n). repeat split; auto. lia.
    + destruct (IH H) as (k & H1 & H2 & H3 & H4). exists k. repeat split; auto. intros i Hi Hin. destruct (Nat.eq_dec i (S n)) as [->|N]; [exact E|]. apply H4; lia.
Qed.
Lemma with_name_other defined n p : p <> n -> with_name defined n p = defined p.
Proof. intros H. unfold with_name. destruct (list_eq_dec _ p n); [contradiction|reflexivity]. Qed.
Lemma with_name_same defined n : with_name defined n n = true.
Proof. unfold with_name. destruct (list_eq_dec _ n n); [reflexivity|congruence]. Qed.
Lemma now_found defined P R w : Print.Spec.resolves_to defined (P ++ R) [w] = None -> Print.Spec.resolves_to (with_name defined (P ++ [w])) (P ++ R) [w] = Some (P ++ [w]).
Proof.
  cbn [Print.Spec.resolves_to]. set (f := fun s => defined (s ++ [w])). destruct (find f _) eqn:E; [discriminate|]. intros _. pose proof (find_scopes_none f _ _ E) as N.
  rewrite (find_scopes_at _ (P ++ R) (List.length (P ++ R)) (List.length P)).
  - now rewrite firstn_len.
  - rewrite app_length. lia.
  - rewrite firstn_len. apply with_name_same.
  - intros i Hi Hin. rewrite with_name_other; [now apply N|]. intros X. apply app_inj_tail in X as [X _]. apply (f_equal (@List.length _)) in X. rewrite firstn_length_le in X; lia.
Qed.
Lemma others_found defined P R R' w name F : Print.Spec.resolves_to defined (P ++ R) [w] = None ->
  Print.Spec.resolves_to defined (P ++ R') name = Some F -> Print.Spec.resolves_to (with_name defined (P ++ [w])) (P ++ R') name = Some F.
Proof.
  destruct name as [|v vs]; [discriminate|]. cbn [Print.Spec.resolves_to]. destruct (find (fun s => defined (s ++ [w])) _) eqn:E; [discriminate|]. intros _. pose proof (find_scopes_none _ _ _ E) as N. cbn beta in N.
  destruct (find (fun s => defined (s ++ [v])) _) as [s|] eqn:E'; [|discriminate]. intros H. apply find_scopes_some in E' as (k & H1 & H2 & H3 & H4).
  rewrite (find_scopes_at _ (P ++ R') (List.length (P ++ R')) k H1).
  - now rewrite <- H2.
  - rewrite <- H2. unfold with_name. destruct (list_eq_dec _ _ _); [reflexivity|exact H3].
  - intros i Hi Hin. rewrite with_name_other; [now apply H4|]. intros X. apply app_inj_tail in X as [X ->].
    assert (Li : i = List.length P). { apply (f_equal (@List.length _)) in X. rewrite firstn_length_le in X; lia. }
    assert (Ek : firstn k (P ++ R') = firstn k (P ++ R)). { rewrite !firstn_app. replace (k - List.length P) with 0 by lia. reflexivity. }
    rewrite H2, Ek, N in H3; [discriminate|]. rewrite app_length. lia.
Qed.

(** ** Removing an import *)
Lemma place_whole a : whole_lines a -> snd (place a) = 0.
Proof. intros [->|[r ->]]; [reflexivity|]. rewrite place_app, place_nl. reflexivity. Qed.
Lemma place_lines A ws : whole_lines A -> one_line ws -> fst (place (A ++ ws)) = fst (place A).
Proof. intros _ H. rewrite place_app, (place_line ws H). cbn. lia. Qed.
Lemma off_whole A r : whole_lines A -> off (A ++ r) (fst (place A), 0) = List.length A.
Proof. intros H. rewrite <- (place_whole A H) at 1. rewrite <- surjective_pairing. apply off_place. Qed.
Lemma off_next A r : (forall B, r = nl :: B -> off (A ++ r) (S (fst (place A)), 0) = S (List.length A)) /\ (r = [] -> off (A ++ r) (S (fst (place A)), 0) = List.length A).
Proof.
  split.
  - intros B ->. replace (A ++ nl :: B) with ((A ++ [nl]) ++ B) by now rewrite <- app_assoc. assert (E : (S (fst (place A)), 0) = place (A ++ [nl])). { rewrite place_app, place_nl. cbn. now rewrite Nat.add_1_r. }
    rewrite E, off_place, app_length. cbn. lia.
  - intros ->. unfold off. cbn [fst snd]. pose proof (offset_app A [] 1 0) as H. cbn [Nat.eqb] in H. rewrite Nat.add_1_r in H. rewrite H. cbn. lia.
Qed.
Lemma removed A ws stmt rest tail : whole_lines A -> one_line ws -> one_line rest -> tail = [] \/ (exists B, tail = nl :: B) ->
  accept (A ++ ws ++ stmt ++ rest ++ tail) (mkEdit (p_line (spos_of (A ++ ws)) - 1, 0) (p_line (spos_of (A ++ ws ++ stmt)), 0) []) = A ++ match tail with [] => [] | _ :: B => B end.
Proof.
  intros HA Hw Hr Ht. unfold accept. cbn [e_from e_to e_text spos_of p_line app]. rewrite Nat.sub_succ, Nat.sub_0_r, place_lines, off_whole, firstn_len by assumption.
  f_equal. set (X := A ++ ws ++ stmt ++ rest). assert (EX : A ++ ws ++ stmt ++ rest ++ tail = X ++ tail) by (unfold X; now rewrite <- !app_assoc).
  assert (L : fst (place (A ++ ws ++ stmt)) = fst (place X)). { unfold X. rewrite !app_assoc, (place_app _ rest), (place_line rest Hr). cbn. rewrite Nat.add_0_r, <- !app_assoc. reflexivity. }
  rewrite EX, L. destruct (off_next X tail) as [K1 K2]. destruct Ht as [->|[B ->]].
  - rewrite (K2 eq_refl), skipn_len. reflexivity.
  - rewrite (K1 B eq_refl). replace (X ++ nl :: B) with ((X ++ [nl]) ++ B) by now rewrite <- app_assoc. replace (S (List.length X)) with (List.length (X ++ [nl])) by (rewrite app_length; cbn; lia). now rewrite skipn_len.
Qed.
