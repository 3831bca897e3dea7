From Coq Require Import Ascii String.
From Verif Require Import Base Strs.
From Verif.Completion Require Import Model Spec Proofs.
From Verif.Retype Require Import Model Spec.
Import ListNotations.
Open Scope list_scope.

Lemma declared_in d p : is_declared d p = true <-> In p d.
Proof.
  unfold is_declared. rewrite existsb_exists. split.
  - intros (x & I & E). destruct (list_eq_dec (list_eq_dec ascii_dec) x p) as [->|]; [exact I|discriminate].
  - intro I. exists p. split; [exact I|]. now destruct (list_eq_dec (list_eq_dec ascii_dec) p p).
Qed.
Lemma scalar_in w : existsb (beq w) scalars = true <-> In w scalars.
Proof. rewrite existsb_exists. split; [intros (x & I & E); apply beq_eq in E as ->; exact I|intro I; exists w; split; [exact I|apply beq_refl]]. Qed.

Lemma deciding_unfold d r h : deciding d r h = if is_declared d (rev r ++ [h]) then Some (rev r) else match r with [] => None | _ :: o => deciding d o h end.
Proof. destruct r; reflexivity. Qed.

Lemma deciding_exact d s h : In (s ++ [h]) d -> forall x, deciding d (rev (s ++ x)) h = Some s <-> ~ hidden d s x h.
Proof.
  intros D x. induction x as [|a x IH] using rev_ind.
  - rewrite app_nil_r. rewrite deciding_unfold, rev_involutive. apply declared_in in D. rewrite D. split; [|reflexivity].
    intros _ (y & z & E & N & _). destruct y; [now apply N|discriminate].
  - rewrite app_assoc, rev_unit, deciding_unfold. cbn [rev]. rewrite rev_involutive.
    destruct (is_declared d (((s ++ x) ++ [a]) ++ [h])) eqn:E.
    + apply declared_in in E. split.
      * intro X. exfalso. injection X as X. apply (f_equal (@List.length bytes)) in X. rewrite !app_length in X. cbn in X. lia.
      * intro H. exfalso. apply H. exists (x ++ [a]), []. split; [now rewrite app_nil_r|]. split; [now destruct x|]. rewrite <- !app_assoc in E. rewrite <- app_assoc. exact E.
    + rewrite IH. split; intros H (y & z & X & N & I); apply H.
      * destruct z as [|b z _] using rev_ind.
        -- exfalso. rewrite app_nil_r in X. subst y. apply declared_in in I. replace (s ++ (x ++ [a]) ++ [h]) with (((s ++ x) ++ [a]) ++ [h]) in I by (now rewrite <- !app_assoc). congruence.
        -- rewrite app_assoc in X. apply app_inj_tail in X as [X <-]. exists y, z. auto.
      * exists y, (z ++ [a]). split; [now rewrite X, <- app_assoc|]. auto.
Qed.

Lemma deciding_prefix d h : forall r s, deciding d r h = Some s -> exists x, rev r = s ++ x.
Proof.
  induction r as [|a r IH]; intros s; rewrite deciding_unfold.
  - cbn [rev]. destruct (is_declared d ([] ++ [h])); [|discriminate]. intros [= <-]. now exists [].
  - destruct (is_declared d (rev (a :: r) ++ [h])); [intros [= <-]; exists []; now rewrite app_nil_r|]. intro H. destruct (IH _ H) as [x X]. cbn [rev]. exists (x ++ [a]). now rewrite X, app_assoc.
Qed.
Lemma deciding_declared d h : forall r s, deciding d r h = Some s -> In (s ++ [h]) d.
Proof.
  induction r as [|a r IH]; intros s; rewrite deciding_unfold.
  - destruct (is_declared d (rev [] ++ [h])) eqn:E; [|discriminate]. intros [= <-]. now apply declared_in.
  - destruct (is_declared d (rev (a :: r) ++ [h])) eqn:E; [intros [= <-]; now apply declared_in|]. apply IH.
Qed.

Lemma closed_prefix d p : closed d -> p <> [] -> forall q, In (p ++ q) d -> In p d.
Proof.
  intros C N q. induction q as [|x q IH] using rev_ind; intro I; [now rewrite app_nil_r in I|]. apply IH. rewrite app_assoc in I. apply (C _ x); [|exact I]. now destruct p.
Qed.

Lemma dotted_first h r : part h -> exists c w, dotted (h :: r) = c :: w /\ c <> "."%char.
Proof.
  intros [N D]. destruct h as [|c h]; [congruence|]. destruct r as [|r0 r]; cbn [dotted join_with app]; exists c; eexists; split; try reflexivity; intros ->; apply D; now left.
Qed.

Lemma means_relative d place c w : c <> "."%char -> ~ In (c :: w) scalars ->
  means d place (c :: w) =
    match split_on "."%char (c :: w) with
    | [] => None
    | first :: _ =>
        match deciding d (rev place) first with
        | Some s => let p := s ++ split_on "."%char (c :: w) in if is_declared d p then Some (Named p) else None
        | None => None
        end
    end.
Proof.
  intros NC NS. unfold means. destruct (existsb (beq (c :: w)) scalars) eqn:E; [apply scalar_in in E; contradiction|].
  apply Ascii.eqb_neq in NC. destruct c as [[] [] [] [] [] [] [] []]; try discriminate NC; reflexivity.
Qed.

(** what a shortened name means *)
Lemma means_exact d s h r x : In (s ++ [h]) d -> parts (h :: r) -> In (s ++ h :: r) d ->
  means d (s ++ x) (dotted (h :: r)) = Some (Named (s ++ h :: r)) <-> ~ In (dotted (h :: r)) scalars /\ ~ hidden d s x h.
Proof.
  intros D P I.
  unfold means. destruct (existsb (beq (dotted (h :: r))) scalars) eqn:E.
  - split; [discriminate|]. intros [X _]. apply scalar_in in E. contradiction.
  - assert (NS : ~ In (dotted (h :: r)) scalars) by (intro X; apply scalar_in in X; congruence).
    assert (W : split_on "."%char (dotted (h :: r)) = h :: r).
    { apply split_join; [discriminate|]. intros w IW. exact (proj2 (proj1 (Forall_forall _ _) P w IW)). }
    destruct (dotted_first h r) as (c & w & F & NC); [now inversion P|].
    assert (G : means d (s ++ x) (dotted (h :: r)) = match deciding d (rev (s ++ x)) h with Some s' => if is_declared d (s' ++ h :: r) then Some (Named (s' ++ h :: r)) else None | None => None end).
    { rewrite F in *. rewrite means_relative by assumption. now rewrite W. }
    unfold means in G. rewrite E in G. rewrite G.
    rewrite <- (deciding_exact d s h D x). split.
    + intro H. split; [exact NS|]. destruct (deciding d (rev (s ++ x)) h) as [s'|]; [|discriminate]. destruct (is_declared d (s' ++ h :: r)); [|discriminate]. injection H as H. apply app_inv_tail in H. now subst.
    + intros [_ ->]. apply declared_in in I. now rewrite I.
Qed.

Lemma append_full p n : n <> [] -> append p n <> [].
Proof. intro N. destruct p; [exact N|]. cbn. discriminate. Qed.
Lemma walk_full fuel : forall pkg from target nm st, nm <> [] -> walk fuel pkg from target nm st <> [].
Proof.
  induction fuel as [|k IH]; intros pkg from target nm st N; cbn [walk]; (destruct (beq pkg from); [now apply append_full|]); destruct pkg; try now apply append_full.
  now apply IH.
Qed.
Lemma relative_full T n F : part n -> relative_full_name (dotted (T ++ [n])) F <> [].
Proof.
  intros [N D]. unfold relative_full_name. destruct (strip (parent (dotted (T ++ [n]))) F) as [t f]. apply walk_full. rewrite name_snoc by assumption. exact N.
Qed.

(** a name that stays what it is, moved to a sibling of the message it was in *)
Lemma hidden_none d p h : closed d -> ~ In p d -> p <> [] -> ~ In (p ++ [h]) d.
Proof. intros C N E I. apply N. now apply (C p h). Qed.
Lemma moved_meaning d outer par new w m :
  closed d -> ~ In (outer ++ [new]) d -> means d (outer ++ [par]) w = Some m ->
  (forall first r, split_on "."%char w = first :: r -> ~ In (outer ++ [par; first]) d /\ first <> new) ->
  w <> [] ->
  means ((outer ++ [new]) :: d) (outer ++ [new]) w = Some m.
Proof.
  intros C NN M H NW. destruct (existsb (beq w) scalars) eqn:E; [unfold means in *; now rewrite E in *|].
  assert (NS : ~ In w scalars) by (intro X; apply scalar_in in X; congruence).
  assert (MD : forall p, is_declared d p = true -> is_declared ((outer ++ [new]) :: d) p = true) by (intros p X; apply declared_in; right; now apply declared_in).
  destruct w as [|c w]; [congruence|]. destruct (ascii_dec c ".") as [->|NC].
  - unfold means in *. rewrite E in *. destruct (is_declared d (split_on "." w)) eqn:X; [|discriminate]. now rewrite (MD _ X).
  - rewrite means_relative in * by assumption. destruct (split_on "." (c :: w)) as [|first r] eqn:S; [discriminate|]. specialize (H first r eq_refl) as [H1 H2].
    rewrite rev_unit, deciding_unfold in M |- *. cbn [rev] in *. rewrite rev_involutive in *.
    assert (X1 : is_declared d ((outer ++ [par]) ++ [first]) = false) by (destruct (is_declared d ((outer ++ [par]) ++ [first])) eqn:X; [|reflexivity]; apply declared_in in X; rewrite <- app_assoc in X; contradiction).
    assert (X2 : is_declared ((outer ++ [new]) :: d) ((outer ++ [new]) ++ [first]) = false).
    { destruct (is_declared ((outer ++ [new]) :: d) ((outer ++ [new]) ++ [first])) eqn:X; [|reflexivity]. apply declared_in in X as [X|X].
      - apply (f_equal (@List.length bytes)) in X. rewrite !app_length in X. cbn in X. lia.
      - apply hidden_none in X; [destruct X|exact C|exact NN|now destruct outer]. }
    rewrite X1 in M. rewrite X2.
    assert (G : forall q y, outer = rev q ++ y -> deciding ((outer ++ [new]) :: d) q first = deciding d q first).
    { induction q as [|a q IH]; intros y Y; rewrite (deciding_unfold d), (deciding_unfold ((outer ++ [new]) :: d)).
      - assert (Z : is_declared ((outer ++ [new]) :: d) (rev [] ++ [first]) = is_declared d (rev [] ++ [first])).
        { destruct (is_declared d (rev [] ++ [first])) eqn:Z; [now apply MD|]. destruct (is_declared ((outer ++ [new]) :: d) (rev [] ++ [first])) eqn:Z2; [|reflexivity]. apply declared_in in Z2 as [Z2|Z2]; [|apply declared_in in Z2; congruence]. exfalso. apply app_inj_tail in Z2 as [_ Z2]. now apply H2. }
        now rewrite Z.
      - assert (Z : is_declared ((outer ++ [new]) :: d) (rev (a :: q) ++ [first]) = is_declared d (rev (a :: q) ++ [first])).
        { destruct (is_declared d (rev (a :: q) ++ [first])) eqn:Z; [now apply MD|]. destruct (is_declared ((outer ++ [new]) :: d) (rev (a :: q) ++ [first])) eqn:Z2; [|reflexivity]. apply declared_in in Z2 as [Z2|Z2]; [|apply declared_in in Z2; congruence]. exfalso. apply app_inj_tail in Z2 as [_ Z2]. now apply H2. }
        rewrite Z. cbn [rev] in Y. rewrite (IH (a :: y)); [reflexivity|]. now rewrite <- app_assoc in Y. }
    rewrite (G (rev outer) []) by (now rewrite rev_involutive, app_nil_r).
    destruct (deciding d (rev outer) first) as [s|]; [|discriminate]. cbv zeta in *. destruct (is_declared d (s ++ first :: r)) eqn:X; [|discriminate]. now rewrite (MD _ X).
Qed.
