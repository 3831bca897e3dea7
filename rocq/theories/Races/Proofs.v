From Coq Require Import Lia.
From Verif Require Import Base.
From Verif.Races Require Import Model Spec.
Open Scope list_scope.

Lemma set_same {A} i (x y : A) l : nth_error l i = Some y -> nth_error (set_nth i x l) i = Some x.
Proof.
  intro E. unfold set_nth. assert (L : i < List.length l) by (apply nth_error_Some; congruence). rewrite nth_error_app2; rewrite firstn_length_le by lia; [|lia]. now rewrite Nat.sub_diag.
Qed.
Lemma set_other {A} i j (x : A) l : i < List.length l -> i <> j -> nth_error (set_nth i x l) j = nth_error l j.
Proof.
  revert i j. induction l as [|y l IH]; intros i j L N; [cbn in L; lia|]. unfold set_nth in *. destruct i as [|i], j as [|j]; cbn; try congruence; try reflexivity. cbn in L. apply IH; lia.
Qed.
Definition apart (ts : list thread) : Prop := forall i j a b x y, i <> j -> nth_error ts i = Some a -> nth_error ts j = Some b -> In x (held a) -> In y (held b) -> compatible x y = true.
Definition all_guarded (l : lock) (ts : list thread) : Prop := forall i t, nth_error ts i = Some t -> guarded l (held t) (busy t) (prog t).
Lemma compatible_sym x y : compatible x y = compatible y x.
Proof. destruct x as [[] []], y as [[] []]; reflexivity. Qed.
Lemma free_spec x ts i t y : free x ts = true -> nth_error ts i = Some t -> In y (held t) -> compatible x y = true.
Proof. unfold free. rewrite forallb_forall. intros F E I. specialize (F t (nth_error_In _ _ E)). rewrite forallb_forall in F. now apply F. Qed.
Lemma release_in x y h : In y (release x h) -> In y h.
Proof. induction h as [|z h IH]; [intros []|]. cbn. destruct (hold_eqb x z); [now right|]. intros [->|I]; [now left|right; auto]. Qed.
Lemma apart_set i t u ts : nth_error ts i = Some t -> apart ts -> (forall x, In x (held u) -> In x (held t) \/ free x ts = true) -> apart (set_nth i u ts).
Proof.
  intros E A H j k a b x y N Ej Ek Ix Iy. assert (L : i < List.length ts) by (apply nth_error_Some; congruence).
  destruct (Nat.eq_dec i j) as [<-|Nj].
  - rewrite (set_same i u t ts E) in Ej. injection Ej as <-. rewrite set_other in Ek by auto. destruct (H x Ix) as [I|F]; [exact (A i k t b x y N E Ek I Iy)|exact (free_spec x ts k b y F Ek Iy)].
  - rewrite set_other in Ej by auto. destruct (Nat.eq_dec i k) as [<-|Nk].
    + rewrite (set_same i u t ts E) in Ek. injection Ek as <-. rewrite compatible_sym. destruct (H y Iy) as [I|F]; [apply (A i j t a y x); auto|exact (free_spec y ts j a x F Ej Ix)].
    + rewrite set_other in Ek by auto. exact (A j k a b x y N Ej Ek Ix Iy).
Qed.
Lemma guarded_set l i t u ts : nth_error ts i = Some t -> all_guarded l ts -> guarded l (held u) (busy u) (prog u) -> all_guarded l (set_nth i u ts).
Proof.
  intros E A G j v Ej. assert (L : i < List.length ts) by (apply nth_error_Some; congruence). destruct (Nat.eq_dec i j) as [<-|N]; [rewrite (set_same i u t ts E) in Ej; injection Ej as <-; exact G|].
  rewrite set_other in Ej by auto. exact (A j v Ej).
Qed.
Lemma step_keeps l i ts us : step i ts = Some us -> apart ts /\ all_guarded l ts -> apart us /\ all_guarded l us.
Proof.
  unfold step. destruct (nth_error ts i) as [[[|[x|x|m|] p] h b]|] eqn:E; try discriminate; intros S [A G]; pose proof (G i _ E) as [_ K]; cbn in K.
  - destruct (free x ts) eqn:F; [|discriminate]. injection S as <-. split; [apply (apart_set i _ _ ts E A)|apply (guarded_set l i _ _ ts E G); exact K]. cbn. intros y [<-|I]; auto.
  - injection S as <-. split; [apply (apart_set i _ _ ts E A)|apply (guarded_set l i _ _ ts E G); exact K]. cbn. intros y I. left. now apply release_in in I.
  - injection S as <-. split; [apply (apart_set i _ _ ts E A)|apply (guarded_set l i _ _ ts E G); exact K]. cbn. auto.
  - injection S as <-. split; [apply (apart_set i _ _ ts E A)|apply (guarded_set l i _ _ ts E G); exact K]. cbn. auto.
Qed.
Lemma reach_keeps l s t : reach s t -> apart s /\ all_guarded l s -> apart t /\ all_guarded l t.
Proof. induction 1 as [|s t u i _ IH S]; [auto|]. intro I. eapply step_keeps; [exact S|]. now apply IH. Qed.
Lemma init_nth ps i t : nth_error (init ps) i = Some t -> exists p, In p ps /\ t = mkThread p [] None.
Proof. intro E. apply nth_error_In in E. unfold init in E. apply in_map_iff in E. destruct E as (p & <- & I). eauto. Qed.
Lemma guarded_covers l h b p : guarded l h b p -> covers l h b.
Proof. destruct p; now intros [C _]. Qed.
Lemma no_race l ts : apart ts -> all_guarded l ts -> ~ racing ts.
Proof.
  intros A G (i & j & a & b & m & N & Ea & Eb & Ba & Bb). pose proof (guarded_covers _ _ _ _ (G i a Ea)) as Ca. pose proof (guarded_covers _ _ _ _ (G j b Eb)) as Cb. rewrite Ba in Ca. rewrite Bb in Cb.
  cbn in Ca. destruct m; cbn in Cb; [destruct Cb as [Cb|Cb]|]; pose proof (A i j a b _ _ N Ea Eb Ca Cb); destruct l; discriminate.
Qed.

(** programs made of pieces that give back what they take *)
Definition piece (l : lock) (p : list action) : Prop := forall h q, guarded l h None q -> guarded l h None (p ++ q).
Lemma piece_nil l : piece l [].
Proof. intros h q G. exact G. Qed.
Lemma piece_app l p q : piece l p -> piece l q -> piece l (p ++ q).
Proof. intros P Q h r G. rewrite <- app_assoc. now apply P, Q. Qed.
Lemma hold_refl x : hold_eqb x x = true.
Proof. now destruct x as [[] []]. Qed.
Lemma locked_piece l x p : piece l p -> piece l (locked x p).
Proof.
  intros P h q G. unfold locked. cbn. split; [exact I|]. rewrite <- app_assoc. apply P. cbn. rewrite hold_refl. split; [exact I|exact G].
Qed.
Lemma lookup_piece : piece Paths lookup.
Proof. intros h q G. cbn. repeat split; auto. Qed.
Lemma update_body l n h q : In (l, W) h -> guarded l h None q -> guarded l h None (List.concat (repeat (use R ++ use W) n) ++ q).
Proof. intros I G. induction n as [|n IH]; [exact G|]. cbn. repeat split; auto. Qed.
Lemma write_piece l n : piece l (locked (l, W) (List.concat (repeat (use R ++ use W) n))).
Proof.
  intros h q G. unfold locked. cbn [app guarded]. split; [exact Coq.Init.Logic.I|]. rewrite <- app_assoc. apply update_body; [now left|]. cbn. rewrite hold_refl. auto.
Qed.
Lemma update_piece n : piece Paths (update n).
Proof. apply write_piece. Qed.
Lemma look_body n h q : In (Results, R) h -> guarded Results h None q -> guarded Results h None (List.concat (repeat (use R) n) ++ q).
Proof. intros I G. induction n as [|n IH]; [exact G|]. cbn. repeat split; auto. Qed.
Lemma look_piece n : piece Results (look n).
Proof.
  intros h q G. unfold look, locked. cbn [app guarded]. split; [exact Coq.Init.Logic.I|]. rewrite <- app_assoc. apply look_body; [now left|]. cbn. auto.
Qed.
Lemma looks_piece ns : piece Results (flat_map look ns).
Proof. induction ns as [|n ns IH]; [apply piece_nil|]. cbn [flat_map]. apply piece_app; [apply look_piece|exact IH]. Qed.
Lemma calls_piece cs : piece Paths (calls cs).
Proof. induction cs as [|[|n] cs IH]; [apply piece_nil| |]; cbn [calls flat_map call_program]; apply piece_app; auto using lookup_piece, update_piece. Qed.
Lemma piece_guarded l p : piece l p -> guarded l [] None p.
Proof. intro P. specialize (P [] [] (conj I I)). now rewrite app_nil_r in P. Qed.
(** runs by a list of turns *)
Fixpoint run (turns : list nat) (s : list thread) : option (list thread) :=
  match turns with [] => Some s | i :: r => match step i s with Some t => run r t | None => None end end.
Lemma run_reach turns : forall s0 s t, reach s0 s -> run turns s = Some t -> reach s0 t.
Proof.
  induction turns as [|i r IH]; intros s0 s t H E; [injection E as <-; exact H|]. cbn in E. destruct (step i s) as [u|] eqn:S; [|discriminate].
  eapply IH; [|exact E]. econstructor; [exact H|exact S].
Qed.
