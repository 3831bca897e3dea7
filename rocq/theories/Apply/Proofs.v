From Verif Require Import Base Strs.
From Verif.Apply Require Import Model Spec.
Open Scope list_scope.

Section A.
Variable E : Type.
Variable compute : nat -> bytes -> option E.
Variable apply : E -> bytes -> bytes.
Variable sup : bool.
Notation state := (state E).
Notation stp := (step E compute apply sup).
Notation run_ := (run E compute apply sup).

Lemma run_snoc h o : run_ (h ++ [o]) = stp (run_ h) o.
Proof. unfold run. now rewrite fold_left_app. Qed.
Lemma offers_snoc h o : offers (h ++ [o]) = offers h ++ match o with Offer u k => [(u, k)] | _ => [] end.
Proof. unfold offers. rewrite flat_map_app. cbn. now rewrite app_nil_r. Qed.
Lemma nth_snoc {A} (l m : list A) i x : nth_error l i = Some x -> nth_error (l ++ m) i = Some x.
Proof. intros H. rewrite nth_error_app1; [exact H|]. apply nth_error_Some. congruence. Qed.
Lemma upd_same {A} (f : nat -> A) u a : upd f u a u = a.
Proof. unfold upd. now rewrite Nat.eqb_refl. Qed.
Lemma upd_other {A} (f : nat -> A) u a v : v <> u -> upd f u a v = f v.
Proof. unfold upd. intros H. apply Nat.eqb_neq in H. now rewrite H. Qed.

Lemma delete_in p i q : In p (delete i q) -> In p q.
Proof. unfold delete. rewrite filter_In. tauto. Qed.
Lemma delete_not p i q : In p (delete i q) -> p_id p <> i.
Proof. unfold delete. rewrite filter_In. intros [_ H]. apply Nat.eqb_neq. now destruct (p_id p =? i). Qed.
Lemma lookup_some i q p : lookup i q = Some p -> In p q /\ p_id p = i.
Proof. unfold lookup. intros H. apply find_some in H as [H1 H2]. now apply Nat.eqb_eq in H2. Qed.
Lemma find_action i (l : list (action E)) a : find (fun a => c_id E a =? i) l = Some a -> In a l /\ c_id E a = i.
Proof. intros H. apply find_some in H as [H1 H2]. now apply Nat.eqb_eq in H2. Qed.
Lemma find_answer i (l : list (answer E)) a : find (fun a => a_id E a =? i) l = Some a -> In a l /\ a_id E a = i.
Proof. intros H. apply find_some in H as [H1 H2]. now apply Nat.eqb_eq in H2. Qed.

(** ** Numbers of actions *)
Record ids (h : list op) (s : state) : Prop := {
  i_fresh : fresh E s = List.length (offers h);
  i_actions : forall a, In a (actions E s) -> c_edit E a = None /\ exists k, nth_error (offers h) (c_id E a) = Some (c_uri E a, k);
  i_queue : forall p, In p (queue E s) -> exists u, nth_error (offers h) (p_id p) = Some (u, p_kind p);
  i_queue_once : NoDup (map p_id (queue E s));
  i_answers : forall a, In a (answers E s) -> exists k, nth_error (offers h) (a_id E a) = Some (a_uri E a, k);
  i_answers_once : NoDup (map (a_id E) (answers E s));
  i_gone : forall a, In a (answers E s) -> ~ In (a_id E a) (map p_id (queue E s));
  i_log : forall l, In l (log E s) -> exists k, nth_error (offers h) (l_id E l) = Some (l_uri E l, k);
  i_log_once : NoDup (map (l_id E) (log E s));
  i_log_gone : forall l, In l (log E s) -> ~ In (l_id E l) (map p_id (queue E s)) /\ ~ In (l_id E l) (map (a_id E) (answers E s))
}.
Lemma nth_lt {A} (l : list A) i x : nth_error l i = Some x -> i < List.length l.
Proof. intros H. apply nth_error_Some. congruence. Qed.
Lemma nodup_filter {A B} (f : A -> B) (g : A -> bool) l : NoDup (map f l) -> NoDup (map f (filter g l)).
Proof.
  induction l as [|x l IH]; cbn; [auto|]. intros N. inversion N as [|? ? N1 N2]; subst. destruct (g x); cbn; [|auto]. constructor; [|auto].
  intros H. apply N1. apply in_map_iff in H as (y & <- & H). apply filter_In in H as [H _]. now apply in_map.
Qed.
Lemma in_map_filter {A B} (f : A -> B) (g : A -> bool) l b : In b (map f (filter g l)) -> In b (map f l).
Proof. rewrite !in_map_iff. intros (x & <- & H). apply filter_In in H as [H _]. eauto. Qed.

Lemma ids_grow h s x : ids h s -> forall o, offers (h ++ [o]) = offers h ++ x -> x = [] ->
  forall s', fresh E s' = fresh E s -> queue E s' = queue E s -> actions E s' = actions E s -> answers E s' = answers E s -> log E s' = log E s -> ids (h ++ [o]) s'.
Proof.
  intros I o Ho -> s' F Q A N L. rewrite app_nil_r in Ho. destruct I. constructor; rewrite ?F, ?Q, ?A, ?N, ?L, ?Ho; auto.
Qed.
Lemma ids_perform h s i u e o : (match o with Offer _ _ => False | _ => True end) -> ids (h ++ [o]) s -> (exists k, nth_error (offers (h ++ [o])) i = Some (u, k)) ->
  ~ In i (map p_id (queue E s)) -> ~ In i (map (a_id E) (answers E s)) -> ~ In i (map (l_id E) (log E s)) -> ids (h ++ [o]) (perform E apply s i u e).
Proof.
  intros _ I K A B C. destruct I. unfold perform. constructor; cbn [fresh actions queue answers log]; auto.
  - intros l [<-|H]; [exact K|auto].
  - cbn [map l_id]. constructor; auto.
  - intros l [<-|H]; [split; assumption|auto].
Qed.
Lemma ids_run h : ids h (run_ h).
Proof.
  induction h as [|o h IH] using rev_ind; [constructor; cbn; try tauto; constructor|]. rewrite run_snoc. revert IH. generalize (run_ h). intros s I.
  pose proof (offers_snoc h o) as Ho. destruct o as [u t|u t|u|u k|i|i|i|i]; cbn [step].
  1-3: eapply (ids_grow h s []); eauto.
  - destruct I. unfold offer. constructor; cbn [fresh actions queue answers log]; rewrite ?Ho.
    + rewrite app_length. cbn. lia.
    + intros a [<-|H]; cbn [c_edit c_id c_uri]; [split; [reflexivity|]; exists k; rewrite i_fresh0, nth_error_app2, Nat.sub_diag by lia; reflexivity|].
      apply i_actions0 in H as (H & q & Q). split; [exact H|]. exists q. now apply nth_snoc.
    + intros p [<-|H]; cbn [p_id p_kind]; [exists u; rewrite i_fresh0, nth_error_app2, Nat.sub_diag by lia; reflexivity|].
      apply i_queue0 in H as (q & Q). exists q. now apply nth_snoc.
    + cbn [map p_id]. constructor; [|exact i_queue_once0]. intros H. apply in_map_iff in H as (p & Hp & H). apply i_queue0 in H as (q & Q). apply nth_lt in Q. lia.
    + intros a H. apply i_answers0 in H as (q & Q). exists q. now apply nth_snoc.
    + exact i_answers_once0.
    + intros a H. cbn [map p_id In]. intros [Hf|Hq]; [apply i_answers0 in H as (q & Q); apply nth_lt in Q; lia|now apply (i_gone0 a)].
    + intros l H. apply i_log0 in H as (q & Q). exists q. now apply nth_snoc.
    + exact i_log_once0.
    + intros l H. destruct (i_log_gone0 l H) as [G1 G2]. split; [|exact G2]. cbn [map p_id In]. intros [Hf|Hq]; [|contradiction]. apply i_log0 in H as (q & Q). apply nth_lt in Q. lia.
  - rewrite app_nil_r in Ho. destruct I. constructor; cbn [fresh actions queue answers log]; rewrite ?Ho; auto.
    + intros p H. apply i_queue0. now apply delete_in in H.
    + now apply nodup_filter.
    + intros a H Q. apply (i_gone0 a H). now apply in_map_filter in Q.
    + intros l H. destruct (i_log_gone0 l H) as [G1 G2]. split; [|exact G2]. intros Q. apply G1. now apply in_map_filter in Q.
  - unfold choose. destruct (find _ (actions E s)) as [a|] eqn:F; [|eapply (ids_grow h s []); eauto]. apply find_action in F as [F1 F2].
    destruct (i_actions _ _ I a F1) as [N _]. rewrite N. eapply (ids_grow h s []); eauto.
  - unfold resolve. destruct (find _ (actions E s)) as [a|] eqn:F; [|eapply (ids_grow h s []); eauto]. apply find_action in F as [F1 F2].
    destruct (lookup i (queue E s)) as [p|] eqn:L; [|eapply (ids_grow h s []); eauto]. apply lookup_some in L as [L1 L2]. subst i.
    rewrite app_nil_r in Ho. destruct I.
    assert (X1 : forall p0, In p0 (delete (c_id E a) (queue E s)) -> exists u, nth_error (offers h) (p_id p0) = Some (u, p_kind p0)) by (intros p0 H; apply i_queue0; now apply delete_in in H).
    assert (X2 : NoDup (map p_id (delete (c_id E a) (queue E s)))) by now apply nodup_filter.
    assert (X3 : forall j, ~ In j (map p_id (queue E s)) -> ~ In j (map p_id (delete (c_id E a) (queue E s)))) by (intros j H Q; apply H; now apply in_map_filter in Q).
    assert (Z : ~ In (c_id E a) (map (a_id E) (answers E s))) by (intros H; apply in_map_iff in H as (b & Hb & H); apply (i_gone0 b H); rewrite Hb, <- L2; now apply in_map).
    constructor; cbn [fresh actions queue answers log]; rewrite ?Ho; auto; destruct (compute (p_kind p) (p_text p)) as [e|]; auto.
    + intros b [<-|H]; cbn [a_id a_uri]; [|auto]. now apply i_actions0.
    + cbn [map a_id]. now constructor.
    + intros b [<-|H]; [|auto]. cbn [a_id]. intros Q. apply in_map_iff in Q as (p0 & P0 & Q). now apply delete_not in Q.
    + intros l H. destruct (i_log_gone0 l H) as [G1 G2]. split; [auto|]. cbn [map a_id In]. intros [Q|Q]; [|contradiction]. apply G1. rewrite <- Q, <- L2. now apply in_map.
    + intros l H. destruct (i_log_gone0 l H) as [G1 G2]. split; auto.
  - unfold deliver. destruct (find _ (answers E s)) as [a|] eqn:F; [|eapply (ids_grow h s []); eauto]. apply find_answer in F as [F1 F2]. subst i.
    set (s1 := mkState E (docs E s) (compiled E s) (fresh E s) (queue E s) (actions E s) (filter (fun b => negb (a_id E b =? a_id E a)) (answers E s)) (log E s)).
    rewrite app_nil_r in Ho. assert (I1 : ids (h ++ [Deliver (a_id E a)]) s1).
    { destruct I. constructor; unfold s1; cbn [fresh actions queue answers log]; rewrite ?Ho; auto.
      - intros b H. apply filter_In in H as [H _]. auto.
      - now apply nodup_filter.
      - intros b H. apply filter_In in H as [H _]. auto.
      - intros l H. destruct (i_log_gone0 l H) as [G1 G2]. split; [exact G1|]. intros Q. apply G2. now apply in_map_filter in Q. }
    assert (P : ids (h ++ [Deliver (a_id E a)]) (perform E apply s1 (a_id E a) (a_uri E a) (a_edits E a))).
    { destruct I. apply ids_perform; [exact Logic.I|exact I1|rewrite Ho; auto| | |]; unfold s1; cbn [queue answers log].
      - auto.
      - intros H. apply in_map_iff in H as (b & Hb & H). apply filter_In in H as [_ H]. rewrite Hb, Nat.eqb_refl in H. discriminate.
      - intros H. apply in_map_iff in H as (l & Hl & H). destruct (i_log_gone0 l H) as [_ G]. apply G. rewrite Hl. now apply in_map. }
    destruct (a_version E a) as [v|]; [|exact P]. destruct (v =? _); [exact P|exact I1].
Qed.

(** ** Versions determine texts, while nothing is opened again *)
Definition older (d c : doc) : Prop := version c < version d \/ d = c.
Lemma older_change d c t : older d c -> older (mkDoc (S (version d)) t) c.
Proof. intros [H| ->]; left; cbn; lia. Qed.
Definition known (h : list op) (s : state) (i u v : nat) (e : E) : Prop :=
  exists k t, nth_error (offers h) i = Some (u, k) /\ compute k t = Some e /\ older (docs E s u) (mkDoc v t).
Record fits (h : list op) (s : state) : Prop := {
  f_compiled : forall u, older (docs E s u) (compiled E s u);
  f_queue : forall p a, In p (queue E s) -> In a (actions E s) -> p_id p = c_id E a -> older (docs E s (c_uri E a)) (mkDoc (c_version E a) (p_text p));
  f_answers : forall a v, In a (answers E s) -> a_version E a = Some v -> known h s (a_id E a) (a_uri E a) v (a_edits E a);
  f_log : sup = true -> forall l, In l (log E s) -> fitting compute h l
}.
Lemma answers_versioned h : sup = true -> forall a, In a (answers E (run_ h)) -> a_version E a <> None.
Proof.
  intros S. induction h as [|o h IH] using rev_ind; [easy|]. rewrite run_snoc. revert IH. generalize (run_ h). intros s IH.
  destruct o as [u t|u t|u|u k|i|i|i|i]; cbn [step]; auto.
  - unfold choose. destruct (find _ _) as [a|]; [|auto]. destruct (c_edit E a); auto.
  - unfold resolve. destruct (find _ _) as [a|]; [|auto]. destruct (lookup _ _) as [p|]; [|auto]. cbn [answers]. destruct (compute _ _); [|auto]. intros b [<-|H]; [|auto]. cbn [a_version]. rewrite S. discriminate.
  - unfold deliver. destruct (find _ _) as [a|]; [|auto]. assert (H : forall b, In b (filter (fun b => negb (a_id E b =? i)) (answers E s)) -> a_version E b <> None) by (intros b H; apply filter_In in H as [H _]; auto).
    destruct (a_version E a) as [v|]; [destruct (v =? _)|]; exact H.
Qed.
Lemma fits_docs h o s s' : fits h s -> offers (h ++ [o]) = offers h -> (forall u, docs E s' u = docs E s u \/ exists t, docs E s' u = mkDoc (S (version (docs E s u))) t) ->
  compiled E s' = compiled E s -> (forall p, In p (queue E s') -> In p (queue E s)) -> actions E s' = actions E s -> (forall a, In a (answers E s') -> In a (answers E s)) ->
  (sup = true -> forall l, In l (log E s') -> fitting compute (h ++ [o]) l) -> fits (h ++ [o]) s'.
Proof.
  intros F Ho D C Q A N L. destruct F. assert (G : forall u c, older (docs E s u) c -> older (docs E s' u) c) by (intros u c H; destruct (D u) as [-> |[t ->]]; [exact H|now apply older_change]).
  constructor.
  - intros u. rewrite C. auto.
  - intros p a Hp Ha. rewrite A in Ha. auto.
  - intros a v Ha Hv. destruct (f_answers0 a v (N _ Ha) Hv) as (k & t & K1 & K2 & K3). exists k, t. rewrite Ho. auto.
  - exact L.
Qed.
Lemma fits_run h : ~ reopened h -> fits h (run_ h).
Proof.
  induction h as [|o h IH] using rev_ind; intros R; [constructor; cbn; try tauto; intros; now right|].
  assert (Rh : ~ reopened h) by (intros (u & t & H); apply R; exists u, t; apply in_app_iff; now left).
  specialize (IH Rh). pose proof (ids_run h) as J. pose proof (answers_versioned h) as AV. rewrite run_snoc. revert IH J AV. generalize (run_ h). intros s I J AV.
  pose proof (offers_snoc h o) as Ho.
  assert (LG : forall x, offers (h ++ [o]) = offers h ++ x -> sup = true -> forall l, In l (log E s) -> fitting compute (h ++ [o]) l).
  { intros x Hx S l H. destruct (f_log _ _ I S l H) as (k & K1 & K2). exists k. rewrite Hx. split; [now apply nth_snoc|exact K2]. }
  destruct o as [u t|u t|u|u k|i|i|i|i]; cbn [step].
  - rewrite app_nil_r in Ho. apply (fits_docs h _ s); auto; [|apply (LG []); now rewrite app_nil_r]. intros w. cbn [docs set_doc]. destruct (Nat.eq_dec w u) as [->|W]; [right; exists t; now rewrite upd_same|left; now rewrite upd_other].
  - exfalso. apply R. exists u, t. apply in_app_iff. right. now left.
  - rewrite app_nil_r in Ho. destruct I. constructor; cbn [docs compiled queue actions answers log]; auto.
    + intros w. destruct (Nat.eq_dec w u) as [->|W]; [rewrite upd_same; now right|rewrite upd_other; auto].
    + intros a v Ha Hv. destruct (f_answers0 a v Ha Hv) as (k & t & K). exists k, t. now rewrite Ho.
    + apply (LG []). now rewrite app_nil_r.
  - destruct I, J. unfold offer. constructor; cbn [docs compiled queue actions answers log]; auto.
    + intros p a [<-|Hp] [<-|Ha]; cbn [p_id c_id c_uri c_version p_text]; auto.
      * intros _. destruct (f_compiled0 u) as [H|H]; [now left|right; rewrite H; now destruct (compiled E s u)].
      * intros H. apply i_actions0 in Ha as (_ & q & Q). apply nth_lt in Q. lia.
      * intros H. apply i_queue0 in Hp as (q & Q). apply nth_lt in Q. lia.
    + intros a v Ha Hv. destruct (f_answers0 a v Ha Hv) as (q & t & K1 & K2). exists q, t. rewrite Ho. split; [now apply nth_snoc|exact K2].
    + apply (LG [(u, k)] Ho).
  - rewrite app_nil_r in Ho. apply (fits_docs h _ s); auto; cbn [queue]; [intros p; apply delete_in|]. apply (LG []). now rewrite app_nil_r.
  - rewrite app_nil_r in Ho. unfold choose. assert (G : fits (h ++ [Choose i]) s) by (apply (fits_docs h _ s); auto; apply (LG []); now rewrite app_nil_r).
    destruct (find _ _) as [a|] eqn:F; [|exact G]. apply find_action in F as [F _]. destruct (i_actions _ _ J a F) as [-> _]. exact G.
  - rewrite app_nil_r in Ho. unfold resolve. assert (G : fits (h ++ [Resolve i]) s) by (apply (fits_docs h _ s); auto; apply (LG []); now rewrite app_nil_r).
    destruct (find _ _) as [a|] eqn:F; [|exact G]. apply find_action in F as [F1 F2]. destruct (lookup _ _) as [p|] eqn:L; [|exact G]. apply lookup_some in L as [L1 L2].
    destruct G. constructor; cbn [docs compiled queue actions answers log]; auto.
    + intros p0 b Hp Hb. apply delete_in in Hp. auto.
    + destruct (compute (p_kind p) (p_text p)) as [e|] eqn:C; [|exact f_answers0]. intros b v [<-|Hb] Hv; [|exact (f_answers0 b v Hb Hv)]. cbn [a_id a_uri a_version a_edits] in *. destruct sup; [|discriminate]. injection Hv as <-.
      destruct (i_actions _ _ J a F1) as (_ & k & K). destruct (i_queue _ _ J p L1) as (w & W). rewrite L2 in W. rewrite F2 in K. rewrite K in W. injection W as <- ->.
      exists (p_kind p), (p_text p). rewrite Ho. split; [exact K|]. split; [exact C|]. apply f_queue0; congruence.
  - rewrite app_nil_r in Ho. unfold deliver. assert (G : fits (h ++ [Deliver i]) s) by (apply (fits_docs h _ s); auto; apply (LG []); now rewrite app_nil_r).
    destruct (find _ _) as [a|] eqn:F; [|exact G]. apply find_answer in F as [F1 F2]. subst i.
    set (s1 := mkState E (docs E s) (compiled E s) (fresh E s) (queue E s) (actions E s) (filter (fun b => negb (a_id E b =? a_id E a)) (answers E s)) (log E s)).
    assert (G1 : fits (h ++ [Deliver (a_id E a)]) s1). { apply (fits_docs h _ s); auto; [|apply (LG []); now rewrite app_nil_r]. unfold s1. cbn [answers]. intros b H. apply filter_In in H. tauto. }
    assert (P : (sup = true -> fitting compute (h ++ [Deliver (a_id E a)]) (mkApplied E (a_id E a) (a_uri E a) (text (docs E s (a_uri E a))) (a_edits E a))) ->
      fits (h ++ [Deliver (a_id E a)]) (perform E apply s1 (a_id E a) (a_uri E a) (a_edits E a))).
    { intros H. apply (fits_docs h _ s); auto; unfold perform, s1; cbn [docs queue answers log].
      - intros w. destruct (Nat.eq_dec w (a_uri E a)) as [->|W]; [right; eexists; now rewrite upd_same|left; now rewrite upd_other].
      - intros b B. apply filter_In in B. tauto.
      - intros S l [<-|Hl]; [now apply H|]. apply (LG []); auto. now rewrite app_nil_r. }
    destruct (a_version E a) as [v|] eqn:V.
    + cbn [docs]. destruct (v =? version (docs E s1 (a_uri E a))) eqn:Q; [|exact G1]. apply Nat.eqb_eq in Q. apply P. intros S.
      destruct (f_answers _ _ I a v F1 V) as (k & t & K1 & K2 & K3). exists k. cbn [l_id l_uri l_before l_edits]. rewrite Ho. split; [exact K1|].
      unfold s1 in Q. cbn [docs] in Q. destruct K3 as [K3|K3]; [cbn [version] in K3; lia|]. now rewrite K3.
    + apply P. intros S. exfalso. now apply (AV S a F1).
Qed.

(** ** Without resolving nothing happens *)
Lemma no_resolve h : ~ resolved h -> answers E (run_ h) = [] /\ log E (run_ h) = [].
Proof.
  induction h as [|o h IH] using rev_ind; intros R; [auto|]. assert (Rh : ~ resolved h) by (intros (i & H); apply R; exists i; apply in_app_iff; now left).
  specialize (IH Rh). pose proof (ids_run h) as J. rewrite run_snoc. revert IH J. generalize (run_ h). intros s [A L] J.
  destruct o as [u t|u t|u|u k|i|i|i|i]; cbn [step]; auto.
  - unfold choose. destruct (find _ _) as [a|] eqn:F; [|auto]. apply find_action in F as [F _]. destruct (i_actions _ _ J a F) as [-> _]. auto.
  - exfalso. apply R. exists i. apply in_app_iff. right. now left.
  - unfold deliver. rewrite A. auto.
Qed.

(** ** A refactoring takes effect *)
Lemma lookup_delete i j q p : j <> i -> lookup i q = Some p -> lookup i (delete j q) = Some p.
Proof.
  intros N. unfold lookup, delete. induction q as [|x q IH]; [easy|]. cbn [find filter]. destruct (p_id x =? j) eqn:J; cbn [negb].
  - apply Nat.eqb_eq in J. replace (p_id x =? i) with false by (symmetry; apply Nat.eqb_neq; congruence). exact IH.
  - cbn [find]. destruct (p_id x =? i); auto.
Qed.
Definition waiting (h : list op) (u k : nat) (t : bytes) (s : state) : Prop :=
  let i := List.length (offers h) in
  i < fresh E s /\ docs E s u = docs E (run_ h) u /\
  lookup i (queue E s) = Some (mkPending i k t) /\ find (fun a => c_id E a =? i) (actions E s) = Some (mkAction E i u (version (docs E (run_ h) u)) None).
Lemma waits h u k g : Forall leaves g -> ~ In (Expire (List.length (offers h))) g -> ~ In (Resolve (List.length (offers h))) g ->
  waiting h u k (text (docs E (run_ h) u)) (run_ (h ++ Compile u :: Offer u k :: g)).
Proof.
  induction g as [|o g IH] using rev_ind; intros L X R.
  - replace (h ++ [Compile u; Offer u k]) with ((h ++ [Compile u]) ++ [Offer u k]) by now rewrite <- app_assoc. rewrite !run_snoc. pose proof (i_fresh _ _ (ids_run h)) as F.
    revert F. unfold waiting. generalize (run_ h). intros s F. cbn [step]. unfold offer. cbn [fresh docs queue actions compiled]. rewrite upd_same, F. cbn [lookup find p_id c_id]. unfold lookup. cbn [find p_id]. rewrite Nat.eqb_refl. repeat split. lia.
  - apply Forall_app in L as [L1 L2]. apply Forall_inv in L2. rewrite in_app_iff in X, R.
    replace (h ++ Compile u :: Offer u k :: g ++ [o]) with ((h ++ Compile u :: Offer u k :: g) ++ [o]) by now rewrite <- app_assoc.
    rewrite run_snoc. specialize (IH L1 ltac:(tauto) ltac:(tauto)). pose proof (ids_run (h ++ Compile u :: Offer u k :: g)) as J. revert IH J. generalize (run_ (h ++ Compile u :: Offer u k :: g)).
    intros s (W1 & W2 & W3 & W4) J. unfold waiting. cbv zeta.
    destruct o as [w t|w t|w|w q|i|i|i|i]; cbn [step]; try contradiction L2; auto.
    + cbn [fresh docs queue actions offer]. unfold lookup. cbn [find p_id c_id]. replace (fresh E s =? List.length (offers h)) with false by (symmetry; apply Nat.eqb_neq; lia). repeat split; auto.
    + cbn [fresh docs queue actions]. repeat split; auto. apply lookup_delete; [|exact W3]. intros ->. apply X. right. now left.
    + unfold choose. destruct (find (fun a => c_id E a =? i) (actions E s)) as [a|] eqn:F; [|auto]. apply find_action in F as [F _]. destruct (i_actions _ _ J a F) as [Z _]. destruct (c_edit E a); [discriminate Z|]. auto.
    + unfold resolve. destruct (find (fun a => c_id E a =? i) (actions E s)) as [a|] eqn:F; [|auto]. destruct (lookup i (queue E s)) as [p|]; [|auto]. cbn [fresh docs queue actions]. repeat split; auto. apply lookup_delete; [|exact W3]. intros ->. apply R. right. now left.
Qed.
Lemma takes_effect h u k g e : compute k (text (docs E (run_ h) u)) = Some e ->
  Forall leaves g -> ~ In (Expire (List.length (offers h))) g -> ~ In (Resolve (List.length (offers h))) g ->
  text (docs E (run_ (h ++ Compile u :: Offer u k :: g ++ [Resolve (List.length (offers h)); Deliver (List.length (offers h))])) u) = apply e (text (docs E (run_ h) u)).
Proof.
  intros C L X R. pose proof (waits h u k g L X R) as (_ & W2 & W3 & W4).
  replace (h ++ Compile u :: Offer u k :: g ++ [Resolve (List.length (offers h)); Deliver (List.length (offers h))]) with (((h ++ Compile u :: Offer u k :: g) ++ [Resolve (List.length (offers h))]) ++ [Deliver (List.length (offers h))])
    by (rewrite <- !app_assoc; reflexivity).
  rewrite !run_snoc. revert W2 W3 W4. generalize (run_ (h ++ Compile u :: Offer u k :: g)). intros s W2 W3 W4. cbn [step]. unfold resolve. rewrite W4, W3. cbn [p_kind p_text]. rewrite C.
  unfold deliver. cbn [answers find a_id]. rewrite !Nat.eqb_refl. cbn [a_version c_version docs a_uri c_uri a_edits]. rewrite W2.
  destruct sup; [rewrite Nat.eqb_refl|]; unfold perform; cbn [docs]; rewrite upd_same; cbn [text]; now rewrite W2.
Qed.
End A.
