From Coq Require Import Ascii String ZArith Lia.
From Verif Require Import Base Strs.
From Verif.Element Require Import Model Spec.
Open Scope list_scope.

Section MessageInd.
Variable P : message -> Prop.
Hypothesis H : forall n es ens ms, Forall P ms -> P (Message n es ens ms).
Fixpoint message_nested (m : message) : P m :=
  match m with Message n es ens ms => H n es ens ms ((fix go l : Forall P l := match l with [] => Forall_nil _ | x :: r => Forall_cons _ (message_nested x) (go r) end) ms) end.
End MessageInd.
Section FileInd.
Variable P : file -> Prop.
Hypothesis H : forall es ens ms is, Forall (fun i => P (snd i)) is -> P (File es ens ms is).
Fixpoint file_nested (f : file) : P f :=
  match f with File es ens ms is => H es ens ms is ((fix go l : Forall (fun i => P (snd i)) l := match l with [] => Forall_nil _ | x :: r => Forall_cons _ (file_nested (snd x)) (go r) end) is) end.
End FileInd.

(** the order in which entries are offered to the registry *)
Definition own (only : bool) (es : list ext) (ens : list bytes) (ms : list message) : list entry :=
  map EExt es ++ if only then [] else map (fun m => EMessage (message_name m)) ms ++ map EEnum ens.
Fixpoint of_message (only : bool) (m : message) : list entry :=
  match m with Message _ es ens ms => own only es ens ms ++ flat_map (of_message only) ms end.
Fixpoint of_file (only pub : bool) (f : file) : list entry :=
  match f with File es ens ms is => own only es ens ms ++ flat_map (of_message only) ms ++ flat_map (fun i => if (fst i || negb pub)%bool then of_file only true (snd i) else []) is end.
Lemma fold_map {A B C} (f : A -> B -> A) (g : C -> B) l : forall r, fold_left (fun r c => f r (g c)) l r = fold_left f (map g l) r.
Proof. induction l as [|x l IH]; intro r; [reflexivity|]. cbn. apply IH. Qed.
Lemma own_eq only es ens ms r : register_own only es ens ms r = fold_left register (own only es ens ms) r.
Proof.
  unfold register_own, own. rewrite (fold_map register EExt), fold_left_app. destruct only; [reflexivity|].
  now rewrite fold_left_app, (fold_map register EEnum), (fold_map register (fun m => EMessage (message_name m))).
Qed.
Lemma fold_flat {A} (go : A -> list entry -> list entry) (of : A -> list entry) l : Forall (fun a => forall r, go a r = fold_left register (of a) r) l ->
  forall r, fold_left (fun r a => go a r) l r = fold_left register (flat_map of l) r.
Proof. induction 1 as [|a l E F IH]; intro r; [reflexivity|]. cbn. now rewrite fold_left_app, <- E. Qed.
Lemma message_eq only m : forall r, register_message only m r = fold_left register (of_message only m) r.
Proof. induction m as [n es ens ms IH] using message_nested. intro r. cbn. rewrite own_eq, fold_left_app. now apply (fold_flat (register_message only)). Qed.
Lemma file_eq only f : forall pub r, register_file only pub f r = fold_left register (of_file only pub f) r.
Proof.
  induction f as [es ens ms is IH] using file_nested. intros pub r. cbn. rewrite own_eq, !fold_left_app.
  rewrite (fold_flat (register_message only) (of_message only)); [|apply Forall_forall; intros m _; apply message_eq].
  apply (fold_flat (fun i r => if (fst i || negb pub)%bool then register_file only true (snd i) r else r)). apply Forall_forall. intros i I r'.
  destruct (fst i || negb pub)%bool; [|reflexivity]. exact (proj1 (Forall_forall _ _) IH i I true r').
Qed.
Lemma registered_eq only f : registered only f = fold_left register (of_file only false f) [].
Proof. apply file_eq. Qed.

(** what the registry holds after entries have been offered *)
Lemma clash_iff a b : clash a b = true <-> conflict a b.
Proof.
  unfold clash, conflict. rewrite orb_true_iff, beq_eq. split; (intros [E|E]; [now left|right]).
  - destruct a as [n|n|x], b as [n'|n'|y]; try discriminate. apply andb_true_iff in E. destruct E as [E1 E2]. exists x, y. repeat split; [now apply beq_eq|now apply Z.eqb_eq].
  - destruct E as (x & y & -> & -> & E1 & E2). apply andb_true_iff. split; [now apply beq_eq|now apply Z.eqb_eq].
Qed.
Lemma conflict_sym a b : conflict a b -> conflict b a.
Proof. intros [E|(x & y & -> & -> & E1 & E2)]; [now left|right]. exists y, x. auto. Qed.
Lemma fold_keeps l : forall r e, In e r -> In e (fold_left register l r).
Proof. induction l as [|x l IH]; intros r e I; [exact I|]. cbn. apply IH. unfold register. destruct (existsb _ _); [exact I|]. apply in_or_app. now left. Qed.
Lemma fold_from l : forall r e, In e (fold_left register l r) -> In e r \/ In e l.
Proof.
  induction l as [|x l IH]; intros r e I; [now left|]. cbn in I. destruct (IH _ _ I) as [I'|I']; [|right; now right]. unfold register in I'. destruct (existsb _ _); [now left|].
  apply in_app_or in I'. destruct I' as [I'|[<-|[]]]; [now left|right; now left].
Qed.
Lemma fold_has l : forall r e, In e l -> exists e', In e' (fold_left register l r) /\ conflict e e'.
Proof.
  induction l as [|x l IH]; intros r e; [intros []|]. intros [->|I]; [|now apply IH]. cbn [fold_left]. unfold register. destruct (existsb (clash e) r) eqn:E.
  - apply existsb_exists in E. destruct E as (e' & I & C). exists e'. split; [now apply fold_keeps|now apply clash_iff].
  - exists e. split; [apply fold_keeps, in_or_app; right; now left|now left].
Qed.
Lemma fold_clean l : forall r, (forall i j a b, nth_error r i = Some a -> nth_error r j = Some b -> conflict a b -> i = j) ->
  forall i j a b, nth_error (fold_left register l r) i = Some a -> nth_error (fold_left register l r) j = Some b -> conflict a b -> i = j.
Proof.
  induction l as [|x l IH]; intros r C; [exact C|]. cbn. apply IH. unfold register. destruct (existsb (clash x) r) eqn:E; [exact C|].
  assert (N : forall a, In a r -> ~ conflict x a). { intros a I K. apply clash_iff in K. assert (existsb (clash x) r = true) by (apply existsb_exists; eauto). congruence. }
  intros i j a b A B K. destruct (Nat.lt_ge_cases i (List.length r)) as [Li|Li], (Nat.lt_ge_cases j (List.length r)) as [Lj|Lj].
  - rewrite nth_error_app1 in A, B by assumption. eapply C; eauto.
  - rewrite nth_error_app1 in A by assumption. rewrite nth_error_app2 in B by assumption. destruct (j - List.length r) as [|k]; cbn in B; [|destruct k; discriminate].
    injection B as <-. destruct (N a); [eapply nth_error_In; eauto|now apply conflict_sym].
  - rewrite nth_error_app2 in A by assumption. rewrite nth_error_app1 in B by assumption. destruct (i - List.length r) as [|k]; cbn in A; [|destruct k; discriminate].
    injection A as <-. destruct (N b); [eapply nth_error_In; eauto|exact K].
  - rewrite nth_error_app2 in A, B by assumption. destruct (i - List.length r) as [|k] eqn:Ei; cbn in A; [|destruct k; discriminate]. destruct (j - List.length r) as [|k] eqn:Ej; cbn in B; [|destruct k; discriminate]. lia.
Qed.

(** what is offered *)
Lemma own_iff only es ens ms e : In e (own only es ens ms) <-> (exists x, e = EExt x /\ In x es) \/ only = false /\ ((exists m, e = EMessage (message_name m) /\ In m ms) \/ exists n, e = EEnum n /\ In n ens).
Proof.
  unfold own. rewrite in_app_iff, in_map_iff. split.
  - intros [(x & <- & I)|I]; [left; eauto|right]. destruct only; [destruct I|]. split; [reflexivity|]. apply in_app_or in I. rewrite !in_map_iff in I. destruct I as [(m & <- & I)|(n & <- & I)]; eauto.
  - intros [(x & -> & I)|[-> K]]; [left; eauto|right]. apply in_or_app. rewrite !in_map_iff. destruct K as [(m & -> & I)|(n & -> & I)]; [left|right]; eauto.
Qed.
Lemma of_message_iff only m : forall e, In e (of_message only m) <-> in_message m e /\ (only = true -> is_ext e).
Proof.
  induction m as [n es ens ms IH] using message_nested. intro e. cbn [of_message]. rewrite in_app_iff, in_flat_map, own_iff. split.
  - intros [[(x & -> & I)|(-> & [(m & -> & I)|(y & -> & I)])]|(m & I & J)].
    + split; [now constructor|]. intros _. now exists x.
    + split; [|discriminate]. destruct m as [n' es' ens' ms']. cbn. econstructor. exact I.
    + split; [now constructor|discriminate].
    + apply (proj1 (Forall_forall _ _) IH m I) in J. destruct J as [J O]. split; [|exact O]. eapply im_deep; eauto.
  - intros [D O]. inversion D as [? ? ? ? x I|? ? ? ? y I|? ? ? ? n' es' ens' ms' I|? ? ? ? m ? I J]; subst.
    + left. left. eauto.
    + left. right. split; [destruct only; [destruct (O eq_refl); discriminate|reflexivity]|]. right. eauto.
    + left. right. split; [destruct only; [destruct (O eq_refl); discriminate|reflexivity]|]. left. exists (Message n' es' ens' ms'). auto.
    + right. exists m. split; [exact I|]. apply (proj1 (Forall_forall _ _) IH m I). auto.
Qed.
Lemma here_iff only es ens ms is e : In e (own only es ens ms ++ flat_map (of_message only) ms) <-> in_file (File es ens ms is) e /\ (only = true -> is_ext e).
Proof.
  rewrite in_app_iff, in_flat_map, own_iff. split.
  - intros [[(x & -> & I)|(-> & [(m & -> & I)|(y & -> & I)])]|(m & I & J)].
    + split; [now apply (if_ext _ es ens ms is)|]. intros _. now exists x.
    + split; [|discriminate]. destruct m as [n' es' ens' ms']. cbn. eapply (if_message _ es ens ms is); [reflexivity|exact I].
    + split; [now apply (if_enum _ es ens ms is)|discriminate].
    + apply of_message_iff in J. destruct J as [J O]. split; [|exact O]. now apply (if_deep _ es ens ms is m).
  - intros [D O]. inversion D as [? ? ? ? x E I|? ? ? ? y E I|? ? ? ? n' es' ens' ms' E I|? ? ? ? m ? E I J]; injection E as <- <- <- <-; subst.
    + left. left. eauto.
    + left. right. split; [destruct only; [destruct (O eq_refl); discriminate|reflexivity]|]. right. eauto.
    + left. right. split; [destruct only; [destruct (O eq_refl); discriminate|reflexivity]|]. left. exists (Message n' es' ens' ms'). auto.
    + right. exists m. split; [exact I|]. apply of_message_iff. auto.
Qed.
Lemma of_public only f : forall e, In e (of_file only true f) <-> (exists g, passes_on f g /\ in_file g e) /\ (only = true -> is_ext e).
Proof.
  induction f as [es ens ms is IH] using file_nested. intro e. cbn [of_file]. rewrite app_assoc, in_app_iff, (here_iff only es ens ms is), in_flat_map. split.
  - intros [[D O]|([b g] & I & J)]; [split; [|exact O]; exists (File es ens ms is); split; [constructor|exact D]|]. cbn in J. destruct b; cbn in J; [|destruct J].
    pose proof (proj1 (Forall_forall _ _) IH (true, g) I e) as G. cbn in G. apply G in J. destruct J as [(h & P & D) O]. split; [|exact O]. exists h. split; [|exact D]. eapply po_public; eauto.
  - intros [(g & P & D) O]. inversion P as [g0|g0 h k I P']; subst; [left; auto|]. right. exists (true, h). split; [exact I|]. cbn.
    pose proof (proj1 (Forall_forall _ _) IH (true, h) I e) as G. cbn in G. apply G. split; [eauto|exact O].
Qed.
Lemma of_file_iff only f e : In e (of_file only false f) <-> (exists g, sees f g /\ in_file g e) /\ (only = true -> is_ext e).
Proof.
  destruct f as [es ens ms is]. cbn [of_file]. rewrite app_assoc, in_app_iff, (here_iff only es ens ms is), in_flat_map. split.
  - intros [[D O]|([b g] & I & J)]; [split; [|exact O]; exists (File es ens ms is); split; [constructor|exact D]|]. cbn in J. rewrite orb_true_r in J.
    apply of_public in J. destruct J as [(h & P & D) O]. split; [|exact O]. exists h. split; [|exact D]. eapply s_import; eauto.
  - intros [(g & P & D) O]. inversion P as [g0|g0 b h k I P']; subst; [left; auto|]. right. exists (b, h). split; [exact I|]. cbn. rewrite orb_true_r. apply of_public. split; [eauto|exact O].
Qed.

(** unknown fields *)
Lemma lookup_iff r full n : lookup_ext r full n = None <-> forall x, In (EExt x) r -> extendee x = full -> number x <> n.
Proof.
  unfold lookup_ext. destruct (find _ r) as [e|] eqn:F.
  - apply find_some in F. destruct F as [I E]. destruct e as [m|m|x]; try discriminate. apply andb_true_iff in E. destruct E as [E1 E2]. apply beq_eq in E1. apply Z.eqb_eq in E2. split; [discriminate|].
    intro N. destruct (N x I E1 E2).
  - split; [|reflexivity]. intros _ x I E1 E2. pose proof (find_none _ _ F (EExt x) I) as N. cbn in N. subst. rewrite (proj2 (beq_eq _ _) eq_refl), Z.eqb_refl in N. discriminate.
Qed.
Lemma lookup_some r full n x : lookup_ext r full n = Some x -> In (EExt x) r /\ extendee x = full /\ number x = n.
Proof.
  unfold lookup_ext. destruct (find _ r) as [e|] eqn:F; [|discriminate]. apply find_some in F. destruct F as [I E]. destruct e as [m|m|y]; try discriminate. intros [= ->].
  apply andb_true_iff in E. destruct E as [E1 E2]. apply beq_eq in E1. apply Z.eqb_eq in E2. auto.
Qed.
Lemma unmarshal_spec decode r full u : (forall x b, decode x b <> None) -> exists k w, unmarshal decode r full u = Some (k, w) /\
  (forall n b, In (n, b) w <-> In (n, b) u /\ lookup_ext r full n = None) /\ (forall n v, In (n, v) k <-> exists b x, In (n, b) u /\ lookup_ext r full n = Some x /\ decode x b = Some v).
Proof.
  intro T. induction u as [|[n b] u (k & w & E & W & K)]; [exists [], []; cbn; repeat split; try tauto; intros (? & ? & [] & _)|]. cbn [unmarshal]. rewrite E.
  destruct (lookup_ext r full n) as [x|] eqn:L.
  - destruct (decode x b) as [v|] eqn:D; [|destruct (T x b D)]. exists ((n, v) :: k), w. split; [reflexivity|]. split.
    + intros n' b'. rewrite W. cbn. split; [tauto|]. intros [[[= <- <-]|I] N]; [congruence|auto].
    + intros n' v'. cbn. rewrite K. split.
      * intros [[= <- <-]|(b' & x' & I & L' & D')]; [exists b, x; auto|exists b', x'; auto].
      * intros (b' & x' & [[= <- <-]|I] & L' & D'); [left; congruence|right; eauto].
  - exists k, ((n, b) :: w). split; [reflexivity|]. split.
    + intros n' b'. cbn. rewrite W. split; [intros [[= <- <-]|[I N]]; auto|]. intros [[[= <- <-]|I] N]; auto.
    + intros n' v'. rewrite K. cbn. split; [intros (b' & x' & I & L' & D'); eauto 6|]. intros (b' & x' & [[= <- <-]|I] & L' & D'); [congruence|eauto].
Qed.

(** paths *)
Lemma leads_app a p b q c : leads a p b -> leads b q c -> leads a (p ++ q) c.
Proof. induction 1 as [|d tag i d1 path d2 C L IH]; intro Q; [exact Q|]. cbn. econstructor; eauto. Qed.
Lemma leads_one a tag i b : child a tag i = Some b -> leads a [tag; i] b.
Proof. intro C. econstructor; [exact C|constructor]. Qed.
Lemma leads_det a p b : leads a p b -> forall c, leads a p c -> b = c.
Proof. induction 1 as [|d tag i d1 path d2 C L IH]; intros c K; inversion K; subst; [reflexivity|]. apply IH. congruence. Qed.
