(** * Proofs about where the comments of an option are looked up *)
From Coq Require Import List Arith ZArith Lia.
From Verif.Settings Require Import Model Spec.
Import ListNotations.
Open Scope list_scope.

(** ** Paths that reach options *)
Lemma message_reaches o n r j : in_message o ->
  option_at EMessage (o ++ n :: r) j = Some (j + List.length o - 1).
Proof.
  intro H. revert j. induction H as [ | | | | | | | m p H IH]; intro j; cbn;
    try (f_equal; lia).
  rewrite IH. f_equal. assert (p <> []) by (destruct H; discriminate).
  destruct p; [congruence|cbn; lia].
Qed.

Lemma path_reaches o n r : options_path o ->
  option_at EFile (o ++ n :: r) 0 = Some (List.length o - 1).
Proof.
  intro H. destruct H as [ |m p H| | | | | ]; cbn; try reflexivity.
  rewrite message_reaches by exact H. reflexivity.
Qed.

Lemma message_odd o : in_message o -> Nat.odd (List.length o) = true.
Proof. induction 1; cbn; auto. Qed.

Lemma path_odd o : options_path o -> Nat.odd (List.length o) = true.
Proof. destruct 1 as [ |m p H| | | | | ]; cbn; try reflexivity. now apply message_odd. Qed.

Ltac split_tag t :=
  destruct t as [|t|t]; try discriminate;
  repeat (destruct t as [t|t|]; try discriminate).

Lemma leaf_reaches k t p j i :
  (forall s e, edges k s = Some e -> s = t /\ e = EOption) ->
  option_at k p j = Some i -> exists n r, p = t :: n :: r /\ i = j.
Proof.
  intros E H. destruct p as [|s [|n r]]; [discriminate H|discriminate H|].
  cbn in H. destruct (edges k s) as [e|] eqn:He; [|discriminate H].
  destruct (E _ _ He) as [-> ->]. injection H as <-. eauto.
Qed.

Lemma field_leaf s e : edges EField s = Some e -> s = 8%Z /\ e = EOption.
Proof. intro H. cbn in H. split_tag s. now injection H as <-. Qed.
Lemma oneof_leaf s e : edges EOneOf s = Some e -> s = 2%Z /\ e = EOption.
Proof. intro H. cbn in H. split_tag s. now injection H as <-. Qed.
Lemma range_leaf s e : edges EExtensionRange s = Some e -> s = 3%Z /\ e = EOption.
Proof. intro H. cbn in H. split_tag s. now injection H as <-. Qed.
Lemma value_leaf s e : edges EEnumVal s = Some e -> s = 3%Z /\ e = EOption.
Proof. intro H. cbn in H. split_tag s. now injection H as <-. Qed.
Lemma method_leaf s e : edges EMethod s = Some e -> s = 4%Z /\ e = EOption.
Proof. intro H. cbn in H. split_tag s. now injection H as <-. Qed.

Lemma none_reaches k p j i : (forall s, edges k s = None) -> option_at k p j = Some i -> False.
Proof.
  intros E H. destruct p as [|s [|n r]]; [discriminate H|discriminate H|].
  cbn in H. now rewrite E in H.
Qed.

Lemma enum_reaches p j i : option_at EEnum p j = Some i ->
  (exists n r, p = 3%Z :: n :: r /\ i = j) \/
  (exists v n r, p = 2%Z :: v :: 3%Z :: n :: r /\ i = j + 2).
Proof.
  intro H. destruct p as [|s [|n r]]; [discriminate H|discriminate H|].
  cbn [option_at] in H. destruct (edges EEnum s) as [e|] eqn:He; [|discriminate H].
  assert (C : (s = 3%Z /\ e = EOption) \/ (s = 2%Z /\ e = EEnumVal)
              \/ e = EReservedRange \/ e = EReservedName).
  { cbn in He. split_tag s; injection He as <-; auto. }
  destruct C as [[-> ->]|[[-> ->]|[-> | ->]]].
  - injection H as <-. left. eauto.
  - right. destruct (leaf_reaches _ _ _ _ _ value_leaf H) as (m & r' & -> & ->). eauto.
  - exfalso. eapply none_reaches; [|exact H]. reflexivity.
  - exfalso. eapply none_reaches; [|exact H]. reflexivity.
Qed.

Lemma service_reaches p j i : option_at EService p j = Some i ->
  (exists n r, p = 3%Z :: n :: r /\ i = j) \/
  (exists v n r, p = 2%Z :: v :: 4%Z :: n :: r /\ i = j + 2).
Proof.
  intro H. destruct p as [|s [|n r]]; [discriminate H|discriminate H|].
  cbn [option_at] in H. destruct (edges EService s) as [e|] eqn:He; [|discriminate H].
  assert (C : (s = 3%Z /\ e = EOption) \/ (s = 2%Z /\ e = EMethod)).
  { cbn in He. split_tag s; injection He as <-; auto. }
  destruct C as [[-> ->]|[-> ->]].
  - injection H as <-. left. eauto.
  - right. destruct (leaf_reaches _ _ _ _ _ method_leaf H) as (m & r' & -> & ->). eauto.
Qed.

Lemma message_reached : forall len p j i, List.length p <= len ->
  option_at EMessage p j = Some i ->
  exists o n r, p = o ++ n :: r /\ in_message o /\ i + 1 = j + List.length o.
Proof.
  induction len as [|len IH]; intros p j i L H.
  { destruct p; [discriminate H|cbn in L; lia]. }
  destruct p as [|s [|n r]]; [discriminate H|discriminate H|].
  cbn [option_at] in H. destruct (edges EMessage s) as [e|] eqn:He; [|discriminate H].
  assert (C : (s = 7%Z /\ e = EOption) \/ (s = 2%Z /\ e = EField) \/ (s = 6%Z /\ e = EField)
              \/ (s = 8%Z /\ e = EOneOf) \/ (s = 3%Z /\ e = EMessage) \/ (s = 4%Z /\ e = EEnum)
              \/ (s = 5%Z /\ e = EExtensionRange)
              \/ e = EReservedRange \/ e = EReservedName).
  { cbn in He. split_tag s; injection He as <-; auto 12. }
  destruct C as [[-> ->]|[[-> ->]|[[-> ->]|[[-> ->]|[[-> ->]|[[-> ->]|[[-> ->]|[-> | ->]]]]]]]].
  - injection H as <-. exists [7%Z], n, r. split; [reflexivity|split; [constructor|cbn; lia]].
  - destruct (leaf_reaches _ _ _ _ _ field_leaf H) as (m & r' & -> & ->).
    exists [2%Z; n; 8%Z], m, r'. split; [reflexivity|split; [constructor|cbn; lia]].
  - destruct (leaf_reaches _ _ _ _ _ field_leaf H) as (m & r' & -> & ->).
    exists [6%Z; n; 8%Z], m, r'. split; [reflexivity|split; [constructor|cbn; lia]].
  - destruct (leaf_reaches _ _ _ _ _ oneof_leaf H) as (m & r' & -> & ->).
    exists [8%Z; n; 2%Z], m, r'. split; [reflexivity|split; [constructor|cbn; lia]].
  - destruct (IH r (j + 2) i) as (o & m & r' & -> & Ho & E); [cbn in L; lia|exact H|].
    exists (3%Z :: n :: o), m, r'. split; [reflexivity|split; [now constructor|cbn; lia]].
  - destruct (enum_reaches _ _ _ H) as [(m & r' & -> & ->)|(v & m & r' & -> & ->)].
    + exists [4%Z; n; 3%Z], m, r'. split; [reflexivity|split; [constructor|cbn; lia]].
    + exists [4%Z; n; 2%Z; v; 3%Z], m, r'. split; [reflexivity|split; [constructor|cbn; lia]].
  - destruct (leaf_reaches _ _ _ _ _ range_leaf H) as (m & r' & -> & ->).
    exists [5%Z; n; 3%Z], m, r'. split; [reflexivity|split; [constructor|cbn; lia]].
  - exfalso. eapply none_reaches; [|exact H]. reflexivity.
  - exfalso. eapply none_reaches; [|exact H]. reflexivity.
Qed.

Lemma path_reached p i : option_at EFile p 0 = Some i ->
  exists o n r, p = o ++ n :: r /\ options_path o /\ i + 1 = List.length o.
Proof.
  intro H. destruct p as [|s [|n r]]; [discriminate H|discriminate H|].
  cbn [option_at] in H. destruct (edges EFile s) as [e|] eqn:He; [|discriminate H].
  assert (C : (s = 8%Z /\ e = EOption) \/ (s = 4%Z /\ e = EMessage) \/ (s = 5%Z /\ e = EEnum)
              \/ (s = 7%Z /\ e = EField) \/ (s = 6%Z /\ e = EService)).
  { cbn in He. split_tag s; injection He as <-; auto 12. }
  destruct C as [[-> ->]|[[-> ->]|[[-> ->]|[[-> ->]|[-> ->]]]]].
  - injection H as <-. exists [8%Z], n, r. split; [reflexivity|split; [constructor|cbn; lia]].
  - destruct (message_reached _ _ _ _ (le_n _) H) as (o & m & r' & -> & Ho & E).
    exists (4%Z :: n :: o), m, r'. split; [reflexivity|split; [now constructor|cbn; lia]].
  - destruct (enum_reaches _ _ _ H) as [(m & r' & -> & ->)|(v & m & r' & -> & ->)].
    + exists [5%Z; n; 3%Z], m, r'. split; [reflexivity|split; [constructor|cbn; lia]].
    + exists [5%Z; n; 2%Z; v; 3%Z], m, r'. split; [reflexivity|split; [constructor|cbn; lia]].
  - destruct (leaf_reaches _ _ _ _ _ field_leaf H) as (m & r' & -> & ->).
    exists [7%Z; n; 8%Z], m, r'. split; [reflexivity|split; [constructor|cbn; lia]].
  - destruct (service_reaches _ _ _ H) as [(m & r' & -> & ->)|(v & m & r' & -> & ->)].
    + exists [6%Z; n; 3%Z], m, r'. split; [reflexivity|split; [constructor|cbn; lia]].
    + exists [6%Z; n; 2%Z; v; 4%Z], m, r'. split; [reflexivity|split; [constructor|cbn; lia]].
Qed.

(** ** What is stored *)
Definition keys (p : list Z) : list (list Z) :=
  match option_at EFile p 0 with
  | None => []
  | Some i =>
      let np := sized (i + 3) p in
      let np0 := firstn (i + 2) np ++ [0%Z] in
      [np; np0; firstn (i + 2) np0]
  end.

Lemma keys_are o n r : options_path o ->
  keys (o ++ n :: r) = [o ++ [n; hd 0%Z r]; o ++ [n; 0%Z]; o ++ [n]].
Proof.
  intro H. unfold keys. rewrite path_reaches by exact H. cbv zeta.
  pose proof (path_odd _ H) as Odd.
  destruct (List.length o) as [|i] eqn:L; [discriminate Odd|].
  replace (S i - 1) with i by lia.
  assert (E : sized (i + 3) (o ++ n :: r) = o ++ [n; hd 0%Z r]).
  { unfold sized. rewrite app_length, L. rewrite firstn_app, L.
    rewrite firstn_all2 by lia. replace (i + 3 - S i) with 2 by lia.
    rewrite <- app_assoc. f_equal. destruct r as [|x r]; cbn.
    - replace (i + 3 - S (i + 1)) with 1 by lia. reflexivity.
    - replace (i + 3 - _) with 0 by lia. reflexivity. }
  rewrite E. replace (i + 2) with (S i + 1) by lia. rewrite <- L.
  assert (F : forall x, firstn (List.length o + 1) (o ++ [n; x]) = o ++ [n]).
  { intro x. rewrite firstn_app_2. reflexivity. }
  rewrite F. rewrite <- app_assoc. cbn [app]. now rewrite F.
Qed.

Section Places.
Context {A : Type}.
Implicit Types (m : info A) (locs : list (list Z * A)).

Lemma get_app m m' p : get (m ++ m') p = match get m p with Some a => Some a | None => get m' p end.
Proof.
  induction m as [|[q a] m IH]; cbn; [reflexivity|]. destruct (path_dec q p); auto.
Qed.

Lemma get_put m p a q :
  get (put_if_absent m p a) q =
  match get m q with Some x => Some x | None => if path_dec p q then Some a else None end.
Proof.
  unfold put_if_absent. destruct (get m p) as [x|] eqn:G.
  - destruct (get m q) eqn:H; [reflexivity|]. destruct (path_dec p q) as [->|]; congruence.
  - rewrite get_app. cbn. reflexivity.
Qed.

Lemma get_extend m l q :
  get (extend_one m l) q =
  match get m q with
  | Some x => Some x
  | None => if in_dec path_dec q (keys (fst l)) then Some (snd l) else None
  end.
Proof.
  unfold extend_one, keys. destruct (option_at EFile (fst l) 0) as [i|].
  - cbv zeta. rewrite !get_put. destruct (get m q) as [x|]; [reflexivity|].
    destruct (in_dec path_dec q _) as [I|I]; cbn [In] in I;
      repeat (destruct (path_dec _ _)); try reflexivity; exfalso; tauto.
  - cbn. now destruct (get m q).
Qed.

Lemma first_of_ext P Q locs r :
  (forall q, P q <-> Q q) -> first_of P locs r -> first_of Q locs r.
Proof.
  intros E. destruct r as [a|]; cbn.
  - intros (b & q & c & -> & H & N). exists b, q, c. repeat split; [now apply E|].
    intros q' a' I F. apply (N q' a' I). now apply E.
  - intros H q a I F. apply (H q a I). now apply E.
Qed.

Lemma first_of_cons (P : list Z -> Prop) q a locs r : ~ P q ->
  first_of P locs r -> first_of P ((q, a) :: locs) r.
Proof.
  intros N. destruct r as [x|]; cbn.
  - intros (b & q' & c & -> & H & F). exists ((q, a) :: b), q', c. repeat split; [exact H|].
    intros q2 a2 [E|I]; [injection E as <- <-; exact N|eauto].
  - intros H q2 a2 [E|I]; [injection E as <- <-; exact N|eauto].
Qed.

Lemma get_fold locs : forall m q,
  match get m q with
  | Some x => get (fold_left extend_one locs m) q = Some x
  | None => first_of (fun p => In q (keys p)) locs (get (fold_left extend_one locs m) q)
  end.
Proof.
  induction locs as [|[p a] locs IH]; intros m q.
  - cbn. destruct (get m q); [reflexivity|]. intros ? ? [].
  - cbn [fold_left]. specialize (IH (extend_one m (p, a)) q).
    rewrite get_extend in IH. destruct (get m q) as [x|]; [exact IH|].
    cbn [fst snd] in IH. destruct (in_dec path_dec q (keys p)) as [I|I].
    + rewrite IH. exists [], p, locs. repeat split; [exact I|]. intros ? ? [].
    + now apply first_of_cons.
Qed.

Lemma populate_is locs : populate locs = locs.
Proof.
  unfold populate. assert (H : forall l m, fold_left (fun m l => add m (fst l) (snd l)) l m = m ++ l).
  { induction l as [|[p a] l IH]; intro m; cbn; [now rewrite app_nil_r|].
    rewrite IH. unfold add. now rewrite <- app_assoc. }
  apply H.
Qed.

Lemma get_first locs q : first_of (fun p => p = q) locs (get locs q).
Proof.
  induction locs as [|[p a] locs IH]; cbn [get].
  - intros ? ? [].
  - destruct (path_dec p q) as [E|N].
    + exists [], p, locs. repeat split; [exact E|]. intros ? ? [].
    + now apply first_of_cons.
Qed.

Lemma source_info_get locs q :
  match get locs q with
  | Some x => get (source_info locs) q = Some x
  | None => first_of (fun p => In q (keys p)) locs (get (source_info locs) q)
  end.
Proof. unfold source_info. rewrite populate_is. apply get_fold. Qed.
End Places.

(** ** Which locations stand for which path *)
Lemma two_tail (o o' : list Z) n n' k k' :
  o ++ [n; k] = o' ++ [n'; k'] -> o = o' /\ n = n' /\ k = k'.
Proof.
  intro H. change [n; k] with ([n] ++ [k]) in H. change [n'; k'] with ([n'] ++ [k']) in H.
  rewrite !app_assoc in H. apply app_inj_tail in H as [H ->].
  apply app_inj_tail in H as [-> ->]. auto.
Qed.

Lemma parity o o' (n : Z) (k : Z) n' : options_path o -> options_path o' ->
  o ++ [n; k] = o' ++ [n'] -> False.
Proof.
  intros H H' E. apply (f_equal (@List.length Z)) in E. rewrite !app_length in E. cbn in E.
  apply path_odd in H. apply path_odd in H'.
  assert (L : List.length o' = S (List.length o)) by lia.
  rewrite L, Nat.odd_succ, <- Nat.negb_odd, H in H'. discriminate H'.
Qed.

Lemma keys_in q p : In q (keys p) -> exists o n r, p = o ++ n :: r /\ options_path o.
Proof.
  unfold keys. destruct (option_at EFile p 0) as [i|] eqn:E; [|intros []].
  intros _. destruct (path_reached _ _ E) as (o & n & r & -> & Ho & _). eauto.
Qed.

Lemma keys_tag o n p : options_path o ->
  (In (o ++ [n]) (keys p) <-> under (o ++ [n]) p).
Proof.
  intro H. split.
  - intro I. destruct (keys_in _ _ I) as (o' & n' & r & -> & H').
    rewrite keys_are in I by exact H'. cbn [In] in I. destruct I as [E|[E|[E|[]]]].
    + exfalso. eapply parity; [| |exact E]; assumption.
    + exfalso. eapply parity; [| |exact E]; assumption.
    + rewrite <- E. exists r. now rewrite <- app_assoc.
  - intros [r ->]. rewrite <- app_assoc. cbn [app]. rewrite keys_are by exact H. cbn. auto.
Qed.

Lemma keys_zero o n p : options_path o ->
  (In (o ++ [n; 0%Z]) (keys p) <-> under (o ++ [n]) p).
Proof.
  intro H. split.
  - intro I. destruct (keys_in _ _ I) as (o' & n' & r & -> & H').
    rewrite keys_are in I by exact H'. cbn [In] in I. destruct I as [E|[E|[E|[]]]].
    + apply two_tail in E as (-> & -> & _). exists r. now rewrite <- app_assoc.
    + apply two_tail in E as (-> & -> & _). exists r. now rewrite <- app_assoc.
    + exfalso. symmetry in E. eapply parity; [| |exact E]; assumption.
  - intros [r ->]. rewrite <- app_assoc. cbn [app]. rewrite keys_are by exact H. cbn. auto.
Qed.

Lemma keys_index o n k p : options_path o -> k <> 0%Z ->
  (In (o ++ [n; k]) (keys p) <-> under (o ++ [n; k]) p).
Proof.
  intros H N. split.
  - intro I. destruct (keys_in _ _ I) as (o' & n' & r & -> & H').
    rewrite keys_are in I by exact H'. cbn [In] in I. destruct I as [E|[E|[E|[]]]].
    + apply two_tail in E as (-> & -> & E). destruct r as [|x r]; cbn in E; [congruence|].
      subst x. exists r. now rewrite <- app_assoc.
    + apply two_tail in E as (_ & _ & E). congruence.
    + exfalso. symmetry in E. eapply parity; [| |exact E]; assumption.
  - intros [r ->]. rewrite <- app_assoc. cbn [app]. rewrite keys_are by exact H. cbn. auto.
Qed.
