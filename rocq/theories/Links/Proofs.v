From Coq Require Import Ascii String.
From Verif Require Import Base Strs.
From Verif.Links Require Import Model Spec.
Open Scope list_scope.

Lemma spelled_named imports : spelled imports = true <-> named imports.
Proof.
  unfold spelled, named. rewrite existsb_exists. split; intros (i & H & E); exists i; (split; [exact H|]); now apply beq_eq.
Qed.
Lemma plain_spelled imports resolved deps : plain imports resolved deps ->
  (spelled imports = true -> deps = resolved) /\ (spelled imports = false -> ~ In descriptor resolved).
Proof.
  intros [P1 P2]. split; intros E; [apply P1, spelled_named, E|]. apply P2. rewrite <- spelled_named. congruence.
Qed.
Lemma find_dep_none deps : find_dep deps = None <-> ~ In descriptor deps.
Proof.
  induction deps as [|d r IH]; cbn [find_dep]; [split; [intros _ []|reflexivity]|].
  destruct (beq d descriptor) eqn:B.
  - apply beq_eq in B. subst. split; [discriminate|]. intros H. elim H. now left.
  - apply beq_neq in B. destruct (find_dep r) eqn:F; cbn; split; try discriminate; try reflexivity.
    + intros H. exfalso. assert (X : ~ In descriptor r) by (intros I; apply H; now right). apply IH in X. discriminate.
    + intros _ [E|I]; [now elim (B E)|]. apply IH in I; auto.
Qed.
Lemma find_dep_split a b : ~ In descriptor a -> find_dep (a ++ descriptor :: b) = Some (List.length a).
Proof.
  induction a as [|x a IH]; intros N; cbn [find_dep app List.length].
  - now rewrite beq_refl.
  - destruct (beq x descriptor) eqn:B; [apply beq_eq in B; subst; elim N; now left|].
    rewrite IH; [reflexivity|]. intros I. apply N. now right.
Qed.
Lemma cut_split a (x : bytes) b : cut (a ++ x :: b) (List.length a) = a ++ b.
Proof.
  unfold cut. rewrite firstn_app, firstn_all, Nat.sub_diag. cbn [firstn]. rewrite app_nil_r. f_equal.
  rewrite skipn_app. replace (S (List.length a) - List.length a) with 1 by lia. rewrite skipn_all2 by lia. reflexivity.
Qed.
Lemma find_dep_some deps i : find_dep deps = Some i -> exists a b, deps = a ++ descriptor :: b /\ i = List.length a /\ ~ In descriptor a.
Proof.
  revert i. induction deps as [|d r IH]; intros i F; cbn [find_dep] in F; [discriminate|].
  destruct (beq d descriptor) eqn:B.
  - apply beq_eq in B. subst. injection F as <-. exists [], r. repeat split. intros [].
  - apply beq_neq in B. destruct (find_dep r) as [j|]; [|discriminate]. injection F as <-.
    destruct (IH j eq_refl) as (a & b & -> & -> & N). exists (d :: a), b. repeat split. intros [E|I]; [now elim (B E)|auto].
Qed.

Lemma exists_last_or {A} (l : list A) : l = [] \/ exists a x, l = a ++ [x].
Proof. destruct l as [|y l]; [now left|right]. destruct (@exists_last _ (y :: l)) as (a & x & E); [discriminate|]. now exists a, x. Qed.

(** the paths used start with the resolved ones, and this stays so *)
Definition good (imports : list import) (resolved deps : list bytes) : Prop :=
  exists more, fst (view imports deps) = resolved ++ more.

Lemma view_first imports resolved deps : records imports resolved deps -> plain imports resolved deps ->
  fst (view imports deps) = resolved.
Proof.
  intros [L R] P. apply plain_spelled in P as [P1 P2]. unfold view. destruct (spelled imports); [cbn; auto|]. specialize (P2 eq_refl).
  destruct R as [->|(a & b & -> & ->)].
  - apply find_dep_none in P2. now rewrite P2.
  - rewrite find_dep_split by (intros I; apply P2, in_or_app; now left). cbn [fst]. apply cut_split.
Qed.
Lemma view_again imports resolved deps : records imports resolved deps -> plain imports resolved deps ->
  let d := snd (view imports deps) in d = deps \/ (spelled imports = false /\ exists x, d = resolved ++ [x] /\ In x resolved).
Proof.
  intros [L R] P. apply plain_spelled in P as [P1 P2]. unfold view. destruct (spelled imports); [now left|]. specialize (P2 eq_refl).
  destruct R as [->|(a & b & -> & ->)].
  - apply find_dep_none in P2. rewrite P2. now left.
  - rewrite find_dep_split by (intros I; apply P2, in_or_app; now left). cbn [snd]. unfold after_cut. rewrite cut_split.
    destruct (exists_last_or b) as [->|(b' & y & ->)].
    + left. rewrite app_nil_r, last_last. reflexivity.
    + right. split; [reflexivity|]. exists y. split.
      * f_equal. f_equal. change (a ++ desc_file :: b' ++ [y]) with (a ++ (descriptor :: b') ++ [y]).
        now rewrite app_assoc, last_last.
      * apply in_or_app. right. apply in_or_app. right. now left.
Qed.

Lemma zip_more {A} (f : import -> bytes -> list A) imports : forall paths more,
  List.length paths = List.length imports -> zip f imports (paths ++ more) = zip f imports paths.
Proof.
  induction imports as [|i r IH]; intros [|p ps] more L; cbn in *; try discriminate; [reflexivity|].
  now rewrite IH by lia.
Qed.
Lemma zip_all {A} (f : import -> bytes -> list A) imports : forall paths,
  List.length paths = List.length imports -> zip f imports paths = Some (flat_map (fun ip => f (fst ip) (snd ip)) (combine imports paths)).
Proof.
  induction imports as [|i r IH]; intros [|p ps] L; cbn in *; try discriminate; [reflexivity|].
  now rewrite IH by lia.
Qed.
Lemma zip_none {A} (f : import -> bytes -> list A) imports : forall paths,
  zip f imports paths = None <-> List.length paths < List.length imports.
Proof.
  induction imports as [|i r IH]; intros [|p ps]; cbn [zip List.length]; try (split; [discriminate | lia]).
  - split; [lia | reflexivity].
  - specialize (IH ps). destruct (zip f r ps) as [l|]; cbn [option_map].
    + split; [discriminate|]. intros L. assert (X : Some l = None) by (apply IH; lia). discriminate.
    + split; [intros _; assert (X : List.length ps < List.length r) by (now apply IH); lia | reflexivity].
Qed.

(** The stored lists that can occur: the recorded one or the shifted one. *)
Definition stored_ok (imports : list import) (resolved deps d : list bytes) : Prop :=
  d = deps \/ (spelled imports = false /\ exists x, d = resolved ++ [x] /\ In x resolved).

Lemma view_ok imports resolved deps d : records imports resolved deps -> plain imports resolved deps ->
  stored_ok imports resolved deps d ->
  (exists more, fst (view imports d) = resolved ++ more) /\ stored_ok imports resolved deps (snd (view imports d)).
Proof.
  intros R P [->|(S & x & -> & I)].
  - split; [exists []; rewrite app_nil_r; now apply view_first | now apply view_again].
  - apply plain_spelled in P as [_ P2]. specialize (P2 S). unfold view. rewrite S.
    assert (N : find_dep (resolved ++ [x]) = None).
    { apply find_dep_none. intros J. apply in_app_or in J as [J|[->|[]]]; auto. }
    rewrite N. cbn [fst snd]. split; [now exists [x]|]. right. split; [exact S|]. now exists x.
Qed.

Definition right_answer (target : bytes -> option bytes) (imports : list import) (resolved : list bytes) (r : request) : answer :=
  match r with
  | Links => ALinks (Some (expected target imports resolved))
  | Hints => AHints (Some (flat_map (fun ip => hint_for (fst ip) (snd ip)) (combine imports resolved)))
  end.
Lemma serve_ok target imports resolved deps d r : records imports resolved deps -> plain imports resolved deps ->
  stored_ok imports resolved deps d ->
  fst (serve target imports d r) = right_answer target imports resolved r /\
  stored_ok imports resolved deps (snd (serve target imports d r)).
Proof.
  intros R P S. destruct (view_ok imports resolved deps d R P S) as [[more E] S'].
  destruct R as [L _]. unfold serve, links, hints, right_answer, expected.
  destruct (view imports d) as [paths stored]. cbn [fst snd] in *. subst paths.
  destruct r; cbn [fst snd]; (split; [|exact S']); rewrite zip_more, zip_all by exact L; reflexivity.
Qed.
Lemma serve_all_ok target imports resolved deps : records imports resolved deps -> plain imports resolved deps ->
  forall rs d, stored_ok imports resolved deps d ->
  fst (serve_all target imports d rs) = map (right_answer target imports resolved) rs.
Proof.
  intros R P. induction rs as [|r rs IH]; intros d S; [reflexivity|]. cbn [serve_all].
  destruct (serve_ok target imports resolved deps d r R P S) as [A S'].
  destruct (serve target imports d r) as [a d']. cbn [fst snd] in *. specialize (IH d' S').
  destruct (serve_all target imports d' rs) as [as_ d'']. cbn [fst map] in *. now subst.
Qed.

Lemma drop_tail {A} (a b : list A) : firstn (List.length (a ++ b) - List.length b) (a ++ b) = a.
Proof.
  rewrite app_length. replace (List.length a + List.length b - List.length b) with (List.length a) by lia.
  rewrite firstn_app, firstn_all, Nat.sub_diag. cbn [firstn]. apply app_nil_r.
Qed.

(** ** Formatting *)
Section Formatting.
  Variable parses : bytes -> bool.
  Variable nofmt : bytes -> bool.
  Variable format : bytes -> bytes.

  Definition is_read (e : event) : Prop := match e with Read _ => True | _ => False end.
  Fixpoint reads (n : nat) (es : list event) : nat :=
    match es with
    | [] => 0
    | Read m :: r => (if m =? n then 1 else 0) + reads n r
    | _ :: r => reads n r
    end.
  Fixpoint iter (k : nat) (s : server) (r : req) : req :=
    match k with 0 => r | S k' => iter k' s (step_req nofmt format s r) end.
  Lemma run_reads es : Forall is_read es -> forall s rs n,
    fst (run parses nofmt format es (s, rs)) = s /\
    snd (run parses nofmt format es (s, rs)) n = iter (reads n es) s (rs n).
  Proof.
    induction 1 as [|e es He _ IH]; intros s rs n; [now split|]. destruct e as [c| |m]; try contradiction.
    unfold run in *. cbn [fold_left step]. specialize (IH s (upd rs m (step_req nofmt format s (rs m))) n).
    destruct IH as [I1 I2]. split; [exact I1|]. rewrite I2. cbn [reads]. unfold upd.
    rewrite Nat.eqb_sym. destruct (Nat.eqb_spec m n) as [->|N]; [reflexivity|]. cbn [Nat.add]. reflexivity.
  Qed.
  Lemma iter_done k s r : step_req nofmt format s r = r -> iter k s r = r.
  Proof. induction k as [|k IH]; intros E; [reflexivity|]. cbn [iter]. rewrite E. now apply IH. Qed.
End Formatting.
