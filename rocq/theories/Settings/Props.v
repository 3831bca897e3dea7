(** * Properties of where the comments of an option are looked up *)
From Coq Require Import List Arith ZArith Lia Ascii String.
From Verif.Settings Require Import Model Spec Proofs.
Import ListNotations.
Open Scope list_scope.

(** ** C165: an option is printed with the comments of the statement that sets it *)

(** A location at exactly the path looked up is the one that is used; of
    several, the first. *)
Theorem C165_exact : forall A (locs : list (list Z * A)) path i,
  (exists a, In (path ++ [Z.of_nat i], a) locs) ->
  first_of (fun p => p = path ++ [Z.of_nat i]) locs (fetched locs path i).
Proof.
  intros A locs path i [a I]. unfold fetched. pose proof (source_info_get locs (path ++ [Z.of_nat i])) as H.
  pose proof (get_first locs (path ++ [Z.of_nat i])) as G.
  destruct (get locs (path ++ [Z.of_nat i])) as [x|].
  - now rewrite H.
  - exfalso. now apply (G _ _ I).
Qed.

Lemma not_exact A (locs : list (list Z * A)) q :
  (forall a, ~ In (q, a) locs) -> get locs q = None.
Proof.
  intro N. pose proof (get_first locs q) as G. destruct (get locs q) as [x|]; [|reflexivity].
  destruct G as (b & q' & c & -> & -> & _). exfalso. apply (N x). apply in_or_app. right. now left.
Qed.

(** Otherwise the first value of an option of any element has the location that
    comes first among those of the option and of everything in it; there is
    none only if nothing in the option has one. *)
Theorem C165_first : forall A (locs : list (list Z * A)) o n,
  options_path o -> (forall a, ~ In (o ++ [n; 0%Z], a) locs) ->
  first_of (under (o ++ [n])) locs (fetched locs (o ++ [n]) 0).
Proof.
  intros A locs o n Ho N. unfold fetched. rewrite <- app_assoc. cbn [app Z.of_nat].
  pose proof (source_info_get locs (o ++ [n; 0%Z])) as H. rewrite not_exact in H by exact N.
  eapply first_of_ext; [|exact H]. intro q. now apply keys_zero.
Qed.

(** A later value of a repeated option has the first location of that value. *)
Theorem C165_later : forall A (locs : list (list Z * A)) o n i,
  options_path o -> (forall a, ~ In (o ++ [n; Z.of_nat (S i)], a) locs) ->
  first_of (under (o ++ [n; Z.of_nat (S i)])) locs (fetched locs (o ++ [n]) (S i)).
Proof.
  intros A locs o n i Ho N. unfold fetched. rewrite <- app_assoc. cbn [app].
  pose proof (source_info_get locs (o ++ [n; Z.of_nat (S i)])) as H. rewrite not_exact in H by exact N.
  eapply first_of_ext; [|exact H]. intro q. apply keys_index; [exact Ho|lia].
Qed.

(** So an option set by one statement has the location of that statement,
    however deep in the option the statement's path leads. *)
Theorem C165_one : forall A (before after : list (list Z * A)) o n r a,
  options_path o ->
  (forall q b, In (q, b) (before ++ after) -> ~ under (o ++ [n]) q) ->
  fetched (before ++ (o ++ n :: r, a) :: after) (o ++ [n]) 0 = Some a.
Proof.
  intros A before after o n r a Ho N.
  assert (N0 : forall x, In (o ++ [n; 0%Z], x) (before ++ (o ++ n :: r, a) :: after) -> x = a).
  { intros x I. apply in_app_or in I as [I|[E|I]].
    - exfalso. apply (N _ x (in_or_app _ _ _ (or_introl I))). exists [0%Z]. now rewrite <- app_assoc.
    - congruence.
    - exfalso. apply (N _ x (in_or_app _ _ _ (or_intror I))). exists [0%Z]. now rewrite <- app_assoc. }
  unfold fetched. rewrite <- app_assoc. cbn [app Z.of_nat].
  pose proof (source_info_get (before ++ (o ++ n :: r, a) :: after) (o ++ [n; 0%Z])) as H.
  pose proof (get_first (before ++ (o ++ n :: r, a) :: after) (o ++ [n; 0%Z])) as G.
  destruct (get (before ++ (o ++ n :: r, a) :: after) (o ++ [n; 0%Z])) as [x|].
  - rewrite H. f_equal. destruct G as (b & q & c & E & -> & _). apply N0. rewrite E.
    apply in_or_app. right. now left.
  - apply first_of_ext with (Q := under (o ++ [n])) in H; [|intro q; now apply keys_zero].
    assert (U : under (o ++ [n]) (o ++ n :: r)) by (exists r; now rewrite <- app_assoc).
    destruct (get (source_info _) _) as [x|].
    + destruct H as (b & q & c & E & Hq & _).
      assert (I : In (q, x) (before ++ (o ++ n :: r, a) :: after)).
      { rewrite E. apply in_or_app. right. now left. }
      apply in_app_or in I as [I|[F|I]].
      * exfalso. apply (N _ x (in_or_app _ _ _ (or_introl I)) Hq).
      * injection F as _ ->. reflexivity.
      * exfalso. apply (N _ x (in_or_app _ _ _ (or_intror I)) Hq).
    + exfalso. apply (H (o ++ n :: r) a); [|exact U]. apply in_or_app. right. now left.
Qed.

(** An option is put in order by the first location of anything in it. *)
Theorem C165_order : forall A (locs : list (list Z * A)) o n,
  options_path o ->
  if in_dec path_dec (o ++ [n]) (map fst locs)
  then first_of (fun p => p = o ++ [n]) locs (get (source_info locs) (o ++ [n]))
  else first_of (under (o ++ [n])) locs (get (source_info locs) (o ++ [n])).
Proof.
  intros A locs o n Ho. pose proof (source_info_get locs (o ++ [n])) as H.
  pose proof (get_first locs (o ++ [n])) as G. destruct (in_dec path_dec _ _) as [I|I].
  - destruct (get locs (o ++ [n])) as [x|]; [now rewrite H|].
    exfalso. apply in_map_iff in I as ([q a] & E & I). cbn in E. now apply (G q a I).
  - rewrite not_exact in H.
    + eapply first_of_ext; [|exact H]. intro q. now apply keys_tag.
    + intros a Ia. apply I. now apply (in_map fst) in Ia.
Qed.

(** What is looked up for anything that is not an option is left as it was. *)
Theorem C165_elsewhere : forall A (locs : list (list Z * A)) q,
  (forall o n r, options_path o -> q <> o ++ n :: r) ->
  first_of (fun p => p = q) locs (get (source_info locs) q).
Proof.
  intros A locs q N. pose proof (source_info_get locs q) as H. pose proof (get_first locs q) as G.
  destruct (get locs q) as [x|]; [now rewrite H|].
  destruct (get (source_info locs) q) as [x|]; [|exact G].
  destruct H as (b & p & c & _ & I & _). exfalso.
  destruct (keys_in _ _ I) as (o & n & r & -> & Ho). rewrite keys_are in I by exact Ho.
  cbn [In] in I. destruct I as [E|[E|[E|[]]]]; symmetry in E.
  - now apply (N o n [hd 0%Z r] Ho).
  - now apply (N o n [0%Z] Ho).
  - now apply (N o n [] Ho).
Qed.

(** Two statements that each set a field of the same option are printed as one,
    with the comments of the first: those of the second are lost. *)
Theorem C165_parts : forall A (before middle after : list (list Z * A)) o n r r' a b,
  options_path o ->
  (forall q x, In (q, x) before -> ~ under (o ++ [n]) q) ->
  (forall x, ~ In (o ++ [n; 0%Z], x) (before ++ (o ++ n :: r, a) :: middle ++ (o ++ n :: r', b) :: after)) ->
  fetched (before ++ (o ++ n :: r, a) :: middle ++ (o ++ n :: r', b) :: after) (o ++ [n]) 0 = Some a.
Proof.
  intros A before middle after o n r r' a b Ho N N0.
  pose proof (C165_first _ _ o n Ho N0) as H.
  assert (U : under (o ++ [n]) (o ++ n :: r)) by (exists r; now rewrite <- app_assoc).
  destruct (fetched _ _ 0) as [x|].
  - destruct H as (b' & q & c & E & Hq & F). f_equal.
    assert (L : b' = before).
    { revert b' E F. clear N0. induction before as [|[p y] before IH]; intros b' E F.
      - destruct b' as [|[p z] b']; [reflexivity|]. injection E as <- <- _.
        exfalso. now apply (F (o ++ n :: r) a (or_introl eq_refl)).
      - destruct b' as [|[p' z] b'].
        + injection E as -> -> _. exfalso. now apply (N q x (or_introl eq_refl)).
        + injection E as -> -> E. f_equal. apply IH; [|exact E|].
          * intros q1 x1 I1. apply (N q1 x1). now right.
          * intros q1 x1 I1. apply (F q1 x1). now right. }
    subst b'. apply app_inv_head in E. injection E as _ -> _. reflexivity.
  - exfalso. apply (H (o ++ n :: r) a); [|exact U]. apply in_or_app. right. now left.
Qed.

Theorem C165_parts_refuted : exists (locs : list (list Z * string)) o n,
  options_path o /\ locs = [(o ++ [n; 1%Z], "first"%string); (o ++ [n; 2%Z], "second"%string)] /\
  fetched locs (o ++ [n]) 0 = Some "first"%string.
Proof.
  exists [([8; 50; 1]%Z, "first"%string); ([8; 50; 2]%Z, "second"%string)], [8%Z], 50%Z.
  repeat split. constructor.
Qed.

(** A second value of a list given in one statement has no comments. *)
Example C165_list : fetched [([4; 0; 7; 50]%Z, "list"%string)] [4; 0; 7; 50]%Z 0 = Some "list"%string /\
  fetched [([4; 0; 7; 50]%Z, "list"%string)] [4; 0; 7; 50]%Z 1 = None.
Proof. split; reflexivity. Qed.
Example C165_case :
  options_path [4; 2; 3; 1; 2; 0; 8]%Z /\
  fetched [([4; 2; 3; 1; 2; 0; 8]%Z, "row"%string); ([4; 2; 3; 1; 2; 0; 8; 60; 3; 4]%Z, "deep"%string)]
    [4; 2; 3; 1; 2; 0; 8; 60]%Z 0 = Some "deep"%string.
Proof. split; [repeat constructor|reflexivity]. Qed.
Example C165_elsewhere_case : forall o n r, options_path o -> [4; 2; 2; 0]%Z <> o ++ n :: r.
Proof.
  intros o n r H E. destruct H as [ |m p H| | | | | ]; try discriminate E.
  injection E as _ E. destruct H as [ | | | | | | |m' p H]; try discriminate E; cbn in E; injection E; intros; try discriminate; destruct r; discriminate.
Qed.

Print Assumptions C165_exact.
Print Assumptions C165_first.
Print Assumptions C165_later.
Print Assumptions C165_one.
Print Assumptions C165_order.
Print Assumptions C165_elsewhere.
Print Assumptions C165_parts.
Print Assumptions C165_parts_refuted.
