(** Property theorems for completion (C30-C32, C61). *)
From Coq Require Import Ascii String ZArith.
From Verif Require Import Base Strs.
From Verif.Completion Require Import Model Spec Proofs.
Open Scope list_scope.

(** C30: unless one package name is a textual prefix of the other without
    being an enclosing package, the name inserted, prefixed by an enclosing
    scope, is the full name, and no shorter name has that property. *)
Theorem C30_relative_name_partial :
  forall T n F, parts T -> part n -> parts F ->
  (exists R, T = F ++ R) \/ (exists R, F = T ++ R) \/
    (has_prefix (dotted T) (dotted F) = false /\ has_prefix (dotted F) (dotted T) = false) ->
  exists S R R', F = S ++ R' /\ T ++ [n] = S ++ R /\ relative_full_name (dotted (T ++ [n])) (dotted F) = dotted R /\
    forall S2 R2 R2', F = S2 ++ R2' -> T ++ [n] = S2 ++ R2 -> R2 <> [] -> List.length R <= List.length R2.
Proof.
  intros T n F WT WN WF C. destruct (common_parts T F) as (P & T' & F' & ET & EF & D).
  assert (D' : T' = [] \/ F' = [] \/ (has_prefix (dotted T) (dotted F) = false /\ has_prefix (dotted F) (dotted T) = false /\
    exists t T1 f F1, T' = t :: T1 /\ F' = f :: F1 /\ t <> f)).
  { destruct D as [D|[D|D]]; auto. destruct C as [[R C]|[[R C]|[C1 C2]]]; [| |auto].
    - exfalso. destruct D as (t & T1 & f & F1 & -> & -> & NE). rewrite ET, EF in C. rewrite <- app_assoc in C. apply app_inv_head in C. cbn in C. injection C as C _. contradiction.
    - exfalso. destruct D as (t & T1 & f & F1 & -> & -> & NE). rewrite ET, EF in C. rewrite <- app_assoc in C. apply app_inv_head in C. cbn in C. injection C as C _. now symmetry in C. }
  exists P, (T' ++ [n]), F'. split; [exact EF|]. split; [now rewrite ET, app_assoc|]. split.
  - unfold relative_full_name. destruct WN as [WN1 WN2]. rewrite parent_snoc, name_snoc by assumption.
    rewrite (strip_parts T F P T' F' WT WF ET EF D').
    assert (WT' : parts T') by (rewrite ET in WT; now apply Forall_app in WT).
    assert (WF' : parts F') by (rewrite EF in WF; now apply Forall_app in WF).
    assert (W := walk_up (List.length (dotted T')) T' [] (dotted F') n WT' (Forall_nil _)). rewrite app_nil_r in W. rewrite W.
    + now apply append_dotted.
    + intros Q R HQ NQ HD. destruct Q as [|q Q]; [congruence|]. rewrite HQ in *. cbn [app] in *.
      destruct D as [D|[->|(t & T1 & f & F1 & [= -> _] & -> & NE)]]; [discriminate| |].
      * change (dotted (q :: Q) = []) in HD. apply dotted_nil in HD; [discriminate|]. change (q :: Q ++ R) with ((q :: Q) ++ R) in WT'. now apply Forall_app in WT'.
      * assert (X : split_on dot (dotted (t :: Q)) = split_on dot (dotted (f :: F1))) by now rewrite HD.
        unfold dotted in X. rewrite !split_join in X; [congruence|discriminate| |discriminate|].
        -- intros w HW. exact (proj2 (proj1 (Forall_forall _ _) WF' w HW)).
        -- intros w HW. apply (proj1 (Forall_forall _ _) WT' w). destruct HW as [HW|HW]; [now left|]. right. apply in_or_app. now left.
    + now apply dotted_length.
  - intros S2 R2 R2' E1 E2 NE. assert (P2 : exists Q, T = S2 ++ Q /\ R2 = Q ++ [n]).
    { destruct (exists_last NE) as (Q & x & ->). rewrite app_assoc in E2. apply app_inj_tail in E2 as [E2 <-]. eauto. }
    destruct P2 as (Q & E3 & ->). rewrite !app_length. cbn.
    assert (L : List.length S2 <= List.length P).
    { assert (G : forall (P S2 : list bytes) T' F' Q R2', P ++ T' = S2 ++ Q -> P ++ F' = S2 ++ R2' ->
        (T' = [] \/ F' = [] \/ exists t T1 f F1, T' = t :: T1 /\ F' = f :: F1 /\ t <> f) -> List.length S2 <= List.length P).
      { clear. induction P as [|p P IH]; intros S2 T' F' Q R2' H1 H2 D; cbn [app] in *.
        - destruct S2 as [|s S2]; [cbn; lia|]. cbn [app] in *. destruct D as [->|[->|(t & T1 & f & F1 & -> & -> & N)]]; try discriminate. congruence.
        - destruct S2 as [|s S2]; [cbn; lia|]. cbn [app] in *. injection H1 as -> H1. injection H2 as H2. cbn [List.length]. apply le_n_S. exact (IH S2 T' F' Q R2' H1 H2 D). }
      apply (G P S2 T' F' Q R2'); [now rewrite <- ET|now rewrite <- EF|exact D]. }
    assert (LT : List.length (P ++ T') = List.length (S2 ++ Q)) by (rewrite <- ET, <- E3; reflexivity).
    rewrite !app_length in LT. lia.
Qed.
Example C30_example : relative_full_name (b_ "foo.bar.baz.A") (b_ "foo.qux") = b_ "bar.baz.A" /\
  parts [b_ "foo"; b_ "bar"; b_ "baz"] /\ has_prefix (b_ "foo.bar.baz") (b_ "foo.qux") = false.
Proof.
  split; [reflexivity|]. split; [|reflexivity]. apply Forall_forall. intros w H.
  cbn in H. destruct H as [<-|[<-|[<-|[]]]]; split; try discriminate; intros H; cbn in H; repeat destruct H as [H|H]; try discriminate; destruct H.
Qed.
(** Package foo against package foobar: the name inserted means another type. *)
Theorem C30_relative_name_refuted :
  exists T n F, parts T /\ part n /\ parts F /\
    ~ exists S R R', F = S ++ R' /\ T ++ [n] = S ++ R /\ relative_full_name (dotted (T ++ [n])) (dotted F) = dotted R.
Proof.
  assert (G : forall s, s <> [] -> forallb (fun c => negb (Ascii.eqb c dot)) s = true -> part s).
  { intros s N H. split; [exact N|]. rewrite forallb_forall in H. intros X. specialize (H _ X). now rewrite Ascii.eqb_refl in H. }
  exists [b_ "foo"], (b_ "A"), [b_ "foobar"].
  split; [constructor; [apply G; [discriminate|reflexivity]|constructor]|].
  split; [apply G; [discriminate|reflexivity]|].
  split; [constructor; [apply G; [discriminate|reflexivity]|constructor]|].
  intros (S & R & R' & H1 & H2 & H3). destruct S as [|s S].
  - cbn [app] in H2. subst R. vm_compute in H3. discriminate.
  - cbn [app] in *. injection H1 as <- _. cbn in H2. injection H2 as H2 _. discriminate.
Qed.
(** Inner scopes may capture the first part of the name. *)
Theorem C30_name_captured_refuted :
  exists declared T n F, In (T ++ [n]) declared /\
    (exists R, relative_full_name (dotted (T ++ [n])) (dotted F) = dotted R /\
      resolve declared (rev F) R <> Some (T ++ [n])).
Proof.
  exists [[b_ "a"]; [b_ "a"; b_ "b"]; [b_ "a"; b_ "b"; b_ "A"]; [b_ "a"; b_ "c"]; [b_ "a"; b_ "c"; b_ "b"]], [b_ "a"; b_ "b"], (b_ "A"), [b_ "a"; b_ "c"].
  split; [vm_compute; auto|]. exists [b_ "b"; b_ "A"]. split; [reflexivity|]. vm_compute. discriminate.
Qed.
(** The label inserted for a type is its full name, with or without a leading
    dot, or its full name without the local package. *)
Theorem C30_type_label :
  forall partial pkg full, has_prefix full [dot] = false ->
  type_label partial pkg full = full \/ type_label partial pkg full = dot :: full \/ pkg ++ dot :: type_label partial pkg full = full.
Proof.
  intros partial pkg fl NF. unfold type_label. destruct (existsb (Ascii.eqb dot) partial) eqn:E.
  - unfold trim_prefix. rewrite has_prefix_nil. cbn [List.length skipn]. destruct (has_prefix partial [dot]); cbn [app]; auto.
  - assert (P : has_prefix partial [dot] = false).
    { destruct (has_prefix partial [dot]) eqn:H; [|reflexivity]. apply has_prefix_spec in H as [r ->]. cbn in E. discriminate. }
    rewrite P. cbn [app]. unfold trim_prefix. destruct (has_prefix fl (pkg ++ [dot])) eqn:H; [|auto].
    apply has_prefix_spec in H as [r ->]. right. right. rewrite skipn_app_exact, <- app_assoc. reflexivity.
Qed.
Example C30_label_example : type_label (b_ "Fo") (b_ "my.pkg") (b_ "my.pkg.Foo") = b_ "Foo" /\ type_label (b_ ".my") (b_ "my.pkg") (b_ "my.pkg.Foo") = b_ ".my.pkg.Foo".
Proof. split; reflexivity. Qed.

(** C31: the ranking is a strict total order on candidates (up to equal names
    at equal distances). *)
Theorem C31_ranking_strict_order :
  (forall a, entry_less a a = false) /\
  (forall a b, entry_less a b = true -> entry_less b a = false) /\
  (forall a b c, entry_less a b = true -> entry_less b c = true -> entry_less a c = true) /\
  (forall a b, a = b \/ entry_less a b = true \/ entry_less b a = true).
Proof.
  assert (TR : forall a b c, entry_less a b = true -> entry_less b c = true -> entry_less a c = true).
  { intros a b c. unfold entry_less.
    destruct (Z.eqb_spec (pkg_dist a) (pkg_dist b)) as [E1|E1], (Z.eqb_spec (pkg_dist b) (pkg_dist c)) as [E2|E2]; intros H1 H2.
    - rewrite (proj2 (Z.eqb_eq (pkg_dist a) (pkg_dist c))) by lia.
      destruct (Z.eqb_spec (scope_dist a) (scope_dist b)) as [F1|F1], (Z.eqb_spec (scope_dist b) (scope_dist c)) as [F2|F2].
      + rewrite (proj2 (Z.eqb_eq (scope_dist a) (scope_dist c))) by lia. eapply blt_trans; eauto.
      + destruct (Z.eqb_spec (scope_dist a) (scope_dist c)); [lia|]. now rewrite F1.
      + destruct (Z.eqb_spec (scope_dist a) (scope_dist c)); [lia|]. now rewrite <- F2.
      + destruct (dist_trans _ _ _ F1 F2 H1 H2) as [T N]. destruct (Z.eqb_spec (scope_dist a) (scope_dist c)); [contradiction|exact T].
    - destruct (Z.eqb_spec (pkg_dist a) (pkg_dist c)); [lia|]. now rewrite E1.
    - destruct (Z.eqb_spec (pkg_dist a) (pkg_dist c)); [lia|]. now rewrite <- E2.
    - destruct (dist_trans _ _ _ E1 E2 H1 H2) as [T N]. destruct (Z.eqb_spec (pkg_dist a) (pkg_dist c)); [contradiction|exact T]. }
  assert (IR : forall a, entry_less a a = false) by (intros a; unfold entry_less; rewrite !Z.eqb_refl; apply blt_irrefl).
  split; [exact IR|]. split; [|split; [exact TR|]].
  - intros a b H. destruct (entry_less b a) eqn:E; [|reflexivity]. specialize (IR a); rewrite (TR a b a H E) in IR; discriminate.
  - intros a b. unfold entry_less. destruct (Z.eqb_spec (pkg_dist a) (pkg_dist b)) as [E1|E1].
    + rewrite (proj2 (Z.eqb_eq (pkg_dist b) (pkg_dist a))) by lia. destruct (Z.eqb_spec (scope_dist a) (scope_dist b)) as [F1|F1].
      * rewrite (proj2 (Z.eqb_eq (scope_dist b) (scope_dist a))) by lia. destruct (blt_total (full a) (full b)) as [F|[F|F]]; auto.
        left. destruct a, b; cbn in *; congruence.
      * destruct (Z.eqb_spec (scope_dist b) (scope_dist a)); [lia|]. right. now apply dist_total.
    + destruct (Z.eqb_spec (pkg_dist b) (pkg_dist a)); [lia|]. right. now apply dist_total.
Qed.
(** The distance is zero exactly for the same name; it is negative exactly for
    names inside; candidates of the local package come first. *)
Theorem C31_distance_meaning_partial :
  (forall a b, name_distance a b = 0%Z <-> a = b) /\
  (forall A B, parts A -> parts B -> A <> [] -> B <> [] ->
     ((name_distance (dotted A) (dotted B) < 0)%Z <-> exists R, R <> [] /\ B = A ++ R)) /\
  (forall pkg scope p f q g, p = pkg -> q <> pkg -> entry_less (make_entry pkg scope p f) (make_entry pkg scope q g) = true).
Proof.
  assert (Z0 : forall a b, name_distance a b = 0%Z <-> a = b).
  { intros a b. unfold name_distance. destruct (beq a b) eqn:E; [apply beq_eq in E; tauto|]. apply beq_neq in E. split; [|contradiction].
    intros H. exfalso. apply E. destruct (mismatch (split_on dot a) (split_on dot b) 0) as [k|] eqn:M.
    - apply mismatch_spec in M as (p & x & y & r & s & -> & EA & EB & _). rewrite EA, EB, !app_length in H. cbn [List.length] in H. lia.
    - rewrite <- (join_split dot a), <- (join_split dot b).
      destruct (mismatch_none _ _ _ M) as [[r X]|[r X]]; rewrite X in H |- *; rewrite app_length in H; destruct r; cbn [List.length] in H; try lia; now rewrite app_nil_r. }
  split; [exact Z0|]. split.
  - intros A B WA WB NA NB. unfold name_distance.
    assert (SA : split_on dot (dotted A) = A) by (apply split_join; [exact NA|intros w H; exact (proj2 (proj1 (Forall_forall _ _) WA w H))]).
    assert (SB : split_on dot (dotted B) = B) by (apply split_join; [exact NB|intros w H; exact (proj2 (proj1 (Forall_forall _ _) WB w H))]).
    rewrite SA, SB. destruct (beq (dotted A) (dotted B)) eqn:E.
    + apply beq_eq in E. split; [lia|]. intros (R & NR & HR). rewrite <- SA, <- SB, E in HR. rewrite <- (app_nil_r (split_on dot (dotted B))) in HR at 1. apply app_inv_head in HR. congruence.
    + destruct (mismatch A B 0) as [k|] eqn:M.
      * apply mismatch_spec in M as (p & x & y & r & s & -> & EA & EB & NE). split.
        -- rewrite EA, EB, !app_length. cbn [List.length]. lia.
        -- intros (R & _ & HR). rewrite HR in EB. rewrite EA in EB. rewrite <- app_assoc in EB. apply app_inv_head in EB. cbn in EB. congruence.
      * split.
        -- intros H. destruct (mismatch_none _ _ _ M) as [[r X]|[r X]].
           ++ exists r. split; [|exact X]. intros ->. rewrite X, app_nil_r in H. lia.
           ++ exfalso. rewrite X, app_length in H. lia.
        -- intros (R & NR & ->). rewrite app_length. destruct R; [congruence|]. cbn [List.length]. lia.
  - intros pkg scope p f q g -> NQ. unfold entry_less, make_entry. cbn [pkg_dist scope_dist].
    rewrite (proj2 (Z0 pkg pkg) eq_refl). assert (name_distance pkg q <> 0%Z) by (rewrite Z0; congruence).
    destruct (Z.eqb_spec 0 (name_distance pkg q)); [congruence|]. unfold dist_less. reflexivity.
Qed.
(** For files without a package the documented rule fails: every package is
    inside the root, but its distance is positive. *)
Theorem C31_root_package_refuted :
  exists b, b <> [] /\ (name_distance [] b > 0)%Z.
Proof. exists (b_ "foo"). split; [discriminate|]. reflexivity. Qed.
Example C31_example : name_distance (b_ "a.b") (b_ "a.b.c.d") = (-2)%Z /\ name_distance (b_ "a.b") (b_ "a.x.y") = 3%Z /\
  entry_less (make_entry (b_ "a") (b_ "a.M") (b_ "a") (b_ "a.M.N")) (make_entry (b_ "a") (b_ "a.M") (b_ "a") (b_ "a.O")) = true.
Proof. split; [reflexivity|]. split; reflexivity. Qed.

(** C32: exactly one item is preselected, the items are kept in order, ... *)
Theorem C32_one_preselected :
  forall items, items <> [] -> count_pre (finish items) = 1 /\ map label (finish items) = map label items.
Proof.
  intros items NE. split; [|apply finish_labels].
  unfold finish. assert (C := finish_loop_count items 0 false). assert (F := finish_loop_found items 0 false). assert (L := finish_loop_length items 0 false).
  destruct (finish_loop items 0 false) as [l f]. cbn [fst snd orb] in *. subst f.
  destruct l as [|x r]; [destruct items; [congruence|discriminate]|].
  destruct (existsb preselect items); [exact C|].
  unfold count_pre in *. cbn [filter preselect]. cbn [filter] in C. destruct (preselect x); cbn in *; [discriminate|]. now rewrite C.
Qed.
(** ... and sort texts increase, for up to 100000 items. *)
Theorem C32_sort_text_order_partial :
  forall items i j x y, i < j -> (N.of_nat j < 100000)%N ->
  nth_error (finish items) i = Some x -> nth_error (finish items) j = Some y -> blt (sort_text x) (sort_text y) = true.
Proof.
  intros items i j x y H L HX HY. rewrite (finish_keys _ _ _ HX), (finish_keys _ _ _ HY). apply sort_key_lt; lia.
Qed.
(** The 100001st sorts before the 100000th. *)
Theorem C32_sort_text_order_refuted :
  forall items i j x y, N.of_nat i = 99999%N -> N.of_nat j = 100000%N ->
  nth_error (finish items) i = Some x -> nth_error (finish items) j = Some y -> blt (sort_text y) (sort_text x) = true.
Proof. intros items i j x y HI HJ HX HY. rewrite (finish_keys _ _ _ HX), (finish_keys _ _ _ HY), HI, HJ. vm_compute. reflexivity. Qed.
Example C32_example :
  finish [mkItem (b_ "a") false []; mkItem (b_ "b") true []; mkItem (b_ "c") true []] =
  [mkItem (b_ "a") false (b_ "00000"); mkItem (b_ "b") true (b_ "00001"); mkItem (b_ "c") false (b_ "00002")].
Proof. reflexivity. Qed.

(** C61: accepting a completion replaces the word under the cursor by the
    completed word and changes nothing else, for ASCII text in the word. *)
Theorem C61_accept_replaces_word_partial :
  forall before partial suffix after word, ascii_text partial -> ascii_text suffix ->
  let line := before ++ partial ++ suffix ++ after in
  let pos := sum ulen before + sum ulen partial in
  complete_replace line pos partial suffix word = before ++ word ++ after /\
  (forall rest, word = partial ++ rest -> complete_insert line pos partial suffix word = before ++ word ++ after).
Proof.
  intros before partial suffix after word AP AS line pos. destruct (ascii_len _ AP) as [P1 P2]. destruct (ascii_len _ AS) as [S1 S2].
  assert (DR : drop_cols line (pos + sum blen suffix) = after).
  { unfold line, pos. rewrite S1, <- S2. replace (before ++ partial ++ suffix ++ after) with ((before ++ partial ++ suffix) ++ after) by now rewrite <- !app_assoc.
    rewrite <- Nat.add_assoc, <- !sum_app. apply drop_sum. }
  split.
  - unfold complete_replace, apply_edit. rewrite DR. f_equal. unfold pos. rewrite P1, P2.
    replace (sum ulen before + List.length partial - List.length partial) with (sum ulen before) by lia. apply take_sum.
  - intros rest ->. unfold complete_insert, apply_edit. rewrite DR. unfold line, pos.
    replace (before ++ partial ++ suffix ++ after) with ((before ++ partial) ++ suffix ++ after) by now rewrite <- app_assoc.
    rewrite <- sum_app, take_sum, skipn_app_exact, <- !app_assoc. reflexivity.
Qed.
(** Import paths may contain other characters: lengths are counted in bytes but
    columns in UTF-16 units, so text after the word (the closing quote) is
    removed as well. *)
Theorem C61_accept_replaces_word_refuted :
  exists before partial suffix after word rest, word = partial ++ rest /\
  complete_insert (before ++ partial ++ suffix ++ after) (sum ulen before + sum ulen partial) partial suffix word <> before ++ word ++ after.
Proof.
  exists [34%N], [97%N], [233%N], [34%N; 59%N], [97%N; 233%N; 46%N; 112%N], [233%N; 46%N; 112%N]. split; [reflexivity|]. vm_compute. discriminate.
Qed.
Example C61_example : complete_replace [65%N; 32%N; 102%N; 111%N; 120%N; 59%N] 4 [102%N; 111%N] [120%N] [102%N; 111%N; 111%N; 98%N] = [65%N; 32%N; 102%N; 111%N; 111%N; 98%N; 59%N].
Proof. reflexivity. Qed.

Print Assumptions C30_relative_name_partial.
Print Assumptions C30_relative_name_refuted.
Print Assumptions C30_name_captured_refuted.
Print Assumptions C30_type_label.
Print Assumptions C31_ranking_strict_order.
Print Assumptions C31_distance_meaning_partial.
Print Assumptions C31_root_package_refuted.
Print Assumptions C32_one_preselected.
Print Assumptions C32_sort_text_order_partial.
Print Assumptions C32_sort_text_order_refuted.
Print Assumptions C61_accept_replaces_word_partial.
Print Assumptions C61_accept_replaces_word_refuted.
