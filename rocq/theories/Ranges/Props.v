(** Property theorems for the ranges that the server reports (C157) and reads back (C158). *)
From Coq Require Import Ascii String NArith ZArith.
From Verif Require Import Base Strs.
From Verif.Print Require Import Model.
From Verif.Documents Require Import Model Spec.
From Verif.Ranges Require Import Model Spec Proofs.
Open Scope list_scope.

(** C157, whatever columns the parser counts: a place is reported rightly exactly if it counts the UTF-16
    units of what is before it on its line. *)
Theorem C157_place : forall cols t k line,
  fits t -> on_line t k line -> (N.of_nat (cols line) < 4294967295)%N ->
  (denotes t (to_position (place cols t k)) k <-> chars line (cols line)).
Proof. exact place_denotes. Qed.
(** It counts bytes: the range of a node selects the node exactly if there are only ASCII characters before
    its start and before its end on their lines.  Missing: the others. *)
Theorem C157_range_partial : forall t a b line_a line_b,
  fits t -> on_line t a line_a -> on_line t b line_b ->
  (selects t (node_range (@List.length ascii) t a b) a b <-> ascii_only line_a /\ ascii_only line_b).
Proof.
  intros t a b la lb F Oa Ob. unfold selects, node_range, positions_to_range. cbn [fst snd].
  now rewrite (bytes_denote t a la F Oa), (bytes_denote t b lb F Ob).
Qed.
(** The edit that adds an import puts it at the place for it, and replaces nothing. *)
Theorem C157_point : forall t k line, fits t -> on_line t k line ->
  (selects t (point_to_range (place (@List.length ascii) t k)) k k <-> ascii_only line).
Proof.
  intros t k line F O. unfold selects, point_to_range. cbn [fst snd]. rewrite (bytes_denote t k line F O). tauto.
Qed.
Theorem C157_has_line : forall t k, k <= List.length t -> exists line, on_line t k line.
Proof. exact on_line_exists. Qed.
(** The edit of an import hint is of what is between the quotes. *)
Theorem C157_quoted : forall t a b line, fits t -> on_line t a line -> S a < b -> on_line t b (line ++ slice t a b) -> ascii_only (line ++ slice t a b) -> ~ In newline (slice t a b) ->
  selects t (adjust_columns (node_range (@List.length ascii) t a b) 1 (-1)) (S a) (b - 1).
Proof.
  intros t a b line F Oa Hab Ob A Hn.
  assert (Lb : b <= List.length t) by (now destruct (on_line_short _ _ _ Ob)).
  destruct Oa as (before & after & l & Et & Ea & W & Hl).
  assert (Ecut : forall j, slice t a (a + j) = firstn j after).
  { intro j. unfold slice. replace (a + j - a) with j by lia. rewrite Et, Ea, app_assoc, skipn_app, skipn_all, Nat.sub_diag. reflexivity. }
  assert (La : a + List.length after = List.length t) by (rewrite Et, Ea, !app_length; lia).
  assert (Hon : forall j, j <= b - a -> on_line t (a + j) (line ++ firstn j after)).
  { intros j Hj. exists before, (skipn j after), l. split; [now rewrite <- (app_assoc line), firstn_skipn|].
    split; [rewrite Ea, !app_length, firstn_length; lia|]. split; [exact W|]. intro H. apply in_app_or in H. destruct H as [H|H]; [now apply Hl|].
    apply Hn. replace b with (a + (b - a)) by lia. rewrite Ecut. rewrite <- (firstn_skipn j (firstn (b - a) after)). apply in_or_app. left. rewrite firstn_firstn. now replace (Nat.min j (b - a)) with j by lia. }
  assert (Hasc : forall j, j <= b - a -> ascii_only (line ++ firstn j after)).
  { intros j Hj. unfold ascii_only in *. apply Forall_app in A. destruct A as [A1 A2]. apply Forall_app. split; [exact A1|].
    replace b with (a + (b - a)) in A2 by lia. rewrite Ecut in A2. rewrite <- (firstn_skipn j (firstn (b - a) after)) in A2. apply Forall_app in A2. destruct A2 as [A2 _].
    rewrite firstn_firstn in A2. now replace (Nat.min j (b - a)) with j in A2 by lia. }
  assert (D : forall j, j <= b - a -> denotes t (to_position (place (@List.length ascii) t (a + j))) (a + j)).
  { intros j Hj. apply (bytes_denote t (a + j) _ F (Hon j Hj)), (Hasc j Hj). }
  assert (Pl : forall j, j <= b - a -> to_position (place (@List.length ascii) t (a + j)) = (N.of_nat l, N.of_nat (List.length line + j))).
  { intros j Hj. unfold to_position, place. cbn [fst snd].
    assert (Ef : firstn (a + j) t = before ++ line ++ firstn j after).
    { rewrite Et, Ea, app_assoc, firstn_app. rewrite firstn_all2 by lia. rewrite <- app_assoc. do 2 f_equal. f_equal. lia. }
    rewrite Ef. rewrite (whole_last before (line ++ firstn j after) l W).
    2:{ destruct (Hon j Hj) as (b0 & a0 & l0 & _ & _ & _ & H). exact H. }
    assert (Hll : List.length (filter (Ascii.eqb newline) (before ++ line ++ firstn j after)) = l).
    { change (lines_before (before ++ line ++ firstn j after) = l). rewrite Positions.lines_app, (plain_lines (line ++ firstn j after)); [destruct W as [W _]; lia|].
      destruct (Hon j Hj) as (b0 & a0 & l0 & _ & _ & _ & H). exact H. }
    rewrite Hll. rewrite app_length, firstn_length. replace (Nat.min j (List.length after)) with j by lia.
    assert (Hl1 : (N.of_nat l < 4294967295)%N).
    { unfold fits in F. destruct W as [<- _]. pose proof (lines_le before). assert (List.length before <= List.length t) by (rewrite Et, app_length; lia). lia. }
    assert (Hl2 : (N.of_nat (List.length line + j) < 4294967295)%N).
    { unfold fits in F. assert (List.length line + j <= List.length t) by (pose proof Ea as Ea2; rewrite app_length in Ea2; lia). lia. }
    f_equal; apply N2Nat.inj; rewrite pred_succ by assumption; now rewrite Nat2N.id. }
  assert (Fj : (N.of_nat (List.length line + (b - a)) < 4294967295)%N).
  { unfold fits in F. assert (List.length line + (b - a) <= List.length t) by (pose proof Ea as Ea2; rewrite app_length in Ea2; lia). lia. }
  unfold selects, node_range, positions_to_range.
  pose proof (Pl 0 ltac:(lia)) as P0. rewrite Nat.add_0_r in P0. rewrite P0. pose proof (Pl (b - a) ltac:(lia)) as P1. replace (a + (b - a)) with b in P1 by lia. rewrite P1.
  cbn [adjust_columns fst snd]. split.
  - replace (N.of_nat l, add32 (N.of_nat (List.length line + 0)) 1) with (to_position (place (@List.length ascii) t (a + 1))); [replace (S a) with (a + 1) by lia; apply D; lia|].
    rewrite (Pl 1) by lia. f_equal. unfold add32, pow32. rewrite Z.mod_small; lia.
  - replace (N.of_nat l, add32 (N.of_nat (List.length line + (b - a))) (-1)) with (to_position (place (@List.length ascii) t (a + (b - a - 1)))).
    + replace (b - 1) with (a + (b - a - 1)) by lia. apply D. lia.
    + rewrite (Pl (b - a - 1)) by lia. f_equal. unfold add32, pow32. rewrite Z.mod_small; lia.
Qed.

Definition tx (s : string) : text := b_ s.
Definition euro : text := [ascii_of_nat 226; ascii_of_nat 130; ascii_of_nat 172].
Definition ascii_text : text := tx "syntax = ""proto3"";" ++ [newline] ++ tx "import ""a.proto"";".
(** the name of the import and what is in its quotes *)
Example C157_case : selects ascii_text (node_range (@List.length ascii) ascii_text 26 35) 26 35 /\
  node_range (@List.length ascii) ascii_text 26 35 = ((1, 7), (1, 16))%N /\
  selects ascii_text (adjust_columns (node_range (@List.length ascii) ascii_text 26 35) 1 (-1)) 27 34.
Proof.
  assert (A : ascii_only (tx "import ""a.proto""")) by (repeat constructor).
  assert (N : forall s, forallb (fun c => negb (Ascii.eqb newline c)) s = true -> ~ In newline s).
  { intros s H Hin. rewrite forallb_forall in H. specialize (H _ Hin). discriminate. }
  assert (O1 : on_line ascii_text 26 (tx "import ")).
  { exists (tx "syntax = ""proto3"";" ++ [newline]), (tx """a.proto"";"), 1. split; [reflexivity|]. split; [reflexivity|]. split; [split; [reflexivity|right; now exists (tx "syntax = ""proto3"";")]|apply N; reflexivity]. }
  assert (O2 : on_line ascii_text 35 (tx "import ""a.proto""")).
  { exists (tx "syntax = ""proto3"";" ++ [newline]), (tx ";"), 1. split; [reflexivity|]. split; [reflexivity|]. split; [split; [reflexivity|right; now exists (tx "syntax = ""proto3"";")]|apply N; reflexivity]. }
  split; [|split; [reflexivity|]].
  - apply (C157_range_partial ascii_text 26 35 _ _ eq_refl O1 O2). split; [repeat constructor|exact A].
  - apply (C157_quoted ascii_text 26 35 (tx "import ") eq_refl O1); [lia|exact O2|exact A|apply N; reflexivity].
Qed.
Example C157_point_case : selects (tx "ab") (point_to_range (place (@List.length ascii) (tx "ab") 1)) 1 1.
Proof.
  apply (C157_point (tx "ab") 1 (tx "a") eq_refl); [|repeat constructor]. exists [], (tx "b"), 0.
  split; [reflexivity|]. split; [reflexivity|]. split; [split; [reflexivity|now left]|cbn; intuition discriminate].
Qed.
(** After a character that is not ASCII on the same line, the range of a name is of something else. *)
Theorem C157_range_refuted : exists t a b a' b', fits t /\ a <= b /\ slice t a b = tx "Name" /\
  selects t (node_range (@List.length ascii) t a b) a' b' /\ slice t a' b' = tx "me {".
Proof.
  exists (tx "/* " ++ euro ++ tx " */ message Name {}"), 18, 22, 20, 24. split; [reflexivity|]. split; [lia|]. split; [reflexivity|]. split; [|reflexivity].
  assert (S' : forall s n, chars s n -> chars (euro ++ s) (S n)) by exact Documents.Props.C06_euro.
  assert (Asc : forall s, ascii_only s -> ~ In newline s -> forall p q, ascii_only p -> ~ In newline p -> q = List.length p + S (List.length s) -> chars (p ++ euro ++ s) q).
  { intros s A Hn p q Ap Hp ->. induction p as [|x p IH]; [cbn [app List.length Nat.add]; apply S', chars_ascii; assumption|].
    inversion Ap as [|? ? Hx Ap']; subst. cbn [app List.length Nat.add]. apply Documents.Props.C06_ascii; [exact Hx| |apply IH; [exact Ap'|intro; apply Hp; now right]].
    intro E. apply Hp. left. unfold newline. apply (f_equal chr) in E. unfold chr, code in E. rewrite ascii_N_embedding in E. rewrite E. reflexivity. }
  assert (N : forall s, forallb (fun c => negb (Ascii.eqb newline c)) s = true -> ~ In newline s).
  { intros s H Hin. rewrite forallb_forall in H. specialize (H _ Hin). discriminate. }
  split.
  - exists [], (tx "/* " ++ euro ++ tx " */ message Na"), (tx "me {}"). split; [reflexivity|]. split; [reflexivity|]. split; [split; [reflexivity|now left]|].
    apply Asc; [repeat constructor|apply N; reflexivity|repeat constructor|apply N; reflexivity|vm_compute; reflexivity].
  - exists [], (tx "/* " ++ euro ++ tx " */ message Name {"), (tx "}"). split; [reflexivity|]. split; [reflexivity|]. split; [split; [reflexivity|now left]|].
    apply Asc; [repeat constructor|apply N; reflexivity|repeat constructor|apply N; reflexivity|vm_compute; reflexivity].
Qed.
(** An unknown place is reported as line and column 4294967295, which no text has. *)
Theorem C157_unknown_refuted : to_position (0, 0)%N = (4294967295, 4294967295)%N /\ forall t k, fits t -> ~ denotes t (to_position (0, 0)%N) k.
Proof.
  split; [reflexivity|]. intros t k F (b & line & a & Et & _ & [Hl _] & _). cbv [to_position pred32 pow32 fst snd] in Hl.
  change ((0 + 4294967295) mod 4294967296)%N with 4294967295%N in Hl. unfold fits in F. pose proof (lines_le b) as L.
  assert (List.length b <= List.length t) by (rewrite Et, app_length; lia). lia.
Qed.

(** ** C158: what is typed is read rightly *)
Theorem C158_names_partial : forall t a b pos la lb,
  fits t -> on_line t a la -> on_line t b lb -> ascii_only la -> ascii_only lb -> a <= pos -> pos <= b ->
  partial_names (@List.length ascii) t a b pos = Some (slice t a pos, slice t pos b).
Proof.
  intros t a b pos la lb F Oa Ob Aa Ab H1 H2. unfold partial_names, node_range, positions_to_range. cbn [fst snd].
  rewrite (denotes_offset _ _ _ (proj2 (bytes_denote t a la F Oa) Aa)), (denotes_offset _ _ _ (proj2 (bytes_denote t b lb F Ob) Ab)).
  f_equal. f_equal.
  - destruct (Nat.ltb_spec a pos); [now rewrite Nat.min_l|]. replace pos with a by lia. unfold slice. now rewrite Nat.sub_diag.
  - destruct (Nat.ltb_spec pos b); [now rewrite Nat.max_r|]. replace pos with b by lia. unfold slice. now rewrite Nat.sub_diag.
Qed.
Theorem C158_type_partial : forall t a pos la type after,
  fits t -> on_line t a la -> ascii_only la -> skipn a t = type ++ after -> a <= pos -> pos <= a + List.length type ->
  exists typed rest, cut_type (@List.length ascii) t type a pos = Cut typed rest /\ typed ++ rest = type /\ typed = slice t a pos.
Proof.
  intros t a pos la type after F Oa Aa Et H1 H2. exists (firstn (pos - a) type), (skipn (pos - a) type). split; [|split].
  - unfold cut_type. rewrite (denotes_offset _ _ _ (proj2 (bytes_denote t a la F Oa) Aa)). destruct (Nat.ltb_spec pos a); [lia|].
    destruct (Nat.leb_spec (pos - a) (List.length type)); [reflexivity|lia].
  - apply firstn_skipn.
  - unfold slice. rewrite Et, firstn_app. replace (pos - a - List.length type) with 0 by lia. cbn [firstn]. now rewrite app_nil_r.
Qed.
Example C158_case : partial_names (@List.length ascii) (tx "  Some.Type x = 1;") 2 11 7 = Some (tx "Some.", tx "Type") /\
  cut_type (@List.length ascii) (tx "  Some.Type x = 1;") (tx "Some.Type") 2 7 = Cut (tx "Some.") (tx "Type").
Proof. split; reflexivity. Qed.
(** After a character that is not ASCII: other text is taken for what is typed, *)
Theorem C158_names_refuted : exists t a b pos, a <= pos /\ pos <= b /\ slice t a pos = tx "allow_" /\ slice t pos b = tx "alias" /\
  partial_names (@List.length ascii) t a b pos = Some (tx "low_", tx "alias =").
Proof.
  exists (tx "/* " ++ euro ++ tx " */ option allow_alias = true;"), 17, 28, 23. split; [lia|]. split; [lia|]. split; [reflexivity|]. split; reflexivity.
Qed.
(** the request fails, *)
Theorem C158_fails_refuted : exists t a b pos, a <= pos /\ pos <= b /\ b <= List.length t /\ partial_names (@List.length ascii) t a b pos = None.
Proof. exists (tx "/* " ++ euro ++ tx " */ option allow_"), 17, 23, 23. split; [lia|]. split; [lia|]. split; [cbn; lia|]. reflexivity. Qed.
(** and completing at the start of a field's type crashes. *)
Theorem C158_crash_refuted : exists t type a pos, a <= pos /\ pos <= a + List.length type /\ slice t a (a + List.length type) = type /\
  cut_type (@List.length ascii) t type a pos = CutPanics.
Proof. exists (tx "/* " ++ euro ++ tx " */ Type x = 1;"), (tx "Type"), 10, 10. split; [lia|]. split; [lia|]. split; reflexivity. Qed.

Print Assumptions C157_place.
Print Assumptions C157_range_partial.
Print Assumptions C157_point.
Print Assumptions C157_has_line.
Print Assumptions C157_quoted.
Print Assumptions C157_range_refuted.
Print Assumptions C157_unknown_refuted.
Print Assumptions C158_names_partial.
Print Assumptions C158_type_partial.
Print Assumptions C158_names_refuted.
Print Assumptions C158_fails_refuted.
Print Assumptions C158_crash_refuted.
