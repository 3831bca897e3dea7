From Coq Require Import Ascii String NArith ZArith Lia List DecimalString DecimalN.
From Verif Require Import Base Strs.
From Verif.Documents Require Import Model Spec Positions.
From Verif.Ranges Require Import Model Spec Proofs.
From Verif.Vet Require Import Model Spec.
Open Scope list_scope.
Import ListNotations.

Lemma seen_clean s r : clean s -> seen (s ++ r) = s ++ seen r.
Proof.
  unfold seen. intro H. induction s as [|c s IH]; [reflexivity|]. cbn [app seen_].
  destruct (Ascii.eqb_spec c "027"); [subst; exfalso; apply H; now left|]. f_equal. apply IH. intro X. apply H. now right.
Qed.
Lemma seen_clean_end s : clean s -> seen s = s.
Proof. intro H. rewrite <- (app_nil_r s) at 1. rewrite (seen_clean s [] H). apply app_nil_r. Qed.
Lemma seen_reset r : seen (reset ++ r) = seen r. Proof. reflexivity. Qed.
Lemma seen_dim r : seen (dim ++ r) = seen r. Proof. reflexivity. Qed.
Lemma seen_color n r : seen (color n ++ r) = seen r.
Proof. unfold color. destruct n as [|[|[|[|[|n]]]]]; reflexivity. Qed.
Lemma seen_word n r : seen (severity_msg n ++ r) = word n ++ seen r.
Proof. destruct n as [|[|[|[|[|n]]]]]; reflexivity. Qed.

Lemma uint_clean u : clean (b_ (NilEmpty.string_of_uint u)).
Proof. unfold clean. induction u; cbn; intuition discriminate. Qed.
Lemma decimal_number n : number (decimal n) n.
Proof. exists (N.to_uint n). split; [reflexivity|]. apply DecimalN.Unsigned.of_to. Qed.

Lemma add32_succ l : (l < 4294967295)%N -> add32 l 1 = (l + 1)%N.
Proof. intro H. unfold add32, pow32. rewrite Z.mod_small by lia. lia. Qed.

Lemma seen_plain shown d : clean shown -> clean (d_msg d) -> (fst (fst (d_range d)) < 4294967295)%N ->
  forall r, seen (plain_message shown d ++ r) =
    (word (d_sev d) ++ b_ ": " ++ shown ++ b_ ":" ++ decimal (fst (fst (d_range d)) + 1) ++ b_ " " ++ d_msg d) ++ seen r.
Proof.
  intros Hs Hm Hl r. unfold plain_message, source. rewrite add32_succ by exact Hl. rewrite <- !app_assoc, seen_word.
  f_equal. change (b_ ": " ++ dim ++ ?x) with (b_ ": " ++ (dim ++ x)). rewrite (seen_clean (b_ ": ")) by (unfold clean; cbn; intuition discriminate).
  f_equal. rewrite seen_dim, (seen_clean shown _ Hs). f_equal. rewrite (seen_clean (b_ ":")) by (unfold clean; cbn; intuition discriminate).
  f_equal. rewrite (seen_clean (decimal _)) by apply uint_clean. f_equal. rewrite seen_reset, (seen_clean (b_ " ")) by (unfold clean; cbn; intuition discriminate).
  f_equal. now apply seen_clean.
Qed.
Lemma clean_app a b : clean (a ++ b) <-> clean a /\ clean b.
Proof. unfold clean. rewrite in_app_iff. tauto. Qed.
Lemma parts_of line d : let '(c1, c2) := columns line d in line = firstn c1 line ++ slice line c1 c2 ++ skipn c2 line.
Proof.
  unfold columns. set (c1 := N.to_nat (snd (fst (d_range d)))). set (c2 := N.to_nat (snd (snd (d_range d)))). clearbody c1 c2.
  assert (G : forall a b, a <= b -> line = firstn a line ++ slice line a b ++ skipn b line).
  { intros a b Hab. unfold slice. rewrite <- (firstn_skipn a line) at 1. f_equal. rewrite <- (firstn_skipn (b - a) (skipn a line)) at 1. f_equal.
    replace b with (b - a + a) at 2 by lia. clear. generalize (b - a) as k. intro k. revert line. induction a as [|a IH]; intro line; [now rewrite Nat.add_0_r|].
    destruct line as [|x line]; [now destruct k, a|]. replace (k + S a) with (S (k + a)) by lia. cbn [skipn]. apply IH. }
  destruct ((List.length line <? c1) || (List.length line <? c2) || (c2 <? c1))%bool eqn:E; apply G; [lia|].
  apply Bool.orb_false_iff in E. destruct E as [_ E]. apply Nat.ltb_ge in E. exact E.
Qed.
Lemma seen_highlighted line d : clean line -> seen (highlighted line d) = line.
Proof.
  intro H. unfold highlighted. pose proof (parts_of line d) as P. destruct (columns line d) as [c1 c2].
  assert (C : clean (firstn c1 line) /\ clean (slice line c1 c2) /\ clean (skipn c2 line)) by (rewrite P in H; now rewrite !clean_app in H).
  destruct C as (A & B & C). rewrite <- !app_assoc, seen_dim, (seen_clean _ _ A), seen_reset, seen_color, (seen_clean _ _ B), seen_reset, seen_dim, (seen_clean _ _ C).
  change (seen reset) with (@nil ascii). rewrite app_nil_r. now rewrite P at 4.
Qed.

(** ** the offsets of a line *)
Lemma start_of t before rest l : t = before ++ rest -> whole_lines before l -> poff t l 0 = Some (List.length before).
Proof. intros -> W. apply position_poff. exists before, [], rest. rewrite app_nil_r. repeat split; try apply W. constructor. Qed.
Lemma whole_next before line l : whole_lines before l -> ~ In newline line -> whole_lines (before ++ line ++ [newline]) (S l).
Proof.
  intros [L _] H. split; [|right; exists (before ++ line); now rewrite app_assoc].
  rewrite !lines_app, (plain_lines line H). cbn. lia.
Qed.
Lemma line_slice before line after : slice (before ++ line ++ newline :: after) (List.length before) (List.length (before ++ line ++ [newline]) - 1) = line.
Proof.
  unfold slice. rewrite !app_length. cbn [List.length]. replace (_ - 1 - _) with (List.length line) by lia.
  rewrite skipn_app, skipn_all, Nat.sub_diag. cbn [skipn app]. rewrite firstn_app, Nat.sub_diag, firstn_all, firstn_O. apply app_nil_r.
Qed.
Lemma shows_source d : (((d_sev d <=? 2) && negb (d_unnecessary d))%bool = true) <-> ~ minor d.
Proof.
  unfold minor. rewrite Bool.andb_true_iff, Nat.leb_le, Bool.negb_true_iff. destruct (d_unnecessary d); split; intuition (try discriminate; try lia).
Qed.
Lemma hides_source d : (((d_sev d <=? 2) && negb (d_unnecessary d))%bool = false) <-> minor d.
Proof.
  unfold minor. rewrite Bool.andb_false_iff, Nat.leb_gt, Bool.negb_false_iff. tauto.
Qed.
Lemma describe_line shown before line after d l : whole_lines before (N.to_nat l) -> ~ In newline line -> (l < 4294967295)%N ->
  fst (fst (d_range d)) = l -> one_line d ->
  describe shown (before ++ line ++ newline :: after) d =
  if ((d_sev d <=? 2) && negb (d_unnecessary d))%bool then Done [full_message shown line d] else Done [plain_message shown d].
Proof.
  intros W N Hl El O. unfold describe. unfold one_line in O. destruct (d_range d) as [[l1 c1] [l2 c2]] eqn:R. cbn [fst snd] in *. subst l1 l2.
  rewrite N.eqb_refl. rewrite (start_of _ before (line ++ newline :: after) (N.to_nat l) eq_refl W).
  rewrite add32_succ by exact Hl. replace (N.to_nat (l + 1)) with (S (N.to_nat l)) by lia.
  rewrite (start_of _ (before ++ line ++ [newline]) after (S (N.to_nat l))); [|now rewrite <- !app_assoc|now apply whole_next].
  destruct (_ && _)%bool; [|reflexivity].
  destruct (Nat.leb_spec (List.length (before ++ line ++ [newline])) (List.length before)) as [H|H]; [rewrite !app_length in H; cbn in H; lia|].
  now rewrite line_slice.
Qed.
Lemma describe_says shown t d : tame shown t d -> placed t d -> one_line d -> exists m, describe shown t d = Done [m] /\ says shown t d m.
Proof.
  intros (Cs & Ct & Cm) (line & (before & after & -> & W & N) & Hl) O.
  rewrite (describe_line shown before line after d _ W N Hl eq_refl O).
  destruct (_ && _)%bool eqn:E.
  - exists (full_message shown line d). split; [reflexivity|]. eexists. exists (decimal (fst (fst (d_range d)) + 1)). eexists. split; [reflexivity|]. split; [apply decimal_number|]. split; [reflexivity|].
    right. split; [now apply shows_source|]. exists line. split; [now exists before, after|]. unfold full_message. rewrite (seen_plain shown d Cs Cm Hl). f_equal.
    change (newline :: "009"%char :: highlighted line d) with ([newline; "009"%char] ++ highlighted line d). rewrite seen_clean by (unfold clean; cbn; intuition discriminate).
    rewrite seen_highlighted; [reflexivity|]. rewrite !clean_app in Ct. tauto.
  - exists (plain_message shown d). split; [reflexivity|]. eexists. exists (decimal (fst (fst (d_range d)) + 1)). eexists. split; [reflexivity|]. split; [apply decimal_number|]. split; [reflexivity|].
    left. split; [now apply hides_source|]. rewrite <- (app_nil_r (plain_message shown d)), (seen_plain shown d Cs Cm Hl). apply app_nil_r.
Qed.
Lemma describe_all_says shown t ds : (forall d, In d ds -> tame shown t d /\ placed t d /\ one_line d) ->
  exists ms, describe_all shown t ds = Done ms /\ Forall2 (says shown t) ds ms.
Proof.
  induction ds as [|d ds IH]; intro H; [exists []; split; [reflexivity|constructor]|].
  destruct (H d (or_introl eq_refl)) as (A & B & C). destruct (describe_says shown t d A B C) as (m & E & S1).
  destruct IH as (ms & Es & S2); [intros x Hx; apply H; now right|]. exists (m :: ms). cbn [describe_all]. rewrite E, Es. split; [reflexivity|]. now constructor.
Qed.

(** ** crashes and failures *)
Lemma poff_start t l k : poff t l 0 = Some k <-> (exists before rest, t = before ++ rest /\ k = List.length before /\ whole_lines before l) \/ (l = S (lines_before t) /\ k = List.length t).
Proof.
  rewrite poff_spec. split.
  - intros [(before & line & after & -> & -> & W & C)|[(c' & r & before & line & after & E & _)|(L & _ & ->)]]; [|discriminate|now right].
    left. inversion C. subst. exists before, after. now rewrite app_nil_r.
  - intros [(before & rest & -> & -> & W)|(-> & ->)].
    + left. exists before, [], rest. rewrite app_nil_r. split; [reflexivity|]. split; [reflexivity|]. split; [exact W|constructor].
    + right. right. now split.
Qed.
Lemma whole_split t : exists before line, t = before ++ line /\ whole_lines before (lines_before t) /\ ~ In newline line.
Proof. destruct (last_line_split t) as (before & E & W & N). exists before, (last_line t). auto. Qed.
Lemma poff_upto t : forall l, l <= S (lines_before t) -> poff t l 0 <> None.
Proof.
  induction t as [|x t IH]; intros [|l] H; [cbn; discriminate| |cbn; discriminate|].
  - cbn in *. assert (l = 0) by lia. subst. discriminate.
  - rewrite lines_cons in H. cbn [poff]. destruct (Ascii.eqb x newline).
    + specialize (IH l ltac:(lia)). now destruct (poff t l 0).
    + specialize (IH (S l) ltac:(lia)). now destruct (poff t (S l) 0).
Qed.
Lemma poff_beyond t l : S (lines_before t) < l -> poff t l 0 = None.
Proof.
  intro H. destruct (poff t l 0) as [k|] eqn:E; [|reflexivity]. apply poff_start in E. destruct E as [(before & rest & -> & _ & [L _])|(-> & _)]; [|lia].
  rewrite lines_app in H. lia.
Qed.
Lemma start_unique t a ra b rb l : t = a ++ ra -> t = b ++ rb -> whole_lines a l -> whole_lines b (S l) -> List.length a < List.length b.
Proof.
  intros Ea Eb Wa Wb. destruct (Nat.lt_ge_cases (List.length a) (List.length b)) as [H|H]; [exact H|exfalso].
  assert (lines_before b <= lines_before a); [|destruct Wa, Wb; lia].
  replace b with (firstn (List.length b) a).
  - rewrite <- (firstn_skipn (List.length b) a) at 2. rewrite lines_app. lia.
  - transitivity (firstn (List.length b) t); [rewrite Ea|rewrite Eb].
    + rewrite firstn_app. replace (List.length b - List.length a) with 0 by lia. now rewrite firstn_O, app_nil_r.
    + rewrite firstn_app, firstn_all, Nat.sub_diag. now rewrite firstn_O, app_nil_r.
Qed.
Lemma crash_iff shown t d : roomy t -> (fst (fst (d_range d)) < 4294967296)%N ->
  (describe shown t d = Panics <-> one_line d /\ ~ minor d /\ whole_lines t (N.to_nat (fst (fst (d_range d))))).
Proof.
  intros F B. unfold describe, one_line. destruct (d_range d) as [[l1 c1] [l2 c2]] eqn:R. cbn [fst snd] in *.
  destruct (N.eqb_spec l1 l2) as [<-|Hne]; [|split; [discriminate|tauto]].
  assert (LL : N.to_nat l1 <= lines_before t -> (l1 < 4294967295)%N) by (pose proof (lines_le t); unfold fits, roomy in F; lia).
  split.
  - destruct (poff t (N.to_nat l1) 0) as [s|] eqn:Es; [|discriminate]. destruct (poff t (N.to_nat (add32 l1 1)) 0) as [e|] eqn:Ee; [|discriminate].
    destruct (_ && _)%bool eqn:E; [|discriminate]. destruct (Nat.leb_spec e s) as [H|H]; [|discriminate]. intros _. split; [reflexivity|]. split; [now apply shows_source|].
    assert (L1 : (l1 < 4294967295)%N).
    { destruct (N.lt_ge_cases l1 4294967295) as [G|G]; [exact G|]. rewrite poff_beyond in Es; [discriminate|]. pose proof (lines_le t). unfold fits, roomy in F. lia. }
    rewrite add32_succ in Ee by exact L1. replace (N.to_nat (l1 + 1)) with (S (N.to_nat l1)) in Ee by lia.
    apply poff_start in Es. apply poff_start in Ee.
    destruct Es as [(b1 & r1 & E1 & -> & W1)|(E1 & ->)]; destruct Ee as [(b2 & r2 & E2 & -> & W2)|(E2 & ->)].
    + pose proof (start_unique t b1 r1 b2 r2 _ E1 E2 W1 W2). lia.
    + assert (r1 = []); [|subst r1; rewrite app_nil_r in E1; now subst b1]. apply (f_equal (@List.length ascii)) in E1. rewrite app_length in E1. destruct r1 as [|x r1]; [reflexivity|]. cbn [List.length] in E1. exfalso. clear - H E1. unfold text in *. lia.
    + subst t. rewrite lines_app in E1. destruct W2 as [W2 _]. lia.
    + lia.
  - intros (_ & Hm & W). apply shows_source in Hm. rewrite Hm.
    rewrite (start_of t t [] _ (eq_sym (app_nil_r t)) W). rewrite add32_succ by (apply LL; destruct W; lia). replace (N.to_nat (l1 + 1)) with (S (N.to_nat l1)) by lia.
    assert (E : poff t (S (N.to_nat l1)) 0 = Some (List.length t)) by (apply poff_start; right; destruct W as [<- _]; auto). rewrite E. now rewrite Nat.leb_refl.
Qed.
Lemma fails_iff shown t d : roomy t -> (fst (fst (d_range d)) < 4294967296)%N ->
  (describe shown t d = Failed <-> one_line d /\ lines_before t < N.to_nat (fst (fst (d_range d)))).
Proof.
  intros F B. unfold describe, one_line. destruct (d_range d) as [[l1 c1] [l2 c2]] eqn:R. cbn [fst snd] in *.
  destruct (N.eqb_spec l1 l2) as [<-|Hne]; [|split; [discriminate|tauto]].
  pose proof (lines_le t) as LL. unfold fits, roomy in F.
  destruct (Nat.lt_ge_cases (lines_before t) (N.to_nat l1)) as [H|H]; (split; [|]).
  - tauto.
  - intros _. destruct (N.lt_ge_cases l1 4294967295) as [G|G].
    + rewrite add32_succ by exact G. replace (N.to_nat (l1 + 1)) with (S (N.to_nat l1)) by lia. rewrite (poff_beyond t (S (N.to_nat l1))) by lia. now destruct (poff t (N.to_nat l1) 0).
    + rewrite (poff_beyond t (N.to_nat l1)) by lia. reflexivity.
  - rewrite add32_succ by lia. replace (N.to_nat (l1 + 1)) with (S (N.to_nat l1)) by lia.
    pose proof (poff_upto t (N.to_nat l1) ltac:(lia)). pose proof (poff_upto t (S (N.to_nat l1)) ltac:(lia)).
    destruct (poff t (N.to_nat l1) 0); [|congruence]. destruct (poff t (S (N.to_nat l1)) 0); [|congruence]. destruct (_ && _)%bool; [destruct (_ <=? _)|]; discriminate.
  - lia.
Qed.
(** the last line, without a line feed *)
Lemma describe_last shown before line d l : roomy (before ++ line) -> whole_lines before (N.to_nat l) -> ~ In newline line -> line <> [] ->
  fst (fst (d_range d)) = l -> one_line d -> ~ minor d ->
  describe shown (before ++ line) d = Done [full_message shown (removelast line) d].
Proof.
  intros F W N NE El O M. unfold describe. unfold one_line in O. destruct (d_range d) as [[l1 c1] [l2 c2]] eqn:R. cbn [fst snd] in *. subst l1 l2.
  rewrite N.eqb_refl. rewrite (start_of _ before line (N.to_nat l) eq_refl W).
  assert (LB : lines_before (before ++ line) = N.to_nat l) by (rewrite lines_app, (plain_lines line N); destruct W; lia).
  rewrite add32_succ by (pose proof (lines_le (before ++ line)); unfold fits, roomy in F; lia). replace (N.to_nat (l + 1)) with (S (N.to_nat l)) by lia.
  assert (E : poff (before ++ line) (S (N.to_nat l)) 0 = Some (List.length (before ++ line))) by (apply poff_start; right; rewrite LB; auto). rewrite E.
  apply shows_source in M. rewrite M. assert (0 < List.length line) by (destruct line; [congruence|cbn; lia]).
  destruct (Nat.leb_spec (List.length (before ++ line)) (List.length before)) as [H1|H1]; [rewrite app_length in H1; lia|].
  do 3 f_equal. unfold slice. rewrite app_length. replace (_ - 1 - _) with (List.length line - 1) by lia.
  rewrite skipn_app, skipn_all, Nat.sub_diag. cbn [skipn app]. clear - NE. rewrite removelast_firstn_len. f_equal. lia.
Qed.

(** ** documents *)
Section Documents.
Variable uri_of : bytes -> option bytes.
Variable text_of : bytes -> option text.
Variable shown_of : bytes -> bytes.
Lemma compile_error ps e ms : compile uri_of text_of shown_of ps = Done (e, ms) ->
  (e = true <-> exists p ds d, In (p, ds) ps /\ In d ds /\ d_sev d = 1).
Proof.
  unfold compile. destruct (all_diagnostics uri_of ps) as [us|] eqn:A; [|discriminate]. destruct (describe_documents text_of shown_of us); try discriminate. intros [= <- _].
  revert us A. induction ps as [|[p ds] ps IH]; intros us A; cbn [all_diagnostics] in A.
  - injection A as <-. cbn. split; [discriminate|]. intros (p & ds & d & [] & _).
  - destruct (uri_of p) as [u|]; [|discriminate]. destruct (all_diagnostics uri_of ps) as [us'|]; [|discriminate]. injection A as <-. cbn [existsb snd].
    rewrite Bool.orb_true_iff, (IH us' eq_refl), existsb_exists. split.
    + intros [(d & I & E)|(q & es & d & I & J & E)]; [exists p, ds, d|exists q, es, d].
      * split; [now left|]. split; [exact I|]. now apply Nat.eqb_eq.
      * split; [now right|]. auto.
    + intros (q & es & d & [[= -> ->]|I] & J & E); [left; exists d; split; [exact J|]; now apply Nat.eqb_eq|right; now exists q, es, d].
Qed.
End Documents.
