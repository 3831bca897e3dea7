(** Property theorems for reporting problems outside of an editor (C159-C161). *)
From Coq Require Import Ascii String NArith ZArith Lia.
From Verif Require Import Base Strs.
From Verif.Documents Require Import Model Spec Positions.
From Verif.Ranges Require Import Model Spec Proofs.
From Verif.Vet Require Import Model Spec Proofs.
Open Scope list_scope.

(** * C159: every problem is reported *)

(** For each problem within a line there is a message, in order, that says what is wrong and where and, unless it is
    minor, shows the line.  Missing: problems of several lines, and lines that no line feed ends, see below. *)
Theorem C159_reported_partial : forall shown t ds,
  (forall d, In d ds -> tame shown t d /\ placed t d /\ one_line d) ->
  exists ms, describe_all shown t ds = Done ms /\ Forall2 (says shown t) ds ms.
Proof. exact describe_all_says. Qed.
(** So in all documents, each in its turn. *)
Theorem C159_all_partial : forall uri_of text_of shown_of ps,
  (forall p ds, In (p, ds) ps -> exists u t, uri_of p = Some u /\ text_of u = Some t /\
     forall d, In d ds -> tame (shown_of u) t d /\ placed t d /\ one_line d) ->
  exists e mss, compile uri_of text_of shown_of ps = Done (e, List.concat mss) /\
    Forall2 (fun pd ms => exists u t, uri_of (fst pd) = Some u /\ text_of u = Some t /\ Forall2 (says (shown_of u) t) (snd pd) ms) ps mss.
Proof.
  intros uri_of text_of shown_of ps H. unfold compile.
  assert (G : exists us mss, all_diagnostics uri_of ps = Some us /\ describe_documents text_of shown_of us = Done (List.concat mss) /\
    Forall2 (fun pd ms => exists u t, uri_of (fst pd) = Some u /\ text_of u = Some t /\ Forall2 (says (shown_of u) t) (snd pd) ms) ps mss).
  { induction ps as [|[p ds] ps IH]; [exists [], []; repeat split; constructor|].
    destruct (H p ds (or_introl eq_refl)) as (u & t & Eu & Et & D). destruct IH as (us & mss & A & B & C); [intros q es I; apply (H q es); now right|].
    destruct (describe_all_says (shown_of u) t ds D) as (ms & Em & F). exists ((u, ds) :: us), (ms :: mss). cbn [all_diagnostics describe_documents]. rewrite Eu, A, Et, Em, B.
    split; [reflexivity|]. split; [reflexivity|]. constructor; [|exact C]. exists u, t. auto. }
  destruct G as (us & mss & A & B & C). rewrite A, B. eexists. exists mss. split; [reflexivity|exact C].
Qed.
(** The check fails if there is an error; *)
Theorem C159_fails : forall uri_of text_of shown_of ps p ds d, In (p, ds) ps -> In d ds -> d_sev d = 1 -> snd (vet uri_of text_of shown_of ps) = false.
Proof.
  intros uri_of text_of shown_of ps p ds d I J E. unfold vet. destruct (compile uri_of text_of shown_of ps) as [| |[e ms]] eqn:C; try reflexivity.
  cbn [snd]. replace e with true; [reflexivity|]. symmetry. apply (compile_error _ _ _ _ _ _ C). now exists p, ds, d.
Qed.
(** and only then, if it gets to the end. *)
Theorem C159_succeeds : forall uri_of text_of shown_of ps e ms, compile uri_of text_of shown_of ps = Done (e, ms) ->
  (snd (vet uri_of text_of shown_of ps) = true <-> forall p ds d, In (p, ds) ps -> In d ds -> d_sev d <> 1) /\ fst (vet uri_of text_of shown_of ps) = ms.
Proof.
  intros uri_of text_of shown_of ps e ms C. unfold vet. rewrite C. split; [|reflexivity]. cbn [snd]. pose proof (compile_error _ _ _ _ _ _ C) as E.
  destruct e; cbn [negb]; split; try discriminate; try reflexivity.
  - intros N. destruct (proj1 E eq_refl) as (p & ds & d & I & J & S1). exfalso. exact (N p ds d I J S1).
  - intros _ p ds d I J S1. discriminate (proj2 E). now exists p, ds, d.
Qed.
(** It does not succeed without having read every document that has something reported. *)
Theorem C159_read : forall uri_of text_of shown_of ps p ds, snd (vet uri_of text_of shown_of ps) = true -> In (p, ds) ps ->
  exists u t, uri_of p = Some u /\ text_of u = Some t.
Proof.
  intros uri_of text_of shown_of ps p ds V I. unfold vet, compile in V. destruct (all_diagnostics uri_of ps) as [us|] eqn:A; [|discriminate].
  destruct (describe_documents text_of shown_of us) as [| |ms] eqn:D; try discriminate. clear V. revert us ms A D.
  induction ps as [|[q es] ps IH]; intros us ms A D; [destruct I|]. cbn [all_diagnostics] in A.
  destruct (uri_of q) as [u|] eqn:Eu; [|discriminate]. destruct (all_diagnostics uri_of ps) as [us'|]; [|discriminate]. injection A as <-. cbn [describe_documents] in D.
  destruct (text_of u) as [t|] eqn:Et; [|discriminate]. destruct (describe_all (shown_of u) t es); try discriminate.
  destruct (describe_documents text_of shown_of us') as [| |ms'] eqn:D'; try discriminate.
  destruct I as [[= -> ->]|I]; [exists u, t; auto|exact (IH I us' ms' eq_refl D')].
Qed.
Definition at_ (l1 c1 l2 c2 : N) : range := ((l1, c1), (l2, c2)).
Definition two_lines : text := b_ "message M {" ++ newline :: b_ "  int32 x" ++ newline :: b_ "}" ++ [newline].
Definition here (_ : bytes) : option bytes := Some (b_ "file:///w/a.proto").
Definition shown1 (_ : bytes) : bytes := b_ "a.proto".
Definition missing : diagnostic := mkD 1 false (at_ 1 8 1 9) (b_ "expected '='").
Lemma missing_ok : tame (b_ "a.proto") two_lines missing /\ placed two_lines missing /\ one_line missing.
Proof.
  split; [repeat split; unfold clean; cbn; intuition discriminate|]. split; [|reflexivity]. exists (b_ "  int32 x"). split; [|reflexivity].
  exists (b_ "message M {" ++ [newline]), (b_ "}" ++ [newline]). split; [reflexivity|]. split; [|cbn; intuition discriminate].
  split; [reflexivity|]. right. now exists (b_ "message M {").
Qed.
Example C159_case : exists m, describe_all (b_ "a.proto") two_lines [missing] = Done [m] /\
  seen m = b_ "error: a.proto:2 expected '='" ++ newline :: "009"%char :: b_ "  int32 x".
Proof. eexists. split; vm_compute; reflexivity. Qed.
Example C159_partial_case : exists ms, describe_all (b_ "a.proto") two_lines [missing] = Done ms /\ Forall2 (says (b_ "a.proto") two_lines) [missing] ms.
Proof. apply C159_reported_partial. intros d [<-|[]]. exact missing_ok. Qed.
Example C159_fails_case : snd (vet here (fun _ => Some two_lines) shown1 [(b_ "a.proto", [missing])]) = false.
Proof. apply (C159_fails _ _ _ _ (b_ "a.proto") [missing] missing); [now left|now left|reflexivity]. Qed.
Example C159_succeeds_case : vet here (fun _ => Some two_lines) shown1 [(b_ "a.proto", [])] = ([], true).
Proof. reflexivity. Qed.

(** Of an error that reaches over a line's end nothing is printed: the check fails and does not say why. *)
Theorem C159_lines_refuted : exists t d, d_sev d = 1 /\ selects t (d_range d) 8 (List.length t - 1) /\
  vet here (fun _ => Some t) shown1 [(b_ "a.proto", [d])] = ([], false).
Proof.
  exists two_lines, (mkD 1 false (at_ 0 8 2 1) (b_ "message M is incomplete")). split; [reflexivity|]. split; [|reflexivity].
  split; unfold denotes; cbn [fst snd at_ d_range].
  - exists [], (b_ "message "), (skipn 8 two_lines). split; [reflexivity|]. split; [reflexivity|]. split; [split; [reflexivity|now left]|].
    apply chars_ascii; [repeat constructor|cbn; intuition discriminate].
  - exists (b_ "message M {" ++ newline :: b_ "  int32 x" ++ [newline]), (b_ "}"), [newline]. split; [reflexivity|]. split; [reflexivity|]. split; [split; [reflexivity|right; now exists (b_ "message M {" ++ newline :: b_ "  int32 x")]|].
    apply chars_ascii; [repeat constructor|cbn; intuition discriminate].
Qed.
Theorem C159_lines : forall shown t d, ~ one_line d -> describe shown t d = Done [].
Proof.
  intros shown t d O. unfold describe, one_line in *. destruct (d_range d) as [[l1 c1] [l2 c2]]. cbn [fst snd] in O.
  destruct (N.eqb_spec l1 l2); [contradiction|reflexivity].
Qed.

(** * C160: reporting completes *)

(** It crashes on a problem exactly if that is in the empty line after the last line feed, or in an empty text; *)
Theorem C160_crash_iff : forall shown t d, roomy t -> (fst (fst (d_range d)) < 4294967296)%N ->
  (describe shown t d = Panics <-> one_line d /\ ~ minor d /\ whole_lines t (N.to_nat (fst (fst (d_range d))))).
Proof. exact crash_iff. Qed.
(** and it ends with an error, and no messages, exactly if a line is beyond the text. *)
Theorem C160_fails_iff : forall shown t d, roomy t -> (fst (fst (d_range d)) < 4294967296)%N ->
  (describe shown t d = Failed <-> one_line d /\ lines_before t < N.to_nat (fst (fst (d_range d)))).
Proof. exact fails_iff. Qed.
Example C160_case : exists m, describe (b_ "a.proto") two_lines (mkD 2 true (at_ 3 0 3 0) (b_ "unused")) = Done [m] /\ seen m = b_ "warning: a.proto:4 unused".
Proof. eexists. split; vm_compute; reflexivity. Qed.
(** A closing brace is missing at the end of a file: checking it crashes. *)
Definition cut_off : text := b_ "message M {" ++ [newline].
Theorem C160_crash_refuted : exists t d, d_range d = node_range (@List.length ascii) t (List.length t) (List.length t) /\ d_sev d = 1 /\
  compile here (fun _ => Some t) shown1 [(b_ "a.proto", [d])] = Panics.
Proof.
  exists cut_off, (mkD 1 false (at_ 1 0 1 0) (b_ "unexpected EOF")). split; [vm_compute; reflexivity|]. split; [reflexivity|]. vm_compute. reflexivity.
Qed.
Theorem C160_empty_refuted : exists d, d_sev d = 2 /\ compile here (fun _ => Some []) shown1 [(b_ "a.proto", [d])] = Panics.
Proof. exists (mkD 2 false (at_ 0 0 0 0) (b_ "no syntax specified")). split; reflexivity. Qed.
(** A warning without a place keeps the check from succeeding, and from saying anything at all. *)
Theorem C160_unknown_refuted : exists t d d', d_range d = positions_to_range (0, 0)%N (0, 0)%N /\ d_sev d = 2 /\
  tame (b_ "a.proto") t d' /\ placed t d' /\ one_line d' /\ d_sev d' = 1 /\
  vet here (fun _ => Some t) shown1 [(b_ "a.proto", [d'; d])] = ([], false) /\ vet here (fun _ => Some t) shown1 [(b_ "a.proto", [d])] = ([], false).
Proof.
  exists two_lines, (mkD 2 false (positions_to_range (0, 0)%N (0, 0)%N) (b_ "no syntax specified")), missing. split; [reflexivity|]. split; [reflexivity|].
  destruct missing_ok as (A & B & C). split; [exact A|]. split; [exact B|]. split; [exact C|]. split; [reflexivity|].
  assert (E : describe (b_ "a.proto") two_lines (mkD 2 false (positions_to_range (0, 0)%N (0, 0)%N) (b_ "no syntax specified")) = Failed).
  { apply C160_fails_iff; [reflexivity|reflexivity|]. split; [reflexivity|]. cbn [fst snd d_range positions_to_range to_position]. change (lines_before two_lines) with 3. change (pred32 0) with 4294967295%N. lia. }
  destruct (describe_says _ _ _ A B C) as (m & Em & _).
  assert (V : forall t ds, describe_all (b_ "a.proto") t ds = Failed -> vet here (fun _ => Some t) shown1 [(b_ "a.proto", ds)] = ([], false)).
  { intros t ds H. unfold vet, compile. cbn [all_diagnostics here describe_documents]. change (shown1 (b_ "file:///w/a.proto")) with (b_ "a.proto"). now rewrite H. }
  assert (K : forall t d ds, describe_all (b_ "a.proto") t (d :: ds) = match describe (b_ "a.proto") t d with Done m => match describe_all (b_ "a.proto") t ds with Done ms => Done (m ++ ms) | o => o end | o => o end) by reflexivity.
  split; apply V; [rewrite K, Em|]; rewrite K, E; reflexivity.
Qed.

(** * C161: the place of a problem is shown *)

(** The line appears with the text of the problem, and nothing else, in the colour of its severity. *)
Theorem C161_highlight_partial : forall shown before pre mid post after d,
  let t := before ++ (pre ++ mid ++ post) ++ newline :: after in
  fits t -> whole_lines before (lines_before before) -> ~ In newline (pre ++ mid ++ post) -> ~ minor d ->
  d_range d = node_range (@List.length ascii) t (List.length (before ++ pre)) (List.length (before ++ pre ++ mid)) ->
  exists head, describe shown t d = Done [head ++ newline :: "009"%char :: faint pre ++ marked (d_sev d) mid ++ faint post].
Proof.
  intros shown before pre mid post after d t F W N M R.
  assert (P : forall x y, pre ++ mid ++ post = x ++ y -> to_position (place (@List.length ascii) t (List.length (before ++ x))) = (N.of_nat (lines_before before), N.of_nat (List.length x))).
  { intros x y E. assert (Nx : ~ In newline x) by (rewrite E in N; intro; apply N, in_or_app; now left). unfold to_position, place. cbn [fst snd].
    assert (Ef : firstn (List.length (before ++ x)) t = before ++ x).
    { unfold t. rewrite E, !app_length, <- app_length. rewrite <- app_assoc, (app_assoc before x). rewrite firstn_app, Nat.sub_diag, firstn_all, firstn_O. apply app_nil_r. }
    rewrite Ef, (whole_last before x _ W Nx).
    assert (Lt : List.length before + List.length x <= List.length t) by (unfold t; rewrite E, !app_length; lia).
    change (List.length (filter (Ascii.eqb newline) (before ++ x))) with (lines_before (before ++ x)). rewrite lines_app, (plain_lines x Nx), Nat.add_0_r.
    pose proof (lines_le before). unfold fits in F. f_equal; apply N2Nat.inj; rewrite pred_succ by lia; now rewrite Nat2N.id. }
  assert (P1 := P pre (mid ++ post) eq_refl). assert (P2 := P (pre ++ mid) post ltac:(now rewrite <- app_assoc)). clear P.
  unfold node_range, positions_to_range in R. rewrite P1, P2 in R.
  assert (Lb : (N.of_nat (lines_before before) < 4294967295)%N).
  { pose proof (lines_le before). assert (List.length before <= List.length t) by (unfold t; rewrite app_length; lia). unfold fits in F. lia. }
  unfold t. rewrite (describe_line shown before (pre ++ mid ++ post) after d (N.of_nat (lines_before before))); [|now rewrite Nat2N.id|exact N|exact Lb|now rewrite R|unfold one_line; now rewrite R].
  apply shows_source in M. rewrite M. exists (plain_message shown d).
  replace (faint pre ++ marked (d_sev d) mid ++ faint post) with (dim ++ pre ++ reset ++ color (d_sev d) ++ mid ++ reset ++ dim ++ post ++ reset)
    by (unfold marked; destruct (d_sev d) as [|[|[|[|[|?]]]]]; cbn; now rewrite <- !app_assoc).
  do 2 f_equal. unfold full_message. f_equal. do 2 f_equal. unfold highlighted, columns. rewrite R. cbn [fst snd]. rewrite !Nat2N.id.
  assert (C : ((List.length (pre ++ mid ++ post) <? List.length pre) || (List.length (pre ++ mid ++ post) <? List.length (pre ++ mid)) || (List.length (pre ++ mid) <? List.length pre))%bool = false).
  { rewrite !app_length. destruct (Nat.ltb_spec (List.length pre + (List.length mid + List.length post)) (List.length pre)); [lia|].
    destruct (Nat.ltb_spec (List.length pre + (List.length mid + List.length post)) (List.length pre + List.length mid)); [lia|].
    destruct (Nat.ltb_spec (List.length pre + List.length mid) (List.length pre)); [lia|reflexivity]. }
  rewrite C. rewrite <- !app_assoc. f_equal.
  rewrite firstn_app, firstn_all, Nat.sub_diag, firstn_O, app_nil_r. do 2 f_equal. f_equal.
  assert (S1 : slice (pre ++ mid ++ post) (List.length pre) (List.length (pre ++ mid)) = mid).
  { unfold slice. rewrite app_length. replace (_ + _ - _) with (List.length mid) by lia. rewrite skipn_app, skipn_all, Nat.sub_diag. cbn [skipn app]. rewrite firstn_app, firstn_all, Nat.sub_diag, firstn_O. apply app_nil_r. }
  rewrite S1. do 2 f_equal. f_equal. rewrite app_assoc, skipn_app, skipn_all, Nat.sub_diag. reflexivity.
Qed.
(** Every message begins with the word for its severity, in the same colour, and the place in faint text. *)
Theorem C161_head : forall shown t d ms m, describe shown t d = Done ms -> In m ms -> 1 <= d_sev d <= 4 ->
  exists digits rest, m = marked (d_sev d) (word (d_sev d)) ++ b_ ": " ++ faint (shown ++ b_ ":" ++ digits) ++ b_ " " ++ d_msg d ++ rest.
Proof.
  intros shown t d ms m E I S1.
  assert (P : forall rest, exists digits rest', plain_message shown d ++ rest = marked (d_sev d) (word (d_sev d)) ++ b_ ": " ++ faint (shown ++ b_ ":" ++ digits) ++ b_ " " ++ d_msg d ++ rest').
  { intro rest. exists (decimal (add32 (fst (fst (d_range d))) 1)), rest. unfold plain_message, source. replace (severity_msg (d_sev d)) with (marked (d_sev d) (word (d_sev d)))
      by (destruct (d_sev d) as [|[|[|[|[|?]]]]]; [lia|reflexivity|reflexivity|reflexivity|reflexivity|lia]).
    unfold faint, with_code, dim, reset, esc. cbn. rewrite <- !app_assoc. cbn. rewrite <- ?app_assoc. cbn. do 6 f_equal. rewrite <- ?app_assoc. cbn. now rewrite <- ?app_assoc. }
  unfold describe in E. destruct (d_range d) as [[l1 c1] [l2 c2]]. destruct (l1 =? l2)%N; [|injection E as <-; destruct I].
  destruct (poff t (N.to_nat l1) 0) as [a|]; [|discriminate]. destruct (poff t (N.to_nat (add32 l2 1)) 0) as [z|]; [|discriminate].
  destruct (_ && _)%bool; [destruct (z <=? a); [discriminate|]|]; injection E as <-; destruct I as [<-|[]]; [apply P|].
  rewrite <- (app_nil_r (plain_message shown d)). apply P.
Qed.
Example C161_case : describe (b_ "a.proto") two_lines missing =
  Done [plain_message (b_ "a.proto") missing ++ newline :: "009"%char :: faint (b_ "  int32 ") ++ marked 1 (b_ "x") ++ faint []].
Proof. vm_compute. reflexivity. Qed.
(** Of a last line that no line feed ends, the last character is not shown, *)
Theorem C161_last_line : forall shown before line d, roomy (before ++ line) -> whole_lines before (lines_before before) -> ~ In newline line -> line <> [] ->
  fst (fst (d_range d)) = N.of_nat (lines_before before) -> one_line d -> ~ minor d -> tame shown (before ++ line) d ->
  exists m head, describe shown (before ++ line) d = Done [m] /\ seen m = head ++ newline :: "009"%char :: removelast line /\
    exists digits, number digits (N.of_nat (lines_before before) + 1) /\ head = word (d_sev d) ++ b_ ": " ++ shown ++ b_ ":" ++ digits ++ b_ " " ++ d_msg d.
Proof.
  intros shown before line d F W N NE El O M (Cs & Ct & Cm).
  assert (Hl : (fst (fst (d_range d)) < 4294967295)%N).
  { rewrite El. pose proof (lines_le before). unfold roomy in F. rewrite app_length in F. lia. }
  rewrite (describe_last shown before line d (N.of_nat (lines_before before)) F); try assumption; [|now rewrite Nat2N.id].
  eexists. eexists. split; [reflexivity|]. unfold full_message. rewrite (seen_plain shown d Cs Cm Hl). split.
  - f_equal. change (newline :: "009"%char :: highlighted ?x d) with ([newline; "009"%char] ++ highlighted x d). rewrite seen_clean by (unfold clean; cbn; intuition discriminate).
    rewrite seen_highlighted; [reflexivity|]. apply clean_app in Ct. destruct Ct as [_ Ct]. rewrite (app_removelast_last "0"%char NE) in Ct. now apply clean_app in Ct.
  - exists (decimal (N.of_nat (lines_before before) + 1)). rewrite <- El. split; [apply decimal_number|reflexivity].
Qed.
(** and a problem there is not marked. *)
Theorem C161_last_line_refuted : exists t a d m, d_range d = node_range (@List.length ascii) t a (List.length t) /\ slice t a (List.length t) = b_ "}" /\
  describe (b_ "a.proto") t d = Done [m] /\ seen m = b_ "error: a.proto:1 unexpected" ++ newline :: "009"%char :: b_ "enum E " /\
  m = plain_message (b_ "a.proto") d ++ newline :: "009"%char :: faint [] ++ marked 1 (b_ "enum E ") ++ faint [].
Proof.
  exists (b_ "enum E }"), 7, (mkD 1 false (at_ 0 7 0 8) (b_ "unexpected")). eexists. split; [vm_compute; reflexivity|]. split; [reflexivity|]. split; [vm_compute; reflexivity|]. split; vm_compute; reflexivity.
Qed.

Print Assumptions C159_reported_partial.
Print Assumptions C159_all_partial.
Print Assumptions C159_fails.
Print Assumptions C159_succeeds.
Print Assumptions C159_read.
Print Assumptions C159_lines_refuted.
Print Assumptions C159_lines.
Print Assumptions C160_crash_iff.
Print Assumptions C160_fails_iff.
Print Assumptions C160_crash_refuted.
Print Assumptions C160_empty_refuted.
Print Assumptions C160_unknown_refuted.
Print Assumptions C161_highlight_partial.
Print Assumptions C161_head.
Print Assumptions C161_last_line.
Print Assumptions C161_last_line_refuted.
