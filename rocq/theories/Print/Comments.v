(** Proofs about printed comments. *)
From Coq Require Import Ascii String NArith.
From Verif Require Import Base Strs.
From Verif.Print Require Import Model Spec.
Open Scope list_scope.

(** ** Blank lines *)

Lemma lines_single_blank c : comment_lines c = [[]] <-> c = [nl; nl].
Proof.
  split; [|intros ->; reflexivity]. unfold comment_lines, drop_last_blank. intros E.
  apply (f_equal (@rev _)) in E. rewrite rev_involutive in E. cbn [rev app] in E.
  assert (M : drop_first_blank (split_on nl c) = [[]; []]).
  { destruct (rev (drop_first_blank (split_on nl c))) as [|x r] eqn:R; [discriminate|].
    assert (R' : x :: r = [[]; []]). { destruct x as [|a x]; cbn in E; [now rewrite E|discriminate]. }
    rewrite R' in R. apply (f_equal (@rev _)) in R. rewrite rev_involutive in R. exact R. }
  rewrite <- (join_split nl c). destruct (split_on nl c) as [|x r]; [discriminate|].
  destruct x as [|a x]; cbn in M; [now rewrite M|discriminate].
Qed.
Lemma lines_none c : comment_lines c = [] <-> c = [] \/ c = [nl].
Proof.
  split; [|intros [-> | ->]; reflexivity]. unfold comment_lines, drop_last_blank. intros E.
  apply (f_equal (@rev _)) in E. rewrite rev_involutive in E. cbn [rev app] in E.
  rewrite <- (join_split nl c). destruct (split_on nl c) as [|x r]; [now left|].
  assert (M : drop_first_blank (x :: r) = [] \/ drop_first_blank (x :: r) = [[]]).
  { destruct (rev (drop_first_blank (x :: r))) as [|y q] eqn:R.
    - left. apply (f_equal (@rev _)) in R. now rewrite rev_involutive in R.
    - right. destruct y as [|a y]; cbn in E; [|discriminate]. subst q. apply (f_equal (@rev _)) in R. now rewrite rev_involutive in R. }
  destruct x as [|a x]; cbn in M; destruct M as [M|M]; try discriminate; subst; [now left|now right].
Qed.

(** ** Closing marks: a scanner that remembers a star *)

Definition star : ascii := "*"%char.
Definition sl : ascii := "/"%char.
Fixpoint closes (p : bool) (s : bytes) : bool :=
  match s with [] => false | c :: r => ((p && Ascii.eqb c sl) || closes (Ascii.eqb c star) r)%bool end.
Fixpoint end_star (p : bool) (s : bytes) : bool := match s with [] => p | c :: r => end_star (Ascii.eqb c star) r end.
Lemma closes_app p a b : closes p (a ++ b) = (closes p a || closes (end_star p a) b)%bool.
Proof. revert p. induction a as [|c a IH]; intros p; [reflexivity|]. cbn. rewrite IH. now rewrite orb_assoc. Qed.
Lemma end_star_app p a b : end_star p (a ++ b) = end_star (end_star p a) b.
Proof. revert p. induction a as [|c a IH]; intros p; [reflexivity|]. cbn. apply IH. Qed.
Lemma closes_weaken p s : closes p s = false -> closes false s = false.
Proof. destruct s; [auto|]. cbn. intros H. now apply orb_false_iff in H as [_ H]. Qed.

Lemma close_prefix c s : has_prefix (c :: s) close_mark = true <-> c = star /\ exists r, s = sl :: r.
Proof.
  rewrite has_prefix_spec. change close_mark with [star; sl]. cbn [app]. split.
  - intros [r [= -> ->]]. eauto.
  - intros [-> [r ->]]. now exists r.
Qed.
Lemma index_first s t : closes false s = false -> index_sub (s ++ close_mark ++ t) close_mark = Some (List.length s).
Proof.
  induction s as [|c s IH]; intros H.
  - cbn [app List.length]. destruct t; reflexivity.
  - cbn [app index_sub List.length]. destruct (has_prefix (c :: s ++ close_mark ++ t) close_mark) eqn:P.
    + exfalso. apply close_prefix in P as [-> [r E]]. cbn in H. destruct s as [|d s].
      * discriminate.
      * cbn in E. injection E as -> _. cbn in H. discriminate.
    + cbn in H. rewrite IH by (eapply closes_weaken; exact H). reflexivity.
Qed.
Lemma contains_closes s : contains_close s = closes false s.
Proof.
  unfold contains_close. assert (G : forall s, index_sub s close_mark = None <-> closes false s = false).
  { clear. induction s as [|c s IH]; [split; reflexivity|]. cbn [index_sub].
    destruct (has_prefix (c :: s) close_mark) eqn:P.
    - split; [discriminate|]. apply close_prefix in P as [-> [r ->]]. cbn. discriminate.
    - transitivity (index_sub s close_mark = None); [destruct (index_sub s close_mark); split; congruence|]. rewrite IH. cbn.
      destruct (Ascii.eqb_spec c star) as [->|N]; [|reflexivity].
      destruct s as [|d s]; [reflexivity|]. cbn. destruct (Ascii.eqb_spec d sl) as [->|Nd]; [|reflexivity].
      exfalso. assert (has_prefix (star :: sl :: s) close_mark = true) by (apply close_prefix; eauto). congruence. }
  destruct (index_sub s close_mark) eqn:E.
  - destruct (closes false s) eqn:C; [reflexivity|]. apply G in C. congruence.
  - symmetry. now apply G.
Qed.

(** ** The lines of a comment *)

Lemma closes_lines s : forall p, closes p s = false ->
  match split_on nl s with [] => True | l :: r => closes p l = false /\ Forall (fun x => closes false x = false) r end.
Proof.
  induction s as [|c s IH]; intros p H; [cbn; auto|].
  cbn in H. apply orb_false_iff in H as [H1 H2]. cbn [split_on]. destruct (Ascii.eqb_spec c nl) as [->|N].
  - split; [reflexivity|]. specialize (IH false (closes_weaken _ _ H2)). destruct (split_on nl s); [constructor|]. destruct IH. now constructor.
  - specialize (IH _ H2). destruct (split_on nl s) as [|l r] eqn:E.
    + split; [|constructor]. cbn. now rewrite H1.
    + destruct IH as [I1 I2]. split; [|exact I2]. cbn. now rewrite H1, I1.
Qed.
Lemma drop_first_in l ls : In l (drop_first_blank ls) -> In l ls.
Proof. destruct ls as [|[|a x] r]; cbn; auto. Qed.
Lemma drop_last_in l ls : In l (drop_last_blank ls) -> In l ls.
Proof. unfold drop_last_blank. intros H. apply in_rev in H. apply drop_first_in in H. now apply in_rev. Qed.
Lemma comment_line_free c l : In l (comment_lines c) -> ~ In nl l.
Proof. intros H. apply drop_last_in, drop_first_in in H. now apply split_on_sep_free in H. Qed.
Lemma comment_line_open c l : contains_close c = false -> In l (comment_lines c) -> closes false l = false.
Proof.
  rewrite contains_closes. intros C H. apply drop_last_in, drop_first_in in H. pose proof (closes_lines c false C) as L.
  destruct (split_on nl c); [destruct H|]. destruct L as [L1 L2]. destruct H as [<-|H]; [exact L1|]. exact (proj1 (Forall_forall _ _) L2 _ H).
Qed.

Lemma trim_left_suffix s : exists b, s = b ++ trim_left_blank s /\ blank_text b.
Proof.
  induction s as [|c s [b [E B]]]; [exists []; split; [reflexivity|intros ? []]|]. cbn [trim_left_blank].
  destruct (Ascii.eqb_spec c sp) as [->|N1]; cbn [orb].
  - exists (sp :: b). split; [cbn; now rewrite <- E|]. intros x [<-|H]; auto.
  - destruct (Ascii.eqb_spec c tab) as [->|N2].
    + exists (tab :: b). split; [cbn; now rewrite <- E|]. intros x [<-|H]; auto.
    + exists []. split; [reflexivity|intros ? []].
Qed.
Lemma trim_right_prefix s : exists b, s = trim_right s ++ b /\ blank_text b.
Proof.
  destruct (trim_left_suffix (rev s)) as [b [E B]]. exists (rev b). split.
  - unfold trim_right. apply (f_equal (@rev _)) in E. rewrite rev_involutive, rev_app_distr in E. exact E.
  - intros c H. apply B. now apply in_rev.
Qed.
Lemma trim_right_in s c : In c (trim_right s) -> In c s.
Proof. destruct (trim_right_prefix s) as [b [E _]]. intros H. rewrite E. apply in_or_app. now left. Qed.
Lemma trim_right_open p s : closes p s = false -> closes p (trim_right s) = false.
Proof. destruct (trim_right_prefix s) as [b [E _]]. intros H. rewrite E, closes_app in H. now apply orb_false_iff in H as [H _]. Qed.
Lemma pad_in l c : In c (pad l) -> c = sp \/ In c l.
Proof. destruct l as [|d l]; [intros []|]. cbn [pad]. destruct (Ascii.eqb d sp); [now right|]. intros [<-|H]; auto. Qed.
Lemma pad_open p l : closes false l = false -> closes p (pad l) = false.
Proof.
  destruct l as [|d l]; [reflexivity|]. cbn [pad]. destruct (Ascii.eqb_spec d sp) as [->|N].
  - cbn. now rewrite andb_false_r.
  - intros H. cbn [closes]. change (Ascii.eqb sp sl) with false. change (Ascii.eqb sp star) with false. rewrite andb_false_r. exact H.
Qed.
Lemma pad_same l : same_line (trim_right (pad l)) l.
Proof. destruct l as [|d l]; [now left|]. cbn [pad]. destruct (Ascii.eqb d sp); [now left|now right]. Qed.

Lemma blank_open p s : blank_text s -> closes p s = false.
Proof.
  revert p. induction s as [|c s IH]; intros p H; [reflexivity|]. cbn. rewrite IH by (intros x Hx; apply H; now right).
  destruct (H c (or_introl eq_refl)) as [->| ->]; now rewrite andb_false_r.
Qed.
Lemma blank_end_star s : blank_text s -> end_star false s = false.
Proof.
  induction s as [|c s IH]; intros H; [reflexivity|]. cbn.
  destruct (H c (or_introl eq_refl)) as [->| ->]; apply IH; intros x Hx; apply H; now right.
Qed.
Lemma blank_end p s : blank_text s -> s <> [] -> end_star p s = false.
Proof.
  intros H N. destruct s as [|c s]; [congruence|]. cbn.
  destruct (H c (or_introl eq_refl)) as [->| ->]; apply blank_end_star; intros x Hx; apply H; now right.
Qed.
Lemma blank_concat l : Forall blank_text l -> blank_text (concat l).
Proof. intros F c H. apply in_concat in H as (s & Hs & Hc). exact (proj1 (Forall_forall _ _) F s Hs c Hc). Qed.
Lemma indent_blank unit n : blank_text unit -> blank_text (indent_text unit n).
Proof. intros B. apply blank_concat. apply Forall_forall. intros s H. apply repeat_spec in H. now subst. Qed.
Lemma maybe_blank unit n r : blank_text unit -> blank_text (maybe_indent unit n r).
Proof. intros B. unfold maybe_indent. destruct ((n <? 0)%Z && r)%bool; now apply indent_blank. Qed.
Lemma blank_no_nl s : blank_text s -> ~ In nl s.
Proof. intros B H. destruct (B nl H); discriminate. Qed.

(** ** Line comments *)

Lemma mapi_ext_in {A B} (f g : nat -> A -> B) l : forall i, (forall j x, In x l -> f j x = g j x) -> mapi f i l = mapi g i l.
Proof. induction l as [|x l IH]; intros i H; [reflexivity|]. cbn. rewrite H by now left. f_equal. apply IH. intros; apply H; now right. Qed.

Lemma line_comments_read unit n ls : blank_text unit -> Forall (fun l => ~ In nl l) ls -> forall i,
  split_on nl (concat (mapi (line_comment unit n) i ls)) =
    mapi (fun j l => maybe_indent unit n (0 <? j) ++ b_ "//" ++ trim_right (pad l)) i ls ++ [[]].
Proof.
  intros B F. induction F as [|l ls Hl F IH]; intros i; [reflexivity|]. cbn [mapi concat app].
  unfold line_comment at 1. rewrite !app_assoc. rewrite <- (app_assoc _ [nl]). cbn [app].
  rewrite split_on_app.
  - f_equal. apply IH.
  - intros H. apply in_app_or in H as [H|H].
    + apply in_app_or in H as [H|H]; [revert H; apply blank_no_nl, maybe_blank, B|]. cbn in H. destruct H as [H|[H|[]]]; discriminate.
    + apply trim_right_in, pad_in in H as [H|H]; [discriminate|contradiction].
Qed.

(** ** Block comments *)

Definition block_body (unit : bytes) (n : Z) (ls : list bytes) : bytes :=
  [nl] ++ flat_map (block_line unit n) ls ++ maybe_indent unit n true ++ b_ " ".

Lemma block_line_open unit n l p : blank_text unit -> closes false l = false ->
  closes p (block_line unit n l) = false /\ end_star p (block_line unit n l) = false.
Proof.
  intros B H. unfold block_line. pose proof (maybe_blank unit n true B) as MB.
  rewrite !closes_app, !end_star_app. cbn [closes end_star].
  rewrite (blank_open p _ MB). cbn [orb].
  change (b_ " *") with [sp; star]. cbn [closes end_star]. change (Ascii.eqb sp sl) with false. change (Ascii.eqb star sl) with false.
  change (Ascii.eqb star star) with true. change (Ascii.eqb nl sl) with false. change (Ascii.eqb nl star) with false.
  rewrite !andb_false_r. cbn [orb].
  split; [|reflexivity]. rewrite trim_right_open by (now apply pad_open). reflexivity.
Qed.
Lemma block_body_open unit n ls : blank_text unit -> Forall (fun l => closes false l = false) ls -> closes false (block_body unit n ls) = false.
Proof.
  intros B F. unfold block_body. rewrite !closes_app. cbn [closes end_star andb orb].
  change (Ascii.eqb nl star) with false.
  assert (G : closes false (flat_map (block_line unit n) ls) = false /\ end_star false (flat_map (block_line unit n) ls) = false).
  { induction F as [|l ls Hl F IH]; [split; reflexivity|]. cbn [flat_map]. rewrite closes_app, end_star_app.
    destruct (block_line_open unit n l false B Hl) as [-> ->]. exact IH. }
  destruct G as [G1 G2]. rewrite G1, G2. cbn [orb]. pose proof (maybe_blank unit n true B) as MB. rewrite (blank_open false _ MB). cbn [orb].
  change (b_ " ") with [sp]. cbn. now rewrite andb_false_r.
Qed.
Lemma block_body_lines unit n ls : blank_text unit -> Forall (fun l => ~ In nl l) ls ->
  split_on nl (block_body unit n ls) =
    [] :: map (fun l => maybe_indent unit n true ++ b_ " *" ++ trim_right (pad l)) ls ++ [maybe_indent unit n true ++ b_ " "].
Proof.
  intros B F. unfold block_body. change ([nl] ++ ?x) with ([] ++ nl :: x). rewrite split_on_app by (intros []). f_equal.
  assert (MB := maybe_blank unit n true B).
  induction F as [|l ls Hl F IH].
  - cbn [flat_map map app]. apply split_on_no_sep. intros H. apply in_app_or in H as [H|H]; [now apply blank_no_nl in H|].
    cbn in H. destruct H as [H|[]]; discriminate.
  - cbn [flat_map map app]. rewrite <- app_assoc.
    set (X := flat_map (block_line unit n) ls ++ maybe_indent unit n true ++ b_ " ") in *.
    assert (E : block_line unit n l ++ X = (maybe_indent unit n true ++ b_ " *" ++ trim_right (pad l)) ++ nl :: X)
      by (unfold block_line; rewrite <- !app_assoc; reflexivity).
    rewrite E, split_on_app.
    + f_equal. exact IH.
    + intros H. apply in_app_or in H as [H|H].
      * now apply blank_no_nl in H.
      * apply in_app_or in H as [H|H]; [cbn in H; destruct H as [H|[H|[]]]; discriminate|].
        apply trim_right_in, pad_in in H as [H|H]; [discriminate|contradiction].
Qed.

Lemma read_block_text body t : closes false body = false -> read_block (b_ "/*" ++ body ++ close_mark ++ t) = Some (body, t).
Proof.
  intros H. unfold read_block. replace (has_prefix (b_ "/*" ++ body ++ close_mark ++ t) (b_ "/*")) with true by (symmetry; apply has_prefix_spec; eauto).
  change (skipn 2 (b_ "/*" ++ body ++ close_mark ++ t)) with (body ++ close_mark ++ t).
  rewrite index_first by exact H. f_equal. f_equal.
  - rewrite firstn_app, Nat.sub_diag, firstn_all. cbn. now rewrite app_nil_r.
  - replace (List.length body + 2) with (List.length (body ++ close_mark)) by (rewrite app_length; reflexivity).
    rewrite app_assoc, skipn_app, skipn_all, Nat.sub_diag. reflexivity.
Qed.
Lemma symmetric_open l : closes false l = false -> closes false (symmetric l) = false.
Proof.
  intros H. unfold symmetric. destruct l as [|c l]; [exact H|]. destruct (last_char (c :: l)); [|exact H].
  destruct (Ascii.eqb c sp && negb (Ascii.eqb a sp))%bool; [|exact H]. rewrite closes_app, H. cbn. now rewrite andb_false_r.
Qed.
Lemma symmetric_same l : symmetric l = l \/ symmetric l = l ++ [sp].
Proof. unfold symmetric. destruct l; [now left|]. destruct (last_char _); [|now left]. destruct (_ && _)%bool; [now right|now left]. Qed.

(** ** The whole comment *)

Definition block_style (prefer : bool) (c : bytes) (n : Z) : bool := (((n <? 0)%Z || prefer) && negb (contains_close c))%bool.

Lemma panics_iff prefer unit c newline space n force :
  print_comment prefer unit c newline space n force = Panics <-> c = [nl; nl] /\ ((n < 0)%Z \/ prefer = true).
Proof.
  destruct (list_eq_dec ascii_dec c [nl; nl]) as [->|N].
  - unfold print_comment. change (comment_lines [nl; nl]) with [@nil ascii]. change (contains_close [nl; nl]) with false. cbn [negb].
    rewrite andb_true_r. destruct (Z.ltb_spec n 0), prefer; cbn [orb]; split; try tauto; try discriminate.
    intros [_ [H0|H0]]; [lia|discriminate].
  - split; [|now intros [? _]]. intros E. exfalso. unfold print_comment in E. destruct c as [|a c]; [discriminate|].
    destruct (comment_lines (a :: c)) as [|l ls] eqn:L; [discriminate|].
    destruct (((n <? 0)%Z || prefer) && negb (contains_close (a :: c)))%bool; [|discriminate].
    destruct ls as [|l2 ls]; [|discriminate]. destruct l as [|x l]; [|discriminate]. apply lines_single_blank in L. contradiction.
Qed.

Lemma nothing_iff prefer unit c newline space n force :
  print_comment prefer unit c newline space n force = Prints [] false <-> c = [] \/ c = [nl].
Proof.
  split; [|intros [-> | ->]; reflexivity]. intros E. apply lines_none. unfold print_comment in E. destruct c as [|a c]; [reflexivity|].
  destruct (comment_lines (a :: c)) as [|l ls] eqn:L; [reflexivity|]. exfalso.
  destruct (((n <? 0)%Z || prefer) && negb (contains_close (a :: c)))%bool; [|discriminate].
  destruct ls as [|l2 ls].
  - destruct l as [|x l]; [discriminate|]. apply (f_equal (fun o => match o with Prints s _ => List.length s | Panics => 0 end)) in E.
    rewrite !app_length in E. cbn in E. lia.
  - apply (f_equal (fun o => match o with Prints s _ => List.length s | Panics => 0 end)) in E.
    unfold block_comment in E. rewrite !app_length in E. cbn in E. lia.
Qed.

Definition lead_text (s : bytes) : Prop := exists b, blank_text b /\ (s = b \/ s = nl :: b).

Lemma mapi_blank unit n (ls : list bytes) : blank_text unit -> forall i, Forall blank_text (mapi (fun j _ => maybe_indent unit n (0 <? j)) i ls).
Proof. intros B. induction ls as [|x r IH]; intros i; constructor; [now apply maybe_blank|apply IH]. Qed.
Lemma mapi_length {A C} (f : nat -> A -> C) ls : forall i, List.length (mapi f i ls) = List.length ls.
Proof. induction ls as [|x r IH]; intros i; [reflexivity|]. cbn. f_equal. apply IH. Qed.
Lemma mapi_combine unit n ls : forall i,
  mapi (fun j l => maybe_indent unit n (0 <? j) ++ b_ "//" ++ trim_right (pad l)) i ls =
  map (fun it => fst it ++ b_ "//" ++ snd it) (combine (mapi (fun j _ => maybe_indent unit n (0 <? j)) i ls) (map (fun l => trim_right (pad l)) ls)).
Proof. induction ls as [|x r IH]; intros i; [reflexivity|]. cbn [mapi map combine fst snd]. f_equal. apply IH. Qed.

Lemma line_style prefer unit c newline space n force out e : blank_text unit -> block_style prefer c n = false -> comment_lines c <> [] ->
  print_comment prefer unit c newline space n force = Prints out e ->
  e = true /\ exists pre body inds ts, out = pre ++ body /\ lead_text pre /\ Forall blank_text inds /\
    split_on nl body = map (fun it => fst it ++ b_ "//" ++ snd it) (combine inds ts) ++ [[]] /\
    List.length inds = List.length ts /\ Forall2 same_line ts (comment_lines c).
Proof.
  intros B S N E. unfold print_comment in E. destruct c as [|a c]; [now exfalso; apply N|].
  unfold block_style in S. rewrite S in E.
  remember (comment_lines (a :: c)) as ls eqn:L. destruct ls as [|l ls']; [congruence|]. rewrite L in *.
  cbv zeta in E.
  match type of E with Prints (?p ++ concat (mapi (line_comment unit ?m) 0 ?x)) _ = _ => set (pre := p) in *; set (n' := m) in *; set (ls0 := x) in * end.
  injection E as <- <-. split; [reflexivity|].
  exists pre, (concat (mapi (line_comment unit n') 0 ls0)), (mapi (fun j _ => maybe_indent unit n' (0 <? j)) 0 ls0), (map (fun l => trim_right (pad l)) ls0).
  assert (F : Forall (fun l => ~ In nl l) ls0).
  { apply Forall_forall. intros x Hx. unfold ls0 in Hx. first [rewrite <- L in Hx; apply (comment_line_free (a :: c)); now rewrite <- L | now apply (comment_line_free (a :: c))]. }
  assert (Els : ls0 = comment_lines (a :: c)) by (unfold ls0; congruence).
  split; [reflexivity|]. split; [|split; [|split; [|split]]].
  - unfold pre. match goal with |- lead_text (if ?b1 then _ else if ?b2 then _ else _) => destruct b1; [|destruct b2] end.
    + exists []. split; [intros ? []|now right].
    + exists [sp]. split; [intros x [<-|[]]; now left|now left].
    + exists []. split; [intros ? []|now left].
  - now apply mapi_blank.
  - rewrite line_comments_read by assumption. f_equal. apply mapi_combine.
  - rewrite map_length. apply mapi_length.
  - match goal with |- Forall2 _ _ ?x => replace x with ls0 by (first [reflexivity | congruence]) end.
    clear. induction ls0; constructor; [apply pad_same|assumption].
Qed.

Lemma lead_app s b : lead_text s -> blank_text b -> lead_text (s ++ b).
Proof.
  intros [b0 [B0 H]] B. exists (b0 ++ b). split.
  - intros c Hc. apply in_app_or in Hc as [Hc|Hc]; auto.
  - destruct H as [-> | ->]; [now left|now right].
Qed.

Lemma block_style_text prefer unit c newline space n force out e : blank_text unit -> block_style prefer c n = true -> comment_lines c <> [] ->
  print_comment prefer unit c newline space n force = Prints out e ->
  exists pre body t, out = pre ++ b_ "/*" ++ body ++ close_mark ++ t /\ lead_text pre /\ read_block (b_ "/*" ++ body ++ close_mark ++ t) = Some (body, t) /\
    t = (if e then [nl] else []) /\
    ((exists l, comment_lines c = [l] /\ (body = l \/ body = l ++ [sp])) \/
     (1 < List.length (comment_lines c) /\ exists ind ts, blank_text ind /\
        split_on nl body = [] :: map (fun t => ind ++ b_ " *" ++ t) ts ++ [ind ++ b_ " "] /\ Forall2 same_line ts (comment_lines c))).
Proof.
  intros B S N E. unfold print_comment in E. destruct c as [|a c]; [now exfalso; apply N|].
  unfold block_style in S. rewrite S in E. apply andb_true_iff in S as [_ S]. apply negb_true_iff in S.
  assert (FO : Forall (fun l => closes false l = false) (comment_lines (a :: c))).
  { apply Forall_forall. intros x Hx. eapply comment_line_open; eassumption. }
  assert (FN : Forall (fun l => ~ In nl l) (comment_lines (a :: c))).
  { apply Forall_forall. intros x Hx. eapply comment_line_free; eassumption. }
  destruct (comment_lines (a :: c)) as [|l ls'] eqn:L; [congruence|].
  cbv zeta in E.
  destruct ls' as [|l2 ls'].
  - destruct l as [|x l]; [discriminate|].
    match type of E with Prints (?p ++ indent_text unit ?m ++ _) _ = _ => set (pre := p) in *; set (n' := m) in * end.
    injection E as <- <-. set (l0 := x :: l) in *. inversion FO as [|? ? O _]; subst.
    exists (pre ++ indent_text unit n'), (symmetric l0), (if (0 <=? n')%Z then [nl] else []).
    assert (R := read_block_text (symmetric l0) (if (0 <=? n')%Z then [nl] else []) (symmetric_open l0 O)).
    split; [now rewrite <- app_assoc|]. split; [|split; [exact R|split; [reflexivity|left]]].
    + apply lead_app; [|now apply indent_blank].
      unfold pre. match goal with |- lead_text (if ?b1 then _ else if ?b2 then _ else _) => destruct b1; [|destruct b2] end.
      * exists []. split; [intros ? []|now right].
      * exists [sp]. split; [intros y [<-|[]]; now left|now left].
      * exists []. split; [intros ? []|now left].
    + exists l0. split; [reflexivity|]. apply symmetric_same.
  - match type of E with Prints (?p ++ block_comment unit ?m _) _ = _ => set (pre := p) in *; set (n' := m) in * end.
    injection E as <- <-. set (ls := l :: l2 :: ls') in *.
    exists (pre ++ maybe_indent unit n' false), (block_body unit n' ls), (if (0 <=? n')%Z then [nl] else []).
    assert (R := read_block_text (block_body unit n' ls) (if (0 <=? n')%Z then [nl] else []) (block_body_open unit n' ls B FO)).
    split; [|split; [|split; [exact R|split; [reflexivity|right]]]].
    + unfold block_comment, block_body. rewrite <- !app_assoc. reflexivity.
    + apply lead_app; [|now apply maybe_blank].
      unfold pre. match goal with |- lead_text (if ?b1 then _ else if ?b2 then _ else _) => destruct b1; [|destruct b2] end.
      * exists []. split; [intros ? []|now right].
      * exists [sp]. split; [intros y [<-|[]]; now left|now left].
      * exists []. split; [intros ? []|now left].
    + split; [cbn; lia|]. exists (maybe_indent unit n' true), (map (fun l => trim_right (pad l)) ls).
      split; [now apply maybe_blank|]. split.
      * rewrite block_body_lines by assumption. now rewrite map_map.
      * clear. induction ls; constructor; [apply pad_same|assumption].
Qed.
