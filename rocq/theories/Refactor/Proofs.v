From Coq Require Import Ascii String Permutation.
From Verif Require Import Base Strs.
From Verif.Refactor Require Import Model Spec.
Open Scope list_scope.

Lemma mem_In x l : mem x l = true <-> In x l.
Proof. unfold mem. rewrite existsb_exists. split; [intros (y & H & E); apply beq_eq in E; now subst|intros H; exists x; now rewrite beq_refl]. Qed.
Lemma mem_false x l : mem x l = false <-> ~ In x l.
Proof. rewrite <- mem_In. destruct (mem x l); split; congruence. Qed.

(** ** unused names *)
Definition cand (p0 p : bytes) (i : nat) : bytes := match i with 0 => p0 | S _ => p ++ dec i end.

Lemma search_spec used p0 p : forall fuel i,
  (forall k, k < i -> In (cand p0 p k) used) ->
  (exists j, i <= j /\ search used p fuel (S i) (cand p0 p i) = cand p0 p j /\ (forall k, k < j -> In (cand p0 p k) used) /\
     (~ In (cand p0 p j) used \/ j = i + fuel)).
Proof.
  induction fuel as [|fuel IH]; intros i H; cbn [search].
  - exists i. split; [lia|]. split; [reflexivity|]. split; [exact H|]. right. lia.
  - destruct (mem (cand p0 p i) used) eqn:M.
    + apply mem_In in M. destruct (IH (S i)) as (j & J1 & J2 & J3 & J4).
      { intros k K. destruct (Nat.eq_dec k i) as [->|]; [exact M|apply H; lia]. }
      exists j. split; [lia|]. split; [exact J2|]. split; [exact J3|]. destruct J4 as [J4|J4]; [auto|]. right. lia.
    + apply mem_false in M. exists i. split; [lia|]. auto.
Qed.

Lemma dec_inj : forall i j, i < 100 -> j < 100 -> dec i = dec j -> i = j.
Proof.
  assert (G : NoDup (map dec (seq 0 100))).
  { assert (D : forall l : list bytes, (fix nd (l : list bytes) := match l with [] => true | x :: r => negb (mem x r) && nd r end) l = true -> NoDup l).
    { induction l as [|x l IH]; [constructor|]. intros H. apply andb_prop in H as [H1 H2]. constructor; [|auto].
      apply mem_false. now destruct (mem x l). }
    apply D. vm_compute. reflexivity. }
  intros i j Hi Hj E.
  rewrite NoDup_nth_error in G. apply G; [now rewrite map_length, seq_length|].
  rewrite !nth_error_map. rewrite !(nth_error_nth' (seq 0 100) 0) by (rewrite seq_length; lia). cbn [option_map].
  rewrite !seq_nth by lia. cbn. now rewrite E.
Qed.
Lemma dec_nonempty i : dec i <> []. Proof. unfold dec. destruct (i <? 10); discriminate. Qed.

Lemma cand_inj p0 p : (exists s, p = p0 ++ s) -> forall i j, i < 100 -> j < 100 -> cand p0 p i = cand p0 p j -> i = j.
Proof.
  intros [s ->] i j Hi Hj E.
  assert (L : forall k, k <> 0 -> p0 <> (p0 ++ s) ++ dec k).
  { intros k _ H. apply (f_equal (@List.length _)) in H. rewrite !app_length in H. pose proof (dec_nonempty k). destruct (dec k); [congruence|cbn in H; lia]. }
  destruct i as [|i], j as [|j]; [reflexivity|exfalso; now apply (L (S j))|exfalso; apply (L (S i)); [discriminate|now symmetry]|].
  cbn [cand] in E. apply app_inv_head in E. now apply dec_inj in E.
Qed.

Lemma search_used used p0 p : (exists s, p = p0 ++ s) ->
  In (search used p 99 1 p0) used -> 100 <= List.length used.
Proof.
  intros S0 H. destruct (search_spec used p0 p 99 0) as (j & _ & E & A & C); [lia|].
  cbn [cand] in E. rewrite E in H. destruct C as [C|C]; [contradiction|].
  assert (ALL : forall k, k < 100 -> In (cand p0 p k) used).
  { intros k K. destruct (Nat.eq_dec k j) as [->|]; [exact H|apply A; lia]. }
  rewrite <- (seq_length 100 0), <- (map_length (cand p0 p)). apply NoDup_incl_length.
  - apply NoDup_nth_error. intros a b Ha E'. rewrite map_length, seq_length in Ha.
    destruct (Nat.lt_ge_cases b 100) as [Hb|Hb].
    + rewrite !nth_error_map, !(nth_error_nth' (seq 0 100) 0) in E' by (rewrite seq_length; lia). cbn [option_map] in E'.
      rewrite !seq_nth in E' by lia. injection E' as E'. now apply cand_inj in E'.
    + assert (X : nth_error (map (cand p0 p) (seq 0 100)) b = None) by (apply nth_error_None; now rewrite map_length, seq_length).
      rewrite X in E'. apply nth_error_None in E'. rewrite map_length, seq_length in E'. lia.
  - intros x HX. apply in_map_iff in HX as (k & <- & K). apply in_seq in K. apply ALL. lia.
Qed.
Lemma field_prefix_ext p : exists s, field_prefix p = p ++ s.
Proof. unfold field_prefix. destruct (is_digit _); [now exists [underscore]|exists []; now rewrite app_nil_r]. Qed.

(** ** inline *)
Lemma make_fields_nums ex news : forall start, map fnum (make_fields ex news start) = seq start (List.length news).
Proof. induction news as [|f r IH]; intros start; cbn; [reflexivity|now rewrite IH]. Qed.
Lemma make_fields_length ex news start : List.length (make_fields ex news start) = List.length news.
Proof. revert start. induction news as [|f r IH]; intros start; cbn; [reflexivity|now rewrite IH]. Qed.
Lemma make_fields_names ex news : forall start, (forall f, In f news -> ~ In (fname f) ex) ->
  map fname (make_fields ex news start) = map fname news.
Proof.
  induction news as [|f r IH]; intros start H; cbn; [reflexivity|].
  assert (M : mem (fname f) ex = false) by (apply mem_false, H; now left). rewrite M, IH; [reflexivity|].
  intros g HG. apply H. now right.
Qed.
Lemma nums_app a b : nums (a ++ b) = nums a ++ nums b. Proof. apply flat_map_app. Qed.
Lemma names_app a b : names (a ++ b) = names a ++ names b. Proof. apply flat_map_app. Qed.
Lemma nums_fields fs : nums (map DField fs) = map fnum fs.
Proof. induction fs as [|f fs IH]; cbn; [reflexivity|]. fold (nums (map DField fs)). now rewrite IH. Qed.
Lemma names_fields fs : names (map DField fs) = map fname fs.
Proof. induction fs as [|f fs IH]; cbn; [reflexivity|]. fold (names (map DField fs)). now rewrite IH. Qed.

Lemma nth_split_eq {A} (l : list A) i x : nth_error l i = Some x -> l = firstn i l ++ x :: skipn (S i) l.
Proof.
  revert i. induction l as [|y l IH]; intros [|i] H; cbn in H; try discriminate; [now injection H as ->|].
  rewrite firstn_cons, skipn_cons. cbn [app]. f_equal. now apply IH.
Qed.

Lemma largest_ge ds f : In (DField f) ds -> fnum f <= largest ds.
Proof. induction ds as [|d ds IH]; [intros []|]. intros [->|H]; cbn; [lia|]. specialize (IH H). destruct d; lia. Qed.
Lemma largest_in ds : largest ds = 0 \/ exists f, In (DField f) ds /\ fnum f = largest ds.
Proof.
  induction ds as [|d ds IH]; [now left|]. assert (R : largest ds = 0 \/ exists f, In (DField f) (d :: ds) /\ fnum f = largest ds) by (destruct IH as [IH|(f & H & E)]; [now left|right; exists f; split; [now right|exact E]]).
  destruct d; cbn [largest]; try exact R. destruct (Nat.max_spec (fnum f) (largest ds)) as [[_ ->]|[_ ->]]; [exact R|right; exists f; split; [now left|reflexivity]].
Qed.
Lemma largest_highest ds n : highest ds n -> largest ds = n.
Proof.
  intros [H1 H2]. destruct (largest_in ds) as [E|(f & H & E)].
  - destruct H2 as [->|(f & H & <-)]; [exact E|]. apply largest_ge in H. lia.
  - apply H1 in H as H'. destruct H2 as [->|(g & G & <-)]; [lia|]. apply largest_ge in G. lia.
Qed.
Lemma nums_cases ds n : In n (nums ds) <-> (exists f, In (DField f) ds /\ fnum f = n) \/ In n (other_nums ds).
Proof.
  unfold other_nums, nums. rewrite !in_flat_map. split.
  - intros (d & H & N). destruct (is_plain d) eqn:P.
    + destruct d; try discriminate. destruct N as [<-|[]]. eauto.
    + right. exists d. split; [|exact N]. apply filter_In. now rewrite P.
  - intros [(f & H & <-)|(d & H & N)]; [exists (DField f); cbn; auto|]. apply filter_In in H as [H _]. eauto.
Qed.

Lemma NoDup_app_iff {A} (a b : list A) : NoDup (a ++ b) <-> NoDup a /\ NoDup b /\ forall x, In x a -> ~ In x b.
Proof.
  induction a as [|x a IH]; cbn.
  - split; [intros H; split; [constructor|]; split; [exact H|intros x []]|intros (_ & H & _); exact H].
  - rewrite !NoDup_cons_iff, IH, in_app_iff. split.
    + intros (N & A1 & A2 & A3). split; [split; [tauto|exact A1]|]. split; [exact A2|]. intros y [<-|H] HB; [tauto|]. exact (A3 y H HB).
    + intros ((N & A1) & A2 & A3). split; [intros [H|H]; [tauto|exact (A3 x (or_introl eq_refl) H)]|].
      split; [exact A1|]. split; [exact A2|]. intros y H. apply A3. now right.
Qed.

Lemma inline_some ds i news out : inline ds i news = Some out ->
  out = firstn i ds ++ map DField (make_fields (names ds) news (S (largest ds))) ++ skipn (S i) ds.
Proof. unfold inline. destruct (make_fields (names ds) news (S (largest ds))); congruence. Qed.

Lemma inline_nums ds i f news out : nth_error ds i = Some (DField f) -> inline ds i news = Some out ->
  Permutation (nums out) (nums (firstn i ds ++ skipn (S i) ds) ++ seq (S (largest ds)) (List.length news)).
Proof.
  intros HN E. apply inline_some in E as ->. rewrite !nums_app, nums_fields, make_fields_nums, <- !app_assoc. apply Permutation_app_head, Permutation_app_comm.
Qed.
Lemma inline_names ds i f news out : nth_error ds i = Some (DField f) -> inline ds i news = Some out ->
  (forall g, In g news -> ~ In (fname g) (names ds)) ->
  Permutation (names out) (names (firstn i ds ++ skipn (S i) ds) ++ map fname news).
Proof.
  intros HN E D. apply inline_some in E as ->. rewrite !names_app, names_fields, make_fields_names, <- !app_assoc by assumption. apply Permutation_app_head, Permutation_app_comm.
Qed.

Lemma drop_perm {B} (g : decl -> list B) ds i d : nth_error ds i = Some d ->
  Permutation (flat_map g ds) (g d ++ flat_map g (firstn i ds ++ skipn (S i) ds)).
Proof.
  intros H. rewrite (nth_split_eq _ _ _ H) at 1. rewrite !flat_map_app. cbn [flat_map].
  rewrite app_assoc, (Permutation_app_comm (flat_map g (firstn i ds))), <- app_assoc. reflexivity.
Qed.
Lemma other_nums_drop ds i f : nth_error ds i = Some (DField f) ->
  other_nums (firstn i ds ++ skipn (S i) ds) = other_nums ds.
Proof.
  intros H. unfold other_nums. rewrite (nth_split_eq _ _ _ H) at 3. rewrite !filter_app. cbn [filter is_plain negb]. reflexivity.
Qed.

(** ** renumber *)
Lemma renumber_nums ds : forall k, Permutation (nums (renumber ds k)) (seq k (plain_count ds) ++ other_nums ds).
Proof.
  unfold plain_count, other_nums. induction ds as [|d ds IH]; intros k; [constructor|].
  destruct d; cbn [renumber filter is_plain negb List.length seq]; unfold nums; cbn [flat_map decl_nums];
    fold (nums (renumber ds k)); try fold (nums (renumber ds (S k))).
  - cbn [app]. constructor. apply IH.
  - fold (nums (filter (fun d => negb (is_plain d)) ds)). cbn [app]. rewrite IH. apply Permutation_middle.
  - fold (nums (filter (fun d => negb (is_plain d)) ds)). cbn [app]. rewrite IH. apply Permutation_middle.
  - fold (nums (filter (fun d => negb (is_plain d)) ds)). rewrite IH. rewrite !app_assoc. apply Permutation_app_tail, Permutation_app_comm.
  - cbn [app]. apply IH.
Qed.
Lemma renumber_names ds : forall k, names (renumber ds k) = names ds.
Proof. induction ds as [|d ds IH]; intros k; [reflexivity|]. destruct d; cbn [renumber]; unfold names in *; cbn [flat_map decl_names fname]; now rewrite IH. Qed.
Lemma nums_split ds : Permutation (nums ds) (nums (filter is_plain ds) ++ other_nums ds).
Proof.
  unfold other_nums. induction ds as [|d ds IH]; [constructor|]. unfold nums in *. cbn [flat_map filter]. destruct (is_plain d); cbn [negb flat_map].
  - rewrite IH, app_assoc. reflexivity.
  - rewrite IH. rewrite !app_assoc. apply Permutation_app_tail, Permutation_app_comm.
Qed.

(** ** extract *)
Lemma extracted_nums fs : forall k, map fnum (extracted fs k) = seq k (List.length fs).
Proof. induction fs as [|f fs IH]; intros k; cbn; [reflexivity|now rewrite IH]. Qed.
Lemma extracted_names fs : forall k, map fname (extracted fs k) = map fname fs.
Proof. induction fs as [|f fs IH]; intros k; cbn; [reflexivity|now rewrite IH]. Qed.
Lemma extracted_rep fs : forall k, map frep (extracted fs k) = map frep fs.
Proof. induction fs as [|f fs IH]; intros k; cbn; [reflexivity|now rewrite IH]. Qed.

Lemma extracted_sig fs : forall k, map (fun f => (fname f, frep f)) (extracted fs k) = map (fun f => (fname f, frep f)) fs.
Proof. induction fs as [|f fs IH]; intros k; cbn; [reflexivity|now rewrite IH]. Qed.

Fixpoint kept (ds : list decl) (pos : nat) (sel : list nat) : list decl :=
  match ds with
  | [] => []
  | d :: r => if existsb (Nat.eqb pos) sel then kept r (S pos) sel else d :: kept r (S pos) sel
  end.
Fixpoint chosen (ds : list decl) (pos : nat) (sel : list nat) : list decl :=
  match ds with
  | [] => []
  | d :: r => if existsb (Nat.eqb pos) sel then d :: chosen r (S pos) sel else chosen r (S pos) sel
  end.
Lemma replace_true ds : forall pos sel new, replace_selected ds pos sel new true = kept ds pos sel.
Proof. induction ds as [|d ds IH]; intros; cbn; [reflexivity|]. destruct (existsb _ sel); [apply IH|now rewrite IH]. Qed.
Lemma replace_false ds : forall pos sel new, chosen ds pos sel <> [] ->
  exists a b, replace_selected ds pos sel new false = a ++ new :: b /\ a ++ b = kept ds pos sel.
Proof.
  induction ds as [|d ds IH]; intros pos sel new H; cbn in *; [congruence|]. destruct (existsb _ sel) eqn:E.
  - exists [], (kept ds (S pos) sel). now rewrite replace_true.
  - destruct (IH _ _ new H) as (a & b & E1 & E2). exists (d :: a), b. now rewrite E1, <- E2.
Qed.
Lemma kept_chosen ds : forall pos sel, Permutation ds (chosen ds pos sel ++ kept ds pos sel).
Proof.
  induction ds as [|d ds IH]; intros pos sel; cbn; [constructor|]. destruct (existsb _ sel); cbn [app].
  - constructor. apply IH.
  - rewrite (IH (S pos) sel) at 1. apply Permutation_middle.
Qed.

Lemma existsb_In i sel : existsb (Nat.eqb i) sel = true <-> In i sel.
Proof. rewrite existsb_exists. split; [intros (y & H & E); apply Nat.eqb_eq in E; now subst|intros H; exists i; now rewrite Nat.eqb_refl]. Qed.

Lemma chosen_one ds : forall pos sel i d, ~ In (pos + i) sel -> nth_error ds i = Some d ->
  Permutation (chosen ds pos ((pos + i) :: sel)) (d :: chosen ds pos sel).
Proof.
  induction ds as [|e ds IH]; intros pos sel i d NI N; [destruct i; discriminate|].
  destruct i as [|i]; cbn [nth_error] in N.
  - injection N as ->. rewrite Nat.add_0_r in *. cbn [chosen]. cbn [existsb]. rewrite Nat.eqb_refl. cbn [orb].
    assert (X : existsb (Nat.eqb pos) sel = false) by (destruct (existsb (Nat.eqb pos) sel) eqn:Q; [apply existsb_In in Q; contradiction|reflexivity]).
    rewrite X. constructor.
    assert (G : forall l q, pos < q -> chosen l q (pos :: sel) = chosen l q sel).
    { clear. induction l as [|x l IH]; intros q L; [reflexivity|]. cbn [chosen existsb].
      destruct (Nat.eqb_spec q pos); [lia|]. cbn [orb]. rewrite IH by lia. reflexivity. }
    rewrite G by lia. reflexivity.
  - assert (Q := IH (S pos) sel i d). replace (S pos + i) with (pos + S i) in Q by lia. specialize (Q NI N).
    cbn [chosen]. cbn [existsb]. destruct (Nat.eqb_spec pos (pos + S i)); [lia|]. cbn [orb].
    destruct (existsb (Nat.eqb pos) sel); [|exact Q]. rewrite Q. apply perm_swap.
Qed.
Lemma chosen_nil ds pos : chosen ds pos [] = [].
Proof. revert pos. induction ds as [|d ds IH]; intros; cbn; auto. Qed.
Lemma selected_chosen ds sel : NoDup sel -> (forall i, In i sel -> exists f, nth_error ds i = Some (DField f)) ->
  Permutation (map DField (selected ds sel)) (chosen ds 0 sel).
Proof.
  induction sel as [|i sel IH]; intros ND H; [now rewrite chosen_nil|]. apply NoDup_cons_iff in ND as [NI ND].
  destruct (H i ltac:(now left)) as [f Hf]. cbn [selected]. rewrite Hf. cbn [map].
  rewrite IH; [|exact ND|intros j HJ; apply H; now right]. symmetry. apply (chosen_one ds 0 sel i); assumption.
Qed.
