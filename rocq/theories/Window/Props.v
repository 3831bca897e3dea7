From Coq Require Import Ascii String Sorted.
From Verif Require Import Base Strs.
From Verif.Window Require Import Model Spec Proofs.
Open Scope list_scope.

(** message M { Foo bar = 1; } in one line: the spans of its tokens *)
Definition ex_ts : list span := [(0, 7); (8, 9); (10, 11); (12, 15); (16, 19); (20, 21); (22, 23); (23, 24); (25, 26)].
Definition it (a b k : nat) := mkItem a b k.
Definition ex_tree : tree :=
  Node [it 0 0 1; it 1 1 2]
    [Leaf 0 []; Leaf 1 []; Leaf 2 [];
     Node [it 3 3 3; it 4 4 4] [Leaf 3 []; Leaf 4 []; Leaf 5 [it 5 5 5]; Leaf 6 [it 6 6 6]; Leaf 7 []];
     Leaf 8 []].
Example ex_layout : layout ex_ts.
Proof.
  split.
  - intros i s H. apply nth_error_In in H. simpl in H. repeat (destruct H as [<- | H]; [simpl; lia|]). destruct H.
  - intros i j s t L A B. assert (i < 9) by (change 9 with (List.length ex_ts); apply nth_error_Some; congruence).
    assert (j < 9) by (change 9 with (List.length ex_ts); apply nth_error_Some; congruence).
    do 9 (destruct i as [|i]; [do 9 (destruct j as [|j]; [try lia; injection A as <-; injection B as <-; simpl; lia|]); lia|]). lia.
Qed.
Example ex_file : file_tree ex_ts ex_tree.
Proof.
  split; [|split].
  - simpl. repeat split; try discriminate; repeat (apply Forall_cons || apply Forall_nil); simpl; auto 12.
  - simpl. repeat (apply SSorted_cons || apply SSorted_nil || apply Forall_cons || apply Forall_nil || lia).
  - intros t H. simpl in H. simpl. lia.
Qed.

(** * C152: semantic tokens for a part of a document *)

(** Whatever the range, nothing is reported that is not reported for the whole document, and in the same order. *)
Theorem C152_no_other ts n a b : sublist (tokens_range ts n a b) (tokens_full n).
Proof. apply range_sublist. Qed.
(** If the range begins and ends on a token, what is reported is reported of nodes with text in the range. *)
Theorem C152_near ts n a b i : layout ts -> file_tree ts n -> on_token ts a -> on_token ts b -> In i (tokens_range ts n a b) ->
  exists m, within m n /\ reports m i /\ overlaps ts a b (first m) (final m).
Proof.
  intros L (G & S & B) A E I. destruct (range_nodes _ _ _ _ I) as (m & W & R & O). exists m. split; [exact W|]. split; [exact R|].
  destruct (first_in m (tokens_some m (within_grown _ _ W G))) as [F1 F2].
  apply inside_overlap; auto; apply B; eapply within_tokens; eauto.
Qed.
(** If the range begins and ends on a token, everything that is reported for the whole document and has text in the
    range is reported, as often as there. *)
Theorem C152_all_partial ts n a b l : layout ts -> file_tree ts n -> on_token ts a -> on_token ts b ->
  (forall i, In i l -> overlaps ts a b (i_from i) (i_to i)) -> sublist l (tokens_full n) -> sublist l (tokens_range ts n a b).
Proof.
  intros L (G & S & B) A E O H.
  assert (M : forall i, In i l -> meets (token_at ts a) (token_at ts b) i = true).
  { intros i I. unfold meets. rewrite (overlap_inside ts L a b _ _ A E (O i I)). reflexivity. }
  assert (K := range_keeps (token_at ts a) (token_at ts b) n G S). unfold tokens_range, tokens_full in *.
  apply sub_filter with (f := meets (token_at ts a) (token_at ts b)). rewrite K. now apply filter_sub.
Qed.
Example C152_case : on_token ex_ts 13 /\ on_token ex_ts 17 /\
  tokens_full ex_tree = [it 0 0 1; it 1 1 2; it 3 3 3; it 4 4 4; it 5 5 5; it 6 6 6] /\
  tokens_range ex_ts ex_tree 13 17 = [it 0 0 1; it 1 1 2; it 3 3 3; it 4 4 4] /\
  tokens_range ex_ts ex_tree 0 5 = [it 0 0 1; it 1 1 2].
Proof. split; [exists (12, 15); split; [simpl; tauto|simpl; lia]|]. split; [exists (16, 19); split; [simpl; tauto|simpl; lia]|]. vm_compute. repeat split. Qed.

(** In general nothing is left out only at the start: a range that ends between tokens, as one does that ends at
    the end of a line, gives nothing at all, whatever is in it. *)
Theorem C152_end_refuted : exists ts n i a b, layout ts /\ file_tree ts n /\ In i (tokens_full n) /\ overlaps ts a b (i_from i) (i_to i) /\
  on_token ts a /\ tokens_range ts n a b = [].
Proof.
  exists ex_ts, ex_tree, (it 3 3 3), 10, 24. split; [exact ex_layout|]. split; [exact ex_file|]. split; [simpl; tauto|].
  split; [exists (12, 15), (12, 15); repeat split; simpl; lia|]. split; [exists (10, 11); split; [simpl; tauto|simpl; lia]|]. reflexivity.
Qed.
Theorem C152_end ts n a b : ~ on_token ts b -> tokens_range ts n a b = [].
Proof. intros H. unfold tokens_range. rewrite (token_at_off _ _ H). apply nothing_behind. Qed.
Example C152_end_case : ~ on_token ex_ts 24.
Proof. intros (s & I & H). simpl in I. repeat (destruct I as [<- | I]; [simpl in H; lia|]). destruct I. Qed.

(** * C153: hints for a part of a document *)

(** If the range begins and ends on a token, the hints are those of the references with text in the range: each
    for a reference in brackets to a field of one message, naming the type of the message in front of the
    closing bracket. *)
Theorem C153_hints_partial ts refs a b h : layout ts -> on_token ts a -> on_token ts b ->
  (forall r, In r refs -> r_from r < List.length ts /\ r_to r < List.length ts) ->
  In h (hints_range ts refs a b) <->
  exists r line col m, In r refs /\ overlaps ts a b (r_from r) (r_to r) /\ r_any r = false /\ r_close r = Some (line, col) /\
    r_message r = Some m /\ r_map r = false /\ r_list r = false /\ h = mkHint (line - 1) (col - 1) m.
Proof.
  intros L A B T. unfold hints_range. rewrite in_flat_map. split.
  - intros (r & R & H). destruct (outside _ _ _ _) eqn:O; [destruct H|]. unfold hint_of in H. destruct (r_any r) eqn:Y; [destruct H|].
    destruct (r_close r) as [[line col]|] eqn:C; [|destruct H]. destruct (r_message r) as [m|] eqn:M; [|destruct H].
    destruct (r_map r) eqn:MP; [destruct H|]. destruct (r_list r) eqn:LI; [destruct H|]. destruct H as [<- | []].
    exists r, line, col, m. repeat split; auto. destruct (T r R). now apply inside_overlap.
  - intros (r & line & col & m & R & O & Y & C & M & MP & LI & ->). exists r. split; [exact R|].
    rewrite (overlap_inside ts L a b _ _ A B O). unfold hint_of. rewrite Y, C, M, MP, LI. now left.
Qed.
(** in the order of the references, one for each *)
Theorem C153_once ts refs a b : sublist (hints_range ts refs a b) (flat_map hint_of refs) /\ List.length (hints_range ts refs a b) <= List.length refs.
Proof.
  unfold hints_range. induction refs as [|r refs [IH1 IH2]]; simpl; [split; [constructor|lia]|]. split.
  - apply sub_app; [|exact IH1]. destruct (outside _ _ _ _); [apply sub_none|apply sub_refl].
  - rewrite app_length. assert (List.length (if outside (token_at ts a) (token_at ts b) (r_from r) (r_to r) then [] else hint_of r) <= 1); [|lia].
    destruct (outside _ _ _ _); [simpl; lia|]. unfold hint_of. destruct (r_any r); [simpl; lia|]. destruct (r_close r) as [[x y]|]; [|simpl; lia].
    destruct (r_message r); [|simpl; lia]. destruct (_ && _)%bool; simpl; lia.
Qed.
Definition ex_ref := mkRef 3 5 false (Some (1, 21)) (Some (b_ "Foo")) false false.
Example C153_case : hints_range ex_ts [ex_ref] 0 13 = [mkHint 0 20 (b_ "Foo")] /\ hints_range ex_ts [ex_ref] 22 25 = [].
Proof. vm_compute. repeat split. Qed.
(** A range that ends between tokens gives none. *)
Theorem C153_end_refuted : exists ts refs r a b, layout ts /\ In r refs /\ overlaps ts a b (r_from r) (r_to r) /\ hint_of r <> [] /\
  hints_range ts refs a b = [].
Proof.
  exists ex_ts, [ex_ref], ex_ref, 0, 24. split; [exact ex_layout|]. split; [now left|]. split; [exists (12, 15), (20, 21); repeat split; simpl; lia|].
  split; [discriminate|reflexivity].
Qed.
Theorem C153_end ts refs a b : ~ on_token ts b -> hints_range ts refs a b = [].
Proof.
  intros H. unfold hints_range. rewrite (token_at_off _ _ H). induction refs as [|r refs IH]; simpl; [reflexivity|]. rewrite IH.
  unfold outside. replace (-1 <? Z.of_nat (r_from r))%Z with true; [reflexivity|]. symmetry. apply Z.ltb_lt. lia.
Qed.

Print Assumptions C152_no_other.
Print Assumptions C152_near.
Print Assumptions C152_all_partial.
Print Assumptions C152_end_refuted.
Print Assumptions C152_end.
Print Assumptions C153_hints_partial.
Print Assumptions C153_once.
Print Assumptions C153_end_refuted.
Print Assumptions C153_end.
