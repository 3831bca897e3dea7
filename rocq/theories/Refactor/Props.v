(** Property theorems for refactorings (C27-C29, C58, C59). *)
From Coq Require Import Ascii String Permutation.
From Verif Require Import Base Strs.
From Verif.Refactor Require Import Model Spec Proofs.
Open Scope list_scope.

Definition fld (n : string) (k : nat) : decl := DField (mkField (b_ n) k false).

(** C29: with fewer than 100 names in use the name found is unused. *)
Theorem C29_name_unused_partial :
  (forall used p, List.length used < 100 -> ~ In (unused_field_name used p) used) /\
  (forall msgs, List.length msgs < 100 -> ~ In (unused_message_name msgs) msgs).
Proof.
  split.
  - intros used p L H. apply search_used in H; [lia|apply field_prefix_ext].
  - intros msgs L H. apply search_used in H; [lia|]. exists []. reflexivity.
Qed.
(** The name of a field is the first that is not used, of the name itself, and the name followed by 1, 2, 3, ... *)
Theorem C29_first_unused : forall used p, List.length used < 100 ->
  exists i, unused_field_name used p = attempt p i /\ ~ In (attempt p i) used /\ forall j, j < i -> In (attempt p j) used.
Proof.
  intros used p L.
  assert (A : forall i, cand p (field_prefix p) i = attempt p i).
  { assert (D : is_digit (last p "a"%char) = existsb (Ascii.eqb (last p "a"%char)) (b_ "0123456789")) by (destruct (last p "a"%char) as [[] [] [] [] [] [] [] []]; reflexivity).
    intros [|i]; [reflexivity|]. unfold cand, attempt, field_prefix. rewrite D. destruct (existsb _ _); [now rewrite <- app_assoc|reflexivity]. }
  destruct (search_spec used p (field_prefix p) 99 0) as (j & _ & E & U & C); [lia|]. cbn [cand] in E.
  exists j. rewrite <- A. split; [exact E|]. split; [|intros k K; rewrite <- A; now apply U].
  rewrite <- E. apply (proj1 C29_name_unused_partial). exact L.
Qed.
(** Afterwards the search gives up and returns a used name ... *)
Theorem C29_search_exhausted_refuted :
  exists used p, NoDup used /\ In (unused_field_name used p) used.
Proof.
  exists (map (cand (b_ "f") (b_ "f")) (seq 0 100)), (b_ "f"). split.
  - apply NoDup_nth_error. intros a b Ha E. rewrite map_length, seq_length in Ha.
    destruct (Nat.lt_ge_cases b 100) as [Hb|Hb].
    + rewrite !nth_error_map, !(nth_error_nth' (seq 0 100) 0) in E by (rewrite seq_length; lia). cbn [option_map] in E.
      rewrite !seq_nth in E by lia. injection E as E. apply cand_inj in E; auto. exists []. reflexivity.
    + assert (X : nth_error (map (cand (b_ "f") (b_ "f")) (seq 0 100)) b = None) by (apply nth_error_None; now rewrite map_length, seq_length).
      rewrite X in E. apply nth_error_None in E. rewrite map_length, seq_length in E. lia.
  - apply mem_In. vm_compute. reflexivity.
Qed.
(** ... and names of new messages are compared with messages only: an enum of
    the scope may have the name. *)
Theorem C29_message_name_in_scope_refuted :
  exists s, List.length (declared s) = 1 /\ In (unused_message_name (messages s)) (declared s).
Proof. exists (mkScope [] [b_ "NewMessage"] []). vm_compute. auto. Qed.
Example C29_example : unused_field_name [b_ "a2"; b_ "a2_1"] (b_ "a2") = b_ "a2_2".
Proof. reflexivity. Qed.

(** C27: exactly when no field of another kind (map, group, oneof) has one of
    the numbers following the largest plain one, inlining keeps numbers distinct. *)
Theorem C27_inline_numbers_distinct_iff_partial :
  forall ds i f news out big, NoDup (nums ds) -> nth_error ds i = Some (DField f) -> inline ds i news = Some out -> highest ds big ->
  (NoDup (nums out) <-> forall n, In n (other_nums ds) -> ~ (big < n <= big + List.length news)).
Proof.
  intros ds i f news out big ND HN E HB. rewrite <- (largest_highest ds big HB). clear big HB. rewrite (inline_nums _ _ _ _ _ HN E).
  assert (R : NoDup (nums (firstn i ds ++ skipn (S i) ds))).
  { assert (P := drop_perm decl_nums ds i (DField f) HN). fold (nums ds) in P. rewrite P in ND. cbn [decl_nums app] in ND. now apply NoDup_cons_iff in ND. }
  rewrite NoDup_app_iff. split.
  - intros (_ & _ & D) n HO [L1 L2]. apply (D n).
    + apply nums_cases. right. now rewrite (other_nums_drop _ _ _ HN).
    + apply in_seq. lia.
  - intros H. split; [exact R|]. split; [apply seq_NoDup|]. intros n HI HS. apply in_seq in HS.
    apply nums_cases in HI as [(g & HG & <-)|HO].
    + assert (In (DField g) ds) by (rewrite (nth_split_eq _ _ _ HN); rewrite in_app_iff in *; cbn; tauto).
      pose proof (largest_ge _ _ H0). lia.
    + rewrite (other_nums_drop _ _ _ HN) in HO. apply (H n HO). lia.
Qed.
(** In particular for messages of plain fields. *)
Theorem C27_inline_numbers_distinct_partial :
  forall ds i f news out, all_plain ds -> NoDup (nums ds) -> nth_error ds i = Some (DField f) ->
  inline ds i news = Some out -> NoDup (nums out).
Proof.
  intros ds i f news out AP ND HN E. apply (C27_inline_numbers_distinct_iff_partial _ _ _ _ _ (largest ds) ND HN E); [split; [apply largest_ge|apply largest_in]|].
  intros n HO. exfalso. unfold other_nums, nums in HO. apply in_flat_map in HO as (d & HD & HN'). apply filter_In in HD as [HD P].
  destruct (AP d HD) as [Q|Q]; [rewrite Q in P; discriminate|rewrite Q in HN'; destruct HN'].
Qed.
(** If no inlined name is in use, names stay distinct too. *)
Theorem C27_inline_names_distinct_partial :
  forall ds i f news out, NoDup (names ds) -> NoDup (map fname news) ->
  (forall g, In g news -> ~ In (fname g) (names ds)) ->
  nth_error ds i = Some (DField f) -> inline ds i news = Some out -> NoDup (names out).
Proof.
  intros ds i f news out ND NN DJ HN E. rewrite (inline_names _ _ _ _ _ HN E DJ).
  assert (P := drop_perm decl_names ds i (DField f) HN). fold (names ds) in P. rewrite P in ND. cbn [decl_names app] in ND.
  apply NoDup_cons_iff in ND as [_ ND]. rewrite NoDup_app_iff. split; [exact ND|]. split; [exact NN|].
  intros x HX HY. apply in_map_iff in HY as (g & <- & HG). apply (DJ g HG). rewrite P. right. exact HX.
Qed.
(** With a map field numbers clash. *)
Theorem C27_inline_number_clash_refuted :
  exists ds i f news out, NoDup (nums ds) /\ nth_error ds i = Some (DField f) /\ inline ds i news = Some out /\ ~ NoDup (nums out).
Proof.
  exists [fld "a" 1; DMap (b_ "m") 2], 0, (mkField (b_ "a") 1 false), [mkField (b_ "x") 1 false]. eexists.
  split; [repeat constructor; cbn; intuition lia|]. split; [reflexivity|]. split; [reflexivity|].
  vm_compute. intros H. inversion H as [|? ? N _]; subst. apply N. now left.
Qed.
(** Renaming one inlined field can hit the name of the next one. *)
Theorem C27_inline_name_clash_refuted :
  exists ds i f news out, NoDup (names ds) /\ NoDup (map fname news) /\
    nth_error ds i = Some (DField f) /\ inline ds i news = Some out /\ ~ NoDup (names out).
Proof.
  exists [fld "a" 1; fld "b" 2], 1, (mkField (b_ "b") 2 false), [mkField (b_ "a") 1 false; mkField (b_ "a1") 2 false]. eexists.
  split; [repeat constructor; cbn; intuition discriminate|]. split; [repeat constructor; cbn; intuition discriminate|].
  split; [reflexivity|]. split; [reflexivity|].
  vm_compute. intros H. inversion H as [|? ? _ H']; subst. inversion H' as [|? ? N _]; subst. apply N. now left.
Qed.
(** Inlining an empty message panics. *)
Theorem C27_inline_empty_panics_refuted :
  forall ds i, inline ds i [] = None.
Proof. reflexivity. Qed.
(** A repeated field becomes a singular one. *)
Theorem C27_inline_keeps_cardinality_refuted :
  exists ds i f news out, nth_error ds i = Some (DField f) /\ inline ds i news = Some out /\
    (forall g, In g news -> frep g = true) /\ (forall g, In (DField g) out -> frep g = false).
Proof.
  exists [fld "a" 1], 0, (mkField (b_ "a") 1 false), [mkField (b_ "x") 1 true]. eexists.
  split; [reflexivity|]. split; [reflexivity|]. split.
  - intros g [<-|[]]. reflexivity.
  - intros g [[= <-]|[]]. reflexivity.
Qed.
Example C27_example : inline [fld "a" 1; fld "b" 5; fld "c" 3] 1 [mkField (b_ "x") 7 false; mkField (b_ "a") 9 false]
  = Some [fld "a" 1; fld "x" 6; fld "a1" 7; fld "c" 3].
Proof. reflexivity. Qed.

(** C28: after renumbering, numbers are distinct exactly when fields of other
    kinds use none of 1..n, n the number of plain fields. *)
Theorem C28_renumber_distinct_iff_partial :
  forall ds, NoDup (nums ds) ->
  (NoDup (nums (renumber ds 1)) <-> forall n, In n (other_nums ds) -> ~ (1 <= n <= plain_count ds)).
Proof.
  intros ds ND. rewrite renumber_nums, NoDup_app_iff.
  assert (O : NoDup (other_nums ds)) by (rewrite nums_split in ND; now apply NoDup_app_iff in ND as (_ & ? & _)).
  split.
  - intros (_ & _ & D) n HO HL. apply (D n); [apply in_seq; lia|exact HO].
  - intros H. split; [apply seq_NoDup|]. split; [exact O|]. intros n HS HO. apply in_seq in HS. apply (H n HO). lia.
Qed.
Theorem C28_renumber_plain_partial :
  forall ds, all_plain ds -> nums (renumber ds 1) = seq 1 (plain_count ds) /\ names (renumber ds 1) = names ds.
Proof.
  intros ds AP. split; [|apply renumber_names]. generalize 1. unfold plain_count. revert AP.
  induction ds as [|d ds IH]; intros AP k; [reflexivity|].
  assert (AP' : all_plain ds) by (intros e HE; apply AP; now right).
  destruct (AP d ltac:(now left)) as [P|P].
  - destruct d; try discriminate. cbn [renumber filter is_plain List.length seq]. unfold nums. cbn [flat_map decl_nums fnum app]. f_equal. now apply IH.
  - destruct d; cbn in P; try discriminate; cbn [renumber filter is_plain]; unfold nums; cbn [flat_map decl_nums]; rewrite ?P; cbn [app]; now apply IH.
Qed.
Theorem C28_renumber_distinct_refuted :
  exists ds, NoDup (nums ds) /\ ~ NoDup (nums (renumber ds 1)).
Proof.
  exists [fld "a" 5; DMap (b_ "m") 1]. split; [repeat constructor; cbn; intuition lia|].
  vm_compute. intros H. inversion H as [|? ? N _]; subst. apply N. now left.
Qed.
Example C28_example : renumber [fld "a" 5; DOther 0; fld "b" 9] 1 = [fld "a" 1; DOther 0; fld "b" 2].
Proof. reflexivity. Qed.

(** C58: extracting keeps everything: the field names of the parent and of the
    new message together are the old ones plus the new field's; the numbers of
    the parent stay distinct, and so do its names; the new message is numbered
    from 1 and keeps names and labels. *)
Theorem C58_extract_keeps_fields :
  forall ds sel out fs, NoDup sel -> (forall i, In i sel -> exists f, nth_error ds i = Some (DField f)) ->
  List.length (names ds) < 100 -> extract ds sel = Some (out, fs) ->
  exists n, ~ In n (names ds) /\ Permutation (names out ++ map fname fs) (n :: names ds) /\
    (NoDup (names ds) -> NoDup (names out) /\ NoDup (map fname fs)) /\
    (NoDup (nums ds) -> NoDup (nums out)) /\
    map fnum fs = seq 1 (List.length sel) /\ map (fun f => (fname f, frep f)) fs = map (fun f => (fname f, frep f)) (selected ds sel).
Proof.
  intros ds sel out fs ND SF LN E. unfold extract in E.
  assert (SC := selected_chosen ds sel ND SF).
  assert (S : exists f r, selected ds sel = f :: r) by (destruct (selected ds sel) as [|f r]; [discriminate|eauto]).
  destruct S as (f & r & S). rewrite S in E.
  set (nn := unused_field_name (names ds) (b_ "newField")) in E.
  assert (FR : ~ In nn (names ds)) by now apply C29_name_unused_partial.
  assert (E' : replace_selected ds 0 sel (DField (mkField nn (fnum f) false)) false = out /\ extracted (selected ds sel) 1 = fs) by (rewrite S; injection E as E1 E2; split; [exact E1|exact E2]).
  destruct E' as [<- <-]. exists nn.
  assert (CN : chosen ds 0 sel <> []). { intros C. rewrite C, S in SC. apply Permutation_sym, Permutation_nil in SC. discriminate. }
  destruct (replace_false ds 0 sel (DField (mkField nn (fnum f) false)) CN) as (a & b & E1 & E2).
  assert (KC := kept_chosen ds 0 sel).
  assert (PO : forall B (g : decl -> list B), Permutation (flat_map g (replace_selected ds 0 sel (DField (mkField nn (fnum f) false)) false))
             (g (DField (mkField nn (fnum f) false)) ++ flat_map g (kept ds 0 sel))).
  { intros B g. rewrite E1, <- E2, !flat_map_app. cbn [flat_map]. rewrite app_assoc, (Permutation_app_comm (flat_map g a)), <- app_assoc. reflexivity. }
  assert (PD : forall B (g : decl -> list B), Permutation (flat_map g ds) (flat_map g (map DField (selected ds sel)) ++ flat_map g (kept ds 0 sel))).
  { intros B g. rewrite <- flat_map_app. apply Permutation_flat_map. rewrite KC at 1. apply Permutation_app_tail. now symmetry. }
  assert (LS : List.length (selected ds sel) = List.length sel).
  { clear -SF. revert SF. induction sel as [|i sel IH]; intros SF; [reflexivity|]. cbn [selected]. destruct (SF i ltac:(now left)) as [g Hg]. rewrite Hg.
    cbn. f_equal. apply IH. intros j HJ. apply SF. now right. }
  assert (PN := PD bytes decl_names). assert (PM := PD nat decl_nums).
  fold (names ds) in PN. fold (names (map DField (selected ds sel))) in PN. rewrite names_fields in PN.
  fold (nums ds) in PM. fold (nums (map DField (selected ds sel))) in PM. rewrite nums_fields in PM.
  assert (QN := PO bytes decl_names). assert (QM := PO nat decl_nums). cbn [decl_names decl_nums fname fnum app] in QN, QM.
  fold (names (replace_selected ds 0 sel (DField (mkField nn (fnum f) false)) false)) in QN.
  fold (nums (replace_selected ds 0 sel (DField (mkField nn (fnum f) false)) false)) in QM.
  split; [exact FR|]. split; [|split; [|split; [|split]]].
  - rewrite QN, extracted_names. cbn [app]. constructor. rewrite PN. apply Permutation_app_comm.
  - intros NDN. rewrite PN in NDN. apply NoDup_app_iff in NDN as (N1 & N2 & N3). split.
    + rewrite QN. constructor; [|exact N2]. intros H. apply FR. rewrite PN. apply in_or_app. auto.
    + now rewrite extracted_names.
  - intros NDN. rewrite PM in NDN. rewrite S in NDN. cbn [map app] in NDN. apply NoDup_cons_iff in NDN as [N1 N2].
    rewrite QM. constructor; [intros H; apply N1; apply in_or_app; auto|]. now apply NoDup_app_iff in N2 as (_ & ? & _).
  - rewrite extracted_nums, LS. reflexivity.
  - apply extracted_sig.
Qed.
Example C58_example :
  extract [fld "a" 4; fld "b" 2; DMap (b_ "m") 3; fld "c" 9] [1; 3] =
  Some ([fld "a" 4; fld "newField" 2; DMap (b_ "m") 3], [mkField (b_ "b") 1 false; mkField (b_ "c") 2 false]).
Proof. reflexivity. Qed.

(** C59: a selection of one field is offered for extraction ... *)
Theorem C59_single_field_offered_partial :
  forall p f ps, (forall x, In x ps -> exists g, leaf x = NField g /\ inr x = false) ->
  offered (mkPath p (NField f) true :: ps) = Some (p, [f]).
Proof.
  intros p f ps H. unfold offered. cbn [gather leaf inr parent app].
  assert (G : gather ps (Some p) [f] = Some (Some p, [f])).
  { induction ps as [|x ps IH]; [reflexivity|]. cbn. destruct (H x ltac:(now left)) as (g & -> & ->). apply IH.
    intros y HY. apply H. now right. }
  now rewrite G.
Qed.
(** ... but never one of several fields of a message. *)
Theorem C59_sibling_fields_offered_refuted :
  forall m f g ps, offered (mkPath (NMsg m) (NField f) true :: mkPath (NMsg m) (NField g) true :: ps) = None.
Proof. reflexivity. Qed.
(** What is offered is a field of that parent, wholly selected. *)
Theorem C59_offered_sound :
  forall ps p fs, (forall x, In x ps -> exists m, parent x = NMsg m) -> offered ps = Some (p, fs) ->
  exists f, fs = [f] /\ In (mkPath p (NField f) true) ps.
Proof.
  intros ps p fs HM E. unfold offered in E.
  assert (G : forall ps m acc q l, gather ps (Some (NMsg m)) acc = Some (q, l) -> q = Some (NMsg m) /\ l = acc).
  { clear. induction ps as [|x ps IH]; intros m acc q l E; cbn in E; [injection E as <- <-; auto|].
    destruct (leaf x); try discriminate. destruct (inr x); [discriminate|]. eauto. }
  induction ps as [|x ps IH]; [discriminate|]. cbn [gather] in E.
  destruct (leaf x) as [|f|] eqn:L; try discriminate. destruct (inr x) eqn:R.
  - destruct (HM x ltac:(now left)) as [m Hm]. rewrite Hm in E.
    destruct (gather ps (Some (NMsg m)) ([] ++ [f])) as [[q l]|] eqn:GE; [|discriminate].
    apply G in GE as [-> ->]. cbn in E. injection E as <- <-. exists f. split; [reflexivity|]. left. destruct x; cbn in *; now subst.
  - destruct IH as (g & -> & HG); [intros y HY; apply HM; now right|exact E|]. exists g. split; [reflexivity|now right].
Qed.
Example C59_example : offered [mkPath (NMsg 0) (NField 1) false; mkPath (NMsg 0) (NField 2) true] = Some (NMsg 0, [2]).
Proof. reflexivity. Qed.

Print Assumptions C27_inline_numbers_distinct_iff_partial.
Print Assumptions C27_inline_numbers_distinct_partial.
Print Assumptions C27_inline_names_distinct_partial.
Print Assumptions C27_inline_number_clash_refuted.
Print Assumptions C27_inline_name_clash_refuted.
Print Assumptions C27_inline_empty_panics_refuted.
Print Assumptions C27_inline_keeps_cardinality_refuted.
Print Assumptions C28_renumber_distinct_iff_partial.
Print Assumptions C28_renumber_plain_partial.
Print Assumptions C28_renumber_distinct_refuted.
Print Assumptions C29_name_unused_partial.
Print Assumptions C29_first_unused.
Print Assumptions C29_search_exhausted_refuted.
Print Assumptions C29_message_name_in_scope_refuted.
Print Assumptions C58_extract_keeps_fields.
Print Assumptions C59_single_field_offered_partial.
Print Assumptions C59_sibling_fields_offered_refuted.
Print Assumptions C59_offered_sound.
