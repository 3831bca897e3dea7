From Coq Require Import Ascii String Permutation.
From Verif Require Import Base Strs.
From Verif.Completion Require Import Model Spec Proofs.
From Verif.Types Require Import Model Spec.
Open Scope list_scope.

Lemma contains_dot_spec s : contains_dot s = true <-> In "."%char s.
Proof. unfold contains_dot. rewrite existsb_exists. split; [intros (x & H & E); apply Ascii.eqb_eq in E; now subst|intros H; exists "."%char; auto]. Qed.
Lemma by_prefix_in keep f p d : In d (by_prefix keep f p) <-> In d (f_descs f) /\ begins (d_name d) p /\ keep d = true.
Proof. unfold by_prefix, begins. rewrite filter_In, andb_true_iff, has_prefix_spec. tauto. Qed.
Lemma find_relative_in keep fs p d : In d (find_relative keep fs p) <->
  exists f, packaged fs f d /\ begins (d_name d) (f_pkg f ++ dot :: p) /\ keep d = true.
Proof.
  unfold find_relative, packaged. rewrite in_flat_map. split.
  - intros (f & Hf & H). destruct (f_pkg f) as [|c k] eqn:E; [contradiction|]. apply by_prefix_in in H as (A & B & C). exists f. rewrite E. repeat split; auto. discriminate.
  - intros (f & (Hf & Hk & Hn) & B & C). exists f. split; [exact Hf|]. destruct (f_pkg f) as [|c k]; [congruence|]. now apply by_prefix_in.
Qed.
Lemma find_qualified_in keep fs p d : has_prefix p [dot] = false -> (In d (find_qualified keep fs p) <->
  exists f, packaged fs f d /\ begins (d_name d) p /\ keep d = true).
Proof.
  intros N. unfold find_qualified, packaged. rewrite N, in_flat_map. cbn [andb]. split.
  - intros (f & Hf & H). destruct (f_pkg f) as [|c k] eqn:E; [contradiction|]. apply by_prefix_in in H as (A & B & C). exists f. rewrite E. repeat split; auto. discriminate.
  - intros (f & (Hf & Hk & Hn) & B & C). exists f. split; [exact Hf|]. destruct (f_pkg f) as [|c k]; [congruence|]. now apply by_prefix_in.
Qed.
Lemma find_full_in keep fs p d : In d (find_qualified keep fs (dot :: p)) <->
  exists f, packaged fs f d /\ begins (d_name d) p /\ begins (f_pkg f) p /\ keep d = true.
Proof.
  unfold find_qualified, packaged, begins. cbn [has_prefix tl]. rewrite Ascii.eqb_refl, ?has_prefix_nil, in_flat_map. cbn [andb]. split.
  - intros (f & Hf & H). destruct (f_pkg f) as [|c k] eqn:E; [contradiction|]. rewrite <- E in H. destruct (has_prefix (f_pkg f) p) eqn:P; cbn in H; [|contradiction]. apply by_prefix_in in H as (A & B & C). apply has_prefix_spec in P. exists f. repeat split; auto. rewrite E. discriminate.
  - intros (f & (Hf & Hk & Hn) & B & P & C). exists f. split; [exact Hf|]. apply has_prefix_spec in P. destruct (f_pkg f) as [|c k] eqn:E; [congruence|]. rewrite P. now apply by_prefix_in.
Qed.
Lemma find_all_in keep fs p d : In d (find_all keep fs p) <-> sought fs p d /\ keep d = true.
Proof.
  unfold find_all, sought. destruct (contains_dot p) eqn:C.
  - apply contains_dot_spec in C as D. destruct (has_prefix p [dot]) eqn:L.
    + destruct p as [|c q]; [easy|]. apply has_prefix_spec in L as (r & E). injection E as -> ->. rewrite find_full_in. split.
      * intros (f & A & B & P & K). split; [|exact K]. exists f. split; [exact A|]. right. right. now exists r.
      * intros [(f & A & [[N _]|[[_ [N _]]|(p & E & B & P)]]) K]; [contradiction|exfalso; apply N; now exists r|]. injection E as ->. exists f. auto.
    + rewrite find_qualified_in by exact L. assert (N : ~ begins p (b_ ".")) by (intros H; apply has_prefix_spec in H; change (b_ ".") with [dot] in H; congruence). split.
      * intros (f & A & B & K). split; [|exact K]. exists f. split; [exact A|]. right. left. auto.
      * intros [(f & A & [[M _]|[[_ [_ B]]|(q & E & _)]]) K]; [contradiction|eauto|]. exfalso. apply N. now exists q.
  - assert (D : ~ In "."%char p) by (rewrite <- contains_dot_spec; congruence). rewrite find_relative_in. split.
    + intros (f & A & B & K). split; [|exact K]. exists f. split; [exact A|]. left. auto.
    + intros [(f & A & [[_ B]|[[M _]|(q & E & _)]]) K]; [now exists f|contradiction|]. exfalso. apply D. rewrite E. now left.
Qed.
Lemma is_type_spec d : is_type d = true <-> usable d.
Proof.
  unfold is_type, usable. destruct (d_kind d) as [e r| |]; split; try easy; auto.
  - destruct e; [discriminate|]. intros _. right. now exists r.
  - intros [H|(q & H)]; [discriminate|injection H as -> _; reflexivity].
  - intros [H|(q & H)]; discriminate.
Qed.
Lemma is_extendable_spec d : is_extendable d = true <-> extendable d.
Proof. unfold is_extendable, extendable. destruct (d_kind d) as [[] []| |]; cbn; split; congruence. Qed.

Lemma from_list_in order cs p pkg i : (forall l, Permutation (order l) l) ->
  (In i (from_list order cs p pkg) <-> In (t_desc i) cs /\ t_label i = type_label p pkg (d_name (t_desc i)) /\ t_text i = t_label i /\
     match d_kind (t_desc i) with KMessage _ _ => t_shown i = AsClass | KEnum => t_shown i = AsEnum | KOther => False end).
Proof.
  intros O. unfold from_list. rewrite in_flat_map. split.
  - intros (d & H & E). apply (Permutation_in _ (O cs)) in H. destruct (d_kind d) eqn:K; destruct E as [<-|[]] || destruct E; cbn [t_desc t_label t_text t_shown]; rewrite K; auto.
  - destruct i as [l s t d]. cbn [t_desc t_label t_text t_shown]. intros (H & -> & -> & K). exists d. split; [now apply (Permutation_in _ (Permutation_sym (O cs)))|]. destruct (d_kind d); subst; try easy; now left.
Qed.
Lemma offered_in order cs p pkg d : (forall l, Permutation (order l) l) ->
  (offered (from_list order cs p pkg) d <-> In d cs /\ d_kind d <> KOther).
Proof.
  intros O. unfold offered. split.
  - intros (i & H & <-). apply from_list_in in H as (A & _ & _ & K); [|exact O]. split; [exact A|]. intros E. now rewrite E in K.
  - intros [H K]. destruct (d_kind d) as [e r| |] eqn:D; [| |congruence];
      [exists (mkTitem (type_label p pkg (d_name d)) AsClass (type_label p pkg (d_name d)) d)|exists (mkTitem (type_label p pkg (d_name d)) AsEnum (type_label p pkg (d_name d)) d)];
      (split; [|reflexivity]); apply from_list_in; auto; cbn [t_desc t_label t_text t_shown]; rewrite D; auto.
Qed.

(** ** Names *)
Lemma part_nodot T : parts T -> forall w, In w T -> ~ In "."%char w.
Proof. unfold parts. rewrite Forall_forall. intros H w I. now apply H. Qed.
Lemma split_dotted T : parts T -> T <> [] -> split_on "."%char (dotted T) = T.
Proof. intros P N. apply split_join; [exact N|now apply part_nodot]. Qed.
Lemma dotted_first T : parts T -> T <> [] -> exists c r, dotted T = c :: r /\ Ascii.eqb c "."%char = false.
Proof.
  intros P N. destruct T as [|t T]; [easy|]. destruct (dotted_head t T) as (a & -> & _). apply Forall_inv in P as [P1 P2]. destruct t as [|c t]; [easy|].
  exists c, (t ++ a). split; [reflexivity|]. apply Ascii.eqb_neq. intros ->. apply P2. now left.
Qed.
Lemma means_dotted declared F T U : parts U -> U <> [] -> (means declared F (dotted U) T <-> resolve declared (rev F) U = Some T).
Proof.
  intros P N. unfold means. destruct (dotted_first U P N) as (c & r & E & D). rewrite E, D, <- E, split_dotted by assumption. reflexivity.
Qed.
Lemma type_label_full p pkg n : contains_dot p = true -> has_prefix p [dot] = false -> type_label p pkg n = n.
Proof. intros C D. unfold type_label. change (existsb (Ascii.eqb dot) p) with (contains_dot p). rewrite C, D. cbn [app]. unfold trim_prefix. rewrite has_prefix_nil. reflexivity. Qed.
Lemma type_label_absolute p pkg n : type_label (dot :: p) pkg n = dot :: n.
Proof. unfold type_label. cbn [existsb has_prefix]. rewrite Ascii.eqb_refl. cbn [orb andb app]. rewrite has_prefix_nil. unfold trim_prefix. rewrite has_prefix_nil. reflexivity. Qed.
Lemma type_label_short p pkg n : contains_dot p = false -> type_label p pkg n = if has_prefix n (pkg ++ [dot]) then skipn (List.length (pkg ++ [dot])) n else n.
Proof.
  intros C. unfold type_label. change (existsb (Ascii.eqb dot) p) with (contains_dot p). rewrite C. assert (D : has_prefix p [dot] = false).
  { apply not_true_is_false. intros H. apply has_prefix_spec in H as (r & ->). discriminate C. } rewrite D. reflexivity.
Qed.
Lemma dotted_prefix P T : parts P -> P <> [] -> parts T -> (has_prefix (dotted T) (dotted P ++ [dot]) = true <-> exists R, R <> [] /\ T = P ++ R).
Proof.
  intros HP NP HT. rewrite has_prefix_spec. split.
  - intros (r & E). exists (split_on dot r). split; [apply split_on_nonempty|].
    assert (N : T <> []) by (intros ->; destruct (dotted P); discriminate).
    assert (X : split_on dot (dotted T) = P ++ split_on dot r); [|now rewrite split_dotted in X].
    rewrite E, <- app_assoc. cbn [app]. clear E HT N. induction HP as [|w P [W1 W2] HP IH]; [easy|]. destruct P as [|w2 P].
    + cbn [dotted join_with app]. unfold dotted. cbn [join_with]. now rewrite split_on_app.
    + rewrite dotted_cons by discriminate. rewrite <- app_assoc. cbn [app]. rewrite split_on_app by exact W2. cbn [app]. f_equal. now apply IH.
  - intros (R & NR & ->). exists (dotted R). rewrite dotted_app by assumption. now rewrite <- app_assoc.
Qed.

(** ** Scopes *)
Lemma resolve_some declared : forall rs h r T, resolve declared rs (h :: r) = Some T -> exists S rest, rev rs = S ++ rest /\ T = S ++ h :: r /\ In (S ++ [h]) declared.
Proof.
  induction rs as [|x rs IH]; intros h r T; cbn [resolve]; destruct (existsb _ declared) eqn:E.
  1, 3: intros H; injection H as <-; apply existsb_exists in E as (d & Hd & E); destruct (list_eq_dec _ d _) as [->|]; [|discriminate]; eexists; exists []; rewrite app_nil_r; auto.
  - discriminate.
  - intros H. apply IH in H as (S & rest & A & B & C). exists S, (rest ++ [x]). cbn [rev]. rewrite A, app_assoc. auto.
Qed.
Lemma resolve_step declared rs h r : resolve declared rs (h :: r) =
  if existsb (fun d => if list_eq_dec (list_eq_dec ascii_dec) d (rev rs ++ [h]) then true else false) declared then Some (rev rs ++ h :: r)
  else match rs with [] => None | _ :: outer => resolve declared outer (h :: r) end.
Proof. destruct rs; reflexivity. Qed.
Lemma resolve_here declared B h r : In (B ++ [h]) declared -> forall X, ~ captured declared (B ++ X) B h -> resolve declared (rev (B ++ X)) (h :: r) = Some (B ++ h :: r).
Proof.
  intros D. induction X as [|x X IH] using rev_ind; intros C.
  - rewrite app_nil_r, resolve_step, rev_involutive.
    replace (existsb _ declared) with true; [reflexivity|]. symmetry. apply existsb_exists. exists (B ++ [h]). split; [exact D|destruct (list_eq_dec _ _ _); congruence].
  - rewrite app_assoc, rev_app_distr, resolve_step. cbn [rev app]. rewrite rev_involutive.
    destruct (existsb _ declared) eqn:E.
    + apply existsb_exists in E as (d & Hd & E). destruct (list_eq_dec _ d _) as [->|]; [|discriminate]. exfalso. apply C. exists (B ++ X ++ [x]), []. rewrite app_nil_r. split; [reflexivity|]. rewrite !app_length. cbn. split; [lia|]. now rewrite <- !app_assoc in Hd |- *.
    + apply IH. intros (S & rest & A & L & I). apply C. exists S, (rest ++ [x]). rewrite app_assoc, A, app_assoc. auto.
Qed.
Lemma resolve_captured declared : forall rs B h r T, captured declared (rev rs) B h -> resolve declared rs (h :: r) = Some T -> List.length B + List.length (h :: r) < List.length T.
Proof.
  induction rs as [|x rs IH]; intros B h r T (S & rest & A & L & I).
  - cbn in A. symmetry in A. apply app_eq_nil in A as [-> _]. cbn in L. lia.
  - cbn [resolve]. destruct (existsb _ declared) eqn:E.
    + intros H. injection H as <-. assert (Q := f_equal (@List.length _) A). rewrite (app_length S rest) in Q. cbn [rev] in Q. rewrite app_length. lia.
    + apply IH. destruct rest as [|y rest _] using rev_ind.
      * rewrite app_nil_r in A. subst S. exfalso. assert (Z : existsb (fun d => if list_eq_dec (list_eq_dec ascii_dec) d (rev (x :: rs) ++ [h]) then true else false) declared = true); [|congruence].
        apply existsb_exists. exists (rev (x :: rs) ++ [h]). split; [exact I|destruct (list_eq_dec _ _ _); congruence].
      * cbn [rev] in A. rewrite app_assoc in A. apply app_inj_tail in A as [A _]. exists S, rest. auto.
Qed.
Lemma resolve_iff declared F B X h r : F = B ++ X -> In (B ++ [h]) declared ->
  (resolve declared (rev F) (h :: r) = Some (B ++ h :: r) <-> ~ captured declared F B h).
Proof.
  intros -> D. split; [|now apply resolve_here]. intros H C. rewrite <- (rev_involutive (B ++ X)) in C. apply (resolve_captured _ _ _ _ r _ C) in H. rewrite app_length in H. lia.
Qed.
Lemma means_iff declared F B X R T : closed declared -> F = B ++ X -> parts R -> R <> [] -> T = B ++ R -> In T declared ->
  (means declared F (dotted R) T <-> ~ captured declared F B (hd [] R)).
Proof.
  intros C E P N -> I. rewrite means_dotted by assumption. destruct R as [|h r]; [easy|]. cbn [hd]. apply (resolve_iff declared F B X); [exact E|]. apply (C (B ++ [h]) r); [now destruct B|]. now rewrite <- app_assoc.
Qed.

(** ** No doubles *)
Lemma filter_none {A} (l : list A) : filter (fun _ => false) l = [].
Proof. induction l; auto. Qed.
Lemma nodup_app {Y} (a b : list Y) : NoDup (a ++ b) <-> NoDup a /\ NoDup b /\ (forall x, In x a -> ~ In x b).
Proof.
  induction a as [|x a IH]; cbn; [split; [intros; repeat split; auto using NoDup_nil|tauto]|]. rewrite !NoDup_cons_iff, IH, in_app_iff. split.
  - intros (N & A & B & C). repeat split; auto. intros y [<-|Hy]; [tauto|now apply C].
  - intros ((N & A) & B & C). repeat split; auto. intros [X|X]; [tauto|]. now apply (C x (or_introl eq_refl)).
Qed.
Lemma filtered_nodup (g : file -> list desc) fs : NoDup (flat_map f_descs fs) -> (forall f, exists k, g f = filter k (f_descs f)) -> NoDup (flat_map g fs).
Proof.
  intros N G. induction fs as [|f fs IH]; [constructor|]. cbn in *. apply nodup_app in N as (A & B & C). apply nodup_app. destruct (G f) as [k K]. repeat split.
  - rewrite K. now apply NoDup_filter.
  - now apply IH.
  - intros x X Y. rewrite K in X. apply filter_In in X as [X _]. apply (C x X). apply in_flat_map in Y as (f2 & F2 & Y). destruct (G f2) as [k2 K2]. rewrite K2 in Y. apply filter_In in Y as [Y _]. apply in_flat_map. eauto.
Qed.
Lemma items_nodup p pkg l : NoDup l -> NoDup (flat_map (fun d => let l := type_label p pkg (d_name d) in
    match d_kind d with KMessage _ _ => [mkTitem l AsClass l d] | KEnum => [mkTitem l AsEnum l d] | KOther => [] end) l).
Proof.
  induction 1 as [|d l N D IH]; [constructor|]. cbn [flat_map]. apply nodup_app. repeat split; [|exact IH|].
  - destruct (d_kind d); repeat constructor; auto.
  - intros x X Y. apply in_flat_map in Y as (e & E & Y). assert (t_desc x = d) by (destruct (d_kind d); destruct X as [<-|[]] || destruct X; reflexivity). assert (t_desc x = e) by (destruct (d_kind e); destruct Y as [<-|[]] || destruct Y; reflexivity). congruence.
Qed.
