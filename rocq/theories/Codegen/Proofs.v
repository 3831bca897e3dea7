From Coq Require Import Ascii String.
From Verif Require Import Base Strs Paths.
From Verif.Codegen Require Import Model Spec.
Open Scope list_scope.

(** ** Messages *)
Lemma line_start_S x y r l : line_start (x :: y :: r) (S l) = option_map (fun o => List.length x + 1 + o) (line_start (y :: r) l).
Proof. reflexivity. Qed.
Lemma line_start_0 ls : line_start ls 0 = Some 0. Proof. now destruct ls. Qed.

Lemma line_at : forall ls l x, nth_error ls l = Some x ->
  exists pre, line_start ls l = Some (List.length pre) /\
    (S l < List.length ls -> (exists post, join_with nl ls = pre ++ x ++ nl :: post) /\
        line_start ls (S l) = Some (List.length pre + List.length x + 1)) /\
    (S l = List.length ls -> join_with nl ls = pre ++ x /\
        line_start ls (S l) = Some (List.length pre + List.length x)).
Proof.
  induction ls as [|y ls IH]; intros l x; [now destruct l|].
  destruct l as [|l].
  - intros [= ->]. exists []. split; [reflexivity|]. destruct ls as [|z ls].
    + cbn. split; [lia|]. intros _. now split.
    + split; [|cbn; lia]. intros _. split; [now exists (join_with nl (z :: ls))|].
      rewrite line_start_S, line_start_0. cbn. f_equal. lia.
  - cbn [nth_error]. intros N. destruct ls as [|z ls]; [now destruct l|].
    destruct (IH _ _ N) as (pre & E & A & B). exists (y ++ nl :: pre).
    split; [|split].
    + rewrite line_start_S, E. cbn. f_equal. rewrite app_length. cbn. lia.
    + intros L. destruct A as ((post & J) & E2); [cbn in *; lia|]. split.
      * exists post. rewrite join_cons, J by discriminate. now rewrite <- app_assoc.
      * rewrite line_start_S, E2. cbn. f_equal. rewrite app_length. cbn. lia.
    + intros L. destruct B as (J & E2); [cbn in *; lia|]. split.
      * rewrite join_cons, J by discriminate. now rewrite <- app_assoc.
      * rewrite line_start_S, E2. cbn. f_equal. rewrite app_length. cbn. lia.
Qed.
Lemma line_start_none : forall ls l, ls <> [] -> List.length ls < l -> line_start ls l = None.
Proof.
  induction ls as [|x ls IH]; intros l N L; [now elim N|]. destruct l as [|l]; [lia|].
  destruct ls as [|y ls].
  - destruct l; [cbn in L; lia|reflexivity].
  - rewrite line_start_S, IH; [reflexivity|discriminate|cbn in *; lia].
Qed.

Lemma slice_mid pre x post : slice (pre ++ x ++ post) (Z.of_nat (List.length pre)) (Z.of_nat (List.length pre + List.length x)) = Some x.
Proof.
  unfold slice.
  replace (_ && _ && _)%bool with true.
  - f_equal. replace (Z.to_nat (Z.of_nat (List.length pre + List.length x) - Z.of_nat (List.length pre))) with (List.length x) by lia.
    rewrite Nat2Z.id, skipn_app, skipn_all, Nat.sub_diag. cbn [skipn app].
    now rewrite firstn_app, firstn_all, Nat.sub_diag, firstn_O, app_nil_r.
  - symmetry. rewrite !andb_true_iff, !Z.leb_le, !app_length. lia.
Qed.

Definition cut (d : diag) (full : bytes) : bytes * bytes * bytes :=
  let n := List.length full in
  let '(a, b) := if ((n <? char1 d) || (n <? char2 d) || (char2 d <? char1 d))%bool then (0, n) else (char1 d, char2 d) in
  (firstn a full, firstn (b - a) (skipn a full), skipn b full).
Lemma cut_all d full : let '(a, b, c) := cut d full in a ++ b ++ c = full.
Proof.
  unfold cut. destruct (_ || _ || _)%bool eqn:E.
  - cbn [firstn skipn app]. now rewrite Nat.sub_0_r, firstn_skipn.
  - apply orb_false_iff in E as [_ E]. apply Nat.ltb_ge in E.
    assert (skipn (char2 d) full = skipn (char2 d - char1 d) (skipn (char1 d) full)) as ->.
    { clear - E. revert full. generalize (char1 d) (char2 d) E. clear.
      induction n as [|n IH]; intros m L full; [now rewrite Nat.sub_0_r|].
      destruct m as [|m]; [lia|]. destruct full as [|c full]; cbn [skipn]; [now rewrite !skipn_nil|].
      apply IH. lia. }
    now rewrite firstn_skipn, firstn_skipn.
Qed.

Lemma context_true d : with_context d -> ((sev d <=? 2) && negb (unnecessary d))%bool = true.
Proof. intros [L ->]. apply andb_true_iff. split; [now apply Nat.leb_le|reflexivity]. Qed.
Lemma context_false d : ~ with_context d -> ((sev d <=? 2) && negb (unnecessary d))%bool = false.
Proof.
  intros N. apply not_true_iff_false. intros E. apply N. apply andb_true_iff in E as [E F].
  split; [now apply Nat.leb_le|now apply negb_true_iff].
Qed.
Lemma context_dec d : with_context d \/ ~ with_context d.
Proof.
  unfold with_context. destruct (unnecessary d); [right; intros []; discriminate|].
  destruct (le_dec (sev d) 2); [now left|right; tauto].
Qed.

Lemma render_context content d x : single_line d -> with_context d -> nth_error (lines content) (line1 d) = Some x ->
  render content d =
    if S (line1 d) =? List.length (lines content)
    then match x with
         | [] => Panics
         | _ => Shown (mkMessage (sev d) (S (line1 d)) (text d) (Some (cut d (removelast x))))
         end
    else Shown (mkMessage (sev d) (S (line1 d)) (text d) (Some (cut d x))).
Proof.
  intros Si Cx N. destruct (line_at _ _ _ N) as (pre & E & A & B).
  unfold render. unfold single_line in Si. rewrite <- Si, Nat.eqb_refl. cbn [negb]. cbv zeta.
  change (split_on nl content) with (lines content). rewrite E, Nat.add_1_r, (context_true _ Cx). cbn [negb].
  assert (L : line1 d < List.length (lines content)) by (apply nth_error_Some; congruence).
  assert (J : join_with nl (lines content) = content) by apply join_split.
  destruct (Nat.eqb_spec (S (line1 d)) (List.length (lines content))) as [La|La].
  - destruct (B La) as (J' & ->). rewrite J in J'. destruct x as [|c x].
    + unfold slice. replace (_ && _ && _)%bool with false; [reflexivity|]. symmetry.
      rewrite !andb_false_iff, !Z.leb_gt. cbn [List.length]. lia.
    + set (y := c :: x) in *.
      assert (Y : removelast y ++ [last y c] = y) by (symmetry; now apply app_removelast_last).
      assert (LY : List.length (removelast y) + 1 = List.length y).
      { rewrite <- Y at 2. rewrite app_length. reflexivity. }
      rewrite J', <- Y at 1.
      replace (Z.of_nat (List.length pre + List.length y) - 1)%Z with (Z.of_nat (List.length pre + List.length (removelast y))) by lia.
      rewrite slice_mid. unfold cut. cbv zeta. destruct (_ || _ || _)%bool; reflexivity.
  - destruct A as ((post & J') & ->); [lia|]. rewrite J in J'. rewrite J' at 1.
    replace (Z.of_nat (List.length pre + List.length x + 1) - 1)%Z with (Z.of_nat (List.length pre + List.length x)) by lia.
    rewrite slice_mid. unfold cut. cbv zeta. destruct (_ || _ || _)%bool; reflexivity.
Qed.
Lemma render_plain content d : single_line d -> ~ with_context d -> line1 d < List.length (lines content) ->
  render content d = Shown (mkMessage (sev d) (S (line1 d)) (text d) None).
Proof.
  intros Si Cx L. destruct (nth_error (lines content) (line1 d)) as [x|] eqn:N; [|apply nth_error_None in N; lia].
  destruct (line_at _ _ _ N) as (pre & E & A & B).
  unfold render. unfold single_line in Si. rewrite <- Si, Nat.eqb_refl. cbn [negb]. cbv zeta.
  change (split_on nl content) with (lines content). rewrite E, Nat.add_1_r, (context_false _ Cx). cbn [negb].
  destruct (Nat.eq_dec (S (line1 d)) (List.length (lines content))) as [La|La].
  - destruct (B La) as (_ & ->). reflexivity.
  - destruct A as (_ & ->); [lia|]. reflexivity.
Qed.
Lemma render_outside content d : single_line d -> List.length (lines content) <= line1 d -> render content d = Fails.
Proof.
  intros Si L. unfold render. unfold single_line in Si. rewrite <- Si, Nat.eqb_refl. cbn [negb]. cbv zeta.
  change (split_on nl content) with (lines content).
  rewrite (line_start_none _ (line1 d + 1)); [now destruct (line_start _ _)|apply split_on_nonempty|lia].
Qed.
Lemma render_multi content d : ~ single_line d -> render content d = Dropped.
Proof. intros N. unfold render. apply Nat.eqb_neq in N. now rewrite N. Qed.

(** ** Source directories *)
Definition add (m : dirmap) (f : cfile) : dirmap :=
  match c_disk f with
  | Some d => fun k => if beq k (path_dir (c_path f)) then Some (path_dir d) else m k
  | None => m
  end.
Lemma source_dirs_eq fs : source_dirs fs = fold_left add fs (fun _ => None). Proof. reflexivity. Qed.
Lemma source_dirs_some fs k d : source_dirs fs k = Some d ->
  exists f x, In f fs /\ c_disk f = Some x /\ path_dir (c_path f) = k /\ d = path_dir x.
Proof.
  rewrite source_dirs_eq. induction fs as [|f fs IH] using rev_ind; [discriminate|].
  rewrite fold_left_app. cbn [fold_left]. unfold add at 1.
  assert (Old : fold_left add fs (fun _ => None) k = Some d -> exists g x, In g (fs ++ [f]) /\ c_disk g = Some x /\ path_dir (c_path g) = k /\ d = path_dir x).
  { intros H. destruct (IH H) as (g & x & I & R). exists g, x. split; [apply in_app_iff; now left|assumption]. }
  destruct (c_disk f) as [x|] eqn:D; [|exact Old].
  destruct (beq k _) eqn:B; [|exact Old]. intros [= <-]. apply beq_eq in B.
  exists f, x. split; [apply in_app_iff; right; now left|]. now repeat split.
Qed.
Lemma source_dirs_in fs f x : In f fs -> c_disk f = Some x -> exists d, source_dirs fs (path_dir (c_path f)) = Some d.
Proof.
  rewrite source_dirs_eq. induction fs as [|g fs IH] using rev_ind; [easy|].
  intros I D. rewrite fold_left_app. cbn [fold_left]. unfold add at 1.
  apply in_app_iff in I as [I|[->|[]]].
  - destruct (IH I D) as (d & E). destruct (c_disk g); [|now exists d].
    destruct (beq _ _); [eexists; reflexivity|now exists d].
  - rewrite D, beq_refl. eexists. reflexivity.
Qed.
Lemma source_dirs_place fs f x : one_place fs -> In f fs -> c_disk f = Some x ->
  source_dirs fs (path_dir (c_path f)) = Some (path_dir x).
Proof.
  intros O I D. destruct (source_dirs_in _ _ _ I D) as (d & E). rewrite E.
  destruct (source_dirs_some _ _ _ E) as (g & y & Ig & Dg & P & ->). f_equal. symmetry.
  apply (O f g x y I Ig D Dg). now symmetry.
Qed.
Lemma abs_prefix s r : has_prefix (abs (s ++ r)) (abs s) = true.
Proof.
  apply has_prefix_spec. unfold abs. destruct s as [|x s]; [now exists (join_with slash r)|].
  destruct r as [|y r]; [exists []; now rewrite !app_nil_r|].
  exists (slash :: join_with slash (y :: r)). rewrite join_app by discriminate. reflexivity.
Qed.
Lemma trim_slash_snoc s : trim_slash (s ++ [slash]) = s.
Proof. unfold trim_slash. rewrite rev_app_distr. cbn [rev app]. now rewrite Ascii.eqb_refl, rev_involutive. Qed.

(** ** Reading *)
Lemma read_all_never content sizes fuel got : read_all (read content) sizes fuel got = None.
Proof. revert got. induction fuel as [|n IH]; intros got; [reflexivity|]. cbn [read_all read]. apply IH. Qed.

(** ** Plugins *)
Section Batch.
Variable f : bytes -> bytes.
Variable cap : nat.
Hypothesis pos : 0 < cap.
Variable req : bytes.

Definition inv (s : sys pstate) : Prop :=
  match h s, pl s with
  | Writing rest, Collect got => got ++ inp s ++ rest = req /\ outp s = [] /\ closed s = false
  | Reading g, Collect got => got ++ inp s = req /\ outp s = [] /\ g = [] /\ closed s = true
  | Reading g, Emit rest => inp s = [] /\ g ++ outp s ++ rest = f req /\ closed s = true
  | Finished g, Emit [] => g = f req
  | _, _ => False
  end.
Lemma inv_start : inv (start req (Collect [])). Proof. now repeat split. Qed.
Lemma inv_step s t : inv s -> step (batch f) cap s t -> inv t.
Proof.
  intros I St. destruct St; unfold inv in *; cbn [h pl inp outp closed] in *.
  - destruct p as [got|rest]; [|contradiction]. destruct I as (E & -> & _). repeat split.
    rewrite <- E, <- !app_assoc. reflexivity.
  - destruct p as [got|rest]; [|contradiction]. discriminate.
  - destruct p as [got|rest]; [|contradiction]. destruct I as (E & -> & _). rewrite app_nil_r in E. now repeat split.
  - destruct p as [got|rest]; [destruct I as (_ & E & _); discriminate|].
    destruct I as (-> & E & ->). repeat split. rewrite <- E, <- !app_assoc. reflexivity.
  - destruct p as [got|[|b rest]]; [discriminate| |discriminate]. destruct I as (_ & E & _). now rewrite !app_nil_r in E.
  - destruct p as [got|[|b' rest]]; [|discriminate|discriminate]. injection H as <-.
    destruct hh; try contradiction.
    + destruct I as (E & -> & ->). repeat split. rewrite <- E, <- !app_assoc. reflexivity.
    + destruct I as (E & -> & -> & ->). repeat split. rewrite <- E, <- !app_assoc. reflexivity.
  - destruct p as [got|[|b' rest]]; [|discriminate|discriminate]. injection H as <-.
    destruct hh; try contradiction.
    + destruct I as (_ & _ & E). discriminate.
    + destruct I as (E & -> & -> & _). rewrite app_nil_r in E. subst got. now repeat split.
  - destruct p as [got|[|b' rest]]; [discriminate|discriminate|]. injection H as -> <-.
    destruct hh; try contradiction.
    destruct I as (-> & E & ->). repeat split. rewrite <- E, <- !app_assoc. reflexivity.
Qed.
Lemma inv_steps s t : inv s -> steps (batch f) cap s t -> inv t.
Proof. intros I St. induction St; [assumption|]. apply IHSt. eapply inv_step; eauto. Qed.

Lemma progress s : inv s -> over s \/ exists t, step (batch f) cap s t.
Proof.
  destruct s as [hh i o c p]. unfold inv, over. cbn [h pl inp outp closed].
  destruct hh as [rest|g|g|]; intros I; [| |now left|now left]; right.
  - destruct p as [got|rest']; [|contradiction]. destruct I as (E & -> & ->). destruct i as [|b i].
    + destruct rest as [|b rest].
      * eexists. apply host_close.
      * eexists. apply host_write; [exact pos|discriminate].
    + eexists. eapply plugin_read. reflexivity.
  - destruct p as [got|rest].
    + destruct I as (E & -> & -> & ->). destruct i as [|b i].
      * eexists. eapply plugin_eof. reflexivity.
      * eexists. eapply plugin_read. reflexivity.
    + destruct I as (-> & E & ->). destruct o as [|b o].
      * destruct rest as [|b rest].
        -- eexists. apply host_eof. reflexivity.
        -- eexists. eapply plugin_write; [reflexivity|exact pos].
      * eexists. apply host_read.
Qed.

Definition measure (s : sys pstate) : nat :=
  match h s with Writing r => 4 * List.length r + 4 | Reading _ => 2 | _ => 0 end +
  2 * List.length (inp s) + List.length (outp s) +
  match pl s with Collect got => 2 * List.length (f req) + 2 | Emit rest => 2 * List.length rest end.
Lemma measure_step s t : inv s -> step (batch f) cap s t -> measure t < measure s.
Proof.
  intros I St. destruct St; unfold measure; cbn [h pl inp outp closed List.length]; rewrite ?app_length; cbn [List.length];
    try lia.
  - destruct p as [got|[|b' rest]]; [|discriminate|discriminate]. injection H as <-. lia.
  - unfold inv in I. cbn [h pl inp outp closed] in I.
    destruct p as [got|[|b' rest]]; [|discriminate|discriminate]. injection H as <-.
    destruct hh; try contradiction; [destruct I as (_ & _ & E); discriminate|].
    destruct I as (E & -> & -> & _). rewrite app_nil_r in E. subst got. lia.
  - destruct p as [got|[|b' rest]]; [discriminate|discriminate|]. injection H as -> <-. cbn [List.length]. lia.
Qed.
Lemma batch_ends s : inv s -> Acc (fun t s => step (batch f) cap s t) s.
Proof.
  remember (measure s) as n eqn:E. revert s E. induction n as [n IH] using lt_wf_ind. intros s -> I.
  constructor. intros t St. apply (IH (measure t)); [now apply measure_step|reflexivity|eapply inv_step; eauto].
Qed.
End Batch.

Section Echo.
Variable cap : nat.
Lemma steps_trans {P} (prog : P -> act P) s t u : steps prog cap s t -> steps prog cap t u -> steps prog cap s u.
Proof. induction 1; [easy|]. intros. eapply steps_more; eauto. Qed.
(** the plugin fills its output *)
Lemma echo_fill : 0 < cap -> forall n o c rest, List.length o + n <= cap ->
  steps echo cap (mkSys (Writing (repeat c n ++ rest)) [] o false Wait) (mkSys (Writing rest) [] (o ++ repeat c n) false Wait).
Proof.
  intros pos. induction n as [|n IH]; intros o c rest L; [cbn; rewrite app_nil_r; apply steps_refl|].
  cbn [repeat app]. eapply steps_more; [apply host_write; [exact pos|discriminate]|].
  eapply steps_more; [eapply plugin_read; reflexivity|].
  eapply steps_more; [eapply plugin_write; [reflexivity|lia]|].
  replace (o ++ c :: repeat c n) with ((o ++ [c]) ++ repeat c n) by now rewrite <- app_assoc.
  apply IH. rewrite app_length. cbn. lia.
Qed.
(** the host fills its output *)
Lemma echo_stuff : forall n i o c rest p, p <> Stop -> List.length i + n <= cap ->
  steps echo cap (mkSys (Writing (repeat c n ++ rest)) i o false p) (mkSys (Writing rest) (i ++ repeat c n) o false p).
Proof.
  induction n as [|n IH]; intros i o c rest p Np L; [cbn; rewrite app_nil_r; apply steps_refl|].
  cbn [repeat app]. eapply steps_more; [apply host_write; [lia|destruct p; try discriminate; now elim Np]|].
  replace (i ++ c :: repeat c n) with ((i ++ [c]) ++ repeat c n) by now rewrite <- app_assoc.
  apply IH; [assumption|]. rewrite app_length. cbn. lia.
Qed.
Lemma echo_stuck b r i o c t : List.length i = cap -> List.length o = cap ->
  ~ step echo cap (mkSys (Writing (b :: r)) i o false (Send c)) t.
Proof.
  intros Li Lo St. inversion St; subst; cbn in *; try discriminate; try lia.
Qed.
Lemma echo_deadlock c : 0 < cap -> exists t,
  steps echo cap (start (repeat c (2 * cap + 2)) Wait) t /\ ~ over t /\ forall u, ~ step echo cap t u.
Proof.
  intros pos. exists (mkSys (Writing [c]) (repeat c cap) (repeat c cap) false (Send c)). split; [|split].
  - unfold start. replace (2 * cap + 2) with (cap + (1 + (cap + 1))) by lia. rewrite repeat_app.
    eapply steps_trans; [apply (echo_fill pos cap [] c); cbn; lia|]. cbn [app].
    rewrite repeat_app. cbn [repeat app]. eapply steps_more; [apply host_write; [exact pos|discriminate]|].
    eapply steps_more; [eapply plugin_read; reflexivity|].
    rewrite repeat_app. apply (echo_stuff cap [] _ c); [discriminate|cbn; lia].
  - intros H. exact H.
  - intros u. apply echo_stuck; apply repeat_length.
Qed.
End Echo.

(** ** Sources *)
Section TreeInd.
Variable Q : tree -> Prop.
Hypothesis HF : Q File.
Hypothesis HD : forall es, (forall m u, In (m, u) es -> Q u) -> Q (Dir es).
Fixpoint tree_induct (t : tree) : Q t :=
  match t with
  | File => HF
  | Dir es => HD es ((fix go l : forall m u, In (m, u) l -> Q u :=
      match l with
      | [] => fun _ _ I => match I with end
      | (m0, u0) :: r => fun m u I =>
          match I with
          | or_introl E => eq_ind u0 Q (tree_induct u0) u (f_equal snd E)
          | or_intror I' => go r m u I'
          end
      end) es)
  end.
End TreeInd.

Fixpoint entries (path : list bytes) (l : list (bytes * tree)) : list (list bytes) :=
  match l with
  | [] => []
  | (m, u) :: r => fst (walk path m u) ++ (if snd (walk path m u) then [] else entries path r)
  end.
Lemma walk_dir path n es : walk path n (Dir es) = (if skip_name n then [] else entries (path ++ [n]) es, false).
Proof.
  cbn [walk]. destruct (skip_name n); [reflexivity|]. f_equal.
  induction es as [|[m u] r IH]; [reflexivity|]. cbn [entries]. rewrite <- IH.
  destruct (walk (path ++ [n]) m u). reflexivity.
Qed.
Lemma walk_skips path m u : snd (walk path m u) = true <-> (m, u) = (marker, File).
Proof.
  destruct u as [|es].
  - cbn [walk]. destruct (is_proto m) eqn:P; cbn [snd].
    + split; [discriminate|]. intros [= ->]. vm_compute in P. discriminate.
    + rewrite beq_eq. split; [now intros ->|now intros [= ->]].
  - rewrite walk_dir. cbn [snd]. split; [discriminate|intros [= ]].
Qed.
Lemma entries_in path q : forall l, In q (entries path l) <->
  exists l1 m u l2, l = l1 ++ (m, u) :: l2 /\ ~ In (marker, File) l1 /\ In q (fst (walk path m u)).
Proof.
  induction l as [|[m u] r IH]; cbn [entries].
  - split; [easy|]. intros (l1 & ? & ? & ? & E & _). now destruct l1.
  - rewrite in_app_iff. split.
    + intros [I|I].
      * exists [], m, u, r. split; [reflexivity|]. split; [easy|assumption].
      * destruct (snd (walk path m u)) eqn:S; [easy|]. apply IH in I as (l1 & m' & u' & l2 & -> & N & I).
        exists ((m, u) :: l1), m', u', l2. split; [reflexivity|]. split; [|assumption].
        intros [E|E]; [|contradiction]. apply walk_skips with (path := path) in E. congruence.
    + intros ([|e l1] & m' & u' & l2 & E & N & I).
      * injection E as -> -> ->. now left.
      * injection E as <- ->. right. destruct (snd (walk path m u)) eqn:S.
        -- apply walk_skips in S. elim N. now left.
        -- apply IH. exists l1, m', u', l2. split; [reflexivity|]. split; [|assumption]. intros J. apply N. now right.
Qed.
Lemma proto_name_iff n : is_proto n = true <-> proto_name n.
Proof. apply has_suffix_spec. Qed.
Lemma special_iff n : skip_name n = true <-> special n.
Proof.
  unfold skip_name, special. rewrite !orb_true_iff, !beq_eq, has_prefix_spec. tauto.
Qed.
Lemma walk_exact t : forall path n q, In q (fst (walk path n t)) <-> exists p, q = path ++ p /\ visible n t p.
Proof.
  induction t as [|es IH] using tree_induct; intros path n q.
  - cbn [walk]. destruct (is_proto n) eqn:P; cbn [fst].
    + split.
      * intros [<-|[]]. exists [n]. split; [reflexivity|]. constructor. now apply proto_name_iff.
      * intros (p & -> & V). inversion V. now left.
    + split; [easy|]. intros (p & -> & V). inversion V as [? H|]. apply proto_name_iff in H. congruence.
  - rewrite walk_dir. cbn [fst]. destruct (skip_name n) eqn:S.
    + split; [easy|]. intros (p & -> & V). inversion V as [|? ? ? ? ? ? H]. apply special_iff in S. contradiction.
    + assert (NS : ~ special n) by (rewrite <- special_iff; congruence). rewrite entries_in. split.
      * intros (l1 & m & u & l2 & -> & N & I). 
        assert (Im : In (m, u) (l1 ++ (m, u) :: l2)) by (apply in_app_iff; right; now left).
        apply (IH m u Im) in I as (p & -> & V).
        exists (n :: p). split; [now rewrite <- app_assoc|]. now constructor.
      * intros (p & -> & V). inversion V as [|? es1 m u es2 p' Sn N V']; subst.
        exists es1, m, u, es2. split; [reflexivity|]. split; [assumption|].
        assert (Im : In (m, u) (es1 ++ (m, u) :: es2)) by (apply in_app_iff; right; now left).
        apply (IH m u Im). exists p'. split; [now rewrite <- app_assoc|assumption].
Qed.
Lemma visible_source n t p : visible n t p -> source n t p.
Proof.
  induction 1; [now constructor|]. econstructor; eauto. apply in_app_iff. right. now left.
Qed.
Lemma source_visible t : unmarked t -> forall n p, source n t p -> visible n t p.
Proof.
  induction 1 as [|es N _ IH]; intros n p S; inversion S as [|? ? m u p' Sn I S']; subst; [now constructor|].
  specialize (IH m u I). apply in_split in I as (a & b & ->).
  constructor; [assumption| |now apply IH]. intros J. apply N. apply in_app_iff. now left.
Qed.
Lemma visible_head n t p : visible n t p -> exists r, p = n :: r.
Proof. now inversion 1; eexists. Qed.

Lemma NoDup_app_intro {A} (a b : list A) : NoDup a -> NoDup b -> (forall x, In x a -> ~ In x b) -> NoDup (a ++ b).
Proof.
  induction 1 as [|x a Hx Ha IH]; intros Hb D; [assumption|]. cbn. constructor.
  - rewrite in_app_iff. intros [I|I]; [contradiction|]. apply (D x); [now left|assumption].
  - apply IH; [assumption|]. intros y I. apply D. now right.
Qed.
Lemma walk_once t : distinct t -> forall path n, NoDup (fst (walk path n t)).
Proof.
  induction 1 as [|es ND _ IH]; intros path n.
  - cbn [walk]. destruct (is_proto n); cbn [fst]; repeat constructor. easy.
  - rewrite walk_dir. cbn [fst]. destruct (skip_name n); [constructor|].
    set (q := path ++ [n]). clearbody q. induction es as [|[m u] r IHr]; [constructor|]. cbn [entries].
    inversion ND as [|? ? Hm Hr]; subst. apply NoDup_app_intro.
    + apply (IH m u). now left.
    + destruct (snd _); [constructor|]. apply IHr; [assumption|]. intros m' u' I. apply (IH m' u'). now right.
    + destruct (snd _); [easy|]. intros x I J. apply walk_exact in I as (p & -> & V).
      apply entries_in in J as (l1 & m' & u' & l2 & -> & _ & J). apply walk_exact in J as (p' & E & V').
      apply app_inv_head in E. subst p'. apply visible_head in V as (a & ->). apply visible_head in V' as (a' & E').
      injection E' as <- _. apply Hm. rewrite map_app. apply in_app_iff. right. now left.
Qed.

Lemma from_first_some sub s r : from_first sub s = Some r -> exists a b, s = a ++ sub ++ b /\ r = sub ++ b /\
  forall a' b', s = a' ++ sub ++ b' -> List.length a <= List.length a'.
Proof.
  induction s as [|c s IH]; cbn [from_first]; (destruct (has_prefix _ _) eqn:P; [apply has_prefix_spec in P as (b & P); intro E; injection E as <-; exists [], b; cbn; repeat split; [exact P|exact P|lia]|]).
  - discriminate.
  - intro E. destruct (IH E) as (a & b & -> & -> & F). exists (c :: a), b. repeat split. intros [|x a'] b' Q.
    + exfalso. assert (H : has_prefix (c :: a ++ sub ++ b) sub = true) by (apply has_prefix_spec; exists b'; exact Q). congruence.
    + injection Q as _ Q. apply F in Q. cbn. lia.
Qed.
Lemma from_first_none sub s : from_first sub s = None -> forall a b, s <> a ++ sub ++ b.
Proof.
  induction s as [|c s IH]; cbn [from_first]; (destruct (has_prefix _ _) eqn:P; [discriminate|]); intros E a b Q.
  - destruct a; [|discriminate]. assert (H : has_prefix [] sub = true) by (apply has_prefix_spec; exists b; exact Q). congruence.
  - destruct a as [|x a]; [|injection Q as _ Q; exact (IH E a b Q)]. assert (H : has_prefix (c :: s) sub = true) by (apply has_prefix_spec; exists b; exact Q). congruence.
Qed.
