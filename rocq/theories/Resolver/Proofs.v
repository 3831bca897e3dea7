(** Proofs for the resolver. *)
From Coq Require Import Ascii String NArith.
From Verif Require Import Base Strs Paths.
From Verif.Resolver Require Import Model Spec.
Open Scope list_scope.

Lemma bset_same {A} (m : bytes -> option A) k v : bset m k v k = v.
Proof. unfold bset. now rewrite beq_refl. Qed.
Lemma bset_other {A} (m : bytes -> option A) k v k' : k' <> k -> bset m k v k' = m k'.
Proof. intro H. unfold bset. now rewrite (proj2 (beq_neq k' k) H). Qed.
Lemma bset_inv {A} (m : bytes -> option A) k v k' x : bset m k v k' = x -> (k' = k /\ v = x) \/ (k' <> k /\ m k' = x).
Proof. unfold bset. destruct (beq k' k) eqn:E; intro H; [left|right]; split; auto; [now apply beq_eq|now apply beq_neq]. Qed.

Lemma strip_semi_id p : ~ In semi p -> strip_semi p = p.
Proof.
  induction p as [|c r IH]; intro H; [reflexivity|]. cbn [strip_semi].
  destruct (Ascii.eqb_spec c semi) as [->|N]; [elim H; now left|]. rewrite IH; [reflexivity|]. intro X. apply H. now right.
Qed.

(** ** C37 *)
Record inv (m : maps) : Prop := mkInv {
  inv_pu : forall u p, paths m u = Some p -> uris m p = Some u;
  inv_up : forall u p, uris m p = Some u -> paths m u = Some p;
  inv_ok : forall u p, paths m u = Some p -> p <> [] /\ ~ In semi p
}.
Lemma inv_inverse m : inv m -> inverse m.
Proof.
  intros [A B C]. unfold inverse, path_to_uri, uri_to_path. split.
  - intros u p H. destruct (C u p H) as [_ N]. rewrite strip_semi_id by exact N. auto.
  - intros p u N H. rewrite strip_semi_id in H by exact N. auto.
Qed.
Lemma inv_init : inv init.
Proof. split; cbn; discriminate. Qed.
Lemma inv_ext m m' : (forall u, paths m' u = paths m u) -> (forall p, uris m' p = uris m p) -> inv m -> inv m'.
Proof. intros H1 H2 [A B C]. split; intros u p; rewrite ?H1, ?H2; eauto. Qed.

Lemma inv_bind m u p s : inv m -> p <> [] -> ~ In semi p -> (uris m p = None \/ uris m p = Some u) ->
  (paths m u = None \/ paths m u = Some p) -> inv (bind m u p s).
Proof.
  intros [A B C] Hne Hs HU HP. split; cbn [bind paths uris].
  - intros u' p' H. apply bset_inv in H. destruct H as [[-> [= ->]]|[N H]]; [apply bset_same|].
    rewrite bset_other; [auto|]. intros ->. apply A in H. destruct HU as [E|E]; rewrite E in H; [discriminate|]. congruence.
  - intros u' p' H. apply bset_inv in H. destruct H as [[-> [= ->]]|[N H]]; [apply bset_same|].
    rewrite bset_other; [auto|]. intros ->. apply B in H. destruct HP as [E|E]; rewrite E in H; [discriminate|]. congruence.
  - intros u' p' H. apply bset_inv in H. destruct H as [[-> [= ->]]|[N H]]; [auto|eauto].
Qed.
(** forgetting one document *)
Lemma inv_forget m u p : inv m -> paths m u = Some p ->
  forall s y, inv (mkMaps (bset (paths m) u None) (bset (uris m) p None) s y).
Proof.
  intros [A B C] Hp s y. split; cbn [paths uris].
  - intros u' p' H. apply bset_inv in H. destruct H as [[_ H]|[N H]]; [discriminate|].
    rewrite bset_other; [auto|]. intros ->. apply A in Hp. apply A in H. congruence.
  - intros u' p' H. apply bset_inv in H. destruct H as [[_ H]|[N H]]; [discriminate|].
    rewrite bset_other; [auto|]. intros ->. apply B in H. congruence.
  - intros u' p' H. apply bset_inv in H. destruct H as [[_ H]|[N H]]; [discriminate|eauto].
Qed.
Lemma inv_no_empty m : inv m -> uris m [] = None.
Proof.
  intros [A B C]. destruct (uris m []) as [u|] eqn:E; [|reflexivity]. apply B in E. apply C in E. now destruct (proj1 E).
Qed.
Lemma inv_forget_none m u : inv m -> paths m u = None ->
  forall s y, inv (mkMaps (bset (paths m) u None) (bset (uris m) [] None) s y).
Proof.
  intros I H s y. pose proof (inv_no_empty m I) as E. eapply inv_ext; [| |exact I]; cbn.
  - intro u'. unfold bset. destruct (beq u' u) eqn:X; [|reflexivity]. apply beq_eq in X. now subst.
  - intro p'. unfold bset. destruct (beq p' []) eqn:X; [|reflexivity]. apply beq_eq in X. now subst.
Qed.
(** giving a document another path *)
Lemma inv_move m u p p' : inv m -> paths m u = Some p -> p' <> p -> p' <> [] -> ~ In semi p' ->
  (uris m p' = None \/ uris m p' = Some u) ->
  forall s y, inv (mkMaps (bset (paths m) u (Some p')) (bset (bset (uris m) p' (Some u)) p None) s y).
Proof.
  intros [A B C] Hp Hd Hne Hs HU s y. split; cbn [paths uris].
  - intros u1 p1 H. apply bset_inv in H. destruct H as [[-> [= <-]]|[N H]].
    + rewrite bset_other by exact Hd. apply bset_same.
    + assert (p1 <> p) by (intros ->; apply A in H; apply A in Hp; congruence).
      rewrite bset_other by assumption. rewrite bset_other; [auto|].
      intros ->. apply A in H. destruct HU as [E|E]; rewrite E in H; [discriminate|congruence].
  - intros u1 p1 H. apply bset_inv in H. destruct H as [[_ H]|[N H]]; [discriminate|].
    apply bset_inv in H. destruct H as [[-> [= ->]]|[N' H]]; [apply bset_same|].
    rewrite bset_other; [auto|]. intros ->. apply B in H. congruence.
  - intros u1 p1 H. apply bset_inv in H. destruct H as [[-> [= <-]]|[N H]]; eauto.
Qed.
Lemma inv_step folder m o : inv m -> harmless folder m o -> inv (step folder m o).
Proof.
  intros I H. destruct o as [u f r|u f r|u|u p s|u t].
  - unfold harmless, binding in H. cbn [step replaces] in *. destruct (is_local_module (srcs m u)); [|exact I]. cbn [andb] in H.
    destruct r as [| | |pkg]; [exact I| |exact I|].
    + destruct (paths m u) as [p|] eqn:E; [now apply inv_forget|now apply inv_forget_none].
    + destruct (paths m u) as [p|] eqn:E.
      * destruct (beq (canonical pkg f) p) eqn:X; [exact I|]. cbn in H. destruct H as (Hne & Hs & HU & _). apply beq_neq in X.
        destruct (inv_ok m I u p E) as [Np _]. destruct p as [|c p']; [congruence|].
        now apply inv_move.
      * destruct (beq (canonical pkg f) []) eqn:X; [exact I|]. cbn in H. destruct H as (Hne & Hs & HU & _).
        apply (inv_ext (bind m u (canonical pkg f) None)); [reflexivity|reflexivity|]. apply inv_bind; auto.
  - unfold harmless, binding in H. cbn [step replaces] in *. destruct r as [| | |pkg]; try exact I.
    + destruct H as (Hne & Hs & HU & [X|HP]); [discriminate|]. now apply inv_bind.
    + destruct H as (Hne & Hs & HU & [X|HP]); [discriminate|]. now apply inv_bind.
  - cbn [step]. destruct (paths m u) as [p|] eqn:E; [now apply inv_forget|now apply inv_forget_none].
  - unfold harmless, binding in H. destruct H as (Hne & Hs & HU & [X|HP]); [discriminate|]. now apply inv_bind.
  - cbn [step]. apply (inv_ext m); auto.
Qed.
Lemma inv_run folder ops : forall m, inv m -> all_harmless folder m ops -> inv (run_from folder m ops).
Proof.
  induction ops as [|o r IH]; intros m I H; [exact I|]. destruct H as [H1 H2]. cbn. apply IH; [|exact H2]. now apply inv_step.
Qed.

(** the unconditional part: both maps only ever hold the latest pair recorded *)
Lemma latest_snoc {A} (f : A -> bool) l x : latest f (l ++ [x]) = if f x then Some x else latest f l.
Proof. unfold latest. rewrite rev_app_distr. cbn. destruct (f x); reflexivity. Qed.
Lemma latest_app_nil {A} (f : A -> bool) l : latest f (l ++ []) = latest f l.
Proof. now rewrite app_nil_r. Qed.
Record logged (m : maps) (l : list (uri * path)) : Prop := mkLogged {
  lg_u : forall p u, uris m p = Some u -> latest (fun b => beq (snd b) p) l = Some (u, p);
  lg_p : forall u p, paths m u = Some p -> latest (fun b => beq (fst b) u) l = Some (u, p)
}.
Lemma logged_bind m l u p s : logged m l -> logged (bind m u p s) (l ++ [(u, p)]).
Proof.
  intros [A B]. split; cbn [bind paths uris]; intros a b H; apply bset_inv in H; rewrite latest_snoc; cbn [fst snd].
  - destruct H as [[-> [= ->]]|[N H]]; [now rewrite beq_refl|]. rewrite (proj2 (beq_neq _ _)) by congruence. auto.
  - destruct H as [[-> [= ->]]|[N H]]; [now rewrite beq_refl|]. rewrite (proj2 (beq_neq _ _)) by congruence. auto.
Qed.
Lemma logged_sub m m' l : (forall p u, uris m' p = Some u -> uris m p = Some u) -> (forall u p, paths m' u = Some p -> paths m u = Some p) ->
  logged m l -> logged m' l.
Proof. intros H1 H2 [A B]. split; auto. Qed.
Lemma bset_none_sub {A} (m : bytes -> option A) k k' x : bset m k None k' = Some x -> m k' = Some x.
Proof. intro H. apply bset_inv in H. destruct H as [[_ H]|[_ H]]; [discriminate|exact H]. Qed.
Lemma logged_step folder m o l : logged m l ->
  logged (step folder m o) (l ++ match binding folder m o with Some b => [b] | None => [] end).
Proof.
  intro L. destruct o as [u f r|u f r|u|u p s|u t]; cbn [binding].
  - cbn [step]. destruct r as [| | |pkg].
    1,3: rewrite app_nil_r; destruct (is_local_module (srcs m u)); exact L.
    + rewrite app_nil_r. destruct (is_local_module (srcs m u)); [|exact L].
      eapply logged_sub; [| |exact L]; cbn.
      * intros p' u'. destruct (paths m u); apply bset_none_sub.
      * intros u' p'. apply bset_none_sub.
    + destruct (is_local_module (srcs m u)); cbn [andb]; [|rewrite app_nil_r; exact L].
      pose proof (logged_bind m l u (canonical pkg f) None L) as LB.
      destruct (paths m u) as [p|] eqn:E.
      * destruct (beq (canonical pkg f) p) eqn:X; cbn [negb]; [rewrite app_nil_r; exact L|].
        eapply logged_sub; [| |exact LB]; cbn [bind paths uris]; [|auto].
        intros q v. destruct p; [auto|]. apply bset_none_sub.
      * destruct (beq (canonical pkg f) []) eqn:X; cbn [negb]; [rewrite app_nil_r; exact L|].
        eapply logged_sub; [| |exact LB]; cbn [bind paths uris]; auto.
  - cbn [step]. destruct r as [| | |pkg]; rewrite ?app_nil_r; auto using logged_bind.
  - cbn [step]. rewrite app_nil_r. eapply logged_sub; [| |exact L]; cbn.
    + intros p' u'. apply bset_none_sub.
    + intros u' p'. apply bset_none_sub.
  - cbn [step]. now apply logged_bind.
  - cbn [step]. rewrite app_nil_r. eapply logged_sub; [| |exact L]; auto.
Qed.
Lemma logged_run folder ops : forall m l, logged m l -> logged (run_from folder m ops) (l ++ bindings folder m ops).
Proof.
  induction ops as [|o r IH]; intros m l L; cbn [bindings run_from fold_left]; [now rewrite app_nil_r|].
  rewrite app_assoc. apply IH. now apply logged_step.
Qed.
Lemma logged_init : logged init [].
Proof. split; cbn; discriminate. Qed.
Lemma latest_In {A} (f : A -> bool) l x : latest f l = Some x -> In x l.
Proof. intro H. apply find_some in H. now apply in_rev. Qed.


(** ** C39 *)
Lemma skip_to_at c a r : ~ In c a -> skip_to c (a ++ c :: r) = List.length a.
Proof.
  induction a as [|x a IH]; intro H; cbn [app skip_to]; [now rewrite Ascii.eqb_refl|].
  destruct (Ascii.eqb_spec x c) as [->|N]; [elim H; now left|]. cbn. rewrite IH; [reflexivity|]. intro X. apply H. now right.
Qed.
Lemma skip_to_past c a r : ~ In c a -> skip_to c (a ++ r) = List.length a + skip_to c r.
Proof.
  induction a as [|x a IH]; intro H; cbn [app skip_to List.length]; [reflexivity|].
  destruct (Ascii.eqb_spec x c) as [->|N]; [elim H; now left|]. cbn. rewrite IH; [reflexivity|]. intro X. apply H. now right.
Qed.
Lemma last_byte_none c r : ~ In c r -> last_byte c r = None.
Proof.
  induction r as [|x r IH]; intro H; [reflexivity|]. cbn [last_byte]. rewrite IH by (intro X; apply H; now right).
  destruct (Ascii.eqb_spec x c) as [->|N]; [elim H; now left|reflexivity].
Qed.
Lemma last_byte_at c a r : ~ In c r -> last_byte c (a ++ c :: r) = Some (List.length a).
Proof.
  intro H. induction a as [|x a IH]; cbn [app last_byte List.length].
  - now rewrite last_byte_none, Ascii.eqb_refl by exact H.
  - now rewrite IH.
Qed.
Lemma index_sub_at a g sub s : ~ In g a -> has_prefix s (g :: sub) = true -> index_sub (a ++ s) (g :: sub) = Some (List.length a).
Proof.
  intros H P. induction a as [|x a IH]; cbn [app].
  - destruct s as [|y s]; cbn [index_sub]; now rewrite P.
  - cbn [index_sub]. replace (has_prefix (x :: a ++ s) (g :: sub)) with false.
    + rewrite IH; [reflexivity|]. intro X. apply H. now right.
    + symmetry. cbn [has_prefix]. destruct (Ascii.eqb_spec g x) as [->|N]; [elim H; now left|reflexivity].
Qed.
Lemma index_sub_app s sub t : index_sub (s ++ t) sub = None -> index_sub s sub = None.
Proof.
  induction s as [|x s IH]; cbn [app index_sub].
  - destruct sub; [now destruct t; cbn|reflexivity].
  - destruct (has_prefix (x :: s) sub) eqn:E.
    + apply has_prefix_spec in E. destruct E as [r E]. intro H. exfalso.
      replace (has_prefix (x :: s ++ t) sub) with true in H; [discriminate|].
      symmetry. apply has_prefix_spec. exists (r ++ t). change (x :: s ++ t) with ((x :: s) ++ t). now rewrite E, <- app_assoc.
    + destruct (has_prefix (x :: s ++ t) sub); [discriminate|]. destruct (index_sub (s ++ t) sub); [discriminate|]. intros _. now rewrite IH.
Qed.
Lemma drop_cr_cases l : drop_cr l = l \/ l = drop_cr l ++ [cr].
Proof.
  unfold drop_cr. destruct (rev l) as [|c r] eqn:E; [now left|]. destruct (Ascii.eqb_spec c cr) as [->|N]; [right|now left].
  rewrite <- (rev_involutive l), E. reflexivity.
Qed.
Lemma other_none l : other_line l -> scan_line (drop_cr l) = None.
Proof.
  intro H. assert (O : other_line (drop_cr l)).
  { destruct (drop_cr_cases l) as [E|E]; [now rewrite E|]. rewrite E in H. destruct H as [H|H].
    - left. destruct (has_prefix (drop_cr l) (b_ "option")) eqn:X; [|reflexivity]. apply has_prefix_spec in X. destruct X as [r X].
      rewrite <- H. symmetry. apply has_prefix_spec. exists (r ++ [cr]). rewrite X at 1. now rewrite <- app_assoc.
    - right. eapply index_sub_app. exact H. }
  unfold scan_line. destruct O as [O|O]; rewrite O; [reflexivity|]. now destruct (negb (has_prefix (drop_cr l) (b_ "option"))).
Qed.
Lemma blanks_no c w : blanks w -> c <> " "%char -> c <> ascii_of_nat 9 -> ~ In c w.
Proof. intros H N1 N2 X. apply (proj1 (Forall_forall _ _) H) in X. destruct X; congruence. Qed.
Lemma skipn_app_len {A} (a b : list A) : skipn (List.length a) (a ++ b) = b.
Proof. induction a; [reflexivity|assumption]. Qed.
Lemma firstn_app_len {A} (a b : list A) : firstn (List.length a) (a ++ b) = a.
Proof. induction a; cbn; [reflexivity|]. now f_equal. Qed.
Lemma notin_app {A} (x : A) a b : ~ In x a -> ~ In x b -> ~ In x (a ++ b).
Proof. intros H1 H2 H. apply in_app_iff in H. tauto. Qed.
Lemma skipn_shift {A} (a b : list A) k : skipn (List.length a + k) (a ++ b) = skipn k b.
Proof. induction a; [reflexivity|assumption]. Qed.

(** the general shape scanned *)
Lemma scan_shape A C D E p alias rest :
  has_prefix (A ++ C ++ eqc :: D ++ dq :: p ++ alias ++ dq :: rest) (b_ "option") = true ->
  ~ In "g"%char A -> has_prefix (C ++ E) (b_ "go_package") = true ->
  ~ In semi A -> ~ In semi C -> ~ In semi D -> ~ In semi p ->
  ~ In eqc C -> ~ In dq D -> ~ In dq rest -> p <> [] ->
  (alias = [] \/ exists a, alias = semi :: a) ->
  E = eqc :: D ++ dq :: p ++ alias ++ dq :: rest ->
  scan_line (A ++ C ++ eqc :: D ++ dq :: p ++ alias ++ dq :: rest) = Some p.
Proof.
  intros P HA HC A1 C1 D1 p1 C2 D2 r2 Hp Hal ->. unfold scan_line. rewrite P. cbn [negb].
  replace (index_sub (A ++ C ++ eqc :: D ++ dq :: p ++ alias ++ dq :: rest) (b_ "go_package")) with (Some (List.length A))
    by (symmetry; now apply (index_sub_at A "g"%char (b_ "o_package"))).
  cbv zeta. rewrite skipn_app_len, skip_to_at by exact C2.
  rewrite skipn_shift, skipn_app_len.
  replace (skip_to dq (eqc :: D ++ dq :: p ++ alias ++ dq :: rest)) with (S (List.length D)).
  2:{ symmetry. change (eqc :: D ++ dq :: p ++ alias ++ dq :: rest) with ((eqc :: D) ++ dq :: p ++ alias ++ dq :: rest).
      rewrite skip_to_at; [reflexivity|]. intros [X|X]; [discriminate|auto]. }
  set (L := A ++ C ++ eqc :: D ++ dq :: p ++ alias ++ dq :: rest).
  set (X := A ++ C ++ eqc :: D ++ [dq]).
  assert (EL : L = X ++ p ++ alias ++ dq :: rest) by (unfold L, X; repeat (rewrite <- app_assoc; cbn [app]); reflexivity).
  assert (LX : List.length X = S (List.length A + List.length C + S (List.length D))).
  { unfold X. rewrite !app_length. cbn. rewrite !app_length. cbn. lia. }
  rewrite <- LX.
  replace (List.length A + List.length C + S (List.length D) =? List.length L) with false.
  2:{ symmetry. apply Nat.eqb_neq. rewrite EL, app_length, LX. lia. }
  replace (last_byte dq L) with (Some (List.length (X ++ p ++ alias))).
  2:{ rewrite EL. replace (X ++ p ++ alias ++ dq :: rest) with ((X ++ p ++ alias) ++ dq :: rest) by (now rewrite <- !app_assoc). symmetry. now apply last_byte_at. }
  assert (Xs : ~ In semi X).
  { unfold X. apply notin_app; [exact A1|]. apply notin_app; [exact C1|]. intros [Y|Y]; [discriminate|].
    apply in_app_iff in Y. destruct Y as [Y|[Y|[]]]; [auto|discriminate]. }
  assert (Lp : 0 < List.length p) by (destruct p; [congruence|cbn; lia]).
  destruct Hal as [->|[a ->]].
  - replace ((List.length X <? skip_to semi L) && (skip_to semi L <? List.length (X ++ p ++ []))) with false.
    2:{ symmetry. apply andb_false_iff. right. apply Nat.ltb_ge. rewrite EL. cbn [app]. rewrite app_nil_r.
        rewrite app_assoc, skip_to_past by now apply notin_app. lia. }
    rewrite app_nil_r, app_length.
    replace (List.length X + List.length p <=? List.length X) with false by (symmetry; apply Nat.leb_gt; lia).
    rewrite EL. rewrite skipn_app_len. replace (List.length X + List.length p - List.length X) with (List.length p) by lia.
    now rewrite firstn_app_len.
  - assert (S1 : skip_to semi L = List.length X + List.length p).
    { rewrite EL. cbn [app]. rewrite app_assoc, skip_to_at by now apply notin_app. apply app_length. }
    rewrite S1.
    replace ((List.length X <? List.length X + List.length p) && (List.length X + List.length p <? List.length (X ++ p ++ semi :: a))) with true.
    2:{ symmetry. apply andb_true_iff. rewrite !app_length. cbn. split; apply Nat.ltb_lt; lia. }
    replace (List.length X + List.length p <=? List.length X) with false by (symmetry; apply Nat.leb_gt; lia).
    rewrite EL. rewrite skipn_app_len. replace (List.length X + List.length p - List.length X) with (List.length p) by lia.
    now rewrite firstn_app_len.
Qed.
Lemma option_semi : ~ In semi (b_ "option"). Proof. vm_compute. intuition discriminate. Qed.
Lemma scan_canonical p l : go_package_line p l -> scan_line (drop_cr l) = Some p.
Proof.
  intros (w1 & w2 & w3 & alias & w4 & rest & B1 & B2 & B3 & B4 & Hne & Hd & Hs & Hal & Hr & ->).
  assert (G : forall rest', ~ In dq rest' ->
    scan_line (b_ "option" ++ w1 ++ b_ "go_package" ++ w2 ++ eqc :: w3 ++ dq :: p ++ alias ++ dq :: w4 ++ semi :: rest') = Some p).
  { intros r' Hr'.
    assert (E : b_ "option" ++ w1 ++ b_ "go_package" ++ w2 ++ eqc :: w3 ++ dq :: p ++ alias ++ dq :: w4 ++ semi :: r'
       = (b_ "option" ++ w1) ++ (b_ "go_package" ++ w2) ++ eqc :: w3 ++ dq :: p ++ alias ++ dq :: (w4 ++ semi :: r')) by (now rewrite <- !app_assoc).
    rewrite E. eapply scan_shape; try reflexivity; auto.
    - rewrite <- app_assoc. apply has_prefix_spec. eauto.
    - apply notin_app; [vm_compute; intuition discriminate|]. now apply blanks_no.
    - rewrite <- app_assoc. apply has_prefix_spec. eauto.
    - apply notin_app; [apply option_semi|]. now apply blanks_no.
    - apply notin_app; [vm_compute; intuition discriminate|]. now apply blanks_no.
    - now apply blanks_no.
    - apply notin_app; [vm_compute; intuition discriminate|]. now apply blanks_no.
    - now apply blanks_no.
    - apply notin_app; [now apply blanks_no|]. intros [X|X]; [discriminate|auto].
    - destruct Hal as [->|(a & -> & _)]; [now left|right; eauto]. }
  set (pre := b_ "option" ++ w1 ++ b_ "go_package" ++ w2 ++ eqc :: w3 ++ dq :: p ++ alias ++ dq :: w4 ++ [semi]).
  assert (E : forall r', b_ "option" ++ w1 ++ b_ "go_package" ++ w2 ++ eqc :: w3 ++ dq :: p ++ alias ++ dq :: w4 ++ semi :: r' = pre ++ r').
  { intro r'. unfold pre. repeat (rewrite <- ?app_assoc; cbn [app]). reflexivity. }
  destruct (drop_cr_cases (pre ++ rest)) as [X|X]; rewrite E.
  - rewrite X, <- E. now apply G.
  - destruct rest as [|y r0] using rev_ind.
    + exfalso. rewrite app_nil_r in X.
      assert (Z : exists pre', pre = pre' ++ [semi]).
      { exists (b_ "option" ++ w1 ++ b_ "go_package" ++ w2 ++ eqc :: w3 ++ dq :: p ++ alias ++ dq :: w4). unfold pre. now repeat (rewrite <- ?app_assoc; cbn [app]). }
      destruct Z as [pre' Z]. rewrite Z in X at 1. apply app_inj_tail in X. destruct X as [_ X]. discriminate.
    + clear IHr0. rewrite app_assoc in X. apply app_inj_tail in X. destruct X as [X X2]. subst y. rewrite <- app_assoc in X.
      assert (Y : drop_cr (pre ++ r0 ++ [cr]) = pre ++ r0) by (symmetry; exact X).
      rewrite Y, <- E. apply G. intro Q. apply Hr. apply in_app_iff. now left.
Qed.
Lemma scan_lines_skip pre l p post : Forall other_line pre -> go_package_line p l -> scan_lines (pre ++ l :: post) = Some p.
Proof.
  intros H G. induction pre as [|x pre IH]; cbn [app scan_lines].
  - now rewrite (scan_canonical p l G).
  - inversion H; subst. rewrite other_none by assumption. auto.
Qed.

(** ** C67 *)
Lemma comps_abs cs : Forall normal cs -> comps (abs cs) = cs.
Proof.
  intro H. unfold comps. rewrite split_abs by exact H. cbn [filter]. change (beq [] []) with true. cbn [negb].
  assert (E : forall l, Forall normal l -> filter (fun c : bytes => negb (beq c [])) l = l).
  { induction l as [|c l IH]; intro F; [reflexivity|]. inversion F as [|? ? (N & _) F']; subst. cbn [filter].
    rewrite (proj2 (beq_neq _ _) N). cbn. now rewrite IH. }
  destruct cs as [|c cs]; [reflexivity|]. now apply E.
Qed.
Lemma strip_common_prefix a b : strip_common a (a ++ b) = ([], b).
Proof. induction a as [|x a IH]; cbn [app strip_common]; [now destruct b|]. now rewrite beq_refl. Qed.
Lemma rel_path_inside a b : b <> [] -> Forall normal a -> Forall normal b -> rel_path (abs a) (abs (a ++ b)) = Some (rel b).
Proof.
  intros N Ha Hb. unfold rel_path. rewrite !rooted_abs. cbn [andb]. rewrite !comps_abs by (auto; now apply Forall_app).
  rewrite strip_common_prefix. cbn. now destruct b.
Qed.
Lemma implicit_inside md mn d g : mn <> [] -> Forall normal md -> Forall normal mn -> Forall normal (d ++ [g]) ->
  implicit_package (abs md) (rel mn) (abs (md ++ d ++ [g])) = Some (rel (mn ++ d)).
Proof.
  intros N Hm Hn Hd. unfold implicit_package. rewrite rel_path_inside by (auto; now destruct d).
  apply Forall_app in Hd. destruct Hd as [Hd Hg]. inversion Hg as [|? ? Hg' _]; subst.
  rewrite dir_rel by (auto; now apply normal_slash). destruct d as [|x d].
  - rewrite join_rel_dot by assumption. now rewrite app_nil_r.
  - rewrite join_rel by (auto; discriminate). reflexivity.
Qed.
Lemma canonical_inside mn d cs g : mn <> [] -> Forall normal mn -> Forall normal (d ++ [g]) ->
  canonical (rel (mn ++ d)) (abs (cs ++ [g])) = rel (mn ++ d ++ [g]).
Proof.
  intros N Hn Hd. apply Forall_app in Hd. destruct Hd as [Hd Hg]. inversion Hg as [|? ? Hg' _]; subst.
  unfold canonical. rewrite base_abs by (now apply normal_ne || now apply normal_slash).
  change g with (rel [g]) at 1. rewrite join_rel; [now rewrite <- app_assoc|now destruct mn|discriminate|now apply Forall_app|auto].
Qed.
Lemma rel_inj a b : a <> [] -> b <> [] -> Forall normal a -> Forall normal b -> rel a = rel b -> a = b.
Proof. intros Na Nb Ha Hb E. rewrite <- (split_rel a), <- (split_rel b) by assumption. now rewrite E. Qed.
Lemma in_rel c cs : In c (rel cs) -> c = slash \/ exists w, In w cs /\ In c w.
Proof.
  induction cs as [|w cs IH]; [intros []|]. destruct cs as [|w' cs].
  - intro H. right. exists w. split; [now left|exact H].
  - change (rel (w :: w' :: cs)) with (w ++ slash :: rel (w' :: cs)). intro H. apply in_app_iff in H. destruct H as [H|[H|H]].
    + right. exists w. split; [now left|exact H].
    + now left.
    + destruct (IH H) as [E|(v & Hv & Hc)]; [now left|]. right. exists v. split; [now right|exact Hc].
Qed.
Lemma rel_no_semi cs : Forall (fun c => ~ In semi c) cs -> ~ In semi (rel cs).
Proof.
  intros H X. apply in_rel in X. destruct X as [X|(w & Hw & X)]; [discriminate|]. now apply (proj1 (Forall_forall _ _) H w Hw).
Qed.

(** *** C37 for the files of a workspace *)
(** every recorded pair is (file, its path in the workspace) *)
Definition shaped (P : uri -> path -> Prop) (m : maps) : Prop := forall u p, paths m u = Some p -> P u p.
Lemma shaped_harmless (P : uri -> path -> Prop) folder m o :
  inv m -> shaped P m ->
  (forall u v p, P u p -> P v p -> u = v) -> (forall u p q, P u p -> P u q -> p = q) ->
  (forall u p, P u p -> p <> [] /\ ~ In semi p) ->
  match binding folder m o with Some (u, p) => P u p | None => True end -> harmless folder m o.
Proof.
  intros I S H1 H2 H3 HB. unfold harmless. destruct (binding folder m o) as [[u p]|]; [|exact Logic.I].
  destruct (H3 u p HB) as [A B]. split; [exact A|]. split; [exact B|]. split.
  - destruct (uris m p) as [v|] eqn:E; [right|now left]. f_equal. apply (H1 v u p); [|exact HB]. apply S. now apply (inv_up m I).
  - right. destruct (paths m u) as [q|] eqn:E; [right|now left]. f_equal. apply (H2 u q p); [|exact HB]. now apply S.
Qed.
Lemma shaped_step (P : uri -> path -> Prop) folder m o : shaped P m ->
  match binding folder m o with Some (u, p) => P u p | None => True end -> shaped P (step folder m o).
Proof.
  intros S HB. unfold shaped in *. destruct o as [u f r|u f r|u|u p s|u t]; cbn [binding] in HB; cbn [step].
  - destruct (is_local_module (srcs m u)); [|exact S]. destruct r as [| | |pkg]; try exact S.
    + cbn. intros v q H. apply bset_none_sub in H. auto.
    + cbn [andb] in HB. destruct (paths m u) as [p|] eqn:E.
      * destruct (beq (canonical pkg f) p); cbn [negb] in HB; [exact S|]. cbn. intros v q H.
        apply bset_inv in H. destruct H as [[-> [= <-]]|[_ H]]; auto.
      * destruct (beq (canonical pkg f) []); cbn [negb] in HB; [exact S|]. cbn. intros v q H.
        apply bset_inv in H. destruct H as [[-> [= <-]]|[_ H]]; auto.
  - destruct r as [| | |pkg]; try exact S; cbn; intros v q H; apply bset_inv in H; destruct H as [[-> [= <-]]|[_ H]]; auto.
  - cbn. intros v q H. apply bset_none_sub in H. auto.
  - cbn. intros v q H. apply bset_inv in H; destruct H as [[-> [= <-]]|[_ H]]; auto.
  - exact S.
Qed.
Lemma shaped_run (P : uri -> path -> Prop) (ok : op -> Prop) folder :
  (forall u v p, P u p -> P v p -> u = v) -> (forall u p q, P u p -> P u q -> p = q) ->
  (forall u p, P u p -> p <> [] /\ ~ In semi p) ->
  (forall m o u p, shaped P m -> ok o -> binding folder m o = Some (u, p) -> P u p) ->
  forall ops m, inv m -> shaped P m -> Forall ok ops -> inv (run_from folder m ops) /\ shaped P (run_from folder m ops).
Proof.
  intros H1 H2 H3 HB ops. induction ops as [|o r IH]; intros m I S F; [auto|]. inversion F as [|? ? Fo Fr]; subst.
  assert (B : match binding folder m o with Some (u, p) => P u p | None => True end).
  { destruct (binding folder m o) as [[u p]|] eqn:E; [|exact Logic.I]. now apply (HB m o). }
  cbn [run_from fold_left]. apply IH; [|now apply shaped_step|exact Fr].
  apply inv_step; [exact I|]. now apply (shaped_harmless P).
Qed.
Lemma uri_of_file_inj f g : uri_of_file f = uri_of_file g -> f = g.
Proof. unfold uri_of_file. apply app_inv_head. Qed.
Lemma abs_inj a b : Forall normal a -> Forall normal b -> abs a = abs b -> a = b.
Proof. intros Ha Hb E. rewrite <- (comps_abs a), <- (comps_abs b) by assumption. now rewrite E. Qed.

Section ModuleWorkspace.
Variables md mn : list bytes.
Hypothesis Hmd : Forall normal md.
Hypothesis Hmn : Forall normal mn.
Hypothesis Hne : mn <> [].
Hypothesis Hsemi : Forall (fun c => ~ In semi c) mn.
Definition module_pair (u : uri) (p : path) : Prop :=
  exists d g, u = uri_of_file (abs (md ++ d ++ [g])) /\ p = rel (mn ++ d ++ [g]) /\
    Forall normal (d ++ [g]) /\ Forall (fun c => ~ In semi c) (d ++ [g]).
Lemma module_lookup d g text : Forall normal (d ++ [g]) ->
  lookup_go_module (Some (abs md, rel mn)) (abs (md ++ d ++ [g])) text = LPackage (rel (mn ++ d)).
Proof. intro H. cbn [lookup_go_module]. now rewrite implicit_inside. Qed.
Lemma module_canonical d g : Forall normal (d ++ [g]) ->
  canonical (rel (mn ++ d)) (abs (md ++ d ++ [g])) = rel (mn ++ d ++ [g]).
Proof. intro H. rewrite app_assoc. now apply canonical_inside. Qed.
Lemma module_binding folder m o u p : module_event md mn o -> binding folder m o = Some (u, p) -> module_pair u p.
Proof.
  intros E B. destruct o as [v f r|v f r|v|v q s|v t]; try (now destruct E); try discriminate.
  - destruct E as (-> & (d & g & -> & Hd & Hs) & [->|[text ->]]); [discriminate|].
    rewrite module_lookup in B by exact Hd. cbn [binding] in B. destruct (_ && _); [|discriminate].
    injection B as <- <-. exists d, g. rewrite module_canonical by exact Hd. auto.
  - destruct E as (-> & (d & g & -> & Hd & Hs) & [->|[text ->]]); [discriminate|].
    rewrite module_lookup in B by exact Hd. cbn [binding] in B.
    injection B as <- <-. exists d, g. rewrite module_canonical by exact Hd. auto.
Qed.
Lemma module_pair_inj_u u v p : module_pair u p -> module_pair v p -> u = v.
Proof.
  intros (d & g & -> & -> & Hd & _) (d' & g' & -> & E & Hd' & _).
  apply rel_inj in E; [|now destruct mn|now destruct mn|now apply Forall_app|now apply Forall_app].
  apply app_inv_head in E. now rewrite E.
Qed.
Lemma module_pair_inj_p u p q : module_pair u p -> module_pair u q -> p = q.
Proof.
  intros (d & g & -> & -> & Hd & _) (d' & g' & E & -> & Hd' & _). apply uri_of_file_inj in E.
  apply abs_inj in E; [|now apply Forall_app|now apply Forall_app]. apply app_inv_head in E. now rewrite E.
Qed.
Lemma module_pair_ok u p : module_pair u p -> p <> [] /\ ~ In semi p.
Proof.
  intros (d & g & _ & -> & Hd & Hs). split; [apply rel_ne; [now destruct mn|now apply Forall_app]|].
  apply rel_no_semi. now apply Forall_app.
Qed.
Lemma module_run folder ops : Forall (module_event md mn) ops -> inv (run folder ops) /\ shaped module_pair (run folder ops).
Proof.
  intro F. apply (shaped_run module_pair (module_event md mn)); auto using inv_init.
  - exact module_pair_inj_u.
  - exact module_pair_inj_p.
  - exact module_pair_ok.
  - intros m o u p _. apply module_binding.
  - intros u p. discriminate.
Qed.
End ModuleWorkspace.

Section PlainWorkspace.
Variable wd : list bytes.
Hypothesis Hwd : Forall normal wd.
Hypothesis Hne : wd <> [].
Definition plain_pair (u : uri) (p : path) : Prop :=
  exists d, u = uri_of_file (abs (wd ++ d)) /\ p = rel d /\ d <> [] /\ Forall normal d /\ Forall (fun c => ~ In semi c) d.
Lemma trim_inside d : d <> [] -> trim_prefix (abs (wd ++ d)) (abs wd ++ [slash]) = rel d.
Proof.
  intros N. assert (E : abs (wd ++ d) = (abs wd ++ [slash]) ++ rel d).
  { unfold abs. rewrite join_app by assumption. cbn. now rewrite <- app_assoc. }
  unfold trim_prefix. rewrite E. replace (has_prefix _ _) with true by (symmetry; apply has_prefix_spec; eauto).
  apply skipn_app_len.
Qed.
Lemma plain_binding m o u p : plain_event wd o -> binding (abs wd) m o = Some (u, p) -> plain_pair u p.
Proof.
  intros E B. destruct o as [v f r|v f r|v|v q s|v t]; try (now destruct E); try discriminate.
  - destruct E as (-> & _ & [->|[text ->]]); discriminate.
  - destruct E as (-> & (d & -> & N & Hd & Hs) & [->|[text ->]]); [discriminate|]. cbn [lookup_go_module binding] in B.
    rewrite trim_inside in B by exact N. injection B as <- <-. exists d. auto.
Qed.
Lemma plain_run ops : Forall (plain_event wd) ops -> inv (run (abs wd) ops) /\ shaped plain_pair (run (abs wd) ops).
Proof.
  intro F. apply (shaped_run plain_pair (plain_event wd)); auto using inv_init.
  - intros u v p (d & -> & -> & N & Hd & _) (d' & -> & E & N' & Hd' & _). apply rel_inj in E; auto. now rewrite E.
  - intros u p q (d & -> & -> & N & Hd & _) (d' & E & -> & N' & Hd' & _). apply uri_of_file_inj in E.
    apply abs_inj in E; [|now apply Forall_app|now apply Forall_app]. apply app_inv_head in E. now rewrite E.
  - intros u p (d & _ & -> & N & Hd & Hs). split; [now apply rel_ne|now apply rel_no_semi].
  - intros m o u p _. apply plain_binding.
  - intros u p. discriminate.
Qed.
End PlainWorkspace.

(** what is known after the events of a workspace *)
Definition src_known (m : maps) : Prop := forall u, paths m u = None -> srcs m u = None.
Lemma src_known_step folder m o : src_known m -> (forall u p s, o <> Found u p s) -> src_known (step folder m o).
Proof.
  intros K NF. destruct o as [u f r|u f r|u|u p s|u t]; cbn [step].
  - destruct (is_local_module (srcs m u)); [|exact K]. destruct r as [| | |pkg]; try exact K.
    + intros v. cbn. unfold bset. destruct (beq v u); auto.
    + destruct (paths m u) as [p|] eqn:E.
      * destruct (beq (canonical pkg f) p); [exact K|]. intros v. cbn. unfold bset. destruct (beq v u); [discriminate|auto].
      * destruct (beq (canonical pkg f) []); [exact K|]. intros v. cbn. unfold bset. destruct (beq v u); [discriminate|auto].
  - destruct r as [| | |pkg]; try exact K; intros v; cbn; unfold bset; destruct (beq v u); auto; discriminate.
  - intros v. cbn. unfold bset. destruct (beq v u); auto.
  - now destruct (NF u p s).
  - exact K.
Qed.
Lemma run_snoc folder ops o : run folder (ops ++ [o]) = step folder (run folder ops) o.
Proof. unfold run, run_from. now rewrite fold_left_app. Qed.
Lemma present_snoc u ops o : present u (ops ++ [o]) =
  match o with
  | Create v _ r => if beq v u then match r with LOpenError | LError => present u ops | _ => true end else present u ops
  | Delete v => if beq v u then false else present u ops
  | _ => present u ops
  end.
Proof. unfold present. now rewrite fold_left_app. Qed.
Lemma module_src_known md mn folder ops : Forall (module_event md mn) ops -> src_known (run folder ops).
Proof.
  induction ops as [|o ops IH] using rev_ind; intro F; [intros u H; reflexivity|]. rewrite run_snoc.
  apply Forall_app in F. destruct F as [F Fo]. inversion Fo as [|? ? Fo' _]; subst. apply src_known_step; [auto|].
  intros u p s ->. exact Fo'.
Qed.
Lemma module_present md mn folder ops d g :
  Forall normal md -> Forall normal mn -> mn <> [] -> Forall (fun c => ~ In semi c) mn ->
  Forall (module_event md mn) ops -> Forall normal (d ++ [g]) ->
  let u := uri_of_file (abs (md ++ d ++ [g])) in
  paths (run folder ops) u = if present u ops then Some (rel (mn ++ d ++ [g])) else None.
Proof.
  intros Hm Hn Nn Hs F Hd u. induction ops as [|o ops IH] using rev_ind; [reflexivity|].
  rewrite run_snoc, present_snoc. apply Forall_app in F. destruct F as [F Fo]. inversion Fo as [|? ? E _]; subst.
  specialize (IH F). destruct (module_run md mn Hm Hn Nn Hs folder ops F) as [I S].
  pose proof (module_src_known md mn folder ops F) as K.
  assert (SP : forall d' g', Forall normal (d' ++ [g']) -> uri_of_file (abs (md ++ d' ++ [g'])) = u -> d' ++ [g'] = d ++ [g]).
  { intros d' g' Hd' X. apply uri_of_file_inj in X. apply abs_inj in X; try (now apply Forall_app). now apply app_inv_head in X. }
  destruct o as [v f r|v f r|v|v q s|v t]; try (now destruct E); cbn [step].
  - destruct E as (-> & (d' & g' & -> & Hd' & _) & [->|[text ->]]).
    + now destruct (is_local_module _).
    + rewrite module_lookup by assumption. destruct (is_local_module _) eqn:L; [|exact IH].
      rewrite module_canonical by assumption.
      destruct (paths (run folder ops) (uri_of_file (abs (md ++ d' ++ [g'])))) as [p|] eqn:P.
      * pose proof (S _ _ P) as (d2 & g2 & U2 & -> & Hd2 & _). apply uri_of_file_inj in U2.
        apply abs_inj in U2; try (now apply Forall_app). apply app_inv_head in U2. rewrite U2. now rewrite beq_refl.
      * apply K in P. rewrite P in L. discriminate.
  - destruct E as (-> & (d' & g' & -> & Hd' & _) & [->|[text ->]]).
    + destruct (beq _ u); exact IH.
    + rewrite module_lookup by assumption. rewrite module_canonical by assumption. cbn [bind paths]. unfold bset.
      destruct (beq (uri_of_file (abs (md ++ d' ++ [g']))) u) eqn:X.
      * apply beq_eq in X. rewrite X, beq_refl. now rewrite (SP _ _ Hd' X).
      * apply beq_neq in X. rewrite (proj2 (beq_neq _ _)) by congruence. exact IH.
  - destruct E as (f & -> & _). cbn [paths]. unfold bset. destruct (beq (uri_of_file f) u) eqn:X.
    + apply beq_eq in X. now rewrite X, beq_refl.
    + apply beq_neq in X. rewrite (proj2 (beq_neq _ _)) by congruence. exact IH.
Qed.
Lemma plain_not_local wd ops : Forall (plain_event wd) ops -> forall v, is_local_module (srcs (run (abs wd) ops) v) = false.
Proof.
  induction ops as [|o ops IH] using rev_ind; intro F; [reflexivity|]. rewrite run_snoc.
  apply Forall_app in F. destruct F as [F Fo]. inversion Fo as [|? ? E _]; subst. specialize (IH F). intro v.
  destruct o as [w f r|w f r|w|w q s|w t]; try (now destruct E); cbn [step].
  - now rewrite IH.
  - destruct E as (_ & _ & [->|[text ->]]); cbn [lookup_go_module]; auto. cbn. unfold bset. destruct (beq v w); [reflexivity|auto].
  - cbn. unfold bset. destruct (beq v w); [reflexivity|auto].
Qed.
Lemma plain_present wd ops d : Forall normal wd -> wd <> [] ->
  Forall (plain_event wd) ops -> d <> [] -> Forall normal d ->
  let u := uri_of_file (abs (wd ++ d)) in
  paths (run (abs wd) ops) u = if present u ops then Some (rel d) else None.
Proof.
  intros Hw Nw F Nd Hd u. induction ops as [|o ops IH'] using rev_ind; [reflexivity|].
  rewrite run_snoc, present_snoc. apply Forall_app in F. destruct F as [F Fo]. inversion Fo as [|? ? E _]; subst.
  specialize (IH' F).
  destruct o as [v f r|v f r|v|v q s|v t]; try (now destruct E); cbn [step].
  - now rewrite (plain_not_local wd ops F).
  - destruct E as (-> & (d' & -> & N' & Hd' & _) & [->|[text ->]]); cbn [lookup_go_module].
    + destruct (beq _ u); exact IH'.
    + rewrite trim_inside by assumption. cbn [bind paths]. unfold bset.
      destruct (beq (uri_of_file (abs (wd ++ d'))) u) eqn:X.
      * apply beq_eq in X. rewrite X, beq_refl. apply uri_of_file_inj in X. apply abs_inj in X; try (now apply Forall_app).
        apply app_inv_head in X. now rewrite X.
      * apply beq_neq in X. rewrite (proj2 (beq_neq _ _)) by congruence. exact IH'.
  - destruct E as (f & -> & _). cbn [paths]. unfold bset. destruct (beq (uri_of_file f) u) eqn:X.
    + apply beq_eq in X. now rewrite X, beq_refl.
    + apply beq_neq in X. rewrite (proj2 (beq_neq _ _)) by congruence. exact IH'.
Qed.

(** ** C64 *)
Lemma find_file_document e m p u t : well_known p = false -> uris m p = Some u -> is_synthetic u = false ->
  e_read e u = Some t -> large (List.length t) = false -> find_file e m p = (m, Served p (FromFile u t)).
Proof.
  intros W U S R L. unfold find_file, check_well_known, check_fs. rewrite W, U, S, R, L. reflexivity.
Qed.
Lemma find_file_well_known e m p : well_known p = true ->
  find_file e m p = check_global e m p.
Proof.
  intro W. unfold find_file, check_well_known. rewrite W. unfold check_global. destruct (e_registry e p); [|reflexivity].
  now destruct (synth m (synthetic_uri (e_name e) p)).
Qed.
Lemma check_global_cases e m p : check_global e m p = (m, Failed) /\ e_registry e p = None \/
  (exists t, snd (check_global e m p) = Served p (FromRegistry t)).
Proof. unfold check_global. destruct (e_registry e p); [right|now left]. destruct (synth m _); eexists; reflexivity. Qed.

Lemma well_known_cut q : has_prefix q gogo_prefix = true -> well_known q = false.
Proof. intro H. apply has_prefix_spec in H. destruct H as [r ->]. reflexivity. Qed.
Lemma check_module_same e m p m2 a : check_module e m p = (m2, a) -> a = NotExist \/ a = NoModule -> m2 = m.
Proof.
  unfold check_module. intros H Ha. destruct (e_has_module e); cbn [negb] in H; [|congruence].
  destruct (has_prefix p gogo_prefix).
  { unfold check_well_known in H. destruct (well_known _); [|congruence]. unfold check_global in H.
    destruct (e_registry e _); [destruct (synth m _)|]; injection H as <- <-; auto; destruct Ha; discriminate. }
  destruct (e_module e p) as [| |u opens local|alt d]; try congruence.
  - destruct opens; [|congruence]. injection H as <- <-. destruct Ha; discriminate.
  - destruct (match uris m _ with Some u => synth m u | None => synth m [] end).
    + injection H as <- <-. destruct Ha; discriminate.
    + destruct d; injection H as <- <-; destruct Ha; discriminate.
Qed.
Lemma served_cases e m p m' r o : find_file e m p = (m', Served r o) ->
  (well_known p = true /\ check_global e m p = (m', Served r o)) \/
  (well_known p = false /\ m' = m /\ r = p /\
     exists u t, o = FromFile u t /\ uris m p = Some u /\ is_synthetic u = false /\ e_read e u = Some t /\ large (List.length t) = false) \/
  (well_known p = false /\ no_document e m p /\ check_module e m p = (m', Served r o)) \/
  (well_known p = false /\ no_document e m p /\ (exists a, check_module e m p = (m, a) /\ (a = NotExist \/ a = NoModule)) /\
     path_base p = b_ "gogo.proto" /\ check_module e m gogo_proto = (m', Served r o)).
Proof.
  intro H. destruct (well_known p) eqn:W.
  { left. split; [reflexivity|]. now rewrite find_file_well_known in H. }
  unfold find_file, check_well_known in H. rewrite W in H. right.
  set (fs := if match uris m p with Some u => is_synthetic u | None => false end then NotExist else check_fs e m p) in H.
  assert (FS : (fs = NotExist /\ no_document e m p) \/ (exists u t, fs = Served p (FromFile u t) /\ uris m p = Some u /\ is_synthetic u = false /\ e_read e u = Some t /\ large (List.length t) = false) \/ fs = Failed).
  { unfold fs, check_fs, no_document. destruct (uris m p) as [u|]; [|now left; split; [|left]]. destruct (is_synthetic u) eqn:S; [left; split; [reflexivity|right; eauto]|].
    destruct (e_read e u) as [t|] eqn:R; [|left; split; [reflexivity|right; eauto]]. destruct (large (List.length t)) eqn:L; [right; now right|]. right. left. exists u, t. auto. }
  destruct FS as [[-> ND]|[(u & t & -> & FS)| -> ]].
  - right. destruct (check_module e m p) as [m2 a] eqn:C.
    destruct a as [r' o'| | |]; [left|right|right|discriminate].
    + auto.
    + pose proof (check_module_same e m p m2 _ C (or_introl eq_refl)); subst m2.
      destruct (beq (path_base p) (b_ "gogo.proto")) eqn:B; [|discriminate]. apply beq_eq in B.
      destruct (check_module e m gogo_proto) as [m4 [r' o'| | |]]; try discriminate. repeat (split; eauto).
    + pose proof (check_module_same e m p m2 _ C (or_intror eq_refl)); subst m2.
      destruct (beq (path_base p) (b_ "gogo.proto")) eqn:B; [|discriminate]. apply beq_eq in B.
      destruct (check_module e m gogo_proto) as [m4 [r' o'| | |]]; try discriminate. repeat (split; eauto).
  - left. injection H as <- <- <-. split; [reflexivity|]. split; [reflexivity|]. split; [reflexivity|]. exists u, t. auto.
  - discriminate.
Qed.

Lemma synthetic_inj n p q : synthetic_uri n p = synthetic_uri n q -> p = q.
Proof. unfold synthetic_uri. intro H. apply app_inv_head in H. now apply app_inv_tail in H. Qed.
Lemma synthetic_is n p : is_synthetic (synthetic_uri n p) = true.
Proof. unfold is_synthetic, synthetic_uri. apply has_prefix_spec. eauto. Qed.
Lemma synthetic_ne n p : synthetic_uri n p <> [].
Proof. discriminate. Qed.

(** reachable states: only printed registry files have text, and their paths lead to them *)
Definition tidy (e : env) (m : maps) : Prop :=
  forall u t, synth m u = Some t -> exists q, u = synthetic_uri (e_name e) q /\ well_known q = true /\ uris m q = Some u /\ e_registry e q = Some t.
Lemma tidy_init e : tidy e init.
Proof. intros u t. discriminate. Qed.
Lemma tidy_bind e m u p s : tidy e m -> well_known p = false -> tidy e (bind m u p s).
Proof.
  intros T W v t H. cbn in H. destruct (T v t H) as (q & -> & Wq & U & R). exists q. split; [reflexivity|]. split; [exact Wq|]. split; [|exact R].
  cbn. rewrite bset_other; [exact U|]. intros ->. congruence.
Qed.
Lemma tidy_global e m p : tidy e m -> well_known p = true -> tidy e (fst (check_global e m p)).
Proof.
  intros T W. unfold check_global. destruct (e_registry e p) as [text|] eqn:R; [|exact T].
  destruct (synth m _) eqn:S; [exact T|]. intros u t H. cbn in H. apply bset_inv in H. destruct H as [[-> [= <-]]|[N H]].
  - exists p. repeat (split; auto). cbn. apply bset_same.
  - destruct (T u t H) as (q & -> & Wq & U & Rq). exists q. split; [reflexivity|]. split; [exact Wq|]. split; [|exact Rq].
    cbn. rewrite bset_other; [exact U|]. intros ->. congruence.
Qed.
Lemma tidy_module e m p : alternates_plain e -> tidy e m -> well_known p = false -> tidy e (fst (check_module e m p)).
Proof.
  intros A T W. unfold check_module. destruct (e_has_module e); [|exact T]. cbn [negb].
  destruct (has_prefix p gogo_prefix).
  { unfold check_well_known. destruct (well_known (skipn _ p)) eqn:X; [now apply tidy_global|exact T]. }
  destruct (e_module e p) as [| |u opens local|alt d] eqn:M; try exact T.
  - destruct opens; [|exact T]. now apply tidy_bind.
  - set (r := match alt with Some a => a | None => p end).
    assert (Wr : well_known r = false) by (unfold r; destruct alt; [now apply (A _ _ _ M)|exact W]).
    destruct (match uris m r with Some u => synth m u | None => synth m [] end); [exact T|].
    destruct d; [now apply tidy_bind|exact T].
Qed.
Lemma fst_of {A B} (x : A * B) a b : x = (a, b) -> fst x = a. Proof. now intros ->. Qed.
Lemma tidy_find e m p : alternates_plain e -> tidy e m -> tidy e (fst (find_file e m p)).
Proof.
  intros A T. destruct (well_known p) eqn:W.
  { rewrite find_file_well_known by exact W. now apply tidy_global. }
  unfold find_file, check_well_known. rewrite W.
  destruct (if match uris m p with Some u => is_synthetic u | None => false end then NotExist else check_fs e m p); try exact T.
  pose proof (tidy_module e m p A T W) as T2. destruct (check_module e m p) as [m2 a]. cbn in T2.
  assert (G : tidy e (fst (if beq (path_base p) (b_ "gogo.proto")
     then match check_module e m2 gogo_proto with (m4, Served r o) => (m4, Served r o) | (m4, _) => (m4, NotExist) end else (m2, NotExist)))).
  { destruct (beq _ _); [|exact T2]. pose proof (tidy_module e m2 gogo_proto A T2 eq_refl) as T4.
    destruct (check_module e m2 gogo_proto) as [m4 [| | |]]; exact T4. }
  destruct a; try exact T2; exact G.
Qed.
Lemma tidy_lookups e ps : alternates_plain e -> tidy e (lookups e ps).
Proof.
  intro A. unfold lookups. assert (G : forall m, tidy e m -> tidy e (fold_left (fun m p => fst (find_file e m p)) ps m)).
  { induction ps as [|p ps IH]; intros m T; [exact T|]. cbn. apply IH. now apply tidy_find. }
  apply G. apply tidy_init.
Qed.

(** C65 *)
Lemma global_serves e m p m' r o : tidy e m -> check_global e m p = (m', Served r o) -> exists u, uris m' r = Some u /\ serves m' u o.
Proof.
  intros T H. unfold check_global in H. destruct (e_registry e p) as [text|] eqn:R; [|discriminate].
  destruct (synth m _) as [t|] eqn:S; injection H as <- <- <-.
  - destruct (T _ _ S) as (q & E & _ & U & _). apply synthetic_inj in E. subst q. eauto.
  - exists (synthetic_uri (e_name e) p). cbn. split; apply bset_same.
Qed.
Lemma module_serves e m p m' r o : tidy e m -> check_module e m p = (m', Served r o) -> exists u, uris m' r = Some u /\ serves m' u o.
Proof.
  intros T H. unfold check_module in H. destruct (e_has_module e); [|discriminate]. cbn [negb] in H.
  destruct (has_prefix p gogo_prefix).
  { unfold check_well_known in H. destruct (well_known _); [|discriminate]. now apply global_serves in H. }
  destruct (e_module e p) as [| |u opens local|alt d] eqn:M; try discriminate.
  - destruct opens; [|discriminate]. injection H as <- <- <-. exists u. cbn. split; [apply bset_same|reflexivity].
  - set (x := match alt with Some a => a | None => p end) in H.
    destruct (uris m x) as [u|] eqn:U.
    + destruct (synth m u) as [t|] eqn:S; [injection H as <- <- <-; eauto|].
      destruct d; [|discriminate]. injection H as <- <- <-. exists (synthetic_uri (e_name e) x). cbn. split; [apply bset_same|apply synthetic_is].
    + destruct (synth m []) as [t|] eqn:S.
      { destruct (T _ _ S) as (q & E & _). discriminate. }
      destruct d; [|discriminate]. injection H as <- <- <-. exists (synthetic_uri (e_name e) x). cbn. split; [apply bset_same|apply synthetic_is].
Qed.
Lemma find_serves e m p m' r o : tidy e m -> find_file e m p = (m', Served r o) -> exists u, uris m' r = Some u /\ serves m' u o.
Proof.
  intros T H. apply served_cases in H. destruct H as [(_ & H)|[(_ & -> & -> & u & t & -> & U & _)|[(_ & _ & H)|(_ & _ & _ & _ & H)]]].
  - now apply global_serves in H.
  - exists u. now split.
  - now apply module_serves in H.
  - now apply module_serves in H.
Qed.

(** C64: asking again *)
Lemma global_again e m p m' r o : check_global e m p = (m', Served r o) -> check_global e m' p = (m', Served r o).
Proof.
  intro H. unfold check_global in *. destruct (e_registry e p) as [text|]; [|discriminate].
  destruct (synth m _) as [t|] eqn:S; injection H as <- <- <-; [now rewrite S|]. cbn. now rewrite bset_same.
Qed.
Lemma module_not_found_again e m m' p a : check_module e m p = (m, a) -> a = NotExist \/ a = NoModule -> check_module e m' p = (m', a).
Proof.
  unfold check_module. intros H Ha. destruct (e_has_module e); cbn [negb] in *; [|congruence].
  destruct (has_prefix p gogo_prefix).
  { unfold check_well_known in *. destruct (well_known _); [|congruence]. unfold check_global in *.
    destruct (e_registry e _); [destruct (synth m _)|]; injection H; intros; subst a; destruct Ha; discriminate. }
  destruct (e_module e p) as [| |u opens local|alt d]; try congruence.
  - destruct opens; [|congruence]. injection H; intros; subst a. destruct Ha; discriminate.
  - destruct (match uris m _ with Some u => synth m u | None => synth m [] end).
    + injection H; intros; subst a. destruct Ha; discriminate.
    + destruct d; injection H; intros; subst a; destruct Ha; discriminate.
Qed.
Lemma fs_none e m p : no_document e m p ->
  (if match uris m p with Some u => is_synthetic u | None => false end then NotExist else check_fs e m p) = NotExist.
Proof.
  unfold check_fs. intros [->|(u & -> & [S|R])]; [reflexivity|now rewrite S|]. destruct (is_synthetic u); [reflexivity|now rewrite R].
Qed.
(** what a module lookup leads to next time *)
Lemma module_again e m p m' r o : alternates_plain e -> modules_readable e -> tidy e m -> well_known p = false ->
  check_module e m p = (m', Served r o) ->
  (exists u, o = FromModule u /\ r = p /\ uris m' p = Some u /\ is_synthetic u = false /\ exists t, e_read e u = Some t /\ large (List.length t) = false) \/
  (snd (check_module e m' p) = Served r o /\ (uris m' p = uris m p \/ uris m' p = Some (synthetic_uri (e_name e) p))).
Proof.
  intros A R T W H. unfold check_module in H. destruct (e_has_module e) eqn:HM; cbn [negb] in H; [|discriminate].
  destruct (has_prefix p gogo_prefix) eqn:GP.
  { right. unfold check_well_known in H. set (q := skipn (List.length gogo_prefix) p) in *. destruct (well_known q) eqn:X; [|discriminate].
    split.
    - unfold check_module. rewrite HM, GP. cbn [negb]. unfold check_well_known. fold q. rewrite X. apply global_again in H. now rewrite H.
    - left. unfold check_global in H. destruct (e_registry e _); [|discriminate]. destruct (synth m _); injection H as <- <- <-; [reflexivity|].
      cbn [bind uris]. apply bset_other. intro E. rewrite <- E in X. congruence. }
  destruct (e_module e p) as [| |u opens local|alt d] eqn:M; try discriminate.
  - destruct opens; [|discriminate]. injection H as <- <- <-. left. exists u. destruct (R _ _ _ M) as (S & t & Rt).
    split; [reflexivity|]. split; [reflexivity|]. split; [cbn; apply bset_same|]. split; [exact S|]. eauto.
  - right. set (x := match alt with Some a => a | None => p end) in H.
    assert (Wx : well_known x = false) by (unfold x; destruct alt; [now apply (A _ _ _ M)|exact W]).
    assert (SX : synth m (synthetic_uri (e_name e) x) = None).
    { destruct (synth m (synthetic_uri (e_name e) x)) as [t|] eqn:E; [|reflexivity]. destruct (T _ _ E) as (q & X & Wq & _). apply synthetic_inj in X. congruence. }
    destruct (match uris m x with Some u => synth m u | None => synth m [] end) as [t|] eqn:S.
    + injection H as <- <- <-. split; [|now left]. unfold check_module. rewrite HM, GP, M. cbn [negb]. fold x. now rewrite S.
    + destruct d as [y|]; [|discriminate]. injection H as <- <- <-. split.
      * unfold check_module. rewrite HM, GP, M. cbn [negb]. fold x. cbn [bind uris synth]. rewrite bset_same, SX. reflexivity.
      * cbn. unfold bset. destruct (beq p x) eqn:E; [|now left]. apply beq_eq in E. rewrite E. now right.
Qed.
Lemma find_again e m p m' r o : alternates_plain e -> modules_readable e -> tidy e m ->
  find_file e m p = (m', Served r o) -> exists o', snd (find_file e m' p) = Served r o' /\ same_document o o'.
Proof.
  intros A R T H. pose proof (served_cases _ _ _ _ _ _ H) as C.
  destruct C as [(W & C)|[(W & -> & -> & u & t & -> & U & S & Rd & L)|[(W & ND & C)|(W & ND & (a & Ca & Ha) & B & C)]]].
  - exists o. rewrite find_file_well_known by exact W. apply global_again in C as C2. rewrite C2. split; [reflexivity|].
    unfold check_global in C. destruct (e_registry e p); [|discriminate]. destruct (synth m _); injection C as <- <- <-; reflexivity.
  - exists (FromFile u t). rewrite H. split; reflexivity.
  - assert (C' := C). apply module_again in C; auto. destruct C as [(u & -> & -> & U & S & t & Rd & L)|(C & U)].
    + exists (FromFile u t). erewrite find_file_document by eassumption. split; reflexivity.
    + exists o. split.
      * assert (ND' : no_document e m' p).
        { destruct U as [U|U]; unfold no_document; rewrite U; [exact ND|]. right. eexists. split; [reflexivity|]. left. apply synthetic_is. }
        unfold find_file, check_well_known. rewrite W, (fs_none e m' p ND').
        destruct (check_module e m' p) as [m2 a]. cbn in C. subst a. reflexivity.
      * unfold check_module in C'. destruct (e_has_module e); [|discriminate]. cbn [negb] in C'.
        destruct (has_prefix p gogo_prefix).
        { unfold check_well_known in C'. destruct (well_known (skipn (List.length gogo_prefix) p)); [|discriminate]. unfold check_global in C'.
          destruct (e_registry e _); [|discriminate]. destruct (synth m _); injection C' as <- <- <-; reflexivity. }
        destruct (e_module e p) as [| |u opens local|alt d]; try discriminate.
        -- destruct opens; [|discriminate]. injection C' as <- <- <-. reflexivity.
        -- destruct (match uris m _ with Some u => synth m u | None => synth m [] end); [injection C' as <- <- <-; reflexivity|].
           destruct d; [|discriminate]. injection C' as <- <- <-. reflexivity.
  - assert (Np : p <> gogo_proto).
    { intros ->. rewrite Ca in C. injection C as _ X. subst a. destruct Ha; discriminate. }
    assert (HM : e_has_module e = true). { destruct (e_has_module e) eqn:X; [reflexivity|]. unfold check_module in C. rewrite X in C. discriminate. }
    assert (ND' : forall m1, uris m1 p = uris m p -> no_document e m1 p) by (intros m1 X; unfold no_document; now rewrite X).
    unfold check_module in C. rewrite HM in C. change (has_prefix gogo_proto gogo_prefix) with false in C. cbn [negb] in C.
    assert (FF : forall m1, uris m1 p = uris m p -> snd (find_file e m1 p) = match snd (check_module e m1 gogo_proto) with Served r o => Served r o | _ => NotExist end).
    { intros m1 X. unfold find_file, check_well_known. rewrite W, (fs_none e m1 p (ND' m1 X)).
      rewrite (module_not_found_again e m m1 p a Ca Ha). rewrite B. change (beq (b_ "gogo.proto") (b_ "gogo.proto")) with true.
      destruct Ha as [-> | ->]; destruct (check_module e m1 gogo_proto) as [m4 [r4 o4| | |]]; reflexivity. }
    destruct (e_module e gogo_proto) as [| |u opens local|alt d] eqn:M; try discriminate.
    + destruct opens; [|discriminate]. injection C as <- <- <-. exists (FromModule u).
      rewrite FF by (cbn; now apply bset_other). unfold check_module. rewrite HM, M. change (has_prefix gogo_proto gogo_prefix) with false. split; reflexivity.
    + set (x := match alt with Some a => a | None => gogo_proto end) in C.
      assert (Wx : well_known x = false) by (unfold x; destruct alt; [now apply (A _ _ _ M)|reflexivity]).
      assert (SX : synth m (synthetic_uri (e_name e) x) = None).
      { destruct (synth m (synthetic_uri (e_name e) x)) as [t|] eqn:E; [|reflexivity]. destruct (T _ _ E) as (q & X & Wq & _). apply synthetic_inj in X. congruence. }
      destruct (match uris m x with Some u => synth m u | None => synth m [] end) as [t|] eqn:S.
      * injection C as <- <- <-. exists (FromSynthetic t). rewrite FF by reflexivity. unfold check_module. rewrite HM, M.
        change (has_prefix gogo_proto gogo_prefix) with false. cbn [negb]. fold x. rewrite S. split; reflexivity.
      * destruct d as [y|]; [|discriminate]. injection C as <- <- <-. exists (FromDescriptor y).
        assert (ND2 : no_document e (bind m (synthetic_uri (e_name e) x) x (Some SyntheticSource)) p).
        { unfold no_document. cbn. unfold bset. destruct (beq p x); [|exact ND]. right. eexists. split; [reflexivity|]. left. apply synthetic_is. }
        unfold find_file, check_well_known. rewrite W, (fs_none e _ p ND2).
        rewrite (module_not_found_again e m _ p a Ca Ha). rewrite B. change (beq (b_ "gogo.proto") (b_ "gogo.proto")) with true.
        assert (Q : snd (check_module e (bind m (synthetic_uri (e_name e) x) x (Some SyntheticSource)) gogo_proto) = Served x (FromDescriptor y)).
        { unfold check_module. rewrite HM, M. change (has_prefix gogo_proto gogo_prefix) with false. cbn [negb]. fold x.
          cbn [bind uris synth]. now rewrite bset_same, SX. }
        destruct (check_module e _ gogo_proto) as [m4 a4]. cbn in Q. subst a4. destruct Ha as [-> | ->]; split; reflexivity.
Qed.

(** ** C66 *)
Lemma locate_sibling regular d g q : q <> [] -> Forall normal d -> Forall normal q -> ~ In slash g ->
  regular (abs (d ++ q)) = true -> locate regular (rel q) (abs (d ++ [g])) = Some (abs (d ++ q)).
Proof.
  intros N Hd Hq Hg R. unfold locate, is_local. rewrite rooted_rel, clean_rel, split_rel by assumption.
  pose proof (rel_ne q N Hq) as NE. rewrite (proj2 (beq_neq _ _) NE). cbn [negb andb].
  destruct q as [|c q]; [congruence|]. inversion Hq as [|? ? (_ & _ & N3 & _) _]; subst. rewrite (proj2 (beq_neq _ _) N3). cbn [negb].
  unfold candidates. rewrite dir_abs, join_abs by (auto; discriminate). cbn [find]. now rewrite R.
Qed.
Lemma locate_parent regular d n g q : Forall normal (d ++ [n]) -> Forall normal (n :: q) -> ~ In slash g -> q <> [] ->
  regular (abs ((d ++ [n]) ++ n :: q)) = false -> regular (abs (d ++ n :: q)) = true ->
  locate regular (rel (n :: q)) (abs ((d ++ [n]) ++ [g])) = Some (abs (d ++ n :: q)).
Proof.
  intros Hd Hq Hg N R R'. assert (NN : n :: q <> []) by discriminate. unfold locate, is_local. rewrite rooted_rel, clean_rel, split_rel by assumption.
  pose proof (rel_ne (n :: q) ltac:(discriminate) Hq) as NE. rewrite (proj2 (beq_neq _ _) NE). cbn [negb andb].
  inversion Hq as [|? ? (N1 & N2 & N3 & N4) _]; subst. rewrite (proj2 (beq_neq _ _) N3). cbn [negb].
  assert (Hd' : Forall normal d) by now apply Forall_app in Hd.
  unfold candidates. rewrite split_rel, dir_abs, join_abs by (auto; discriminate). rewrite base_abs by (auto; now apply normal_slash). rewrite beq_refl, (proj2 (beq_neq _ _) N1).
  destruct q as [|x q]; [congruence|]. cbn [negb andb app find]. rewrite R. rewrite dir_abs, join_abs by (auto; try discriminate; now apply normal_slash). now rewrite R'.
Qed.
Lemma not_local q : Forall normal q -> is_local (join_with slash (dot2 :: q)) = false.
Proof.
  intro Hq. assert (E : split_on slash (join_with slash (dot2 :: q)) = dot2 :: q).
  { apply split_join; [discriminate|]. intros w [<-|Hw]; [intros [X|[X|[]]]; discriminate|]. exact (normals_slash q Hq w Hw). }
  assert (R : is_rooted (join_with slash (dot2 :: q)) = false) by now destruct q.
  assert (C : path_clean (join_with slash (dot2 :: q)) = join_with slash (dot2 :: q)).
  { unfold path_clean. rewrite R, E. cbn [clean_comps]. change (beq dot2 []) with false. change (beq dot2 dot1) with false. change (beq dot2 dot2) with true. cbn [orb]. rewrite clean_normal by exact Hq. reflexivity. }
  unfold is_local. rewrite C, E. change (beq dot2 dot2) with true. cbn [negb]. apply andb_false_r.
Qed.
Lemma file_not_synthetic f : is_synthetic (uri_of_file f) = false. Proof. reflexivity. Qed.
Lemma uri_of_file_scheme f : has_prefix (uri_of_file f) file_scheme = true.
Proof. apply has_prefix_spec. now exists f. Qed.

(** ** C68 *)
Lemma join_all_abs cs : Forall normal cs -> cs <> [] -> join_all ([slash] :: cs) = abs cs.
Proof.
  intros H N. unfold join_all. cbn [filter]. change (beq [slash] []) with false. cbn [negb].
  assert (E : filter (fun c : bytes => negb (beq c [])) cs = cs).
  { clear N. induction cs as [|c l IH]; [reflexivity|]. inversion H as [|? ? (Nc & _) F']; subst. cbn [filter].
    rewrite (proj2 (beq_neq _ _) Nc). cbn. now rewrite IH. }
  rewrite E, join_cons by exact N. change ([slash] ++ slash :: join_with slash cs) with (slash :: slash :: rel cs).
  unfold path_clean. rewrite rooted_cons. cbn [split_on]. rewrite !Ascii.eqb_refl, split_rel by assumption.
  cbn [clean_comps]. change (beq [] []) with true. cbn [orb]. now rewrite clean_normal.
Qed.

Lemma in_place_shape x t0 z tl base :
  exists y, append_in_place (x ++ t0 :: z) (List.length x) (t0 :: tl) base = x ++ t0 :: y /\ List.length y = List.length z.
Proof.
  unfold append_in_place. rewrite app_length. cbn [List.length].
  destruct (List.length x + S (List.length tl) <=? List.length x + S (List.length z)) eqn:E1; [|eauto].
  apply Nat.leb_le in E1.
  assert (P1 : overwrite (x ++ t0 :: z) (List.length x) (t0 :: tl) = x ++ t0 :: tl ++ skipn (List.length tl) z).
  { unfold overwrite. rewrite firstn_app_len, skipn_shift. reflexivity. }
  rewrite P1. destruct (List.length x + S (List.length tl) + 1 <=? List.length x + S (List.length z)) eqn:E2.
  - apply Nat.leb_le in E2. unfold overwrite. cbn [List.length].
    assert (L : List.length x + S (List.length tl) = List.length (x ++ t0 :: tl)) by (rewrite app_length; reflexivity).
    replace (x ++ t0 :: tl ++ skipn (List.length tl) z) with ((x ++ t0 :: tl) ++ skipn (List.length tl) z) by (now rewrite <- app_assoc).
    rewrite L, firstn_app_len, skipn_shift. eexists. rewrite <- app_assoc. split; [reflexivity|].
    cbn [app]. rewrite !app_length. cbn [List.length]. rewrite !skipn_length. lia.
  - apply Nat.leb_gt in E2. eexists. split; [reflexivity|]. rewrite app_length, skipn_length. lia.
Qed.
Lemma agreement_cut t0 y z : forall tl x, ~ In t0 tl -> agreement tl (x ++ t0 :: y) = agreement tl (x ++ t0 :: z).
Proof.
  induction tl as [|t tl IH]; intros x H; [reflexivity|]. destruct x as [|c x]; cbn [app agreement].
  - rewrite (proj2 (beq_neq t t0)); [reflexivity|]. intros ->. apply H. now left.
  - destruct (beq t c); [|reflexivity]. f_equal. apply IH. intro X. apply H. now right.
Qed.
Lemma agreement_cut1 t0 tl c x y z : ~ In t0 tl -> agreement (t0 :: tl) (c :: x ++ t0 :: y) = agreement (t0 :: tl) (c :: x ++ t0 :: z).
Proof. intro H. cbn [agreement]. destruct (beq t0 c); [|reflexivity]. f_equal. now apply agreement_cut. Qed.
Lemma agreement_pos t0 tl l : 0 < agreement (t0 :: tl) l <-> exists z, l = t0 :: z.
Proof.
  destruct l as [|y l]; cbn [agreement]; [split; [lia|intros [z E]; discriminate]|].
  destruct (beq t0 y) eqn:E; split; intro H; try lia.
  - apply beq_eq in E. subst. eauto.
  - destruct H as [z [= -> ->]]. rewrite beq_refl in E. discriminate.
Qed.

Lemma matches_S n offset parts target base : suffix_matches (S n) offset parts target base =
  let start := List.length parts - offset in
  let sc := agreement target (skipn start parts) in
  if 0 <? sc then (join_all (firstn start parts ++ target ++ [base]), sc)
                  :: suffix_matches n (S offset) (append_in_place parts start target base) target base
  else suffix_matches n (S offset) parts target base.
Proof. reflexivity. Qed.

Section Suffix.
Variables (t0 : bytes) (tl : list bytes) (base : bytes).
Let target := t0 :: tl.
(** the lookups from [start] down to 0 over an array that agrees with [orig] up to and including [start] *)
Lemma matches_exact : forall start parts orig, start < List.length orig -> List.length parts = List.length orig ->
  firstn (S start) parts = firstn (S start) orig ->
  (forall c s, In (c, s) (suffix_matches (S start) (List.length orig - start) parts target base) ->
     exists k, k <= start /\ 0 < agreement target (skipn k orig) /\ c = join_all (firstn k orig ++ target ++ [base])) /\
  (forall k, k <= start -> 0 < agreement target (skipn k orig) ->
     exists s, In (join_all (firstn k orig ++ target ++ [base]), s) (suffix_matches (S start) (List.length orig - start) parts target base)).
Proof.
  induction start as [|start IH]; intros parts orig Hs HL HF.
  - assert (E : suffix_matches 1 (List.length orig - 0) parts target base =
      let sc := agreement target parts in if 0 <? sc then [(join_all (target ++ [base]), sc)] else []).
    { cbn [suffix_matches]. replace (List.length parts - (List.length orig - 0)) with 0 by lia. reflexivity. }
    rewrite E. cbv zeta. clear E.
    assert (H0 : 0 < agreement target parts <-> 0 < agreement target orig).
    { destruct parts as [|a parts], orig as [|b orig]; cbn in HL; try lia. cbn in HF. injection HF as ->.
      unfold target. rewrite !agreement_pos. split; intros [z Ez]; injection Ez as -> _; eauto. }
    split.
    + intros c s H. destruct (0 <? agreement target parts) eqn:P; [|destruct H]. destruct H as [[= <- <-]|[]].
      apply Nat.ltb_lt in P. exists 0. split; [lia|]. cbn [skipn firstn app]. split; [now apply H0|reflexivity].
    + intros k Hk H. replace k with 0 in * by lia. cbn [skipn firstn app] in *.
      apply H0 in H. rewrite (proj2 (Nat.ltb_lt _ _) H). eexists. now left.
  - assert (Hst : List.length parts - (List.length orig - S start) = S start) by lia.
    assert (Off : S (List.length orig - S start) = List.length orig - start) by lia.
    assert (Hhd : 0 < agreement target (skipn (S start) parts) <-> 0 < agreement target (skipn (S start) orig)).
    { assert (N : nth_error parts (S start) = nth_error orig (S start)).
      { rewrite <- (firstn_skipn (S (S start)) parts), <- (firstn_skipn (S (S start)) orig), HF.
        rewrite !nth_error_app1; [reflexivity| |]; rewrite firstn_length; lia. }
      unfold target. rewrite !agreement_pos.
      assert (G : forall l : list bytes, (exists z, skipn (S start) l = t0 :: z) <-> nth_error l (S start) = Some t0).
      { clear. generalize (S start). intros n l. revert n. induction l as [|a l IH]; intros [|n]; cbn.
        - split; [intros [z H]; discriminate|discriminate].
        - split; [intros [z H]; discriminate|discriminate].
        - split; [intros [z [= -> _]]; reflexivity|intros [= ->]; eauto].
        - apply IH. }
      now rewrite !G, N. }
    assert (Fk : forall k, k <= S start -> firstn k parts = firstn k orig).
    { intros k Hk. replace k with (Nat.min k (S (S start))) by lia. now rewrite <- !firstn_firstn, HF. }
    rewrite matches_S. cbv zeta. rewrite Hst, Off.
    destruct (0 <? agreement target (skipn (S start) parts)) eqn:P.
    + apply Nat.ltb_lt in P. assert (P' := P). unfold target in P'. apply agreement_pos in P'. destruct P' as [z Ez].
      assert (Sh : parts = firstn (S start) parts ++ t0 :: z) by (rewrite <- Ez; symmetry; apply firstn_skipn).
      assert (Lx : List.length (firstn (S start) parts) = S start) by (rewrite firstn_length; lia).
      destruct (in_place_shape (firstn (S start) parts) t0 z tl base) as (y & Ey & Ly). rewrite <- Sh, Lx in Ey.
      fold target in Ey. rewrite Ey.
      assert (HL' : List.length (firstn (S start) parts ++ t0 :: y) = List.length orig).
      { rewrite <- HL. rewrite Sh at 2. rewrite !app_length. cbn. lia. }
      assert (HF' : firstn (S start) (firstn (S start) parts ++ t0 :: y) = firstn (S start) orig).
      { rewrite firstn_app, firstn_firstn, Nat.min_id, Lx, Nat.sub_diag. rewrite (firstn_O (t0 :: y)), app_nil_r. apply Fk. lia. }
      destruct (IH _ orig ltac:(lia) HL' HF') as [I1 I2]. split.
      * intros c s [E|H].
        -- apply (f_equal fst) in E. cbn [fst] in E. subst c. exists (S start). split; [lia|]. split; [now apply Hhd|]. now rewrite (Fk (S start)) by lia.
        -- destruct (I1 c s H) as (k & Hk & Hp & Ec). exists k. split; [lia|]. auto.
      * intros k Hk Hp. destruct (Nat.eq_dec k (S start)) as [->|N].
        -- eexists. left. now rewrite (Fk (S start)) by lia.
        -- destruct (I2 k ltac:(lia) Hp) as [s Hin]. exists s. now right.
    + assert (P' : ~ 0 < agreement target (skipn (S start) parts)) by (apply Nat.ltb_ge in P; lia).
      destruct (IH parts orig ltac:(lia) HL ltac:(apply Fk; lia)) as [I1 I2]. split.
      * intros c s H. destruct (I1 c s H) as (k & Hk & Hp & Ec). exists k. split; [lia|]. auto.
      * intros k Hk Hp. destruct (Nat.eq_dec k (S start)) as [->|N]; [elim P'; now apply Hhd|]. apply I2; [lia|exact Hp].
Qed.
(** with distinct components in the target the scores are those of the original *)
Lemma matches_scores : ~ In t0 tl -> forall start parts orig, start < List.length orig -> List.length parts = List.length orig ->
  (forall k, k <= start -> agreement target (skipn k parts) = agreement target (skipn k orig)) ->
  (forall s c, In (c, s) (suffix_matches (S start) (List.length orig - start) parts target base) ->
     exists k, k <= start /\ s = agreement target (skipn k orig) /\ 0 < s /\ c = join_all (firstn k parts ++ target ++ [base])) /\
  (forall k, k <= start -> 0 < agreement target (skipn k orig) ->
     exists c, In (c, agreement target (skipn k orig)) (suffix_matches (S start) (List.length orig - start) parts target base)).
Proof.
  intro ND. induction start as [|start IH]; intros parts orig Hs HL HA.
  - rewrite matches_S. cbv zeta. replace (List.length parts - (List.length orig - 0)) with 0 by lia. cbn [skipn firstn app suffix_matches].
    pose proof (HA 0 (Nat.le_refl 0)) as H0. cbn [skipn] in H0. rewrite H0. destruct (0 <? agreement target orig) eqn:P.
    + apply Nat.ltb_lt in P. split.
      * intros s c [E|[]]. pose proof (f_equal fst E) as E1. pose proof (f_equal snd E) as E2. cbn [fst snd] in E1, E2. subst c s.
        exists 0. auto.
      * intros k Hk _. replace k with 0 by lia. eexists. now left.
    + apply Nat.ltb_ge in P. split; [intros s c []|]. intros k Hk Hp. replace k with 0 in Hp by lia. cbn [skipn] in Hp. lia.
  - rewrite matches_S. cbv zeta.
    replace (List.length parts - (List.length orig - S start)) with (S start) by lia.
    replace (S (List.length orig - S start)) with (List.length orig - start) by lia.
    destruct (0 <? agreement target (skipn (S start) parts)) eqn:P.
    + apply Nat.ltb_lt in P. assert (P' := P). unfold target in P'. apply agreement_pos in P'. destruct P' as [z Ez].
      assert (Sh : parts = firstn (S start) parts ++ t0 :: z) by (rewrite <- Ez; symmetry; apply firstn_skipn).
      assert (Lx : List.length (firstn (S start) parts) = S start) by (rewrite firstn_length; lia).
      destruct (in_place_shape (firstn (S start) parts) t0 z tl base) as (y & Ey & Ly). rewrite <- Sh, Lx in Ey. fold target in Ey. rewrite Ey.
      destruct (IH (firstn (S start) parts ++ t0 :: y) orig) as [I1 I2]; [lia| | |].
      { rewrite <- HL. rewrite Sh at 2. rewrite !app_length. cbn. lia. }
      { intros k Hk. rewrite <- HA by lia. rewrite Sh at 2.
        assert (SK : forall w, skipn k (firstn (S start) parts ++ w) = skipn k (firstn (S start) parts) ++ w).
        { intro w. rewrite skipn_app, Lx. replace (k - S start) with 0 by lia. reflexivity. }
        rewrite !SK. destruct (skipn k (firstn (S start) parts)) as [|c0 x] eqn:E.
        { assert (Z : List.length (skipn k (firstn (S start) parts)) = 0) by (now rewrite E). rewrite skipn_length, Lx in Z. lia. }
        cbn [app]. unfold target. now apply agreement_cut1. }
      split.
      * intros s c [E|H].
        -- pose proof (f_equal fst E) as E1. pose proof (f_equal snd E) as E2. cbn [fst snd] in E1, E2. subst c s.
           exists (S start). split; [lia|]. split; [apply HA; lia|]. split; [exact P|reflexivity].
        -- destruct (I1 s c H) as (k & Hk & -> & Hp & ->). exists k. split; [lia|]. split; [reflexivity|]. split; [exact Hp|]. f_equal. f_equal.
           rewrite firstn_app, firstn_firstn, Lx. replace (Nat.min k (S start)) with k by lia. replace (k - S start) with 0 by lia. cbn. now rewrite app_nil_r.
      * intros k Hk Hp. destruct (Nat.eq_dec k (S start)) as [->|N].
        -- eexists. left. now rewrite HA by lia.
        -- destruct (I2 k ltac:(lia) Hp) as [c Hc]. exists c. now right.
    + apply Nat.ltb_ge in P. destruct (IH parts orig) as [I1 I2]; [lia|exact HL|intros k Hk; apply HA; lia|]. split.
      * intros s c H. destruct (I1 s c H) as (k & Hk & R). exists k. split; [lia|exact R].
      * intros k Hk Hp. destruct (Nat.eq_dec k (S start)) as [->|N]; [rewrite <- HA in Hp by lia; lia|]. apply I2; [lia|exact Hp].
Qed.
End Suffix.

Lemma best_spec ms : forall cur p, best ms cur = Some p ->
  exists s, (In (p, s) ms \/ cur = Some (p, s)) /\ (forall q t, In (q, t) ms \/ cur = Some (q, t) -> t <= s).
Proof.
  induction ms as [|[q t] r IH]; intros cur p H; cbn [best] in H.
  - destruct cur as [[p' s]|]; [|discriminate]. injection H as ->. exists s. split; [now right|]. intros q t [[]|[= -> ->]]. lia.
  - apply IH in H. destruct H as (s & Hin & Hmax). exists s.
    destruct cur as [[p' t']|].
    + destruct (t' <? t) eqn:L.
      * apply Nat.ltb_lt in L. split.
        -- destruct Hin as [Hin|[= -> ->]]; left; [now right|now left].
        -- pose proof (Hmax q t (or_intror eq_refl)). intros a b [[[= <- <-]|X]|[= <- <-]]; [lia|apply (Hmax a b); now left|lia].
      * apply Nat.ltb_ge in L. split.
        -- destruct Hin as [Hin|[= -> ->]]; [left; now right|now right].
        -- pose proof (Hmax p' t' (or_intror eq_refl)). intros a b [[[= <- <-]|X]|[= <- <-]]; [lia|apply (Hmax a b); now left|lia].
    + split.
      * destruct Hin as [Hin|[= -> ->]]; left; [now right|now left].
      * pose proof (Hmax q t (or_intror eq_refl)). intros a b [[[= <- <-]|X]|X]; [lia|apply (Hmax a b); now left|discriminate].
Qed.
Lemma best_none ms : forall cur, best ms cur = None <-> ms = [] /\ cur = None.
Proof.
  induction ms as [|[q t] r IH]; intro cur; cbn [best].
  - destruct cur as [[]|]; split; try tauto; try discriminate. intros [_ X]. discriminate.
  - rewrite IH. split; [|intros [X _]; discriminate]. intros [_ X]. destruct cur as [[p' t']|]; [destruct (t' <? t)|]; discriminate.
Qed.
Section Matched.
Variables (t0 : bytes) (tl : list bytes) (base : bytes) (src : list bytes) (g : bytes).
Hypothesis Ht : Forall normal (t0 :: tl).
Hypothesis Hb : normal base.
Hypothesis Hs : Forall normal src.
Hypothesis Ns : src <> [].
Hypothesis Hg : ~ In slash g.
Let orig := [slash] :: src.
Lemma matched_unfold : find_suffix_matched (rel ((t0 :: tl) ++ [base])) (abs (src ++ [g])) =
  best (suffix_matches (S (List.length src)) (List.length orig - List.length src) orig (t0 :: tl) base) None.
Proof.
  unfold find_suffix_matched. rewrite (dir_rel (t0 :: tl) base) by (auto; now apply normal_slash).
  rewrite (proj2 (beq_neq _ _)).
  2:{ intro X. pose proof (split_rel (t0 :: tl) ltac:(discriminate) Ht) as E. rewrite X in E. change (split_on slash dot1) with [dot1] in E.
      injection E as <- _. inversion Ht as [|? ? (_ & N & _) _]; subst. now apply N. }
  rewrite dir_abs by auto. rewrite split_abs, split_rel by (auto; discriminate). rewrite base_rel by (solve [now apply normal_ne | now apply normal_slash]).
  replace (List.length orig - List.length src) with 1 by (unfold orig; cbn [List.length]; lia).
  unfold orig. destruct src as [|s0 sr]; [congruence|]. reflexivity.
Qed.
Lemma overlay_iff k : k <= List.length src -> 0 < agreement (t0 :: tl) (skipn k orig) ->
  overlay src (t0 :: tl) base (join_all (firstn k orig ++ (t0 :: tl) ++ [base])) (agreement (t0 :: tl) (skipn k orig)).
Proof.
  intros Hk H. destruct k as [|k].
  - exfalso. cbn [skipn] in H. apply agreement_pos in H. destruct H as [z E]. unfold orig in E.
    apply (f_equal (hd [])) in E. cbn [hd] in E. pose proof (Forall_inv Ht) as N.
    apply (normal_slash _ N). rewrite <- E. now left.
  - unfold orig in *. cbn [skipn firstn] in *. exists (firstn k src), (skipn k src). split; [symmetry; apply firstn_skipn|].
    split; [reflexivity|]. split; [exact H|]. cbn [app]. apply join_all_abs.
    + apply Forall_app. split.
      * apply (proj2 (Forall_forall _ _)). intros x Hx. apply (proj1 (Forall_forall _ _) Hs). rewrite <- (firstn_skipn k src). apply in_app_iff. now left.
      * change (t0 :: tl ++ [base]) with ((t0 :: tl) ++ [base]). apply Forall_app. auto.
    + now destruct (firstn k src).
Qed.
Lemma overlay_inv c n : overlay src (t0 :: tl) base c n ->
  exists k, k <= List.length src /\ n = agreement (t0 :: tl) (skipn k orig) /\ 0 < n /\ c = join_all (firstn k orig ++ (t0 :: tl) ++ [base]).
Proof.
  intros (pre & rest & E & -> & Hn & ->). exists (S (List.length pre)).
  assert (HS : skipn (S (List.length pre)) orig = rest) by (unfold orig; cbn [skipn]; rewrite E; apply skipn_app_len).
  assert (HF : firstn (S (List.length pre)) orig = [slash] :: pre) by (unfold orig; cbn [firstn]; rewrite E; now rewrite firstn_app_len).
  split.
  - destruct rest as [|r0 rest]; [cbn in Hn; lia|]. rewrite E, app_length. cbn. lia.
  - rewrite HS, HF. split; [reflexivity|]. split; [exact Hn|]. cbn [app]. symmetry. apply join_all_abs; [|now destruct pre].
    apply Forall_app. split.
    + rewrite E in Hs. now apply Forall_app in Hs.
    + change (t0 :: tl ++ [base]) with ((t0 :: tl) ++ [base]). apply Forall_app. auto.
Qed.
Lemma matched_some c : find_suffix_matched (rel ((t0 :: tl) ++ [base])) (abs (src ++ [g])) = Some c ->
  exists n, overlay src (t0 :: tl) base c n.
Proof.
  rewrite matched_unfold. intro H. apply best_spec in H. destruct H as (s & [H|H] & _); [|discriminate].
  destruct (matches_exact t0 tl base (List.length src) orig orig) as [M _]; [unfold orig; cbn; lia|reflexivity|reflexivity|].
  destruct (M c s H) as (k & Hk & Hp & ->). eexists. now apply overlay_iff.
Qed.
Lemma matched_none : find_suffix_matched (rel ((t0 :: tl) ++ [base])) (abs (src ++ [g])) = None <->
  forall c n, ~ overlay src (t0 :: tl) base c n.
Proof.
  rewrite matched_unfold, best_none.
  destruct (matches_exact t0 tl base (List.length src) orig orig) as [M1 M2]; [unfold orig; cbn; lia|reflexivity|reflexivity|].
  split.
  - intros [E _] c n O. destruct (overlay_inv c n O) as (k & Hk & -> & Hp & _). destruct (M2 k Hk Hp) as [s X].
    rewrite E in X. destruct X.
  - intro H. split; [|reflexivity]. destruct (suffix_matches _ _ _ _ _) as [|[c s] r] eqn:E; [reflexivity|].
    destruct (M1 c s (or_introl eq_refl)) as (k & Hk & Hp & ->). exfalso. exact (H _ _ (overlay_iff k Hk Hp)).
Qed.
Lemma matched_best c : ~ In t0 tl -> find_suffix_matched (rel ((t0 :: tl) ++ [base])) (abs (src ++ [g])) = Some c ->
  exists n, overlay src (t0 :: tl) base c n /\ forall c' n', overlay src (t0 :: tl) base c' n' -> n' <= n.
Proof.
  intros ND. rewrite matched_unfold. intro H. apply best_spec in H. destruct H as (s & [H|H] & Hmax); [|discriminate].
  destruct (matches_exact t0 tl base (List.length src) orig orig) as [M1 M2]; [unfold orig; cbn; lia|reflexivity|reflexivity|].
  destruct (matches_scores t0 tl base ND (List.length src) orig orig) as [S1 S2]; [unfold orig; cbn; lia|reflexivity|reflexivity|].
  exists s. split.
  - destruct (S1 s c H) as (k & Hk & -> & Hp & ->). now apply overlay_iff.
  - intros c' n' O. destruct (overlay_inv c' n' O) as (k & Hk & -> & Hp & _). destruct (S2 k Hk Hp) as [c2 H2]. apply (Hmax c2). now left.
Qed.
End Matched.

(** C66 *)
Definition not_served (a : answer) : Prop := forall r o, a <> Served r o.
Lemma resolve_translated regular lk e m i p m1 a m2 t o :
  find_file e m p = (m1, a) -> not_served a -> translate regular lk m1 i p = (m2, Some t) -> snd (find_file e m2 t) = Served t o ->
  snd (resolve regular lk e m (Some i) p) = Served t o.
Proof.
  intros F N T S. unfold resolve. rewrite F. destruct a as [r' o'| | |]; [now elim (N r' o')| | |];
  rewrite T; destruct (find_file e m2 t) as [m3 a3]; cbn in S; subst a3; reflexivity.
Qed.
Lemma scheme_cut f : skipn (List.length file_scheme) (uri_of_file f) = f.
Proof. reflexivity. Qed.
Lemma translate_local regular lk m i d g q b pkg :
  Forall normal d -> Forall normal (q ++ [b]) -> ~ In slash g ->
  uris m (rel (q ++ [b])) = None -> uris m i = Some (uri_of_file (abs (d ++ [g]))) -> srcs m (uri_of_file (abs (d ++ [g]))) = Some LocalGoModule ->
  regular (abs (d ++ q ++ [b])) = true -> lk (abs (d ++ q ++ [b])) = LPackage pkg ->
  translate regular lk m i (rel (q ++ [b])) =
    (bind m (uri_of_file (abs (d ++ q ++ [b]))) (canonical pkg (abs (d ++ q ++ [b]))) (Some LocalGoModule), Some (canonical pkg (abs (d ++ q ++ [b])))).
Proof.
  intros Hd Hq Hg U I S R L. unfold translate. rewrite U, I, uri_of_file_scheme. cbn [negb].
  rewrite scheme_cut, locate_sibling by (auto; now destruct q). now rewrite S, L.
Qed.
Lemma rel_path_same a : Forall normal a -> rel_path (abs a) (abs a) = Some dot1.
Proof.
  intro H. unfold rel_path. rewrite rooted_abs. cbn [andb]. rewrite comps_abs by exact H.
  pose proof (strip_common_prefix a []) as E. rewrite app_nil_r in E. now rewrite E.
Qed.
Lemma translate_cache regular lk m i d g q b pk g' :
  Forall normal d -> Forall normal (q ++ [b]) -> ~ In slash g -> pk <> [] -> Forall normal pk -> ~ In slash g' ->
  uris m (rel (q ++ [b])) = None -> uris m i = Some (uri_of_file (abs (d ++ [g]))) -> srcs m (uri_of_file (abs (d ++ [g]))) = Some GoModuleCache ->
  paths m (uri_of_file (abs (d ++ [g]))) = Some (rel (pk ++ [g'])) ->
  regular (abs (d ++ q ++ [b])) = true ->
  translate regular lk m i (rel (q ++ [b])) =
    (bind m (uri_of_file (abs (d ++ q ++ [b]))) (rel (pk ++ q ++ [b])) (Some GoModuleCache), Some (rel (pk ++ q ++ [b]))).
Proof.
  intros Hd Hq Hg Np Hp Hg' U I S P R. assert (Hq' := Hq). apply Forall_app in Hq'. destruct Hq' as [Hq0 Hb]. pose proof (Forall_inv Hb) as Hb'.
  unfold translate. rewrite U, I, uri_of_file_scheme. cbn [negb].
  rewrite scheme_cut, locate_sibling by (auto; now destruct q). rewrite S, P.
  rewrite dir_abs by auto. rewrite (app_assoc d q [b]), dir_abs by (try (now apply normal_slash); now apply Forall_app).
  assert (C : exists r, rel_path (abs d) (abs (d ++ q)) = Some r /\ path_join (rel pk) r = rel (pk ++ q)).
  { destruct q as [|c q].
    - exists dot1. rewrite !app_nil_r. split; [now apply rel_path_same|now apply join_rel_dot].
    - exists (rel (c :: q)). split; [apply rel_path_inside; auto; discriminate|apply join_rel; auto; discriminate]. }
  destruct C as (r & -> & C2). rewrite dir_rel by assumption.
  replace (match pk with [] => dot1 | _ => rel pk end) with (rel pk) by (now destruct pk).
  rewrite C2. rewrite base_abs by (solve [now apply normal_ne | now apply normal_slash]).
  assert (J : path_join (rel (pk ++ q)) b = rel (pk ++ q ++ [b])).
  { change b with (rel [b]) at 1. rewrite join_rel; [now rewrite <- app_assoc|now destruct pk|discriminate|now apply Forall_app|exact Hb]. }
  rewrite J. now rewrite <- app_assoc.
Qed.

(** a failed lookup records nothing *)
Lemma global_failed e m p m1 a : check_global e m p = (m1, a) -> not_served a -> m1 = m.
Proof.
  unfold check_global. intros H NS. destruct (e_registry e p); [|congruence].
  destruct (synth m _); injection H as <- <-; exfalso; eapply NS; reflexivity.
Qed.
Lemma well_known_failed e m p m1 a : check_well_known e m p = (m1, a) -> not_served a -> m1 = m.
Proof. unfold check_well_known. intros H NS. destruct (well_known p); [eapply global_failed; eauto|congruence]. Qed.
Lemma module_failed e m p m1 a : check_module e m p = (m1, a) -> not_served a -> m1 = m.
Proof.
  unfold check_module. intros H NS. destruct (negb (e_has_module e)); [congruence|].
  destruct (has_prefix p gogo_prefix); [eapply well_known_failed; eauto|].
  destruct (e_module e p) as [| |u opens l|alt d]; [congruence|congruence|destruct opens; [|congruence]|].
  - injection H as <- <-. exfalso. eapply NS. reflexivity.
  - cbv zeta in H.
    match type of H with match ?x with Some _ => _ | None => _ end = _ => destruct x end.
    + injection H as <- <-. exfalso. eapply NS. reflexivity.
    + destruct d; [|congruence]. injection H as <- <-. exfalso. eapply NS. reflexivity.
Qed.
Lemma find_failed e m p m1 a : find_file e m p = (m1, a) -> not_served a -> m1 = m.
Proof.
  unfold find_file. intros H NS.
  assert (N1 : not_served NotExist) by (intros ? ?; discriminate). assert (N2 : not_served NoModule) by (intros ? ?; discriminate).
  assert (N3 : not_served Failed) by (intros ? ?; discriminate).
  destruct (check_well_known e m p) as [m2 a2] eqn:W.
  assert (W2 : not_served a2 -> m2 = m) by (eapply well_known_failed; eauto).
  destruct a2 as [r o| | |]; [injection H as <- <-; exfalso; eapply NS; reflexivity| |rewrite W2 in * by assumption; congruence|rewrite W2 in * by assumption; congruence].
  specialize (W2 N1). subst m2.
  destruct (if match uris m p with Some u => is_synthetic u | None => false end then NotExist else check_fs e m p) as [r o| | |];
    [injection H as <- <-; exfalso; eapply NS; reflexivity| |congruence|congruence].
  destruct (check_module e m p) as [m3 a3] eqn:M.
  assert (M3 : not_served a3 -> m3 = m) by (eapply module_failed; eauto).
  assert (T : forall x y, (match (if well_known p then check_global e m p else (m, NotExist)) with
              | (m3, NotExist) =>
                  if beq (path_base p) (b_ "gogo.proto") then
                    match check_module e m3 gogo_proto with
                    | (m4, Served r o) => (m4, Served r o)
                    | (m4, _) => (m4, NotExist)
                    end
                  else (m3, NotExist)
              | r => r
              end) = (x, y) -> not_served y -> x = m).
  { intros x y E Ny. destruct (if well_known p then check_global e m p else (m, NotExist)) as [m4 a4] eqn:C.
    assert (C4 : not_served a4 -> m4 = m) by (intros Na; destruct (well_known p); [eapply global_failed; eauto|congruence]).
    destruct a4 as [r o| | |]; [injection E as <- <-; exfalso; eapply Ny; reflexivity| |rewrite C4 in E by assumption; congruence|rewrite C4 in E by assumption; congruence].
    rewrite (C4 N1) in *. destruct (beq (path_base p) (b_ "gogo.proto")); [|congruence].
    destruct (check_module e m gogo_proto) as [m5 a5] eqn:C5. assert (D : not_served a5 -> m5 = m) by (eapply module_failed; eauto).
    destruct a5 as [r o| | |]; [injection E as <- <-; exfalso; eapply Ny; reflexivity| | |]; rewrite D in E by assumption; congruence. }
  destruct a3 as [r o| | |].
  - injection H as <- <-. exfalso. eapply NS. reflexivity.
  - rewrite (M3 N1) in *. eapply T; eauto.
  - rewrite (M3 N2) in *. eapply T; eauto.
  - rewrite (M3 N3) in *. congruence.
Qed.
