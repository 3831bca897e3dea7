(* Columns in two runs of the formatter: aligning a group only adds blanks. *)
From Coq Require Import List Arith Bool ZArith Lia Ascii String.
From Verif Require Import Base Strs.
From Verif.Format Require Import Model Spec Proofs.
From Verif.FormatTree Require Import Model Spec Proofs.
From Verif.Stable Require Import Spec Sim Atoms.
Import ListNotations.
Open Scope list_scope.

Section Cols.
Variable dec : list nat -> nat -> bool.
Variable b : bool.
(* what holds after an element *)
Variable after : pred.
Hypothesis after_one : forall p s, after p s -> p = 1.

Definition seg_w (s : seg) : M := s_ctx s ;; s_type s ;; s_name s ;; s_eq s ;; s_end s.
Definition seg_wr (ts : list token) (s : seg) : Prop :=
  eqM (s_outer s) skip /\ exists t1 t2 t3 t4, ts = t1 ++ t2 ++ t3 ++ t4 /\
    wr b [] (s_ctx s) /\ wr b t1 (s_type s) /\ wr b t2 (s_name s) /\ wr b t3 (s_eq s) /\ wr b t4 (s_end s).
Definition elem_w (lx : bool) (e : elem) : M := match e_kind e with ENone => e_node e | _ => seg_w (e_seg e b lx) end.
Definition elem_wr (lx : bool) (e : elem) : Prop :=
  match e_kind e with ENone => wr b (e_toks e) (e_node e) | _ => e_incomplete e = false /\ seg_wr (e_toks e) (e_seg e b lx) end.
Definition lastx {A} (n : nat) (r : list A) : bool := (n =? 0) && negb (nonempty r).
Fixpoint flat (n : nat) (es : list elem) : M := match es with [] => skip | e :: r => elem_w (lastx n r) e ;; flat n r end.
Fixpoint flat_wr (n : nat) (es : list elem) : Prop := match es with [] => True | e :: r => elem_wr (lastx n r) e /\ flat_wr n r end.
Definition elems_toks (es : list elem) : list token := flat_map e_toks es.

Lemma wr_segw ts s : seg_wr ts s -> wr b ts (seg_w s).
Proof.
  intros (_ & t1 & t2 & t3 & t4 & -> & W0 & W1 & W2 & W3 & W4). apply (wr_seq b []); [exact W0|]. repeat (apply wr_seq; [assumption|]). assumption.
Qed.
Lemma wr_elem lx e : elem_wr lx e -> wr b (e_toks e) (elem_w lx e).
Proof. unfold elem_wr, elem_w. destruct (e_kind e); [auto| |]; intros [_ W]; now apply wr_segw. Qed.
Lemma wr_flat n es : flat_wr n es -> wr b (elems_toks es) (flat n es).
Proof.
  induction es as [|e es IH]; [intros _; apply wr_skip|]. intros [A B]. cbn [flat elems_toks flat_map]. apply wr_seq; [now apply wr_elem|now apply IH].
Qed.

(* what the five writers of a line write *)
Fixpoint segs (n : nat) (es : list elem) (r : fmt) : list segfield :=
  match es with
  | [] => []
  | e :: q =>
      let s := e_seg e b (lastx n q) in
      let r1 := rest (s_ctx s r) in let r2 := rest (s_type s r1) in let r3 := rest (s_name s r2) in let r4 := rest (s_eq s r3) in
      {| ctx := out (s_ctx s r); typeName := out (s_type s r1); fieldName := out (s_name s r2); equalsTag := out (s_eq s r3); lineEnd := out (s_end s r4) |}
      :: segs n q (rest (s_end s r4))
  end.
Lemma drain_run ts m f : wr b ts m -> incompact f = b -> out f = [] ->
  exists f1, drain m f = (out (m (rest f)), f1) /\ out f1 = [] /\ rest f1 = rest (m (rest f)) /\ incompact f1 = b.
Proof.
  intros (F & K & _) I O. destruct (F f I) as [A B]. exists (set_out [] (m f)). unfold drain. rewrite A, O. cbn [app]. split; [reflexivity|]. split; [reflexivity|].
  split; [rewrite <- B; reflexivity|]. exact (K f I).
Qed.
Lemma run_elems_run n es : Forall plain_elem es -> flat_wr n es -> forall outer f fs, incompact f = b -> out f = [] ->
  exists f', run_elems b n es (outer, f, fs) = (outer, f', fs ++ segs n es (rest f)) /\ out f' = [] /\ rest f' = rest (flat n es (rest f)) /\ incompact f' = b.
Proof.
  induction es as [|e es IH]; intros P W outer f fs I O.
  - exists f. cbn. rewrite app_nil_r. auto.
  - inversion P as [|? ? Pe Pes]; subst. destruct W as [We Wes]. cbn [run_elems]. fold (lastx n es). unfold run_elem.
    unfold elem_wr in We. destruct (e_kind e) eqn:K; [exfalso; apply Pe; exact K| |];
    (destruct We as (-> & Eo & t1 & t2 & t3 & t4 & _ & W0 & W1 & W2 & W3 & W4);
     destruct (drain_run _ _ f W0 I O) as (f0 & -> & O0 & R0 & I0); destruct (drain_run _ _ f0 W1 I0 O0) as (f1 & -> & O1 & R1 & I1);
     destruct (drain_run _ _ f1 W2 I1 O1) as (f2 & -> & O2 & R2 & I2); destruct (drain_run _ _ f2 W3 I2 O2) as (f3 & -> & O3 & R3 & I3);
     destruct (drain_run _ _ f3 W4 I3 O3) as (f4 & -> & O4 & R4 & I4); rewrite Eo; unfold skip;
     destruct (IH Pes Wes outer f4 (fs ++ [{| ctx := out (s_ctx (e_seg e b (lastx n es)) (rest f)); typeName := out (s_type (e_seg e b (lastx n es)) (rest f0));
       fieldName := out (s_name (e_seg e b (lastx n es)) (rest f1)); equalsTag := out (s_eq (e_seg e b (lastx n es)) (rest f2)); lineEnd := out (s_end (e_seg e b (lastx n es)) (rest f3)) |}]) I4 O4)
       as (f' & E & O' & R' & I'); exists f'; rewrite E; split; [|split; [exact O'|split; [|exact I']]];
     [cbn [segs]; rewrite R4, R3, R2, R1, R0, <- app_assoc; reflexivity|]).
    all: rewrite R'; cbn [flat]; unfold seq at 1; rewrite R4, R3, R2, R1, R0; unfold elem_w; rewrite K; unfold seg_w;
      pose proof (wr_flat n es Wes) as (Ff & _); set (s := e_seg e b (lastx n es)) in *; unfold seq;
      destruct W0 as (F0 & K0 & _); destruct W1 as (F1 & K1 & _); destruct W2 as (F2 & K2 & _); destruct W3 as (F3 & K3 & _); destruct W4 as (F4 & K4 & _);
      assert (J0 : incompact (s_ctx s (rest f)) = b) by (apply K0; exact I); assert (J1 : incompact (s_type s (s_ctx s (rest f))) = b) by (now apply K1);
      assert (J2 : incompact (s_name s (s_type s (s_ctx s (rest f)))) = b) by (now apply K2); assert (J3 : incompact (s_eq s (s_name s (s_type s (s_ctx s (rest f))))) = b) by (now apply K3);
      rewrite (proj2 (Ff _ (K4 _ J3))), (proj2 (F4 _ J3)), (proj2 (F3 _ J2)), (proj2 (F2 _ J1)), (proj2 (F1 _ J0)); reflexivity.
Qed.

(* a text with blanks added *)
Lemma splits_pad a y vs ks m : splits y vs ks m -> splits (repeat sp a ++ y) vs ks m.
Proof.
  intro S. destruct (blank_spaces a) as [B N]. pose proof (splits_app _ _ _ _ (splits_blank _ B) _ _ _ _ S) as X. rewrite N in X.
  replace (adj 0 ks) with ks in X by (destruct ks; reflexivity). replace (endp 0 ks m) with m in X by (destruct ks; reflexivity). exact X.
Qed.
Lemma lines_split n es : Forall plain_elem es -> flat_wr n es -> Forall goodw (texts (elems_toks es)) -> forall r lines, incompact r = b -> out r = [] -> rest r = r ->
  Forall2 (fun f line => exists ct cf ce, aligned_line ct cf ce f line) (segs n es r) lines ->
  exists hs m, splits (out (flat n es r)) (texts (elems_toks es)) hs m /\ splits (List.concat lines) (texts (elems_toks es)) hs m.
Proof.
  induction es as [|e es IH]; intros P W G r lines I O Er A.
  - inversion A; subst. exists [], 0. cbn. unfold skip. rewrite O. split; apply (splits_blank []); reflexivity.
  - inversion P as [|? ? Pe Pes]; subst. destruct W as [We Wes]. cbn [segs] in A. set (s := e_seg e b (lastx n es)) in *.
    inversion A as [|f line fs ls (ct & cf & ce & a & b' & c & le & -> & Hle & _) Als Ef El]; subst f lines fs. cbn [ctx typeName fieldName equalsTag lineEnd] in *.
    assert (K : elem_wr (lastx n es) e -> exists k, e_kind e = k /\ seg_wr (e_toks e) s /\ elem_w (lastx n es) e = seg_w s).
    { unfold elem_wr, elem_w. destruct (e_kind e) eqn:Ek; [exfalso; apply Pe; exact Ek| |]; intros [_ X]; eauto. }
    destruct (K We) as (_ & _ & (_ & t1 & t2 & t3 & t4 & Et & (F0 & K0 & E0) & (F1 & K1 & E1) & (F2 & K2 & E2) & (F3 & K3 & E3) & (F4 & K4 & E4)) & Ew).
    cbn [flat]. unfold seq at 1. rewrite Ew. unfold seg_w, seq.
    pose proof (wr_flat n es Wes) as (Ff & _ & _).
    assert (J0 : incompact (s_ctx s r) = b) by now apply K0. set (r0 := s_ctx s r) in *.
    assert (J1 : incompact (s_type s r0) = b) by now apply K1. set (r1 := s_type s r0) in *.
    assert (J2 : incompact (s_name s r1) = b) by now apply K2. set (r2 := s_name s r1) in *.
    assert (J3 : incompact (s_eq s r2) = b) by now apply K3. set (r3 := s_eq s r2) in *.
    assert (J4 : incompact (s_end s r3) = b) by now apply K4. set (r4 := s_end s r3) in *.
    assert (Q1 : rest (s_type s (rest r0)) = rest r1) by (symmetry; apply (F1 r0 J0)).
    assert (Q2 : rest (s_name s (rest r1)) = rest r2) by (symmetry; apply (F2 r1 J1)).
    assert (Q3 : rest (s_eq s (rest r2)) = rest r3) by (symmetry; apply (F3 r2 J2)).
    assert (Q4 : rest (s_end s (rest r3)) = rest r4) by (symmetry; apply (F4 r3 J3)).
    rewrite Q1 in *. rewrite Q2 in *. rewrite Q3 in *. rewrite Q4 in *.
    destruct (E0 r I) as (h0 & n0 & S0). rewrite Er in S0. fold r0 in S0. destruct (E1 r0 J0) as (h1 & n1 & S1). destruct (E2 r1 J1) as (h2 & n2 & S2).
    destruct (E3 r2 J2) as (h3 & n3 & S3). destruct (E4 r3 J3) as (h4 & n4 & S4).
    cbn [elems_toks flat_map] in G |- *. rewrite texts_app in G |- *. apply Forall_app in G as [G1 G2].
    destruct (IH Pes Wes G2 (rest r4) ls J4 eq_refl eq_refl Als) as (hs & m & T1 & T2).
    assert (S4' : splits le (texts t4) h4 n4).
    { destruct Hle as [-> | Ele]; [exact S4|]. apply splits_drop; [|rewrite <- Ele; exact S4]. rewrite Et, !texts_app in G1. apply Forall_app in G1 as [_ G1]. apply Forall_app in G1 as [_ G1]. now apply Forall_app in G1 as [_ G1]. }
    rewrite (proj1 (Ff r4 J4)). unfold r4 at 1. rewrite (proj1 (F4 r3 J3)). unfold r3 at 1. rewrite (proj1 (F3 r2 J2)). unfold r2 at 1. rewrite (proj1 (F2 r1 J1)). unfold r1 at 1. rewrite (proj1 (F1 r0 J0)).
    cbn [List.concat]. rewrite Et, !texts_app. rewrite <- !app_assoc.
    pose proof (splits_app _ _ _ _ S4 _ _ _ _ T1) as U4. pose proof (splits_app _ _ _ _ S4' _ _ _ _ T2) as U4'.
    pose proof (splits_app _ _ _ _ S3 _ _ _ _ U4) as U3. pose proof (splits_app _ _ _ _ S3 _ _ _ _ (splits_pad c _ _ _ _ U4')) as U3'.
    pose proof (splits_app _ _ _ _ S2 _ _ _ _ U3) as U2. pose proof (splits_app _ _ _ _ S2 _ _ _ _ (splits_pad b' _ _ _ _ U3')) as U2'.
    pose proof (splits_app _ _ _ _ S1 _ _ _ _ U2) as U1. pose proof (splits_app _ _ _ _ S1 _ _ _ _ (splits_pad a _ _ _ _ U2')) as U1'.
    pose proof (splits_app _ _ _ _ S0 _ _ _ _ U1) as U0. pose proof (splits_app _ _ _ _ S0 _ _ _ _ U1') as U0'.
    cbn [texts map app] in U0, U0'. eexists; eexists. split; [exact U0|exact U0'].
Qed.

(* ---- a writer that writes like another one up to blanks inside lines ---- *)
Definition like (ts : list token) (C F : M) : Prop :=
  framed b C /\ keeps b C /\ wr b ts F /\ forall s, incompact s = b -> rest (C (rest s)) = rest (F (rest s)) /\
    exists hs n, splits (out (F (rest s))) (texts ts) hs n /\ splits (out (C (rest s))) (texts ts) hs n.
Lemma like_wr ts m : wr b ts m -> like ts m m.
Proof. intro W. destruct W as (F & K & E). split; [exact F|]. split; [exact K|]. split; [now split|]. intros s I. split; [reflexivity|]. destruct (E s I) as (hs & n & S). eauto. Qed.
Lemma like_seq t1 t2 C1 F1 C2 F2 : like t1 C1 F1 -> like t2 C2 F2 -> like (t1 ++ t2) (C1 ;; C2) (F1 ;; F2).
Proof.
  intros (A1 & K1 & W1 & E1) (A2 & K2 & W2 & E2). split; [now apply framed_seq|]. split; [now apply keeps_seq|]. split; [now apply wr_seq|].
  intros s I. destruct (E1 s I) as (R1 & h1 & n1 & S1 & S1'). destruct W1 as (WF1 & WK1 & _). destruct W2 as (WF2 & _ & _).
  assert (J : incompact (C1 (rest s)) = b) by (apply K1; exact I). assert (J' : incompact (F1 (rest s)) = b) by (apply WK1; exact I).
  destruct (E2 _ J') as (R2 & h2 & n2 & S2 & S2'). unfold seq.
  rewrite (proj2 (A2 _ J)), (proj1 (A2 _ J)), R1, R2, (proj2 (WF2 _ J')), (proj1 (WF2 _ J')), texts_app. split; [reflexivity|].
  eexists; eexists. split; apply splits_app; eassumption.
Qed.
Lemma like_eqM ts C F F' : like ts C F -> eqM F' F -> like ts C F'.
Proof.
  intros (A & K & (F1 & F2 & F3) & E) Q. split; [exact A|]. split; [exact K|]. split.
  - split; [intros s I; rewrite !Q; now apply F1|]. split; [intros s I; rewrite Q; now apply F2|]. intros s I. rewrite Q. now apply F3.
  - intros s I. rewrite Q. now apply E.
Qed.
Lemma group_run n g : Forall plain_elem g -> flat_wr n g -> forall s, incompact s = b ->
  exists x f', run_group dec n g s = merge s f' x /\ write_columns dec (segs n g (rest s)) = Some x /\ rest f' = rest (flat n g (rest s)) /\ incompact f' = b.
Proof.
  intros P W s I. destruct (run_elems_run n g P W s (set_out [] s) [] I eq_refl) as (f' & E & O & R & J). cbn [app] in E. change (rest (set_out [] s)) with (rest s) in *.
  destruct (write_blocks_ok (split_fields dec (segs n g (rest s)))) as (ll & Ex & _). fold (write_columns dec (segs n g (rest s))) in Ex.
  exists (List.concat (List.concat ll)), f'. split; [|split; [exact Ex|split; [exact R|exact J]]].
  assert (X : (let '(outer, fc, fs) := run_elems (incompact s) n g (s, set_out [] s, []) in
    match write_columns dec fs with Some b0 => merge outer fc (out fc ++ b0) | None => set_crash s end) = merge s f' (List.concat (List.concat ll))).
  { rewrite I, E, Ex, O. reflexivity. }
  unfold run_group. destruct g as [|e [|e2 g]]; [exact X| |exact X]. inversion P as [|? ? Pe _]; subst. destruct (e_kind e) eqn:Ek; [exfalso; apply Pe; exact Ek| |]; exact X.
Qed.
Lemma like_group n g : pure g -> flat_wr n g -> Forall goodw (texts (elems_toks g)) -> like (elems_toks g) (run_group dec n g) (flat n g).
Proof.
  intros P W G. assert (X : Forall plain_elem g -> like (elems_toks g) (run_group dec n g) (flat n g)).
  { intro Pl. pose proof (group_run n g Pl W) as R. split.
    - intros s I. destruct (R s I) as (x & f' & -> & Ex & Er & J). destruct (R (rest s) I) as (x' & f2 & -> & Ex' & Er' & J').
      change (rest (rest s)) with (rest s) in *. rewrite Ex in Ex'. injection Ex' as <-. cbn [merge out rest app].
      split; [reflexivity|]. change (rest (merge s f' x)) with (rest f'). change (rest (merge (rest s) f2 x)) with (rest f2). congruence.
    - split; [|split; [now apply wr_flat|]].
      + intros s I. destruct (R s I) as (x & f' & -> & _ & _ & J). exact J.
      + intros s I. destruct (R (rest s) I) as (x & f' & -> & Ex & Er & J). change (rest (rest s)) with (rest s) in *. split; [exact Er|].
        destruct (write_blocks_ok (split_fields dec (segs n g (rest s)))) as (ll & Ex' & F). fold (write_columns dec (segs n g (rest s))) in Ex'. rewrite Ex in Ex'. injection Ex' as ->.
        cbn [merge out app rest]. apply lines_split; [exact Pl|exact W|exact G|exact I|reflexivity|reflexivity|].
        replace (segs n g (rest s)) with (List.concat (split_fields dec (segs n g (rest s)))) by (unfold split_fields; apply split_loop_concat). exact (concat_lines _ _ F). }
  destruct P as [(e & ->)|P]; [|now apply X]. destruct (e_kind e) eqn:Ek.
  - assert (Y : like (e_toks e) (e_node e) (e_node e)). { apply like_wr. cbn [flat_wr] in W. unfold elem_wr in W. rewrite Ek in W. apply W. }
    cbn [elems_toks flat_map flat]. rewrite app_nil_r. unfold elem_w. rewrite Ek. eapply like_eqM.
    + unfold run_group. rewrite Ek. exact Y.
    + intro s. reflexivity.
  - apply X. constructor; [unfold plain_elem; congruence|constructor].
  - apply X. constructor; [unfold plain_elem; congruence|constructor].
Qed.
Lemma lastx_app {A} n (r R : list A) : lastx n (r ++ R) = lastx (n + List.length R) r.
Proof. unfold lastx. destruct r; destruct R; cbn; destruct n; cbn; try reflexivity; now rewrite ?Nat.add_0_r. Qed.
Lemma flat_app n g R : eqM (flat n (g ++ R)) (flat (n + List.length R) g ;; flat n R).
Proof.
  induction g as [|e g IH]; intro s; cbn [app flat]; [reflexivity|]. unfold seq at 1. rewrite IH, lastx_app. reflexivity.
Qed.
Lemma flat_wr_app n g R : flat_wr n (g ++ R) -> flat_wr (n + List.length R) g /\ flat_wr n R.
Proof.
  induction g as [|e g IH]; cbn [app flat_wr]; [auto|]. intros [A B]. destruct (IH B) as [C D]. rewrite lastx_app in A. auto.
Qed.
Lemma elems_toks_app g R : elems_toks (g ++ R) = elems_toks g ++ elems_toks R. Proof. apply flat_map_app. Qed.
Lemma like_groups gs : Forall pure gs -> flat_wr 0 (List.concat gs) -> Forall goodw (texts (elems_toks (List.concat gs))) ->
  like (elems_toks (List.concat gs)) (run_groups dec gs) (flat 0 (List.concat gs)).
Proof.
  induction gs as [|g gs IH]; intros P W G; [apply like_wr, wr_skip|]. inversion P as [|? ? Pg Pgs]; subst. cbn [List.concat run_groups] in *.
  destruct (flat_wr_app _ _ _ W) as [W1 W2]. rewrite elems_toks_app in *. rewrite texts_app in G. apply Forall_app in G as [G1 G2].
  eapply like_eqM; [apply like_seq; [apply like_group; [exact Pg|exact W1|exact G1]|apply IH; assumption]|]. exact (flat_app 0 g (List.concat gs)).
Qed.
Lemma like_columns es : flat_wr 0 es -> Forall goodw (texts (elems_toks es)) -> like (elems_toks es) (columns dec es) (flat 0 es).
Proof.
  intros W G. pose proof (like_groups (groups es) (groups_pure es)) as X. rewrite groups_concat in X. now apply X.
Qed.

(* ---- equal keys ---- *)
Definition kin (e e' : elem) : Prop :=
  e_kind e = e_kind e' /\ e_incomplete e = e_incomplete e' /\ e_alone e = e_alone e' /\ e_merge e = e_merge e' /\
  line_of (e_toks e) = line_of (e_toks e') /\ end_line_of (e_toks e) = end_line_of (e_toks e') /\ lead_of (e_toks e) = lead_of (e_toks e').
Definition kins := Forall2 kin.
Lemma kins_length es es' : kins es es' -> List.length es = List.length es'. Proof. induction 1; cbn; congruence. Qed.
Lemma push_kin gs gs' cur cur' : Forall2 kins gs gs' -> kins cur cur' -> Forall2 kins (push gs cur) (push gs' cur').
Proof. intros A B. destruct B; [exact A|]. cbn [push]. apply Forall2_app; [exact A|]. constructor; [constructor; assumption|constructor]. Qed.
Lemma rev_kins c c' : kins c c' -> kins (rev c) (rev c').
Proof. induction 1; cbn [rev]; [constructor|]. apply Forall2_app; [assumption|]. constructor; [assumption|constructor]. Qed.
Lemma group_one_kin gs gs' cur cur' e e' : Forall2 kins gs gs' -> kins cur cur' -> kin e e' ->
  Forall2 kins (fst (group_one gs cur e)) (fst (group_one gs' cur' e')) /\ kins (snd (group_one gs cur e)) (snd (group_one gs' cur' e')).
Proof.
  intros A B K. assert (O : kins [e] [e']) by (constructor; [exact K|constructor]). assert (N : kins [] []) by constructor.
  assert (Ap : kins (cur ++ [e]) (cur' ++ [e'])) by (apply Forall2_app; assumption).
  pose proof (push_kin _ _ _ _ A B) as Pu. pose proof (push_kin _ _ _ _ Pu O) as Pu2. pose proof (rev_kins _ _ B) as Rv.
  destruct K as (K1 & K2 & K3 & K4 & K5 & K6 & K7). unfold group_one. rewrite <- K1.
  destruct (e_kind e); [now split| |];
  (inversion Rv as [|p p' r r' (P1 & P2 & P3 & P4 & P5 & P6 & P7) Rr E1 E2]; [now split|]; rewrite <- K2, <- K3, <- K5, <- K7, <- P4, <- P5, <- P6;
   destruct (e_incomplete e); [now split|]; destruct (e_alone e); [now split|]; destruct (_ || _); [destruct (nonempty _); now split|]; destruct (_ && _); now split).
Qed.
Lemma group_from_kin es : forall es', kins es es' -> forall k gs gs' cur cur', Forall2 kins gs gs' -> kins cur cur' ->
  Forall2 kins (group_from k gs cur es) (group_from k gs' cur' es').
Proof.
  induction es as [|e es IH]; intros es' K k gs gs' cur cur' A B; inversion K as [|? e' ? es2 Ke Kes]; subst; cbn [group_from]; [now apply push_kin|].
  pose proof Ke as (K1 & _). rewrite <- K1.
  assert (X : exists gs1 gs1' cur1 cur1', match k with Some k0 => if ekind_eqb k0 (e_kind e) then (gs, cur) else (push gs cur, []) | None => (gs, cur) end = (gs1, cur1) /\
     match k with Some k0 => if ekind_eqb k0 (e_kind e) then (gs', cur') else (push gs' cur', []) | None => (gs', cur') end = (gs1', cur1') /\ Forall2 kins gs1 gs1' /\ kins cur1 cur1').
  { destruct k as [k0|]; [destruct (ekind_eqb k0 (e_kind e))|]; do 4 eexists; (split; [reflexivity|]; split; [reflexivity|]); split; try assumption; [now apply push_kin|constructor]. }
  destruct X as (g1 & g1' & c1 & c1' & -> & -> & X1 & X2). destruct (group_one_kin _ _ _ _ _ _ X1 X2 Ke) as [Y1 Y2].
  destruct (group_one g1 c1 e) as [g2 c2]. destruct (group_one g1' c1' e') as [g2' c2']. now apply IH.
Qed.
Definition psame (lx : bool) (e e' : elem) : Prop :=
  match e_kind e with
  | ENone => eqMb b (e_node e) (e_node e')
  | _ => let s := e_seg e b lx in let s' := e_seg e' b lx in
      eqMb b (s_ctx s) (s_ctx s') /\ eqMb b (s_type s) (s_type s') /\ eqMb b (s_name s) (s_name s') /\ eqMb b (s_eq s) (s_eq s') /\ eqMb b (s_end s) (s_end s')
  end.
Fixpoint psames (n : nat) (es es' : list elem) : Prop :=
  match es, es' with
  | [], [] => True
  | e :: r, e' :: r' => psame (lastx n r) e e' /\ psames n r r'
  | _, _ => False
  end.
Lemma psames_app n g g' R R' : List.length g = List.length g' -> List.length R = List.length R' -> psames n (g ++ R) (g' ++ R') ->
  psames (n + List.length R) g g' /\ psames n R R'.
Proof.
  revert g'. induction g as [|e g IH]; intros [|e' g'] L LR; cbn [app psames List.length] in *; try discriminate; [auto|].
  intros [A B]. injection L as L. destruct (IH _ L LR B) as [C D]. rewrite lastx_app in A. auto.
Qed.
Lemma run_elems_same n es : forall es', Forall plain_elem es -> kins es es' -> psames n es es' -> flat_wr n es -> flat_wr n es' -> forall outer f fs, incompact f = b ->
  run_elems b n es (outer, f, fs) = run_elems b n es' (outer, f, fs).
Proof.
  induction es as [|e es IH]; intros es' P K S W W' outer f fs I; inversion K as [|? e' ? es2 Ke Kes]; subst; [reflexivity|].
  inversion P as [|? ? Pe Pes]; subst. destruct S as [Se Ses]. destruct W as [We Wes]. destruct W' as [We' Wes'].
  cbn [run_elems]. assert (Ln : nonempty es = nonempty es2) by (destruct Kes; reflexivity). fold (lastx n es). fold (lastx n es2).
  assert (Lx : lastx n es2 = lastx n es) by (unfold lastx; rewrite Ln; reflexivity). rewrite Lx in *.
  unfold run_elem. destruct Ke as (K1 & K2 & _). unfold elem_wr in We, We'. rewrite <- K1 in We'. unfold psame in Se.
  destruct (e_kind e) eqn:Ek; [exfalso; apply Pe; exact Ek| |];
  (destruct We as (-> & Eo & t1 & t2 & t3 & t4 & _ & W0 & W1 & W2 & W3 & W4); destruct We' as (-> & Eo' & _);
   destruct Se as (S0 & S1 & S2 & S3 & S4); unfold drain; rewrite Eo, Eo'; unfold skip;
   assert (J0 := proj1 (proj2 W0) f I); rewrite <- (S0 f I);
   set (f0 := set_out [] (s_ctx (e_seg e b (lastx n es)) f)) in *; change (incompact f0 = b) in J0;
   assert (J1 := proj1 (proj2 W1) f0 J0); rewrite <- (S1 f0 J0);
   set (f1 := set_out [] (s_type (e_seg e b (lastx n es)) f0)) in *; change (incompact f1 = b) in J1;
   assert (J2 := proj1 (proj2 W2) f1 J1); rewrite <- (S2 f1 J1);
   set (f2 := set_out [] (s_name (e_seg e b (lastx n es)) f1)) in *; change (incompact f2 = b) in J2;
   assert (J3 := proj1 (proj2 W3) f2 J2); rewrite <- (S3 f2 J2);
   set (f3 := set_out [] (s_eq (e_seg e b (lastx n es)) f2)) in *; change (incompact f3 = b) in J3;
   assert (J4 := proj1 (proj2 W4) f3 J3); rewrite <- (S4 f3 J3); apply IH; assumption).
Qed.
Lemma run_group_same n g g' : pure g -> kins g g' -> psames n g g' -> flat_wr n g -> flat_wr n g' -> eqMb b (run_group dec n g) (run_group dec n g').
Proof.
  intros P K S W W' s I.
  assert (X : Forall plain_elem g -> run_elems (incompact s) n g (s, set_out [] s, []) = run_elems (incompact s) n g' (s, set_out [] s, [])).
  { intro Pl. rewrite I. now apply run_elems_same. }
  destruct P as [(e & ->)|P].
  - inversion K as [|? e' ? r Ke Kr]; subst. inversion Kr; subst. unfold run_group. pose proof Ke as (K1 & _). rewrite <- K1.
    destruct (e_kind e) eqn:Ek; [destruct S as [Se _]; unfold psame in Se; rewrite Ek in Se; now apply Se| |]; rewrite X; try reflexivity; (constructor; [unfold plain_elem; congruence|constructor]).
  - specialize (X P). unfold run_group. destruct K as [|e e' g g' Ke K]; [reflexivity|]. pose proof Ke as (K1 & _).
    inversion P as [|? ? Pe Pr]; subst. unfold plain_elem in Pe. rewrite <- K1.
    destruct K as [|e2 e2' g g' Ke2 K]; [destruct (e_kind e); [congruence| |]|]; rewrite X; reflexivity.
Qed.
Lemma run_groups_same gs : forall gs', Forall pure gs -> Forall2 kins gs gs' -> psames 0 (List.concat gs) (List.concat gs') -> flat_wr 0 (List.concat gs) -> flat_wr 0 (List.concat gs') ->
  Forall goodw (texts (elems_toks (List.concat gs))) -> eqMb b (run_groups dec gs) (run_groups dec gs').
Proof.
  induction gs as [|g gs IH]; intros gs' P K S W W' G; inversion K as [|? g' ? gs2 Kg Kgs]; subst; [intros s _; reflexivity|]. cbn [List.concat run_groups] in *.
  inversion P as [|? ? Pg Pgs]; subst. destruct (flat_wr_app _ _ _ W) as [W1 W2]. destruct (flat_wr_app _ _ _ W') as [W1' W2'].
  assert (Lc : List.length (List.concat gs) = List.length (List.concat gs2)).
  { clear - Kgs. induction Kgs as [|x y xs ys A _ IH]; [reflexivity|]. cbn [List.concat]. rewrite !app_length, IH. f_equal. exact (kins_length _ _ A). }
  destruct (psames_app _ _ _ _ _ (kins_length _ _ Kg) Lc S) as [S1 S2]. rewrite elems_toks_app, texts_app in G. apply Forall_app in G as [G1 G2].
  intros s I. unfold seq. rewrite <- Lc in *. cbn [Nat.add] in *. rewrite (run_group_same _ g g' Pg Kg S1 W1 W1' s I). apply IH; try assumption.
  rewrite <- (run_group_same _ g g' Pg Kg S1 W1 W1' s I). destruct (like_group _ g Pg W1 G1) as (_ & Kp & _). now apply Kp.
Qed.
Lemma columns_same es es' : kins es es' -> psames 0 es es' -> flat_wr 0 es -> flat_wr 0 es' -> Forall goodw (texts (elems_toks es)) -> eqMb b (columns dec es) (columns dec es').
Proof.
  intros K S W W' G. apply run_groups_same; rewrite ?groups_concat; try assumption; [apply groups_pure|]. apply group_from_kin; [exact K|constructor|constructor].
Qed.

(* ---- two runs ---- *)
Lemma sim_like (P Q : pred) ts ts' C C' F F' : sim b P ts ts' F F' Q -> like ts C F -> like ts' C' F' -> (map key ts = map key ts' -> eqMb b C C') -> sim b P ts ts' C C' Q.
Proof.
  intros [T W W' R X] (A & K & _ & E) (A' & K' & _ & E') Y. destruct (tws_texts _ _ T) as [Tt G]. split; [exact T| | | |exact Y].
  - split; [exact A|]. split; [exact K|]. intros s I. destruct (E s I) as (_ & hs & n & _ & S). eauto.
  - split; [exact A'|]. split; [exact K'|]. intros s I. destruct (E' s I) as (_ & hs & n & _ & S). eauto.
  - intros p s hs n I HP S C0. destruct (E s I) as (Er & h1 & n1 & S1 & S1'). destruct (splits_unique _ G _ _ _ _ _ S S1') as [-> ->].
    destruct (R p s h1 n1 I HP S1 C0) as (R1 & R2 & R3). destruct (E' s I) as (Er' & h2 & n2 & S2 & S2'). rewrite <- Tt in S2, S2'.
    destruct (splits_unique _ G _ _ _ _ _ R1 S2) as [-> ->]. split; [exact S2'|]. rewrite Er, Er'. auto.
Qed.
Definition esim (lx : bool) (e e' : elem) : Prop :=
  e_kind e = e_kind e' /\ elem_wr lx e /\ elem_wr lx e' /\ begins b (e_toks e) (e_toks e') (elem_w lx e) (elem_w lx e') after /\
  (map key (e_toks e) = map key (e_toks e') -> kin e e' /\ psame lx e e').
Fixpoint esims (n : nat) (es es' : list elem) : Prop :=
  match es, es' with
  | [], [] => True
  | e :: r, e' :: r' => esim (lastx n r) e e' /\ esims n r r'
  | _, _ => False
  end.
Lemma esims_shape n es : forall es', esims n es es' -> nonempty es = nonempty es' /\ flat_wr n es /\ flat_wr n es'.
Proof.
  induction es as [|e es IH]; intros [|e' es']; cbn [esims]; try tauto. intros [(A & B & C & _) D]. destruct (IH _ D) as (N & W & W').
  split; [reflexivity|]. cbn [flat_wr]. replace (lastx n es') with (lastx n es) by (unfold lastx; now rewrite N). auto.
Qed.
Lemma sim_flat n es : forall es' ts1, esims n es es' -> es <> [] -> ts1 = elems_toks es -> sim b (leads ts1) (elems_toks es) (elems_toks es') (flat n es) (flat n es') after.
Proof.
  induction es as [|e es IH]; intros [|e' es'] ts1 S N ->; cbn [esims] in S; try tauto. destruct S as [(_ & _ & _ & B & _) S]. destruct (esims_shape _ _ _ S) as (Ne & _).
  cbn [flat elems_toks flat_map]. replace (lastx n es') with (lastx n es) by (unfold lastx; now rewrite Ne).
  assert (Pre : forall t p s, leads (e_toks e ++ t) p s -> leads (e_toks e) p s).
  { destruct B as (t & r & _ & _ & _ & _ & _ & _ & _ & Et & _). rewrite Et. intros. assumption. }
  apply begins_sim in B. destruct es as [|e2 es]; destruct es' as [|e2' es']; try discriminate Ne.
  - eapply sim_weak; [eapply sim_post with (R := after)|apply Pre|auto].
    + cbn [flat_map]. rewrite !app_nil_r. exact B.
    + apply sim_skip.
    + auto.
  - eapply sim_weak with (P := leads (e_toks e)); [|apply Pre|intros p s H; exact H]. eapply sim_seq; [exact B|].
    eapply sim_weak; [apply IH with (ts1 := elems_toks (e2 :: es)); [exact S|discriminate|reflexivity]|intros p s H; left; exact (after_one _ _ H)|auto].
Qed.
Lemma esims_keys n es : forall es', esims n es es' -> map key (elems_toks es) = map key (elems_toks es') -> kins es es' /\ psames n es es'.
Proof.
  induction es as [|e es IH]; intros [|e' es']; cbn [esims]; try tauto; [intros _ _; split; [constructor|exact I]|]. intros [(_ & _ & _ & B & A) S] E.
  cbn [elems_toks flat_map] in E. rewrite !map_app in E. apply app_split in E as [E1 E2].
  2:{ rewrite !map_length. apply tws_length. exact (sim_toks _ _ _ _ _ _ _ (begins_sim _ _ _ _ _ _ B)). }
  destruct (A E1) as [A1 A2]. destruct (IH _ S E2) as [K P]. split; [constructor; assumption|]. cbn [psames]. auto.
Qed.
Lemma sim_columns es es' : esims 0 es es' -> es <> [] -> sim b (leads (elems_toks es)) (elems_toks es) (elems_toks es') (columns dec es) (columns dec es') after.
Proof.
  intros S N. pose proof (sim_flat 0 es es' _ S N eq_refl) as F. destruct (esims_shape _ _ _ S) as (_ & W & W').
  destruct (tws_texts _ _ (sim_toks _ _ _ _ _ _ _ F)) as [Et G]. eapply sim_like; [exact F|now apply like_columns|apply like_columns; [exact W'|rewrite <- Et; exact G]|].
  intro E. destruct (esims_keys _ _ _ S E) as [K P]. now apply columns_same.
Qed.
End Cols.
