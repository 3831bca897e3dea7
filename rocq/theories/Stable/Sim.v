(* Two runs of the formatter on the same declarations laid out differently: the calculus used by
   Stable/Proofs.v. *)
From Coq Require Import List Arith Bool ZArith Lia Ascii String.
From Verif Require Import Base Strs.
From Verif.Format Require Import Model Spec Proofs.
From Verif.FormatTree Require Import Model Spec Proofs.
From Verif.Stable Require Import Spec.
Import ListNotations.
Open Scope list_scope.

(* ---- texts as words and line ends ---- *)
Definition adj (n : nat) (hs : list nat) : list nat := match hs with h :: r => (n + h) :: r | [] => [] end.
Definition endp (n : nat) (hs : list nat) (m : nat) : nat := match hs with [] => n + m | _ => m end.
Lemma newlines_app x y : newlines (x ++ y) = newlines x + newlines y.
Proof. unfold newlines. apply count_occ_app. Qed.
Lemma blank_app x y : blank x -> blank y -> blank (x ++ y).
Proof. unfold blank. intros A B. now rewrite forallb_app, A, B. Qed.
Lemma splits_app x us hs n : splits x us hs n -> forall y vs ks m, splits y vs ks m ->
  splits (x ++ y) (us ++ vs) (hs ++ adj n ks) (endp n ks m).
Proof.
  induction 1 as [w B|w u x us hs n B _ IH]; intros y vs ks m S.
  - inversion S as [w' B' |w' u x us hs n B' S']; subst; cbn [app adj endp].
    + rewrite <- newlines_app. constructor. now apply blank_app.
    + rewrite app_assoc, <- newlines_app. constructor; [now apply blank_app|exact S'].
  - rewrite <- !app_assoc. cbn [app]. constructor; [exact B|]. now apply IH.
Qed.
Lemma splits_blank w : blank w -> splits w [] [] (newlines w). Proof. now constructor. Qed.
Lemma splits_word u : splits u [u] [0] 0.
Proof. pose proof (split_word [] u [] [] [] 0 eq_refl (split_end [] eq_refl)) as S. cbn in S. now rewrite app_nil_r in S. Qed.
Lemma splits_length x us hs n : splits x us hs n -> List.length hs = List.length us.
Proof. induction 1; cbn; congruence. Qed.
Definition goodw (u : bytes) : Prop := exists c r, u = c :: r /\ is_space c = false.
Lemma blank_prefix w : forall w' c x c' y, blank w -> blank w' -> is_space c = false -> is_space c' = false ->
  w ++ c :: x = w' ++ c' :: y -> w = w' /\ c :: x = c' :: y.
Proof.
  induction w as [|a w IH]; intros [|a' w'] c x c' y B B' C C' E; cbn in E.
  - auto.
  - injection E as -> _. unfold blank in B'. cbn in B'. rewrite C in B'. discriminate.
  - injection E as <- _. unfold blank in B. cbn in B. rewrite C' in B. discriminate.
  - injection E as <- E. unfold blank in *. cbn in B, B'. apply andb_true_iff in B as [_ B]. apply andb_true_iff in B' as [_ B'].
    destruct (IH _ _ _ _ _ B B' C C' E) as [-> F]. auto.
Qed.
Lemma splits_unique us : Forall goodw us -> forall x hs n hs' n', splits x us hs n -> splits x us hs' n' -> hs = hs' /\ n = n'.
Proof.
  induction 1 as [|u us (c & r & -> & C) _ IH]; intros x hs n hs' n' S S'.
  - inversion S; inversion S'; subst. auto.
  - inversion S as [|w u0 x0 us0 hs0 n0 B S0 E1 E2 E3 E4]; subst. inversion S' as [|w' u0 x' us0 hs1 n1 B' S1 E1 E2 E3 E4]; subst.
    destruct (blank_prefix _ _ _ _ _ _ B' B C C E1) as [-> E]. injection E as E. apply app_inv_head in E. subst x'.
    destruct (IH _ _ _ _ _ S0 S1) as [-> ->]. auto.
Qed.
Lemma adj_app p hs n ks : adj p (hs ++ adj n ks) = adj p hs ++ adj (endp p hs n) ks.
Proof. destruct hs as [|h hs]; cbn; [|reflexivity]. destruct ks; cbn; [reflexivity|]. now rewrite Nat.add_assoc. Qed.
Lemma endp_app p hs n ks m : endp p (hs ++ adj n ks) (endp n ks m) = endp (endp p hs n) ks m.
Proof. destruct hs as [|h hs]; destruct ks; cbn; lia. Qed.
Lemma adj_length n hs : List.length (adj n hs) = List.length hs. Proof. destruct hs; reflexivity. Qed.
Lemma splits_drop x us hs n : Forall goodw us -> splits (sp :: x) us hs n -> splits x us hs n.
Proof.
  intros G S. inversion S as [w B E|w u y vs ks m B S' E]; subst.
  - unfold blank in B. cbn in B. change (newlines (sp :: x)) with (newlines x). now constructor.
  - destruct w as [|a w]; cbn in E.
    + inversion G as [|u0 us0 (c & r & -> & C) _]; subst. cbn in E. injection E as -> _. discriminate C.
    + injection E as -> <-. unfold blank in B. cbn in B. change (newlines (sp :: w)) with (newlines w). now constructor.
Qed.

(* ---- what a writer depends on ---- *)
(* The state without the text and the error flags. *)
Definition rest (s : fmt) : fmt := Fmt [] (indent s) (lastw s) (prev s) (pspace s) (incompact s) (pindent s) (inl s) false false.
Lemma rest_rest s : rest (rest s) = rest s. Proof. reflexivity. Qed.
Lemma rest_out s : out (rest s) = []. Proof. reflexivity. Qed.
Definition frame (m : M) : Prop := forall s, out (m s) = out s ++ out (m (rest s)) /\ rest (m s) = rest (m (rest s)).
Lemma frame_seq a b : frame a -> frame b -> frame (a ;; b).
Proof.
  intros A B s. unfold seq. destruct (B (a s)) as [B1 B2]. destruct (A s) as [A1 A2]. destruct (B (a (rest s))) as [B3 B4].
  rewrite B1, B2, B3, B4, A1, A2, app_assoc. auto.
Qed.
Lemma frame_skip : frame skip. Proof. intro s. unfold skip. rewrite rest_out, app_nil_r. auto. Qed.
Lemma frame_seqs l : Forall frame l -> frame (seqs l).
Proof. induction 1; cbn [seqs]; [apply frame_skip|now apply frame_seq]. Qed.
Lemma frame_when b m : frame m -> frame (when b m).
Proof. destruct b; [auto|intros _; apply frame_skip]. Qed.
Lemma frame_string x : frame (write_string x).
Proof. intro s. split; reflexivity. Qed.
Lemma frame_space : frame space. Proof. intro s. cbn. rewrite app_nil_r. auto. Qed.
Lemma frame_prev b : frame (set_prev b). Proof. intro s. cbn. rewrite app_nil_r. auto. Qed.
Lemma frame_inl b : frame (set_inl b). Proof. intro s. cbn. rewrite app_nil_r. auto. Qed.
Lemma frame_compact b : frame (set_compact b). Proof. intro s. cbn. rewrite app_nil_r. auto. Qed.
Lemma frame_in : frame shift_in. Proof. intro s. cbn. rewrite app_nil_r. auto. Qed.
Lemma frame_out : frame shift_out. Proof. intro s. unfold shift_out. cbn. destruct (indent s); cbn; rewrite app_nil_r; auto. Qed.
Lemma frame_settle : frame settle.
Proof.
  intro s. unfold settle. cbn [rest pindent]. destruct (0 <? pindent s)%Z; [cbn; rewrite app_nil_r; auto|].
  destruct (pindent s <? 0)%Z; [|cbn; rewrite app_nil_r; auto]. unfold shift_out. cbn. destruct (indent s); cbn; rewrite app_nil_r; auto.
Qed.
Lemma frame_indent b : frame (write_indent b).
Proof. intro s. unfold write_indent. cbn [rest lastw indent]. destruct (Ascii.eqb (lastw s) nl); [apply frame_string|]. cbn. rewrite app_nil_r. auto. Qed.
Lemma frame_p_blank : frame p_blank.
Proof. apply frame_seq; [apply frame_when; apply frame_seq; [apply frame_indent|apply frame_string]|]. apply frame_seq; [apply frame_string|apply frame_settle]. Qed.
Lemma frame_tok t : frame (write_tok t).
Proof. intro s. unfold write_tok. cbn [rest pindent]. destruct (opens t); [|destruct (closes t)]; split; reflexivity. Qed.

Definition newl (t : token) : nat := newlines (t_ws t).
Definition texts (ts : list token) : list bytes := map t_text ts.
(* b: inside compact options or not *)
Definition keeps (b : bool) (m : M) : Prop := forall s, incompact s = b -> incompact (m s) = b.
Definition emits (b : bool) (ts : list token) (m : M) : Prop :=
  forall s, incompact s = b -> exists hs n, splits (out (m (rest s))) (texts ts) hs n.
Definition framed (b : bool) (m : M) : Prop := forall s, incompact s = b -> out (m s) = out s ++ out (m (rest s)) /\ rest (m s) = rest (m (rest s)).
Lemma frame_framed b m : frame m -> framed b m. Proof. intros F s _. apply F. Qed.
Lemma framed_seq b m n : framed b m -> keeps b m -> framed b n -> framed b (m ;; n).
Proof.
  intros A K B s I. unfold seq. destruct (B (m s) (K s I)) as [B1 B2]. destruct (A s I) as [A1 A2]. destruct (B (m (rest s)) (K (rest s) I)) as [B3 B4].
  rewrite B1, B2, B3, B4, A1, A2, app_assoc. auto.
Qed.
Definition wr (b : bool) (ts : list token) (m : M) : Prop := framed b m /\ keeps b m /\ emits b ts m.
Lemma texts_app a b : texts (a ++ b) = texts a ++ texts b. Proof. apply map_app. Qed.
Lemma wr_seq b t1 t2 m1 m2 : wr b t1 m1 -> wr b t2 m2 -> wr b (t1 ++ t2) (m1 ;; m2).
Proof.
  intros (F1 & K1 & E1) (F2 & K2 & E2). split; [now apply framed_seq|]. split; [intros s I; unfold seq; auto|].
  intros s I. destruct (E1 s I) as (hs & n & S1). destruct (E2 (m1 (rest s)) (K1 (rest s) I)) as (ks & m & S2).
  unfold seq. rewrite (proj1 (F2 (m1 (rest s)) (K1 (rest s) I))), texts_app. eauto using splits_app.
Qed.
Lemma wr_skip b : wr b [] skip.
Proof. split; [apply frame_framed, frame_skip|]. split; [intros s I; exact I|]. intros s _. exists [], 0. apply (splits_blank []). reflexivity. Qed.

(* ---- the same token at two places ---- *)
Inductive tw : token -> token -> Prop :=
| tw_intro k u w l w' l' : goodw u -> ~ In nl u -> wtext (Token k u [] [] w l false) = u ->
    tw (Token k u [] [] w l false) (Token k u [] [] w' l' false).
Definition tws := Forall2 tw.
Lemma tw_text t t' : tw t t' -> t_text t = t_text t' /\ goodw (t_text t).
Proof. destruct 1. auto. Qed.
Lemma tws_texts ts ts' : tws ts ts' -> texts ts = texts ts' /\ Forall goodw (texts ts).
Proof.
  induction 1 as [|t t' ts ts' A _ [IH1 IH2]]; [split; constructor|]. destruct (tw_text _ _ A) as [B C]. unfold texts in *. cbn [map]. split; [congruence|constructor; assumption].
Qed.
Lemma tws_length ts ts' : tws ts ts' -> List.length ts = List.length ts'. Proof. induction 1; cbn; congruence. Qed.
Definition key (t : token) : nat * nat := (newl t, t_line t).
Definition eqM (m m' : M) : Prop := forall s, m s = m' s.
Definition eqMb (b : bool) (m m' : M) : Prop := forall s, incompact s = b -> m s = m' s.

(* From states that agree, writers of the same tokens write them on the same lines. *)
Definition pred := nat -> fmt -> Prop.
Definition runs (b : bool) (P : pred) (ts ts' : list token) (m m' : M) (Q : pred) : Prop :=
  forall p s hs n, incompact s = b -> P p (rest s) -> splits (out (m (rest s))) (texts ts) hs n -> map newl ts' = adj p hs ->
    splits (out (m' (rest s))) (texts ts) hs n /\ rest (m' (rest s)) = rest (m (rest s)) /\ Q (endp p hs n) (rest (m (rest s))).
Record sim (b : bool) (P : pred) (ts ts' : list token) (m m' : M) (Q : pred) : Prop := Sim {
  sim_toks : tws ts ts';
  sim_wr : wr b ts m;
  sim_wr' : wr b ts' m';
  sim_runs : runs b P ts ts' m m' Q;
  sim_exact : map key ts = map key ts' -> eqMb b m m' }.
Lemma app_split {A} (a b c d : list A) : List.length a = List.length c -> a ++ b = c ++ d -> a = c /\ b = d.
Proof.
  revert c. induction a as [|x a IH]; intros [|y c] L E; cbn in *; try discriminate; [auto|]. injection E as -> E. injection L as L.
  destruct (IH _ L E) as [-> ->]. auto.
Qed.
Lemma sim_seq b P R Q t1 t1' t2 t2' m1 m1' m2 m2' :
  sim b P t1 t1' m1 m1' R -> sim b R t2 t2' m2 m2' Q -> sim b P (t1 ++ t2) (t1' ++ t2') (m1 ;; m2) (m1' ;; m2') Q.
Proof.
  intros [T1 W1 W1' R1 X1] [T2 W2 W2' R2 X2]. split.
  - now apply Forall2_app.
  - now apply wr_seq.
  - now apply wr_seq.
  - intros p s hs n I HP S C. unfold seq in *. destruct W1 as (F1 & K1 & E1). destruct W2 as (F2 & K2 & E2).
    destruct W1' as (F1' & K1' & E1'). destruct W2' as (F2' & K2' & E2').
    destruct (E1 s I) as (hs1 & n1 & S1). pose proof (K1 (rest s) I) as I1. destruct (E2 (m1 (rest s)) I1) as (hs2 & n2 & S2).
    rewrite (proj1 (F2 (m1 (rest s)) I1)), texts_app in S.
    assert (G : Forall goodw (texts t1 ++ texts t2)) by (apply Forall_app; split; [apply (tws_texts _ _ T1)|apply (tws_texts _ _ T2)]).
    destruct (splits_unique _ G _ _ _ _ _ S (splits_app _ _ _ _ S1 _ _ _ _ S2)) as [-> ->].
    rewrite adj_app, map_app in C. apply app_split in C as [C1 C2].
    2:{ rewrite map_length, adj_length, (splits_length _ _ _ _ S1). unfold texts. rewrite map_length. symmetry. exact (tws_length _ _ T1). }
    destruct (R1 p s hs1 n1 I HP S1 C1) as (A1 & A2 & A3).
    destruct (R2 _ (m1 (rest s)) hs2 n2 I1 A3 S2 C2) as (B1 & B2 & B3).
    pose proof (K1' (rest s) I) as I1'. rewrite (proj1 (F2' (m1' (rest s)) I1')), (proj2 (F2' (m1' (rest s)) I1')), (proj2 (F2 (m1 (rest s)) I1)), A2, texts_app, endp_app.
    split; [now apply splits_app|]. auto.
  - rewrite !map_app. intro E. apply app_split in E as [A B]; [|rewrite !map_length; exact (tws_length _ _ T1)].
    intros s I. unfold seq. rewrite (X1 A s I). apply (X2 B). apply (proj1 (proj2 W1')). exact I.
Qed.
Lemma sim_weak b (P P' Q Q' : pred) ts ts' m m' : sim b P ts ts' m m' Q -> (forall p s, P' p s -> P p s) -> (forall p s, Q p s -> Q' p s) -> sim b P' ts ts' m m' Q'.
Proof.
  intros [T W W' R X] A B. split; auto. intros p s hs n I HP S C. destruct (R p s hs n I (A _ _ HP) S C) as (D & E & F). auto.
Qed.
Lemma sim_eq b P Q ts ts' us us' m m' : sim b P ts ts' m m' Q -> ts = us -> ts' = us' -> sim b P us us' m m' Q.
Proof. now intros h <- <-. Qed.
Lemma sim_eqM b P Q ts ts' m m' m1 m1' : sim b P ts ts' m m' Q -> eqM m1 m -> eqM m1' m' -> sim b P ts ts' m1 m1' Q.
Proof.
  intros [T (F & K & E) (F' & K' & E') R X] A A'. split; auto.
  - split; [intros s I; rewrite !A; now apply F|]. split; [intros s I; rewrite A; auto|]. intros s I. rewrite A. auto.
  - split; [intros s I; rewrite !A'; now apply F'|]. split; [intros s I; rewrite A'; auto|]. intros s I. rewrite A'. auto.
  - intros p s hs n I HP. rewrite A, A'. now apply R.
  - intros Y s I. rewrite A, A'. now apply X.
Qed.
Lemma sim_eqMb b P Q ts ts' m m' m1 m1' : sim b P ts ts' m m' Q -> eqMb b m1 m -> eqMb b m1' m' -> sim b P ts ts' m1 m1' Q.
Proof.
  intros [T (F & K & E) (F' & K' & E') R X] A A'. split; auto.
  - split; [intros s I; rewrite (A s I), (A (rest s) I); now apply F|]. split; [intros s I; rewrite (A s I); auto|]. intros s I. rewrite (A (rest s) I). auto.
  - split; [intros s I; rewrite (A' s I), (A' (rest s) I); now apply F'|]. split; [intros s I; rewrite (A' s I); auto|]. intros s I. rewrite (A' (rest s) I). auto.
  - intros p s hs n I HP. rewrite (A (rest s) I), (A' (rest s) I). now apply R.
  - intros Y s I. rewrite (A s I), (A' s I). now apply X.
Qed.
(* Writers of white space. *)
Lemma sim_silent b (P Q : pred) m : frame m -> keeps b m -> (forall s, incompact s = b -> blank (out (m (rest s)))) ->
  (forall p s, incompact s = b -> P p (rest s) -> Q (p + newlines (out (m (rest s)))) (rest (m (rest s)))) -> sim b P [] [] m m Q.
Proof.
  intros F K B H. assert (W : wr b [] m). { split; [now apply frame_framed|]. split; [exact K|]. intros s I. eexists; eexists. apply splits_blank. auto. }
  split; [constructor|exact W|exact W| |intros _ s _; reflexivity].
  intros p s hs n I HP S C. cbn in C. destruct hs; [|discriminate]. split; [exact S|]. split; [reflexivity|].
  inversion S; subst. cbn. now apply H.
Qed.
Definition any : pred := fun _ _ => True.
Lemma sim_skip b P : sim b P [] [] skip skip P.
Proof. apply sim_silent; try (intros; reflexivity). - apply frame_skip. - intros s I; exact I. - intros p s _ HP. cbn. now rewrite Nat.add_0_r. Qed.
(* a change of the state only *)
Lemma sim_set b (P Q : pred) m : frame m -> keeps b m -> (forall s, out (m s) = out s) -> (forall p s, P p (rest s) -> Q p (rest (m (rest s)))) -> sim b P [] [] m m Q.
Proof.
  intros F K O H. apply sim_silent; auto.
  - intros s _. rewrite O. reflexivity.
  - intros p s I HP. rewrite O. cbn. rewrite Nat.add_0_r. auto.
Qed.
Lemma sim_when b (P Q : pred) c m : (c = true -> sim b P [] [] m m Q) -> (c = false -> forall p s, P p s -> Q p s) -> sim b P [] [] (when c m) (when c m) Q.
Proof. destruct c; intros A B; [now apply A|]. eapply sim_weak; [apply (sim_skip b P)|auto|auto]. Qed.
