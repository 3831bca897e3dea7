(* Tokens, line starts and line ends in two runs of the formatter. *)
From Coq Require Import List Arith Bool ZArith Lia Ascii String.
From Verif Require Import Base Strs.
From Verif.Format Require Import Model Spec Proofs.
From Verif.FormatTree Require Import Model Spec Proofs.
From Verif.Stable Require Import Spec Sim.
Import ListNotations.
Open Scope list_scope.

(* after a token; after a line; after a declaration *)
Definition word : pred := fun q s => q = 0 /\ lastw s <> nl.
Definition lined : pred := fun q s => q = 1.
Definition ended : pred := fun q s => q = 1 /\ prev s = Some false.

Lemma last_not_nl u d : goodw u -> ~ In nl u -> last u d <> nl.
Proof.
  intros (c & r & -> & _) N E. destruct (exists_last (l := c :: r)) as (x & a & X); [discriminate|]. rewrite X in *. rewrite last_last in E. subst a.
  apply N, in_or_app. right. now left.
Qed.
Lemma keeps_seq b a c : keeps b a -> keeps b c -> keeps b (a ;; c). Proof. intros A C s I. unfold seq. auto. Qed.
Lemma keeps_tok b t : keeps b (write_tok t).
Proof. intros s I. unfold write_tok, write_string. destruct (opens t); [|destruct (closes t)]; exact I. Qed.
Lemma tok_run t : wtext t = t_text t -> forall s, exists g, (g = [] \/ g = [sp]) /\ out (write_tok t (rest s)) = g ++ t_text t /\
  lastw (write_tok t (rest s)) = last (t_text t) (lastw s).
Proof.
  intros E s. unfold write_tok, write_string. rewrite E.
  destruct (opens t); [|destruct (closes t)]; cbn [out lastw set_pindent rest]; destruct (_ && _); eexists; (split; [|split; reflexivity]); auto.
Qed.
Lemma sim_tok b t t' : tw t t' -> sim b any [t] [t'] (write_tok t) (write_tok t') word.
Proof.
  destruct 1 as [k u w l w' l' G N E]. set (t := Token k u [] [] w l false). change (write_tok (Token k u [] [] w' l' false)) with (write_tok t).
  assert (S : forall s, splits (out (write_tok t (rest s))) [u] [0] 0).
  { intro s. destruct (tok_run t E s) as (g & [-> | ->] & -> & _); [apply splits_word|]. rewrite <- (app_nil_r (t_text t)). apply (split_word [sp] u [] [] [] 0); [reflexivity|]. apply (splits_blank []). reflexivity. }
  assert (W : wr b [t] (write_tok t)). { split; [apply frame_framed, frame_tok|]. split; [apply keeps_tok|]. intros s _. eauto. }
  split.
  - repeat constructor; assumption.
  - exact W.
  - exact W.
  - intros p s hs n I _ S1 _. destruct (splits_unique [u] ltac:(repeat constructor; exact G) _ _ _ _ _ S1 (S s)) as [-> ->].
    split; [apply S|]. split; [reflexivity|]. split; [reflexivity|]. cbn [rest lastw].
    destruct (tok_run t E s) as (g & _ & _ & L). rewrite L. now apply last_not_nl.
  - intros _ s _. reflexivity.
Qed.

(* silent writers *)
Lemma sim_space b (P : pred) : (forall p s, P p s -> P p (set_space s)) -> sim b P [] [] space space P.
Proof. intro H. apply sim_set; [apply frame_space|intros s I; exact I|reflexivity|]. intros p s HP. exact (H _ _ HP). Qed.
Lemma sim_inl b i (P : pred) : (forall p s, P p s -> P p (set_inl i s)) -> sim b P [] [] (set_inl i) (set_inl i) P.
Proof. intro H. apply sim_set; [apply frame_inl|intros s I; exact I|reflexivity|]. intros p s HP. exact (H _ _ HP). Qed.
Lemma sim_prev b i (P Q : pred) : (forall p s, P p s -> Q p (set_prev i s)) -> sim b P [] [] (set_prev i) (set_prev i) Q.
Proof. intro H. apply sim_set; [apply frame_prev|intros s I; exact I|reflexivity|]. intros p s HP. exact (H _ _ HP). Qed.
Lemma blank_spaces n : blank (repeat sp n) /\ newlines (repeat sp n) = 0.
Proof. induction n as [|n [IH1 IH2]]; [split; reflexivity|]. split; [exact IH1|exact IH2]. Qed.
Lemma keeps_string b x : keeps b (write_string x). Proof. intros s I. exact I. Qed.
Lemma keeps_settle b : keeps b settle.
Proof. intros s I. unfold settle, shift_in, shift_out. destruct (0 <? _)%Z; [exact I|]. destruct (_ <? 0)%Z; [|exact I]. destruct (indent s); exact I. Qed.
Lemma keeps_p_blank b : keeps b p_blank.
Proof. apply (keeps_seq b skip); [intros s I; exact I|]. apply keeps_seq; [apply keeps_string|apply keeps_settle]. Qed.
Lemma p_blank_run s : out (p_blank (rest s)) = [nl] /\ lastw (p_blank s) = nl /\ prev (p_blank s) = prev s /\ pspace (p_blank s) = false.
Proof.
  unfold p_blank, p_line. change (nonempty (trim [])) with false. cbn [when]. unfold seq, skip, settle. cbn [write_string].
  assert (B : forall i, blocked_next i [nl] = true) by (intros []; reflexivity). unfold write_string. rewrite !B, !andb_false_r. cbn [app out pindent rest].
  destruct (0 <? pindent s)%Z; [repeat split|]. destruct (pindent s <? 0)%Z; [|repeat split]. unfold shift_out. cbn. destruct (indent s); repeat split.
Qed.
Lemma sim_p_blank b (P Q : pred) : (forall p s, P p (rest s) -> Q (S p) (rest (p_blank (rest s)))) -> sim b P [] [] p_blank p_blank Q.
Proof.
  intro H. apply sim_silent.
  - apply frame_p_blank.
  - apply keeps_p_blank.
  - intros s _. destruct (p_blank_run s) as [-> _]. reflexivity.
  - intros p s _ HP. destruct (p_blank_run s) as [-> _]. change (newlines [nl]) with 1. rewrite Nat.add_1_r. auto.
Qed.
Lemma keeps_indent b c : keeps b (write_indent c).
Proof. intros s I. unfold write_indent. destruct (Ascii.eqb _ _); exact I. Qed.
Lemma indent_run c s : blank (out (write_indent c (rest s))) /\ newlines (out (write_indent c (rest s))) = 0 /\ prev (write_indent c s) = prev s.
Proof.
  unfold write_indent. cbn [rest lastw indent]. destruct (Ascii.eqb (lastw s) nl); [|repeat split]. unfold write_string. cbn [out rest].
  set (n := 2 * _). destruct (blank_spaces n) as [A B]. destruct (_ && _); cbn [app]; repeat split; assumption.
Qed.
(* spaces do not change how many line ends are pending *)
Lemma sim_indent b c (P Q : pred) : (forall p s, P p (rest s) -> Q p (rest (write_indent c (rest s)))) -> sim b P [] [] (write_indent c) (write_indent c) Q.
Proof.
  intro H. apply sim_silent.
  - apply frame_indent.
  - apply keeps_indent.
  - intros s _. apply indent_run.
  - intros p s _ HP. destruct (indent_run c s) as (_ & -> & _). rewrite Nat.add_0_r. auto.
Qed.
Lemma sim_indent_any b c : sim b any [] [] (write_indent c) (write_indent c) any.
Proof. apply sim_indent. intros; exact I. Qed.

(* composition with silent writers *)
Lemma sim_pre b P R Q ts ts' a m m' : sim b P [] [] a a R -> sim b R ts ts' m m' Q -> sim b P ts ts' (a ;; m) (a ;; m') Q.
Proof. intros A B. exact (sim_seq _ _ _ _ _ _ _ _ _ _ _ _ A B). Qed.
Lemma sim_post b P R Q ts ts' m m' a : sim b P ts ts' m m' R -> sim b R [] [] a a Q -> sim b P ts ts' (m ;; a) (m' ;; a) Q.
Proof. intros A B. eapply sim_eq; [exact (sim_seq _ _ _ _ _ _ _ _ _ _ _ _ A B)|apply app_nil_r|apply app_nil_r]. Qed.
Lemma sim_any b P ts ts' m m' Q : sim b any ts ts' m m' Q -> sim b P ts ts' m m' Q.
Proof. intro h. eapply sim_weak; [exact h|intros; exact I|auto]. Qed.
Lemma sim_space_any b P : sim b P [] [] space space any.
Proof. apply sim_any, sim_space. intros; exact I. Qed.
Ltac inv_tw h := destruct h as [k u w l w' l' G N E].
Ltac again := apply tw_intro; assumption.
Lemma sim_inline b t t' : tw t t' -> sim b any [t] [t'] (inline_tok t) (inline_tok t') word.
Proof.
  intro h. inv_tw h. unfold inline_tok, lead_inline. cbn [t_lead t_trail nonempty when inline_comments inline_comments_from].
  apply (sim_pre b any any); [apply sim_inl; intros; exact I|].
  apply (sim_pre b any any); [apply sim_skip|].
  eapply (sim_post b any word _ [_] [_]); [apply sim_tok; again|].
  apply (sim_pre b word word); [apply sim_skip|]. apply (sim_pre b word word); [apply sim_prev; auto|apply sim_inl; auto].
Qed.
Lemma sim_inlines b ts ts' : tws ts ts' -> ts <> [] -> sim b any ts ts' (seqs (map inline_tok ts)) (seqs (map inline_tok ts')) word.
Proof.
  induction 1 as [|t t' ts ts' A B IH]; intro N; [congruence|]. cbn [map seqs].
  change (t :: ts) with ([t] ++ ts). change (t' :: ts') with ([t'] ++ ts').
  destruct B as [|t2 t2' r r' B1 B2].
  - eapply sim_post; [apply sim_inline; exact A|apply sim_skip].
  - eapply sim_seq; [apply sim_inline; exact A|]. apply sim_any, IH. discriminate.
Qed.
(* the end of a line *)
Definition ended_by (t : token) : pred := fun q s => q = 1 /\ prev s = Some (is_open_brace t).
Lemma sim_line_end0 b t t' : tw t t' -> sim b any [t] [t'] (line_end t) (line_end t') (ended_by t).
Proof.
  intros h. inv_tw h. set (t := Token k u [] [] w l false) in *. set (t' := Token k u [] [] w' l' false).
  unfold line_end, lead_inline. change (is_open_brace t') with (is_open_brace t). cbn [t t' t_lead t_trail nonempty when trailing_end_comments trailing_from]. fold t t'.
  apply (sim_pre b any any); [apply sim_skip|].
  eapply (sim_post b any word _ [_] [_]); [apply sim_tok; again|].
  apply (sim_pre b word word); [apply sim_space; auto|]. apply (sim_pre b word lined).
  - apply (sim_pre b word word); [apply sim_skip|]. apply sim_p_blank. intros p s [-> _]. reflexivity.
  - apply sim_prev. intros p s H. split; [exact H|reflexivity].
Qed.
Lemma sim_line_end b t t' : tw t t' -> is_open_brace t = false -> sim b any [t] [t'] (line_end t) (line_end t') ended.
Proof. intros h O. eapply sim_weak; [now apply sim_line_end0|auto|]. intros p s [A B]. split; [exact A|]. now rewrite B, O. Qed.
Lemma sim_line_end1 b t t' : tw t t' -> sim b any [t] [t'] (line_end t) (line_end t') lined.
Proof. intros h. eapply sim_weak; [now apply sim_line_end0|auto|]. intros p s [A B]. exact A. Qed.
(* the closing brace of a body *)
Lemma sim_body_end b t t' (i : bool) : tw t t' -> is_open_brace t = false -> sim b any [t] [t'] (body_end t None i) (body_end t' None i) ended.
Proof.
  intros h O. inv_tw h. set (t := Token k u [] [] w l false) in *. set (t' := Token k u [] [] w' l' false). assert (O' : is_open_brace t' = false) by exact O.
  unfold body_end, lead_inline. rewrite O, O'. cbn [t t' t_lead t_trail nonempty when trailing_end_comments trailing_from virtual_trail multiline_comments multiline_from]. fold t t'.
  change (closes t') with (closes t).
  apply (sim_pre b any any).
  { destruct i; [apply sim_skip|]. apply (sim_pre b any any); [|apply sim_indent_any]. apply sim_set; [apply frame_skip|intros s I; exact I|reflexivity|intros; exact I]. }
  eapply (sim_post b any word _ [_] [_]); [apply sim_tok; again|]. apply (sim_pre b word lined).
  - apply (sim_pre b word word); [apply sim_skip|]. apply sim_p_blank. intros p s [-> _]. reflexivity.
  - apply sim_prev. intros p s H. split; [exact H|reflexivity].
Qed.
Lemma sim_body_end_inline b t t' (i : bool) : tw t t' -> sim b any [t] [t'] (body_end_inline t None i) (body_end_inline t' None i) word.
Proof.
  intros h. inv_tw h. set (t := Token k u [] [] w l false) in *. set (t' := Token k u [] [] w' l' false).
  unfold body_end_inline, lead_inline. cbn [t t' t_lead t_trail nonempty when virtual_trail multiline_comments multiline_from]. fold t t'.
  change (closes t') with (closes t). change (is_open_brace t') with (is_open_brace t).
  apply (sim_pre b any any).
  { destruct i; [apply sim_skip|]. apply (sim_pre b any any); [|apply sim_indent_any]. apply sim_set; [apply frame_skip|intros s I; exact I|reflexivity|intros; exact I]. }
  eapply (sim_post b any word _ [_] [_]); [apply sim_tok; again|]. apply (sim_pre b word word); [apply sim_skip|].
  apply sim_prev. auto.
Qed.
Lemma sim_open b t t' : tw t t' -> sim b any [t] [t'] (open_prefix t) (open_prefix t') lined.
Proof.
  intros h. inv_tw h. set (t := Token k u [] [] w l false) in *. set (t' := Token k u [] [] w' l' false).
  unfold open_prefix, lead_inline. cbn [t t' t_lead t_trail nonempty when]. fold t t'. change (is_open_brace t') with (is_open_brace t).
  apply (sim_pre b any any); [apply sim_skip|].
  eapply (sim_post b any word _ [_] [_]); [apply sim_tok; again|]. apply (sim_pre b word lined).
  - apply sim_p_blank. intros p s [-> _]. reflexivity.
  - apply sim_prev. auto.
Qed.

(* ---- line starts ---- *)
Definition b2n (b : bool) : nat := if b then 1 else 0.
(* The first word is written without a line end before it. *)
Definition flush (b : bool) (ts : list token) (k : M) : Prop :=
  forall s hs n, incompact s = b -> splits (out (k (rest s))) (texts ts) hs n -> hd_error hs = Some 0.
Lemma flush_seq b t1 t2 k1 k2 : flush b t1 k1 -> wr b t1 k1 -> wr b t2 k2 -> Forall goodw (texts (t1 ++ t2)) -> t1 <> [] -> flush b (t1 ++ t2) (k1 ;; k2).
Proof.
  intros F (F1 & K1 & E1) (F2 & K2 & E2) G N s hs n I S. destruct (E1 s I) as (h1 & n1 & S1). destruct (E2 (k1 (rest s)) (K1 (rest s) I)) as (h2 & n2 & S2).
  unfold seq in S. rewrite (proj1 (F2 (k1 (rest s)) (K1 (rest s) I))) in S. rewrite texts_app in *. destruct (splits_unique _ G _ _ _ _ _ S (splits_app _ _ _ _ S1 _ _ _ _ S2)) as [-> _].
  pose proof (F s h1 n1 I S1) as X. destruct h1; [discriminate|exact X].
Qed.
(* Where a line starts: one line end is pending, or nothing was written and the file does not start
   with empty lines. *)
Definition lead (t : token) : pred := fun p s => p = 1 \/ (p = 0 /\ newl t <= 1).
Definition gap (t : token) (s : fmt) : bool := negb (prev_open s) && (1 <? newl t).
Lemma gap_stable t x p s : lead t p s -> x = p + b2n (gap t s) -> negb (prev_open s) && (1 <? x) = gap t s.
Proof.
  unfold lead, gap. destruct (prev_open s); cbn [negb andb]; [reflexivity|]. intros [-> | [-> L]] ->.
  - destruct (1 <? newl t); reflexivity.
  - replace (1 <? newl t) with false; [reflexivity|]. symmetry. apply Nat.ltb_ge. exact L.
Qed.
Definition pre_state (g c : bool) : M := fun s => write_indent c (if g then p_blank s else s).
Lemma start_pre_run t r c s : t_lead t = [] -> start_pre false (t :: r) c s = pre_state (gap t s) c s.
Proof. intro L. unfold start_pre, seq. cbn [lead_of ws_of]. rewrite L. cbn [nonempty orb]. unfold pre_state, gap, newl. fold (newlines (t_ws t)). destruct (_ && _); reflexivity. Qed.
Lemma frame_pre_state g c : frame (pre_state g c).
Proof.
  destruct g; [exact (frame_seq p_blank (write_indent c) frame_p_blank (frame_indent c))|exact (frame_indent c)].
Qed.
Lemma pre_state_run g c s : blank (out (pre_state g c (rest s))) /\ newlines (out (pre_state g c (rest s))) = b2n g /\ incompact (pre_state g c s) = incompact s.
Proof.
  unfold pre_state. destruct g.
  - rewrite (proj1 (frame_indent c _)). destruct (p_blank_run s) as [-> _]. destruct (indent_run c (p_blank (rest s))) as (A & B & _).
    split; [apply (blank_app [nl]); [reflexivity|exact A]|]. split; [rewrite newlines_app, B; reflexivity|].
    rewrite (keeps_indent (incompact s) c (p_blank s)); [reflexivity|]. now apply keeps_p_blank.
  - destruct (indent_run c s) as (A & B & _). split; [exact A|]. split; [exact B|]. now apply keeps_indent.
Qed.
Lemma start_frame t r c : t_lead t = [] -> frame (start_pre false (t :: r) c).
Proof.
  intros L s. rewrite !start_pre_run by exact L. change (gap t (rest s)) with (gap t s). apply frame_pre_state.
Qed.
Lemma wr_start b t r c : t_lead t = [] -> wr b [] (start_pre false (t :: r) c).
Proof.
  intro L. split; [apply frame_framed; now apply start_frame|]. split.
  - intros s I. rewrite start_pre_run by exact L. rewrite (proj2 (proj2 (pre_state_run _ _ _))). exact I.
  - intros s I. rewrite start_pre_run by exact L. eexists; eexists. apply splits_blank. apply pre_state_run.
Qed.
Lemma tws_cons t r t' r' : tws (t :: r) (t' :: r') -> tw t t' /\ tws r r'.
Proof. intro h. inversion h; auto. Qed.
Lemma sim_opener b (P Q : pred) t r t' r' O O' k k' : wr b [] O -> wr b [] O' ->
  (forall p s, incompact s = b -> P p (rest s) -> exists g c, O (rest s) = pre_state g c (rest s) /\ (newl t' = p + b2n g -> O' (rest s) = pre_state g c (rest s))) ->
  (key t = key t' -> eqM O O') -> sim b any (t :: r) (t' :: r') k k' Q -> flush b (t :: r) k ->
  sim b P (t :: r) (t' :: r') (O ;; k) (O' ;; k') Q.
Proof.
  intros V V' H XO [T W W' R X] F. split.
  - exact T.
  - exact (wr_seq b [] _ _ _ V W).
  - exact (wr_seq b [] _ _ _ V' W').
  - intros p s hs n I HP0 S C. unfold seq in *. destruct (H p s I HP0) as (g & c & EO & EO'). rewrite EO in *.
    destruct W as (Fk & Kk & Ek). destruct W' as (Fk' & Kk' & Ek'). set (s1 := pre_state g c (rest s)) in *.
    destruct (pre_state_run g c s) as (B1 & B2 & B3). fold s1 in B1, B2.
    assert (I1 : incompact s1 = b) by (unfold s1; rewrite (proj2 (proj2 (pre_state_run _ _ _))); exact I).
    destruct (Ek s1 I1) as (h2 & n2 & S2). rewrite (proj1 (Fk s1 I1)) in S.
    destruct (splits_unique _ (proj2 (tws_texts _ _ T)) _ _ _ _ _ S (splits_app _ _ _ _ (splits_blank _ B1) _ _ _ _ S2)) as [-> ->].
    pose proof (F s1 h2 n2 I1 S2) as H0. destruct h2 as [|h h2]; [discriminate|]. injection H0 as ->. cbn [app adj endp] in *. rewrite B2, Nat.add_0_r in *.
    cbn [map] in C. injection C as C1 C2. rewrite (EO' C1).
    destruct (R (newl t') s1 (0 :: h2) n2 I1 Logic.I S2) as (A1 & A2 & A3). { cbn [map adj]. rewrite Nat.add_0_r, C2. reflexivity. }
    rewrite (proj1 (Fk' s1 I1)), (proj2 (Fk' s1 I1)), (proj2 (Fk s1 I1)). split; [|split; [exact A2|exact A3]].
    pose proof (splits_app _ _ _ _ (splits_blank _ B1) _ _ _ _ A1) as Y. cbn [app adj endp] in Y. rewrite B2, Nat.add_0_r in Y. exact Y.
  - intros E s I. unfold seq. pose proof E as E0. cbn [map] in E. injection E as E1 E2 E3. rewrite XO by (unfold key; congruence). apply X; [exact E0|]. apply (proj1 (proj2 V')). exact I.
Qed.
Lemma tw_lead t t' : tw t t' -> t_lead t = [] /\ t_lead t' = []. Proof. destruct 1. auto. Qed.
Lemma start_eq t r t' r' c : tw t t' -> key t = key t' -> eqM (start_pre false (t :: r) c) (start_pre false (t' :: r') c).
Proof.
  intros h E s. destruct (tw_lead _ _ h) as [L L']. rewrite !start_pre_run by assumption. injection E as E1 E2. unfold gap. now rewrite E1.
Qed.
(* head of a list of tokens *)
Definition leads (ts : list token) : pred := fun p s => p = 1 \/ (p = 0 /\ match ts with t :: _ => newl t <= 1 | [] => True end).
Definition top (ts : list token) : pred := fun p s =>
  (prev s = None /\ p = 0 /\ match ts with t :: _ => newl t <= 1 | [] => True end) \/ (prev s = Some false /\ p = 1).
(* A writer that starts a line with its first token. *)
Definition begins (b : bool) (ts ts' : list token) (m m' : M) (Q : pred) : Prop :=
  exists t r t' r' r0 r0' c k k', ts = t :: r /\ ts' = t' :: r' /\ eqM m (start_pre false (t :: r0) c ;; k) /\ eqM m' (start_pre false (t' :: r0') c ;; k') /\
    sim b any ts ts' k k' Q /\ flush b ts k.
Lemma begins_sim b ts ts' m m' Q : begins b ts ts' m m' Q -> sim b (leads ts) ts ts' m m' Q.
Proof.
  intros (t & r & t' & r' & r0 & r0' & c & k & k' & -> & -> & A & A' & S & F). eapply sim_eqM; [|exact A|exact A'].
  pose proof (proj1 (tws_cons _ _ _ _ (sim_toks _ _ _ _ _ _ _ S))) as Tw. destruct (tw_lead _ _ Tw) as [L L'].
  apply sim_opener; [now apply wr_start|now apply wr_start| |now apply start_eq|exact S|exact F].
  intros p s I H. exists (gap t (rest s)), c. split; [now apply start_pre_run|]. intro E.
  rewrite start_pre_run by assumption. f_equal. unfold gap at 1. exact (gap_stable t (newl t') p (rest s) H E).
Qed.
Lemma frame_sep ts : frame (sep_line ts).
Proof. intro s. unfold sep_line. cbn [rest prev]. destruct (_ && _); [apply frame_p_blank|apply frame_skip]. Qed.
Lemma wr_sep b ts : wr b [] (sep_line ts).
Proof.
  split; [apply frame_framed, frame_sep|]. split.
  - intros s I. unfold sep_line. destruct (_ && _); [now apply keeps_p_blank|exact I].
  - intros s I. unfold sep_line. eexists; eexists. apply splits_blank. destruct (_ && _); [cbn [when]; rewrite (proj1 (p_blank_run s))|]; reflexivity.
Qed.
Lemma sep_run t r r0 c s : t_lead t = [] -> (prev s = None /\ newl t <= 1) \/ prev s = Some false ->
  (sep_line (t :: r) ;; start_pre false (t :: r0) c) s = pre_state (match prev s with None => false | _ => true end) c s.
Proof.
  intros L H. unfold seq, sep_line. unfold blank_before. cbn [lead_of ws_of]. rewrite L. cbn [existsb orb]. fold (newl t).
  destruct H as [[E N]|E]; rewrite E.
  - cbn [andb when skip]. rewrite start_pre_run by exact L. unfold gap, prev_open. unfold skip. rewrite E. cbn [negb andb].
    replace (1 <? newl t) with false; [reflexivity|]. symmetry. now apply Nat.ltb_ge.
  - cbn [andb]. destruct (1 <? newl t) eqn:G; cbn [negb when].
    + rewrite start_pre_run by exact L. unfold skip, gap, prev_open. rewrite E, G. reflexivity.
    + rewrite start_pre_run by exact L. unfold gap. rewrite G, andb_false_r. reflexivity.
Qed.
Lemma begins_sep b ts ts' r0 r0' m m' Q : begins b ts ts' m m' Q -> hd_error ts = hd_error r0 -> hd_error ts' = hd_error r0' ->
  sim b (top ts) ts ts' (sep_line r0 ;; m) (sep_line r0' ;; m') Q.
Proof.
  intros (t & r & t' & r' & r1 & r1' & c & k & k' & -> & -> & A & A' & S & F) H H'. cbn in H, H'.
  destruct r0 as [|u r0]; [discriminate|]. injection H as <-. destruct r0' as [|u r0']; [discriminate|]. injection H' as <-.
  pose proof (proj1 (tws_cons _ _ _ _ (sim_toks _ _ _ _ _ _ _ S))) as Tw. destruct (tw_lead _ _ Tw) as [L L'].
  eapply sim_eqM with (m := (sep_line (t :: r0) ;; start_pre false (t :: r1) c) ;; k) (m' := (sep_line (t' :: r0') ;; start_pre false (t' :: r1') c) ;; k').
  2:{ intro s. unfold seq. rewrite A. reflexivity. }
  2:{ intro s. unfold seq. rewrite A'. reflexivity. }
  apply sim_opener; [apply (wr_seq b [] []); [apply wr_sep|now apply wr_start]|apply (wr_seq b [] []); [apply wr_sep|now apply wr_start]| | |exact S|exact F].
  - intros p s I P. exists (match prev (rest s) with None => false | _ => true end), c. split.
    + apply sep_run; [exact L|]. destruct P as [(P1 & _ & P2)|[P1 _]]; auto.
    + intro E. apply sep_run; [exact L'|]. destruct P as [(P1 & -> & P2)|[P1 _]]; [|auto]. left. split; [exact P1|]. rewrite P1 in E. cbn [b2n Nat.add] in E. rewrite E. lia.
  - intros E s. unfold seq. rewrite (start_eq t r1 t' r1' c Tw E). f_equal. unfold sep_line, blank_before. cbn [lead_of ws_of]. rewrite L, L'. injection E as E1 E2. unfold newl in E1. rewrite E1. reflexivity.
Qed.
Lemma begins_seq b t1 t1' t2 t2' m m' n n' R Q : begins b t1 t1' m m' R -> sim b R t2 t2' n n' Q -> begins b (t1 ++ t2) (t1' ++ t2') (m ;; n) (m' ;; n') Q.
Proof.
  intros (t & r & t' & r' & r0 & r0' & c & k & k' & -> & -> & A & A' & S & F) S2. pose proof (sim_seq _ _ _ _ _ _ _ _ _ _ _ _ S S2) as S3.
  exists t, (r ++ t2), t', (r' ++ t2'), r0, r0', c, (k ;; n), (k' ;; n'). split; [reflexivity|]. split; [reflexivity|].
  split; [intro s; unfold seq; rewrite A; reflexivity|]. split; [intro s; unfold seq; rewrite A'; reflexivity|]. split; [exact S3|].
  apply flush_seq; [exact F|exact (sim_wr _ _ _ _ _ _ _ S)|exact (sim_wr _ _ _ _ _ _ _ S2)|exact (proj2 (tws_texts _ _ (sim_toks _ _ _ _ _ _ _ S3)))|discriminate].
Qed.
Lemma begins_eqM b ts ts' m m' m1 m1' Q : begins b ts ts' m m' Q -> eqM m1 m -> eqM m1' m' -> begins b ts ts' m1 m1' Q.
Proof.
  intros (t & r & t' & r' & r0 & r0' & c & k & k' & -> & -> & A & A' & S & F) E E'. exists t, r, t', r', r0, r0', c, k, k'.
  split; [reflexivity|]. split; [reflexivity|]. split; [intro s; rewrite E; apply A|]. split; [intro s; rewrite E'; apply A'|]. auto.
Qed.
Lemma begins_weak b ts ts' m m' (Q Q' : pred) : begins b ts ts' m m' Q -> (forall p s, Q p s -> Q' p s) -> begins b ts ts' m m' Q'.
Proof.
  intros (t & r & t' & r' & r0 & r0' & c & k & k' & -> & -> & A & A' & S & F) E. exists t, r, t', r', r0, r0', c, k, k'.
  repeat (split; [first [reflexivity|assumption]|]). split; [|exact F]. eapply sim_weak; [exact S|auto|exact E].
Qed.
Lemma flush_tok b t : goodw (t_text t) -> wtext t = t_text t -> flush b [t] (write_tok t).
Proof.
  intros G E s hs n _ S. destruct (tok_run t E s) as (g & H & O & _). rewrite O in S.
  assert (X : splits (g ++ t_text t) [t_text t] [0] 0).
  { destruct H as [-> | ->]; [apply splits_word|]. exact (splits_app [sp] [] [] 0 (splits_blank [sp] eq_refl) _ _ _ _ (splits_word (t_text t))). }
  destruct (splits_unique [t_text t] ltac:(repeat constructor; exact G) _ _ _ _ _ S X) as [-> _]. reflexivity.
Qed.
Lemma flush_inline b t t' : tw t t' -> flush b [t] (inline_tok t).
Proof.
  intros h. inv_tw h. set (t := Token k u [] [] w l false). intros s hs n I S. exact (flush_tok b t G E (set_inl true s) hs n I S).
Qed.
Lemma begins_tok b t t' : tw t t' -> begins b [t] [t'] (start_tok false t) (start_tok false t') word.
Proof.
  intro h. exists t, [], t', [], [], [], (closes t), (write_tok t ;; start_post [t] (is_open_brace t)), (write_tok t' ;; start_post [t'] (is_open_brace t')).
  split; [reflexivity|]. split; [reflexivity|]. split; [intro; reflexivity|]. split; [intro; destruct h; reflexivity|].
  assert (X : sim b word [] [] (start_post [t] (is_open_brace t)) (start_post [t] (is_open_brace t)) word).
  { inv_tw h. unfold start_post. cbn [trail_of rev app t_trail nonempty when]. apply (sim_pre b word word); [apply sim_skip|apply sim_prev; auto]. }
  split.
  - eapply sim_eqM; [eapply sim_post; [apply sim_tok; exact h|exact X]|intro; reflexivity|intro; destruct h; reflexivity].
  - apply (flush_seq b [t] [] (write_tok t) (start_post [t] (is_open_brace t))).
    + inv_tw h. now apply flush_tok.
    + exact (sim_wr _ _ _ _ _ _ _ (sim_tok b _ _ h)).
    + exact (sim_wr _ _ _ _ _ _ _ X).
    + rewrite app_nil_r. inv_tw h. repeat constructor. exact G.
    + discriminate.
Qed.
