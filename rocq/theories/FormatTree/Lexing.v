(* Lemmas for C110-C112: how the text the formatter appends is read by the lexical grammar. *)
From Coq Require Import Ascii String.
From Verif Require Import Base Strs.
From Verif.Format Require Import Model Spec Proofs.
From Verif.FormatTree Require Import Model Spec.
Import ListNotations.
Open Scope list_scope.

Lemma wds_app a b : wds (a ++ b) = wds a ++ wds b.
Proof. unfold wds. apply flat_map_app. Qed.
Lemma lrun_app : forall x y s, lrun s (x ++ y) = (fst (lrun (fst (lrun s x)) y), snd (lrun s x) ++ snd (lrun (fst (lrun s x)) y)).
Proof.
  induction x as [|c x IH]; intros y s; cbn [app lrun].
  - cbn [fst snd app]. destruct (lrun s y); reflexivity.
  - destruct (lstep s c) as [s1 l1]. rewrite IH. destruct (lrun s1 x) as [s2 l2]. cbn [fst snd]. now rewrite app_assoc.
Qed.

Definition idle (s : lst) : Prop := match s with S0 | SId _ | SNum _ | SDot | SSlash => True | _ => False end.
Definition closed (s : lst) : Prop := match s with S0 | SId _ | SNum _ | SDot => True | _ => False end.
Definition joins (s : lst) (c : ascii) : Prop := lstep s c = (fst (lstart c), flush s ++ snd (lstart c)).
Definition apart (c : ascii) : bool := negb (idchar c || Ascii.eqb c dotc || Ascii.eqb c "+" || Ascii.eqb c "-").
Lemma joins_S0 c : joins S0 c.
Proof. unfold joins. cbn. destruct (lstart c); reflexivity. Qed.
Lemma closed_idle s : closed s -> idle s.
Proof. destruct s; cbn; auto. Qed.
Lemma apart_spec c : apart c = true -> idchar c = false /\ (forall w, numchar w c = false) /\ digit c = false.
Proof.
  unfold apart, numchar. intro H. apply negb_true_iff in H. apply orb_false_iff in H. destruct H as [H H4].
  apply orb_false_iff in H. destruct H as [H H3]. apply orb_false_iff in H. destruct H as [H1 H2].
  split; [exact H1|]. rewrite H1, H2, H3, H4. split; [reflexivity|]. unfold idchar in H1. now apply orb_false_iff in H1.
Qed.
Lemma joins_apart s c : closed s -> apart c = true -> joins s c.
Proof.
  intros Hs Hc. destruct (apart_spec _ Hc) as (A & B & C). unfold joins.
  destruct s; try destruct Hs; cbn [lstep flush]; [apply joins_S0| | |]; rewrite ?A, ?B, ?C; unfold after; destruct (lstart c); reflexivity.
Qed.
Lemma space_apart : apart sp = true. Proof. reflexivity. Qed.
Lemma joins_space s : idle s -> lstep s sp = (S0, flush s).
Proof.
  intro H. destruct s; try destruct H; reflexivity.
Qed.
Lemma joins_dot s : match s with S0 | SId _ | SDot => True | _ => False end -> joins s dotc.
Proof. destruct s; intro H; try destruct H; reflexivity. Qed.
Lemma joins_letter s c : match s with S0 | SDot | SSlash => True | _ => False end -> letter c = true -> joins s c.
Proof.
  intros Hs Hc. destruct s; try destruct Hs; [apply joins_S0| |]; unfold joins; cbn [lstep flush].
  - replace (digit c) with false; [destruct (lstart c); reflexivity|].
    revert Hc. destruct c as [[] [] [] [] [] [] [] []]; vm_compute; congruence.
  - replace (Ascii.eqb c slash) with false; [replace (Ascii.eqb c star) with false; [destruct (lstart c); reflexivity|]|].
    all: revert Hc; destruct c as [[] [] [] [] [] [] [] []]; vm_compute; congruence.
Qed.
Lemma lrun_joins s c r : joins s c -> lrun s (c :: r) = (fst (lrun S0 (c :: r)), flush s ++ snd (lrun S0 (c :: r))).
Proof.
  unfold joins. intro H. cbn [lrun]. rewrite H. cbn [lstep]. destruct (lstart c) as [s1 l1]. cbn [fst snd].
  destruct (lrun s1 r) as [s2 l2]. cbn [fst snd]. now rewrite app_assoc.
Qed.

(* A character after which no blank is written ends every word. *)
Lemma lstart_block c : mem c (prev_block true) = true -> fst (lstart c) = S0.
Proof. destruct c as [[] [] [] [] [] [] [] []]; vm_compute; congruence. Qed.
Lemma block_apart c : mem c (prev_block true) = true -> idchar c = false /\ (forall w, numchar w c = false) /\ digit c = false /\ Ascii.eqb c dq || Ascii.eqb c sq = false.
Proof.
  intro H. destruct (apart_spec c) as (A & B & C); [|repeat split; auto; revert H].
  - revert H. destruct c as [[] [] [] [] [] [] [] []]; vm_compute; congruence.
  - destruct c as [[] [] [] [] [] [] [] []]; vm_compute; congruence.
Qed.
Lemma lstep_block s c : mem c (prev_block true) = true -> closed (fst (lstep s c)) -> fst (lstep s c) = S0.
Proof.
  intros H. pose proof (lstart_block _ H) as L. destruct (block_apart _ H) as (A & B & C & D).
  destruct s; cbn [lstep].
  - auto.
  - rewrite A. auto.
  - rewrite B. auto.
  - rewrite C. auto.
  - destruct (Ascii.eqb c slash); [intros []|]. destruct (Ascii.eqb c star); [intros []|]. auto.
  - destruct esc; [intros []|]. destruct (Ascii.eqb c q); [reflexivity|]. destruct (Ascii.eqb c nl); intros [].
  - destruct (Ascii.eqb c nl); [reflexivity|intros []].
  - destruct (star && Ascii.eqb c slash); [reflexivity|intros []].
  - intros [].
Qed.
Lemma lrun_block x c s : mem c (prev_block true) = true -> closed (fst (lrun s (x ++ [c]))) -> fst (lrun s (x ++ [c])) = S0.
Proof.
  rewrite lrun_app. cbn [fst lrun]. destruct (lstep (fst (lrun s x)) c) as [s1 l1] eqn:E. cbn [fst].
  intros H C. pose proof (lstep_block (fst (lrun s x)) c H) as L. rewrite E in L. apply L. exact C.
Qed.
Lemma next_apart c : mem c (next_block true) = true -> apart c = true.
Proof. destruct c as [[] [] [] [] [] [] [] []]; vm_compute; congruence. Qed.
Lemma prev_block_true b c : mem c (prev_block b) = true -> mem c (prev_block true) = true.
Proof. destruct b; [auto|]. unfold mem, prev_block. rewrite !existsb_app. intro H. apply orb_true_iff in H as [H|H]; [rewrite H; reflexivity|discriminate]. Qed.
Lemma next_block_true b c : mem c (next_block b) = true -> mem c (next_block true) = true.
Proof.
  destruct b; [auto|]. unfold mem, next_block. rewrite !existsb_app. intro H. apply orb_true_iff in H as [H|H]; [now rewrite H|].
  apply orb_true_iff in H as [H|H]; [rewrite H|discriminate]. now rewrite orb_true_r.
Qed.

(* ---- comments ---- *)
Lemma lrun_line : forall b w, ~ In nl b -> lrun (SLine w) b = (SLine (w ++ b), []).
Proof.
  induction b as [|c b IH]; intros w H; cbn [lrun]; [now rewrite app_nil_r|].
  cbn [lstep]. replace (Ascii.eqb c nl) with false.
  - rewrite IH by (intro X; apply H; now right). now rewrite <- app_assoc.
  - symmetry. apply Ascii.eqb_neq. intros ->. apply H. now left.
Qed.
Lemma lrun_line_comment t : one_line t -> lrun S0 t = (SLine t, []).
Proof.
  intros (b & -> & H). change (b_ "//" ++ b) with (slash :: slash :: b). cbn [lrun].
  change (lstep S0 slash) with (SSlash, @nil lexeme). cbn [lstep]. change (Ascii.eqb slash slash) with true.
  cbn iota beta. rewrite lrun_line by exact H. reflexivity.
Qed.
Lemma lrun_block_body : forall b st w, after_end b = Some [] -> (st = true -> has_prefix b [slash] = false) ->
  lrun (SBlock st w) b = (S0, [LC (w ++ b)]).
Proof.
  induction b as [|c b IH]; intros st w H Hs; [discriminate|]. rewrite after_end_cons in H. cbn [lrun lstep].
  replace (st && Ascii.eqb c slash) with false.
  2:{ destruct st; [|reflexivity]. specialize (Hs eq_refl). cbn [andb]. destruct (Ascii.eqb c slash) eqn:E; [|reflexivity].
      apply Ascii.eqb_eq in E. subst c. assert (X : has_prefix (slash :: b) [slash] = true) by (apply has_slash; eauto). congruence. }
  destruct (Ascii.eqb c star && has_prefix b [slash]) eqn:E.
  - apply andb_true_iff in E as [E1 E2]. apply has_slash in E2 as (r & ->). cbn [tl] in H. injection H as ->. cbn [lrun lstep].
    rewrite E1. change (Ascii.eqb slash slash) with true. cbn. now rewrite <- !app_assoc.
  - rewrite IH; [now rewrite <- app_assoc|exact H|]. intro X. rewrite X in E. exact E.
Qed.
Lemma lrun_block_comment t : one_block t -> lrun S0 t = (S0, [LC t]).
Proof.
  intros (b & -> & H). change (b_ "/*" ++ b) with (slash :: star :: b). cbn [lrun].
  change (lstep S0 slash) with (SSlash, @nil lexeme). cbn [lstep]. change (Ascii.eqb star slash) with false.
  change (Ascii.eqb star star) with true. cbn iota beta. rewrite lrun_block_body by (exact H || discriminate). reflexivity.
Qed.

(* ---- the lexical state of the formatter ---- *)
Definition lx (f : fmt) : lst * list lexeme := lrun S0 (out f).
Definition st (f : fmt) : lst := fst (lx f).
Definition words (f : fmt) : list bytes := wds (snd (lx f) ++ flush (st f)).
Definition coh (f : fmt) : Prop := mem (lastw f) (prev_block true) = true -> st f = S0.
Definition good (f : fmt) : Prop := coh f /\ closed (st f).

Inductive cls := Z | Sp | AId | ADot | ASl | Any | Cm.
Definition inv (k : cls) (f : fmt) : Prop :=
  match k with
  | Z => st f = S0
  | Sp => good f /\ (st f = S0 \/ pspace f = true)
  | AId => good f /\ (st f = S0 \/ exists w, st f = SId w)
  | ADot => good f /\ (st f = S0 \/ st f = SDot)
  | ASl => coh f /\ (st f = S0 \/ st f = SSlash)
  | Any => good f
  | Cm => st f = S0 \/ exists w, st f = SLine w
  end.
Definition H (ic : bool) (m : M) (pre : cls) (ws : list bytes) (post : cls) : Prop :=
  forall f, incompact f = ic -> inv pre f ->
    inv post (m f) /\ words (m f) = words f ++ ws /\ incompact (m f) = ic /\ crash (m f) = crash f.

Lemma Z_good f : st f = S0 -> good f.
Proof. intro E. split; [intros _; exact E|rewrite E; exact I]. Qed.
Definition below (a b : cls) : bool :=
  match a, b with
  | Z, _ => true | Sp, Sp | Sp, Any | AId, AId | AId, Any | ADot, ADot | ADot, Any | ASl, ASl | Any, Any | Cm, Cm => true
  | _, _ => false
  end.
Lemma below_inv a b f : below a b = true -> inv a f -> inv b f.
Proof.
  intros B I. destruct a; destruct b; try discriminate B; try exact I; cbn [inv] in *;
    try exact (proj1 I).
  all: pose proof (Z_good _ I) as G; try (split; [|now left]); auto; try apply G; tauto.
Qed.
Lemma H_weak ic m pre ws post pre' post' : H ic m pre ws post -> below pre' pre = true -> below post post' = true -> H ic m pre' ws post'.
Proof.
  intros h B1 B2 f E I. destruct (h f E (below_inv _ _ _ B1 I)) as (A & B & C & D). split; [exact (below_inv _ _ _ B2 A)|auto].
Qed.
Lemma H_skip ic k : H ic skip k [] k.
Proof. intros f E I. unfold skip. rewrite app_nil_r. auto. Qed.
Lemma H_seq ic a b p w1 q w2 r : H ic a p w1 q -> H ic b q w2 r -> H ic (a ;; b) p (w1 ++ w2) r.
Proof.
  intros A B f E I. destruct (A f E I) as (A1 & A2 & A3 & A4). destruct (B _ A3 A1) as (B1 & B2 & B3 & B4).
  unfold seq. rewrite B2, A2, B4, A4, app_assoc. auto.
Qed.
(* the same with the words given up to equality *)
Lemma H_eq ic m p ws ws' q : H ic m p ws q -> ws = ws' -> H ic m p ws' q.
Proof. now intros h <-. Qed.
Lemma H_seq' ic a b p w1 q w2 r ws : H ic a p w1 q -> H ic b q w2 r -> ws = w1 ++ w2 -> H ic (a ;; b) p ws r.
Proof. intros A B ->. exact (H_seq _ _ _ _ _ _ _ _ A B). Qed.
Lemma H_pre ic m pre ws post pre' : H ic m pre ws post -> below pre' pre = true -> H ic m pre' ws post.
Proof. intros h B. apply (H_weak _ _ _ _ _ _ _ h B). destruct post; reflexivity. Qed.
Lemma H_post ic m pre ws post post' : H ic m pre ws post -> below post post' = true -> H ic m pre ws post'.
Proof. intros h B. apply (H_weak _ _ _ _ _ _ _ h); [destruct pre; reflexivity|exact B]. Qed.
Lemma H_when ic b m k ws k' : (b = true -> H ic m k ws k') -> (b = false -> ws = [] /\ below k k' = true) -> H ic (when b m) k ws k'.
Proof.
  intros A B. destruct b; [apply A; reflexivity|]. destruct (B eq_refl) as [-> B']. apply (H_post _ _ _ _ _ _ (H_skip ic k) B').
Qed.
Lemma H_when0 ic b m k : H ic m k [] k -> H ic (when b m) k [] k.
Proof. intro h. apply H_when; [intros _; exact h|]. intros _. split; [reflexivity|destruct k; reflexivity]. Qed.

(* Only what was written, the pending space and the last character matter. *)
Definition same (f g : fmt) : Prop := out f = out g /\ lastw f = lastw g /\ pspace f = pspace g.
Lemma same_inv k f g : same f g -> inv k f -> inv k g.
Proof.
  intros (A & B & C). unfold inv, good, coh, st, lx. rewrite A, B, C. auto.
Qed.
Lemma same_words f g : same f g -> words f = words g.
Proof. intros (A & _ & _). unfold words, st, lx. now rewrite A. Qed.
Lemma H_same ic m k : (forall f, same f (m f) /\ incompact (m f) = incompact f /\ crash (m f) = crash f) -> H ic m k [] k.
Proof.
  intros S f E I. destruct (S f) as (A & B & C). split; [exact (same_inv _ _ _ A I)|]. rewrite app_nil_r, B, C.
  split; [symmetry; exact (same_words _ _ A)|auto].
Qed.
Lemma H_prev ic b k : H ic (set_prev b) k [] k.
Proof. apply H_same. intro f. repeat split. Qed.
Lemma H_inl ic b k : H ic (set_inl b) k [] k.
Proof. apply H_same. intro f. repeat split. Qed.
Lemma H_pindent ic z k : H ic (set_pindent z) k [] k.
Proof. apply H_same. intro f. repeat split. Qed.
Lemma H_in ic k : H ic shift_in k [] k.
Proof. apply H_same. intro f. repeat split. Qed.
Lemma H_out ic k : H ic shift_out k [] k.
Proof. apply H_same. intro f. unfold shift_out. destruct (indent f); repeat split. Qed.
Lemma H_settle ic k : H ic settle k [] k.
Proof.
  apply H_same. intro f. unfold settle. destruct (0 <? pindent f)%Z; [repeat split|]. destruct (pindent f <? 0)%Z; [|repeat split].
  unfold shift_out. destruct (indent f); repeat split.
Qed.
Lemma H_space ic : H ic space Any [] Sp.
Proof. intros f E I. cbn [inv] in *. split; [|rewrite app_nil_r; auto]. split; [exact I|now right]. Qed.
Lemma H_space_keep ic k : k <> Cm -> H ic space k [] k.
Proof.
  intros Hk f E I. split; [|rewrite app_nil_r; auto]. destruct k; try exact I; try congruence.
  cbn [inv] in *. destruct I as [G _]. split; [exact G|now right].
Qed.

(* ---- writing a text ---- *)
(* Where a text that starts with c may be written. *)
Definition can (f : fmt) (c : ascii) : Prop := joins (st f) c \/ (pspace f = true /\ closed (st f)).
Lemma write_lex f c r : coh f -> idle (st f) -> can f c ->
  let s := c :: r in
  lx (write_string s f) = (fst (lrun S0 s), snd (lx f) ++ flush (st f) ++ snd (lrun S0 s)).
Proof.
  intros C Id Ca s. unfold lx, write_string. cbn [out].
  set (gap := pspace f && negb (mem (lastw f) (prev_block (inl f))) && negb (blocked_next (inl f) s)).
  assert (J : gap = true \/ joins (st f) c).
  { destruct Ca as [J|[P Cl]]; [now right|]. destruct gap eqn:G; [now left|right]. unfold gap in G. rewrite P in G. cbn [andb] in G.
    apply andb_false_iff in G. rewrite !negb_false_iff in G. destruct G as [G|G].
    - rewrite (C (prev_block_true _ _ G)). apply joins_S0.
    - unfold s in G. cbn [blocked_next] in G. apply joins_apart; [exact Cl|]. exact (next_apart _ (next_block_true _ _ G)). }
  rewrite lrun_app. fold (lx f). fold (st f). destruct gap.
  - cbn [app]. set (x := lrun (st f) (sp :: s)). assert (E : x = (fst (lrun S0 s), flush (st f) ++ snd (lrun S0 s))).
    { unfold x. cbn [lrun]. rewrite joins_space by exact Id. fold s. destruct (lrun S0 s); reflexivity. }
    rewrite E. reflexivity.
  - destruct J as [J|J]; [discriminate|]. cbn [app]. unfold s. rewrite (lrun_joins _ _ _ J). reflexivity.
Qed.
Lemma last_in (r : bytes) d : forall c, last (c :: r) d = last (c :: r) c.
Proof.
  induction r as [|a r IH] using rev_ind; intro c; [reflexivity|]. rewrite app_comm_cons, !last_last. reflexivity.
Qed.
(* A text whose last character cannot hide an unfinished word. *)
Lemma write_good f c r : coh f -> idle (st f) -> can f c -> closed (fst (lrun S0 (c :: r))) ->
  good (write_string (c :: r) f).
Proof.
  intros C Id Ca Cl. pose proof (write_lex f c r C Id Ca) as L. split; [|unfold st; rewrite L; exact Cl].
  unfold coh, st. rewrite L. cbn [fst]. unfold write_string. cbn [lastw].
  destruct (exists_last (l := c :: r)) as (x & d & E); [discriminate|]. intro X. rewrite E in *. rewrite last_last in X.
  exact (lrun_block _ _ _ X Cl).
Qed.
Lemma write_words f c r : coh f -> idle (st f) -> can f c ->
  words (write_string (c :: r) f) = words f ++ wds (snd (lrun S0 (c :: r)) ++ flush (fst (lrun S0 (c :: r)))).
Proof.
  intros C Id Ca. unfold words, st. rewrite (write_lex f c r C Id Ca). cbn [fst snd]. rewrite !wds_app. fold (st f). now rewrite <- !app_assoc.
Qed.

(* One writer per kind of text. *)
Lemma inv_coh k f : inv k f -> k <> Cm -> coh f.
Proof. destruct k; cbn [inv]; intros I N; try congruence; try apply I; try (apply Z_good; exact I). Qed.
Lemma inv_idle k f : inv k f -> k <> Cm -> idle (st f).
Proof.
  destruct k; cbn [inv]; intros I N; try congruence.
  - rewrite I. exact Logic.I.
  - apply closed_idle, I.
  - apply closed_idle, I.
  - apply closed_idle, I.
  - destruct I as [_ [->| ->]]; exact Logic.I.
  - apply closed_idle, I.
Qed.
Lemma H_write ic c r pre ws post : pre <> Cm ->
  (forall f, inv pre f -> can f c) -> closed (fst (lrun S0 (c :: r))) ->
  wds (snd (lrun S0 (c :: r)) ++ flush (fst (lrun S0 (c :: r)))) = ws ->
  (forall f, st f = fst (lrun S0 (c :: r)) -> good f -> inv post f) ->
  H ic (write_string (c :: r)) pre ws post.
Proof.
  intros N Ca Cl W P f E I.
  pose proof (inv_coh _ _ I N) as Co. pose proof (inv_idle _ _ I N) as Id.
  split; [|split; [rewrite (write_words f c r Co Id (Ca f I)), W; reflexivity|split; [exact E|reflexivity]]].
  apply P; [|exact (write_good f c r Co Id (Ca f I) Cl)]. unfold st. rewrite (write_lex f c r Co Id (Ca f I)). reflexivity.
Qed.
Lemma can_any f c : apart c = true -> closed (st f) -> can f c.
Proof. intros A C. left. exact (joins_apart _ _ C A). Qed.
Lemma inv_closed k f : inv k f -> k <> Cm -> k <> ASl -> closed (st f).
Proof.
  destruct k; cbn [inv]; intros I N1 N2; try congruence; try apply I. rewrite I. exact Logic.I.
Qed.
(* A text that starts apart from what precedes it and is complete. *)
Lemma H_apart ic c r ws k : apart c = true -> lrun S0 (c :: r) = (S0, ws) -> k <> Cm -> k <> ASl ->
  H ic (write_string (c :: r)) k (wds ws) Z.
Proof.
  intros A L N1 N2. apply H_write; rewrite ?L; cbn [fst snd]; auto; try exact Logic.I.
  - intros f I. apply can_any; [exact A|exact (inv_closed _ _ I N1 N2)].
  - cbn [flush]. now rewrite app_nil_r.
Qed.
