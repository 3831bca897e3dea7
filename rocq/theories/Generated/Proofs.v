(** Lemmas about Go names and generated files. *)
From Coq Require Import Ascii String.
From Verif Require Import Base Strs.
From Verif.Generated Require Import Model Spec.
Open Scope list_scope.

(** ** Characters *)
Lemma lower_upper c : is_lower c = true -> is_upper (to_upper c) = true.
Proof. destruct c as [[] [] [] [] [] [] [] []]; vm_compute; auto. Qed.
Lemma upper_same c : is_lower c = false -> to_upper c = c.
Proof. unfold to_upper. now intros ->. Qed.
Lemma upper_not_lower c : is_upper c = true -> is_lower c = false.
Proof. destruct c as [[] [] [] [] [] [] [] []]; vm_compute; auto. Qed.
Lemma digit_not_lower c : is_digit c = true -> is_lower c = false.
Proof. destruct c as [[] [] [] [] [] [] [] []]; vm_compute; auto. Qed.
Lemma digit_not_letter c : is_digit c = true -> is_letter c = false.
Proof. destruct c as [[] [] [] [] [] [] [] []]; vm_compute; auto. Qed.
Lemma letter_not_digit c : is_letter c = true -> is_digit c = false.
Proof. destruct c as [[] [] [] [] [] [] [] []]; vm_compute; auto. Qed.
Lemma lower_letter c : is_lower c = true -> is_letter c = true.
Proof. unfold is_letter. now intros ->. Qed.
Lemma upper_letter c : is_upper c = true -> is_letter c = true.
Proof. unfold is_letter. intros ->. apply orb_true_r. Qed.
Lemma letter_upper c : is_letter c = true -> is_upper (to_upper c) = true.
Proof.
  unfold is_letter. intro H. destruct (is_lower c) eqn:E; [now apply lower_upper|]. cbn [orb] in H. now rewrite upper_same.
Qed.
Lemma letter_neq c : is_letter c = true -> Ascii.eqb c dot = false /\ Ascii.eqb c under = false.
Proof. destruct c as [[] [] [] [] [] [] [] []]; vm_compute; auto. Qed.
Lemma digit_neq c : is_digit c = true -> Ascii.eqb c dot = false /\ Ascii.eqb c under = false.
Proof. destruct c as [[] [] [] [] [] [] [] []]; vm_compute; auto. Qed.
Lemma word_upper c : word c -> word (to_upper c).
Proof.
  intros [H|[H|H]].
  - left. now apply upper_letter, letter_upper.
  - right. left. rewrite upper_same; [assumption|]. now apply digit_not_lower.
  - right. right. now subst.
Qed.
Lemma word_not_dot c : word c -> Ascii.eqb c dot = false.
Proof. intros [H|[H| ->]]; [now apply letter_neq|now apply digit_neq|reflexivity]. Qed.
Lemma eqb_false a b : Ascii.eqb a b = false -> a <> b.
Proof. intros H ->. now rewrite Ascii.eqb_refl in H. Qed.

(** ** GoCamelCase *)
Definition wd (c : ascii) : Prop := word c \/ c = dot.

Lemma camel_word s : forall prev run, Forall wd s -> Forall word (camel prev run s).
Proof.
  induction s as [|c s IH]; intros prev run H; [constructor|]. inversion H as [|? ? Hc Hs]; subst. cbn [camel].
  destruct (run && is_lower c)%bool eqn:E1.
  { apply andb_true_iff in E1 as [_ E1]. constructor; [left; now apply lower_letter|auto]. }
  destruct (Ascii.eqb c dot) eqn:E2.
  { destruct (next_lower s); [auto|]. constructor; [right; now right|auto]. }
  destruct (Ascii.eqb c under && boundary prev)%bool; [constructor; [left; reflexivity|auto]|].
  destruct (Ascii.eqb c under && next_lower s)%bool; [auto|].
  destruct (is_digit c) eqn:E3; [constructor; [right; now left|auto]|].
  constructor; [|auto]. apply word_upper. destruct Hc as [Hc|Hc]; [assumption|]. subst. now rewrite Ascii.eqb_refl in E2.
Qed.

Lemma camel_head c r : letter c \/ c = under -> exists c' r', go_camel_case (c :: r) = c' :: r' /\ is_upper c' = true /\ exists p b, r' = camel p b r.
Proof.
  intros [H|H]; unfold go_camel_case; cbn [camel andb boundary].
  - destruct (letter_neq c H) as [H1 H2]. rewrite H1, H2. cbn [andb]. rewrite (letter_not_digit c H). eexists; eexists. split; [reflexivity|]. split; [now apply letter_upper|eauto].
  - subst c. cbn [Ascii.eqb andb]. eexists; eexists. split; [reflexivity|]. split; [reflexivity|eauto].
Qed.

Lemma go_camel_exported s : (exists c r, s = c :: r /\ (letter c \/ c = under) /\ Forall wd r) -> exported (go_camel_case s).
Proof.
  intros (c & r & -> & Hc & Hr). destruct (camel_head c r Hc) as (c' & r' & E & Hu & p & b & ->). rewrite E. exists c', (camel p b r).
  split; [reflexivity|]. split; [assumption|]. now apply camel_word.
Qed.

(** names that are camel case are kept *)
Lemma camel_fix s : forall prev run pl, boundary prev = false -> (pl = true -> run = true) -> Forall word s -> lower_after_letter pl s -> camel prev run s = s.
Proof.
  induction s as [|c s IH]; intros prev run pl Hb Hr Hw Hl; [reflexivity|]. inversion Hw as [|? ? Hc Hs]; subst. cbn [lower_after_letter] in Hl. destruct Hl as [Hl1 Hl2].
  assert (B : boundary (Some c) = false) by (cbn [boundary]; now apply word_not_dot).
  cbn [camel]. destruct (is_lower c) eqn:E1.
  - rewrite Hr by auto. cbn [andb]. f_equal. eapply IH; [exact B| |exact Hs|exact Hl2]. auto.
  - rewrite andb_false_r. rewrite (word_not_dot c Hc), Hb, andb_false_r.
    destruct Hc as [Hc|[Hc|Hc]].
    + destruct (letter_neq c Hc) as [_ ->]. cbn [andb]. rewrite (letter_not_digit c Hc), upper_same by assumption. f_equal. eapply IH; [exact B| |exact Hs|exact Hl2]. auto.
    + destruct (digit_neq c Hc) as [_ ->]. cbn [andb]. rewrite Hc. f_equal. eapply IH; [exact B| |exact Hs|exact Hl2]. rewrite digit_not_letter by assumption. discriminate.
    + subst c. rewrite Ascii.eqb_refl. cbn [andb]. assert (N : next_lower s = false).
      { destruct s as [|d s]; [reflexivity|]. cbn [next_lower]. cbn [lower_after_letter] in Hl2. destruct Hl2 as [Hl2 _]. destruct (is_lower d); [|reflexivity]. discriminate Hl2. reflexivity. }
      rewrite N. change (is_digit under) with false. cbn iota. f_equal. eapply IH; [exact B| |exact Hs|exact Hl2]. discriminate.
Qed.

Lemma camel_result s : forall prev run pl, Forall wd s -> (run = true -> pl = true \/ next_lower s = false) -> lower_after_letter pl (camel prev run s).
Proof.
  induction s as [|c s IH]; intros prev run pl H Hr; [exact I|]. inversion H as [|? ? Hc Hs]; subst. cbn [camel].
  destruct (run && is_lower c)%bool eqn:E1.
  { apply andb_true_iff in E1 as [E1 E1']. cbn [lower_after_letter]. split.
    - intros _. destruct (Hr E1) as [->|Hn]; [reflexivity|]. cbn [next_lower] in Hn. congruence.
    - apply IH; [assumption|]. intros _. left. now apply lower_letter. }
  assert (F : forall p pl', lower_after_letter pl' (camel p false s)) by (intros; apply IH; [assumption|discriminate]).
  destruct (Ascii.eqb c dot) eqn:E2.
  { destruct (next_lower s); [apply F|]. cbn [lower_after_letter]. split; [discriminate|apply F]. }
  destruct (Ascii.eqb c under && boundary prev)%bool eqn:E3; [cbn [lower_after_letter]; split; [discriminate|apply F]|].
  destruct (Ascii.eqb c under && next_lower s)%bool eqn:E4; [apply F|].
  destruct (is_digit c) eqn:E5; [cbn [lower_after_letter]; split; [rewrite digit_not_lower by assumption; discriminate|apply F]|].
  destruct Hc as [Hc|Hc]; [|subst; now rewrite Ascii.eqb_refl in E2]. cbn [lower_after_letter].
  destruct Hc as [Hc|[Hc|Hc]]; [|congruence|].
  - pose proof (letter_upper c Hc) as U. split; [rewrite upper_not_lower by assumption; discriminate|]. apply IH; [assumption|]. intros _. left. now apply upper_letter.
  - subst c. split; [discriminate|]. apply IH; [assumption|]. intros _. right. rewrite Ascii.eqb_refl in E4. exact E4.
Qed.

Lemma camel_cased_result s : (exists c r, s = c :: r /\ (letter c \/ c = under) /\ Forall wd r) -> camel_cased (go_camel_case s).
Proof.
  intros (c & r & -> & Hc & Hr). assert (Hw : Forall wd (c :: r)).
  { constructor; [|assumption]. left. destruct Hc as [Hc| ->]; [now left|right; now right]. }
  split; [now apply camel_word|]. split; [apply camel_result; [assumption|discriminate]|].
  destruct (camel_head c r Hc) as (c' & r' & -> & Hu & _). intros ->. discriminate.
Qed.
Lemma camel_cased_fix c r : letter c \/ c = under -> camel_cased (c :: r) -> go_camel_case (c :: r) = c :: r.
Proof.
  intros Hc (Hw & Hl & Hn). destruct Hc as [Hc|Hc]; [|contradiction]. cbn [lower_after_letter] in Hl. destruct Hl as [Hl1 Hl2]. inversion Hw; subst.
  assert (E : is_lower c = false) by (destruct (is_lower c); [now specialize (Hl1 eq_refl)|reflexivity]).
  unfold go_camel_case. cbn [camel andb]. destruct (letter_neq c Hc) as [E1 E2]. rewrite E1, E2. cbn [andb]. rewrite (letter_not_digit c Hc), upper_same by assumption.
  f_equal. eapply camel_fix; [exact E1| |assumption|exact Hl2]. auto.
Qed.

(** snake case *)
Lemma run_lower ls : forall prev r, boundary prev = false -> Forall (fun c => is_lower c = true) ls ->
  exists prev', boundary prev' = false /\ camel prev true (ls ++ r) = ls ++ camel prev' true r.
Proof.
  induction ls as [|c ls IH]; intros prev r Hb H; [exists prev; auto|]. inversion H; subst. cbn [app camel]. rewrite H2. cbn [andb].
  destruct (IH (Some c) r) as (p & Hp & E); [cbn [boundary]; now apply letter_neq, lower_letter|assumption|]. exists p. rewrite E. auto.
Qed.
Lemma run_digits ds : forall prev run r, boundary prev = false -> Forall (fun c => is_digit c = true) ds ->
  exists prev' run', boundary prev' = false /\ camel prev run (ds ++ r) = ds ++ camel prev' run' r.
Proof.
  induction ds as [|c ds IH]; intros prev run r Hb H; [exists prev, run; auto|]. inversion H; subst. cbn [app camel].
  rewrite (digit_not_lower c H2), andb_false_r. destruct (digit_neq c H2) as [E1 E2]. rewrite E1, E2. cbn [andb]. rewrite H2.
  destruct (IH (Some c) false r) as (p & b & Hp & E); [exact E1|assumption|]. exists p, b. rewrite E. auto.
Qed.
Lemma camel_snake_word w : snake_word w -> forall prev r, boundary prev = false \/ prev = None ->
  exists prev' run', boundary prev' = false /\ camel prev false (w ++ r) = capitalized w ++ camel prev' run' r.
Proof.
  intros (l & ls & ds & -> & Hl & Hls & Hds) prev r Hp. cbn [app camel andb capitalized].
  destruct (letter_neq l (lower_letter l Hl)) as [E1 E2]. rewrite E1, E2. cbn [andb]. rewrite (letter_not_digit l (lower_letter l Hl)).
  rewrite <- app_assoc. destruct (run_lower ls (Some l) (ds ++ r)) as (p & Hp1 & E); [exact E1|assumption|]. rewrite E.
  destruct (run_digits ds p true r Hp1 Hds) as (p' & b & Hp2 & E'). rewrite E'. exists p', b. split; [assumption|]. rewrite <- app_assoc. reflexivity.
Qed.
Lemma snake_lower w : snake_word w -> next_lower (w ++ []) = true /\ forall r, next_lower (w ++ r) = true.
Proof. intros (l & ls & ds & -> & Hl & _). split; [exact Hl|intro r; exact Hl]. Qed.
Lemma camel_snake ws : forall prev, Forall snake_word ws -> boundary prev = false \/ prev = None ->
  camel prev false (join_with under ws) = concat (map capitalized ws).
Proof.
  induction ws as [|w ws IH]; intros prev H Hp; [reflexivity|]. inversion H as [|? ? Hw Hws]; subst. destruct ws as [|w2 ws].
  - cbn [join_with map concat]. destruct (camel_snake_word w Hw prev [] Hp) as (p & b & _ & E). rewrite app_nil_r in E. rewrite E. reflexivity.
  - change (join_with under (w :: w2 :: ws)) with (w ++ under :: join_with under (w2 :: ws)).
    destruct (camel_snake_word w Hw prev (under :: join_with under (w2 :: ws)) Hp) as (p & b & Hb & E). rewrite E. cbn [map concat]. f_equal.
    cbn [camel]. change (is_lower under) with false. rewrite andb_false_r. change (Ascii.eqb under dot) with false. cbn iota. rewrite Hb, andb_false_r, Ascii.eqb_refl. cbn [andb].
    inversion Hws as [|? ? Hw2 Hws2]; subst.
    assert (N : next_lower (join_with under (w2 :: ws)) = true).
    { destruct ws; cbn [join_with]; [rewrite <- (app_nil_r w2); now apply snake_lower|now apply snake_lower]. }
    rewrite N. apply IH; [assumption|now left].
Qed.

(** nested names *)
Lemma camel_append s : forall prev run pl r, boundary prev = false -> (pl = true -> run = true) -> Forall word s -> lower_after_letter pl s ->
  next_lower r = false -> exists prev' run', boundary prev' = false /\ camel prev run (s ++ r) = s ++ camel prev' run' r.
Proof.
  induction s as [|c s IH]; intros prev run pl r Hb Hr Hw Hl Hn; [exists prev, run; auto|]. inversion Hw as [|? ? Hc Hs]; subst. cbn [lower_after_letter] in Hl. destruct Hl as [Hl1 Hl2].
  assert (B : boundary (Some c) = false) by (cbn [boundary]; now apply word_not_dot).
  cbn [app camel]. destruct (is_lower c) eqn:E1.
  - rewrite Hr by auto. cbn [andb]. destruct (IH (Some c) true (is_letter c) r) as (p & b & Hp & E); auto. rewrite E. eauto.
  - rewrite andb_false_r. rewrite (word_not_dot c Hc), Hb, andb_false_r.
    destruct Hc as [Hc|[Hc|Hc]].
    + destruct (letter_neq c Hc) as [_ ->]. cbn [andb]. rewrite (letter_not_digit c Hc), upper_same by assumption.
      destruct (IH (Some c) true (is_letter c) r) as (p & b & Hp & E); auto. rewrite E. eauto.
    + destruct (digit_neq c Hc) as [_ ->]. cbn [andb]. rewrite Hc.
      destruct (IH (Some c) false (is_letter c) r) as (p & b & Hp & E); auto; [rewrite digit_not_letter by assumption; discriminate|]. rewrite E. eauto.
    + subst c. rewrite Ascii.eqb_refl. cbn [andb]. assert (N : next_lower (s ++ r) = false).
      { destruct s as [|d s]; [exact Hn|]. cbn [app next_lower]. cbn [lower_after_letter] in Hl2. destruct Hl2 as [Hl2 _]. destruct (is_lower d); [|reflexivity]. discriminate Hl2. reflexivity. }
      rewrite N. change (is_digit under) with false. cbn iota. change (to_upper under) with under.
      destruct (IH (Some under) true (is_letter under) r) as (p & b & Hp & E); auto. rewrite E. eauto.
Qed.
Lemma camel_component c s prev run r : (boundary prev = true \/ boundary prev = false) -> is_upper c = true -> camel_cased (c :: s) -> next_lower r = false ->
  exists prev' run', boundary prev' = false /\ camel prev run ((c :: s) ++ r) = (c :: s) ++ camel prev' run' r.
Proof.
  intros _ Hu (Hw & Hl & Hn) Hr. inversion Hw; subst. cbn [lower_after_letter] in Hl. destruct Hl as [_ Hl].
  pose proof (upper_letter c Hu) as Lc. destruct (letter_neq c Lc) as [E1 E2]. cbn [app camel]. rewrite (upper_not_lower c Hu), andb_false_r, E1, E2. cbn [andb].
  rewrite (letter_not_digit c Lc), (upper_same c (upper_not_lower c Hu)).
  destruct (camel_append s (Some c) true (is_letter c) r) as (p & b & Hp & E); auto. rewrite E. eauto.
Qed.
Lemma camel_nested path : forall prev run, Forall (fun n => camel_cased n /\ exists c r, n = c :: r /\ is_upper c = true) path ->
  camel prev run (join_with dot path) = join_with under path.
Proof.
  induction path as [|n path IH]; intros prev run H; [reflexivity|]. inversion H as [|? ? [Hn (c & r & -> & Hc)] Hp]; subst. destruct path as [|m path].
  - cbn [join_with]. destruct (camel_component c r prev run []) as (p & b & _ & E); auto; [destruct (boundary prev); auto|]. rewrite app_nil_r in E. rewrite E. now rewrite app_nil_r.
  - change (join_with dot ((c :: r) :: m :: path)) with ((c :: r) ++ dot :: join_with dot (m :: path)).
    change (join_with under ((c :: r) :: m :: path)) with ((c :: r) ++ under :: join_with under (m :: path)).
    destruct (camel_component c r prev run (dot :: join_with dot (m :: path))) as (p & b & _ & E); auto; [destruct (boundary prev); auto|]. rewrite E. f_equal.
    cbn [camel]. change (is_lower dot) with false. rewrite andb_false_r, Ascii.eqb_refl.
    assert (N : next_lower (join_with dot (m :: path)) = false).
    { inversion Hp as [|? ? [_ (d & t & -> & Hd)] _]; subst. destruct path; cbn [join_with app next_lower]; now apply upper_not_lower. }
    rewrite N. f_equal. apply IH. assumption.
Qed.

(** ** GoSanitized *)
Lemma sanitize_word c : word (sanitize_char c).
Proof.
  unfold sanitize_char. destruct (is_letter c) eqn:E; cbn [orb]; [now left|]. destruct (is_digit c) eqn:E2; [right; now left|right; now right].
Qed.
Lemma sanitize_id c : sanitize_char c = c <-> word c.
Proof.
  unfold sanitize_char, word. destruct (is_letter c) eqn:E; cbn [orb]; [tauto|]. destruct (is_digit c) eqn:E2; [tauto|]. split; [auto|]. intros [H|[H|H]]; congruence.
Qed.
Lemma keyword_head k : is_keyword k = true -> exists c r, k = c :: r /\ is_lower c = true.
Proof.
  unfold is_keyword. intro H. apply existsb_exists in H as (w & Hw & E). apply beq_eq in E. subst w.
  assert (A : forall k, In k keywords -> match k with c :: _ => is_lower c | [] => false end = true).
  { apply forallb_forall. vm_compute. reflexivity. }
  specialize (A k Hw). destruct k as [|c r]; [discriminate|]. eauto.
Qed.
Lemma sanitized_go_ident s : go_ident (go_sanitized s) /\ is_keyword (go_sanitized s) = false.
Proof.
  unfold go_sanitized. cbv zeta. set (s' := map sanitize_char s). assert (W : Forall word s') by (apply Forall_forall; intros c Hc; apply in_map_iff in Hc as (d & <- & _); apply sanitize_word).
  destruct (is_keyword s') eqn:E1; cbn [orb].
  - split; [exists under, s'; auto|]. destruct (is_keyword (under :: s')) eqn:E; [|reflexivity]. apply keyword_head in E as (c & r & [= <- _] & H). discriminate.
  - destruct s' as [|c r]; cbn [negb].
    + split; [exists under, []; auto|reflexivity].
    + destruct (is_letter c) eqn:E2; cbn [negb].
      * split; [|assumption]. inversion W; subst. exists c, r. split; [reflexivity|]. split; [left; exact E2|assumption].
      * split; [exists under, (c :: r); auto|]. destruct (is_keyword (under :: c :: r)) eqn:E; [|reflexivity]. apply keyword_head in E as (d & t & [= <- _] & H). discriminate.
Qed.
Lemma sanitized_id s : go_sanitized s = s <-> (exists c r, s = c :: r /\ letter c) /\ Forall word s /\ is_keyword s = false.
Proof.
  unfold go_sanitized. cbv zeta. split.
  - intro H. destruct (is_keyword (map sanitize_char s) || _)%bool eqn:E.
    + exfalso. apply (f_equal (@List.length _)) in H. cbn [List.length] in H. rewrite map_length in H. lia.
    + rewrite H in E. apply orb_false_iff in E as [E1 E2]. apply negb_false_iff in E2. split; [destruct s as [|c r]; [discriminate|eauto]|]. split; [|assumption].
      clear -H. induction s as [|c s IH]; [constructor|]. cbn [map] in H. injection H as H1 H2. constructor; [now apply sanitize_id|auto].
  - intros ((c & r & -> & Hc) & Hw & Hk). assert (E : map sanitize_char (c :: r) = c :: r).
    { clear -Hw. induction Hw as [|d t Hd Ht IH]; [reflexivity|]. cbn [map]. f_equal; [now apply sanitize_id|exact IH]. }
    rewrite E, Hk. cbn [orb]. unfold letter in Hc. now rewrite Hc.
Qed.

(** ** Looked-up names *)
Lemma unique_len n taken : forall s, List.length s <= List.length (unique n taken s).
Proof.
  induction n as [|n IH]; intro s; cbn [unique]; [lia|]. destruct (taken s); [|lia]. specialize (IH (s ++ [under])). rewrite app_length in IH. lia.
Qed.
Lemma unique_id n taken s : unique (S n) taken s = s <-> taken s = false.
Proof.
  cbn [unique]. destruct (taken s); [|tauto]. split; [|discriminate]. intro H. pose proof (unique_len n taken (s ++ [under])) as L. rewrite H, app_length in L. cbn [List.length] in L. lia.
Qed.

(** ** Preamble *)
Section Pre.
Variable captures : bytes -> option (bytes * bytes).

Lemma versions_first t r : has_prefix t versions_prefix = true -> version_loop captures (t :: r) = [].
Proof. intro H. apply has_prefix_spec in H as [x ->]. reflexivity. Qed.
Lemma loop_versions ts : forall p, p_versions (preamble_loop captures ts p) = p_versions p.
Proof.
  induction ts as [|t ts IH]; intro p; cbn [preamble_loop]; [reflexivity|]. rewrite IH.
  destruct (has_prefix t versions_prefix) eqn:E; cbn [p_versions]; [rewrite versions_first by assumption; apply app_nil_r|].
  destruct (has_prefix t source_prefix); reflexivity.
Qed.
Lemma loop_source_other ts : forall p, (forall t, In t ts -> has_prefix t source_prefix = false) -> p_source (preamble_loop captures ts p) = p_source p.
Proof.
  induction ts as [|t ts IH]; intros p H; cbn [preamble_loop]; [reflexivity|]. rewrite IH by (intros u Hu; apply H; now right).
  rewrite (H t (or_introl eq_refl)). now destruct (has_prefix t versions_prefix).
Qed.
Lemma loop_source a x b : forall p, (forall t, In t b -> has_prefix t source_prefix = false) ->
  p_source (preamble_loop captures (a ++ (source_prefix ++ x) :: b) p) = trim_space x.
Proof.
  induction a as [|t a IH]; intros p H; cbn [app].
  - cbn [preamble_loop]. rewrite loop_source_other by assumption.
    replace (has_prefix (source_prefix ++ x) versions_prefix) with false by reflexivity.
    replace (has_prefix (source_prefix ++ x) source_prefix) with true by (symmetry; apply has_prefix_spec; eauto). cbn [p_source].
    reflexivity.
  - cbn [preamble_loop]. apply IH. assumption.
Qed.
Lemma find_group_ok gs : (exists ts, find_group gs = Some ts) <-> exists g t, In g gs /\ before_package g = true /\ In t (texts g) /\ is_marker t = true.
Proof.
  induction gs as [|g gs IH]; cbn [find_group].
  - split; [intros (ts & H); discriminate|intros (g & t & [] & _)].
  - destruct (before_package g && existsb is_marker (texts g))%bool eqn:E.
    + apply andb_true_iff in E as [E1 E2]. apply existsb_exists in E2 as (t & Ht & Hm). split; [|eauto]. intros _. exists g, t. split; [now left|auto].
    + rewrite IH. split; intros (g' & t & Hg & Hb & Ht & Hm); exists g', t; (split; [|auto]); [now right|]. destruct Hg as [<-|Hg]; [|assumption].
      exfalso. rewrite Hb in E. cbn [andb] in E. apply not_true_iff_false in E. apply E. apply existsb_exists. eauto.
Qed.
Lemma parse_ok gs : snd (parse_preamble captures gs) = true <-> exists g t, In g gs /\ before_package g = true /\ In t (texts g) /\ is_marker t = true.
Proof. rewrite <- find_group_ok. unfold parse_preamble. destruct (find_group gs); cbn [snd]; split; eauto; [discriminate|]. intros (ts & H). discriminate. Qed.
Lemma parse_none gs : snd (parse_preamble captures gs) = false -> fst (parse_preamble captures gs) = mkPre [] [].
Proof. unfold parse_preamble. destruct (find_group gs); cbn [fst snd]; [discriminate|auto]. Qed.
End Pre.

(** ** Raw descriptor *)
Lemma replaced_map src : replace_char dot under (replace_char slash under src) = map (fun c => if Ascii.eqb c slash then under else if Ascii.eqb c dot then under else c) src.
Proof.
  unfold replace_char. rewrite map_map. apply map_ext. intro c. destruct (Ascii.eqb c slash) eqn:E; [reflexivity|]. reflexivity.
Qed.
Lemma replaced_char c : (if Ascii.eqb c slash then under else if Ascii.eqb c dot then under else c) = sanitize_char c <-> word c \/ c = slash \/ c = dot.
Proof.
  destruct (Ascii.eqb c slash) eqn:E1; [apply Ascii.eqb_eq in E1; subst; vm_compute; tauto|].
  destruct (Ascii.eqb c dot) eqn:E2; [apply Ascii.eqb_eq in E2; subst; vm_compute; tauto|]. apply eqb_false in E1, E2.
  split; [intro H; left; now apply sanitize_id|]. intros [H|[H|H]]; [symmetry; now apply sanitize_id|contradiction|contradiction].
Qed.

(** ** Import candidates *)
Lemma candidates_in suf imports : forall acc p, In p (candidates suf imports acc) <-> In p acc \/ (In p imports /\ has_suffix p suf = true).
Proof.
  induction imports as [|q imports IH]; intros acc p; cbn [candidates]; [cbn [In]; tauto|]. rewrite IH.
  destruct (has_suffix q suf) eqn:E; cbn [andb].
  - destruct (existsb (beq q) acc) eqn:E2; cbn [negb].
    + apply existsb_exists in E2 as (q' & Hq & Hb). apply beq_eq in Hb. subst q'. cbn [In]. split; [tauto|]. intros [H|[[<-|H] Hs]]; auto.
    + rewrite in_app_iff. cbn [In]. split; [intros [[H|[<-|[]]]|[H Hs]]; auto|]. intros [H|[[<-|H] Hs]]; auto.
  - cbn [In]. split; [tauto|]. intros [H|[[<-|H] Hs]]; [auto|congruence|auto].
Qed.
Lemma candidates_nodup suf imports : forall acc, NoDup acc -> NoDup (candidates suf imports acc).
Proof.
  induction imports as [|q imports IH]; intros acc H; cbn [candidates]; [assumption|]. apply IH.
  destruct (has_suffix q suf && negb (existsb (beq q) acc))%bool eqn:E; [|assumption]. apply andb_true_iff in E as [_ E]. apply negb_true_iff in E.
  assert (N : ~ In q acc) by (intro Hq; apply not_true_iff_false in E; apply E; apply existsb_exists; exists q; split; [assumption|apply beq_refl]).
  clear -H N. induction acc as [|x acc IH]; cbn [app]; [constructor; [auto|constructor]|]. inversion H; subst. constructor.
  - rewrite in_app_iff. cbn [In]. intros [Hx|[Hx|[]]]; [auto|]. subst. apply N. now left.
  - apply IH; [assumption|]. intro. apply N. now right.
Qed.
Lemma resolve_iff imports path x : resolve_import imports path = Some x <->
  exists ip, In ip imports /\ has_suffix ip (path_dir path) = true /\
    (forall q, In q imports -> has_suffix q (path_dir path) = true -> q = ip) /\ x = path_join ip (path_base path).
Proof.
  unfold resolve_import. pose proof (candidates_in (path_dir path) imports []) as I. pose proof (candidates_nodup (path_dir path) imports [] (NoDup_nil _)) as N.
  destruct (candidates (path_dir path) imports []) as [|c [|d l]]; split.
  - discriminate.
  - intros (ip & H1 & H2 & _). exfalso. apply (I ip). right. auto.
  - intros [= <-]. exists c. destruct (proj1 (I c) (or_introl eq_refl)) as [[]|[H1 H2]]. repeat split; auto. intros q Hq Hs.
    destruct (proj2 (I q) (or_intror (conj Hq Hs))) as [<-|[]]. reflexivity.
  - intros (ip & H1 & H2 & H3 & ->). destruct (proj2 (I ip) (or_intror (conj H1 H2))) as [<-|[]]. reflexivity.
  - discriminate.
  - intros (ip & H1 & H2 & H3 & ->). exfalso. inversion N; subst. apply H4. left.
    destruct (proj1 (I c) (or_introl eq_refl)) as [[]|[A1 A2]]. destruct (proj1 (I d) (or_intror (or_introl eq_refl))) as [[]|[B1 B2]].
    rewrite (H3 c A1 A2), (H3 d B1 B2). reflexivity.
Qed.

(* the predicates of Spec.v *)
Lemma keyword_in s : is_keyword s = true <-> In s go_keywords.
Proof.
  unfold is_keyword. rewrite existsb_exists. transitivity (In s keywords).
  - split; [intros (w & I & E); apply beq_eq in E as ->; exact I|intro I; exists s; split; [exact I|apply beq_refl]].
  - split; intro I; vm_compute in I; (repeat destruct I as [<-|I]; [vm_compute; tauto..|destruct I]).
Qed.
Lemma in_eqb (c : ascii) l : In c l <-> existsb (Ascii.eqb c) l = true.
Proof. rewrite existsb_exists. split; [intros H; exists c; split; [exact H|apply Ascii.eqb_refl]|intros (x & H & E); apply Ascii.eqb_eq in E; now subst]. Qed.
Lemma eq_true_iff_eq_l (a b : bool) : a = b -> (a = true <-> b = true).
Proof. now intros ->. Qed.
Lemma lower_in c : is_lower c = true <-> In c (b_ "abcdefghijklmnopqrstuvwxyz").
Proof. rewrite in_eqb. apply eq_true_iff_eq_l. destruct c as [[] [] [] [] [] [] [] []]; reflexivity. Qed.
Lemma upper_in c : is_upper c = true <-> In c (b_ "ABCDEFGHIJKLMNOPQRSTUVWXYZ").
Proof. rewrite in_eqb. apply eq_true_iff_eq_l. destruct c as [[] [] [] [] [] [] [] []]; reflexivity. Qed.
Lemma digit_in c : is_digit c = true <-> In c (b_ "0123456789").
Proof. rewrite in_eqb. apply eq_true_iff_eq_l. destruct c as [[] [] [] [] [] [] [] []]; reflexivity. Qed.
Lemma marker_spec t : is_marker t = true <-> marks_generated t.
Proof.
  unfold is_marker, marks_generated. rewrite andb_true_iff, has_prefix_spec. change (b_ "// Code generated") with generated_prefix. split.
  - intros ((r & ->) & E). rewrite skipn_app, skipn_all2, Nat.sub_diag in E by lia. cbn [app skipn] in E. apply orb_true_iff in E as [E|E]; apply has_suffix_spec in E as (w & ->); exists w; [left|right]; reflexivity.
  - intros (w & E). assert (X : exists r, t = generated_prefix ++ r /\ (has_suffix r do_not_edit || has_suffix r (do_not_edit ++ [dot]))%bool = true).
    { destruct E as [-> | ->]; eexists; (split; [reflexivity|]); apply orb_true_iff; [left|right]; apply has_suffix_spec; exists w; reflexivity. }
    destruct X as (r & -> & X). split; [now exists r|]. rewrite skipn_app, skipn_all2, Nat.sub_diag by lia. exact X.
Qed.
Lemma space_blank c : is_space c = true <-> blank c.
Proof.
  unfold is_space, blank. rewrite existsb_exists. split; [intros (x & I & E); apply Ascii.eqb_eq in E as ->; exact I|intro I; exists c; split; [exact I|apply Ascii.eqb_refl]].
Qed.
Lemma trim_left_blank a s : Forall blank a -> trim_left (a ++ s) = trim_left s.
Proof. induction 1 as [|c a B _ IH]; [reflexivity|]. cbn [app trim_left]. apply space_blank in B. now rewrite B. Qed.
Lemma trim_left_kept c r : ~ blank c -> trim_left (c :: r) = c :: r.
Proof. intro N. cbn [trim_left]. destruct (is_space c) eqn:E; [|reflexivity]. now apply space_blank in E. Qed.
Lemma trim_left_all a : Forall blank a -> trim_left a = [].
Proof. intro F. rewrite <- (app_nil_r a) at 1. now rewrite trim_left_blank. Qed.
Lemma trim_stripped x src : stripped x src -> trim_space x = src.
Proof.
  intros (a & b & -> & A & B & H & T). unfold trim_space. rewrite trim_left_blank by exact A. destruct src as [|c r].
  - cbn [app]. rewrite (trim_left_all b) by exact B. reflexivity.
  - cbn [app]. rewrite trim_left_kept by now apply (H c r). change (c :: r ++ b) with ((c :: r) ++ b). rewrite rev_app_distr, trim_left_blank by now apply Forall_rev.
    assert (L : exists l d, c :: r = l ++ [d]) by (destruct (exists_last (l := c :: r)) as (l & d & E); [discriminate|exists l, d; exact E]).
    destruct L as (l & d & E). rewrite E, rev_app_distr. cbn [rev app]. rewrite trim_left_kept by now apply (T d l). cbn [rev]. now rewrite rev_involutive.
Qed.
