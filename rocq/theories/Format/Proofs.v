From Coq Require Import List Arith Bool Lia Ascii String NArith Permutation Sorted.
From Verif Require Import Base Strs.
From Verif.Completion Require Import Model Proofs.
From Verif.Format Require Import Model Spec.
Import ListNotations.
Open Scope list_scope.

(* ---------- string literals ---------- *)
Definition is_esc (st : lexstate) : bool := match st with Esc => true | _ => false end.
Lemma cons_item_some i o v : cons_item i o = Some v -> exists w, o = Some w /\ v = i :: w.
Proof. destruct o; cbn; intro H; [injection H as <-; eauto|discriminate]. Qed.

Definition norm_lex (q c : ascii) (r : bytes) : option (list item) :=
  if Ascii.eqb c q then match r with [] => Some [] | _ => None end
  else if Ascii.eqb c backslash then lex q Esc r
  else if Ascii.eqb c nl || Ascii.eqb c nul then None
  else cons_item (IByte (N_of_ascii c)) (lex q Norm r).
Definition esc_lex (q c : ascii) (r : bytes) : option (list item) :=
  if Ascii.eqb c "x" || Ascii.eqb c "X" then lex q (Hex 0 0) r
  else if Ascii.eqb c "u" then lex q (Uni 4 0) r
  else if Ascii.eqb c "U" then lex q (Uni 8 0) r
  else match oct_val c with
       | Some v => lex q (Oct 1 v) r
       | None => match simple_escape c with
                 | Some v => cons_item (IByte v) (lex q Norm r)
                 | None => None
                 end
       end.
Lemma lex_norm q c r : lex q Norm (c :: r) = norm_lex q c r.
Proof. reflexivity. Qed.
Lemma lex_esc q c r : lex q Esc (c :: r) = esc_lex q c r.
Proof. reflexivity. Qed.
Lemma lex_oct q k v c r : lex q (Oct k v) (c :: r) =
  if (k <? 3) && is_some (oct_val c)
  then lex q (Oct (S k) (v * 8 + match oct_val c with Some d => d | None => 0 end)) r
  else cons_item (IByte v) (norm_lex q c r).
Proof. reflexivity. Qed.
Lemma lex_hex q k v c r : lex q (Hex k v) (c :: r) =
  if (k <? 2) && is_some (digit_val c)
  then lex q (Hex (S k) (v * 16 + match digit_val c with Some d => d | None => 0 end)) r
  else if k =? 0 then None else cons_item (IByte v) (norm_lex q c r).
Proof. reflexivity. Qed.
Lemma lex_uni q k v c r : lex q (Uni (S k) v) (c :: r) =
  match digit_val c with
  | Some d => if k =? 0 then cons_item (IRune (v * 16 + d)) (lex q Norm r) else lex q (Uni k (v * 16 + d)) r
  | None => None
  end.
Proof. reflexivity. Qed.

Lemma cons_item_iff i o o' v (P : Prop) :
  cons_item i o = Some v -> (forall w, o = Some w -> (o' = Some w <-> P)) -> (cons_item i o' = Some v <-> P).
Proof.
  intros H HP. apply cons_item_some in H. destruct H as (w & Ho & ->). specialize (HP w Ho).
  rewrite <- HP. split; intro E.
  - apply cons_item_some in E. destruct E as (w' & -> & E). congruence.
  - rewrite E. reflexivity.
Qed.

Lemma requote_norm c r v
  (IH : forall st v, lex sq st (r ++ [sq]) = Some v -> (lex dq st (r ++ [dq]) = Some v <-> bare_dq (is_esc st) r = false)) :
  norm_lex sq c (r ++ [sq]) = Some v ->
  (norm_lex dq c (r ++ [dq]) = Some v <-> bare_dq false (c :: r) = false).
Proof.
  unfold norm_lex. cbn [bare_dq].
  assert (NN : forall q, r ++ [q] <> []) by (intro q; destruct r; discriminate).
  destruct (Ascii.eqb_spec c sq) as [->|Nsq].
  - destruct (r ++ [sq]) eqn:E; [destruct (NN _ E)|discriminate].
  - destruct (Ascii.eqb_spec c dq) as [->|Ndq].
    + intros _. cbn [orb]. change (Ascii.eqb dq backslash) with false. cbn iota.
      destruct (r ++ [dq]) eqn:E; [destruct (NN _ E)|]. split; discriminate.
    + destruct (Ascii.eqb c backslash) eqn:Eb.
      * intro H. exact (IH Esc v H).
      * destruct (Ascii.eqb c nl || Ascii.eqb c nul); [discriminate|]. intro H. cbn [orb].
        exact (cons_item_iff _ _ _ _ _ H (fun w Hw => IH Norm w Hw)).
Qed.

Lemma oct_dq : oct_val dq = None /\ digit_val dq = None /\ oct_val sq = None /\ digit_val sq = None.
Proof. repeat split. Qed.
Lemma digit_not c d : digit_val c = Some d -> Ascii.eqb c backslash = false /\ Ascii.eqb c dq = false.
Proof.
  intro H. split; apply Ascii.eqb_neq; intros ->; vm_compute in H; discriminate.
Qed.
Lemma oct_digit c d : oct_val c = Some d -> exists d', digit_val c = Some d'.
Proof. unfold oct_val. destruct (digit_val c); [eauto|discriminate]. Qed.

Lemma bare_skip c r : Ascii.eqb c backslash = false -> Ascii.eqb c dq = false -> bare_dq false (c :: r) = bare_dq false r.
Proof. intros H1 H2. cbn. rewrite H1, H2. reflexivity. Qed.

Lemma requote_lex : forall body st v,
  lex sq st (body ++ [sq]) = Some v ->
  (lex dq st (body ++ [dq]) = Some v <-> bare_dq (is_esc st) body = false).
Proof.
  induction body as [|c r IH]; intros st v.
  - cbn [app bare_dq]. destruct st as [| |k w|k w|k w]; rewrite ?lex_norm, ?lex_esc, ?lex_oct, ?lex_hex.
    + intro H. split; [reflexivity|intros _; exact H].
    + unfold esc_lex. cbn. discriminate.
    + destruct oct_dq as (-> & _ & -> & _). rewrite !andb_false_r. unfold norm_lex.
      rewrite !Ascii.eqb_refl. intro H. tauto.
    + destruct oct_dq as (_ & -> & _ & ->). rewrite !andb_false_r. destruct (k =? 0); [discriminate|].
      unfold norm_lex. rewrite !Ascii.eqb_refl. intro H. tauto.
    + destruct k; [discriminate|]. rewrite lex_uni. cbn. discriminate.
  - cbn [app]. destruct st as [| |k w|k w|k w]; rewrite ?lex_norm, ?lex_esc, ?lex_oct, ?lex_hex; cbn [is_esc].
    + apply requote_norm. exact IH.
    + unfold esc_lex. cbn [bare_dq].
      destruct (Ascii.eqb c "x" || Ascii.eqb c "X"); [apply (IH (Hex 0 0))|].
      destruct (Ascii.eqb c "u"); [apply (IH (Uni 4 0))|].
      destruct (Ascii.eqb c "U"); [apply (IH (Uni 8 0))|].
      destruct (oct_val c) as [d|]; [apply (IH (Oct 1 d))|].
      destruct (simple_escape c); [|discriminate].
      intro H. exact (cons_item_iff _ _ _ _ _ H (fun w Hw => IH Norm w Hw)).
    + destruct ((k <? 3) && is_some (oct_val c)) eqn:E.
      * apply andb_prop in E. destruct E as [_ E].
        destruct (oct_val c) as [d|] eqn:Eo; [|discriminate].
        destruct (oct_digit _ _ Eo) as [d' Ed]. destruct (digit_not _ _ Ed) as [H1 H2].
        rewrite (bare_skip _ _ H1 H2). apply (IH (Oct (S k) (w * 8 + d))).
      * intro H. exact (cons_item_iff _ _ _ _ _ H (fun v' Hv => requote_norm c r v' IH Hv)).
    + destruct ((k <? 2) && is_some (digit_val c)) eqn:E.
      * apply andb_prop in E. destruct E as [_ E].
        destruct (digit_val c) as [d|] eqn:Ed; [|discriminate].
        destruct (digit_not _ _ Ed) as [H1 H2].
        rewrite (bare_skip _ _ H1 H2). apply (IH (Hex (S k) (w * 16 + d))).
      * destruct (k =? 0); [discriminate|].
        intro H. exact (cons_item_iff _ _ _ _ _ H (fun v' Hv => requote_norm c r v' IH Hv)).
    + destruct k as [|k]; [discriminate|]. rewrite !lex_uni.
      destruct (digit_val c) as [d|] eqn:Ed; [|discriminate].
      destruct (digit_not _ _ Ed) as [H1 H2]. rewrite (bare_skip _ _ H1 H2).
      destruct (k =? 0).
      * intro H. exact (cons_item_iff _ _ _ _ _ H (fun w Hw => IH Norm w Hw)).
      * apply (IH (Uni k (w * 16 + d))).
Qed.

(* A literal that denotes something is closed by its opening quote. *)
Lemma lex_closed : forall s q st v, lex q st s = Some v -> exists body, s = body ++ [q].
Proof.
  induction s as [|c r IH]; intros q st v H; [destruct st; discriminate|].
  assert (HN : norm_lex q c r = Some v -> exists body, c :: r = body ++ [q]).
  { clear H. unfold norm_lex. destruct (Ascii.eqb_spec c q) as [->|].
    - destruct r; [exists []; reflexivity|discriminate].
    - destruct (Ascii.eqb c backslash); [intro H; destruct (IH _ _ _ H) as [b ->]; exists (c :: b); reflexivity|].
      destruct (Ascii.eqb c nl || Ascii.eqb c nul); [discriminate|].
      intro H. apply cons_item_some in H. destruct H as (w & H & _). destruct (IH _ _ _ H) as [b ->]. exists (c :: b); reflexivity. }
  assert (HI : forall st' w, lex q st' r = Some w -> exists body, c :: r = body ++ [q]).
  { intros st' w Hw. destruct (IH _ _ _ Hw) as [b ->]. exists (c :: b). reflexivity. }
  assert (HC : forall i o, cons_item i o = Some v -> exists w, o = Some w) by (intros i o Ho; apply cons_item_some in Ho; destruct Ho as (w & -> & _); eauto).
  assert (HN' : forall w, norm_lex q c r = Some w -> exists body, c :: r = body ++ [q]).
  { intros w. unfold norm_lex. destruct (Ascii.eqb_spec c q) as [->|].
    - destruct r; [exists []; reflexivity|discriminate].
    - destruct (Ascii.eqb c backslash); [eauto|].
      destruct (Ascii.eqb c nl || Ascii.eqb c nul); [discriminate|].
      intro H'. apply cons_item_some in H'. destruct H' as (w' & H' & _). eauto. }
  destruct st as [| |k w|k w|k w].
  - apply HN. exact H.
  - rewrite lex_esc in H. unfold esc_lex in H.
    destruct (Ascii.eqb c "x" || Ascii.eqb c "X"); [eauto|].
    destruct (Ascii.eqb c "u"); [eauto|]. destruct (Ascii.eqb c "U"); [eauto|].
    destruct (oct_val c); [eauto|]. destruct (simple_escape c); [|discriminate].
    apply HC in H. destruct H. eauto.
  - rewrite lex_oct in H. destruct ((k <? 3) && is_some (oct_val c)); [eauto|]. apply HC in H. destruct H. eauto.
  - rewrite lex_hex in H. destruct ((k <? 2) && is_some (digit_val c)); [eauto|].
    destruct (k =? 0); [discriminate|]. apply HC in H. destruct H. eauto.
  - destruct k; [discriminate|]. rewrite lex_uni in H. destruct (digit_val c); [|discriminate].
    destruct (k =? 0); [apply HC in H; destruct H|]; eauto.
Qed.

Lemma write_single body : write_string_literal (sq :: body ++ [sq]) = dq :: body ++ [dq].
Proof.
  unfold write_string_literal. destruct (body ++ [sq]) as [|c r] eqn:E; [destruct body; discriminate|].
  rewrite Ascii.eqb_refl. rewrite <- E, last_last, Ascii.eqb_refl. cbn [andb tl].
  rewrite removelast_last. reflexivity.
Qed.
Lemma write_double r : write_string_literal (dq :: r) = dq :: r.
Proof. destruct r; reflexivity. Qed.

(* ---------- white space ---------- *)
Lemma trim_left_idem s : trim_left (trim_left s) = trim_left s.
Proof. induction s as [|c r IH]; cbn; [reflexivity|]. destruct (is_space c) eqn:E; [exact IH|]. cbn. rewrite E. reflexivity. Qed.
Lemma trim_right_idem s : trim_right (trim_right s) = trim_right s.
Proof.
  induction s as [|c r IH]; cbn; [reflexivity|]. destruct (trim_right r) as [|d r'] eqn:E.
  - destruct (is_space c) eqn:Ec; [reflexivity|]. cbn. rewrite Ec. reflexivity.
  - cbn in IH |- *. destruct (trim_right r'); rewrite IH; reflexivity.
Qed.
Lemma trim_right_nil s : trim_right s = [] <-> forallb is_space s = true.
Proof.
  induction s as [|c r IH]; cbn; [tauto|]. rewrite andb_true_iff, <- IH.
  destruct (trim_right r) as [|d r'].
  - destruct (is_space c); split; intros; try discriminate; try tauto. destruct H; discriminate.
  - split; [discriminate|]. intros [_ H]. discriminate.
Qed.
Lemma trim_left_nil s : trim_left s = [] <-> forallb is_space s = true.
Proof.
  induction s as [|c r IH]; cbn; [tauto|]. destruct (is_space c); cbn; [exact IH|]. split; discriminate.
Qed.
Lemma trim_nil s : trim s = [] <-> forallb is_space s = true.
Proof.
  unfold trim. rewrite trim_right_nil. induction s as [|c r IH]; cbn; [tauto|].
  destruct (is_space c) eqn:E; cbn; [exact IH|]. rewrite E. cbn. tauto.
Qed.
Lemma trim_right_cons c r : trim_right (c :: r) = match trim_right r with [] => if is_space c then [] else [c] | r' => c :: r' end.
Proof. reflexivity. Qed.
Lemma trim_right_nonspace c r : is_space c = false -> trim_right (c :: r) = c :: trim_right r.
Proof. intro H. rewrite trim_right_cons, H. destruct (trim_right r); reflexivity. Qed.
Lemma trim_comm s : trim_left (trim_right s) = trim_right (trim_left s).
Proof.
  induction s as [|c r IH]; [reflexivity|]. cbn [trim_left]. rewrite trim_right_cons. destruct (is_space c) eqn:E.
  - destruct (trim_right r) as [|d r'] eqn:Er.
    + rewrite <- IH. reflexivity.
    + cbn [trim_left]. rewrite E. exact IH.
  - rewrite trim_right_nonspace by exact E. destruct (trim_right r); cbn [trim_left]; rewrite E; reflexivity.
Qed.
Lemma trim_trim_right s : trim (trim_right s) = trim s.
Proof. unfold trim. rewrite trim_comm. apply trim_right_idem. Qed.
Lemma trim_trim_left s : trim (trim_left s) = trim s.
Proof. unfold trim. rewrite trim_left_idem. reflexivity. Qed.
Lemma trim_idem s : trim (trim s) = trim s.
Proof. unfold trim at 2. rewrite trim_trim_right, trim_trim_left. reflexivity. Qed.
Lemma trim_right_trim s : trim_right (trim s) = trim s.
Proof. apply trim_right_idem. Qed.
Lemma trim_space_cons c s : is_space c = true -> trim (c :: s) = trim s.
Proof. intro H. unfold trim. cbn. rewrite H. reflexivity. Qed.
Lemma trim_spaces_app l s : forallb is_space l = true -> trim (l ++ s) = trim s.
Proof. induction l as [|c r IH]; cbn [app]; intro H; [reflexivity|]. cbn in H. apply andb_prop in H. destruct H as [Hc Hr]. rewrite trim_space_cons by exact Hc. apply IH. exact Hr. Qed.
Lemma repeat_space n : forallb is_space (repeat sp n) = true.
Proof. induction n; cbn; auto. Qed.

Lemma visible_app a b : visible (a ++ b) = visible a ++ visible b.
Proof. apply filter_app. Qed.
Lemma visible_nil s : forallb is_space s = true <-> visible s = [].
Proof.
  induction s as [|c r IH]; cbn; [tauto|]. destruct (is_space c); cbn; [exact IH|]. split; discriminate.
Qed.
Lemma visible_trim_left s : visible (trim_left s) = visible s.
Proof. induction s as [|c r IH]; cbn; [reflexivity|]. destruct (is_space c) eqn:E; cbn; [exact IH|]. rewrite E. reflexivity. Qed.
Lemma visible_cons c r : visible (c :: r) = if is_space c then visible r else c :: visible r.
Proof. unfold visible. cbn. destruct (is_space c); reflexivity. Qed.
Lemma visible_trim_right s : visible (trim_right s) = visible s.
Proof.
  induction s as [|c r IH]; [reflexivity|]. rewrite trim_right_cons, (visible_cons c r), <- IH.
  destruct (trim_right r) as [|d r'].
  - destruct (is_space c) eqn:E; [reflexivity|]. rewrite visible_cons, E. reflexivity.
  - rewrite visible_cons. reflexivity.
Qed.
Lemma visible_trim s : visible (trim s) = visible s.
Proof. unfold trim. rewrite visible_trim_right. apply visible_trim_left. Qed.

(* ---------- the end of a block comment ---------- *)
Lemma after_end_cons c r : after_end (c :: r) = if Ascii.eqb c star && has_prefix r [slash] then Some (tl r) else after_end r.
Proof. reflexivity. Qed.
Lemma has_slash r : has_prefix r [slash] = true <-> exists r', r = slash :: r'.
Proof.
  rewrite has_prefix_spec. split; intros [r' H]; exists r'; exact H.
Qed.
Lemma space_not_star c : is_space c = true -> Ascii.eqb c star = false /\ Ascii.eqb c slash = false.
Proof. intro H. split; apply Ascii.eqb_neq; intros ->; vm_compute in H; discriminate. Qed.
Lemma after_end_space c r : is_space c = true -> after_end (c :: r) = after_end r.
Proof. intro H. rewrite after_end_cons. destruct (space_not_star c H) as [-> _]. reflexivity. Qed.
Lemma after_end_trim_left s : after_end (trim_left s) = after_end s.
Proof. induction s as [|c r IH]; [reflexivity|]. cbn [trim_left]. destruct (is_space c) eqn:E; [|reflexivity]. rewrite after_end_space by exact E. exact IH. Qed.
Lemma has_slash_app s c t : is_space c = true -> has_prefix (s ++ c :: t) [slash] = has_prefix s [slash].
Proof.
  intro H. destruct s as [|d s]; [|destruct s; reflexivity]. cbn [app].
  destruct (has_prefix (c :: t) [slash]) eqn:E; [|reflexivity].
  apply has_slash in E. destruct E as [r E]. injection E as -> _. vm_compute in H. discriminate.
Qed.
(* White space separates: no terminator spans it. *)
Lemma after_end_sep s c t : is_space c = true ->
  after_end (s ++ c :: t) = match after_end s with Some r => Some (r ++ c :: t) | None => after_end t end.
Proof.
  intro H. induction s as [|d s IH]; cbn [app].
  - rewrite after_end_space by exact H. reflexivity.
  - rewrite !after_end_cons, has_slash_app by exact H.
    destruct (Ascii.eqb d star && has_prefix s [slash]) eqn:E.
    + apply andb_prop in E. destruct E as [_ E]. apply has_slash in E. destruct E as [r' ->]. reflexivity.
    + exact IH.
Qed.
Lemma after_end_trim_right s : after_end (trim_right s) = match after_end s with Some r => Some (trim_right r) | None => None end.
Proof.
  induction s as [|c r IH]; [reflexivity|]. rewrite trim_right_cons, after_end_cons.
  destruct (Ascii.eqb c star && has_prefix r [slash]) eqn:E.
  - apply andb_prop in E. destruct E as [Ec E]. apply has_slash in E. destruct E as [r' ->].
    apply Ascii.eqb_eq in Ec. subst c. rewrite (trim_right_nonspace slash) by reflexivity.
    rewrite after_end_cons. replace (has_prefix (slash :: trim_right r') [slash]) with true by (symmetry; apply has_slash; eauto). reflexivity.
  - destruct (trim_right r) as [|d r'] eqn:Er.
    + cbn in IH. destruct (is_space c) eqn:Es; [exact IH|]. rewrite after_end_cons. cbn [has_prefix]. rewrite andb_false_r. exact IH.
    + rewrite after_end_cons.
      assert (Hd : has_prefix (d :: r') [slash] = has_prefix r [slash]).
      { clear - Er. destruct r as [|e r]; [discriminate|]. rewrite trim_right_cons in Er.
        destruct (trim_right r); [destruct (is_space e); [discriminate|]|]; injection Er as <- <-; destruct r; reflexivity. }
      rewrite Hd, E. exact IH.
Qed.
Lemma after_end_trim s : after_end (trim s) = match after_end s with Some r => Some (trim_right r) | None => None end.
Proof. unfold trim. rewrite after_end_trim_right, after_end_trim_left. reflexivity. Qed.

Lemma nl_space : is_space nl = true. Proof. reflexivity. Qed.
Lemma sp_space : is_space sp = true. Proof. reflexivity. Qed.

(* Replacing lines by lines with the same trimmed text, without trailing white space at the end,
   keeps the end of the comment at the end. *)
Lemma after_end_lines c : is_space c = true -> forall ls ls',
  Forall2 (fun l l' => trim l' = trim l) ls ls' ->
  (ls' = [] \/ trim_right (last ls' []) = last ls' []) ->
  after_end (join_with nl ls) = Some [] -> after_end (join_with c ls') = Some [].
Proof.
  intros Hc ls ls' HF. induction HF as [|l l' ls ls' Hl HF IH]; intros HL H; [discriminate|].
  destruct HL as [HL|HL]; [discriminate|].
  assert (HX : forall r, after_end l = Some r -> exists r', after_end l' = Some r').
  { intros r Hr. assert (E : after_end (trim l) = Some (trim_right r)) by (rewrite after_end_trim, Hr; reflexivity).
    rewrite <- Hl, after_end_trim in E. destruct (after_end l'); [eauto|discriminate]. }
  assert (HN : after_end l = None -> after_end l' = None).
  { intro Hr. assert (E : after_end (trim l) = None) by (rewrite after_end_trim, Hr; reflexivity).
    rewrite <- Hl, after_end_trim in E. destruct (after_end l'); [discriminate|reflexivity]. }
  inversion HF as [E1 E2|l2 l2' ls2 ls2' Hl2 HF2 E1 E2]; subst.
  - cbn in H, HL |- *. 
    assert (E : after_end (trim l) = Some []) by (rewrite after_end_trim, H; reflexivity).
    rewrite <- Hl in E. unfold trim in E. rewrite <- trim_comm, HL in E. rewrite after_end_trim_left in E. exact E.
  - change (join_with nl (l :: l2 :: ls2)) with (l ++ nl :: join_with nl (l2 :: ls2)) in H.
    change (join_with c (l' :: l2' :: ls2')) with (l' ++ c :: join_with c (l2' :: ls2')).
    rewrite after_end_sep in H by exact nl_space. rewrite after_end_sep by exact Hc.
    destruct (after_end l) as [r|] eqn:El.
    + injection H as H. destruct r; discriminate.
    + rewrite (HN eq_refl). apply IH; [right|exact H]. exact HL.
Qed.

(* Leading "/*" is unaffected. *)
Lemma trim_open b : trim (b_ "/*" ++ b) = b_ "/*" ++ trim_right b.
Proof. unfold trim. cbn [b_ list_ascii_of_string app trim_left]. change (is_space "/") with false. cbn iota. rewrite !trim_right_nonspace by reflexivity. reflexivity. Qed.
Lemma split_open b : exists b1 bs, split_on nl b = b1 :: bs /\ split_on nl (b_ "/*" ++ b) = (b_ "/*" ++ b1) :: bs.
Proof.
  destruct (split_on nl b) as [|b1 bs] eqn:E; [destruct (split_on_nonempty nl b E)|].
  exists b1, bs. split; [reflexivity|]. cbn. rewrite E. reflexivity.
Qed.

Lemma inline_line_text body : ~ In nl body -> inline_comment (b_ "//" ++ body) = b_ "/* " ++ trim body ++ b_ " */".
Proof. intros _. unfold inline_comment. replace (has_prefix (b_ "//" ++ body) (b_ "//")) with true by (symmetry; apply has_prefix_spec; eauto). reflexivity. Qed.

Lemma after_end_close s : after_end (s ++ b_ " */") = match after_end s with Some r => Some (r ++ b_ " */") | None => Some [] end.
Proof. apply (after_end_sep s sp (b_ "*/")). reflexivity. Qed.

Lemma inline_line_one_block body : ~ In nl body ->
  (one_block (inline_comment (b_ "//" ++ body)) <-> after_end body = None).
Proof.
  intro HN. rewrite inline_line_text by exact HN. split.
  - intros (b & E & H). change (b_ "/* " ++ trim body ++ b_ " */") with (b_ "/*" ++ (sp :: trim body ++ b_ " */")) in E.
    apply app_inv_head in E. subst b. rewrite after_end_space in H by reflexivity. rewrite after_end_close in H.
    rewrite after_end_trim in H. destruct (after_end body) as [r|]; [|reflexivity].
    injection H as H. destruct (trim_right r); discriminate.
  - intro H. exists (sp :: trim body ++ b_ " */"). split; [reflexivity|].
    rewrite after_end_space by reflexivity. rewrite after_end_close, after_end_trim, H. reflexivity.
Qed.

Lemma inline_not_line b : has_prefix (b_ "/*" ++ b) (b_ "//") = false.
Proof. reflexivity. Qed.

Lemma last_map_trim ls : ls <> [] -> trim_right (last (map trim ls) []) = last (map trim ls) [].
Proof.
  intro H. induction ls as [|l ls IH]; [congruence|]. destruct ls as [|l2 ls]; [apply trim_right_trim|].
  apply IH. discriminate.
Qed.
Lemma inline_block_form b1 bs b : split_on nl b = b1 :: bs ->
  inline_comment (b_ "/*" ++ b) = b_ "/*" ++ join_with sp (trim_right b1 :: map trim bs).
Proof.
  intro E. unfold inline_comment. rewrite inline_not_line.
  destruct (split_open b) as (b1' & bs' & E1 & ->). rewrite E in E1. injection E1 as <- <-.
  cbn [map]. rewrite trim_open. destruct bs; reflexivity.
Qed.
Lemma inline_block_one_block t : one_block t -> one_block (inline_comment t).
Proof.
  intros (b & -> & H). destruct (split_on nl b) as [|b1 bs] eqn:E; [destruct (split_on_nonempty nl b E)|].
  rewrite (inline_block_form _ _ _ E). eexists. split; [reflexivity|].
  rewrite <- (join_split nl b), E in H.
  apply (after_end_lines sp sp_space (b1 :: bs)); [|right|exact H].
  - constructor; [apply trim_trim_right|]. clear. induction bs; constructor; [apply trim_idem|assumption].
  - destruct bs as [|b2 bs]; [apply trim_right_idem|]. change (last (trim_right b1 :: map trim (b2 :: bs)) []) with (last (map trim (b2 :: bs)) []). apply last_map_trim. discriminate.
Qed.

Lemma visible_join c ls : is_space c = true -> visible (join_with c ls) = List.concat (map visible ls).
Proof.
  intro H. induction ls as [|l ls IH]; [reflexivity|]. destruct ls as [|l2 ls].
  - cbn. rewrite app_nil_r. reflexivity.
  - change (join_with c (l :: l2 :: ls)) with (l ++ c :: join_with c (l2 :: ls)). rewrite visible_app.
    cbn [map List.concat]. f_equal. unfold visible at 1. cbn [filter]. rewrite H. cbn. exact IH.
Qed.
Lemma visible_map_trim ls : map visible (map trim ls) = map visible ls.
Proof. rewrite map_map. apply map_ext. apply visible_trim. Qed.
Lemma inline_block_visible t : has_prefix t (b_ "//") = false -> visible (inline_comment t) = visible t.
Proof.
  intro H. unfold inline_comment. rewrite H, visible_join by reflexivity. rewrite visible_map_trim.
  rewrite <- (visible_join nl) by reflexivity. rewrite join_split. reflexivity.
Qed.
Lemma trim_no_nl s : ~ In nl s -> ~ In nl (trim s).
Proof.
  intros H HI. apply H. clear H. unfold trim in HI.
  assert (A : forall u, In nl (trim_right u) -> In nl u).
  { induction u as [|c r IH]; [auto|]. rewrite trim_right_cons. destruct (trim_right r) as [|d r'].
    - destruct (is_space c); [intros []|]. intros [->|[]]. left. reflexivity.
    - intros [->|HI']; [left; reflexivity|right; auto]. }
  apply A in HI. clear A. induction s as [|c r IH]; [exact HI|]. cbn in HI. destruct (is_space c); [right; auto|exact HI].
Qed.
Lemma join_no_nl ls : (forall l, In l ls -> ~ In nl l) -> ~ In nl (join_with sp ls).
Proof.
  induction ls as [|l ls IH]; intros H; [intros []|]. destruct ls as [|l2 ls]; [apply H; left; reflexivity|].
  change (join_with sp (l :: l2 :: ls)) with (l ++ sp :: join_with sp (l2 :: ls)). intro HI.
  apply in_app_or in HI. destruct HI as [HI|[HI|HI]]; [exact (H l (or_introl eq_refl) HI)|discriminate|].
  apply IH; [|exact HI]. intros x Hx. apply H. right. exact Hx.
Qed.
Lemma inline_no_nl t : one_line t \/ one_block t -> ~ In nl (inline_comment t).
Proof.
  intros [(b & -> & H)|(b & -> & _)].
  - rewrite inline_line_text by exact H. intro HI. apply in_app_or in HI. destruct HI as [HI|HI].
    + vm_compute in HI. intuition discriminate.
    + apply in_app_or in HI. destruct HI as [HI|HI]; [exact (trim_no_nl _ H HI)|]. vm_compute in HI. intuition discriminate.
  - unfold inline_comment. rewrite inline_not_line. apply join_no_nl. intros l Hl. apply in_map_iff in Hl.
    destruct Hl as (x & <- & Hx). apply trim_no_nl. exact (split_on_sep_free _ _ _ Hx).
Qed.

(* ---------- writeComment ---------- *)
Lemma trim_unindent : forall s pos k, trim (unindent_from pos k s) = trim s.
Proof.
  induction s as [|c r IH]; intros pos k; [reflexivity|]. cbn [unindent_from].
  destruct (pos =? k); [reflexivity|]. destruct (k <? pos); [apply trim_spaces_app, repeat_space|].
  destruct (Ascii.eqb_spec c sp) as [->|]; [rewrite IH, trim_space_cons by reflexivity; reflexivity|].
  destruct (Ascii.eqb_spec c tab) as [->|]; [rewrite IH, trim_space_cons by reflexivity; reflexivity|reflexivity].
Qed.
Lemma trim_pad3 s : trim (b_ "   " ++ s) = trim s.
Proof. apply trim_spaces_app. reflexivity. Qed.
Lemma trim_comment_line p m f l : trim (comment_line p m f l) = trim l.
Proof.
  unfold comment_line.
  set (l1 := if _ || _ || _ then _ else _).
  assert (H1 : trim l1 = trim l).
  { subst l1. destruct (_ || _ || _); [apply trim_idem|]. rewrite trim_trim_right. apply trim_unindent. }
  set (l2 := if negb f && _ then _ else _).
  assert (H2 : trim l2 = trim l).
  { subst l2. destruct (negb f && _); [|exact H1]. destruct (_ =? 0); [rewrite trim_pad3|rewrite trim_space_cons by reflexivity]; exact H1. }
  destruct (beq l2 _ && _); [rewrite trim_space_cons by reflexivity|]; exact H2.
Qed.
Lemma trim_placed k l : trim (placed_line k l) = trim l.
Proof.
  unfold placed_line. destruct (beq (trim l) []) eqn:E; [apply beq_eq in E; rewrite E; reflexivity|].
  apply trim_spaces_app, repeat_space.
Qed.
Lemma trim_right_app_fix a b : trim_right b = b -> b <> [] -> trim_right (a ++ b) = a ++ b.
Proof.
  intros H HN. induction a as [|c a IH]; [exact H|]. cbn [app]. rewrite trim_right_cons, IH.
  destruct (a ++ b) eqn:E; [|reflexivity]. apply app_eq_nil in E. destruct E. congruence.
Qed.
Lemma comment_line_right p m f l : trim l <> [] -> trim_right (comment_line p m f l) = comment_line p m f l.
Proof.
  intro HN. unfold comment_line.
  set (l1 := if _ || _ || _ then _ else _).
  assert (H1 : trim_right l1 = l1 /\ l1 <> []).
  { subst l1. destruct (_ || _ || _); [split; [apply trim_right_trim|exact HN]|].
    split; [apply trim_right_idem|]. intro E. apply HN.
    rewrite <- (trim_unindent l 0 m). unfold unindent in E. rewrite trim_right_nil in E. apply trim_nil. exact E. }
  destruct H1 as [H1 H1N]. set (l2 := if negb f && _ then _ else _).
  assert (H2 : trim_right l2 = l2 /\ l2 <> []).
  { subst l2. destruct (negb f && _); [|auto]. destruct (_ =? 0).
    - split; [apply trim_right_app_fix; assumption|discriminate].
    - split; [apply (trim_right_app_fix [sp]); assumption|discriminate]. }
  destruct H2 as [H2 H2N].
  destruct (beq l2 _ && _); [apply (trim_right_app_fix [sp])|]; assumption.
Qed.
Lemma placed_right k p m l : trim_right (placed_line k (comment_line p m false l)) = placed_line k (comment_line p m false l).
Proof.
  unfold placed_line. rewrite trim_comment_line. destruct (beq (trim l) []) eqn:E; [reflexivity|].
  apply beq_neq in E. apply trim_right_app_fix; [apply comment_line_right; exact E|].
  intro E2. apply E. rewrite <- (trim_comment_line p m false l), E2. reflexivity.
Qed.

Lemma unindent_open b m : unindent (b_ "/*" ++ b) m = b_ "/*" ++ b.
Proof. unfold unindent. destruct m; reflexivity. Qed.
Lemma trim_right_open b : trim_right (b_ "/*" ++ b) = b_ "/*" ++ trim_right b.
Proof. cbn [b_ list_ascii_of_string app]. rewrite !trim_right_nonspace by reflexivity. reflexivity. Qed.
Lemma beq_open b w : beq (b_ "/*" ++ b) (sp :: w) = false /\ beq (b_ "/*" ++ b) (b_ "*/") = false /\ beq (b_ "/*" ++ b) [] = false.
Proof. repeat split; apply beq_neq; discriminate. Qed.
Lemma comment_first p m b : comment_line p m true (b_ "/*" ++ b) = b_ "/*" ++ trim_right b.
Proof.
  unfold comment_line. rewrite unindent_open, trim_open, trim_right_open.
  destruct (_ || _ || _); cbn [negb andb]; destruct (beq_open (trim_right b) []) as (_ & -> & _); reflexivity.
Qed.

Lemma multiline_open b : is_multiline_block (b_ "/*" ++ b) = existsb (Ascii.eqb nl) b.
Proof.
  unfold is_multiline_block. replace (has_prefix (b_ "/*" ++ b) (b_ "/*")) with true by (symmetry; apply has_prefix_spec; eauto).
  reflexivity.
Qed.
Lemma existsb_nl s : existsb (Ascii.eqb nl) s = false <-> ~ In nl s.
Proof.
  split.
  - intros H HI. assert (E : existsb (Ascii.eqb nl) s = true) by (apply existsb_exists; exists nl; split; [exact HI|apply Ascii.eqb_refl]). congruence.
  - intro H. destruct (existsb (Ascii.eqb nl) s) eqn:E; [|reflexivity]. apply existsb_exists in E. destruct E as (x & Hx & E). apply Ascii.eqb_eq in E. subst x. tauto.
Qed.

Definition cprefix (ls : list bytes) : bytes := shared_prefix 1 [] ls.
Definition cmin (ls : list bytes) : nat := match min_indent ls with Some a => a | None => 0 end.
Lemma comment_lines_form b b1 bs : split_on nl b = b1 :: bs -> existsb (Ascii.eqb nl) b = true ->
  comment_lines (b_ "/*" ++ b) = (b_ "/*" ++ trim_right b1) :: map (comment_line (cprefix bs) (cmin bs) false) bs.
Proof.
  intros E H. unfold comment_lines. rewrite multiline_open, H.
  destruct (split_open b) as (b1' & bs' & E1 & ->). rewrite E in E1. injection E1 as <- <-.
  rewrite comment_first. reflexivity.
Qed.
Lemma written_form k b b1 bs : split_on nl b = b1 :: bs -> existsb (Ascii.eqb nl) b = true ->
  written_comment k (b_ "/*" ++ b)
  = b_ "/*" ++ join_with nl (trim_right b1 :: map (fun l => placed_line k (comment_line (cprefix bs) (cmin bs) false l)) bs).
Proof.
  intros E H. unfold written_comment. rewrite (comment_lines_form _ _ _ E H). rewrite map_map.
  destruct (map _ bs); reflexivity.
Qed.
Lemma written_single k b : existsb (Ascii.eqb nl) b = false -> written_comment k (b_ "/*" ++ b) = b_ "/*" ++ trim_right b.
Proof. intro H. unfold written_comment, comment_lines. rewrite multiline_open, H. cbn [join_with map]. apply trim_open. Qed.
Lemma written_line k b : written_comment k (b_ "//" ++ b) = b_ "//" ++ trim_right b.
Proof.
  unfold written_comment, comment_lines, is_multiline_block.
  replace (has_prefix (b_ "//" ++ b) (b_ "/*")) with false by reflexivity. cbn [andb map join_with].
  unfold trim. cbn [b_ list_ascii_of_string app trim_left]. change (is_space "/") with false. cbn iota.
  rewrite !trim_right_nonspace by reflexivity. reflexivity.
Qed.

Lemma written_one_block k t : one_block t -> one_block (written_comment k t).
Proof.
  intros (b & -> & H). destruct (existsb (Ascii.eqb nl) b) eqn:En.
  - destruct (split_on nl b) as [|b1 bs] eqn:E; [destruct (split_on_nonempty nl b E)|].
    rewrite (written_form k _ _ _ E En). eexists. split; [reflexivity|].
    rewrite <- (join_split nl b), E in H.
    apply (after_end_lines nl nl_space (b1 :: bs)); [|right|exact H].
    + constructor; [apply trim_trim_right|]. generalize (cprefix bs) (cmin bs). intros p m. clear. induction bs; constructor; [rewrite trim_placed; apply trim_comment_line|assumption].
    + generalize (cprefix bs) (cmin bs). intros p m. clear. destruct bs as [|b2 bs]; [apply trim_right_idem|].
      cbn [map]. remember (placed_line k (comment_line p m false b2)) as x eqn:Ex.
      assert (Hx : trim_right x = x) by (subst x; apply placed_right). clear Ex. revert x Hx.
      induction bs as [|b3 bs IH]; intros x Hx; [exact Hx|]. cbn [map]. 
      change (last (trim_right b1 :: x :: ?y :: ?z) []) with (last (y :: z) (@nil ascii)).
      specialize (IH (placed_line k (comment_line p m false b3)) (placed_right _ _ _ _)). exact IH.
  - rewrite (written_single k _ En). eexists. split; [reflexivity|]. rewrite after_end_trim_right, H. reflexivity.
Qed.
Lemma trim_visible l l' : trim l' = trim l -> visible l' = visible l.
Proof. intro H. rewrite <- (visible_trim l'), H. apply visible_trim. Qed.
Lemma written_visible k t : one_block t \/ one_line t -> visible (written_comment k t) = visible t.
Proof.
  intros [(b & -> & _)|(b & -> & _)].
  - destruct (existsb (Ascii.eqb nl) b) eqn:En.
    + destruct (split_on nl b) as [|b1 bs] eqn:E; [destruct (split_on_nonempty nl b E)|].
      rewrite (written_form k _ _ _ E En), !visible_app. f_equal. rewrite visible_join by reflexivity.
      rewrite <- (join_split nl b) at 1. rewrite E, visible_join by reflexivity. cbn [map List.concat]. rewrite visible_trim_right. f_equal. f_equal.
      rewrite map_map. apply map_ext. intro l. apply trim_visible. rewrite trim_placed. apply trim_comment_line.
    + rewrite (written_single k _ En), !visible_app, visible_trim_right. reflexivity.
  - rewrite written_line, !visible_app, visible_trim_right. reflexivity.
Qed.
Lemma trim_right_in c s : In c (trim_right s) -> In c s.
Proof.
  induction s as [|d r IH]; [auto|]. rewrite trim_right_cons. destruct (trim_right r) as [|e r'].
  - destruct (is_space d); [intros []|]. intros [->|[]]. left. reflexivity.
  - intros [->|HI']; [left; reflexivity|right; auto].
Qed.

(* ---------- idempotence ---------- *)
Lemma shared_prefix_trim : forall ls ls' i p, map trim ls = map trim ls' -> shared_prefix i p ls = shared_prefix i p ls'.
Proof.
  induction ls as [|l ls IH]; intros [|l' ls'] i p H; try discriminate; [reflexivity|].
  cbn [map] in H. injection H as Hl H. cbn [shared_prefix]. rewrite Hl.
  destruct ((1 <? i) && _); [apply IH; exact H|]. destruct (beq (trim l') _); [apply IH; exact H|]. apply IH. exact H.
Qed.
Lemma comment_line_prefix p m m' l l' : p <> [] -> trim l = trim l' -> comment_line p m false l = comment_line p m' false l'.
Proof.
  intros Hp Hl. unfold comment_line. rewrite Hl. destruct p as [|c p]; [congruence|].
  cbn [List.length Nat.eqb negb]. rewrite !orb_true_r. reflexivity.
Qed.

Lemma indent_ge : forall s n m, indent_from n s = Some m -> n <= m.
Proof.
  induction s as [|c r IH]; intros n m; cbn; [discriminate|].
  destruct (Ascii.eqb c sp); [intro H; apply IH in H; lia|].
  destruct (Ascii.eqb c tab); [intro H; apply IH in H; lia|]. intro H. injection H as ->. lia.
Qed.
Lemma indent_spaces k s n : indent_from n (repeat sp k ++ s) = indent_from (k + n) s.
Proof. revert n. induction k as [|k IH]; intro n; [reflexivity|]. cbn. rewrite IH. f_equal. lia. Qed.
Lemma unindent_exact : forall s n m, indent_from n s = Some m ->
  exists c u, unindent_from n m s = c :: u /\ c <> sp /\ c <> tab.
Proof.
  induction s as [|c r IH]; intros n m H; [discriminate|]. cbn [indent_from unindent_from] in *.
  destruct (Ascii.eqb_spec c sp) as [->|N1].
  - pose proof (indent_ge _ _ _ H). destruct (Nat.eqb_spec n m); [lia|]. destruct (Nat.ltb_spec m n); [lia|]. apply IH. exact H.
  - destruct (Ascii.eqb_spec c tab) as [->|N2].
    + pose proof (indent_ge _ _ _ H). assert (n mod 8 < 8) by (apply Nat.mod_upper_bound; lia).
      destruct (Nat.eqb_spec n m); [lia|]. destruct (Nat.ltb_spec m n); [lia|]. apply IH. exact H.
    + injection H as ->. rewrite Nat.eqb_refl. exists c, r. auto.
Qed.
Lemma unindent_spaces k s n : s <> [] -> unindent_from n (k + n) (repeat sp k ++ s) = s.
Proof.
  revert n. induction k as [|k IH]; intros n Hs; cbn [repeat app].
  - destruct s as [|c s]; [congruence|]. cbn. rewrite Nat.eqb_refl. reflexivity.
  - cbn [unindent_from]. destruct (Nat.eqb_spec n (S k + n)); [lia|]. destruct (Nat.ltb_spec (S k + n) n); [lia|].
    rewrite Ascii.eqb_refl. replace (S k + n) with (k + S n) by lia. apply IH. exact Hs.
Qed.
Lemma min_indent_le ls l m : In l ls -> compute_indent l = Some m -> exists m0, min_indent ls = Some m0 /\ m0 <= m.
Proof.
  induction ls as [|x ls IH]; [intros []|]. intros [->|H] E; cbn.
  - rewrite E. destruct (min_indent ls); eexists; split; eauto. lia.
  - destruct (IH H E) as (m0 & -> & Hm). destruct (compute_indent x); eexists; split; eauto. lia.
Qed.
Lemma min_indent_in ls m : min_indent ls = Some m -> exists l, In l ls /\ compute_indent l = Some m.
Proof.
  revert m. induction ls as [|x ls IH]; [discriminate|]. intros m. cbn.
  destruct (compute_indent x) as [a|] eqn:Ea, (min_indent ls) as [c|]; intro H; try discriminate.
  - injection H as <-. destruct (Nat.min_spec a c) as [[_ ->]|[_ ->]].
    + exists x. auto.
    + destruct (IH c eq_refl) as (l & Hl & E). exists l. auto.
  - injection H as <-. exists x. auto.
  - destruct (IH _ H) as (l & Hl & E). exists l. auto.
Qed.

Lemma indent_some_iff : forall s n, (exists m, indent_from n s = Some m) <-> exists c, In c s /\ c <> sp /\ c <> tab.
Proof.
  induction s as [|c r IH]; intro n; cbn.
  - split; [intros [m H]; discriminate|intros (c & [] & _)].
  - destruct (Ascii.eqb_spec c sp) as [->|N1]; [|destruct (Ascii.eqb_spec c tab) as [->|N2]].
    + rewrite IH. split; [intros (d & Hd & H); exists d; auto|intros (d & [<-|Hd] & H1 & H2); [congruence|exists d; auto]].
    + rewrite IH. split; [intros (d & Hd & H); exists d; auto|intros (d & [<-|Hd] & H1 & H2); [congruence|exists d; auto]].
    + split; [intros _; exists c; auto|eauto].
Qed.

Definition ordinary (l : bytes) : Prop := trim l <> [] /\ trim l <> b_ "*/".
Definition body_text (m : nat) (l : bytes) : bytes := trim_right (unindent l m).
Lemma body_text_trim m l : trim (body_text m l) = trim l.
Proof. unfold body_text. rewrite trim_trim_right. apply trim_unindent. Qed.
Lemma comment_ordinary m l : ordinary l -> comment_line [] m false l = b_ "   " ++ body_text m l.
Proof.
  intros [H1 H2]. unfold comment_line. apply beq_neq in H1. apply beq_neq in H2. rewrite H1, H2. cbn [List.length Nat.eqb negb orb andb].
  fold (body_text m l). assert (H3 : beq (body_text m l) (b_ "*/") = false).
  { apply beq_neq. intro E. apply beq_neq in H2. apply H2. rewrite <- (body_text_trim m l), E. reflexivity. }
  rewrite H3. cbn [negb]. assert (H4 : beq (b_ "   " ++ body_text m l) (b_ "*/") = false) by (apply beq_neq; discriminate).
  rewrite H4. reflexivity.
Qed.
Lemma comment_blank m l : trim l = [] -> comment_line [] m false l = b_ "   ".
Proof. intro H. unfold comment_line. rewrite H. reflexivity. Qed.
Lemma comment_end m l : trim l = b_ "*/" -> comment_line [] m false l = b_ "*/".
Proof. intro H. unfold comment_line. rewrite H. reflexivity. Qed.
Lemma placed_ordinary k m l : ordinary l -> placed_line k (b_ "   " ++ body_text m l) = repeat sp (k + 3) ++ body_text m l.
Proof.
  intros [H _]. unfold placed_line. rewrite trim_pad3, body_text_trim. apply beq_neq in H. rewrite H.
  rewrite repeat_app, <- app_assoc. reflexivity.
Qed.
Lemma body_text_nonempty m l : ordinary l -> body_text m l <> [].
Proof. intros [H _] E. apply H. rewrite <- (body_text_trim m l), E. reflexivity. Qed.

Lemma classify l : trim l = [] \/ trim l = b_ "*/" \/ ordinary l.
Proof.
  destruct (beq (trim l) []) eqn:E1; [apply beq_eq in E1; auto|].
  destruct (beq (trim l) (b_ "*/")) eqn:E2; [apply beq_eq in E2; auto|].
  apply beq_neq in E1. apply beq_neq in E2. right. right. split; assumption.
Qed.

Section Idem.
Variable k : nat.
Variable ls : list bytes.
Hypothesis HO : forall l, In l ls -> ~ odd_blank l.
Let m := cmin ls.
Let ls' := map (fun l => placed_line k (comment_line [] m false l)) ls.

Lemma ordinary_indent l : ordinary l -> exists n, compute_indent l = Some n.
Proof.
  intros [H1 H2]. unfold compute_indent. apply beq_neq in H2. rewrite H2. apply indent_some_iff.
  assert (E : exists c, In c l /\ is_space c = false).
  { destruct (existsb (fun c => negb (is_space c)) l) eqn:E.
    - apply existsb_exists in E. destruct E as (c & Hc & E). exists c. split; [exact Hc|]. apply negb_true_iff. exact E.
    - exfalso. apply H1. apply trim_nil. apply forallb_forall. intros c Hc. destruct (is_space c) eqn:Es; [reflexivity|].
      assert (E' : existsb (fun c => negb (is_space c)) l = true) by (apply existsb_exists; exists c; rewrite Es; auto). congruence. }
  destruct E as (c & Hc & E). exists c. split; [exact Hc|]. split; intros ->; discriminate.
Qed.

Lemma placed_indent l : In l ls -> compute_indent (placed_line k (comment_line [] m false l)) =
  if beq (trim l) [] then None else if beq (trim l) (b_ "*/") then None else indent_from (k + 3) (body_text m l).
Proof.
  intro Hl. unfold compute_indent. rewrite trim_placed, trim_comment_line.
  destruct (classify l) as [E|[E|E]].
  - rewrite E. change (beq [] []) with true. cbn iota. rewrite (comment_blank m l E). unfold placed_line. destruct (beq _ _); reflexivity.
  - rewrite E. reflexivity.
  - rewrite (comment_ordinary m l E), (placed_ordinary k m l E). destruct E as [E1 E2].
    apply beq_neq in E1. apply beq_neq in E2. rewrite E1, E2. rewrite indent_spaces. f_equal. lia.
Qed.

Lemma cmin_placed l : In l ls -> ordinary l -> cmin ls' = k + 3.
Proof.
  intros Hl HOl. destruct (ordinary_indent l HOl) as [n En].
  destruct (min_indent_le ls l n Hl En) as (m0 & Em0 & _).
  assert (Em : m = m0) by (unfold m, cmin; rewrite Em0; reflexivity).
  destruct (min_indent_in _ _ Em0) as (l0 & Hl0 & E0).
  assert (O0 : ordinary l0).
  { destruct (classify l0) as [E|[E|E]]; [| |exact E].
    - exfalso. apply (HO l0 Hl0). split; [exact E|]. unfold compute_indent in E0. rewrite E in E0. change (beq [] (b_ "*/")) with false in E0. cbn iota in E0.
      apply (indent_some_iff l0 0). eauto.
    - unfold compute_indent in E0. rewrite E in E0. discriminate. }
  assert (C0 : compute_indent (placed_line k (comment_line [] m false l0)) = Some (k + 3)).
  { rewrite (placed_indent l0 Hl0). destruct O0 as [O1 O2]. pose proof O1 as O1'. pose proof O2 as O2'.
    apply beq_neq in O1. apply beq_neq in O2. rewrite O1, O2.
    unfold compute_indent in E0. rewrite O2 in E0. rewrite <- Em in E0.
    destruct (unindent_exact _ _ _ E0) as (c & u & Eu & N1 & N2).
    assert (Eb : exists u', body_text m l0 = c :: u').
    { pose proof (body_text_nonempty m l0 (conj O1' O2')) as NE. unfold body_text, unindent in *. rewrite Eu in *. rewrite trim_right_cons in *.
      destruct (trim_right u); [destruct (is_space c); [congruence|]|]; eauto. }
    destruct Eb as [u' ->]. cbn. destruct (Ascii.eqb_spec c sp); [congruence|]. destruct (Ascii.eqb_spec c tab); [congruence|]. reflexivity. }
  destruct (min_indent_le ls' _ _ (in_map _ _ _ Hl0) C0) as (m1 & E1 & L1).
  destruct (min_indent_in _ _ E1) as (x & Hx & Ex). apply in_map_iff in Hx. destruct Hx as (y & <- & Hy).
  rewrite (placed_indent y Hy) in Ex. destruct (beq (trim y) []); [discriminate|]. destruct (beq (trim y) _); [discriminate|].
  apply indent_ge in Ex. unfold cmin. rewrite E1. lia.
Qed.

Lemma comment_line_again l : In l ls ->
  comment_line [] (cmin ls') false (placed_line k (comment_line [] m false l)) = comment_line [] m false l.
Proof.
  intro Hl. destruct (classify l) as [E|[E|E]].
  - rewrite (comment_blank m l E). apply comment_blank. reflexivity.
  - rewrite (comment_end m l E). apply comment_end. rewrite trim_placed. reflexivity.
  - rewrite (cmin_placed l Hl E). rewrite (comment_ordinary m l E), (placed_ordinary k m l E).
    assert (EO : ordinary (repeat sp (k + 3) ++ body_text m l)).
    { unfold ordinary. rewrite trim_spaces_app by apply repeat_space. rewrite body_text_trim. exact E. }
    rewrite (comment_ordinary _ _ EO). f_equal. unfold body_text at 1, unindent.
    replace (k + 3) with (k + 3 + 0) at 1 by lia. rewrite unindent_spaces by (apply body_text_nonempty; exact E). apply trim_right_idem.
Qed.
End Idem.

Lemma comment_line_no_nl p m l : ~ In nl l -> ~ In nl (comment_line p m false l).
Proof.
  intros H HI. apply H. clear H. unfold comment_line in HI.
  set (l1 := if _ || _ || _ then _ else _) in HI.
  assert (H1 : In nl l1 -> In nl l).
  { subst l1. destruct (_ || _ || _).
    - intro X. destruct (in_dec ascii_dec nl l) as [Y|N]; [exact Y|]. destruct (trim_no_nl _ N X).
    - intro X. apply trim_right_in in X. unfold unindent in X. revert X. generalize 0 at 1 as n. clear. induction l as [|c r IH]; intros n; cbn [unindent_from]; [intros []|].
      destruct (n =? m); [auto|]. destruct (m <? n).
      + intro HI. apply in_app_or in HI. destruct HI as [HI|HI]; [apply repeat_spec in HI; discriminate|exact HI].
      + destruct (Ascii.eqb c sp); [intro; right; eauto|]. destruct (Ascii.eqb c tab); [intro; right; eauto|auto]. }
  set (l2 := if negb false && _ then _ else _) in HI.
  assert (H2 : In nl l2 -> In nl l).
  { subst l2. destruct (negb false && _); [|exact H1]. destruct (_ =? 0); intro X; apply H1.
    - apply in_app_or in X. destruct X as [X|X]; [vm_compute in X; intuition discriminate|exact X].
    - destruct X as [X|X]; [discriminate|exact X]. }
  destruct (beq l2 _ && _); [|auto]. destruct HI as [HI|HI]; [discriminate|auto].
Qed.
Lemma placed_no_nl k l : ~ In nl l -> ~ In nl (placed_line k l).
Proof.
  intros H HI. unfold placed_line in HI. destruct (beq _ _); [destruct HI|]. apply in_app_or in HI.
  destruct HI as [HI|HI]; [apply repeat_spec in HI; discriminate|tauto].
Qed.

Lemma comment_lines_again k t : one_block t -> (forall l, In l (split_on nl t) -> ~ odd_blank l) ->
  comment_lines (written_comment k t) = comment_lines t.
Proof.
  intros (b & -> & H) HO. destruct (existsb (Ascii.eqb nl) b) eqn:En.
  - destruct (split_on nl b) as [|b1 bs] eqn:E; [destruct (split_on_nonempty nl b E)|].
    assert (Hbs : forall l, In l bs -> ~ odd_blank l).
    { intros l Hl. apply HO. destruct (split_open b) as (b1' & bs' & E1 & ->). rewrite E in E1. injection E1 as <- <-. right. exact Hl. }
    assert (Hnn : forall l, In l (b1 :: bs) -> ~ In nl l) by (intros l Hl; rewrite <- E in Hl; exact (split_on_sep_free _ _ _ Hl)).
    rewrite (written_form k _ _ _ E En). set (g := fun l => placed_line k (comment_line (cprefix bs) (cmin bs) false l)).
    set (b' := join_with nl (trim_right b1 :: map g bs)).
    assert (E' : split_on nl b' = trim_right b1 :: map g bs).
    { apply split_join; [discriminate|]. intros w [<-|Hw].
      - intro X. apply trim_right_in in X. exact (Hnn b1 (or_introl eq_refl) X).
      - apply in_map_iff in Hw. destruct Hw as (l & <- & Hl). apply placed_no_nl, comment_line_no_nl, Hnn. right. exact Hl. }
    assert (NE : bs <> []).
    { intros ->. pose proof (join_split nl b) as J. rewrite E in J. cbn in J. subst b1. apply Hnn with b; [left; reflexivity|].
      apply existsb_exists in En. destruct En as (x & Hx & Ex). apply Ascii.eqb_eq in Ex. subst x. exact Hx. }
    assert (En' : existsb (Ascii.eqb nl) b' = true).
    { apply existsb_exists. exists nl. split; [|apply Ascii.eqb_refl]. subst b'. destruct bs as [|b2 bs]; [congruence|].
      cbn [map]. change (join_with nl (?x :: ?y :: ?z)) with (x ++ nl :: join_with nl (y :: z)). apply in_or_app. right. left. reflexivity. }
    rewrite (comment_lines_form _ _ _ E' En'), (comment_lines_form _ _ _ E En).
    rewrite trim_right_idem. f_equal.
    assert (EP : cprefix (map g bs) = cprefix bs).
    { apply shared_prefix_trim. rewrite map_map. apply map_ext. intro l. unfold g. rewrite trim_placed. apply trim_comment_line. }
    rewrite EP, map_map. apply map_ext_in. intros l Hl. unfold g at 2.
    destruct (cprefix bs) as [|c p] eqn:Ep.
    + change (map g bs) with (map (fun l => placed_line k (comment_line [] (cmin bs) false l)) bs).
      apply (comment_line_again k bs Hbs l Hl).
    + apply comment_line_prefix; [discriminate|]. rewrite trim_placed. apply trim_comment_line.
  - rewrite (written_single k _ En). unfold comment_lines. rewrite !multiline_open, En.
    assert (En2 : existsb (Ascii.eqb nl) (trim_right b) = false).
    { apply existsb_nl. apply existsb_nl in En. intro X. apply En. exact (trim_right_in _ _ X). }
    rewrite En2, !trim_open, trim_right_idem. reflexivity.
Qed.

(* ---------- columns ---------- *)
Lemma split_loop_concat dec : forall fs cur sizes prev, List.concat (split_loop dec cur sizes prev fs) = cur ++ fs.
Proof.
  induction fs as [|f r IH]; intros cur sizes prev; cbn [split_loop].
  - reflexivity.
  - destruct (_ && dec sizes (seg_size f)).
    + cbn [List.concat]. rewrite IH. reflexivity.
    + rewrite IH, <- app_assoc. reflexivity.
Qed.
Lemma split_loop_nonempty dec : forall fs cur sizes prev,
  List.length sizes <= List.length cur -> cur ++ fs <> [] -> forall g, In g (split_loop dec cur sizes prev fs) -> g <> [].
Proof.
  induction fs as [|f r IH]; intros cur sizes prev HL HN g; cbn [split_loop].
  - intros [<-|[]]. rewrite app_nil_r in HN. exact HN.
  - destruct (_ && dec sizes (seg_size f)) eqn:E.
    + intros [<-|HI].
      * intros ->. cbn in HL. destruct sizes; [|cbn in HL; lia]. cbn in E. rewrite andb_false_r in E. discriminate.
      * apply (IH _ _ _) in HI; [exact HI| |discriminate]. destruct (0 <? seg_size f); cbn; lia.
    + intro HI. apply (IH _ _ _) in HI; [exact HI| |].
      * rewrite app_length. cbn [List.length]. destruct (0 <? seg_size f); rewrite ?app_length; cbn [List.length]; lia.
      * destruct cur; discriminate.
Qed.

Lemma col_ge sel fs f : In f fs -> List.length (sel f) <= col sel fs.
Proof.
  induction fs as [|x fs IH]; [intros []|]. unfold col in *. cbn [fold_right]. intros [->|H]; [lia|]. apply IH in H. lia.
Qed.
Lemma pad_some c s : List.length s <= c -> pad_to c s = Some (repeat sp (c + padding s - List.length s)).
Proof. intro H. unfold pad_to. destruct (Nat.ltb_spec (c + padding s) (List.length s)); [lia|reflexivity]. Qed.
Lemma padding_one s : s <> [] -> padding s = 1.
Proof. destruct s; [congruence|reflexivity]. Qed.

Lemma drop_space_fields f : ctx (drop_space f) = ctx f /\ typeName (drop_space f) = typeName f /\ fieldName (drop_space f) = fieldName f
  /\ equalsTag (drop_space f) = equalsTag f /\ (lineEnd (drop_space f) = lineEnd f \/ lineEnd f = sp :: lineEnd (drop_space f)).
Proof.
  unfold drop_space. destruct (lineEnd f) as [|c r] eqn:E; [rewrite E; tauto|].
  destruct (Ascii.eqb_spec c sp) as [->|N]; cbn; [tauto|]. rewrite E. tauto.
Qed.

Lemma write_field_ok ct cf ce f : List.length (typeName f) <= ct -> List.length (fieldName f) <= cf -> List.length (equalsTag f) <= ce ->
  exists line, write_field ct cf ce (drop_space f) = Some line /\ aligned_line (ct + 1) (cf + 1) (ce + 1) f line.
Proof.
  intros H1 H2 H3. destruct (drop_space_fields f) as (Ec & Et & Ef & Ee & El).
  unfold write_field. rewrite Ec, Et, Ef, Ee, !pad_some by assumption. cbn [opt_app].
  destruct (starts_semicolon (lineEnd (drop_space f))) eqn:Es.
  - eexists. split; [reflexivity|].
    exists (ct + padding (typeName f) - List.length (typeName f)), (cf + padding (fieldName f) - List.length (fieldName f)), 0, (lineEnd (drop_space f)).
    split; [rewrite <- !app_assoc; reflexivity|]. split; [exact El|]. split; [|split].
    + intro N. rewrite (padding_one _ N). lia.
    + intro N. rewrite (padding_one _ N). lia.
    + intros _. right. split; [reflexivity|]. destruct (lineEnd (drop_space f)) as [|c r]; [discriminate|]. cbn in Es. apply Ascii.eqb_eq in Es. subst c. eauto.
  - eexists. split; [reflexivity|].
    exists (ct + padding (typeName f) - List.length (typeName f)), (cf + padding (fieldName f) - List.length (fieldName f)),
      (ce + padding (equalsTag f) - List.length (equalsTag f)), (lineEnd (drop_space f)).
    split; [rewrite <- !app_assoc; reflexivity|]. split; [exact El|]. split; [|split].
    + intro N. rewrite (padding_one _ N). lia.
    + intro N. rewrite (padding_one _ N). lia.
    + intro N. left. rewrite (padding_one _ N). lia.
Qed.

Lemma col_drop (sel : segfield -> bytes) fs : (forall f, sel (drop_space f) = sel f) -> col sel (map drop_space fs) = col sel fs.
Proof. intro H. induction fs as [|f fs IH]; [reflexivity|]. unfold col in *. cbn. rewrite H, IH. reflexivity. Qed.

Lemma write_fields_ok ct cf ce fs :
  (forall f, In f fs -> List.length (typeName f) <= ct /\ List.length (fieldName f) <= cf /\ List.length (equalsTag f) <= ce) ->
  exists lines, fold_right (fun f a => opt_app (write_field ct cf ce f) a) (Some []) (map drop_space fs) = Some (List.concat lines)
    /\ Forall2 (aligned_line (ct + 1) (cf + 1) (ce + 1)) fs lines.
Proof.
  induction fs as [|f fs IH]; intro H; cbn [map fold_right].
  - exists []. split; constructor.
  - destruct IH as (lines & E & HF); [intros; apply H; right; assumption|].
    destruct (H f (or_introl eq_refl)) as (H1 & H2 & H3).
    destruct (write_field_ok ct cf ce f H1 H2 H3) as (line & El & HA).
    exists (line :: lines). rewrite El, E. split; [reflexivity|constructor; assumption].
Qed.

Lemma write_block_ok fs : exists lines, write_block fs = Some (List.concat lines)
  /\ Forall2 (aligned_line (col typeName fs + 1) (col fieldName fs + 1) (col equalsTag fs + 1)) fs lines.
Proof.
  unfold write_block.
  rewrite !col_drop by (intro f; destruct (drop_space_fields f) as (_ & ? & ? & ? & _); assumption).
  apply write_fields_ok. intros f Hf. repeat split; apply col_ge; exact Hf.
Qed.

Lemma write_blocks_ok : forall gs, exists liness,
  fold_right (fun b a => opt_app (write_block b) a) (Some []) gs = Some (List.concat (List.concat liness))
  /\ Forall2 (fun g lines => exists ct cf ce, Forall2 (aligned_line ct cf ce) g lines) gs liness.
Proof.
  induction gs as [|g gs IH]; cbn [fold_right].
  - exists []. split; constructor.
  - destruct IH as (ll & E & HF). destruct (write_block_ok g) as (lines & El & HA).
    exists (lines :: ll). rewrite El, E. split; [cbn; rewrite concat_app; reflexivity|]. constructor; eauto.
Qed.

(* ---------- imports ---------- *)
Lemma dedupe_in prev l i : In i (dedupe prev l) -> In i l.
Proof.
  revert prev. induction l as [|x l IH]; intros prev; cbn; [auto|].
  destruct prev as [p|]; [destruct (_ && _); [intro; right; eauto|]|]; intros [->|H]; eauto.
Qed.
Lemma dedupe_names : forall l prev n, In n (map iname l) -> prev = Some n \/ In n (map iname (dedupe prev l)).
Proof.
  induction l as [|x l IH]; intros prev n; [intros []|]. cbn [map dedupe].
  intro H. assert (HT : n = iname x \/ In n (map iname (dedupe (Some (iname x)) l))).
  { destruct H as [<-|H]; [left; reflexivity|]. destruct (IH (Some (iname x)) n H) as [E|E]; [injection E as ->; auto|auto]. }
  destruct prev as [p|].
  - destruct (beq (iname x) p && negb (icommented x)) eqn:E.
    + apply andb_prop in E. destruct E as [E _]. apply beq_eq in E. subst p. destruct HT as [->|HT]; auto.
    + right. cbn. destruct HT as [->|HT]; auto.
  - right. cbn. destruct HT as [->|HT]; auto.
Qed.
Lemma dedupe_sorted (R : import -> import -> Prop) : forall l prev, StronglySorted R l -> StronglySorted R (dedupe prev l).
Proof.
  induction l as [|x l IH]; intros prev H; cbn; [constructor|]. apply StronglySorted_inv in H. destruct H as [H HF].
  assert (HC : StronglySorted R (x :: dedupe (Some (iname x)) l)).
  { constructor; [apply IH; exact H|]. apply Forall_forall. intros y Hy. apply dedupe_in in Hy. exact (proj1 (Forall_forall _ _) HF y Hy). }
  destruct prev; [destruct (_ && _)|]; auto.
Qed.
Lemma dedupe_commented : forall l prev i, In i l -> icommented i = true -> In i (dedupe prev l).
Proof.
  induction l as [|x l IH]; intros prev i; [intros []|]. intros [->|H] Hc; cbn.
  - destruct prev; [rewrite Hc, andb_false_r|]; left; reflexivity.
  - destruct prev; [destruct (_ && _)|]; cbn; auto.
Qed.
Lemma dedupe_uncommented : forall l p i, StronglySorted import_le l ->
  Forall (fun y => blt p (iname y) = true \/ p = iname y) l -> In i (dedupe (Some p) l) -> icommented i = false -> iname i <> p.
Proof.
  induction l as [|x l IH]; intros p i HS HP; [intros []|]. apply StronglySorted_inv in HS. destruct HS as [HS HF].
  intros HI Hc E. cbn in HI.
  assert (Hx : blt p (iname x) = true \/ p = iname x) by (inversion HP; assumption).
  assert (HR : In i (dedupe (Some (iname x)) l) -> False).
  { intro H. assert (N : iname i <> iname x).
    { apply (IH (iname x) i HS); [|exact H|exact Hc]. apply Forall_forall. intros y Hy.
      destruct (proj1 (Forall_forall _ _) HF y Hy) as [B|[B _]]; auto. }
    apply dedupe_in in H. destruct (proj1 (Forall_forall _ _) HF i H) as [B|[B _]]; [|congruence].
    destruct Hx as [B2|B2]; [|congruence]. rewrite E in B. pose proof (blt_trans _ _ _ B B2) as B3. rewrite blt_irrefl in B3. discriminate. }
  destruct (beq (iname x) p && negb (icommented x)) eqn:Eb; [auto|].
  destruct HI as [->|HI]; [|auto]. rewrite E, beq_refl, Hc in Eb. discriminate.
Qed.
Lemma dedupe_first : forall l prev i, StronglySorted import_le l -> In i (dedupe prev l) -> icommented i = false ->
  forall j, In j l -> iname j = iname i -> import_order j <= import_order i.
Proof.
  induction l as [|x l IH]; intros prev i HS HI Hc; [intros j []|]. apply StronglySorted_inv in HS. destruct HS as [HS HF].
  assert (HM : i = x \/ In i (dedupe (Some (iname x)) l)).
  { cbn in HI. destruct prev as [p|]; [destruct (beq (iname x) p && negb (icommented x))|]; [auto| |]; destruct HI; auto. }
  intros j Hj E. destruct HM as [->|HM].
  - destruct Hj as [<-|Hj]; [apply Nat.le_refl|]. destruct (proj1 (Forall_forall _ _) HF j Hj) as [B|[_ B]]; [rewrite E, blt_irrefl in B; discriminate|exact B].
  - destruct Hj as [<-|Hj]; [|exact (IH _ _ HS HM Hc j Hj E)]. exfalso.
    refine (dedupe_uncommented l (iname x) i HS _ HM Hc (eq_sym E)). apply Forall_forall. intros y Hy.
    destruct (proj1 (Forall_forall _ _) HF y Hy) as [B|[B _]]; auto.
Qed.
Lemma dedupe_nodup : forall l prev, StronglySorted import_le l -> (forall i, In i l -> icommented i = false) ->
  NoDup (map iname (dedupe prev l)).
Proof.
  induction l as [|x l IH]; intros prev HS HC; [constructor|]. apply StronglySorted_inv in HS. destruct HS as [HS HF].
  assert (HC' : forall i, In i l -> icommented i = false) by (intros; apply HC; right; assumption).
  assert (HN : NoDup (iname x :: map iname (dedupe (Some (iname x)) l))).
  { constructor; [|apply IH; assumption]. intro HI. apply in_map_iff in HI. destruct HI as (i & E & HI).
    refine (dedupe_uncommented l (iname x) i HS _ HI (HC' i (dedupe_in _ _ _ HI)) E). apply Forall_forall. intros y Hy.
    destruct (proj1 (Forall_forall _ _) HF y Hy) as [B|[B _]]; auto. }
  cbn. destruct prev as [p|]; [destruct (beq (iname x) p && negb (icommented x)); [apply IH; assumption|]|]; exact HN.
Qed.
Lemma dedupe_distinct : forall l prev, NoDup (map iname l) -> (forall p, prev = Some p -> ~ In p (map iname l)) -> dedupe prev l = l.
Proof.
  induction l as [|x l IH]; intros prev HN HP; [reflexivity|]. cbn [map] in HN. inversion HN as [|? ? N1 N2]. subst.
  cbn. rewrite IH; [|exact N2|intros p E; injection E as <-; exact N1].
  destruct prev as [p|]; [|reflexivity]. destruct (beq (iname x) p) eqn:E; [|reflexivity].
  apply beq_eq in E. destruct (HP p eq_refl). left. exact E.
Qed.

(* ---------- insertion sort ---------- *)
Section Ins.
Variable A : Type.
Variable less : A -> A -> bool.
Variable le : A -> A -> Prop.
Hypothesis less_le : forall a b, less a b = true -> le a b.
Hypothesis not_less : forall a b, less a b = false -> le b a.
Hypothesis le_trans : forall a b c, le a b -> le b c -> le a c.
Let ge a b := le b a.
Lemma insert_left_perm x l : Permutation (insert_left less x l) (x :: l).
Proof.
  induction l as [|y l IH]; [reflexivity|]. cbn. destruct (less x y); [|reflexivity].
  rewrite IH. constructor.
Qed.
Lemma insert_left_sorted x l : StronglySorted ge l -> StronglySorted ge (insert_left less x l).
Proof.
  induction l as [|y l IH]; intro H; [repeat constructor|]. cbn. pose proof H as H0. apply StronglySorted_inv in H. destruct H as [H HF].
  destruct (less x y) eqn:E.
  - constructor; [apply IH; exact H|]. apply Forall_forall. intros z Hz.
    apply (Permutation_in _ (insert_left_perm x l)) in Hz. destruct Hz as [<-|Hz]; [apply less_le; exact E|exact (proj1 (Forall_forall _ _) HF z Hz)].
  - constructor; [exact H0|]. constructor; [apply not_less; exact E|]. apply Forall_forall. intros z Hz.
    unfold ge. apply le_trans with y; [exact (proj1 (Forall_forall _ _) HF z Hz)|apply not_less; exact E].
Qed.
Lemma fold_insert_perm l : forall acc, Permutation (fold_left (fun acc x => insert_left less x acc) l acc) (l ++ acc).
Proof.
  induction l as [|x l IH]; intro acc; [reflexivity|]. cbn. rewrite IH, insert_left_perm. symmetry. apply Permutation_middle.
Qed.
Lemma fold_insert_sorted l : forall acc, StronglySorted ge acc -> StronglySorted ge (fold_left (fun acc x => insert_left less x acc) l acc).
Proof. induction l as [|x l IH]; intros acc H; [exact H|]. cbn. apply IH, insert_left_sorted, H. Qed.
Lemma rev_sorted l : StronglySorted ge l -> StronglySorted le (rev l).
Proof.
  induction l as [|x l IH]; intro H; [constructor|]. apply StronglySorted_inv in H. destruct H as [H HF]. cbn.
  specialize (IH H). apply Forall_rev in HF. induction (rev l) as [|y r IHr]; [repeat constructor|].
  cbn. apply StronglySorted_inv in IH. destruct IH as [IH HFr]. inversion HF. subst. constructor; [apply IHr; assumption|].
  apply Forall_app. split; [exact HFr|]. repeat constructor. assumption.
Qed.
Lemma insertion_sort_perm l : Permutation (insertion_sort less l) l.
Proof. unfold insertion_sort. rewrite <- Permutation_rev, fold_insert_perm, app_nil_r. reflexivity. Qed.
Lemma insertion_sort_sorted l : StronglySorted le (insertion_sort less l).
Proof. apply rev_sorted, fold_insert_sorted. constructor. Qed.
End Ins.

Section Stable.
Variable A : Type.
Variable less : A -> A -> bool.
Variable p : A -> bool.
Hypothesis same : forall a b, p a = true -> p b = true -> less a b = false.
Lemma insert_left_filter x l : filter p (insert_left less x l) = if p x then x :: filter p l else filter p l.
Proof.
  induction l as [|y l IH]; cbn; [reflexivity|]. destruct (less x y) eqn:E.
  - cbn. rewrite IH. destruct (p x) eqn:Ex, (p y) eqn:Ey; try reflexivity. rewrite (same _ _ Ex Ey) in E. discriminate.
  - cbn. destruct (p x), (p y); reflexivity.
Qed.
Lemma fold_insert_filter l : forall acc, filter p (fold_left (fun acc x => insert_left less x acc) l acc) = rev (filter p l) ++ filter p acc.
Proof.
  induction l as [|x l IH]; intro acc; [reflexivity|]. cbn. rewrite IH, insert_left_filter.
  destruct (p x); [|reflexivity]. cbn. rewrite <- app_assoc. reflexivity.
Qed.
Lemma filter_rev l : filter p (rev l) = rev (filter p l).
Proof. induction l as [|x l IH]; [reflexivity|]. cbn. rewrite filter_app, IH. cbn. destruct (p x); cbn; [reflexivity|apply app_nil_r]. Qed.
Lemma insertion_sort_stable l : filter p (insertion_sort less l) = filter p l.
Proof. unfold insertion_sort. rewrite filter_rev, fold_insert_filter. cbn. rewrite app_nil_r. apply rev_involutive. Qed.
End Stable.

Lemma blt_asym a b : blt a b = true -> blt b a = false.
Proof. intro H. destruct (blt b a) eqn:E; [|reflexivity]. pose proof (blt_trans _ _ _ H E). rewrite blt_irrefl in *. discriminate. Qed.
Lemma blt_none a b : blt a b = false -> blt b a = false -> a = b.
Proof. intros H1 H2. destruct (blt_total a b) as [E|[E|E]]; [exact E|congruence|congruence]. Qed.
Lemma import_less_le a b : import_less a b = true -> import_le a b.
Proof.
  unfold import_less, import_le. destruct (blt (iname a) (iname b)) eqn:E1; [auto|].
  destruct (blt (iname b) (iname a)) eqn:E2; [discriminate|]. pose proof (blt_none _ _ E1 E2).
  destruct (Nat.ltb_spec (import_order b) (import_order a)); [intros _; right; split; [assumption|lia]|].
  destruct (Nat.ltb_spec (import_order a) (import_order b)); [discriminate|]. intros _. right. split; [assumption|lia].
Qed.
Lemma import_not_less a b : import_less a b = false -> import_le b a.
Proof.
  unfold import_less, import_le. destruct (blt (iname a) (iname b)) eqn:E1; [discriminate|].
  destruct (blt (iname b) (iname a)) eqn:E2; [auto|]. pose proof (blt_none _ _ E1 E2).
  destruct (Nat.ltb_spec (import_order b) (import_order a)); [discriminate|].
  intros _. right. split; [congruence|lia].
Qed.
Lemma import_le_trans a b c : import_le a b -> import_le b c -> import_le a c.
Proof.
  unfold import_le. intros [H1|[E1 H1]] [H2|[E2 H2]].
  - left. exact (blt_trans _ _ _ H1 H2).
  - left. rewrite <- E2. exact H1.
  - left. rewrite E1. exact H2.
  - right. split; [congruence|lia].
Qed.

Definition fopt_less (a b : fopt) : bool := option_less (fst a) (fst b).
Lemma option_less_le a b : fopt_less a b = true -> option_le a b.
Proof.
  unfold fopt_less, option_less, option_le. destruct (custom (fst a)), (custom (fst b)); cbn; intro H; try discriminate; auto.
Qed.
Lemma option_not_less a b : fopt_less a b = false -> option_le b a.
Proof.
  unfold fopt_less, option_less, option_le. destruct (custom (fst a)), (custom (fst b)); cbn; intro H; try discriminate; auto.
  - right. split; [reflexivity|]. destruct (blt_total (fst b) (fst a)) as [E|[E|E]]; [auto|auto|congruence].
  - right. split; [reflexivity|]. destruct (blt_total (fst b) (fst a)) as [E|[E|E]]; [auto|auto|congruence].
Qed.
Lemma option_le_trans a b c : option_le a b -> option_le b c -> option_le a c.
Proof.
  unfold option_le. intros [[A1 A2]|[A1 A2]] [[B1 B2]|[B1 B2]].
  - congruence.
  - left. split; congruence.
  - left. split; congruence.
  - right. split; [congruence|]. destruct A2 as [A2|A2], B2 as [B2|B2].
    + left. exact (blt_trans _ _ _ A2 B2).
    + left. rewrite <- B2. exact A2.
    + left. rewrite A2. exact B2.
    + right. congruence.
Qed.
Lemma fopt_same n a b : beq (fst a) n = true -> beq (fst b) n = true -> fopt_less a b = false.
Proof.
  intros H1 H2. apply beq_eq in H1. apply beq_eq in H2. unfold fopt_less, option_less. rewrite H1, H2.
  destruct (custom n); cbn; apply blt_irrefl.
Qed.
