From Coq Require Import Ascii String Lia DecimalString DecimalNat.
From Verif Require Import Base Strs.
From Verif.Hover Require Model Proofs.
From Verif.Format Require Import Model Spec.
From Verif.FormatTree Require Import CommentSpec Comments Model Spec Lexing Proofs Words.
From Verif.Rewrite Require Import Model Spec.
Import ListNotations.
Open Scope list_scope.

(** ** Indentation *)
Definition sim (s s' : lst) : Prop :=
  match s with SBlock a _ => exists w, s' = SBlock a w | _ => s' = s end.
Definition sound (s : lst) : Prop := match s with SStr _ _ _ | SErr => False | _ => True end.
Lemma sim_refl s : sim s s. Proof. destruct s; cbn; eauto. Qed.
Lemma lrun_err x : lrun SErr x = (SErr, []).
Proof. induction x as [|c x IH]; [reflexivity|]. cbn [lrun lstep]. now rewrite IH. Qed.
Lemma lrun_cons s c r : lrun s (c :: r) = (fst (lrun (fst (lstep s c)) r), snd (lstep s c) ++ snd (lrun (fst (lstep s c)) r)).
Proof. cbn [lrun]. destruct (lstep s c) as [s1 l1]. cbn [fst snd]. now destruct (lrun s1 r). Qed.
Lemma str_nl : forall x q e w, In nl w -> sound (fst (lrun (SStr q e w) x)) -> exists v, In v (wds (snd (lrun (SStr q e w) x))) /\ In nl v.
Proof.
  induction x as [|c x IH]; intros q e w I S; [destruct S|]. rewrite lrun_cons in *. cbn [fst snd] in *. rewrite wds_app. cbn [lstep] in *.
  destruct e; cbn [fst snd] in *.
  - destruct (IH q false (w ++ [c]) (in_or_app _ _ _ (or_introl I)) S) as (v & V & N). exists v. split; [apply in_or_app; now right|exact N].
  - destruct (Ascii.eqb c q); cbn [fst snd] in *.
    + exists (w ++ [c]). split; [now left|apply in_or_app; now left].
    + destruct (Ascii.eqb c nl); cbn [fst snd] in *; [rewrite lrun_err in S; destruct S|].
      destruct (IH q (Ascii.eqb c backslash) (w ++ [c]) (in_or_app _ _ _ (or_introl I)) S) as (v & V & N). exists v. split; [exact V|exact N].
Qed.
Lemma hanging_nl col r : hanging col (nl :: r) = nl :: repeat sp col ++ hanging col r. Proof. reflexivity. Qed.
Lemma spaces_S0 n r : lrun S0 (repeat sp n ++ r) = lrun S0 r.
Proof. induction n as [|n IH]; [reflexivity|]. cbn [repeat app]. rewrite lrun_cons. change (lstep S0 sp) with (S0, @nil lexeme). cbn [fst snd]. cbn [app]. rewrite IH. now destruct (lrun S0 r). Qed.
Lemma spaces_block n r w : exists w', lrun (SBlock false w) (repeat sp n ++ r) = lrun (SBlock false w') r.
Proof.
  revert w. induction n as [|n IH]; intro w; [now exists w|]. cbn [repeat app]. destruct (IH (w ++ [sp])) as (w' & E). exists w'. rewrite lrun_cons. cbn [lstep andb]. change (Ascii.eqb sp star) with false.
  cbn [fst snd]. cbn [app]. rewrite E. now destruct (lrun (SBlock false w') r).
Qed.
Lemma nl_step s : match s with SBlock _ _ | SStr _ _ _ | SErr => True | _ => fst (lstep s nl) = S0 end.
Proof. destruct s; try exact I; reflexivity. Qed.
Lemma lrun_split s c r s1 l1 : lstep s c = (s1, l1) -> lrun s (c :: r) = (fst (lrun s1 r), l1 ++ snd (lrun s1 r)).
Proof. intro E. rewrite lrun_cons, E. reflexivity. Qed.
Lemma hanging_lrun col : forall x s s', sim s s' -> sound (fst (lrun s x)) -> (forall w, In w (wds (snd (lrun s x))) -> ~ In nl w) ->
  sim (fst (lrun s x)) (fst (lrun s' (hanging col x))) /\ wds (snd (lrun s' (hanging col x))) = wds (snd (lrun s x)).
Proof.
  induction x as [|c x IH]; intros s s' M S W; [split; [exact M|reflexivity]|]. cbn [hanging].
  destruct (lstep s c) as [s1 l1] eqn:L1. destruct (lstep s' c) as [s2 l2] eqn:L2.
  assert (M1 : sim s1 s2 /\ wds l1 = wds l2).
  { destruct s as [|w|w| | |q e w|w|a w|]; cbn [sim] in M; try (subst s'; rewrite L1 in L2; injection L2 as <- <-; split; [apply sim_refl|reflexivity]).
    destruct M as (w' & ->). cbn [lstep] in L1, L2. destruct (a && Ascii.eqb c slash); injection L1 as <- <-; injection L2 as <- <-; cbn; eauto. }
  destruct M1 as [M1 EL]. rewrite (lrun_split _ _ _ _ _ L1) in *. cbn [fst snd] in *. rewrite wds_app in *.
  assert (W2 : forall w, In w (wds (snd (lrun s1 x))) -> ~ In nl w) by (intros w I; apply W; apply in_or_app; now right).
  destruct (Ascii.eqb c nl) eqn:E.
  2:{ rewrite (lrun_split _ _ _ _ _ L2). cbn [fst snd]. rewrite wds_app, <- EL. destruct (IH _ _ M1 S W2) as [A B]. split; [exact A|now rewrite B]. }
  apply Ascii.eqb_eq in E. subst c. rewrite (lrun_split _ _ _ _ _ L2). cbn [fst snd]. rewrite wds_app, <- EL.
  assert (Z : s1 = S0 \/ (exists w, s1 = SBlock false w) \/ ~ (sound (fst (lrun s1 x)) /\ forall w, In w (wds (snd (lrun s1 x))) -> ~ In nl w)).
  { destruct s as [|w|w| | |q e w|w|a w|]; cbn [lstep] in L1;
      try (left; vm_compute in L1; injection L1 as <- _; reflexivity).
    - destruct e; [|destruct (Ascii.eqb nl q) eqn:Q; [injection L1 as <- _; now left|]].
      + injection L1 as <- _. right; right. intros [A B]. destruct (str_nl x q false (w ++ [nl])) as (v & V & N); [apply in_or_app; right; now left|exact A|exact (B v V N)].
      + cbn in L1. injection L1 as <- _. right; right. intros [A _]. now rewrite lrun_err in A.
    - cbn in L1. rewrite andb_false_r in L1. injection L1 as <- _. right; left. eauto.
    - injection L1 as <- _. right; right. intros [A _]. now rewrite lrun_err in A. }
  destruct Z as [->|[(w & ->)|Z]].
  - cbn [sim] in M1. subst s2. rewrite spaces_S0. destruct (IH _ _ (sim_refl S0) S W2) as [A B]. split; [exact A|now rewrite B].
  - destruct M1 as (w' & ->). destruct (spaces_block col (hanging col x) w') as (w2 & E2). rewrite E2.
    destruct (IH (SBlock false w) (SBlock false w2)) as [A B]; [cbn; eauto|exact S|exact W2|]. split; [exact A|now rewrite B].
  - destruct Z. split; [exact S|exact W2].
Qed.
(** ** The text of a message *)
Create HintDb fmt.
#[local] Hint Resolve any_apart z_apart aid_apart sp_apart : fmt.
Definition cut (t : token) (sm : option token) (b : bool) : M :=
  (if b then lead_inline t else multiline_comments false (t_lead t) ;; write_indent (closes t)) ;;
  write_tok t ;;
  (if nonempty (t_trail t) then trailing_from true (t_trail t)
   else match virtual_trail sm with Some cs => space ;; trailing_from true cs | None => skip end).
Lemma body_end_cut t sm b f : body_end t sm b f = set_prev (is_open_brace t) (p_blank (cut t sm b f)).
Proof. unfold body_end, cut, seq, trailing_end_comments, seq. destruct b, (nonempty (t_trail t)); try reflexivity; now destruct (virtual_trail sm). Qed.
Lemma body_cut o c sm elems f : type_body o c sm elems f = set_prev (is_open_brace c) (p_blank (body o c sm elems open_prefix cut f)).
Proof. unfold type_body, body. destruct elems; [|destruct (interior_comments [o; c])]; unfold seq; now rewrite body_end_cut. Qed.
Lemma out_blank f : out (p_blank f) = out f ++ [nl].
Proof.
  unfold p_blank, p_line, seq, settle, write_string. change (nonempty (trim [])) with false. unfold when, skip.
  assert (B : blocked_next (inl f) [nl] = true) by now destruct (inl f). rewrite B, andb_false_r. cbn [pindent indent out app].
  destruct (0 <? pindent f)%Z; [reflexivity|]. destruct (pindent f <? 0)%Z; [|reflexivity]. unfold shift_out. cbn [indent]. now destruct (indent f).
Qed.
Lemma tf_blocks : forall cs first, Forall (fun c => one_block (c_text c)) cs -> H false (trailing_from first cs) Z [] Z.
Proof.
  induction cs as [|c r IH]; intros first F; [apply H_skip|]. inversion F; subst. cbn [trailing_from].
  apply (H_seq false _ _ Z [] Z [] Z); [destruct (has_nl (c_ws c)); [now apply H_p_blank|apply H_when0; now apply H_space_keep]|].
  apply (H_seq false _ _ Z [] Z [] Z); [apply H_write_block; [split; discriminate|assumption]|now apply IH].
Qed.
Lemma tf_any : forall cs first k, comments_ok cs -> k = Z \/ k = Cm /\ match cs with c :: _ => has_nl (c_ws c) = true | [] => True end -> H false (trailing_from first cs) k [] Cm.
Proof.
  induction cs as [|c r IH]; intros first k K C.
  { destruct C as [->|[-> _]]; [eapply H_post; [apply H_skip|reflexivity]|apply H_skip]. }
  cbn [trailing_from]. destruct K as (O & K & N).
  apply (H_seq false _ _ k [] Z [] Cm).
  { destruct (has_nl (c_ws c)) eqn:Hn; [apply H_p_blank; destruct C as [->|[-> _]]; discriminate|]. destruct C as [->|[_ C]]; [apply H_when0; now apply H_space_keep|congruence]. }
  destruct O as [O|O].
  - apply (H_seq false _ _ Z [] Z [] Cm); [apply H_write_block; [split; discriminate|exact O]|]. apply IH; [exact K|now left].
  - apply (H_seq false _ _ Z [] Cm [] Cm); [apply (H_write_comment false Z c); [split; discriminate|now right]|]. apply IH; [exact K|]. right. split; [reflexivity|]. destruct r as [|d r]; [exact I|]. apply N. destruct O as (b & -> & Nn & _). exists b. auto.
Qed.
Definition blocks (c : token) (sm : option token) : Prop := Forall (fun c => one_block (c_text c)) (t_trail c ++ match sm with Some s => t_trail s | None => [] end).
Lemma cut_write c sm b k kc : runet "}" c -> semi_ok sm -> apart_cls k -> kc = Cm \/ kc = Z /\ blocks c sm -> H false (cut c sm b) k [wtext c] kc.
Proof.
  intros Rc Rs A C. unfold cut. pose proof (rune_coms _ _ Rc) as Kc. pose proof (orune_coms _ _ Rs) as Ks.
  apply (H_seq false _ _ k [] k [wtext c] kc); [exact (H_body_lead false c k b Kc A)|]. change [wtext c] with ([wtext c] ++ []).
  apply (H_seq false _ _ k [wtext c] Z [] kc); [exact (H_rune false k "}" c A eq_refl Rc)|].
    assert (G : forall cs, comments_ok cs -> (kc = Z -> Forall (fun c => one_block (c_text c)) cs) -> H false (trailing_from true cs) Z [] kc).
    { intros cs K F. destruct C as [->|[-> _]]; [apply tf_any; [exact K|now left]|apply tf_blocks; now apply F]. }
    assert (B : kc = Z -> blocks c sm) by (destruct C as [->|[_ B]]; [discriminate|now intros _]).
    destruct (nonempty (t_trail c)); [apply G; [apply Kc|intro E; exact (proj1 (proj1 (Forall_app _ _ _) (B E)))]|].
    destruct (virtual_trail sm) as [cs|] eqn:V; [|destruct C as [->|[-> _]]; [eapply H_post; [apply H_skip|reflexivity]|apply H_skip]].
    apply (H_seq false _ _ Z [] Z [] kc); [now apply H_space_keep|]. apply G; [exact (virtual_ok _ _ Ks V)|]. intro E. specialize (B E). apply Forall_app in B as [_ B]. destruct sm as [s|]; [|discriminate]. cbn in V. destruct (t_virtual s); [|discriminate]. now injection V as <-.
Qed.
Lemma trim_front_lrun s : lrun S0 (Hover.Model.trim_front s) = lrun S0 s.
Proof. destruct s as [|c r]; [reflexivity|]. cbn [Hover.Model.trim_front]. destruct (Ascii.eqb c Hover.Model.nl) eqn:E; [|reflexivity]. apply Ascii.eqb_eq in E. subst c. rewrite lrun_cons. change (lstep S0 Hover.Model.nl) with (S0, @nil lexeme). cbn [fst snd]. now destruct (lrun S0 r). Qed.
Lemma trim_back_nl s : Hover.Model.trim_back (s ++ [nl]) = s.
Proof. unfold Hover.Model.trim_back. rewrite rev_app_distr. cbn [rev app]. change (Ascii.eqb nl Hover.Model.nl) with true. cbv iota. apply rev_involutive. Qed.
Lemma message_text dec kw n o b c sm kc : decl_ok (DMessage kw n o b c sm) -> kc = Cm \/ kc = Z /\ blocks c sm ->
  exists w, sp_decls b w /\ let r := lrun S0 (Hover.Model.print_node dec (DMessage kw n o b c sm)) in
    wds (snd r) = wtext kw :: wtext n :: wtext o :: w ++ [wtext c] /\ match kc with Z => fst r = S0 | _ => fst r = S0 \/ exists v, fst r = SLine v end.
Proof.
  intros (Tk & Tn & Ro & Rc & Rs & Ob) C. apply all_forall in Ob.
  assert (F : Forall (DP dec) b) by (apply Forall_forall; intros d _; apply decl_all).
  destruct (columns_body dec b F Ob) as (w & S & h). exists w. split; [exact S|].
  assert (B : H false (start_tok false kw ;; space ;; inline_tok n ;; space ;; body o c sm (some_if b (columns dec (map (fun d => decl_elem dec (write_decl dec d) d) b))) open_prefix cut) Z (wtext kw :: wtext n :: wtext o :: w ++ [wtext c]) kc).
  { eapply H_eq; [eapply H_seq; [apply H_kw; [now left|exact Tk]|]; apply H_spaced; [auto with fmt|]; eapply H_seq; [apply HI_idS; [now right|exact Tn]|]; apply H_spaced; [auto with fmt|];
      apply (H_body false Sp Z Z kc o c sm _ w open_prefix cut "{" "}"); auto with fmt; try exact (orune_coms _ _ Rs)|reflexivity].
    - exact (H_open_prefix false o Sp _ Z (H_rune false Sp "{" o sp_apart eq_refl Ro) (rune_coms _ _ Ro) sp_apart z_apart).
    - intros q kx Kx. now apply cut_write. }
  set (m := start_tok false kw ;; space ;; inline_tok n ;; space ;; body o c sm (some_if b (columns dec (map (fun d => decl_elem dec (write_decl dec d) d) b))) open_prefix cut) in *.
  assert (E : out (write_decl dec (DMessage kw n o b c sm) start) = out (m start) ++ [nl]).
  { rewrite <- out_blank. cbn [write_decl]. unfold m, seq at 1 2 3 4. rewrite body_cut. reflexivity. }
  unfold Hover.Model.print_node. rewrite E, trim_back_nl, trim_front_lrun. destruct (B start eq_refl eq_refl) as (I & W & _). unfold words, st, lx in *. cbv zeta.
  assert (K : fst (lrun S0 (out (m start))) = S0 \/ exists v, fst (lrun S0 (out (m start))) = SLine v) by (destruct C as [->|[-> _]]; [exact I|left; exact I]).
  split; [|destruct C as [->|[-> _]]; exact I]. rewrite wds_app in W. assert (Fl : wds (flush (fst (lrun S0 (out (m start))))) = []) by (destruct K as [->|(v & ->)]; reflexivity).
  rewrite Fl, app_nil_r in W. exact W.
Qed.
(** ** A text in its surroundings *)
Lemma first_line s : ~ In nl (hd [] (split_on nl s)) /\ (s = hd [] (split_on nl s) \/ exists r, s = hd [] (split_on nl s) ++ nl :: r).
Proof.
  induction s as [|c s [N IH]]; [split; [intros []|now left]|]. cbn [split_on]. destruct (Ascii.eqb c nl) eqn:E.
  - apply Ascii.eqb_eq in E. subst c. split; [intros []|]. right. now exists s.
  - destruct (split_on nl s) as [|l ls] eqn:S; [now destruct (split_on_nonempty nl s)|]. cbn [hd] in *. split.
    + intros [X|X]; [subst c; rewrite Ascii.eqb_refl in E; discriminate|exact (N X)].
    + destruct IH as [->|(r & ->)]; [now left|]. right. now exists r.
Qed.
Lemma first_line_app s x : hd [] (split_on nl (s ++ nl :: x)) = hd [] (split_on nl s).
Proof.
  induction s as [|c s IH]; [reflexivity|]. cbn [app split_on]. destruct (Ascii.eqb c nl); [reflexivity|].
  destruct (split_on nl s) as [|l ls] eqn:S; [now destruct (split_on_nonempty nl s)|]. destruct (split_on nl (s ++ nl :: x)) as [|l' ls'] eqn:S'; [now destruct (split_on_nonempty nl (s ++ nl :: x))|]. cbn [hd] in *. now subst.
Qed.
Definition ends (s : lst) : Prop := match s with SStr _ _ _ | SBlock _ _ | SErr => False | _ => True end.
Lemma quiet_run l : words_of l = [] -> complete l -> (fst (lrun S0 l) = S0 \/ exists v, fst (lrun S0 l) = SLine v) /\ wds (snd (lrun S0 l)) = [].
Proof.
  unfold words_of, lexemes, complete. rewrite wds_app. intros W C. apply app_eq_nil in W as [W1 W2]. split; [|exact W1]. destruct (fst (lrun S0 l)); try discriminate W2; try destruct C; [now left|right; eauto].
Qed.
Lemma line_rest v rest : quiet_line rest -> wds (snd (lrun (SLine v) rest) ++ flush (fst (lrun (SLine v) rest))) = words_of rest /\ (complete rest -> ends (fst (lrun (SLine v) rest))).
Proof.
  intros [W C]. destruct (first_line rest) as [N E]. set (l := hd [] (split_on nl rest)) in *. clearbody l. destruct (quiet_run l W C) as [K Wl]. unfold words_of, lexemes, complete. destruct E as [->|(r & ->)].
  - rewrite lrun_line by exact N. cbn [fst snd flush app]. rewrite wds_app, Wl. split; [|intros _; exact I]. destruct K as [->|(u & ->)]; reflexivity.
  - rewrite !lrun_app, !lrun_cons, lrun_line by exact N. cbn [fst snd].
    assert (L : lstep (SLine (v ++ l)) nl = (S0, [LC (v ++ l)])) by reflexivity. rewrite L. cbn [fst snd].
    assert (L2 : fst (lstep (fst (lrun S0 l)) nl) = S0 /\ wds (snd (lstep (fst (lrun S0 l)) nl)) = []) by (destruct K as [->|(u & ->)]; split; reflexivity).
    destruct L2 as [L2 L3]. rewrite L2. split; [|now intro X]. rewrite !wds_app, Wl, L3. reflexivity.
Qed.
Definition no_nl (ws : list bytes) : Prop := forall w, In w ws -> ~ In nl w.
Lemma separator_no_nl w : separator w = true -> ~ In nl w.
Proof. unfold separator. intros E I. apply existsb_exists in E as (x & J & E). apply beq_eq in E. subst x. repeat destruct J as [<-|J]; try destruct J; cbn in I; destruct I as [X|[]]; discriminate X. Qed.
Lemma words_no_nl d ws : sp_decl d ws -> decl_ok d -> single_lined d -> no_nl ws.
Proof.
  intros S O L w I N. destruct (separator w) eqn:E; [exact (separator_no_nl w E N)|].
  assert (C : In w (core ws)) by (apply filter_In; split; [exact I|now rewrite E]). rewrite (proj1 core_decl_all d ws S O) in C. unfold wt, core in C. apply filter_In in C as [C _].
  apply in_map_iff in C as (t & <- & J). exact (L t J N).
Qed.
Lemma spliced dec col bef rest kw n o b c sm : let d := DMessage kw n o b c sm in
  decl_ok d -> single_lined d -> fst (lrun S0 bef) = S0 -> blocks c sm \/ quiet_line rest ->
  exists w, sp_decls b w /\
    words_of (bef ++ hanging col (Hover.Model.print_node dec d) ++ rest) = words_of bef ++ (wtext kw :: wtext n :: wtext o :: w ++ [wtext c]) ++ words_of rest /\
    (complete rest -> complete (bef ++ hanging col (Hover.Model.print_node dec d) ++ rest)).
Proof.
  intros d O L B Q. assert (C0 : exists kc, (kc = Cm \/ kc = Z /\ blocks c sm) /\ (kc = Z \/ quiet_line rest)) by (destruct Q; [exists Z|exists Cm]; auto).
  destruct C0 as (kc & C & Q').
  destruct (message_text dec kw n o b c sm kc O C) as (w & S & W & K). fold d in W, K. set (P := Hover.Model.print_node dec d) in *. exists w. split; [exact S|].
  assert (K' : fst (lrun S0 P) = S0 \/ exists v, fst (lrun S0 P) = SLine v) by (destruct C as [E|[E _]]; rewrite E in K; auto).
  assert (N : no_nl (wds (snd (lrun S0 P)))). { rewrite W. apply (words_no_nl d); auto. apply sp_message; [exact S|now left]. }
  destruct (hanging_lrun col P S0 S0 eq_refl) as [M E]; [destruct K' as [->|(v & ->)]; exact I|exact N|].
  assert (F : fst (lrun S0 (hanging col P)) = fst (lrun S0 P)) by (destruct K' as [X|(v & X)]; rewrite X in *; exact M).
  assert (R : wds (snd (lrun (fst (lrun S0 P)) rest) ++ flush (fst (lrun (fst (lrun S0 P)) rest))) = words_of rest /\ (complete rest -> ends (fst (lrun (fst (lrun S0 P)) rest)))).
  { destruct K' as [X|(v & X)]; rewrite X; [split; [reflexivity|now intro Y]|]. apply line_rest. destruct Q' as [->|Q']; [congruence|exact Q']. }
  destruct R as [R1 R2]. unfold words_of at 1 2, lexemes, complete. rewrite (lrun_app bef), B, (lrun_app (hanging col P)), F. cbn [fst snd]. split; [|exact R2].
  rewrite <- R1, !wds_app, E, W. cbn [flush wds flat_map]. rewrite app_nil_r. now rewrite <- !app_assoc.
Qed.
(** ** Numbers and names *)
Lemma uint_digits u : forallb digit (b_ (NilEmpty.string_of_uint u)) = true.
Proof. induction u; cbn [NilEmpty.string_of_uint]; [reflexivity|..]; unfold b_ in *; cbn [list_ascii_of_string forallb]; rewrite IHu; reflexivity. Qed.
Lemma uint_value u : forall a, fold_left (fun a c => 10 * a + (nat_of_ascii c - 48)) (b_ (NilEmpty.string_of_uint u)) a = Nat.of_uint_acc u a.
Proof.
  induction u; intro a; cbn [NilEmpty.string_of_uint]; [reflexivity|..]; unfold b_ in *; cbn [list_ascii_of_string fold_left Nat.of_uint_acc]; rewrite IHu, Nat.tail_mul_spec; f_equal;
    match goal with |- context [nat_of_ascii ?c] => let v := eval vm_compute in (nat_of_ascii c) in change (nat_of_ascii c) with v end; lia.
Qed.
Lemma decimal_numeral n : numeral (decimal n) n.
Proof.
  unfold numeral, decimal. split; [|split; [apply uint_digits|]].
  - destruct n as [|n]; [discriminate|]. intro E. assert (X : digits_value (b_ (NilEmpty.string_of_uint (Nat.to_uint (S n)))) = 0) by now rewrite E.
    unfold digits_value in X. rewrite uint_value in X. change (Nat.of_uint_acc ?u 0) with (Nat.of_uint u) in X. rewrite DecimalNat.Unsigned.of_to in X. discriminate.
  - unfold digits_value. rewrite uint_value. apply DecimalNat.Unsigned.of_to.
Qed.
Lemma digits_lrun : forall s w, forallb digit s = true -> lrun (SNum w) s = (SNum (w ++ s), []).
Proof.
  induction s as [|c s IH]; intros w D; [now rewrite app_nil_r|]. cbn [forallb] in D. apply andb_true_iff in D as [Dc Ds]. rewrite lrun_cons. cbn [lstep]. unfold numchar, idchar. rewrite Dc, orb_true_r. cbn [orb fst snd].
  rewrite IH by exact Ds. cbn [fst snd app]. now rewrite <- app_assoc.
Qed.
Lemma digit_start c : digit c = true -> lstart c = (SNum [c], []).
Proof. intro D. destruct c as [[] [] [] [] [] [] [] []]; try discriminate D; reflexivity. Qed.
Lemma numeral_num s n t : t_kind t = KNum -> t_lead t = [] -> t_trail t = [] -> t_text t = s -> numeral s n -> numt t.
Proof.
  intros K L T E (N & D & _). subst s. split; [exact K|]. split; [unfold coms_ok; rewrite L, T; split; exact I|]. split; [exact N|]. destruct (t_text t) as [|c r]; [now destruct N|].
  cbn [forallb] in D. apply andb_true_iff in D as [Dc Dr]. rewrite lrun_cons. cbn [lstep]. rewrite (digit_start c Dc). cbn [fst snd]. rewrite digits_lrun by exact Dr. reflexivity.
Qed.
Lemma tag_ok n : value_ok (tag n). Proof. right. left. apply (numeral_num (decimal n) n); try reflexivity. apply decimal_numeral. Qed.
Lemma tag_number n : is_number (tag n) n. Proof. exists (made KNum (decimal n)). repeat (split; [reflexivity|]). apply decimal_numeral. Qed.
Lemma digits_no_nl s : forallb digit s = true -> ~ In nl s.
Proof. intros D I. rewrite forallb_forall in D. specialize (D nl I). discriminate. Qed.
Lemma name_no_nl s : name s -> ~ In nl s.
Proof. intros (c & r & -> & L & D) [I|I]; [subst c; discriminate|]. rewrite forallb_forall in D. specialize (D nl I). discriminate. Qed.
Lemma made_coms k s : coms_ok (made k s). Proof. split; exact I. Qed.
Lemma word_idt s : name s -> idt (word s). Proof. intros (c & r & -> & L & D). split; [reflexivity|]. split; [apply made_coms|]. exists c, r. auto. Qed.
Lemma punct_rune s c : In c (b_ s) -> runet s (punct c). Proof. intro I. split; [reflexivity|]. split; [apply made_coms|]. exists c. auto. Qed.
(** ** Bodies *)
Definition lined (t : token) : Prop := ~ In nl (wtext t).
Definition okd (d : decl) : Prop := decl_ok d /\ Forall lined (decl_toks d).
Lemma single_forall d : single_lined d <-> Forall lined (decl_toks d). Proof. unfold single_lined. rewrite Forall_forall. reflexivity. Qed.
Lemma okd_body kw n o b c sm : decl_ok (DMessage kw n o b c sm) -> single_lined (DMessage kw n o b c sm) -> Forall okd b.
Proof.
  intros (_ & _ & _ & _ & _ & Ob) L. apply all_forall in Ob. apply single_forall in L. cbn [decl_toks] in L. inversion L as [|? ? _ L1]; subst. inversion L1 as [|? ? _ L2]; subst. inversion L2 as [|? ? _ L3]; subst. apply Forall_app in L3 as [L3 _].
  rewrite Forall_forall in *. intros d I. split; [now apply Ob|]. apply Forall_forall. intros t J. apply L3. apply in_flat_map. eauto.
Qed.
Lemma okd_with kw n o b c sm b' : decl_ok (DMessage kw n o b c sm) -> single_lined (DMessage kw n o b c sm) -> Forall okd b' ->
  decl_ok (DMessage (bare kw) n o b' c sm) /\ single_lined (DMessage (bare kw) n o b' c sm).
Proof.
  intros (Tk & Tn & Ro & Rc & Rs & _) L F. split.
  - split; [destruct Tk as (K & _ & X); split; [exact K|split; [apply made_coms|exact X]]|]. do 4 (split; [assumption|]). apply all_forall. revert F. apply Forall_impl. now intros d [X _].
  - apply single_forall in L. apply single_forall. cbn [decl_toks] in *. inversion L as [|? ? X1 L1]; subst. inversion L1 as [|? ? X2 L2]; subst. inversion L2 as [|? ? X3 L3]; subst. apply Forall_app in L3 as [_ L3].
    constructor; [exact X1|]. constructor; [exact X2|]. constructor; [exact X3|]. apply Forall_app. split; [|exact L3]. apply Forall_forall. intros t J. apply in_flat_map in J as (d & I & J). rewrite Forall_forall in F. destruct (F d I) as [_ X]. rewrite Forall_forall in X. now apply X.
Qed.
Lemma tag_lined n : Forall lined (value_toks (tag n)).
Proof. constructor; [|constructor]. unfold lined. cbn. apply digits_no_nl. apply (decimal_numeral n). Qed.
Lemma okd_field l ty ty' n e tg k os sm : okd (DField l ty n e tg os sm) -> ident_ok ty' -> type_kept l ty' -> Forall lined (ident_toks ty') -> okd (DField l ty' n e (Some (tag k)) os sm).
Proof.
  intros [(Ol & _ & _ & On & Oe & _ & Oc & Os) L] Oi Ok Li. split.
  - do 3 (split; [assumption|]). split; [exact On|]. split; [exact Oe|]. split; [exists (tag k); split; [reflexivity|apply tag_ok]|]. split; assumption.
  - cbn [decl_toks] in *. rewrite !Forall_app in *. destruct L as (L1 & _ & L3 & L4 & _ & L6 & L7). split; [exact L1|]. split; [exact Li|]. split; [exact L3|]. split; [exact L4|]. split; [apply tag_lined|]. split; assumption.
Qed.
Lemma okd_type l ty n e tg os sm : okd (DField l ty n e tg os sm) -> ident_ok ty /\ type_kept l ty /\ Forall lined (ident_toks ty).
Proof. intros [(Ol & O1 & O2 & _) L]. split; [exact O1|]. split; [exact O2|]. cbn [decl_toks] in L. rewrite !Forall_app in L. apply L. Qed.
Lemma renumber_okd : forall b n, Forall okd b -> Forall okd (renumber n b).
Proof.
  induction b as [|d r IH]; intros n F; [constructor|]. inversion F; subst. destruct d; cbn [renumber]; constructor; auto.
  match goal with H : okd _ |- _ => destruct (okd_type _ _ _ _ _ _ _ H) as (A & B & C); eapply okd_field; eauto end.
Qed.
Lemma renumber_spec : forall b n, renumbered n b (renumber n b).
Proof. induction b as [|d r IH]; intro n; [constructor|]. destruct d; cbn [renumber]; try (apply rn_other; [reflexivity|apply IH]). apply rn_field; [apply tag_number|apply IH]. Qed.
Lemma dotted_name_ok : forall r p, name p -> Forall name r -> dotted (dotted_name (p :: r)) /\ Forall lined (dotted_name (p :: r)) /\ map wtext (dotted_name (p :: r)) = dots (p :: r).
Proof.
  induction r as [|q r IH]; intros p P F.
  - split; [apply dot_one; now apply word_idt|]. split; [|reflexivity]. constructor; [now apply name_no_nl|constructor].
  - inversion F; subst. destruct (IH q) as (A & B & C); [assumption|assumption|]. change (dotted_name (p :: q :: r)) with (word p :: punct "." :: dotted_name (q :: r)). split; [apply dot_more; [now apply word_idt|apply punct_rune; now left|exact A]|].
    split; [constructor; [now apply name_no_nl|]; constructor; [intros [X|[]]; discriminate|exact B]|]. cbn [map]. rewrite C. reflexivity.
Qed.
Lemma type_name_ok l p r : name p -> Forall name r -> ident_ok (type_name (p :: r)) /\ type_kept l (type_name (p :: r)) /\ Forall lined (ident_toks (type_name (p :: r))) /\ ident_ws (type_name (p :: r)) = dots (p :: r).
Proof.
  intros P F. destruct (dotted_name_ok r p P F) as (A & B & C). unfold ident_ws. destruct r as [|q r].
  - cbn. split; [now apply word_idt|]. split; [intros _; reflexivity|]. split; [exact B|reflexivity].
  - cbn [type_name ident_toks]. split; [left; exact A|]. split; [intros _; reflexivity|]. split; [exact B|exact C].
Qed.
Lemma new_field_okd proto2 p r nm n : name p -> Forall name r -> name nm -> okd (new_field proto2 (p :: r) nm n).
Proof.
  intros P F N. destruct (type_name_ok (if proto2 then Some (word (b_ "optional")) else None) p r P F) as (A & B & C & _). unfold new_field. split.
  - split; [destruct proto2; [apply word_idt; eexists _, _; repeat split; reflexivity|exact I]|]. split; [exact A|]. split; [exact B|]. split; [exists (word nm); split; [reflexivity|now apply word_idt]|].
    split; [eexists; split; [reflexivity|apply punct_rune; now left]|]. split; [eexists; split; [reflexivity|apply tag_ok]|]. split; [exact I|]. eexists; split; [reflexivity|apply punct_rune; now left].
  - cbn [decl_toks opt_toks]. rewrite !Forall_app. split; [destruct proto2; repeat constructor; intros X; cbn in X; repeat destruct X as [X|X]; try discriminate; exact X|]. split; [exact C|].
    split; [constructor; [now apply name_no_nl|constructor]|]. split; [constructor; [intros [X|[]]; discriminate|constructor]|]. split; [apply tag_lined|]. split; [constructor|]. constructor; [intros [X|[]]; discriminate|constructor].
Qed.
Lemma new_field_words proto2 p r nm n w : name p -> Forall name r -> sp_decl (new_field proto2 (p :: r) nm n) w -> exists num, numeral num n /\ w = field_words proto2 (p :: r) nm num.
Proof.
  intros P F S. destruct (type_name_ok None p r P F) as (_ & _ & _ & E). unfold new_field in S. revert S E. generalize (type_name (p :: r)). intros t S E. inversion S as [l ty n0 e tg os sm w1 w2 S1 S2| | | | | | | | | | | | | ]; subst. cbn in S1, S2. subst w2. inversion S1; subst.
  exists (decimal n). split; [apply decimal_numeral|]. rewrite E. unfold field_words. destruct proto2; reflexivity.
Qed.
Lemma sp_decls_app : forall a b w, sp_decls (a ++ b) w -> exists wa wb, w = wa ++ wb /\ sp_decls a wa /\ sp_decls b wb.
Proof.
  induction a as [|d a IH]; intros b w S; [exists [], w; split; [reflexivity|split; [constructor|exact S]]|]. cbn [app] in S. inversion S as [|d0 r0 w1 ws S1 S2]; subst. destruct (IH b ws S2) as (wa & wb & -> & A & B).
  exists (w1 ++ wa), wb. split; [now rewrite app_assoc|]. split; [constructor; assumption|exact B].
Qed.
Lemma replace_none : forall b chosen, replace_chosen chosen [] b = filter (fun d => negb (chosen d)) b.
Proof. induction b as [|d r IH]; intro chosen; [reflexivity|]. cbn [replace_chosen filter]. destruct (chosen d); cbn [negb app]; [apply IH|now rewrite IH]. Qed.
Lemma replace_first : forall pre chosen new d post, Forall (fun d => chosen d = false) pre -> chosen d = true ->
  replace_chosen chosen new (pre ++ d :: post) = pre ++ new ++ filter (fun d => negb (chosen d)) post.
Proof. induction pre as [|x pre IH]; intros chosen new d post F C; cbn [app replace_chosen]; [now rewrite C, replace_none|]. inversion F as [|? ? X F']; subst. rewrite X. now rewrite IH. Qed.
Lemma inline_first : forall pre chosen new d post, Forall (fun d => chosen d = false) pre -> chosen d = true -> inline_at chosen new (pre ++ d :: post) = pre ++ new ++ post.
Proof. induction pre as [|x pre IH]; intros chosen new d post F C; cbn [app inline_at]; [now rewrite C|]. inversion F as [|? ? X F']; subst. rewrite X. now rewrite IH. Qed.
Definition retyped (retype : decl -> ident -> ident) (d : decl) (ty' : ident) : Prop := match d with DField _ ty _ _ _ _ _ => ty' = retype d ty | _ => False end.
Lemma extracted_spec retype : forall b n, Forall (fun d => is_field d = true) b -> moved (retyped retype) n b (extracted retype n b).
Proof. induction b as [|d r IH]; intros n F; [constructor|]. inversion F as [|? ? X F']; subst. destruct d; try discriminate X. cbn [extracted]. apply mv_field; [apply tag_number|reflexivity|now apply IH]. Qed.
Lemma extracted_okd retype : forall b n, Forall okd b -> Forall (type_fits retype) b -> Forall okd (extracted retype n b).
Proof.
  induction b as [|d r IH]; intros n F T; [constructor|]. inversion F as [|? ? X F']; inversion T as [|? ? Y T']; subst. destruct d; cbn [extracted]; try now apply IH. constructor; [|now apply IH].
  destruct (okd_type _ _ _ _ _ _ _ X) as (A & B & C). cbn [type_fits] in Y. destruct Y as [Y|(p & q & Y & P & Q)]; rewrite Y.
  - eapply okd_field; eauto.
  - destruct (type_name_ok label p q P Q) as (A' & B' & C' & _). eapply okd_field; eauto.
Qed.
Lemma new_message_okd nm fs : name nm -> Forall okd fs -> decl_ok (new_message nm fs) /\ single_lined (new_message nm fs).
Proof.
  intros N F. split.
  - split; [apply word_idt; eexists _, _; repeat split; reflexivity|]. split; [now apply word_idt|]. split; [apply punct_rune; now left|]. split; [apply punct_rune; now left|]. split; [apply punct_rune; now left|]. apply all_forall. revert F. apply Forall_impl. now intros d [X _].
  - apply single_forall. unfold new_message. cbn [decl_toks]. constructor; [intros X; cbn in X; repeat destruct X as [X|X]; try discriminate; exact X|]. constructor; [now apply name_no_nl|]. constructor; [intros [X|[]]; discriminate|]. apply Forall_app. split.
    + apply Forall_forall. intros t J. apply in_flat_map in J as (d & I & J). rewrite Forall_forall in F. destruct (F d I) as [_ X]. rewrite Forall_forall in X. now apply X.
    + repeat constructor; intros [X|[]]; discriminate.
Qed.
(** ** Comments *)
Lemma hanging_app col : forall a b, hanging col (a ++ b) = hanging col a ++ hanging col b.
Proof. induction a as [|c a IH]; intro b; [reflexivity|]. cbn [app hanging]. rewrite IH. destruct (Ascii.eqb c nl); cbn [app]; [now rewrite <- app_assoc|reflexivity]. Qed.
Lemma hanging_none col : forall a, ~ In nl a -> hanging col a = a.
Proof. induction a as [|c a IH]; intro N; [reflexivity|]. cbn [hanging]. destruct (Ascii.eqb c nl) eqn:E; [apply Ascii.eqb_eq in E; subst c; destruct N; now left|]. rewrite IH; [reflexivity|]. intro I. apply N. now right. Qed.
Lemma after_end_spaces n x : after_end (repeat sp n ++ x) = after_end x.
Proof. induction n as [|n IH]; [reflexivity|]. cbn [repeat app after_end]. change (Ascii.eqb sp star) with false. exact IH. Qed.
Lemma hp x b : has_prefix (x :: b) [slash] = Ascii.eqb slash x. Proof. cbn [has_prefix]. destruct b; apply andb_true_r. Qed.
Lemma hanging_end col : forall b, after_end b = Some [] -> after_end (hanging col b) = Some [].
Proof.
  induction b as [|c b IH]; intro E; [discriminate|]. cbn [after_end hanging] in *. destruct (Ascii.eqb c nl) eqn:En.
  - apply Ascii.eqb_eq in En. subst c. change (Ascii.eqb nl star) with false in E. cbn [andb] in E. cbn [after_end]. change (Ascii.eqb nl star) with false. cbn [andb]. rewrite after_end_spaces. exact (IH E).
  - cbn [after_end]. destruct (Ascii.eqb c star) eqn:Es; cbn [andb] in *; [|exact (IH E)]. destruct b as [|x b]; [discriminate|]. cbn [hanging] in *. destruct (Ascii.eqb x nl) eqn:Ex.
    + apply Ascii.eqb_eq in Ex. subst x. change (has_prefix (nl :: b) [slash]) with false in E. cbv iota in E. change (has_prefix (nl :: repeat sp col ++ hanging col b) [slash]) with false. cbv iota. exact (IH E).
    + rewrite hp in *. destruct (Ascii.eqb slash x); [|exact (IH E)]. cbn [tl] in *. injection E as ->. reflexivity.
Qed.
Lemma visible_spaces n : visible (repeat sp n) = []. Proof. induction n as [|n IH]; [reflexivity|exact IH]. Qed.
Lemma hanging_visible col : forall w, visible (hanging col w) = visible w.
Proof.
  induction w as [|c w IH]; [reflexivity|]. cbn [hanging]. destruct (Ascii.eqb c nl) eqn:E; [|unfold visible in *; cbn [filter]; now rewrite IH].
  apply Ascii.eqb_eq in E. subst c. change (visible (nl :: repeat sp col ++ hanging col w)) with (visible (repeat sp col ++ hanging col w)). change (visible (nl :: w)) with (visible w). rewrite <- IH. unfold visible. rewrite filter_app. fold (visible (repeat sp col)). now rewrite visible_spaces.
Qed.
Lemma hanging_comment col w : one_block w \/ one_line w -> (one_block (hanging col w) \/ one_line (hanging col w)) /\ content (hanging col w) = content w.
Proof.
  intros [O|O].
  - assert (W : one_block (hanging col w)). { destruct O as (b & -> & E). exists (hanging col b). split; [reflexivity|now apply hanging_end]. }
    split; [now left|]. apply content_block; auto. apply hanging_visible.
  - assert (E : hanging col w = w). { apply hanging_none. destruct O as (b & -> & N). intro I. apply in_app_or in I as [I|I]; [cbn in I; repeat destruct I as [I|I]; try discriminate; exact I|exact (N I)]. }
    rewrite E. split; [now right|reflexivity].
Qed.
Lemma comment_end w : one_block w \/ one_line w -> forall x, w <> x ++ [nl].
Proof.
  intros O x E. destruct O as [(b & -> & A)|(b & -> & N)].
  - assert (G : forall b y, after_end b = Some [] -> b <> y ++ [nl] /\ b <> []).
    { clear. induction b as [|c b IH]; intros y A; [discriminate|]. split; [|discriminate]. cbn [after_end] in A. intro E. destruct (Ascii.eqb c star && has_prefix b [slash]) eqn:P.
      - apply andb_true_iff in P as [_ P]. destruct b as [|x b]; [discriminate|]. cbn [tl] in A. injection A as ->. destruct y as [|y0 [|y1 [|]]]; cbn in E; try discriminate. injection E as _ ->. discriminate P.
      - destruct y as [|y0 y]; [cbn in E; injection E as _ ->; discriminate A|]. cbn in E. injection E as _ E. exact (proj1 (IH y A) E). }
    destruct (G b [] A) as [_ Nb]. destruct (exists_last Nb) as (y & c & ->). assert (L : last (b_ "/*" ++ y ++ [c]) zero = last (x ++ [nl]) zero) by (now rewrite E). rewrite app_assoc, !last_last in L. subst c. exact (proj1 (G _ y A) eq_refl).
  - assert (I : In nl (b_ "//" ++ b)) by (rewrite E; apply in_or_app; right; now left). apply in_app_or in I as [I|I]; [cbn in I; repeat destruct I as [I|I]; try discriminate; exact I|exact (N I)].
Qed.
Lemma shown_hanging t col P : shown t (P ++ [nl]) -> shown t (hanging col P).
Proof.
  intros (a & w & b & E & O & C). destruct b as [|x b] using rev_ind.
  - exfalso. rewrite app_nil_r in E. destruct w as [|y w] using rev_ind; [destruct O as [(z & X & _)|(z & X & _)]; discriminate X|]. rewrite app_assoc in E. apply app_inj_tail in E as [_ <-]. exact (comment_end _ O w eq_refl).
  - rewrite !app_assoc in E. apply app_inj_tail in E as [E _]. rewrite <- app_assoc in E. rewrite E, !hanging_app. destruct (hanging_comment col w O) as [O' C']. exists (hanging col a), (hanging col w), (hanging col b). split; [reflexivity|]. split; [exact O'|]. congruence.
Qed.
Lemma comments_app a b : comments (a ++ b) = comments a ++ comments b. Proof. apply flat_map_app. Qed.
Lemma in_comments c ts : In c (comments ts) <-> exists t, In t ts /\ In c (tok_comments t). Proof. apply in_flat_map. Qed.
Lemma field_comments c l ty n e tg os sm ty' v : In c (comments (decl_toks (DField l ty n e tg os sm))) ->
  In c (comments (decl_toks (DField l ty' n e (Some v) os sm))) \/ In c (comments (opt_toks value_toks tg)) \/ In c (comments (ident_toks ty)).
Proof. cbn [decl_toks]. rewrite !comments_app, !in_app_iff. tauto. Qed.
Lemma field_comments' c l ty n e tg os sm v : In c (comments (decl_toks (DField l ty n e tg os sm))) ->
  In c (comments (decl_toks (DField l ty n e (Some v) os sm))) \/ In c (comments (opt_toks value_toks tg)).
Proof. cbn [decl_toks]. rewrite !comments_app, !in_app_iff. tauto. Qed.
Lemma body_comments c b : In c (comments (flat_map decl_toks b)) <-> exists d, In d b /\ In c (comments (decl_toks d)).
Proof. induction b as [|x b IH]; cbn [flat_map]; [split; [intros []|now intros (d & [] & _)]|]. rewrite comments_app, in_app_iff, IH. split; [intros [X|(d & I & X)]; eauto using in_eq, in_cons|]. intros (d & [->|I] & X); eauto. Qed.
Lemma renumber_comments c : forall b n, In c (comments (flat_map decl_toks b)) -> In c (comments (flat_map decl_toks (renumber n b))) \/ In c (flat_map tag_comments b).
Proof.
  induction b as [|d r IH]; intros n I; [destruct I|]. cbn [flat_map] in I. rewrite comments_app in I. apply in_app_or in I as [I|I].
  - destruct d; try (left; cbn [renumber flat_map]; rewrite comments_app; apply in_or_app; now left).
    cbn [renumber flat_map]. rewrite comments_app. destruct (field_comments' c _ _ _ _ _ _ _ (Rewrite.Model.tag n) I) as [X|X]; [left; apply in_or_app; now left|right; apply in_or_app; now left].
  - destruct d; cbn [renumber flat_map]; rewrite comments_app; match goal with |- In _ (_ ++ comments (flat_map decl_toks (renumber ?m r))) \/ _ => destruct (IH m I) as [X|X] end; [left|right|left|right|left|right|left|right|left|right|left|right|left|right|left|right|left|right|left|right|left|right|left|right|left|right|left|right]; apply in_or_app; now right.
Qed.
Lemma renumber_lost c : forall b n, In c (flat_map (decl_lost true) (renumber n b)) -> In c (flat_map (decl_lost true) b).
Proof.
  induction b as [|d r IH]; intros n I; [destruct I|]. destruct d; cbn [renumber flat_map] in I |- *; apply in_app_or in I as [I|I]; apply in_or_app; try (now left); try (right; eapply IH; exact I).
  left. cbn [decl_lost Rewrite.Model.tag value_lost app] in *. apply in_or_app. now right.
Qed.
Lemma edit_comments dec col kw n o b c sm x : let d := DMessage kw n o b c sm in decl_ok d -> In x (inner_comments d) -> comment_ok x -> c_virtual x = false ->
  shown (c_text x) (hanging col (Hover.Model.print_node dec d)) \/ In x (flat_map (decl_lost true) b ++ semi_lost c sm).
Proof.
  intros d O I K V. destruct (Hover.Proofs.node_comments dec d x O) as [S|S]; [|exact K|exact V|left; now apply shown_hanging|now right].
  cbn [d decl_toks]. change (kw :: ?l) with ([kw] ++ l). rewrite comments_app. apply in_or_app. right. exact I.
Qed.
Lemma filter_split {A} (p : A -> bool) l x : In x l -> In x (filter p l) \/ In x (filter (fun y => negb (p y)) l).
Proof. intro I. destruct (p x) eqn:E; [left|right]; apply filter_In; (split; [exact I|]); [exact E|now rewrite E]. Qed.
Lemma in_flat {A B} (f : A -> list B) l x y : In x l -> In y (f x) -> In y (flat_map f l). Proof. intros. apply in_flat_map. eauto. Qed.
Lemma extracted_comments c retype : forall b n, Forall (fun d => is_field d = true) b -> In c (comments (flat_map decl_toks b)) ->
  In c (comments (flat_map decl_toks (extracted retype n b))) \/ In c (flat_map tag_comments b) \/ In c (flat_map type_comments b).
Proof.
  induction b as [|d r IH]; intros n F I; [destruct I|]. inversion F as [|? ? X F']; subst. destruct d as [l ty nm e tg os sm| | | | | | | | | | | | | ]; try discriminate X. cbn [flat_map extracted] in *. rewrite comments_app in *. rewrite !in_app_iff in *. destruct I as [I|I].
  - destruct (field_comments c _ _ _ _ _ _ _ (retype (DField l ty nm e tg os sm) ty) (tag n) I) as [Y|[Y|Y]]; cbn [tag_comments type_comments]; auto.
  - destruct (IH (S n) F' I) as [Y|[Y|Y]]; auto.
Qed.
Lemma extracted_lost c retype : forall b n, In c (flat_map (decl_lost true) (extracted retype n b)) -> In c (flat_map (decl_lost true) b).
Proof.
  induction b as [|d r IH]; intros n I; [destruct I|]. destruct d; cbn [extracted flat_map] in I |- *; try (apply in_or_app; right; eapply IH; exact I).
  apply in_app_or in I as [I|I]; apply in_or_app; [left|right; eapply IH; exact I]. cbn [decl_lost Rewrite.Model.tag value_lost app] in *. apply in_or_app. now right.
Qed.
Lemma words_pieces a it r : fst (lrun S0 a) = S0 -> fst (lrun S0 it) = S0 -> words_of (a ++ it ++ r) = words_of a ++ words_of it ++ words_of r.
Proof. intros A B. unfold words_of, lexemes. rewrite (lrun_app a), A, (lrun_app it), B. cbn [fst snd flush]. rewrite !app_nil_r, !wds_app. now rewrite <- !app_assoc. Qed.
Lemma complete_pieces a it r : fst (lrun S0 a) = S0 -> fst (lrun S0 it) = S0 -> complete (a ++ it ++ r) -> complete r.
Proof. intros A B. unfold complete. rewrite (lrun_app a), A, (lrun_app it), B. auto. Qed.
Lemma inner_parts x kw n o b c sm : In x (inner_comments (DMessage kw n o b c sm)) <-> In x (comments [n; o]) \/ In x (comments (flat_map decl_toks b)) \/ In x (comments (c :: otoks sm)).
Proof. cbn [inner_comments]. change (n :: o :: flat_map decl_toks b ++ c :: otoks sm) with ([n; o] ++ flat_map decl_toks b ++ (c :: otoks sm)). rewrite comments_app, in_app_iff, (comments_app (flat_map decl_toks b)), in_app_iff. reflexivity. Qed.
Lemma new_fields_okd proto2 : forall fs, Forall field_named fs -> Forall okd (map (fun '(ty, nm, k) => new_field proto2 ty nm k) fs).
Proof. induction 1 as [|[[ty nm] k] r (T & F & N) _ IH]; [constructor|]. cbn [map]. constructor; [|exact IH]. destruct ty as [|p q]; [now destruct T|]. inversion F; subst. now apply new_field_okd. Qed.
Lemma new_fields_words proto2 : forall fs, Forall field_named fs -> forall w, sp_decls (map (fun '(ty, nm, k) => new_field proto2 ty nm k) fs) w -> fields_words proto2 fs w.
Proof.
  induction 1 as [|[[ty nm] k] r (T & F & N) _ IH]; intros w S; cbn [map] in S; inversion S as [|d0 r0 w1 ws S1 S2]; subst; [constructor|]. destruct ty as [|p q]; [now destruct T|]. inversion F; subst.
  destruct (new_field_words proto2 p q nm k w1) as (num & M & ->); [assumption|assumption|exact S1|]. constructor; [exact M|now apply IH].
Qed.
Lemma okd_filter p b : Forall okd b -> Forall okd (filter p b). Proof. intro F. apply incl_Forall with (l1 := b); [apply incl_filter|exact F]. Qed.
Lemma nl_after x : complete x -> fst (lrun S0 (x ++ [nl])) = S0.
Proof. unfold complete. rewrite lrun_app, lrun_cons. cbn [fst lrun]. intro C. pose proof (nl_step (fst (lrun S0 x))) as N. destruct (fst (lrun S0 x)); try destruct C; exact N. Qed.
Lemma words_nl x : complete x -> words_of (x ++ [nl]) = words_of x.
Proof.
  intro C. unfold words_of, lexemes. rewrite (nl_after x C), lrun_app, lrun_cons. cbn [fst snd lrun flush]. rewrite !app_nil_r, !wds_app. f_equal. unfold complete in C. destruct (fst (lrun S0 x)); try destruct C; reflexivity.
Qed.
Lemma words_spaces x k : fst (lrun S0 x) = S0 -> fst (lrun S0 (x ++ repeat sp k)) = S0 /\ words_of (x ++ repeat sp k) = words_of x.
Proof. intro E. unfold words_of, lexemes. rewrite lrun_app, E. pose proof (spaces_S0 k []) as S. rewrite app_nil_r in S. rewrite S. cbn [lrun fst snd flush]. split; [reflexivity|]. now rewrite !app_nil_r. Qed.
Lemma quiet_app tail x : quiet_line tail -> quiet_line (tail ++ nl :: x). Proof. unfold quiet_line. now rewrite first_line_app. Qed.
Lemma tail_words tail x : breaks tail x -> words_of (tail ++ x) = words_of tail ++ words_of x /\ (complete (tail ++ x) -> complete x).
Proof.
  intros [C [E|(r & ->)]].
  - unfold words_of, lexemes, complete. rewrite lrun_app, E. cbn [fst snd flush]. rewrite app_nil_r, !wds_app. split; [now rewrite <- app_assoc|auto].
  - replace (tail ++ nl :: r) with ((tail ++ [nl]) ++ r) by (now rewrite <- app_assoc). rewrite <- (words_nl tail C). unfold words_of at 1 2, lexemes, complete. rewrite (lrun_app (tail ++ [nl])), (nl_after _ C). cbn [fst snd flush]. rewrite app_nil_r, !wds_app.
    unfold words_of, lexemes. rewrite lrun_cons. change (lstep S0 nl) with (S0, @nil lexeme). cbn [fst snd app]. rewrite wds_app. split; [now rewrite <- app_assoc|auto].
Qed.
Lemma filter_false {A} (p : A -> bool) l : Forall (fun x => p x = false) l -> filter p l = [].
Proof. induction 1 as [|x l E _ IH]; [reflexivity|]. cbn [filter]. now rewrite E. Qed.
