(* Lemmas for C110: every spelling of a tree has the words of its tokens, separators apart. *)
From Coq Require Import Ascii String Permutation.
From Verif Require Import Base Strs.
From Verif.Format Require Import Model Spec Proofs.
From Verif.FormatTree Require Import Model Spec Lexing Proofs.
Import ListNotations.
Open Scope list_scope.

Lemma core_app a b : core (a ++ b) = core a ++ core b. Proof. apply filter_app. Qed.
Lemma core_cons w b : core (w :: b) = core [w] ++ core b. Proof. exact (core_app [w] b). Qed.
Definition wt (ts : list token) : list bytes := core (map wtext ts).
Lemma wt_app a b : wt (a ++ b) = wt a ++ wt b. Proof. unfold wt. now rewrite map_app, core_app. Qed.
Lemma wt_cons t b : wt (t :: b) = core [wtext t] ++ wt b. Proof. unfold wt. cbn [map]. apply core_cons. Qed.
Lemma wt_nil : wt [] = []. Proof. reflexivity. Qed.
Lemma sep_rune s t : runet s t -> sub s ",;:[]{}" = true -> core [wtext t] = [].
Proof.
  intros R S. destruct (rune_wtext s t R) as (-> & c & -> & I). pose proof (sub_in _ _ _ S I) as J.
  apply in_string in J. cbn in J. unfold core. cbn [filter].
  destruct c as [[] [] [] [] [] [] [] []]; try discriminate J; reflexivity.
Qed.
Lemma sep_orune s o : orune s o -> sub s ",;:[]{}" = true -> wt (otoks o) = [].
Proof. destruct o as [t|]; [|reflexivity]. intros R S. cbn [otoks]. unfold wt. cbn [map]. exact (sep_rune s t R S). Qed.
Lemma sep_some s o : some_rune s o -> sub s ",;:[]{}" = true -> wt (otoks o) = [].
Proof. intros (t & -> & R) S. exact (sep_rune s t R S). Qed.
Lemma core_ows o : core (ows o) = wt (otoks o). Proof. reflexivity. Qed.
Lemma core_ident i : core (ident_ws i) = wt (ident_toks i). Proof. reflexivity. Qed.
Lemma core_ref r : core (ref_ws r) = wt (ref_toks r). Proof. reflexivity. Qed.
Lemma core_name ps : core (name_ws ps) = wt (flat_map part_toks ps). Proof. reflexivity. Qed.
Lemma core_map ts : core (map wtext ts) = wt ts. Proof. reflexivity. Qed.
Lemma core_semi : core [semi_w] = []. Proof. reflexivity. Qed.
Lemma core_comma : core [comma_w] = []. Proof. reflexivity. Qed.
Lemma core_colon : core [colon_w] = []. Proof. reflexivity. Qed.
Lemma core_nil : core [] = []. Proof. reflexivity. Qed.

Scheme spv_ind := Induction for sp_value Sort Prop with spf_ind := Induction for sp_fields Sort Prop with sps_ind := Induction for sp_values Sort Prop.
Combined Scheme sp_value_mut from spv_ind, spf_ind, sps_ind.
Lemma wt_interleave : forall vs cs, Forall (runet ",") cs -> List.length cs <= List.length vs -> wt (interleave vs cs) = wt (List.concat vs).
Proof.
  induction vs as [|v r IH]; intros cs F L; [destruct cs; [reflexivity|cbn in L; lia]|]. cbn [interleave List.concat].
  destruct cs as [|c cr].
  - rewrite !wt_app, IH; [reflexivity|constructor|cbn; lia].
  - inversion F as [|x y Rc Fr]; subst. rewrite !wt_app, wt_cons, (sep_rune "," c Rc eq_refl), IH; [reflexivity|exact Fr|cbn in L; lia].
Qed.
Ltac norm := rewrite ?core_app, ?core_cons, ?core_nil, ?wt_app, ?wt_cons, ?core_ows, ?core_ident, ?core_ref, ?core_map, ?core_semi, ?core_comma, ?core_colon, ?wt_nil, ?app_nil_r.
Lemma core_value_all :
  (forall v ws, sp_value v ws -> value_ok v -> core ws = wt (value_toks v)) /\
  (forall fs ws, sp_fields fs ws -> Forall field_ok fs -> core ws = wt (flat_map field_toks fs)) /\
  (forall vs ws, sp_values vs ws -> Forall value_ok vs -> core ws = wt (flat_map value_toks vs)).
Proof.
  apply sp_value_mut; try reflexivity.
  - intros o fs c sm ws S IH O. apply value_ok_msg in O. destruct O as (Ro & Rc & Rs & F). cbn [value_toks].
    rewrite core_cons, core_app, IH by exact F. rewrite wt_cons, !wt_app, (sep_orune ";" sm Rs eq_refl), app_nil_r. reflexivity.
  - intros o vs cs c sm ws S IH O. apply value_ok_arr in O. destruct O as (Ro & Rc & Rs & F & L & Ov & _). cbn [value_toks].
    rewrite core_cons, core_app, IH by exact Ov. rewrite wt_cons, !wt_app, (sep_orune ";" sm Rs eq_refl), app_nil_r.
    rewrite wt_interleave by (try exact F; rewrite map_length; lia). rewrite flat_map_concat_map. reflexivity.
  - intros n s v sm r col wv sep wr Hc Sv IHv Hs Sr IHr F. inversion F as [|x y Of Fr]; subst. destruct Of as (On & Ov & Os & Ocol).
    rewrite !core_app, core_ref, (IHv Ov), (IHr Fr). cbn [flat_map field_toks]. rewrite !wt_app, <- !app_assoc.
    rewrite (sep_orune ",;" sm Os eq_refl).
    assert (E1 : core col = []) by (destruct Hc as [-> |[-> _]]; reflexivity). assert (E2 : core sep = []) by (destruct Hs as [-> |[-> | ->]]; reflexivity).
    assert (E3 : wt (otoks s) = []) by (destruct s as [t|]; [exact (sep_rune ":" t Ocol eq_refl)|reflexivity]). rewrite E1, E2, E3. reflexivity.
  - intros v w S IH F. inversion F; subst. cbn [flat_map]. rewrite app_nil_r. auto.
  - intros v w v' r ws Sv IHv Sr IHr F. inversion F as [|x y Ov Fr]; subst. rewrite core_app, core_cons, core_comma, (IHv Ov), (IHr Fr). cbn [flat_map]. now rewrite !wt_app.
Qed.
Lemma core_value v ws : sp_value v ws -> value_ok v -> core ws = wt (value_toks v).
Proof. apply core_value_all. Qed.
Lemma core_assign o ws : sp_assign o ws -> forall s, opt_ok s o -> core ws = wt (opt_toks (flat_map part_toks) (o_name o) ++ otoks (o_eq o) ++ opt_toks value_toks (o_val o)).
Proof.
  intros (wv & S & ->) s ((ps & En & _) & _ & (v & Ev & Ov) & _). rewrite En, Ev in *. cbn [opt_toks]. rewrite !core_app, !wt_app, core_ows, core_name, (core_value v wv S Ov). reflexivity.
Qed.
Lemma core_option o ws : sp_option o ws -> keyword_option_ok o -> core ws = wt (opt_node_toks o).
Proof.
  intros (wa & S & ->) (O & _ & _). pose proof (core_assign o wa S ";" O) as E. destruct O as (_ & _ & _ & Os). unfold opt_node_toks.
  rewrite !core_app, core_ows, E, core_semi, !wt_app, (sep_orune ";" _ Os eq_refl), !app_nil_r. reflexivity.
Qed.
Lemma core_opts os ws : sp_opts os ws -> opts_ok os -> core ws = wt (flat_map opt_node_toks os).
Proof.
  induction 1 as [|o r ws Oc S IH|o r ws Oc S IH|o r wa sep ws Oc Sa S IH Hs]; intro O; [reflexivity| | |]; destruct O as (Ek & Hsm & Ho & Or); cbn [flat_map]; rewrite wt_app.
  - destruct (only_comma_seg _ Oc) as (E1 & E2 & E3). destruct Ho as [(_ & Rs)|Ho]; [|rewrite (opt_not_comma _ _ Ho) in Oc; discriminate].
    unfold opt_node_toks at 1. rewrite Ek, E1, E2, E3. cbn [otoks opt_toks app]. rewrite (sep_some "," _ Rs eq_refl). exact (IH Or).
  - destruct (only_comma_seg _ Oc) as (E1 & E2 & E3). destruct Ho as [(_ & Rs)|Ho]; [|rewrite (opt_not_comma _ _ Ho) in Oc; discriminate].
    unfold opt_node_toks at 1. rewrite Ek, E1, E2, E3. cbn [otoks opt_toks app]. rewrite (sep_some "," _ Rs eq_refl). rewrite core_cons, core_comma. exact (IH Or).
  - destruct Ho as [(Oc' & _)|Ho]; [congruence|]. rewrite !core_app, (core_assign o wa Sa "," Ho), (IH Or). destruct Ho as (_ & _ & _ & Os).
    assert (E2 : core sep = []) by (destruct Hs as [-> |[-> _]]; reflexivity). rewrite E2. unfold opt_node_toks at 2. rewrite Ek. cbn [otoks app]. rewrite !wt_app, (sep_orune "," _ Os eq_refl), !app_nil_r, <- !app_assoc. reflexivity.
Qed.
Lemma core_copts os ws : sp_copts os ws -> copts_ok os -> core ws = wt (opt_toks copts_toks os).
Proof.
  destruct os as [c|]; [|intros -> _; reflexivity]. intros S (Ro & Rc & Rs & O & _). cbn [opt_toks]. unfold copts_toks.
  rewrite wt_cons, !wt_app, (sep_orune ";" _ Rs eq_refl), app_nil_r. unfold wt at 2. cbn [map].
  rewrite (sep_rune "[" _ Ro eq_refl), (sep_rune "]" _ Rc eq_refl), app_nil_r. destruct S as [(wo & S & ->)|(E & ->)].
  - rewrite core_cons, core_app, (core_opts _ _ S O), (sep_rune "[" _ Ro eq_refl), (sep_rune "]" _ Rc eq_refl), app_nil_r. reflexivity.
  - rewrite E. reflexivity.
Qed.
Lemma core_relem e ws : sp_relem e ws -> relem_ok e -> core ws = wt (relem_toks e).
Proof.
  destruct e as [t|v|s to en mx]; cbn [sp_relem relem_toks].
  - intros -> _. reflexivity.
  - intros S O. exact (core_value v ws S O).
  - intros (w1 & w2 & S1 & S2 & ->) (Os & _ & Oe). rewrite !core_app, !wt_app, !core_ows, (core_value _ _ S1 Os).
    destruct en as [v|]; cbn [sp_oval opt_toks] in *; [destruct Oe as [Ov ->]; rewrite (core_value _ _ S2 Ov)|rewrite S2]; reflexivity.
Qed.
Lemma core_relems es ws : sp_list sp_relem es ws -> Forall relem_ok es -> core ws = wt (flat_map relem_toks es).
Proof. induction 1 as [|e r w ws S Sr IH]; intro O; [reflexivity|]. inversion O; subst. cbn [flat_map]. rewrite core_app, wt_app, (core_relem e w S), IH by assumption. reflexivity. Qed.
Scheme spd_ind := Induction for sp_decl Sort Prop with spds_ind := Induction for sp_decls Sort Prop.
Combined Scheme sp_decl_mut from spd_ind, spds_ind.
Lemma core_end (e : list bytes) : e = [] \/ e = [semi_w] -> core e = [].
Proof. intros [-> | ->]; reflexivity. Qed.
Lemma core_named kw n o b c sm w e : runet "{" o -> runet "}" c -> semi_ok sm -> e = [] \/ e = [semi_w] -> core w = wt (flat_map decl_toks b) ->
  core (wtext kw :: wtext n :: wtext o :: w ++ wtext c :: e) = wt (kw :: n :: o :: flat_map decl_toks b ++ c :: otoks sm).
Proof.
  intros Ro Rc Rs He E. rewrite (core_cons (wtext kw)), (core_cons (wtext n)), (core_cons (wtext o)), core_app, (core_cons (wtext c)), E, (core_end e He), 3 wt_cons, wt_app, wt_cons, (sep_orune ";" sm Rs eq_refl). reflexivity.
Qed.
Lemma core_decl_all :
  (forall d ws, sp_decl d ws -> decl_ok d -> core ws = wt (decl_toks d)) /\
  (forall b ws, sp_decls b ws -> Forall decl_ok b -> core ws = wt (flat_map decl_toks b)).
Proof.
  apply sp_decl_mut.
  - intros l ty n e tg os sm w1 w2 S1 S2 (_ & _ & _ & _ & _ & (v & -> & Ov) & Oc & Rs). cbn [decl_toks sp_oval opt_toks] in *.
    rewrite !core_app, !wt_app, !core_ows, core_ident, (core_value _ _ S1 Ov), (core_copts _ _ S2 Oc), (sep_some ";" _ Rs eq_refl), core_semi. reflexivity.
  - intros kw o k cm v c tsm n e tg os sm w1 w2 S1 S2 (_ & _ & _ & Rcm & _ & _ & Rt & _ & _ & Ov & Oc & Rs). cbn [decl_toks].
    rewrite (core_cons (wtext kw)), (core_cons (wtext o)), core_app, (core_cons (wtext cm)), core_app, (core_cons (wtext c)), (core_cons (wtext n)), (core_cons (wtext e)), !core_app, !core_ident, (core_value _ _ S1 Ov), (core_copts _ _ S2 Oc), core_semi.
    rewrite 2 wt_cons, wt_app, wt_cons, wt_app, wt_cons, wt_app, 2 wt_cons, !wt_app, (sep_some ";" _ Rs eq_refl), (sep_orune ";" _ Rt eq_refl). reflexivity.
  - intros n e v os sm w1 w2 last S1 S2 Hl (_ & _ & Ov & Oc & Rs). cbn [decl_toks]. assert (E : core [last] = []) by (destruct Hl as [-> | ->]; reflexivity).
    rewrite (core_cons (wtext n)), (core_cons (wtext e)), !core_app, (core_value _ _ S1 Ov), (core_copts _ _ S2 Oc), E, 2 wt_cons, !wt_app, (sep_some ";," _ Rs eq_refl). reflexivity.
  - intros o w S O. exact (core_option o w S O).
  - intros kw es sm w S (_ & Oe & Rs). cbn [decl_toks]. rewrite core_cons, core_app, (core_relems _ _ S Oe), core_semi, wt_cons, wt_app, (sep_some ";" _ Rs eq_refl). reflexivity.
  - intros kw es os sm w w2 S S2 (_ & Oe & Oc & Rs). cbn [decl_toks]. rewrite core_cons, !core_app, (core_relems _ _ S Oe), (core_copts _ _ S2 Oc), core_semi, wt_cons, !wt_app, (sep_some ";" _ Rs eq_refl). reflexivity.
  - intros kw n o b c sm w e S IH He (_ & _ & Ro & Rc & Rs & Ob). apply all_forall in Ob. exact (core_named kw n o b c sm w e Ro Rc Rs He (IH Ob)).
  - intros kw n o b c sm w e S IH He (_ & _ & Ro & Rc & Rs & Ob). apply all_forall in Ob. exact (core_named kw n o b c sm w e Ro Rc Rs He (IH Ob)).
  - intros kw n o b c sm w e S IH He (_ & _ & Ro & Rc & Rs & Ob). apply all_forall in Ob. exact (core_named kw n o b c sm w e Ro Rc Rs He (IH Ob)).
  - intros kw x o b c sm w e S IH He (_ & _ & Ro & Rc & Rs & Ob). apply all_forall in Ob. cbn [decl_toks].
    rewrite core_cons, core_app, (core_cons (wtext o)), core_app, (core_cons (wtext c)), (IH Ob), (core_end e He), core_map, wt_cons, wt_app, wt_cons, wt_app, wt_cons, (sep_orune ";" sm Rs eq_refl). reflexivity.
  - intros l kw n e tg os o b c sm w1 w2 w en S1 S2 S IH He (_ & _ & _ & _ & Ov & Oc & Ro & Rc & Rs & Ob). apply all_forall in Ob. cbn [decl_toks].
    rewrite core_app, (core_cons (wtext kw)), (core_cons (wtext n)), (core_cons (wtext e)), !core_app, (core_cons (wtext o)), core_app, (core_cons (wtext c)), (IH Ob), (core_end en He), core_ows, (core_value _ _ S1 Ov), (core_copts _ _ S2 Oc).
    rewrite wt_app, 3 wt_cons, !wt_app, wt_cons, wt_app, wt_cons, (sep_orune ";" sm Rs eq_refl). reflexivity.
  - intros kw n o b c sm w e S IH He (_ & _ & Ro & Rc & Rs & Ob). apply all_forall in Ob. exact (core_named kw n o b c sm w e Ro Rc Rs He (IH Ob)).
  - intros kw n i rt u br b sm w wb S IH Hwb (_ & _ & _ & _ & _ & Rs & Ob & Hb). apply all_forall in Ob. cbn [decl_toks].
    assert (E : core wb = wt (match br with Some (o, c) => o :: flat_map decl_toks b ++ [c] | None => flat_map decl_toks b end)).
    { destruct Hwb as [(-> & ->)|(o & c & e & He & -> & ->)].
      - destruct br as [[o c]|]; [|reflexivity]. destruct Hb as [Ro Rc]. cbn [flat_map app]. rewrite 2 wt_cons, (sep_rune "{" o Ro eq_refl), (sep_rune "}" c Rc eq_refl). reflexivity.
      - rewrite core_cons, core_app, (core_cons (wtext c)), (IH Ob), (core_end e He), wt_cons, wt_app, wt_cons. reflexivity. }
    rewrite (core_cons (wtext kw)), (core_cons (wtext n)), core_app, (core_cons (wtext rt)), core_app, E, 2 wt_cons, wt_app, wt_cons, !wt_app, (sep_orune ";" sm Rs eq_refl), app_nil_r. reflexivity.
  - intros t w Hw R. cbn [decl_toks]. rewrite wt_cons, (sep_rune ";" t R eq_refl). exact (core_end w Hw).
  - reflexivity.
  - intros d r w ws S IH Sr IHr O. inversion O; subst. cbn [flat_map]. rewrite core_app, wt_app, IH, IHr by assumption. reflexivity.
Qed.
Lemma core_import i ws : sp_import i ws -> import_ok i -> core ws = wt (import_toks i).
Proof.
  intros (wv & S & ->) (_ & _ & Ov & Rs). unfold import_toks. rewrite core_cons, !core_app, core_ows, (core_value _ _ S Ov), core_semi, wt_cons, !wt_app, (sep_some ";" _ Rs eq_refl). reflexivity.
Qed.
Lemma core_list {A} (sp : A -> list bytes -> Prop) (ok : A -> Prop) toks l ws : (forall a w, sp a w -> ok a -> core w = wt (toks a)) ->
  sp_list sp l ws -> Forall ok l -> core ws = wt (flat_map toks l).
Proof. intros G. induction 1 as [|a r w ws S Sr IH]; intro O; [reflexivity|]. inversion O; subst. cbn [flat_map]. rewrite core_app, wt_app, (G a w S), IH by assumption. reflexivity. Qed.
Lemma deduped_incl p l l' : deduped p l l' -> incl l' l.
Proof. induction 1 as [|p i r r' D IH|i r r' D IH]; intros x I; [exact I| |right; exact (IH x I)]. destruct I as [->|I]; [now left|right; exact (IH x I)]. Qed.
Lemma deduped_paths p l l' : deduped p l l' -> forall i, In i l -> p = Some (i_path i) \/ In (i_path i) (map i_path l').
Proof.
  induction 1 as [|p i r r' D IH|i r r' D IH]; intros x I; [destruct I| |].
  - right. destruct I as [->|I]; [now left|]. destruct (IH x I) as [E|J]; [left; congruence|now right].
  - destruct I as [->|I]; [now left|]. exact (IH x I).
Qed.
Lemma core_syntax s ws : sp_syntax s ws -> match s with Some (k, e, v, sm) => idt k /\ runet "=" e /\ value_ok v /\ some_rune ";" sm | None => True end -> core ws = wt (syntax_toks s).
Proof.
  destruct s as [[[[k e] v] sm]|]; [|intros -> _; reflexivity]. intros (wv & S & ->) (_ & _ & Ov & Rs). cbn [syntax_toks].
  rewrite (core_cons (wtext k)), (core_cons (wtext e)), core_app, (core_value _ _ S Ov), core_semi, 2 wt_cons, wt_app, (sep_some ";" _ Rs eq_refl). reflexivity.
Qed.
Lemma core_package d ws : sp_package d ws -> fdecl_ok d -> core ws = wt (fdecl_toks d).
Proof.
  destruct d as [kw n sm| | |]; cbn [sp_package]; try tauto. intros -> (_ & _ & Rs). cbn [fdecl_toks].
  rewrite core_cons, core_app, core_map, core_semi, wt_cons, wt_app, (sep_some ";" _ Rs eq_refl). reflexivity.
Qed.
Lemma fdecls_types ds : Forall fdecl_ok ds -> Forall decl_ok (types ds).
Proof. induction 1 as [|d r Hd Hr IH]; [constructor|]. destruct d; cbn; try exact IH. constructor; [apply Hd|exact IH]. Qed.
