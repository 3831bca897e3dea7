From Coq Require Import Ascii String Lia Permutation.
From Verif Require Import Base Strs.
From Verif.Format Require Import Model Spec.
From Verif.FormatTree Require Import Model Spec Lexing Proofs.
From Verif.Highlight Require Import Perm Model Spec.
Import ListNotations.
Open Scope list_scope.

Notation T := tokens_shown.
Notation K := comments_shown.
Lemma T_app a b : T (a ++ b) = T a ++ T b.
Proof. apply flat_map_app. Qed.
Lemma K_app a b : K (a ++ b) = K a ++ K b.
Proof. apply flat_map_app. Qed.
Lemma X_app a b : expected (a ++ b) = expected a ++ expected b.
Proof. apply flat_map_app. Qed.
Definition E1 (t : token) (r : role) : list (token * ttype * bool) := match style_of r with Some (ty, d) => [(t, ty, d)] | None => [] end.
Lemma X_cons t r m : expected ((t, r) :: m) = E1 t r ++ expected m.
Proof. reflexivity. Qed.
Lemma X_one t r : expected [(t, r)] = E1 t r.
Proof. apply app_nil_r. Qed.
Lemma S_app a b : seen (a ++ b) = seen a ++ seen b.
Proof. apply flat_map_app. Qed.
Lemma S_cons t r : seen (t :: r) = seen1 t ++ seen r.
Proof. reflexivity. Qed.
Lemma visits_app a b : visits (a ++ b) = visits a ++ visits b.
Proof. apply flat_map_app. Qed.
Lemma cancel {A} (a b l r : list A) : Permutation a b -> Permutation (b ++ l) (a ++ r) -> Permutation l r.
Proof. intros P Q. rewrite P in Q. exact (Permutation_app_inv_l b _ _ Q). Qed.
Ltac use H := apply (cancel _ _ _ _ H).
Lemma eq_perm {A} (a b : list A) : a = b -> Permutation a b.
Proof. intros ->. reflexivity. Qed.

(** ** Leaves *)
Lemma K_map (l : list comment) : K (map Com l) = l.
Proof. induction l; [reflexivity|]. cbn. now f_equal. Qed.
Lemma T_map (l : list comment) : T (map Com l) = [].
Proof. induction l; [reflexivity|assumption]. Qed.
Lemma K_coms ts : K (coms ts) = lead_of ts ++ filter in_text (trail_of ts).
Proof. unfold coms. now rewrite K_app, !K_map. Qed.
Lemma T_coms ts : T (coms ts) = [].
Proof. unfold coms. now rewrite T_app, !T_map. Qed.
Lemma K_coms1 t : K (coms [t]) = seen1 t.
Proof. apply K_coms. Qed.
Lemma T_gen ts s r : style_of r = Some (s_type s, s_def s) -> T (mk ts s) = expected (all_ r ts).
Proof.
  intro E. assert (G : T (mk ts s) = map (fun t => (t, s_type s, s_def s)) ts).
  { destruct ts as [|t ts]; [reflexivity|]. unfold mk. change (T (Tok (t :: ts) s :: coms (t :: ts))) with (map (fun t => (t, s_type s, s_def s)) (t :: ts) ++ T (coms (t :: ts))). now rewrite T_coms, app_nil_r. }
  rewrite G. clear G. induction ts as [|t ts IH]; [reflexivity|]. cbn [map all_]. rewrite X_cons. unfold E1. rewrite E. cbn [app]. now f_equal.
Qed.
Lemma T_mk ts r ty d : style_of r = Some (ty, d) -> forall l, T (mk ts (Style ty l d)) = expected (all_ r ts).
Proof. intros E l. now apply T_gen. Qed.
Lemma T_sty ts r ty : style_of r = Some (ty, false) -> T (mk ts (sty ty)) = expected (all_ r ts).
Proof. intros E. now apply T_gen. Qed.
Lemma T_def ts r ty : style_of r = Some (ty, true) -> T (mk ts (def ty)) = expected (all_ r ts).
Proof. intros E. now apply T_gen. Qed.
Lemma T_s1 t r ty : style_of r = Some (ty, false) -> T (mk [t] (sty ty)) = E1 t r.
Proof. intros E. rewrite (T_sty _ _ _ E). apply X_one. Qed.
Lemma T_g1 t s r : style_of r = Some (s_type s, s_def s) -> T (mk [t] s) = E1 t r.
Proof. intros E. rewrite (T_gen _ _ _ E). apply X_one. Qed.
Lemma T_d1 t r ty : style_of r = Some (ty, true) -> T (mk [t] (def ty)) = E1 t r.
Proof. intros E. rewrite (T_def _ _ _ E). apply X_one. Qed.
Lemma T_m1 t r ty d : style_of r = Some (ty, d) -> forall l, T (mk [t] (Style ty l d)) = E1 t r.
Proof. intros E l. rewrite (T_mk _ _ _ _ E). apply X_one. Qed.
Lemma K_mk1 t s : K (mk [t] s) = seen1 t.
Proof. exact (K_coms1 t). Qed.
Lemma K_mko o s : K (mk (otoks o) s) = seen (otoks o).
Proof. destruct o; [cbn [otoks]; rewrite K_mk1; cbn; now rewrite app_nil_r|reflexivity]. Qed.
Lemma K_keyword t : K (keyword t) = seen1 t.
Proof. apply K_mk1. Qed.
Lemma K_okeyword o : K (okeyword o) = seen (otoks o).
Proof. destruct o; [|reflexivity]. cbn. rewrite app_nil_r. apply K_keyword. Qed.
Lemma T_keyword t : T (keyword t) = E1 t Keyword.
Proof. exact (T_s1 t Keyword TKeyword eq_refl). Qed.
Lemma T_okeyword o : T (okeyword o) = expected (okw o).
Proof. destruct o; [|reflexivity]. exact (T_gen [t] (sty TKeyword) Keyword eq_refl). Qed.

(* runes *)
Lemma punct_sub s t : h_runet s t -> forallb (fun c => existsb (Ascii.eqb c) punct) (b_ s) = true -> is_punct t = true.
Proof. intros (_ & c & E & I) F. unfold is_punct. rewrite E. rewrite forallb_forall in F. exact (F c I). Qed.
Lemma sign_not s t : h_runet s t -> forallb (fun c => negb (existsb (Ascii.eqb c) punct)) (b_ s) = true -> is_punct t = false.
Proof. intros (_ & c & E & I) F. unfold is_punct. rewrite E. rewrite forallb_forall in F. apply negb_true_iff. exact (F c I). Qed.
Lemma visit_rune_of s t : h_runet s t -> visit t = visit_rune t.
Proof. intros (E & _). unfold visit. now rewrite E. Qed.
Definition puncts (s : string) : Prop := forallb (fun c => existsb (Ascii.eqb c) punct) (b_ s) = true.
Definition signs (s : string) : Prop := forallb (fun c => negb (existsb (Ascii.eqb c) punct)) (b_ s) = true.
Lemma T_pun s t : h_runet s t -> puncts s -> T (visit t) = expected (pun t).
Proof.
  intros R P. rewrite (visit_rune_of _ _ R). unfold visit_rune, pun, rune. rewrite (punct_sub _ _ R P). destruct (t_virtual t); [reflexivity|]. rewrite T_coms. reflexivity.
Qed.
Lemma T_sign s t : h_runet s t -> signs s -> T (visit t) = expected (sign t).
Proof.
  intros R P. rewrite (visit_rune_of _ _ R). unfold visit_rune, sign, rune. rewrite (sign_not _ _ R P). destruct (t_virtual t); [reflexivity|]. exact (T_gen [t] (sty TOperator) Operator eq_refl).
Qed.
Lemma K_rune s t : h_runet s t -> K (visit t) ++ mute t = seen1 t.
Proof.
  intros R. rewrite (visit_rune_of _ _ R). unfold visit_rune, mute. destruct (t_virtual t); [reflexivity|]. rewrite app_nil_r. destruct (is_punct t); [apply K_coms1|apply K_mk1].
Qed.
Lemma ovisit_some t : ovisit (Some t) = visit t.
Proof. unfold ovisit, visits. cbn. apply app_nil_r. Qed.
Lemma T_opun s o : h_orune s o -> puncts s -> T (ovisit o) = expected (opun o).
Proof. destruct o; [|reflexivity]. intros R P. rewrite ovisit_some. exact (T_pun _ _ R P). Qed.
Lemma T_osign s o : h_some s o -> signs s -> T (ovisit o) = expected (osign o).
Proof. intros (t & -> & R) P. rewrite ovisit_some. exact (T_sign _ _ R P). Qed.
Lemma K_orune s o : h_orune s o -> K (ovisit o) ++ omute o = seen (otoks o).
Proof. destruct o; [|reflexivity]. intro R. rewrite ovisit_some. cbn [otoks seen flat_map omute oagain]. rewrite app_nil_r. exact (K_rune _ _ R). Qed.
Lemma some_orune s o : h_some s o -> h_orune s o.
Proof. intros (t & -> & R). exact R. Qed.

(* identifiers *)
Lemma visit_id t : h_idt t -> visit t = [].
Proof. intro E. unfold visit. unfold h_idt in E. now rewrite E. Qed.
Lemma quiet_id t : h_idt t -> quiet t = true.
Proof. intro E. unfold quiet, is_id. now rewrite E. Qed.
Lemma quiet_dot s t : h_runet s t -> quiet t = t_virtual t.
Proof. intros (E & _). unfold quiet, is_id. now rewrite E. Qed.
Lemma dot_punct : puncts ".".
Proof. reflexivity. Qed.
Lemma K_dot t : h_runet "." t -> K (visit t) = loud t.
Proof.
  intro R. rewrite (visit_rune_of _ _ R). unfold visit_rune, loud. rewrite (quiet_dot _ _ R). destruct (t_virtual t); [reflexivity|]. rewrite (punct_sub _ _ R dot_punct). apply K_coms1.
Qed.
Lemma T_dot t : h_runet "." t -> T (visit t) = [].
Proof. intro R. rewrite (T_pun _ _ R dot_punct). unfold pun, rune. now destruct (t_virtual t). Qed.
Lemma dotted_T ts : h_dotted ts -> T (visits ts) = [].
Proof.
  induction 1 as [t I|t d r I R _ IH]; unfold visits in *; cbn [flat_map].
  - now rewrite (visit_id _ I).
  - now rewrite (visit_id _ I), !T_app, (T_dot _ R), IH.
Qed.
Lemma ident_T i : h_ident i -> T (visits (ident_toks i)) = [].
Proof.
  destruct i as [t|ts]; cbn [h_ident ident_toks].
  - intro I. unfold visits. cbn. now rewrite (visit_id _ I).
  - intros [D|(d & r & -> & R & D)]; [exact (dotted_T _ D)|]. unfold visits. cbn [flat_map]. rewrite T_app, (T_dot _ R). exact (dotted_T _ D).
Qed.
Lemma loud_id t : h_idt t -> loud t = [].
Proof. intro I. unfold loud. now rewrite (quiet_id _ I). Qed.
Lemma dotted_K ts : h_dotted ts -> K (visits ts) = flat_map loud ts.
Proof.
  induction 1 as [t I|t d r I R _ IH]; unfold visits in *; cbn [flat_map].
  - rewrite (visit_id _ I), (loud_id _ I). reflexivity.
  - rewrite (visit_id _ I), (loud_id _ I), !K_app, (K_dot _ R), IH. reflexivity.
Qed.
Lemma ident_K i : h_ident i -> K (visits (ident_toks i)) = flat_map loud (ident_toks i).
Proof.
  destruct i as [t|ts]; cbn [h_ident ident_toks].
  - intro I. unfold visits. cbn. now rewrite (visit_id _ I), (loud_id _ I).
  - intros [D|(d & r & -> & R & D)]; [exact (dotted_K _ D)|]. unfold visits. cbn [flat_map]. rewrite K_app, (K_dot _ R). f_equal. exact (dotted_K _ D).
Qed.
Lemma ovisit_id o : h_oidt o -> ovisit o = [].
Proof. destruct o; [|reflexivity]. intro I. rewrite ovisit_some. exact (visit_id _ I). Qed.
(* the comments of a name, by where they are *)
Lemma trail_cons t u r : trail_of (t :: u :: r) = trail_of (u :: r).
Proof.
  unfold trail_of. change (rev (t :: u :: r)) with (rev (u :: r) ++ [t]). destruct (rev (u :: r)) eqn:E; [|reflexivity]. apply (f_equal (@List.length token)) in E. rewrite rev_length in E. discriminate.
Qed.
Lemma inner_r_all : forall ts, ts <> [] -> Permutation (inner_r (fun _ => true) ts ++ filter in_text (trail_of ts)) (seen ts).
Proof.
  induction ts as [|t [|u r] IH]; intro N; [contradiction| |].
  - cbn. rewrite app_nil_r. reflexivity.
  - rewrite trail_cons. change (inner_r (fun _ => true) (t :: u :: r)) with (seen1 t ++ inner_r (fun _ => true) (u :: r)). rewrite S_cons. use (IH ltac:(discriminate)). perm.
Qed.
Lemma inner_all : forall ts, ts <> [] -> Permutation (K (mk ts (sty TProperty)) ++ inner (fun _ => true) ts) (seen ts).
Proof.
  intros [|t [|u r]] N; [contradiction| |].
  - cbn [inner]. rewrite K_mk1, app_nil_r. cbn. rewrite app_nil_r. reflexivity.
  - change (K (mk (t :: u :: r) (sty TProperty))) with (K (coms (t :: u :: r))). rewrite K_coms, trail_cons. cbn [lead_of]. change (inner (fun _ => true) (t :: u :: r)) with (filter in_text (t_trail t) ++ inner_r (fun _ => true) (u :: r)).
    rewrite S_cons. unfold seen1. use (inner_r_all (u :: r) ltac:(discriminate)). perm.
Qed.
Lemma inner_r_split f : forall ts, Permutation (inner_r f ts ++ inner_r (fun t => negb (f t)) ts) (inner_r (fun _ => true) ts).
Proof.
  induction ts as [|t [|u r] IH]; [constructor| |].
  - cbn. destruct (f t); cbn; rewrite ?app_nil_r; reflexivity.
  - change (inner_r f (t :: u :: r)) with ((if f t then seen1 t else []) ++ inner_r f (u :: r)).
    change (inner_r (fun t => negb (f t)) (t :: u :: r)) with ((if negb (f t) then seen1 t else []) ++ inner_r (fun t => negb (f t)) (u :: r)).
    change (inner_r (fun _ => true) (t :: u :: r)) with (seen1 t ++ inner_r (fun _ => true) (u :: r)). use IH. destruct (f t); cbn [negb]; perm.
Qed.
Lemma inner_r_loud ts : h_dotted ts -> inner_r (fun t => negb (quiet t)) ts = flat_map loud ts.
Proof.
  induction 1 as [t I|t d r I R D IH].
  - cbn. rewrite (quiet_id _ I), (loud_id _ I). reflexivity.
  - cbn [flat_map]. rewrite (loud_id _ I), <- IH. unfold loud. destruct r as [|u r]; [inversion D|]. set (q := u :: r) in *. clearbody q.
    change (inner_r (fun t => negb (quiet t)) (t :: d :: q)) with ((if negb (quiet t) then seen1 t else []) ++ inner_r (fun t => negb (quiet t)) (d :: q)). rewrite (quiet_id _ I). cbn [negb app].
    destruct q as [|u' q']; [inversion D|]. change (inner_r (fun t => negb (quiet t)) (d :: u' :: q')) with ((if negb (quiet d) then seen1 d else []) ++ inner_r (fun t => negb (quiet t)) (u' :: q')). now destruct (quiet d).
Qed.
Lemma K_mk_any ts s s' : K (mk ts s) = K (mk ts s').
Proof. now destruct ts. Qed.
Lemma name_K i s : h_ident i -> Permutation (K (mk (ident_toks i) s) ++ K (visits (ident_toks i)) ++ missed_name i) (seen (ident_toks i) ++ doubled_name i).
Proof.
  intro O. rewrite (ident_K _ O). unfold missed_name, doubled_name. rewrite (K_mk_any _ s (sty TProperty)). destruct i as [t|ts]; cbn [h_ident ident_toks] in *.
  - cbn [inner flat_map]. rewrite (loud_id _ O), K_mk1, (quiet_id _ O). cbn. rewrite !app_nil_r. reflexivity.
  - assert (G : forall t r, h_dotted (t :: r) -> Permutation (K (mk (t :: r) (sty TProperty)) ++ flat_map loud (t :: r) ++ inner quiet (t :: r)) (seen (t :: r))).
    { intros t r D. use (inner_all (t :: r) ltac:(discriminate)). destruct r as [|u r].
      - inversion D; subst. cbn [inner flat_map app]. rewrite (loud_id t) by assumption. cbn [app]. perm.
      - assert (I : h_idt t) by (inversion D; assumption). assert (E := inner_r_loud _ D). cbn [flat_map] in E.
        change (inner (fun _ => true) (t :: u :: r)) with (filter in_text (t_trail t) ++ inner_r (fun _ => true) (u :: r)). change (inner quiet (t :: u :: r)) with ((if quiet t then filter in_text (t_trail t) else []) ++ inner_r quiet (u :: r)). rewrite (quiet_id _ I).
        cbn [flat_map]. rewrite (loud_id _ I). cbn [app]. assert (E2 : inner_r (fun t => negb (quiet t)) (u :: r) = flat_map loud (u :: r)).
        { change (inner_r (fun t => negb (quiet t)) (t :: u :: r)) with ((if negb (quiet t) then seen1 t else []) ++ inner_r (fun t => negb (quiet t)) (u :: r)) in E. rewrite (quiet_id _ I), (loud_id _ I) in E. exact E. }
        change (loud u ++ flat_map loud r) with (flat_map loud (u :: r)). rewrite <- E2. use (inner_r_split quiet (u :: r)). perm. }
    destruct O as [D|(d & r & -> & R & D)].
    + destruct D as [t I|t d r I R D]; [specialize (G t [] (h_one t I))|specialize (G t (d :: r) (h_more t d r I R D))]; rewrite (quiet_id _ I); rewrite (app_nil_r (seen _)); exact G.
    + use (inner_all (d :: r) ltac:(discriminate)). destruct r as [|u r]; [inversion D|].
      change (inner (fun _ => true) (d :: u :: r)) with (filter in_text (t_trail d) ++ inner_r (fun _ => true) (u :: r)). change (inner quiet (d :: u :: r)) with ((if quiet d then filter in_text (t_trail d) else []) ++ inner_r quiet (u :: r)).
      change (flat_map loud (d :: u :: r)) with (loud d ++ flat_map loud (u :: r)). rewrite <- (inner_r_loud _ D). use (inner_r_split quiet (u :: r)). unfold loud. destruct (quiet d); [perm|]. unfold seen1. perm.
Qed.
Lemma ident_nonempty i : h_ident i -> ident_toks i <> [].
Proof. destruct i as [t|ts]; cbn; [discriminate|]. intros [D|(d & r & -> & _)]; [|discriminate]. destruct D; discriminate. Qed.
Lemma option_name_K i s : h_ident i -> Permutation (K (mk (ident_toks i) s) ++ missed_option i) (seen (ident_toks i)).
Proof. intro O. rewrite (K_mk_any _ s (sty TProperty)). exact (inner_all _ (ident_nonempty _ O)). Qed.
Lemma tight_inner : forall ts, tight ts = true -> inner (fun _ => true) ts = [].
Proof.
  assert (G : forall r t, tight (t :: r) = true -> r <> [] -> filter in_text (t_trail t) ++ inner_r (fun _ => true) r = []).
  { induction r as [|u r IH]; intros t H N; [contradiction|]. cbn [tight] in H. apply andb_true_iff in H as [H H2]. apply andb_true_iff in H as [H _]. apply andb_true_iff in H as [H1 H3].
    destruct (t_trail t); [|discriminate]. destruct r as [|v r]; [cbn; destruct (t_lead u); [reflexivity|discriminate]|].
    change (inner_r (fun _ => true) (u :: v :: r)) with (seen1 u ++ inner_r (fun _ => true) (v :: r)). unfold seen1. destruct (t_lead u); [|discriminate]. cbn [filter app]. apply (IH u H2). discriminate. }
  intros [|t [|u r]] H; try reflexivity. exact (G (u :: r) t H ltac:(discriminate)).
Qed.
Lemma compound_K ts : ts <> [] -> Permutation (K (compound ts)) (seen ts).
Proof.
  intro N. unfold compound. destruct (tight ts) eqn:E.
  - rewrite (K_mk_any _ _ (sty TProperty)). rewrite <- (inner_all ts N), (tight_inner _ E), app_nil_r. reflexivity.
  - clear N E. set (s := Style _ _ _). clearbody s. induction ts as [|t ts IH]; [constructor|]. cbn [flat_map]. rewrite K_app, K_mk1, S_cons. now apply Permutation_app_head.
Qed.
Lemma compound_T ts : T (compound ts) = expected (all_ TypeName ts).
Proof.
  unfold compound. destruct (tight ts); [now apply T_gen|]. set (s := contains _ _). clearbody s. induction ts as [|t ts IH]; [reflexivity|]. cbn [flat_map all_ map]. rewrite T_app, X_cons, IH. now rewrite (T_gen _ _ TypeName).
Qed.
Lemma type_T i l : T (type_items i (Style TType l false)) = expected (imark TypeName i).
Proof. destruct i as [t|ts]; cbn [type_items]; [now apply T_gen|apply compound_T]. Qed.
Lemma type_K i s : h_ident i -> Permutation (K (type_items i s) ++ K (visits (ident_toks i))) (seen (ident_toks i) ++ type_doubled i).
Proof.
  intro O. rewrite (ident_K _ O). destruct i as [t|ts]; cbn [type_items ident_toks type_doubled].
  - rewrite K_mk1. cbn [flat_map]. rewrite (loud_id _ O). cbn. rewrite !app_nil_r. reflexivity.
  - unfold doubled_type. cbn [ident_toks]. apply Permutation_app_tail. apply compound_K. exact (ident_nonempty (Cid ts) O).
Qed.

(** ** Lists *)
Lemma mp_forall {A} (P Q : A -> Prop) l : Forall (fun a => P a -> Q a) l -> Forall P l -> Forall Q l.
Proof. induction 1; intro F; inversion F; subst; constructor; auto. Qed.
Lemma flat_T {A} (w : A -> list item) m a l :
  Forall (fun x => Permutation (T (w x)) (expected (m x) ++ a x)) l -> Permutation (T (flat_map w l)) (expected (flat_map m l) ++ flat_map a l).
Proof. induction 1 as [|x l P _ IH]; [constructor|]. cbn [flat_map]. rewrite T_app, X_app. use P. use IH. perm. Qed.
Lemma flat_K {A} (w : A -> list item) ms tk db l :
  Forall (fun x => Permutation (K (w x) ++ ms x) (seen (tk x) ++ db x)) l ->
  Permutation (K (flat_map w l) ++ flat_map ms l) (seen (flat_map tk l) ++ flat_map db l).
Proof. induction 1 as [|x l P _ IH]; [constructor|]. cbn [flat_map]. rewrite K_app, S_app. use P. use IH. perm. Qed.
Lemma K_runes s ts : Forall (h_runet s) ts -> Permutation (K (visits ts) ++ flat_map mute ts) (seen ts).
Proof.
  induction 1 as [|t ts R _ IH]; [constructor|]. unfold visits. cbn [flat_map]. rewrite K_app, S_cons. use (eq_perm _ _ (K_rune _ _ R)). use IH. unfold visits. perm.
Qed.
Lemma T_puns s ts : Forall (h_runet s) ts -> puncts s -> T (visits ts) = expected (flat_map pun ts).
Proof. intros F P. induction F as [|t ts R _ IH]; [reflexivity|]. unfold visits in *. cbn [flat_map]. now rewrite T_app, X_app, IH, (T_pun _ _ R P). Qed.
Lemma K_loud s t : h_runet s t -> K (visit t) = loud t.
Proof.
  intro R. rewrite (visit_rune_of _ _ R). unfold visit_rune, loud. rewrite (quiet_dot _ _ R). destruct (t_virtual t); [reflexivity|]. destruct (is_punct t); [apply K_coms1|apply K_mk1].
Qed.
Lemma T_mk_ident i r ty d : style_of r = Some (ty, d) -> forall l, T (mk (ident_toks i) (Style ty l d)) = expected (imark r i).
Proof. apply T_mk. Qed.
Lemma T_isty i r ty : style_of r = Some (ty, false) -> T (mk (ident_toks i) (sty ty)) = expected (imark r i).
Proof. apply T_sty. Qed.
Lemma seen_one t : seen [t] = seen1 t.
Proof. apply app_nil_r. Qed.
Lemma visits_one t : visits [t] = visit t.
Proof. apply app_nil_r. Qed.

(** ** Without the linker's results *)
Ltac fin :=
  change (T (visits [])) with (@nil (token * ttype * bool)); change (K (visits [])) with (@nil comment);
  change (T []) with (@nil (token * ttype * bool)); change (K []) with (@nil comment); change (seen []) with (@nil comment);
  change (expected []) with (@nil (token * ttype * bool)); perm.
Section Unlinked.
Variable lib_type : bytes -> bool.
Notation wv := (walk_value no_kw no_field).
Notation wf := (walk_field no_kw no_field).
Notation wo := (walk_option no_kw no_field no_option).
Notation wd := (walk lib_type no_kw no_field no_option).

Lemma wv_msg o fs c sm : wv (VMsg o fs c sm) = visit o ++ flat_map wf fs ++ visit c ++ ovisit sm.
Proof. reflexivity. Qed.
Lemma wv_arr o vs cs c sm : wv (VArr o vs cs c sm) = visit o ++ weave (map wv vs) cs ++ visit c ++ ovisit sm.
Proof. reflexivity. Qed.
Lemma wf_field n s v sm : wf (MField n s v sm) = ref_items n ++ field_value_items no_kw (no_field (MField n s v sm)) v ++ visits (ref_toks n) ++ ovisit s ++ wv v ++ ovisit sm.
Proof. reflexivity. Qed.
Lemma no_field_items m v : field_value_items no_kw (no_field m) v = [].
Proof. destruct v as [| | | | |o vs cs c sm]; try reflexivity. cbn. induction vs; [reflexivity|assumption]. Qed.

Lemma ref_T r : h_ref r -> Permutation (T (ref_items r) ++ T (visits (ref_toks r))) (expected (ref_marks r) ++ ref_again r).
Proof.
  intros [O C]. unfold ref_items, ref_toks, ref_marks, ref_again. rewrite !visits_app, !T_app, (ident_T _ O). destruct (fr_open r) as [o|]; cbn [otoks].
  - destruct C as (Ro & (c & -> & Rc) & C). cbn [otoks]. rewrite !visits_one. rewrite (T_pun _ _ Ro eq_refl), (T_pun _ _ Rc eq_refl).
    assert (Z : forall t, expected (pun t) = []) by (intro; unfold pun, rune; now destruct (t_virtual _)). rewrite !Z. destruct (fr_slash r) as [s|].
    + destruct C as (Rs & u & -> & Ou). cbn [opt_toks otoks omark]. rewrite (ident_T _ Ou), visits_one, (T_sign _ _ Rs eq_refl). rewrite !T_app.
      rewrite (T_s1 o Bracket _ eq_refl), (T_mk_ident u TypeUrl _ _ eq_refl), (T_m1 s TypeUrl _ _ eq_refl), (T_isty (fr_name r) TypeName _ eq_refl), (T_s1 c Bracket _ eq_refl).
      rewrite X_cons, X_app, X_cons, X_app. unfold sign, rune. cbn [all_ map]. rewrite !X_one. destruct (t_virtual s); [change (E1 s Inserted) with (@nil (token * ttype * bool))|change (E1 s Operator) with [(s, TOperator, false)]]; fin.
    + rewrite C. cbn [opt_toks otoks]. rewrite !T_app, (T_s1 o Bracket _ eq_refl), (T_isty (fr_name r) OptionName _ eq_refl), (T_s1 c Bracket _ eq_refl). rewrite X_cons, X_app. cbn [all_ map]. rewrite ?X_one. fin.
  - destruct C as (-> & -> & ->). cbn [opt_toks otoks app visits flat_map]. rewrite !app_nil_r. rewrite (T_isty (fr_name r) OptionName _ eq_refl). reflexivity.
Qed.
Lemma ref_K r : h_ref r -> Permutation (K (ref_items r) ++ K (visits (ref_toks r)) ++ ref_missed r) (seen (ref_toks r) ++ ref_doubled r).
Proof.
  intros [O C]. unfold ref_items, ref_toks, ref_missed, ref_doubled. rewrite !visits_app, !K_app, !S_app. destruct (fr_open r) as [o|]; cbn [otoks oagain].
  - destruct C as (Ro & (c & -> & Rc) & C). cbn [otoks oagain]. rewrite !visits_one, !seen_one. rewrite (K_loud _ _ Ro), (K_loud _ _ Rc). destruct (fr_slash r) as [s|].
    + destruct C as (Rs & u & -> & Ou). cbn [opt_toks otoks oagain]. rewrite !visits_one, !seen_one, (K_loud _ _ Rs), !K_app, !K_mk1.
      use (name_K u (Style TType true false) Ou). use (name_K (fr_name r) (sty TType) O). fin.
    + rewrite C. cbn [opt_toks oagain otoks seen flat_map]. rewrite !K_app, !K_mk1. use (name_K (fr_name r) (sty TProperty) O). change (K (visits [])) with (@nil comment). fin.
  - destruct C as (-> & -> & ->). cbn [opt_toks otoks app oagain]. change (visits []) with (@nil item). change (K []) with (@nil comment). change (seen []) with (@nil comment). rewrite !app_nil_r. use (name_K (fr_name r) (sty TProperty) O). fin.
Qed.

Lemma h_value_msg o fs c sm : h_value (VMsg o fs c sm) <-> h_runet "{<" o /\ h_runet "}>" c /\ h_orune ";" sm /\ Forall h_field fs.
Proof. cbn [h_value]. rewrite <- (all_forall h_field fs). reflexivity. Qed.
Lemma h_value_arr o vs cs c sm : h_value (VArr o vs cs c sm) <-> h_runet "[" o /\ h_runet "]" c /\ h_orune ";" sm /\ Forall (h_runet ",") cs /\ Forall h_value vs.
Proof. cbn [h_value]. rewrite <- (all_forall h_value vs). reflexivity. Qed.
Lemma weave_T : forall vs cs, Forall (h_runet ",") cs -> Forall (fun v => Permutation (T (wv v)) (expected (value_marks v) ++ value_again v)) vs ->
  Permutation (T (weave (map wv vs) cs)) (expected (weave_marks (map value_marks vs) cs) ++ flat_map value_again vs).
Proof.
  induction vs as [|v vs IH]; intros cs Fc F; cbn [map weave weave_marks flat_map].
  - rewrite (T_puns _ _ Fc eq_refl), app_nil_r. reflexivity.
  - inversion F as [|? ? H1 H2]; subst. destruct cs as [|c cs].
    + rewrite T_app, X_app. use (IH [] Fc H2). use H1. fin.
    + inversion Fc as [|? ? H4 H5]; subst. rewrite !T_app, !X_app, (T_pun "," c) by easy. use (IH cs H5 H2). use H1. fin.
Qed.
Lemma weave_K : forall vs cs, Forall (h_runet ",") cs -> Forall (fun v => Permutation (K (wv v) ++ value_missed v) (seen (value_toks v) ++ value_doubled v)) vs ->
  Permutation (K (weave (map wv vs) cs) ++ flat_map value_missed vs ++ flat_map mute cs) (seen (interleave (map value_toks vs) cs) ++ flat_map value_doubled vs).
Proof.
  induction vs as [|v vs IH]; intros cs Fc F; cbn [map weave interleave flat_map].
  - rewrite app_nil_r. cbn [app]. exact (K_runes _ _ Fc).
  - inversion F as [|? ? H1 H2]; subst. destruct cs as [|c cs].
    + rewrite K_app, S_app. use (IH [] Fc H2). use H1. fin.
    + inversion Fc as [|? ? H4 H5]; subst. rewrite !K_app, !S_app, S_cons. use (IH cs H5 H2). use H1. use (eq_perm _ _ (K_rune "," c H4)). cbn [flat_map]. fin.
Qed.
Lemma visits_strt ts : Forall (fun t => t_kind t = KStr) ts -> T (visits ts) = expected (all_ StringLiteral ts) /\ K (visits ts) = seen ts.
Proof.
  induction 1 as [|t ts E _ [IH1 IH2]]; [split; reflexivity|]. unfold visits in *. cbn [flat_map all_ map]. rewrite T_app, K_app, X_cons, S_cons, IH1, IH2. unfold visit. rewrite E, K_mk1, (T_s1 t StringLiteral _ eq_refl). split; reflexivity.
Qed.
Lemma quiet_K i : h_ident i -> Permutation (K (visits (ident_toks i)) ++ flat_map (fun t => if quiet t then seen1 t else []) (ident_toks i)) (seen (ident_toks i)).
Proof.
  intro O. rewrite (ident_K _ O). clear O. induction (ident_toks i) as [|t ts IH]; [constructor|]. cbn [flat_map]. rewrite S_cons. use IH. unfold loud. destruct (quiet t); fin.
Qed.
Lemma value_T : forall v, h_value v -> Permutation (T (wv v)) (expected (value_marks v) ++ value_again v).
Proof.
  apply (value_ind2 (fun v => h_value v -> Permutation (T (wv v)) (expected (value_marks v) ++ value_again v))
                    (fun m => h_field m -> Permutation (T (wf m)) (expected (field_marks m) ++ field_again m))).
  - intros t N. cbn [walk_value value_marks value_again h_value] in *. unfold visit_value, is_id, visit. rewrite app_nil_r, X_one. destruct (t_kind t); [reflexivity|now rewrite (T_s1 t Number _ eq_refl)|now rewrite (T_s1 t StringLiteral _ eq_refl)|contradiction].
  - intros ts O. cbn [walk_value value_marks value_again]. change (T (visits ts)) with (T (visits (ident_toks (Cid ts)))). rewrite (ident_T (Cid ts) O), app_nil_r. apply eq_perm. clear. induction ts; [reflexivity|]. assumption.
  - intros ts F. cbn [walk_value value_marks value_again]. rewrite app_nil_r. apply eq_perm. apply (visits_strt _ F).
  - intros s n R. cbn [walk_value value_marks value_again]. rewrite T_app, (T_sign _ _ R eq_refl), X_app, X_one, (T_s1 n Number _ eq_refl), app_nil_r. reflexivity.
  - intros o fs c sm IH O. apply h_value_msg in O as (Ro & Rc & Rs & F). rewrite wv_msg. cbn [value_marks value_again]. rewrite !T_app, !X_app, (T_pun _ _ Ro eq_refl), (T_pun _ _ Rc eq_refl), (T_opun _ _ Rs eq_refl).
    use (flat_T wf field_marks field_again fs (mp_forall _ _ _ IH F)). fin.
  - intros o vs cs c sm IH O. apply h_value_arr in O as (Ro & Rc & Rs & Fc & F). rewrite wv_arr. cbn [value_marks value_again]. rewrite !T_app, !X_app, (T_pun _ _ Ro eq_refl), (T_pun _ _ Rc eq_refl), (T_opun _ _ Rs eq_refl).
    use (weave_T vs cs Fc (mp_forall _ _ _ IH F)). fin.
  - intros n s v sm IH (On & Ov & Os & Oc). rewrite wf_field. cbn [field_marks field_again]. rewrite no_field_items, !T_app, !X_app, (T_opun _ _ Os eq_refl). pose proof (T_opun _ _ Oc eq_refl) as E.
    rewrite E. use (ref_T n On). use (IH Ov). change (T []) with (@nil (token * ttype * bool)). fin.
Qed.
Lemma value_K : forall v, h_value v -> Permutation (K (wv v) ++ value_missed v) (seen (value_toks v) ++ value_doubled v).
Proof.
  apply (value_ind2 (fun v => h_value v -> Permutation (K (wv v) ++ value_missed v) (seen (value_toks v) ++ value_doubled v))
                    (fun m => h_field m -> Permutation (K (wf m) ++ field_missed m) (seen (field_toks m) ++ field_doubled m))).
  - intros t N. cbn [walk_value value_missed value_toks value_doubled h_value] in *. unfold visit_value, is_id, visit. rewrite seen_one. destruct (t_kind t); rewrite ?app_nil_r; [reflexivity|now rewrite K_mk1|now rewrite K_mk1|contradiction].
  - intros ts O. cbn [walk_value value_missed value_toks value_doubled]. rewrite app_nil_r. exact (quiet_K (Cid ts) O).
  - intros ts F. cbn [walk_value value_missed value_toks value_doubled]. rewrite !app_nil_r. apply eq_perm. apply (visits_strt _ F).
  - intros s n R. cbn [walk_value value_missed value_toks value_doubled]. rewrite K_app, K_mk1, S_cons, seen_one. use (eq_perm _ _ (K_rune _ _ R)). fin.
  - intros o fs c sm IH O. apply h_value_msg in O as (Ro & Rc & Rs & F). rewrite wv_msg. cbn [value_missed value_toks value_doubled]. rewrite !K_app, S_cons, !S_app, seen_one.
    use (flat_K wf field_missed field_toks field_doubled fs (mp_forall _ _ _ IH F)). use (eq_perm _ _ (K_rune _ _ Ro)). use (eq_perm _ _ (K_rune _ _ Rc)). use (eq_perm _ _ (K_orune _ _ Rs)). fin.
  - intros o vs cs c sm IH O. apply h_value_arr in O as (Ro & Rc & Rs & Fc & F). rewrite wv_arr. cbn [value_missed value_toks value_doubled]. rewrite !K_app, S_cons, !S_app, seen_one.
    use (weave_K vs cs Fc (mp_forall _ _ _ IH F)). use (eq_perm _ _ (K_rune _ _ Ro)). use (eq_perm _ _ (K_rune _ _ Rc)). use (eq_perm _ _ (K_orune _ _ Rs)). fin.
  - intros n s v sm IH (On & Ov & Os & Oc). rewrite wf_field. cbn [field_missed field_toks field_doubled]. rewrite no_field_items, !K_app, !S_app. pose proof (K_orune _ _ Oc) as E.
    use (ref_K n On). use (IH Ov). use (eq_perm _ _ E). use (eq_perm _ _ (K_orune _ _ Os)). change (K []) with (@nil comment). fin.
Qed.

(** *** Options *)
Lemma pseudo_language ts : pseudo (name_text ts) = language_option (flat_map t_text ts).
Proof. unfold pseudo, language_option, name_text. cbn [existsb]. now rewrite orb_false_r. Qed.
Lemma part_T p : h_part p -> Permutation (T (part_items p)) (expected (part_marks p)).
Proof.
  destruct p as [r|t]; cbn [h_part part_items part_marks].
  - intros ([O C] & Eu & Es). rewrite Es in C. destruct (fr_open r) as [o|].
    + destruct C as (_ & (c & -> & _) & _). rewrite !T_app, X_cons, X_app. cbn [otoks]. now rewrite (T_s1 o Bracket _ eq_refl), (T_isty (fr_name r) OptionName _ eq_refl), (T_s1 c Bracket _ eq_refl).
    + apply eq_perm. apply T_gen. rewrite pseudo_language. now destruct (language_option _).
  - intros _. now rewrite X_one, (T_s1 t OptionName _ eq_refl).
Qed.
Lemma part_K p : h_part p -> Permutation (K (part_items p) ++ part_missed p) (seen (part_toks p)).
Proof.
  destruct p as [r|t]; cbn [h_part part_items part_missed part_toks].
  - intros ([O C] & Eu & Es). unfold ref_toks. rewrite Es in C. rewrite Es, Eu. destruct (fr_open r) as [o|].
    + destruct C as (_ & (c & -> & _) & _). cbn [otoks opt_toks]. rewrite !K_app, !S_app, !K_mk1, !seen_one. use (option_name_K (fr_name r) (sty TProperty) O). fin.
    + destruct C as (-> & _ & _). cbn [otoks opt_toks app]. rewrite app_nil_r. apply option_name_K. exact O.
  - intros _. rewrite K_mk1, seen_one, app_nil_r. reflexivity.
Qed.
Lemma no_option_items o v : option_value_items no_kw (no_option o) v = [].
Proof. destruct v as [v|]; [|reflexivity]. destruct v; try reflexivity. cbn. now destruct (is_id t). Qed.
Lemma flat_T' {A} (w : A -> list item) m l : Forall (fun x => Permutation (T (w x)) (expected (m x))) l -> Permutation (T (flat_map w l)) (expected (flat_map m l)).
Proof. induction 1 as [|x l P _ IH]; [constructor|]. cbn [flat_map]. rewrite T_app, X_app. now apply Permutation_app. Qed.
Lemma flat_K' {A} (w : A -> list item) ms tk l : Forall (fun x => Permutation (K (w x) ++ ms x) (seen (tk x))) l -> Permutation (K (flat_map w l) ++ flat_map ms l) (seen (flat_map tk l)).
Proof. induction 1 as [|x l P _ IH]; [constructor|]. cbn [flat_map]. rewrite K_app, S_app. use P. use IH. fin. Qed.
Lemma ovalue_T o : h_ovalue o -> Permutation (T (ovalue no_kw no_field o)) (expected (omark value_marks o) ++ oagain value_again o).
Proof. destruct o; [apply value_T|constructor]. Qed.
Lemma ovalue_K o : h_ovalue o -> Permutation (K (ovalue no_kw no_field o) ++ oagain value_missed o) (seen (opt_toks value_toks o) ++ oagain value_doubled o).
Proof. destruct o; [apply value_K|constructor]. Qed.
Lemma T_oeq o : h_orune "=" o -> T (ovisit o) = expected (osign o).
Proof. destruct o; [|reflexivity]. intro R. exact (T_osign "=" (Some t) (ex_intro _ t (conj eq_refl R)) eq_refl). Qed.
Lemma opt_T s o : h_opt s o -> puncts s -> Permutation (T (wo o)) (expected (option_marks o) ++ option_again o).
Proof.
  intros (On & Oe & Ov & Os) P. unfold walk_option, option_marks, option_again. rewrite no_option_items. change (match o_val o with Some v => wv v | None => [] end) with (ovalue no_kw no_field (o_val o)).
  rewrite !T_app, !X_app, T_okeyword, (T_oeq _ Oe), (T_opun _ _ Os P). use (ovalue_T _ Ov). change (T []) with (@nil (token * ttype * bool)). destruct (o_name o) as [ps|]; cbn [omark]; [use (flat_T' _ _ _ (Forall_impl _ part_T On)); fin|fin].
Qed.
Lemma opt_K s o : h_opt s o -> Permutation (K (wo o) ++ option_missed o) (seen (opt_node_toks o) ++ option_doubled o).
Proof.
  intros (On & Oe & Ov & Os). unfold walk_option, option_missed, option_doubled, opt_node_toks. rewrite no_option_items. change (match o_val o with Some v => wv v | None => [] end) with (ovalue no_kw no_field (o_val o)).
  rewrite !K_app, !S_app, K_okeyword. use (ovalue_K _ Ov). use (eq_perm _ _ (K_orune _ _ Oe)). use (eq_perm _ _ (K_orune _ _ Os)). change (K []) with (@nil comment).
  destruct (o_name o) as [ps|]; cbn [opt_toks oagain]; [use (flat_K' _ _ _ _ (Forall_impl _ part_K On)); fin|fin].
Qed.
Lemma copts_T os : h_copts os -> Permutation (T (ocopts no_kw no_field no_option os)) (expected (omark copts_marks os) ++ oagain copts_again os).
Proof.
  destruct os as [c|]; [|constructor]. intros (Ro & Rc & Rs & Oo). cbn [ocopts omark oagain]. unfold walk_copts, copts_marks, copts_again. rewrite !T_app, !X_app, (T_pun _ _ Ro eq_refl), (T_pun _ _ Rc eq_refl), (T_opun _ _ Rs eq_refl).
  use (flat_T wo option_marks option_again _ (Forall_impl _ (fun o H => opt_T "," o H eq_refl) Oo)). fin.
Qed.
Lemma copts_K os : h_copts os -> Permutation (K (ocopts no_kw no_field no_option os) ++ oagain copts_missed os) (seen (opt_toks copts_toks os) ++ oagain copts_doubled os).
Proof.
  destruct os as [c|]; [|constructor]. intros (Ro & Rc & Rs & Oo). cbn [ocopts opt_toks oagain]. unfold walk_copts, copts_missed, copts_toks, copts_doubled. rewrite !K_app, S_cons, !S_app, seen_one.
  use (flat_K wo _ _ _ _ (Forall_impl _ (opt_K ",") Oo)). use (eq_perm _ _ (K_rune _ _ Ro)). use (eq_perm _ _ (K_rune _ _ Rc)). use (eq_perm _ _ (K_orune _ _ Rs)). fin.
Qed.

(** *** Declarations *)
Lemma relem_T e : h_relem e -> Permutation (T (walk_relem no_kw no_field e)) (expected (relem_marks e) ++ relem_again e).
Proof.
  destruct e as [t|v|s to e m]; cbn [h_relem walk_relem relem_marks relem_again].
  - intro R. now rewrite (T_pun _ _ R eq_refl), app_nil_r.
  - apply value_T.
  - intros (Os & Oe). rewrite !T_app, !X_app, !T_okeyword. use (value_T s Os). use (ovalue_T e Oe). fin.
Qed.
Lemma relem_K e : h_relem e -> Permutation (K (walk_relem no_kw no_field e) ++ relem_missed e) (seen (relem_toks e) ++ relem_doubled e).
Proof.
  destruct e as [t|v|s to e m]; cbn [h_relem walk_relem relem_missed relem_toks relem_doubled].
  - intro R. rewrite seen_one, app_nil_r. exact (eq_perm _ _ (K_rune _ _ R)).
  - apply value_K.
  - intros (Os & Oe). rewrite !K_app, !S_app, !K_okeyword. use (value_K s Os). use (ovalue_K e Oe). fin.
Qed.
Lemma rpctype_T r : h_rpctype r -> Permutation (T (walk_rpctype r)) (expected (rpctype_marks r)).
Proof.
  intros (Ro & Rc & Oi). unfold walk_rpctype, rpctype_marks. rewrite !T_app, !X_app, (T_isty _ TypeName _ eq_refl), (T_pun _ _ Ro eq_refl), (T_pun _ _ Rc eq_refl), T_okeyword, (ident_T _ Oi). fin.
Qed.
Lemma rpctype_K r : h_rpctype r -> Permutation (K (walk_rpctype r) ++ rpctype_missed r) (seen (rpctype_toks r) ++ doubled_name (rt_type r)).
Proof.
  intros (Ro & Rc & Oi). unfold walk_rpctype, rpctype_missed, rpctype_toks. rewrite !K_app, S_cons, !S_app, seen_one, K_okeyword. use (name_K _ (sty TType) Oi). use (eq_perm _ _ (K_rune _ _ Ro)). use (eq_perm _ _ (K_rune _ _ Rc)). fin.
Qed.
Lemma named_T kw n o b c sm s r : h_idt n -> h_runet "{" o -> h_runet "}" c -> h_orune ";" sm -> style_of r = Some (s_type s, s_def s) ->
  Forall (fun d => h_decl d -> Permutation (T (wd d)) (expected (decl_marks d) ++ decl_again d)) b -> Forall h_decl b ->
  Permutation (T (mk [n] s ++ keyword kw ++ visit n ++ visit o ++ flat_map wd b ++ visit c ++ ovisit sm))
    (expected ((kw, Keyword) :: (n, r) :: pun o ++ flat_map decl_marks b ++ pun c ++ opun sm) ++ flat_map decl_again b).
Proof.
  intros On Ro Rc Rs E F Ob. rewrite (visit_id _ On), !T_app, X_cons, X_cons, !X_app, T_keyword, (T_pun _ _ Ro eq_refl), (T_pun _ _ Rc eq_refl), (T_opun _ _ Rs eq_refl), (T_g1 n s r E). cbn [all_ map]. use (flat_T wd decl_marks decl_again b (mp_forall _ _ _ F Ob)). change (T []) with (@nil (token * ttype * bool)). fin.
Qed.
Lemma decl_T : forall d, h_decl d -> Permutation (T (wd d)) (expected (decl_marks d) ++ decl_again d).
Proof.
  apply (decl_ind2 (fun d => h_decl d -> Permutation (T (wd d)) (expected (decl_marks d) ++ decl_again d))).
  - intros l ty n e tg os sm (Ot & On & Oe & Ov & Oc & Os). cbn [walk decl_marks decl_again].
    rewrite !T_app, !X_app, type_T, T_okeyword, (ident_T _ Ot), (T_def (otoks n) FieldName _ eq_refl), (ovisit_id _ On), (T_oeq _ Oe), (T_opun _ _ Os eq_refl).
    use (ovalue_T tg Ov). use (copts_T os Oc). change (T []) with (@nil (token * ttype * bool)). fin.
  - intros kw o k cm v c tsm n e tg os sm (Ro & Oi & Rm & Ov & Rc & Rt & On & Re & Og & Oc & Os). cbn [walk decl_marks decl_again].
    rewrite !T_app, X_cons, !X_app, X_cons, !X_app, (T_isty k TypeName _ eq_refl), (T_isty v TypeName _ eq_refl), (T_s1 n MapFieldName _ eq_refl), T_keyword, (T_pun _ _ Ro eq_refl), (ident_T _ Oi), (T_pun _ _ Rm eq_refl), (ident_T _ Ov), (T_pun _ _ Rc eq_refl), (T_opun _ _ Rt eq_refl), (visit_id _ On), (T_sign _ _ Re eq_refl), (T_opun _ _ Os eq_refl).
    use (value_T tg Og). use (copts_T os Oc). change (T []) with (@nil (token * ttype * bool)). cbn [all_ map]. rewrite ?X_one. fin.
  - intros n e v os sm (On & Re & Ov & Oc & Os). cbn [walk decl_marks decl_again].
    rewrite !T_app, X_cons, !X_app, (T_s1 n EnumValueName _ eq_refl), (visit_id _ On), (T_sign _ _ Re eq_refl), (T_opun _ _ Os eq_refl).
    use (value_T v Ov). use (copts_T os Oc). change (T []) with (@nil (token * ttype * bool)). cbn [all_ map]. rewrite ?X_one. fin.
  - exact (fun o H => opt_T ";" o H eq_refl).
  - intros kw es sm (Oe & Os). cbn [walk decl_marks decl_again]. rewrite !T_app, X_cons, !X_app, T_keyword, (T_opun _ _ Os eq_refl). use (flat_T _ _ _ _ (Forall_impl _ relem_T Oe)). fin.
  - intros kw es os sm (Oe & Oc & Os). cbn [walk decl_marks decl_again]. rewrite !T_app, X_cons, !X_app, T_keyword, (T_opun _ _ Os eq_refl). use (flat_T _ _ _ _ (Forall_impl _ relem_T Oe)). use (copts_T os Oc). fin.
  - intros kw n o b c sm F (On & Ro & Rc & Rs & Ob). apply all_forall in Ob. now apply named_T.
  - intros kw n o b c sm F (On & Ro & Rc & Rs & Ob). apply all_forall in Ob. now apply named_T.
  - intros kw n o b c sm F (On & Ro & Rc & Rs & Ob). apply all_forall in Ob. now apply named_T.
  - intros kw x o b c sm F (Ox & Ro & Rc & Rs & Ob). apply all_forall in Ob. cbn [walk decl_marks decl_again].
    assert (E1 : T (match x with Some i => type_items i (sty TType) | None => [] end) = expected (omark (imark TypeName) x)) by (destruct x as [i|]; [exact (type_T i false)|reflexivity]).
    assert (E2 : T (match x with Some i => visits (ident_toks i) | None => [] end) = []) by (destruct x; [apply ident_T; exact Ox|reflexivity]).
    rewrite !T_app, X_cons, !X_app, E1, E2, T_keyword, (T_pun _ _ Ro eq_refl), (T_pun _ _ Rc eq_refl), (T_opun _ _ Rs eq_refl). use (flat_T wd decl_marks decl_again b (mp_forall _ _ _ F Ob)). fin.
  - intros l kw n e tg os o b c sm F (On & Re & Ov & Oc & Ro & Rc & Rs & Ob). apply all_forall in Ob. cbn [walk decl_marks decl_again].
    rewrite !T_app, !X_app, X_cons, X_cons, !X_app, (T_d1 n MessageName _ eq_refl), T_okeyword, T_keyword, (visit_id _ On), (T_sign _ _ Re eq_refl), (T_pun _ _ Ro eq_refl), (T_pun _ _ Rc eq_refl), (T_opun _ _ Rs eq_refl).
    use (value_T tg Ov). use (copts_T os Oc). use (flat_T wd decl_marks decl_again b (mp_forall _ _ _ F Ob)). change (T []) with (@nil (token * ttype * bool)). cbn [all_ map]. rewrite ?X_one. fin.
  - intros kw n o b c sm F (On & Ro & Rc & Rs & Ob). apply all_forall in Ob. now apply named_T.
  - intros kw n i rt u br b sm F (On & Oi & Ou & Rs & Ob & Hb). apply all_forall in Ob. cbn [walk decl_marks decl_again].
    rewrite !T_app, X_cons, X_cons, !X_app, X_cons, !X_app, (T_s1 n MethodName _ eq_refl), !T_keyword, (visit_id _ On), (T_opun _ _ Rs eq_refl).
    use (rpctype_T _ Oi). use (rpctype_T _ Ou). use (flat_T wd decl_marks decl_again b (mp_forall _ _ _ F Ob)). change (T []) with (@nil (token * ttype * bool)). cbn [all_ map]. rewrite ?X_one.
    destruct br as [[o c]|]; [|fin]. destruct Hb as [Ro Rc]. rewrite !T_app, !X_app, (T_pun _ _ Ro eq_refl), (T_pun _ _ Rc eq_refl). fin.
  - intros t R. cbn [walk decl_marks decl_again]. rewrite (T_pun _ _ R eq_refl), app_nil_r. reflexivity.
Qed.
Lemma named_K kw n o b c sm s : h_idt n -> h_runet "{" o -> h_runet "}" c -> h_orune ";" sm ->
  Forall (fun d => h_decl d -> Permutation (K (wd d) ++ decl_missed d) (seen (decl_toks d) ++ decl_doubled d)) b -> Forall h_decl b ->
  Permutation (K (mk [n] s ++ keyword kw ++ visit n ++ visit o ++ flat_map wd b ++ visit c ++ ovisit sm) ++ mute o ++ flat_map decl_missed b ++ mute c ++ omute sm)
    (seen (kw :: n :: o :: flat_map decl_toks b ++ c :: otoks sm) ++ flat_map decl_doubled b).
Proof.
  intros On Ro Rc Rs F Ob. rewrite (visit_id _ On), !K_app, !S_cons, S_app, S_cons, K_mk1, K_keyword. use (flat_K wd decl_missed decl_toks decl_doubled b (mp_forall _ _ _ F Ob)). use (eq_perm _ _ (K_rune _ _ Ro)). use (eq_perm _ _ (K_rune _ _ Rc)). use (eq_perm _ _ (K_orune _ _ Rs)). change (K []) with (@nil comment). fin.
Qed.
Lemma decl_K : forall d, h_decl d -> Permutation (K (wd d) ++ decl_missed d) (seen (decl_toks d) ++ decl_doubled d).
Proof.
  apply (decl_ind2 (fun d => h_decl d -> Permutation (K (wd d) ++ decl_missed d) (seen (decl_toks d) ++ decl_doubled d))).
  - intros l ty n e tg os sm (Ot & On & Oe & Ov & Oc & Os). cbn [walk decl_missed decl_toks decl_doubled].
    rewrite !K_app, !S_app, K_okeyword, K_mko, (ovisit_id _ On).
    use (type_K ty (Style TType (lib_type (name_text (ident_toks ty))) false) Ot). use (ovalue_K tg Ov). use (copts_K os Oc). use (eq_perm _ _ (K_orune _ _ Oe)). use (eq_perm _ _ (K_orune _ _ Os)). change (K []) with (@nil comment). fin.
  - intros kw o k cm v c tsm n e tg os sm (Ro & Oi & Rm & Ov & Rc & Rt & On & Re & Og & Oc & Os). cbn [walk decl_missed decl_toks decl_doubled].
    rewrite !K_app, !S_cons, !S_app, !S_cons, !S_app, !S_cons, !S_app, !S_cons, !S_app, K_keyword, K_mk1, (visit_id _ On). use (name_K k (sty TType) Oi). use (name_K v (sty TType) Ov). use (value_K tg Og). use (copts_K os Oc).
    use (eq_perm _ _ (K_rune _ _ Ro)). use (eq_perm _ _ (K_rune _ _ Rm)). use (eq_perm _ _ (K_rune _ _ Rc)). use (eq_perm _ _ (K_rune _ _ Re)). use (eq_perm _ _ (K_orune _ _ Rt)). use (eq_perm _ _ (K_orune _ _ Os)). change (K []) with (@nil comment). fin.
  - intros n e v os sm (On & Re & Ov & Oc & Os). cbn [walk decl_missed decl_toks decl_doubled]. rewrite !K_app, !S_cons, !S_app, K_mk1, (visit_id _ On). use (value_K v Ov). use (copts_K os Oc). use (eq_perm _ _ (K_rune _ _ Re)). use (eq_perm _ _ (K_orune _ _ Os)). change (K []) with (@nil comment). fin.
  - exact (opt_K ";").
  - intros kw es sm (Oe & Os). cbn [walk decl_missed decl_toks decl_doubled]. rewrite !K_app, !S_cons, !S_app, K_keyword. use (flat_K _ _ _ _ _ (Forall_impl _ relem_K Oe)). use (eq_perm _ _ (K_orune _ _ Os)). fin.
  - intros kw es os sm (Oe & Oc & Os). cbn [walk decl_missed decl_toks decl_doubled]. rewrite !K_app, !S_cons, !S_app, K_keyword. use (flat_K _ _ _ _ _ (Forall_impl _ relem_K Oe)). use (copts_K os Oc). use (eq_perm _ _ (K_orune _ _ Os)). fin.
  - intros kw n o b c sm F (On & Ro & Rc & Rs & Ob). apply all_forall in Ob. now apply named_K.
  - intros kw n o b c sm F (On & Ro & Rc & Rs & Ob). apply all_forall in Ob. now apply named_K.
  - intros kw n o b c sm F (On & Ro & Rc & Rs & Ob). apply all_forall in Ob. now apply named_K.
  - intros kw x o b c sm F (Ox & Ro & Rc & Rs & Ob). apply all_forall in Ob. cbn [walk decl_missed decl_toks decl_doubled].
    assert (E : Permutation (K (match x with Some i => type_items i (sty TType) | None => [] end) ++ K (match x with Some i => visits (ident_toks i) | None => [] end)) (seen (opt_toks ident_toks x) ++ oagain type_doubled x)) by (destruct x; [apply type_K; exact Ox|constructor]).
    rewrite !K_app, !S_cons, !S_app, !S_cons, !S_app, !S_cons, K_keyword. use E. use (flat_K wd decl_missed decl_toks decl_doubled b (mp_forall _ _ _ F Ob)). use (eq_perm _ _ (K_rune _ _ Ro)). use (eq_perm _ _ (K_rune _ _ Rc)). use (eq_perm _ _ (K_orune _ _ Rs)). fin.
  - intros l kw n e tg os o b c sm F (On & Re & Ov & Oc & Ro & Rc & Rs & Ob). apply all_forall in Ob. cbn [walk decl_missed decl_toks decl_doubled].
    rewrite !K_app, !S_app, !S_cons, !S_app, !S_cons, !S_app, !S_cons, K_mk1, K_okeyword, K_keyword, (visit_id _ On). use (value_K tg Ov). use (copts_K os Oc). use (flat_K wd decl_missed decl_toks decl_doubled b (mp_forall _ _ _ F Ob)).
    use (eq_perm _ _ (K_rune _ _ Re)). use (eq_perm _ _ (K_rune _ _ Ro)). use (eq_perm _ _ (K_rune _ _ Rc)). use (eq_perm _ _ (K_orune _ _ Rs)). change (K []) with (@nil comment). fin.
  - intros kw n o b c sm F (On & Ro & Rc & Rs & Ob). apply all_forall in Ob. now apply named_K.
  - intros kw n i rt u br b sm F (On & Oi & Ou & Rs & Ob & Hb). apply all_forall in Ob. cbn [walk decl_missed decl_toks decl_doubled].
    rewrite !K_app, !S_cons, !S_app, !S_cons, !S_app, K_mk1, !K_keyword, (visit_id _ On). use (rpctype_K _ Oi). use (rpctype_K _ Ou). use (flat_K wd decl_missed decl_toks decl_doubled b (mp_forall _ _ _ F Ob)). use (eq_perm _ _ (K_orune _ _ Rs)). change (K []) with (@nil comment).
    destruct br as [[o c]|]; [|fin]. destruct Hb as [Ro Rc]. rewrite !K_app, S_cons, S_app, seen_one. use (eq_perm _ _ (K_rune _ _ Ro)). use (eq_perm _ _ (K_rune _ _ Rc)). fin.
  - intros t R. cbn [walk decl_missed decl_toks decl_doubled]. rewrite seen_one, app_nil_r. exact (eq_perm _ _ (K_rune _ _ R)).
Qed.

(** *** Files *)
Lemma fdecl_T d : h_fdecl d -> Permutation (T (walk_fdecl lib_type no_kw no_field no_option d)) (expected (fdecl_marks d) ++ fdecl_again d).
Proof.
  destruct d as [kw n sm|i|o|d]; cbn [h_fdecl walk_fdecl fdecl_marks fdecl_again].
  - intros (On & Os). rewrite !T_app, X_cons, X_app, T_keyword, (T_opun _ _ Os eq_refl). destruct n as [i|]; cbn [omark]; [rewrite (T_isty i PackageName _ eq_refl), (ident_T _ On); fin|]. change (T []) with (@nil (token * ttype * bool)). fin.
  - intros (Ov & Os). unfold walk_import. rewrite !T_app, X_cons, !X_app, T_keyword, T_okeyword, (T_opun _ _ Os eq_refl). use (value_T _ Ov). fin.
  - exact (fun H => opt_T ";" o H eq_refl).
  - apply decl_T.
Qed.
Lemma fdecl_K d : h_fdecl d -> Permutation (K (walk_fdecl lib_type no_kw no_field no_option d) ++ fdecl_missed d) (seen (fdecl_toks d) ++ fdecl_doubled d).
Proof.
  destruct d as [kw n sm|i|o|d]; cbn [h_fdecl walk_fdecl fdecl_missed fdecl_toks fdecl_doubled].
  - intros (On & Os). rewrite !K_app, S_cons, S_app, K_keyword. use (eq_perm _ _ (K_orune _ _ Os)). destruct n as [i|]; cbn [opt_toks oagain]; [use (name_K i (sty TNamespace) On); fin|]. change (K []) with (@nil comment). fin.
  - intros (Ov & Os). unfold walk_import, import_toks. rewrite !K_app, S_cons, !S_app, K_keyword, K_okeyword. use (value_K _ Ov). use (eq_perm _ _ (K_orune _ _ Os)). fin.
  - exact (opt_K ";" o).
  - apply decl_K.
Qed.
Lemma file_T f : h_file f -> Permutation (T (walk_file lib_type no_kw no_field no_option f)) (expected (file_marks f) ++ file_again f).
Proof.
  intros [Os Od]. unfold walk_file, file_marks, file_again. rewrite T_app, X_app. use (flat_T _ _ _ _ (Forall_impl _ fdecl_T Od)). destruct (f_syntax f) as [[[[k e] v] sm]|]; [|change (T []) with (@nil (token * ttype * bool)); fin].
  destruct Os as (Re & Ov & Rs). rewrite !T_app, X_cons, !X_app, T_keyword, (T_sign _ _ Re eq_refl), (T_opun _ _ Rs eq_refl). use (value_T v Ov). fin.
Qed.
Lemma file_K f : h_file f ->
  Permutation (K (walk_file lib_type no_kw no_field no_option f) ++ file_missed f) (seen (file_toks f) ++ seen (otoks (f_eof f)) ++ file_doubled f).
Proof.
  intros [Os Od]. unfold walk_file, file_missed, file_toks, syntax_toks, file_doubled. rewrite K_app, S_app. use (flat_K _ _ _ _ _ (Forall_impl _ fdecl_K Od)). destruct (f_syntax f) as [[[[k e] v] sm]|]; [|change (K []) with (@nil comment); fin].
  destruct Os as (Re & Ov & Rs). rewrite !K_app, !S_cons, !S_app, K_keyword. use (value_K v Ov). use (eq_perm _ _ (K_rune _ _ Re)). use (eq_perm _ _ (K_orune _ _ Rs)). fin.
Qed.
End Unlinked.

(** ** The roles are given to the tokens, in order *)
Lemma F_app (a b : marks) : map fst (a ++ b) = map fst a ++ map fst b.
Proof. apply map_app. Qed.
Lemma F_all r ts : map fst (all_ r ts) = ts.
Proof. induction ts; [reflexivity|]. cbn. now f_equal. Qed.
Lemma F_imark r i : map fst (imark r i) = ident_toks i.
Proof. apply F_all. Qed.
Lemma F_okw o : map fst (okw o) = otoks o.
Proof. apply F_all. Qed.
Lemma F_opun o : map fst (opun o) = otoks o.
Proof. now destruct o. Qed.
Lemma F_osign o : map fst (osign o) = otoks o.
Proof. now destruct o. Qed.
Lemma F_pun t : map fst (pun t) = [t].
Proof. reflexivity. Qed.
Lemma F_sign t : map fst (sign t) = [t].
Proof. reflexivity. Qed.
Lemma F_cons t r (m : marks) : map fst ((t, r) :: m) = t :: map fst m.
Proof. reflexivity. Qed.
Lemma F_flat {A} (m : A -> marks) (tk : A -> list token) l : Forall (fun x => map fst (m x) = tk x) l -> map fst (flat_map m l) = flat_map tk l.
Proof. induction 1 as [|x l E _ IH]; [reflexivity|]. cbn [flat_map]. now rewrite F_app, E, IH. Qed.
Ltac fm := repeat first [rewrite F_app | rewrite F_cons | rewrite F_all | rewrite F_imark | rewrite F_okw | rewrite F_opun | rewrite F_osign | rewrite F_pun | rewrite F_sign]; cbn [app].
Lemma ref_F r : h_ref r -> map fst (ref_marks r) = ref_toks r.
Proof.
  intros [_ C]. unfold ref_marks, ref_toks. destruct (fr_open r) as [o|].
  - destruct C as (_ & (c & -> & _) & C). destruct (fr_slash r) as [s|]; [destruct C as (_ & u & -> & _)|rewrite C]; cbn [omark opt_toks otoks]; fm; reflexivity.
  - destruct C as (-> & -> & ->). cbn [opt_toks otoks app]. fm. now rewrite app_nil_r.
Qed.
Lemma weave_F : forall (vs : list marks) (ts : list (list token)) cs, map (map fst) vs = ts -> map fst (weave_marks vs cs) = interleave ts cs.
Proof.
  induction vs as [|v vs IH]; intros ts cs E; subst ts; cbn [map weave_marks interleave].
  - induction cs as [|c cs IHc]; [reflexivity|]. cbn [flat_map]. fm. now f_equal.
  - destruct cs as [|c cs]; fm; [|f_equal; f_equal]; [f_equal|]; now apply IH.
Qed.
Lemma value_F : forall v, h_value v -> map fst (value_marks v) = value_toks v.
Proof.
  apply (value_ind2 (fun v => h_value v -> map fst (value_marks v) = value_toks v) (fun m => h_field m -> map fst (field_marks m) = field_toks m)).
  - reflexivity.
  - intros ts _. apply F_all.
  - intros ts _. apply F_all.
  - reflexivity.
  - intros o fs c sm IH O. apply h_value_msg in O as (_ & _ & _ & F). cbn [value_marks value_toks]. fm. now rewrite (F_flat _ _ _ (mp_forall _ _ _ IH F)).
  - intros o vs cs c sm IH O. apply h_value_arr in O as (_ & _ & _ & _ & F). cbn [value_marks value_toks]. fm. rewrite (weave_F _ (map value_toks vs)); [reflexivity|]. rewrite map_map. apply map_ext_Forall. exact (mp_forall _ _ _ IH F).
  - intros n s v sm IH (On & Ov & _). cbn [field_marks field_toks]. fm. now rewrite (ref_F _ On), (IH Ov).
Qed.
Lemma ovalue_F o : h_ovalue o -> map fst (omark value_marks o) = opt_toks value_toks o.
Proof. destruct o; [apply value_F|reflexivity]. Qed.
Lemma part_F p : h_part p -> map fst (part_marks p) = part_toks p.
Proof.
  destruct p as [r|t]; [|reflexivity]. intros ([_ C] & Eu & Es). cbn [part_marks part_toks]. unfold ref_toks. rewrite Es in C. rewrite Es, Eu. destruct (fr_open r) as [o|].
  - destruct C as (_ & (c & -> & _) & _). cbn [opt_toks otoks]. now fm.
  - destruct C as (-> & _ & _). cbn [opt_toks otoks app]. fm. now rewrite app_nil_r.
Qed.
Lemma opt_F s o : h_opt s o -> map fst (option_marks o) = opt_node_toks o.
Proof.
  intros (On & _ & Ov & _). unfold option_marks, opt_node_toks. fm. rewrite (ovalue_F _ Ov). f_equal. f_equal. destruct (o_name o) as [ps|]; [|reflexivity]. apply F_flat. revert On. apply Forall_impl. exact part_F.
Qed.
Lemma copts_F os : h_copts os -> map fst (omark copts_marks os) = opt_toks copts_toks os.
Proof.
  destruct os as [c|]; [|reflexivity]. intros (_ & _ & _ & Oo). cbn [omark opt_toks]. unfold copts_marks, copts_toks. fm. now rewrite (F_flat _ _ _ (Forall_impl _ (opt_F ",") Oo)).
Qed.
Lemma relem_F e : h_relem e -> map fst (relem_marks e) = relem_toks e.
Proof.
  destruct e as [t|v|s to e m]; [reflexivity|apply value_F|]. intros (Os & Oe). cbn [relem_marks relem_toks]. fm. now rewrite (value_F _ Os), (ovalue_F _ Oe).
Qed.
Lemma rpctype_F r : map fst (rpctype_marks r) = rpctype_toks r.
Proof. unfold rpctype_marks, rpctype_toks. now fm. Qed.
Lemma decl_F : forall d, h_decl d -> map fst (decl_marks d) = decl_toks d.
Proof.
  apply (decl_ind2 (fun d => h_decl d -> map fst (decl_marks d) = decl_toks d)).
  - intros l ty n e tg os sm (_ & _ & _ & Ov & Oc & _). cbn [decl_marks decl_toks]. fm. now rewrite (ovalue_F _ Ov), (copts_F _ Oc).
  - intros kw o k cm v c tsm n e tg os sm (_ & _ & _ & _ & _ & _ & _ & _ & Og & Oc & _). cbn [decl_marks decl_toks]. fm. now rewrite (value_F _ Og), (copts_F _ Oc).
  - intros n e v os sm (_ & _ & Ov & Oc & _). cbn [decl_marks decl_toks]. fm. now rewrite (value_F _ Ov), (copts_F _ Oc).
  - exact (opt_F ";").
  - intros kw es sm (Oe & _). cbn [decl_marks decl_toks]. fm. now rewrite (F_flat _ _ _ (Forall_impl _ relem_F Oe)).
  - intros kw es os sm (Oe & Oc & _). cbn [decl_marks decl_toks]. fm. now rewrite (F_flat _ _ _ (Forall_impl _ relem_F Oe)), (copts_F _ Oc).
  - intros kw n o b c sm F (_ & _ & _ & _ & Ob). apply all_forall in Ob. cbn [decl_marks decl_toks]. fm. now rewrite (F_flat _ _ _ (mp_forall _ _ _ F Ob)).
  - intros kw n o b c sm F (_ & _ & _ & _ & Ob). apply all_forall in Ob. cbn [decl_marks decl_toks]. fm. now rewrite (F_flat _ _ _ (mp_forall _ _ _ F Ob)).
  - intros kw n o b c sm F (_ & _ & _ & _ & Ob). apply all_forall in Ob. cbn [decl_marks decl_toks]. fm. now rewrite (F_flat _ _ _ (mp_forall _ _ _ F Ob)).
  - intros kw x o b c sm F (_ & _ & _ & _ & Ob). apply all_forall in Ob. cbn [decl_marks decl_toks]. destruct x; cbn [omark opt_toks]; fm; now rewrite (F_flat _ _ _ (mp_forall _ _ _ F Ob)).
  - intros l kw n e tg os o b c sm F (_ & _ & Ov & Oc & _ & _ & _ & Ob). apply all_forall in Ob. cbn [decl_marks decl_toks]. fm. now rewrite (value_F _ Ov), (copts_F _ Oc), (F_flat _ _ _ (mp_forall _ _ _ F Ob)).
  - intros kw n o b c sm F (_ & _ & _ & _ & Ob). apply all_forall in Ob. cbn [decl_marks decl_toks]. fm. now rewrite (F_flat _ _ _ (mp_forall _ _ _ F Ob)).
  - intros kw n i rt u br b sm F (_ & _ & _ & _ & Ob & _). apply all_forall in Ob. cbn [decl_marks decl_toks]. destruct br as [[o c]|]; fm; rewrite !rpctype_F, (F_flat _ _ _ (mp_forall _ _ _ F Ob)); [now rewrite <- app_assoc|reflexivity].
  - reflexivity.
Qed.
Lemma file_F f : h_file f -> map fst (file_marks f) = file_toks f.
Proof.
  intros [Os Od]. unfold file_marks, file_toks, syntax_toks. rewrite F_app. f_equal.
  - destruct (f_syntax f) as [[[[k e] v] sm]|]; [|reflexivity]. destruct Os as (_ & Ov & _). fm. now rewrite (value_F _ Ov).
  - apply F_flat. revert Od. apply Forall_impl. intros [kw n sm|i|o|d]; cbn [h_fdecl fdecl_marks fdecl_toks].
    + intros _. destruct n; cbn [omark opt_toks]; now fm.
    + intros (Ov & _). unfold import_toks. fm. now rewrite (value_F _ Ov).
    + exact (opt_F ";" o).
    + apply decl_F.
Qed.

(** ** What the linker's results add *)
Section Linked.
Variable lib_type : bytes -> bool.
Variable kw : token -> bool.
Variable fk : mfield -> option vkind.
Variable ok : opt -> option vkind.
Variable V : token -> Prop.
Definition tints : list ttype := [TKeyword; TEnumMember; TNumber; TVariable].
Definition Ext (l' l : list item) : Prop := exists X : list (token * ttype),
  Permutation (T l') (T l ++ map (fun x => (fst x, snd x, false)) X) /\ Permutation (K l') (K l ++ flat_map (fun x => seen1 (fst x)) X) /\
  Forall (fun x => V (fst x) /\ In (snd x) tints) X.
Lemma Ext_refl l : Ext l l.
Proof. exists []. cbn. rewrite !app_nil_r. split; [reflexivity|split; [reflexivity|constructor]]. Qed.
Lemma Ext_app a' a b' b : Ext a' a -> Ext b' b -> Ext (a' ++ b') (a ++ b).
Proof.
  intros (X & P & Q & F) (Y & P' & Q' & F'). exists (X ++ Y). rewrite !T_app, !K_app, map_app, flat_map_app. split; [use P; use P'; perm|]. split; [use Q; use Q'; perm|]. apply Forall_app. now split.
Qed.
Lemma Ext_one t ty : V t -> In ty tints -> Ext (mk [t] (sty ty)) [].
Proof.
  intros v I. exists [(t, ty)]. change (T []) with (@nil (token * ttype * bool)). change (K []) with (@nil comment). rewrite K_mk1. cbn [map flat_map fst snd app]. rewrite app_nil_r. split; [|split; [reflexivity|constructor; [split; assumption|constructor]]].
  change (T (mk [t] (sty ty))) with ((t, ty, false) :: T (coms [t])). now rewrite T_coms.
Qed.
Lemma Ext_flat {A} (w' w : A -> list item) l : Forall (fun x => Ext (w' x) (w x)) l -> Ext (flat_map w' l) (flat_map w l).
Proof. induction 1; [apply Ext_refl|]. cbn [flat_map]. now apply Ext_app. Qed.
Definition vals (m : marks) : Prop := forall t, val_tok m t -> V t.
Lemma vals_app a b : vals (a ++ b) -> vals a /\ vals b.
Proof. intro H. split; intros t [I|I]; apply H; [left|right|left|right]; apply in_or_app; auto. Qed.
Lemma vals_cons x b : vals (x :: b) -> vals b.
Proof. intros H t [I|I]; apply H; [left|right]; now right. Qed.
Lemma vals_flat {A} (m : A -> marks) l : vals (flat_map m l) -> Forall (fun x => vals (m x)) l.
Proof. induction l as [|x l IH]; [constructor|]. cbn [flat_map]. intro H. apply vals_app in H as [H1 H2]. constructor; auto. Qed.
Ltac tint := apply Ext_one; [assumption|unfold tints; cbn; tauto].
Lemma literal_E k v : vals (value_marks v) -> Ext (literal_items k v) [].
Proof.
  intro H. assert (R := Ext_refl []). destruct k as [[| |ms|]|]; try exact R; destruct v as [t| | | | |]; try exact R; cbn [literal_items].
  - unfold special. destruct (t_kind t) eqn:E; try exact R. destruct (is_special _); [|exact R]. assert (v := H t ltac:(right; cbn; rewrite E; now left)). tint.
  - unfold is_id. destruct (t_kind t) eqn:E; try exact R. cbn [andb]. destruct (is_bool _); [|exact R]. assert (v := H t ltac:(left; cbn; rewrite E; now left)). tint.
  - unfold is_id. destruct (t_kind t) eqn:E; try exact R. cbn [andb]. destruct (member _ _); [|exact R]. assert (v := H t ltac:(left; cbn; rewrite E; now left)). tint.
Qed.
Lemma element_E k v : vals (value_marks v) -> Ext (element_items kw k v) [].
Proof.
  intro H. assert (R := Ext_refl []). destruct k as [[| |ms|]|]; try exact (literal_E _ v H). destruct v as [t| | | | |]; try exact R. cbn [element_items].
  unfold is_id. destruct (t_kind t) eqn:E; try exact R. cbn [andb]. destruct (kw t && is_bool _); [|exact R]. assert (v := H t ltac:(left; cbn; rewrite E; now left)). tint.
Qed.
Lemma vals_weave : forall vs cs, vals (weave_marks (map value_marks vs) cs) -> Forall (fun v => vals (value_marks v)) vs.
Proof.
  induction vs as [|v vs IH]; intros cs H; [constructor|]. cbn [map weave_marks] in H. destruct cs as [|c cs].
  - apply vals_app in H as [H1 H2]. constructor; [exact H1|exact (IH [] H2)].
  - apply vals_app in H as [H1 H2]. apply vals_app in H2 as [_ H2]. constructor; [exact H1|exact (IH cs H2)].
Qed.
Lemma field_value_E k v : vals (value_marks v) -> Ext (field_value_items kw k v) [].
Proof.
  intro H. destruct v as [| | | | |o vs cs c sm]; try exact (literal_E _ _ H). cbn [field_value_items value_marks] in *. apply vals_app in H as [_ H]. apply vals_app in H as [H _]. apply vals_weave in H.
  replace (@nil item) with (flat_map (fun _ : value => @nil item) vs) by (induction vs; [reflexivity|]; inversion H; subst; now apply IHvs). apply Ext_flat. revert H. apply Forall_impl. apply element_E.
Qed.
Lemma visit_value_E t : vals [(t, match t_kind t with KId => ValueName | KNum => Number | KStr => StringLiteral | KRune => Punctuation end)] -> Ext (visit_value kw t) (visit_value no_kw t).
Proof.
  intro H. unfold visit_value, is_id. destruct (t_kind t) eqn:E; try apply Ext_refl. unfold no_kw. destruct (kw t); [|apply Ext_refl]. assert (v := H t ltac:(left; now left)). unfold keyword. tint.
Qed.
Lemma wv'_msg o fs c sm : walk_value kw fk (VMsg o fs c sm) = visit o ++ flat_map (walk_field kw fk) fs ++ visit c ++ ovisit sm.
Proof. reflexivity. Qed.
Lemma wv'_arr o vs cs c sm : walk_value kw fk (VArr o vs cs c sm) = visit o ++ weave (map (walk_value kw fk) vs) cs ++ visit c ++ ovisit sm.
Proof. reflexivity. Qed.
Lemma wf'_field n s v sm : walk_field kw fk (MField n s v sm) = ref_items n ++ field_value_items kw (fk (MField n s v sm)) v ++ visits (ref_toks n) ++ ovisit s ++ walk_value kw fk v ++ ovisit sm.
Proof. reflexivity. Qed.
Lemma weave_E : forall vs cs, Forall (fun v => Ext (walk_value kw fk v) (walk_value no_kw no_field v)) vs -> Ext (weave (map (walk_value kw fk) vs) cs) (weave (map (walk_value no_kw no_field) vs) cs).
Proof.
  induction vs as [|v vs IH]; intros cs H; [apply Ext_refl|]. inversion H as [|? ? H1 H2]; subst. cbn [map weave]. destruct cs; repeat apply Ext_app; try apply Ext_refl; try exact H1; now apply IH.
Qed.
Lemma value_E : forall v, vals (value_marks v) -> Ext (walk_value kw fk v) (walk_value no_kw no_field v).
Proof.
  apply (value_ind2 (fun v => vals (value_marks v) -> Ext (walk_value kw fk v) (walk_value no_kw no_field v)) (fun m => vals (field_marks m) -> Ext (walk_field kw fk m) (walk_field no_kw no_field m))).
  - exact visit_value_E.
  - intros. apply Ext_refl.
  - intros. apply Ext_refl.
  - intros. apply Ext_refl.
  - intros o fs c sm IH H. rewrite wv'_msg, wv_msg. cbn [value_marks] in H. apply vals_app in H as [_ H]. apply vals_app in H as [H _]. repeat apply Ext_app; try apply Ext_refl. apply Ext_flat. exact (mp_forall _ _ _ IH (vals_flat _ _ H)).
  - intros o vs cs c sm IH H. rewrite wv'_arr, wv_arr. cbn [value_marks] in H. apply vals_app in H as [_ H]. apply vals_app in H as [H _]. repeat apply Ext_app; try apply Ext_refl. apply weave_E. exact (mp_forall _ _ _ IH (vals_weave _ _ H)).
  - intros n s v sm IH H. rewrite wf'_field, wf_field, no_field_items. cbn [field_marks] in H. apply vals_app in H as [_ H]. apply vals_app in H as [_ H]. apply vals_app in H as [H _]. repeat apply Ext_app; try apply Ext_refl; [now apply field_value_E|now apply IH].
Qed.
Lemma ovalue_E o : vals (omark value_marks o) -> Ext (ovalue kw fk o) (ovalue no_kw no_field o).
Proof. destruct o; [apply value_E|intros; apply Ext_refl]. Qed.
Lemma option_value_E k v : vals (omark value_marks v) -> Ext (option_value_items kw k v) [].
Proof.
  intro H. assert (R := Ext_refl []). destruct v as [v|]; [|exact R]. destruct v as [t| | | | |]; try exact R. cbn [option_value_items]. unfold is_id. destruct (t_kind t) eqn:E; try exact R. cbn [andb]. destruct (negb _); [|exact R].
  assert (v := H t ltac:(left; cbn; rewrite E; now left)). destruct k as [[| |ms|]|]; try exact R.
  - destruct (is_special _); [tint|exact R].
  - destruct (is_bool _); tint.
  - destruct (member _ _); tint.
Qed.
Lemma option_E o : vals (option_marks o) -> Ext (walk_option kw fk ok o) (walk_option no_kw no_field no_option o).
Proof.
  unfold option_marks, walk_option. intro H. apply vals_app in H as [_ H]. apply vals_app in H as [_ H]. apply vals_app in H as [_ H]. apply vals_app in H as [H _]. rewrite no_option_items. repeat apply Ext_app; try apply Ext_refl; [now apply option_value_E|exact (ovalue_E _ H)].
Qed.
Lemma copts_E os : vals (omark copts_marks os) -> Ext (ocopts kw fk ok os) (ocopts no_kw no_field no_option os).
Proof.
  destruct os as [c|]; [|intros; apply Ext_refl]. cbn [omark ocopts]. unfold copts_marks, walk_copts. intro H. apply vals_app in H as [_ H]. apply vals_app in H as [H _]. repeat apply Ext_app; try apply Ext_refl. apply Ext_flat. exact (Forall_impl _ option_E (vals_flat _ _ H)).
Qed.
Lemma relem_E e : vals (relem_marks e) -> Ext (walk_relem kw fk e) (walk_relem no_kw no_field e).
Proof.
  destruct e as [t|v|s to e m]; cbn [relem_marks walk_relem]; intro H; [apply Ext_refl|now apply value_E|]. apply vals_app in H as [H1 H]. apply vals_app in H as [_ H]. apply vals_app in H as [H _]. repeat apply Ext_app; try apply Ext_refl; [now apply value_E|now apply ovalue_E].
Qed.
Notation wd' := (walk lib_type kw fk ok).
Notation wd0 := (walk lib_type no_kw no_field no_option).
Lemma body_E b : Forall (fun d => vals (decl_marks d) -> Ext (wd' d) (wd0 d)) b -> vals (flat_map decl_marks b) -> Ext (flat_map wd' b) (flat_map wd0 b).
Proof. intros F H. apply Ext_flat. exact (mp_forall _ _ _ F (vals_flat _ _ H)). Qed.
Ltac pick := repeat match goal with
  | H : vals (_ ++ _) |- _ => apply vals_app in H as [? ?]
  | H : vals (_ :: _) |- _ => apply vals_cons in H
  end.
Ltac ext := repeat apply Ext_app; try apply Ext_refl; auto using value_E, ovalue_E, copts_E, body_E.
Lemma decl_E : forall d, vals (decl_marks d) -> Ext (wd' d) (wd0 d).
Proof.
  apply (decl_ind2 (fun d => vals (decl_marks d) -> Ext (wd' d) (wd0 d))).
  - intros l ty n e tg os sm H. cbn [walk decl_marks] in *. pick. ext.
  - intros k0 o k cm v c tsm n e tg os sm H. cbn [walk decl_marks] in *. pick. ext.
  - intros n e v os sm H. cbn [walk decl_marks] in *. pick. ext.
  - exact option_E.
  - intros k0 es sm H. cbn [walk decl_marks] in *. pick. ext. apply Ext_flat. apply (Forall_impl _ relem_E). now apply vals_flat.
  - intros k0 es os sm H. cbn [walk decl_marks] in *. pick. ext. apply Ext_flat. apply (Forall_impl _ relem_E). now apply vals_flat.
  - intros k0 n o b c sm F H. cbn [walk decl_marks] in *. pick. ext.
  - intros k0 n o b c sm F H. cbn [walk decl_marks] in *. pick. ext.
  - intros k0 n o b c sm F H. cbn [walk decl_marks] in *. pick. ext.
  - intros k0 x o b c sm F H. cbn [walk decl_marks] in *. pick. ext.
  - intros l k0 n e tg os o b c sm F H. cbn [walk decl_marks] in *. pick. ext.
  - intros k0 n o b c sm F H. cbn [walk decl_marks] in *. pick. ext.
  - intros k0 n i rt u br b sm F H. cbn [walk decl_marks] in *. destruct br as [[o c]|]; pick; ext.
  - intros. apply Ext_refl.
Qed.
Lemma file_E f : vals (file_marks f) -> Ext (walk_file lib_type kw fk ok f) (walk_file lib_type no_kw no_field no_option f).
Proof.
  unfold file_marks, walk_file. intro H. apply vals_app in H as [H1 H2]. apply Ext_app.
  - destruct (f_syntax f) as [[[[k e] v] sm]|]; [|apply Ext_refl]. pick. ext.
  - apply Ext_flat. apply vals_flat in H2. revert H2. apply Forall_impl. intros [k0 n sm|i|o|d] H; cbn [fdecl_marks walk_fdecl] in *.
    + ext.
    + unfold walk_import. pick. ext.
    + now apply option_E.
    + now apply decl_E.
Qed.
End Linked.

(** ** Comments reported twice are comments of the file *)
Section Doubled.
Variable c : comment.
Lemma D_flat {A} (f : A -> list comment) (g : A -> list token) l : Forall (fun x => In c (f x) -> In c (seen (g x))) l -> In c (flat_map f l) -> In c (seen (flat_map g l)).
Proof. induction 1 as [|x l P _ IH]; [tauto|]. cbn [flat_map]. rewrite S_app, !in_app_iff. tauto. Qed.
Lemma D_each {A} (f : A -> list comment) (g : A -> list token) l : (forall x, In c (f x) -> In c (seen (g x))) -> In c (flat_map f l) -> In c (seen (flat_map g l)).
Proof. intro H. apply D_flat. rewrite Forall_forall. auto. Qed.
Lemma D_loud t : In c (loud t) -> In c (seen1 t).
Proof. unfold loud. destruct (quiet t); [intros []|tauto]. Qed.
Lemma D_oloud o : In c (oagain loud o) -> In c (seen (otoks o)).
Proof. destruct o; [|intros []]. cbn [oagain otoks]. rewrite seen_one. apply D_loud. Qed.
Lemma D_type i : In c (doubled_type i) -> In c (seen (ident_toks i)).
Proof. unfold doubled_type, seen. rewrite !in_flat_map. intros (t & I & L). exists t. split; [exact I|now apply D_loud]. Qed.
Lemma D_type' i : In c (type_doubled i) -> In c (seen (ident_toks i)).
Proof. destruct i; [intros []|apply D_type]. Qed.
Lemma D_name i : In c (doubled_name i) -> In c (seen (ident_toks i)).
Proof. unfold doubled_name. destruct (ident_toks i) as [|t r]; [intros []|]. destruct (quiet t); [intros []|]. rewrite S_cons. unfold seen1. rewrite !in_app_iff. tauto. Qed.
Lemma D_oname o : In c (oagain doubled_name o) -> In c (seen (opt_toks ident_toks o)).
Proof. destruct o; [apply D_name|intros []]. Qed.
Lemma D_ref r : In c (ref_doubled r) -> In c (seen (ref_toks r)).
Proof.
  unfold ref_doubled, ref_toks. rewrite !S_app, !in_app_iff. intros [H|[H|[H|[H|H]]]]; [apply D_oloud in H|apply D_oname in H|apply D_oloud in H|apply D_name in H|apply D_oloud in H]; tauto.
Qed.
Lemma D_weave : forall vs cs, Forall (fun v => In c (value_doubled v) -> In c (seen (value_toks v))) vs -> In c (flat_map value_doubled vs) -> In c (seen (interleave (map value_toks vs) cs)).
Proof.
  induction vs as [|v vs IH]; intros cs F H; [destruct H|]. inversion F as [|? ? F1 F2]; subst. cbn [map interleave flat_map] in *. apply in_app_or in H. destruct cs as [|x cs]; rewrite ?S_app, ?S_cons, !in_app_iff; (destruct H as [H|H]; [tauto|]); [apply (IH [] F2) in H|apply (IH cs F2) in H]; tauto.
Qed.
Lemma D_value : forall v, In c (value_doubled v) -> In c (seen (value_toks v)).
Proof.
  apply (value_ind2 (fun v => In c (value_doubled v) -> In c (seen (value_toks v))) (fun m => In c (field_doubled m) -> In c (seen (field_toks m)))); try (intros; contradiction).
  - intros o fs cl sm IH H. cbn [value_doubled value_toks] in *. apply (D_flat _ _ _ IH) in H. rewrite S_cons, !S_app, !in_app_iff. tauto.
  - intros o vs cs cl sm IH H. cbn [value_doubled value_toks] in *. apply (D_weave _ cs IH) in H. rewrite S_cons, !S_app, !in_app_iff. tauto.
  - intros n s v sm IH H. cbn [field_doubled field_toks] in *. rewrite !S_app, !in_app_iff in *. destruct H as [H|H]; [apply D_ref in H|]; tauto.
Qed.
Lemma D_ovalue o : In c (oagain value_doubled o) -> In c (seen (opt_toks value_toks o)).
Proof. destruct o; [apply D_value|intros []]. Qed.
Lemma D_option o : In c (option_doubled o) -> In c (seen (opt_node_toks o)).
Proof. unfold option_doubled, opt_node_toks. intro H. apply D_ovalue in H. rewrite !S_app, !in_app_iff. tauto. Qed.
Lemma D_copts os : In c (oagain copts_doubled os) -> In c (seen (opt_toks copts_toks os)).
Proof.
  destruct os as [o|]; [|intros []]. cbn [oagain opt_toks]. unfold copts_doubled, copts_toks. intro H. apply (D_each _ _ _ D_option) in H. rewrite S_cons, !S_app, !in_app_iff. tauto.
Qed.
Lemma D_relem e : In c (relem_doubled e) -> In c (seen (relem_toks e)).
Proof.
  destruct e as [t|v|s to e m]; cbn [relem_doubled relem_toks]; [intros []|apply D_value|]. rewrite !S_app, !in_app_iff. intros [H|H]; [apply D_value in H|apply D_ovalue in H]; tauto.
Qed.
Ltac dd := repeat match goal with H : In c (_ ++ _) |- _ => apply in_app_or in H; destruct H as [H|H] end;
  repeat match goal with
  | H : In c (oagain value_doubled _) |- _ => apply D_ovalue in H
  | H : In c (value_doubled _) |- _ => apply D_value in H
  | H : In c (oagain copts_doubled _) |- _ => apply D_copts in H
  | H : In c (doubled_name _) |- _ => apply D_name in H
  | H : In c (type_doubled _) |- _ => apply D_type' in H
  | H : In c (flat_map relem_doubled _) |- _ => apply (D_each _ _ _ D_relem) in H
  | F : Forall _ ?b, H : In c (flat_map decl_doubled ?b) |- _ => apply (D_flat _ _ _ F) in H
  end; repeat first [rewrite S_cons | rewrite S_app]; rewrite ?in_app_iff; tauto.
Lemma D_decl : forall d, In c (decl_doubled d) -> In c (seen (decl_toks d)).
Proof.
  apply (decl_ind2 (fun d => In c (decl_doubled d) -> In c (seen (decl_toks d)))); cbn [decl_doubled decl_toks]; intros; try contradiction; try dd; try (now apply D_option).
  - destruct x as [i|]; cbn [oagain opt_toks] in *; [dd|cbn [app] in *; dd].
  - unfold rpctype_toks. destruct br as [[o cl]|]; dd.
Qed.
Lemma D_file f : In c (file_doubled f) -> In c (seen (file_toks f)).
Proof.
  unfold file_doubled, file_toks. rewrite S_app, !in_app_iff. intros [H|H].
  - left. destruct (f_syntax f) as [[[[k e] v] sm]|]; [|contradiction]. cbn [syntax_toks]. dd.
  - right. revert H. apply D_each. intros [k n sm|i|o|d]; cbn [fdecl_doubled fdecl_toks].
    + intro H. apply D_oname in H. rewrite S_cons, S_app, !in_app_iff. tauto.
    + intro H. apply D_value in H. unfold import_toks. rewrite S_cons, !S_app, !in_app_iff. tauto.
    + apply D_option.
    + apply D_decl.
Qed.
End Doubled.

(** ** Concrete files *)
Ltac hdot := first [apply h_one; reflexivity | apply h_more; [reflexivity|hrune|hdot]]
with hrune := split; [reflexivity|eexists; split; [reflexivity|cbn; tauto]].
Ltac hw1 := match goal with
  | |- True => exact I
  | |- _ /\ _ => split
  | |- h_file ?f => unfold h_file; let y := eval hnf in f in change f with y; cbn [f_syntax f_decls]
  | |- _ = _ => reflexivity
  | |- _ -> False => discriminate
  | |- Forall _ [] => constructor
  | |- Forall _ (_ :: _) => constructor
  | |- Forall ?P ?l => let y := eval hnf in l in progress change (Forall P y)
  | |- h_runet _ _ => hrune
  | |- h_some _ _ => eexists; split; [reflexivity|hrune]
  | |- exists _, _ => eexists
  | |- _ \/ _ => first [left; hdot | right; do 2 eexists; split; [reflexivity|split; [hrune|hdot]] | cbn; tauto]
  | |- _ => progress hnf
  end.
Ltac hw := repeat hw1.

(* marks of library types, numbers that are words *)
Lemma contains_spec s w : contains s w = true <-> exists a b, s = a ++ w ++ b.
Proof.
  induction s as [|c s IH]; cbn [contains].
  - rewrite orb_false_r, has_prefix_spec. split.
    + intros (r & E). exists [], r. exact E.
    + intros (a & b & E). destruct a; [exists b; exact E|discriminate].
  - rewrite orb_true_iff, has_prefix_spec, IH. split.
    + intros [(r & E)|(a & b & E)]; [exists [], r; exact E|]. exists (c :: a), b. cbn. now rewrite E.
    + intros ([|x a] & b & E); [left; exists b; exact E|]. right. injection E as _ E. now exists a, b.
Qed.
Lemma library_spec s : contains (trim_dot s) (b_ "google.protobuf.") = true <-> exists a b, s = a ++ b_ "google.protobuf." ++ b.
Proof.
  rewrite contains_spec. destruct s as [|c s]; [reflexivity|]. cbn [trim_dot]. destruct (Ascii.eqb_spec c "."); [|reflexivity]. subst c. split.
  - intros (a & b & E). exists ("."%char :: a), b. cbn [app]. now rewrite E.
  - intros ([|x a] & b & E); [discriminate|]. injection E as _ E. now exists a, b.
Qed.
Lemma not_in_coms us s ts : ~ In (Tok us s) (coms ts).
Proof. unfold coms. intro I. apply in_app_or in I as [I|I]; apply in_map_iff in I as (? & D & _); discriminate. Qed.
Lemma in_mk us s ts s' : In (Tok us s) (mk ts s') -> s = s'.
Proof. destruct ts as [|t ts]; [intros []|]. intros [I|I]; [now injection I as _ <-|now apply not_in_coms in I]. Qed.
Lemma compound_lib us s ts : In (Tok us s) (compound ts) -> s_lib s = contains (trim_dot (name_text ts)) (b_ "google.protobuf.").
Proof.
  unfold compound. set (st := Style _ _ _). intro I. assert (E : s = st) by (destruct (tight ts); [now apply in_mk in I|apply in_flat_map in I as (t & _ & I); now apply in_mk in I]). now rewrite E.
Qed.
Lemma lower1_case c d : 97 <= nat_of_ascii d <= 122 -> Ascii.eqb (lower1 c) d = Ascii.eqb c d || (nat_of_ascii c + 32 =? nat_of_ascii d).
Proof.
  intro B. unfold lower1. destruct ((65 <=? nat_of_ascii c) && (nat_of_ascii c <=? 90)) eqn:E.
  - apply andb_true_iff in E as [E1 E2]. apply Nat.leb_le in E1. apply Nat.leb_le in E2. assert (N : Ascii.eqb c d = false) by (apply Ascii.eqb_neq; intros ->; lia). rewrite N. cbn [orb].
    destruct (Nat.eqb_spec (nat_of_ascii c + 32) (nat_of_ascii d)) as [H|H].
    + rewrite H, ascii_nat_embedding. apply Ascii.eqb_refl.
    + apply Ascii.eqb_neq. intros <-. apply H. rewrite nat_ascii_embedding by lia. reflexivity.
  - assert (N : (nat_of_ascii c + 32 =? nat_of_ascii d) = false); [|now rewrite N, orb_false_r].
    apply Nat.eqb_neq. intro H. apply andb_false_iff in E as [E|E]; apply Nat.leb_gt in E; lia.
Qed.
Lemma lower_word w : Forall (fun d => 97 <= nat_of_ascii d <= 122) w -> forall s, beq (map lower1 s) w = in_some_case s w.
Proof.
  induction 1 as [|d w B _ IH]; intros [|c s]; try reflexivity. cbn [map in_some_case]. rewrite <- IH, <- (lower1_case c d B). apply eq_true_iff_eq. rewrite andb_true_iff, !beq_eq, Ascii.eqb_eq.
  split; [intro E; injection E as E1 E2; auto|intros [-> ->]; reflexivity].
Qed.
Lemma special_word s : is_special s = word_number s.
Proof. unfold is_special, word_number. rewrite !lower_word by (repeat constructor; cbn; lia). reflexivity. Qed.
Lemma bool_truth s : is_bool s = truth s.
Proof. unfold is_bool, truth. cbn [existsb]. now rewrite orb_false_r. Qed.
