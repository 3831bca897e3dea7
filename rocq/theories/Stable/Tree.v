(* Names, values, options and declarations in two runs of the formatter. *)
From Coq Require Import List Arith Bool ZArith Lia Ascii String.
From Verif Require Import Base Strs.
From Verif.Format Require Import Model Spec Proofs.
From Verif.FormatTree Require Import Model Spec Proofs.
From Verif.Stable Require Import Spec Sim Atoms Cols.
Import ListNotations.
Open Scope list_scope.

(* ---- the same tokens ---- *)
Local Arguments tok_ok : simpl never.
Local Arguments ref_c : simpl never.
Local Arguments map_ref : simpl never.
(* equations between nodes, taken apart one level only *)
Lemma cons_eq {A} (a b : A) l m : a :: l = b :: m -> a = b /\ l = m. Proof. intro E. now injection E. Qed.
Lemma some_eq {A} (a b : A) : Some a = Some b -> a = b. Proof. intro E. now injection E. Qed.
Lemma pref_eq a b : PRef a = PRef b -> a = b. Proof. intro E. now injection E. Qed.
Lemma dopt_eq a b : DOption a = DOption b -> a = b. Proof. intro E. now injection E. Qed.
Lemma fopt_eq a b : FOption a = FOption b -> a = b. Proof. intro E. now injection E. Qed.
Lemma fimp_eq a b : FImport a = FImport b -> a = b. Proof. intro E. now injection E. Qed.
Lemma fdecl_eq a b : FDecl a = FDecl b -> a = b. Proof. intro E. now injection E. Qed.
Lemma drpc_eq a1 a2 a3 a4 a5 a6 a7 a8 b1 b2 b3 b4 b5 b6 b7 b8 : DRpc a1 a2 a3 a4 a5 a6 a7 a8 = DRpc b1 b2 b3 b4 b5 b6 b7 b8 ->
  a1 = b1 /\ a2 = b2 /\ a3 = b3 /\ a4 = b4 /\ a5 = b5 /\ a6 = b6 /\ a7 = b7 /\ a8 = b8.
Proof. intro E. injection E. tauto. Qed.
Lemma tw_bare t t' : bare t = bare t' -> tok_ok (bare t) -> tw t t'.
Proof.
  destruct t as [k u ld tr w l v], t' as [k' u' ld' tr' w' l' v']. unfold bare, tok_ok. cbn. intros E (-> & -> & -> & W & G & N).
  injection E as -> -> <- <- <-. constructor; assumption.
Qed.
(* The rest is stated for any function with these properties, so that equations between trees can be
   taken apart without unfolding it. *)
Section Tree.
Variable phi : token -> token.
Hypothesis tw_phi : forall t t', phi t = phi t' -> tok_ok (phi t) -> tw t t'.
Hypothesis phi_text : forall t, t_text (phi t) = t_text t.
Hypothesis phi_kind : forall t, t_kind (phi t) = t_kind t.
Lemma tws_phi ts : forall ts', map phi ts = map phi ts' -> Forall tok_ok (map phi ts) -> tws ts ts'.
Proof.
  induction ts as [|t ts IH]; intros [|t' ts'] E F; cbn in E; try discriminate; [constructor|]. injection E as E1 E2. inversion F; subst.
  constructor; [now apply tw_phi|now apply IH].
Qed.
Definition otw (o o' : option token) : Prop := (o = None /\ o' = None) \/ exists t t', o = Some t /\ o' = Some t' /\ tw t t'.
Lemma otw_phi o o' : option_map phi o = option_map phi o' -> otok_ok (option_map phi o) -> otw o o'.
Proof.
  destruct o as [t|], o' as [t'|]; cbn; intros E T; try discriminate; [|now left]. injection E as E. right. eauto 10 using tw_phi.
Qed.
Lemma stw_phi o o' : option_map phi o = option_map phi o' -> some tok_ok (option_map phi o) -> exists t t', o = Some t /\ o' = Some t' /\ tw t t'.
Proof. destruct o as [t|], o' as [t'|]; cbn; intros E T; try discriminate; [|contradiction]. injection E as E. eauto 10 using tw_phi. Qed.
Lemma etw_phi x o o' : option_map phi o = option_map phi o' -> ends_with x (option_map phi o) -> exists t t', o = Some t /\ o' = Some t' /\ tw t t' /\ t_text t = b_ x /\ t_text t' = b_ x.
Proof.
  destruct o as [t|], o' as [t'|]; cbn; intros E T; try discriminate; [|contradiction]. injection E as E. destruct T as [T X]. exists t, t'. pose proof (tw_phi _ _ E T) as W.
  repeat (split; [first [reflexivity|assumption]|]). rewrite phi_text in X. split; [exact X|]. destruct (tw_text _ _ W) as [<- _]. exact X.
Qed.
Lemma rtw_phi x t t' : phi t = phi t' -> reads_as x (phi t) -> tw t t' /\ t_text t = b_ x.
Proof. intros E [T X]. rewrite phi_text in X. split; [now apply tw_phi|exact X]. Qed.
Lemma with_rune_id c t : t_text t = [c] -> with_rune c t = t.
Proof. destruct t. cbn. now intros ->. Qed.
Lemma tws_trail ts ts' : tws ts ts' -> trail_of ts = [] /\ trail_of ts' = [].
Proof.
  intro h. unfold trail_of. assert (X : tws (rev ts) (rev ts')).
  { induction h; cbn [rev]; [constructor|]. apply Forall2_app; [assumption|]. constructor; [assumption|constructor]. }
  destruct X as [|t t' r r' A _]; [split; reflexivity|]. destruct A. split; reflexivity.
Qed.
Lemma has_nl_newl t : has_nl (t_ws t) = (0 <? newl t).
Proof.
  unfold has_nl, newl, newlines. induction (t_ws t) as [|c w IH]; [reflexivity|]. cbn [existsb count_occ]. rewrite IH.
  destruct (ascii_dec c nl) as [-> | N]; [rewrite Ascii.eqb_refl; reflexivity|]. replace (Ascii.eqb nl c) with false; [reflexivity|]. symmetry. apply Ascii.eqb_neq. congruence.
Qed.
Lemma tw_closes t t' : tw t t' -> closes t = closes t' /\ is_open_brace t = is_open_brace t'. Proof. destruct 1. split; reflexivity. Qed.
Lemma not_open t x : t_text t = b_ x -> mem (match b_ x with [c] => c | _ => zero end) (b_ "{[<") = false -> is_open_brace t = false.
Proof. intros E H. unfold is_open_brace. rewrite E. destruct (t_kind t); try reflexivity. destruct (b_ x) as [|c [|]]; try reflexivity. exact H. Qed.

(* ---- writers whose first word follows at once ---- *)
Definition fsim (b : bool) (ts ts' : list token) (m m' : M) (Q : pred) : Prop := sim b any ts ts' m m' Q /\ flush b ts m.
Lemma fsim_nonempty b ts ts' m m' Q : fsim b ts ts' m m' Q -> ts <> [].
Proof.
  intros [[T (F & K & E) _ _ _] X] ->. destruct (E (set_compact b start) eq_refl) as (hs & n & S). pose proof (X _ _ _ (eq_refl : incompact (set_compact b start) = b) S) as Y.
  inversion S; subst. discriminate.
Qed.
Lemma fsim_seq b t1 t1' t2 t2' m m' n n' R Q : fsim b t1 t1' m m' R -> sim b R t2 t2' n n' Q -> fsim b (t1 ++ t2) (t1' ++ t2') (m ;; n) (m' ;; n') Q.
Proof.
  intros A B. pose proof (fsim_nonempty _ _ _ _ _ _ A) as N. destruct A as [A F]. pose proof (sim_seq _ _ _ _ _ _ _ _ _ _ _ _ A B) as S. split; [exact S|].
  apply flush_seq; [exact F|exact (sim_wr _ _ _ _ _ _ _ A)|exact (sim_wr _ _ _ _ _ _ _ B)|exact (proj2 (tws_texts _ _ (sim_toks _ _ _ _ _ _ _ S)))|exact N].
Qed.
Lemma fsim_post b ts ts' m m' a R Q : fsim b ts ts' m m' R -> sim b R [] [] a a Q -> fsim b ts ts' (m ;; a) (m' ;; a) Q.
Proof. intros A B. pose proof (fsim_seq _ _ _ _ _ _ _ _ _ _ _ A B) as S. now rewrite !app_nil_r in S. Qed.
Lemma fsim_set b ts ts' m m' a Q : frame a -> keeps b a -> (forall s, out (a s) = out s) -> fsim b ts ts' m m' Q -> fsim b ts ts' (a ;; m) (a ;; m') Q.
Proof.
  intros Fa Ka Oa [A F]. split.
  - apply (sim_pre b any any); [apply sim_set; auto; intros; exact I|exact A].
  - intros s hs n I S. unfold seq in S. destruct A as [_ (Fm & _ & _) _ _ _]. rewrite (proj1 (Fm _ (Ka (rest s) I))), Oa in S. cbn [app rest out] in S.
    apply (F (a (rest s)) hs n); [now apply Ka|exact S].
Qed.
Lemma fsim_inl b i ts ts' m m' Q : fsim b ts ts' m m' Q -> fsim b ts ts' (set_inl i ;; m) (set_inl i ;; m') Q.
Proof. apply fsim_set; [apply frame_inl|intros s I; exact I|reflexivity]. Qed.
Lemma fsim_space b ts ts' m m' Q : fsim b ts ts' m m' Q -> fsim b ts ts' (space ;; m) (space ;; m') Q.
Proof. apply fsim_set; [apply frame_space|intros s I; exact I|reflexivity]. Qed.
Lemma fsim_eqMb b ts ts' m m' m1 m1' Q : fsim b ts ts' m m' Q -> eqMb b m1 m -> eqMb b m1' m' -> fsim b ts ts' m1 m1' Q.
Proof. intros [A F] E E'. split; [now apply (sim_eqMb _ _ _ _ _ m m')|]. intros s hs n I S. rewrite (E (rest s) I) in S. now apply (F s hs n). Qed.
Lemma fsim_eq b ts ts' us us' m m' Q : fsim b ts ts' m m' Q -> ts = us -> ts' = us' -> fsim b us us' m m' Q.
Proof. now intros h <- <-. Qed.
Lemma fsim_tok b t t' : tw t t' -> fsim b [t] [t'] (write_tok t) (write_tok t') word.
Proof. intro h. split; [now apply sim_tok|]. destruct h. now apply flush_tok. Qed.
Lemma fsim_inline b t t' : tw t t' -> fsim b [t] [t'] (inline_tok t) (inline_tok t') word.
Proof. intro h. split; [now apply sim_inline|]. now apply (flush_inline b t t'). Qed.
Lemma fsim_node b ts ts' m m' : fsim b ts ts' m m' word -> fsim b ts ts' (inline_node m) (inline_node m') word.
Proof. intro h. unfold inline_node. apply fsim_inl. eapply fsim_post; [exact h|]. apply sim_inl. auto. Qed.
Lemma fsim_sim b P ts ts' m m' Q : fsim b ts ts' m m' Q -> sim b P ts ts' m m' Q. Proof. intros [A _]. now apply sim_any. Qed.
Lemma sim_spaced b P ts ts' m m' Q : sim b any ts ts' m m' Q -> sim b P ts ts' (space ;; m) (space ;; m') Q.
Proof. intro h. apply (sim_pre b P any); [apply sim_space_any|exact h]. Qed.
Lemma begins_of b t r t' r' r0 r0' c k k' Q : fsim b (t :: r) (t' :: r') k k' Q -> begins b (t :: r) (t' :: r') (start_pre false (t :: r0) c ;; k) (start_pre false (t' :: r0') c ;; k') Q.
Proof.
  intros [A F]. exists t, r, t', r', r0, r0', c, k, k'. repeat (split; [first [reflexivity|intro; reflexivity|assumption]|]). exact F.
Qed.
Lemma begins_eq b ts ts' us us' m m' Q : begins b ts ts' m m' Q -> ts = us -> ts' = us' -> begins b us us' m m' Q.
Proof. now intros h <- <-. Qed.
Lemma fsim_inlines b ts ts' : tws ts ts' -> ts <> [] -> fsim b ts ts' (seqs (map inline_tok ts)) (seqs (map inline_tok ts')) word.
Proof.
  intros h N. destruct h as [|t t' r r' A B]; [congruence|]. cbn [map seqs]. change (t :: r) with ([t] ++ r). change (t' :: r') with ([t'] ++ r').
  eapply fsim_seq; [now apply fsim_inline|]. destruct B as [|t2 t2' r r' B1 B2]; [apply sim_skip|]. apply sim_any, sim_inlines; [constructor; assumption|discriminate].
Qed.
Lemma sim_inlines0 b ts ts' : tws ts ts' -> sim b word ts ts' (seqs (map inline_tok ts)) (seqs (map inline_tok ts')) word.
Proof. intro h. destruct h as [|t t' r r' A B]; [apply sim_skip|]. apply sim_any, sim_inlines; [constructor; assumption|discriminate]. Qed.

(* ---- names ---- *)
Lemma ident_rel i i' : map_ident phi i = map_ident phi i' -> ident_c (map_ident phi i) ->
  (exists t t', i = Id t /\ i' = Id t' /\ tw t t') \/ (exists ts ts', i = Cid ts /\ i' = Cid ts' /\ tws ts ts' /\ ts <> []).
Proof.
  destruct i as [t|ts], i' as [t'|ts']; cbn; intros E C; try discriminate; injection E as E.
  - left. eauto 10 using tw_phi.
  - right. destruct C as [N F]. exists ts, ts'. repeat (split; [first [reflexivity|now apply tws_phi]|]). intros ->. now apply N.
Qed.
Lemma ident_tws i i' : map_ident phi i = map_ident phi i' -> ident_c (map_ident phi i) -> tws (ident_toks i) (ident_toks i') /\ ident_toks i <> [].
Proof.
  intros E C. destruct (ident_rel _ _ E C) as [(t & t' & -> & -> & h)|(ts & ts' & -> & -> & h & N)]; cbn; [split; [constructor; [exact h|constructor]|discriminate]|auto].
Qed.
Lemma fsim_write_ident b i i' : map_ident phi i = map_ident phi i' -> ident_c (map_ident phi i) -> fsim b (ident_toks i) (ident_toks i') (write_ident i) (write_ident i') word.
Proof.
  intros E C. destruct (ident_rel _ _ E C) as [(t & t' & -> & -> & h)|(ts & ts' & -> & -> & h & N)]; cbn [ident_toks write_ident]; [now apply fsim_tok|now apply fsim_inlines].
Qed.
Lemma fsim_inline_ident b i i' : map_ident phi i = map_ident phi i' -> ident_c (map_ident phi i) -> fsim b (ident_toks i) (ident_toks i') (inline_ident i) (inline_ident i') word.
Proof.
  intros E C. destruct (ident_rel _ _ E C) as [(t & t' & -> & -> & h)|(ts & ts' & -> & -> & h & N)]; cbn [ident_toks inline_ident write_ident]; [now apply fsim_inline|].
  apply fsim_node. now apply fsim_inlines.
Qed.
Lemma ref_rel r r' : map_ref phi r = map_ref phi r' -> ref_c (map_ref phi r) ->
  exists n n' br br', map_ident phi n = map_ident phi n' /\ ident_c (map_ident phi n) /\
    r = FieldRef (option_map fst br) None None n (option_map snd br) /\ r' = FieldRef (option_map fst br') None None n' (option_map snd br') /\
    ((br = None /\ br' = None) \/ exists o c o' c', br = Some (o, c) /\ br' = Some (o', c') /\ tw o o' /\ tw c c').
Proof.
  destruct r as [o u s n c], r' as [o' u' s' n' c']. unfold map_ref, ref_c. cbn. intros E (U & S & N & B). injection E as E1 E2 E3 E4 E5.
  destruct u; [discriminate|]. destruct s; [discriminate|]. destruct u'; [discriminate|]. destruct s'; [discriminate|].
  exists n, n'. destruct o as [o|], c as [c|]; try contradiction; destruct o' as [o'|], c' as [c'|]; try discriminate.
  - exists (Some (o, c)), (Some (o', c')). cbn in E1, E5. injection E1 as E1. injection E5 as E5. destruct B as [B1 B2].
    repeat (split; [first [assumption|reflexivity]|]). right. exists o, c, o', c'. eauto 10 using tw_phi.
  - exists None, None. repeat (split; [first [assumption|reflexivity]|]). now left.
Qed.
Ltac lists := cbn [app otoks opt_toks option_map fst snd fr_close]; rewrite ?app_nil_r, <- ?app_assoc; reflexivity.
Lemma sim_close_ref b r r' (c c' : option (token * token)) n n' : r = FieldRef (option_map fst c) None None n (option_map snd c) -> r' = FieldRef (option_map fst c') None None n' (option_map snd c') ->
  (c = None /\ c' = None) \/ (exists o k o' k', c = Some (o, k) /\ c' = Some (o', k') /\ tw o o' /\ tw k k') ->
  sim b word (otoks (fr_close r)) (otoks (fr_close r')) (close_ref r) (close_ref r') word.
Proof.
  intros -> -> [[-> ->]|(o & k & o' & k' & -> & -> & _ & h)]; unfold close_ref; cbn [fr_close fr_open option_map fst snd otoks when].
  - apply sim_skip.
  - apply sim_any. now apply sim_inline.
Qed.
Lemma fsim_ref b r r' : map_ref phi r = map_ref phi r' -> ref_c (map_ref phi r) -> fsim b (ref_toks r) (ref_toks r') (write_ref r) (write_ref r') word.
Proof.
  intros E C. destruct (ref_rel _ _ E C) as (n & n' & br & br' & En & Cn & Er & Er' & B). pose proof (sim_close_ref b r r' br br' n n' Er Er' B) as Cl.
  pose proof (fsim_inline_ident b _ _ En Cn) as I. subst r r'. unfold write_ref, ref_toks. cbn [fr_open fr_url fr_slash fr_name opt_w].
  destruct B as [[-> ->]|(o & k & o' & k' & -> & -> & ho & hk)]; cbn [option_map fst snd opt_w otoks opt_toks app].
  - eapply fsim_eqMb; [eapply fsim_seq; [exact I|exact Cl]| |]; intros s _; reflexivity.
  - eapply fsim_eq; [eapply fsim_seq; [now apply fsim_inline|]; apply (sim_pre b word word); [apply sim_skip|]; apply (sim_pre b word word); [apply sim_skip|];
      eapply sim_seq; [apply fsim_sim; exact I|exact Cl]|lists|lists].
Qed.
Lemma fsim_first_part b r r' : map_ref phi r = map_ref phi r' -> ref_c (map_ref phi r) -> fsim b (ref_toks r) (ref_toks r') (first_part r) (first_part r') word.
Proof.
  intros E C. destruct (ref_rel _ _ E C) as (n & n' & br & br' & En & Cn & Er & Er' & B). pose proof (sim_close_ref b r r' br br' n n' Er Er' B) as Cl.
  pose proof (ident_tws _ _ En Cn) as [Tn _]. destruct (tws_trail _ _ Tn) as [T1 T2]. subst r r'. unfold first_part, ref_toks. cbn [fr_open fr_url fr_slash fr_name opt_w].
  destruct B as [[-> ->]|(o & k & o' & k' & -> & -> & ho & hk)]; cbn [option_map fst snd opt_w otoks opt_toks app].
  - rewrite T1, T2. cbn [nonempty when]. eapply fsim_seq; [eapply fsim_post; [now apply fsim_write_ident|apply sim_skip]|exact Cl].
  - assert (To : t_trail o = [] /\ t_trail o' = []) by (destruct ho; split; reflexivity). destruct To as [-> ->]. cbn [nonempty when].
    eapply fsim_eq; [eapply fsim_seq; [eapply fsim_seq; [now apply fsim_tok|apply (sim_pre b word word); [apply sim_skip|apply fsim_sim; now apply fsim_inline_ident]]|exact Cl]|lists|lists].
Qed.
Lemma part_rel p p' : map_part phi p = map_part phi p' -> part_c (map_part phi p) ->
  (exists r r', p = PRef r /\ p' = PRef r' /\ map_ref phi r = map_ref phi r' /\ ref_c (map_ref phi r)) \/ (exists t t', p = PDot t /\ p' = PDot t' /\ tw t t').
Proof.
  destruct p as [r|t], p' as [r'|t']; cbn; intros E C; try discriminate; [left; apply pref_eq in E; eauto 10|injection E as E; right; eauto 10 using tw_phi].
Qed.
Lemma fsim_part b p p' : map_part phi p = map_part phi p' -> part_c (map_part phi p) -> fsim b (part_toks p) (part_toks p') (write_part p) (write_part p') word.
Proof.
  intros E C. destruct (part_rel _ _ E C) as [(r & r' & -> & -> & Er & Cr)|(t & t' & -> & -> & h)]; cbn [part_toks write_part]; [now apply fsim_ref|now apply fsim_tok].
Qed.
Lemma sim_parts b ps : forall ps', map (map_part phi) ps = map (map_part phi) ps' -> Forall part_c (map (map_part phi) ps) ->
  sim b word (flat_map part_toks ps) (flat_map part_toks ps') (seqs (map write_part ps)) (seqs (map write_part ps')) word.
Proof.
  induction ps as [|p ps IH]; intros [|p' ps'] E C; try discriminate; [apply sim_skip|]. cbn [map] in E, C. apply cons_eq in E as [E1 E2]. inversion C; subst.
  cbn [flat_map map seqs]. eapply sim_seq; [apply fsim_sim; now apply fsim_part|now apply IH].
Qed.
Lemma fsim_name b ps ps' : map (map_part phi) ps = map (map_part phi) ps' -> name_c (map (map_part phi) ps) ->
  fsim b (flat_map part_toks ps) (flat_map part_toks ps') (write_name ps) (write_name ps') word.
Proof.
  intros E [N C]. destruct ps as [|p ps]; [now elim N|]. destruct ps' as [|p' ps']; [discriminate|]. cbn [map] in E, C. apply cons_eq in E as [E1 E2]. inversion C as [|? ? C1 C2]; subst.
  pose proof (sim_parts b ps ps' E2 C2) as S. cbn [flat_map].
  assert (G : fsim b (part_toks p ++ flat_map part_toks ps) (part_toks p' ++ flat_map part_toks ps') (write_part p ;; seqs (map write_part ps)) (write_part p' ;; seqs (map write_part ps')) word).
  { eapply fsim_seq; [now apply fsim_part|exact S]. }
  destruct (part_rel _ _ E1 C1) as [(r & r' & -> & -> & Er & Cr)|(t & t' & -> & -> & h)].
  - destruct b.
    + eapply fsim_eqMb; [eapply fsim_seq; [apply (fsim_first_part true r r' Er Cr)|exact S]| |]; intros s I; unfold write_name; rewrite I; reflexivity.
    + eapply fsim_eqMb; [exact G| |]; intros s I; unfold write_name; rewrite I; reflexivity.
  - eapply fsim_eqMb; [exact G| |]; intros s I; reflexivity.
Qed.

Section Dec.
Variable dec : list nat -> nat -> bool.
(* ---- values ---- *)
Definition vsame (v v' : value) : Prop := map_value phi v = map_value phi v' /\ value_c (map_value phi v).
Lemma value_rel v v' : vsame v v' ->
  (exists t t', v = VTok t /\ v' = VTok t' /\ tw t t') \/ (exists ts ts', v = VIdent ts /\ v' = VIdent ts' /\ tws ts ts' /\ ts <> []) \/
  (exists s n s' n', v = VNum s n /\ v' = VNum s' n' /\ tw s s' /\ tw n n').
Proof.
  intros [E C]. destruct v, v'; cbn in E, C; try discriminate; try contradiction; injection E as E.
  - left. eauto 10 using tw_phi.
  - right. left. destruct C as [N F]. do 2 eexists. repeat (split; [first [reflexivity|now apply tws_phi]|]). intros ->. now apply N.
  - right. right. destruct C. do 4 eexists. repeat (split; [first [reflexivity|now apply tw_phi]|]). now apply tw_phi.
Qed.
Lemma fsim_v b v v' : vsame v v' -> fsim b (value_toks v) (value_toks v') (write_v dec v) (write_v dec v') word.
Proof.
  intro h. destruct (value_rel _ _ h) as [(t & t' & -> & -> & T)|[(ts & ts' & -> & -> & T & N)|(s & n & s' & n' & -> & -> & T & T2)]]; unfold write_v; cbn [write_value value_toks].
  - now apply fsim_tok.
  - now apply fsim_inlines.
  - change [s; n] with ([s] ++ [n]). change [s'; n'] with ([s'] ++ [n']). eapply fsim_seq; [now apply fsim_inline|]. apply sim_any. now apply sim_inline.
Qed.
Lemma fsim_iv b v v' : vsame v v' -> fsim b (value_toks v) (value_toks v') (inline_v dec v) (inline_v dec v') word.
Proof.
  intro h. pose proof (fsim_v b v v' h) as F. unfold inline_v. destruct (value_rel _ _ h) as [(t & t' & -> & -> & T)|[(ts & ts' & -> & -> & T & N)|(s & n & s' & n' & -> & -> & T & T2)]]; cbn [inline_value].
  - now apply fsim_inline.
  - now apply fsim_node.
  - now apply fsim_node.
Qed.
Lemma sim_fresh b : sim b word [] [] fresh_line fresh_line lined.
Proof.
  apply sim_silent.
  - intro s. unfold fresh_line. cbn [rest lastw]. destruct (Ascii.eqb _ _); [cbn; rewrite app_nil_r; auto|apply frame_p_blank].
  - intros s I. unfold fresh_line. destruct (Ascii.eqb _ _); [exact I|now apply keeps_p_blank].
  - intros s _. unfold fresh_line. destruct (Ascii.eqb _ _); [reflexivity|]. rewrite (proj1 (p_blank_run s)). reflexivity.
  - intros p s _ [-> N]. unfold fresh_line. cbn [rest lastw] in N |- *. apply Ascii.eqb_neq in N. rewrite N. rewrite (proj1 (p_blank_run s)). reflexivity.
Qed.
Lemma sim_line_end_v b v v' : vsame v v' -> sim b any (value_toks v) (value_toks v') (line_end_v dec v) (line_end_v dec v') lined.
Proof.
  intro h. pose proof (fsim_v b v v' h) as [F _]. unfold line_end_v. destruct (value_rel _ _ h) as [(t & t' & -> & -> & T)|[(ts & ts' & -> & -> & T & N)|(s & n & s' & n' & -> & -> & T & T2)]].
  - now apply sim_line_end1.
  - eapply sim_post; [exact F|apply sim_fresh].
  - eapply sim_post; [exact F|apply sim_fresh].
Qed.
(* ---- options ---- *)
Definition nsame (ps ps' : list part) : Prop := map (map_part phi) ps = map (map_part phi) ps' /\ name_c (map (map_part phi) ps).
Lemma opt_rel o o' : map_opt phi o = map_opt phi o' -> opt_c (map_opt phi o) -> exists kw ps e v sm kw' ps' e' v' sm',
  o = Opt kw (Some ps) (Some e) (Some v) sm /\ o' = Opt kw' (Some ps') (Some e') (Some v') sm' /\ nsame ps ps' /\ tw e e' /\ vsame v v' /\
  option_map phi kw = option_map phi kw' /\ option_map phi sm = option_map phi sm'.
Proof.
  destruct o as [kw ps e v sm], o' as [kw' ps' e' v' sm']. unfold map_opt, opt_c. cbn [o_kw o_name o_eq o_val o_semi]. intros E (N & Q & V).
  injection E as E1 E2 E3 E4 E5.
  destruct ps as [ps|]; [|contradiction]. destruct ps' as [ps'|]; [|discriminate]. destruct v as [v|]; [|contradiction]. destruct v' as [v'|]; [|discriminate].
  cbn [option_map some] in *. apply some_eq in E2, E4. destruct (stw_phi _ _ E3 Q) as (q & q' & -> & -> & T).
  do 10 eexists. repeat (split; [first [reflexivity|split; assumption|assumption]|]). exact E5.
Qed.
Lemma compound_none v v' : vsame v v' -> compound (Some v) = None /\ compound (Some v') = None.
Proof. intro h. destruct (value_rel _ _ h) as [(t & t' & -> & -> & T)|[(ts & ts' & -> & -> & T & N)|(s & n & s' & n' & -> & -> & T & T2)]]; split; reflexivity. Qed.
Lemma merge_true v v' : vsame v v' -> val_merge (Some v) = true /\ val_merge (Some v') = true.
Proof. intro h. destruct (value_rel _ _ h) as [(t & t' & -> & -> & T)|[(ts & ts' & -> & -> & T & N)|(s & n & s' & n' & -> & -> & T & T2)]]; split; reflexivity. Qed.
Ltac lists2 := cbn [app flat_map otoks opt_toks opt_node_toks o_kw o_name o_eq o_val o_semi]; rewrite ?app_nil_r; repeat (progress (rewrite <- ?app_assoc; cbn [app])); reflexivity.
Lemma fsim_inline_opts b cl cl' : tw cl cl' -> forall os os', map (map_opt phi) os = map (map_opt phi) os' -> opts_c (map (map_opt phi) os) ->
  fsim b (flat_map opt_node_toks os ++ [cl]) (flat_map opt_node_toks os' ++ [cl']) (inline_opts dec (inline_tok cl) os) (inline_opts dec (inline_tok cl') os') word.
Proof.
  intros hc. induction os as [|o os IH]; intros [|o' os'] E C; try discriminate; [destruct C|]. cbn [map] in E, C. apply cons_eq in E as [E1 E2].
  cbn [opts_c] in C. destruct C as (K & O & R).
  destruct (opt_rel _ _ E1 O) as (kw & ps & e & v & sm & kw' & ps' & e' & v' & sm' & -> & -> & [N1 N2] & T & V & Ek & Es).
  cbn [map_opt o_kw o_semi] in K, R. destruct kw as [kw|]; [discriminate|]. destruct kw' as [kw'|]; [discriminate|].
  cbn [inline_opts only_comma o_name o_eq o_val o_semi]. destruct (compound_none _ _ V) as [-> ->]. cbn [opt_w must].
  pose proof (fsim_node b _ _ _ _ (fsim_name b _ _ N1 N2)) as FN. pose proof (fsim_inline b _ _ T) as FE. pose proof (fsim_iv b _ _ V) as FV.
  destruct os as [|o2 os]; destruct os' as [|o2' os']; try discriminate.
  - cbn [map] in R. destruct sm as [sm|]; [discriminate|]. destruct sm' as [sm'|]; [discriminate|].
    eapply fsim_eq; [eapply fsim_seq; [exact FN|]; apply sim_spaced; eapply sim_seq; [apply fsim_sim; exact FE|]; apply sim_spaced; eapply sim_seq; [apply fsim_sim; exact FV|];
      apply (sim_pre b word word); [apply sim_skip|]; cbn [inline_opts]; apply sim_any; now apply sim_inline|lists2|lists2].
  - cbn [map] in R. destruct R as [Rs R]. destruct (etw_phi _ _ _ Es Rs) as (c & c' & -> & -> & Tc & X & X'). rewrite !with_rune_id by assumption. cbn [nonempty when].
    specialize (IH (o2' :: os') E2 R).
    eapply fsim_eq; [eapply fsim_seq; [exact FN|]; apply sim_spaced; eapply sim_seq; [apply fsim_sim; exact FE|]; apply sim_spaced; eapply sim_seq; [apply fsim_sim; exact FV|];
      eapply sim_seq; [eapply sim_post; [apply sim_any; apply sim_inline; exact Tc|apply sim_space_any]|exact (proj1 IH)]|lists2|lists2].
Qed.

(* ---- elements of columns ---- *)
Lemma keys_lines ts ts' : tws ts ts' -> map key ts = map key ts' -> line_of ts = line_of ts' /\ end_line_of ts = end_line_of ts' /\ lead_of ts = lead_of ts'.
Proof.
  intros h E. unfold end_line_of. assert (E2 : map key (rev ts) = map key (rev ts')) by (rewrite !map_rev, E; reflexivity).
  split; [|split].
  - destruct h; [reflexivity|]. cbn in E. injection E as _ E _. exact E.
  - destruct (rev ts), (rev ts'); try discriminate; [reflexivity|]. cbn in E2. injection E2 as _ E2 _. exact E2.
  - destruct h as [|t t' r r' A _]; [reflexivity|]. destruct A. reflexivity.
Qed.
Lemma esim_seg b (after : pred) lx e e' t r0 t' r0' c ty ty' nm nm' eq eq' en en' ot ot' t1 t1' t2 t2' t3 t3' t4 t4' :
  e_kind e = e_kind e' -> e_kind e <> ENone -> e_incomplete e = false -> e_incomplete e' = false ->
  e_seg e b lx = Seg (start_pre false (t :: r0) c) ty nm eq en ot -> e_seg e' b lx = Seg (start_pre false (t' :: r0') c) ty' nm' eq' en' ot' -> eqM ot skip -> eqM ot' skip ->
  e_toks e = t1 ++ t2 ++ t3 ++ t4 -> e_toks e' = t1' ++ t2' ++ t3' ++ t4' -> hd_error (t1 ++ t2) = Some t -> hd_error (t1' ++ t2') = Some t' ->
  sim b any t1 t1' ty ty' any -> sim b any t2 t2' nm nm' any -> flush b (t1 ++ t2) (ty ;; nm) -> sim b any t3 t3' eq eq' any -> sim b any t4 t4' en en' after ->
  (map key (e_toks e) = map key (e_toks e') -> e_alone e = e_alone e' /\ e_merge e = e_merge e') -> esim b after lx e e'.
Proof.
  intros K KN I I' S S' O O' Te Te' H H' Sty Snm F Seq Sen X.
  destruct (t1 ++ t2) as [|t0 r] eqn:E12; [discriminate|]. injection H as ->. destruct (t1' ++ t2') as [|t0' r'] eqn:E12'; [discriminate|]. injection H' as ->.
  assert (Tl : tw t t'). { pose proof (Forall2_app (sim_toks _ _ _ _ _ _ _ Sty) (sim_toks _ _ _ _ _ _ _ Snm)) as Z. rewrite E12, E12' in Z. now inversion Z. }
  destruct (tw_lead _ _ Tl) as [L L'].
  assert (W : seg_wr b (e_toks e) (e_seg e b lx)).
  { rewrite S. split; [exact O|]. exists t1, t2, t3, t4. split; [exact Te|]. split; [now apply wr_start|]. repeat (split; [eapply sim_wr; eassumption|]). eapply sim_wr; eassumption. }
  assert (W' : seg_wr b (e_toks e') (e_seg e' b lx)).
  { rewrite S'. split; [exact O'|]. exists t1', t2', t3', t4'. split; [exact Te'|]. split; [now apply wr_start|]. repeat (split; [eapply sim_wr'; eassumption|]). eapply sim_wr'; eassumption. }
  assert (Ks : elem_w b lx e = seg_w (e_seg e b lx) /\ elem_w b lx e' = seg_w (e_seg e' b lx)).
  { unfold elem_w. rewrite <- K. destruct (e_kind e); [congruence| |]; split; reflexivity. }
  pose proof (sim_seq _ _ _ _ _ _ _ _ _ _ _ _ Sty Snm) as S12. rewrite E12, E12' in S12. 
  assert (B : begins b (e_toks e) (e_toks e') (elem_w b lx e) (elem_w b lx e') after).
  { destruct Ks as [-> ->]. rewrite S, S', Te, Te'. unfold seg_w. cbn [s_ctx s_type s_name s_eq s_end].
    assert (Q : fsim b (t :: r) (t' :: r') (ty ;; nm) (ty' ;; nm') any) by (split; assumption).
    pose proof (fsim_seq _ _ _ _ _ _ _ _ _ _ _ Q (sim_seq _ _ _ _ _ _ _ _ _ _ _ _ Seq Sen)) as Z.
    rewrite !app_assoc, E12, E12', <- !app_assoc. eapply begins_eqM; [apply begins_of; exact Z| |]; intro s; reflexivity. }
  assert (Tt : tws (e_toks e) (e_toks e')) by (exact (sim_toks _ _ _ _ _ _ _ (begins_sim _ _ _ _ _ _ B))).
  split; [exact K|]. split; [unfold elem_wr; destruct (e_kind e); [congruence| |]; split; assumption|].
  split; [unfold elem_wr; rewrite <- K; destruct (e_kind e); [congruence| |]; split; assumption|]. split; [exact B|].
  intro Ek. destruct (X Ek) as [X1 X2]. destruct (keys_lines _ _ Tt Ek) as (Y1 & Y2 & Y3). split.
  - unfold kin. rewrite I, I'. auto 10.
  - unfold psame. rewrite Te, Te', !map_app in Ek.
    apply app_split in Ek as [E1 Ek]; [|rewrite !map_length; eapply tws_length, sim_toks; exact Sty].
    apply app_split in Ek as [E2 Ek]; [|rewrite !map_length; eapply tws_length, sim_toks; exact Snm].
    apply app_split in Ek as [E3 E4]; [|rewrite !map_length; eapply tws_length, sim_toks; exact Seq].
    assert (Es : key t = key t'). { pose proof (f_equal2 (@app _) E1 E2) as Z. rewrite <- !map_app, E12, E12' in Z. now apply cons_eq in Z as [Z _]. }
    rewrite S, S'. cbn [s_ctx s_type s_name s_eq s_end].
    destruct (e_kind e); [congruence| |];
      (split; [intros s _; now apply start_eq|]; split; [exact (sim_exact _ _ _ _ _ _ _ Sty E1)|]; split; [exact (sim_exact _ _ _ _ _ _ _ Snm E2)|];
       split; [exact (sim_exact _ _ _ _ _ _ _ Seq E3)|exact (sim_exact _ _ _ _ _ _ _ Sen E4)]).
Qed.
Lemma sim_toany b P ts ts' m m' (Q : pred) : sim b P ts ts' m m' Q -> sim b P ts ts' m m' any.
Proof. intro h. eapply sim_weak; [exact h|auto|intros; exact I]. Qed.
Lemma name_tws ps ps' : nsame ps ps' -> tws (flat_map part_toks ps) (flat_map part_toks ps') /\ exists t r t' r', flat_map part_toks ps = t :: r /\ flat_map part_toks ps' = t' :: r'.
Proof.
  intros [E C]. pose proof (fsim_name true _ _ E C) as F. pose proof (fsim_nonempty _ _ _ _ _ _ F) as N. destruct F as [F _]. pose proof (sim_toks _ _ _ _ _ _ _ F) as T.
  split; [exact T|]. destruct T as [|t t' r r']; [congruence|]. eauto 10.
Qed.
Lemma flush_skip b ts m : flush b ts m -> flush b ts (skip ;; m). Proof. auto. Qed.
(* the elements of expanded compact options *)
Lemma esims_opts os : forall os', map (map_opt phi) os = map (map_opt phi) os' -> opts_c (map (map_opt phi) os) ->
  esims true lined 0 (map (opt_elem dec true skip) os) (map (opt_elem dec true skip) os').
Proof.
  induction os as [|o os IH]; intros [|o' os'] E C; try discriminate; [destruct C|]. cbn [map] in E, C. apply cons_eq in E as [E1 E2].
  cbn [opts_c] in C. destruct C as (K & O & R).
  destruct (opt_rel _ _ E1 O) as (kw & ps & e & v & sm & kw' & ps' & e' & v' & sm' & -> & -> & N & T & V & Ek & Es).
  cbn [map_opt o_kw o_semi] in K, R. destruct kw as [kw|]; [discriminate|]. destruct kw' as [kw'|]; [discriminate|].
  destruct (name_tws _ _ N) as [Tn (t & r & t' & r' & Et & Et')]. destruct (tws_trail _ _ Tn) as [Tr Tr']. destruct N as [N1 N2].
  pose proof (fsim_name true _ _ N1 N2) as [FN FF]. rewrite Et, Et' in FN. rewrite Et in FF. destruct (compound_none _ _ V) as [Cv Cv']. destruct (merge_true _ _ V) as [Mv Mv'].
  assert (Snm : sim true any (t :: r) (t' :: r') (write_name ps ;; start_post (flat_map part_toks ps) false) (write_name ps' ;; start_post (flat_map part_toks ps') false) any).
  { unfold start_post. rewrite Tr, Tr'. cbn [nonempty when]. eapply sim_post; [exact FN|]. apply (sim_pre true word word); [apply sim_skip|]. apply (sim_prev true false word any). intros; exact I. }
  assert (Ff : flush true (t :: r) (skip ;; (write_name ps ;; start_post (flat_map part_toks ps) false))).
  { apply flush_skip. rewrite <- (app_nil_r (t :: r)). apply flush_seq; [exact FF|exact (sim_wr _ _ _ _ _ _ _ FN)| | |discriminate].
    - unfold start_post. rewrite Tr. apply (wr_seq true [] []); [apply wr_skip|]. split; [apply frame_framed, frame_prev|]. split; [intros s I; exact I|]. intros s _. exists [], 0. apply (splits_blank []). reflexivity.
    - rewrite app_nil_r. exact (proj2 (tws_texts _ _ (sim_toks _ _ _ _ _ _ _ FN))). }
  cbn [map esims]. split.
  - destruct os as [|o2 os]; destruct os' as [|o2' os']; try discriminate.
    + cbn [map] in R. destruct sm as [sm|]; [discriminate|]. destruct sm' as [sm'|]; [discriminate|].
      eapply (esim_seg true lined _ _ _ t r t' r' false skip skip _ _ _ _ _ _ skip skip [] [] (t :: r) (t' :: r') [e] [e'] (value_toks v) (value_toks v'));
        try reflexivity; try (intro; reflexivity); cbn [opt_elem e_kind e_seg e_toks e_alone e_merge]; try discriminate.
      * unfold opt_seg. cbn [o_kw o_name o_eq o_val o_semi opt_toks opt_w]. rewrite Cv. cbn [lastx Nat.eqb nonempty negb andb map]. rewrite Et. reflexivity.
      * unfold opt_seg. cbn [o_kw o_name o_eq o_val o_semi opt_toks opt_w]. rewrite Cv'. cbn [lastx Nat.eqb nonempty negb andb map]. rewrite Et'. reflexivity.
      * unfold opt_node_toks. cbn [o_kw o_name o_eq o_val o_semi opt_toks otoks app]. rewrite Et, app_nil_r. reflexivity.
      * unfold opt_node_toks. cbn [o_kw o_name o_eq o_val o_semi opt_toks otoks app]. rewrite Et', app_nil_r. reflexivity.
      * apply sim_skip.
      * rewrite Et, Et' in Snm. exact Snm.
      * rewrite Et in Ff. exact Ff.
      * eapply sim_toany. now apply sim_inline.
      * now apply sim_line_end_v.
      * intros _. split; [reflexivity|]. cbn [o_val]. now rewrite Mv, Mv'.
    + cbn [map] in R. destruct R as [Rs R]. destruct (etw_phi _ _ _ Es Rs) as (c & c' & -> & -> & Tc & X & X').
      eapply (esim_seg true lined _ _ _ t r t' r' false skip skip _ _ _ _ _ _ skip skip [] [] (t :: r) (t' :: r') [e] [e'] (value_toks v ++ [c]) (value_toks v' ++ [c']));
        try reflexivity; try (intro; reflexivity); cbn [opt_elem e_kind e_seg e_toks e_alone e_merge]; try discriminate.
      * unfold opt_seg. cbn [o_kw o_name o_eq o_val o_semi opt_toks opt_w]. rewrite Cv. cbn [lastx Nat.eqb nonempty negb andb map]. rewrite Et. reflexivity.
      * unfold opt_seg. cbn [o_kw o_name o_eq o_val o_semi opt_toks opt_w]. rewrite Cv'. cbn [lastx Nat.eqb nonempty negb andb map]. rewrite Et'. reflexivity.
      * unfold opt_node_toks. cbn [o_kw o_name o_eq o_val o_semi opt_toks otoks app]. rewrite Et. reflexivity.
      * unfold opt_node_toks. cbn [o_kw o_name o_eq o_val o_semi opt_toks otoks app]. rewrite Et'. reflexivity.
      * apply sim_skip.
      * rewrite Et, Et' in Snm. exact Snm.
      * rewrite Et in Ff. exact Ff.
      * eapply sim_toany. now apply sim_inline.
      * cbn [must]. rewrite !with_rune_id by assumption. eapply sim_seq; [exact (proj1 (fsim_v true _ _ V))|]. apply sim_any. now apply sim_line_end1.
      * intros _. split; [reflexivity|]. cbn [o_val]. now rewrite Mv, Mv'.
  - destruct os as [|o2 os]; destruct os' as [|o2' os']; try discriminate; [exact I|]. apply IH; [exact E2|]. cbn [map] in R |- *. apply R.
Qed.
(* ---- one line or several ---- *)
Definition ends (b : bool) (ts : list token) (m : M) (k : nat) : Prop := forall s hs n, incompact s = b -> splits (out (m (rest s))) (texts ts) hs n -> n = k.
Lemma ends_of b t (m m' : M) (Q : pred) k : (forall t', tw t t' -> exists m1, sim b any [t] [t'] m m1 Q) -> tw t t -> (forall q s, Q q s -> q = k) -> ends b [t] m k.
Proof.
  intros H T HQ s hs n I S. pose proof (splits_length _ _ _ _ S) as L. destruct hs as [|h [|]]; try discriminate. inversion T as [kd u w l w' l' G N E A B]. subst.
  destruct (H (Token kd u [] [] (repeat nl h) l false)) as (m1 & [_ _ _ R _]); [now constructor|].
  destruct (R 0 s [h] n eq_refl Logic.I S) as (_ & _ & X).
  - cbn [map adj Nat.add]. unfold newl, newlines. cbn [t_ws]. f_equal. clear. induction h as [|h IH]; [reflexivity|]. cbn [repeat count_occ]. destruct (ascii_dec nl nl); [now rewrite IH|congruence].
  - exact (HQ _ _ X).
Qed.
Lemma tw_left t t' : tw t t' -> tw t t. Proof. destruct 1. now constructor. Qed.
Lemma ends_open b t t' : tw t t' -> ends b [t] (open_prefix t) 1.
Proof. intro h. apply (ends_of b t _ skip lined); [|exact (tw_left _ _ h)|auto]. intros t2 h2. exists (open_prefix t2). now apply sim_open. Qed.
Lemma ends_inline b t t' : tw t t' -> ends b [t] (inline_tok t) 0.
Proof. intro h. apply (ends_of b t _ skip word); [|exact (tw_left _ _ h)|now intros q s []]. intros t2 h2. exists (inline_tok t2). now apply sim_inline. Qed.
Lemma second_gap b t ts m1 m2 k : ends b [t] m1 k -> wr b [t] m1 -> wr b ts m2 -> Forall goodw (texts (t :: ts)) -> forall s hs n, incompact s = b ->
  splits (out ((m1 ;; m2) (rest s))) (texts (t :: ts)) hs n -> exists h2 n2, nth 1 hs 0 = nth 0 (adj k h2) 0 /\ splits (out (m2 (rest (m1 (rest s))))) (texts ts) h2 n2.
Proof.
  intros En (F1 & K1 & E1) (F2 & K2 & E2) G s hs n I S. destruct (E1 s I) as (h1 & n1 & S1). assert (J := K1 (rest s) I). destruct (E2 _ J) as (h2 & n2 & S2). exists h2, n2. split; [|exact S2].
  unfold seq in S. rewrite (proj1 (F2 _ J)) in S. change (t :: ts) with ([t] ++ ts) in *. rewrite texts_app in *.
  destruct (splits_unique _ G _ _ _ _ _ S (splits_app _ _ _ _ S1 _ _ _ _ S2)) as [-> _]. rewrite (En s h1 n1 I S1). pose proof (splits_length _ _ _ _ S1) as L. destruct h1 as [|h [|]]; try discriminate. reflexivity.
Qed.
Lemma sim_choice b P Q ts ts' (W W' : bool -> M) x x' : (forall y, sim b P ts ts' (W y) (W' y) Q) ->
  (forall s hs n, incompact s = b -> splits (out (W x (rest s))) (texts ts) hs n -> (0 <? nth 1 hs 0) = x) ->
  x = (0 <? nth 1 (map newl ts) 0) -> x' = (0 <? nth 1 (map newl ts') 0) -> sim b P ts ts' (W x) (W' x') Q.
Proof.
  intros H G X X'. split.
  - exact (sim_toks _ _ _ _ _ _ _ (H x)).
  - exact (sim_wr _ _ _ _ _ _ _ (H x)).
  - exact (sim_wr' _ _ _ _ _ _ _ (H x')).
  - intros p s hs n I HP S C. assert (E : x' = x).
    { rewrite X', C, <- (G s hs n I S). destruct hs as [|h [|h2 hs]]; reflexivity. }
    rewrite E. exact (sim_runs _ _ _ _ _ _ _ (H x) p s hs n I HP S C).
  - intros E. assert (Ex : x = x'). { rewrite X, X'. replace (map newl ts') with (map newl ts); [reflexivity|]. rewrite <- (map_map key fst), E, map_map. reflexivity. }
    rewrite <- Ex. exact (sim_exact _ _ _ _ _ _ _ (H x) E).
Qed.
Lemma sim_compact (P Q : pred) ts ts' m m' : (forall p s c, P p s -> P p (set_compact c s)) -> (forall p s c, Q p s -> Q p (set_compact c s)) ->
  sim true P ts ts' m m' Q -> sim false P ts ts' (set_compact true ;; m ;; set_compact false) (set_compact true ;; m' ;; set_compact false) Q.
Proof.
  intros HP HQ [T W W' R X].
  assert (D : forall ts m, wr true ts m -> wr false ts (set_compact true ;; m ;; set_compact false)).
  { clear. intros ts m (F & K & E). split; [|split].
    - intros s _. unfold seq. destruct (F (set_compact true s) eq_refl) as [A B]. change (rest (set_compact true s)) with (set_compact true (rest s)) in *. split; [exact A|].
      change (rest (set_compact false (m (set_compact true s)))) with (set_compact false (rest (m (set_compact true s)))). rewrite B. reflexivity.
    - intros s _. reflexivity.
    - intros s _. exact (E (set_compact true s) eq_refl). }
  split; [exact T|now apply D|now apply D| |].
  - intros p s hs n I Hp S C. destruct (R p (set_compact true s) hs n eq_refl (HP p (rest s) true Hp) S C) as (A & B & D'). split; [exact A|]. unfold seq. change (rest (set_compact true s)) with (set_compact true (rest s)) in *.
    split; [|apply (HQ _ (rest (m (set_compact true (rest s)))) false); exact D'].
    change (set_compact false (rest (m' (set_compact true (rest s)))) = set_compact false (rest (m (set_compact true (rest s))))). now rewrite B.
  - intros E s _. unfold seq. now rewrite (X E (set_compact true s) eq_refl).
Qed.

(* ---- compact options ---- *)
Lemma opts_quiet os : forall os', map (map_opt phi) os = map (map_opt phi) os' -> opts_c (map (map_opt phi) os) ->
  Forall (fun o => lead_of (opt_node_toks o) = [] /\ trail_of (opt_node_toks o) = []) os /\
  match os with o :: _ => exists t r, opt_node_toks o = t :: r | [] => False end.
Proof.
  induction os as [|o os IH]; intros [|o' os'] E C; try discriminate; [destruct C|]. cbn [map] in E, C. apply cons_eq in E as [E1 E2].
  cbn [opts_c] in C. destruct C as (K & O & R).
  destruct (opt_rel _ _ E1 O) as (kw & ps & e & v & sm & kw' & ps' & e' & v' & sm' & -> & -> & N & T & V & Ek & Es).
  cbn [map_opt o_kw o_semi] in K, R. destruct kw as [kw|]; [discriminate|]. destruct kw' as [kw'|]; [discriminate|].
  destruct (name_tws _ _ N) as [Tn (t & r & t' & r' & Et & Et')].
  assert (Tw : exists us, tws (opt_node_toks (Opt None (Some ps) (Some e) (Some v) sm)) us).
  { unfold opt_node_toks. cbn [o_kw o_name o_eq o_val o_semi opt_toks otoks app]. exists (flat_map part_toks ps' ++ [e'] ++ value_toks v' ++ otoks sm').
    apply Forall2_app; [exact Tn|]. apply (Forall2_app (l1 := [e])); [constructor; [exact T|constructor]|]. apply Forall2_app; [exact (sim_toks _ _ _ _ _ _ _ (proj1 (fsim_v true _ _ V)))|].
    destruct os as [|o2 os]; cbn [map] in R.
    - destruct sm as [sm|]; [discriminate|]. destruct sm'; [discriminate|]. constructor.
    - destruct (etw_phi _ _ _ Es (proj1 R)) as (c & c' & -> & -> & Tc & _). constructor; [exact Tc|constructor]. }
  destruct Tw as (us & Tw). destruct (tws_trail _ _ Tw) as [Q _].
  assert (Fst : opt_node_toks (Opt None (Some ps) (Some e) (Some v) sm) = t :: r ++ [e] ++ value_toks v ++ otoks sm).
  { unfold opt_node_toks. cbn [o_kw o_name o_eq o_val o_semi opt_toks otoks app]. rewrite Et. reflexivity. }
  split; [|eauto]. constructor.
  - split; [|exact Q]. rewrite Fst. cbn [lead_of]. rewrite Et, Et' in Tn. apply tws_cons in Tn as [Tn _]. now destruct (tw_lead _ _ Tn).
  - destruct os as [|o2 os]; [constructor|]. destruct os' as [|o2' os']; [discriminate|]. apply (IH (o2' :: os') E2). cbn [map] in R |- *. apply R.
Qed.
Lemma no_interior os : Forall (fun o => lead_of (opt_node_toks o) = [] /\ trail_of (opt_node_toks o) = []) os -> opts_interior os = false.
Proof.
  intro F. unfold opts_interior. apply orb_false_iff. split.
  - destruct F as [|o os _ F]; [reflexivity|]. cbn [tl]. induction F as [|x xs [A _] _ IH]; [reflexivity|]. cbn [existsb]. now rewrite A, IH.
  - induction F as [|x xs [_ A] F IH]; [reflexivity|]. destruct xs; [reflexivity|]. change (removelast (x :: o :: xs)) with (x :: removelast (o :: xs)). cbn [existsb]. now rewrite A, IH.
Qed.
Definition csame (c c' : copts) : Prop := map_copts phi c = map_copts phi c' /\ copts_c (map_copts phi c).
Lemma copts_rel c c' : csame c c' -> tw (co_open c) (co_open c') /\ tw (co_close c) (co_close c') /\ co_semi c = None /\ co_semi c' = None /\
  map (map_opt phi) (co_opts c) = map (map_opt phi) (co_opts c') /\ opts_c (map (map_opt phi) (co_opts c)).
Proof.
  destruct c as [o os k sm], c' as [o' os' k' sm']. unfold csame, map_copts, copts_c. cbn [co_open co_opts co_close co_semi]. intros [E (A & B & C & D)]. injection E as E1 E2 E3 E4.
  destruct sm; [discriminate|]. destruct sm'; [discriminate|]. auto 10.
Qed.
Definition copts_w (c : copts) (x : bool) : M :=
  set_compact true ;;
  (if x then open_prefix (co_open c) ;; columns dec (map (opt_elem dec true skip) (co_opts c)) ;; body_end_inline (co_close c) None false
   else inline_tok (co_open c) ;; inline_opts dec (inline_tok (co_close c)) (co_opts c)) ;;
  set_compact false.
Lemma copts_x os : forall os', map (map_opt phi) os = map (map_opt phi) os' -> opts_c (map (map_opt phi) os) -> forall op cl, copts_expanded (COpts op os cl None) = (0 <? nth 1 (map newl (copts_toks (COpts op os cl None))) 0) /\ nonempty os = true.
Proof.
  intros os' E C op cl. destruct (opts_quiet _ _ E C) as [F N]. pose proof (no_interior _ F) as I. destruct os as [|o os]; [contradiction|]. destruct N as (t & r & Et).
  split; [|reflexivity]. unfold copts_expanded. cbn [co_opts]. rewrite I, orb_false_r. unfold copts_toks. cbn [co_opts flat_map]. rewrite Et. cbn [ws_of app map nth]. apply has_nl_newl.
Qed.
Lemma write_copts_w c c' : csame c c' -> eqM (write_copts dec c) (copts_w c (copts_expanded c)) /\ copts_expanded c = (0 <? nth 1 (map newl (copts_toks c)) 0).
Proof.
  intro h. destruct (copts_rel _ _ h) as (_ & _ & S & _ & E & C). destruct c as [o os k sm]. cbn [co_semi co_opts] in *. subst sm. destruct (copts_x _ _ E C o k) as [X N]. split; [|exact X].
  intro s. unfold write_copts, copts_w. cbn [co_open co_close co_opts co_semi]. destruct os as [|o1 os]; [discriminate|]. destruct (copts_expanded _); reflexivity.
Qed.
Lemma csame_sym c c' : csame c c' -> csame c' c. Proof. intros [A B]. split; [now symmetry|]. now rewrite <- A. Qed.
Lemma copts_plain c : co_semi c = None -> copts_toks c = [co_open c] ++ flat_map opt_node_toks (co_opts c) ++ [co_close c].
Proof. intro S. unfold copts_toks. rewrite S. cbn [otoks]. now rewrite app_nil_r. Qed.
Lemma elems_toks_opts os : elems_toks (map (opt_elem dec true skip) os) = flat_map opt_node_toks os.
Proof. unfold elems_toks. induction os; [reflexivity|]. cbn [map flat_map]. now rewrite IHos. Qed.
Lemma sim_copts c c' : csame c c' -> sim false any (copts_toks c) (copts_toks c') (write_copts dec c) (write_copts dec c') word.
Proof.
  intro h. destruct (write_copts_w _ _ h) as [W X]. destruct (write_copts_w _ _ (csame_sym _ _ h)) as [W' X']. eapply sim_eqM; [|exact W|exact W'].
  destruct (copts_rel _ _ h) as (To & Tc & S & S' & E & C). rewrite (copts_plain _ S) in *. rewrite (copts_plain _ S') in *.
  pose proof (fsim_inline_opts true _ _ Tc _ _ E C) as [IO If]. pose proof (esims_opts _ _ E C) as Es.
  assert (Ne : map (opt_elem dec true skip) (co_opts c) <> []). { destruct (co_opts c); [destruct C|discriminate]. }
  pose proof (sim_columns dec true lined (fun p s H => H) _ _ Es Ne) as SC. rewrite !elems_toks_opts in SC.
  assert (Y : forall y : bool, sim true any ([co_open c] ++ flat_map opt_node_toks (co_opts c) ++ [co_close c]) ([co_open c'] ++ flat_map opt_node_toks (co_opts c') ++ [co_close c'])
     (if y then open_prefix (co_open c) ;; columns dec (map (opt_elem dec true skip) (co_opts c)) ;; body_end_inline (co_close c) None false
      else inline_tok (co_open c) ;; inline_opts dec (inline_tok (co_close c)) (co_opts c))
     (if y then open_prefix (co_open c') ;; columns dec (map (opt_elem dec true skip) (co_opts c')) ;; body_end_inline (co_close c') None false
      else inline_tok (co_open c') ;; inline_opts dec (inline_tok (co_close c')) (co_opts c')) word).
  { intros [|].
    - eapply sim_seq; [apply sim_open; exact To|]. eapply sim_seq; [eapply sim_weak; [exact SC|intros p s H; now left|intros p s H; exact H]|]. apply sim_any. now apply sim_body_end_inline.
    - eapply sim_seq; [apply sim_inline; exact To|]. now apply sim_any. }
  apply (sim_choice false any word _ _ (copts_w c) (copts_w c')); [|clear W W'|exact X|exact X'].
  - intro y. unfold copts_w. apply sim_compact; [auto|intros p s k H; exact H|]. apply Y.
  - intros s hs n I Sp. pose proof (proj2 (tws_texts _ _ (sim_toks _ _ _ _ _ _ _ (Y true)))) as G. pose proof (sim_wr _ _ _ _ _ _ _ (sim_open true _ _ To)) as Wo. pose proof (sim_wr _ _ _ _ _ _ _ (sim_inline true _ _ To)) as Wi.
    clear X. destruct (copts_expanded c).
    + assert (Wr : wr true (flat_map opt_node_toks (co_opts c) ++ [co_close c]) (columns dec (map (opt_elem dec true skip) (co_opts c)) ;; body_end_inline (co_close c) None false)).
      { apply wr_seq; [exact (sim_wr _ _ _ _ _ _ _ SC)|exact (sim_wr _ _ _ _ _ _ _ (sim_body_end_inline true _ _ false Tc))]. }
      destruct (second_gap true _ _ _ _ _ (ends_open true _ _ To) Wo Wr G (set_compact true s) hs n eq_refl Sp) as (h2 & n2 & -> & S2).
      pose proof (splits_length _ _ _ _ S2) as L. destruct h2 as [|h0 h2]; [|reflexivity]. rewrite texts_app, app_length in L. cbn in L. lia.
    + destruct (second_gap true _ _ _ _ _ (ends_inline true _ _ To) Wi (sim_wr _ _ _ _ _ _ _ IO) G (set_compact true s) hs n eq_refl Sp) as (h2 & n2 & -> & S2).
      assert (J : incompact (inline_tok (co_open c) (rest (set_compact true s))) = true) by (apply (proj1 (proj2 Wi)); reflexivity).
      pose proof (If _ _ _ J S2) as Z. destruct h2 as [|h0 h2]; [discriminate|]. injection Z as ->. reflexivity.
Qed.
Definition ocsame (os os' : option copts) : Prop := option_map (map_copts phi) os = option_map (map_copts phi) os' /\ if_some copts_c (option_map (map_copts phi) os).
Lemma ocopts_rel os os' : ocsame os os' -> (os = None /\ os' = None) \/ exists c c', os = Some c /\ os' = Some c' /\ csame c c'.
Proof.
  intros [E C]. destruct os as [c|], os' as [c'|]; try discriminate; [|now left]. right. cbn [option_map if_some] in *. apply some_eq in E. exists c, c'. repeat (split; [reflexivity|]). now split.
Qed.
Lemma sim_ocopts os os' : ocsame os os' -> sim false word (opt_toks copts_toks os) (opt_toks copts_toks os') (opt_w (write_copts dec) os) (opt_w (write_copts dec) os') word.
Proof. intro h. destruct (ocopts_rel _ _ h) as [[-> ->]|(c & c' & -> & -> & S)]; cbn [opt_toks opt_w]; [apply sim_skip|]. apply sim_any. now apply sim_copts. Qed.
Lemma sim_wopts os os' : ocsame os os' -> sim false word (opt_toks copts_toks os) (opt_toks copts_toks os') (write_opts dec os) (write_opts dec os') word.
Proof. intro h. unfold write_opts. destruct (ocopts_rel _ _ h) as [[-> ->]|(c & c' & -> & -> & S)]; cbn [opt_toks opt_w]; [apply sim_skip|]. apply sim_spaced. now apply sim_copts. Qed.
Lemma opt_expanded_keys os os' : ocsame os os' -> map key (opt_toks copts_toks os) = map key (opt_toks copts_toks os') -> opt_expanded os = opt_expanded os'.
Proof.
  intros h E. destruct (ocopts_rel _ _ h) as [[-> ->]|(c & c' & -> & -> & S)]; [reflexivity|]. cbn [opt_expanded opt_toks] in *.
  rewrite (proj2 (write_copts_w _ _ S)), (proj2 (write_copts_w _ _ (csame_sym _ _ S))). replace (map newl (copts_toks c')) with (map newl (copts_toks c)); [reflexivity|]. rewrite <- (map_map key fst), E, map_map. reflexivity.
Qed.
(* ---- declarations ---- *)
Ltac lists3 := cbn [app flat_map otoks opt_toks opt_node_toks o_kw o_name o_eq o_val o_semi]; rewrite ?app_nil_r; repeat (progress (rewrite <- ?app_assoc; cbn [app])); reflexivity.
Lemma fsim_start b t t' : tw t t' -> fsim b [t] [t'] (write_tok t ;; start_post [t] (is_open_brace t)) (write_tok t' ;; start_post [t'] (is_open_brace t')) word.
Proof.
  intro h. eapply fsim_eqMb; [eapply fsim_post; [apply fsim_tok; exact h|]| |].
  - apply (sim_prev b (is_open_brace t) word word). auto.
  - intros s _. destruct h. reflexivity.
  - intros s _. destruct h. reflexivity.
Qed.
Lemma fsim_type_rest b ty ty' : map_ident phi ty = map_ident phi ty' -> type_c None (map_ident phi ty) ->
  fsim b (ident_toks ty) (ident_toks ty') (field_type_rest ty) (field_type_rest ty') word.
Proof.
  intros E [C D]. destruct (ident_rel _ _ E C) as [(t & t' & -> & -> & h)|(ts & ts' & -> & -> & h & N)]; cbn [ident_toks field_type_rest].
  - now apply fsim_start.
  - destruct h as [|t t' r r' A B]; [congruence|]. cbn [map_ident map ident_toks] in D. rewrite phi_kind in D.
    assert (X : is_dot t = false /\ is_dot t' = false). { destruct A. unfold is_dot. cbn [t_kind] in *. destruct k; try (split; reflexivity). congruence. }
    destruct X as [-> ->]. cbn [when]. eapply fsim_eq; [eapply fsim_eqMb; [eapply fsim_seq; [apply fsim_start; exact A|apply sim_inlines0; exact B]| |]|reflexivity|reflexivity]; intros s _; reflexivity.
Qed.
Lemma relem_sim e e' : map_relem phi e = map_relem phi e' -> relem_c (map_relem phi e) -> sim false any (relem_toks e) (relem_toks e') (write_relem dec e) (write_relem dec e') word.
Proof.
  destruct e as [t|v|s to en mx], e' as [t'|v'|s' to' en' mx']; cbn [map_relem relem_c]; intros E C; try discriminate.
  - injection E as E. cbn [relem_toks write_relem]. apply sim_inline. now apply tw_phi.
  - injection E as E. cbn [relem_toks write_relem]. apply sim_spaced. apply (proj1 (fsim_iv false v v' (conj E C))).
  - injection E as E1 E2 E3 E4. destruct C as (C1 & C2 & C3 & C4). cbn [relem_toks write_relem]. apply sim_spaced. apply (fsim_node false).
    eapply fsim_seq; [apply fsim_iv; split; assumption|]. eapply sim_seq with (R := word).
    + destruct (otw_phi _ _ E2 C2) as [[-> ->]|(t & t' & -> & -> & T)]; cbn [otoks opt_w]; [apply sim_skip|]. apply sim_spaced. now apply sim_inline.
    + destruct en as [v|], en' as [v'|]; try discriminate; cbn [option_map if_some opt_toks] in *.
      * destruct mx; [discriminate|]. destruct mx'; [discriminate|]. cbn [otoks]. rewrite !app_nil_r. apply some_eq in E3. apply sim_spaced. apply (proj1 (fsim_iv false v v' (conj E3 C3))).
      * cbn [app]. destruct (otw_phi _ _ E4 C4) as [[-> ->]|(t & t' & -> & -> & T)]; cbn [otoks]; [apply sim_skip|]. apply sim_spaced. now apply sim_inline.
Qed.
Lemma sim_relems es : forall es', map (map_relem phi) es = map (map_relem phi) es' -> Forall relem_c (map (map_relem phi) es) ->
  sim false word (flat_map relem_toks es) (flat_map relem_toks es') (seqs (map (write_relem dec) es)) (seqs (map (write_relem dec) es')) word.
Proof.
  induction es as [|e es IH]; intros [|e' es'] E C; try discriminate; [apply sim_skip|]. cbn [map] in E, C. apply cons_eq in E as [E1 E2]. inversion C; subst.
  cbn [flat_map map seqs]. eapply sim_seq; [apply sim_any; now apply relem_sim|now apply IH].
Qed.
Lemma sim_rpctype r r' : map_rpctype phi r = map_rpctype phi r' -> rpctype_c (map_rpctype phi r) -> sim false any (rpctype_toks r) (rpctype_toks r') (write_rpctype r) (write_rpctype r') word.
Proof.
  destruct r as [o st ty c], r' as [o' st' ty' c']. unfold map_rpctype, rpctype_c. cbn [rt_open rt_stream rt_type rt_close]. intros E (A & B & C & D). injection E as E1 E2 E3 E4.
  unfold rpctype_toks, write_rpctype. cbn [rt_open rt_stream rt_type rt_close]. apply (fsim_node false).
  eapply fsim_eq; [eapply fsim_seq; [apply fsim_inline; now apply tw_phi|]; eapply sim_seq with (R := any)|reflexivity|reflexivity].
  - destruct (otw_phi _ _ E2 B) as [[-> ->]|(t & t' & -> & -> & T)]; cbn [otoks opt_w]; [eapply sim_toany; apply (sim_skip false word)|]. eapply sim_post; [apply sim_any, sim_inline; exact T|apply sim_space_any].
  - eapply sim_seq; [exact (proj1 (fsim_inline_ident false _ _ E3 C))|]. apply sim_any. apply sim_inline. now apply tw_phi.
Qed.
Lemma sim_semi b P t t' : tw t t' -> t_text t = b_ ";" -> sim b P [t] [t'] (line_end t) (line_end t') ended.
Proof. intros T X. apply sim_any. apply sim_line_end; [exact T|]. now apply (not_open t ";"). Qed.
Lemma begins_field l l' ty ty' : option_map phi l = option_map phi l' -> otok_ok (option_map phi l) -> map_ident phi ty = map_ident phi ty' -> type_c (option_map phi l) (map_ident phi ty) ->
  exists t r t' r' r0 r0' c W W', otoks l ++ ident_toks ty = t :: r /\ otoks l' ++ ident_toks ty' = t' :: r' /\
  fsim false (t :: r) (t' :: r') W W' word /\
  (match l with Some t => start_pre false [t] (closes t) | None => start_pre false (firstn 1 (ident_toks ty)) (match ident_toks ty with t :: _ => closes t | [] => false end) end) = start_pre false (t :: r0) c /\
  (match l' with Some t => start_pre false [t] (closes t) | None => start_pre false (firstn 1 (ident_toks ty')) (match ident_toks ty' with t :: _ => closes t | [] => false end) end) = start_pre false (t' :: r0') c /\
  (match l with Some t => write_tok t ;; start_post [t] (is_open_brace t) ;; space ;; inline_ident ty | None => field_type_rest ty end) = W /\
  (match l' with Some t => write_tok t ;; start_post [t] (is_open_brace t) ;; space ;; inline_ident ty' | None => field_type_rest ty' end) = W'.
Proof.
  intros El Cl Et Ct. destruct (ident_tws _ _ Et (proj1 Ct)) as [T N]. destruct (otw_phi _ _ El Cl) as [[-> ->]|(t & t' & -> & -> & h)].
  - pose proof (fsim_type_rest false _ _ Et Ct) as F. destruct T as [|t t' r r' A B]; [congruence|]. exists t, r, t', r', [], [], (closes t). do 2 eexists. cbn [otoks app].
    split; [reflexivity|]. split; [reflexivity|]. split; [exact F|]. cbn [firstn]. split; [reflexivity|]. split; [destruct (tw_closes _ _ A) as [-> _]; reflexivity|]. split; reflexivity.
  - exists t, (ident_toks ty), t', (ident_toks ty'), [], [], (closes t). do 2 eexists. cbn [otoks app].
    split; [reflexivity|]. split; [reflexivity|]. split; [|split; [reflexivity|split; [destruct (tw_closes _ _ h) as [-> _]; reflexivity|split; reflexivity]]].
    change (t :: ident_toks ty) with ([t] ++ ident_toks ty). change (t' :: ident_toks ty') with ([t'] ++ ident_toks ty').
    eapply fsim_eqMb; [eapply fsim_seq; [apply fsim_start; exact h|]; apply sim_spaced; exact (proj1 (fsim_inline_ident false _ _ Et (proj1 Ct)))| |]; intros s _; reflexivity.
Qed.
Definition both (d d' : decl) : Prop :=
  begins false (decl_toks d) (decl_toks d') (write_decl dec d) (write_decl dec d') ended /\
  forall lx, esim false ended lx (decl_elem dec (write_decl dec d) d) (decl_elem dec (write_decl dec d') d').
Lemma eqM_refl m : eqM m m. Proof. intro. reflexivity. Qed.
Lemma both_field l ty n e tg os sm l' ty' n' e' tg' os' sm' : let d := DField l ty n e tg os sm in let d' := DField l' ty' n' e' tg' os' sm' in
  map_decl phi d = map_decl phi d' -> decl_c (map_decl phi d) -> both d d'.
Proof.
  cbn [map_decl decl_c]. intros E (Cl & Ct & Cn & Ce & Cv & Co & Cs). injection E as E1 E2 E3 E4 E5 E6 E7.
  destruct (begins_field _ _ _ _ E1 Cl E2 Ct) as (t & r & t' & r' & r0 & r0' & c & W & W' & Et & Et' & F & P & P' & EW & EW').
  destruct (stw_phi _ _ E3 Cn) as (tn & tn' & -> & -> & Tn). destruct (stw_phi _ _ E4 Ce) as (te & te' & -> & -> & Te). destruct (etw_phi _ _ _ E7 Cs) as (ts & ts' & -> & -> & Ts & X & X').
  destruct tg as [v|]; [|contradiction]. destruct tg' as [v'|]; [|discriminate]. cbn [option_map some] in E5, Cv. apply some_eq in E5. assert (V : vsame v v') by (split; assumption).
  assert (O : ocsame os os') by (split; assumption).
  assert (S3 : sim false any ([te] ++ value_toks v) ([te'] ++ value_toks v') (inline_tok te ;; space ;; inline_v dec v) (inline_tok te' ;; space ;; inline_v dec v') word).
  { eapply sim_seq; [apply sim_inline; exact Te|]. apply sim_spaced. exact (proj1 (fsim_iv false _ _ V)). }
  split.
  - cbn [write_decl decl_toks]. 
    eapply begins_eq with (ts := (t :: r) ++ [tn] ++ ([te] ++ value_toks v) ++ opt_toks copts_toks os ++ [ts]) (ts' := (t' :: r') ++ [tn'] ++ ([te'] ++ value_toks v') ++ opt_toks copts_toks os' ++ [ts']).
    2: rewrite <- Et; lists3. 2: rewrite <- Et'; lists3.
    eapply begins_eqM; [eapply begins_seq; [apply (begins_of false t r t' r' r0 r0' c W W' word F)|]| |].
    + eapply (sim_seq _ _ _ _ _ _ _ _ (space ;; inline_tok tn) (space ;; inline_tok tn')); [apply sim_spaced; apply sim_inline; exact Tn|].
      eapply (sim_seq _ _ _ _ _ _ _ _ (space ;; inline_tok te ;; space ;; inline_v dec v) (space ;; inline_tok te' ;; space ;; inline_v dec v')); [apply sim_spaced; exact S3|].
      eapply sim_seq; [apply sim_wopts; exact O|apply sim_semi; assumption].
    + intro s. unfold write_field. cbn [opt_w must]. rewrite <- EW, <- P. destruct l; reflexivity.
    + intro s. unfold write_field. cbn [opt_w must]. rewrite <- EW', <- P'. destruct l'; reflexivity.
  - intro lx. eapply (esim_seg false ended lx _ _ t r0 t' r0' c W W' (inline_tok tn) (inline_tok tn') _ _ _ _ skip skip (t :: r) (t' :: r') [tn] [tn'] ([te] ++ value_toks v) ([te'] ++ value_toks v') (opt_toks copts_toks os ++ [ts]) (opt_toks copts_toks os' ++ [ts'])); cbn [decl_elem e_kind e_incomplete e_seg e_toks e_alone e_merge incomplete]; try reflexivity; try apply eqM_refl; try discriminate.
    + unfold field_seg. cbn [must]. rewrite P, EW. reflexivity.
    + unfold field_seg. cbn [must]. rewrite P', EW'. reflexivity.
    + cbn [decl_toks]. rewrite <- Et. lists3.
    + cbn [decl_toks]. rewrite <- Et'. lists3.
    + eapply sim_toany. exact (proj1 F).
    + eapply sim_toany. now apply sim_inline.
    + eapply (fsim_seq false _ _ _ _ _ _ _ _ word word F). apply sim_any. apply sim_inline. exact Tn.
    + eapply sim_toany. exact S3.
    + eapply sim_seq with (R := any); [|apply sim_semi; assumption]. destruct (ocopts_rel _ _ O) as [[-> ->]|(k & k' & -> & -> & Sk)]; cbn [opt_toks opt_w]; [apply sim_skip|]. eapply sim_toany. now apply sim_copts.
    + cbn [decl_toks]. rewrite !map_app. intro K.
      apply app_split in K as [K1 K]; [|rewrite !map_length; destruct (otw_phi _ _ E1 Cl) as [[-> ->]|(? & ? & -> & -> & _)]; reflexivity].
      pose proof (proj1 (ident_tws _ _ E2 (proj1 Ct))) as Ti.
      apply app_split in K as [K2 K]; [|rewrite !map_length; now apply tws_length]. 
      apply app_split in K as [_ K]; [|reflexivity]. apply app_split in K as [_ K]; [|reflexivity].
      apply app_split in K as [_ K]; [|rewrite !map_length; apply tws_length; exact (sim_toks _ _ _ _ _ _ _ (proj1 (fsim_iv false _ _ V)))].
      apply app_split in K as [K _]; [|rewrite !map_length; apply tws_length; exact (sim_toks _ _ _ _ _ _ _ (sim_wopts _ _ O))].
      pose proof (opt_expanded_keys _ _ O K) as Oe. split; [exact Oe|]. destruct (keys_lines _ _ Ti K2) as (L1 & L2 & _). unfold field_merge. rewrite L1, L2.
      destruct (ocopts_rel _ _ O) as [[-> ->]|(k & k' & -> & -> & Sk)]; [reflexivity|]. cbn [opt_expanded] in Oe. rewrite Oe. reflexivity.
Qed.
Lemma sim_tail os os' sm sm' : ocsame os os' -> tw sm sm' -> t_text sm = b_ ";" -> sim false any (opt_toks copts_toks os ++ [sm]) (opt_toks copts_toks os' ++ [sm']) (opt_w (write_copts dec) os ;; line_end sm) (opt_w (write_copts dec) os' ;; line_end sm') ended.
Proof.
  intros O T X. eapply sim_seq with (R := any); [|apply sim_semi; assumption]. destruct (ocopts_rel _ _ O) as [[-> ->]|(k & k' & -> & -> & Sk)]; cbn [opt_toks opt_w]; [apply sim_skip|]. eapply sim_toany. now apply sim_copts.
Qed.
Lemma sim_number te te' v v' : tw te te' -> vsame v v' -> sim false any ([te] ++ value_toks v) ([te'] ++ value_toks v') (inline_tok te ;; space ;; inline_v dec v) (inline_tok te' ;; space ;; inline_v dec v') word.
Proof. intros Te V. eapply sim_seq; [apply sim_inline; exact Te|]. apply sim_spaced. exact (proj1 (fsim_iv false _ _ V)). Qed.
Lemma fsim_map_type kw kw' o o' k k' cm cm' v v' c c' : tw kw kw' -> tw o o' -> map_ident phi k = map_ident phi k' -> ident_c (map_ident phi k) -> tw cm cm' -> map_ident phi v = map_ident phi v' -> ident_c (map_ident phi v) -> tw c c' ->
  fsim false ([kw] ++ [o] ++ ident_toks k ++ [cm] ++ ident_toks v ++ [c]) ([kw'] ++ [o'] ++ ident_toks k' ++ [cm'] ++ ident_toks v' ++ [c'])
    (write_tok kw ;; start_post [kw] (is_open_brace kw) ;; map_type_rest o k cm v c) (write_tok kw' ;; start_post [kw'] (is_open_brace kw') ;; map_type_rest o' k' cm' v' c') word.
Proof.
  intros A B Ek Ck C Ev Cv D. eapply fsim_eqMb with (m := (write_tok kw ;; start_post [kw] (is_open_brace kw)) ;; map_type_rest o k cm v c) (m' := (write_tok kw' ;; start_post [kw'] (is_open_brace kw')) ;; map_type_rest o' k' cm' v' c'); [|intros s _; unfold seq; reflexivity|intros s _; unfold seq; reflexivity].
  eapply fsim_seq; [apply fsim_start; exact A|]. unfold map_type_rest. eapply sim_seq; [apply sim_any, sim_inline; exact B|].
  eapply sim_seq; [apply sim_any; exact (proj1 (fsim_inline_ident false _ _ Ek Ck))|]. eapply sim_seq; [apply sim_any, sim_inline; exact C|]. apply sim_spaced.
  eapply sim_seq; [exact (proj1 (fsim_inline_ident false _ _ Ev Cv))|]. apply sim_any, sim_inline. exact D.
Qed.
Lemma both_map kw o k cm v c tsm n e tg os sm kw' o' k' cm' v' c' tsm' n' e' tg' os' sm' : let d := DMap kw o k cm v c tsm n e tg os sm in let d' := DMap kw' o' k' cm' v' c' tsm' n' e' tg' os' sm' in
  map_decl phi d = map_decl phi d' -> decl_c (map_decl phi d) -> both d d'.
Proof.
  cbn [map_decl decl_c]. intros E (Ckw & Cop & Ck & Ccm & Cv & Cc & Ct & Cn & Ce & Ctg & Co & Cs). injection E as E1 E2 E3 E4 E5 E6 E7 E8 E9 E10 E11 E12.
  destruct tsm; [discriminate|]. destruct tsm'; [discriminate|]. destruct (etw_phi _ _ _ E12 Cs) as (ts & ts' & -> & -> & Ts & X & X').
  assert (V : vsame tg tg') by (split; assumption). assert (O : ocsame os os') by (split; assumption).
  assert (Tkw := tw_phi _ _ E1 Ckw). assert (Tn := tw_phi _ _ E8 Cn). assert (Te := tw_phi _ _ E9 Ce).
  pose proof (fsim_map_type _ _ _ _ _ _ _ _ _ _ _ _ Tkw (tw_phi _ _ E2 Cop) E3 Ck (tw_phi _ _ E4 Ccm) E5 Cv (tw_phi _ _ E6 Cc)) as F.
  pose proof (sim_number _ _ _ _ Te V) as S3. pose proof (sim_tail _ _ _ _ O Ts X) as S4.
  split.
  - cbn [write_decl decl_toks].
    eapply begins_eq with (ts := ([kw] ++ [o] ++ ident_toks k ++ [cm] ++ ident_toks v ++ [c]) ++ [n] ++ ([e] ++ value_toks tg) ++ opt_toks copts_toks os ++ [ts]) (ts' := ([kw'] ++ [o'] ++ ident_toks k' ++ [cm'] ++ ident_toks v' ++ [c']) ++ [n'] ++ ([e'] ++ value_toks tg') ++ opt_toks copts_toks os' ++ [ts']).
    2: lists3. 2: lists3.
    eapply begins_eqM; [eapply begins_seq; [apply (begins_of false kw _ kw' _ [] [] (closes kw) _ _ word F)|]| |].
    + eapply (sim_seq _ _ _ _ _ _ _ _ (space ;; inline_tok n) (space ;; inline_tok n')); [apply sim_spaced; apply sim_inline; exact Tn|].
      eapply (sim_seq _ _ _ _ _ _ _ _ (space ;; inline_tok e ;; space ;; inline_v dec tg) (space ;; inline_tok e' ;; space ;; inline_v dec tg')); [apply sim_spaced; exact S3|].
      eapply sim_seq; [apply sim_wopts; exact O|apply sim_semi; assumption].
    + intro s. unfold start_tok, seq. reflexivity.
    + intro s. destruct (tw_closes _ _ Tkw) as [-> _]. unfold start_tok, seq. reflexivity.
  - intro lx. eapply (esim_seg false ended lx _ _ kw [] kw' [] (closes kw) (write_tok kw ;; start_post [kw] (is_open_brace kw) ;; map_type_rest o k cm v c) (write_tok kw' ;; start_post [kw'] (is_open_brace kw') ;; map_type_rest o' k' cm' v' c') (inline_tok n) (inline_tok n') _ _ _ _ skip skip ([kw] ++ [o] ++ ident_toks k ++ [cm] ++ ident_toks v ++ [c]) ([kw'] ++ [o'] ++ ident_toks k' ++ [cm'] ++ ident_toks v' ++ [c']) [n] [n'] ([e] ++ value_toks tg) ([e'] ++ value_toks tg') (opt_toks copts_toks os ++ [ts]) (opt_toks copts_toks os' ++ [ts']));
      cbn [decl_elem e_kind e_incomplete e_seg e_toks e_alone e_merge incomplete]; try reflexivity; try apply eqM_refl; try discriminate.
    + unfold map_seg. cbn [must map_semi_comments]. destruct (tw_closes _ _ Tkw) as [-> _]. reflexivity.
    + cbn [decl_toks]. lists3.
    + cbn [decl_toks]. lists3.
    + eapply sim_toany. exact (proj1 F).
    + eapply sim_toany. now apply sim_inline.
    + eapply (fsim_seq false _ _ _ _ _ _ _ _ word word F). apply sim_any. apply sim_inline. exact Tn.
    + eapply sim_toany. exact S3.
    + exact S4.
    + intros _. split; reflexivity.
Qed.
Lemma both_enum_value n e v os sm n' e' v' os' sm' : let d := DEnumValue n e v os sm in let d' := DEnumValue n' e' v' os' sm' in
  map_decl phi d = map_decl phi d' -> decl_c (map_decl phi d) -> both d d'.
Proof.
  cbn [map_decl decl_c]. intros E (Cn & Ce & Cv & Co & Cs). injection E as E1 E2 E3 E4 E5.
  destruct (etw_phi _ _ _ E5 Cs) as (ts & ts' & -> & -> & Ts & X & X').
  assert (V : vsame v v') by (split; assumption). assert (O : ocsame os os') by (split; assumption). assert (Tn := tw_phi _ _ E1 Cn). assert (Te := tw_phi _ _ E2 Ce).
  pose proof (fsim_start false _ _ Tn) as F. pose proof (sim_number _ _ _ _ Te V) as S3. pose proof (sim_tail _ _ _ _ O Ts X) as S4.
  split.
  - cbn [write_decl decl_toks must]. rewrite !with_rune_id by assumption.
    eapply begins_eq with (ts := [n] ++ ([e] ++ value_toks v) ++ opt_toks copts_toks os ++ [ts]) (ts' := [n'] ++ ([e'] ++ value_toks v') ++ opt_toks copts_toks os' ++ [ts']).
    2: lists3. 2: lists3.
    eapply begins_eqM; [eapply begins_seq; [apply (begins_tok false _ _ Tn)|]| |].
    + eapply (sim_seq _ _ _ _ _ _ _ _ (space ;; inline_tok e ;; space ;; inline_v dec v) (space ;; inline_tok e' ;; space ;; inline_v dec v')); [apply sim_spaced; exact S3|].
      eapply sim_seq; [apply sim_wopts; exact O|apply sim_semi; assumption].
    + intro s. unfold start_tok, seq. reflexivity.
    + intro s. unfold start_tok, seq. reflexivity.
  - intro lx. eapply (esim_seg false ended lx _ _ n [] n' [] (closes n) skip skip (write_tok n ;; start_post [n] (is_open_brace n)) (write_tok n' ;; start_post [n'] (is_open_brace n')) _ _ (opt_w (write_copts dec) os ;; line_end ts) (opt_w (write_copts dec) os' ;; line_end ts') skip skip [] [] [n] [n'] ([e] ++ value_toks v) ([e'] ++ value_toks v') (opt_toks copts_toks os ++ [ts]) (opt_toks copts_toks os' ++ [ts']));
      cbn [decl_elem e_kind e_incomplete e_seg e_toks e_alone e_merge incomplete]; try reflexivity; try apply eqM_refl; try discriminate.
    + unfold enum_value_seg. cbn [must]. rewrite !with_rune_id by assumption. reflexivity.
    + unfold enum_value_seg. cbn [must]. rewrite !with_rune_id by assumption. destruct (tw_closes _ _ Tn) as [-> _]. reflexivity.
    + apply sim_skip.
    + eapply sim_toany. exact (proj1 F).
    + apply flush_skip. exact (proj2 F).
    + eapply sim_toany. exact S3.
    + exact S4.
    + cbn [decl_toks map]. intro K. apply cons_eq in K as [_ K]. apply cons_eq in K as [_ K]. rewrite !map_app in K.
      apply app_split in K as [_ K]; [|rewrite !map_length; apply tws_length; exact (sim_toks _ _ _ _ _ _ _ (proj1 (fsim_iv false _ _ V)))].
      apply app_split in K as [K _]; [|rewrite !map_length; apply tws_length; exact (sim_toks _ _ _ _ _ _ _ (sim_wopts _ _ O))].
      split; [exact (opt_expanded_keys _ _ O K)|reflexivity].
Qed.
(* ---- declared options ---- *)
Lemma sim_line_element b t t' : tw t t' -> sim b any [t] [t'] (line_element t) (line_element t') lined.
Proof.
  intros h. destruct h as [k u w l w' l' G N E]. set (t := Token k u [] [] w l false) in *. set (t' := Token k u [] [] w' l' false).
  unfold line_element, body_end. change (is_open_brace t') with (is_open_brace t). cbn [t t' t_lead t_trail nonempty when trailing_end_comments trailing_from virtual_trail multiline_comments multiline_from]. fold t t'.
  change (closes t') with (closes t).
  apply (sim_pre b any any).
  { apply (sim_pre b any any); [|apply sim_indent_any]. apply sim_set; [apply frame_skip|intros s I; exact I|reflexivity|intros; exact I]. }
  eapply (sim_post b any word _ [_] [_]); [apply sim_tok; constructor; assumption|]. apply (sim_pre b word lined).
  - apply (sim_pre b word word); [apply sim_skip|]. apply sim_p_blank. intros p s [-> _]. reflexivity.
  - apply sim_prev. intros p s H. exact H.
Qed.
Lemma sim_string_lines b ts ts' : tws ts ts' -> ts <> [] -> sim b lined ts ts' (string_lines true ts) (string_lines true ts') word.
Proof.
  induction 1 as [|t t' r r' A B IH]; intro N; [congruence|]. destruct B as [|t2 t2' r r' B1 B2].
  - cbn [string_lines]. eapply sim_weak; [apply begins_sim; apply begins_tok; exact A|intros p s H; left; exact H|auto].
  - change (string_lines true (t :: t2 :: r)) with (line_element t ;; string_lines true (t2 :: r)). change (string_lines true (t' :: t2' :: r')) with (line_element t' ;; string_lines true (t2' :: r')).
    change (t :: t2 :: r) with ([t] ++ t2 :: r). change (t' :: t2' :: r') with ([t'] ++ t2' :: r'). eapply sim_seq; [apply sim_any, sim_line_element; exact A|]. apply IH. discriminate.
Qed.
Lemma sim_compound b ts ts' : tws ts ts' -> 2 <= List.length ts -> sim b any ts ts' (compound_string true true ts) (compound_string true true ts') word.
Proof.
  intros h L. unfold compound_string. cbn [when]. apply (sim_pre b any any); [apply sim_p_blank; intros; exact I|].
  apply (sim_pre b any any); [apply sim_set; [apply frame_in|intros s I; exact I|reflexivity|intros; exact I]|].
  eapply sim_post with (R := word).
  - destruct h as [|t t' r r' A B]; [cbn in L; lia|]. destruct B as [|t2 t2' r r' B1 B2]; [cbn in L; lia|].
    change (string_lines true (t :: t2 :: r)) with (line_element t ;; string_lines true (t2 :: r)). change (string_lines true (t' :: t2' :: r')) with (line_element t' ;; string_lines true (t2' :: r')).
    change (t :: t2 :: r) with ([t] ++ t2 :: r). change (t' :: t2' :: r') with ([t'] ++ t2' :: r'). eapply sim_seq; [apply sim_line_element; exact A|]. apply sim_string_lines; [constructor; assumption|discriminate].
  - apply sim_set; [apply frame_out|intros s I; unfold shift_out; destruct (indent s); exact I|intro s; unfold shift_out; destruct (indent s); reflexivity|]. intros p s H. unfold shift_out. destruct (indent (rest s)); exact H.
Qed.
Definition lsame (v v' : value) : Prop := map_value phi v = map_value phi v' /\ long_value_c (map_value phi v).
Lemma long_rel v v' : lsame v v' -> vsame v v' \/ exists ts ts', v = VStr ts /\ v' = VStr ts' /\ tws ts ts' /\ 2 <= List.length ts.
Proof.
  intros [E C]. destruct v; try (left; split; [exact E|exact C]). right. destruct v'; try discriminate. cbn in E, C. injection E as E. destruct C as [L F]. rewrite map_length in L.
  do 2 eexists. repeat (split; [first [reflexivity|now apply tws_phi]|]). exact L.
Qed.
Lemma kopt_rel o o' : map_opt phi o = map_opt phi o' -> keyword_opt_c (map_opt phi o) -> exists kw ps e v sm kw' ps' e' v' sm',
  o = Opt (Some kw) (Some ps) (Some e) (Some v) (Some sm) /\ o' = Opt (Some kw') (Some ps') (Some e') (Some v') (Some sm') /\ nsame ps ps' /\ tw e e' /\ lsame v v' /\
  tw kw kw' /\ tw sm sm' /\ t_text sm = b_ ";".
Proof.
  destruct o as [kw ps e v sm], o' as [kw' ps' e' v' sm']. unfold map_opt, keyword_opt_c. cbn [o_kw o_name o_eq o_val o_semi]. intros E (K & N & Q & V & S).
  injection E as E1 E2 E3 E4 E5.
  destruct ps as [ps|]; [|contradiction]. destruct ps' as [ps'|]; [|discriminate]. destruct v as [v|]; [|contradiction]. destruct v' as [v'|]; [|discriminate].
  cbn [option_map some] in *. apply some_eq in E2, E4. destruct (stw_phi _ _ E3 Q) as (q & q' & -> & -> & T). destruct (stw_phi _ _ E1 K) as (k & k' & -> & -> & Tk). destruct (etw_phi _ _ _ E5 S) as (c & c' & -> & -> & Tc & X & _).
  do 10 eexists. repeat (split; [first [reflexivity|split; assumption|assumption]|]). exact X.
Qed.
Definition keyword_opt_toks kw ps e v sm := [kw] ++ flat_map part_toks ps ++ [e] ++ value_toks v ++ [sm].
Lemma sim_opt_end v v' sm sm' (W W' : value -> M) : lsame v v' -> tw sm sm' -> t_text sm = b_ ";" -> (vsame v v' -> sim false any (value_toks v) (value_toks v') (W v) (W' v') word) ->
  sim false any (value_toks v ++ [sm]) (value_toks v' ++ [sm'])
    (match compound (Some v) with Some ts => compound_string true true ts ;; line_end sm | None => W v ;; line_end sm end)
    (match compound (Some v') with Some ts => compound_string true true ts ;; line_end sm' | None => W' v' ;; line_end sm' end) ended.
Proof.
  intros L T X H. destruct (long_rel _ _ L) as [V|(ts & ts' & -> & -> & Tt & Ln)].
  - destruct (compound_none _ _ V) as [-> ->]. eapply sim_seq; [exact (H V)|now apply sim_semi].
  - cbn [compound value_toks]. eapply sim_seq; [apply sim_compound; assumption|now apply sim_semi].
Qed.
Lemma esim_opt lx o o' : map_opt phi o = map_opt phi o' -> keyword_opt_c (map_opt phi o) -> esim false ended lx (opt_elem dec false skip o) (opt_elem dec false skip o').
Proof.
  intros E C. destruct (kopt_rel _ _ E C) as (kw & ps & e & v & sm & kw' & ps' & e' & v' & sm' & -> & -> & N & Te & L & Tk & Ts & X).
  pose proof (fsim_start false _ _ Tk) as F. pose proof (fsim_name false _ _ (proj1 N) (proj2 N)) as [FN _].
  eapply (esim_seg false ended lx _ _ kw [] kw' [] (closes kw) (write_tok kw ;; start_post [kw] (is_open_brace kw)) (write_tok kw' ;; start_post [kw'] (is_open_brace kw'))
    (write_name ps ;; skip) (write_name ps' ;; skip) (inline_tok e) (inline_tok e')
    (match compound (Some v) with Some ts => compound_string true true ts ;; line_end sm | None => write_v dec v ;; line_end sm end)
    (match compound (Some v') with Some ts => compound_string true true ts ;; line_end sm' | None => write_v dec v' ;; line_end sm' end)
    skip skip [kw] [kw'] (flat_map part_toks ps) (flat_map part_toks ps') [e] [e'] (value_toks v ++ [sm]) (value_toks v' ++ [sm'])); cbn [opt_elem e_kind e_incomplete e_seg e_toks e_alone e_merge];
    [reflexivity|discriminate|reflexivity|reflexivity|reflexivity| |apply eqM_refl|apply eqM_refl|reflexivity|reflexivity|reflexivity|reflexivity| | | | | |].
  - unfold opt_seg. cbn [o_kw o_name o_eq o_val o_semi opt_w must]. destruct (tw_closes _ _ Tk) as [-> _]. reflexivity.
  - eapply sim_toany. exact (proj1 F).
  - eapply sim_toany. eapply sim_post; [exact FN|apply sim_skip].
  - eapply (fsim_seq false _ _ _ _ _ _ _ _ word word F). apply sim_any. eapply sim_post; [exact FN|apply sim_skip].
  - eapply sim_toany. now apply sim_inline.
  - apply sim_opt_end; try assumption. intro V. exact (proj1 (fsim_v false _ _ V)).
  - intros _. split; [reflexivity|]. cbn [o_val]. destruct (long_rel _ _ L) as [V|(ts & ts' & -> & -> & _)]; [|reflexivity]. destruct (merge_true _ _ V) as [-> ->]. reflexivity.
Qed.
Lemma both_option o o' : map_opt phi o = map_opt phi o' -> keyword_opt_c (map_opt phi o) -> both (DOption o) (DOption o').
Proof.
  intros E C. split; [|intro lx; cbn [decl_elem]; now apply esim_opt].
  destruct (kopt_rel _ _ E C) as (kw & ps & e & v & sm & kw' & ps' & e' & v' & sm' & -> & -> & N & Te & L & Tk & Ts & X). pose proof (fsim_name false _ _ (proj1 N) (proj2 N)) as [FN _].
  cbn [write_decl decl_toks]. unfold write_option. cbn [o_kw o_name o_eq o_val o_semi opt_w must].
  eapply begins_eqM with (m := start_tok false kw ;; (space ;; write_name ps) ;; (space ;; inline_tok e) ;; space ;; match compound (Some v) with Some ts => compound_string true true ts ;; line_end sm | None => inline_v dec v ;; line_end sm end)
     (m' := start_tok false kw' ;; (space ;; write_name ps') ;; (space ;; inline_tok e') ;; space ;; match compound (Some v') with Some ts => compound_string true true ts ;; line_end sm' | None => inline_v dec v' ;; line_end sm' end).
  - eapply begins_eq; [eapply begins_seq; [apply begins_tok; exact Tk|]; eapply sim_seq; [apply sim_spaced; exact FN|]; eapply sim_seq; [apply sim_spaced, sim_inline; exact Te|]; apply sim_spaced;
      apply (sim_opt_end v v' sm sm' (inline_v dec) (inline_v dec) L Ts X); intro V; exact (proj1 (fsim_iv false _ _ V))|lists3|lists3].
  - intro s. unfold seq. destruct (compound (Some v)); reflexivity.
  - intro s. unfold seq. destruct (compound (Some v')); reflexivity.
Qed.
(* ---- bodies ---- *)
Lemma no_comments o o' c c' : tw o o' -> tw c c' -> interior_comments [o; c] = false.
Proof. intros A B. destruct A, B. reflexivity. Qed.
Lemma sim_empty_body o c o' c' : tw o o' -> tw c c' -> t_text c = b_ "}" -> sim false any [o; c] [o'; c'] (type_body o c None None) (type_body o' c' None None) ended.
Proof.
  intros To Tc X. unfold type_body, body. rewrite (no_comments _ _ _ _ To Tc). replace (interior_comments [o'; c']) with false by (destruct To, Tc; reflexivity).
  change [o; c] with ([o] ++ [c]). change [o'; c'] with ([o'] ++ [c']). eapply sim_seq; [apply sim_inline; exact To|]. apply sim_any. apply sim_body_end; [exact Tc|]. now apply (not_open c "}").
Qed.
Lemma sim_full_body o c o' c' ts ts' m m' (Q : pred) : tw o o' -> tw c c' -> t_text c = b_ "}" -> sim false lined ts ts' m m' Q ->
  sim false any ([o] ++ ts ++ [c]) ([o'] ++ ts' ++ [c']) (type_body o c None (Some m)) (type_body o' c' None (Some m')) ended.
Proof.
  intros To Tc X S. unfold type_body, body. eapply sim_seq; [apply sim_open; exact To|]. eapply sim_seq; [exact S|]. apply sim_any. apply sim_body_end; [exact Tc|]. now apply (not_open c "}").
Qed.
Definition same_decl (d d' : decl) : Prop := map_decl phi d = map_decl phi d' /\ decl_c (map_decl phi d).
Definition good_decl (d : decl) : Prop := forall d', same_decl d d' -> both d d'.
Lemma both_plain d d' : decl_elem dec (write_decl dec d) d = Elem ENone (decl_toks d) false false false (fun _ _ => no_seg) (write_decl dec d) ->
  decl_elem dec (write_decl dec d') d' = Elem ENone (decl_toks d') false false false (fun _ _ => no_seg) (write_decl dec d') ->
  begins false (decl_toks d) (decl_toks d') (write_decl dec d) (write_decl dec d') ended -> both d d'.
Proof.
  intros E E' B. split; [exact B|]. intro lx. rewrite E, E'. pose proof (begins_sim _ _ _ _ _ _ B) as S. unfold esim, elem_wr, elem_w, psame, kin. cbn [e_kind e_toks e_node e_incomplete e_alone e_merge].
  split; [reflexivity|]. split; [exact (sim_wr _ _ _ _ _ _ _ S)|]. split; [exact (sim_wr' _ _ _ _ _ _ _ S)|]. split; [exact B|].
  intro K. destruct (keys_lines _ _ (sim_toks _ _ _ _ _ _ _ S) K) as (L1 & L2 & L3). split; [repeat (split; [first [reflexivity|assumption]|]); assumption|exact (sim_exact _ _ _ _ _ _ _ S K)].
Qed.
Lemma all_forall l : (fix all l := match l with [] => True | d :: r => decl_c d /\ all r end) l <-> Forall decl_c l.
Proof. induction l as [|d l IH]; [split; [constructor|auto]|]. rewrite IH. split; [intros [A B]; now constructor|intro h; inversion h; auto]. Qed.
Lemma both_all b : Forall good_decl b -> forall b', map (map_decl phi) b = map (map_decl phi) b' -> Forall decl_c (map (map_decl phi) b) -> Forall2 both b b'.
Proof.
  induction 1 as [|d b G _ IH]; intros [|d' b'] E C; try discriminate; constructor; cbn [map] in E, C; apply cons_eq in E as [E1 E2]; inversion C; subst.
  - apply G. now split.
  - now apply IH.
Qed.
Lemma elem_toks w d : e_toks (decl_elem dec w d) = decl_toks d. Proof. destruct d; reflexivity. Qed.
Lemma elems_toks_decls b : elems_toks (map (fun d => decl_elem dec (write_decl dec d) d) b) = flat_map decl_toks b.
Proof. unfold elems_toks. induction b as [|d b IH]; [reflexivity|]. cbn [map flat_map]. now rewrite IH, elem_toks. Qed.
Lemma esims_decls n b b' : Forall2 both b b' -> esims false ended n (map (fun d => decl_elem dec (write_decl dec d) d) b) (map (fun d => decl_elem dec (write_decl dec d) d) b').
Proof. induction 1 as [|d d' b b' [_ A] _ IH]; [exact I|]. cbn [map esims]. auto. Qed.
Lemma ended_one p s : ended p s -> p = 1. Proof. now intros []. Qed.
Lemma sim_columns_body b b' : Forall2 both b b' -> b <> [] -> sim false lined (flat_map decl_toks b) (flat_map decl_toks b')
  (columns dec (map (fun d => decl_elem dec (write_decl dec d) d) b)) (columns dec (map (fun d => decl_elem dec (write_decl dec d) d) b')) ended.
Proof.
  intros B N. pose proof (sim_columns dec false ended ended_one _ _ (esims_decls 0 _ _ B)) as S. rewrite !elems_toks_decls in S.
  eapply sim_weak; [apply S; destruct b; [congruence|discriminate]|intros p s H; left; exact H|auto].
Qed.
Lemma sim_seq_body b b' : Forall2 both b b' -> b <> [] -> sim false lined (flat_map decl_toks b) (flat_map decl_toks b') (seqs (map (write_decl dec) b)) (seqs (map (write_decl dec) b')) ended.
Proof.
  induction 1 as [|d d' b b' [A _] B IH]; intro N; [congruence|]. cbn [map flat_map seqs]. eapply sim_seq with (R := ended).
  - eapply sim_weak; [apply begins_sim; exact A|intros p s H; left; exact H|auto].
  - destruct B as [|d2 d2' b b' B1 B2]; [apply sim_skip|]. eapply sim_weak; [apply IH; discriminate|intros p s H; exact (proj1 H)|auto].
Qed.
Definition body_toks (o : token) (b : list decl) (c : token) : list token := o :: flat_map decl_toks b ++ [c].
Lemma sim_body o c o' c' b b' (W : list decl -> M) : tw o o' -> tw c c' -> t_text c = b_ "}" -> Forall2 both b b' ->
  (b <> [] -> sim false lined (flat_map decl_toks b) (flat_map decl_toks b') (W b) (W b') ended) ->
  sim false any (body_toks o b c) (body_toks o' b' c') (type_body o c None (some_if b (W b))) (type_body o' c' None (some_if b' (W b'))) ended.
Proof.
  intros To Tc X B H. unfold body_toks. destruct B as [|d d' b b' B1 B2]; cbn [some_if].
  - cbn [flat_map app]. now apply sim_empty_body.
  - eapply sim_eq; [eapply sim_full_body; [exact To|exact Tc|exact X|apply H; discriminate]|reflexivity|reflexivity].
Qed.
Ltac pieces := match goal with
  | |- sim _ _ _ _ (space ;; _) (space ;; _) _ => apply sim_spaced
  | |- sim _ _ _ _ (inline_tok _) (inline_tok _) _ => apply sim_any, sim_inline; assumption
  end.
Lemma named_sim kw n o c sm b kw' n' o' c' sm' b' (W : list decl -> M) :
  phi kw = phi kw' -> tok_ok (phi kw) -> phi n = phi n' -> tok_ok (phi n) -> phi o = phi o' -> reads_as "{" (phi o) -> phi c = phi c' -> reads_as "}" (phi c) ->
  option_map phi sm = option_map phi sm' -> option_map phi sm = None -> Forall2 both b b' ->
  (b <> [] -> sim false lined (flat_map decl_toks b) (flat_map decl_toks b') (W b) (W b') ended) ->
  begins false (kw :: n :: o :: flat_map decl_toks b ++ c :: otoks sm) (kw' :: n' :: o' :: flat_map decl_toks b' ++ c' :: otoks sm')
    (start_tok false kw ;; space ;; inline_tok n ;; space ;; type_body o c sm (some_if b (W b))) (start_tok false kw' ;; space ;; inline_tok n' ;; space ;; type_body o' c' sm' (some_if b' (W b'))) ended.
Proof.
  intros Ek Ck En Cn Eo Co Ec Cc Es Cs B H. destruct sm; [discriminate|]. destruct sm'; [discriminate|]. destruct (rtw_phi _ _ _ Eo Co) as [To _]. destruct (rtw_phi _ _ _ Ec Cc) as [Tc X].
  eapply begins_eqM with (m := start_tok false kw ;; (space ;; inline_tok n) ;; space ;; type_body o c None (some_if b (W b))) (m' := start_tok false kw' ;; (space ;; inline_tok n') ;; space ;; type_body o' c' None (some_if b' (W b'))); [|intro; reflexivity|intro; reflexivity].
  eapply begins_eq; [eapply begins_seq; [apply begins_tok; now apply tw_phi|]; eapply sim_seq; [apply sim_spaced, sim_inline; now apply tw_phi|]; apply sim_spaced; apply (sim_body o c o' c' b b' W To Tc X B H)|reflexivity|reflexivity].
Qed.
Lemma decl_good : forall d, good_decl d.
Proof.
  apply decl_ind2.
  - intros l ty n e tg os sm d' [E C]. destruct d'; try discriminate. now apply both_field.
  - intros kw o k cm v c tsm n e tg os sm d' [E C]. destruct d'; try discriminate. now apply both_map.
  - intros n e v os sm d' [E C]. destruct d'; try discriminate. now apply both_enum_value.
  - intros o d' [E C]. destruct d' as [| | |o'| | | | | | | | | |]; try discriminate. cbn [map_decl] in E, C. apply dopt_eq in E. now apply both_option.
  - intros kw es sm d' [E C]. destruct d' as [| | | |kw' es' sm'| | | | | | | | |]; try discriminate. cbn [map_decl decl_c] in E, C. injection E as E1 E2 E3. destruct C as (C1 & C2 & C3).
    destruct (etw_phi _ _ _ E3 C3) as (s & s' & -> & -> & T & X & _). apply both_plain; [reflexivity|reflexivity|]. cbn [decl_toks write_decl must].
    eapply begins_eq; [eapply begins_seq; [apply begins_tok; apply tw_phi; [exact E1|exact C1]|]; eapply sim_seq; [apply sim_relems; assumption|apply sim_semi; assumption]|reflexivity|reflexivity].
  - intros kw es os sm d' [E C]. destruct d' as [| | | | |kw' es' os' sm'| | | | | | | |]; try discriminate. cbn [map_decl decl_c] in E, C. injection E as E1 E2 E3 E4. destruct C as (C1 & C2 & C3 & C4).
    destruct (etw_phi _ _ _ E4 C4) as (s & s' & -> & -> & T & X & _). apply both_plain; [reflexivity|reflexivity|]. cbn [decl_toks write_decl must].
    assert (O : ocsame os os') by (split; assumption).
    eapply begins_eqM with (m := start_tok false kw ;; (space ;; seqs (map (write_relem dec) es)) ;; write_opts dec os ;; line_end s) (m' := start_tok false kw' ;; (space ;; seqs (map (write_relem dec) es')) ;; write_opts dec os' ;; line_end s'); [|intro; reflexivity|intro; reflexivity].
    eapply begins_eq; [eapply begins_seq; [apply begins_tok; apply tw_phi; [exact E1|exact C1]|]; eapply sim_seq; [|eapply sim_seq; [apply sim_wopts; exact O|apply sim_semi; assumption]]|reflexivity|reflexivity].
    apply (sim_pre false word word); [apply sim_space; auto|]. now apply sim_relems.
  - intros kw n o b c sm F d' [E C]. destruct d' as [| | | | | |kw' n' o' b' c' sm'| | | | | | |]; try discriminate. cbn [map_decl decl_c] in E, C. injection E as E1 E2 E3 E4 E5 E6. destruct C as (C1 & C2 & C3 & C4 & C5 & C6).
    apply all_forall in C4. pose proof (both_all b F b' E4 C4) as B. apply both_plain; [reflexivity|reflexivity|]. cbn [decl_toks write_decl].
    apply (named_sim kw n o c sm b kw' n' o' c' sm' b' (fun b => columns dec (map (fun d => decl_elem dec (write_decl dec d) d) b))); try assumption. now apply sim_columns_body.
  - intros kw n o b c sm F d' [E C]. destruct d' as [| | | | | | |kw' n' o' b' c' sm'| | | | | |]; try discriminate. cbn [map_decl decl_c] in E, C. injection E as E1 E2 E3 E4 E5 E6. destruct C as (C1 & C2 & C3 & C4 & C5 & C6).
    apply all_forall in C4. pose proof (both_all b F b' E4 C4) as B. apply both_plain; [reflexivity|reflexivity|]. cbn [decl_toks write_decl].
    apply (named_sim kw n o c sm b kw' n' o' c' sm' b' (fun b => columns dec (map (fun d => decl_elem dec (write_decl dec d) d) b))); try assumption. now apply sim_columns_body.
  - intros kw n o b c sm F d' [E C]. destruct d' as [| | | | | | | |kw' n' o' b' c' sm'| | | | |]; try discriminate. cbn [map_decl decl_c] in E, C. injection E as E1 E2 E3 E4 E5 E6. destruct C as (C1 & C2 & C3 & C4 & C5 & C6).
    apply all_forall in C4. pose proof (both_all b F b' E4 C4) as B. apply both_plain; [reflexivity|reflexivity|]. cbn [decl_toks write_decl].
    apply (named_sim kw n o c sm b kw' n' o' c' sm' b' (fun b => columns dec (map (fun d => decl_elem dec (write_decl dec d) d) b))); try assumption. now apply sim_columns_body.
  - intros kw x o b c sm F d' [E C]. destruct d' as [| | | | | | | | |kw' x' o' b' c' sm'| | | |]; try discriminate. cbn [map_decl decl_c] in E, C. injection E as E1 E2 E3 E4 E5 E6. destruct C as (C1 & C2 & C3 & C4 & C5 & C6).
    apply all_forall in C4. pose proof (both_all b F b' E4 C4) as B. apply both_plain; [reflexivity|reflexivity|]. cbn [decl_toks write_decl].
    destruct sm; [discriminate|]. destruct sm'; [discriminate|]. destruct (rtw_phi _ _ _ E3 C3) as [To _]. destruct (rtw_phi _ _ _ E5 C5) as [Tc X].
    eapply begins_eq; [eapply begins_seq; [apply begins_tok; apply tw_phi; [exact E1|exact C1]|]; eapply sim_seq with (R := word) (t1 := opt_toks ident_toks x) (t1' := opt_toks ident_toks x');
      [|apply sim_spaced; apply (sim_body o c o' c' b b' (fun b => columns dec (map (fun d => decl_elem dec (write_decl dec d) d) b)) To Tc X B (sim_columns_body b b' B))]| |].
    + destruct x as [x|], x' as [x'|]; try discriminate; [|apply sim_skip]. cbn [option_map if_some] in *. apply some_eq in E2. cbn [opt_w]. apply sim_spaced. exact (proj1 (fsim_inline_ident false _ _ E2 C2)).
    + reflexivity.
    + reflexivity.
  - intros l kw n e tg os o b c sm F d' [E C]. destruct d' as [| | | | | | | | | |l' kw' n' e' tg' os' o' b' c' sm'| | |]; try discriminate. cbn [map_decl decl_c] in E, C. injection E as E1 E2 E3 E4 E5 E6 E7 E8 E9 E10.
    destruct C as (C1 & C2 & C3 & C4 & C5 & C6 & C7 & C8 & C9 & C10).
    apply all_forall in C8. pose proof (both_all b F b' E8 C8) as B. apply both_plain; [reflexivity|reflexivity|]. cbn [decl_toks write_decl].
    destruct sm; [discriminate|]. destruct sm'; [discriminate|]. destruct (rtw_phi _ _ _ E7 C7) as [To _]. destruct (rtw_phi _ _ _ E9 C9) as [Tc X].
    assert (V : vsame tg tg') by (split; assumption). assert (O : ocsame os os') by (split; assumption).
    assert (Tl : sim false word ([n] ++ ([e] ++ value_toks tg) ++ opt_toks copts_toks os ++ body_toks o b c) ([n'] ++ ([e'] ++ value_toks tg') ++ opt_toks copts_toks os' ++ body_toks o' b' c')
      ((space ;; inline_tok n) ;; (space ;; inline_tok e ;; space ;; inline_v dec tg) ;; write_opts dec os ;; space ;; type_body o c None (some_if b (seqs (map (write_decl dec) b))))
      ((space ;; inline_tok n') ;; (space ;; inline_tok e' ;; space ;; inline_v dec tg') ;; write_opts dec os' ;; space ;; type_body o' c' None (some_if b' (seqs (map (write_decl dec) b')))) ended).
    { eapply sim_seq; [apply sim_spaced, sim_inline; now apply tw_phi|]. eapply sim_seq; [apply sim_spaced; apply sim_number; [now apply tw_phi|exact V]|]. eapply sim_seq; [apply sim_wopts; exact O|].
      apply sim_spaced. apply (sim_body o c o' c' b b' (fun b => seqs (map (write_decl dec) b)) To Tc X B (sim_seq_body b b' B)). }
    assert (Hd : begins false (otoks l ++ [kw]) (otoks l' ++ [kw']) (match l with Some t => start_tok false t ;; space ;; inline_tok kw | None => start_tok false kw end)
       (match l' with Some t => start_tok false t ;; space ;; inline_tok kw' | None => start_tok false kw' end) word).
    { destruct (otw_phi _ _ E1 C1) as [[-> ->]|(t & t' & -> & -> & h)]; cbn [otoks app]; [apply begins_tok; now apply tw_phi|].
      change [t; kw] with ([t] ++ [kw]). change [t'; kw'] with ([t'] ++ [kw']). eapply begins_seq; [apply begins_tok; exact h|]. apply sim_spaced, sim_inline. now apply tw_phi. }
    eapply begins_eq; [eapply begins_eqM; [eapply begins_seq; [exact Hd|exact Tl]| |]| |].
    + intro s. unfold seq. reflexivity.
    + intro s. unfold seq. reflexivity.
    + unfold body_toks. lists3.
    + unfold body_toks. lists3.
  - intros kw n o b c sm F d' [E C]. destruct d' as [| | | | | | | | | | |kw' n' o' b' c' sm'| |]; try discriminate. cbn [map_decl decl_c] in E, C. injection E as E1 E2 E3 E4 E5 E6. destruct C as (C1 & C2 & C3 & C4 & C5 & C6).
    apply all_forall in C4. pose proof (both_all b F b' E4 C4) as B. apply both_plain; [reflexivity|reflexivity|]. cbn [decl_toks write_decl].
    apply (named_sim kw n o c sm b kw' n' o' c' sm' b' (fun b => seqs (map (write_decl dec) b))); try assumption. now apply sim_seq_body.
  - intros kw n i rt u br b sm F d' [E C]. destruct d' as [| | | | | | | | | | | |kw' n' i' rt' u' br' b' sm'|]; try discriminate. cbn [map_decl decl_c] in E, C. apply drpc_eq in E as (E1 & E2 & E3 & E4 & E5 & E6 & E7 & E8).
    destruct C as (C1 & C2 & C3 & C4 & C5 & C6). apply both_plain; [reflexivity|reflexivity|]. cbn [decl_toks write_decl].
    assert (Hd : begins false ([kw] ++ [n] ++ rpctype_toks i ++ [rt] ++ rpctype_toks u) ([kw'] ++ [n'] ++ rpctype_toks i' ++ [rt'] ++ rpctype_toks u')
      (start_tok false kw ;; (space ;; inline_tok n) ;; write_rpctype i ;; (space ;; inline_tok rt) ;; space ;; write_rpctype u) (start_tok false kw' ;; (space ;; inline_tok n') ;; write_rpctype i' ;; (space ;; inline_tok rt') ;; space ;; write_rpctype u') word).
    { eapply begins_seq; [apply begins_tok; now apply tw_phi|]. eapply sim_seq; [apply sim_spaced, sim_inline; now apply tw_phi|]. eapply sim_seq; [apply sim_any; now apply sim_rpctype|].
      eapply sim_seq; [apply sim_spaced, sim_inline; now apply tw_phi|]. apply sim_spaced. now apply sim_rpctype. }
    destruct br as [[o c]|], br' as [[o' c']|]; try discriminate.
    + cbn [option_map fst snd] in E6, C6. destruct C6 as (C6 & C7 & C8 & C9 & C10). apply some_eq in E6. injection E6 as Eo Ec. apply all_forall in C8. pose proof (both_all b F b' E7 C8) as B.
      destruct sm; [discriminate|]. destruct sm'; [discriminate|]. destruct (rtw_phi _ _ _ Eo C7) as [To _]. destruct (rtw_phi _ _ _ Ec C9) as [Tc X].
      destruct b as [|d b]; [now elim C6|]. destruct b' as [|d' b']; [discriminate|].
      eapply begins_eq; [eapply begins_eqM; [eapply begins_seq; [exact Hd|apply sim_spaced; eapply (sim_full_body o c o' c' _ _ (seqs (map (write_decl dec) (d :: b))) (seqs (map (write_decl dec) (d' :: b')))); [exact To|exact Tc|exact X|apply sim_seq_body; [exact B|discriminate]]]| |]| |].
      * intro s. unfold seq. reflexivity.
      * intro s. unfold seq. reflexivity.
      * lists3.
      * lists3.
    + cbn [option_map fst snd] in C6. destruct C6 as (C6 & C7). destruct b as [|d b]; [|discriminate]. destruct b' as [|d' b']; [|discriminate].
      destruct sm as [sm|]; [|contradiction]. destruct sm' as [sm'|]; [|discriminate]. cbn [option_map some] in E8, C7. apply some_eq in E8. destruct C7 as [C7 K]. destruct (rtw_phi _ _ _ E8 C7) as [Ts X].
      rewrite phi_kind in K.
      eapply begins_eq; [eapply begins_eqM; [eapply begins_seq; [exact Hd|apply (sim_semi false word sm sm' Ts X)]| |]| |].
      * intro s. unfold seq. destruct Ts. cbn [t_kind t_text] in K, X. subst. reflexivity.
      * intro s. unfold seq. destruct Ts. cbn [t_kind t_text] in K, X. subst. reflexivity.
      * lists3.
      * lists3.
  - intros t d' [E C]. destruct C.
Qed.
(* ---- files ---- *)
Lemma begins_flat b (after : pred) n es es' : (forall p s, after p s -> p = 1) -> esims b after n es es' -> es <> [] -> begins b (elems_toks es) (elems_toks es') (flat b n es) (flat b n es') after.
Proof.
  intros A S N. destruct es as [|e es]; [congruence|]. destruct es' as [|e' es']; [destruct S|]. destruct S as [(K & W & W' & B & X) S]. destruct (esims_shape _ _ _ _ _ S) as (Ne & _).
  cbn [flat elems_toks flat_map]. replace (lastx n es') with (lastx n es) by (unfold lastx; now rewrite Ne). eapply begins_seq; [exact B|].
  destruct es as [|e2 es]; destruct es' as [|e2' es']; try discriminate Ne; [apply sim_skip|].
  eapply sim_weak; [apply (sim_flat b after A n (e2 :: es) (e2' :: es') _ S ltac:(discriminate) eq_refl)|intros p s H; left; exact (A _ _ H)|auto].
Qed.
Lemma sep_eq t r t' r' : tw t t' -> key t = key t' -> eqM (sep_line (t :: r)) (sep_line (t' :: r')).
Proof. intros T E s. destruct (tw_lead _ _ T) as [L L']. unfold sep_line, blank_before. cbn [lead_of ws_of]. rewrite L, L'. injection E as E1 E2. unfold newl in E1. rewrite E1. reflexivity. Qed.
Lemma sim_columns_sep b (after : pred) es es' t r t' r' r0 r0' : (forall p s, after p s -> p = 1) -> esims b after 0 es es' -> elems_toks es = t :: r -> elems_toks es' = t' :: r' ->
  sim b (top (elems_toks es)) (elems_toks es) (elems_toks es') (sep_line (t :: r0) ;; columns dec es) (sep_line (t' :: r0') ;; columns dec es') after.
Proof.
  intros A S E E'. assert (N : es <> []) by (intros ->; discriminate). pose proof (begins_flat b after 0 es es' A S N) as B. destruct (esims_shape _ _ _ _ _ S) as (_ & W & W').
  pose proof (begins_sep b _ _ (t :: r0) (t' :: r0') _ _ _ B ltac:(rewrite E; reflexivity) ltac:(rewrite E'; reflexivity)) as F.
  destruct (tws_texts _ _ (sim_toks _ _ _ _ _ _ _ F)) as [Et G]. eapply sim_like; [exact F| | |].
  - apply (like_seq b [] _ _ _ _ _ (like_wr b _ _ (wr_sep b (t :: r0)))). now apply like_columns.
  - apply (like_seq b [] _ _ _ _ _ (like_wr b _ _ (wr_sep b (t' :: r0')))). apply like_columns; [exact W'|rewrite <- Et; exact G].
  - intros K s I. destruct (esims_keys _ _ _ _ _ S K) as [Kn Ps]. pose proof (sim_toks _ _ _ _ _ _ _ F) as Tt. rewrite E, E' in K, Tt. apply tws_cons in Tt as [T _]. cbn [map] in K. apply cons_eq in K as [K _].
    unfold seq. rewrite (sep_eq t r0 t' r0' T K). apply (columns_same dec b es es' Kn Ps W W' G). now apply (proj1 (proj2 (wr_sep b (t' :: r0')))).
Qed.
(* what follows from the start of a file or from the end of a declaration *)
Definition step (ts ts' : list token) (m m' : M) : Prop := (ts = [] /\ ts' = [] /\ eqM m skip /\ eqM m' skip) \/ (ts <> [] /\ sim false (top ts) ts ts' m m' ended).
Lemma step_seq t1 t1' t2 t2' m1 m1' m2 m2' : step t1 t1' m1 m1' -> step t2 t2' m2 m2' -> step (t1 ++ t2) (t1' ++ t2') (m1 ;; m2) (m1' ;; m2').
Proof.
  intros [(-> & -> & E1 & E1')|[N1 S1]] [(-> & -> & E2 & E2')|[N2 S2]].
  - left. repeat (split; [reflexivity|]). split; intro s; unfold seq; rewrite ?E1, ?E1', ?E2, ?E2'; reflexivity.
  - right. split; [exact N2|]. cbn [app]. eapply sim_eqM; [exact S2| |]; intro s; unfold seq; rewrite ?E1, ?E1'; reflexivity.
  - right. rewrite !app_nil_r. split; [exact N1|]. eapply sim_eqM; [exact S1| |]; intro s; unfold seq; rewrite ?E2, ?E2'; reflexivity.
  - right. split; [destruct t1; [congruence|discriminate]|]. eapply sim_weak with (P := top t1); [|destruct t1; [congruence|]; intros p s H; exact H|intros p s H; exact H].
    eapply sim_seq; [exact S1|]. eapply sim_weak; [exact S2|intros p s [A B]; right; auto|auto].
Qed.
Lemma step_skip m m' : eqM m skip -> eqM m' skip -> step [] [] m m'. Proof. intros. left. auto. Qed.
Lemma step_sim ts ts' m m' : ts <> [] -> sim false (top ts) ts ts' m m' ended -> step ts ts' m m'. Proof. intros. right. auto. Qed.
Lemma step_begins ts ts' m m' : begins false ts ts' m m' ended -> step ts ts' m m'.
Proof.
  intro B. right. split; [destruct B as (? & ? & ? & ? & ? & ? & ? & ? & ? & -> & _); discriminate|]. eapply sim_weak; [apply begins_sim; exact B| |auto].
  intros p s [(_ & -> & H)|[_ ->]]; [right; auto|now left].
Qed.
Lemma step_sep ts ts' r0 r0' m m' : begins false ts ts' m m' ended -> hd_error ts = hd_error r0 -> hd_error ts' = hd_error r0' -> step ts ts' (sep_line r0 ;; m) (sep_line r0' ;; m').
Proof. intros B H H'. right. split; [destruct B as (? & ? & ? & ? & ? & ? & ? & ? & ? & -> & _); discriminate|]. now apply begins_sep. Qed.
Lemma step_eqM ts ts' m m' n n' : step ts ts' m m' -> eqM n m -> eqM n' m' -> step ts ts' n n'.
Proof.
  intros [(-> & -> & E & E')|[N S]] A A'; [left; repeat (split; [reflexivity|]); split; intro s; rewrite ?A, ?A', ?E, ?E'; reflexivity|right; split; [exact N|]; eapply sim_eqM; eassumption].
Qed.
Lemma step_list {X} (T : X -> list token) (W : X -> M) xs xs' : Forall2 (fun x x' => step (T x) (T x') (W x) (W x')) xs xs' -> step (flat_map T xs) (flat_map T xs') (seqs (map W xs)) (seqs (map W xs')).
Proof. induction 1; cbn [flat_map map seqs]; [apply step_skip; apply eqM_refl|now apply step_seq]. Qed.
Lemma step_syntax s s' : option_map (map_syntax phi) s = option_map (map_syntax phi) s' ->
  match option_map (map_syntax phi) s with Some (k, e, v, sm) => tok_ok k /\ tok_ok e /\ value_c v /\ ends_with ";" sm | None => True end ->
  step (syntax_toks s) (syntax_toks s') (opt_w (write_syntax dec) s) (opt_w (write_syntax dec) s').
Proof.
  intros E C. destruct s as [[[[k e] v] sm]|], s' as [[[[k' e'] v'] sm']|]; try discriminate; [|apply step_skip; apply eqM_refl].
  cbn [option_map map_syntax] in E, C. apply some_eq in E. injection E as E1 E2 E3 E4. destruct C as (C1 & C2 & C3 & C4). destruct (etw_phi _ _ _ E4 C4) as (c & c' & -> & -> & Tc & X & _).
  apply step_begins. unfold syntax_toks. cbn [opt_w write_syntax must].
  eapply begins_eq; [eapply begins_eqM; [eapply begins_seq; [apply begins_tok; apply tw_phi; [exact E1|exact C1]|];
    eapply sim_seq; [apply sim_spaced; apply sim_number; [apply tw_phi; [exact E2|exact C2]|split; [exact E3|exact C3]]|apply (sim_semi false word c c' Tc X)]| |]| |].
  - intro s. unfold write_syntax, seq. reflexivity.
  - intro s. unfold write_syntax, seq. reflexivity.
  - lists3.
  - lists3.
Qed.
Lemma step_package d d' : map_fdecl phi d = map_fdecl phi d' -> fdecl_c (map_fdecl phi d) -> rank d = 0 -> step (fdecl_toks d) (fdecl_toks d') (write_package d) (write_package d').
Proof.
  intros E C R. destruct d as [kw n sm|i|o|d]; try discriminate. destruct d' as [kw' n' sm'|i'|o'|d']; try discriminate. cbn [map_fdecl] in E. injection E as E1 E2 E3. cbn [map_fdecl fdecl_c] in C. destruct C as (C1 & C2 & C3).
  destruct (etw_phi _ _ _ E3 C3) as (c & c' & -> & -> & Tc & X & _). destruct n as [n|]; [|contradiction]. destruct n' as [n'|]; [|discriminate]. cbn [option_map some] in *. apply some_eq in E2.
  apply step_begins. unfold fdecl_toks. cbn [write_package opt_w must opt_toks otoks].
  eapply begins_eq; [eapply begins_eqM; [eapply begins_seq; [apply begins_tok; apply tw_phi; [exact E1|exact C1]|];
    eapply sim_seq; [apply sim_spaced; exact (proj1 (fsim_inline_ident false _ _ E2 C2))|apply (sim_semi false word c c' Tc X)]| |]| |].
  - intro s. unfold seq. reflexivity.
  - intro s. unfold seq. reflexivity.
  - lists3.
  - lists3.
Qed.
Lemma import_sim i i' : map_import phi i = map_import phi i' -> import_c (map_import phi i) -> exists kw r kw' r', import_toks i = kw :: r /\ import_toks i' = kw' :: r' /\
  begins false (import_toks i) (import_toks i') (write_import dec false i) (write_import dec false i') ended /\
  sim false any (import_toks i) (import_toks i') (write_import dec true i) (write_import dec true i') ended.
Proof.
  destruct i as [kw md nm pt sm], i' as [kw' md' nm' pt' sm']. unfold map_import, import_c. cbn [i_kw i_mod i_name i_path i_semi]. intros E (C1 & C2 & C3 & C4). injection E as E1 E2 E3 E4 E5.
  destruct (etw_phi _ _ _ E5 C4) as (c & c' & -> & -> & Tc & X & _). assert (T := tw_phi _ _ E1 C1). assert (V : vsame nm nm') by (split; assumption).
  do 4 eexists. split; [reflexivity|]. split; [reflexivity|]. unfold import_toks, write_import. cbn [i_kw i_mod i_name i_path i_semi must otoks].
  assert (Tl : sim false word (otoks md ++ value_toks nm ++ [c]) (otoks md' ++ value_toks nm' ++ [c']) (space ;; opt_w (fun t => inline_tok t ;; space) md ;; inline_v dec nm ;; line_end c) (space ;; opt_w (fun t => inline_tok t ;; space) md' ;; inline_v dec nm' ;; line_end c') ended).
  { apply sim_spaced. eapply sim_seq with (R := any); [|eapply sim_seq; [exact (proj1 (fsim_iv false _ _ V))|apply (sim_semi false word c c' Tc X)]].
    destruct (otw_phi _ _ E2 C2) as [[-> ->]|(t & t' & -> & -> & h)]; cbn [otoks opt_w]; [apply sim_skip|]. eapply sim_post; [apply sim_inline; exact h|apply sim_space_any]. }
  split.
  - change (kw :: ?r) with ([kw] ++ r). change (kw' :: ?r) with ([kw'] ++ r). eapply begins_seq; [apply begins_tok; exact T|exact Tl].
  - change (kw :: ?r) with ([kw] ++ r). change (kw' :: ?r) with ([kw'] ++ r). eapply sim_seq; [|exact Tl]. pose proof (proj1 (fsim_start false _ _ T)) as F.
    eapply sim_eqM; [apply (sim_pre false any any); [apply (sim_indent_any false (closes kw))|exact F]| |]; intro s; destruct T; reflexivity.
Qed.
Lemma later_imports l : forall p, (match l with j :: _ => p <> i_path j | [] => True end) -> unrepeated l -> eqM (write_imports dec (Some p) l) (seqs (map (write_import dec true) l)).
Proof.
  induction l as [|i l IH]; intros p N U s; [reflexivity|]. cbn [write_imports map seqs]. unfold seq. rewrite (proj2 (beq_neq (i_path i) p)) by (intro; apply N; congruence). cbn [andb negb when].
  apply IH; destruct l as [|j l]; try exact I; apply U.
Qed.
Lemma rank_map d : rank (map_fdecl phi d) = rank d. Proof. destruct d; reflexivity. Qed.
Lemma ranked_above d ds : ranked (d :: ds) -> Forall (fun e => rank d <= rank e) ds.
Proof.
  revert d. induction ds as [|e ds IH]; intros d R; [constructor|]. cbn [ranked] in R. destruct R as (A & B & C). constructor; [exact A|].
  assert (R2 : ranked (e :: ds)) by (split; assumption). specialize (IH e R2). eapply Forall_impl; [|exact IH]. cbn. intros; lia.
Qed.
Lemma above_none ds n : Forall (fun e => n <= rank e) ds -> (0 < n -> packages ds = []) /\ (1 < n -> imports ds = []) /\ (2 < n -> options ds = []).
Proof.
  induction 1 as [|d ds A _ (B & C & D)]; [repeat split|]. unfold packages, imports, options, types in *. cbn [filter flat_map].
  destruct d; cbn [rank] in A; cbn [app]; repeat split; intros; try lia; auto.
Qed.
Lemma ranked_toks ds : ranked ds -> flat_map fdecl_toks ds = flat_map fdecl_toks (packages ds) ++ flat_map import_toks (imports ds) ++ flat_map opt_node_toks (options ds) ++ flat_map decl_toks (types ds).
Proof.
  induction ds as [|d ds IH]; intro R; [reflexivity|]. pose proof (above_none _ _ (ranked_above _ _ R)) as (A & B & C). specialize (IH (proj2 R)). cbn [flat_map]. rewrite IH.
  unfold packages, imports, options, types in *. cbn [filter flat_map]. destruct d; cbn [rank app flat_map fdecl_toks] in *.
  - rewrite <- !app_assoc. reflexivity.
  - rewrite A by lia. cbn [flat_map app]. rewrite <- !app_assoc. reflexivity.
  - rewrite A, B by lia. cbn [flat_map app]. rewrite <- !app_assoc. reflexivity.
  - rewrite A, B, C by lia. cbn [flat_map app]. reflexivity.
Qed.
Lemma parts_eq ds : forall ds', map (map_fdecl phi) ds = map (map_fdecl phi) ds' ->
  map (map_fdecl phi) (packages ds) = map (map_fdecl phi) (packages ds') /\ map (map_import phi) (imports ds) = map (map_import phi) (imports ds') /\
  map (map_opt phi) (options ds) = map (map_opt phi) (options ds') /\ map (map_decl phi) (types ds) = map (map_decl phi) (types ds').
Proof.
  induction ds as [|d ds IH]; intros [|d' ds'] E; try discriminate; [auto|]. cbn [map] in E. apply cons_eq in E as [E1 E2]. destruct (IH _ E2) as (A & B & C & D).
  unfold packages, imports, options, types in *. cbn [filter flat_map]. destruct d, d'; try discriminate; cbn [app map].
  - rewrite E1, A. auto.
  - cbn [map_fdecl] in E1. apply fimp_eq in E1. rewrite E1, B. auto.
  - cbn [map_fdecl] in E1. apply fopt_eq in E1. rewrite E1, C. auto.
  - cbn [map_fdecl] in E1. apply fdecl_eq in E1. rewrite E1, D. auto.
Qed.
Lemma parts_c ds : Forall fdecl_c (map (map_fdecl phi) ds) ->
  Forall fdecl_c (map (map_fdecl phi) (packages ds)) /\ Forall (fun d => rank d = 0) (packages ds) /\ Forall import_c (map (map_import phi) (imports ds)) /\ Forall keyword_opt_c (map (map_opt phi) (options ds)) /\
  Forall (fun d => decl_c (map_decl phi d) /\ write_type dec (FDecl d) = (sep_line (decl_toks d) ;; write_decl dec d)) (types ds).
Proof.
  induction ds as [|d ds IH]; intro F; [repeat split; constructor|]. cbn [map] in F. inversion F as [|? ? A B]; subst. destruct (IH B) as (P1 & P2 & P3 & P4 & P5).
  unfold packages, imports, options, types in *. cbn [filter flat_map]. destruct d as [kw n sm|i|o|d]; cbn [app map].
  - repeat (split; [first [assumption|constructor; [assumption|assumption]|constructor; [reflexivity|assumption]]|]). assumption.
  - repeat (split; [first [assumption|constructor; [assumption|assumption]]|]). assumption.
  - repeat (split; [first [assumption|constructor; [assumption|assumption]]|]). assumption.
  - repeat (split; [assumption|]). constructor; [|assumption]. cbn [map_fdecl fdecl_c] in A. destruct d; cbn [map_decl] in A |- *; try contradiction; (split; [exact A|reflexivity]).
Qed.
Lemma write_types ds : Forall (fun d => decl_c (map_decl phi d) /\ write_type dec (FDecl d) = (sep_line (decl_toks d) ;; write_decl dec d)) (types ds) ->
  eqM (seqs (map (write_type dec) ds)) (seqs (map (fun d => sep_line (decl_toks d) ;; write_decl dec d) (types ds))).
Proof.
  induction ds as [|d ds IH]; intros F s; [reflexivity|]. unfold types in F |- *. cbn [flat_map] in F |- *. apply Forall_app in F as [A B]. rewrite map_app. cbn [map seqs]. unfold seq at 1. rewrite (IH B).
  destruct d as [kw n sm|i|o|d]; try reflexivity. inversion A as [|? ? [_ E] _]; subst. rewrite E. reflexivity.
Qed.
Lemma map_forall2 {X Y} (h : X -> Y) (P : X -> Prop) (R : X -> X -> Prop) l : (forall x x', h x = h x' -> P x -> R x x') -> Forall P l -> forall l', map h l = map h l' -> Forall2 R l l'.
Proof.
  intro H. induction 1 as [|x l A _ IH]; intros [|x' l'] E; try discriminate; constructor; cbn [map] in E; apply cons_eq in E as [E1 E2]; auto.
Qed.
Lemma unrepeated_map l : unrepeated (map (map_import phi) l) -> unrepeated l.
Proof. induction l as [|i [|j l] IH]; [auto|auto|]. intros [A B]. split; [exact A|now apply IH]. Qed.
Lemma step_imports l : forall l', map (map_import phi) l = map (map_import phi) l' -> Forall import_c (map (map_import phi) l) -> unrepeated l -> unrepeated l' ->
  step (flat_map import_toks l) (flat_map import_toks l') (write_imports dec None l) (write_imports dec None l').
Proof.
  intros [|i' l'] E C U U'; destruct l as [|i l]; try discriminate; [apply step_skip; apply eqM_refl|]. cbn [map] in E, C. apply cons_eq in E as [E1 E2]. inversion C as [|? ? C1 C2]; subst.
  cbn [flat_map write_imports]. destruct (import_sim _ _ E1 C1) as (kw & r & kw' & r' & Ek & Ek' & B & _). apply step_seq.
  - apply step_sep; [exact B|reflexivity|reflexivity].
  - eapply step_eqM; [apply step_list with (W := write_import dec true)| |].
    + assert (C3 : Forall (fun i => import_c (map_import phi i)) l) by (clear - C2; induction l; [constructor|]; inversion C2; subst; constructor; auto).
      revert E2. apply (map_forall2 (map_import phi) (fun i => import_c (map_import phi i))); [|exact C3].
      intros x x' Ex Cx. destruct (import_sim _ _ Ex Cx) as (k & q & k' & q' & -> & -> & _ & S). apply step_sim; [discriminate|now apply sim_any].
    + apply later_imports; [|destruct l; [exact I|apply U]]. destruct l; [exact I|apply U].
    + apply later_imports; [|destruct l'; [exact I|apply U']]. destruct l'; [exact I|apply U'].
Qed.
Lemma esims_kopts n os : forall os', map (map_opt phi) os = map (map_opt phi) os' -> Forall keyword_opt_c (map (map_opt phi) os) -> esims false ended n (map (opt_elem dec false skip) os) (map (opt_elem dec false skip) os').
Proof.
  induction os as [|o os IH]; intros [|o' os'] E C; try discriminate; [exact I|]. cbn [map] in E, C. apply cons_eq in E as [E1 E2]. inversion C; subst. cbn [map esims]. split; [now apply esim_opt|now apply IH].
Qed.
Lemma elems_toks_kopts os : elems_toks (map (opt_elem dec false skip) os) = flat_map opt_node_toks os.
Proof. unfold elems_toks. induction os; [reflexivity|]. cbn [map flat_map]. now rewrite IHos. Qed.
Definition options_w (os : list opt) : M := match os with [] => columns dec [] | o :: r => sep_line (opt_node_toks o) ;; columns dec (map (opt_elem dec false skip) (o :: r)) end.
Lemma step_options os os' : map (map_opt phi) os = map (map_opt phi) os' -> Forall keyword_opt_c (map (map_opt phi) os) -> step (flat_map opt_node_toks os) (flat_map opt_node_toks os') (options_w os) (options_w os').
Proof.
  intros E C. pose proof (esims_kopts 0 os os' E C) as S. destruct os as [|o os]; destruct os' as [|o' os']; try discriminate; [apply step_skip; apply eqM_refl|].
  cbn [map] in E, C. apply cons_eq in E as [E1 E2]. inversion C as [|? ? C1 C2]; subst.
  destruct (kopt_rel _ _ E1 C1) as (kw & ps & e & v & sm & kw' & ps' & e' & v' & sm' & -> & -> & _).
  rewrite <- !elems_toks_kopts. apply step_sim; [discriminate|]. unfold options_w.
  unfold opt_node_toks. cbn [o_kw otoks app].
  eapply (sim_columns_sep false ended (map (opt_elem dec false skip) (Opt (Some kw) (Some ps) (Some e) (Some v) (Some sm) :: os)) (map (opt_elem dec false skip) (Opt (Some kw') (Some ps') (Some e') (Some v') (Some sm') :: os'))); [exact ended_one|exact S|reflexivity|reflexivity].
Qed.
Hypothesis phi_lead : forall t, t_lead (phi t) = t_lead t.
Variables (isort : list import -> list import) (osort : list opt -> list opt).
Definition header_w (f : file) : M :=
  opt_w (write_syntax dec) (f_syntax f) ;; seqs (map write_package (packages (f_decls f))) ;; write_imports dec None (imports (f_decls f)) ;; options_w (options (f_decls f)).
Lemma file_sim f g : map_file phi f = map_file phi g -> file_c (map_file phi f) -> sorted isort osort f -> sorted isort osort g ->
  sim false (top (file_toks f)) (file_toks f) (file_toks g) (write_file dec isort osort f) (write_file dec isort osort g) any.
Proof.
  intros E C [Sf1 Sf2] [Sg1 Sg2]. destruct f as [sy ds eo], g as [sy' ds' eo']. unfold map_file in E, C. cbn [f_syntax f_decls f_eof] in *. injection E as E1 E2 E3.
  destruct C as (C1 & C2 & (R & Lp & U) & C4). cbn [f_syntax f_decls f_eof] in *.
  destruct (parts_eq _ _ E2) as (P1 & P2 & P3 & P4). destruct (parts_c _ C2) as (Q1 & Q2 & Q3 & Q4 & Q5).
  assert (C2' : Forall fdecl_c (map (map_fdecl phi) ds')) by (rewrite <- E2; exact C2). destruct (parts_c _ C2') as (_ & _ & _ & _ & Q5').
  assert (Rf : forall l, ranked (map (map_fdecl phi) l) -> ranked l).
  { induction l as [|d l IH]; [auto|]. cbn [map ranked]. intros [A B]. split; [|now apply IH]. destruct l as [|e l]; [exact I|]. cbn [map] in A. rewrite !rank_map in A. exact A. }
  assert (Lf : forall l, List.length (packages (map (map_fdecl phi) l)) = List.length (packages l)).
  { clear. induction l as [|d l IH]; [reflexivity|]. unfold packages in *. cbn [map filter]. destruct d; cbn [map_fdecl List.length]; congruence. }
  assert (Uf : forall l, imports (map (map_fdecl phi) l) = map (map_import phi) (imports l)).
  { clear. induction l as [|d l IH]; [reflexivity|]. unfold imports in *. cbn [map flat_map]. rewrite IH, map_app. destruct d; reflexivity. }
  assert (Rf' := Rf ds'). rewrite <- E2 in Rf'. specialize (Rf' R). apply Rf in R. pose proof Lp as Lp'. rewrite E2, Lf in Lp'. rewrite Lf in Lp. pose proof U as U'. rewrite E2, Uf in U'. apply unrepeated_map in U'. rewrite Uf in U. apply unrepeated_map in U.
  assert (St : step (file_toks (File sy ds eo)) (file_toks (File sy' ds' eo')) (header_w (File sy ds eo) ;; seqs (map (fun d => sep_line (decl_toks d) ;; write_decl dec d) (types ds)))
    (header_w (File sy' ds' eo') ;; seqs (map (fun d => sep_line (decl_toks d) ;; write_decl dec d) (types ds')))).
  { unfold file_toks, header_w. cbn [f_syntax f_decls]. rewrite (ranked_toks ds R), (ranked_toks ds' Rf').
    eapply step_eqM with (m := opt_w (write_syntax dec) sy ;; seqs (map write_package (packages ds)) ;; write_imports dec None (imports ds) ;; options_w (options ds) ;; seqs (map (fun d => sep_line (decl_toks d) ;; write_decl dec d) (types ds)))
      (m' := opt_w (write_syntax dec) sy' ;; seqs (map write_package (packages ds')) ;; write_imports dec None (imports ds') ;; options_w (options ds') ;; seqs (map (fun d => sep_line (decl_toks d) ;; write_decl dec d) (types ds'))); [|intro; unfold seq; reflexivity|intro; unfold seq; reflexivity].
    apply step_seq; [now apply step_syntax|]. apply step_seq.
    - apply step_list. assert (Q : Forall (fun d => fdecl_c (map_fdecl phi d) /\ rank d = 0) (packages ds)).
      { clear - Q1 Q2. induction (packages ds) as [|d l IH]; [constructor|]. cbn [map] in Q1. inversion Q1; inversion Q2; subst. constructor; auto. }
      revert P1. apply (map_forall2 (map_fdecl phi) (fun d => fdecl_c (map_fdecl phi d) /\ rank d = 0)); [|exact Q]. intros x x' Ex [Cx Rx]. now apply step_package.
    - apply step_seq; [now apply step_imports|]. apply step_seq; [now apply step_options|]. apply step_list.
      revert P4. eapply (map_forall2 (map_decl phi)); [|exact Q5]. intros d d' Ed [Cd _]. destruct (decl_good d d' (conj Ed Cd)) as [B _]. apply step_sep; [exact B|reflexivity|reflexivity]. }
  assert (Pk : forall l, List.length l <= 1 -> eqM (match rev l with p :: _ => write_package p | [] => skip end) (seqs (map write_package l))).
  { intros [|x [|y l]] L s; [reflexivity|reflexivity|cbn in L; lia]. }
  assert (Eo : forall o : option token, match option_map phi o with Some t => t_lead t = [] | None => True end -> eqM (opt_w (fun t => multiline_comments false (t_lead t)) o) skip).
  { intros [t|] L s; [|reflexivity]. cbn [option_map] in L. rewrite phi_lead in L. cbn [opt_w]. rewrite L. reflexivity. }
  set (fin := fun st : fmt => when (negb (mem (lastw st) [zero; nl])) p_blank st).
  assert (Fn : forall P : pred, sim false P [] [] fin fin any).
  { intro P. apply sim_silent.
    - intro s. unfold fin. cbn [rest lastw]. destruct (negb _); [apply frame_p_blank|apply frame_skip].
    - intros s I. unfold fin. destruct (negb _); [now apply keeps_p_blank|exact I].
    - intros s _. unfold fin. destruct (negb _); [cbn [when]; rewrite (proj1 (p_blank_run s)); reflexivity|reflexivity].
    - intros; exact Logic.I. }
  assert (Wf : forall sy ds eo, isort (imports ds) = imports ds -> osort (options ds) = options ds -> List.length (packages ds) <= 1 -> Forall (fun d => decl_c (map_decl phi d) /\ write_type dec (FDecl d) = (sep_line (decl_toks d) ;; write_decl dec d)) (types ds) ->
    match option_map phi eo with Some t => t_lead t = [] | None => True end ->
    eqM (write_file dec isort osort (File sy ds eo)) ((header_w (File sy ds eo) ;; seqs (map (fun d => sep_line (decl_toks d) ;; write_decl dec d) (types ds))) ;; fin)).
  { clear - Pk Eo. intros sy ds eo A B L T O s. unfold write_file, write_header, header_w. cbn [f_syntax f_decls f_eof]. rewrite A, B. unfold seq. rewrite (Pk _ L), (write_types ds T), (Eo _ O). reflexivity. }
  eapply sim_eqM; [|apply Wf; assumption|apply Wf; try assumption; rewrite <- E3; exact C4].
  destruct St as [(T0 & T0' & A & A')|[N S]].
  - rewrite T0, T0'. eapply sim_eqM; [apply (Fn (top []))| |]; intro s; unfold seq at 1; [rewrite A|rewrite A']; reflexivity.
  - eapply sim_post; [exact S|apply Fn].
Qed.
End Dec.
End Tree.
