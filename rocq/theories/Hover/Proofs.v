From Coq Require Import Ascii String Lia.
From Verif Require Import Base Strs.
From Verif.Format Require Import Model Spec.
From Verif.FormatTree Require Import CommentSpec Comments Model Spec Lexing Proofs Words.
From Verif.Hover Require Import Model Spec.
Import ListNotations.
Open Scope list_scope.

(** ** The block *)
Lemma split_app_nl : forall a b, split_on nl (a ++ nl :: b) = split_on nl a ++ split_on nl b.
Proof.
  induction a as [|c a IH]; intro b; [reflexivity|]. cbn [app split_on]. rewrite IH. destruct (Ascii.eqb c nl); [reflexivity|].
  destruct (split_on nl a) as [|w ws] eqn:E; [now destruct (split_on_nonempty nl a)|reflexivity].
Qed.
Lemma to_fence_all : forall ls r, (forall l, In l ls -> closes_fence l = false) -> to_fence (ls ++ b_ "```" :: r) = (ls, r).
Proof.
  induction ls as [|l ls IH]; intros r H; [reflexivity|]. cbn [app to_fence]. rewrite (H l (or_introl eq_refl)), IH; [reflexivity|]. intros x I. apply H. now right.
Qed.
Lemma fenced_block text : all_closed text -> code_block (fenced text) = Some (text, [[]]).
Proof.
  intro H. unfold code_block, fenced. rewrite split_app_nl. change (split_on nl (b_ "```protobuf")) with [b_ "```protobuf"]. cbn [app].
  rewrite beq_refl. rewrite split_app_nl. change (split_on nl (b_ "```" ++ [nl])) with [b_ "```"; []]. rewrite to_fence_all by exact H. now rewrite join_split.
Qed.

(** ** Trimming *)
Lemma trim_back_cases s : (exists x, s = x ++ [nl] /\ trim_back s = x) \/ trim_back s = s.
Proof.
  unfold trim_back. destruct (rev s) as [|c r] eqn:E; [right; symmetry; apply (f_equal (@rev ascii)) in E; now rewrite rev_involutive in E|].
  destruct (Ascii.eqb c nl) eqn:Ec; [|now right]. left. apply Ascii.eqb_eq in Ec. subst c. exists (rev r). split; [|reflexivity]. apply (f_equal (@rev ascii)) in E. rewrite rev_involutive in E. exact E.
Qed.
Lemma trim_front_cases s : s = nl :: trim_front s \/ trim_front s = s.
Proof. destruct s as [|c r]; [now right|]. cbn [trim_front]. destruct (Ascii.eqb c nl) eqn:E; [left; apply Ascii.eqb_eq in E; now subst|now right]. Qed.
(** the lines of the block are those that were written, up to an empty line at both ends *)
Lemma trimmed s : exists a b, (a = [] \/ a = [nl]) /\ (b = [] \/ b = [nl]) /\ a ++ (trim_front (trim_back s) ++ [nl]) = s ++ b.
Proof.
  destruct (trim_front_cases (trim_back s)) as [F|F], (trim_back_cases s) as [(x & E & B)|B].
  - exists [nl], []. split; [now right|]. split; [now left|]. cbn [app]. rewrite app_nil_r. rewrite E at 2. rewrite <- B. rewrite F at 2. reflexivity.
  - exists [nl], [nl]. split; [now right|]. split; [now right|]. cbn [app]. rewrite B in *. rewrite F at 2. reflexivity.
  - exists [], []. split; [now left|]. split; [now left|]. cbn [app]. rewrite F, B, app_nil_r. now rewrite E.
  - exists [], [nl]. split; [now left|]. split; [now right|]. cbn [app]. now rewrite F, B.
Qed.
Lemma lrun_nl b : b = [] \/ b = [nl] -> lrun S0 b = (S0, []). Proof. intros [->| ->]; reflexivity. Qed.
Lemma trimmed_lrun s : fst (lrun S0 s) = S0 -> lrun S0 (trim_front (trim_back s) ++ [nl]) = lrun S0 s.
Proof.
  intro Z. destruct (trimmed s) as (a & b & A & B & E). assert (X : lrun S0 (a ++ (trim_front (trim_back s) ++ [nl])) = lrun S0 (s ++ b)) by now rewrite E.
  rewrite (lrun_app a), (lrun_nl a A) in X. rewrite (lrun_app s b), Z, (lrun_nl b B) in X. cbn [fst snd app] in X. rewrite app_nil_r in X.
  destruct (lrun S0 (trim_front (trim_back s) ++ [nl])) as [x y]. cbn [fst snd] in X. rewrite X. destruct (lrun S0 s). cbn in *. now subst.
Qed.

(** ** No token is a backquote *)
Definition plain (t : token) : Prop := wtext t <> [tick].
Lemma idt_plain t : idt t -> plain t.
Proof. intros (K & _ & c & r & E & L & _) X. unfold wtext in X. rewrite K, E in X. injection X as -> _. discriminate. Qed.
Lemma numt_plain t : numt t -> plain t.
Proof. intros (K & _ & _ & L) X. unfold wtext in X. rewrite K in X. rewrite X in L. discriminate. Qed.
Lemma strt_plain t : strt t -> plain t.
Proof. intros (_ & _ & (q & r & E & [-> | ->]) & _) X; rewrite X in E; discriminate. Qed.
Lemma rune_plain s t : runet s t -> mem tick (b_ s) = false -> plain t.
Proof.
  intros (K & _ & c & E & I) N X. unfold wtext in X. rewrite K, E in X. injection X as ->. assert (M : mem tick (b_ s) = true) by (apply existsb_exists; exists tick; split; [exact I|apply Ascii.eqb_refl]). congruence.
Qed.
Lemma orune_plain s o : orune s o -> mem tick (b_ s) = false -> Forall plain (otoks o).
Proof. destruct o; cbn; intros R N; repeat constructor. exact (rune_plain _ _ R N). Qed.
Lemma some_plain s o : some_rune s o -> mem tick (b_ s) = false -> Forall plain (otoks o).
Proof. intros (t & -> & R) N. exact (orune_plain s (Some t) R N). Qed.
Lemma oidt_plain o : oidt o -> Forall plain (otoks o).
Proof. destruct o; cbn; intro R; repeat constructor. now apply idt_plain. Qed.
Lemma dotted_plain ts : dotted ts -> Forall plain ts.
Proof. induction 1; constructor; [now apply idt_plain|constructor|now apply idt_plain|constructor; [now apply (rune_plain "." d)|assumption]]. Qed.
Lemma ident_plain i : ident_ok i -> Forall plain (ident_toks i).
Proof.
  destruct i as [t|ts]; cbn; [intro T; repeat constructor; now apply idt_plain|].
  intros [D|(d & r & -> & R & D)]; [exact (dotted_plain _ D)|]. constructor; [now apply (rune_plain "." d)|exact (dotted_plain _ D)].
Qed.
Lemma ref_plain r : ref_ok r -> Forall plain (ref_toks r).
Proof.
  intros [O C]. unfold ref_toks. rewrite !Forall_app. pose proof (ident_plain _ O) as Fn. destruct (fr_open r) as [o|].
  - destruct C as (Ro & (c & -> & Rc) & C). assert (Po := rune_plain _ _ Ro eq_refl). assert (Pc := rune_plain _ _ Rc eq_refl). destruct (fr_slash r) as [s|].
    + destruct C as (Rs & _ & (u & -> & Ou) & _). pose proof (ident_plain _ Ou). pose proof (rune_plain _ _ Rs eq_refl). repeat split; cbn; auto.
    + rewrite C. repeat split; cbn; auto.
  - destruct C as (-> & -> & ->). repeat split; cbn; auto.
Qed.
Lemma name_plain ps : name_ok ps -> Forall plain (flat_map part_toks ps).
Proof.
  induction 1 as [r O|r d ps O D _ IH]; cbn [flat_map part_toks].
  - rewrite app_nil_r. exact (ref_plain _ (proj1 O)).
  - apply Forall_app. split; [exact (ref_plain _ (proj1 O))|]. cbn. constructor; [now apply (rune_plain "." d)|exact IH].
Qed.
Lemma interleave_plain : forall vs cs, Forall (Forall plain) vs -> Forall plain cs -> Forall plain (interleave vs cs).
Proof.
  induction vs as [|v r IH]; intros cs F C; cbn [interleave]; [exact C|]. inversion F; subst. destruct C as [|x cr X C]; apply Forall_app; (split; [assumption|]); [apply IH; auto|constructor; [exact X|apply IH; auto]].
Qed.
Lemma flat_plain {A} (toks : A -> list token) l : Forall (fun a => Forall plain (toks a)) l -> Forall plain (flat_map toks l).
Proof. induction 1; [constructor|]. cbn [flat_map]. apply Forall_app. auto. Qed.
Lemma mp_forall {A} (P Q : A -> Prop) l : Forall (fun a => P a -> Q a) l -> Forall P l -> Forall Q l.
Proof. induction 1; intro F; inversion F; subst; constructor; auto. Qed.
Lemma value_plain : forall v, value_ok v -> Forall plain (value_toks v).
Proof.
  apply (value_ind2 (fun v => value_ok v -> Forall plain (value_toks v)) (fun m => field_ok m -> Forall plain (field_toks m))).
  - intros t [T|[T|T]]; (constructor; [|constructor]); auto using idt_plain, numt_plain, strt_plain.
  - intros ts O. exact (ident_plain (Cid ts) O).
  - intros ts [_ F]. cbn [value_toks]. revert F. apply Forall_impl. exact strt_plain.
  - intros s n [R N]. pose proof (rune_plain _ _ R eq_refl). constructor; [assumption|constructor; [|constructor]]. destruct N; auto using idt_plain, numt_plain.
  - intros o fs c sm IH O. apply value_ok_msg in O as (Ro & Rc & Rs & F). cbn [value_toks]. constructor; [exact (rune_plain _ _ Ro eq_refl)|].
    rewrite !Forall_app. split; [apply flat_plain; exact (mp_forall _ _ _ IH F)|]. split; [constructor; [exact (rune_plain _ _ Rc eq_refl)|constructor]|exact (orune_plain _ _ Rs eq_refl)].
  - intros o vs cs c sm IH O. apply value_ok_arr in O as (Ro & Rc & Rs & Fc & _ & F & _). cbn [value_toks]. constructor; [exact (rune_plain _ _ Ro eq_refl)|].
    rewrite !Forall_app. split; [|split; [constructor; [exact (rune_plain _ _ Rc eq_refl)|constructor]|exact (orune_plain _ _ Rs eq_refl)]].
    apply interleave_plain; [apply Forall_map; exact (mp_forall _ _ _ IH F)|]. revert Fc. apply Forall_impl. intros t R. exact (rune_plain _ _ R eq_refl).
  - intros n s v sm IH (On & Ov & Os & Oc). cbn [field_toks]. rewrite !Forall_app. split; [exact (ref_plain _ On)|]. split; [|split; [exact (IH Ov)|exact (orune_plain _ _ Os eq_refl)]].
    destruct s; [exact (orune_plain ":" (Some t) Oc eq_refl)|constructor].
Qed.
Lemma opt_plain s o : opt_ok s o -> oidt (o_kw o) -> mem tick (b_ s) = false -> Forall plain (opt_node_toks o).
Proof.
  intros ((ps & En & On) & Oe & (v & Ev & Ov) & Os) Ok N. unfold opt_node_toks. rewrite En, Ev, !Forall_app. cbn [opt_toks].
  split; [exact (oidt_plain _ Ok)|]. split; [exact (name_plain _ On)|]. split; [exact (some_plain _ _ Oe eq_refl)|]. split; [exact (value_plain _ Ov)|exact (orune_plain _ _ Os N)].
Qed.
Lemma kwopt_plain o : keyword_option_ok o -> Forall plain (opt_node_toks o).
Proof. intros (O & (k & E & T) & _). apply (opt_plain ";" o O); [rewrite E; exact T|reflexivity]. Qed.
Lemma opts_plain : forall os, opts_ok os -> Forall plain (flat_map opt_node_toks os).
Proof.
  induction os as [|o r IH]; intro O; [constructor|]. destruct O as (Ek & _ & Oo & Or). cbn [flat_map]. apply Forall_app. split; [|exact (IH Or)]. destruct Oo as [[Oc Os]|Oo].
  - unfold only_comma in Oc. unfold opt_node_toks. rewrite Ek. destruct (o_name o), (o_eq o), (o_val o); try discriminate. cbn [otoks opt_toks app]. exact (some_plain _ _ Os eq_refl).
  - apply (opt_plain "," o Oo); [now rewrite Ek|reflexivity].
Qed.
Lemma copts_plain oc : copts_ok oc -> Forall plain (opt_toks copts_toks oc).
Proof.
  destruct oc as [c|]; [|constructor]. intros (Ro & Rc & Rs & Oo & _). cbn [opt_toks]. unfold copts_toks. constructor; [exact (rune_plain _ _ Ro eq_refl)|]. rewrite !Forall_app.
  split; [exact (opts_plain _ Oo)|]. split; [constructor; [exact (rune_plain _ _ Rc eq_refl)|constructor]|exact (orune_plain _ _ Rs eq_refl)].
Qed.
Lemma relem_plain e : relem_ok e -> Forall plain (relem_toks e).
Proof.
  destruct e as [t|v|s to e m]; cbn [relem_ok relem_toks].
  - intro R. constructor; [exact (rune_plain _ _ R eq_refl)|constructor].
  - apply value_plain.
  - intros (Os & Ot & Oe). rewrite !Forall_app. split; [exact (value_plain _ Os)|]. split; [destruct to; [constructor; [now apply idt_plain|constructor]|constructor]|].
    destruct e as [v|]; [destruct Oe as [Ov ->]; split; [exact (value_plain _ Ov)|constructor]|]. split; [constructor|]. destruct m; [constructor; [now apply idt_plain|constructor]|constructor].
Qed.
Lemma relems_plain es : Forall relem_ok es -> Forall plain (flat_map relem_toks es).
Proof. intro F. apply flat_plain. revert F. apply Forall_impl. exact relem_plain. Qed.
Lemma rpctype_plain r : rpctype_ok r -> Forall plain (rpctype_toks r).
Proof.
  intros (Ro & Rc & Oi & Ot). unfold rpctype_toks. constructor; [exact (rune_plain _ _ Ro eq_refl)|]. rewrite !Forall_app. split; [exact (oidt_plain (rt_stream r) Ot)|]. split; [exact (ident_plain _ Oi)|]. constructor; [exact (rune_plain _ _ Rc eq_refl)|constructor].
Qed.
Lemma named_plain kw n o b c sm : idt kw -> idt n -> runet "{" o -> runet "}" c -> semi_ok sm -> Forall plain (flat_map decl_toks b) -> Forall plain (kw :: n :: o :: flat_map decl_toks b ++ c :: otoks sm).
Proof.
  intros Tk Tn Ro Rc Rs F. constructor; [now apply idt_plain|]. constructor; [now apply idt_plain|]. constructor; [exact (rune_plain _ _ Ro eq_refl)|]. apply Forall_app. split; [exact F|]. constructor; [exact (rune_plain _ _ Rc eq_refl)|exact (orune_plain _ _ Rs eq_refl)].
Qed.
Lemma decl_plain : forall d, decl_ok d -> Forall plain (decl_toks d).
Proof.
  apply (decl_ind2 (fun d => decl_ok d -> Forall plain (decl_toks d))).
  - intros l ty n e tg os sm (Ol & Ot & _ & (t & -> & On) & Oe & (v & -> & Ov) & Oc & Os). cbn [decl_toks opt_toks]. rewrite !Forall_app.
    split; [exact (oidt_plain _ Ol)|]. split; [exact (ident_plain _ Ot)|]. split; [exact (oidt_plain (Some t) On)|]. split; [exact (some_plain _ _ Oe eq_refl)|]. split; [exact (value_plain _ Ov)|]. split; [exact (copts_plain _ Oc)|exact (some_plain _ _ Os eq_refl)].
  - intros kw o k cm v c tsm n e tg os sm (Ok & Ro & Oi & Rm & Ov & Rc & Rt & On & Re & Og & Oc & Os). cbn [decl_toks].
    constructor; [now apply idt_plain|]. constructor; [exact (rune_plain _ _ Ro eq_refl)|]. apply Forall_app. split; [exact (ident_plain _ Oi)|]. constructor; [exact (rune_plain _ _ Rm eq_refl)|]. apply Forall_app. split; [exact (ident_plain _ Ov)|].
    constructor; [exact (rune_plain _ _ Rc eq_refl)|]. apply Forall_app. split; [exact (orune_plain _ _ Rt eq_refl)|]. constructor; [now apply idt_plain|]. constructor; [exact (rune_plain _ _ Re eq_refl)|]. rewrite !Forall_app.
    split; [exact (value_plain _ Og)|]. split; [exact (copts_plain _ Oc)|exact (some_plain _ _ Os eq_refl)].
  - intros n e v os sm (On & Re & Ov & Oc & Os). cbn [decl_toks]. constructor; [now apply idt_plain|]. constructor; [exact (rune_plain _ _ Re eq_refl)|]. rewrite !Forall_app. split; [exact (value_plain _ Ov)|]. split; [exact (copts_plain _ Oc)|exact (some_plain _ _ Os eq_refl)].
  - exact kwopt_plain.
  - intros kw es sm (Ok & Oe & Os). cbn [decl_toks]. constructor; [now apply idt_plain|]. rewrite !Forall_app. split; [exact (relems_plain _ Oe)|exact (some_plain _ _ Os eq_refl)].
  - intros kw es os sm (Ok & Oe & Oc & Os). cbn [decl_toks]. constructor; [now apply idt_plain|]. rewrite !Forall_app. split; [exact (relems_plain _ Oe)|]. split; [exact (copts_plain _ Oc)|exact (some_plain _ _ Os eq_refl)].
  - intros kw n o b c sm F (Ok & On & Ro & Rc & Rs & Ob). apply all_forall in Ob. apply named_plain; auto. apply flat_plain. exact (mp_forall _ _ _ F Ob).
  - intros kw n o b c sm F (Ok & On & Ro & Rc & Rs & Ob). apply all_forall in Ob. apply named_plain; auto. apply flat_plain. exact (mp_forall _ _ _ F Ob).
  - intros kw n o b c sm F (Ok & On & Ro & Rc & Rs & Ob). apply all_forall in Ob. apply named_plain; auto. apply flat_plain. exact (mp_forall _ _ _ F Ob).
  - intros kw x o b c sm F (Ok & Ox & Ro & Rc & Rs & Ob). apply all_forall in Ob. cbn [decl_toks]. constructor; [now apply idt_plain|]. apply Forall_app. split; [destruct x; [exact (ident_plain _ Ox)|constructor]|].
    constructor; [exact (rune_plain _ _ Ro eq_refl)|]. apply Forall_app. split; [apply flat_plain; exact (mp_forall _ _ _ F Ob)|]. constructor; [exact (rune_plain _ _ Rc eq_refl)|exact (orune_plain _ _ Rs eq_refl)].
  - intros l kw n e tg os o b c sm F (Ol & Ok & On & Re & Ov & Oc & Ro & Rc & Rs & Ob). apply all_forall in Ob. cbn [decl_toks]. apply Forall_app. split; [exact (oidt_plain _ Ol)|]. constructor; [now apply idt_plain|]. constructor; [now apply idt_plain|].
    constructor; [exact (rune_plain _ _ Re eq_refl)|]. rewrite !Forall_app. split; [exact (value_plain _ Ov)|]. split; [exact (copts_plain _ Oc)|]. constructor; [exact (rune_plain _ _ Ro eq_refl)|].
    apply Forall_app. split; [apply flat_plain; exact (mp_forall _ _ _ F Ob)|]. constructor; [exact (rune_plain _ _ Rc eq_refl)|exact (orune_plain _ _ Rs eq_refl)].
  - intros kw n o b c sm F (Ok & On & Ro & Rc & Rs & Ob). apply all_forall in Ob. apply named_plain; auto. apply flat_plain. exact (mp_forall _ _ _ F Ob).
  - intros kw n i rt u br b sm F (Ok & On & Oi & Ot & Ou & Rs & Ob & Hb). apply all_forall in Ob. cbn [decl_toks]. constructor; [now apply idt_plain|]. constructor; [now apply idt_plain|]. apply Forall_app. split; [exact (rpctype_plain _ Oi)|].
    constructor; [now apply idt_plain|]. rewrite !Forall_app. split; [exact (rpctype_plain _ Ou)|]. split; [|exact (orune_plain _ _ Rs eq_refl)].
    pose proof (flat_plain _ _ (mp_forall _ _ _ F Ob)) as Fb. destruct br as [[o c]|]; [|exact Fb]. destruct Hb as [Ro Rc]. constructor; [exact (rune_plain _ _ Ro eq_refl)|]. apply Forall_app. split; [exact Fb|]. constructor; [exact (rune_plain _ _ Rc eq_refl)|constructor].
  - intros t R. constructor; [exact (rune_plain _ _ R eq_refl)|constructor].
Qed.
Lemma words_plain d ws : sp_decl d ws -> decl_ok d -> ~ In [tick] ws.
Proof.
  intros S O I. assert (C : In [tick] (core ws)) by (apply filter_In; split; [exact I|reflexivity]). rewrite (proj1 core_decl_all d ws S O) in C. unfold wt, core in C. apply filter_In in C as [C _].
  apply in_map_iff in C as (t & E & J). pose proof (decl_plain d O) as F. rewrite Forall_forall in F. exact (F t J E).
Qed.

(** ** The text of a declaration *)
Lemma written dec d : decl_ok d -> exists ws, sp_decl d ws /\ fst (lrun S0 (out (write_decl dec d start))) = S0 /\ wds (snd (lrun S0 (out (write_decl dec d start)))) = ws /\ crash (write_decl dec d start) = false.
Proof.
  intro O. destruct (decl_all dec d O) as ((ws & S & h) & _). destruct (h start eq_refl eq_refl) as (I & W & _ & C). exists ws. split; [exact S|]. unfold inv, st, lx in I. split; [exact I|]. split; [|exact C].
  unfold words, st, lx in W. rewrite I in W. cbn [flush] in W. rewrite app_nil_r in W. exact W.
Qed.
Lemma node_lines dec d : decl_ok d -> exists ws, sp_decl d ws /\ fst (lrun S0 (print_node dec d ++ [nl])) = S0 /\ words_of (print_node dec d ++ [nl]) = ws.
Proof.
  intro O. destruct (written dec d O) as (ws & S & E & W & _). exists ws. split; [exact S|]. unfold print_node, words_of, lexemes. rewrite trimmed_lrun by exact E. split; [exact E|]. rewrite E. cbn [flush]. now rewrite app_nil_r.
Qed.

(** ** Cutting does not fail *)
Lemma last_snoc {A} (d : A) s x : last (s ++ [x]) d = x.
Proof. induction s as [|y s IH]; [reflexivity|]. cbn [app last]. destruct (s ++ [x]) eqn:E; [now destruct s|]. exact IH. Qed.
Lemma cut_trims s : s <> [nl] -> cut s = Some (trim_front (trim_back s)).
Proof.
  intro N. destruct s as [|c s]; [reflexivity|]. unfold cut. destruct (exists_last (l := c :: s) ltac:(discriminate)) as (t & x & E). rewrite E, last_snoc, app_length. cbn [List.length].
  replace (List.length t + 1 - 1) with (List.length t) by lia. unfold trim_back. rewrite rev_app_distr. cbn [rev app].
  destruct (Ascii.eqb x nl) eqn:X.
  - apply Ascii.eqb_eq in X. subst x. rewrite rev_involutive. rewrite firstn_app, firstn_all, Nat.sub_diag. cbn [firstn]. rewrite app_nil_r.
    destruct t as [|c0 t]; [now contradict N|]. injection E as <- _. cbn [trim_front List.length]. destruct (Ascii.eqb c nl); reflexivity.
  - rewrite firstn_all2 by (rewrite app_length; cbn; lia). rewrite <- E. cbn [trim_front]. destruct (Ascii.eqb c nl); [|reflexivity].
    destruct (Nat.ltb_spec (List.length t + 1) 1); [lia|reflexivity].
Qed.
Lemma ordinary_words d ws : ordinary d -> sp_decl d ws -> ws <> [].
Proof.
  intros R S. destruct R; inversion S; subst; try discriminate. intro E. apply (f_equal (@List.length bytes)) in E. rewrite !app_length in E. cbn in E. lia.
Qed.
Lemma node_cut dec d : ordinary d -> decl_ok d -> cut (out (write_decl dec d start)) = Some (print_node dec d).
Proof.
  intros R O. apply cut_trims. intro E. destruct (written dec d O) as (ws & S & _ & W & _). rewrite E in W. cbn in W. exact (ordinary_words d ws R S (eq_sym W)).
Qed.

(** ** Lines that look like the end of the block *)
Lemma run_spec c : forall s n t, run c s = (n, t) -> s = repeat c n ++ t.
Proof.
  induction s as [|x s IH]; intros n t E; cbn [run] in E; [injection E as <- <-; reflexivity|]. destruct (Ascii.eqb x c) eqn:Ec; [|injection E as <- <-; reflexivity].
  destruct (run c s) as [m u] eqn:R. injection E as <- <-. apply Ascii.eqb_eq in Ec. subst x. cbn [repeat app]. f_equal. now apply IH.
Qed.
Lemma fence_shape l : closes_fence l = true -> exists i r, l = repeat " "%char i ++ tick :: r.
Proof.
  unfold closes_fence. destruct (run " "%char l) as [i r] eqn:E1. destruct (run tick r) as [k z] eqn:E2. intro C. apply andb_true_iff in C as [C _]. apply andb_true_iff in C as [_ C]. apply Nat.leb_le in C.
  apply run_spec in E1, E2. destruct k as [|k]; [lia|]. exists i, (repeat tick k ++ z). rewrite E1, E2. reflexivity.
Qed.
Lemma lrun_cons s c x : lrun s (c :: x) = (fst (lrun (fst (lstep s c)) x), snd (lstep s c) ++ snd (lrun (fst (lstep s c)) x)).
Proof. cbn [lrun]. destruct (lstep s c) as [s1 l1]. cbn [fst snd]. now destruct (lrun s1 x). Qed.
Lemma spaces_lrun i x : lrun S0 (repeat " "%char i ++ x) = lrun S0 x.
Proof. induction i as [|i IH]; [reflexivity|]. cbn [repeat app]. rewrite lrun_cons. change (lstep S0 " "%char) with (S0, @nil lexeme). cbn [fst snd app]. rewrite IH. now destruct (lrun S0 x). Qed.
Lemma err_stays : forall x, fst (lrun SErr x) = SErr.
Proof. induction x as [|c x IH]; [reflexivity|]. rewrite lrun_cons. exact IH. Qed.
Definition open_text (s : lst) : Prop := (exists b w, s = SBlock b w) \/ (exists q w, s = SStr q false w).
Lemma after_nl s : fst (lstep s nl) = S0 \/ fst (lstep s nl) = SErr \/ open_text (fst (lstep s nl)).
Proof.
  unfold open_text. destruct s as [|w|w| | |q e w|w|b w|]; try (left; reflexivity).
  - destruct e; [right; right; right; cbn; eauto|]. unfold lstep. destruct (Ascii.eqb nl q); [left; reflexivity|]. right. left. reflexivity.
  - right. right. left. exists false, (w ++ [nl]). now destruct b.
  - right. left. reflexivity.
Qed.
Lemma fence_inside dec d a l b : decl_ok d -> print_node dec d ++ [nl] = a ++ l ++ nl :: b -> (a = [] \/ exists a', a = a' ++ [nl]) -> closes_fence l = true -> open_text (fst (lrun S0 a)).
Proof.
  intros O E A C. destruct (node_lines dec d O) as (ws & S & Z & W). apply fence_shape in C as (i & r & ->).
  assert (L : forall s, fst (lrun S0 a) = s -> lrun S0 (print_node dec d ++ [nl]) = (fst (lrun s (repeat " "%char i ++ tick :: r ++ nl :: b)), snd (lrun S0 a) ++ snd (lrun s (repeat " "%char i ++ tick :: r ++ nl :: b)))).
  { intros s <-. rewrite E, lrun_app, <- app_assoc. reflexivity. }
  assert (G : fst (lrun S0 a) = S0 \/ fst (lrun S0 a) = SErr \/ open_text (fst (lrun S0 a))).
  { destruct A as [->|(a' & ->)]; [now left|]. rewrite lrun_app, lrun_cons. cbn [fst snd lrun]. apply after_nl. }
  destruct G as [G|[G|G]]; [exfalso| |exact G].
  - specialize (L _ G). rewrite spaces_lrun in L. rewrite lrun_cons in L. change (lstep S0 tick) with (S0, [LW [tick]]) in L. destruct (lrun S0 (r ++ nl :: b)) as [s2 l2] eqn:R. cbn [fst snd app] in L. rewrite R in L. cbn [fst snd app] in L.
    apply (words_plain d ws S O). rewrite <- W. unfold words_of, lexemes. rewrite L. cbn [fst snd]. unfold wds. rewrite !flat_map_app. apply in_or_app. left. apply in_or_app. right. cbn. now left.
  - exfalso. specialize (L _ G). rewrite L in Z. cbn [fst] in Z. rewrite err_stays in Z. discriminate.
Qed.

(** ** Comments *)
Lemma node_comments dec d c : decl_ok d -> In c (comments (decl_toks d)) -> comment_ok c -> c_virtual c = false -> shown (c_text c) (print_node dec d ++ [nl]) \/ In c (decl_lost false d).
Proof.
  intros O I C V. destruct (DK_all (fun c => In c (decl_lost false d)) dec d O) as [K _]. destruct (K (fun c H => H) start eq_refl) as (_ & x & E & S).
  destruct (S c I C) as [X|[X|X]]; [congruence|now right|]. left. cbn [start out app] in E. unfold print_node. rewrite E. destruct X as (p & w & q & -> & W & T).
  destruct (trimmed (p ++ w ++ q)) as (a & b & A & B & F). destruct A as [-> | ->].
  - cbn [app] in F. exists p, w, (q ++ b). rewrite F, <- !app_assoc. auto.
  - cbn [app] in F. destruct p as [|c0 p].
    + exfalso. destruct W as [(y & -> & _)|(y & -> & _)]; discriminate F.
    + injection F as _ F. exists p, w, (q ++ b). split; [|auto]. etransitivity; [exact F|]. now rewrite <- !app_assoc.
Qed.

(** ** Which declaration is shown *)
Lemma innermost_last chain d : recorded d = true -> innermost (chain ++ [d]) = Some d.
Proof. intro R. unfold innermost. rewrite rev_app_distr. cbn [rev app find]. now rewrite R. Qed.
Lemma innermost_not chain d : recorded d = false -> innermost (chain ++ [d]) = innermost chain.
Proof. intro R. unfold innermost. rewrite rev_app_distr. cbn [rev app find]. now rewrite R. Qed.
Lemma ordinary_recorded d : ordinary d -> recorded d = true.
Proof. now destruct 1. Qed.
