(* Lemmas for C110-C112: what every writer of the formatter adds to the words of the output. *)
From Coq Require Import Ascii String Permutation.
From Verif Require Import Base Strs.
From Verif.Format Require Import Model Spec Proofs.
From Verif.FormatTree Require Import Model Spec Lexing.
Import ListNotations.
Open Scope list_scope.

(* ---- line ends and indentation ---- *)
Lemma H_nl_cm ic : H ic (write_string [nl]) Cm [] Z.
Proof.
  intros f E I. unfold write_string. set (g := Fmt _ _ _ _ _ _ _ _ _ _).
  assert (B : blocked_next (inl f) [nl] = true) by (destruct (inl f); reflexivity).
  assert (O : out g = out f ++ [nl]). { unfold g. cbn [out]. rewrite B, andb_false_r. reflexivity. }
  cbn [inv] in *. unfold words, st, lx in *. rewrite O, !lrun_app. cbn [fst snd].
  destruct I as [I|[w I]]; rewrite I; cbn; rewrite ?app_nil_r; auto.
Qed.
Lemma H_nl ic k : k <> ASl -> H ic (write_string [nl]) k [] Z.
Proof.
  intro N. destruct k; try congruence; try apply H_nl_cm.
  all: eapply H_eq; [apply (H_apart ic nl [] []); try reflexivity; congruence|reflexivity].
Qed.
Lemma H_p_blank ic k : k <> ASl -> H ic p_blank k [] Z.
Proof.
  intro N. unfold p_blank, p_line. change (nonempty (trim [])) with false. cbn [when].
  apply (H_seq ic _ _ k [] k [] Z); [apply H_skip|]. apply (H_seq ic _ _ k [] Z [] Z); [apply H_nl; exact N|apply H_settle].
Qed.
Lemma lrun_spaces n : lrun S0 (repeat sp n) = (S0, []).
Proof. induction n as [|n IH]; cbn [repeat lrun]; [reflexivity|]. change (lstep S0 sp) with (S0, @nil lexeme). cbn iota beta. rewrite IH. reflexivity. Qed.
Lemma write_spaces f n : st f = S0 -> st (write_string (repeat sp n) f) = S0 /\ words (write_string (repeat sp n) f) = words f.
Proof.
  intro E. unfold write_string. set (g := Fmt _ _ _ _ _ _ _ _ _ _). assert (O : exists m, out g = out f ++ repeat sp m).
  { unfold g. cbn [out]. destruct (_ && _); [exists (S n)|exists n]; reflexivity. }
  destruct O as [m O]. unfold words, st, lx in *. rewrite O, lrun_app, E, lrun_spaces. cbn [fst snd flush]. now rewrite !app_nil_r.
Qed.
Lemma H_indent ic b k : k <> Cm -> H ic (write_indent b) k [] k.
Proof.
  intros N f E I. unfold write_indent. destruct (Ascii.eqb (lastw f) nl) eqn:L; [|rewrite app_nil_r; auto].
  assert (S : st f = S0). { apply (inv_coh _ _ I N). apply Ascii.eqb_eq in L. rewrite L. reflexivity. }
  destruct (write_spaces f (2 * (if b then Nat.pred (indent f) else indent f)) S) as [A B].
  rewrite app_nil_r. split; [|split; [exact B|split; [exact E|reflexivity]]]. apply (below_inv Z k); [reflexivity|exact A].
Qed.

(* ---- comments ---- *)
Lemma join_last_space : forall ls, ls <> [] -> forallb is_space (last ls []) = true -> forall x c, join_with nl ls = x ++ [c] -> is_space c = true.
Proof.
  induction ls as [|l ls IH]; intros N F x c E; [congruence|]. destruct ls as [|l2 r].
  - cbn in F, E. subst l. rewrite forallb_app in F. apply andb_true_iff in F as [_ F]. cbn in F. now apply andb_true_iff in F as [F _].
  - change (last (l :: l2 :: r) []) with (last (l2 :: r) (@nil ascii)) in F.
    change (join_with nl (l :: l2 :: r)) with (l ++ nl :: join_with nl (l2 :: r)) in E.
    destruct (join_with nl (l2 :: r)) as [|a j] eqn:J.
    + change (l ++ [nl]) with (l ++ [nl]) in E. apply app_inj_tail in E as [_ <-]. reflexivity.
    + destruct (exists_last (l := a :: j)) as (y & d & Y); [discriminate|]. rewrite Y in E, J.
      replace (l ++ nl :: y ++ [d]) with ((l ++ nl :: y) ++ [d]) in E by (rewrite <- app_assoc; reflexivity).
      apply app_inj_tail in E as [_ <-]. exact (IH ltac:(discriminate) F _ _ Y).
Qed.
Lemma after_end_last : forall b, after_end b = Some [] -> exists x, b = x ++ [slash].
Proof.
  induction b as [|c b IH]; intro E; [discriminate|]. rewrite after_end_cons in E. destruct (Ascii.eqb c star && has_prefix b [slash]) eqn:X.
  - apply andb_true_iff in X as [_ X]. apply has_slash in X as (r & ->). cbn [tl] in E. injection E as ->. exists [c]. reflexivity.
  - destruct (IH E) as (x & ->). exists (c :: x). reflexivity.
Qed.
Lemma last_map {A B} (g : A -> B) l d d' : l <> [] -> last (map g l) d' = g (last l d).
Proof. induction l as [|a [|b r] IH]; intro N; [congruence|reflexivity|]. cbn [map]. change (last (map g (b :: r)) d' = g (last (b :: r) d)). apply IH. discriminate. Qed.

Lemma nonempty_trim l : nonempty (trim l) = negb (beq (trim l) []).
Proof. destruct (trim l); reflexivity. Qed.
(* The lines of a comment after the first. *)
Lemma comment_tail : forall ls f, ls <> [] -> trim (last ls []) <> [] -> lastw f = nl -> pspace f = false -> pindent f = 0%Z ->
  out (comment_block ls f) = out f ++ join_with nl (map (placed_line (2 * indent f)) ls) /\
  incompact (comment_block ls f) = incompact f /\ crash (comment_block ls f) = crash f.
Proof.
  induction ls as [|l ls IH]; intros f N T L P D; [congruence|]. destruct ls as [|l2 r].
  - cbn [comment_block map join_with last] in *. unfold seq, write_indent, placed_line. rewrite L, Ascii.eqb_refl.
    destruct (beq (trim l) []) eqn:B; [apply beq_eq in B; congruence|]. unfold write_string. cbn [out incompact crash pspace]. rewrite P. cbn [andb app].
    rewrite <- app_assoc. auto.
  - change (comment_block (l :: l2 :: r) f) with (comment_block (l2 :: r) (p_line l f)).
    assert (G : out (p_line l f) = out f ++ placed_line (2 * indent f) l ++ [nl] /\ lastw (p_line l f) = nl /\ pspace (p_line l f) = false /\
      pindent (p_line l f) = 0%Z /\ indent (p_line l f) = indent f /\ incompact (p_line l f) = incompact f /\ crash (p_line l f) = crash f).
    { unfold p_line, when, placed_line. rewrite nonempty_trim. destruct (beq (trim l) []); cbn [negb].
      - unfold seq, skip, write_string, settle, set_pindent. rewrite P. cbn [out lastw pspace pindent indent incompact crash andb app last]. rewrite D. cbn. auto 10.
      - unfold seq, write_indent. rewrite L, Ascii.eqb_refl. unfold write_string, settle, set_pindent.
        cbn [out lastw pspace pindent indent incompact crash andb app last]. rewrite P, D. cbn [andb app Z.ltb Z.compare].
        cbn [out lastw pspace pindent indent incompact crash]. rewrite <- !app_assoc. auto 10. }
    destruct G as (G1 & G2 & G3 & G4 & G5 & G6 & G7).
    destruct (IH (p_line l f)) as (A & B & C); auto; [discriminate|].
    rewrite A, B, C, G1, G5, G6, G7. split; [|auto]. cbn [map]. change (join_with nl (?a :: ?b :: ?c)) with (a ++ nl :: join_with nl (b :: c)).
    rewrite <- !app_assoc. reflexivity.
Qed.
(* A comment of several lines. *)
Lemma block_lines_out t f l0 ls : comment_lines t = l0 :: ls -> ls <> [] -> trim l0 <> [] -> trim (last ls []) <> [] ->
  exists k, out (write_comment t f) = out (write_string (written_comment k t) (write_indent false f)) /\
    incompact (write_comment t f) = incompact f /\ crash (write_comment t f) = crash f.
Proof.
  intros E N T0 T1. destruct ls as [|l2 r] eqn:Els; [congruence|].
  unfold write_comment. rewrite E. change (comment_block (l0 :: l2 :: r) f) with (comment_block (l2 :: r) (p_line l0 f)).
  set (f1 := write_indent false f). set (f2 := write_string l0 f1).
  assert (F1 : incompact f1 = incompact f /\ crash f1 = crash f).
  { unfold f1, write_indent. destruct (Ascii.eqb (lastw f) nl); split; reflexivity. }
  assert (P : p_line l0 f = settle (write_string [nl] f2)).
  { unfold p_line, when. rewrite nonempty_trim. destruct (beq (trim l0) []) eqn:B; [apply beq_eq in B; congruence|]. reflexivity. }
  set (g := p_line l0 f) in *.
  assert (G : out g = out f2 ++ [nl] /\ lastw g = nl /\ pspace g = false /\ pindent g = 0%Z /\ incompact g = incompact f /\ crash g = crash f).
  { destruct F1 as [F1 F2]. rewrite P. unfold settle, set_pindent.
    assert (X : out (write_string [nl] f2) = out f2 ++ [nl]) by (unfold write_string at 1; cbn [out]; reflexivity).
    destruct (0 <? _)%Z; [|destruct (_ <? 0)%Z]; cbn [out lastw pspace pindent incompact crash shift_in]; try (rewrite X; auto 10).
    unfold shift_out. destruct (indent _); cbn [out lastw pspace pindent incompact crash]; rewrite X; auto 10. }
  destruct G as (G1 & G2 & G3 & G4 & G5 & G6).
  destruct (comment_tail (l2 :: r) g) as (A & B & C); auto.
  exists (2 * indent g). rewrite A, B, C, G1, G5, G6. split; [|auto].
  unfold f2, write_string. cbn [out]. unfold written_comment. rewrite E. cbn [map].
  change (join_with nl (?a :: ?b :: ?c)) with (a ++ nl :: join_with nl (b :: c)).
  assert (X : blocked_next (inl f1) (l0 ++ nl :: join_with nl (placed_line (2 * indent g) l2 :: map (placed_line (2 * indent g)) r)) = blocked_next (inl f1) l0).
  { destruct l0; [cbn in T0; congruence|reflexivity]. }
  rewrite X. rewrite <- !app_assoc. reflexivity.
Qed.
Definition apart_cls (k : cls) : Prop := k <> Cm /\ k <> ASl.
Lemma slash_apart : apart slash = true. Proof. reflexivity. Qed.
Lemma one_block_cons t : one_block t -> exists r, t = slash :: r.
Proof. intros (b & -> & _). eexists. reflexivity. Qed.
Lemma H_block ic k t : apart_cls k -> one_block t -> H ic (write_string t) k [] Z.
Proof.
  intros [N1 N2] O. destruct (one_block_cons _ O) as [r ->]. eapply H_eq; [apply (H_apart ic slash r _ k slash_apart (lrun_block_comment _ O) N1 N2)|reflexivity].
Qed.
Lemma H_write_block ic k t : apart_cls k -> one_block t -> H ic (write_comment t) k [] Z.
Proof.
  intros [N1 N2] O. destruct O as (b & -> & A). destruct (existsb (Ascii.eqb nl) b) eqn:En.
  - destruct (split_on nl b) as [|b1 bs] eqn:E; [destruct (split_on_nonempty nl b E)|].
    pose proof (comment_lines_form _ _ _ E En) as L.
    assert (Nb : bs <> []).
    { intros ->. rewrite <- (join_split nl b), E in En. cbn in En.
      apply existsb_exists in En as (c & X & Ec). apply Ascii.eqb_eq in Ec. subst c.
      apply (split_on_sep_free nl b b1); [rewrite E; now left|exact X]. }
    assert (T0 : trim (b_ "/*" ++ trim_right b1) <> []) by (rewrite trim_open; discriminate).
    assert (T1 : trim (last (map (comment_line (cprefix bs) (cmin bs) false) bs) []) <> []).
    { rewrite (last_map _ _ []) by exact Nb. rewrite trim_comment_line. intro X. apply trim_nil in X.
      destruct (after_end_last _ A) as (x & Eb). rewrite <- (join_split nl b), E in Eb.
      assert (S : is_space slash = true); [|discriminate]. refine (join_last_space (b1 :: bs) _ _ x slash Eb); [discriminate|].
      destruct bs; [congruence|exact X]. }
    intros f Ei I. destruct (H_indent ic false k N1 f Ei I) as (I1 & W1 & C1 & K1).
    destruct (block_lines_out _ f _ _ L) as (n & Eo & Ec & Ek); auto.
    { intro X. apply Nb. destruct bs; [reflexivity|discriminate]. }
    destruct (H_block ic k (written_comment n (b_ "/*" ++ b)) (conj N1 N2)) with (f := write_indent false f) as (I2 & W2 & _ & _); auto.
    { apply written_one_block. exists b. auto. }
    cbn [inv] in *. unfold words, st, lx in *. rewrite Eo. rewrite W2, W1, app_nil_r. split; [exact I2|]. split; [reflexivity|]. rewrite Ec, Ek. auto.
  - unfold write_comment, comment_lines. rewrite multiline_open, En. cbn [comment_block].
    apply (H_seq ic _ _ k [] k [] Z); [apply H_indent; exact N1|]. apply H_block; [split; auto|].
    rewrite trim_open. exists (trim_right b). split; [reflexivity|]. rewrite after_end_trim_right, A. reflexivity.
Qed.
Lemma H_write_comment ic k c : apart_cls k -> comment_ok c -> H ic (write_comment (c_text c)) k [] Cm.
Proof.
  intros N [O|(b & E & Nn & A)]; [eapply H_post; [apply (H_write_block ic k _ N O)|reflexivity]|].
  rewrite E. assert (L : comment_lines (b_ "//" ++ b) = [b_ "//" ++ trim_right b]).
  { pose proof (written_line 0 b) as W. unfold written_comment in W. unfold comment_lines, is_multiline_block in *.
    replace (has_prefix (b_ "//" ++ b) (b_ "/*")) with false in * by reflexivity. cbn [andb map join_with] in *. now rewrite W. }
  unfold write_comment. rewrite L. cbn [comment_block]. destruct N as [N1 N2].
  apply (H_seq ic _ _ k [] k [] Cm); [apply H_indent; exact N1|].
  assert (O : one_line (b_ "//" ++ trim_right b)). { eexists. split; [reflexivity|]. intro X. apply Nn. exact (trim_right_in _ _ X). }
  pose proof (lrun_line_comment _ O) as R. intros f Ei I.
  change (b_ "//" ++ trim_right b) with (slash :: slash :: trim_right b) in *.
  assert (Ca : can f slash) by (apply can_any; [reflexivity|exact (inv_closed _ _ I N1 N2)]).
  split; [|split; [|auto]].
  - cbn [inv]. right. unfold st. rewrite (write_lex f _ _ (inv_coh _ _ I N1) (inv_idle _ _ I N1) Ca), R. eexists. reflexivity.
  - rewrite (write_words f _ _ (inv_coh _ _ I N1) (inv_idle _ _ I N1) Ca), R. reflexivity.
Qed.
Lemma H_inline_comment ic k c : apart_cls k -> comment_ok c -> H ic (write_string (inline_comment (c_text c))) k [] Z.
Proof.
  intros N O. apply H_block; [exact N|]. destruct O as [O|(b & -> & Nn & A)]; [exact (inline_block_one_block _ O)|]. apply inline_line_one_block; assumption.
Qed.
Lemma comments_ok_each cs c r : comments_ok cs -> cs = c :: r -> comment_ok c /\ comments_ok r.
Proof. intros K ->. cbn in K. tauto. Qed.
Lemma H_inline_comments ic k cs : apart_cls k -> comments_ok cs -> H ic (inline_comments cs) k [] k.
Proof.
  intros N. unfold inline_comments. generalize true. induction cs as [|c r IH]; intros first K; [apply H_skip|].
  destruct (comments_ok_each _ _ _ K eq_refl) as [O K']. cbn [inline_comments_from].
  apply (H_seq ic _ _ k [] k [] k); [|apply IH; exact K']. apply H_when0.
  apply (H_seq ic _ _ k [] k [] k).
  - intros f E I. apply (H_when0 ic _ space k); [apply H_space_keep; apply N|exact E|exact I].
  - eapply H_post; [apply (H_inline_comment ic k c N O)|reflexivity].
Qed.
Lemma H_multiline ic k force cs : apart_cls k -> comments_ok cs -> H ic (multiline_comments force cs) k [] k.
Proof.
  intros N K f E I. unfold multiline_comments. set (b := force || prev_open f). clearbody b.
  assert (G : forall cs b k, apart_cls k -> comments_ok cs -> H ic (multiline_from b cs) k [] k); [|exact (G cs b k N K f E I)].
  clear. induction cs as [|c r IH]; intros b k N K; [apply H_skip|]. destruct (comments_ok_each _ _ _ K eq_refl) as [O K']. cbn [multiline_from].
  apply (H_seq ic _ _ k [] k [] k).
  { apply H_when0. eapply H_post; [apply H_p_blank; apply N|reflexivity]. }
  apply (H_seq ic _ _ k [] Cm [] k); [exact (H_write_comment ic k c N O)|].
  apply (H_seq ic _ _ Cm [] Z [] k); [apply H_nl; discriminate|].
  eapply H_post; [apply IH; [split; discriminate|exact K']|reflexivity].
Qed.
Lemma one_line_not_block t : one_block t -> one_line_safe t -> False.
Proof. intros (b & -> & _) (b' & E & _). discriminate. Qed.
Lemma H_trailing_end ic k cs : apart_cls k -> comments_ok cs -> H ic (trailing_end_comments cs) k [] Z.
Proof.
  intros N K. unfold trailing_end_comments.
  assert (G : forall cs first k, comments_ok cs -> (apart_cls k \/ (k = Cm /\ match cs with c :: _ => has_nl (c_ws c) = true | [] => True end)) ->
    exists k', (k' = k \/ k' = Cm) /\ H ic (trailing_from first cs) k [] k').
  { clear. induction cs as [|c r IH]; intros first k K C; [exists k; split; [now left|apply H_skip]|].
    pose proof K as K0. destruct (comments_ok_each _ _ _ K eq_refl) as [O K']. cbn [trailing_from].
    assert (S : exists k1, apart_cls k1 /\ H ic (if has_nl (c_ws c) then p_blank else when (nonempty (c_ws c) && negb first) space) k [] k1).
    { destruct (has_nl (c_ws c)) eqn:Hn.
      - exists Z. split; [split; discriminate|]. apply H_p_blank. destruct C as [C|[-> _]]; [apply C|discriminate].
      - destruct C as [C|[_ C]]; [|congruence]. exists k. split; [exact C|]. apply H_when0. apply H_space_keep. apply C. }
    destruct S as (k1 & N1 & S). destruct O as [O|O].
    - destruct (IH false Z K') as (k' & E' & R); [left; split; discriminate|]. exists Cm. split; [now right|].
      apply (H_seq ic _ _ k [] k1 [] Cm S). apply (H_seq ic _ _ k1 [] Z [] Cm); [exact (H_write_block ic k1 _ N1 O)|].
      eapply H_post; [exact R|]. destruct E' as [-> | ->]; reflexivity.
    - destruct (IH false Cm K') as (k' & E' & R).
      + right. split; [reflexivity|]. destruct r as [|d r]; [exact Logic.I|]. cbn [comments_ok] in K0. apply K0. destruct O as (b & -> & Nn & _). exists b. auto.
      + exists Cm. split; [now right|]. apply (H_seq ic _ _ k [] k1 [] Cm S). apply (H_seq ic _ _ k1 [] Cm [] Cm); [apply (H_write_comment ic k1 c N1); now right|].
        destruct E' as [-> | ->]; exact R. }
  destruct (G cs true k K (or_introl N)) as (k' & E & R). apply (H_seq ic _ _ k [] k' [] Z R). apply H_p_blank.
  destruct E as [-> | ->]; [apply N|discriminate].
Qed.

(* ---- tokens ---- *)
Lemma H_write_tok ic k t ws k' : H ic (write_string (wtext t)) k ws k' -> H ic (write_tok t) k ws k'.
Proof.
  intros h f E I. unfold write_tok. set (g := if opens t then _ else _).
  assert (S : same f g /\ incompact g = incompact f /\ crash g = crash f). { unfold g. destruct (opens t); [|destruct (closes t)]; repeat split. }
  destruct S as (S & S1 & S2). destruct (h g) as (A & B & C & D); [congruence|exact (same_inv _ _ _ S I)|].
  rewrite B, D, S2. rewrite (same_words _ _ S). auto.
Qed.
Definition pchars : string := "{}[]()<>,;:=".
Lemma in_string c s : In c (b_ s) <-> mem c (b_ s) = true.
Proof.
  unfold mem. rewrite existsb_exists. split; [intro X; exists c; split; [exact X|apply Ascii.eqb_refl]|].
  intros (d & X & E). apply Ascii.eqb_eq in E. now subst d.
Qed.
Lemma pchar c : In c (b_ pchars) -> apart c = true /\ lrun S0 [c] = (S0, [LW [c]]).
Proof. rewrite in_string. destruct c as [[] [] [] [] [] [] [] []]; vm_compute; intuition congruence. Qed.
Definition sub (s s' : string) : bool := forallb (fun c => mem c (b_ s')) (b_ s).
Lemma sub_in s s' c : sub s s' = true -> In c (b_ s) -> In c (b_ s').
Proof. unfold sub. rewrite forallb_forall. intros A B. apply in_string. exact (A c B). Qed.
Lemma rune_wtext s t : runet s t -> wtext t = t_text t /\ exists c, t_text t = [c] /\ In c (b_ s).
Proof. intros (K & _ & X). unfold wtext. rewrite K. auto. Qed.
Lemma H_rune ic k s t : apart_cls k -> sub s pchars = true -> runet s t -> H ic (write_tok t) k [wtext t] Z.
Proof.
  intros [N1 N2] S R. destruct (rune_wtext _ _ R) as (W & c & E & C). apply H_write_tok. rewrite W, E.
  destruct (pchar c (sub_in _ _ _ S C)) as [A L]. eapply H_eq; [apply (H_apart ic c [] _ k A L N1 N2)|reflexivity].
Qed.
Definition starts (k : cls) : Prop := k = Z \/ k = Sp.
Lemma H_sign ic k t : starts k -> runet "-+" t -> H ic (write_tok t) k [wtext t] Z.
Proof.
  intros S R. destruct (rune_wtext _ _ R) as (W & c & E & C). apply H_write_tok. rewrite W, E.
  assert (L : lrun S0 [c] = (S0, [LW [c]])). { revert C. rewrite in_string. destruct c as [[] [] [] [] [] [] [] []]; vm_compute; congruence. }
  apply H_write; rewrite ?L; try exact Logic.I; try reflexivity; auto.
  - destruct S; subst; discriminate.
  - intros f I. destruct S; subst; cbn [inv] in I; [left; rewrite I; apply joins_S0|]. destruct I as [G [I|I]]; [left; rewrite I; apply joins_S0|right; split; [exact I|apply G]].
Qed.
Lemma idt_wtext t : idt t -> wtext t = t_text t.
Proof. intros (K & _). unfold wtext. now rewrite K. Qed.
Lemma lrun_ident : forall r w, forallb idchar r = true -> lrun (SId w) r = (SId (w ++ r), []).
Proof.
  induction r as [|c r IH]; intros w F; cbn [lrun]; [now rewrite app_nil_r|]. cbn in F. apply andb_true_iff in F as [F1 F2].
  cbn [lstep]. rewrite F1, (IH _ F2), <- app_assoc. reflexivity.
Qed.
Lemma lrun_id c r : letter c = true -> forallb idchar r = true -> lrun S0 (c :: r) = (SId (c :: r), []).
Proof.
  intros L F. cbn [lrun lstep]. assert (E : lstart c = (SId [c], [])).
  { unfold lstart. rewrite L. replace (is_space c) with false; [reflexivity|]. revert L. destruct c as [[] [] [] [] [] [] [] []]; vm_compute; congruence. }
  rewrite E, (lrun_ident _ _ F). reflexivity.
Qed.
Definition before_id (k : cls) : Prop := k = Z \/ k = Sp \/ k = ADot \/ k = ASl.
Lemma can_id k f c : before_id k -> letter c = true -> inv k f -> can f c.
Proof.
  intros B L I. assert (J : forall s, st f = s -> match s with S0 | SDot | SSlash => True | _ => False end -> can f c).
  { intros s E X. left. rewrite E. apply joins_letter; assumption. }
  destruct B as [-> |[-> |[-> | ->]]]; cbn [inv] in I.
  - exact (J _ I Logic.I).
  - destruct I as [G [I|I]]; [exact (J _ I Logic.I)|right; split; [exact I|apply G]].
  - destruct I as [_ [I|I]]; exact (J _ I Logic.I).
  - destruct I as [_ [I|I]]; exact (J _ I Logic.I).
Qed.
Lemma before_id_cm k : before_id k -> k <> Cm.
Proof. intros [-> |[-> |[-> | ->]]]; discriminate. Qed.
Lemma H_id ic k t : before_id k -> idt t -> H ic (write_tok t) k [wtext t] AId.
Proof.
  intros B T. apply H_write_tok. rewrite (idt_wtext _ T). destruct T as (_ & _ & c & r & -> & L & F). pose proof (lrun_id c r L F) as R.
  apply H_write; rewrite ?R; try exact Logic.I; try reflexivity.
  - exact (before_id_cm _ B).
  - intros f I. exact (can_id k f c B L I).
  - intros f E G. split; [exact G|right; eexists; exact E].
Qed.
Lemma H_num ic k t : starts k -> numt t -> H ic (write_tok t) k [wtext t] Any.
Proof.
  intros S (K & _ & N & R). apply H_write_tok. unfold wtext. rewrite K. destruct (t_text t) as [|c r]; [congruence|].
  apply H_write; rewrite ?R; try exact Logic.I; try reflexivity.
  - destruct S; subst; discriminate.
  - intros f I. destruct S; subst; cbn [inv] in I; [left; rewrite I; apply joins_S0|]. destruct I as [G [I|I]]; [left; rewrite I; apply joins_S0|right; split; [exact I|apply G]].
  - intros f _ G. exact G.
Qed.
Lemma H_str ic k t : apart_cls k -> strt t -> H ic (write_tok t) k [wtext t] Z.
Proof.
  intros [N1 N2] (K & _ & (q & r & E & Q) & R). apply H_write_tok. rewrite E in *.
  eapply H_eq; [apply (H_apart ic q r [LW (q :: r)] k); auto; destruct Q; subst; reflexivity|reflexivity].
Qed.
Lemma H_dot ic k t : apart_cls k -> k <> Any -> runet "." t -> H ic (write_tok t) k [wtext t] ADot.
Proof.
  intros [N1 N2] N3 R. destruct (rune_wtext _ _ R) as (W & c & E & C). destruct C as [<-|[]]. apply H_write_tok. rewrite W, E.
  change ["."%char] with [dotc]. apply H_write; try reflexivity; try exact Logic.I; auto.
  - intros f I. assert (J : forall s, st f = s -> match s with S0 | SId _ | SDot => True | _ => False end -> can f dotc).
    { intros s Es X. left. rewrite Es. apply joins_dot. exact X. }
    destruct k; try congruence; cbn [inv] in I.
    + exact (J _ I Logic.I).
    + destruct I as [G [I|I]]; [exact (J _ I Logic.I)|right; split; [exact I|apply G]].
    + destruct I as [_ [I|[w I]]]; exact (J _ I Logic.I).
    + destruct I as [_ [I|I]]; exact (J _ I Logic.I).
  - intros f Es G. split; [exact G|right; exact Es].
Qed.
Lemma H_slash ic t : runet "/" t -> H ic (write_tok t) AId [wtext t] ASl.
Proof.
  intros R. destruct (rune_wtext _ _ R) as (W & c & E & C). destruct C as [<-|[]]. apply H_write_tok. rewrite W, E.
  change ["/"%char] with [slash]. intros f Ei I.
  assert (Ca : can f slash) by (apply can_any; [reflexivity|apply (inv_closed _ _ I); discriminate]).
  assert (L : lx (write_string [slash] f) = (SSlash, snd (lx f) ++ flush (st f) ++ [])).
  { rewrite (write_lex f slash [] (inv_coh _ _ I ltac:(discriminate)) (inv_idle _ _ I ltac:(discriminate)) Ca). reflexivity. }
  split; [|split; [|auto]].
  - cbn [inv]. split; [|right; unfold st; rewrite L; reflexivity]. intro X. exfalso. revert X. vm_compute. discriminate.
  - unfold words, st. rewrite L. cbn [fst snd flush]. rewrite app_nil_r, !wds_app. reflexivity.
Qed.

Ltac cl := first
  [ assumption | exact Logic.I | reflexivity | split; discriminate | discriminate | left; reflexivity | right; reflexivity
  | unfold before_id; tauto ].

(* ---- tokens with their comments ---- *)
Lemma H_lead_inline ic k t : apart_cls k -> comments_ok (t_lead t) -> H ic (lead_inline t) k [] k.
Proof.
  intros N K. unfold lead_inline. apply H_when0. apply (H_seq ic _ _ k [] k [] k); [apply H_inline_comments; assumption|].
  apply H_when0. apply H_space_keep. apply N.
Qed.
Lemma H_inline_tok ic t k ws k' : H ic (write_tok t) k ws k' -> coms_ok t -> (apart_cls k \/ t_lead t = []) -> (apart_cls k' \/ t_trail t = []) ->
  H ic (inline_tok t) k ws k'.
Proof.
  intros W [K1 K2] L T. unfold inline_tok.
  eapply H_eq. 1: eapply H_seq; [apply H_inl|]; eapply H_seq; [|eapply H_seq; [exact W|]; eapply H_seq; [|eapply H_seq; [apply H_prev|apply H_inl]]].
  - destruct L as [L|L]; [exact (H_lead_inline ic k t L K1)|]. unfold lead_inline. rewrite L. apply H_skip.
  - destruct T as [T|T]; [exact (H_inline_comments ic k' _ T K2)|]. rewrite T. apply H_skip.
  - cbn. now rewrite app_nil_r.
Qed.
Lemma H_inline_node ic m k ws k' : H ic m k ws k' -> H ic (inline_node m) k ws k'.
Proof.
  intro h. unfold inline_node. eapply H_eq; [eapply H_seq; [apply H_inl|eapply H_seq; [exact h|apply H_inl]]|]. cbn. now rewrite app_nil_r.
Qed.
Lemma H_start_pre ic k force ts closing : apart_cls k -> comments_ok (lead_of ts) -> H ic (start_pre force ts closing) k [] k.
Proof.
  intros N K. unfold start_pre. apply (H_seq ic _ _ k [] k [] k); [|apply H_indent; apply N].
  assert (B : H ic p_blank k [] k) by (eapply H_post; [apply H_p_blank; apply N|reflexivity]).
  destruct (nonempty (lead_of ts)).
  - intros f E I. apply (H_seq ic (multiline_comments force (lead_of ts)) (when (negb force && (1 <? newlines (ws_of ts))) p_blank) k [] k [] k); auto.
    + apply H_multiline; assumption.
    + apply H_when0. exact B.
  - intros f E I. apply (H_when0 ic (negb (force || prev_open f) && (1 <? newlines (ws_of ts))) p_blank k B f E I).
Qed.
Lemma H_start_post ic k ts b : apart_cls k -> comments_ok (trail_of ts) -> H ic (start_post ts b) k [] k.
Proof.
  intros N K. unfold start_post. apply (H_seq ic _ _ k [] k [] k); [|apply H_prev]. apply H_when0. apply H_inline_comments; assumption.
Qed.
Lemma H_start_tok ic force t k ws k' : H ic (write_tok t) k ws k' -> coms_ok t -> apart_cls k -> apart_cls k' -> H ic (start_tok force t) k ws k'.
Proof.
  intros W [K1 K2] L T. unfold start_tok. eapply H_eq; [eapply H_seq; [apply H_start_pre; [exact L|exact K1]|eapply H_seq; [exact W|apply H_start_post; [exact T|exact K2]]]|].
  cbn. now rewrite app_nil_r.
Qed.
Lemma H_line_end ic t k ws k' : H ic (write_tok t) k ws k' -> coms_ok t -> apart_cls k -> apart_cls k' -> H ic (line_end t) k ws Z.
Proof.
  intros W [K1 K2] L T. unfold line_end. eapply H_eq.
  - eapply H_seq; [apply (H_lead_inline ic k t L K1)|]. eapply H_seq; [exact W|]. eapply H_seq; [apply (H_space_keep ic k'); apply T|].
    eapply H_seq; [apply (H_trailing_end ic k' _ T K2)|apply H_prev].
  - cbn. now rewrite app_nil_r.
Qed.
Lemma H_fresh_line ic k : apart_cls k -> H ic fresh_line k [] Z.
Proof.
  intros N f E I. unfold fresh_line. destruct (Ascii.eqb (lastw f) nl) eqn:L.
  - rewrite app_nil_r. split; [|auto]. cbn [inv]. apply (inv_coh _ _ I); [apply N|]. apply Ascii.eqb_eq in L. rewrite L. reflexivity.
  - apply (H_p_blank ic k); auto. apply N.
Qed.
Definition semi_coms (sm : option token) : Prop := match sm with Some t => coms_ok t | None => True end.
Lemma virtual_ok sm cs : semi_coms sm -> virtual_trail sm = Some cs -> comments_ok cs.
Proof. destruct sm as [t|]; cbn; [|discriminate]. intros [_ K]. destruct (t_virtual t); [|discriminate]. now intros [= <-]. Qed.
Lemma H_body_lead ic t k (b : bool) : coms_ok t -> apart_cls k -> H ic (if b then lead_inline t else multiline_comments false (t_lead t) ;; write_indent (closes t)) k [] k.
Proof.
  intros [K1 K2] L. destruct b; [apply H_lead_inline; assumption|].
  apply (H_seq ic _ _ k [] k [] k); [apply H_multiline; assumption|apply H_indent; apply L].
Qed.
Lemma H_body_end ic t sm b k ws k' : H ic (write_tok t) k ws k' -> coms_ok t -> semi_coms sm -> apart_cls k -> apart_cls k' -> H ic (body_end t sm b) k ws Z.
Proof.
  intros W K Ks L T. unfold body_end. eapply H_eq.
  - eapply H_seq; [apply (H_body_lead ic t k b K L)|]. eapply H_seq; [exact W|]. eapply H_seq; [|apply H_prev].
    destruct (nonempty (t_trail t)); [apply H_trailing_end; [exact T|apply K]|].
    destruct (virtual_trail sm) as [cs|] eqn:V; [|apply H_trailing_end; [exact T|exact Logic.I]].
    apply (H_seq ic _ _ k' [] k' [] Z); [apply H_space_keep; apply T|apply H_trailing_end; [exact T|exact (virtual_ok _ _ Ks V)]].
  - cbn. now rewrite app_nil_r.
Qed.
Lemma H_body_end_inline ic t sm b k ws k' : H ic (write_tok t) k ws k' -> coms_ok t -> semi_coms sm -> apart_cls k -> apart_cls k' -> H ic (body_end_inline t sm b) k ws k'.
Proof.
  intros W K Ks L T. unfold body_end_inline. eapply H_eq.
  - eapply H_seq; [apply (H_body_lead ic t k b K L)|]. eapply H_seq; [exact W|]. eapply H_seq; [|apply H_prev].
    destruct (nonempty (t_trail t)); [apply H_inline_comments; [exact T|apply K]|].
    destruct (virtual_trail sm) as [cs|] eqn:V; [apply H_inline_comments; [exact T|exact (virtual_ok _ _ Ks V)]|apply H_skip].
  - cbn. now rewrite app_nil_r.
Qed.
Lemma H_after_open ic t k : coms_ok t -> apart_cls k -> H ic (if nonempty (t_trail t) then trailing_end_comments (t_trail t) else p_blank) k [] Z.
Proof. intros K T. destruct (nonempty _); [apply H_trailing_end; [exact T|apply K]|apply H_p_blank; apply T]. Qed.
Lemma H_open_prefix ic t k ws k' : H ic (write_tok t) k ws k' -> coms_ok t -> apart_cls k -> apart_cls k' -> H ic (open_prefix t) k ws Z.
Proof.
  intros W K L T. unfold open_prefix. eapply H_eq.
  - eapply H_seq; [apply (H_lead_inline ic k t L); apply K|]. eapply H_seq; [exact W|]. eapply H_seq; [exact (H_after_open ic t k' K T)|apply H_prev].
  - cbn. now rewrite app_nil_r.
Qed.
Lemma H_open_prefix_inline ic t k ws k' : H ic (write_tok t) k ws k' -> coms_ok t -> apart_cls k -> apart_cls k' -> H ic (open_prefix_inline t) k ws k'.
Proof.
  intros W K L T. unfold open_prefix_inline. eapply H_eq.
  - eapply H_seq; [apply (H_lead_inline ic k t L); apply K|]. eapply H_seq; [exact W|]. eapply H_seq; [|apply H_prev].
    apply H_when0. apply H_inline_comments; [exact T|apply K].
  - cbn. now rewrite app_nil_r.
Qed.
Lemma H_open_prefix_array ic t k ws k' : H ic (write_tok t) k ws k' -> coms_ok t -> apart_cls k -> apart_cls k' -> H ic (open_prefix_array t) k ws Z.
Proof.
  intros W K L T. unfold open_prefix_array. eapply H_eq.
  - eapply H_seq; [apply H_when0; apply H_multiline; [exact L|apply K]|]. eapply H_seq; [apply H_indent; apply L|].
    eapply H_seq; [exact W|]. eapply H_seq; [exact (H_after_open ic t k' K T)|apply H_prev].
  - cbn. now rewrite app_nil_r.
Qed.
(* A body between braces. *)
Lemma H_body ic k ka kb kc op cl sm elems ws ow cw s s' :
  apart_cls k -> runet s op -> sub s pchars = true -> runet s' cl -> sub s' pchars = true -> semi_coms sm ->
  H ic (ow op) k [wtext op] ka ->
  (forall b kx, apart_cls kx -> H ic (cw cl sm b) kx [wtext cl] kc) ->
  apart_cls ka -> apart_cls kb ->
  match elems with Some m => H ic m ka ws kb | None => ws = [] end ->
  H ic (body op cl sm elems ow cw) k (wtext op :: ws ++ [wtext cl]) kc.
Proof.
  intros N Ro So Rc Sc Ks Ho Hc Na Nb He. unfold body. destruct elems as [m|].
  - eapply H_eq; [eapply H_seq; [exact Ho|eapply H_seq; [exact He|apply Hc; exact Nb]]|]. reflexivity.
  - subst ws. destruct (interior_comments [op; cl]).
    + eapply H_eq; [eapply H_seq; [exact Ho|apply Hc; exact Na]|]. reflexivity.
    + eapply H_eq; [eapply H_seq; [apply (H_inline_tok ic op k _ Z (H_rune ic k s op N So Ro))|apply (Hc true Z); split; discriminate]|reflexivity].
      * apply Ro.
      * now left.
      * left. split; discriminate.
Qed.

(* ---- identifiers and names ---- *)
Lemma rune_coms s t : runet s t -> coms_ok t. Proof. intros (_ & K & _). exact K. Qed.
Lemma idt_coms t : idt t -> coms_ok t. Proof. intros (_ & K & _). exact K. Qed.
Lemma numt_coms t : numt t -> coms_ok t. Proof. intros (_ & K & _). exact K. Qed.
Lemma strt_coms t : strt t -> coms_ok t. Proof. intros (_ & K & _). exact K. Qed.
Lemma before_apart k : before_id k -> apart_cls k \/ k = ASl.
Proof. intros [-> |[-> |[-> | ->]]]; [left|left|left|right; reflexivity]; split; discriminate. Qed.
Lemma HI_rune ic k s t : apart_cls k -> sub s pchars = true -> runet s t -> H ic (inline_tok t) k [wtext t] Z.
Proof.
  intros N S R. apply (H_inline_tok ic t k _ Z (H_rune ic k s t N S R) (rune_coms _ _ R)); [now left|left; split; discriminate].
Qed.
Lemma HI_id ic k t : before_id k -> (k = ASl -> t_lead t = []) -> idt t -> H ic (inline_tok t) k [wtext t] AId.
Proof.
  intros B L T. apply (H_inline_tok ic t k _ AId (H_id ic k t B T) (idt_coms _ T)); [|left; split; discriminate].
  destruct (before_apart _ B) as [A|A]; [now left|right; exact (L A)].
Qed.
Lemma HI_dot ic k t : apart_cls k -> k <> Any -> runet "." t -> H ic (inline_tok t) k [wtext t] ADot.
Proof.
  intros N N3 R. apply (H_inline_tok ic t k _ ADot (H_dot ic k t N N3 R) (rune_coms _ _ R)); [now left|left; split; discriminate].
Qed.
Lemma HI_dotted ic ts : dotted ts -> forall k, before_id k -> (k = ASl -> match ts with t :: _ => t_lead t = [] | [] => True end) ->
  H ic (seqs (map inline_tok ts)) k (map wtext ts) AId.
Proof.
  induction 1 as [t T|t d r T D R IH]; intros k B L; cbn [map seqs].
  - eapply H_eq; [eapply H_seq; [apply (HI_id ic k t B L T)|apply H_skip]|reflexivity].
  - eapply H_eq.
    + eapply H_seq; [apply (HI_id ic k t B L T)|]. eapply H_seq; [apply (HI_dot ic AId d); [split; discriminate|discriminate|exact D]|].
      apply (IH ADot); [unfold before_id; tauto|discriminate].
    + reflexivity.
Qed.
(* where an identifier with an optional leading dot may start *)
Definition idstart (k : cls) : Prop := k = Z \/ k = Sp \/ k = ADot.
Lemma idstart_before k : idstart k -> before_id k. Proof. unfold idstart, before_id. tauto. Qed.
Lemma idstart_apart k : idstart k -> apart_cls k. Proof. intros [-> |[-> | ->]]; split; discriminate. Qed.
Lemma starts_idstart k : starts k -> idstart k. Proof. unfold starts, idstart. tauto. Qed.
Lemma idstart_any k : idstart k -> k <> Any. Proof. intros [-> |[-> | ->]]; discriminate. Qed.
Lemma idstart_asl k : idstart k -> k <> ASl. Proof. intros [-> |[-> | ->]]; discriminate. Qed.
Lemma HI_cid ic ts k : ident_ok (Cid ts) -> idstart k -> H ic (seqs (map inline_tok ts)) k (map wtext ts) AId.
Proof.
  intros [D|(d & r & -> & R & D)] S.
  - apply (HI_dotted ic ts D k (idstart_before _ S)). intro X. destruct (idstart_asl _ S X).
  - cbn [map seqs]. eapply H_eq; [eapply H_seq; [apply (HI_dot ic k d (idstart_apart _ S) (idstart_any _ S) R)|]|reflexivity].
    apply (HI_dotted ic r D ADot); [unfold before_id; tauto|discriminate].
Qed.
Lemma H_ident ic i k : ident_ok i -> idstart k -> H ic (write_ident i) k (ident_ws i) AId.
Proof.
  intros O S. destruct i as [t|ts]; [exact (H_id ic k t (idstart_before _ S) O)|exact (HI_cid ic ts k O S)].
Qed.
Lemma HI_ident ic i k : ident_ok i -> idstart k -> H ic (inline_ident i) k (ident_ws i) AId.
Proof.
  intros O S. destruct i as [t|ts]; [apply (HI_id ic k t (idstart_before _ S)); [intro X; destruct (idstart_asl _ S X)|exact O]|].
  apply H_inline_node. exact (HI_cid ic ts k O S).
Qed.
(* the name after the slash of a type URL *)
Lemma HI_ident_slash ic i : ident_ok i -> match ident_toks i with t :: _ => idt t /\ t_lead t = [] | [] => False end ->
  H ic (inline_ident i) ASl (ident_ws i) AId.
Proof.
  intros O L. destruct i as [t|ts]; cbn [ident_toks] in L; cbn [inline_ident write_ident].
  - apply HI_id; [unfold before_id; tauto|intros _; apply L|exact O].
  - apply H_inline_node. destruct O as [D|(d & r & -> & R & D)].
    + apply (HI_dotted ic ts D ASl); [unfold before_id; tauto|]. intros _. destruct ts; [exact Logic.I|apply L].
    + destruct L as [T _]. destruct T as (K & _). destruct R as (K' & _). congruence.
Qed.
Lemma H_close ic r : match fr_open r with Some _ => some_rune ")]" (fr_close r) | None => fr_close r = None end ->
  H ic (close_ref r) AId (ows (fr_close r)) AId.
Proof.
  intro C. unfold close_ref. destruct (fr_open r).
  - destruct C as (c & -> & R). eapply H_post; [apply (HI_rune ic AId ")]" c); [split; discriminate|reflexivity|exact R]|reflexivity].
  - rewrite C. apply H_skip.
Qed.
Lemma ref_close r : ref_ok r -> match fr_open r with Some _ => some_rune ")]" (fr_close r) | None => fr_close r = None end.
Proof. intros [_ C]. destruct (fr_open r); apply C. Qed.
Lemma H_ref_tail ic r k : ref_ok r -> starts k -> fr_open r <> None ->
  H ic (opt_w inline_ident (fr_url r) ;; opt_w inline_tok (fr_slash r) ;; inline_ident (fr_name r)) k
    (map wtext (opt_toks ident_toks (fr_url r)) ++ ows (fr_slash r) ++ ident_ws (fr_name r)) AId.
Proof.
  intros [O C] S N. destruct (fr_open r) as [o|]; [|congruence]. destruct C as (_ & _ & C). destruct (fr_slash r) as [s|].
  - destruct C as (Rs & Ts & (u & -> & Ou) & L). cbn [opt_w opt_toks ows otoks map].
    eapply H_seq; [apply (HI_ident ic u k Ou); exact (starts_idstart _ S)|]. eapply H_seq; [|exact (HI_ident_slash ic _ O L)].
    apply (H_inline_tok ic s AId _ ASl (H_slash ic s Rs) (rune_coms _ _ Rs)); [left; split; discriminate|now right].
  - rewrite C. cbn [opt_w opt_toks ows otoks map app]. eapply H_eq; [eapply H_seq; [apply H_skip|eapply H_seq; [apply H_skip|]]|reflexivity].
    exact (HI_ident ic _ k O (starts_idstart _ S)).
Qed.
Lemma ref_ws_eq r : ref_ws r = ows (fr_open r) ++ map wtext (opt_toks ident_toks (fr_url r)) ++ ows (fr_slash r) ++ ident_ws (fr_name r) ++ ows (fr_close r).
Proof. unfold ref_ws, ref_toks, ows, ident_ws. now rewrite !map_app. Qed.
Lemma H_ref ic r k : ref_ok r -> idstart k -> H ic (write_ref r) k (ref_ws r) AId.
Proof.
  intros O S. pose proof (ref_close _ O) as Cl. unfold write_ref. rewrite ref_ws_eq. destruct (fr_open r) as [o|] eqn:E.
  - cbn [opt_w ows otoks map]. pose proof (H_ref_tail ic r Z O (or_introl eq_refl)) as T. rewrite E in T. specialize (T ltac:(discriminate)).
    assert (Ro : runet "([" o). { destruct O as [_ O]. rewrite E in O. apply O. }
    intros f Ei I.
    assert (h : H ic (inline_tok o ;; (opt_w inline_ident (fr_url r) ;; opt_w inline_tok (fr_slash r) ;; inline_ident (fr_name r)) ;; close_ref r) k
      ([wtext o] ++ (map wtext (opt_toks ident_toks (fr_url r)) ++ ows (fr_slash r) ++ ident_ws (fr_name r)) ++ ows (fr_close r)) AId).
    { eapply H_seq; [apply (HI_rune ic k "([" o); [exact (idstart_apart _ S)|reflexivity|exact Ro]|]. eapply H_seq; [exact T|]. apply H_close. rewrite E. exact Cl. }
    destruct (h f Ei I) as (A & B & C & D). unfold seq in *. rewrite B, <- !app_assoc. auto.
  - destruct O as [O C]. rewrite E in C. destruct C as (-> & -> & ->). cbn [opt_w ows otoks map app opt_toks]. rewrite app_nil_r.
    eapply H_eq; [eapply H_seq; [apply H_skip|eapply H_seq; [apply H_skip|eapply H_seq; [apply H_skip|eapply H_seq; [exact (HI_ident ic _ k O S)|]]]]|].
    + apply H_close. rewrite E. exact Cl.
    + unfold ows. rewrite Cl. cbn. now rewrite app_nil_r.
Qed.
Lemma in_trail_last (P : token -> Prop) ts : Forall P ts -> ts <> [] -> exists t, P t /\ trail_of ts = t_trail t.
Proof.
  intros F N. unfold trail_of. destruct (rev ts) as [|t r] eqn:E; [exfalso; apply N; rewrite <- (rev_involutive ts), E; reflexivity|].
  exists t. split; [|reflexivity]. rewrite Forall_forall in F. apply F. rewrite in_rev, E. now left.
Qed.
Lemma dotted_coms ts : dotted ts -> Forall coms_ok ts.
Proof. induction 1; repeat constructor; auto; try (now apply idt_coms); try (now apply (rune_coms ".")). Qed.
Lemma ident_coms i : ident_ok i -> Forall coms_ok (ident_toks i).
Proof.
  destruct i as [t|ts]; cbn [ident_ok ident_toks]; [intro T; repeat constructor; now apply idt_coms|].
  intros [D|(d & r & -> & R & D)]; [exact (dotted_coms _ D)|]. constructor; [exact (rune_coms _ _ R)|exact (dotted_coms _ D)].
Qed.
Lemma coms_trail ts : Forall coms_ok ts -> comments_ok (trail_of ts).
Proof.
  intro F. destruct ts as [|t r]; [exact Logic.I|]. destruct (in_trail_last _ _ F ltac:(discriminate)) as (u & [_ K] & ->). exact K.
Qed.
Lemma coms_lead ts : Forall coms_ok ts -> comments_ok (lead_of ts).
Proof. intro F. destruct F as [|t r [K _] _]; [exact Logic.I|exact K]. Qed.
Lemma H_first_part ic r k : ref_ok r -> fr_url r = None -> fr_slash r = None -> starts k -> H ic (first_part r) k (ref_ws r) AId.
Proof.
  intros O U Sl S. pose proof (ref_close _ O) as Cl. unfold first_part. rewrite ref_ws_eq, U, Sl. cbn [opt_toks ows otoks map app].
  destruct (fr_open r) as [o|] eqn:E.
  - assert (Ro : runet "([" o). { destruct O as [_ O]. rewrite E in O. apply O. }
    change (map wtext (otoks (Some o))) with [wtext o].
    eapply H_eq; [eapply H_seq; [eapply H_seq; [|eapply H_seq]|]|].
    + apply (H_rune ic k "([" o); [exact (idstart_apart _ (starts_idstart _ S))|reflexivity|exact Ro].
    + apply H_when0. apply H_inline_comments; [split; discriminate|apply (rune_coms _ _ Ro)].
    + apply (HI_ident ic _ Z (proj1 O)). left. reflexivity.
    + apply H_close. rewrite E. exact Cl.
    + cbn. reflexivity.
  - cbn [otoks map app]. eapply H_eq; [eapply H_seq; [eapply H_seq|]|].
    + exact (H_ident ic _ k (proj1 O) (starts_idstart _ S)).
    + cbv zeta. apply H_when0. apply H_inline_comments; [split; discriminate|]. apply coms_trail, ident_coms, O.
    + apply H_close. rewrite E. exact Cl.
    + rewrite app_nil_r. reflexivity.
Qed.
Lemma H_parts ic : forall ps, name_ok ps -> forall r rest, ps = PRef r :: rest -> H ic (seqs (map write_part rest)) AId (name_ws rest) AId.
Proof.
  induction 1 as [r0 O|r0 d ps O D N IH]; intros r rest [= <- <-]; [apply H_skip|].
  destruct N as [r1 O1|r1 d1 ps1 O1 D1 N1].
  - cbn [map seqs write_part]. eapply H_eq.
    + eapply H_seq; [apply (H_dot ic AId d); [split; discriminate|discriminate|exact D]|].
      eapply H_seq; [apply (H_ref ic r1 ADot); [apply O1|unfold idstart; tauto]|apply H_skip].
    + unfold name_ws. cbn. now rewrite !app_nil_r.
  - specialize (IH _ _ eq_refl). change (seqs (map write_part (PDot d :: PRef r1 :: PDot d1 :: ps1))) with (write_tok d ;; write_ref r1 ;; seqs (map write_part (PDot d1 :: ps1))).
    eapply H_eq.
    + eapply H_seq; [apply (H_dot ic AId d); [split; discriminate|discriminate|exact D]|].
      eapply H_seq; [apply (H_ref ic r1 ADot); [apply O1|unfold idstart; tauto]|exact IH].
    + unfold name_ws. cbn. now rewrite !map_app.
Qed.
Lemma H_name ic ps k : name_ok ps -> starts k -> H ic (write_name ps) k (name_ws ps) AId.
Proof.
  intros N S f Ei I. pose proof N as N0. assert (X : exists r rest, ps = PRef r :: rest /\ part_ok (PRef r)).
  { destruct N as [r O|r d q O _ _]; eauto. }
  destruct X as (r & rest & -> & O). unfold write_name.
  assert (h : H ic ((if incompact f then first_part r else write_ref r) ;; seqs (map write_part rest)) k (ref_ws r ++ name_ws rest) AId).
  { eapply H_seq; [|exact (H_parts ic _ N0 _ _ eq_refl)]. destruct (incompact f).
    - apply H_first_part; try apply O. exact S.
    - apply H_ref; [apply O|exact (starts_idstart _ S)]. }
  destruct (h f Ei I) as (A & B & C & D). split; [exact A|]. split; [|auto]. rewrite B. f_equal. unfold name_ws. cbn [flat_map]. rewrite map_app. reflexivity.
Qed.
Lemma ref_coms r : ref_ok r -> Forall coms_ok (ref_toks r).
Proof.
  intros [O C]. unfold ref_toks. rewrite !Forall_app. pose proof (ident_coms _ O) as Fn. destruct (fr_open r) as [o|].
  - destruct C as (Ro & (c & -> & Rc) & C). destruct (fr_slash r) as [s|].
    + destruct C as (Rs & _ & (u & -> & Ou) & _). repeat split; cbn; repeat constructor; try apply (rune_coms _ _ Ro); try apply (rune_coms _ _ Rs); try apply (rune_coms _ _ Rc); auto.
      exact (ident_coms _ Ou).
    + rewrite C. repeat split; cbn; repeat constructor; try apply (rune_coms _ _ Ro); try apply (rune_coms _ _ Rc); auto.
  - destruct C as (-> & -> & ->). repeat split; cbn; repeat constructor. exact Fn.
Qed.
Lemma name_coms ps : name_ok ps -> Forall coms_ok (flat_map part_toks ps).
Proof.
  induction 1 as [r O|r d ps O D N IH]; cbn [flat_map part_toks].
  - rewrite app_nil_r. exact (ref_coms _ (proj1 O)).
  - apply Forall_app. split; [exact (ref_coms _ (proj1 O))|]. cbn. constructor; [exact (rune_coms _ _ D)|exact IH].
Qed.

(* ---- columns ---- *)
Notation L x := (lrun S0 x).
Lemma words_of_eq x : words_of x = wds (snd (L x) ++ flush (fst (L x))). Proof. reflexivity. Qed.
Lemma glue x y : closed (fst (L x)) -> (fst (L x) = S0 \/ exists c r, y = c :: r /\ apart c = true) ->
  words_of (x ++ y) = words_of x ++ words_of y /\ fst (L (x ++ y)) = fst (L y).
Proof.
  intros C J. rewrite !words_of_eq, lrun_app. cbn [fst snd]. destruct J as [E|(c & r & -> & A)].
  - rewrite E. cbn [flush]. rewrite app_nil_r, <- wds_app, app_assoc. auto.
  - rewrite (lrun_joins _ _ r (joins_apart _ _ C A)). cbn [fst snd]. rewrite !wds_app, <- !app_assoc. auto.
Qed.
Lemma glue_spaces n y : words_of (repeat sp n ++ y) = words_of y /\ fst (L (repeat sp n ++ y)) = fst (L y).
Proof.
  destruct (glue (repeat sp n) y) as [A B]; rewrite ?lrun_spaces; [exact Logic.I|now left|]. rewrite A, B. split; [|reflexivity].
  rewrite words_of_eq, lrun_spaces. reflexivity.
Qed.
Definition sok (f : segfield) (ws : list bytes) : Prop :=
  exists w1 w2 w3 w4, ws = w1 ++ w2 ++ w3 ++ w4 /\
    fst (L (ctx f)) = S0 /\ words_of (ctx f) = [] /\
    closed (fst (L (typeName f))) /\ words_of (typeName f) = w1 /\
    closed (fst (L (fieldName f))) /\ words_of (fieldName f) = w2 /\
    closed (fst (L (equalsTag f))) /\ words_of (equalsTag f) = w3 /\
    fst (L (lineEnd f)) = S0 /\ words_of (lineEnd f) = w4.
Lemma glue_padded x n y : closed (fst (L x)) -> (x <> [] -> 1 <= n \/ (n = 0 /\ exists r, y = semic :: r)) ->
  words_of (x ++ repeat sp n ++ y) = words_of x ++ words_of y /\ fst (L (x ++ repeat sp n ++ y)) = fst (L y).
Proof.
  intros C P. destruct (glue_spaces n y) as [A B]. rewrite <- A, <- B. apply glue; [exact C|].
  destruct x as [|a x]; [now left|]. right. destruct (P ltac:(discriminate)) as [Hn|[-> [r ->]]].
  - destruct n as [|n]; [lia|]. exists sp, (repeat sp n ++ y). split; reflexivity.
  - exists semic, r. split; reflexivity.
Qed.
Lemma line_lex ct cf ce f line ws : aligned_line ct cf ce f line -> sok f ws -> fst (L line) = S0 /\ words_of line = ws.
Proof.
  intros (a & b & c & le & -> & Hle & Ha & Hb & Hc) (w1 & w2 & w3 & w4 & -> & C0 & W0 & C1 & <- & C2 & <- & C3 & <- & C4 & <-).
  assert (E4 : fst (L le) = S0 /\ words_of le = words_of (lineEnd f)).
  { destruct Hle as [-> | E]; [auto|]. rewrite E in *. destruct (glue_spaces 1 le) as [X Y]. cbn [repeat app] in X, Y. rewrite <- X, <- Y. auto. }
  destruct E4 as [F4 W4].
  destruct (glue_padded (equalsTag f) c le C3) as [W3 F3]. { intro N. destruct (Hc N) as [[_ X]|[X Y]]; [now left|right; auto]. }
  destruct (glue_padded (fieldName f) b (equalsTag f ++ repeat sp c ++ le) C2) as [W2 F2]. { intro N. destruct (Hb N). now left. }
  destruct (glue_padded (typeName f) a (fieldName f ++ repeat sp b ++ equalsTag f ++ repeat sp c ++ le) C1) as [W1 F1]. { intro N. destruct (Ha N). now left. }
  destruct (glue (ctx f) (typeName f ++ repeat sp a ++ fieldName f ++ repeat sp b ++ equalsTag f ++ repeat sp c ++ le)) as [Wl Fl]; [rewrite C0; exact Logic.I|now left|].
  split; [rewrite Fl, F1, F2, F3; exact F4|]. rewrite Wl, W0, W1, W2, W3, W4. reflexivity.
Qed.
Lemma lines_lex : forall fs lines wss, Forall2 (fun f line => exists ct cf ce, aligned_line ct cf ce f line) fs lines -> Forall2 sok fs wss ->
  fst (L (List.concat lines)) = S0 /\ words_of (List.concat lines) = List.concat wss.
Proof.
  intros fs lines wss A. revert wss. induction A as [|f line fs lines (ct & cf & ce & A) _ IH]; intros wss B; inversion B; subst; [split; reflexivity|].
  match goal with X : sok f _ |- _ => destruct (line_lex _ _ _ _ _ _ A X) as [F W] end.
  match goal with X : Forall2 sok fs _ |- _ => destruct (IH _ X) as [F' W'] end.
  cbn [List.concat]. destruct (glue line (List.concat lines)) as [G1 G2]; [rewrite F; exact Logic.I|now left|].
  rewrite G1, G2, W, W'. auto.
Qed.
Lemma concat_lines : forall gs (liness : list (list bytes)),
  Forall2 (fun g lines => exists ct cf ce, Forall2 (aligned_line ct cf ce) g lines) gs liness ->
  Forall2 (fun f line => exists ct cf ce, aligned_line ct cf ce f line) (List.concat gs) (List.concat liness).
Proof.
  induction 1 as [|g lines gs liness (ct & cf & ce & A) _ IH]; cbn [List.concat]; [constructor|]. apply Forall2_app; [|exact IH].
  clear IH. induction A; constructor; eauto.
Qed.
Lemma write_columns_lex dec fs wss : Forall2 sok fs wss ->
  exists b, write_columns dec fs = Some b /\ fst (L b) = S0 /\ words_of b = List.concat wss.
Proof.
  intro B. destruct (write_blocks_ok (split_fields dec fs)) as (ll & E & F). exists (List.concat (List.concat ll)). split; [exact E|].
  apply lines_lex with (fs := fs); [|exact B]. replace fs with (List.concat (split_fields dec fs)); [exact (concat_lines _ _ F)|].
  unfold split_fields. apply split_loop_concat.
Qed.

(* grouping *)
Definition plain_elem (e : elem) : Prop := e_kind e <> ENone.
Definition pure (g : list elem) : Prop := (exists e, g = [e]) \/ Forall plain_elem g.
Lemma push_concat gs cur : List.concat (push gs cur) = List.concat gs ++ cur.
Proof. destruct cur; cbn; [now rewrite app_nil_r|]. rewrite concat_app. cbn. now rewrite app_nil_r. Qed.
Lemma push_pure gs cur : Forall pure gs -> pure cur -> Forall pure (push gs cur).
Proof. intros A B. destruct cur; [exact A|]. apply Forall_app. split; [exact A|constructor; [exact B|constructor]]. Qed.
Lemma group_one_ok gs cur e gs2 cur2 : group_one gs cur e = (gs2, cur2) ->
  List.concat gs2 ++ cur2 = List.concat gs ++ cur ++ [e] /\
  (Forall pure gs -> Forall plain_elem cur -> Forall pure gs2 /\ Forall plain_elem cur2).
Proof.
  unfold group_one. set (other := match rev cur with [] => _ | _ => _ end).
  assert (G : plain_elem e -> other = (gs2, cur2) -> List.concat gs2 ++ cur2 = List.concat gs ++ cur ++ [e] /\
    (Forall pure gs -> Forall plain_elem cur -> Forall pure gs2 /\ Forall plain_elem cur2)).
  { intro Pl. unfold other. destruct (rev cur) as [|p r] eqn:R.
    - assert (cur = []) by (rewrite <- (rev_involutive cur), R; reflexivity). subst cur. intros [= <- <-]. split; [reflexivity|]. intros A _. split; [exact A|constructor; [exact Pl|constructor]].
    - assert (New : (push gs cur, [e]) = (gs2, cur2) -> List.concat gs2 ++ cur2 = List.concat gs ++ cur ++ [e] /\
        (Forall pure gs -> Forall plain_elem cur -> Forall pure gs2 /\ Forall plain_elem cur2)).
      { intros [= <- <-]. rewrite push_concat, <- app_assoc. split; [reflexivity|]. intros A B. split; [apply push_pure; [exact A|now right]|constructor; [exact Pl|constructor]]. }
      assert (Ext : (gs, cur ++ [e]) = (gs2, cur2) -> List.concat gs2 ++ cur2 = List.concat gs ++ cur ++ [e] /\
        (Forall pure gs -> Forall plain_elem cur -> Forall pure gs2 /\ Forall plain_elem cur2)).
      { intros [= <- <-]. split; [reflexivity|]. intros A B. split; [exact A|]. apply Forall_app. split; [exact B|constructor; [exact Pl|constructor]]. }
      destruct (e_incomplete e); [exact New|]. destruct (e_alone e).
      { intros [= <- <-]. rewrite app_nil_r. change (push gs cur ++ [[e]]) with (push (push gs cur) [e]). rewrite !push_concat, <- app_assoc. split; [reflexivity|].
        intros A B. split; [|constructor]. apply push_pure; [|left; eauto]. apply push_pure; [exact A|now right]. }
      cbv zeta. destruct (_ || _); [destruct (nonempty _); [exact New|exact Ext]|]. destruct (_ && _); [exact Ext|exact New]. }
  destruct (e_kind e) eqn:K.
  - intros [= <- <-]. change (push gs cur ++ [[e]]) with (push (push gs cur) [e]). rewrite !push_concat, app_nil_r, <- app_assoc. split; [reflexivity|].
    intros A B. split; [|constructor]. apply push_pure; [|left; eauto]. apply push_pure; [exact A|now right].
  - apply G. unfold plain_elem. congruence.
  - apply G. unfold plain_elem. congruence.
Qed.
Lemma group_from_ok : forall es k gs cur,
  List.concat (group_from k gs cur es) = List.concat gs ++ cur ++ es /\
  (Forall pure gs -> Forall plain_elem cur -> Forall pure (group_from k gs cur es)).
Proof.
  induction es as [|e es IH]; intros k gs cur; cbn [group_from].
  - rewrite push_concat, app_nil_r. split; [reflexivity|]. intros A B. apply push_pure; [exact A|now right].
  - set (p := match k with Some k0 => _ | None => _ end).
    assert (P : List.concat (fst p) ++ snd p = List.concat gs ++ cur /\ (Forall pure gs -> Forall plain_elem cur -> Forall pure (fst p) /\ Forall plain_elem (snd p))).
    { unfold p. destruct k as [k0|]; [destruct (ekind_eqb k0 (e_kind e))|]; cbn [fst snd]; auto. rewrite push_concat, app_nil_r. split; [reflexivity|].
      intros A B. split; [apply push_pure; [exact A|now right]|constructor]. }
    destruct p as [gs1 cur1]. cbn [fst snd] in P. destruct P as [P1 P2]. destruct (group_one gs1 cur1 e) as [gs2 cur2] eqn:G.
    destruct (group_one_ok _ _ _ _ _ G) as [G1 G2]. destruct (IH (Some (e_kind e)) gs2 cur2) as [I1 I2]. split.
    + rewrite I1, app_assoc, G1, !app_assoc, P1. rewrite <- !app_assoc. reflexivity.
    + intros A B. destruct (P2 A B) as [A1 B1]. destruct (G2 A1 B1) as [A2 B2]. exact (I2 A2 B2).
Qed.
Lemma groups_concat es : List.concat (groups es) = es.
Proof. exact (proj1 (group_from_ok es None [] [])). Qed.
Lemma groups_pure es : Forall pure (groups es).
Proof. apply (proj2 (group_from_ok es None [] [])); constructor. Qed.

Lemma conj6 (A B C D E F : Prop) : A -> B -> C -> D -> E -> F -> A /\ B /\ C /\ D /\ E /\ F.
Proof. tauto. Qed.
Section Columns.
Variable dec : list nat -> nat -> bool.
Definition elem_ok (ic lastx : bool) (e : elem) (ws : list bytes) : Prop :=
  (e_kind e = ENone /\ H ic (e_node e) Z ws Z) \/
  (e_kind e <> ENone /\ e_incomplete e = false /\ exists w1 w2 w3 w4, ws = w1 ++ w2 ++ w3 ++ w4 /\
     let s := e_seg e ic lastx in
     H ic (s_ctx s) Z [] Z /\ H ic (s_type s) Z w1 Any /\ H ic (s_name s) Z w2 Any /\ H ic (s_eq s) Z w3 Any /\
     H ic (s_end s) Z w4 Z /\ H ic (s_outer s) Z [] Z).
(* n elements follow *)
Inductive elems_ok (ic : bool) (n : nat) : list elem -> list bytes -> Prop :=
| eo_nil : elems_ok ic n [] []
| eo_cons e r w ws : elem_ok ic ((n =? 0) && negb (nonempty r)) e w -> elems_ok ic n r ws -> elems_ok ic n (e :: r) (w ++ ws).
Lemma elems_split ic n : forall a b ws, elems_ok ic n (a ++ b) ws -> exists w1 w2, ws = w1 ++ w2 /\ elems_ok ic (n + List.length b) a w1 /\ elems_ok ic n b w2.
Proof.
  induction a as [|e a IH]; intros b ws E; cbn [app] in E.
  - exists [], ws. split; [reflexivity|]. split; [constructor|exact E].
  - inversion E as [|e' r' w ws' A B]; subst. destruct (IH _ _ B) as (w1 & w2 & -> & C & D). exists (w ++ w1), w2. split; [apply app_assoc|]. split; [|exact D].
    constructor; [|exact C]. replace ((n + List.length b =? 0) && negb (nonempty a)) with ((n =? 0) && negb (nonempty (a ++ b))); [exact A|].
    destruct b; [rewrite app_nil_r, Nat.add_0_r; reflexivity|]. cbn [List.length]. rewrite Nat.add_succ_r. cbn [Nat.eqb andb].
    destruct a; cbn; now rewrite ?andb_false_r.
Qed.
Lemma drain_ok ic m k f w b f' : H ic m Z w k -> incompact f = ic -> out f = [] -> drain m f = (b, f') ->
  (k <> Cm -> k <> ASl -> closed (fst (L b))) /\ (k = Z -> fst (L b) = S0) /\ words_of b = w /\
  out f' = [] /\ incompact f' = ic /\ crash f' = crash f.
Proof.
  intros h E O D. unfold drain in D. injection D as <- <-. destruct (h f E) as (A & B & C & K). { cbn [inv]. unfold st, lx. rewrite O. reflexivity. }
  split; [intros N1 N2; exact (inv_closed _ _ A N1 N2)|]. split; [intros ->; exact A|]. split.
  - change (words_of (out (m f))) with (words (m f)). rewrite B. unfold words, st, lx. rewrite O. reflexivity.
  - cbn. auto.
Qed.
Lemma run_elems_ok ic n : forall es ws, elems_ok ic n es ws -> Forall plain_elem es -> forall outer f fs,
  incompact outer = ic -> inv Z outer -> incompact f = ic -> out f = [] ->
  exists outer' f' fs2 wss, run_elems ic n es (outer, f, fs) = (outer', f', fs ++ fs2) /\
    inv Z outer' /\ words outer' = words outer /\ incompact outer' = ic /\ crash outer' = crash outer /\
    out f' = [] /\ incompact f' = ic /\ crash f' = crash f /\ Forall2 sok fs2 wss /\ List.concat wss = ws.
Proof.
  induction 1 as [|e r w ws E _ IH]; intros P outer f fs Io Zo If Of.
  - exists outer, f, [], []. rewrite app_nil_r. repeat split; auto; constructor.
  - inversion P as [|e' r' Pe Pr]; subst e' r'. destruct E as [[E _]|(_ & Inc & w1 & w2 & w3 & w4 & -> & h0 & h1 & h2 & h3 & h4 & ho)]; [destruct (Pe E)|].
    cbn [run_elems]. set (x := run_elem _ _ _ _). assert (X : x = run_elem ic ((n =? 0) && negb (nonempty r)) e (outer, f, fs)) by reflexivity.
    unfold run_elem in X. rewrite Inc in X. set (s := e_seg e ic ((n =? 0) && negb (nonempty r))) in *. cbv zeta in h0, h1, h2, h3, h4, ho.
    destruct (drain (s_ctx s) f) as [b0 f0] eqn:D0. destruct (drain_ok _ _ _ _ _ _ _ h0 If Of D0) as (_ & Z0 & W0 & O0 & I0 & K0).
    destruct (drain (s_type s) f0) as [b1 f1] eqn:D1. destruct (drain_ok _ _ _ _ _ _ _ h1 I0 O0 D1) as (C1 & _ & W1 & O1 & I1 & K1).
    destruct (drain (s_name s) f1) as [b2 f2] eqn:D2. destruct (drain_ok _ _ _ _ _ _ _ h2 I1 O1 D2) as (C2 & _ & W2 & O2 & I2 & K2).
    destruct (drain (s_eq s) f2) as [b3 f3] eqn:D3. destruct (drain_ok _ _ _ _ _ _ _ h3 I2 O2 D3) as (C3 & _ & W3 & O3 & I3 & K3).
    destruct (drain (s_end s) f3) as [b4 f4] eqn:D4. destruct (drain_ok _ _ _ _ _ _ _ h4 I3 O3 D4) as (_ & Z4 & W4 & O4 & I4 & K4).
    destruct (ho outer Io Zo) as (Zo' & Wo' & Io' & Ko').
    set (sf := {| ctx := b0; typeName := b1; fieldName := b2; equalsTag := b3; lineEnd := b4 |}) in X.
    destruct (IH Pr (s_outer s outer) f4 (fs ++ [sf]) Io' Zo' I4 O4) as (outer' & f' & fs2 & wss & R & A1 & A2 & A3 & A4 & A5 & A6 & A7 & A8 & A9).
    exists outer', f', (sf :: fs2), ((w1 ++ w2 ++ w3 ++ w4) :: wss). rewrite X. cbv beta zeta. rewrite R, <- app_assoc.
    split; [reflexivity|]. split; [exact A1|]. split; [rewrite A2, Wo', app_nil_r; reflexivity|]. split; [exact A3|]. split; [congruence|].
    split; [exact A5|]. split; [exact A6|]. split; [congruence|]. split; [|cbn; now rewrite A9].
    constructor; [|exact A8]. exists w1, w2, w3, w4. cbn [ctx typeName fieldName equalsTag lineEnd sf].
    split; [reflexivity|]. split; [apply Z0; reflexivity|]. split; [exact W0|].
    split; [apply C1; discriminate|]. split; [exact W1|]. split; [apply C2; discriminate|]. split; [exact W2|]. split; [apply C3; discriminate|]. split; [exact W3|].
    split; [apply Z4; reflexivity|exact W4].
Qed.
Lemma merged ic rest g ws f : elems_ok ic rest g ws -> Forall plain_elem g -> incompact f = ic -> inv Z f ->
  let r := (let '(outer, fc, fs) := run_elems (incompact f) rest g (f, set_out [] f, []) in
         match write_columns dec fs with Some b => merge outer fc (out fc ++ b) | None => set_crash f end) in
  inv Z r /\ words r = words f ++ ws /\ incompact r = ic /\ crash r = crash f.
Proof.
  intros E P Ei I. rewrite Ei.
  destruct (run_elems_ok ic rest g ws E P f (set_out [] f) [] Ei I Ei eq_refl) as (outer' & f' & fs2 & wss & R & A1 & A2 & A3 & A4 & A5 & A6 & A7 & A8 & A9).
  rewrite R. cbn [app]. destruct (write_columns_lex dec _ _ A8) as (b & -> & B1 & B2). cbv zeta. rewrite A5. cbn [app].
  cbn [inv] in *. unfold merge, words, st, lx in *. cbn [out incompact crash]. rewrite lrun_app. cbn [fst snd].
  rewrite A1 in *. rewrite B1. cbn [flush] in *. rewrite app_nil_r in *. split; [reflexivity|]. split; [|split; [exact A6|rewrite A4, A7; apply orb_diag]].
  rewrite wds_app, A2. f_equal. rewrite words_of_eq, B1 in B2. cbn [flush] in B2. rewrite app_nil_r in B2. congruence.
Qed.
Lemma H_group ic rest g ws : elems_ok ic rest g ws -> pure g -> H ic (run_group dec rest g) Z ws Z.
Proof.
  intros E P f Ei I. destruct g as [|e [|e2 r]].
  - exact (merged ic rest [] ws f E (Forall_nil _) Ei I).
  - unfold run_group. destruct (e_kind e) eqn:K.
    + inversion E as [|e' r' w ws' A B]; subst. inversion B; subst. rewrite app_nil_r. destruct A as [[_ h]|[N _]]; [exact (h f eq_refl I)|congruence].
    + apply (merged ic rest [e] ws f E); auto. repeat constructor. unfold plain_elem. congruence.
    + apply (merged ic rest [e] ws f E); auto. repeat constructor. unfold plain_elem. congruence.
  - destruct P as [[x X]|P]; [discriminate|]. exact (merged ic rest (e :: e2 :: r) ws f E P Ei I).
Qed.
Lemma H_groups ic : forall gs ws, elems_ok ic 0 (List.concat gs) ws -> Forall pure gs -> H ic (run_groups dec gs) Z ws Z.
Proof.
  induction gs as [|g gs IH]; intros ws E P; cbn [run_groups List.concat] in *.
  - inversion E. apply H_skip.
  - inversion P; subst. destruct (elems_split ic 0 _ _ _ E) as (w1 & w2 & -> & A & B). eapply H_seq; [apply H_group; eauto|]. apply IH; assumption.
Qed.
Lemma H_columns ic es ws : elems_ok ic 0 es ws -> H ic (columns dec es) Z ws Z.
Proof. intro E. unfold columns. apply H_groups; [rewrite groups_concat; exact E|apply groups_pure]. Qed.

(* ---- values ---- *)
Section ValueInd.
Variable P : value -> Prop.
Variable Q : mfield -> Prop.
Hypothesis P_tok : forall t, P (VTok t).
Hypothesis P_ident : forall ts, P (VIdent ts).
Hypothesis P_str : forall ts, P (VStr ts).
Hypothesis P_num : forall s n, P (VNum s n).
Hypothesis P_msg : forall o fs c sm, Forall Q fs -> P (VMsg o fs c sm).
Hypothesis P_arr : forall o vs cs c sm, Forall P vs -> P (VArr o vs cs c sm).
Hypothesis Q_field : forall n s v sm, P v -> Q (MField n s v sm).
Fixpoint value_ind2 (v : value) : P v :=
  match v with
  | VTok t => P_tok t | VIdent ts => P_ident ts | VStr ts => P_str ts | VNum s n => P_num s n
  | VMsg o fs c sm => P_msg o fs c sm ((fix go l : Forall Q l := match l with [] => Forall_nil _ | m :: r => Forall_cons _ (field_ind2 m) (go r) end) fs)
  | VArr o vs cs c sm => P_arr o vs cs c sm ((fix go l : Forall P l := match l with [] => Forall_nil _ | v :: r => Forall_cons _ (value_ind2 v) (go r) end) vs)
  end
with field_ind2 (m : mfield) : Q m := match m with MField n s v sm => Q_field n s v sm (value_ind2 v) end.
End ValueInd.
Lemma all_forall {A} (P : A -> Prop) l : (fix all l := match l with [] => True | m :: r => P m /\ all r end) l <-> Forall P l.
Proof. induction l as [|a l IH]; split; intro X; [constructor|exact Logic.I|constructor; [apply X|apply IH, X]|inversion X; subst; split; [assumption|apply IH; assumption]]. Qed.
Lemma value_ok_msg o fs c sm : value_ok (VMsg o fs c sm) <-> runet "{<" o /\ runet "}>" c /\ orune ";" sm /\ Forall field_ok fs.
Proof. cbn [value_ok]. rewrite <- (all_forall field_ok fs). reflexivity. Qed.
Lemma value_ok_arr o vs cs c sm : value_ok (VArr o vs cs c sm) <->
  runet "[" o /\ runet "]" c /\ orune ";" sm /\ Forall (runet ",") cs /\ pred (List.length vs) <= List.length cs <= List.length vs /\ Forall value_ok vs /\
  forallb (fun v => match v with VArr _ _ _ _ _ | VIdent _ => false | _ => true end) vs = true.
Proof. cbn [value_ok]. rewrite <- (all_forall value_ok vs). reflexivity. Qed.
Lemma orune_coms s o : orune s o -> semi_coms o.
Proof. destruct o; [apply rune_coms|auto]. Qed.
Lemma orune_forall s o : orune s o -> Forall coms_ok (otoks o).
Proof. destruct o; cbn; intro R; repeat constructor; apply (rune_coms _ _ R). Qed.
Lemma value_coms : forall v, value_ok v -> Forall coms_ok (value_toks v).
Proof.
  apply (value_ind2 (fun v => value_ok v -> Forall coms_ok (value_toks v)) (fun m => field_ok m -> Forall coms_ok (field_toks m))).
  - intros t [T|[T|T]]; repeat constructor; [apply (idt_coms _ T)|apply (idt_coms _ T)|apply (numt_coms _ T)|apply (numt_coms _ T)|apply (strt_coms _ T)|apply (strt_coms _ T)].
  - intros ts O. exact (ident_coms (Cid ts) O).
  - intros ts [_ F]. cbn [value_toks]. revert F. apply Forall_impl. exact strt_coms.
  - intros s n [R [N|N]]; repeat constructor; try apply (rune_coms _ _ R); try apply (numt_coms _ N); apply (idt_coms _ N).
  - intros o fs c sm IH O. apply value_ok_msg in O as (Ro & Rc & Rs & F). cbn [value_toks]. constructor; [exact (rune_coms _ _ Ro)|].
    apply Forall_app. split; [|apply Forall_app; split; [repeat constructor; apply (rune_coms _ _ Rc)|exact (orune_forall _ _ Rs)]].
    clear - IH F. induction IH as [|m r A _ IH]; inversion F; subst; cbn [flat_map]; [constructor|]. apply Forall_app. auto.
  - intros o vs cs c sm IH O. apply value_ok_arr in O as (Ro & Rc & Rs & Fc & _ & F & _). cbn [value_toks]. constructor; [exact (rune_coms _ _ Ro)|].
    apply Forall_app. split; [|apply Forall_app; split; [repeat constructor; apply (rune_coms _ _ Rc)|exact (orune_forall _ _ Rs)]].
    assert (Fc' : Forall coms_ok cs) by (revert Fc; apply Forall_impl; intro; apply rune_coms). clear Fc. revert cs Fc'.
    induction IH as [|v r A _ IH]; inversion F; subst; intros cs Fc'; cbn [map interleave]; [exact Fc'|]. destruct Fc' as [|x cr X Fc'].
    + apply Forall_app. split; [auto|apply IH; auto].
    + apply Forall_app. split; [auto|constructor; [exact X|apply IH; auto]].
  - intros n s v sm IH (On & Ov & Os & Oc). cbn [field_toks]. rewrite !Forall_app. split; [exact (ref_coms _ On)|]. split; [|split; [exact (IH Ov)|exact (orune_forall _ _ Os)]].
    destruct s; [exact (orune_forall ":" (Some t) Oc)|constructor].
Qed.

Lemma starts_apart k : starts k -> apart_cls k. Proof. intros [-> | ->]; split; discriminate. Qed.
Lemma starts_before k : starts k -> before_id k. Proof. unfold starts, before_id. tauto. Qed.
Lemma any_apart : apart_cls Any. Proof. split; discriminate. Qed.
Lemma z_apart : apart_cls Z. Proof. split; discriminate. Qed.
Lemma aid_apart : apart_cls AId. Proof. split; discriminate. Qed.
Lemma sp_apart : apart_cls Sp. Proof. split; discriminate. Qed.
Hint Resolve starts_apart any_apart z_apart aid_apart sp_apart : fmt.
Definition tok_value (t : token) : Prop := idt t \/ numt t \/ strt t.
Lemma H_tok ic k t : starts k -> tok_value t -> H ic (write_tok t) k [wtext t] Any.
Proof.
  intros S [T|[T|T]].
  - eapply H_post; [exact (H_id ic k t (starts_before _ S) T)|reflexivity].
  - exact (H_num ic k t S T).
  - eapply H_post; [exact (H_str ic k t (starts_apart _ S) T)|reflexivity].
Qed.
Lemma tok_coms t : tok_value t -> coms_ok t.
Proof. intros [T|[T|T]]; [exact (idt_coms _ T)|exact (numt_coms _ T)|exact (strt_coms _ T)]. Qed.
Lemma HI_tok ic k t : starts k -> tok_value t -> H ic (inline_tok t) k [wtext t] Any.
Proof. intros S T. apply (H_inline_tok ic t k _ Any (H_tok ic k t S T) (tok_coms _ T)); left; auto with fmt. Qed.
Lemma fill_rune c s : In c (b_ s) -> runet s (fill c).
Proof. intro I. split; [reflexivity|]. split; [split; exact Logic.I|]. exists c. auto. Qed.
Lemma rune_w1 c t : runet (String c EmptyString) t -> wtext t = [c].
Proof. intro R. destruct (rune_wtext _ _ R) as (-> & d & -> & [<-|[]]). reflexivity. Qed.
Lemma with_rune_ok c s t : runet s t -> runet (String c EmptyString) (with_rune c t).
Proof. intros (K & C & _). split; [exact K|]. split; [exact C|]. exists c. split; [reflexivity|now left]. Qed.
Lemma H_string_lines ic ei : forall ts k, ts <> [] -> Forall strt ts -> apart_cls k -> H ic (string_lines ei ts) k (map wtext ts) Z.
Proof.
  induction ts as [|t ts IH]; intros k N F A; [congruence|]. inversion F as [|t' ts' T Ft]; subst. destruct ts as [|t2 r].
  - cbn [string_lines map]. pose proof (H_str ic k t A T) as W. destruct ei.
    + exact (H_start_tok ic false t k _ Z W (strt_coms _ T) A z_apart).
    + exact (H_body_end ic t None false k _ Z W (strt_coms _ T) Logic.I A z_apart).
  - change (string_lines ei (t :: t2 :: r)) with (line_element t ;; string_lines ei (t2 :: r)).
    change (map wtext (t :: t2 :: r)) with ([wtext t] ++ map wtext (t2 :: r)). eapply H_seq.
    + exact (H_body_end ic t None false k _ Z (H_str ic k t A T) (strt_coms _ T) Logic.I A z_apart).
    + apply (IH Z); [discriminate|exact Ft|split; discriminate].
Qed.
Lemma H_compound ic ind ei ts k : ts <> [] -> Forall strt ts -> apart_cls k -> H ic (compound_string ind ei ts) k (map wtext ts) Z.
Proof.
  intros N F A. unfold compound_string. eapply H_eq.
  - eapply H_seq; [apply (H_p_blank ic k); apply A|]. eapply H_seq; [apply H_when0; apply H_in|]. eapply H_seq; [exact (H_string_lines ic ei ts Z N F z_apart)|apply H_when0; apply H_out].
  - cbn. now rewrite app_nil_r.
Qed.
Definition V (v : value) : Prop := value_ok v ->
  (exists ws, sp_value v ws /\ forall ic k, starts k -> H ic (write_v dec v) k ws Any) /\
  (match v with VArr _ _ _ _ _ | VIdent _ => False | _ => True end -> forall l,
     exists ws, sp_value v ws /\ forall ic k, starts k -> H ic (write_value dec (MArr l) v) k ws Any).
Lemma V_inline v : V v -> value_ok v -> exists ws, sp_value v ws /\ forall ic k, starts k -> H ic (inline_v dec v) k ws Any.
Proof.
  intros hv O. destruct (hv O) as [(ws & S & h) _]. destruct v; try (exists ws; split; [exact S|]; intros ic k K; apply H_inline_node; exact (h ic k K)).
  exists [wtext t]. split; [constructor|]. intros ic k K. exact (HI_tok ic k t K O).
Qed.
Lemma colon_rune s v : match s with Some t => runet ":" t | None => literal v = true end -> runet ":" (match s with Some t => t | None => fill ":" end).
Proof. destruct s; [auto|]. intros _. apply fill_rune. now left. Qed.
Lemma H_colon ic s v k : apart_cls k -> match s with Some t => runet ":" t | None => literal v = true end -> H ic (colon s) k [colon_w] Z.
Proof.
  intros A C. pose proof (colon_rune _ _ C) as R. unfold colon. eapply H_eq; [apply (HI_rune ic k ":" _ A eq_refl R)|]. now rewrite (rune_w1 ":"%char _ R).
Qed.
(* the start of a line of a message literal *)
Lemma ref_start_coms r : ref_ok r -> Forall coms_ok (ref_start_toks r).
Proof.
  intro O. unfold ref_start_toks. destruct (fr_open r) eqn:E; [|exact (ident_coms _ (proj1 O))].
  destruct O as [_ O]. rewrite E in O. repeat constructor; apply (rune_coms _ _ (proj1 O)).
Qed.
Lemma H_ref_start ic r : ref_ok r -> H ic (ref_start_rest r) Z (ref_ws r) AId.
Proof.
  intro O. pose proof (ref_close _ O) as Cl. unfold ref_start_rest. rewrite ref_ws_eq. destruct (fr_open r) as [o|] eqn:E.
  - pose proof (H_ref_tail ic r Z O (or_introl eq_refl)) as T. rewrite E in T. specialize (T ltac:(discriminate)).
    assert (Ro : runet "([" o). { destruct O as [_ O]. rewrite E in O. apply O. }
    assert (h : H ic (write_tok o ;; start_post [o] (is_open_brace o) ;; (opt_w inline_ident (fr_url r) ;; opt_w inline_tok (fr_slash r) ;; inline_ident (fr_name r)) ;; close_ref r) Z
      ([wtext o] ++ [] ++ (map wtext (opt_toks ident_toks (fr_url r)) ++ ows (fr_slash r) ++ ident_ws (fr_name r)) ++ ows (fr_close r)) AId).
    { eapply H_seq; [apply (H_rune ic Z "([" o z_apart eq_refl Ro)|]. eapply H_seq; [apply (H_start_post ic Z [o] _ z_apart); apply (rune_coms _ _ Ro)|].
      eapply H_seq; [exact T|]. apply H_close. rewrite E. exact Cl. }
    intros f Ei I. destruct (h f Ei I) as (A & B & C & D). unfold seq in *. rewrite B. cbn [app ows otoks map]. rewrite <- !app_assoc. auto.
  - destruct O as [O C]. rewrite E in C. destruct C as (Ec & -> & ->). cbn [ows otoks opt_toks map app].
    eapply H_eq; [eapply H_seq; [eapply H_seq|]|].
    + apply (H_ident ic _ Z O). now left.
    + apply (H_start_post ic AId _ _ aid_apart). apply coms_trail, ident_coms, O.
    + apply H_close. rewrite E. exact Ec.
    + now rewrite app_nil_r.
Qed.
Lemma field_comma_ok m n s v sm : m = MField n s v sm -> field_ok m -> runet "," (field_comma (field_toks m) sm).
Proof.
  intros -> (On & Ov & Os & Oc). unfold field_comma. destruct sm as [t|]; [exact (with_rune_ok "," _ t Os)|].
  destruct (rev (field_toks (MField n s v None))) as [|t r] eqn:E; [apply fill_rune; now left|].
  split; [reflexivity|]. split; [|exists ","%char; split; [reflexivity|now left]].
  assert (F : Forall coms_ok (field_toks (MField n s v None))).
  { cbn [field_toks]. rewrite !Forall_app. split; [exact (ref_coms _ On)|]. split; [|split; [exact (value_coms _ Ov)|constructor]].
    destruct s; [exact (orune_forall ":" (Some _) Oc)|constructor]. }
  rewrite Forall_forall in F. apply (F t). rewrite in_rev, E. now left.
Qed.
Lemma field_elem_ok n s v sm : V v -> field_ok (MField n s v sm) ->
  exists wv, sp_value v wv /\ forall ic lastx, elem_ok ic lastx (field_elem dec (MField n s v sm)) (ref_ws n ++ [colon_w] ++ wv ++ [comma_w]).
Proof.
  intros hv O. pose proof O as (On & Ov & Os & Oc). destruct (hv Ov) as [(wv & S & h) _]. exists wv. split; [exact S|]. intros ic lastx.
  right. split; [discriminate|]. split; [reflexivity|]. exists [], (ref_ws n ++ [colon_w]), [], (wv ++ [comma_w]). split; [cbn; now rewrite <- !app_assoc|].
  cbn [field_elem e_seg s_ctx s_type s_name s_eq s_end s_outer]. apply conj6.
  - apply H_start_pre; [auto with fmt|]. apply coms_lead, ref_start_coms, On.
  - eapply H_post; [apply H_skip|reflexivity].
  - eapply H_seq; [exact (H_ref_start ic n On)|]. eapply H_post; [exact (H_colon ic s v AId aid_apart Oc)|reflexivity].
  - eapply H_post; [apply H_skip|reflexivity].
  - pose proof (field_comma_ok _ n s v sm eq_refl O) as R. eapply H_seq; [apply (h ic Z); now left|].
    eapply H_eq; [exact (H_line_end ic _ Any _ Z (H_rune ic Any "," _ any_apart eq_refl R) (rune_coms _ _ R) any_apart z_apart)|]. now rewrite (rune_w1 ","%char _ R).
  - apply H_skip.
Qed.
Definition QF (m : mfield) : Prop := match m with MField _ _ v _ => V v end.
Lemma fields_columns : forall fs, Forall QF fs -> Forall field_ok fs -> exists ws, sp_fields fs ws /\ forall ic, elems_ok ic 0 (map (field_elem dec) fs) ws.
Proof.
  induction 1 as [|[n s v sm] fs hv _ IH]; intro O; [exists []; split; [constructor|intro ic; constructor]|]. inversion O; subst.
  destruct (field_elem_ok n s v sm hv) as (wv & S & E); [assumption|]. destruct IH as (ws & Sf & Ef); [assumption|].
  exists ((ref_ws n ++ [colon_w] ++ wv ++ [comma_w]) ++ ws). split.
  - rewrite <- !app_assoc. apply sp_cons; auto.
  - intro ic. cbn [map]. constructor; [apply E|apply Ef].
Qed.
Definition compact_of (m : mfield) : fieldref * option token * M * option token :=
  match m with MField n s v sm => (n, s, inline_value (write_value dec MNode v) v, sm) end.
Lemma orune_sep sm : orune ",;" sm -> runet ",;" (match sm with Some t => t | None => fill "," end).
Proof. destruct sm; [auto|]. intros _. apply fill_rune. now left. Qed.
Lemma sep_w t : runet ",;" t -> wtext t = comma_w \/ wtext t = semi_w.
Proof. intro R. destruct (rune_wtext _ _ R) as (-> & c & -> & [<-|[<-|[]]]); [now left|now right]. Qed.
Lemma fields_compact : forall fs, Forall QF fs -> Forall field_ok fs ->
  exists ws, sp_fields fs ws /\ forall ic k, starts k -> H ic (compact_fields (map compact_of fs)) k ws Any.
Proof.
  induction 1 as [|[n s v sm] fs hv _ IH]; intro O.
  - exists []. split; [constructor|]. intros ic k K. eapply H_post; [apply H_skip|destruct K; subst; reflexivity].
  - inversion O as [|m r Om Or]; subst. pose proof Om as (On & Ov & Os & Oc). destruct (V_inline v hv Ov) as (wv & Sv & hi). destruct (IH Or) as (wr & Sr & hr).
    set (t := match sm with Some t => t | None => fill "," end). pose proof (orune_sep _ Os) as Rt. fold t in Rt.
    set (sep := if nonempty fs then [wtext t] else []).
    exists (ref_ws n ++ [colon_w] ++ wv ++ sep ++ wr). split.
    + apply sp_cons; auto. unfold sep. destruct (nonempty fs); [|now left]. right. destruct (sep_w _ Rt) as [-> | ->]; auto.
    + intros ic k K. cbn [map compact_of compact_fields]. eapply H_eq.
      * eapply H_seq; [apply H_inline_node; exact (H_ref ic n k On (starts_idstart _ K))|].
        eapply H_seq; [exact (H_colon ic s v AId aid_apart Oc)|]. eapply H_seq; [eapply H_pre; [apply H_space|reflexivity]|].
        eapply H_seq; [apply (hi ic Sp); now right|].
        instantiate (1 := sep ++ wr). unfold sep. fold t. destruct fs as [|m2 r2].
        -- cbn [nonempty map when compact_fields app]. inversion Sr; subst. eapply H_eq; [eapply H_seq; apply H_skip|reflexivity].
        -- cbn [nonempty map when app]. change (wtext t :: wr) with ([wtext t] ++ wr).
           eapply H_eq; [eapply H_seq; [eapply H_seq; [apply (HI_rune ic Any ",;" t any_apart eq_refl Rt)|eapply H_pre; [apply H_space|reflexivity]]|apply (hr ic Sp); now right]|]. reflexivity.
      * cbn [app]. reflexivity.
Qed.
Definition item_of (v : value) : option token * (bool -> M) := (terminal v, fun l => write_value dec (MArr l) v).
Lemma array_items_ok ol : forall vs cs, vs <> [] -> Forall V vs -> Forall value_ok vs -> forallb (fun v => match v with VArr _ _ _ _ _ | VIdent _ => false | _ => true end) vs = true ->
  Forall (runet ",") cs -> pred (List.length vs) <= List.length cs ->
  exists ws, sp_values vs ws /\ forall ic k, starts k -> H ic (array_items ol (map item_of vs) cs) k ws Any.
Proof.
  induction vs as [|v vs IH]; intros cs N FV FO FA FC Len; [congruence|].
  inversion FV as [|v' r' hv FV']; inversion FO as [|v'' r'' Ov FO']; subst. cbn [forallb] in FA. apply andb_true_iff in FA as [Av FA].
  assert (Na : match v with VArr _ _ _ _ _ | VIdent _ => False | _ => True end) by (destruct v; auto; discriminate).
  destruct (hv Ov) as [_ ha]. specialize (ha Na). destruct vs as [|v2 r].
  - destruct (ha (negb ol)) as (w & S & h). destruct (terminal v) as [t|] eqn:T.
    + destruct v; try discriminate. injection T as ->. exists [wtext t]. split; [repeat constructor|]. intros ic k K. cbn [map item_of terminal array_items].
      pose proof (H_tok ic k t K Ov) as W. destruct ol.
      * exact (H_body_end_inline ic t None true k _ Any W (tok_coms _ Ov) Logic.I (starts_apart _ K) any_apart).
      * eapply H_post; [exact (H_body_end ic t None false k _ Any W (tok_coms _ Ov) Logic.I (starts_apart _ K) any_apart)|reflexivity].
    + exists w. split; [constructor; exact S|]. intros ic k K. cbn [map array_items]. unfold item_of. rewrite T. exact (h ic k K).
  - destruct cs as [|c cs]; [cbn in Len; lia|]. inversion FC as [|c' r' Rc FC']; subst.
    destruct (IH cs) as (wr & Sr & hr); auto; [discriminate|cbn in *; lia|].
    assert (E : exists w, sp_value v w /\ forall ic k, starts k -> H ic (match terminal v with Some t => start_tok ol t | None => write_value dec (MArr false) v end) k w Any).
    { destruct (terminal v) as [t|] eqn:T.
      - destruct v; try discriminate. injection T as ->. exists [wtext t]. split; [constructor|]. intros ic k K.
        exact (H_start_tok ic ol t k _ Any (H_tok ic k t K Ov) (tok_coms _ Ov) (starts_apart _ K) any_apart).
      - exact (ha false). }
    destruct E as (w & S & h). exists (w ++ comma_w :: wr). split; [apply sp_vcons; assumption|]. intros ic k K.
    assert (A : array_items ol (map item_of (v :: v2 :: r)) (c :: cs) =
      (match terminal v with Some t => start_tok ol t | None => write_value dec (MArr false) v end ;;
       must (fun c => if ol then inline_tok c ;; space else line_end c) (Some c) ;; array_items ol (map item_of (v2 :: r)) cs)).
    { cbn [map array_items]. unfold item_of at 1. destruct (terminal v); reflexivity. }
    rewrite A. eapply H_eq; [eapply H_seq; [exact (h ic k K)|eapply H_seq; [cbn [must]|]]|].
    + instantiate (1 := if ol then Sp else Z). instantiate (1 := [wtext c]). pose proof (H_rune ic Any "," c any_apart eq_refl Rc) as W. destruct ol.
      * eapply H_eq; [eapply H_seq; [apply (HI_rune ic Any "," c any_apart eq_refl Rc)|eapply H_pre; [apply H_space|reflexivity]]|reflexivity].
      * exact (H_line_end ic c Any _ Z W (rune_coms _ _ Rc) any_apart z_apart).
    + apply hr. destruct ol; [now right|now left].
    + rewrite (rune_w1 ","%char _ Rc). reflexivity.
Qed.
Lemma V_all : forall v, V v.
Proof.
  apply (value_ind2 V QF).
  - intros t O. split; [|intros _ l]; exists [wtext t]; (split; [constructor|]); intros ic k K; exact (H_tok ic k t K O).
  - intros ts O. split; [|intros []]. exists (map wtext ts). split; [constructor|]. intros ic k K. eapply H_post; [exact (HI_cid ic ts k O (starts_idstart _ K))|reflexivity].
  - intros ts [N F]. split; [|intros _ l]; exists (map wtext ts); (split; [constructor|]); intros ic k K.
    + eapply H_post; [exact (H_compound ic true true ts k N F (starts_apart _ K))|reflexivity].
    + eapply H_post; [exact (H_string_lines ic (negb l) ts k N F (starts_apart _ K))|reflexivity].
  - intros s n [Rs Tn]. assert (Tn' : tok_value n) by (unfold tok_value; tauto).
    split; [|intros _ l]; exists [wtext s; wtext n]; (split; [constructor|]); intros ic k K; pose proof (H_sign ic k s K Rs) as W.
    + change [wtext s; wtext n] with ([wtext s] ++ [wtext n]). eapply H_seq; [apply (H_inline_tok ic s k _ Z W (rune_coms _ _ Rs)); left; auto with fmt|apply (HI_tok ic Z n); [now left|exact Tn']].
    + change [wtext s; wtext n] with ([wtext s] ++ [wtext n]). cbn [write_value]. eapply H_seq; [apply (H_start_tok ic false s k _ Z W (rune_coms _ _ Rs)); auto with fmt|].
      destruct l; [|apply (HI_tok ic Z n); [now left|exact Tn']].
      eapply H_post; [exact (H_line_end ic n Z _ Any (H_tok ic Z n (or_introl eq_refl) Tn') (tok_coms _ Tn') z_apart any_apart)|reflexivity].
  - intros o fs c sm IH O. apply value_ok_msg in O as (Ro & Rc & Rs & F).
    assert (G : forall md, exists ws, sp_value (VMsg o fs c sm) ws /\ forall ic k, starts k -> H ic (write_value dec md (VMsg o fs c sm)) k ws Any).
    { intro md. cbn [write_value]. destruct (fields_expanded fs).
      - cbv zeta. destruct (fields_columns fs IH F) as (ws & S & E). exists (wtext o :: ws ++ [wtext c]). split; [constructor; exact S|]. intros ic k K.
        pose proof (H_columns ic _ _ (E ic)) as HC. pose proof (H_rune ic k "{<" o (starts_apart _ K) eq_refl Ro) as Wo.
        assert (Wc : forall kx, apart_cls kx -> H ic (write_tok c) kx [wtext c] Z) by (intros kx Kx; exact (H_rune ic kx "}>" c Kx eq_refl Rc)).
        destruct md as [|l]; eapply H_post with (post := Z); try reflexivity.
        + apply (H_body ic k Z Z Z o c sm _ ws open_prefix body_end_inline "{<" "}>"); auto with fmt; try reflexivity; try exact (orune_coms _ _ Rs).
          * exact (H_open_prefix ic o k _ Z Wo (rune_coms _ _ Ro) (starts_apart _ K) z_apart).
          * intros b kx Kx. exact (H_body_end_inline ic c sm b kx _ Z (Wc kx Kx) (rune_coms _ _ Rc) (orune_coms _ _ Rs) Kx z_apart).
        + apply (H_body ic k Z Z Z o c sm _ ws open_prefix_array _ "{<" "}>"); auto with fmt; try reflexivity; try exact (orune_coms _ _ Rs).
          * exact (H_open_prefix_array ic o k _ Z Wo (rune_coms _ _ Ro) (starts_apart _ K) z_apart).
          * intros b kx Kx. destruct l.
            -- exact (H_body_end ic c sm b kx _ Z (Wc kx Kx) (rune_coms _ _ Rc) (orune_coms _ _ Rs) Kx z_apart).
            -- exact (H_body_end_inline ic c sm b kx _ Z (Wc kx Kx) (rune_coms _ _ Rc) (orune_coms _ _ Rs) Kx z_apart).
      - destruct (fields_compact fs IH F) as (ws & S & h). exists (wtext o :: ws ++ [wtext c]). split; [constructor; exact S|]. intros ic k K.
        change (map (fun m => match m with MField n s v sm0 => (n, s, inline_value (write_value dec MNode v) v, sm0) end) fs) with (map compact_of fs).
        eapply H_eq; [eapply H_seq; [apply H_when0; apply H_indent; apply (starts_apart _ K)|]|].
        + eapply H_seq; [apply (HI_rune ic k "{<" o (starts_apart _ K) eq_refl Ro)|]. eapply H_seq; [apply (h ic Z); now left|].
          eapply H_seq; [apply (HI_rune ic Any "}>" c any_apart eq_refl Rc)|]. instantiate (1 := []). destruct md as [|l]; [eapply H_post; [apply H_skip|reflexivity]|].
          apply H_when; [intros _|intros _; split; reflexivity]. eapply H_post; [apply (H_p_blank ic Z); discriminate|reflexivity].
        + reflexivity. }
    split; [apply (G MNode)|intros _ l; apply (G (MArr l))].
  - intros o vs cs c sm IH O. apply value_ok_arr in O as (Ro & Rc & Rs & FC & Len & F & FA). split; [|intros []].
    assert (X : exists ws, sp_values vs ws /\ forall ic,
      match match vs with [] => None | _ => Some (array_items (negb (values_expanded vs)) (map item_of vs) cs) end with
      | Some m => H ic m Z ws Any | None => ws = [] end).
    { destruct vs as [|v vs]; [exists []; split; [constructor|reflexivity]|].
      destruct (array_items_ok (negb (values_expanded (v :: vs))) (v :: vs) cs) as (ws & S & h); auto; [discriminate|apply Len|].
      exists ws. split; [exact S|]. intro ic. apply h. now left. }
    destruct X as (ws & S & h). exists (wtext o :: ws ++ [wtext c]). split; [constructor; exact S|]. intros ic k K.
    pose proof (H_rune ic k "[" o (starts_apart _ K) eq_refl Ro) as Wo.
    assert (Wc : forall kx, apart_cls kx -> H ic (write_tok c) kx [wtext c] Z) by (intros kx Kx; exact (H_rune ic kx "]" c Kx eq_refl Rc)).
    unfold write_v. cbn [write_value]. cbv zeta. eapply H_post with (post := Z); [|reflexivity].
    apply (H_body ic k Z Any Z o c sm _ ws _ body_end_inline "[" "]"); auto with fmt; try reflexivity; try exact (orune_coms _ _ Rs).
    + destruct (negb (values_expanded vs)).
      * exact (H_open_prefix_inline ic o k _ Z Wo (rune_coms _ _ Ro) (starts_apart _ K) z_apart).
      * exact (H_open_prefix ic o k _ Z Wo (rune_coms _ _ Ro) (starts_apart _ K) z_apart).
    + intros b kx Kx. exact (H_body_end_inline ic c sm b kx _ Z (Wc kx Kx) (rune_coms _ _ Rc) (orune_coms _ _ Rs) Kx z_apart).
    + exact (h ic).
  - intros n s v sm X. exact X.
Qed.
Lemma value_node v : value_ok v -> exists ws, sp_value v ws /\ forall ic k, starts k -> H ic (write_v dec v) k ws Any.
Proof. intro O. exact (proj1 (V_all v O)). Qed.
Lemma value_inline v : value_ok v -> exists ws, sp_value v ws /\ forall ic k, starts k -> H ic (inline_v dec v) k ws Any.
Proof. exact (V_inline v (V_all v)). Qed.
Lemma value_line_end v : value_ok v -> exists ws, sp_value v ws /\ forall ic k, starts k -> H ic (line_end_v dec v) k ws Z.
Proof.
  intro O. destruct (value_node v O) as (ws & S & h).
  destruct v; try (exists ws; split; [exact S|]; intros ic k K; unfold line_end_v; eapply H_eq; [eapply H_seq; [exact (h ic k K)|exact (H_fresh_line ic Any any_apart)]|now rewrite app_nil_r]).
  exists [wtext t]. split; [constructor|]. intros ic k K. exact (H_line_end ic t k _ Any (H_tok ic k t K O) (tok_coms _ O) (starts_apart _ K) any_apart).
Qed.
Lemma H_line_rune ic k s t : apart_cls k -> sub s pchars = true -> runet s t -> H ic (line_end t) k [wtext t] Z.
Proof. intros A S R. exact (H_line_end ic t k _ Z (H_rune ic k s t A S R) (rune_coms _ _ R) A z_apart). Qed.
Lemma H_line_with ic k s c t : apart_cls k -> sub (String c EmptyString) pchars = true -> runet s t -> H ic (line_end (with_rune c t)) k [[c]] Z.
Proof. intros A S R. pose proof (with_rune_ok c s t R) as R'. eapply H_eq; [exact (H_line_rune ic k _ _ A S R')|]. now rewrite (rune_w1 c _ R'). Qed.
Lemma H_must {A} ic (w : A -> M) o a k ws k' : o = Some a -> H ic (w a) k ws k' -> H ic (must w o) k ws k'.
Proof. now intros ->. Qed.

(* ---- options ---- *)
(* the value of an option up to the end of the line *)
Lemma opt_end ic k semi o v t : o_val o = Some v -> value_ok v -> o_semi o = Some t -> runet semi t -> sub semi pchars = true -> starts k ->
  exists wv, sp_value v wv /\
    H ic (match compound (o_val o) with
          | Some ts => compound_string true true ts ;; must line_end (o_semi o)
          | None => opt_w (write_v dec) (o_val o) ;; must line_end (o_semi o) end) k (wv ++ [wtext t]) Z.
Proof.
  intros Ev Ov Es R Su K. rewrite Ev, Es. destruct (value_node v Ov) as (wv & S & h). pose proof (H_line_rune ic Any semi t any_apart Su R) as hl.
  assert (G : exists wv, sp_value v wv /\ H ic (opt_w (write_v dec) (Some v) ;; must line_end (Some t)) k (wv ++ [wtext t]) Z).
  { exists wv. split; [exact S|]. eapply H_seq; [exact (h ic k K)|exact hl]. }
  destruct v; exact G.
Qed.
Lemma kw_option_elem w o : keyword_option_ok o -> exists ws, sp_option o ws /\ forall lastx, elem_ok false lastx (opt_elem dec false w o) ws.
Proof.
  intros (((ps & En & On) & (e & Ee & Re) & (v & Ev & Ov) & Os) & (k & Ek & Tk) & Ns).
  destruct (o_semi o) as [t|] eqn:Es; [|congruence]. cbn in Os.
  destruct (opt_end false Z ";" o v t Ev Ov Es Os eq_refl (or_introl eq_refl)) as (wv & S & h).
  exists ([wtext k] ++ (name_ws ps ++ [wtext e] ++ wv) ++ [semi_w]). split.
  - exists (name_ws ps ++ [wtext e] ++ wv). split; [|rewrite Ek; reflexivity]. exists wv. rewrite En, Ee, Ev. split; [exact S|reflexivity].
  - intro lastx. right. split; [discriminate|]. split; [reflexivity|]. exists [wtext k], (name_ws ps), [wtext e], (wv ++ [semi_w]).
    split; [rewrite <- !app_assoc; reflexivity|]. cbn [opt_elem e_seg]. unfold opt_seg. cbn [s_ctx s_type s_name s_eq s_end s_outer]. rewrite Ek, En, Ee. apply conj6.
    + apply H_start_pre; [auto with fmt|]. apply (idt_coms _ Tk).
    + eapply H_eq; [eapply H_seq; [apply (H_id false Z k); [unfold before_id; tauto|exact Tk]|eapply H_post; [apply (H_start_post false AId [k] _ aid_apart); apply (idt_coms _ Tk)|reflexivity]]|reflexivity].
    + eapply H_eq; [eapply H_seq; [apply (H_name false ps Z On); now left|eapply H_post; [apply H_skip|reflexivity]]|apply app_nil_r].
    + eapply H_post; [apply (HI_rune false Z "=" e z_apart eq_refl Re)|reflexivity].
    + rewrite (rune_w1 ";"%char _ Os) in h. exact h.
    + apply H_skip.
Qed.
Lemma only_comma_seg (o : opt) : only_comma o = true -> o_name o = None /\ o_eq o = None /\ o_val o = None.
Proof. unfold only_comma. destruct (o_name o), (o_eq o), (o_val o); try discriminate. auto. Qed.
Lemma opt_not_comma o semi : opt_ok semi o -> only_comma o = false.
Proof. intros ((ps & E & _) & _). unfold only_comma. now rewrite E. Qed.
Lemma compact_opts_columns : forall os, opts_ok os ->
  (forall o ts, last (map Some os) None = Some o -> compound (o_val o) = Some ts -> o_semi o <> None) ->
  exists ws, sp_opts os ws /\ elems_ok true 0 (map (opt_elem dec true skip) os) ws.
Proof.
  induction os as [|o r IH]; intros O Kept; [exists []; split; constructor|]. destruct O as (Ek & Hs & Ho & Or).
  destruct IH as (wr & Sr & Er); [exact Or| |].
  { intros o' ts L. apply Kept. destruct r; [discriminate L|exact L]. }
  destruct Ho as [(Oc & t & Es & Rt)|Ho].
  - destruct (only_comma_seg _ Oc) as (En & Ee & Ev).
    set (lastx := negb (nonempty (map (opt_elem dec true skip) r))).
    exists ((if lastx then [] else [comma_w]) ++ wr). split; [destruct lastx; [apply sp_ostray|apply sp_ostray']; assumption|].
    cbn [map]. constructor; [|exact Er]. fold lastx. change ((0 =? 0) && lastx) with lastx.
    right. split; [discriminate|]. split; [reflexivity|]. exists [], [], [], (if lastx then [] else [comma_w]). split; [reflexivity|].
    cbn [opt_elem e_seg]. unfold opt_seg. cbn [s_ctx s_type s_name s_eq s_end s_outer]. rewrite Ek, En, Ee, Ev, Es. cbn [compound opt_w must negb]. apply conj6; try (apply H_skip); try (eapply H_post; [apply H_skip|reflexivity]).
    destruct lastx; [apply H_skip|]. eapply H_eq; [eapply H_seq; [apply H_skip|apply (H_line_with true Z "," "," t z_apart eq_refl Rt)]|reflexivity].
  - pose proof (opt_not_comma _ _ Ho) as Nc. destruct Ho as ((ps & En & On) & (e & Ee & Re) & (v & Ev & Ov) & Os).
    set (lastx := negb (nonempty (map (opt_elem dec true skip) r))).
    assert (G : exists wv sep, sp_value v wv /\ (sep = [comma_w] \/ (sep = [] /\ forallb only_comma r = true)) /\
      H true (s_end (opt_seg dec true o true lastx)) Z (wv ++ sep) Z).
    { unfold opt_seg. cbn [s_end negb]. destruct (compound (o_val o)) as [ts|] eqn:Cp.
      - assert (exists t, o_semi o = Some t /\ runet "," t) as (t & Es & Rt).
        { destruct (o_semi o) as [t|] eqn:Es; [exists t; split; [reflexivity|exact Os]|]. destruct Hs as [Hs|Hs]; [congruence|]. subst r.
          destruct (Kept o ts eq_refl Cp Es). }
        destruct (opt_end true Z "," o v t Ev Ov Es Rt eq_refl (or_introl eq_refl)) as (wv & S & h). exists wv, [wtext t]. split; [exact S|].
        rewrite (rune_w1 ","%char _ Rt) in *. split; [now left|]. rewrite Cp in h. exact h.
      - rewrite Ev. cbn [opt_w]. unfold lastx. destruct r as [|o2 r2]; cbn [map nonempty negb].
        + destruct (value_line_end v Ov) as (wv & S & h). exists wv, []. rewrite app_nil_r. split; [exact S|]. split; [right; auto|]. apply h. now left.
        + destruct (o_semi o) as [t|]; [|destruct Hs; [congruence|discriminate]]. destruct (value_node v Ov) as (wv & S & h). exists wv, [comma_w].
          split; [exact S|]. split; [now left|]. cbn [must]. eapply H_seq; [apply (h true Z); now left|]. exact (H_line_with true Any "," "," t any_apart eq_refl Os). }
    destruct G as (wv & sep & S & Hsep & hend).
    exists ((name_ws ps ++ [wtext e] ++ wv) ++ sep ++ wr). split.
    + apply sp_ocons; [exact Nc| |exact Sr|exact Hsep]. exists wv. rewrite En, Ee, Ev. split; [exact S|reflexivity].
    + cbn [map]. rewrite app_assoc. constructor; [|exact Er]. fold lastx. change ((0 =? 0) && lastx) with lastx.
      right. split; [discriminate|]. split; [reflexivity|]. exists [], (name_ws ps), [wtext e], (wv ++ sep). split; [rewrite <- !app_assoc; reflexivity|].
      cbn [opt_elem e_seg]. cbv zeta. unfold opt_seg at 1 2 3 4 6. cbn [s_ctx s_type s_name s_eq s_outer]. rewrite Ek, En, Ee. cbn [opt_toks]. apply conj6.
      * apply H_start_pre; [auto with fmt|]. apply coms_lead, name_coms, On.
      * eapply H_post; [apply H_skip|reflexivity].
      * eapply H_eq; [eapply H_seq; [apply (H_name true ps Z On); now left|]|apply app_nil_r]. eapply H_post; [apply (H_start_post true AId _ _ aid_apart)|reflexivity].
        apply coms_trail, name_coms, On.
      * eapply H_post; [apply (HI_rune true Z "=" e z_apart eq_refl Re)|reflexivity].
      * exact hend.
      * apply H_skip.
Qed.
Lemma inline_opts_ok close cw : (forall k, apart_cls k -> H true close k [cw] Z) -> forall os, opts_ok os ->
  (forall o, In o (removelast os) -> compound (o_val o) = None) ->
  exists ws, sp_opts os ws /\ forall k, apart_cls k -> (os <> [] -> starts k) -> H true (inline_opts dec close os) k (ws ++ [cw]) Z.
Proof.
  intro hc. induction os as [|o r IH]; intros O Kept; [exists []; split; [constructor|intros k A _; exact (hc k A)]|]. destruct O as (Ek & Hs & Ho & Or).
  destruct IH as (wr & Sr & hr); [exact Or| |].
  { intros o' I. apply Kept. destruct r; [destruct I|right; exact I]. }
  destruct Ho as [(Oc & t & Es & Rt)|Ho].
  - exists wr. split; [apply sp_ostray; assumption|]. intros k A K. cbn [inline_opts]. rewrite Oc. apply hr; [exact A|]. intros _. apply K. discriminate.
  - pose proof (opt_not_comma _ _ Ho) as Nc. destruct Ho as ((ps & En & On) & (e & Ee & Re) & (v & Ev & Ov) & Os).
    assert (Head : forall k, starts k -> forall m wm, H true m Z wm Z -> H true (inline_node (opt_w write_name (o_name o)) ;; space ;; opt_w inline_tok (o_eq o) ;; m) k (name_ws ps ++ [wtext e] ++ wm) Z).
    { intros k K m wm hm. rewrite En, Ee. cbn [opt_w]. eapply H_eq; [eapply H_seq; [apply H_inline_node; exact (H_name true ps k On K)|]|].
      - eapply H_seq; [eapply H_pre; [apply H_space|reflexivity]|]. eapply H_seq; [apply (HI_rune true Sp "=" e sp_apart eq_refl Re)|exact hm].
      - reflexivity. }
    destruct (compound (o_val o)) as [ts|] eqn:Cp.
    + assert (r = []). { destruct r as [|o2 r2]; [reflexivity|]. exfalso. specialize (Kept o). rewrite Cp in Kept. discriminate Kept. now left. }
      subst r. assert (Evs : v = VStr ts). { rewrite Ev in Cp. destruct v; try discriminate. now injection Cp as ->. }
      subst v. destruct Ov as [N F]. exists ((name_ws ps ++ [wtext e] ++ map wtext ts) ++ [] ++ []). split.
      * apply sp_ocons; [exact Nc| |constructor|right; auto]. exists (map wtext ts). rewrite En, Ee, Ev. split; [constructor|reflexivity].
      * intros k A K. cbn [inline_opts]. rewrite Nc, Cp. rewrite app_nil_r, <- !app_assoc. apply (Head k (K ltac:(discriminate))).
        eapply H_seq; [exact (H_compound true false true ts Z N F z_apart)|exact (hc Z z_apart)].
    + destruct (value_inline v Ov) as (wv & S & h). set (sep := if nonempty r then [comma_w] else []).
      exists ((name_ws ps ++ [wtext e] ++ wv) ++ sep ++ wr). split.
      * apply sp_ocons; [exact Nc| |exact Sr|]; [exists wv; rewrite En, Ee, Ev; split; [exact S|reflexivity]|]. unfold sep. destruct r; [right|left]; auto.
      * intros k A K. cbn [inline_opts]. rewrite Nc, Cp. rewrite <- !app_assoc. apply (Head k (K ltac:(discriminate))). rewrite Ev. cbn [must].
        eapply H_eq; [eapply H_seq; [eapply H_pre; [apply H_space|reflexivity]|]; eapply H_seq; [apply (h true Sp); now right|]|].
        -- instantiate (1 := sep ++ wr ++ [cw]). eapply H_seq with (q := if nonempty r then Sp else Any).
           ++ unfold sep. destruct (o_semi o) as [t|].
              ** apply H_when; [intro Nr; rewrite Nr|intro Nr; rewrite Nr; split; reflexivity].
                 pose proof (with_rune_ok "," _ t Os) as Rw. eapply H_eq; [eapply H_seq; [apply (HI_rune true Any "," _ any_apart eq_refl Rw)|eapply H_pre; [apply H_space|reflexivity]]|].
                 rewrite (rune_w1 ","%char _ Rw). reflexivity.
              ** destruct Hs as [Hs|Hs]; [congruence|]. subst r. apply H_skip.
           ++ apply hr; [destruct (nonempty r); auto with fmt|]. intro N. destruct r; [congruence|]. cbn. now right.
        -- reflexivity.
Qed.
Lemma H_compact m k ws k' : H true m k ws k' -> H false (set_compact true ;; m ;; set_compact false) k ws k'.
Proof.
  intros h f E I. unfold seq. assert (S : same f (set_compact true f)) by (repeat split).
  destruct (h (set_compact true f) eq_refl (same_inv _ _ _ S I)) as (A & B & C & D).
  assert (S' : same (m (set_compact true f)) (set_compact false (m (set_compact true f)))) by (repeat split).
  split; [exact (same_inv _ _ _ S' A)|]. rewrite <- (same_words _ _ S'), B, <- (same_words _ _ S). split; [reflexivity|]. split; [reflexivity|]. exact D.
Qed.
Lemma copts_write c : copts_ok (Some c) -> exists ws, sp_copts (Some c) ws /\ forall k, starts k -> H false (write_copts dec c) k ws Any.
Proof.
  intros (Ro & Rc & Rs & O & K1 & K2). unfold write_copts. destruct (copts_expanded c) eqn:E.
  - destruct (compact_opts_columns (co_opts c) O (K2 eq_refl)) as (ws & S & El). exists (wtext (co_open c) :: ws ++ [wtext (co_close c)]).
    split; [left; exists ws; auto|]. intros k K. apply H_compact. eapply H_post with (post := Z); [|reflexivity].
    apply (H_body true k Z Z Z _ _ _ _ ws open_prefix body_end_inline "[" "]"); auto with fmt; try reflexivity; try exact (orune_coms _ _ Rs).
    + exact (H_open_prefix true _ k _ Z (H_rune true k "[" _ (starts_apart _ K) eq_refl Ro) (rune_coms _ _ Ro) (starts_apart _ K) z_apart).
    + intros b kx Kx. exact (H_body_end_inline true _ _ b kx _ Z (H_rune true kx "]" _ Kx eq_refl Rc) (rune_coms _ _ Rc) (orune_coms _ _ Rs) Kx z_apart).
    + destruct (co_opts c) eqn:Ec; [|exact (H_columns true _ _ El)]. unfold copts_expanded in E. rewrite Ec in E. discriminate.
  - destruct (co_opts c) as [|o r] eqn:Ec.
    + exists []. split; [right; auto|]. intros k K. apply H_compact. eapply H_post; [apply H_skip|destruct K; subst; reflexivity].
    + destruct (inline_opts_ok (inline_tok (co_close c)) (wtext (co_close c))) with (os := o :: r) as (ws & S & h); auto.
      { intros k A. exact (HI_rune true k "]" _ A eq_refl Rc). }
      exists (wtext (co_open c) :: ws ++ [wtext (co_close c)]). split; [left; exists ws; rewrite Ec; auto|]. intros k K. apply H_compact. cbn [nonempty when].
      eapply H_post with (post := Z); [|reflexivity]. change (wtext (co_open c) :: ws ++ [wtext (co_close c)]) with ([wtext (co_open c)] ++ ws ++ [wtext (co_close c)]).
      eapply H_seq; [exact (HI_rune true k "[" _ (starts_apart _ K) eq_refl Ro)|]. apply h; [auto with fmt|]. intros _. now left.
Qed.
Lemma copts_opt os : copts_ok os -> exists ws, sp_copts os ws /\
  (forall k, starts k -> H false (opt_w (write_copts dec) os) k ws Any) /\ (forall k, apart_cls k -> H false (write_opts dec os) k ws Any).
Proof.
  destruct os as [c|]; intro O.
  - destruct (copts_write c O) as (ws & S & h). exists ws. split; [exact S|]. split; [exact h|]. intros k A. cbn [write_opts opt_w].
    change ws with ([] ++ ws). eapply H_seq; [|apply h; now right]. eapply H_pre; [apply H_space|]. destruct k; try reflexivity; destruct A; congruence.
  - exists []. split; [reflexivity|]. split; [intros k K; eapply H_post; [apply H_skip|destruct K; subst; reflexivity]|].
    intros k A. eapply H_post; [apply H_skip|]. destruct k; try reflexivity; destruct A; congruence.
Qed.
Lemma apart_any k : apart_cls k -> below k Any = true.
Proof. intros [A B]. destruct k; try reflexivity; congruence. Qed.
Lemma H_spaced ic m k ws k' : apart_cls k -> H ic m Sp ws k' -> H ic (space ;; m) k ws k'.
Proof. intros A h. change ws with ([] ++ ws). eapply H_seq; [eapply H_pre; [apply H_space|exact (apart_any _ A)]|exact h]. Qed.
Lemma write_option_ok o : keyword_option_ok o -> exists ws, sp_option o ws /\ H false (write_option dec o) Z ws Z.
Proof.
  intros (((ps & En & On) & (e & Ee & Re) & (v & Ev & Ov) & Os) & (k & Ek & Tk) & Ns).
  destruct (o_semi o) as [t|] eqn:Es; [|congruence]. cbn in Os.
  assert (G : exists wv, sp_value v wv /\ H false (match compound (Some v) with
     | Some ts => compound_string true true ts ;; line_end t | None => must (inline_v dec) (Some v) ;; line_end t end) Sp (wv ++ [wtext t]) Z).
  { destruct (value_inline v Ov) as (wv & S & h). pose proof (H_line_rune false Any ";" t any_apart eq_refl Os) as hl.
    destruct v; try (exists wv; split; [exact S|]; eapply H_seq; [apply (h false Sp); now right|exact hl]).
    destruct Ov as [N F]. exists (map wtext ts). split; [constructor|]. eapply H_seq; [exact (H_compound false true true ts Sp N F sp_apart)|]. eapply H_pre; [exact hl|reflexivity]. }
  destruct G as (wv & S & h). exists ([wtext k] ++ (name_ws ps ++ [wtext e] ++ wv) ++ [semi_w]). split.
  - exists (name_ws ps ++ [wtext e] ++ wv). split; [|rewrite Ek; reflexivity]. exists wv. rewrite En, Ee, Ev. split; [exact S|reflexivity].
  - unfold write_option. rewrite Ek, En, Ee, Ev, Es. cbn [opt_w].
    eapply H_eq; [eapply H_seq; [eapply H_seq; [apply (H_start_tok false false k Z _ AId); [apply H_id; [unfold before_id; tauto|exact Tk]|apply (idt_coms _ Tk)|auto with fmt|auto with fmt]|]|]|].
    + apply H_spaced; [auto with fmt|]. apply (H_name false ps Sp On). now right.
    + apply H_spaced; [auto with fmt|]. eapply H_seq; [exact (HI_rune false Sp "=" e sp_apart eq_refl Re)|]. apply H_spaced; [auto with fmt|].
      instantiate (1 := wv ++ [wtext t]). destruct (compound (Some v)); exact h.
    + rewrite (rune_w1 ";"%char _ Os). cbn. rewrite <- !app_assoc. reflexivity.
Qed.

(* ---- declarations ---- *)
Lemma semi_tail k sm : apart_cls k -> some_rune ";" sm -> H false (must line_end sm) k [semi_w] Z.
Proof. intros A (t & -> & R). eapply H_eq; [exact (H_line_rune false k ";" t A eq_refl R)|]. now rewrite (rune_w1 ";"%char _ R). Qed.
Lemma with_semi_tail k sm : apart_cls k -> some_rune ";," sm -> H false (must (fun t => line_end (with_rune ";" t)) sm) k [semi_w] Z.
Proof. intros A (t & -> & R). exact (H_line_with false k ";," ";" t A eq_refl R). Qed.
Lemma H_kw ic k t : starts k -> idt t -> H ic (start_tok false t) k [wtext t] AId.
Proof. intros K T. apply (H_start_tok ic false t k _ AId); [apply H_id; [apply starts_before, K|exact T]|apply (idt_coms _ T)|apply starts_apart, K|auto with fmt]. Qed.
Lemma HI_idS ic k t : starts k -> idt t -> H ic (inline_tok t) k [wtext t] AId.
Proof. intros K T. apply HI_id; [apply starts_before, K| |exact T]. destruct K; subst; discriminate. Qed.
Lemma idt_tok_value t : idt t -> tok_value t. Proof. now left. Qed.
Lemma first_coms ts t r : ts = t :: r -> coms_ok t -> comments_ok (lead_of (firstn 1 ts)).
Proof. intros -> C. apply coms_lead. cbn. constructor; [assumption|constructor]. Qed.
(* the type of a field without label, from its first token on *)
Lemma H_type_rest ty : ident_ok ty -> type_kept None ty -> H false (field_type_rest ty) Z (ident_ws ty) AId.
Proof.
  intros O K. destruct ty as [t|ts]; cbn [field_type_rest].
  - change (ident_ws (Id t)) with ([wtext t] ++ []). eapply H_seq; [apply H_id; [now left|exact O]|]. apply H_start_post; [auto with fmt|]. apply (idt_coms _ O).
  - specialize (K eq_refl). destruct ts as [|t r]; [destruct K|]. cbn in K.
    assert (D : dotted (t :: r)).
    { destruct O as [D|(d & r' & E & R & D)]; [exact D|]. injection E as -> ->. destruct R as (Kd & _). congruence. }
    inversion D as [x T|x d r' T R D']; subst; unfold is_dot; rewrite K; cbn [map seqs fold_right when].
    + eapply H_eq; [eapply H_seq; [apply H_id; [now left|exact T]|eapply H_seq; [apply H_start_post; [auto with fmt|apply (idt_coms _ T)]|eapply H_seq; apply H_skip]]|reflexivity].
    + eapply H_eq; [eapply H_seq; [apply H_id; [now left|exact T]|eapply H_seq; [apply H_start_post; [auto with fmt|apply (idt_coms _ T)]|eapply H_seq; [apply H_skip|]]]|].
      * eapply H_seq; [exact (HI_dot false AId d aid_apart ltac:(discriminate) R)|]. apply (HI_dotted false r' D' ADot); [unfold before_id; tauto|discriminate].
      * reflexivity.
Qed.
Lemma type_lead l ty : ident_ok ty -> type_kept l ty -> l = None -> comments_ok (lead_of (firstn 1 (ident_toks ty))).
Proof.
  intros O K E. specialize (K E). pose proof (ident_coms _ O) as C. destruct (ident_toks ty) as [|t r] eqn:E2; [destruct K|]. inversion C; subst. eapply first_coms; [reflexivity|assumption].
Qed.
Lemma field_head l ty : oidt l -> ident_ok ty -> type_kept l ty ->
  H false (match l with
           | Some t => start_tok false t ;; space ;; inline_ident ty
           | None => start_pre false (firstn 1 (ident_toks ty)) (match ident_toks ty with t :: _ => closes t | [] => false end) ;; field_type_rest ty
           end) Z (ows l ++ ident_ws ty) AId.
Proof.
  intros L O K. destruct l as [t|].
  - eapply H_seq; [apply H_kw; [now left|exact L]|]. apply H_spaced; [auto with fmt|]. apply HI_ident; [exact O|right; now left].
  - change (ows None ++ ident_ws ty) with ([] ++ ident_ws ty). eapply H_seq; [|exact (H_type_rest ty O K)].
    apply H_start_pre; [auto with fmt|]. exact (type_lead None ty O K eq_refl).
Qed.
Lemma field_write l ty n e tg os sm : decl_ok (DField l ty n e tg os sm) ->
  exists ws, sp_decl (DField l ty n e tg os sm) ws /\ H false (write_field dec l ty n e tg os sm) Z ws Z.
Proof.
  intros (L & O & K & (nt & -> & Tn) & (et & -> & Re) & (v & -> & Ov) & Oc & Rs).
  destruct (value_inline v Ov) as (w1 & S1 & h1). destruct (copts_opt os Oc) as (w2 & S2 & _ & h2).
  eexists. split; [eapply (sp_field _ _ _ _ (Some v)); [exact S1|exact S2]|]. unfold write_field. cbn [opt_w ows otoks map].
  eapply H_eq; [eapply H_seq; [exact (field_head l ty L O K)|]|].
  - eapply H_seq; [apply H_spaced; [auto with fmt|]; apply HI_idS; [now right|exact Tn]|].
    eapply H_seq; [apply H_spaced; [auto with fmt|]; exact (HI_rune false Sp "=" et sp_apart eq_refl Re)|].
    eapply H_seq; [apply H_spaced; [auto with fmt|]; apply (h1 false Sp); now right|].
    eapply H_seq; [apply (h2 Any any_apart)|exact (semi_tail Any sm any_apart Rs)].
  - cbn. rewrite <- !app_assoc. reflexivity.
Qed.
Lemma field_col l ty n e tg os sm w : decl_ok (DField l ty n e tg os sm) ->
  exists ws, sp_decl (DField l ty n e tg os sm) ws /\ forall lastx, elem_ok false lastx (decl_elem dec w (DField l ty n e tg os sm)) ws.
Proof.
  intros (L & O & K & (nt & -> & Tn) & (et & -> & Re) & (v & -> & Ov) & Oc & Rs).
  destruct (value_inline v Ov) as (w1 & S1 & h1). destruct (copts_opt os Oc) as (w2 & S2 & h2 & _).
  eexists. split; [eapply (sp_field _ _ _ _ (Some v)); [exact S1|exact S2]|]. intro lastx. right. split; [discriminate|]. split; [reflexivity|].
  exists (ows l ++ ident_ws ty), [wtext nt], ([wtext et] ++ w1), (w2 ++ [semi_w]). split; [cbn; rewrite <- !app_assoc; reflexivity|].
  cbn [decl_elem e_seg]. unfold field_seg. cbn [s_ctx s_type s_name s_eq s_end s_outer must]. apply conj6.
  - destruct l as [t|]; apply H_start_pre; auto with fmt; [apply (idt_coms _ L)|exact (type_lead None ty O K eq_refl)].
  - destruct l as [t|].
    + eapply H_seq; [apply H_id; [now left|exact L]|]. change (ident_ws ty) with ([] ++ ident_ws ty). eapply H_seq; [apply (H_start_post false AId [t] _ aid_apart), (idt_coms _ L)|].
      apply H_spaced; [auto with fmt|]. eapply H_post; [apply HI_ident; [exact O|right; now left]|reflexivity].
    + eapply H_post; [exact (H_type_rest ty O K)|reflexivity].
  - eapply H_post; [apply HI_idS; [now left|exact Tn]|reflexivity].
  - eapply H_seq; [exact (HI_rune false Z "=" et z_apart eq_refl Re)|]. apply H_spaced; [auto with fmt|]. apply (h1 false Sp). now right.
  - eapply H_seq; [apply (h2 Z); now left|exact (semi_tail Any sm any_apart Rs)].
  - apply H_skip.
Qed.
Lemma map_rest o k cm v c : runet "<" o -> ident_ok k -> runet "," cm -> ident_ok v -> runet ">" c ->
  H false (map_type_rest o k cm v c) AId (wtext o :: ident_ws k ++ wtext cm :: ident_ws v ++ [wtext c]) Z.
Proof.
  intros Ro Ok Rc Ov Rcl. unfold map_type_rest. change (wtext o :: ident_ws k ++ wtext cm :: ident_ws v ++ [wtext c]) with ([wtext o] ++ ident_ws k ++ [wtext cm] ++ ident_ws v ++ [wtext c]).
  eapply H_seq; [exact (HI_rune false AId "<" o aid_apart eq_refl Ro)|]. eapply H_seq; [apply HI_ident; [exact Ok|now left]|].
  eapply H_seq; [exact (HI_rune false AId "," cm aid_apart eq_refl Rc)|]. apply H_spaced; [auto with fmt|].
  eapply H_seq; [apply HI_ident; [exact Ov|right; now left]|exact (HI_rune false AId ">" c aid_apart eq_refl Rcl)].
Qed.
Lemma map_semi tsm k : apart_cls k -> orune ";" tsm -> H false (map_semi_comments tsm) k [] k.
Proof. intros A R. destruct tsm as [t|]; [|apply H_skip]. unfold map_semi_comments. apply H_when0. apply H_inline_comments; [exact A|]. exact (proj2 (rune_coms _ _ R)). Qed.
Lemma map_write kw o k cm v c tsm n e tg os sm : decl_ok (DMap kw o k cm v c tsm n e tg os sm) ->
  exists ws, sp_decl (DMap kw o k cm v c tsm n e tg os sm) ws /\ H false (write_decl dec (DMap kw o k cm v c tsm n e tg os sm)) Z ws Z.
Proof.
  intros (Tk & Ro & Ok & Rc & Ov & Rcl & Rt & Tn & Re & Otg & Oc & Rs).
  destruct (value_inline tg Otg) as (w1 & S1 & h1). destruct (copts_opt os Oc) as (w2 & S2 & _ & h2).
  eexists. split; [apply sp_map; [exact S1|exact S2]|]. cbn [write_decl].
  eapply H_eq; [eapply H_seq; [apply H_kw; [now left|exact Tk]|]; eapply H_seq; [exact (map_rest o k cm v c Ro Ok Rc Ov Rcl)|];
                eapply H_seq; [exact (map_semi tsm Z z_apart Rt)|]|].
  - apply H_spaced; [auto with fmt|]. eapply H_seq; [apply HI_idS; [now right|exact Tn]|].
    apply H_spaced; [auto with fmt|]. eapply H_seq; [exact (HI_rune false Sp "=" e sp_apart eq_refl Re)|].
    apply H_spaced; [auto with fmt|]. eapply H_seq; [apply (h1 false Sp); now right|].
    eapply H_seq; [apply (h2 Any any_apart)|exact (semi_tail Any sm any_apart Rs)].
  - cbn. rewrite <- !app_assoc. cbn. rewrite <- !app_assoc. reflexivity.
Qed.
Lemma map_col kw o k cm v c tsm n e tg os sm w : decl_ok (DMap kw o k cm v c tsm n e tg os sm) ->
  exists ws, sp_decl (DMap kw o k cm v c tsm n e tg os sm) ws /\ forall lastx, elem_ok false lastx (decl_elem dec w (DMap kw o k cm v c tsm n e tg os sm)) ws.
Proof.
  intros (Tk & Ro & Ok & Rc & Ov & Rcl & Rt & Tn & Re & Otg & Oc & Rs).
  destruct (value_inline tg Otg) as (w1 & S1 & h1). destruct (copts_opt os Oc) as (w2 & S2 & h2 & _).
  eexists. split; [apply sp_map; [exact S1|exact S2]|]. intro lastx. right. split; [discriminate|]. split; [reflexivity|].
  exists ([wtext kw] ++ wtext o :: ident_ws k ++ wtext cm :: ident_ws v ++ [wtext c]), [wtext n], ([wtext e] ++ w1), (w2 ++ [semi_w]).
  split; [cbn; rewrite <- !app_assoc; cbn; rewrite <- !app_assoc; reflexivity|].
  cbn [decl_elem e_seg]. unfold map_seg. cbn [s_ctx s_type s_name s_eq s_end s_outer must]. apply conj6.
  - apply H_start_pre; auto with fmt; apply (idt_coms _ Tk).
  - eapply H_seq; [apply H_id; [now left|exact Tk]|]. change (wtext o :: ?x) with ([] ++ wtext o :: x).
    eapply H_seq; [apply (H_start_post false AId [kw] _ aid_apart), (idt_coms _ Tk)|]. eapply H_post; [exact (map_rest o k cm v c Ro Ok Rc Ov Rcl)|reflexivity].
  - eapply H_post; [apply HI_idS; [now left|exact Tn]|reflexivity].
  - eapply H_seq; [exact (HI_rune false Z "=" e z_apart eq_refl Re)|]. apply H_spaced; [auto with fmt|]. apply (h1 false Sp). now right.
  - eapply H_seq; [apply (h2 Z); now left|exact (semi_tail Any sm any_apart Rs)].
  - exact (map_semi tsm Z z_apart Rt).
Qed.
Lemma enum_value_write n e v os sm : decl_ok (DEnumValue n e v os sm) ->
  exists ws, sp_decl (DEnumValue n e v os sm) ws /\ H false (write_decl dec (DEnumValue n e v os sm)) Z ws Z.
Proof.
  intros (Tn & Re & Ov & Oc & Rs).
  destruct (value_inline v Ov) as (w1 & S1 & h1). destruct (copts_opt os Oc) as (w2 & S2 & _ & h2).
  eexists. split; [eapply sp_enum_value; [exact S1|exact S2|left; reflexivity]|]. cbn [write_decl].
  eapply H_eq; [eapply H_seq; [apply H_kw; [now left|exact Tn]|]|].
  - apply H_spaced; [auto with fmt|]. eapply H_seq; [exact (HI_rune false Sp "=" e sp_apart eq_refl Re)|].
    apply H_spaced; [auto with fmt|]. eapply H_seq; [apply (h1 false Sp); now right|].
    eapply H_seq; [apply (h2 Any any_apart)|exact (with_semi_tail Any sm any_apart Rs)].
  - reflexivity.
Qed.
Lemma enum_value_col n e v os sm w : decl_ok (DEnumValue n e v os sm) ->
  exists ws, sp_decl (DEnumValue n e v os sm) ws /\ forall lastx, elem_ok false lastx (decl_elem dec w (DEnumValue n e v os sm)) ws.
Proof.
  intros (Tn & Re & Ov & Oc & Rs).
  destruct (value_inline v Ov) as (w1 & S1 & h1). destruct (copts_opt os Oc) as (w2 & S2 & h2 & _).
  eexists. split; [eapply sp_enum_value; [exact S1|exact S2|left; reflexivity]|]. intro lastx. right. split; [discriminate|]. split; [reflexivity|].
  exists [], [wtext n], ([wtext e] ++ w1), (w2 ++ [semi_w]). split; [reflexivity|].
  cbn [decl_elem e_seg]. unfold enum_value_seg. cbn [s_ctx s_type s_name s_eq s_end s_outer must]. apply conj6.
  - apply H_start_pre; auto with fmt; apply (idt_coms _ Tn).
  - eapply H_post; [apply H_skip|reflexivity].
  - change [wtext n] with ([wtext n] ++ []). eapply H_seq; [apply H_id; [now left|exact Tn]|]. eapply H_post; [apply (H_start_post false AId [n] _ aid_apart), (idt_coms _ Tn)|reflexivity].
  - eapply H_seq; [exact (HI_rune false Z "=" e z_apart eq_refl Re)|]. apply H_spaced; [auto with fmt|]. apply (h1 false Sp). now right.
  - eapply H_seq; [apply (h2 Z); now left|exact (with_semi_tail Any sm any_apart Rs)].
  - apply H_skip.
Qed.
Lemma relem_write e : relem_ok e -> exists ws, sp_relem e ws /\ forall k, apart_cls k -> H false (write_relem dec e) k ws Any.
Proof.
  destruct e as [t|v|s to en mx]; intro O.
  - exists [wtext t]. split; [reflexivity|]. intros k A. eapply H_post; [exact (HI_rune false k "," t A eq_refl O)|reflexivity].
  - destruct (value_inline v O) as (w & S & h). exists w. split; [exact S|]. intros k A. cbn [write_relem]. apply H_spaced; [exact A|]. apply (h false Sp). now right.
  - destruct O as (Os & Ot & Oe). destruct (value_inline s Os) as (w & S & h).
    assert (G : exists we, sp_oval en we /\ H false (match en, mx with Some v, _ => space ;; inline_v dec v | None, Some t => space ;; inline_tok t | None, None => skip end) Any (we ++ ows mx) Any).
    { destruct en as [v|].
      - destruct Oe as [Ov ->]. destruct (value_inline v Ov) as (we & Se & he). exists we. split; [exact Se|]. rewrite app_nil_r. apply H_spaced; [auto with fmt|]. apply (he false Sp). now right.
      - exists []. split; [reflexivity|]. destruct mx as [t|]; [|apply H_skip]. apply H_spaced; [auto with fmt|]. eapply H_post; [apply HI_idS; [now right|exact Oe]|reflexivity]. }
    destruct G as (we & Se & he). exists (w ++ ows to ++ we ++ ows mx). split; [exists w, we; auto|]. intros k A. cbn [write_relem].
    apply H_spaced; [exact A|]. apply H_inline_node. eapply H_seq; [apply (h false Sp); now right|]. eapply H_seq; [|exact he].
    destruct to as [t|]; [|apply H_skip]. apply H_spaced; [auto with fmt|]. eapply H_post; [apply HI_idS; [now right|exact Ot]|reflexivity].
Qed.
Lemma relems_write : forall es, Forall relem_ok es -> exists ws, sp_list sp_relem es ws /\ H false (seqs (map (write_relem dec) es)) Any ws Any.
Proof.
  induction es as [|e r IH]; intro O; [exists []; split; [constructor|apply H_skip]|]. inversion O as [|x y Oe Or]; subst. destruct (relem_write e Oe) as (w & S & h). destruct (IH Or) as (ws & Sr & hr).
  exists (w ++ ws). split; [constructor; assumption|]. cbn [map seqs fold_right]. eapply H_seq; [apply (h Any any_apart)|exact hr].
Qed.
Lemma rpctype_write r k : rpctype_ok r -> apart_cls k -> H false (write_rpctype r) k (rpctype_ws r) Z.
Proof.
  intros (Ro & Rc & Oi & Ot) A. unfold write_rpctype, rpctype_ws, rpctype_toks. apply H_inline_node. cbn [map]; rewrite !map_app.
  eapply H_eq; [eapply H_seq; [exact (HI_rune false k "(" _ A eq_refl Ro)|]; eapply H_seq with (q := Sp) (w1 := ows (rt_stream r)); [|eapply H_seq; [apply HI_ident; [exact Oi|right; now left]|exact (HI_rune false AId ")" _ aid_apart eq_refl Rc)]]|].
  - destruct (rt_stream r) as [t|]; [|eapply H_post; [apply H_skip|reflexivity]]. cbn [opt_w]. change (ows (Some t)) with ([wtext t] ++ []).
    eapply H_seq; [apply HI_idS; [now left|exact Ot]|]. eapply H_pre; [apply H_space|reflexivity].
  - reflexivity.
Qed.
Section DeclInd.
Variable P : decl -> Prop.
Hypothesis Hfield : forall l ty n e tg os sm, P (DField l ty n e tg os sm).
Hypothesis Hmap : forall kw o k cm v c tsm n e tg os sm, P (DMap kw o k cm v c tsm n e tg os sm).
Hypothesis Hval : forall n e v os sm, P (DEnumValue n e v os sm).
Hypothesis Hopt : forall o, P (DOption o).
Hypothesis Hres : forall kw es sm, P (DReserved kw es sm).
Hypothesis Hext : forall kw es os sm, P (DExtensions kw es os sm).
Hypothesis Hmsg : forall kw n o b c sm, Forall P b -> P (DMessage kw n o b c sm).
Hypothesis Henum : forall kw n o b c sm, Forall P b -> P (DEnum kw n o b c sm).
Hypothesis Honeof : forall kw n o b c sm, Forall P b -> P (DOneof kw n o b c sm).
Hypothesis Hextend : forall kw x o b c sm, Forall P b -> P (DExtend kw x o b c sm).
Hypothesis Hgroup : forall l kw n e tg os o b c sm, Forall P b -> P (DGroup l kw n e tg os o b c sm).
Hypothesis Hsvc : forall kw n o b c sm, Forall P b -> P (DService kw n o b c sm).
Hypothesis Hrpc : forall kw n i rt u br b sm, Forall P b -> P (DRpc kw n i rt u br b sm).
Hypothesis Hempty : forall t, P (DEmpty t).
Fixpoint decl_ind2 (d : decl) : P d :=
  let all := fix all (l : list decl) : Forall P l := match l with [] => Forall_nil P | d :: r => Forall_cons d (decl_ind2 d) (all r) end in
  match d with
  | DField l ty n e tg os sm => Hfield l ty n e tg os sm
  | DMap kw o k cm v c tsm n e tg os sm => Hmap kw o k cm v c tsm n e tg os sm
  | DEnumValue n e v os sm => Hval n e v os sm
  | DOption o => Hopt o
  | DReserved kw es sm => Hres kw es sm
  | DExtensions kw es os sm => Hext kw es os sm
  | DMessage kw n o b c sm => Hmsg kw n o b c sm (all b)
  | DEnum kw n o b c sm => Henum kw n o b c sm (all b)
  | DOneof kw n o b c sm => Honeof kw n o b c sm (all b)
  | DExtend kw x o b c sm => Hextend kw x o b c sm (all b)
  | DGroup l kw n e tg os o b c sm => Hgroup l kw n e tg os o b c sm (all b)
  | DService kw n o b c sm => Hsvc kw n o b c sm (all b)
  | DRpc kw n i rt u br b sm => Hrpc kw n i rt u br b sm (all b)
  | DEmpty t => Hempty t
  end.
End DeclInd.
Definition DW (d : decl) : Prop := exists ws, sp_decl d ws /\ H false (write_decl dec d) Z ws Z.
Definition DE (d : decl) : Prop := exists ws, sp_decl d ws /\ forall lastx, elem_ok false lastx (decl_elem dec (write_decl dec d) d) ws.
Definition DP (d : decl) : Prop := decl_ok d -> DW d /\ DE d.
Lemma plain_decl d : e_kind (decl_elem dec (write_decl dec d) d) = ENone -> e_node (decl_elem dec (write_decl dec d) d) = write_decl dec d -> DW d -> DW d /\ DE d.
Proof. intros E1 E2 (ws & S & h). split; [exists ws; auto|]. exists ws. split; [exact S|]. intro lastx. left. split; [exact E1|]. now rewrite E2. Qed.
Lemma decls_columns : forall b, Forall DP b -> Forall decl_ok b -> exists ws, sp_decls b ws /\ elems_ok false 0 (map (fun d => decl_elem dec (write_decl dec d) d) b) ws.
Proof.
  induction b as [|d r IH]; intros F O; [exists []; split; constructor|]. inversion F as [|x y Fd Fr]; inversion O as [|x' y' Od Or]; subst.
  destruct (Fd Od) as (_ & w & S & h). destruct (IH Fr Or) as (ws & Sr & hr). exists (w ++ ws). split; [constructor; assumption|]. cbn [map]. constructor; [apply h|exact hr].
Qed.
Lemma decls_seq : forall b, Forall DP b -> Forall decl_ok b -> exists ws, sp_decls b ws /\ H false (seqs (map (write_decl dec) b)) Z ws Z.
Proof.
  induction b as [|d r IH]; intros F O; [exists []; split; [constructor|apply H_skip]|]. inversion F as [|x y Fd Fr]; inversion O as [|x' y' Od Or]; subst.
  destruct (Fd Od) as ((w & S & h) & _). destruct (IH Fr Or) as (ws & Sr & hr). exists (w ++ ws). split; [constructor; assumption|]. cbn [map seqs fold_right]. eapply H_seq; [exact h|exact hr].
Qed.
Lemma body_write o c sm elems ws k : runet "{" o -> runet "}" c -> semi_ok sm -> apart_cls k ->
  match elems with Some m => H false m Z ws Z | None => ws = [] end -> H false (type_body o c sm elems) k (wtext o :: ws ++ [wtext c]) Z.
Proof.
  intros Ro Rc Rs A He. unfold type_body. apply (H_body false k Z Z Z o c sm elems ws open_prefix body_end "{" "}"); auto with fmt; try exact (orune_coms _ _ Rs).
  - exact (H_open_prefix false o k _ Z (H_rune false k "{" o A eq_refl Ro) (rune_coms _ _ Ro) A z_apart).
  - intros b kx Kx. exact (H_body_end false c sm b kx _ Z (H_rune false kx "}" c Kx eq_refl Rc) (rune_coms _ _ Rc) (orune_coms _ _ Rs) Kx z_apart).
Qed.
Lemma columns_body b : Forall DP b -> Forall decl_ok b -> exists ws, sp_decls b ws /\
  match some_if b (columns dec (map (fun d => decl_elem dec (write_decl dec d) d) b)) with Some m => H false m Z ws Z | None => ws = [] end.
Proof.
  intros F O. destruct (decls_columns b F O) as (ws & S & h). destruct b as [|d r]; [exists []; split; [constructor|reflexivity]|].
  exists ws. split; [exact S|]. cbn [some_if]. exact (H_columns false _ _ h).
Qed.
Lemma seq_body b : Forall DP b -> Forall decl_ok b -> exists ws, sp_decls b ws /\
  match some_if b (seqs (map (write_decl dec) b)) with Some m => H false m Z ws Z | None => ws = [] end.
Proof.
  intros F O. destruct (decls_seq b F O) as (ws & S & h). destruct b as [|d r]; [exists []; split; [constructor|reflexivity]|].
  exists ws. split; [exact S|]. exact h.
Qed.
Lemma H_named kw n o c sm elems w : idt kw -> idt n -> runet "{" o -> runet "}" c -> semi_ok sm ->
  match elems with Some m => H false m Z w Z | None => w = [] end ->
  H false (start_tok false kw ;; space ;; inline_tok n ;; space ;; type_body o c sm elems) Z (wtext kw :: wtext n :: wtext o :: w ++ [wtext c]) Z.
Proof.
  intros Tk Tn Ro Rc Rs He. eapply H_eq; [eapply H_seq; [apply H_kw; [now left|exact Tk]|]; apply H_spaced; [auto with fmt|]; eapply H_seq; [apply HI_idS; [now right|exact Tn]|];
    apply H_spaced; [auto with fmt|]; exact (body_write o c sm elems w Sp Ro Rc Rs sp_apart He)|reflexivity].
Qed.
Lemma decl_all : forall d, DP d.
Proof.
  apply decl_ind2; unfold DP.
  - intros. split; [now apply field_write|now apply field_col].
  - intros. split; [now apply map_write|now apply map_col].
  - intros. split; [now apply enum_value_write|now apply enum_value_col].
  - intros o O. split; [destruct (write_option_ok o O) as (ws & S & h)|destruct (kw_option_elem skip o O) as (ws & S & h)]; exists ws; (split; [now constructor|exact h]).
  - intros kw es sm (Tk & Oe & Rs). apply plain_decl; [reflexivity|reflexivity|]. destruct (relems_write es Oe) as (w & S & h).
    eexists. split; [apply sp_reserved; exact S|]. cbn [write_decl]. eapply H_eq; [eapply H_seq; [apply H_kw; [now left|exact Tk]|]; eapply H_seq; [eapply H_pre; [exact h|reflexivity]|exact (semi_tail Any sm any_apart Rs)]|reflexivity].
  - intros kw es os sm (Tk & Oe & Oc & Rs). apply plain_decl; [reflexivity|reflexivity|]. destruct (relems_write es Oe) as (w & S & h). destruct (copts_opt os Oc) as (w2 & S2 & _ & h2).
    eexists. split; [apply sp_extensions; [exact S|exact S2]|]. cbn [write_decl]. eapply H_eq; [eapply H_seq; [apply H_kw; [now left|exact Tk]|]; apply H_spaced; [auto with fmt|];
      eapply H_seq; [eapply H_pre; [exact h|reflexivity]|]; eapply H_seq; [apply (h2 Any any_apart)|exact (semi_tail Any sm any_apart Rs)]|reflexivity].
  - intros kw n o b c sm F (Tk & Tn & Ro & Rc & Rs & Ob). apply all_forall in Ob. apply plain_decl; [reflexivity|reflexivity|]. destruct (columns_body b F Ob) as (w & S & h).
    exists (wtext kw :: wtext n :: wtext o :: w ++ [wtext c]). split; [apply sp_message; [exact S|now left]|]. cbn [write_decl]. now apply H_named.
  - intros kw n o b c sm F (Tk & Tn & Ro & Rc & Rs & Ob). apply all_forall in Ob. apply plain_decl; [reflexivity|reflexivity|]. destruct (columns_body b F Ob) as (w & S & h).
    exists (wtext kw :: wtext n :: wtext o :: w ++ [wtext c]). split; [apply sp_enum; [exact S|now left]|]. cbn [write_decl]. now apply H_named.
  - intros kw n o b c sm F (Tk & Tn & Ro & Rc & Rs & Ob). apply all_forall in Ob. apply plain_decl; [reflexivity|reflexivity|]. destruct (columns_body b F Ob) as (w & S & h).
    exists (wtext kw :: wtext n :: wtext o :: w ++ [wtext c]). split; [apply sp_oneof; [exact S|now left]|]. cbn [write_decl]. now apply H_named.
  - intros kw x o b c sm F (Tk & Ox & Ro & Rc & Rs & Ob). apply all_forall in Ob. apply plain_decl; [reflexivity|reflexivity|]. destruct (columns_body b F Ob) as (w & S & h).
    exists (wtext kw :: map wtext (opt_toks ident_toks x) ++ wtext o :: w ++ [wtext c]). split; [apply sp_extend; [exact S|now left]|]. cbn [write_decl].
    eapply H_eq; [eapply H_seq; [apply H_kw; [now left|exact Tk]|]; eapply H_seq with (q := AId) (w1 := map wtext (opt_toks ident_toks x));
      [|apply H_spaced; [auto with fmt|]; exact (body_write o c sm _ w Sp Ro Rc Rs sp_apart h)]|reflexivity].
    destruct x as [i|]; [|apply H_skip]. cbn [opt_w opt_toks]. apply H_spaced; [auto with fmt|]. apply HI_ident; [exact Ox|right; now left].
  - intros l kw n e tg os o b c sm F (L & Tk & Tn & Re & Ov & Oc & Ro & Rc & Rs & Ob). apply all_forall in Ob. apply plain_decl; [reflexivity|reflexivity|].
    destruct (seq_body b F Ob) as (w & S & h). destruct (value_inline tg Ov) as (w1 & S1 & h1). destruct (copts_opt os Oc) as (w2 & S2 & _ & h2).
    exists (ows l ++ wtext kw :: wtext n :: wtext e :: w1 ++ w2 ++ wtext o :: w ++ [wtext c]). split; [apply sp_group; [exact S1|exact S2|exact S|now left]|]. cbn [write_decl].
    eapply H_eq; [eapply H_seq with (q := AId) (w1 := ows l ++ [wtext kw]); [|apply H_spaced; [auto with fmt|]; eapply H_seq; [apply HI_idS; [now right|exact Tn]|];
      apply H_spaced; [auto with fmt|]; eapply H_seq; [exact (HI_rune false Sp "=" e sp_apart eq_refl Re)|]; apply H_spaced; [auto with fmt|]; eapply H_seq; [apply (h1 false Sp); now right|];
      eapply H_seq; [apply (h2 Any any_apart)|]; apply H_spaced; [auto with fmt|]; exact (body_write o c sm _ w Sp Ro Rc Rs sp_apart h)]|].
    + destruct l as [t|]; [|apply H_kw; [now left|exact Tk]]. eapply H_seq; [apply H_kw; [now left|exact L]|]. apply H_spaced; [auto with fmt|]. apply HI_idS; [now right|exact Tk].
    + rewrite <- !app_assoc. reflexivity.
  - intros kw n o b c sm F (Tk & Tn & Ro & Rc & Rs & Ob). apply all_forall in Ob. apply plain_decl; [reflexivity|reflexivity|]. destruct (seq_body b F Ob) as (w & S & h).
    exists (wtext kw :: wtext n :: wtext o :: w ++ [wtext c]). split; [apply sp_service; [exact S|now left]|]. cbn [write_decl]. now apply H_named.
  - intros kw n i rt u br b sm F (Tk & Tn & Oi & Tr & Ou & Rs & Ob & Hb). apply all_forall in Ob. apply plain_decl; [reflexivity|reflexivity|].
    destruct (decls_seq b F Ob) as (w & S & h).
    assert (G : exists wb, (wb = [semi_w] /\ b = [] \/ exists o c e, (e = [] \/ e = [semi_w]) /\ br = Some (o, c) /\ wb = wtext o :: w ++ wtext c :: e) /\
      H false (match b with [] => line_end (fill ";") | _ => space ;; match br with Some (o, c) => type_body o c sm (Some (seqs (map (write_decl dec) b))) | None => seqs (map (write_decl dec) b) end end) Z wb Z).
    { destruct b as [|d r].
      - exists [semi_w]. split; [left; auto|]. exact (H_line_rune false Z ";" (fill ";") z_apart eq_refl (fill_rune ";"%char ";" (or_introl eq_refl))).
      - destruct br as [[o c]|]; [|discriminate]. destruct Hb as [Ro Rc]. exists (wtext o :: w ++ [wtext c]). split; [right; exists o, c, []; auto|].
        apply H_spaced; [auto with fmt|]. exact (body_write o c sm (Some _) w Sp Ro Rc Rs sp_apart h). }
    destruct G as (wb & Hwb & hb). eexists. split; [eapply sp_rpc; [exact S|exact Hwb]|]. cbn [write_decl].
    eapply H_eq; [eapply H_seq; [apply H_kw; [now left|exact Tk]|]; apply H_spaced; [auto with fmt|]; eapply H_seq; [apply HI_idS; [now right|exact Tn]|];
      eapply H_seq; [exact (rpctype_write i AId Oi aid_apart)|]; apply H_spaced; [auto with fmt|]; eapply H_seq; [apply HI_idS; [now right|exact Tr]|];
      apply H_spaced; [auto with fmt|]; eapply H_seq; [exact (rpctype_write u Sp Ou sp_apart)|exact hb]|reflexivity].
  - intros t R. apply plain_decl; [reflexivity|reflexivity|]. exists []. split; [constructor; now left|apply H_skip].
Qed.

(* ---- files ---- *)
Lemma H_sep_line ts : H false (sep_line ts) Z [] Z.
Proof. intros f E I. unfold sep_line. apply (H_when0 false _ p_blank Z (H_p_blank false Z ltac:(discriminate)) f E I). Qed.
Lemma import_write force i : import_ok i -> exists ws, sp_import i ws /\ H false (write_import dec force i) Z ws Z.
Proof.
  intros (Tk & Om & Ov & Rs). destruct (value_inline _ Ov) as (w & S & h). exists (wtext (i_kw i) :: ows (i_mod i) ++ w ++ [semi_w]). split; [exists w; auto|].
  unfold write_import. eapply H_eq; [eapply H_seq; [apply (H_start_tok false force (i_kw i) Z _ AId); [apply H_id; [now left|exact Tk]|apply (idt_coms _ Tk)|auto with fmt|auto with fmt]|]; apply H_spaced; [auto with fmt|];
    eapply H_seq with (q := Sp) (w1 := ows (i_mod i)); [|eapply H_seq; [apply (h false Sp); now right|exact (semi_tail Any _ any_apart Rs)]]|reflexivity].
  destruct (i_mod i) as [t|]; [|apply H_skip]. cbn [opt_w]. change (ows (Some t)) with ([wtext t] ++ []). eapply H_seq; [apply HI_idS; [now right|exact Om]|]. eapply H_pre; [apply H_space|reflexivity].
Qed.
Lemma imports_write : forall l previous, Forall import_ok l -> exists l' ws, deduped previous l l' /\ sp_list sp_import l' ws /\ H false (write_imports dec previous l) Z ws Z.
Proof.
  induction l as [|i r IH]; intros previous O; [exists [], []; split; [constructor|split; [constructor|apply H_skip]]|].
  inversion O as [|x y Oi Or]; subst. destruct (IH (Some (i_path i)) Or) as (l' & ws & D & S & h). cbn [write_imports].
  destruct previous as [p|].
  - destruct (negb (beq (i_path i) p && negb (import_commented i))) eqn:E.
    + destruct (import_write true i Oi) as (w & Si & hi). exists (i :: l'), (w ++ ws). split; [now constructor|]. split; [now constructor|]. eapply H_seq; [exact hi|exact h].
    + assert (i_path i = p). { apply negb_false_iff, andb_true_iff in E. destruct E as [E _]. now apply beq_eq in E. }
      subst p. exists l', ws. split; [now constructor|]. split; [exact S|]. change ws with ([] ++ ws). eapply H_seq; [apply H_skip|exact h].
  - destruct (import_write false i Oi) as (w & Si & hi). exists (i :: l'), (w ++ ws). split; [now constructor|]. split; [now constructor|].
    eapply H_eq; [eapply H_seq; [eapply H_seq; [apply H_sep_line|exact hi]|exact h]|reflexivity].
Qed.
Lemma options_columns w : forall os, Forall keyword_option_ok os -> exists ws, sp_list sp_option os ws /\ elems_ok false 0 (map (opt_elem dec false w) os) ws.
Proof.
  induction os as [|o r IH]; intro O; [exists []; split; constructor|]. inversion O as [|x y Oo Or]; subst. destruct (kw_option_elem w o Oo) as (wo & S & h). destruct (IH Or) as (ws & Sr & hr).
  exists (wo ++ ws). split; [now constructor|]. cbn [map]. constructor; [apply h|exact hr].
Qed.
Lemma types_write : forall ds, Forall fdecl_ok ds -> exists ws, sp_decls (types ds) ws /\ H false (seqs (map (write_type dec) ds)) Z ws Z.
Proof.
  induction ds as [|d r IH]; intro O; [exists []; split; [constructor|apply H_skip]|]. inversion O as [|x y Od Or]; subst. destruct (IH Or) as (ws & S & h).
  assert (G : (types [d] = [] /\ H false (write_type dec d) Z [] Z) \/ exists d', d = FDecl d' /\ exists w, sp_decl d' w /\ H false (write_type dec d) Z w Z).
  { destruct d as [kw n sm|i|o|d']; try (left; split; [reflexivity|apply H_skip]). right. exists d'. split; [reflexivity|]. destruct Od as [Od No].
    destruct (decl_all d' Od) as ((w & Sw & hw) & _). exists w. split; [exact Sw|].
    assert (G : H false (sep_line (decl_toks d') ;; write_decl dec d') Z w Z) by (change w with ([] ++ w); eapply H_seq; [apply H_sep_line|exact hw]).
    destruct d'; try exact G; [destruct No|]. cbn [write_type]. cbn [write_decl] in hw. exact hw. }
  cbn [map seqs fold_right]. destruct G as [[E hd]|(d' & -> & w & Sw & hw)].
  - exists ws. split; [change (d :: r) with ([d] ++ r); unfold types in *; rewrite flat_map_app, E; exact S|]. change ws with ([] ++ ws). eapply H_seq; [exact hd|exact h].
  - exists (w ++ ws). split; [cbn; now constructor|]. eapply H_seq; [exact hw|exact h].
Qed.
Lemma forall_imports ds : Forall fdecl_ok ds -> Forall import_ok (imports ds).
Proof. induction 1 as [|d r Hd Hr IH]; [constructor|]. destruct d; cbn; try exact IH. constructor; assumption. Qed.
Lemma forall_options ds : Forall fdecl_ok ds -> Forall keyword_option_ok (options ds).
Proof. induction 1 as [|d r Hd Hr IH]; [constructor|]. destruct d; cbn; try exact IH. constructor; assumption. Qed.
Lemma syntax_write s : match s with Some (k, e, v, sm) => idt k /\ runet "=" e /\ value_ok v /\ some_rune ";" sm | None => True end ->
  exists ws, sp_syntax s ws /\ H false (opt_w (write_syntax dec) s) Z ws Z.
Proof.
  destruct s as [[[[k e] v] sm]|]; intro O; [|exists []; split; [reflexivity|apply H_skip]]. destruct O as (Tk & Re & Ov & Rs). destruct (value_inline v Ov) as (w & S & h).
  exists (wtext k :: wtext e :: w ++ [semi_w]). split; [exists w; auto|]. cbn [opt_w write_syntax].
  eapply H_eq; [eapply H_seq; [apply H_kw; [now left|exact Tk]|]; apply H_spaced; [auto with fmt|]; eapply H_seq; [exact (HI_rune false Sp "=" e sp_apart eq_refl Re)|]; apply H_spaced; [auto with fmt|];
    eapply H_seq; [apply (h false Sp); now right|exact (semi_tail Any _ any_apart Rs)]|reflexivity].
Qed.
Lemma packages_one ds : Forall fdecl_ok ds -> List.length (packages ds) <= 1 ->
  exists ws, sp_list sp_package (packages ds) ws /\ H false (match rev (packages ds) with p :: _ => write_package p | [] => skip end) Z ws Z.
Proof.
  intros O L. assert (Op : Forall fdecl_ok (packages ds)) by (apply incl_Forall with (l1 := ds); [apply incl_filter|exact O]).
  destruct (packages ds) as [|p [|q r]] eqn:E; [exists []; split; [constructor|apply H_skip]| |cbn in L; lia].
  assert (I : In p (packages ds)) by (rewrite E; now left). unfold packages in I. apply filter_In in I. destruct I as [_ I]. inversion Op as [|x y Hp _]; subst.
  destruct p as [kw n sm| | |]; try discriminate. destruct Hp as (Tk & (i & -> & Oi) & Rs).
  exists (wtext kw :: ident_ws i ++ [semi_w]). split; [rewrite <- (app_nil_r (wtext kw :: ident_ws i ++ [semi_w])); apply sp_lcons; [reflexivity|constructor]|]. cbn [rev app write_package opt_w].
  eapply H_eq; [eapply H_seq; [apply H_kw; [now left|exact Tk]|]; apply H_spaced; [auto with fmt|]; eapply H_seq; [apply HI_ident; [exact Oi|right; now left]|exact (semi_tail AId _ aid_apart Rs)]|reflexivity].
Qed.
Variables (isort : list import -> list import) (osort : list opt -> list opt).
Hypothesis isort_perm : forall l, Permutation (isort l) l.
Hypothesis osort_perm : forall l, Permutation (osort l) l.
Lemma file_write f : file_ok f -> exists l wsyn wpkg wimp wopt wty,
  sp_syntax (f_syntax f) wsyn /\ sp_list sp_package (packages (f_decls f)) wpkg /\
  deduped None (isort (imports (f_decls f))) l /\ sp_list sp_import l wimp /\
  sp_list sp_option (osort (options (f_decls f))) wopt /\ sp_decls (types (f_decls f)) wty /\
  H false (write_file dec isort osort f) Z (wsyn ++ wpkg ++ wimp ++ wopt ++ wty) Z.
Proof.
  intros (Os & Od & Lp & Oe). destruct (syntax_write _ Os) as (wsyn & S1 & h1). destruct (packages_one _ Od Lp) as (wpkg & S2 & h2).
  destruct (imports_write (isort (imports (f_decls f))) None) as (l & wimp & D & S3 & h3); [exact (Permutation_Forall (Permutation_sym (isort_perm _)) (forall_imports _ Od))|].
  destruct (options_columns skip (osort (options (f_decls f)))) as (wopt & S4 & h4); [exact (Permutation_Forall (Permutation_sym (osort_perm _)) (forall_options _ Od))|].
  destruct (types_write _ Od) as (wty & S5 & h5). exists l, wsyn, wpkg, wimp, wopt, wty. split; [exact S1|]. split; [exact S2|]. split; [exact D|]. split; [exact S3|]. split; [exact S4|]. split; [exact S5|].
  unfold write_file, write_header. eapply H_eq; [eapply H_seq; [eapply H_seq; [exact h1|]; eapply H_seq; [exact h2|]; eapply H_seq; [exact h3|]|]; [|eapply H_seq; [exact h5|]]|].
  - instantiate (1 := wopt). pose proof (H_columns false _ _ h4) as hc. destruct (osort (options (f_decls f))) as [|o r]; [exact hc|]. change wopt with ([] ++ wopt). eapply H_seq; [apply H_sep_line|exact hc].
  - instantiate (1 := []). eapply H_eq; [eapply H_seq with (q := Z) (w1 := []) (w2 := [])|reflexivity].
    + destruct (f_eof f) as [t|]; [|apply H_skip]. apply (H_multiline false Z false (t_lead t) z_apart Oe).
    + intros g E I. apply (H_when0 false _ p_blank Z (H_p_blank false Z ltac:(discriminate)) g E I).
  - rewrite app_nil_r, <- !app_assoc. reflexivity.
Qed.
End Columns.
