(* Lemmas for C112: what every writer of the formatter shows of the comments it is given. *)
From Coq Require Import Ascii String Permutation.
From Verif Require Import Base Strs.
From Verif.Format Require Import Model Spec Proofs.
From Verif.FormatTree Require Import Model Spec Lexing Proofs CommentSpec.
Import ListNotations.
Open Scope list_scope.

(* ---- a comment as it is written ---- *)
Lemma prefix_app p r : has_prefix (p ++ r) p = true. Proof. apply has_prefix_spec. now exists r. Qed.
Lemma content_block t t' : one_block t -> one_block t' -> visible t = visible t' -> content t = content t'.
Proof. intros (b & -> & _) (b' & -> & _) V. unfold content. rewrite !prefix_app, V. reflexivity. Qed.
Lemma content_line t t' : one_line t -> one_line t' -> visible t = visible t' -> content t = content t'.
Proof. intros (b & -> & _) (b' & -> & _) V. cbv beta delta [content]. rewrite V. reflexivity. Qed.
Lemma written_one_line k t : one_line t -> one_line (written_comment k t).
Proof. intros (b & -> & N). rewrite written_line. exists (trim_right b). split; [reflexivity|]. intro X. exact (N (trim_right_in _ _ X)). Qed.
Lemma safe_line t : one_line_safe t -> one_line t.
Proof. intros (b & -> & N & _). exists b. auto. Qed.
Lemma shown_written c k a b : comment_ok c -> shown (c_text c) (a ++ written_comment k (c_text c) ++ b).
Proof.
  intro O. exists a, (written_comment k (c_text c)), b. split; [reflexivity|]. destruct O as [O|O].
  - pose proof (written_one_block k _ O) as W. split; [now left|]. apply content_block; auto. apply written_visible. now left.
  - apply safe_line in O. pose proof (written_one_line k _ O) as W. split; [now right|]. apply content_line; auto. apply written_visible. now right.
Qed.
Lemma removelast2 {A} (l : list A) a b : removelast (removelast (l ++ [a; b])) = l.
Proof. change [a; b] with ([a] ++ [b]). rewrite app_assoc, removelast_last, removelast_last. reflexivity. Qed.
Lemma shown_inline c a b : comment_ok c -> shown (c_text c) (a ++ inline_comment (c_text c) ++ b).
Proof.
  intro O. exists a, (inline_comment (c_text c)), b. split; [reflexivity|]. destruct O as [O|(body & E & N & A)].
  - pose proof (inline_block_one_block _ O) as W. split; [now left|]. apply content_block; auto. apply inline_block_visible. destruct O as (x & -> & _). apply inline_not_line.
  - split; [left; rewrite E; apply inline_line_one_block; assumption|]. rewrite E, (inline_line_text _ N). unfold content.
    replace (has_prefix (b_ "/* " ++ trim body ++ b_ " */") (b_ "/*")) with true by (symmetry; apply has_prefix_spec; eexists; reflexivity).
    replace (has_prefix (b_ "//" ++ body) (b_ "/*")) with false by reflexivity.
    rewrite !visible_app, visible_trim. change (visible (b_ "/* ")) with (b_ "/*"). change (visible (b_ " */")) with [star; slash]. change (visible (b_ "//")) with (b_ "//").
    change (skipn 2 (b_ "/*" ++ visible body ++ [star; slash])) with (visible body ++ [star; slash]). rewrite removelast2. reflexivity.
Qed.
Lemma shown_app_l t a s : shown t s -> shown t (a ++ s).
Proof. intros (x & w & y & -> & H). exists (a ++ x), w, y. split; [now rewrite <- app_assoc|exact H]. Qed.
Lemma shown_app_r t s b : shown t s -> shown t (s ++ b).
Proof. intros (x & w & y & -> & H). exists x, w, (y ++ b). split; [now rewrite <- !app_assoc|exact H]. Qed.
Lemma shown_space t s : shown t (sp :: s) -> shown t s.
Proof.
  intros (x & w & y & E & O & C). destruct x as [|c x].
  - exfalso. destruct O as [(b & -> & _)|(b & -> & _)]; discriminate.
  - cbn in E. injection E as _ ->. exists x, w, y. auto.
Qed.

(* ---- what a writer shows ---- *)
Section Lost.
Variable L : comment -> Prop.     (* the comments that may be lost *)
Definition seen (cs : list comment) (x : bytes) : Prop :=
  forall c, In c cs -> comment_ok c -> c_virtual c = true \/ L c \/ shown (c_text c) x.
Definition K (ic : bool) (m : M) (cs : list comment) : Prop :=
  forall f, incompact f = ic -> incompact (m f) = ic /\ exists x, out (m f) = out f ++ x /\ seen cs x.

Lemma seen_nil x : seen [] x. Proof. intros c []. Qed.
Lemma seen_app c1 c2 x y : seen c1 x -> seen c2 y -> seen (c1 ++ c2) (x ++ y).
Proof.
  intros A B c I O. apply in_app_iff in I as [I|I].
  - destruct (A c I O) as [V|[V|V]]; auto. right. right. now apply shown_app_r.
  - destruct (B c I O) as [V|[V|V]]; auto. right. right. now apply shown_app_l.
Qed.
Lemma K_seq ic a b c1 c2 : K ic a c1 -> K ic b c2 -> K ic (a ;; b) (c1 ++ c2).
Proof.
  intros A B f E. unfold seq. destruct (A f E) as (E1 & x & O1 & S1). destruct (B (a f) E1) as (E2 & y & O2 & S2). split; [exact E2|].
  exists (x ++ y). split; [rewrite O2, O1, app_assoc; reflexivity|]. now apply seen_app.
Qed.
Lemma K_sub ic m cs cs' : K ic m cs' -> (forall c, In c cs -> In c cs' \/ L c) -> K ic m cs.
Proof.
  intros A I f E. destruct (A f E) as (E1 & x & O & S). split; [exact E1|]. exists x. split; [exact O|]. intros c J C. destruct (I c J) as [X|X]; [exact (S c X C)|auto].
Qed.
Lemma K_none ic m cs : K ic m cs -> K ic m [].
Proof. intro A. apply (K_sub _ _ _ _ A). intros c []. Qed.
Lemma K_state ic m : (forall f, out (m f) = out f /\ incompact (m f) = incompact f) -> K ic m [].
Proof. intros A f E. destruct (A f) as [A1 A2]. split; [congruence|]. exists []. split; [now rewrite app_nil_r|apply seen_nil]. Qed.
Lemma K_skip ic : K ic skip []. Proof. apply K_state. auto. Qed.
Lemma K_space ic : K ic space []. Proof. apply K_state. auto. Qed.
Lemma K_inl ic b : K ic (set_inl b) []. Proof. apply K_state. auto. Qed.
Lemma K_prev ic b : K ic (set_prev b) []. Proof. apply K_state. auto. Qed.
Lemma K_crash ic : K ic set_crash []. Proof. apply K_state. auto. Qed.
Lemma K_in ic : K ic shift_in []. Proof. apply K_state. auto. Qed.
Lemma K_out ic : K ic shift_out []. Proof. apply K_state. intro f. unfold shift_out. destruct (indent f); auto. Qed.
Lemma K_settle ic : K ic settle [].
Proof. apply K_state. intro f. unfold settle. destruct (0 <? pindent f)%Z; [auto|]. destruct (pindent f <? 0)%Z; [|auto]. unfold shift_out. destruct (indent f); auto. Qed.
Lemma K_write ic s : K ic (write_string s) [].
Proof. intros f E. split; [exact E|]. eexists. split; [reflexivity|apply seen_nil]. Qed.
Lemma K_when ic b m cs : K ic m cs -> K ic (when b m) [].
Proof. intro A. destruct b; [exact (K_none _ _ _ A)|apply K_skip]. Qed.
Lemma K_fun ic (m : fmt -> M) cs : (forall g, K ic (m g) cs) -> K ic (fun f => m f f) cs.
Proof. intros A f E. exact (A f f E). Qed.
Lemma K_indent ic b : K ic (write_indent b) [].
Proof. intros f E. unfold write_indent. destruct (Ascii.eqb (lastw f) nl); [apply K_write; exact E|]. apply (K_skip ic f E). Qed.
Lemma K_p_line ic s : K ic (p_line s) [].
Proof.
  unfold p_line. change (@nil comment) with (@nil comment ++ [] ++ []). apply K_seq; [|apply K_seq; [apply K_write|apply K_settle]].
  eapply K_when. apply K_seq; [apply K_indent|apply K_write].
Qed.
Lemma K_p_blank ic : K ic p_blank []. Proof. apply K_p_line. Qed.
Lemma K_block ic : forall ls, K ic (comment_block ls) [].
Proof.
  induction ls as [|l [|l2 r] IH]; [apply K_skip| |].
  - apply (K_seq ic _ _ [] []); [apply K_indent|apply K_write].
  - apply (K_seq ic _ _ [] []); [apply K_p_line|exact IH].
Qed.
Lemma write_out s f : exists g, out (write_string s f) = out f ++ g ++ s.
Proof. eexists. reflexivity. Qed.
Lemma indent_out b f : exists g, out (write_indent b f) = out f ++ g.
Proof. destruct (K_indent (incompact f) b f eq_refl) as (_ & x & O & _). eauto. Qed.
Lemma comment_out c f : comment_ok c -> exists g k, out (write_comment (c_text c) f) = out f ++ g ++ written_comment k (c_text c).
Proof.
  intro Oc. assert (One : forall l, comment_lines (c_text c) = [l] -> exists g k, out (write_comment (c_text c) f) = out f ++ g ++ written_comment k (c_text c)).
  { intros l E. unfold write_comment, written_comment. rewrite E. cbn [comment_block map join_with]. unfold seq.
    destruct (write_out l (write_indent false f)) as (g & ->). destruct (indent_out false f) as (g' & ->). exists (g' ++ g), 0. now rewrite <- !app_assoc. }
  destruct Oc as [(b & E & A)|O].
  - rewrite E in *. destruct (existsb (Ascii.eqb nl) b) eqn:En.
    + destruct (split_on nl b) as [|b1 bs] eqn:Es; [destruct (split_on_nonempty nl b Es)|].
      pose proof (comment_lines_form _ _ _ Es En) as Lf.
      assert (Nb : bs <> []).
      { intros ->. rewrite <- (join_split nl b), Es in En. cbn in En.
        apply existsb_exists in En as (d & X & Ec). apply Ascii.eqb_eq in Ec. subst d.
        apply (split_on_sep_free nl b b1); [rewrite Es; now left|exact X]. }
      assert (T0 : trim (b_ "/*" ++ trim_right b1) <> []) by (rewrite trim_open; discriminate).
      assert (T1 : trim (last (map (comment_line (cprefix bs) (cmin bs) false) bs) []) <> []).
      { rewrite (last_map _ _ []) by exact Nb. rewrite trim_comment_line. intro X. apply trim_nil in X.
        destruct (after_end_last _ A) as (x & Eb). rewrite <- (join_split nl b), Es in Eb.
        assert (S : is_space slash = true); [|discriminate]. refine (join_last_space (b1 :: bs) _ _ x slash Eb); [discriminate|].
        destruct bs; [congruence|exact X]. }
      destruct (block_lines_out _ f _ _ Lf) as (n & Eo & _); auto.
      { intro X. apply Nb. destruct bs; [reflexivity|discriminate]. }
      rewrite Eo. destruct (write_out (written_comment n (b_ "/*" ++ b)) (write_indent false f)) as (g & ->). destruct (indent_out false f) as (g' & ->).
      exists (g' ++ g), n. now rewrite <- !app_assoc.
    + apply (One (trim (b_ "/*" ++ b))). unfold comment_lines. now rewrite multiline_open, En.
  - apply (One (trim (c_text c))). destruct O as (b & -> & _). unfold comment_lines, is_multiline_block. reflexivity.
Qed.
Lemma K_comment ic c : K ic (write_comment (c_text c)) [c].
Proof.
  intros f E. destruct (K_block ic (comment_lines (c_text c)) f E) as (E1 & x & O & _). split; [exact E1|]. exists x. split; [exact O|].
  intros d [<-|[]] Oc. right. right. destruct (comment_out c f Oc) as (g & k & O').
  change (comment_block (comment_lines (c_text c)) f) with (write_comment (c_text c) f) in O. rewrite O in O'. apply app_inv_head in O'. subst x.
  rewrite <- (app_nil_r (written_comment k (c_text c))). apply shown_written. exact Oc.
Qed.
Lemma K_inline_comment ic c : K ic (write_string (inline_comment (c_text c))) [c].
Proof.
  intros f E. split; [exact E|]. destruct (write_out (inline_comment (c_text c)) f) as (g & O). exists (g ++ inline_comment (c_text c)). split; [exact O|].
  intros d [<-|[]] Oc. right. right. rewrite <- (app_nil_r (inline_comment (c_text c))). apply shown_inline. exact Oc.
Qed.
Lemma K_virtual ic c b : c_virtual c = b -> forall m, K ic m [c] -> K ic (when (negb b) m) [c].
Proof.
  intros V m A. destruct b; [|exact A]. intros f E. split; [exact E|]. exists []. split; [now rewrite app_nil_r|]. intros d [<-|[]] _. auto.
Qed.
Lemma K_inline ic cs : K ic (inline_comments cs) cs.
Proof.
  unfold inline_comments. generalize true. induction cs as [|c r IH]; intro first; [apply K_skip|]. cbn [inline_comments_from].
  apply (K_seq ic _ _ [c] r); [|apply IH]. apply K_virtual; [reflexivity|]. apply (K_seq ic _ _ [] [c]); [|apply K_inline_comment].
  apply K_fun. intro g. eapply K_when. apply K_space.
Qed.
Lemma K_multiline ic force cs : K ic (multiline_comments force cs) cs.
Proof.
  unfold multiline_comments. apply (K_fun ic (fun g => multiline_from (force || prev_open g) cs)). intro g. generalize (force || prev_open g).
  induction cs as [|c r IH]; intro b; [apply K_skip|]. cbn [multiline_from].
  apply (K_seq ic _ _ [] (c :: r)); [eapply K_when; apply K_p_blank|]. apply (K_seq ic _ _ [c] r); [apply K_comment|]. apply (K_seq ic _ _ [] r); [apply K_write|apply IH].
Qed.
Lemma K_trailing ic cs : K ic (trailing_end_comments cs) cs.
Proof.
  unfold trailing_end_comments. rewrite <- (app_nil_r cs) at 2. apply K_seq; [|apply K_p_blank]. generalize true.
  induction cs as [|c r IH]; intro b; [apply K_skip|]. cbn [trailing_from]. apply (K_seq ic _ _ [] (c :: r)).
  - destruct (has_nl (c_ws c)); [apply K_p_blank|]. eapply K_when. apply K_space.
  - apply (K_seq ic _ _ [c] r); [apply K_comment|apply IH].
Qed.

(* ---- membership ---- *)
Lemma comments_app a b : comments (a ++ b) = comments a ++ comments b. Proof. apply flat_map_app. Qed.
Lemma comments_cons t r : comments (t :: r) = tok_comments t ++ comments r. Proof. reflexivity. Qed.
Lemma in_tok c t : In c (tok_comments t) <-> In c (t_lead t) \/ In c (t_trail t). Proof. apply in_app_iff. Qed.
Ltac inn := repeat first [rewrite comments_app | rewrite comments_cons | rewrite in_app_iff | progress change (comments []) with (@nil comment) | progress cbn [In otoks opt_toks app lead_of]].
Ltac innh H := repeat first [rewrite comments_app in H | rewrite comments_cons in H | rewrite in_app_iff in H | progress change (comments []) with (@nil comment) in H | progress cbn [In otoks opt_toks app lead_of] in H].
(* the goal is forall c, In c cs -> In c cs' \/ L c *)
Ltac lost c := repeat match goal with X : forall c, In c _ -> L c |- _ => let Y := fresh "Y" in pose proof (X c) as Y; clear X; innh Y; rewrite ?in_tok in Y end.
Ltac kin := let c := fresh "c" in let I := fresh "I" in intros c I; lost c; innh I; inn; rewrite ?in_tok in *; tauto.

(* ---- tokens ---- *)
Lemma K_tok ic t : K ic (write_tok t) [].
Proof. intros f E. unfold write_tok. destruct (opens t); [|destruct (closes t)]; (split; [exact E|eexists; split; [reflexivity|apply seen_nil]]). Qed.
Lemma K_nonempty {A} ic (l : list A) m cs : (l = [] -> cs = []) -> K ic m cs -> K ic (when (nonempty l) m) cs.
Proof. intros N A0. destruct l; [rewrite (N eq_refl); apply K_skip|exact A0]. Qed.
Lemma K_lead ic t : K ic (lead_inline t) (t_lead t).
Proof.
  unfold lead_inline. apply K_nonempty; [auto|]. rewrite <- (app_nil_r (t_lead t)) at 2. apply K_seq; [apply K_inline|]. eapply K_when. apply K_space.
Qed.
Lemma K_inline_tok ic t : K ic (inline_tok t) (tok_comments t).
Proof.
  unfold inline_tok. eapply K_sub; [eapply K_seq; [apply K_inl|]; eapply K_seq; [apply K_lead|]; eapply K_seq; [apply K_tok|]; eapply K_seq; [apply K_inline|]; eapply K_seq; [apply K_prev|apply K_inl]|]. kin.
Qed.
Lemma K_inline_node ic m cs : K ic m cs -> K ic (inline_node m) cs.
Proof. intro A. unfold inline_node. eapply K_sub; [eapply K_seq; [apply K_inl|]; eapply K_seq; [exact A|apply K_inl]|]. kin. Qed.
Lemma K_inline_toks ic : forall ts, K ic (seqs (map inline_tok ts)) (comments ts).
Proof. induction ts as [|t ts IH]; [apply K_skip|]. cbn [map seqs]. rewrite comments_cons. apply K_seq; [apply K_inline_tok|exact IH]. Qed.
Lemma K_start_pre ic force ts b : K ic (start_pre force ts b) (lead_of ts).
Proof.
  unfold start_pre. eapply (K_sub ic _ _ (lead_of ts ++ [])); [|kin]. apply K_seq; [|apply K_indent]. destruct (lead_of ts) as [|c r]; cbn [nonempty].
  - apply (K_fun ic (fun f => when (negb (force || prev_open f) && (1 <? newlines (ws_of ts))) p_blank)). intro g. eapply K_when. apply K_p_blank.
  - apply (K_sub ic _ _ ((c :: r) ++ [])); [|kin]. apply (K_seq ic (multiline_comments force (c :: r)) (when (negb force && (1 <? newlines (ws_of ts))) p_blank)); [apply K_multiline|eapply K_when; apply K_p_blank].
Qed.
Lemma K_start_post ic ts b : K ic (start_post ts b) (trail_of ts).
Proof. unfold start_post. eapply (K_sub ic _ _ (trail_of ts ++ [])); [|kin]. apply K_seq; [apply K_nonempty; [auto|apply K_inline]|apply K_prev]. Qed.
Lemma K_start_tok ic force t : K ic (start_tok force t) (tok_comments t).
Proof. unfold start_tok. eapply K_sub; [eapply K_seq; [apply K_start_pre|]; eapply K_seq; [apply K_tok|apply K_start_post]|]. cbn [lead_of trail_of rev app]. kin. Qed.
Lemma K_line_end ic t : K ic (line_end t) (tok_comments t).
Proof. unfold line_end. eapply K_sub; [eapply K_seq; [apply K_lead|]; eapply K_seq; [apply K_tok|]; eapply K_seq; [apply K_space|]; eapply K_seq; [apply K_trailing|apply K_prev]|]. kin. Qed.
Lemma K_fresh ic : K ic fresh_line [].
Proof. intros f E. unfold fresh_line. destruct (Ascii.eqb (lastw f) nl); [exact (K_skip ic f E)|exact (K_p_blank ic f E)]. Qed.
Lemma K_lead_end ic (b : bool) t : K ic (if b then lead_inline t else multiline_comments false (t_lead t) ;; write_indent (closes t)) (t_lead t).
Proof. destruct b; [apply K_lead|]. eapply K_sub; [eapply K_seq; [apply K_multiline|apply K_indent]|]. kin. Qed.
Definition close_ok (cl : token) (sm : option token) (w : token -> option token -> bool -> M) : Prop :=
  forall ic b, K ic (w cl sm b) (tok_comments cl ++ comments (otoks sm)).
Lemma semi_trail cl sm : (forall c, In c (semi_lost cl sm) -> L c) ->
  forall ic m1 (m2 : list comment -> M) m3, K ic m1 (t_trail cl) -> (forall cs, K ic (m2 cs) cs) -> K ic m3 [] ->
  K ic (if nonempty (t_trail cl) then m1 else match virtual_trail sm with Some cs => m2 cs | None => m3 end) (t_trail cl ++ comments (otoks sm)).
Proof.
  intros HL ic m1 m2 m3 h1 h2 h3. unfold semi_lost in HL. destruct (t_trail cl) as [|c r] eqn:E; cbn [nonempty] in *.
  - destruct sm as [s|]; cbn [virtual_trail]; [|exact h3]. destruct (t_virtual s); cbn [andb negb] in HL.
    + eapply K_sub; [apply h2|]. kin.
    + eapply K_sub; [exact h3|]. kin.
  - eapply K_sub; [exact h1|]. destruct sm as [s|]; [cbn [negb] in HL; rewrite andb_false_r in HL|]; kin.
Qed.
Lemma K_body_end cl sm : (forall c, In c (semi_lost cl sm) -> L c) -> close_ok cl sm body_end.
Proof.
  intros HL ic b. unfold body_end. eapply K_sub.
  - eapply K_seq; [apply K_lead_end|]. eapply K_seq; [apply K_tok|]. eapply K_seq; [|apply K_prev].
    refine (semi_trail cl sm HL ic (trailing_end_comments (t_trail cl)) (fun cs => space ;; trailing_end_comments cs) (trailing_end_comments []) _ _ _).
    + apply K_trailing. + intro cs. apply (K_seq ic _ _ [] cs); [apply K_space|apply K_trailing]. + apply K_trailing.
  - clear HL. kin.
Qed.
Lemma K_body_end_inline cl sm : (forall c, In c (semi_lost cl sm) -> L c) -> close_ok cl sm body_end_inline.
Proof.
  intros HL ic b. unfold body_end_inline. eapply K_sub.
  - eapply K_seq; [apply K_lead_end|]. eapply K_seq; [apply K_tok|]. eapply K_seq; [|apply K_prev].
    refine (semi_trail cl sm HL ic (inline_comments (t_trail cl)) inline_comments skip _ _ _).
    + apply K_inline. + intro cs. apply K_inline. + apply K_skip.
  - clear HL. kin.
Qed.
Lemma K_line_element ic t : K ic (line_element t) (tok_comments t).
Proof. unfold line_element. eapply K_sub; [apply (K_body_end t None); intros c []|]. kin. Qed.
Lemma K_open_prefix ic t : K ic (open_prefix t) (tok_comments t).
Proof.
  unfold open_prefix. eapply K_sub; [eapply K_seq; [apply K_lead|]; eapply K_seq; [apply K_tok|]; eapply K_seq; [|apply K_prev]|].
  - instantiate (1 := t_trail t). destruct (t_trail t); [apply K_p_blank|apply K_trailing].
  - kin.
Qed.
Lemma K_open_inline ic t : K ic (open_prefix_inline t) (tok_comments t).
Proof.
  unfold open_prefix_inline. eapply K_sub; [eapply K_seq; [apply K_lead|]; eapply K_seq; [apply K_tok|]; eapply K_seq; [|apply K_prev]|].
  - apply K_nonempty; [|apply K_inline]. auto.
  - kin.
Qed.
Lemma K_open_array ic t : K ic (open_prefix_array t) (tok_comments t).
Proof.
  unfold open_prefix_array. eapply K_sub; [eapply K_seq; [apply (K_nonempty ic (t_lead t) _ (t_lead t)); [auto|apply K_multiline]|]; eapply K_seq; [apply K_indent|]; eapply K_seq; [apply K_tok|]; eapply K_seq; [|apply K_prev]|].
  - instantiate (1 := t_trail t). destruct (t_trail t); [apply K_p_blank|apply K_trailing].
  - kin.
Qed.
Lemma K_body ic op cl sm elems cs open_w close_w : (forall ic, K ic (open_w op) (tok_comments op)) -> close_ok cl sm close_w ->
  match elems with Some m => K ic m cs | None => cs = [] end ->
  K ic (body op cl sm elems open_w close_w) (tok_comments op ++ cs ++ tok_comments cl ++ comments (otoks sm)).
Proof.
  intros A B C. unfold body. destruct elems as [m|].
  - eapply K_sub; [eapply K_seq; [apply A|]; eapply K_seq; [exact C|apply B]|]. kin.
  - subst cs. destruct (interior_comments [op; cl]).
    + eapply K_sub; [eapply K_seq; [apply A|apply B]|]. kin.
    + eapply K_sub; [eapply K_seq; [apply K_inline_tok|apply B]|]. kin.
Qed.

(* ---- columns ---- *)
Definition seg_seen (cs : list comment) (f : segfield) : Prop :=
  forall c, In c cs -> comment_ok c -> c_virtual c = true \/ L c \/
    Exists (shown (c_text c)) [ctx f; typeName f; fieldName f; equalsTag f; lineEnd f].
Lemma line_seen ct cf ce f line cs : aligned_line ct cf ce f line -> seg_seen cs f -> seen cs line.
Proof.
  intros (a & b & c & le & -> & Hle & _) S d I O. destruct (S d I O) as [V|[V|V]]; auto. right. right.
  repeat match goal with X : Exists _ (_ :: _) |- _ => apply Exists_cons in X as [X|X] | X : Exists _ [] |- _ => inversion X end.
  - now apply shown_app_r.
  - apply shown_app_l. now apply shown_app_r.
  - apply shown_app_l, shown_app_l, shown_app_l. now apply shown_app_r.
  - do 5 apply shown_app_l. now apply shown_app_r.
  - do 7 apply shown_app_l. destruct Hle as [-> | E]; [exact V|]. rewrite E in V. exact (shown_space _ _ V).
Qed.
Lemma lines_seen : forall fs lines css, Forall2 (fun f line => exists ct cf ce, aligned_line ct cf ce f line) fs lines -> Forall2 (fun f cs => seg_seen cs f) fs css ->
  seen (List.concat css) (List.concat lines).
Proof.
  intros fs lines css A. revert css. induction A as [|f line fs lines (ct & cf & ce & A) _ IH]; intros css B; inversion B; subst; [apply seen_nil|].
  cbn [List.concat]. apply seen_app; [eapply line_seen; eauto|auto].
Qed.
Lemma columns_seen dec fs css : Forall2 (fun f cs => seg_seen cs f) fs css -> exists b, write_columns dec fs = Some b /\ seen (List.concat css) b.
Proof.
  intro B. destruct (write_blocks_ok (split_fields dec fs)) as (ll & E & F). exists (List.concat (List.concat ll)). split; [exact E|].
  apply lines_seen with (fs := fs); [|exact B]. replace fs with (List.concat (split_fields dec fs)); [exact (concat_lines _ _ F)|].
  unfold split_fields. apply split_loop_concat.
Qed.
Section Columns.
Variable dec : list nat -> nat -> bool.
Definition elem_k (ic lastx : bool) (e : elem) (cs : list comment) : Prop :=
  (e_kind e = ENone /\ K ic (e_node e) cs) \/
  (e_kind e <> ENone /\ e_incomplete e = false /\ exists c0 c1 c2 c3 c4 c5,
     let s := e_seg e ic lastx in
     K ic (s_ctx s) c0 /\ K ic (s_type s) c1 /\ K ic (s_name s) c2 /\ K ic (s_eq s) c3 /\ K ic (s_end s) c4 /\ K ic (s_outer s) c5 /\
     forall c, In c cs -> In c (c0 ++ c1 ++ c2 ++ c3 ++ c4 ++ c5) \/ L c).
Inductive elems_k (ic : bool) (n : nat) : list elem -> list comment -> Prop :=
| ek_nil : elems_k ic n [] []
| ek_cons e r w ws : elem_k ic ((n =? 0) && negb (nonempty r)) e w -> elems_k ic n r ws -> elems_k ic n (e :: r) (w ++ ws).
Lemma elems_k_split ic n : forall a b ws, elems_k ic n (a ++ b) ws -> exists w1 w2, ws = w1 ++ w2 /\ elems_k ic (n + List.length b) a w1 /\ elems_k ic n b w2.
Proof.
  induction a as [|e a IH]; intros b ws E; cbn [app] in E.
  - exists [], ws. split; [reflexivity|]. split; [constructor|exact E].
  - inversion E as [|e' r' w ws' A B]; subst. destruct (IH _ _ B) as (w1 & w2 & -> & C & D). exists (w ++ w1), w2. split; [apply app_assoc|]. split; [|exact D].
    constructor; [|exact C]. replace ((n + List.length b =? 0) && negb (nonempty a)) with ((n =? 0) && negb (nonempty (a ++ b))); [exact A|].
    destruct b; [rewrite app_nil_r, Nat.add_0_r; reflexivity|]. cbn [List.length]. rewrite Nat.add_succ_r. cbn [Nat.eqb andb].
    destruct a; cbn; now rewrite ?andb_false_r.
Qed.
Lemma drain_k ic m f cs b f' : K ic m cs -> incompact f = ic -> out f = [] -> drain m f = (b, f') -> seen cs b /\ out f' = [] /\ incompact f' = ic.
Proof.
  intros A E O D. unfold drain in D. injection D as <- <-. destruct (A f E) as (E1 & x & O1 & S). rewrite O in O1. cbn [app] in O1. rewrite O1. cbn. auto.
Qed.
Lemma run_elems_k ic n : forall es cs, elems_k ic n es cs -> Forall plain_elem es -> forall outer f fs,
  incompact outer = ic -> incompact f = ic -> out f = [] ->
  exists outer' f' fs2 css x co, run_elems ic n es (outer, f, fs) = (outer', f', fs ++ fs2) /\
    out outer' = out outer ++ x /\ seen co x /\ incompact outer' = ic /\
    out f' = [] /\ incompact f' = ic /\ Forall2 (fun f cs => seg_seen cs f) fs2 css /\ (forall c, In c cs -> In c (co ++ List.concat css) \/ L c).
Proof.
  induction 1 as [|e r w ws E _ IH]; intros P outer f fs Io If Of.
  - exists outer, f, [], [], [], []. rewrite !app_nil_r. split; [reflexivity|]. split; [reflexivity|]. split; [apply seen_nil|]. repeat (split; [assumption|]).
    split; [constructor|]. intros c [].
  - inversion P as [|e' r' Pe Pr]; subst e' r'. destruct E as [[E _]|(_ & Inc & c0 & c1 & c2 & c3 & c4 & c5 & h0 & h1 & h2 & h3 & h4 & ho & Hin)]; [destruct (Pe E)|].
    cbn [run_elems]. set (x := run_elem _ _ _ _). assert (X : x = run_elem ic ((n =? 0) && negb (nonempty r)) e (outer, f, fs)) by reflexivity.
    unfold run_elem in X. rewrite Inc in X. set (s := e_seg e ic ((n =? 0) && negb (nonempty r))) in *. cbv zeta in h0, h1, h2, h3, h4, ho.
    destruct (drain (s_ctx s) f) as [b0 f0] eqn:D0. destruct (drain_k _ _ _ _ _ _ h0 If Of D0) as (S0 & O0 & I0).
    destruct (drain (s_type s) f0) as [b1 f1] eqn:D1. destruct (drain_k _ _ _ _ _ _ h1 I0 O0 D1) as (S1 & O1 & I1).
    destruct (drain (s_name s) f1) as [b2 f2] eqn:D2. destruct (drain_k _ _ _ _ _ _ h2 I1 O1 D2) as (S2 & O2 & I2).
    destruct (drain (s_eq s) f2) as [b3 f3] eqn:D3. destruct (drain_k _ _ _ _ _ _ h3 I2 O2 D3) as (S3 & O3 & I3).
    destruct (drain (s_end s) f3) as [b4 f4] eqn:D4. destruct (drain_k _ _ _ _ _ _ h4 I3 O3 D4) as (S4 & O4 & I4).
    destruct (ho outer Io) as (Io' & y & Oo' & So').
    set (sf := {| ctx := b0; typeName := b1; fieldName := b2; equalsTag := b3; lineEnd := b4 |}) in X.
    destruct (IH Pr (s_outer s outer) f4 (fs ++ [sf]) Io' I4 O4) as (outer' & f' & fs2 & css & z & co & R & A1 & A2 & A3 & A4 & A5 & A6 & A7).
    exists outer', f', (sf :: fs2), ((c0 ++ c1 ++ c2 ++ c3 ++ c4) :: css), (y ++ z), (c5 ++ co). rewrite X. cbv beta zeta. rewrite R, <- app_assoc.
    split; [reflexivity|]. split; [rewrite A1, Oo', app_assoc; reflexivity|]. split; [now apply seen_app|]. split; [exact A3|]. split; [exact A4|]. split; [exact A5|].
    split.
    + constructor; [|exact A6]. intros c I O. rewrite !in_app_iff in I. unfold sf; cbn [ctx typeName fieldName equalsTag lineEnd].
      assert (Q : forall b l, seen l b -> In c l -> (shown (c_text c) b -> Exists (shown (c_text c)) [b0; b1; b2; b3; b4]) ->
        c_virtual c = true \/ L c \/ Exists (shown (c_text c)) [b0; b1; b2; b3; b4]) by (intros b l Sl Il Q; destruct (Sl c Il O) as [V|[V|V]]; auto).
      destruct I as [I|[I|[I|[I|I]]]]; [apply (Q _ _ S0 I)|apply (Q _ _ S1 I)|apply (Q _ _ S2 I)|apply (Q _ _ S3 I)|apply (Q _ _ S4 I)]; intro V;
        repeat (first [apply Exists_cons_hd; exact V | apply Exists_cons_tl]).
    + intros c I. cbn [List.concat]. apply in_app_or in I as [I|I].
      * destruct (Hin c I) as [J|J]; [|auto]. left. rewrite !in_app_iff in *. tauto.
      * destruct (A7 c I) as [J|J]; [|auto]. left. rewrite !in_app_iff in *. tauto.
Qed.
Lemma K_merged ic rest g cs : elems_k ic rest g cs -> Forall plain_elem g ->
  K ic (fun f => let '(outer, fc, fs) := run_elems (incompact f) rest g (f, set_out [] f, []) in
         match write_columns dec fs with Some b => merge outer fc (out fc ++ b) | None => set_crash f end) cs.
Proof.
  intros E P f Ei. rewrite Ei.
  destruct (run_elems_k ic rest g cs E P f (set_out [] f) [] Ei Ei eq_refl) as (outer' & f' & fs2 & css & x & co & R & A1 & A2 & A3 & A4 & A5 & A6 & A7).
  rewrite R. cbn [app]. destruct (columns_seen dec _ _ A6) as (b & -> & B). rewrite A4. cbn [app merge out incompact]. split; [exact A5|].
  exists (x ++ b). rewrite A1, app_assoc. split; [reflexivity|]. intros c I O. destruct (A7 c I) as [J|J]; [|auto]. exact (seen_app _ _ _ _ A2 B c J O).
Qed.
Lemma K_group ic rest g cs : elems_k ic rest g cs -> pure g -> K ic (run_group dec rest g) cs.
Proof.
  intros E P. destruct g as [|e [|e2 r]].
  - exact (K_merged ic rest [] cs E (Forall_nil _)).
  - unfold run_group. destruct (e_kind e) eqn:Ke.
    + inversion E as [|e' r' w ws' A B]; subst. inversion B; subst. rewrite app_nil_r. destruct A as [[_ h]|[N _]]; [exact h|congruence].
    + apply (K_merged ic rest [e] cs E). repeat constructor. unfold plain_elem. congruence.
    + apply (K_merged ic rest [e] cs E). repeat constructor. unfold plain_elem. congruence.
  - destruct P as [[x X]|P]; [discriminate|]. exact (K_merged ic rest (e :: e2 :: r) cs E P).
Qed.
Lemma K_groups ic : forall gs cs, elems_k ic 0 (List.concat gs) cs -> Forall pure gs -> K ic (run_groups dec gs) cs.
Proof.
  induction gs as [|g gs IH]; intros cs E P; cbn [run_groups List.concat] in *.
  - inversion E. apply K_skip.
  - inversion P; subst. destruct (elems_k_split ic 0 _ _ _ E) as (w1 & w2 & -> & A & B). apply K_seq; [apply K_group; auto|]. apply IH; assumption.
Qed.
Lemma K_columns ic es cs : elems_k ic 0 es cs -> K ic (columns dec es) cs.
Proof. intro E. unfold columns. apply K_groups; [rewrite groups_concat; exact E|apply groups_pure]. Qed.
End Columns.

(* ---- identifiers and names ---- *)
Definition all_comments (r : fieldref) := comments (ref_toks r).
Lemma K_ident ic i : K ic (write_ident i) (match i with Id _ => [] | Cid ts => comments ts end).
Proof. destruct i; [apply K_tok|apply K_inline_toks]. Qed.
Lemma K_inline_ident ic i : K ic (inline_ident i) (comments (ident_toks i)).
Proof. destruct i as [t|ts]; [|apply K_inline_node, (K_ident ic (Cid ts))]. eapply K_sub; [apply K_inline_tok|]. cbn [ident_toks]. kin. Qed.
Lemma K_otok ic o : K ic (opt_w inline_tok o) (comments (otoks o)).
Proof. destruct o; [|apply K_skip]. eapply K_sub; [apply K_inline_tok|]. kin. Qed.
Lemma K_oident ic o : K ic (opt_w inline_ident o) (comments (opt_toks ident_toks o)).
Proof. destruct o; [apply K_inline_ident|apply K_skip]. Qed.
Lemma K_close ic r : K ic (close_ref r) (comments (otoks (fr_close r))).
Proof.
  unfold close_ref. destruct (fr_close r); [eapply K_sub; [apply K_inline_tok|kin]|]. eapply K_when. apply K_inline_tok.
Qed.
Lemma K_ref ic r : K ic (write_ref r) (comments (ref_toks r)).
Proof.
  unfold write_ref, ref_toks. eapply K_sub; [eapply K_seq; [apply K_otok|]; eapply K_seq; [apply K_oident|]; eapply K_seq; [apply K_otok|]; eapply K_seq; [apply K_inline_ident|apply K_close]|]. kin.
Qed.
Lemma K_first_part ic r : fr_url r = None -> fr_slash r = None -> exists cs, K ic (first_part r) cs /\
  forall c, In c (comments (ref_toks r)) -> In c cs \/ In c (lead_of (ref_toks r)).
Proof.
  intros Eu Es. unfold first_part, ref_toks. rewrite Eu, Es. destruct (fr_open r) as [o|] eqn:Eo.
  - eexists. split.
    + eapply K_seq; [|apply K_close]. eapply K_seq; [apply K_tok|]. eapply K_seq; [apply (K_nonempty ic (t_trail o) _ (t_trail o)); [auto|apply K_inline]|apply K_inline_ident].
    + intros c I. innh I. inn. rewrite ?in_tok in *. tauto.
  - destruct (fr_name r) as [t|ts] eqn:En.
    + eexists. split.
      * eapply K_seq; [|apply K_close]. eapply K_seq; [apply K_ident|]. apply (K_nonempty ic (trail_of [t]) _ (trail_of [t])); [auto|apply K_inline].
      * cbn [ident_toks trail_of rev app otoks opt_toks]. intros c I. innh I. inn. rewrite ?in_tok in *. tauto.
    + eexists. split.
      * eapply K_seq; [|apply K_close]. eapply K_seq; [apply K_ident|]. apply (K_nonempty ic (trail_of ts) _ (trail_of ts)); [auto|apply K_inline].
      * cbn [ident_toks otoks opt_toks app]. intros c I. innh I. inn. rewrite ?in_tok in *. tauto.
Qed.
Definition dots (ps : list part) : list token := flat_map (fun p => match p with PDot t => [t] | PRef _ => [] end) ps.
Lemma K_parts ic : forall ps, (forall c, In c (comments (dots ps)) -> L c) -> K ic (seqs (map write_part ps)) (comments (flat_map part_toks ps)).
Proof.
  induction ps as [|p ps IH]; intro D; [apply K_skip|]. cbn [map seqs flat_map]. rewrite comments_app. cbn [dots flat_map] in D. fold (dots ps) in D. apply K_seq.
  - destruct p as [r|t]; [apply K_ref|]. eapply K_sub; [apply K_tok|]. cbn [part_toks]. clear IH. kin.
  - apply IH. intros c I. apply D. rewrite comments_app, in_app_iff. now right.
Qed.
Lemma K_name_plain ps : (forall c, In c (comments (dots ps)) -> L c) -> K false (write_name ps) (comments (flat_map part_toks ps)).
Proof.
  intros D f E. unfold write_name. rewrite E. pose proof (K_parts false ps D f E) as P. destruct ps as [|[r|t] ps]; exact P.
Qed.
Lemma K_name_compact ps : name_ok ps -> (forall c, In c (comments (dots ps)) -> L c) -> exists cs, K true (write_name ps) cs /\
  forall c, In c (comments (flat_map part_toks ps)) -> In c cs \/ In c (lead_of (flat_map part_toks ps)).
Proof.
  intros N D. assert (G : exists r rest, ps = PRef r :: rest /\ fr_url r = None /\ fr_slash r = None /\ ref_toks r <> []).
  { assert (R : forall r, ref_ok r -> ref_toks r <> []).
    { intros r (O & _) X. unfold ref_toks in X. destruct (fr_open r); [discriminate|]. cbn in X. destruct (opt_toks ident_toks (fr_url r)); [|discriminate]. destruct (otoks (fr_slash r)); [|discriminate].
      destruct (fr_name r) as [t|ts]; [discriminate|]. cbn in X. destruct ts; [|discriminate]. destruct O as [O|(d & r' & O & _)]; [inversion O|discriminate]. }
    destruct N as [r (A & B & C)|r d ps (A & B & C) _ _]; eauto 10. }
  destruct G as (r & rest & -> & U & S & Ne). destruct (K_first_part true r U S) as (cs & Kf & Hf).
  exists (cs ++ comments (flat_map part_toks rest)). split.
  - intros f E. unfold write_name. rewrite E. apply (K_seq true (first_part r) (seqs (map write_part rest)) cs); [exact Kf|apply (K_parts true rest D)|exact E].
  - cbn [flat_map part_toks]. intros c I. rewrite comments_app, in_app_iff in I. rewrite in_app_iff.
    assert (lead_of (ref_toks r ++ flat_map part_toks rest) = lead_of (ref_toks r)) as -> by (destruct (ref_toks r); [congruence|reflexivity]).
    destruct I as [I|I]; [destruct (Hf c I)|]; auto.
Qed.

(* ---- values ---- *)
Lemma K_string_lines ic ei : forall ts, K ic (string_lines ei ts) (comments ts).
Proof.
  induction ts as [|t [|t2 r] IH]; [apply K_skip| |].
  - cbn [string_lines]. eapply (K_sub _ _ _ (tok_comments t)); [destruct ei; [apply K_start_tok|apply K_line_element]|kin].
  - change (string_lines ei (t :: t2 :: r)) with (line_element t ;; string_lines ei (t2 :: r)). rewrite comments_cons. apply K_seq; [apply K_line_element|exact IH].
Qed.
Lemma K_compound ic ind ei ts : K ic (compound_string ind ei ts) (comments ts).
Proof.
  unfold compound_string. eapply K_sub; [eapply K_seq; [apply K_p_blank|]; eapply K_seq; [eapply K_when; apply K_in|]; eapply K_seq; [apply K_string_lines|eapply K_when; apply K_out]|]. kin.
Qed.
Lemma K_colon ic s : K ic (colon s) (comments (otoks s)).
Proof. unfold colon. destruct s; eapply K_sub; [apply K_inline_tok|kin|apply K_inline_tok|kin]. Qed.
Definition vcoms (v : value) : list comment := match v with VTok _ => [] | _ => comments (value_toks v) end.
Section Values.
Variable dec : list nat -> nat -> bool.
Definition KV (v : value) : Prop := value_ok v -> (forall c, In c (value_lost v) -> L c) -> forall ic,
  K ic (write_v dec v) (vcoms v) /\
  (match v with VArr _ _ _ _ _ | VIdent _ => False | _ => True end -> forall l, K ic (write_value dec (MArr l) v) (vcoms v)).
Definition KF (m : mfield) : Prop := field_ok m -> (forall c, In c (field_lost m) -> L c) -> forall ic lastx,
  elem_k ic lastx (field_elem dec m) (comments (field_toks m)).
Lemma K_inline_v_of v ic : K ic (write_v dec v) (vcoms v) -> K ic (inline_v dec v) (comments (value_toks v)).
Proof.
  intro A. unfold inline_v, inline_value. destruct v; try (apply K_inline_node; exact A). eapply K_sub; [apply K_inline_tok|]. cbn [value_toks]. kin.
Qed.
Lemma K_ref_start ic r : ref_ok r -> exists cs, K ic (ref_start_rest r) cs /\
  forall c, In c (comments (ref_toks r)) -> In c cs \/ In c (lead_of (ref_start_toks r)).
Proof.
  intros [_ O]. unfold ref_start_rest, ref_start_toks, ref_toks. destruct (fr_open r) as [o|].
  - eexists. split.
    + eapply K_seq; [|apply K_close]. eapply K_seq; [apply K_tok|]. eapply K_seq; [apply K_start_post|]. eapply K_seq; [apply K_oident|]. eapply K_seq; [apply K_otok|apply K_inline_ident].
    + cbn [trail_of rev app]. intros c I. innh I. inn. rewrite ?in_tok in *. tauto.
  - destruct O as (_ & -> & ->). eexists. split.
    + eapply K_seq; [|apply K_close]. eapply K_seq; [apply K_ident|]. apply K_start_post.
    + destruct (fr_name r) as [t|ts]; cbn [ident_toks trail_of rev app otoks opt_toks]; intros c I; innh I; inn; rewrite ?in_tok in *; tauto.
Qed.
Lemma tok_with_rune c t : tok_comments (with_rune c t) = tok_comments t. Proof. reflexivity. Qed.
Lemma KF_of n s v sm : KV v -> KF (MField n s v sm).
Proof.
  intros A (On & Ov & Os & Oc) HL ic lastx. cbn [field_lost] in HL.
  assert (HV : forall c, In c (value_lost v) -> L c) by (intros c I; apply HL, in_or_app; now left).
  destruct (A Ov HV ic) as [W _]. destruct (K_ref_start ic n On) as (cr & Kr & Hr).
  right. split; [discriminate|]. split; [reflexivity|]. cbn [field_elem e_seg].
  exists (lead_of (ref_start_toks n)), [], (cr ++ comments (otoks s)), [], (vcoms v ++ tok_comments (field_comma (field_toks (MField n s v sm)) sm)), [].
  cbn [s_ctx s_type s_name s_eq s_end s_outer]. split; [apply K_start_pre|]. split; [apply K_skip|]. split; [apply K_seq; [exact Kr|apply K_colon]|]. split; [apply K_skip|].
  split; [apply K_seq; [exact W|apply K_line_end]|]. split; [apply K_skip|].
  intros c I. cbn [field_toks] in I. innh I. inn. destruct I as [I|[I|[I|I]]].
  - destruct (Hr c I); tauto.
  - tauto.
  - destruct v; try (left; cbn [vcoms]; tauto). cbn [value_toks] in I. innh I. destruct sm as [t'|].
    + right. apply HL. cbn [value_lost token_lost app]. tauto.
    + left. right. right. right. right. left. right. cbn [field_toks value_toks field_comma]. rewrite !rev_app_distr. cbn [rev otoks app]. unfold tok_comments in *. cbn [t_lead t_trail]. tauto.
  - destruct sm as [t|]; [|destruct I]. innh I. left. right. right. right. right. left. right. cbn [field_comma]. rewrite tok_with_rune. tauto.
Qed.
Fixpoint compact_lost (fs : list mfield) : list comment :=
  match fs with
  | [] => []
  | MField _ _ v s :: r => value_lost v ++ (if nonempty r then [] else comments (otoks s)) ++ compact_lost r
  end.
Lemma value_lost_msg o fs c sm : value_lost (VMsg o fs c sm) =
  if fields_expanded fs then semi_lost c sm ++ flat_map field_lost fs else comments (otoks sm) ++ compact_lost fs.
Proof. cbn [value_lost]. destruct (fields_expanded fs); [reflexivity|]. f_equal. Qed.
Definition val_of (m : mfield) : value := match m with MField _ _ v _ => v end.
Lemma K_compact_fields ic : forall fs, Forall (fun m => KV (val_of m)) fs -> Forall field_ok fs -> (forall c, In c (compact_lost fs) -> L c) ->
  K ic (compact_fields (map (fun m => match m with MField n s v sm => (n, s, inline_value (write_value dec MNode v) v, sm) end) fs)) (comments (flat_map field_toks fs)).
Proof.
  induction fs as [|[n s v sm] r IH]; intros F O HL; [apply K_skip|]. inversion F as [|m' r' Fv Fr]; inversion O as [|m2 r2 Ov Or]; subst. cbn [map compact_fields flat_map field_toks compact_lost] in *.
  assert (W : K ic (inline_v dec v) (comments (value_toks v))).
  { apply K_inline_v_of. apply Fv; [apply Ov|]. intros c I. apply HL, in_or_app. now left. }
  eapply K_sub.
  - eapply K_seq; [apply K_inline_node, K_ref|]. eapply K_seq; [apply K_colon|]. eapply K_seq; [apply K_space|]. eapply K_seq; [exact W|].
    apply (K_seq ic _ _ (if nonempty r then comments (otoks sm) else [])).
    + destruct r; cbn [map nonempty when]; [apply K_skip|]. eapply K_sub; [eapply K_seq; [apply K_inline_tok|apply K_space]|]. destruct sm; cbn; kin.
    + apply IH; auto. intros c I. apply HL. rewrite !in_app_iff. tauto.
  - clear IH. destruct r; cbn [nonempty] in *; kin.
Qed.
Lemma skipn_nil {A} n : skipn n (@nil A) = []. Proof. now destruct n. Qed.
Lemma K_array ic one : forall vs cs, Forall KV vs -> Forall value_ok vs -> (forall c, In c (flat_map value_lost vs ++ comments (skipn (Nat.pred (List.length vs)) cs)) -> L c) ->
  forallb (fun v => match v with VArr _ _ _ _ _ | VIdent _ => false | _ => true end) vs = true ->
  K ic (array_items one (map (fun v => (terminal v, fun l => write_value dec (MArr l) v)) vs) cs) (comments (interleave (map value_toks vs) cs)).
Proof.
  induction vs as [|v vs IH]; intros cs F O HL B.
  - cbn in *. eapply K_sub; [apply K_skip|]. intros c I. right. exact (HL c I).
  - inversion F as [|v' r' Fv Fr]; inversion O as [|v2 r2 Ov Or]; subst. cbn [forallb] in B. apply andb_true_iff in B as [Bv Br].
    assert (HV : forall c, In c (value_lost v) -> L c) by (intros c I; apply HL; cbn [flat_map]; rewrite !in_app_iff; tauto).
    destruct (Fv Ov HV ic) as [_ W]. specialize (W ltac:(destruct v; (exact Logic.I || discriminate))).
    destruct vs as [|v2 r].
    + cbn [map array_items interleave List.length Nat.pred skipn flat_map] in *.
      assert (G : K ic (array_items one [(terminal v, fun l => write_value dec (MArr l) v)] cs) (comments (value_toks v))).
      { destruct v; cbn [terminal array_items]; try (exact (W (negb one))).
        destruct one; (eapply K_sub; [first [apply (K_body_end_inline t None); intros c [] | apply K_line_element]|cbn [value_toks]; clear HL; kin]). }
      eapply K_sub; [exact G|]. clear G W HV. destruct cs as [|c cr]; cbn [interleave]; rewrite ?app_nil_r; [auto|]. kin.
    + set (vs := v2 :: r) in *. change (map (fun v => (terminal v, fun l => write_value dec (MArr l) v)) (v :: vs)) with ((terminal v, fun l => write_value dec (MArr l) v) :: map (fun v => (terminal v, fun l => write_value dec (MArr l) v)) vs).
      assert (E : array_items one ((terminal v, fun l => write_value dec (MArr l) v) :: map (fun v => (terminal v, fun l => write_value dec (MArr l) v)) vs) cs =
        (match terminal v with Some t => start_tok one t | None => write_value dec (MArr false) v end ;;
         must (fun c => if one then inline_tok c ;; space else line_end c) (nth_error cs 0) ;;
         array_items one (map (fun v => (terminal v, fun l => write_value dec (MArr l) v)) vs) (tl cs))) by (destruct v; reflexivity).
      rewrite E. clear E. eapply K_sub.
      * eapply K_seq; [instantiate (1 := comments (value_toks v))|eapply K_seq; [instantiate (1 := comments (firstn 1 cs))|apply IH; auto]].
        -- destruct v; cbn [terminal]; try exact (W false). eapply K_sub; [apply K_start_tok|]. cbn [value_toks]. clear; kin.
        -- destruct cs as [|c cr]; cbn [nth_error must firstn]; [apply K_crash|]. destruct one; (eapply K_sub; [first [apply K_line_end | eapply K_seq; [apply K_inline_tok|apply K_space]]|clear; kin]).
        -- intros c I. apply HL. cbn [flat_map]. rewrite !in_app_iff in *. destruct I as [I|I]; [tauto|]. right. subst vs. cbn [List.length Nat.pred] in *. destruct cs; [cbn [tl] in I; rewrite skipn_nil in I; destruct I|exact I].
      * clear. cbn [map interleave]. destruct cs as [|c cr]; cbn [firstn tl interleave map]; kin.
Qed.
Lemma KV_all : forall v, KV v.
Proof.
  apply (value_ind2 KV (fun m => KV (val_of m))).
  - intros t _ _ ic. split; [apply K_tok|]. intros _ l. apply K_tok.
  - intros ts _ _ ic. split; [apply K_inline_toks|intros []].
  - intros ts _ _ ic. split; [apply K_compound|]. intros _ l. apply K_string_lines.
  - intros s n _ _ ic. split.
    + eapply K_sub; [eapply K_seq; apply K_inline_tok|]. cbn [vcoms value_toks]. kin.
    + intros _ l. cbn [write_value vcoms value_toks]. eapply K_sub; [eapply K_seq; [apply K_start_tok|]; instantiate (1 := tok_comments n); destruct l; [apply K_line_end|apply K_inline_tok]|]. kin.
  - intros o fs c sm IH O HL ic. apply value_ok_msg in O as (_ & _ & _ & F). rewrite value_lost_msg in HL. cbn [vcoms].
    assert (G : forall md, K ic (write_value dec md (VMsg o fs c sm)) (comments (value_toks (VMsg o fs c sm)))); [|split; [apply (G MNode)|intros _ l; apply G]].
    intro md. cbn [write_value value_toks]. destruct (fields_expanded fs).
    + assert (HS : forall x, In x (semi_lost c sm) -> L x) by (intros x I; apply HL, in_or_app; now left).
      assert (HF : forall x, In x (flat_map field_lost fs) -> L x) by (intros x I; apply HL, in_or_app; now right).
      assert (E : elems_k ic 0 (map (field_elem dec) fs) (comments (flat_map field_toks fs))).
      { clear HL HS. induction fs as [|[n s v s2] r IHr]; [constructor|]. inversion IH as [|? ? Fv Fr]; inversion F as [|? ? Ov Or]; subst. cbn [map flat_map]. rewrite comments_app. constructor.
        - apply KF_of; [exact Fv|exact Ov|]. intros x I. apply HF. cbn [flat_map]. rewrite in_app_iff. now left.
        - apply IHr; auto. intros x I. apply HF. cbn [flat_map]. rewrite in_app_iff. now right. }
      apply (K_columns dec) in E.
      destruct md as [|l]; [|destruct l]; (eapply K_sub; [apply K_body; [intro; first [apply K_open_prefix | apply K_open_array]|first [apply K_body_end_inline, HS | apply K_body_end, HS]|exact E]|clear; kin]).
    + assert (HF : forall x, In x (compact_lost fs) -> L x) by (intros x I; apply HL, in_or_app; now right).
      eapply K_sub.
      * eapply K_seq; [eapply K_when; apply K_indent|]. eapply K_seq; [apply K_inline_tok|]. eapply K_seq; [exact (K_compact_fields ic fs IH F HF)|]. eapply K_seq; [apply K_inline_tok|].
        instantiate (1 := []). destruct md as [|l]; [apply K_skip|eapply K_when; apply K_p_blank].
      * clear IH F HF. kin.
  - intros o vs cs c sm IH O HL ic. apply value_ok_arr in O as (_ & _ & _ & _ & _ & F & B). split; [|intros []]. cbn [vcoms]. unfold write_v. cbn [write_value value_toks value_lost] in *.
    assert (HS : forall x, In x (semi_lost c sm) -> L x) by (intros x I; apply HL, in_or_app; now left).
    assert (HF : forall x, In x (flat_map value_lost vs ++ comments (skipn (Nat.pred (List.length vs)) cs)) -> L x) by (intros x I; apply HL, in_or_app; now right).
    pose proof (K_array ic (negb (values_expanded vs)) vs cs IH F HF B) as A.
    assert (OW : forall ic, K ic ((if negb (values_expanded vs) then open_prefix_inline else open_prefix) o) (tok_comments o)) by (intro; destruct (negb _); [apply K_open_inline|apply K_open_prefix]).
    destruct vs as [|v r].
    + eapply K_sub; [apply (K_body ic o c sm None []); [exact OW|apply K_body_end_inline, HS|reflexivity]|]. cbn [map interleave] in *. clear - HL HF. cbn [flat_map List.length Nat.pred skipn app] in HF. kin.
    + eapply K_sub; [eapply (K_body ic o c sm (Some _)); [exact OW|apply K_body_end_inline, HS|exact A]|]. clear. kin.
  - intros n s v sm A. exact A.
Qed.
Lemma K_value ic v : value_ok v -> (forall c, In c (value_lost v) -> L c) -> K ic (write_v dec v) (vcoms v).
Proof. intros O HL. apply (KV_all v O HL). Qed.
Lemma K_inline_v ic v : value_ok v -> (forall c, In c (value_lost v) -> L c) -> K ic (inline_v dec v) (comments (value_toks v)).
Proof. intros O HL. apply K_inline_v_of, K_value; assumption. Qed.
Lemma K_line_end_v ic v : value_ok v -> (forall c, In c (value_lost v) -> L c) -> K ic (line_end_v dec v) (comments (value_toks v)).
Proof.
  intros O HL. pose proof (K_value ic v O HL) as A. destruct v; try (eapply K_sub; [eapply K_seq; [exact A|apply K_fresh]|clear; kin]).
  eapply K_sub; [apply K_line_end|]. cbn [value_toks]. clear; kin.
Qed.

(* ---- options ---- *)
Ltac sub := let c := fresh "c" in let I := fresh "I" in intros c I; match goal with X : forall c, In c _ -> L c |- _ => apply X; repeat rewrite in_app_iff in *; tauto end.
Lemma K_must ic (w : token -> M) o : (forall t, K ic (w t) (tok_comments t)) -> K ic (must w o) (comments (otoks o)).
Proof. intro A. destruct o as [t|]; [|apply K_crash]. eapply K_sub; [apply A|]. kin. Qed.
Lemma K_comma ic c : forall t, K ic (line_end (with_rune c t)) (tok_comments t).
Proof. intro t. rewrite <- (tok_with_rune c t). apply K_line_end. Qed.
Lemma name_lost_dots o ps : o_name o = Some ps -> name_lost o = comments (dots ps).
Proof. unfold name_lost. intros ->. reflexivity. Qed.
Lemma compound_str v ts : compound v = Some ts -> v = Some (VStr ts).
Proof. destruct v as [[]|]; cbn; congruence. Qed.
Lemma opt_elem_k lastx w o : keyword_option_ok o -> (forall c, In c (column_lost false o) -> L c) -> elem_k false lastx (opt_elem dec false w o) (comments (opt_node_toks o)).
Proof.
  intros (((ps & En & On) & (e & Ee & _) & (v & Ev & Ov) & _) & (k & Ek & _) & _) HL. unfold column_lost, val_lost in HL. rewrite Ev, (name_lost_dots _ _ En) in HL.
  assert (HN : forall c, In c (comments (dots ps)) -> L c) by sub. assert (HV : forall c, In c (value_lost v) -> L c) by sub. assert (HT : forall c, In c (token_lost v) -> L c) by sub. clear HL.
  right. split; [discriminate|]. split; [reflexivity|]. cbn [opt_elem e_seg]. unfold opt_seg. rewrite En, Ee, Ev, Ek.
  exists (t_lead k), (t_trail k), (comments (flat_map part_toks ps)), (tok_comments e), (vcoms v ++ comments (otoks (o_semi o))), [].
  cbn [s_ctx s_type s_name s_eq s_end s_outer opt_toks opt_w]. split; [apply K_start_pre|].
  split; [eapply K_sub; [eapply K_seq; [apply K_tok|apply K_start_post]|cbn [trail_of rev app]; clear; kin]|].
  split; [eapply K_sub; [eapply K_seq; [apply (K_name_plain ps HN)|apply K_skip]|clear; kin]|].
  split; [apply K_inline_tok|]. split.
  - destruct (compound (Some v)) as [ts|] eqn:Ec.
    + apply compound_str in Ec. injection Ec as ->. apply K_seq; [apply K_compound|]. apply K_must. apply K_line_end.
    + apply K_seq; [apply (K_value false v Ov HV)|]. apply K_must. apply K_line_end.
  - split; [apply K_skip|]. unfold opt_node_toks. rewrite Ek, En, Ee, Ev. cbn [opt_toks]. intros c I. innh I. inn. rewrite ?in_tok in *.
    assert (X : In c (comments (value_toks v)) -> In c (vcoms v) \/ L c).
    { intro J. destruct v; try (left; exact J). right. apply HT. cbn [token_lost]. cbn [value_toks] in J. innh J. tauto. }
    tauto.
Qed.
Lemma only_comma_eq o : only_comma o = true -> exists t, o_name o = None /\ o_eq o = None /\ o_val o = None /\ o_semi o = Some t.
Proof. unfold only_comma. destruct (o_name o), (o_eq o), (o_val o), (o_semi o); try discriminate. eauto. Qed.
Lemma copt_elem_k lastx o : o_kw o = None -> (only_comma o = true \/ opt_ok "," o) -> (forall c, In c (column_lost lastx o) -> L c) ->
  elem_k true lastx (opt_elem dec true skip o) (comments (opt_node_toks o)).
Proof.
  intros Ek O HL. right. split; [discriminate|]. split; [reflexivity|]. cbn [opt_elem e_seg]. destruct O as [O|((ps & En & On) & (e & Ee & _) & (v & Ev & Ov) & _)].
  - apply only_comma_eq in O as (t & En & Ee & Ev & Es). unfold opt_seg. rewrite En, Ee, Ev, Es, Ek. exists [], [], [], [], (if lastx then [] else tok_comments t), [].
    cbn [s_ctx s_type s_name s_eq s_end s_outer opt_toks opt_w compound negb]. repeat (split; [apply K_skip|]). split.
    + destruct lastx; [apply K_skip|]. eapply K_sub; [eapply K_seq; [apply K_skip|apply (K_comma true ","%char)]|]. clear; kin.
    + split; [apply K_skip|]. unfold opt_node_toks. rewrite Ek, En, Ee, Ev, Es. unfold column_lost, name_lost, val_lost in HL. rewrite En, Ev, Es in HL. cbn [is_str opt_toks] in HL. destruct lastx; cbn [opt_toks]; kin.
  - unfold column_lost, val_lost in HL. rewrite Ev, (name_lost_dots _ _ En) in HL.
    assert (HN : forall c, In c (comments (dots ps)) -> L c) by sub. assert (HV : forall c, In c (value_lost v) -> L c) by sub.
    assert (HT : forall c, In c (if lastx then if is_str (Some v) then [] else comments (otoks (o_semi o)) else token_lost v) -> L c) by sub. clear HL.
    destruct (K_name_compact ps On HN) as (cn & Kn & Hn). unfold opt_seg. rewrite En, Ee, Ev, Ek.
    exists (lead_of (flat_map part_toks ps)), [], cn, (tok_comments e),
      (match compound (Some v) with Some ts => comments ts ++ comments (otoks (o_semi o)) | None => if lastx then comments (value_toks v) else vcoms v ++ comments (otoks (o_semi o)) end), [].
    cbn [s_ctx s_type s_name s_eq s_end s_outer opt_toks opt_w negb]. split; [apply K_start_pre|]. split; [apply K_skip|].
    split; [eapply K_sub; [eapply K_seq; [exact Kn|apply K_start_post]|clear; kin]|]. split; [apply K_inline_tok|]. split.
    + destruct (compound (Some v)) as [ts|] eqn:Ec.
      * apply K_seq; [apply K_compound|]. apply K_must, K_line_end.
      * destruct lastx; [apply (K_line_end_v true v Ov HV)|]. apply K_seq; [apply (K_value true v Ov HV)|]. apply K_must, K_comma.
    + split; [apply K_skip|]. unfold opt_node_toks. rewrite Ek, En, Ee, Ev. cbn [opt_toks otoks app]. intros c I. rewrite !comments_app in I. innh I. inn.
      destruct I as [I|[I|[I|I]]].
      * destruct (Hn c I); tauto.
      * tauto.
      * destruct v; cbn [compound value_toks vcoms token_lost] in *; destruct lastx; inn; innh I; rewrite ?in_tok in *; try tauto.
        right. apply HT. rewrite in_tok. tauto.
      * destruct v; cbn [compound is_str] in *; destruct lastx; inn; try tauto; right; now apply HT.
Qed.
Lemma copts_elems : forall os, opts_ok os -> (forall c, In c (columns_lost os) -> L c) -> elems_k true 0 (map (opt_elem dec true skip) os) (comments (flat_map opt_node_toks os)).
Proof.
  induction os as [|o r IH]; intros O HL; [constructor|]. cbn [opts_ok columns_lost map flat_map] in *. destruct O as (Ek & _ & Oo & Or). rewrite comments_app. constructor.
  - cbn [Nat.eqb andb]. replace (nonempty (map (opt_elem dec true skip) r)) with (nonempty r) by now destruct r. apply copt_elem_k; [exact Ek|tauto|sub].
  - apply IH; [exact Or|sub].
Qed.
Lemma K_inline_opts close cc : K true close cc -> forall os, opts_ok os -> (forall o, In o (removelast os) -> compound (o_val o) = None) ->
  (forall c, In c (inline_lost os) -> L c) -> K true (inline_opts dec close os) (comments (flat_map opt_node_toks os) ++ cc).
Proof.
  intros Kc. induction os as [|o r IH]; intros O N HL; [exact Kc|]. cbn [opts_ok inline_lost inline_opts flat_map] in *. destruct O as (Ek & _ & Oo & Or).
  assert (Hr : forall c, In c (inline_lost r) -> L c) by sub.
  assert (Nr : forall o, In o (removelast r) -> compound (o_val o) = None) by (intros x I; apply N; cbn [removelast]; destruct r; [destruct I|now right]).
  specialize (IH Or Nr Hr). destruct (only_comma o) eqn:Oc.
  - apply only_comma_eq in Oc as (t & En & Ee & Ev & Es). eapply K_sub; [exact IH|]. rewrite comments_app. unfold opt_node_toks at 1. rewrite Ek, En, Ee, Ev, Es in *. cbn [opt_toks]. clear IH. kin.
  - destruct Oo as [[X _]|((ps & En & On) & (e & Ee & _) & (v & Ev & Ov) & _)]; [discriminate|]. unfold val_lost in HL. rewrite Ev, (name_lost_dots _ _ En) in HL.
    assert (HN : forall c, In c (comments (dots ps)) -> L c) by sub. assert (HV : forall c, In c (value_lost v) -> L c) by sub.
    assert (HS : forall c, In c (if nonempty r then [] else comments (otoks (o_semi o))) -> L c) by sub. assert (HD : forall c, In c (lead_of (opt_node_toks o)) -> L c) by sub. clear HL.
    destruct (K_name_compact ps On HN) as (cn & Kn & Hn). rewrite En, Ee, Ev. cbn [opt_w].
    assert (HD' : forall c, In c (lead_of (flat_map part_toks ps)) -> L c).
    { intros c I. apply HD. unfold opt_node_toks. rewrite Ek, En. cbn [otoks opt_toks app]. destruct (flat_map part_toks ps); [destruct I|exact I]. }
    eapply K_sub.
    + eapply K_seq; [apply K_inline_node; exact Kn|]. eapply K_seq; [apply K_space|]. eapply K_seq; [apply K_inline_tok|].
      instantiate (1 := comments (value_toks v) ++ (if nonempty r then comments (otoks (o_semi o)) else []) ++ comments (flat_map opt_node_toks r) ++ cc).
      destruct (compound (Some v)) as [ts|] eqn:Ec.
      * destruct r as [|o2 r2].
        -- apply compound_str in Ec. injection Ec as ->. cbn [nonempty flat_map value_toks]. apply K_seq; [apply K_compound|exact Kc].
        -- assert (X : compound (o_val o) = None) by (apply N; now left). rewrite Ev, Ec in X. discriminate.
      * eapply K_sub; [eapply K_seq; [apply K_space|]; eapply K_seq; [exact (K_inline_v true v Ov HV)|]; eapply K_seq; [|exact IH]|].
        -- instantiate (1 := if nonempty r then comments (otoks (o_semi o)) else []). destruct (o_semi o) as [t|]; [|destruct (nonempty r); apply K_skip]. destruct (nonempty r); cbn [when]; [|apply K_skip].
           eapply K_sub; [eapply K_seq; [apply K_inline_tok|apply K_space]|]. rewrite tok_with_rune. clear; kin.
        -- clear. kin.
    + rewrite comments_app. unfold opt_node_toks at 1. rewrite Ek, En, Ee, Ev. cbn [opt_toks otoks app]. intros c I. innh I. inn.
      destruct I as [[[I|[I|[I|I]]]|I]|I].
      * destruct (Hn c I) as [J|J]; [tauto|right; now apply HD'].
      * tauto.
      * tauto.
      * destruct (nonempty r); [tauto|right; now apply HS].
      * tauto.
      * tauto.
Qed.
Lemma K_set_compact m cs : K true m cs -> K false (set_compact true ;; m ;; set_compact false) cs.
Proof.
  intros A f E. unfold seq. destruct (A (set_compact true f) eq_refl) as (_ & x & O & S). split; [reflexivity|]. exists x. split; [exact O|exact S].
Qed.
Lemma K_copts c : copts_ok (Some c) -> (forall x, In x (copts_lost (Some c)) -> L x) -> K false (write_copts dec c) (comments (copts_toks c)).
Proof.
  intros (_ & _ & _ & Oo & N1 & N2) HL. unfold write_copts. apply K_set_compact. cbn [copts_lost] in HL. unfold copts_toks. destruct (copts_expanded c) eqn:E.
  - assert (HS : forall x, In x (semi_lost (co_close c) (co_semi c)) -> L x) by sub. assert (HC : forall x, In x (columns_lost (co_opts c)) -> L x) by sub.
    pose proof (copts_elems _ Oo HC) as A. apply (K_columns dec) in A. destruct (co_opts c) as [|o r] eqn:Eo; [unfold copts_expanded in E; rewrite Eo in E; discriminate|].
    eapply K_sub; [eapply (K_body true _ _ _ (Some _)); [intro; apply K_open_prefix|apply K_body_end_inline, HS|exact A]|]. clear. kin.
  - destruct (co_opts c) as [|o r] eqn:Eo; cbn [nonempty when] in *.
    + eapply K_sub; [apply K_skip|]. intros x I. right. apply HL. unfold copts_toks. rewrite Eo. exact I.
    + rewrite <- Eo in *. assert (HC : forall x, In x (inline_lost (co_opts c)) -> L x) by sub.
      eapply K_sub; [eapply K_seq; [apply K_inline_tok|]; apply (K_inline_opts _ _ (K_inline_tok true (co_close c)) _ Oo (N1 eq_refl) HC)|]. clear - HL. kin.
Qed.
Lemma K_ocopts oc : copts_ok oc -> (forall x, In x (copts_lost oc) -> L x) -> K false (opt_w (write_copts dec) oc) (comments (opt_toks copts_toks oc)).
Proof. destruct oc as [c|]; intros O HL; [apply K_copts; assumption|apply K_skip]. Qed.
Lemma K_opts oc : copts_ok oc -> (forall x, In x (copts_lost oc) -> L x) -> K false (write_opts dec oc) (comments (opt_toks copts_toks oc)).
Proof. destruct oc as [c|]; intros O HL; [|apply K_skip]. cbn [opt_toks]. change (comments (copts_toks c)) with ([] ++ comments (copts_toks c)). apply K_seq; [apply K_space|apply K_copts; assumption]. Qed.
Lemma K_option o : keyword_option_ok o -> (forall c, In c (name_lost o ++ val_lost o) -> L c) -> K false (write_option dec o) (comments (opt_node_toks o)).
Proof.
  intros (((ps & En & On) & (e & Ee & _) & (v & Ev & Ov) & _) & (k & Ek & _) & _) HL. unfold val_lost in HL. rewrite Ev, (name_lost_dots _ _ En) in HL.
  assert (HN : forall c, In c (comments (dots ps)) -> L c) by sub. assert (HV : forall c, In c (value_lost v) -> L c) by sub. clear HL.
  unfold write_option. rewrite En, Ee, Ev, Ek. cbn [opt_w must]. eapply K_sub.
  - eapply K_seq; [eapply K_seq; [apply K_start_tok|]; eapply K_seq; [apply K_space|exact (K_name_plain ps HN)]|]. eapply K_seq; [apply K_space|]. eapply K_seq; [apply K_inline_tok|]. eapply K_seq; [apply K_space|].
    instantiate (1 := comments (value_toks v) ++ comments (otoks (o_semi o))). destruct (compound (Some v)) as [ts|] eqn:Ec.
    + apply compound_str in Ec. injection Ec as ->. destruct (o_semi o) as [t|]; (eapply K_sub; [first [eapply K_seq; [apply K_compound|apply K_line_end] | apply K_compound]|cbn [value_toks]; clear; kin]).
    + pose proof (K_inline_v false v Ov HV) as A. destruct (o_semi o) as [t|]; (eapply K_sub; [first [eapply K_seq; [exact A|apply K_line_end] | exact A]|clear; kin]).
  - unfold opt_node_toks. rewrite En, Ee, Ev, Ek. cbn [opt_toks]. clear. kin.
Qed.

(* ---- declarations ---- *)
Lemma K_spaced ic m cs : K ic m cs -> K ic (space ;; m) cs.
Proof. intro A. change cs with ([] ++ cs). apply K_seq; [apply K_space|exact A]. Qed.
Lemma K_ospaced ic o : K ic (opt_w (fun t => space ;; inline_tok t) o) (comments (otoks o)).
Proof. destruct o as [t|]; [|apply K_skip]. eapply K_sub; [apply K_spaced, K_inline_tok|]. clear; kin. Qed.
Lemma K_type_rest ic ty : ident_ok ty -> exists cs, K ic (field_type_rest ty) cs /\ forall c, In c (comments (ident_toks ty)) -> In c cs \/ In c (lead_of (firstn 1 (ident_toks ty))).
Proof.
  intro O. destruct ty as [t|[|t r]]; cbn [field_type_rest ident_toks firstn lead_of].
  - eexists. split; [eapply K_seq; [apply K_tok|apply K_start_post]|]. cbn [trail_of rev app]. intros c I. innh I. inn. rewrite ?in_tok in *. tauto.
  - destruct O as [O|(d & r & O & _)]; [inversion O|discriminate].
  - eexists. split; [eapply K_seq; [apply K_tok|]; eapply K_seq; [apply K_start_post|]; eapply K_seq; [eapply K_when; apply K_inline_tok|apply K_inline_toks]|].
    cbn [trail_of rev app]. intros c I. innh I. inn. rewrite ?in_tok in *. tauto.
Qed.
Lemma field_k l ty n e tg os sm : decl_ok (DField l ty n e tg os sm) -> (forall c, In c (decl_lost false (DField l ty n e tg os sm)) -> L c) ->
  K false (write_field dec l ty n e tg os sm) (comments (decl_toks (DField l ty n e tg os sm))) /\
  forall lastx w, elem_k false lastx (decl_elem dec w (DField l ty n e tg os sm)) (comments (decl_toks (DField l ty n e tg os sm))).
Proof.
  intros (_ & Ot & _ & (tn & -> & _) & (te & -> & _) & (v & -> & Ov) & Oc & _) HL. cbn [decl_lost] in HL.
  assert (HV : forall c, In c (value_lost v) -> L c) by sub. assert (HO : forall c, In c (copts_lost os) -> L c) by sub. clear HL.
  destruct (K_type_rest false ty Ot) as (ct & Kt & Ht). split.
  - unfold write_field. eapply K_sub.
    + eapply K_seq; [instantiate (1 := comments (otoks l) ++ comments (ident_toks ty))|].
      * destruct l as [t|].
        -- eapply K_sub; [eapply K_seq; [apply K_start_tok|]; apply K_spaced; apply K_inline_ident|]. clear; kin.
        -- eapply K_sub; [eapply K_seq; [apply K_start_pre|exact Kt]|]. intros c I. innh I. inn. destruct I as [[]|I]. destruct (Ht c I); tauto.
      * eapply K_seq; [apply K_ospaced|]. eapply K_seq; [apply K_ospaced|]. eapply K_seq; [apply K_spaced; exact (K_inline_v false v Ov HV)|]. eapply K_seq; [exact (K_opts os Oc HO)|]. apply K_must, K_line_end.
    + cbn [decl_toks opt_toks]. clear. kin.
  - intros lastx w. right. split; [discriminate|]. split; [reflexivity|]. cbn [decl_elem e_seg]. unfold field_seg. cbn [s_ctx s_type s_name s_eq s_end s_outer must].
    exists (match l with Some t => t_lead t | None => lead_of (firstn 1 (ident_toks ty)) end), (match l with Some t => t_trail t ++ comments (ident_toks ty) | None => ct end),
      (tok_comments tn), (tok_comments te ++ comments (value_toks v)), (comments (opt_toks copts_toks os) ++ comments (otoks sm)), [].
    split; [destruct l; apply K_start_pre|]. split.
    { destruct l as [t|]; [|exact Kt]. eapply K_sub; [eapply K_seq; [apply K_tok|]; eapply K_seq; [apply K_start_post|]; apply K_spaced, K_inline_ident|]. cbn [trail_of rev app]. clear; kin. }
    split; [apply K_inline_tok|]. split; [apply K_seq; [apply K_inline_tok|]; apply K_spaced; exact (K_inline_v false v Ov HV)|].
    split; [apply K_seq; [exact (K_ocopts os Oc HO)|apply K_must, K_line_end]|]. split; [apply K_skip|].
    cbn [decl_toks opt_toks]. intros c I. innh I. destruct l as [t|]; innh I; inn; rewrite ?in_tok in *; [tauto|]. specialize (Ht c). tauto.
Qed.
Lemma K_map_rest ic o k cm v c : K ic (map_type_rest o k cm v c) (comments (o :: ident_toks k ++ cm :: ident_toks v ++ [c])).
Proof.
  unfold map_type_rest. eapply K_sub; [eapply K_seq; [apply K_inline_tok|]; eapply K_seq; [apply K_inline_ident|]; eapply K_seq; [apply K_inline_tok|]; apply K_spaced; eapply K_seq; [apply K_inline_ident|apply K_inline_tok]|].
  clear; kin.
Qed.
Lemma K_map_semi ic o : K ic (map_semi_comments o) (match o with Some t => t_trail t | None => [] end).
Proof. destruct o as [t|]; [|apply K_skip]. cbn [map_semi_comments]. apply K_nonempty; [auto|apply K_inline]. Qed.
Lemma map_k kw o k cm v c tsm n e tg os sm : let d := DMap kw o k cm v c tsm n e tg os sm in decl_ok d -> (forall c, In c (decl_lost false d) -> L c) ->
  K false (write_decl dec d) (comments (decl_toks d)) /\ forall lastx w, elem_k false lastx (decl_elem dec w d) (comments (decl_toks d)).
Proof.
  intros d (_ & _ & _ & _ & _ & _ & _ & _ & _ & Ov & Oc & _) HL. subst d. cbn [decl_lost] in HL.
  assert (HV : forall c, In c (value_lost tg) -> L c) by sub. assert (HO : forall c, In c (copts_lost os) -> L c) by sub. assert (HS : forall c, In c (lead_of (otoks tsm)) -> L c) by sub. clear HL. split.
  - cbn [write_decl]. eapply K_sub; [eapply K_seq; [apply K_start_tok|]; eapply K_seq; [apply K_map_rest|]; eapply K_seq; [apply K_map_semi|]; apply K_spaced; eapply K_seq; [apply K_inline_tok|]; apply K_spaced; eapply K_seq; [apply K_inline_tok|];
      apply K_spaced; eapply K_seq; [exact (K_inline_v false tg Ov HV)|]; eapply K_seq; [exact (K_opts os Oc HO)|apply K_must, K_line_end]|].
    cbn [decl_toks]. clear - HS. destruct tsm; kin.
  - intros lastx w. right. split; [discriminate|]. split; [reflexivity|]. cbn [decl_elem e_seg]. unfold map_seg. cbn [s_ctx s_type s_name s_eq s_end s_outer].
    eexists _, _, _, _, _, _. split; [apply K_start_pre|]. split; [eapply K_seq; [apply K_tok|]; eapply K_seq; [apply K_start_post|apply K_map_rest]|]. split; [apply K_inline_tok|].
    split; [eapply K_seq; [apply K_inline_tok|]; apply K_spaced; exact (K_inline_v false tg Ov HV)|]. split; [eapply K_seq; [exact (K_ocopts os Oc HO)|apply K_must, K_line_end]|]. split; [apply K_map_semi|].
    cbn [decl_toks trail_of lead_of rev app]. clear - HS. destruct tsm; kin.
Qed.
Lemma enum_value_k n e v os sm : let d := DEnumValue n e v os sm in decl_ok d -> (forall c, In c (decl_lost false d) -> L c) ->
  K false (write_decl dec d) (comments (decl_toks d)) /\ forall lastx w, elem_k false lastx (decl_elem dec w d) (comments (decl_toks d)).
Proof.
  intros d (_ & _ & Ov & Oc & _) HL. subst d. cbn [decl_lost] in HL.
  assert (HV : forall c, In c (value_lost v) -> L c) by sub. assert (HO : forall c, In c (copts_lost os) -> L c) by sub. clear HL. split.
  - cbn [write_decl]. eapply K_sub; [eapply K_seq; [apply K_start_tok|]; apply K_spaced; eapply K_seq; [apply K_inline_tok|];
      apply K_spaced; eapply K_seq; [exact (K_inline_v false v Ov HV)|]; eapply K_seq; [exact (K_opts os Oc HO)|apply K_must, K_comma]|].
    cbn [decl_toks]. clear. kin.
  - intros lastx w. right. split; [discriminate|]. split; [reflexivity|]. cbn [decl_elem e_seg]. unfold enum_value_seg. cbn [s_ctx s_type s_name s_eq s_end s_outer].
    eexists _, _, _, _, _, _. split; [apply K_start_pre|]. split; [apply K_skip|]. split; [eapply K_seq; [apply K_tok|apply K_start_post]|].
    split; [eapply K_seq; [apply K_inline_tok|]; apply K_spaced; exact (K_inline_v false v Ov HV)|]. split; [eapply K_seq; [exact (K_ocopts os Oc HO)|apply K_must, K_comma]|]. split; [apply K_skip|].
    cbn [decl_toks trail_of lead_of rev app]. clear. kin.
Qed.
Lemma K_relem e : relem_ok e -> (forall c, In c (relem_lost e) -> L c) -> K false (write_relem dec e) (comments (relem_toks e)).
Proof.
  destruct e as [t|v|s to en mx]; cbn [relem_ok relem_lost relem_toks write_relem]; intros O HL.
  - eapply K_sub; [apply K_inline_tok|]. clear; kin.
  - apply K_spaced. apply K_inline_v; assumption.
  - destruct O as (Os & _ & Oe). assert (HS : forall c, In c (value_lost s) -> L c) by sub.
    apply K_spaced, K_inline_node. eapply K_sub; [eapply K_seq; [exact (K_inline_v false s Os HS)|]; eapply K_seq; [apply K_ospaced|]|].
    + instantiate (1 := comments (opt_toks value_toks en) ++ comments (otoks mx)). destruct en as [v|].
      * destruct Oe as [Ov ->]. eapply K_sub; [apply K_spaced, (K_inline_v false v Ov); sub|]. clear; kin.
      * destruct mx as [t|]; [|apply K_skip]. eapply K_sub; [apply K_spaced, K_inline_tok|]. clear; kin.
    + clear. kin.
Qed.
Lemma K_relems : forall es, Forall relem_ok es -> (forall c, In c (flat_map relem_lost es) -> L c) -> K false (seqs (map (write_relem dec) es)) (comments (flat_map relem_toks es)).
Proof.
  induction 1 as [|e r Oe Or IH]; intro HL; [apply K_skip|]. cbn [flat_map map seqs] in *. rewrite comments_app. apply K_seq; [apply K_relem; [exact Oe|sub]|apply IH; sub].
Qed.
Lemma K_rpctype r : K false (write_rpctype r) (comments (rpctype_toks r)).
Proof.
  unfold write_rpctype, rpctype_toks. apply K_inline_node. eapply K_sub; [eapply K_seq; [apply K_inline_tok|]; eapply K_seq; [|eapply K_seq; [apply K_inline_ident|apply K_inline_tok]]|].
  - instantiate (1 := comments (otoks (rt_stream r))). destruct (rt_stream r) as [t|]; [|apply K_skip]. eapply K_sub; [eapply K_seq; [apply K_inline_tok|apply K_space]|]. clear; kin.
  - clear; kin.
Qed.
Definition DK (d : decl) : Prop := decl_ok d ->
  ((forall c, In c (decl_lost false d) -> L c) -> K false (write_decl dec d) (comments (decl_toks d))) /\
  ((forall c, In c (decl_lost true d) -> L c) -> forall lastx, elem_k false lastx (decl_elem dec (write_decl dec d) d) (comments (decl_toks d))).
Lemma plain_k d : e_kind (decl_elem dec (write_decl dec d) d) = ENone -> e_node (decl_elem dec (write_decl dec d) d) = write_decl dec d -> decl_lost true d = decl_lost false d ->
  ((forall c, In c (decl_lost false d) -> L c) -> K false (write_decl dec d) (comments (decl_toks d))) ->
  ((forall c, In c (decl_lost false d) -> L c) -> K false (write_decl dec d) (comments (decl_toks d))) /\
  ((forall c, In c (decl_lost true d) -> L c) -> forall lastx, elem_k false lastx (decl_elem dec (write_decl dec d) d) (comments (decl_toks d))).
Proof. intros E1 E2 E3 A. split; [exact A|]. rewrite E3. intros HL lastx. left. split; [exact E1|]. rewrite E2. auto. Qed.
Lemma decls_elems : forall b, Forall DK b -> Forall decl_ok b -> (forall c, In c (flat_map (decl_lost true) b) -> L c) ->
  elems_k false 0 (map (fun d => decl_elem dec (write_decl dec d) d) b) (comments (flat_map decl_toks b)).
Proof.
  induction b as [|d r IH]; intros F O HL; [constructor|]. inversion F as [|x y Fd Fr]; inversion O as [|x' y' Od Or]; subst. cbn [map flat_map] in *. rewrite comments_app. constructor.
  - apply (Fd Od). sub. - apply IH; auto. sub.
Qed.
Lemma K_decls : forall b, Forall DK b -> Forall decl_ok b -> (forall c, In c (flat_map (decl_lost false) b) -> L c) ->
  K false (seqs (map (write_decl dec) b)) (comments (flat_map decl_toks b)).
Proof.
  induction b as [|d r IH]; intros F O HL; [apply K_skip|]. inversion F as [|x y Fd Fr]; inversion O as [|x' y' Od Or]; subst. cbn [map seqs flat_map] in *. rewrite comments_app. apply K_seq.
  - apply (Fd Od). sub. - apply IH; auto. sub.
Qed.
Lemma K_type_body {A} o c sm (b : list A) m cs : (forall x, In x (semi_lost c sm) -> L x) -> K false m cs -> (b = [] -> cs = []) ->
  K false (type_body o c sm (some_if b m)) (tok_comments o ++ cs ++ tok_comments c ++ comments (otoks sm)).
Proof.
  intros HS A0 N. unfold type_body. apply K_body; [intro; apply K_open_prefix|apply K_body_end, HS|]. destruct b; [exact (N eq_refl)|exact A0].
Qed.
Lemma columns_k o c sm b : Forall DK b -> Forall decl_ok b -> (forall x, In x (flat_map (decl_lost true) b ++ semi_lost c sm) -> L x) ->
  K false (type_body o c sm (some_if b (columns dec (map (fun d => decl_elem dec (write_decl dec d) d) b)))) (tok_comments o ++ comments (flat_map decl_toks b) ++ tok_comments c ++ comments (otoks sm)).
Proof. intros F O HL. apply K_type_body; [sub|apply K_columns, decls_elems; auto; sub|]. now intros ->. Qed.
Lemma seqs_k o c sm b : Forall DK b -> Forall decl_ok b -> (forall x, In x (flat_map (decl_lost false) b ++ semi_lost c sm) -> L x) ->
  K false (type_body o c sm (some_if b (seqs (map (write_decl dec) b)))) (tok_comments o ++ comments (flat_map decl_toks b) ++ tok_comments c ++ comments (otoks sm)).
Proof. intros F O HL. apply K_type_body; [sub|apply K_decls; auto; sub|]. now intros ->. Qed.
Lemma K_named kw n m cs : K false m cs -> K false (start_tok false kw ;; space ;; inline_tok n ;; space ;; m) (tok_comments kw ++ tok_comments n ++ cs).
Proof. intro A. apply K_seq; [apply K_start_tok|]. apply K_spaced. apply K_seq; [apply K_inline_tok|]. now apply K_spaced. Qed.
Lemma DK_all : forall d, DK d.
Proof.
  apply decl_ind2; unfold DK.
  - intros l ty n e tg os sm O. split; intro HL; [exact (proj1 (field_k _ _ _ _ _ _ _ O HL))|]. intro lastx. exact (proj2 (field_k _ _ _ _ _ _ _ O HL) lastx _).
  - intros kw o k cm v c tsm n e tg os sm O. split; intro HL; [exact (proj1 (map_k _ _ _ _ _ _ _ _ _ _ _ _ O HL))|]. intro lastx. exact (proj2 (map_k _ _ _ _ _ _ _ _ _ _ _ _ O HL) lastx _).
  - intros n e v os sm O. split; intro HL; [exact (proj1 (enum_value_k _ _ _ _ _ O HL))|]. intro lastx. exact (proj2 (enum_value_k _ _ _ _ _ O HL) lastx _).
  - intros o O. split; intro HL; [exact (K_option o O HL)|]. intro lastx. exact (opt_elem_k lastx skip o O HL).
  - intros kw es sm (_ & Oe & _). apply plain_k; [reflexivity..|]. intro HL. cbn [write_decl decl_toks decl_lost] in *.
    eapply K_sub; [eapply K_seq; [apply K_start_tok|]; eapply K_seq; [exact (K_relems es Oe HL)|apply K_must, K_line_end]|]. clear; kin.
  - intros kw es os sm (_ & Oe & Oc & _). apply plain_k; [reflexivity..|]. intro HL. cbn [write_decl decl_toks decl_lost] in *.
    eapply K_sub; [eapply K_seq; [apply K_start_tok|]; apply K_spaced; eapply K_seq; [apply (K_relems es Oe); sub|]; eapply K_seq; [apply (K_opts os Oc); sub|apply K_must, K_line_end]|]. clear; kin.
  - intros kw n o b c sm F (_ & _ & _ & _ & _ & Ob). apply all_forall in Ob. apply plain_k; [reflexivity..|]. intro HL. eapply K_sub; [exact (K_named kw n _ _ (columns_k o c sm b F Ob HL))|]. cbn [decl_toks]. clear; kin.
  - intros kw n o b c sm F (_ & _ & _ & _ & _ & Ob). apply all_forall in Ob. apply plain_k; [reflexivity..|]. intro HL. eapply K_sub; [exact (K_named kw n _ _ (columns_k o c sm b F Ob HL))|]. cbn [decl_toks]. clear; kin.
  - intros kw n o b c sm F (_ & _ & _ & _ & _ & Ob). apply all_forall in Ob. apply plain_k; [reflexivity..|]. intro HL. eapply K_sub; [exact (K_named kw n _ _ (columns_k o c sm b F Ob HL))|]. cbn [decl_toks]. clear; kin.
  - intros kw x o b c sm F (_ & _ & _ & _ & _ & Ob). apply all_forall in Ob. apply plain_k; [reflexivity..|]. intro HL. cbn [write_decl decl_toks].
    eapply K_sub; [eapply K_seq; [apply K_start_tok|]; eapply K_seq; [instantiate (1 := comments (opt_toks ident_toks x)); destruct x as [i|]; [apply K_spaced, K_inline_ident|apply K_skip]|]; apply K_spaced; exact (columns_k o c sm b F Ob HL)|]. clear; kin.
  - intros l kw n e tg os o b c sm F (_ & _ & _ & _ & Ov & Oc & _ & _ & _ & Ob). apply all_forall in Ob. apply plain_k; [reflexivity..|]. intro HL. cbn [write_decl decl_toks decl_lost] in *.
    eapply K_sub; [eapply K_seq; [instantiate (1 := comments (otoks l ++ [kw])); destruct l as [t|]|apply K_spaced; eapply K_seq; [apply K_inline_tok|]; apply K_spaced; eapply K_seq; [apply K_inline_tok|]; apply K_spaced;
      eapply K_seq; [apply (K_inline_v false tg Ov); sub|]; eapply K_seq; [apply (K_opts os Oc); sub|]; apply K_spaced; apply (seqs_k o c sm b F Ob); sub]|].
    + eapply K_sub; [eapply K_seq; [apply K_start_tok|]; apply K_spaced, K_inline_tok|]. clear; kin.
    + eapply K_sub; [apply K_start_tok|]. clear; kin.
    + clear; kin.
  - intros kw n o b c sm F (_ & _ & _ & _ & _ & Ob). apply all_forall in Ob. apply plain_k; [reflexivity..|]. intro HL. eapply K_sub; [exact (K_named kw n _ _ (seqs_k o c sm b F Ob HL))|]. cbn [decl_toks]. clear; kin.
  - intros kw n i rt u br b sm F (_ & _ & _ & _ & _ & _ & Ob & Hb). apply all_forall in Ob. apply plain_k; [reflexivity..|]. intro HL. cbn [write_decl decl_toks decl_lost] in *.
    eapply K_sub; [eapply K_seq; [apply K_start_tok|]; apply K_spaced; eapply K_seq; [apply K_inline_tok|]; eapply K_seq; [apply K_rpctype|]; apply K_spaced; eapply K_seq; [apply K_inline_tok|]; apply K_spaced; eapply K_seq; [apply K_rpctype|]|].
    + instantiate (1 := comments (match br with Some (o, c) => o :: flat_map decl_toks b ++ [c] | None => flat_map decl_toks b end) ++ comments (otoks sm)). destruct b as [|d r].
      * eapply K_sub; [apply K_line_end|]. intros x I. right. apply HL. rewrite comments_app. destruct br as [[o c]|]; exact I.
      * destruct br as [[o c]|]; [|discriminate]. eapply K_sub; [apply K_spaced; apply (seqs_k o c sm (d :: r) F Ob HL)|]. clear; kin.
    + clear. kin.
  - intros t _. apply plain_k; [reflexivity..|]. intro HL. eapply K_sub; [apply K_skip|]. cbn [decl_toks]. intros c I. right. apply HL. innh I. cbn [decl_lost]. tauto.
Qed.

(* ---- files ---- *)
Lemma K_sep_line ts : K false (sep_line ts) [].
Proof. unfold sep_line. apply (K_fun false (fun f => when (match prev f with Some _ => true | None => false end && negb (blank_before ts)) p_blank)). intro g. eapply K_when. apply K_p_blank. Qed.
Lemma K_import force i : import_ok i -> (forall c, In c (import_lost i) -> L c) -> K false (write_import dec force i) (comments (import_toks i)).
Proof.
  intros (_ & _ & Ov & _) HL. unfold import_lost in HL. assert (HV : forall c, In c (value_lost (i_name i)) -> L c) by sub.
  unfold write_import, import_toks. eapply K_sub; [eapply K_seq; [apply K_start_tok|]; apply K_spaced; eapply K_seq; [|eapply K_seq; [exact (K_inline_v false _ Ov HV)|apply K_must, K_line_end]]|].
  - instantiate (1 := comments (otoks (i_mod i))). destruct (i_mod i) as [t|]; [|apply K_skip]. eapply K_sub; [eapply K_seq; [apply K_inline_tok|apply K_space]|]. clear; kin.
  - clear; kin.
Qed.
Lemma K_imports : forall l previous, Forall import_ok l -> (forall c, In c (flat_map import_lost l) -> L c) -> K false (write_imports dec previous l) (comments (flat_map import_toks l)).
Proof.
  induction l as [|i r IH]; intros previous O HL; [apply K_skip|]. inversion O as [|x y Oi Or]; subst. cbn [write_imports flat_map] in *. rewrite comments_app.
  assert (HI : forall c, In c (import_lost i) -> L c) by sub. apply K_seq; [|apply IH; [exact Or|sub]]. destruct previous as [p|].
  - destruct (negb (beq (i_path i) p && negb (import_commented i))) eqn:E; cbn [when]; [exact (K_import true i Oi HI)|]. apply negb_false_iff, andb_true_iff in E as [_ E]. apply negb_true_iff in E.
    eapply K_sub; [apply K_skip|]. intros c I. right. apply HI. unfold import_lost. rewrite E, in_app_iff. now right.
  - change (comments (import_toks i)) with ([] ++ comments (import_toks i)). apply K_seq; [apply K_sep_line|exact (K_import false i Oi HI)].
Qed.
Lemma options_k : forall os, Forall keyword_option_ok os -> (forall c, In c (flat_map (column_lost false) os) -> L c) -> elems_k false 0 (map (opt_elem dec false skip) os) (comments (flat_map opt_node_toks os)).
Proof.
  induction 1 as [|o r Oo Or IH]; intro HL; [constructor|]. cbn [map flat_map] in *. rewrite comments_app. constructor; [apply opt_elem_k; [exact Oo|sub]|apply IH; sub].
Qed.
Lemma K_types : forall ds, Forall fdecl_ok ds -> (forall c, In c (flat_map fdecl_lost ds) -> L c) ->
  K false (seqs (map (write_type dec) ds)) (comments (flat_map (fun d => match d with FDecl d => decl_toks d | _ => [] end) ds)).
Proof.
  induction 1 as [|d r Od Or IH]; intro HL; [apply K_skip|]. cbn [map seqs flat_map] in *. rewrite comments_app. apply K_seq; [|apply IH; sub].
  destruct d as [kw n sm|i|o|d]; try apply K_skip. cbn [fdecl_lost] in HL. destruct Od as [Od No].
  assert (G : K false (sep_line (decl_toks d) ;; write_decl dec d) (comments (decl_toks d))).
  { change (comments (decl_toks d)) with ([] ++ comments (decl_toks d)). apply K_seq; [apply K_sep_line|]. apply (DK_all d Od). sub. }
  destruct d; try exact G; [destruct No|]. eapply K_sub; [apply K_skip|]. cbn [decl_toks]. intros c I. right. apply HL. innh I. inn. cbn [decl_lost]. tauto.
Qed.
Lemma K_syntax s : match s with Some (k, e, v, sm) => idt k /\ runet "=" e /\ value_ok v /\ some_rune ";" sm | None => True end ->
  (forall c, In c (match s with Some (_, _, v, _) => value_lost v | None => [] end) -> L c) -> K false (opt_w (write_syntax dec) s) (comments (syntax_toks s)).
Proof.
  destruct s as [[[[k e] v] sm]|]; intros O HL; [|apply K_skip]. destruct O as (_ & _ & Ov & _). cbn [opt_w write_syntax syntax_toks].
  eapply K_sub; [eapply K_seq; [apply K_start_tok|]; apply K_spaced; eapply K_seq; [apply K_inline_tok|]; apply K_spaced; eapply K_seq; [exact (K_inline_v false v Ov HL)|apply K_must, K_line_end]|]. clear; kin.
Qed.
Lemma K_packages ds : List.length (packages ds) <= 1 -> K false (match rev (packages ds) with p :: _ => write_package p | [] => skip end) (comments (flat_map fdecl_toks (packages ds))).
Proof.
  intro Le. destruct (packages ds) as [|p [|q r]] eqn:E; [apply K_skip| |cbn in Le; lia].
  assert (I : In p (packages ds)) by (rewrite E; now left). unfold packages in I. apply filter_In in I. destruct I as [_ I]. destruct p as [kw n sm| | |]; try discriminate.
  cbn [rev app write_package flat_map fdecl_toks]. eapply K_sub; [eapply K_seq; [apply K_start_tok|]; apply K_spaced; eapply K_seq; [apply K_oident|apply K_must, K_line_end]|]. clear; kin.
Qed.
Lemma decls_split c : forall ds, In c (comments (flat_map fdecl_toks ds)) ->
  In c (comments (flat_map fdecl_toks (packages ds))) \/ In c (comments (flat_map import_toks (imports ds))) \/ In c (comments (flat_map opt_node_toks (options ds))) \/
  In c (comments (flat_map (fun d => match d with FDecl d => decl_toks d | _ => [] end) ds)).
Proof.
  induction ds as [|d r IH]; [intros []|]. cbn [flat_map]. intro I. innh I. destruct d as [kw n sm|i|o|d]; cbn [fdecl_toks] in I; unfold packages, imports, options; cbn [filter flat_map app]; fold (packages r) (imports r) (options r); cbn [flat_map fdecl_toks]; inn; innh I; tauto.
Qed.
Lemma in_flat_perm {A} (f : A -> list comment) l l' c : Permutation l l' -> In c (flat_map f l) -> In c (flat_map f l').
Proof. intros P I. apply in_flat_map in I as (x & J & I). apply in_flat_map. exists x. split; [exact (Permutation_in _ P J)|exact I]. Qed.
Lemma comments_flat {A} (f : A -> list token) l : comments (flat_map f l) = flat_map (fun x => comments (f x)) l.
Proof. induction l as [|a l IH]; [reflexivity|]. cbn [flat_map]. now rewrite comments_app, IH. Qed.
Lemma imports_lost c : forall ds, In c (flat_map import_lost (imports ds)) -> In c (flat_map fdecl_lost ds).
Proof. induction ds as [|d r IH]; [intros []|]. destruct d; cbn [imports flat_map app fdecl_lost]; fold (imports r); rewrite ?in_app_iff; tauto. Qed.
Lemma options_lost c : forall ds, In c (flat_map (column_lost false) (options ds)) -> In c (flat_map fdecl_lost ds).
Proof. induction ds as [|d r IH]; [intros []|]. destruct d; cbn [options flat_map app fdecl_lost]; fold (options r); rewrite ?in_app_iff; tauto. Qed.
Variables (isort : list import -> list import) (osort : list opt -> list opt).
Hypothesis isort_perm : forall l, Permutation (isort l) l.
Hypothesis osort_perm : forall l, Permutation (osort l) l.
Lemma K_file f : file_ok f -> (forall c, In c (file_lost f) -> L c) -> K false (write_file dec isort osort f) (file_comments f).
Proof.
  intros (Os & Od & Lp & _) HL. unfold file_lost in HL.
  assert (HS : forall c, In c (match f_syntax f with Some (_, _, v, _) => value_lost v | None => [] end) -> L c) by sub.
  assert (HD : forall c, In c (flat_map fdecl_lost (f_decls f)) -> L c) by sub.
  assert (HE : forall c, In c (match f_eof f with Some t => t_trail t | None => [] end) -> L c) by sub. clear HL.
  set (im := isort (imports (f_decls f))). set (op := osort (options (f_decls f))).
  assert (Ki : K false (write_imports dec None im) (comments (flat_map import_toks (imports (f_decls f))))).
  { eapply K_sub; [apply K_imports|].
    - exact (Permutation_Forall (Permutation_sym (isort_perm _)) (forall_imports _ Od)).
    - intros c I. apply HD, imports_lost. exact (in_flat_perm _ _ _ c (isort_perm _) I).
    - intros c I. left. rewrite comments_flat in *. exact (in_flat_perm _ _ _ c (Permutation_sym (isort_perm _)) I). }
  assert (Ko : K false (columns dec (map (opt_elem dec false skip) op)) (comments (flat_map opt_node_toks (options (f_decls f))))).
  { eapply K_sub; [apply K_columns, options_k|].
    - exact (Permutation_Forall (Permutation_sym (osort_perm _)) (forall_options _ Od)).
    - intros c I. apply HD, options_lost. exact (in_flat_perm _ _ _ c (osort_perm _) I).
    - intros c I. left. rewrite comments_flat in *. exact (in_flat_perm _ _ _ c (Permutation_sym (osort_perm _)) I). }
  unfold write_file, write_header. fold im op. eapply K_sub.
  - eapply K_seq; [eapply K_seq; [exact (K_syntax _ Os HS)|]; eapply K_seq; [exact (K_packages _ Lp)|]; eapply K_seq; [exact Ki|]|].
    + instantiate (1 := comments (flat_map opt_node_toks (options (f_decls f)))). clearbody op. destruct op as [|o r]; [exact Ko|].
      change (comments (flat_map opt_node_toks (options (f_decls f)))) with ([] ++ comments (flat_map opt_node_toks (options (f_decls f)))). apply K_seq; [apply K_sep_line|exact Ko].
    + eapply K_seq; [exact (K_types _ Od HD)|]. eapply K_seq.
      * instantiate (1 := lead_of (otoks (f_eof f))). destruct (f_eof f) as [t|]; [apply K_multiline|apply K_skip].
      * apply (K_fun false (fun st => when (negb (mem (lastw st) [zero; nl])) p_blank)). intro g. eapply K_when. apply K_p_blank.
  - intros c I. unfold file_comments, file_toks in I. innh I. inn. destruct I as [[I|I]|I]; [tauto| |].
    + pose proof (decls_split c _ I). tauto.
    + specialize (HE c). destruct (f_eof f) as [t|]; [|destruct I]. innh I. rewrite in_tok in I. inn. tauto.
Qed.
End Values.
End Lost.

Lemma comments_kept dec isort osort f c :
  (forall l, Permutation (isort l) l) -> (forall l, Permutation (osort l) l) -> file_ok f ->
  In c (file_comments f) -> comment_ok c -> c_virtual c = false ->
  shown (c_text c) (out (format dec isort osort f)) \/ In c (file_lost f).
Proof.
  intros Pi Po O I C V. destruct (K_file (fun c => In c (file_lost f)) dec isort osort Pi Po f O (fun c H => H) start eq_refl) as (_ & x & E & S).
  destruct (S c I C) as [X|[X|X]]; [congruence|now right|]. left. unfold format. rewrite E. exact X.
Qed.
