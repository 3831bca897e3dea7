(** Proofs about printed comments. *)
From Coq Require Import Ascii String ZArith Lia.
From Verif Require Import Base Strs Paths.
From Verif.Print Require Import Model Spec Comments.
From Verif.Remarks Require Import Model Spec.
Open Scope list_scope.

Lemma trivia_app a x : trivia a x -> forall b y, trivia b y -> trivia (a ++ b) (x ++ y).
Proof.
  induction 1 as [|c s rs C T IH|body s rs N T IH|body s rs I T IH]; intros b y B; cbn [app].
  - exact B.
  - constructor; [exact C|now apply IH].
  - rewrite <- !app_assoc. cbn [app]. change ("/"%char :: "/"%char :: ?z) with (b_ "//" ++ z). apply t_line; [exact N|now apply IH].
  - rewrite <- !app_assoc. cbn [app]. change ("/"%char :: "*"%char :: ?z) with (b_ "/*" ++ z). change ("*"%char :: "/"%char :: ?z) with (b_ "*/" ++ z).
    apply t_block; [exact I|now apply IH].
Qed.
Lemma trivia_blank s : blank_text s -> trivia s [].
Proof.
  induction s as [|c s IH]; intro B; [constructor|]. constructor; [destruct (B c (or_introl eq_refl)); auto|]. apply IH. intros x X. apply B. now right.
Qed.
Lemma trivia_nl : trivia [nl] []. Proof. constructor; [auto|constructor]. Qed.
Lemma trivia_sp : trivia [sp] []. Proof. constructor; [auto|constructor]. Qed.

(** the lines of a comment *)
Lemma comment_has_lines c : has_lines c (comment_lines c).
Proof.
  destruct (comment_lines c) as [|l ls] eqn:E; [left; split; [reflexivity|now apply lines_none]|]. right. split; [discriminate|].
  split; [apply Forall_forall; intros x X; rewrite <- E in X; now apply comment_line_free in X|]. rewrite <- E.
  assert (G : forall r, drop_last_blank r <> [] -> exists b, (b = [] \/ b = [nl]) /\ join_with nl r = join_with nl (drop_last_blank r) ++ b).
  { intros r H. destruct r as [|x r0 _] using rev_ind; [exists []; split; [now left|reflexivity]|]. unfold drop_last_blank in *. rewrite rev_app_distr in *. cbn [rev app] in *.
    destruct x as [|y x]; cbn [drop_first_blank] in *.
    - rewrite rev_involutive in *. exists [nl]. split; [now right|]. apply join_snoc. exact H.
    - exists []. split; [now left|]. cbn [rev]. now rewrite rev_involutive, app_nil_r. }
  pose proof (join_split nl c) as J. unfold comment_lines in *. destruct (split_on nl c) as [|[|y x] r] eqn:Sp; cbn [drop_first_blank] in *; [discriminate| |].
  - destruct (G r) as (b & B & Eb); [rewrite E; discriminate|]. exists [nl], b. split; [now right|]. split; [exact B|]. rewrite <- Eb. rewrite <- J. cbn [join_with]. destruct r; [discriminate|reflexivity].
  - destruct (G ((y :: x) :: r)) as (b & B & Eb); [rewrite E; discriminate|]. exists [], b. split; [now left|]. split; [exact B|]. now rewrite <- J, Eb.
Qed.

(** what printComment writes *)
Lemma lines_trivia unit n ls : blank_text unit -> Forall (fun l => ~ In nl l) ls -> forall i,
  trivia (List.concat (mapi (line_comment unit n) i ls)) (map Line (map (fun l => trim_right (pad l)) ls)).
Proof.
  intros B F. induction F as [|l ls N F IH]; intro i; [constructor|]. cbn [mapi List.concat map].
  change (Line (trim_right (pad l)) :: ?z) with ([Line (trim_right (pad l))] ++ z). apply trivia_app; [|apply IH]. unfold line_comment.
  change [Line (trim_right (pad l))] with ([] ++ [Line (trim_right (pad l))]). apply trivia_app; [apply trivia_blank, maybe_blank, B|].
  apply t_line; [|constructor]. intro H. apply trim_right_in, pad_in in H. destruct H; [discriminate|contradiction].
Qed.
Lemma lead_trivia s : lead_text s -> trivia s [].
Proof. intros (b & B & [->| ->]); [now apply trivia_blank|]. constructor; [auto|now apply trivia_blank]. Qed.
Lemma closes_index body : closes false body = false -> index_sub (body ++ b_ "*/") (b_ "*/") = Some (List.length body).
Proof. intro H. exact (index_first body [] H). Qed.
Lemma read_closed body t : read_block (b_ "/*" ++ body ++ close_mark ++ t) = Some (body, t) -> index_sub (body ++ b_ "*/") (b_ "*/") = Some (List.length body).
Proof.
  unfold read_block. destruct (has_prefix _ _); [|discriminate]. change (skipn 2 (b_ "/*" ++ body ++ close_mark ++ t)) with (body ++ close_mark ++ t).
  destruct (index_sub (body ++ close_mark ++ t) close_mark) as [i|] eqn:E; [|discriminate]. intro H. injection H as Hb Ht.
  assert (Li : i = List.length body).
  { apply (f_equal (@List.length _)) in Ht. rewrite skipn_length, !app_length in Ht. cbn [List.length close_mark] in Ht. apply (f_equal (@List.length _)) in Hb. rewrite firstn_length, !app_length in Hb. cbn [List.length close_mark] in Hb.
    change (List.length close_mark) with 2 in *. lia. }
  subst i. clear Hb Ht. revert E. change (b_ "*/") with close_mark. induction body as [|c body IH]; cbn [app List.length]; [reflexivity|].
  cbn [index_sub]. destruct (has_prefix (c :: body ++ close_mark ++ t) close_mark) eqn:P; [discriminate|].
  replace (has_prefix (c :: body ++ close_mark) close_mark) with false.
  - destruct (index_sub (body ++ close_mark ++ t) close_mark) eqn:E2; [|discriminate]. intro H. injection H as ->. now rewrite IH.
  - symmetry. destruct (has_prefix (c :: body ++ close_mark) close_mark) eqn:Q; [|reflexivity]. exfalso. apply close_prefix in Q. destruct Q as (-> & r & Er).
    assert (X : has_prefix (star :: body ++ close_mark ++ t) close_mark = true); [|congruence]. apply close_prefix. split; [reflexivity|]. exists (r ++ t). rewrite app_assoc, Er. reflexivity.
Qed.
Lemma lead_first s r : lead_text s -> ~ (s ++ r = [] ) -> starts_tight (s ++ r) = true -> starts_tight r = true.
Proof.
  intros (b & B & [->| ->]) N; [|discriminate]. destruct b as [|c b]; [now intros|]. cbn. destruct (B c (or_introl eq_refl)) as [->| ->]; discriminate.
Qed.
Lemma comment_text pb unit c newline space n force out e : blank_text unit -> print_comment pb unit c newline space n force = Prints out e ->
  exists rs, trivia out rs /\ renders rs c /\ (e = true -> ends_line out) /\ starts_tight out = false.
Proof.
  intros B E. destruct (list_eq_dec (list_eq_dec ascii_dec) (comment_lines c) []) as [Z|Z].
  { assert (E0 := proj1 (lines_none c) Z). assert (P : print_comment pb unit c newline space n force = Prints [] false) by (now apply nothing_iff).
    rewrite P in E. injection E as <- <-. exists []. split; [constructor|]. split; [|split; [discriminate|reflexivity]]. exists []. split; [now left|]. left. exists []. split; constructor. }
  destruct (block_style pb c n) eqn:S.
  - destruct (block_style_text pb unit c newline space n force out e B S Z E) as (pre & body & t & -> & L & R & -> & H).
    exists [Block body]. split; [|split; [|split]].
    + change [Block body] with ([] ++ [Block body]). apply trivia_app; [now apply lead_trivia|]. change close_mark with (b_ "*/"). apply t_block; [exact (read_closed _ _ R)|].
      destruct e; [apply trivia_nl|constructor].
    + exists (comment_lines c). split; [apply comment_has_lines|]. right. destruct H as [(l & El & Hb)|(_ & ind & ts & Bi & Hs & F)]; [left; now exists l, body|right; exists body, ind, ts; auto].
    + intros ->. exists (pre ++ b_ "/*" ++ body ++ close_mark). now rewrite <- !app_assoc.
    + destruct (starts_tight _) eqn:T; [|reflexivity]. apply lead_first in T; [discriminate|exact L|]. intro H0. apply app_eq_nil in H0. now destruct H0.
  - assert (X : exists pre n', lead_text pre /\ out = pre ++ List.concat (mapi (line_comment unit n') 0 (comment_lines c)) /\ e = true).
    { destruct (line_style pb unit c newline space n force out e B S Z E) as (-> & _). unfold print_comment in E. destruct c as [|a c0]; [now destruct Z|]. set (c := a :: c0) in *. unfold block_style in S. rewrite S in E.
      destruct (comment_lines c) as [|l ls] eqn:El; [congruence|]. injection E as <-. eexists. eexists. split; [|split; reflexivity].
      match goal with |- lead_text (if ?b1 then _ else if ?b2 then _ else _) => destruct b1; [|destruct b2] end.
      - exists []. split; [intros ? []|now right].
      - exists [sp]. split; [intros x [<-|[]]; now left|now left].
      - exists []. split; [intros ? []|now left]. }
    destruct X as (pre & n' & L & -> & ->). assert (F : Forall (fun l => ~ In nl l) (comment_lines c)) by (apply Forall_forall; intros l Hl; now apply comment_line_free in Hl).
    exists (map Line (map (fun l => trim_right (pad l)) (comment_lines c))). split; [|split; [|split]].
    + change (map Line ?z) with ([] ++ map Line z). apply trivia_app; [now apply lead_trivia|]. now apply lines_trivia.
    + exists (comment_lines c). split; [apply comment_has_lines|]. left. eexists. split; [reflexivity|]. clear. induction (comment_lines c); constructor; [apply pad_same|assumption].
    + intros _. destruct (comment_lines c) as [|l0 ls0 _] using rev_ind; [congruence|].
      assert (M : forall i ls l, exists r, List.concat (mapi (line_comment unit n') i (ls ++ [l])) = r ++ [nl]).
      { clear. intros i ls. revert i. induction ls as [|x ls IH]; intros i l.
        - cbn [app mapi List.concat]. unfold line_comment. eexists. rewrite app_nil_r, !app_assoc. reflexivity.
        - cbn [app mapi List.concat]. destruct (IH (S i) l) as [r Er]. exists (line_comment unit n' i x ++ r). now rewrite Er, app_assoc. }
      destruct (M 0 ls0 l0) as [r Er]. exists (pre ++ r). now rewrite Er, app_assoc.
    + destruct (starts_tight _) eqn:T; [|reflexivity]. destruct (comment_lines c) as [|l0 ls0]; [congruence|]. cbn [mapi List.concat] in T. unfold line_comment in T. rewrite !app_assoc in T. rewrite <- !app_assoc in T.
      apply lead_first in T; [|exact L|intro H0; apply app_eq_nil in H0; destruct H0 as [_ H0]; apply app_eq_nil in H0; destruct H0 as [_ H0]; discriminate].
      apply lead_first in T; [discriminate| |intro H0; apply app_eq_nil in H0; destruct H0 as [_ H0]; discriminate]. exists (maybe_indent unit n' (0 <? 0)). split; [now apply maybe_blank|now left].
Qed.

(** the writer *)
Lemma last_snoc (s : bytes) c : last_char (s ++ [c]) = Some c.
Proof. unfold last_char. now rewrite rev_app_distr. Qed.
Lemma given_put w s : (starts_tight s = false \/ w_space w = false) -> given (put w s) = given w ++ s.
Proof.
  intro H. destruct s as [|c0 s0]; [unfold put; cbn; now rewrite app_nil_r|]. set (s := c0 :: s0) in *.
  destruct (@exists_last _ s ltac:(discriminate)) as (r & c & Es). unfold put, write. change (c0 :: s0) with s. rewrite Es in *.
  destruct (r ++ [c]) as [|d q] eqn:Q; [now destruct r|]. rewrite <- Q in *. rewrite last_snoc, removelast_last. unfold given. cbn [fst w_out w_space].
  assert (O : (if (w_space w && negb (starts_tight (r ++ [c])))%bool then w_out w ++ [sp] else w_out w) = w_out w ++ (if w_space w then [sp] else [])).
  { destruct H as [->| ->]; cbn [negb]; [rewrite andb_true_r; destruct (w_space w); [reflexivity|now rewrite app_nil_r]|cbn; now rewrite app_nil_r]. }
  rewrite O. destruct (Ascii.eqb_spec c sp) as [->|N]; rewrite <- !app_assoc; [reflexivity|now rewrite app_nil_r].
Qed.
(** in general a blank may be left out *)
Lemma given_put_any w s : given (put w s) = given w ++ s \/ given w = w_out w ++ [sp] /\ given (put w s) = w_out w ++ s.
Proof.
  destruct (starts_tight s) eqn:T; [|left; apply given_put; now left]. destruct (w_space w) eqn:P; [|left; apply given_put; now right].
  right. split; [unfold given; now rewrite P|]. rewrite <- (app_nil_r (w_out w)) at 1. replace (w_out w ++ []) with (given (mkW (w_out w) false false)) by reflexivity.
  rewrite <- given_put by now right. unfold put, write. destruct s as [|c s]; [discriminate|]. cbn [w_space w_out]. now rewrite P, T.
Qed.
Lemma put_nl w : w_newline (put w [nl]) = true /\ w_space (put w [nl]) = false. Proof. split; reflexivity. Qed.
Lemma put_ends w s : ends_line s -> w_newline (put w s) = true /\ w_space (put w s) = false.
Proof.
  intros [r ->]. unfold put, write. destruct (r ++ [nl]) as [|d q] eqn:Q; [now destruct r|]. rewrite <- Q, last_snoc. cbn [fst w_newline w_space].
  change (Ascii.eqb nl sp) with false. cbn iota. now rewrite last_snoc.
Qed.

Section Printing.
Variable p : printer.
Hypothesis B : blank_text (unit_ p).

Lemma comment_given w n f c w' e : comment p w n f c = Some (w', e) ->
  exists t rs, given w' = given w ++ t /\ trivia t rs /\ renders rs c /\ (e = true -> ends_line t /\ w_newline w' = true).
Proof.
  unfold comment. destruct (print_comment _ _ _ _ _ _ _) as [|out e'] eqn:E; [discriminate|]. intros [= <- <-].
  destruct (comment_text _ _ _ _ _ _ _ _ _ B E) as (rs & T & R & L & S). exists out, rs. split; [now apply given_put; left|]. split; [exact T|]. split; [exact R|].
  intro He. split; [now apply L|]. now apply put_ends, L.
Qed.
Lemma comment_none w n f c : comment p w n f c = None <-> c = [nl; nl] /\ ((n < 0)%Z \/ prefer_block p = true).
Proof.
  unfold comment. destruct (print_comment _ _ _ _ _ _ _) eqn:E; [split; [intros _; now apply panics_iff in E|reflexivity]|].
  split; [discriminate|]. intro H. apply (panics_iff (prefer_block p) (unit_ p) c (w_newline w) (w_space w) n f) in H. congruence.
Qed.
Lemma new_line_given b w : exists t, given (new_line b w) = given w ++ t /\ trivia t [] /\ (b = false -> t = [nl]).
Proof.
  unfold new_line. destruct b; [exists []; rewrite app_nil_r; split; [reflexivity|split; [constructor|discriminate]]|].
  exists [nl]. split; [apply given_put; now left|]. split; [apply trivia_nl|reflexivity].
Qed.

(** one comment of the list of detached ones *)
Definition after_detached (w : writer) (n : Z) (ends : bool) : writer :=
  if ends then new_line (compact_comments p) w else if (n <? 0)%Z then put w [sp] else new_line (compact_comments p) (put w [nl]).
Lemma after_given w n ends : exists t, given (after_detached w n ends) = given w ++ t /\ trivia t [] /\
  ((0 <= n)%Z -> compact_comments p = false -> t = if ends then [nl] else [nl; nl]) /\
  ((0 <= n)%Z -> compact_comments p = true -> t = if ends then [] else [nl]).
Proof.
  unfold after_detached, new_line. destruct ends; [|destruct (Z.ltb_spec n 0)].
  - destruct (compact_comments p); [exists []|exists [nl]]; (split; [rewrite ?app_nil_r; first [reflexivity|apply given_put; now left]|]);
      (split; [first [constructor|apply trivia_nl]; fail|split; intros; first [discriminate|reflexivity]]) || (split; [apply trivia_nl|split; intros; first [discriminate|reflexivity]]).
  - exists [sp]. split; [apply given_put; now left|]. split; [apply trivia_sp|split; intros; lia].
  - destruct (compact_comments p).
    + exists [nl]. split; [apply given_put; now left|]. split; [apply trivia_nl|split; intros; [discriminate|reflexivity]].
    + exists [nl; nl]. split; [cbn iota; rewrite !given_put by (now left); now rewrite <- app_assoc|]. split; [constructor; [auto|apply trivia_nl]|split; intros; [reflexivity|discriminate]].
Qed.
Lemma detached_given cs : forall w n w', detached p w n cs = Some w' ->
  exists xs rss, given w' = given w ++ List.concat xs /\ Forall2 trivia xs rss /\ Forall2 renders rss cs /\
    ((0 <= n)%Z -> compact_comments p = false -> Forall (fun x => exists r, ends_line r /\ x = r ++ [nl]) xs) /\
    ((0 <= n)%Z -> Forall ends_line xs).
Proof.
  induction cs as [|c cs IH]; intros w n w' H; cbn [detached] in H.
  { injection H as <-. exists [], []. rewrite app_nil_r. repeat split; constructor. }
  destruct (comment p w n true c) as [[w1 ends]|] eqn:E; [|discriminate]. apply comment_given in E. destruct E as (t & rs & G & T & R & L).
  destruct (after_given w1 n ends) as (t2 & G2 & T2 & Ex & Ec). fold (after_detached w1 n ends) in H.
  apply IH in H. destruct H as (xs & rss & G3 & F1 & F2 & F3 & F4). exists ((t ++ t2) :: xs), (rs :: rss). split; [cbn [List.concat]; now rewrite G3, G2, G, <- !app_assoc|].
  split; [constructor; [|exact F1]; rewrite <- (app_nil_r rs); now apply trivia_app|]. split; [now constructor|]. split.
  - intros N C. constructor; [|now apply F3]. rewrite (Ex N C). destruct ends; [exists t; split; [now apply L|reflexivity]|]. exists (t ++ [nl]). split; [now exists t|now rewrite <- app_assoc].
  - intro N. constructor; [|now apply F4]. destruct (compact_comments p); [rewrite (Ec N eq_refl)|rewrite (Ex N eq_refl)]; destruct ends.
    + rewrite app_nil_r. now apply L.
    + now exists t.
    + now exists t.
    + exists (t ++ [nl]). now rewrite <- app_assoc.
Qed.
Lemma renders_nil : renders [] [].
Proof. exists []. split; [left; auto|]. left. exists []. split; constructor. Qed.
Lemma leading_given l w n w' : leading p l w n = Some w' ->
  exists xs x rss rs, given w' = given w ++ List.concat xs ++ x /\ Forall2 trivia xs rss /\ Forall2 renders rss (if with_detached p then l_detached l else []) /\
    trivia x rs /\ renders rs (if with_leading p then l_leading l else []) /\
    ((0 <= n)%Z -> compact_comments p = false -> Forall (fun x => exists r, ends_line r /\ x = r ++ [nl]) xs) /\
    ((0 <= n)%Z -> Forall ends_line xs /\ (x = [] \/ ends_line x)).
Proof.
  unfold leading. intro H.
  assert (D : exists w1 xs rss, (if with_detached p then detached p w n (l_detached l) else Some w) = Some w1 /\ given w1 = given w ++ List.concat xs /\ Forall2 trivia xs rss /\ Forall2 renders rss (if with_detached p then l_detached l else []) /\
    ((0 <= n)%Z -> compact_comments p = false -> Forall (fun x => exists r, ends_line r /\ x = r ++ [nl]) xs) /\ ((0 <= n)%Z -> Forall ends_line xs)).
  { destruct (with_detached p); [|exists w, [], []; rewrite app_nil_r; repeat split; constructor]. destruct (detached p w n (l_detached l)) as [w1|] eqn:E; [|discriminate].
    exists w1. apply detached_given in E. destruct E as (xs & rss & E). exists xs, rss. split; [reflexivity|exact E]. }
  destruct D as (w1 & xs & rss & E & G & F1 & F2 & F3 & F4). rewrite E in H. clear E.
  assert (K : forall x rs, given w' = given w1 ++ x -> trivia x rs -> renders rs (if with_leading p then l_leading l else []) -> ((0 <= n)%Z -> x = [] \/ ends_line x) ->
    exists xs x rss rs, given w' = given w ++ List.concat xs ++ x /\ Forall2 trivia xs rss /\ Forall2 renders rss (if with_detached p then l_detached l else []) /\
    trivia x rs /\ renders rs (if with_leading p then l_leading l else []) /\
    ((0 <= n)%Z -> compact_comments p = false -> Forall (fun x => exists r, ends_line r /\ x = r ++ [nl]) xs) /\
    ((0 <= n)%Z -> Forall ends_line xs /\ (x = [] \/ ends_line x))).
  { intros x rs Gx Tx Rx Lx. exists xs, x, rss, rs. rewrite Gx, G, <- app_assoc. auto 10. }
  destruct (with_leading p && negb (beq (l_leading l) []))%bool eqn:W.
  - apply andb_true_iff in W. destruct W as [Wl _]. rewrite Wl in K |- *. destruct (comment p w1 n true (l_leading l)) as [[w2 ends]|] eqn:E; [|discriminate]. injection H as <-.
    apply comment_given in E. destruct E as (t & rs & Gt & T & R & L). destruct ends.
    + apply (K t rs); try assumption. intros _. right. now apply L.
    + destruct (Z.leb_spec 0 n).
      * apply (K (t ++ [nl]) rs); [rewrite given_put by (now left); now rewrite Gt, app_assoc|rewrite <- (app_nil_r rs); apply trivia_app; [exact T|apply trivia_nl]|exact R|intros _; right; now exists t].
      * apply (K (t ++ [sp]) rs); [rewrite given_put by (now left); now rewrite Gt, app_assoc|rewrite <- (app_nil_r rs); apply trivia_app; [exact T|apply trivia_sp]|exact R|intros; lia].
  - injection H as <-. apply (K [] []); [now rewrite app_nil_r|constructor| |intros _; now left].
    destruct (with_leading p); [|exact renders_nil]. cbn [andb] in W. apply negb_false_iff, beq_eq in W. rewrite W. exact renders_nil.
Qed.
Lemma trailing_given l w n w' b : trailing p l w n = Some (w', b) ->
  exists t rs, given w' = given w ++ t /\ trivia t rs /\ renders rs (if with_trailing p then l_trailing l else []).
Proof.
  unfold trailing. destruct (with_trailing p && negb (beq (l_trailing l) []))%bool eqn:W.
  - apply andb_true_iff in W. destruct W as [-> _]. destruct (comment p w n (separate_line p) (l_trailing l)) as [[w1 ends]|] eqn:E; [|discriminate]. intros [= <- _].
    apply comment_given in E. destruct E as (t & rs & Gt & T & R & L).
    destruct (negb ends && (0 <=? n)%Z)%bool; [|destruct (n <? 0)%Z].
    + exists (t ++ [nl]), rs. split; [rewrite given_put by (now left); now rewrite Gt, app_assoc|]. split; [rewrite <- (app_nil_r rs); apply trivia_app; [exact T|apply trivia_nl]|exact R].
    + exists (t ++ [sp]), rs. split; [rewrite given_put by (now left); now rewrite Gt, app_assoc|]. split; [rewrite <- (app_nil_r rs); apply trivia_app; [exact T|apply trivia_sp]|exact R].
    + now exists t, rs.
  - intros [= <- _]. exists [], []. rewrite app_nil_r. split; [reflexivity|]. split; [constructor|].
    destruct (with_trailing p); [|exact renders_nil]. cbn [andb] in W. apply negb_false_iff, beq_eq in W. rewrite W. exact renders_nil.
Qed.
Lemma end_given w n : exists t, given (end_line w n) = given w ++ t /\ trivia t [].
Proof.
  unfold end_line. destruct (_ && _)%bool; [exists [nl]; split; [apply given_put; now left|apply trivia_nl]|exists []; rewrite app_nil_r; split; [reflexivity|constructor]].
Qed.

(** blanks that are left out are no loss *)
Lemma trivia_last s rs : trivia s rs -> forall r, s = r ++ [sp] -> trivia r rs.
Proof.
  induction 1 as [|c s rs C T IH|body s rs N T IH|body s rs I T IH]; intros r E.
  - now destruct r.
  - destruct r as [|d r]; [injection E as -> ->; inversion T; constructor|].
    injection E as -> E. constructor; [exact C|now apply IH].
  - destruct s as [|x s _] using rev_ind.
    + exfalso. rewrite app_assoc in E. apply app_inj_tail in E. destruct E as [_ E]. discriminate.
    + assert (X : (b_ "//" ++ body ++ nl :: s) ++ [x] = r ++ [sp]) by (rewrite <- E, <- !app_assoc; reflexivity).
      apply app_inj_tail in X. destruct X as [<- ->]. apply t_line; [exact N|now apply IH].
  - destruct s as [|x s _] using rev_ind.
    + exfalso. assert (X : (b_ "/*" ++ body ++ ["*"%char]) ++ ["/"%char] = r ++ [sp]) by (rewrite <- E, <- !app_assoc; reflexivity).
      apply app_inj_tail in X. destruct X as [_ X]. discriminate.
    + assert (X : (b_ "/*" ++ body ++ b_ "*/" ++ s) ++ [x] = r ++ [sp]) by (rewrite <- E, <- !app_assoc; reflexivity).
      apply app_inj_tail in X. destruct X as [<- ->]. apply t_block; [exact I|now apply IH].
Qed.
Lemma put_after w el gap base rs : given w = base ++ gap -> trivia gap rs ->
  exists base' gap', (base' = base \/ base = base' ++ [sp] /\ gap = []) /\ given (put w el) = base' ++ gap' ++ el /\ trivia gap' rs /\ (gap' = gap \/ gap = gap' ++ [sp]).
Proof.
  intros G T. destruct (given_put_any w el) as [E|[E1 E2]].
  - exists base, gap. split; [now left|]. split; [now rewrite E, G, <- app_assoc|]. split; [exact T|now left].
  - destruct gap as [|y gap _] using rev_ind.
    + rewrite app_nil_r in G. exists (w_out w), []. split; [right; split; [now rewrite <- G, E1|reflexivity]|]. split; [exact E2|]. split; [exact T|now left].
    + rewrite E1, app_assoc in G. apply app_inj_tail in G. destruct G as [G <-]. exists base, gap. split; [now left|]. split; [now rewrite E2, G, <- app_assoc|]. split; [now apply (trivia_last _ _ T)|now right].
Qed.
Lemma concat_trivia xs rss : Forall2 trivia xs rss -> trivia (List.concat xs) (List.concat rss).
Proof. induction 1; [constructor|]. cbn. now apply trivia_app. Qed.
Lemma element_given d l w n e w' : (d || with_tokens p)%bool = true -> print_element p d (Some l) w n e = Some w' ->
  exists base gap rss rs trail ts, (base = given w \/ given w = base ++ [sp]) /\ given w' = base ++ gap ++ e ++ trail /\
    trivia gap (List.concat rss ++ rs) /\ Forall2 renders rss (if with_detached p then l_detached l else []) /\ renders rs (if with_leading p then l_leading l else []) /\
    trivia trail ts /\ renders ts (if with_trailing p then l_trailing l else []).
Proof.
  intros I H. unfold print_element in H. rewrite I in H. destruct (leading p l w n) as [w1|] eqn:L; [|discriminate].
  destruct (trailing p l (put w1 e) n) as [[w2 b]|] eqn:Tr; [|discriminate]. injection H as <-.
  apply leading_given in L. destruct L as (xs & x & rss & rs & G & F1 & F2 & T & R & _).
  apply trailing_given in Tr. destruct Tr as (t & ts & Gt & Tt & Rt). destruct (end_given w2 n) as (t2 & G2 & T2).
  destruct (put_after w1 e (List.concat xs ++ x) (given w) (List.concat rss ++ rs) G) as (base & gap & Hb & Ge & Tg & _); [apply trivia_app; [now apply concat_trivia|exact T]|].
  exists base, gap, rss, rs, (t ++ t2), ts. split; [destruct Hb as [->|[Hb _]]; auto|]. split; [rewrite G2, Gt, Ge, <- !app_assoc; reflexivity|].
  split; [exact Tg|]. split; [exact F2|]. split; [exact R|]. split; [rewrite <- (app_nil_r ts); now apply trivia_app|exact Rt].
Qed.
Lemma element_own_line d l w n e w' : (0 <= n)%Z -> (d || with_tokens p)%bool = true -> print_element p d (Some l) w n e = Some w' ->
  exists base xs x rss rs more, (base = given w \/ given w = base ++ [sp]) /\ given w' = base ++ List.concat xs ++ x ++ e ++ more /\
    Forall2 trivia xs rss /\ Forall2 renders rss (if with_detached p then l_detached l else []) /\ trivia x rs /\ renders rs (if with_leading p then l_leading l else []) /\
    (compact_comments p = false -> Forall (fun x => exists r, ends_line r /\ x = r ++ [nl]) xs) /\ Forall ends_line xs /\ (x = [] \/ ends_line x).
Proof.
  intros N I H. unfold print_element in H. rewrite I in H. destruct (leading p l w n) as [w1|] eqn:L; [|discriminate].
  destruct (trailing p l (put w1 e) n) as [[w2 b]|] eqn:Tr; [|discriminate]. injection H as <-.
  apply leading_given in L. destruct L as (xs & x & rss & rs & G & F1 & F2 & T & R & S1 & S2). specialize (S1 N). destruct (S2 N) as [S3 S4].
  apply trailing_given in Tr. destruct Tr as (t & ts & Gt & Tt & Rt). destruct (end_given w2 n) as (t2 & G2 & T2).
  destruct (put_after w1 e (List.concat xs ++ x) (given w) (List.concat rss ++ rs) G) as (base & gap & Hb & Ge & Tg & Gap); [apply trivia_app; [now apply concat_trivia|exact T]|].
  assert (Eg : gap = List.concat xs ++ x).
  { destruct Gap as [->|Gap]; [reflexivity|exfalso]. assert (E : ends_line (List.concat xs ++ x)).
    { destruct S4 as [->|[r ->]]; [|exists (List.concat xs ++ r); now rewrite app_assoc]. rewrite app_nil_r in *. destruct xs as [|y ys _] using rev_ind; [now destruct gap|].
      apply Forall_app in S3. destruct S3 as [_ S3]. inversion S3 as [|? ? [r ->] _]. subst. rewrite concat_app. cbn [List.concat]. rewrite app_nil_r, app_assoc. eexists. reflexivity. }
    destruct E as [r E]. rewrite E in Gap. apply app_inj_tail in Gap. destruct Gap as [_ Gap]. discriminate. }
  subst gap. exists base, xs, x, rss, rs, (t ++ t2). split; [destruct Hb as [->|[Hb _]]; auto|]. split; [rewrite G2, Gt, Ge, <- !app_assoc; reflexivity|]. auto 10.
Qed.

(** failure *)
Lemma detached_none cs : forall w n, detached p w n cs = None <-> In [nl; nl] cs /\ ((n < 0)%Z \/ prefer_block p = true).
Proof.
  induction cs as [|c cs IH]; intros w n; cbn [detached In]; [split; [discriminate|tauto]|].
  destruct (comment p w n true c) as [[w1 ends]|] eqn:E.
  - rewrite IH. split; [tauto|]. intros [[->|I] H]; [|now split]. exfalso. assert (X : comment p w n true [nl; nl] = None) by (now apply comment_none). congruence.
  - apply comment_none in E. destruct E as [-> E]. split; [tauto|reflexivity].
Qed.
Lemma leading_none l w n : leading p l w n = None <->
  (In [nl; nl] ((if with_detached p then l_detached l else []) ++ (if with_leading p then [l_leading l] else [])) /\ ((n < 0)%Z \/ prefer_block p = true)).
Proof.
  unfold leading. rewrite in_app_iff.
  assert (D : (if with_detached p then detached p w n (l_detached l) else Some w) = None <-> In [nl; nl] (if with_detached p then l_detached l else []) /\ ((n < 0)%Z \/ prefer_block p = true)).
  { destruct (with_detached p); [apply detached_none|]. split; [discriminate|intros [[] _]]. }
  destruct (if with_detached p then detached p w n (l_detached l) else Some w) as [w1|].
  - assert (ND : ~ (In [nl; nl] (if with_detached p then l_detached l else []) /\ ((n < 0)%Z \/ prefer_block p = true))) by (intro X; apply D in X; discriminate).
    destruct (with_leading p); cbn [andb].
    + destruct (beq (l_leading l) []) eqn:Bq; cbn [negb].
      * apply beq_eq in Bq. split; [discriminate|]. intros [[X|[X|[]]] Y]; [exfalso; apply ND; auto|]. rewrite Bq in X. discriminate.
      * destruct (comment p w1 n true (l_leading l)) as [[w2 ends]|] eqn:E.
        -- split; [discriminate|]. intros [[X|[X|[]]] Y]; [exfalso; apply ND; auto|]. exfalso. rewrite X in E. assert (Z : comment p w1 n true [nl; nl] = None) by (now apply comment_none). congruence.
        -- apply comment_none in E. destruct E as [-> E]. split; [intros _; split; [right; now left|exact E]|reflexivity].
    + split; [discriminate|]. intros [[X|[]] Y]. exfalso. apply ND. auto.
  - split; [intros _|reflexivity]. destruct (proj1 D eq_refl). auto.
Qed.
Lemma trailing_none l w n : trailing p l w n = None <-> (with_trailing p = true /\ l_trailing l = [nl; nl] /\ ((n < 0)%Z \/ prefer_block p = true)).
Proof.
  unfold trailing. destruct (with_trailing p); cbn [andb]; [|split; [discriminate|intros [X _]; discriminate]].
  destruct (beq (l_trailing l) []) eqn:Bq; cbn [negb].
  - apply beq_eq in Bq. rewrite Bq. split; [discriminate|intros (_ & X & _); discriminate].
  - destruct (comment p w n (separate_line p) (l_trailing l)) as [[w2 ends]|] eqn:E.
    + split; [discriminate|]. intros (_ & X & Y). rewrite X in E. assert (Z : comment p w n (separate_line p) [nl; nl] = None) by (now apply comment_none). congruence.
    + apply comment_none in E. tauto.
Qed.
Lemma element_none d l w n e : (d || with_tokens p)%bool = true ->
  (print_element p d (Some l) w n e = None <->
   In [nl; nl] ((if with_detached p then l_detached l else []) ++ (if with_leading p then [l_leading l] else []) ++ (if with_trailing p then [l_trailing l] else [])) /\
   ((n < 0)%Z \/ prefer_block p = true)).
Proof.
  intro I. unfold print_element. rewrite I. pose proof (leading_none l w n) as L. rewrite app_assoc, in_app_iff. destruct (leading p l w n) as [w1|].
  - pose proof (trailing_none l (put w1 e) n) as T. assert (NL : ~ (In [nl; nl] ((if with_detached p then l_detached l else []) ++ (if with_leading p then [l_leading l] else [])) /\ ((n < 0)%Z \/ prefer_block p = true))) by (intro X; apply L in X; discriminate).
    destruct (trailing p l (put w1 e) n) as [[w2 b]|].
    + split; [discriminate|]. intros [[X|X] Y]; [exfalso; apply NL; auto|]. destruct (with_trailing p); [|destruct X]. destruct X as [X|[]]. discriminate (proj2 T). auto.
    + split; [intros _|reflexivity]. destruct (proj1 T eq_refl) as (-> & -> & Y). split; [right; now left|exact Y].
  - split; [intros _|reflexivity]. destruct (proj1 L eq_refl). auto.
Qed.
End Printing.

(** ** rows of elements *)
Definition shown_detached (p : printer) (l : option location) : list bytes := match l with Some l => if with_detached p then l_detached l else [] | None => [] end.
Definition shown_leading (p : printer) (l : option location) : bytes := match l with Some l => if with_leading p then l_leading l else [] | None => [] end.
Definition shown_trailing (p : printer) (l : option location) : bytes := match l with Some l => if with_trailing p then l_trailing l else [] | None => [] end.
Lemma element_around p (B : blank_text (unit_ p)) d l w n e w' : (d || with_tokens p)%bool = true -> starts_tight e = false -> print_element p d l w n e = Some w' ->
  exists s, given w' = given w ++ s /\ around (shown_detached p l) (shown_leading p l) (shown_trailing p l) e s.
Proof.
  intros I T H. unfold print_element in H. rewrite I in H. destruct l as [l|].
  - destruct (leading p l w n) as [w1|] eqn:L; [|discriminate]. destruct (trailing p l (put w1 e) n) as [[w2 b]|] eqn:Tr; [|discriminate]. injection H as <-.
    apply (leading_given p B) in L. destruct L as (xs & x & rss & rs & G & F1 & F2 & Tx & R & _). apply (trailing_given p B) in Tr. destruct Tr as (t & ts & Gt & Tt & Rt).
    destruct (end_given w2 n) as (t3 & G3 & T3). exists ((List.concat xs ++ x) ++ e ++ t ++ t3).
    split; [rewrite G3, Gt, given_put by (now left); rewrite G, <- !app_assoc; reflexivity|].
    exists (List.concat xs ++ x), rss, rs, (t ++ t3), ts. split; [reflexivity|]. split; [apply trivia_app; [now apply concat_trivia|exact Tx]|].
    split; [exact F2|]. split; [exact R|]. split; [rewrite <- (app_nil_r ts); now apply trivia_app|exact Rt].
  - injection H as <-. destruct (end_given (put w e) n) as (t & G & Tt). exists (e ++ t). split; [rewrite G, given_put by (now left); now rewrite app_assoc|].
    exists [], [], [], t, []. split; [reflexivity|]. split; [constructor|]. split; [constructor|]. split; [apply renders_nil|]. split; [exact Tt|apply renders_nil].
Qed.
Lemma around_before x rs0 d l t e s : trivia x rs0 -> rs0 = [] -> around d l t e s -> around d l t e (x ++ s).
Proof.
  intros Tx -> (gap & rss & rs & trail & ts & -> & Tg & H). exists (x ++ gap), rss, rs, trail, ts. split; [now rewrite <- app_assoc|]. split; [exact (trivia_app x [] Tx gap _ Tg)|exact H].
Qed.
Lemma fields_around p (B : blank_text (unit_ p)) n fs : Forall (fun f => starts_tight (snd f) = false) fs -> forall b w w', print_fields p b w n fs = Some w' ->
  exists ss, given w' = given w ++ List.concat ss /\
    Forall2 (fun f s => around (shown_detached p (Some (fst f))) (shown_leading p (Some (fst f))) (shown_trailing p (Some (fst f))) (snd f) s) fs ss.
Proof.
  induction 1 as [|[l e] fs T F IH]; intros b w w' H; cbn [print_fields] in H.
  - injection H as <-. exists []. split; [now rewrite app_nil_r|constructor].
  - set (w0 := if b then w else new_line (compact_fields p) w) in *.
    assert (N : exists t, given w0 = given w ++ t /\ trivia t []).
    { unfold w0. destruct b; [exists []; rewrite app_nil_r; split; [reflexivity|constructor]|]. destruct (new_line_given (compact_fields p) w) as (t & E & Tt & _). now exists t. }
    destruct N as (t & N & Tt). clearbody w0. destruct (print_element p true (Some l) w0 n e) as [w1|] eqn:E; [|discriminate].
    apply (element_around p B) in E; [|reflexivity|exact T]. destruct E as (s & G & A). destruct (IH _ _ _ H) as (ss & G' & A').
    exists ((t ++ s) :: ss). split; [rewrite G', G, N; cbn [List.concat]; now rewrite <- !app_assoc|]. constructor; [|exact A']. exact (around_before t [] _ _ _ _ s Tt eq_refl A).
Qed.
(** the text of an option in a row *)
Definition option_text (p : printer) (expand : bool) (n : Z) (t : bytes) (is_last : bool) : bytes :=
  (if expand then indent_text (unit_ p) n else []) ++ t ++ (if is_last then [] else if expand then b_ "," ++ [nl] else b_ ", ").
Lemma indent_tight u n t : blank_text u -> t <> [] -> starts_tight t = false -> forall r, starts_tight (indent_text u n ++ t ++ r) = false.
Proof.
  intros B NE T r. unfold indent_text. induction (Z.to_nat n) as [|k IH]; cbn [repeat List.concat app]; [destruct t; [congruence|exact T]|].
  rewrite <- app_assoc. destruct u as [|c u]; [exact IH|]. cbn. destruct (B c (or_introl eq_refl)) as [->| ->]; reflexivity.
Qed.
Lemma options_around p (B : blank_text (unit_ p)) expand n os : with_tokens p = true -> Forall (fun o => snd o <> [] /\ starts_tight (snd o) = false) os ->
  forall w w', print_options p expand w n os = Some w' ->
  exists ss ends, given w' = given w ++ List.concat ss /\ List.length ends = List.length os /\
    (forall i, nth_error ends i = Some true -> S i = List.length os) /\ (forall i, S i = List.length os -> nth_error ends i = Some true) /\
    Forall2 (fun oe s => around (shown_detached p (fst (fst oe))) (shown_leading p (fst (fst oe))) (shown_trailing p (fst (fst oe))) (option_text p expand n (snd (fst oe)) (snd oe)) s) (combine os ends) ss.
Proof.
  intro Tk. induction 1 as [|[l t] os T F IH]; intros w w' H; cbn [print_options] in H.
  - injection H as <-. exists [], []. split; [now rewrite app_nil_r|]. split; [reflexivity|]. split; [intros [|i]; discriminate|]. split; [intros i E; discriminate|constructor].
  - destruct (print_element p false l w n _) as [w1|] eqn:E; [|discriminate]. cbn [snd] in T. destruct T as [NE T].
    apply (element_around p B) in E; [|now rewrite Tk|].
    2:{ destruct expand; [now apply indent_tight|]. cbn [app]. destruct t; [congruence|exact T]. }
    destruct E as (s & G & A). destruct (IH _ _ H) as (ss & ends & G' & Le & E1 & E2 & A').
    exists (s :: ss), ((match os with [] => true | _ => false end) :: ends). split; [rewrite G', G; cbn [List.concat]; now rewrite <- !app_assoc|].
    split; [cbn; now rewrite Le|]. split; [|split].
    + intros [|i] X; cbn in X |- *; [destruct os; [reflexivity|discriminate]|f_equal; now apply E1].
    + intros [|i] X; cbn in X |- *; [destruct os; [reflexivity|discriminate]|apply E2; now injection X].
    + cbn [combine]. constructor; [|exact A']. cbn [fst snd]. unfold option_text. destruct os; exact A.
Qed.

(** ** What is written stays *)
Definition extends (w w' : writer) : Prop := exists x, w_out w' = w_out w ++ x.
Lemma ext_refl w : extends w w. Proof. exists []. now rewrite app_nil_r. Qed.
Lemma ext_trans a b c : extends a b -> extends b c -> extends a c.
Proof. intros [x X] [y Y]. exists (x ++ y). now rewrite Y, X, app_assoc. Qed.
Lemma put_ext w s : extends w (put w s).
Proof.
  unfold put, write. destruct s as [|c s]; [apply ext_refl|]. cbn [fst]. destruct (w_space w && _)%bool; eexists; cbn [w_out]; [now rewrite <- app_assoc|reflexivity].
Qed.
Lemma put_flags w v s : s <> [] -> w_newline (put w s) = w_newline (put v s).
Proof. destruct s; [congruence|reflexivity]. Qed.
Lemma new_line_ext b w : extends w (new_line b w).
Proof. destruct b; [apply ext_refl|apply put_ext]. Qed.
Lemma comment_ext p w n f c w' e : comment p w n f c = Some (w', e) -> extends w w'.
Proof. unfold comment. destruct (print_comment _ _ _ _ _ _ _); [discriminate|]. intros [= <- <-]. apply put_ext. Qed.
Lemma detached_ext p n cs : forall w w', detached p w n cs = Some w' -> extends w w'.
Proof.
  induction cs as [|c cs IH]; intros w w' H; cbn [detached] in H; [injection H as <-; apply ext_refl|].
  destruct (comment p w n true c) as [[w1 e]|] eqn:C; [|discriminate]. apply comment_ext in C. apply IH in H. eapply ext_trans; [exact C|]. eapply ext_trans; [|exact H].
  destruct e; [apply new_line_ext|]. destruct (n <? 0)%Z; [apply put_ext|]. eapply ext_trans; [apply put_ext|apply new_line_ext].
Qed.
Lemma leading_ext p l w n w' : leading p l w n = Some w' -> extends w w'.
Proof.
  unfold leading. destruct (if with_detached p then detached p w n (l_detached l) else Some w) as [w1|] eqn:D; [|discriminate].
  assert (E : extends w w1) by (destruct (with_detached p); [now apply detached_ext in D|injection D as <-; apply ext_refl]).
  destruct (_ && _)%bool; [|intros [= <-]; exact E]. destruct (comment p w1 n true (l_leading l)) as [[w2 e]|] eqn:C; [|discriminate]. intros [= <-].
  apply comment_ext in C. eapply ext_trans; [exact E|]. eapply ext_trans; [exact C|]. destruct e; [apply ext_refl|]. destruct (0 <=? n)%Z; apply put_ext.
Qed.
Lemma trailing_ext p l w n w' b : trailing p l w n = Some (w', b) -> extends w w'.
Proof.
  unfold trailing. destruct (_ && _)%bool; [|intros [= <- <-]; apply ext_refl]. destruct (comment p w n (separate_line p) (l_trailing l)) as [[w2 e]|] eqn:C; [|discriminate]. intros [= <- <-].
  apply comment_ext in C. eapply ext_trans; [exact C|]. destruct (_ && _)%bool; [apply put_ext|]. destruct (n <? 0)%Z; [apply put_ext|apply ext_refl].
Qed.
Lemma end_ext w n : extends w (end_line w n).
Proof. unfold end_line. destruct (_ && _)%bool; [apply put_ext|apply ext_refl]. Qed.
Lemma element_ext p d l w n e w' : print_element p d l w n e = Some w' -> extends w w'.
Proof.
  unfold print_element. destruct (if (d || with_tokens p)%bool then l else None) as [l0|]; [|intros [= <-]; eapply ext_trans; [apply put_ext|apply end_ext]].
  destruct (leading p l0 w n) as [w1|] eqn:L; [|discriminate]. destruct (trailing p l0 (put w1 e) n) as [[w2 b]|] eqn:T; [|discriminate]. intros [= <-].
  apply leading_ext in L. apply trailing_ext in T. eapply ext_trans; [exact L|]. eapply ext_trans; [apply put_ext|]. eapply ext_trans; [exact T|apply end_ext].
Qed.
Lemma fields_ext p n fs : forall b w w', print_fields p b w n fs = Some w' -> extends w w'.
Proof.
  induction fs as [|[l e] fs IH]; intros b w w' H; cbn [print_fields] in H; [injection H as <-; apply ext_refl|].
  destruct (print_element p true (Some l) _ n e) as [w1|] eqn:E; [|discriminate]. apply element_ext in E. apply IH in H. eapply ext_trans; [|exact H]. eapply ext_trans; [|exact E].
  destruct b; [apply ext_refl|apply new_line_ext].
Qed.
Lemma fields_app p n a c : forall b w, a <> [] -> print_fields p b w n (a ++ c) = match print_fields p b w n a with Some w' => print_fields p false w' n c | None => None end.
Proof.
  induction a as [|[l e] a IH]; intros b w N; [congruence|]. cbn [app print_fields]. destruct (print_element p true (Some l) _ n e) as [w1|]; [|reflexivity].
  destruct a as [|x a]; [reflexivity|]. now apply IH.
Qed.
