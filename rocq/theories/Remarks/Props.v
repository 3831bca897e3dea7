(** Property theorems for the comments of printed declarations (C162). *)
From Coq Require Import Ascii String ZArith Lia.
From Verif Require Import Base Strs Paths.
From Verif.Print Require Import Model Spec Comments.
From Verif.Remarks Require Import Model Spec Proofs.
Open Scope list_scope.

(** An element appears in full, outside of any comment, after its detached and leading comments and before its trailing
    one, and each comment with all of its lines.  (A blank before a semicolon or comma is left out.)
    Missing: that a reader finds out which element a comment belongs to, see below. *)
Theorem C162_element_partial : forall p d l w n e w', blank_text (unit_ p) -> (d || with_tokens p)%bool = true -> print_element p d (Some l) w n e = Some w' ->
  exists base gap rss rs trail ts, (base = given w \/ given w = base ++ [sp]) /\ given w' = base ++ gap ++ e ++ trail /\
    trivia gap (List.concat rss ++ rs) /\ Forall2 renders rss (if with_detached p then l_detached l else []) /\ renders rs (if with_leading p then l_leading l else []) /\
    trivia trail ts /\ renders ts (if with_trailing p then l_trailing l else []).
Proof. intros p d l w n e w' B. exact (element_given p B d l w n e w'). Qed.
(** So for a block, with the trailing comment after its opening; the first text of the body is taken to be no semicolon or comma. *)
Theorem C162_block_partial : forall p d l w n opening n' want body w', blank_text (unit_ p) -> (d || with_tokens p)%bool = true -> starts_tight body = false ->
  print_block p d (Some l) w n opening n' want body = Some w' ->
  exists base gap rss rs trail ts last, (base = given w \/ given w = base ++ [sp]) /\ given w' = base ++ gap ++ opening ++ trail ++ body ++ last /\
    trivia gap (List.concat rss ++ rs) /\ Forall2 renders rss (if with_detached p then l_detached l else []) /\ renders rs (if with_leading p then l_leading l else []) /\
    trivia trail ts /\ renders ts (if with_trailing p then l_trailing l else []) /\ (last = [] \/ last = [nl]).
Proof.
  intros p d l w n opening n' want body w' B I Sb H. unfold print_block in H. rewrite I in H. destruct (leading p l w n) as [w1|] eqn:L; [|discriminate].
  destruct (trailing p l (put w1 opening) n') as [[w2 b]|] eqn:Tr; [|discriminate]. injection H as <-.
  apply (leading_given p B) in L. destruct L as (xs & x & rss & rs & G & F1 & F2 & T & R & _).
  apply (trailing_given p B) in Tr. destruct Tr as (t & ts & Gt & Tt & Rt).
  destruct (put_after w1 opening (List.concat xs ++ x) (given w) (List.concat rss ++ rs) G) as (base & gap & Hb & Ge & Tg & _); [apply trivia_app; [now apply concat_trivia|exact T]|].
  set (w3 := if (b && want && negb (compact_trailing p))%bool then put w2 [nl] else w2).
  assert (G3 : exists t3, given w3 = given w2 ++ t3 /\ trivia t3 []).
  { unfold w3. destruct (_ && _ && _)%bool; [exists [nl]; split; [apply given_put; now left|apply trivia_nl]|exists []; rewrite app_nil_r; split; [reflexivity|constructor]]. }
  destruct G3 as (t3 & G3 & T3). clearbody w3.
  assert (G4 : exists last, given (end_line (put w3 body) n) = given (put w3 body) ++ last /\ (last = [] \/ last = [nl])).
  { unfold end_line. destruct (_ && _)%bool; [exists [nl]; split; [apply given_put; now left|now right]|exists []; rewrite app_nil_r; split; [reflexivity|now left]]. }
  destruct G4 as (last & G4 & Hl). exists base, gap, rss, rs, (t ++ t3), ts, last.
  split; [destruct Hb as [->|[Hb _]]; auto|]. split; [rewrite G4, given_put by (now left); rewrite G3, Gt, Ge, <- !app_assoc; reflexivity|].
  split; [exact Tg|]. split; [exact F2|]. split; [exact R|]. split; [rewrite <- (app_nil_r ts); now apply trivia_app|]. split; [exact Rt|exact Hl].
Qed.
(** The fields of a message are printed one after the other, each between its comments. *)
Theorem C162_row_partial : forall p n fs out, blank_text (unit_ p) -> Forall (fun f => starts_tight (snd f) = false) fs -> printed p n fs = Some out ->
  exists ss, (out = List.concat ss \/ out ++ [sp] = List.concat ss) /\
    Forall2 (fun f s => around (if with_detached p then l_detached (fst f) else []) (if with_leading p then l_leading (fst f) else []) (if with_trailing p then l_trailing (fst f) else []) (snd f) s) fs ss.
Proof.
  intros p n fs out B F H. unfold printed in H. destruct (print_fields p true new_writer n fs) as [w|] eqn:E; [|discriminate]. injection H as <-.
  apply (fields_around p B n fs F) in E. destruct E as (ss & G & A). exists ss. split; [|exact A]. unfold given in G. cbn in G. destruct (w_space w); [now right|left; now rewrite app_nil_r in G].
Qed.
(** Unless the printer is compact, there is an empty line between them: all after some of the fields is after a further line end. *)
Theorem C162_spaced : forall p n a b out, a <> [] -> b <> [] -> printed p n (a ++ b) = Some out ->
  exists first rest, printed p n a = Some first /\ out = first ++ rest /\ (compact_fields p = false -> exists r, rest = nl :: r \/ rest = sp :: nl :: r).
Proof.
  intros p n a b out Na Nb H. unfold printed in *. rewrite fields_app in H by exact Na. destruct (print_fields p true new_writer n a) as [w|]; [|discriminate].
  destruct (print_fields p false w n b) as [w'|] eqn:E; [|discriminate]. injection H as <-. destruct (fields_ext _ _ _ _ _ _ E) as [x X]. exists (w_out w), x. split; [reflexivity|]. split; [exact X|].
  intro C. destruct b as [|[l e] b]; [congruence|]. cbn [print_fields] in E. destruct (print_element p true (Some l) _ n e) as [w1|] eqn:F; [|discriminate].
  apply element_ext in F. apply fields_ext in E. destruct (ext_trans _ _ _ F E) as [y Y]. rewrite C in Y. cbn [new_line] in Y. rewrite Y in X. unfold put, write in X. cbn [starts_tight] in X.
  destruct (w_space w) eqn:Sp; cbn [fst w_out] in X; cbn in X; rewrite <- ?app_assoc in X; apply app_inv_head in X; subst x; cbn; eauto.
Qed.
(** So there is an empty line after the trailing comment of a block, if one is wanted and only then, and not with the server's printer. *)
Theorem C162_block_spaced : forall p d l w n opening n' body w', (d || with_tokens p)%bool = true -> body <> [] -> starts_tight body = false ->
  print_block p d (Some l) w n opening n' false body = Some w' ->
  exists a last w'', given w' = a ++ body ++ last /\ print_block p d (Some l) w n opening n' true body = Some w'' /\
    given w'' = a ++ (if (with_trailing p && negb (beq (l_trailing l) []) && negb (compact_trailing p))%bool then [nl] else []) ++ body ++ last.
Proof.
  intros p d l w n opening n' body w' I Nb Sb H. unfold print_block in *. rewrite I in *. destruct (leading p l w n) as [w1|]; [|discriminate].
  destruct (trailing p l (put w1 opening) n') as [[w2 b]|] eqn:Tr; [|discriminate]. rewrite andb_false_r in H. cbn [andb] in H. injection H as <-.
  assert (Hb : b = (with_trailing p && negb (beq (l_trailing l) []))%bool).
  { unfold trailing in Tr. destruct (with_trailing p && negb (beq (l_trailing l) []))%bool; [|now injection Tr as _ <-]. destruct (comment _ _ _ _ _) as [[w3 e]|]; [now injection Tr as _ <-|discriminate]. }
  rewrite <- Hb. set (tl := if (w_newline (put w2 body)) then @nil ascii else if (0 <=? n)%Z then [nl] else []).
  assert (G : forall v, given (end_line (put v body) n) = given v ++ body ++ tl).
  { intro v. unfold end_line, tl. rewrite (put_flags v w2 body Nb). destruct (w_newline (put w2 body)); cbn [negb]; [rewrite andb_false_r, app_nil_r; apply given_put; now left|].
    rewrite andb_true_r. destruct (0 <=? n)%Z; [rewrite !given_put by (now left); now rewrite <- app_assoc|rewrite app_nil_r; apply given_put; now left]. }
  exists (given w2), tl. eexists. split; [apply G|]. split; [reflexivity|]. rewrite andb_true_r. rewrite G. destruct (b && negb (compact_trailing p))%bool; [|reflexivity].
  rewrite given_put by now left. now rewrite <- app_assoc.
Qed.
(** So are options, with commas between them. *)
Theorem C162_options_partial : forall p expand n os out, blank_text (unit_ p) -> with_tokens p = true -> Forall (fun o => snd o <> [] /\ starts_tight (snd o) = false) os ->
  printed_options p expand n os = Some out ->
  exists ss, (out = List.concat ss \/ out ++ [sp] = List.concat ss) /\ List.length ss = List.length os /\
    forall i l t, nth_error os i = Some (l, t) -> exists s ind tail, nth_error ss i = Some s /\
      around (match l with Some l => if with_detached p then l_detached l else [] | None => [] end) (match l with Some l => if with_leading p then l_leading l else [] | None => [] end)
        (match l with Some l => if with_trailing p then l_trailing l else [] | None => [] end) (ind ++ t ++ tail) s /\ blank_text ind /\
      (S i = List.length os -> tail = []) /\ (S i < List.length os -> tail = b_ ", " \/ tail = b_ "," ++ [nl]).
Proof.
  intros p expand n os out B Tk F H. unfold printed_options in H. destruct (print_options p expand new_writer n os) as [w|] eqn:E; [|discriminate]. injection H as <-.
  apply (options_around p B expand n os Tk F) in E. destruct E as (ss & ends & G & Le & E1 & E2 & A). exists ss.
  split; [unfold given in G; cbn in G; destruct (w_space w); [now right|left; now rewrite app_nil_r in G]|].
  assert (Ls : List.length ss = List.length os).
  { clear -A Le. revert os Le A. generalize dependent ss. induction ends as [|e ends IH]; intros ss os Le A; destruct os as [|o os]; try discriminate; inversion A; subst; [reflexivity|].
    cbn. f_equal. eapply IH; [now injection Le|eassumption]. }
  split; [exact Ls|]. intros i l t N.
  assert (Ni : i < List.length os) by (apply nth_error_Some; congruence).
  destruct (nth_error ends i) as [e|] eqn:Ne; [|apply nth_error_None in Ne; lia].
  assert (X : exists s, nth_error ss i = Some s /\ around (shown_detached p l) (shown_leading p l) (shown_trailing p l) (option_text p expand n t e) s).
  { clear -A N Ne. revert os ends ss A N Ne. induction i as [|i IH]; intros [|o os] [|e0 ends] ss A N Ne; try discriminate; inversion A; subst; cbn in N, Ne |- *.
    - injection N as ->. injection Ne as ->. eexists. split; [reflexivity|assumption].
    - eapply IH; eassumption. }
  destruct X as (s & Ns & Ar). exists s, (if expand then indent_text (unit_ p) n else []), (if e then [] else if expand then b_ "," ++ [nl] else b_ ", ").
  split; [exact Ns|]. split; [exact Ar|].
  split; [destruct expand; [|intros c []]; unfold indent_text; intros c Ic; apply in_concat in Ic; destruct Ic as (u & Iu & Ic); apply repeat_spec in Iu; subst; now apply B|].
  split; [intro X; apply E2 in X; rewrite X in Ne; injection Ne as <-; reflexivity|]. intro X. destruct e; [apply E1 in Ne; lia|]. destruct expand; auto.
Qed.
(** On lines of their own, every detached comment is followed by an empty line, and the leading comment directly by the
    element. *)
Theorem C162_detached : forall p d l w n e w', blank_text (unit_ p) -> (0 <= n)%Z -> (d || with_tokens p)%bool = true -> print_element p d (Some l) w n e = Some w' ->
  exists base xs x rss rs more, (base = given w \/ given w = base ++ [sp]) /\ given w' = base ++ List.concat xs ++ x ++ e ++ more /\
    Forall2 trivia xs rss /\ Forall2 renders rss (if with_detached p then l_detached l else []) /\ trivia x rs /\ renders rs (if with_leading p then l_leading l else []) /\
    (compact_comments p = false -> Forall (fun x => exists r, ends_line r /\ x = r ++ [nl]) xs) /\ Forall ends_line xs /\ (x = [] \/ ends_line x).
Proof. intros p d l w n e w' B. exact (element_own_line p B d l w n e w'). Qed.
(** So with the server's printer, which shows all comments. *)
Theorem C162_default : forall l w n e w', (0 <= n)%Z -> print_element default_printer true (Some l) w n e = Some w' ->
  exists base xs x rss rs more, (base = given w \/ given w = base ++ [sp]) /\ given w' = base ++ List.concat xs ++ x ++ e ++ more /\
    Forall2 trivia xs rss /\ Forall2 renders rss (l_detached l) /\ trivia x rs /\ renders rs (l_leading l) /\
    Forall (fun x => exists r, ends_line r /\ x = r ++ [nl]) xs /\ (x = [] \/ ends_line x).
Proof.
  intros l w n e w' N H. assert (B : blank_text (unit_ default_printer)) by (cbn; intros c [<-|[<-|[]]]; now left).
  destruct (element_own_line default_printer B true l w n e w' N eq_refl H) as (base & xs & x & rss & rs & more & Hb & G & F & R & T & R' & C & _ & E).
  exists base, xs, x, rss, rs, more. repeat (split; [assumption|]). split; [now apply C|exact E].
Qed.
(** A trailing comment of one line is on the line of the element. *)
Theorem C162_same_line : forall p d l w n r c0 line w', (0 <= n)%Z -> (d || with_tokens p)%bool = true -> with_trailing p = true -> separate_line p = false ->
  c0 <> sp -> c0 <> nl -> l_trailing l = line ++ [nl] -> line <> [] -> ~ In nl line ->
  print_element p d (Some l) w n (r ++ [c0]) = Some w' ->
  exists base s, given w' = base ++ (r ++ [c0]) ++ sp :: s ++ [nl] /\
    (s = b_ "/*" ++ line ++ b_ "*/" \/ s = b_ "/*" ++ line ++ b_ " */" \/ exists t, s = b_ "//" ++ t /\ same_line t line).
Proof.
  intros p d l w n r c0 line w' N I Wt Sl Ns Nn El NE Nl H. unfold print_element in H. rewrite I in H. destruct (leading p l w n) as [w1|]; [|discriminate].
  assert (W2 : w_newline (put w1 (r ++ [c0])) = false /\ w_space (put w1 (r ++ [c0])) = false).
  { unfold put, write. destruct (r ++ [c0]) as [|x q] eqn:Q; [now destruct r|]. rewrite <- Q, last_snoc. cbn [fst w_newline w_space].
    destruct (Ascii.eqb_spec c0 sp); [contradiction|]. rewrite last_snoc. destruct (Ascii.eqb_spec c0 nl); [contradiction|now split]. }
  assert (G2 : exists base, given (put w1 (r ++ [c0])) = base ++ r ++ [c0]).
  { destruct (given_put_any w1 (r ++ [c0])) as [->|[_ ->]]; eexists; reflexivity. }
  destruct G2 as [base G2]. set (w2 := put w1 (r ++ [c0])) in *. clearbody w2. destruct W2 as [W2 W3].
  assert (Cl : comment_lines (line ++ [nl]) = [line]).
  { unfold comment_lines. assert (Sp : split_on nl (line ++ [nl]) = [line; []]).
    { clear -Nl. induction line as [|x line IH]; [reflexivity|]. cbn [app split_on]. rewrite IH by (intro X; apply Nl; now right). destruct (Ascii.eqb_spec x nl) as [->|]; [exfalso; apply Nl; now left|reflexivity]. }
    rewrite Sp. destruct line; [congruence|]. reflexivity. }
  assert (Ind : forall u, indent_text u (inline n) = []).
  { intro u. unfold indent_text, inline. destruct (Z.ltb_spec n 0); [lia|]. now replace (Z.to_nat (- n - 2)) with 0 by lia. }
  unfold trailing in H. rewrite Wt, El in H. destruct (beq (line ++ [nl]) []) eqn:Bq; [apply beq_eq in Bq; now destruct line|]. cbn [andb negb] in H.
  unfold comment, print_comment in H. destruct (line ++ [nl]) as [|y ys] eqn:Ey; [now destruct line|]. rewrite <- Ey in *. rewrite Cl, W2, W3, Sl in H.
  destruct (Z.leb_spec 0 n); [|lia]. destruct (Z.ltb_spec n 0); [lia|]. cbn [orb andb negb List.length Nat.ltb Nat.leb] in H.
  assert (Hi : (0 <=? inline n)%Z = false) by (unfold inline; destruct (Z.ltb_spec n 0); lia).
  destruct (prefer_block p && negb (contains_close (line ++ [nl])))%bool.
  - destruct line as [|z line']; [congruence|]. set (line := z :: line') in *. rewrite Ind, Hi in H. cbn [app negb andb] in H.
    injection H as <-. unfold end_line. rewrite (proj1 (put_nl _)). rewrite andb_false_r. exists base, (b_ "/*" ++ symmetric line ++ close_mark).
    split; [|destruct (symmetric_same line) as [->| ->]; [now left|right; left; now rewrite <- app_assoc]].
    rewrite given_put by (now left). rewrite given_put by (now left). rewrite G2. change (match last_char (z :: line') with Some d0 => if (Ascii.eqb z sp && negb (Ascii.eqb d0 sp))%bool then z :: line' ++ [sp] else line | None => line end) with (symmetric line). unfold close_mark. generalize (symmetric line). intro q. rewrite <- !app_assoc. cbn [app b_ list_ascii_of_string]. rewrite <- !app_assoc. reflexivity.
  - cbn [mapi List.concat] in H. unfold line_comment in H. cbn [Nat.ltb Nat.leb] in H. unfold maybe_indent in H. rewrite andb_false_r, Ind in H. cbn [app andb negb] in H. rewrite app_nil_r in H.
    injection H as <-. unfold end_line.
    assert (E : ends_line (sp :: b_ "//" ++ trim_right (pad line) ++ [nl])) by (exists (sp :: b_ "//" ++ trim_right (pad line)); cbn [app b_]; now rewrite <- !app_assoc).
    cbn in E. rewrite (proj1 (put_ends w2 _ E)). rewrite andb_false_r. exists base, (b_ "//" ++ trim_right (pad line)).
    split; [|right; right; eexists; split; [reflexivity|apply pad_same]]. rewrite given_put by (now left). rewrite G2, <- !app_assoc. reflexivity.
Qed.
(** Printing fails exactly for a comment of two line ends that is printed within a line, or as a block; *)
Theorem C162_fails_iff : forall p d l w n e, (d || with_tokens p)%bool = true ->
  (print_element p d (Some l) w n e = None <->
   In [nl; nl] ((if with_detached p then l_detached l else []) ++ (if with_leading p then [l_leading l] else []) ++ (if with_trailing p then [l_trailing l] else [])) /\
   ((n < 0)%Z \/ prefer_block p = true)).
Proof. exact element_none. Qed.
(** so never for the fields of a message. *)
Theorem C162_fields : forall n fs, (0 <= n)%Z -> printed default_printer n fs <> None.
Proof.
  intros n fs N. unfold printed. assert (G : forall fs b w, print_fields default_printer b w n fs <> None); [|specialize (G fs true new_writer); now destruct (print_fields _ _ _ _ _)].
  clear fs. induction fs as [|[l el] fs IH]; intros b w; cbn [print_fields]; [discriminate|].
  destruct (print_element default_printer true (Some l) _ n el) eqn:E; [apply IH|]. apply element_none in E; [|reflexivity]. destruct E as [_ [E|E]]; [lia|discriminate].
Qed.

Definition none : location := mkL [] [] [].
Definition two : bytes := b_ " in metres" ++ [nl] ++ b_ " above the sea" ++ [nl].
Example C162_case : printed default_printer 1
  [(mkL [b_ " sizes" ++ [nl]] (b_ " the height" ++ [nl]) (b_ " in metres" ++ [nl]), b_ "  int32 a = 1;"); (none, b_ "  int32 b = 2;")] =
  Some (b_ "  // sizes" ++ [nl; nl] ++ b_ "  // the height" ++ [nl] ++ b_ "  int32 a = 1; // in metres" ++ [nl] ++ b_ "  int32 b = 2;" ++ [nl]).
Proof. vm_compute. reflexivity. Qed.
Example C162_element_case : exists w', print_element default_printer true (Some (mkL [b_ " sizes" ++ [nl]] two two)) new_writer (-1) (b_ "x") = Some w' /\ blank_text (unit_ default_printer).
Proof. eexists. split; [vm_compute; reflexivity|]. cbn. intros c [<-|[<-|[]]]; now left. Qed.
Example C162_block_case : exists w', print_block default_printer true (Some (mkL [] two two)) new_writer 0 (b_ "message M {") 1 true (b_ "}") = Some w' /\
  given w' = b_ "// in metres" ++ [nl] ++ b_ "// above the sea" ++ [nl] ++ b_ "message M {" ++ [nl] ++ b_ "  // in metres" ++ [nl] ++ b_ "  // above the sea" ++ [nl] ++ b_ "}" ++ [nl].
Proof. eexists. split; vm_compute; reflexivity. Qed.

Definition loose : printer := mkP true true true true false false false false false (b_ "  ").
Example C162_spaced_case : printed loose 1 [(none, b_ "a;"); (none, b_ "b;")] = Some (b_ "a;" ++ [nl; nl] ++ b_ "b;" ++ [nl]).
Proof. vm_compute. reflexivity. Qed.
(** The comment after one field, if it has two lines, looks like the comment before the next. *)
Theorem C162_owner_refuted : exists a b, printed default_printer 1 [(mkL [] [] two, a); (none, b)] = printed default_printer 1 [(none, a); (mkL [] two [], b)] /\
  two = b_ " in metres" ++ [nl] ++ b_ " above the sea" ++ [nl].
Proof. exists (b_ "  int32 a = 1;"), (b_ "  int32 b = 2;"). split; [vm_compute|]; reflexivity. Qed.
(** So do comments after options, on one line or several. *)
Theorem C162_option_owner_refuted : exists a b, forall expand, In expand [true; false] -> let n := if expand then 2%Z else (-3)%Z in
  printed_options default_printer expand n [(Some (mkL [] [] (b_ " why" ++ [nl])), a); (None, b)] = printed_options default_printer expand n [(None, a); (Some (mkL [] (b_ " why" ++ [nl]) []), b)] /\
  printed_options default_printer expand n [(None, a); (Some (mkL [] (b_ " why" ++ [nl]) []), b)] <> None.
Proof. exists (b_ "deprecated = true"), (b_ "lazy = true"). intros e [<-|[<-|[]]]; vm_compute; split; [reflexivity|discriminate|reflexivity|discriminate]. Qed.
Example C162_options_case : printed_options default_printer false (-3) [(Some (mkL [] [] (b_ " why" ++ [nl])), b_ "deprecated = true"); (None, b_ "lazy = true")] =
  Some (b_ "deprecated = true, /* why */ lazy = true").
Proof. vm_compute. reflexivity. Qed.

Print Assumptions C162_row_partial.
Print Assumptions C162_spaced.
Print Assumptions C162_block_spaced.
Print Assumptions C162_options_partial.
Print Assumptions C162_option_owner_refuted.
Print Assumptions C162_element_partial.
Print Assumptions C162_block_partial.
Print Assumptions C162_detached.
Print Assumptions C162_default.
Print Assumptions C162_same_line.
Print Assumptions C162_fails_iff.
Print Assumptions C162_fields.
Print Assumptions C162_owner_refuted.
