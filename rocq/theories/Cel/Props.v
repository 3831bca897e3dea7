(** C136, C137: highlighting of CEL expressions.  The model is Cel/Model.v. *)
From Coq Require Import Ascii String Lia.
From Verif Require Import Base Strs.
From Verif.Cel Require Import Model Spec Proofs.
Import ListNotations.
Open Scope list_scope.

(** C136.  Full statement: each item reported for a CEL expression covers, in the file, exactly the text of the
    operator, identifier or literal it is reported for, with that one's type, and all of them are reported.
    Missing: strings with escape sequences, several strings of which one begins with blanks, numbers and strings
    that are not written in the way they are printed (refuted below), and elements that macros of CEL insert. *)
Theorem C136_covers_partial parse file pre v post expr es :
  let fs := pre ++ Field (Some (b_ "expression")) v :: post in
  Forall (fun f => f_name f <> None /\ ~ is_expression f) pre -> (exists f, In f fs /\ f_name f = Some (b_ "id")) ->
  literals v <> [] -> Forall plain (literals v) -> Forall (lit_stands file) (literals v) ->
  reads v expr -> parse expr = Some es -> Forall (fun e => silent (e_kind e) = true \/ in_place expr e) es ->
  exists its, inspect_literal parse fs = Some (its, literals v) /\
    Forall2 (fun i e => written (e_kind e) (covered file i) /\ i_type i = type_of (e_kind e)) its (filter (fun e => negb (silent (e_kind e))) es).
Proof.
  intros fs P Id N Pl St R E F. destruct (items_cover file (literals v) expr Pl St (reads_lines v expr N R Pl) es F) as (its & EI & C).
  exists its. split; [|exact C]. unfold inspect_literal.
  assert (H : has_both false false fs = true).
  { apply has_both_spec. split; right; [|exact Id]. exists (Field (Some (b_ "expression")) v). split; [apply in_or_app; right; now left|reflexivity]. }
  rewrite H. unfold fs. rewrite (inspect_skip parse pre _ P). cbn [inspect_cel]. rewrite beq_refl, (reads_expression v expr R), (escape_plain _ (reads_plain v expr R Pl)), E, nodes_literals, EI. reflexivity.
Qed.
(** What is no CEL expression is left alone. *)
Theorem C136_others parse fs : (forall f, In f fs -> f_name f <> Some (b_ "id")) \/ (forall f, In f fs -> f_name f <> Some (b_ "expression")) ->
  inspect_literal parse fs = Some ([], []).
Proof.
  intro H. unfold inspect_literal. destruct (has_both false false fs) eqn:B; [|reflexivity]. exfalso. apply has_both_spec in B as [[A|(f & I & Q)] [B|(g & J & Q')]]; try discriminate.
  destruct H as [H|H]; [exact (H g J Q')|exact (H f I Q)].
Qed.
(** An expression that cannot be parsed is highlighted as a string. *)
Theorem C136_unparsed parse pre v post : literals v <> [] -> parse (escape (expression v)) = None ->
  Forall (fun f => f_name f <> None /\ ~ is_expression f) (pre ++ post) -> inspect_literal parse (pre ++ Field (Some (b_ "expression")) v :: post) = Some ([], []).
Proof.
  intros N E F. apply Forall_app in F as [F1 F2]. unfold inspect_literal. destruct (has_both _ _ _); [|reflexivity]. rewrite (inspect_skip parse pre _ F1). cbn [inspect_cel]. rewrite beq_refl, E, nodes_literals.
  destruct (literals v); [congruence|]. rewrite <- (app_nil_r post), (inspect_skip parse post [] F2). reflexivity.
Qed.

(** An escape sequence, here of a quote, shifts all that follows it. *)
Definition q : ascii := ascii_of_nat 34.
Definition id_field : field := Field (Some (b_ "id")) Other.
Definition one (l : lit) : list field := [id_field; Field (Some (b_ "expression")) (Str l)].
Definition wrong file parse fs : Prop :=
  exists i r ls e es, inspect_literal parse fs = Some (i :: r, ls) /\ Forall (lit_stands file) ls /\ parse (escape (expression (match ls with [l] => Str l | _ => Compound ls end))) = Some (e :: es) /\
  in_place (expression (match ls with [l] => Str l | _ => Compound ls end)) e /\ ~ written (e_kind e) (covered file i).
Ltac place := eexists _, _, _; split; [split; [reflexivity|discriminate]|split; [reflexivity|split; [vm_compute; reflexivity|]]].
Theorem C136_escape_refuted : exists file parse fs, wrong file parse fs.
Proof.
  exists [b_ "x:" ++ q :: backslash :: b_ "'a'==b" ++ [q]], (fun _ => Some [El 1 3 (Call (b_ "=="))]), (one (Lit 1 3 (q :: backslash :: b_ "'a'==b" ++ [q]) (b_ "'a'==b"))).
  eexists _, _, _, _, _. split; [reflexivity|]. split; [repeat constructor; exists (b_ "x:"), []; split; reflexivity|]. split; [reflexivity|].
  split; [place; exists (b_ "'a'"), (b_ "b"); split; reflexivity|]. vm_compute. intros [H _]. discriminate.
Qed.
(** A string of several that begins with a blank is shifted. *)
Theorem C136_blank_refuted : exists file parse fs, wrong file parse fs.
Proof.
  exists [q :: b_ "a" ++ [q]; q :: b_ " && b" ++ [q]], (fun _ => Some [El 2 0 (Call (b_ "&&"))]),
    [id_field; Field (Some (b_ "expression")) (Compound [Lit 1 1 (q :: b_ "a" ++ [q]) (b_ "a"); Lit 2 1 (q :: b_ " && b" ++ [q]) (b_ " && b")])].
  eexists _, _, _, _, _. split; [reflexivity|]. split; [repeat constructor; exists [], []; split; reflexivity|]. split; [reflexivity|].
  split; [place; exists [], (b_ " b"); split; reflexivity|]. vm_compute. intros [H _]. discriminate.
Qed.
(** A number that is written in another way than it is printed: the length is that of the printed number. *)
Theorem C136_number_refuted : exists file parse fs i ls, inspect_literal parse fs = Some ([i], ls) /\ Forall (lit_stands file) ls /\ Forall plain ls /\
  parse (b_ "0x20 > x") = Some [El 1 0 (Number (b_ "32"))] /\ map l_value ls = [b_ "0x20 > x"] /\ covered file i = b_ "0x".
Proof.
  exists [q :: b_ "0x20 > x" ++ [q]], (fun _ => Some [El 1 0 (Number (b_ "32"))]), (one (Lit 1 1 (q :: b_ "0x20 > x" ++ [q]) (b_ "0x20 > x"))).
  eexists _, _. split; [reflexivity|]. split; [repeat constructor; exists [], []; split; reflexivity|]. split; [|repeat split; reflexivity].
  constructor; [|constructor]. split; [exists q; reflexivity|]. split; vm_compute; intro H; repeat destruct H as [H|H]; discriminate || exact H.
Qed.
Definition file1 : list bytes := [b_ "  expression: " ++ q :: b_ "this.a > 1 " ++ [q]; b_ "    " ++ q :: b_ "|| true" ++ [q]].
Definition lits1 : list lit := [Lit 1 15 (q :: b_ "this.a > 1 " ++ [q]) (b_ "this.a > 1 "); Lit 2 5 (q :: b_ "|| true" ++ [q]) (b_ "|| true")].
Definition els1 : list element := [El 2 0 (Call (b_ "||")); El 1 7 (Call (b_ ">")); El 1 4 Else; El 1 0 (Ident (b_ "this")); El 1 9 (Number (b_ "1")); El 2 3 (Bool true)].
Example C136_case : exists expr, reads (Compound lits1) expr /\ Forall plain lits1 /\ Forall (lit_stands file1) lits1 /\
  Forall (fun e => silent (e_kind e) = true \/ in_place expr e) els1 /\
  inspect_literal (fun _ => Some els1) [id_field; Field (Some (b_ "expression")) (Compound lits1)] =
    Some ([Item 1 5 2 TOperator; Item 0 22 1 TOperator; Item 0 15 4 TKeyword; Item 0 24 1 TNumber; Item 1 8 4 TKeyword], lits1).
Proof.
  exists (join_with nl [b_ "this.a > 1"; b_ "|| true"]). split.
  { constructor. repeat constructor; [exists (b_ " ")|exists []]; (split; [reflexivity|]); (split; [reflexivity|]); (split; [|reflexivity]); right; [exists (b_ "this.a > "), "1"%char|exists (b_ "|| tru"), "e"%char]; split; reflexivity. }
  split; [repeat constructor; try (exists q; reflexivity); vm_compute; intro H; repeat destruct H as [H|H]; discriminate || exact H|].
  split; [constructor; [|constructor; [|constructor]]; (split; [cbn; lia|split; [cbn; lia|]]); [exists (b_ "  expression: ")|exists (b_ "    ")]; exists []; split; reflexivity|].
  split; [|reflexivity]. repeat (apply Forall_cons); try apply Forall_nil; (now left) || right; eexists _, _, _;
    (split; [cbn [e_kind written]; try (split; [reflexivity|discriminate]); reflexivity|]); (split; [reflexivity|]); (split; [vm_compute; reflexivity|]); cbn [e_col].
  - exists [], (b_ " true"). split; reflexivity.
  - exists (b_ "this.a "), (b_ " 1"). split; reflexivity.
  - exists [], (b_ ".a > 1"). split; reflexivity.
  - exists (b_ "this.a > "), []. split; reflexivity.
  - exists (b_ "|| "), []. split; reflexivity.
Qed.

(** C137.  Full statement: highlighting never stops the server, whatever message literals a file contains.
    Missing: literals with a field without a name, expressions that are no strings, and strings with line breaks. *)
Theorem C137_no_panic_partial parse fs : named fs ->
  Forall (fun f => is_expression f -> literals (f_val f) <> [] /\ Forall (fun l => ~ In nl (l_value l)) (literals (f_val f))) fs ->
  (forall e es, parse e = Some es -> Forall (fun x => silent (e_kind x) = true \/ in_lines e x) es) ->
  inspect_literal parse fs <> None.
Proof.
  intros N F P. unfold inspect_literal. destruct (has_both _ _ _); [|discriminate]. induction fs as [|[[n|] v] r IH]; [discriminate| |inversion N; subst; cbn in *; congruence].
  inversion N as [|? ? _ N']; subst. inversion F as [|? ? F0 F']; subst. cbn [inspect_cel]. destruct (beq n (b_ "expression")) eqn:B; [|now apply IH]. apply beq_eq in B. subst. destruct (F0 eq_refl) as [L V]. cbn [f_val] in *.
  destruct (parse (escape (expression v))) as [es|] eqn:E.
  - pose proof (items_in_lines (nodes v) es) as G. destruct (items (nodes v) es); [discriminate|]. exfalso. apply G; [|reflexivity].
    specialize (P _ _ E). clear - P L V. assert (Q : List.length (split_on nl (escape (expression v))) = List.length (nodes v)); [|eapply Forall_impl; [|exact P]; cbn; intros x [S|S]; [auto|right; unfold in_lines in S; lia]].
    rewrite nodes_literals. apply escape_lines; assumption.
  - rewrite nodes_literals. destruct (literals v); [congruence|now apply IH].
Qed.
Theorem C137_line_break_refuted : exists parse fs, named fs /\ (forall e es, parse e = Some es -> Forall (fun x => in_lines e x) es) /\ parse (b_ "a" ++ nl :: b_ "+b") <> None /\ inspect_literal parse fs = None.
Proof.
  exists (fun e => if beq e (b_ "a" ++ nl :: b_ "+b") then Some [El 2 0 (Call (b_ "+")); El 1 0 (Ident (b_ "a"))] else None), (one (Lit 1 1 (q :: b_ "a\n+b" ++ [q]) (b_ "a" ++ nl :: b_ "+b"))).
  split; [repeat constructor; discriminate|]. split; [|split; [discriminate|reflexivity]]. intros e es. destruct (beq e _) eqn:B; [|discriminate]. intro E. injection E as <-. apply beq_eq in B. subst. repeat constructor; vm_compute; lia.
Qed.
(** An expression that is no string: the empty text, which is no CEL expression, is parsed in its place. *)
Theorem C137_no_string_refuted parse : parse [] = None -> exists fs, named fs /\ inspect_literal parse fs = None.
Proof. intro E. exists [id_field; Field (Some (b_ "expression")) Other]. split; [repeat constructor; discriminate|]. unfold inspect_literal. cbn -[escape]. change (escape []) with (@nil ascii). now rewrite E. Qed.
Theorem C137_no_name_refuted : exists fs, forall parse, inspect_literal parse fs = None.
Proof. exists [Field None Other; id_field; Field (Some (b_ "expression")) (Str (Lit 1 1 [q; q] []))]. reflexivity. Qed.
Example C137_case : named (one (Lit 1 1 (q :: b_ "a" ++ [q]) (b_ "a"))) /\ Forall (fun l => ~ In nl (l_value l)) [Lit 1 1 (q :: b_ "a" ++ [q]) (b_ "a")] /\
  inspect_literal (fun _ => Some [El 1 0 (Ident (b_ "a"))]) (one (Lit 1 1 (q :: b_ "a" ++ [q]) (b_ "a"))) = Some ([Item 0 1 1 TVariable], [Lit 1 1 (q :: b_ "a" ++ [q]) (b_ "a")]).
Proof. split; [repeat constructor; discriminate|]. split; [|reflexivity]. constructor; [|constructor]. vm_compute. intro H; repeat destruct H as [H|H]; discriminate || exact H. Qed.

Print Assumptions C136_covers_partial.
Print Assumptions C136_others.
Print Assumptions C136_unparsed.
Print Assumptions C136_escape_refuted.
Print Assumptions C136_blank_refuted.
Print Assumptions C136_number_refuted.
Print Assumptions C137_no_panic_partial.
Print Assumptions C137_line_break_refuted.
Print Assumptions C137_no_string_refuted.
Print Assumptions C137_no_name_refuted.
