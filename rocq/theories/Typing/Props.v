(** C138: imports and syntax versions while they are typed.  C139: keywords.  C140: values.  C141: fields of message
    literals. *)
From Coq Require Import Ascii String Lia.
From Verif Require Import Base Strs.
From Verif.Offers Require Import Model Proofs.
From Verif.FormatTree Require Spec.
From Verif.Rewrite Require Spec.
From Verif.Typing Require Import Model Spec Proofs.
Import ListNotations.
Open Scope list_scope.

(** ** C138 *)
(** Full statement: wherever the cursor is within the path of an import, the files offered are those that are not yet
    imported and whose path begins with what is typed, and accepting one leaves an import of that path; nothing else on
    the line changes.  Missing: lines on which a quotation mark precedes the path, and paths in single quotes, for which
    it is false (below). *)
Theorem C138_imports_partial : forall files existing a partial suffix rest public,
  no_quote a -> no_quote partial -> no_quote suffix -> tight partial -> tight suffix ->
  let line := a ++ dq :: partial ++ suffix ++ dq :: rest in
  exists es, at_import files existing line (List.length (a ++ dq :: partial)) public false = map Change es /\
    forall l, (exists e, In e es /\ after_edit line e = l) <->
              (exists u p, In (u, p) files /\ ~ In u existing /\ starts p partial /\ l = a ++ dq :: p ++ dq :: rest).
Proof.
  intros files existing a partial suffix rest public Qa Qp Qs Tp Ts line. unfold at_import, line. destruct (in_string a partial suffix rest) as [-> ->].
  rewrite (index_app dq a partial Qa), (index_app dq suffix rest Qs), after_quote, firstn_len, (trim_tight _ Tp), (trim_tight _ Ts). cbn [orb app].
  eexists. split; [reflexivity|]. intro l. split.
  - intros (e & I & <-). apply in_import_items in I as (u & p & r & I & N & -> & ->). exists u, (partial ++ r). split; [exact I|]. split; [exact N|]. split; [now exists r|]. rewrite edit_in_string. now rewrite <- app_assoc.
  - intros (u & p & I & N & [r ->] & ->). eexists. split; [apply in_import_items; exists u, (partial ++ r), r; repeat split; try assumption; reflexivity|]. rewrite edit_in_string. now rewrite <- app_assoc.
Qed.
(** before the path is begun, every file not yet imported is offered, with its quotation marks *)
Theorem C138_fresh_partial : forall files existing a rest public,
  no_quote a -> no_quote rest ->
  exists es, at_import files existing (a ++ rest) (List.length a) public true = (if public then [] else [Keyword (b_ "public")]) ++ map Change es /\
    forall l, (exists e, In e es /\ after_edit (a ++ rest) e = l) <-> (exists u p, In (u, p) files /\ ~ In u existing /\ l = a ++ quoted p ++ rest).
Proof.
  intros files existing a rest public Qa Qr. unfold at_import. rewrite firstn_len, skipn_len, (index_none dq a Qa), (index_none dq rest Qr). cbn [orb].
  eexists. split; [reflexivity|]. intro l. split.
  - intros (e & I & <-). apply in_import_items in I as (u & p & r & I & N & -> & ->). exists u, r. split; [exact I|]. split; [exact N|]. unfold after_edit. cbn [from upto text List.length]. now rewrite Nat.add_0_r, firstn_len, skipn_len.
  - intros (u & p & I & N & ->). eexists. split; [apply in_import_items; exists u, p, p; repeat split; try assumption; reflexivity|]. unfold after_edit. cbn [from upto text List.length]. now rewrite Nat.add_0_r, firstn_len, skipn_len.
Qed.
Theorem C138_versions_partial : forall a partial suffix rest,
  no_quote a -> no_quote partial -> no_quote suffix -> tight partial -> tight suffix ->
  let line := a ++ dq :: partial ++ suffix ++ dq :: rest in
  forall l, (exists e, In e (at_syntax line (List.length (a ++ dq :: partial))) /\ after_edit line e = l) <->
            (exists v, (v = b_ "proto2" \/ v = b_ "proto3") /\ starts v partial /\ l = a ++ dq :: v ++ dq :: rest).
Proof.
  intros a partial suffix rest Qa Qp Qs Tp Ts line. unfold at_syntax, line. destruct (in_string a partial suffix rest) as [-> ->].
  rewrite (index_app dq a partial Qa), (index_app dq suffix rest Qs), after_quote, firstn_len, (trim_tight _ Tp), (trim_tight _ Ts). intro l. split.
  - intros (e & I & <-). apply in_map_iff in I as (v & <- & I). apply filter_In in I as [I P]. apply has_prefix_spec in P as [r ->]. exists (partial ++ r). split; [destruct I as [I|[I|[]]]; auto|]. split; [now exists r|].
    rewrite trim_prefix_app, edit_in_string. now rewrite <- app_assoc.
  - intros (v & I & [r ->] & ->). eexists. split; [apply in_map_iff; exists (partial ++ r); split; [reflexivity|]; apply filter_In; split; [cbn [versions In]; destruct I as [I|I]; auto|apply has_prefix_spec; now exists r]|].
    rewrite trim_prefix_app, edit_in_string. now rewrite <- app_assoc.
Qed.
Example C138_case : at_import [(1, b_ "a.proto"); (2, b_ "dir/b.proto"); (3, b_ "dir/c.proto")] [2] (b_ "import " ++ quoted (b_ "dir/x") ++ b_ ";") 12 false false = [Change (mkEdit 12 13 (b_ "c.proto"))] /\
  after_edit (b_ "import " ++ quoted (b_ "dir/x") ++ b_ ";") (mkEdit 12 13 (b_ "c.proto")) = b_ "import " ++ quoted (b_ "dir/c.proto") ++ b_ ";" /\
  tight (b_ "dir/") /\ tight (b_ "x") /\ no_quote (b_ "dir/").
Proof. repeat split; try reflexivity; vm_compute; intro H; repeat destruct H as [H|H]; discriminate || exact H. Qed.
(** import "a.proto"; import "b|"; *)
Example two_imports : bytes := b_ "import " ++ quoted (b_ "a.proto") ++ b_ "; import " ++ quoted (b_ "b") ++ b_ ";".
(** where an import stands before on the line, nothing is offered *)
Theorem C138_same_line_refuted : exists files line, (exists a partial rest, line = a ++ dq :: partial ++ dq :: rest /\ In (2, partial ++ b_ ".proto") files /\ no_quote partial /\
  at_import files [1] line (List.length (a ++ dq :: partial)) false false = []).
Proof.
  exists [(1, b_ "a.proto"); (2, b_ "b.proto")], two_imports, (b_ "import " ++ quoted (b_ "a.proto") ++ b_ "; import "), (b_ "b"), (b_ ";"). repeat split; try reflexivity.
  - right. now left.
  - vm_compute. intros [H|[]]. discriminate.
Qed.
(** import 'a|'; offers the keyword public within the path, and no path *)
Theorem C138_single_quotes_refuted : exists files line pos w, In (1, b_ "a.proto") files /\ line = b_ "import 'a';" /\ pos = 9 /\ at_import files [] line pos false false = [Keyword w].
Proof. exists [(1, b_ "a.proto")], (b_ "import 'a';"), 9, (b_ "public"). repeat split. now left. Qed.
(** import | import "b.proto"; : what stands between the cursor and the quotation mark is lost *)
Theorem C138_lost_refuted : exists files a rest e, no_quote a /\ In (Change e) (at_import files [] (a ++ rest) (List.length a) false true) /\ after_edit (a ++ rest) e = a ++ quoted (b_ "a.proto") ++ b_ " " ++ quoted (b_ "b.proto") ++ b_ ";" /\
  rest = b_ "; import " ++ quoted (b_ "b.proto") ++ b_ ";".
Proof.
  exists [(1, b_ "a.proto")], (b_ "import "), (b_ "; import " ++ quoted (b_ "b.proto") ++ b_ ";"), (mkEdit 7 15 (quoted (b_ "a.proto"))). split; [|split; [right; now left|split; reflexivity]].
  vm_compute. intro H. repeat destruct H as [H|H]; discriminate || exact H.
Qed.

(** ** C139 *)
(** Full statement: a word is offered in place of the name under the cursor if and only if an element of the message may
    begin with it, and it begins with what is typed.  Missing: words that are never offered, and the words offered in
    proto2 files and in files with an edition (refuted below). *)
Theorem C139_elements_partial : forall v line a b pos, a <= pos <= b -> b <= List.length line ->
  forall e, In e (at_message (Syntax v) line a b pos) ->
  exists w, after_edit line e = firstn a line ++ w ++ skipn b line /\ starts w (cut line a pos) /\ (v <> b_ "proto2" -> begins_element (Syntax v) w).
Proof.
  intros v line a b pos H K e I. unfold at_message in I. rewrite (partial_in _ _ _ _ H K) in I. apply (words_in _ _ _ _ _ _ H K) in I as (w & I & P & ->). exists w. split; [reflexivity|]. split; [exact P|].
  intro N. unfold message_keywords, is_proto2 in I. cbn [syntax_node] in I. destruct (beq v (b_ "proto2")) eqn:E; [apply beq_eq in E; contradiction|]. rewrite app_nil_r in I. unfold begins_element.
  cbn [In] in I |- *. intuition.
Qed.
(** ... and those words are all offered, but for four *)
Theorem C139_all_partial : forall h line a b pos w, a <= pos <= b -> b <= List.length line -> begins_element h w -> starts w (cut line a pos) ->
  ~ In w [b_ "oneof"; b_ "map"; b_ "extensions"; b_ "extend"] -> exists e, In e (at_message h line a b pos) /\ after_edit line e = firstn a line ++ w ++ skipn b line.
Proof.
  intros h line a b pos w H K B P N. exists (mkEdit a b w). split; [|reflexivity]. unfold at_message. rewrite (partial_in _ _ _ _ H K). apply (words_in _ _ _ _ _ _ H K). exists w. split; [|split; [exact P|reflexivity]].
  cbn [In] in N. unfold message_keywords. apply in_or_app. destruct B as [B|B]; [left; cbn [In] in B |- *; intuition|]. destruct h as [|v|v].
  - cbn [In] in B |- *. unfold is_proto2, syntax_node. cbn [In]. intuition.
  - destruct B as [->|[-> B]]; [left; cbn [In]; tauto|right]. cbn [In] in B |- *. change (is_proto2 (Syntax (b_ "proto2"))) with true. cbn [In]. intuition.
  - exfalso. apply N. subst w. tauto.
Qed.
(** a oneof, a map and a range of extensions are never offered *)
Theorem C139_missing_refuted : forall w, In w [b_ "oneof"; b_ "map"; b_ "extensions"] -> begins_element (Syntax (b_ "proto2")) w /\ forall h line a b pos e, In e (at_message h line a b pos) -> text e <> w.
Proof.
  intros w I. split; [unfold begins_element; cbn [In] in I |- *; intuition|]. intros h line a b pos e J E. unfold at_message in J. destruct (find_partial line a b pos) as [p s]. unfold words in J. apply in_map_iff in J as (x & <- & J). cbn [text] in E. subst x.
  apply filter_In in J as [J _]. unfold message_keywords in J. apply in_app_or in J as [J|J]; [|destruct (is_proto2 h); [|contradiction]]; cbn [In] in I, J; repeat destruct I as [I|I]; try contradiction; subst w; repeat destruct J as [J|J]; try contradiction; discriminate.
Qed.
(** no element begins with group, which stands after its label; required and group may not be used with editions *)
Theorem C139_group_refuted : exists e, In e (at_message (Syntax (b_ "proto2")) (b_ "gr") 0 2 2) /\ after_edit (b_ "gr") e = b_ "group" /\ ~ begins_element (Syntax (b_ "proto2")) (b_ "group").
Proof.
  exists (mkEdit 0 2 (b_ "group")). split; [now left|]. split; [reflexivity|]. unfold begins_element. cbn [In]. intro H. repeat match goal with H : _ \/ _ |- _ => destruct H | H : _ /\ _ |- _ => destruct H end; try contradiction; discriminate.
Qed.
Theorem C139_editions_refuted : exists e, In e (at_message (Edition (b_ "2023")) (b_ "req") 0 3 3) /\ after_edit (b_ "req") e = b_ "required" /\ ~ begins_element (Edition (b_ "2023")) (b_ "required").
Proof.
  exists (mkEdit 0 3 (b_ "required")). split; [now left|]. split; [reflexivity|]. unfold begins_element. cbn [In]. intro H. repeat match goal with H : _ \/ _ |- _ => destruct H | H : _ /\ _ |- _ => destruct H end; try contradiction; discriminate.
Qed.
(** At the top level of a file that has a syntax, exactly the words that begin a declaration are offered. *)
Theorem C139_declarations_partial : forall v package line a b pos, a <= pos <= b -> b <= List.length line ->
  forall l, (exists e, In e (at_file (Syntax v) package line a b pos) /\ after_edit line e = l) <->
            (exists w, begins_declaration (Syntax v) package w /\ starts w (cut line a pos) /\ l = firstn a line ++ w ++ skipn b line).
Proof.
  intros v package line a b pos H K l. unfold at_file. rewrite (partial_in _ _ _ _ H K). split.
  - intros (e & I & <-). apply (words_in _ _ _ _ _ _ H K) in I as (w & I & P & ->). exists w. split; [|split; [exact P|reflexivity]]. unfold begins_declaration. unfold file_keywords in I. cbn [syntax_node app] in I. apply in_app_or in I as [I|I]; [|now left].
    right. left. destruct package; [contradiction|]. destruct I as [<-|[]]. auto.
  - intros (w & B & P & ->). exists (mkEdit a b w). split; [|reflexivity]. apply (words_in _ _ _ _ _ _ H K). exists w. split; [|split; [exact P|reflexivity]]. unfold file_keywords. cbn [syntax_node app]. apply in_or_app.
    destruct B as [B|[[-> ->]|[B _]]]; [now right|left; now left|discriminate].
Qed.
(** with an edition, a syntax is offered beside it *)
Theorem C139_syntax_refuted : exists e, In e (at_file (Edition (b_ "2023")) false (b_ "syn") 0 3 3) /\ after_edit (b_ "syn") e = b_ "syntax" /\ ~ begins_declaration (Edition (b_ "2023")) false (b_ "syntax").
Proof.
  exists (mkEdit 0 3 (b_ "syntax")). split; [now left|]. split; [reflexivity|]. unfold begins_declaration. cbn [In]. intro H. repeat match goal with H : _ \/ _ |- _ => destruct H | H : _ /\ _ |- _ => destruct H end; try contradiction; discriminate.
Qed.
Example C139_case : at_message (Syntax (b_ "proto3")) (b_ "  opt int32 a = 1;") 2 5 4 = [mkEdit 2 5 (b_ "option"); mkEdit 2 5 (b_ "optional")] /\
  after_edit (b_ "  opt int32 a = 1;") (mkEdit 2 5 (b_ "optional")) = b_ "  optional int32 a = 1;".
Proof. split; reflexivity. Qed.

(** ** C140 *)
(** Full statement: with the cursor at the value of a field, the values that may stand there and begin with what is typed
    are offered, and accepting one leaves it in place of the value.  Missing: a cursor after the value, values that are
    lists (refuted below). *)
Definition may_be (t : vtype) (v : bytes) : Prop := match t with VEnum vs => In v vs | VBool => v = b_ "true" \/ v = b_ "false" | _ => False end.
Theorem C140_values_partial : forall t line a b pos, a <= pos <= b -> b <= List.length line ->
  forall l, (exists e, In e (at_value t line (Some (a, b)) pos) /\ after_edit line e = l) <->
            (exists v, may_be t v /\ starts v (cut line a pos) /\ l = firstn a line ++ v ++ skipn b line).
Proof.
  intros t line a b pos H K l. unfold at_value. rewrite (partial_in _ _ _ _ H K). destruct t as [m|vs| |]; cbn [may_be].
  - split; [intros (e & I & _)|intros (v & [] & _)]. destruct m; contradiction.
  - split.
    + intros (e & I & <-). apply (words_in _ _ _ _ _ _ H K) in I as (w & I & P & ->). exists w. auto.
    + intros (w & I & P & ->). exists (mkEdit a b w). split; [|reflexivity]. apply (words_in _ _ _ _ _ _ H K). exists w. auto.
  - split.
    + intros (e & I & <-). apply (words_in _ _ _ _ _ _ H K) in I as (w & I & P & ->). exists w. split; [|auto]. cbn [In] in I. intuition.
    + intros (w & I & P & ->). exists (mkEdit a b w). split; [|reflexivity]. apply (words_in _ _ _ _ _ _ H K). exists w. split; [|auto]. cbn [In]. intuition.
  - split; [intros (e & [] & _)|intros (v & [] & _)].
Qed.
(** where there is no value yet, it is inserted at the cursor; for a message, braces are *)
Theorem C140_absent : forall t line pos l,
  (exists e, In e (at_value t line None pos) /\ accepted line e = l) <->
  match t with
  | VMessage m => m = false /\ l = firstn pos line ++ (b_ "{" ++ lf :: b_ "  " ++ lf :: b_ "}") ++ skipn pos line
  | _ => exists v, may_be t v /\ l = firstn pos line ++ inserted v ++ skipn pos line
  end.
Proof.
  intros t line pos l. unfold at_value. destruct t as [m|vs| |]; cbn [may_be].
  - destruct m; split.
    + intros (e & [] & _).
    + intros [E _]. discriminate.
    + intros (e & [<-|[]] & <-). split; reflexivity.
    + intros [_ ->]. eexists. split; [left; reflexivity|]. reflexivity.
  - split.
    + intros (e & I & <-). apply words_start in I as (w & I & ->). exists w. auto.
    + intros (w & I & ->). exists (mkEdit pos pos w). split; [apply words_start; eauto|reflexivity].
  - split.
    + intros (e & I & <-). apply words_start in I as (w & I & ->). exists w. split; [cbn [In] in I; intuition|reflexivity].
    + intros (w & I & ->). exists (mkEdit pos pos w). split; [apply words_start; exists w; cbn [In]; intuition|reflexivity].
  - split; [intros (e & [] & _)|intros (v & [] & _)].
Qed.
(** b: t  |  with the cursor two columns after the value: the first letters stay *)
Theorem C140_after_refuted : exists line a b pos e, b <= pos /\ pos <= List.length line /\ In e (at_value VBool line (Some (a, b)) pos) /\ after_edit line e = b_ "{b: trtrue}".
Proof. exists (b_ "{b: tr  }"), 4, 6, 8, (mkEdit 6 8 (b_ "true")). repeat split; cbn; auto. Qed.
(** in a list, what is before the cursor is taken from the bracket on, so nothing is offered *)
Theorem C140_list_refuted : exists vs line a b pos, a <= pos <= b /\ cut line a b = b_ "[ON, O]" /\ cut line (pos - 1) pos = b_ "O" /\ may_be (VEnum vs) (b_ "OFF") /\ at_value (VEnum vs) line (Some (a, b)) pos = [].
Proof. exists [b_ "ON"; b_ "OFF"], (b_ "e: [ON, O]"), 3, 10, 9. repeat split; cbn; auto; lia. Qed.
Example C140_case : at_value (VEnum [b_ "ON"; b_ "OFF"]) (b_ "e: OX }") (Some (3, 5)) 4 = [mkEdit 3 5 (b_ "ON"); mkEdit 3 5 (b_ "OFF")] /\ after_edit (b_ "e: OX }") (mkEdit 3 5 (b_ "OFF")) = b_ "e: OFF }".
Proof. split; reflexivity. Qed.

(** ** C141 *)
(** Full statement: in a message literal every field that may still be set is offered, and accepting it adds that field
    and nothing else.  Missing: literals that are values of extensions (refuted below), and fields of a map's entry type
    that are not repeated, which do not exist. *)
Theorem C141_fields_partial : forall fs present before after,
  NoDup (map lname fs) -> Forall (fun f => Rewrite.Spec.name (lname f) /\ (lrepeated f = false -> lkind f <> FMessage true)) fs ->
  fst (FormatTree.Spec.lrun FormatTree.Spec.S0 before) = FormatTree.Spec.S0 ->
  exists offered,
    (forall f, In f offered <-> In f fs /\ (lrepeated f = true \/ ~ In (lname f) present)) /\
    Forall2 (fun f e => FormatTree.Spec.words_of (accepted (before ++ after) e) =
                        FormatTree.Spec.words_of before ++ (lname f :: b_ ":" :: value_words f) ++ FormatTree.Spec.words_of after)
            offered (at_literal (OfMessage fs) present (List.length before)).
Proof.
  intros fs present before after D F B. eexists. split; cycle 1.
  - unfold at_literal.
    assert (G : forall l, Forall (fun f => Rewrite.Spec.name (lname f) /\ (lrepeated f = false -> lkind f <> FMessage true)) l ->
      Forall2 (fun f e => FormatTree.Spec.words_of (accepted (before ++ after) e) = FormatTree.Spec.words_of before ++ (lname f :: b_ ":" :: value_words f) ++ FormatTree.Spec.words_of after)
        l (map (fun f => mkEdit (List.length before) (List.length before) (field_text LiteralStyle f)) l)).
    { induction 1 as [|f l [N M] _ IH]; cbn [map]; constructor; [|exact IH]. unfold accepted, after_edit. cbn [from upto text]. rewrite firstn_len, skipn_len.
      destruct (literal_words f N M) as [E W]. rewrite words_split by exact B. f_equal. rewrite words_split by exact E. now rewrite W. }
    apply G. rewrite Forall_forall in F |- *. intros f I. apply filter_In in I as [I _]. now apply F.
  - intro f. rewrite filter_In. split; intros [I H]; split; try exact I.
    + destruct (lrepeated f) eqn:R; [now left|right]. intro J. apply negb_true_iff in H.
      assert (E : find (fun g => beq (lname g) (lname f)) fs = Some f).
      { clear F H J. induction fs as [|g l IH]; [contradiction|]. cbn [find map] in D |- *. inversion D as [|x xs N D']; subst. destruct I as [->|I]; [now rewrite beq_refl|].
        destruct (beq (lname g) (lname f)) eqn:E; [|now apply IH]. apply beq_eq in E. exfalso. apply N. rewrite E. now apply in_map. }
      assert (mem (lname f) (filter (is_single fs) present) = true); [|congruence]. apply mem_in. apply filter_In. split; [exact J|]. unfold is_single. rewrite E, R. reflexivity.
    + apply negb_true_iff. destruct (mem (lname f) (filter (is_single fs) present)) eqn:M; [|reflexivity]. apply mem_in in M. apply filter_In in M as [M S]. destruct H as [R|N]; [|contradiction].
      unfold is_single in S. assert (E : find (fun g => beq (lname g) (lname f)) fs = Some f).
      { clear F M S. induction fs as [|g l IH]; [contradiction|]. cbn [find map] in D |- *. inversion D as [|x xs N D']; subst. destruct I as [->|I]; [now rewrite beq_refl|].
        destruct (beq (lname g) (lname f)) eqn:E; [|now apply IH]. apply beq_eq in E. exfalso. apply N. rewrite E. now apply in_map. }
      rewrite E, R in S. discriminate.
Qed.
(** in the value of an extension, fields are offered as if they were options, and again if they are present *)
Theorem C141_extension_refuted : exists f e, In e (at_literal (OfExtension [f]) [lname f] 13) /\ lrepeated f = false /\ accepted (b_ "(ext) = {a:1 }") e = b_ "(ext) = {a:1 a = }".
Proof. exists (mkLField (b_ "a") false FScalar), (mkEdit 13 13 (b_ "a = ")). repeat split. now left. Qed.
Example a_type : list lfield := [mkLField (b_ "one") false FScalar; mkLField (b_ "many") true FScalar; mkLField (b_ "msg") false (FMessage false)].
Example C141_case : map (accepted (b_ "o = { one: 1 }")) (at_literal (OfMessage a_type) [b_ "one"; b_ "many"] 13) = [b_ "o = { one: 1 many: []}"; b_ "o = { one: 1 msg: {" ++ lf :: b_ "  " ++ lf :: b_ "}}"].
Proof. reflexivity. Qed.
Example C141_case_hypotheses : NoDup (map lname a_type) /\ Forall (fun f => Rewrite.Spec.name (lname f) /\ (lrepeated f = false -> lkind f <> FMessage true)) a_type /\
  fst (FormatTree.Spec.lrun FormatTree.Spec.S0 (b_ "o = { one: 1 ")) = FormatTree.Spec.S0.
Proof.
  split; [|split; [|reflexivity]].
  - repeat constructor; cbn; intros H; repeat destruct H as [H|H]; discriminate || exact H.
  - repeat constructor; try discriminate; eexists; eexists; (split; [reflexivity|split; reflexivity]).
Qed.
Print Assumptions C138_imports_partial.
Print Assumptions C138_fresh_partial.
Print Assumptions C138_versions_partial.
Print Assumptions C138_same_line_refuted.
Print Assumptions C138_single_quotes_refuted.
Print Assumptions C138_lost_refuted.
Print Assumptions C139_elements_partial.
Print Assumptions C139_all_partial.
Print Assumptions C139_missing_refuted.
Print Assumptions C139_group_refuted.
Print Assumptions C139_editions_refuted.
Print Assumptions C139_declarations_partial.
Print Assumptions C139_syntax_refuted.
Print Assumptions C140_values_partial.
Print Assumptions C140_absent.
Print Assumptions C140_after_refuted.
Print Assumptions C140_list_refuted.
Print Assumptions C141_fields_partial.
Print Assumptions C141_extension_refuted.
