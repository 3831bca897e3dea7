From Coq Require Import Ascii String Lia.
From Verif Require Import Base Strs.
From Verif.Offers Require Import Model.
From Verif.FormatTree Require Spec Lexing Proofs.
From Verif.Rewrite Require Spec.
From Verif.Cel Require Model.
From Verif.Typing Require Import Model Spec.
Import ListNotations.
Open Scope list_scope.

Lemma index_app c a r : ~ In c a -> index c (a ++ c :: r) = Some (List.length a).
Proof.
  induction a as [|x a IH]; cbn [app index]; intro H; [now rewrite Ascii.eqb_refl|].
  destruct (Ascii.eqb_spec x c) as [->|N]; [exfalso; apply H; now left|]. rewrite IH; [reflexivity|]. intro I. apply H. now right.
Qed.
Lemma index_none c s : ~ In c s -> index c s = None.
Proof. induction s as [|x s IH]; [reflexivity|]. cbn [index]. intro H. destruct (Ascii.eqb_spec x c) as [->|N]; [exfalso; apply H; now left|]. rewrite IH; [reflexivity|]. intro I. apply H. now right. Qed.
Lemma firstn_len {A} (a b : list A) : firstn (List.length a) (a ++ b) = a.
Proof. now rewrite firstn_app, firstn_all, Nat.sub_diag, app_nil_r. Qed.
Lemma skipn_len {A} (a b : list A) : skipn (List.length a) (a ++ b) = b.
Proof. now rewrite skipn_app, skipn_all, Nat.sub_diag. Qed.
Lemma skipn_more {A} (a b : list A) n : skipn (List.length a + n) (a ++ b) = skipn n b.
Proof. rewrite skipn_app, skipn_all2 by lia. cbn. f_equal. lia. Qed.

Lemma space_blank c : Cel.Model.space c = true <-> blank c.
Proof.
  unfold Cel.Model.space, blank. cbn [In]. rewrite orb_true_iff, andb_true_iff, Nat.eqb_eq, !Nat.leb_le. lia.
Qed.
Lemma trim_left_tight s : match s with [] => True | c :: _ => ~ blank c end -> Cel.Model.trim_left s = s.
Proof. destruct s as [|c r]; [reflexivity|]. cbn. intro H. destruct (Cel.Model.space c) eqn:E; [apply space_blank in E; contradiction|reflexivity]. Qed.
Lemma trim_tight s : tight s -> Cel.Model.trim s = s.
Proof. intros [A B]. unfold Cel.Model.trim. rewrite (trim_left_tight s A), (trim_left_tight (rev s) B). apply rev_involutive. Qed.
Lemma trim_prefix_app p r : Completion.Model.trim_prefix (p ++ r) p = r.
Proof. unfold Completion.Model.trim_prefix. replace (has_prefix (p ++ r) p) with true; [apply skipn_len|]. symmetry. apply has_prefix_spec. now exists r. Qed.

(** the middle of a line *)
Lemma edit_in_string a partial suffix rest r :
  after_edit (a ++ dq :: partial ++ suffix ++ dq :: rest) (mkEdit (List.length (a ++ dq :: partial)) (List.length (a ++ dq :: partial) + List.length suffix) r) = a ++ dq :: partial ++ r ++ dq :: rest.
Proof.
  unfold after_edit. cbn [from upto text]. replace (a ++ dq :: partial ++ suffix ++ dq :: rest) with ((a ++ dq :: partial) ++ suffix ++ dq :: rest) by (now rewrite <- app_assoc).
  rewrite firstn_len, skipn_more, skipn_len. now rewrite <- app_assoc.
Qed.
Lemma in_string a partial suffix rest : firstn (List.length (a ++ dq :: partial)) (a ++ dq :: partial ++ suffix ++ dq :: rest) = a ++ dq :: partial /\
  skipn (List.length (a ++ dq :: partial)) (a ++ dq :: partial ++ suffix ++ dq :: rest) = suffix ++ dq :: rest.
Proof. replace (a ++ dq :: partial ++ suffix ++ dq :: rest) with ((a ++ dq :: partial) ++ suffix ++ dq :: rest) by (now rewrite <- app_assoc). now rewrite firstn_len, skipn_len. Qed.
Lemma after_quote a partial : skipn (S (List.length a)) (a ++ dq :: partial) = partial.
Proof. replace (S (List.length a)) with (List.length (a ++ [dq])) by (rewrite app_length; cbn; lia). replace (a ++ dq :: partial) with ((a ++ [dq]) ++ partial) by (now rewrite <- app_assoc). apply skipn_len. Qed.

Lemma in_import_items files existing partial suffix pos quotes e :
  In e (import_items files existing partial suffix pos quotes) <->
  exists u p r, In (u, p) files /\ ~ In u existing /\ p = partial ++ r /\ e = mkEdit pos (pos + List.length suffix) (if quotes then quoted r else r).
Proof.
  unfold import_items. rewrite in_map_iff. split.
  - intros ([u p] & <- & I). apply filter_In in I as [I H]. apply andb_true_iff in H as [H N]. apply has_prefix_spec in H as [r ->]. exists u, (partial ++ r), r. split; [exact I|]. split.
    + intro J. apply negb_true_iff in N. assert (existsb (Nat.eqb u) existing = true) by (apply existsb_exists; exists u; split; [exact J|apply Nat.eqb_refl]). congruence.
    + split; [reflexivity|]. now rewrite trim_prefix_app.
  - intros (u & p & r & I & N & -> & ->). exists (u, partial ++ r). split; [now rewrite trim_prefix_app|]. apply filter_In. split; [exact I|]. apply andb_true_iff. split; [apply has_prefix_spec; now exists r|].
    apply negb_true_iff. destruct (existsb (Nat.eqb u) existing) eqn:E; [|reflexivity]. apply existsb_exists in E as (v & J & E). apply Nat.eqb_eq in E. now subst.
Qed.

Lemma skipn_twice {A} n m (l : list A) : skipn n (skipn m l) = skipn (m + n) l.
Proof. revert l. induction m as [|m IH]; intro l; [reflexivity|]. destruct l; cbn [skipn Nat.add]; [apply skipn_nil|apply IH]. Qed.
Lemma cut_at (line : bytes) a b : a <= b -> b <= List.length line -> firstn a line ++ cut line a b ++ skipn b line = line.
Proof.
  intros H K. unfold cut. assert (E : skipn b line = skipn (b - a) (skipn a line)) by (rewrite skipn_twice; f_equal; lia).
  rewrite E, (firstn_skipn (b - a)). apply firstn_skipn.
Qed.
Lemma cut_length (line : bytes) a b : a <= b -> b <= List.length line -> List.length (cut line a b) = b - a.
Proof. intros. unfold cut. rewrite firstn_length, skipn_length. lia. Qed.
(** the cursor is in the word *)
Lemma partial_in line a b pos : a <= pos <= b -> b <= List.length line -> find_partial line a b pos = (cut line a pos, cut line pos b).
Proof.
  intros [H1 H2] K. unfold find_partial. f_equal.
  - destruct (Nat.ltb_spec a pos); [f_equal; lia|]. assert (a = pos) by lia. subst. unfold cut. now rewrite Nat.sub_diag.
  - destruct (Nat.ltb_spec pos b); [f_equal; lia|]. assert (pos = b) by lia. subst. unfold cut. now rewrite Nat.sub_diag.
Qed.
Lemma words_in line a b pos ws e : a <= pos <= b -> b <= List.length line ->
  In e (words ws (cut line a pos) (cut line pos b) pos) <-> exists w, In w ws /\ starts w (cut line a pos) /\ e = mkEdit a b w.
Proof.
  intros H K. unfold words. rewrite !cut_length by lia. replace (pos - (pos - a)) with a by lia. replace (pos + (b - pos)) with b by lia. rewrite in_map_iff. split.
  - intros (w & <- & I). apply filter_In in I as [I P]. apply has_prefix_spec in P. now exists w.
  - intros (w & I & P & ->). exists w. split; [reflexivity|]. apply filter_In. split; [exact I|]. now apply has_prefix_spec.
Qed.
Lemma words_start ws pos e : In e (words ws [] [] pos) <-> exists w, In w ws /\ e = mkEdit pos pos w.
Proof.
  unfold words. cbn [List.length]. rewrite Nat.sub_0_r, Nat.add_0_r, in_map_iff. split.
  - intros (w & <- & I). apply filter_In in I as [I _]. now exists w.
  - intros (w & I & ->). exists w. split; [reflexivity|]. apply filter_In. split; [exact I|]. apply has_prefix_nil.
Qed.

(** *** Snippets *)
Lemma inserted_plain s : ~ In "$"%char s -> inserted s = s.
Proof.
  induction s as [|c r IH]; intro H; [reflexivity|]. assert (E : inserted r = r) by (apply IH; intro; apply H; now right).
  assert (N : Ascii.eqb c "$" = false) by (apply Ascii.eqb_neq; intros ->; apply H; now left). cbn [inserted]. rewrite E, N. destruct r as [|c1 [|c2 [|c3 r]]]; try reflexivity; repeat match goal with |- context [match ?x with _ => _ end] => destruct x end; reflexivity.
Qed.
Lemma inserted_app s r : ~ In "$"%char s -> inserted (s ++ b_ "${0}" ++ r) = s ++ r.
Proof.
  induction s as [|c s IH]; intro H; [reflexivity|]. assert (E : inserted (s ++ b_ "${0}" ++ r) = s ++ r) by (apply IH; intro; apply H; now right).
  assert (N : Ascii.eqb c "$" = false) by (apply Ascii.eqb_neq; intros ->; apply H; now left). cbn [app inserted]. rewrite E, N. set (l := s ++ b_ "${0}" ++ r). clearbody l. destruct l as [|c1 [|c2 [|c3 l]]]; try reflexivity; repeat match goal with |- context [match ?x with _ => _ end] => destruct x end; reflexivity.
Qed.
Lemma idchar_dollar s : forallb FormatTree.Spec.idchar s = true -> ~ In "$"%char s.
Proof. rewrite forallb_forall. intros H I. apply H in I. discriminate. Qed.
Lemma name_dollar n : Rewrite.Spec.name n -> ~ In "$"%char n.
Proof. intros (c & r & -> & L & F) [->|I]; [discriminate|now apply (idchar_dollar r)]. Qed.

Lemma not_in_app {A} (x : A) a b : ~ In x a -> ~ In x b -> ~ In x (a ++ b).
Proof. intros H K I. apply in_app_or in I as [I|I]; auto. Qed.
Lemma inserted_text s f : Rewrite.Spec.name (lname f) -> (lrepeated f = false -> lkind f <> FMessage true) ->
  inserted (field_text s f) = lname f ++ operator s ++ (if lrepeated f then b_ "[]" else match lkind f with FMessage _ => b_ "{" ++ lf :: b_ "  " ++ lf :: b_ "}" | FScalar => [] end).
Proof.
  intros N M. apply name_dollar in N. assert (O : ~ In "$"%char (operator s)) by (destruct s; vm_compute; intro H; repeat destruct H as [H|H]; discriminate || exact H).
  unfold field_text. destruct (lrepeated f).
  - change (b_ "[${0}]") with (b_ "[" ++ b_ "${0}" ++ b_ "]"). rewrite app_assoc, app_assoc, inserted_app; [now rewrite <- !app_assoc|].
    repeat apply not_in_app; auto. vm_compute. intro H; repeat destruct H as [H|H]; discriminate || exact H.
  - destruct (lkind f) as [[]|]; [now specialize (M eq_refl)| |].
    + change braces with ((b_ "{" ++ lf :: b_ "  ") ++ b_ "${0}" ++ (lf :: b_ "}")). rewrite app_assoc, app_assoc, inserted_app; [now rewrite <- !app_assoc|].
      repeat apply not_in_app; auto; vm_compute; intro H; repeat destruct H as [H|H]; discriminate || exact H.
    + rewrite inserted_plain, app_nil_r; [reflexivity|]. now apply not_in_app.
Qed.

(** *** Words *)
Import FormatTree.Spec FormatTree.Lexing.
Lemma words_split a b : fst (lrun S0 a) = S0 -> words_of (a ++ b) = words_of a ++ words_of b.
Proof. intro H. unfold words_of, lexemes. rewrite lrun_app, H. destruct (lrun S0 a) as [s l]. cbn in H. subst s. cbn [fst snd flush]. rewrite app_nil_r. destruct (lrun S0 b) as [s m]. cbn [fst snd]. rewrite <- app_assoc. apply wds_app. Qed.
Lemma end_split a b : fst (lrun S0 a) = S0 -> fst (lrun S0 b) = S0 -> fst (lrun S0 (a ++ b)) = S0.
Proof. intros H K. rewrite lrun_app, H. exact K. Qed.
Lemma name_text n t l : Rewrite.Spec.name n -> (forall w, lrun (SId w) t = (S0, LW w :: l)) -> fst (lrun S0 (n ++ t)) = S0 /\ words_of (n ++ t) = n :: wds l.
Proof.
  intros (c & r & -> & L & F) T. unfold words_of, lexemes. rewrite lrun_app, (Proofs.lrun_id c r L F). cbn [fst snd]. rewrite T. cbn [fst snd flush app]. split; [reflexivity|]. now rewrite app_nil_r.
Qed.
Lemma literal_words f : Rewrite.Spec.name (lname f) -> (lrepeated f = false -> lkind f <> FMessage true) ->
  fst (lrun S0 (inserted (field_text LiteralStyle f))) = S0 /\ words_of (inserted (field_text LiteralStyle f)) = lname f :: b_ ":" :: value_words f.
Proof.
  intros N M. rewrite inserted_text by assumption. unfold value_words. destruct (lrepeated f); [apply (name_text _ _ [LW (b_ ":"); LW (b_ "["); LW (b_ "]")]); [exact N|reflexivity]|].
  destruct (lkind f) as [[]|]; [now specialize (M eq_refl)|apply (name_text _ _ [LW (b_ ":"); LW (b_ "{"); LW (b_ "}")]); [exact N|reflexivity]|apply (name_text _ _ [LW (b_ ":")]); [exact N|reflexivity]].
Qed.
