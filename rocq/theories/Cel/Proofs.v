From Coq Require Import Ascii String Lia.
From Verif Require Import Base Strs.
From Verif.Cel Require Import Model Spec.
Import ListNotations.
Open Scope list_scope.

Lemma escape_plain s : ~ In backslash s -> escape s = s.
Proof.
  induction s as [|c r IH]; intro H; [reflexivity|]. cbn [escape]. destruct (Ascii.eqb_spec c backslash) as [->|N]; [exfalso; apply H; now left|].
  rewrite IH; [reflexivity|]. intro I. apply H. now right.
Qed.
Lemma trim_left_spaces b s : forallb space b = true -> trim_left (b ++ s) = trim_left s.
Proof. induction b as [|c r IH]; [reflexivity|]. cbn. intro H. apply andb_true_iff in H as [-> H]. now apply IH. Qed.
Lemma trim_left_dark s : starts_dark s -> trim_left s = s.
Proof. destruct s as [|c r]; [reflexivity|]. cbn. now intros ->. Qed.
Lemma forallb_rev (b : bytes) : forallb space b = true -> forallb space (rev b) = true.
Proof. rewrite !forallb_forall. intros H x I. apply H. now apply in_rev. Qed.
Lemma trim_end t b : forallb space b = true -> dark_end t -> starts_dark (t ++ b) -> trim (t ++ b) = t.
Proof.
  intros B D S. unfold trim. rewrite (trim_left_dark _ S), rev_app_distr, (trim_left_spaces (rev b)) by now apply forallb_rev.
  destruct D as [->|(r & c & -> & D)]; [reflexivity|]. rewrite rev_app_distr. cbn. rewrite D. cbn. now rewrite rev_involutive.
Qed.
Lemma reads_expression v expr : reads v expr -> expression v = expr.
Proof.
  intros [l|ls ts F]; [reflexivity|]. cbn [expression]. f_equal. induction F as [|l t ls ts (b & E & B & D & S) _ IH]; [reflexivity|].
  cbn [map]. rewrite IH, E, (trim_end t b); [reflexivity|exact B|exact D|now rewrite <- E].
Qed.
Lemma nodes_literals v : nodes v = literals v. Proof. now destruct v. Qed.
Lemma in_join c : forall ts x, In x (join_with c ts) -> x = c \/ exists t, In t ts /\ In x t.
Proof.
  induction ts as [|t r IH]; cbn; [easy|]. intros x I. destruct r as [|u r']; [right; exists t; auto|]. apply in_app_or in I as [I|[<-|I]]; [right; exists t; auto|auto|].
  destruct (IH x I) as [E|(t' & I1 & I2)]; [auto|right; exists t'; auto].
Qed.
Lemma reads_plain v expr : reads v expr -> Forall plain (literals v) -> ~ In backslash expr.
Proof.
  intros [l|ls ts F] P I; cbn [literals] in P; [inversion P as [|? ? (_ & A & _) _]; now apply A|]. apply in_join in I as [E|(t & It & I)]; [discriminate|].
  induction F as [|l t0 ls ts (b & E & _) _ IH]; [destruct It|]. inversion P as [|? ? (_ & A & _) P']; subst. destruct It as [<-|It]; [apply A; rewrite E; apply in_or_app; now left|now apply IH].
Qed.
(** the lines of the expression are the beginnings of the literals' values *)
Lemma reads_lines v expr : literals v <> [] -> reads v expr -> Forall plain (literals v) ->
  Forall2 (fun l w => exists b, l_value l = w ++ b) (literals v) (split_on nl expr).
Proof.
  intros N R P. destruct R as [l|ls ts F]; cbn [literals] in *.
  - inversion P as [|? ? (_ & _ & A) _]; subst. rewrite (split_on_no_sep nl _ A). constructor; [|constructor]. exists []. now rewrite app_nil_r.
  - rewrite split_join.
    + clear N P. induction F as [|l t ls ts (b & E & _) _ IH]; constructor; [exists b; exact E|exact IH].
    + destruct F; [exfalso; now apply N|discriminate].
    + clear N. induction F as [|l t ls ts (b & E & _) _ IH]; intros w I; [destruct I|]. inversion P as [|? ? (_ & _ & A) P']; subst.
      destruct I as [<-|I]; [intro J; apply A; rewrite E; apply in_or_app; now left|now apply IH].
Qed.
Lemma forall2_nth {A B} (R : A -> B -> Prop) l m : Forall2 R l m -> forall n b, nth_error m n = Some b -> exists a, nth_error l n = Some a /\ R a b.
Proof. induction 1 as [|a b0 l m H F IH]; intros [|n] b E; try discriminate; cbn in E; [injection E as <-; now exists a|now apply IH]. Qed.
Lemma forall2_length {A B} (R : A -> B -> Prop) l m : Forall2 R l m -> List.length l = List.length m.
Proof. induction 1; cbn; congruence. Qed.

Lemma written_length k s : written k s -> style k = Some (type_of k, List.length s).
Proof.
  destruct k as [[|c op]|n|p|t|[]|]; cbn; intro W; try (now destruct W); try (now subst); try (now destruct W as [-> _]).
  destruct W as [q ->]. cbn. rewrite app_length. cbn. do 2 f_equal. lia.
Qed.
Lemma silent_style k : silent k = true -> style k = None.
Proof. now destruct k as [[|c op]|n|p|t|b|]. Qed.
Lemma written_loud k s : written k s -> silent k = false.
Proof. destruct k as [[|c op]|n|p|t|b|]; cbn; easy. Qed.

Lemma stands_covered line c s : stands_at line c s -> firstn (List.length s) (skipn c line) = s.
Proof. intros (a & b & -> & <-). rewrite skipn_app, skipn_all, Nat.sub_diag. cbn. now rewrite firstn_app, firstn_all, Nat.sub_diag, firstn_O, app_nil_r. Qed.

Lemma item_covers file l k c s w b : lit_stands file l -> plain l -> l_value l = w ++ b -> stands_at w c s ->
  covered file (cel_item l c (type_of k) (List.length s)) = s.
Proof.
  intros (L1 & C1 & (a & z & E & La)) ((q & R) & _ & _) V (x & y & W & Lx). unfold covered, cel_item. cbn [i_len i_start i_line].
  apply stands_covered. exists (a ++ q :: x), (y ++ b ++ [q] ++ z). split.
  - rewrite E, R, V, W. rewrite <- !app_assoc. cbn [app]. rewrite <- !app_assoc. reflexivity.
  - rewrite app_length. cbn [List.length]. lia.
Qed.

Lemma items_cover file ls expr : Forall plain ls -> Forall (lit_stands file) ls -> Forall2 (fun l w => exists b, l_value l = w ++ b) ls (split_on nl expr) ->
  forall es, Forall (fun e => silent (e_kind e) = true \/ in_place expr e) es ->
  exists its, items ls es = Some its /\
    Forall2 (fun i e => written (e_kind e) (covered file i) /\ i_type i = type_of (e_kind e)) its (filter (fun e => negb (silent (e_kind e))) es).
Proof.
  intros P S F2. induction es as [|e r IH]; intro F; [exists []; split; [reflexivity|constructor]|]. inversion F as [|? ? Fe Fr]; subst. destruct (IH Fr) as (its & E & R). cbn [items filter].
  destruct Fe as [Q|(s & n & w & W & L & N & St)].
  - rewrite (silent_style _ Q), Q. now exists its.
  - rewrite (written_loud _ _ W). cbn [negb]. rewrite (written_length _ _ W), L. cbn [node_at]. destruct (forall2_nth _ _ _ F2 n w N) as (l & Nl & (b & V)). rewrite Nl, E.
    eexists. split; [reflexivity|]. constructor; [|exact R]. split; [|reflexivity].
    apply nth_error_In in Nl. rewrite Forall_forall in P, S. now rewrite (item_covers file l (e_kind e) (e_col e) s w b (S _ Nl) (P _ Nl) V St).
Qed.

Lemma has_both_spec : forall fs e i, has_both e i fs = true <-> (e = true \/ exists f, In f fs /\ f_name f = Some (b_ "expression")) /\ (i = true \/ exists f, In f fs /\ f_name f = Some (b_ "id")).
Proof.
  induction fs as [|[[n|] v] r IH]; intros e i.
  - cbn. rewrite andb_true_iff. split; [tauto|]. intros [[->|(f & [] & _)] [->|(g & [] & _)]]. auto.
  - cbn [has_both]. set (e' := if beq n (b_ "expression") then true else e). set (i' := if beq n (b_ "expression") then i else if beq n (b_ "id") then true else i).
    assert (G : (if e' && i' then true else has_both e' i' r) = true <-> (e' = true \/ exists f, In f r /\ f_name f = Some (b_ "expression")) /\ (i' = true \/ exists f, In f r /\ f_name f = Some (b_ "id"))).
    { destruct (e' && i') eqn:B; [apply andb_true_iff in B; tauto|apply IH]. }
    rewrite G. assert (E1 : e' = true <-> e = true \/ n = b_ "expression").
    { unfold e'. destruct (beq n (b_ "expression")) eqn:B; [apply beq_eq in B; tauto|]. apply beq_neq in B. tauto. }
    assert (E2 : i' = true <-> i = true \/ n = b_ "id").
    { unfold i'. destruct (beq n (b_ "expression")) eqn:B; [apply beq_eq in B; subst; split; [auto|intros [H|H]; [exact H|discriminate]]|]. destruct (beq n (b_ "id")) eqn:B2; [apply beq_eq in B2; tauto|]. apply beq_neq in B2. tauto. }
    rewrite E1, E2. split.
    + intros [A B]. split.
      * destruct A as [[A|A]|(f & I & Q)]; [auto|right; exists (Field (Some n) v); split; [now left|cbn [f_name]; congruence]|right; exists f; split; [now right|exact Q]].
      * destruct B as [[A'|A']|(f & I & Q)]; [auto|right; exists (Field (Some n) v); split; [now left|cbn [f_name]; congruence]|right; exists f; split; [now right|exact Q]].
    + intros [A B]. split.
      * destruct A as [A|(f & [<-|I] & Q)]; [auto|cbn [f_name] in Q; injection Q as Q; auto|right; now exists f].
      * destruct B as [A'|(f & [<-|I] & Q)]; [auto|cbn [f_name] in Q; injection Q as Q; auto|right; now exists f].
  - cbn [has_both]. rewrite IH. split; intros [A B]; (split; [destruct A as [A|(f & I & Q)]|destruct B as [A'|(f & I & Q)]]); auto.
    + right. exists f. split; [now right|exact Q].
    + right. exists f. split; [now right|exact Q].
    + destruct I as [<-|I]; [discriminate|right; now exists f].
    + destruct I as [<-|I]; [discriminate|right; now exists f].
Qed.
Lemma inspect_skip parse pre r : Forall (fun f => f_name f <> None /\ ~ is_expression f) pre -> inspect_cel parse (pre ++ r) = inspect_cel parse r.
Proof.
  induction 1 as [|[[n|] v] pre [A B] _ IH]; [reflexivity| |exfalso; now apply A]. cbn [app inspect_cel]. destruct (beq n (b_ "expression")) eqn:E; [|exact IH].
  exfalso. apply B. apply beq_eq in E. now subst.
Qed.
Lemma items_in_lines ls : forall es, Forall (fun e => silent (e_kind e) = true \/ 1 <= e_line e <= List.length ls) es -> items ls es <> None.
Proof.
  induction 1 as [|e es H _ IH]; [discriminate|]. cbn [items]. destruct (style (e_kind e)) as [[t n]|] eqn:S; [|exact IH].
  destruct H as [H|H]; [rewrite (silent_style _ H) in S; discriminate|]. destruct (e_line e) as [|k]; [lia|]. cbn [node_at]. destruct (nth_error ls k) eqn:N; [|apply nth_error_None in N; lia].
  destruct (items ls es); [discriminate|congruence].
Qed.
Lemma escape_no_nl s : ~ In nl s -> ~ In nl (escape s).
Proof.
  induction s as [|c r IH]; intros H I; [easy|]. cbn [escape] in I. assert (H' : ~ In nl r) by (intro; apply H; now right).
  destruct (Ascii.eqb_spec c backslash) as [->|N]; cbn [In] in I; [destruct I as [I|[I|I]]; [discriminate..|now apply IH]|destruct I as [->|I]; [apply H; now left|now apply IH]].
Qed.
Lemma escape_app a b : escape (a ++ b) = escape a ++ escape b.
Proof. induction a as [|c r IH]; [reflexivity|]. cbn [app escape]. rewrite IH. now destruct (Ascii.eqb c backslash). Qed.
Lemma escape_join : forall ts, escape (join_with nl ts) = join_with nl (map escape ts).
Proof. induction ts as [|t [|u r] IH]; [reflexivity..|]. cbn [join_with map] in *. now rewrite escape_app, <- IH. Qed.
Lemma trim_left_in s x : In x (trim_left s) -> In x s.
Proof. induction s as [|c r IH]; [easy|]. cbn. destruct (space c); [intro; right; now apply IH|easy]. Qed.
Lemma trim_in s x : In x (trim s) -> In x s.
Proof. unfold trim. rewrite <- in_rev. intro I. apply trim_left_in in I. rewrite <- in_rev in I. now apply trim_left_in. Qed.
Lemma escape_lines v : literals v <> [] -> Forall (fun l => ~ In nl (l_value l)) (literals v) ->
  List.length (split_on nl (escape (expression v))) = List.length (literals v).
Proof.
  intros N F. destruct v as [l|ls|]; cbn [literals expression] in *; [| |congruence].
  - inversion F; subst. rewrite split_on_no_sep; [reflexivity|]. now apply escape_no_nl.
  - rewrite escape_join, split_join; [now rewrite !map_length|destruct ls; [congruence|discriminate]|].
    intros w I. apply in_map_iff in I as (t & <- & I). apply in_map_iff in I as (l & <- & I). rewrite Forall_forall in F. apply escape_no_nl. intro J. apply trim_in in J. exact (F l I J).
Qed.
