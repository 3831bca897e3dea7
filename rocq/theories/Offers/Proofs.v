From Coq Require Import Ascii String Lia Sorted.
From Verif Require Import Base Strs.
From Verif.Completion Require Proofs.
From Verif.Locate Require Import Model Spec Proofs.
From Verif.Offers Require Import Model Spec.
Open Scope list_scope.

(** ** Text *)
Lemma accept_at pre mid post e : from e = List.length pre -> upto e = List.length pre + List.length mid -> accept (pre ++ mid ++ post) e = pre ++ text e ++ post.
Proof.
  intros Hf Hu. unfold accept. rewrite Hf, Hu. rewrite firstn_app, Nat.sub_diag, firstn_all, app_nil_r. f_equal. f_equal.
  rewrite skipn_app. rewrite skipn_all2 by lia. cbn [app]. replace (List.length pre + List.length mid - List.length pre) with (List.length mid) by lia.
  rewrite skipn_app, skipn_all, Nat.sub_diag. reflexivity.
Qed.
Lemma cut_length s i j : j <= List.length s -> List.length (cut s i j) = j - i.
Proof. intros H. unfold cut. rewrite firstn_length, skipn_length. lia. Qed.
Lemma partial_lengths line a z pos : z <= List.length line ->
  List.length (fst (find_partial line a z pos)) = Nat.min pos z - a /\ List.length (snd (find_partial line a z pos)) = z - Nat.max a pos.
Proof.
  intros H. unfold find_partial. cbn [fst snd]. split.
  - destruct (Nat.ltb_spec a pos); [apply cut_length; lia|cbn; lia].
  - destruct (Nat.ltb_spec pos z); [apply cut_length; lia|cbn; lia].
Qed.
(** the edit of every item *)
Lemma items_edits exts pkg ex p pa su r pos i : In i (complete_names exts pkg ex p pa su r pos) ->
  (exists f, i = field_item pos pa su f /\ (exists m, In f (fields m))) \/ exists x, In x exts /\ i = ext_item pkg pos pa su r x.
Proof.
  unfold complete_names. destruct p as [m|[m|]|]; try contradiction; (destruct (map_entry m); [contradiction|]); intros H; apply in_app_iff in H as [H|H].
  - destruct (negb _); [|contradiction]. apply in_map_iff in H as (f & <- & H). apply filter_In in H as [H _]. left. eauto.
  - apply in_map_iff in H as (x & <- & H). apply filter_In in H as [H _]. right. eauto.
  - destruct (negb _); [|contradiction]. apply in_map_iff in H as (f & <- & H). apply filter_In in H as [H _]. left. eauto.
  - destruct (ranges m); [|contradiction]. apply in_map_iff in H as (x & <- & H). apply filter_In in H as [H _]. right. eauto.
Qed.
Lemma accept_plain exts pkg ex pre n post k p i t : k <= List.length n ->
  In i (complete_name exts pkg ex (pre ++ n ++ post) p (Some (plain_ref (List.length pre) n)) (List.length pre + k)) -> goal i = TField t ->
  accept (pre ++ n ++ post) (change i) = pre ++ t ++ post.
Proof.
  intros Hk Hi Ht. unfold complete_name in Hi. cbn [name_from name_upto plain_ref] in Hi.
  destruct (partial_lengths (pre ++ n ++ post) (List.length pre) (List.length pre + List.length n) (List.length pre + k)) as [H1 H2]; [rewrite !app_length; lia|].
  destruct (find_partial _ _ _ _) as [pa su]. cbn [fst snd] in H1, H2.
  apply items_edits in Hi as [(f & -> & _)|(x & _ & ->)]; [|discriminate]. cbn in Ht. injection Ht as <-. cbn [change field_item]. apply accept_at; cbn [from upto]; lia.
Qed.
Lemma accept_paren exts pkg ex pre n post k p i t : k <= List.length n + 2 ->
  In i (complete_name exts pkg ex (pre ++ (b_ "(" ++ n ++ b_ ")") ++ post) p (Some (paren_ref (List.length pre) n)) (List.length pre + k)) -> goal i = TExt t ->
  accept (pre ++ (b_ "(" ++ n ++ b_ ")") ++ post) (change i) = pre ++ (b_ "(" ++ t ++ b_ ")") ++ post.
Proof.
  intros Hk Hi Ht. unfold complete_name in Hi. cbn [name_from name_upto paren_ref] in Hi.
  destruct (partial_lengths (pre ++ (b_ "(" ++ n ++ b_ ")") ++ post) (List.length pre + 1) (List.length pre + 1 + List.length n) (List.length pre + k)) as [H1 H2].
  { rewrite !app_length. cbn [List.length b_ list_ascii_of_string]. lia. }
  destruct (find_partial _ _ _ _) as [pa su]. cbn [fst snd] in H1, H2.
  apply items_edits in Hi as [(f & -> & _)|(x & _ & ->)]; [discriminate|]. injection Ht as <-. cbn [change ext_item]. unfold over. cbn [closes opens paren_ref opened closed].
  rewrite accept_at; [reflexivity| |]; (destruct (Nat.ltb_spec (List.length pre) (List.length pre + k)); destruct (Nat.ltb_spec (List.length pre + 1 + List.length n) (List.length pre + k)));
    cbn [from upto]; rewrite ?app_length; cbn [List.length b_ list_ascii_of_string]; lia.
Qed.
Lemma accept_new exts pkg ex pre post p i : In i (complete_name exts pkg ex (pre ++ post) p None (List.length pre)) ->
  accept (pre ++ post) (change i) = pre ++ written false (goal i) ++ post.
Proof.
  intros Hi. apply items_edits in Hi as [(f & -> & _)|(x & _ & ->)]; cbn [change field_item ext_item goal written].
  - apply (accept_at pre [] post); cbn; lia.
  - apply (accept_at pre [] post); cbn; lia.
Qed.

(** ** What is offered *)
Lemma mem_in x l : mem x l = true <-> In x l.
Proof. unfold mem. rewrite existsb_exists. split; [intros (y & H & E); apply beq_eq in E; now subst|intros H; exists x; split; [exact H|apply beq_refl]]. Qed.
Lemma skipped_spec ex pa su f : skipped ex pa su f = false <-> (exists r, fname f = pa ++ r) /\ (fname f = pa ++ su \/ settable ex f).
Proof.
  unfold skipped, settable. rewrite Bool.orb_false_iff, Bool.negb_false_iff, has_prefix_spec.
  assert (E : ((match su with [] => negb (beq (fname f) pa) | _ => false end) || negb (beq (fname f) (pa ++ su)))%bool = negb (beq (fname f) (pa ++ su))) by (destruct su; [rewrite app_nil_r; now destruct (beq _ _)|reflexivity]).
  rewrite E. destruct (beq (fname f) (pa ++ su)) eqn:Eb; cbn [negb andb].
  - apply beq_eq in Eb. intuition.
  - apply beq_neq in Eb. pose proof (mem_in (ffull f) ex) as Hm. destruct (mem (ffull f) ex); destruct (repeated f); cbn [negb andb]; split; intros [H1 H2]; (split; [exact H1|]); try reflexivity; try discriminate.
    + right. now left.
    + destruct H2 as [H2|[H2|H2]]; [easy|discriminate|]. destruct H2. now apply Hm.
    + right. now left.
    + do 2 right. intros X. apply Hm in X. discriminate.
Qed.
Lemma offered_fields exts pkg ex p m pa su r pos n :
  (p = PMsg m \/ p = PField (Some m)) -> map_entry m = false -> (forall x, r = Some x -> opens x = None) ->
  (exists i, In i (complete_names exts pkg ex p pa su r pos) /\ goal i = TField n) <->
  exists f, In f (fields m) /\ fname f = n /\ (exists s, n = pa ++ s) /\ (n = pa ++ su \/ settable ex f).
Proof.
  intros Hp Hm Hr.
  assert (E : exists w, complete_names exts pkg ex p pa su r pos = map (field_item pos pa su) (filter (fun f => negb (skipped ex pa su f)) (fields m)) ++ (if (w : bool) then map (ext_item pkg pos pa su r) (filter (fun x => negb (gogo pa x)) exts) else [])).
  { unfold complete_names. assert (Er : forall w, (match r with Some r => w && is_extension r | None => false end)%bool = false) by (intros w; destruct r as [x|]; [unfold is_extension; rewrite (Hr x eq_refl); now destruct w|reflexivity]).
    destruct Hp as [->| ->]; rewrite Hm, Er; cbn [negb]; [exists true|exists (ranges m)]; reflexivity. }
  destruct E as (w & ->). split.
  - intros (i & Hi & Hg). apply in_app_iff in Hi as [Hi|Hi].
    + apply in_map_iff in Hi as (f & <- & Hf). apply filter_In in Hf as [Hf Hs]. apply Bool.negb_true_iff in Hs. apply skipped_spec in Hs as [H1 H2]. cbn in Hg. injection Hg as <-. eauto.
    + destruct w; [|contradiction]. apply in_map_iff in Hi as (x & <- & _). discriminate.
  - intros (f & Hf & <- & H1 & H2). exists (field_item pos pa su f). split; [|reflexivity]. apply in_app_iff. left. apply in_map. apply filter_In. split; [exact Hf|]. apply Bool.negb_true_iff. apply skipped_spec. split; assumption.
Qed.
Lemma offered_exts exts pkg ex p m pa su r pos n :
  (p = PMsg m \/ p = PField (Some m) /\ ranges m = true) -> map_entry m = false ->
  (exists i, In i (complete_names exts pkg ex p pa su r pos) /\ goal i = TExt n) <->
  exists x, In x exts /\ gogo pa x = false /\ Completion.Model.relative_full_name x pkg = n.
Proof.
  intros Hp Hm.
  assert (E : exists l, complete_names exts pkg ex p pa su r pos = map (field_item pos pa su) l ++ map (ext_item pkg pos pa su r) (filter (fun x => negb (gogo pa x)) exts)).
  { unfold complete_names. destruct Hp as [->|[-> Hr]]; rewrite Hm, ?Hr; (destruct (negb _); [eauto|exists []; reflexivity]). }
  destruct E as (l & ->). split.
  - intros (i & Hi & Hg). apply in_app_iff in Hi as [Hi|Hi].
    + apply in_map_iff in Hi as (f & <- & _). discriminate.
    + apply in_map_iff in Hi as (x & <- & Hx). apply filter_In in Hx as [Hx Hs]. apply Bool.negb_true_iff in Hs. injection Hg as Hg. eauto.
  - intros (x & Hx & Hg & <-). exists (ext_item pkg pos pa su r x). split; [|reflexivity]. apply in_app_iff. right. apply in_map. apply filter_In. split; [exact Hx|]. now apply Bool.negb_true_iff.
Qed.
Lemma gogo_spec pa x : gogo pa x = false <-> ~ left_out pa x.
Proof.
  unfold gogo, left_out. rewrite <- !has_prefix_spec. destruct (has_prefix x _); destruct (has_prefix pa _); cbn; intuition congruence.
Qed.
Lemma only_exts exts pkg ex p m pa su x c pos i n : (p = PMsg m \/ p = PField (Some m) /\ ranges m = true) -> opens x = Some c ->
  In i (complete_names exts pkg ex p pa su (Some x) pos) -> goal i <> TField n.
Proof.
  intros Hp Hx. unfold complete_names, is_extension. rewrite Hx.
  destruct Hp as [->|[-> Hr]]; rewrite ?Hr; cbn [andb negb app]; (destruct (map_entry m); [contradiction|]); intros Hi; apply in_map_iff in Hi as (y & <- & _); discriminate.
Qed.
(** without extension ranges, a field's message has none *)
Lemma no_exts exts pkg ex m pa su r pos i n : ranges m = false -> In i (complete_names exts pkg ex (PField (Some m)) pa su r pos) -> goal i <> TExt n.
Proof.
  intros Hr Hi. unfold complete_names in Hi. rewrite Hr in Hi. destruct (map_entry m); [contradiction|]. rewrite app_nil_r in Hi. destruct (negb _); [|contradiction]. apply in_map_iff in Hi as (f & <- & _). discriminate.
Qed.

(** ** The element *)
Section Scope.
Variable f : list top.
Variable types : way -> Locate.Model.target.
Variable io : way -> bool -> desc.
Variable extends : way -> desc.
Variable full : desc -> bytes.
Variable extendee : bytes -> option desc.
Variable group_msg : bool.
Notation search := (search (table f) types io extends full extendee group_msg).
Lemma decl_found c d l y n : names_in f c d -> plain f NFile (tl c) -> c = l ++ [y; NIdent n AsName] -> search (l ++ [y]) = Found (Own d).
Proof.
  intros H Hp E. destruct (in_leads f types io extends full extendee c d H Hp) as (x & r & E0 & Hx & Hd & Hl & l' & y' & n' & E1 & Hf & Hk). subst c.
  rewrite E1 in E0. change (NFile :: l' ++ [y'; NIdent n' AsName]) with ((NFile :: l') ++ [y'; NIdent n' AsName]) in E0.
  change [y; NIdent n AsName] with ([y] ++ [NIdent n AsName]) in E0. change [y'; NIdent n' AsName] with ([y'] ++ [NIdent n' AsName]) in E0. rewrite !app_assoc in E0.
  apply app_inj_tail in E0 as [E0 _]. apply app_inj_tail in E0 as [-> ->]. cbn [app].
  assert (Hr : exists r', l' ++ [y'] = x :: r' /\ Forall deep r' /\ linked f NFile x r').
  { destruct l' as [|x' l'']; cbn [app] in *.
    - injection E1 as -> ->. exists []. repeat split; constructor.
    - injection E1 as -> ->. exists (l'' ++ [y']). split; [reflexivity|]. change [y'; NIdent n' AsName] with ([y'] ++ [NIdent n' AsName]) in *. rewrite app_assoc in *. split.
      + now apply Forall_app in Hd as [H1 _].
      + now apply linked_app in Hl as [Hl _]. }
  destruct Hr as (r' & Er & Hd' & Hl'). rewrite Er. rewrite search_down by assumption. now rewrite <- Er.
Qed.
Lemma scope_own c d l y n : names_in f c d -> plain f NFile (tl c) -> c = l ++ [y; NIdent n AsName] ->
  match y with NMsg _ | NField _ | NEnum _ | NSvc _ => True | _ => False end -> find_scope search (l ++ [y]) = Some (Own d).
Proof.
  intros H Hp E Hy. pose proof (decl_found c d l y n H Hp E) as F. unfold find_scope. rewrite rev_app_distr. cbn [rev app scope_loop].
  rewrite rev_involutive. destruct y; try contradiction; rewrite F; reflexivity.
Qed.
Lemma brackets_field msg type c d l x n : names_in f c d -> plain f NFile (tl c) -> c = l ++ [NField x; NIdent n AsName] ->
  at_brackets search msg type (l ++ [NField x]) = Some (PField (type (Own d))).
Proof.
  intros H Hp E. unfold at_brackets. rewrite (scope_own c d l (NField x) n H Hp E I). cbn [option_map].
  pose proof (lead_kind f types io extends full extendee c d l (NField x) n H Hp E) as K. cbn in K. now destruct K as [-> | ->].
Qed.
End Scope.

(** ** Imports *)
Lemma accept_in ws f i s : In s ws -> In (if beq (path s) f then with_import i s else s) (accept_import ws f i).
Proof. intros H. unfold accept_import. now apply (in_map (fun s => if beq (path s) f then with_import i s else s)). Qed.
Lemma with_import_path i s : path (with_import i s) = path s.
Proof. now destruct i. Qed.
Lemma with_import_declares i s : declares (with_import i s) = declares s.
Proof. now destruct i. Qed.
Lemma with_import_keeps i s x : In x (imports s) -> In x (imports (with_import i s)).
Proof. destruct i; [|easy]. cbn. intros H. apply in_app_iff. now left. Qed.
Lemma accept_shows ws f i p n : shows ws p n -> shows (accept_import ws f i) p n.
Proof.
  induction 1 as [s n H Hn|s q n H Hq _ IH]; pose proof (accept_in ws f i s H) as A; destruct (beq (path s) f) eqn:E.
  - rewrite <- (with_import_path i s). apply sh_own; [exact A|now rewrite with_import_declares].
  - now apply sh_own.
  - rewrite <- (with_import_path i s). apply (sh_public _ _ q); [exact A|now apply with_import_keeps|exact IH].
  - now apply (sh_public _ _ q).
Qed.
Lemma accept_sees ws f i p n : sees ws p n -> sees (accept_import ws f i) p n.
Proof.
  intros [s H Hp Hn|s q b H Hp Hq Hs]; pose proof (accept_in ws f i s H) as A; destruct (beq (path s) f) eqn:E.
  - eapply se_own; [exact A|now rewrite with_import_path|now rewrite with_import_declares].
  - eapply se_own; eauto.
  - eapply se_import; [exact A|now rewrite with_import_path|apply with_import_keeps; exact Hq|now apply accept_shows].
  - eapply se_import; eauto. now apply accept_shows.
Qed.
Lemma accept_new_import ws s p n : In s ws -> shows ws p n -> sees (accept_import ws (path s) (Some p)) (path s) n.
Proof.
  intros H Hs. pose proof (accept_in ws (path s) (Some p) s H) as A. rewrite beq_refl in A. eapply (se_import _ _ _ _ p false); [exact A|reflexivity| |now apply accept_shows].
  cbn. apply in_app_iff. right. now left.
Qed.
(** which imports there are then *)
Lemma accept_imports ws f i p q : imports_file (accept_import ws f i) p q <-> imports_file ws p q \/ (p = f /\ i = Some q /\ exists s, In s ws /\ path s = f).
Proof.
  unfold imports_file, accept_import. split.
  - intros (s & b & H & Hp & Hq). apply in_map_iff in H as (s0 & E & H). destruct (beq (path s0) f) eqn:Eb.
    + apply beq_eq in Eb. destruct i as [g|]; cbn [with_import] in E; subst s; cbn [path imports] in *; [|left; eauto]. apply in_app_iff in Hq as [Hq|Hq]; [left; eauto|]. destruct Hq as [Hq|[]]. injection Hq as <- <-. right. split; [congruence|]. split; [reflexivity|]. eauto.
    + subst s0. left. eauto.
  - intros [(s & b & H & Hp & Hq)|(-> & -> & s & H & Hp)].
    + pose proof (accept_in ws f i s H) as A. destruct (beq (path s) f).
      * exists (with_import i s), b. split; [exact A|]. split; [now rewrite with_import_path|now apply with_import_keeps].
      * exists s, b. auto.
    + pose proof (accept_in ws f (Some q) s H) as A. rewrite Hp, beq_refl in A. exists (with_import (Some q) s), false. split; [exact A|]. split; [exact Hp|]. cbn. apply in_app_iff. right. now left.
Qed.
Lemma reaches_trans ws p q r : reaches ws p q -> reaches ws q r -> reaches ws p r.
Proof. induction 1; [easy|]. intros. eapply re_step; eauto. Qed.
Lemma accept_reaches ws f i p q : reaches ws p q -> reaches (accept_import ws f i) p q.
Proof. induction 1; [constructor|]. eapply re_step; [|eassumption]. apply accept_imports. now left. Qed.
Lemma reaches_split ws f g p q : reaches (accept_import ws f (Some g)) p q -> reaches ws p q \/ (reaches ws p f /\ reaches ws g q).
Proof.
  induction 1 as [p|p q r H _ IH]; [left; constructor|]. apply accept_imports in H as [H|(-> & E & _)].
  - destruct IH as [IH|[H1 H2]]; [left; eapply re_step; eauto|right]. split; [eapply re_step; eauto|exact H2].
  - injection E as <-. right. split; [constructor|]. now destruct IH as [IH|[_ IH]].
Qed.
Lemma acyclic_iff ws s g : In s ws -> acyclic ws -> (acyclic (accept_import ws (path s) (Some g)) <-> ~ reaches ws g (path s)).
Proof.
  intros Hs Ha. split.
  - intros H R. apply (H (path s) g); [|now apply accept_reaches]. apply accept_imports. right. eauto.
  - intros H p q Hi R. apply accept_imports in Hi as [Hi|(-> & E & _)].
    + apply reaches_split in R as [R|[R1 R2]]; [now apply (Ha p q)|]. apply H. eapply reaches_trans; [exact R2|]. eapply re_step; eauto.
    + injection E as <-. apply reaches_split in R as [R|[R1 R2]]; contradiction.
Qed.
Lemma literal_app p r : ~ In """"%char p -> ~ In "\"%char p -> literal (p ++ """"%char :: r) = Some (p, r).
Proof.
  induction p as [|c p IH]; intros H1 H2; [reflexivity|]. cbn [app literal]. destruct (Ascii.eqb_spec c """"%char) as [->|_]; [destruct H1; now left|]. destruct (Ascii.eqb_spec c "\"%char) as [->|_]; [destruct H2; now left|].
  rewrite IH; [reflexivity| |]; intros X; [apply H1|apply H2]; now right.
Qed.
Lemma import_read p : ~ In """"%char p -> ~ In "\"%char p -> import_named (import_text p) = Some p.
Proof.
  intros H1 H2. unfold import_named. change (import_text p) with ((nl :: b_ "import """) ++ p ++ """"%char :: b_ ";").
  assert (E : has_prefix ((nl :: b_ "import """) ++ p ++ """"%char :: b_ ";") (nl :: b_ "import """) = true) by (apply has_prefix_spec; eauto). rewrite E.
  change (skipn 9 ((nl :: b_ "import """) ++ p ++ """"%char :: b_ ";")) with (p ++ """"%char :: b_ ";"). rewrite literal_app by assumption. now rewrite beq_refl.
Qed.

(** ** Packages *)
Notation blt := Completion.Model.blt.
Lemma insert_in x y l : In y (insert x l) <-> y = x \/ In y l.
Proof.
  induction l as [|z l IH]; cbn [insert In]; [intuition|]. destruct (blt z x); cbn [In]; [rewrite IH|]; intuition.
Qed.
Lemma sort_in y l : In y (sort l) <-> In y l.
Proof. induction l as [|x l IH]; [easy|]. cbn [sort fold_right In]. fold (sort l). rewrite insert_in, IH. intuition. Qed.
Definition ble (a b : bytes) : Prop := blt b a = false.
Lemma ble_of_lt a b : blt a b = true -> ble a b.
Proof. intros H. unfold ble. destruct (blt b a) eqn:E; [|reflexivity]. pose proof (Completion.Proofs.blt_trans a b a H E) as X. now rewrite Completion.Proofs.blt_irrefl in X. Qed.
Lemma ble_trans a b c : ble a b -> ble b c -> ble a c.
Proof.
  unfold ble. intros H1 H2. destruct (Completion.Proofs.blt_total a b) as [->|[H|H]]; [exact H2| |congruence]. destruct (Completion.Proofs.blt_total b c) as [<-|[H'|H']]; [exact H1| |congruence].
  apply ble_of_lt. now apply (Completion.Proofs.blt_trans a b c).
Qed.
Lemma insert_sorted x l : StronglySorted ble l -> StronglySorted ble (insert x l).
Proof.
  induction 1 as [|y l H IH Hf]; cbn [insert]; [repeat constructor|]. destruct (blt y x) eqn:E.
  - constructor; [exact IH|]. apply Forall_forall. intros z Hz. apply insert_in in Hz as [->|Hz]; [now apply ble_of_lt|]. now apply (proj1 (Forall_forall _ _) Hf).
  - constructor; [now constructor|]. constructor; [exact E|]. apply Forall_forall. intros z Hz. apply (ble_trans x y z); [exact E|]. now apply (proj1 (Forall_forall _ _) Hf).
Qed.
Lemma sort_sorted l : StronglySorted ble (sort l).
Proof. induction l as [|x l IH]; [constructor|]. cbn [sort fold_right]. now apply insert_sorted. Qed.
Lemma compact_in y l : In y (compact l) <-> In y l.
Proof.
  induction l as [|x [|z r] IH]; [easy|easy|]. cbn [compact]. destruct (beq x z) eqn:E.
  - apply beq_eq in E. subst z. rewrite IH. cbn [In]. intuition.
  - cbn [In] in *. rewrite IH. intuition.
Qed.
Definition ltb (a b : bytes) : Prop := blt a b = true.
Lemma compact_sorted l : StronglySorted ble l -> StronglySorted ltb (compact l).
Proof.
  induction l as [|x [|z r] IH]; intros H; [constructor|repeat constructor|]. cbn [compact]. inversion H as [|? ? Hs Hf]; subst. specialize (IH Hs). destruct (beq x z) eqn:E; [exact IH|].
  constructor; [exact IH|]. apply Forall_forall. intros y Hy. apply (proj1 (compact_in y (z :: r))) in Hy. unfold ltb. apply beq_neq in E.
  assert (Hxz : blt x z = true). { inversion Hf as [|? ? Hxz _]; subst. destruct (Completion.Proofs.blt_total x z) as [->|[X|X]]; [easy|exact X|]. unfold ble in Hxz. congruence. }
  destruct Hy as [<-|Hy]; [exact Hxz|]. inversion Hs as [|? ? _ Hf2]; subst. pose proof (proj1 (Forall_forall _ _) Hf2 y Hy) as Hzy. destruct (Completion.Proofs.blt_total z y) as [<-|[X|X]]; [exact Hxz|now apply (Completion.Proofs.blt_trans x z y)|]. unfold ble in Hzy. congruence.
Qed.
Lemma filter_sorted (g : bytes -> bool) l : StronglySorted ltb l -> StronglySorted ltb (filter g l).
Proof.
  induction 1 as [|x l H IH Hf]; [constructor|]. cbn [filter]. destruct (g x); [|exact IH]. constructor; [exact IH|]. apply Forall_forall. intros y Hy. apply filter_In in Hy as [Hy _]. now apply (proj1 (Forall_forall _ _) Hf).
Qed.
Lemma names_sorted files self pa : StronglySorted ltb (package_names files self pa).
Proof. apply filter_sorted, compact_sorted, sort_sorted. Qed.
Lemma names_in_iff files self pa n : In n (package_names files self pa) <-> In n (candidates files self) /\ exists r, n = pa ++ r.
Proof. unfold package_names. now rewrite filter_In, compact_in, sort_in, has_prefix_spec. Qed.

(** ** Package names *)
Lemma letter_in c : letter c = true <-> In c letters.
Proof. split; [|intro H; cbv in H; repeat destruct H as [<-|H]; [reflexivity..|destruct H]]. destruct c as [[] [] [] [] [] [] [] []]; intro H; try discriminate H; vm_compute; tauto. Qed.
Lemma digit_in c : digit c = true <-> In c digits.
Proof. split; [|intro H; cbv in H; repeat destruct H as [<-|H]; [reflexivity..|destruct H]]. destruct c as [[] [] [] [] [] [] [] []]; intro H; try discriminate H; vm_compute; tauto. Qed.
Lemma word_in w : forallb (fun c => letter c || digit c) w = true <-> Forall (fun x => In x (letters ++ digits)) w.
Proof.
  rewrite forallb_forall, Forall_forall. split; intros H x I; specialize (H x I).
  - apply in_or_app. apply Bool.orb_true_iff in H as [H|H]; [left; now apply letter_in|right; now apply digit_in].
  - apply Bool.orb_true_iff. apply in_app_or in H as [H|H]; [left; now apply letter_in|right; now apply digit_in].
Qed.
Lemma part_spec p : valid_part p = true <-> exists c w, p = c :: w /\ In c letters /\ Forall (fun x => In x (letters ++ digits)) w.
Proof.
  destruct p as [|c w]; cbn [valid_part]; [split; [discriminate|intros (c & w & E & _); discriminate]|]. rewrite Bool.andb_true_iff, letter_in, word_in.
  split; [intros [A B]; now exists c, w|intros (c' & w' & E & A & B); injection E as <- <-; auto].
Qed.
Lemma split_word c (w s : bytes) : ~ In c w -> split_on c (w ++ c :: s) = w :: split_on c s.
Proof.
  induction w as [|x w IH]; intro N; cbn [app split_on]; [now rewrite Ascii.eqb_refl|]. destruct (Ascii.eqb x c) eqn:E; [apply Ascii.eqb_eq in E; subst; destruct N; now left|].
  rewrite IH; [reflexivity|]. intro I. apply N. now right.
Qed.
Lemma no_dot p : valid_part p = true -> ~ In "."%char p.
Proof.
  intros V I. apply part_spec in V as (c & w & -> & L & W). destruct I as [->|I]; [apply letter_in in L; discriminate|]. rewrite Forall_forall in W. specialize (W _ I). apply in_app_or in W as [W|W]; [apply letter_in in W|apply digit_in in W]; discriminate.
Qed.
Lemma valid_name_spec n : valid_name n = true <-> package_name n.
Proof.
  unfold valid_name. split.
  - rewrite <- (join_split "."%char n) at 2. pose proof (split_on_nonempty "."%char n) as N. induction (split_on "."%char n) as [|p r IH]; [congruence|]. cbn [forallb]. rewrite Bool.andb_true_iff. intros [V R].
    apply part_spec in V as (c & w & -> & L & W). destruct r as [|q r]; [now constructor|]. cbn [join_with]. apply more_words; [exact L|exact W|]. apply IH; [discriminate|exact R].
  - induction 1 as [c w L W|c w s L W P IH].
    + assert (V : valid_part (c :: w) = true) by (apply part_spec; now exists c, w). rewrite split_on_no_sep by now apply no_dot. cbn [forallb]. now rewrite V.
    + assert (V : valid_part (c :: w) = true) by (apply part_spec; now exists c, w). change (c :: w ++ "."%char :: s) with ((c :: w) ++ "."%char :: s). rewrite split_word by now apply no_dot. cbn [forallb]. now rewrite V, IH.
Qed.
