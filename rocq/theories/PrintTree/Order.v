(** The first value of an enum. *)
From Coq Require Import Ascii String NArith QArith Qreduction Permutation.
From Verif Require Import Base Strs.
From Verif.PrintTree Require Import Model Grammar Spec Read Ast Body Facts FileFacts.
Open Scope list_scope.
Open Scope nat_scope.

Definition is_value (a : addr) : bool := atag_eqb (a_tag a) AValue.
Definition no_value (l : list addr) : Prop := Forall (fun a => is_value a = false) l.
Lemma insert_in less x l a : In a (insert_left less x l) -> a = x \/ In a l.
Proof.
  induction l as [|y l IH]; cbn [insert_left]; [intros [<-|[]]; now left|]. destruct (less x y).
  - intros [<-|H]; [right; now left|]. destruct (IH H) as [->|H']; [now left|right; now right].
  - intros [<-|H]; [now left|now right].
Qed.
Lemma insert_none less x l : is_value x = false -> no_value l -> no_value (insert_left less x l).
Proof. intros Hx Hl. unfold no_value in *. rewrite Forall_forall in *. intros a Ha. apply insert_in in Ha as [->|Ha]; [easy|now apply Hl]. Qed.
Definition leads (v : addr) (seen : list addr) : Prop := exists a b, seen = a ++ v :: b /\ no_value b.
Lemma insert_new less v l : no_value l -> leads v (insert_left less v l).
Proof.
  induction l as [|y l IH]; intros H; cbn [insert_left]; [now exists [], []|]. inversion H as [|? ? H1 H2]; subst. destruct (less v y).
  - destruct (IH H2) as (a & b & -> & Hb). now exists (y :: a), b.
  - now exists [], (y :: l).
Qed.
Lemma insert_after less x v seen : (is_value x = true -> less x v = false) -> leads v seen -> leads v (insert_left less x seen).
Proof.
  intros Hx (a & b & -> & Hb). induction a as [|y a IH]; cbn [app insert_left].
  - destruct (less x v) eqn:E.
    + destruct (is_value x) eqn:Ex; [specialize (Hx eq_refl); congruence|]. exists [], (insert_left less x b). split; [easy|now apply insert_none].
    + now exists [x], b.
  - destruct (less x y); [|now exists (x :: y :: a), b]. destruct IH as (a' & b' & E & Hb'). exists (y :: a'), b'. now rewrite E.
Qed.
Lemma fold_none less l : forall seen, no_value seen -> no_value l -> no_value (fold_left (fun s x => insert_left less x s) l seen).
Proof. induction l as [|x l IH]; intros seen Hs Hl; [easy|]. inversion Hl; subst. cbn [fold_left]. apply IH; [now apply insert_none|easy]. Qed.
Lemma fold_leads less v l : (forall x, In x l -> is_value x = true -> less x v = false) -> forall seen, leads v seen -> leads v (fold_left (fun s x => insert_left less x s) l seen).
Proof. induction l as [|x l IH]; intros H seen Hs; [easy|]. cbn [fold_left]. apply IH; [intros y Hy; apply H; now right|]. apply insert_after; [apply H; now left|easy]. Qed.
Lemma sort_first less v a b : no_value a -> (forall x, In x b -> is_value x = true -> less x v = false) -> is_value v = true ->
  exists r, filter is_value (insertion_sort less (a ++ v :: b)) = v :: r.
Proof.
  intros Ha Hb Hv. unfold insertion_sort. rewrite fold_left_app. cbn [fold_left].
  destruct (fold_leads less v b Hb (insert_left less v (fold_left (fun s x => insert_left less x s) a []))) as (p & q & -> & Hq).
  - apply insert_new. apply fold_none; [constructor|easy].
  - rewrite rev_app_distr. cbn [rev]. rewrite !filter_app. cbn [filter]. rewrite Hv. rewrite (filter_none _ (rev q)); [cbn [app]; eauto|].
    intros x Hx. apply in_rev in Hx. unfold no_value in Hq. rewrite Forall_forall in Hq. now apply Hq.
Qed.

Lemma enum_addrs_length force pkg full e :
  List.length (enum_addrs force pkg full e) = List.length (en_opts e) + List.length (en_values e) + List.length (en_ranges e) + List.length (en_names e).
Proof.
  assert (L : forall (A : Type) (mk : nat -> A -> addr) l, List.length (indexed mk l) = List.length l).
  { intros A mk l. unfold indexed. generalize 0. induction l as [|x l IH]; intros k; [easy|]. cbn [indexed_from List.length]. now rewrite IH. }
  unfold enum_addrs. rewrite !app_length, !L, (Permutation_length (option_addrs_perm force pkg false full (en_opts e))), L. lia.
Qed.

Section First.
Variable long_sort : list addr -> list addr.
Hypothesis long_perm : forall l, Permutation (long_sort l) l.
Variable same_opts : opts -> opts -> bool.
Variable force : bool.
Variable pkg : bytes.

Lemma names_app a b : value_names (a ++ b) = value_names a ++ value_names b.
Proof. apply flat_map_app. Qed.
Lemma names_long im scope l : value_names (ast_long force pkg im scope l) = [].
Proof. unfold ast_long. induction l as [|x l IH]; [easy|exact IH]. Qed.
Lemma loop_names outer scope e l : (forall a, In a l -> eaddr_ok e a) -> forall sk,
  value_names (ast_enum_loop long_sort force pkg outer scope e l sk) = map v_name (pick (en_values e) (filter is_value l)).
Proof.
  induction l as [|a l IH]; intros Hok sk; [easy|]. cbn [ast_enum_loop filter]. unfold is_value at 1.
  assert (IH' : forall sk, value_names (ast_enum_loop long_sort force pkg outer scope e l sk) = map v_name (pick (en_values e) (filter is_value l))) by (apply IH; intros b Hb; apply Hok; now right).
  pose proof (Hok a (or_introl eq_refl)) as Ha. unfold eaddr_ok in Ha. destruct (a_tag a); cbn [atag_eqb]; try apply IH'.
  - rewrite names_app, names_long. apply IH'.
  - destruct (nth_in_some _ _ Ha) as (r & ->). destruct (skipped _ sk); [apply IH'|]. apply IH'.
  - destruct (nth_in_some _ _ Ha) as (r & ->). destruct (skipped _ sk); [apply IH'|]. apply IH'.
  - rewrite names_app, IH'. unfold pick. cbn [flat_map]. rewrite map_app. f_equal. now destruct (nth_error (en_values e) (a_index a)).
Qed.
Lemma enum_addrs_fine full e a : In a (enum_addrs force pkg full e) -> eaddr_ok e a.
Proof.
  unfold enum_addrs. rewrite !in_app_iff. unfold eaddr_ok. intros [H|[H|[H|H]]].
  - now rewrite (option_addrs_is _ _ _ _ _ a H).
  - apply in_indexed in H as (i & x & E & ->). exact I.
  - apply in_indexed in H as (i & x & E & ->). now apply nth_some_in in E.
  - apply in_indexed in H as (i & x & E & ->). now apply nth_some_in in E.
Qed.
Lemma enum_first scope e v r : let full := join scope (en_name e) in List.length (enum_addrs force pkg full e) <= 20 -> en_values e = v :: r -> first_least e ->
  exists body, ast_enum long_sort force pkg scope e = SEnum (en_name e) body /\ hd_error (value_names body) = Some (v_name v).
Proof.
  intros full Hlen Ev Hf. eexists. split; [reflexivity|]. fold full.
  rewrite loop_names.
  - unfold sorted. rewrite (proj2 (Nat.leb_le _ _) Hlen). unfold enum_addrs. rewrite Ev. unfold indexed at 1. cbn [indexed_from].
    destruct (sort_first sort_elements (value_addr 0 v) (option_addrs force pkg false full (en_opts e))
      (indexed_from value_addr 1 r ++ indexed (plain_addr ARange) (en_ranges e) ++ indexed (plain_addr AName) (en_names e))) as (q & Hq).
    + unfold no_value. rewrite Forall_forall. intros a Ha. unfold is_value. now rewrite (option_addrs_is _ _ _ _ _ a Ha).
    + intros x Hx Hv. rewrite !in_app_iff in Hx. destruct Hx as [H|[H|H]].
      * unfold first_least in Hf. rewrite Ev in Hf. assert (E : exists i w, In w r /\ x = value_addr i w).
        { revert H. generalize 1. clear. induction r as [|w r IH]; intros k H; [easy|]. destruct H as [<-|H]; [exists k, w; split; [now left|easy]|].
          destruct (IH (S k) H) as (i & w' & Hw & ->). exists i, w'. split; [now right|easy]. }
        destruct E as (i & w & Hw & ->). rewrite Forall_forall in Hf. specialize (Hf w Hw). unfold sort_elements. cbn. apply Z.ltb_ge. exact Hf.
      * apply in_indexed in H as (i & y & _ & ->). discriminate.
      * apply in_indexed in H as (i & y & _ & ->). discriminate.
    + reflexivity.
    + cbn [app] in *. rewrite Hq. unfold pick. cbn [flat_map value_addr a_index nth_error app map hd_error]. reflexivity.
  - intros a Ha. apply (enum_addrs_fine full e). now apply (Permutation_in _ (sorted_perm long_sort long_perm _)).
Qed.
End First.

Section File.
Variable long_sort : list addr -> list addr.
Hypothesis long_perm : forall l, Permutation (long_sort l) l.
Variable same_opts : opts -> opts -> bool.
Variable force : bool.
Variable res : use -> bytes -> bytes -> bytes.
Variable f : fdesc.
Hypothesis Hf : file_ok res (printed force (fd_package f)) f.
Notation bst := (ast_bodies long_sort same_opts force f).
Notation loop := (ast_file_loop long_sort force f bst).
Lemma enum_in i e l sk : nth_error (fd_enums f) i = Some e -> In (plain_addr AEnum i e) l -> (forall a, In a l -> faddr_ok f a) -> fquiet sk ->
  In (ast_enum long_sort force (fd_package f) (fd_package f) e) (loop l sk).
Proof.
  intros He Hi. revert sk. induction l as [|a l IH]; intros sk Hok Hq; [easy|]. cbn [ast_file_loop].
  assert (Hok' : forall b, In b l -> faddr_ok f b) by (intros b Hb; apply Hok; now right). pose proof (Hok a (or_introl eq_refl)) as Ha. unfold faddr_ok in Ha.
  destruct Hi as [->|Hi].
  - cbn [a_tag a_index plain_addr]. destruct (key_in (AEnum, i) sk) eqn:Ek; [apply key_in_iff, Hq in Ek; now destruct Ek|]. rewrite He. now left.
  - destruct (key_in _ sk); [now apply IH|]. destruct (a_tag a); try (now apply IH); try (apply in_or_app; right; now apply IH).
    + right. now apply IH.
    + destruct (nth_in_some _ _ Ha) as (g & ->). right. apply IH; [easy|easy|now apply fquiet_app].
Qed.
Lemma file_enum e : In e (fd_enums f) -> In (ast_enum long_sort force (fd_package f) (fd_package f) e) (ast_file long_sort same_opts force f).
Proof.
  intros He. apply In_nth_error in He as (i & He). right. apply (enum_in i e).
  - exact He.
  - apply (Permutation_in _ (Permutation_sym (sorted_perm long_sort long_perm _))). unfold file_addrs. rewrite !in_app_iff. do 4 right. left. unfold indexed.
    change i with (0 + i). revert He. generalize 0. revert i. generalize (fd_enums f) as es. induction es as [|g es IH]; intros i k E; [now destruct i|]. destruct i as [|i].
    + injection E as ->. left. now rewrite Nat.add_0_r.
    + right. replace (k + S i) with (S k + i) by lia. now apply IH.
  - intros a Ha. apply (file_addrs_ok force res f Hf). now apply (Permutation_in _ (sorted_perm long_sort long_perm _)).
  - rewrite file_skip_list. intros t j H. unfold keyed in H. apply in_map_iff in H as (k & E & _). injection E as <- <-. now left.
Qed.
End File.
