From Coq Require Import Ascii String ZArith.
From Verif Require Import Base Strs.
From Verif.Completion Require Import Model Spec.
Open Scope list_scope.

(** ** names *)
Lemma cut_last_nodot s : ~ In dot s -> cut_last s = None.
Proof. induction s as [|c s IH]; intros H; [reflexivity|]. cbn. rewrite IH by (intros X; apply H; now right). destruct (Ascii.eqb_spec c dot) as [->|]; [elim H; now left|reflexivity]. Qed.
Lemma cut_last_app a b : ~ In dot b -> cut_last (a ++ dot :: b) = Some (a, b).
Proof. intros H. induction a as [|c a IH]; cbn; [now rewrite cut_last_nodot by assumption|now rewrite IH]. Qed.
Lemma dotted_snoc T n : T <> [] -> dotted (T ++ [n]) = dotted T ++ dot :: n.
Proof.
  intros H. induction T as [|t T IH]; [congruence|]. destruct T as [|t' T]; [reflexivity|].
  change (dotted ((t :: t' :: T) ++ [n])) with (t ++ dot :: dotted ((t' :: T) ++ [n])). rewrite IH by discriminate.
  change (dotted (t :: t' :: T)) with (t ++ dot :: dotted (t' :: T)). now rewrite <- app_assoc.
Qed.
Lemma dotted_cons t T : T <> [] -> dotted (t :: T) = t ++ dot :: dotted T.
Proof. destruct T; [congruence|reflexivity]. Qed.
Lemma dotted_app P T : P <> [] -> T <> [] -> dotted (P ++ T) = dotted P ++ dot :: dotted T.
Proof.
  induction P as [|p P IH]; intros HP HT; [congruence|]. destruct P as [|p' P].
  - cbn [app]. now rewrite dotted_cons by assumption.
  - change ((p :: p' :: P) ++ T) with (p :: (p' :: P) ++ T). rewrite dotted_cons by (destruct P; discriminate).
    rewrite IH by (assumption || discriminate). rewrite (dotted_cons p (p' :: P)) by discriminate. now rewrite <- app_assoc.
Qed.
Lemma dotted_nil T : parts T -> dotted T = [] -> T = [].
Proof. destruct T as [|t T]; [reflexivity|]. intros W H. inversion W as [|? ? [N _] _]; subst. destruct T; [cbn in H; congruence|]. cbn in H. destruct t; [congruence|discriminate]. Qed.
Lemma parent_snoc T n : ~ In dot n -> parent (dotted (T ++ [n])) = dotted T.
Proof.
  intros H. unfold parent. destruct T as [|t T]; [cbn; now rewrite cut_last_nodot|].
  rewrite dotted_snoc by discriminate. now rewrite cut_last_app.
Qed.
Lemma name_snoc T n : ~ In dot n -> name (dotted (T ++ [n])) = n.
Proof.
  intros H. unfold name. destruct T as [|t T]; [cbn; now rewrite cut_last_nodot|].
  rewrite dotted_snoc by discriminate. now rewrite cut_last_app.
Qed.
Lemma append_dotted T n : parts T -> append (dotted T) n = dotted (T ++ [n]).
Proof.
  intros W. destruct T as [|t T]; [reflexivity|]. rewrite dotted_snoc by discriminate. unfold append.
  destruct (dotted (t :: T)) eqn:E; [apply dotted_nil in E; [discriminate|exact W]|reflexivity].
Qed.

Lemma fold_append S : forall A, parts A -> parts S -> fold_left append S (dotted A) = dotted (A ++ S).
Proof.
  induction S as [|s S IH]; intros A WA W; cbn; [now rewrite app_nil_r|]. inversion W; subst.
  rewrite append_dotted by assumption. rewrite IH; [now rewrite <- app_assoc| |assumption].
  apply Forall_app. split; [exact WA|constructor; [assumption|constructor]].
Qed.

Lemma dotted_length T : parts T -> List.length T <= List.length (dotted T).
Proof.
  induction T as [|t T IH]; intros W; [cbn; lia|]. inversion W as [|? ? [N _] W']; subst. specialize (IH W').
  destruct T as [|t' T]; [cbn; destruct t; [congruence|cbn; lia]|]. rewrite dotted_cons by discriminate. rewrite app_length. cbn [List.length] in *. lia.
Qed.

(** walking up from T finds [from] only at the root *)
Lemma walk_up : forall fuel T S from nm, parts T -> parts S ->
  (forall P R, T = P ++ R -> P <> [] -> dotted P <> from) ->
  List.length T <= fuel ->
  walk fuel (dotted T) from (dotted (T ++ S)) nm S = append (dotted (T ++ S)) nm.
Proof.
  induction fuel as [|fuel IH]; intros T S from nm WT WS NP LE.
  - destruct T; [|cbn in LE; lia]. cbn [walk dotted join_with]. destruct (beq [] from) eqn:E; [|reflexivity].
    f_equal. apply (fold_append S [] (Forall_nil _) WS).
  - cbn [walk]. destruct (beq (dotted T) from) eqn:E.
    + apply beq_eq in E. destruct T as [|t T]; [f_equal; apply (fold_append S [] (Forall_nil _) WS)|].
      elim (NP (t :: T) []); [now rewrite app_nil_r|discriminate|exact E].
    + assert (HT : T = [] \/ exists T1 n, T = T1 ++ [n]).
      { destruct T as [|t0 T0]; [now left|]. right. destruct (exists_last (l := t0 :: T0)) as (T1 & n & HT); [discriminate|eauto]. }
      destruct HT as [->|(T1 & n & ->)]; [reflexivity|].
      destruct (dotted (T1 ++ [n])) eqn:D; [apply dotted_nil in D; [destruct T1; discriminate|exact WT]|]. rewrite <- D. clear D E.
      apply Forall_app in WT as [WT1 WN]. inversion WN as [|? ? PN _]; subst. destruct PN as [PN1 PN2].
      rewrite parent_snoc, name_snoc by assumption.
      rewrite <- app_assoc. cbn [app]. apply (IH T1 (n :: S)).
      * exact WT1.
      * constructor; [split; assumption|exact WS].
      * intros P R HP NE. apply (NP P (R ++ [n])); [|exact NE]. rewrite HP. now rewrite <- app_assoc.
      * rewrite app_length in LE. cbn in LE. lia.
Qed.

(** ** scan *)
Fixpoint lastdot (x : bytes) (i d : nat) : nat :=
  match x with [] => d | c :: r => lastdot r (S i) (if Ascii.eqb c dot then i else d) end.
Lemma scan_app x : forall a b i d, scan (x ++ a) (x ++ b) i d = scan a b (i + List.length x) (lastdot x i d).
Proof.
  induction x as [|c x IH]; intros a b i d; cbn; [now rewrite Nat.add_0_r|]. rewrite Ascii.eqb_refl, IH. f_equal. lia.
Qed.
Lemma lastdot_snoc x : forall i d, lastdot (x ++ [dot]) i d = i + List.length x.
Proof. induction x as [|c x IH]; intros i d; cbn; [lia|rewrite IH; lia]. Qed.
Lemma scan_nil_l b i d : scan [] b i d = (i, d). Proof. reflexivity. Qed.
Lemma scan_nil_r a i d : scan a [] i d = (i, d). Proof. destruct a; reflexivity. Qed.

(** first parts differ: the scan stops inside them, unless one name is a prefix of the other *)
Definition ends (a : bytes) : Prop := a = [] \/ exists r, a = dot :: r.
Lemma scan_parts t : forall f a b i d, ~ In dot t -> ~ In dot f -> t <> f -> ends a -> ends b ->
  has_prefix (t ++ a) (f ++ b) = false -> has_prefix (f ++ b) (t ++ a) = false ->
  exists k, scan (t ++ a) (f ++ b) i d = (k, d) /\ k < i + Nat.min (List.length (t ++ a)) (List.length (f ++ b)).
Proof.
  induction t as [|c t IH]; intros f a b i d HT HF NE EA EB P1 P2.
  - destruct f as [|c' f]; [congruence|]. cbn [app] in *. destruct EA as [->|[r ->]].
    + rewrite has_prefix_nil in P2. discriminate.
    + exists i. cbn [scan]. destruct (Ascii.eqb_spec dot c') as [<-|]; [elim HF; now left|]. split; [reflexivity|]. cbn [List.length]. lia.
  - destruct f as [|c' f]; cbn [app] in *.
    + destruct EB as [->|[r ->]]; [rewrite has_prefix_nil in P1; discriminate|].
      exists i. cbn [scan]. destruct (Ascii.eqb_spec c dot) as [->|]; [elim HT; now left|]. split; [reflexivity|]. cbn [List.length]. lia.
    + cbn [scan]. destruct (Ascii.eqb_spec c c') as [<-|N].
      * destruct (Ascii.eqb_spec c dot) as [->|ND]; [elim HT; now left|].
        destruct (IH f a b (S i) d) as (k & K1 & K2).
        -- intros X. apply HT. now right.
        -- intros X. apply HF. now right.
        -- congruence.
        -- exact EA.
        -- exact EB.
        -- cbn [has_prefix] in P1. rewrite Ascii.eqb_refl in P1. exact P1.
        -- cbn [has_prefix] in P2. rewrite Ascii.eqb_refl in P2. exact P2.
        -- exists k. split; [exact K1|]. cbn [List.length]. lia.
      * exists i. split; [reflexivity|]. cbn [List.length]. lia.
Qed.

Lemma common_parts (T F : list bytes) : exists P T' F', T = P ++ T' /\ F = P ++ F' /\
  (T' = [] \/ F' = [] \/ exists t T1 f F1, T' = t :: T1 /\ F' = f :: F1 /\ t <> f).
Proof.
  revert F. induction T as [|t T IH]; intros F; [exists [], [], F; cbn; auto|].
  destruct F as [|f F]; [exists [], (t :: T), []; cbn; auto|].
  destruct (list_eq_dec ascii_dec t f) as [<-|N].
  - destruct (IH F) as (P & T' & F' & -> & -> & C). exists (t :: P), T', F'. cbn. auto.
  - exists [], (t :: T), (f :: F). split; [reflexivity|]. split; [reflexivity|]. right. right. exists t, T, f, F. auto.
Qed.

Lemma dotted_head t T : exists a, dotted (t :: T) = t ++ a /\ ends a.
Proof. destruct T as [|t' T]; [exists []; cbn; rewrite app_nil_r; split; [reflexivity|now left]|]. rewrite dotted_cons by discriminate. eexists. split; [reflexivity|right; eauto]. Qed.

Lemma skipn_app_exact {A} (x y : list A) : skipn (List.length x) (x ++ y) = y.
Proof. rewrite skipn_app, skipn_all, Nat.sub_diag. reflexivity. Qed.

Lemma skipn_dot (x y : bytes) : skipn (S (List.length x)) (x ++ dot :: y) = y.
Proof. induction x as [|c x IH]; [reflexivity|exact IH]. Qed.

Lemma has_prefix_app_head x a b : has_prefix (x ++ a) (x ++ b) = has_prefix a b.
Proof. induction x as [|c x IH]; [reflexivity|]. cbn. now rewrite Ascii.eqb_refl. Qed.

Lemma strip_parts T F P T' F' : parts T -> parts F -> T = P ++ T' -> F = P ++ F' ->
  (T' = [] \/ F' = [] \/ (has_prefix (dotted T) (dotted F) = false /\ has_prefix (dotted F) (dotted T) = false /\
    exists t T1 f F1, T' = t :: T1 /\ F' = f :: F1 /\ t <> f)) ->
  strip (dotted T) (dotted F) = (dotted T', dotted F').
Proof.
  intros WT WF -> -> C. unfold strip.
  destruct C as [->|[->|(N1 & N2 & t & T1 & f & F1 & -> & -> & NE)]].
  - rewrite app_nil_r in *. destruct F' as [|f F'].
    + rewrite app_nil_r. replace (dotted P) with (dotted P ++ []) at 1 2 by apply app_nil_r.
      rewrite scan_app, scan_nil_l. cbn [plus]. rewrite Nat.min_id, Nat.eqb_refl.
      destruct (Nat.ltb_spec 0 (List.length (dotted P))); [rewrite skipn_all2 by lia; reflexivity|].
      destruct (dotted P) eqn:E; [reflexivity|cbn in *; lia].
    + destruct P as [|p P]; [cbn [app dotted join_with]; rewrite scan_nil_l; cbn [List.length Nat.min Nat.eqb Nat.ltb Nat.leb]; reflexivity|].
      rewrite dotted_app by discriminate.
      replace (dotted (p :: P)) with (dotted (p :: P) ++ []) at 1 by apply app_nil_r.
      rewrite scan_app, scan_nil_l. cbn [plus]. rewrite Nat.min_l by (rewrite app_length; lia). rewrite Nat.eqb_refl.
      assert (L : List.length (dotted (p :: P)) <> 0).
      { intros X. apply length_zero_iff_nil, dotted_nil in X; [discriminate|exact WT]. }
      destruct (Nat.ltb_spec 0 (List.length (dotted (p :: P)))); [|lia]. rewrite skipn_dot, skipn_all2 by lia. reflexivity.
  - rewrite app_nil_r in *. destruct T' as [|t T'].
    + rewrite app_nil_r. replace (dotted P) with (dotted P ++ []) at 1 2 by apply app_nil_r.
      rewrite scan_app, scan_nil_l. cbn [plus]. rewrite Nat.min_id, Nat.eqb_refl.
      destruct (Nat.ltb_spec 0 (List.length (dotted P))); [rewrite skipn_all2 by lia; reflexivity|].
      destruct (dotted P) eqn:E; [reflexivity|cbn in *; lia].
    + destruct P as [|p P]; [cbn [app dotted join_with]; rewrite scan_nil_r; rewrite Nat.min_0_r; cbn [List.length Nat.eqb Nat.ltb Nat.leb]; reflexivity|].
      rewrite dotted_app by discriminate.
      replace (dotted (p :: P)) with (dotted (p :: P) ++ []) at 2 by apply app_nil_r.
      rewrite scan_app, scan_nil_r. cbn [plus]. rewrite Nat.min_r by (rewrite app_length; lia). rewrite Nat.eqb_refl.
      assert (L : List.length (dotted (p :: P)) <> 0).
      { intros X. apply length_zero_iff_nil, dotted_nil in X; [discriminate|exact WF]. }
      destruct (Nat.ltb_spec 0 (List.length (dotted (p :: P)))); [|lia]. rewrite skipn_dot, skipn_all2 by lia. reflexivity.
  - destruct (dotted_head t T1) as (a & EA & HA). destruct (dotted_head f F1) as (b & EB & HB).
    assert (DT : ~ In dot t). { apply Forall_app in WT as [_ W]. inversion W as [|? ? [_ X] _]; exact X. }
    assert (DF : ~ In dot f). { apply Forall_app in WF as [_ W]. inversion W as [|? ? [_ X] _]; exact X. }
    destruct P as [|p P]; cbn [app] in *.
    + rewrite EA, EB in *. destruct (scan_parts t f a b 0 0 DT DF NE HA HB N1 N2) as (k & -> & K). cbn [plus] in K.
      destruct (Nat.eqb_spec k (Nat.min (List.length (t ++ a)) (List.length (f ++ b)))); [lia|]. reflexivity.
    + change (p :: P ++ t :: T1) with ((p :: P) ++ t :: T1) in *. change (p :: P ++ f :: F1) with ((p :: P) ++ f :: F1) in *.
      rewrite !dotted_app in * by discriminate.
      replace (dotted (p :: P) ++ dot :: dotted (t :: T1)) with ((dotted (p :: P) ++ [dot]) ++ dotted (t :: T1)) in * by now rewrite <- app_assoc.
      replace (dotted (p :: P) ++ dot :: dotted (f :: F1)) with ((dotted (p :: P) ++ [dot]) ++ dotted (f :: F1)) in * by now rewrite <- app_assoc.
      rewrite has_prefix_app_head in N1, N2. rewrite scan_app, lastdot_snoc. cbn [plus]. rewrite EA, EB in *.
      destruct (scan_parts t f a b (List.length (dotted (p :: P) ++ [dot])) (List.length (dotted (p :: P))) DT DF NE HA HB N1 N2) as (k & -> & K).
      rewrite !app_length in *. cbn [List.length] in *.
      match goal with |- context [if ?k =? ?m then _ else _] => destruct (Nat.eqb_spec k m); [lia|] end.
      assert (L : List.length (dotted (p :: P)) <> 0).
      { intros X. apply length_zero_iff_nil, dotted_nil in X; [discriminate|]. now apply Forall_app in WT as [W _]. }
      destruct (Nat.ltb_spec 0 (List.length (dotted (p :: P)))); [|lia]. rewrite <- !app_assoc. cbn [app]. now rewrite !skipn_dot.
Qed.

(** ** order *)
Lemma blt_irrefl a : blt a a = false.
Proof. induction a as [|x a IH]; [reflexivity|]. cbn. now rewrite Ascii.eqb_refl. Qed.
Lemma N_of_ascii_inj x y : N_of_ascii x = N_of_ascii y -> x = y.
Proof. intros H. rewrite <- (ascii_N_embedding x), <- (ascii_N_embedding y). now rewrite H. Qed.
Lemma blt_trans a : forall b c, blt a b = true -> blt b c = true -> blt a c = true.
Proof.
  induction a as [|x a IH]; intros [|y b] [|z c]; cbn; try discriminate; auto.
  intros H1 H2. destruct (Ascii.eqb_spec x y) as [E1|N1].
  - subst y. destruct (Ascii.eqb_spec x z) as [E2|N2]; [eauto|exact H2].
  - destruct (Ascii.eqb_spec y z) as [E2|N2].
    + subst z. destruct (Ascii.eqb_spec x y); [contradiction|exact H1].
    + apply N.ltb_lt in H1, H2. destruct (Ascii.eqb_spec x z) as [E|]; [subst z; lia|]. apply N.ltb_lt. lia.
Qed.
Lemma blt_total a : forall b, a = b \/ blt a b = true \/ blt b a = true.
Proof.
  induction a as [|x a IH]; intros [|y b]; cbn; auto.
  destruct (Ascii.eqb_spec x y) as [<-|N].
  - rewrite Ascii.eqb_refl. destruct (IH b) as [->|[H|H]]; auto.
  - destruct (Ascii.eqb_spec y x); [congruence|]. rewrite !N.ltb_lt.
    destruct (N.lt_trichotomy (N_of_ascii x) (N_of_ascii y)) as [H|[H|H]]; auto. apply N_of_ascii_inj in H. contradiction.
Qed.

Ltac dist := unfold dist_less;
  repeat match goal with
  | |- context [(?a =? ?b)%Z] => destruct (Z.eqb_spec a b)
  | |- context [(?a <? ?b)%Z] => destruct (Z.ltb_spec a b)
  | H : context [(?a =? ?b)%Z] |- _ => destruct (Z.eqb_spec a b)
  | H : context [(?a <? ?b)%Z] |- _ => destruct (Z.ltb_spec a b)
  end; cbn in *; try discriminate; try lia; auto.
Lemma dist_irrefl a : dist_less a a = true -> a = 0%Z.
Proof. dist. Qed.
Lemma dist_trans a b c : a <> b -> b <> c -> dist_less a b = true -> dist_less b c = true -> dist_less a c = true /\ a <> c.
Proof. intros N1 N2 H1 H2. unfold dist_less in *. dist. Qed.
Lemma dist_total a b : a <> b -> dist_less a b = true \/ dist_less b a = true.
Proof. intros N. dist. Qed.
Lemma dist_asym a b : a <> b -> dist_less a b = true -> dist_less b a = false.
Proof. intros N H. unfold dist_less in *. dist. Qed.

(** ** distances *)
Lemma mismatch_spec a : forall b i k, mismatch a b i = Some k -> exists p x y r s, k = i + List.length p /\ a = p ++ x :: r /\ b = p ++ y :: s /\ x <> y.
Proof.
  induction a as [|x a IH]; intros [|y b] i k H; cbn in H; try discriminate. destruct (beq x y) eqn:E.
  - apply beq_eq in E as <-. apply IH in H as (p & u & v & r & s & -> & -> & -> & N). exists (x :: p), u, v, r, s. cbn. split; [lia|auto].
  - apply beq_neq in E. injection H as <-. exists [], x, y, a, b. cbn. split; [lia|auto].
Qed.
Lemma mismatch_none a : forall b i, mismatch a b i = None -> (exists r, b = a ++ r) \/ (exists r, a = b ++ r).
Proof.
  induction a as [|x a IH]; intros [|y b] i H; cbn in H; [left; now exists []|left; eexists; reflexivity|right; eexists; reflexivity|].
  destruct (beq x y) eqn:E; [|discriminate]. apply beq_eq in E as <-. destruct (IH b _ H) as [[r ->]|[r ->]]; [left|right]; now exists r.
Qed.
Lemma mismatch_prefix a : forall r i, mismatch a (a ++ r) i = None.
Proof. induction a as [|x a IH]; intros r i; [reflexivity|]. cbn. rewrite beq_refl. apply IH. Qed.

(** ** finish *)
Local Arguments sort_key : simpl never.
Lemma finish_loop_found items : forall i found, snd (finish_loop items i found) = found || existsb preselect items.
Proof.
  induction items as [|x r IH]; intros i found; cbn; [now rewrite orb_false_r|].
  specialize (IH (N.succ i) (found || preselect x)). destruct (finish_loop r (N.succ i) (found || preselect x)) as [r' f]. cbn in *. now rewrite IH, orb_assoc.
Qed.
Lemma finish_loop_count items : forall i found,
  count_pre (fst (finish_loop items i found)) = if found then 0 else if existsb preselect items then 1 else 0.
Proof.
  unfold count_pre. induction items as [|x r IH]; intros i found; cbn; [now destruct found|].
  specialize (IH (N.succ i) (found || preselect x)). destruct (finish_loop r (N.succ i) (found || preselect x)) as [r' f]. cbn in *.
  destruct (preselect x), found; cbn in *; rewrite ?IH; reflexivity.
Qed.
Lemma finish_loop_keys items : forall i found k x, nth_error (fst (finish_loop items i found)) k = Some x -> sort_text x = sort_key (i + N.of_nat k).
Proof.
  induction items as [|y r IH]; intros i found k x H; [destruct k; discriminate|]. cbn in H.
  specialize (IH (N.succ i) (found || preselect y)). destruct (finish_loop r (N.succ i) (found || preselect y)) as [r' f]. cbn in *.
  destruct k as [|k]; [injection H as <-; cbn; now rewrite N.add_0_r|]. apply IH in H. rewrite H. f_equal. lia.
Qed.
Lemma finish_loop_length items i found : List.length (fst (finish_loop items i found)) = List.length items.
Proof.
  revert i found. induction items as [|y r IH]; intros i found; [reflexivity|]. cbn.
  specialize (IH (N.succ i) (found || preselect y)). destruct (finish_loop r (N.succ i) (found || preselect y)) as [r' f]. cbn in *. now rewrite IH.
Qed.
Lemma finish_loop_labels items i found : map label (fst (finish_loop items i found)) = map label items.
Proof.
  revert i found. induction items as [|y r IH]; intros i found; [reflexivity|]. cbn.
  specialize (IH (N.succ i) (found || preselect y)). destruct (finish_loop r (N.succ i) (found || preselect y)) as [r' f]. cbn in *. now rewrite IH.
Qed.
Lemma finish_keys items k x : nth_error (finish items) k = Some x -> sort_text x = sort_key (N.of_nat k).
Proof.
  unfold finish. assert (H := finish_loop_keys items 0 false). destruct (finish_loop items 0 false) as [[|y r] [|]]; cbn [fst] in H; intros E; try (specialize (H k x E); now rewrite N.add_0_l in H).
  destruct k as [|k]; [|specialize (H (S k) x E); now rewrite N.add_0_l in H].
  injection E as <-. cbn [sort_text]. specialize (H 0 y eq_refl). exact H.
Qed.
Lemma finish_labels items : map label (finish items) = map label items.
Proof.
  unfold finish. assert (H := finish_loop_labels items 0 false). destruct (finish_loop items 0 false) as [[|y r] [|]]; cbn in *; exact H.
Qed.

Definition dig5 (n : N) : bytes := [ndigit (n / 10 / 10 / 10 / 10 mod 10); ndigit (n / 10 / 10 / 10 mod 10); ndigit (n / 10 / 10 mod 10); ndigit (n / 10 mod 10); ndigit (n mod 10)].
Lemma sort_key_small n : (n < 100000)%N -> sort_key n = dig5 n.
Proof.
  intros H. unfold sort_key. cbn [digits].
  replace (n / 10 / 10 / 10 / 10 / 10)%N with 0%N; [reflexivity|].
  rewrite !N.div_div by discriminate. symmetry. apply N.div_small. exact H.
Qed.
Lemma ndigit_N a : (a < 10)%N -> N_of_ascii (ndigit a) = (48 + a)%N.
Proof. intros H. unfold ndigit. apply N_ascii_embedding. lia. Qed.
Lemma ndigit_eqb a b : (a < 10)%N -> (b < 10)%N -> Ascii.eqb (ndigit a) (ndigit b) = (a =? b)%N.
Proof.
  intros Ha Hb. destruct (Ascii.eqb_spec (ndigit a) (ndigit b)) as [E|E].
  - apply (f_equal N_of_ascii) in E. rewrite !ndigit_N in E by assumption. symmetry. apply N.eqb_eq. lia.
  - symmetry. apply N.eqb_neq. intros ->. now apply E.
Qed.
Lemma sort_key_lt i j : (i < j)%N -> (j < 100000)%N -> blt (sort_key i) (sort_key j) = true.
Proof.
  intros H1 H2. rewrite !sort_key_small by lia. unfold dig5. cbn [blt].
  assert (M : forall x, (x mod 10 < 10)%N) by (intros; now apply N.mod_lt).
  rewrite !ndigit_eqb, !ndigit_N by apply M.
  assert (D : forall x, (x = 10 * (x / 10) + x mod 10)%N) by (intros; now apply N.div_mod).
  assert (Z1 : (i/10/10/10/10/10 = 0)%N) by (rewrite !N.div_div by discriminate; apply N.div_small; lia).
  assert (Z2 : (j/10/10/10/10/10 = 0)%N) by (rewrite !N.div_div by discriminate; apply N.div_small; lia).
  assert (I0 := D i). assert (I1 := D (i/10)%N). assert (I2 := D (i/10/10)%N). assert (I3 := D (i/10/10/10)%N). assert (I4 := D (i/10/10/10/10)%N).
  assert (J0 := D j). assert (J1 := D (j/10)%N). assert (J2 := D (j/10/10)%N). assert (J3 := D (j/10/10/10)%N). assert (J4 := D (j/10/10/10/10)%N).
  assert (M0 := M i). assert (M1 := M (i/10)%N). assert (M2 := M (i/10/10)%N). assert (M3 := M (i/10/10/10)%N). assert (M4 := M (i/10/10/10/10)%N).
  assert (K0 := M j). assert (K1 := M (j/10)%N). assert (K2 := M (j/10/10)%N). assert (K3 := M (j/10/10/10)%N). assert (K4 := M (j/10/10/10/10)%N).
  clear D M. rewrite Z1 in I4. rewrite Z2 in J4. clear Z1 Z2.
  generalize dependent (i mod 10)%N. generalize dependent (i / 10 mod 10)%N. generalize dependent (i / 10 / 10 mod 10)%N. generalize dependent (i / 10 / 10 / 10 mod 10)%N. generalize dependent (i / 10 / 10 / 10 / 10 mod 10)%N.
  generalize dependent (i / 10 / 10 / 10 / 10)%N. generalize dependent (i / 10 / 10 / 10)%N. generalize dependent (i / 10 / 10)%N. generalize dependent (i / 10)%N.
  generalize dependent (j mod 10)%N. generalize dependent (j / 10 mod 10)%N. generalize dependent (j / 10 / 10 mod 10)%N. generalize dependent (j / 10 / 10 / 10 mod 10)%N. generalize dependent (j / 10 / 10 / 10 / 10 mod 10)%N.
  generalize dependent (j / 10 / 10 / 10 / 10)%N. generalize dependent (j / 10 / 10 / 10)%N. generalize dependent (j / 10 / 10)%N. generalize dependent (j / 10)%N.
  intros.
  repeat match goal with |- context [(?a =? ?b)%N] => destruct (N.eqb_spec a b) end; try (apply N.ltb_lt; lia); lia.
Qed.

(** ** columns *)
Definition ascii_text (s : list N) : Prop := Forall (fun c => (c < 128)%N) s.
Lemma ascii_len s : ascii_text s -> sum blen s = List.length s /\ sum ulen s = List.length s.
Proof.
  induction 1 as [|c s H _ [I1 I2]]; [auto|]. cbn. unfold sum in I1, I2. rewrite I1, I2.
  unfold blen, ulen. destruct (N.ltb_spec c 128); [|lia]. destruct (N.ltb_spec c 65536); [|lia]. auto.
Qed.
Lemma ulen_pos c : 1 <= ulen c. Proof. unfold ulen. destruct (_ <? _)%N; lia. Qed.
Lemma sum_app f a b : sum f (a ++ b) = sum f a + sum f b.
Proof. unfold sum. induction a as [|x a IH]; [reflexivity|]. cbn [app fold_right]. lia. Qed.
Lemma take_sum a b : take_cols (a ++ b) (sum ulen a) = a.
Proof.
  induction a as [|c a IH]; [now destruct b|]. cbn [app sum fold_right]. fold (sum ulen a). pose proof (ulen_pos c).
  destruct (ulen c + sum ulen a) eqn:E; [lia|]. cbn [take_cols]. rewrite <- E. replace (ulen c + sum ulen a - ulen c) with (sum ulen a) by lia. now rewrite IH.
Qed.
Lemma drop_sum a b : drop_cols (a ++ b) (sum ulen a) = b.
Proof.
  induction a as [|c a IH]; [now destruct b|]. cbn [app sum fold_right]. fold (sum ulen a). pose proof (ulen_pos c).
  destruct (ulen c + sum ulen a) eqn:E; [lia|]. cbn [drop_cols]. rewrite <- E. replace (ulen c + sum ulen a - ulen c) with (sum ulen a) by lia. exact IH.
Qed.
