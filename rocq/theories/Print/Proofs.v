(** Proofs about ranges, names, source locations, the writer and comments. *)
From Coq Require Import Ascii String NArith.
From Verif Require Import Base Strs.
From Verif.Print Require Import Model Spec.
Open Scope list_scope.

Ltac Zify.zify_post_hook ::= Z.div_mod_to_equations.

(** ** Ranges *)

Definition int32 (z : Z) : Prop := (-2147483648 <= z <= 2147483647)%Z.
Lemma wrap32_id z : int32 z -> wrap32 z = z.
Proof. unfold int32, wrap32. intros H. rewrite Z.mod_small; lia. Qed.

Lemma message_range ms start stop x : (1 <= start < stop)%Z -> (stop <= max_tag ms + 1)%Z ->
  (range_numbers (max_tag ms) (print_range (max_tag ms) start stop) x <-> (start <= x < stop)%Z)
  /\ range_valid (max_tag ms) (print_range (max_tag ms) start stop).
Proof.
  intros H1 H2. unfold print_range.
  assert (M : (max_tag ms <= 2147483646)%Z) by (destruct ms; cbn; lia).
  rewrite wrap32_id by (unfold int32; lia).
  destruct (Z.eqb_spec start (stop - 1)); [cbn; split; [lia|exact I]|].
  destruct (Z.eqb_spec start stop); [lia|]. cbn [orb].
  destruct (Z.eqb_spec (stop - 1) (max_tag ms)); cbn; lia.
Qed.
Lemma extension_range ms start stop x : (1 <= start < stop)%Z -> (stop <= max_tag ms + 1)%Z ->
  (range_numbers (max_tag ms) (print_ext_range (max_tag ms) start stop) x <-> (start <= x < stop)%Z)
  /\ range_valid (max_tag ms) (print_ext_range (max_tag ms) start stop).
Proof.
  intros H1 H2. unfold print_ext_range.
  assert (M : (max_tag ms <= 2147483646)%Z) by (destruct ms; cbn; lia).
  rewrite wrap32_id by (unfold int32; lia).
  destruct (Z.eqb_spec start (stop - 1)); [cbn; split; [lia|exact I]|].
  destruct (Z.eqb_spec (stop - 1) (max_tag ms)); cbn; lia.
Qed.
Lemma enum_range start stop : int32 start -> int32 stop -> (start <= stop)%Z ->
  ((forall x, range_numbers max_enum (print_range max_enum start stop) x <-> (start <= x <= stop)%Z) <-> start = stop).
Proof.
  unfold int32, print_range, max_enum. intros H1 H2 H3.
  destruct (Z.eq_dec start stop) as [<-|N].
  - rewrite Z.eqb_refl, orb_true_r. cbn. split; [reflexivity|]. intros _ x. lia.
  - split; [|congruence]. intros H. exfalso.
    rewrite wrap32_id in H by (unfold int32; lia).
    specialize (H stop).
    destruct (Z.eqb_spec start (stop - 1)); [cbn in H; lia|].
    destruct (Z.eqb_spec start stop); [lia|]. cbn [orb] in H.
    destruct (Z.eqb_spec (stop - 1) 2147483647); cbn in H; lia.
Qed.

(** ** Names *)

Lemma dotted_cons w ws : dotted (w :: ws) = match ws with [] => w | _ => w ++ dot :: dotted ws end.
Proof. destruct ws; reflexivity. Qed.
Lemma dotted_app a b : a <> [] -> b <> [] -> dotted (a ++ b) = dotted a ++ dot :: dotted b.
Proof.
  intros Ha Hb. induction a as [|w a IH]; [congruence|]. cbn [app]. rewrite (dotted_cons w (a ++ b)).
  destruct a as [|w2 a]; cbn [app].
  - destruct b; [congruence|reflexivity].
  - cbn [app] in IH. rewrite IH by discriminate. rewrite (dotted_cons w (w2 :: a)). now rewrite <- app_assoc.
Qed.
Lemma dotted_inj a b : Forall component a -> Forall component b -> dotted a = dotted b -> a = b.
Proof.
  intros Fa Fb E. destruct a as [|w a], b as [|w' b]; [reflexivity| | |].
  - inversion Fb as [|? ? [N _] _]; subst. exfalso. apply N. rewrite dotted_cons in E. cbn in E. destruct b; [now symmetry in E|].
    symmetry in E. now apply app_eq_nil in E as [? _].
  - inversion Fa as [|? ? [N _] _]; subst. exfalso. apply N. rewrite dotted_cons in E. cbn in E. destruct a; [exact E|].
    now apply app_eq_nil in E as [? _].
  - apply (f_equal (split_on dot)) in E. unfold dotted in E. rewrite !split_join in E; auto; try discriminate;
      intros x Hx; [apply (proj1 (Forall_forall _ _) Fb x Hx)|apply (proj1 (Forall_forall _ _) Fa x Hx)].
Qed.

(** a scope followed by a dot is a prefix of a name exactly if it is a proper prefix of its components *)
Lemma prefix_components S F : Forall component S -> Forall component F -> S <> [] ->
  has_prefix (dotted F) (dotted S ++ [dot]) = true <-> exists r, r <> [] /\ F = S ++ r.
Proof.
  intros FS FF NS. rewrite has_prefix_spec. split.
  - intros [r E]. rewrite <- app_assoc in E. cbn in E.
    revert F FF E. induction S as [|w S IH]; [congruence|]. intros F FF E.
    inversion FS as [|? ? [Nw Dw] FS']; subst.
    destruct F as [|w' F].
    { exfalso. apply (f_equal (@List.length ascii)) in E. cbn in E. rewrite app_length in E. cbn in E. lia. }
    inversion FF as [|? ? [Nw' Dw'] FF']; subst.
    assert (SP : forall A c (x y u v : list A), ~ In c x -> ~ In c y -> x ++ c :: u = y ++ c :: v -> x = y /\ u = v).
    { clear. intros A c x. induction x as [|a x IHx]; intros y u v Hx Hy E; destruct y as [|b y]; cbn in E.
      - now injection E.
      - injection E as -> E. exfalso. apply Hy. now left.
      - injection E as <- E. exfalso. apply Hx. now left.
      - injection E as -> E. destruct (IHx y u v) as [-> ->]; auto; intros ?; [apply Hx|apply Hy]; now right. }
    destruct S as [|w2 S].
    + change (dotted [w]) with w in E. rewrite dotted_cons in E. destruct F as [|w2 F].
      * exfalso. apply Dw'. rewrite E. apply in_or_app. right. now left.
      * apply SP in E as [<- _]; auto. exists (w2 :: F). split; [discriminate|reflexivity].
    + rewrite (dotted_cons w (w2 :: S)) in E. rewrite <- app_assoc in E. cbn [app] in E. rewrite dotted_cons in E.
      destruct F as [|w3 F].
      * exfalso. apply Dw'. rewrite E. apply in_or_app. right. now left.
      * apply SP in E as [<- E]; auto. destruct (IH FS' ltac:(discriminate) (w3 :: F) FF' E) as (r' & N & ->). now exists r'.
  - intros (r & Nr & ->). exists (dotted r). rewrite dotted_app by assumption. now rewrite <- app_assoc.
Qed.

Lemma through_last_none s : ~ In dot s -> through_last_dot s = [].
Proof.
  induction s as [|c s IH]; intros H; [reflexivity|]. cbn. rewrite IH by (intros I; apply H; now right).
  destruct (Ascii.eqb_spec c dot) as [->|]; [exfalso; apply H; now left|reflexivity].
Qed.
Lemma through_last_app a b : ~ In dot b -> through_last_dot (a ++ dot :: b) = a ++ [dot].
Proof.
  intros H. induction a as [|c a IH].
  - cbn [app through_last_dot]. rewrite (through_last_none b H). reflexivity.
  - cbn [app through_last_dot]. rewrite IH. destruct (a ++ [dot]) eqn:E; [destruct a; discriminate|reflexivity].
Qed.

Lemma outer_scope S w : Forall component S -> component w ->
  through_last_dot (removelast (dotted (S ++ [w]) ++ [dot])) = match S with [] => [] | _ => dotted S ++ [dot] end.
Proof.
  intros F [Nw Dw]. rewrite removelast_last. destruct S as [|v S].
  - cbn [app dotted join_with]. now apply through_last_none.
  - rewrite dotted_app by discriminate. cbn [dotted join_with]. now apply through_last_app.
Qed.

(** the base that the loop removes: the longest scope, from [n] components outwards, that is a proper prefix of the
    name, no shorter than the package and at least [required] levels out; none at all otherwise *)
Definition is_base (P Sc F base : list bytes) (required : nat) : Prop :=
  prefix_of base Sc /\ (exists r, r <> [] /\ F = base ++ r) /\ base <> [] /\ List.length P <= List.length base /\ List.length base + required <= List.length Sc.

Lemma prefix_firstn {A} (a b : list A) : prefix_of a b -> a = firstn (List.length a) b.
Proof. intros [r ->]. rewrite firstn_app, Nat.sub_diag, firstn_all. cbn. now rewrite app_nil_r. Qed.

Definition scope_text (S : list bytes) : bytes := match S with [] => [] | _ => dotted S ++ [dot] end.
Lemma dotted_nonnil S : Forall component S -> S <> [] -> dotted S <> [].
Proof.
  intros F N E. destruct S as [|w S]; [congruence|]. inversion F as [|? ? [Nw _] _]; subst. rewrite dotted_cons in E. destruct S; [auto|].
  now apply app_eq_nil in E as [? _].
Qed.

Lemma dotted_length S : Forall component S -> List.length S <= List.length (dotted S).
Proof.
  induction 1 as [|w S [Nw _] F IH]; [cbn; lia|]. rewrite dotted_cons. destruct w as [|c w]; [congruence|].
  destruct S; cbn in *; [lia|]. rewrite app_length. cbn in *. lia.
Qed.

Lemma qualify_loop_spec fuel P R F base_required : forall n S count,
  Forall component (P ++ R) -> Forall component F -> n = List.length S ->
  prefix_of P (P ++ R) -> prefix_of S (P ++ R) -> (P <> [] -> prefix_of P S) -> count + n = List.length (P ++ R) -> n < fuel ->
  (forall b, is_base P (P ++ R) F b base_required -> List.length b <= n) ->
  exists base rest, qualify_loop fuel (dotted P) (scope_text S) (dotted F) (Z.of_nat count) (Z.of_nat base_required) = dotted rest /\
    F = base ++ rest /\ ((is_base P (P ++ R) F base base_required /\ (forall b, is_base P (P ++ R) F b base_required -> List.length b <= List.length base))
      \/ (base = [] /\ forall b, ~ is_base P (P ++ R) F b base_required)).
Proof.
  induction fuel as [|fuel IH]; intros n S count FC FF Hn HP HS HPS Hc Hf Hb; [lia|].
  destruct S as [|w0 S0] eqn:ES.
  { cbn [qualify_loop scope_text]. exists [], F. split; [reflexivity|]. split; [reflexivity|]. right. split; [reflexivity|].
    intros b B. specialize (Hb b B). destruct B as (_ & _ & N & _). subst n. cbn in Hb. destruct b; [congruence|cbn in Hb; lia]. }
  rewrite <- ES in *. assert (NS : S <> []) by (subst S; discriminate).
  assert (FS : Forall component S). { destruct HS as [r E]. rewrite E in FC. now apply Forall_app in FC as [? _]. }
  assert (T : scope_text S = dotted S ++ [dot]) by (subst S; reflexivity). clear ES w0 S0.
  rewrite T. cbn [qualify_loop]. destruct (dotted S ++ [dot]) as [|c0 t0] eqn:ET; [destruct (dotted S); discriminate|]. rewrite <- ET.
  destruct (has_prefix (dotted F) (dotted S ++ [dot])) eqn:HP'.
  - apply prefix_components in HP' as (r & Nr & EF); auto.
    destruct (Z.leb_spec (Z.of_nat base_required) (Z.of_nat count)) as [L|L]; cbn [andb].
    + exists S, r. split; [|split; [exact EF|left; split]].
      * rewrite EF, dotted_app by assumption. change (dot :: dotted r) with ([dot] ++ dotted r). rewrite app_assoc.
        rewrite skipn_app, skipn_all, Nat.sub_diag. reflexivity.
      * repeat split; auto; [now exists r| |lia]. destruct P as [|p P]; [cbn; lia|]. apply prefix_of_length. apply HPS. discriminate.
      * intros b B. specialize (Hb b B). lia.
    + destruct (beq (dotted S ++ [dot]) (dotted P ++ [dot])) eqn:BQ.
      * apply beq_eq in BQ. apply app_inv_tail in BQ. apply dotted_inj in BQ; auto.
        2:{ now apply Forall_app in FC as [? _]. }
        exists [], F. repeat split. right. split; [reflexivity|]. intros b B. pose proof (Hb b B).
        destruct B as (_ & _ & _ & B1 & B2). apply (f_equal (@List.length _)) in BQ. lia.
      * assert (NB : forall b, is_base P (P ++ R) F b base_required -> List.length b <= n - 1).
        { intros b B. pose proof (Hb b B). destruct B as (_ & _ & _ & _ & B2). lia. }
        destruct (@exists_last _ S NS) as (S' & w & ES'). assert (LS : List.length S = List.length S' + 1) by (rewrite ES', app_length; reflexivity).
        assert (FS' : Forall component (S' ++ [w])) by (now rewrite <- ES').
        apply Forall_app in FS' as [FS' Fw]. assert (Cw : component w) by (now inversion Fw).
        replace (through_last_dot (removelast (dotted S ++ [dot]))) with (scope_text S') by (rewrite ES'; symmetry; now apply outer_scope).
        replace (Z.of_nat count + 1)%Z with (Z.of_nat (count + 1)) by lia.
        apply (IH (List.length S')); auto.
        -- destruct HS as [r' E]. rewrite ES' in E. rewrite <- app_assoc in E. now exists ([w] ++ r').
        -- intros NP. specialize (HPS NP). destruct HPS as [q Eq]. destruct q as [|q0 q] using rev_ind.
           ++ exfalso. rewrite app_nil_r in Eq. apply (proj1 (beq_neq _ _)) in BQ. apply BQ. rewrite Eq. reflexivity.
           ++ rewrite ES', app_assoc in Eq. apply app_inj_tail in Eq as [Eq _]. now exists q.
        -- lia.
        -- lia.
        -- intros b B. apply NB in B. lia.
  - cbn [andb].
    assert (NB : forall b, is_base P (P ++ R) F b base_required -> List.length b <= n - 1).
    { intros b B. pose proof (Hb b B) as L. destruct (Nat.eq_dec (List.length b) n) as [E|E]; [|lia]. exfalso.
      destruct B as (B1 & (r & Nr & B2) & B3 & _).
      assert (b = S). { apply prefix_firstn in B1. apply prefix_firstn in HS. rewrite B1, HS, E, <- Hn. reflexivity. }
      subst b. assert (has_prefix (dotted F) (dotted S ++ [dot]) = true) by (apply prefix_components; auto; now exists r). congruence. }
    destruct (beq (dotted S ++ [dot]) (dotted P ++ [dot])) eqn:BQ.
    + apply beq_eq in BQ. apply app_inv_tail in BQ. apply dotted_inj in BQ; auto.
      2:{ now apply Forall_app in FC as [? _]. }
      exists [], F. repeat split. right. split; [reflexivity|]. intros b B. pose proof (NB b B).
      destruct B as (_ & _ & B3 & B1 & B2). apply (f_equal (@List.length _)) in BQ. destruct b; [congruence|]. cbn [List.length] in *. lia.
    + destruct (@exists_last _ S NS) as (S' & w & ES'). assert (LS : List.length S = List.length S' + 1) by (rewrite ES', app_length; reflexivity).
      assert (FS' : Forall component (S' ++ [w])) by (now rewrite <- ES').
      apply Forall_app in FS' as [FS' Fw]. assert (Cw : component w) by (now inversion Fw).
      replace (through_last_dot (removelast (dotted S ++ [dot]))) with (scope_text S') by (rewrite ES'; symmetry; now apply outer_scope).
      replace (Z.of_nat count + 1)%Z with (Z.of_nat (count + 1)) by lia.
      apply (IH (List.length S')); auto.
      -- destruct HS as [r' E]. rewrite ES' in E. rewrite <- app_assoc in E. now exists ([w] ++ r').
      -- intros NP. specialize (HPS NP). destruct HPS as [q Eq]. destruct q as [|q0 q] using rev_ind.
         ++ exfalso. rewrite app_nil_r in Eq. apply (proj1 (beq_neq _ _)) in BQ. apply BQ. rewrite Eq. reflexivity.
         ++ rewrite ES', app_assoc in Eq. apply app_inj_tail in Eq as [Eq _]. now exists q.
      -- lia.
      -- lia.
      -- intros b B. apply NB in B. lia.
Qed.

Lemma components_no_lead F : Forall component F -> F <> [] -> exists c r, dotted F = c :: r /\ c <> dot.
Proof.
  intros FF N. destruct F as [|w F]; [congruence|]. inversion FF as [|? ? [Nw Dw] _]; subst. destruct w as [|c w]; [congruence|].
  rewrite dotted_cons. exists c. destruct F; eexists; (split; [reflexivity|]); intros ->; apply Dw; now left.
Qed.
Lemma last_char_app s c : last_char (s ++ [c]) = Some c.
Proof. unfold last_char. now rewrite rev_unit. Qed.
Lemma last_char_in s c : last_char s = Some c -> In c s.
Proof. unfold last_char. destruct (rev s) eqn:E; [discriminate|]. intros [= ->]. apply in_rev. rewrite E. now left. Qed.
Lemma last_char_app2 a b : b <> [] -> last_char (a ++ b) = last_char b.
Proof. intros N. destruct (@exists_last _ b N) as (b' & c & ->). rewrite app_assoc. now rewrite !last_char_app. Qed.
Lemma dotted_last S c : Forall component S -> last_char (dotted S) = Some c -> c <> dot.
Proof.
  intros F E. destruct S as [|w S] using rev_ind; [discriminate|]. apply Forall_app in F as [_ Fw]. inversion Fw as [|? ? [Nw Dw] _]; subst.
  assert (L : last_char w = Some c).
  { destruct S as [|v S]; [exact E|]. rewrite dotted_app in E by discriminate.
    change (dot :: dotted [w]) with ([dot] ++ w) in E. rewrite app_assoc, last_char_app2 in E by exact Nw. exact E. }
  apply last_char_in in L. congruence.
Qed.
Lemma scope_dot S : Forall component S ->
  match last_char (dotted S) with Some d => if Ascii.eqb d dot then dotted S else dotted S ++ [dot] | None => dotted S end = scope_text S.
Proof.
  intros F. destruct S as [|w S]; [reflexivity|]. cbn [scope_text].
  destruct (last_char (dotted (w :: S))) as [d|] eqn:E.
  - apply dotted_last in E; [|exact F]. now rewrite (proj2 (Ascii.eqb_neq d dot) E).
  - exfalso. unfold last_char in E. destruct (rev (dotted (w :: S))) eqn:R; [|discriminate].
    apply (f_equal (@rev _)) in R. rewrite rev_involutive in R. apply dotted_nonnil in R; [exact R|exact F|discriminate].
Qed.

(** a full name with or without a leading dot *)
Definition full_name (lead : bool) (F : list bytes) : bytes := if lead then dot :: dotted F else dotted F.
Lemma forced lead pkg scope F k : Forall component F -> F <> [] -> qualify true pkg scope (full_name lead F) k = Some (dot :: dotted F).
Proof.
  intros FF N. destruct lead; [reflexivity|]. unfold full_name. destruct (components_no_lead F FF N) as (c & r & E & Nc).
  rewrite E. cbn [qualify]. now rewrite (proj2 (Ascii.eqb_neq c dot) Nc).
Qed.
Lemma qualify_stripped lead pkg scope F k : Forall component F -> F <> [] ->
  qualify false pkg scope (full_name lead F) k =
    Some (let scope' := if (k <? 0)%Z then pkg ++ [dot] else match last_char scope with Some d => if Ascii.eqb d dot then scope else scope ++ [dot] | None => scope end in
          qualify_loop (S (List.length scope')) pkg scope' (dotted F) 0 k).
Proof.
  intros FF N. destruct lead; [reflexivity|]. unfold full_name. destruct (components_no_lead F FF N) as (c & r & E & Nc).
  rewrite E. cbn [qualify]. now rewrite (proj2 (Ascii.eqb_neq c dot) Nc).
Qed.
Lemma qualify_spec lead P R F k : Forall component (P ++ R) -> Forall component F -> F <> [] ->
  exists base rest, qualify false (dotted P) (dotted (P ++ R)) (full_name lead F) (Z.of_nat k) = Some (dotted rest) /\ F = base ++ rest /\
    ((is_base P (P ++ R) F base k /\ (forall b, is_base P (P ++ R) F b k -> List.length b <= List.length base))
      \/ (base = [] /\ forall b, ~ is_base P (P ++ R) F b k)).
Proof.
  intros FC FF N. rewrite qualify_stripped by assumption.
  destruct (Z.ltb_spec (Z.of_nat k) 0) as [L|_]; [lia|]. rewrite scope_dot by exact FC. cbv zeta.
  assert (ST : List.length (P ++ R) <= List.length (scope_text (P ++ R))).
  { pose proof (dotted_length _ FC). destruct (P ++ R) eqn:E; [cbn; lia|]. cbn [scope_text]. rewrite app_length. lia. }
  destruct (qualify_loop_spec (S (List.length (scope_text (P ++ R)))) P R F k (List.length (P ++ R)) (P ++ R) 0) as (base & rest & E & H); auto.
  - now exists R.
  - exists []. now rewrite app_nil_r.
  - intros _. now exists R.
  - lia.
  - intros b (B & _). now apply prefix_of_length.
  - change (Z.of_nat 0) with 0%Z in E. rewrite E. now exists base, rest.
Qed.
Lemma loop_step fuel pkg scope fqn count required : scope <> [] ->
  qualify_loop (S fuel) pkg scope fqn count required =
    if (has_prefix fqn scope && (required <=? count)%Z)%bool then skipn (List.length scope) fqn
    else if beq scope (pkg ++ [dot]) then fqn
    else qualify_loop fuel pkg (through_last_dot (removelast scope)) fqn (count + 1)%Z required.
Proof. destruct scope; [congruence|reflexivity]. Qed.
Lemma literal_spec lead P scope F : Forall component P -> Forall component F -> F <> [] ->
  exists base rest, qualify false (dotted P) scope (full_name lead F) (-1) = Some (dotted rest) /\ F = base ++ rest /\ rest <> [] /\
    ((base = P) \/ (base = [] /\ ~ exists r, r <> [] /\ F = P ++ r)).
Proof.
  intros FP FF N. rewrite qualify_stripped by assumption. change (-1 <? 0)%Z with true. cbv zeta iota.
  rewrite loop_step by (destruct (dotted P); discriminate).
  destruct P as [|p P].
  - exists [], F. change (dotted [] ++ [dot]) with [dot]. destruct (components_no_lead F FF N) as (c & r & E & Nc).
    rewrite E. destruct (has_prefix (c :: r) [dot]) eqn:HPf.
    { apply has_prefix_spec in HPf as [q Eq]. cbn in Eq. injection Eq as Eq _. congruence. }
    cbn [andb]. change (dotted [] ++ [dot]) with [dot]. rewrite beq_refl. repeat split; auto.
  - destruct (has_prefix (dotted F) (dotted (p :: P) ++ [dot])) eqn:H.
    + apply prefix_components in H as (r & Nr & ->); auto; [|discriminate]. cbn [andb]. change (-1 <=? 0)%Z with true. cbv iota.
      exists (p :: P), r. rewrite dotted_app by (auto; discriminate). change (dot :: dotted r) with ([dot] ++ dotted r). rewrite app_assoc.
      rewrite skipn_app, skipn_all, Nat.sub_diag. repeat split; auto.
    + cbn [andb]. rewrite beq_refl. exists [], F. repeat split; auto. right. split; [reflexivity|].
      intros G. apply prefix_components in G; auto; [congruence|discriminate].
Qed.

(** ** Resolution *)

Lemma find_scopes (f : list bytes -> bool) sc n :
  match find f (scopes_from sc n) with
  | Some s => exists m, m <= n /\ s = firstn m sc /\ f s = true /\ forall k, m < k <= n -> f (firstn k sc) = false
  | None => forall k, k <= n -> f (firstn k sc) = false
  end.
Proof.
  induction n as [|n IH].
  - cbn [scopes_from find]. destruct (f []) eqn:E.
    + exists 0. repeat split; auto. intros; lia.
    + intros k Hk. replace k with 0 by lia. exact E.
  - cbn [scopes_from find]. destruct (f (firstn (S n) sc)) eqn:E.
    + exists (S n). repeat split; auto. intros; lia.
    + destruct (find f (scopes_from sc n)) as [s|].
      * destruct IH as (m & M1 & M2 & M3 & M4). exists m. repeat split; auto. intros k Hk.
        destruct (Nat.eq_dec k (S n)) as [->|]; [exact E|]. apply M4. lia.
      * intros k Hk. destruct (Nat.eq_dec k (S n)) as [->|]; [exact E|]. apply IH. lia.
Qed.

Lemma resolves_iff defined sc base w ws : prefix_of base sc -> defined (base ++ [w]) = true ->
  (resolves_to defined sc (w :: ws) = Some (base ++ w :: ws) <->
   forall s, prefix_of s sc -> List.length base < List.length s -> defined (s ++ [w]) = false).
Proof.
  intros PB D. cbn [resolves_to]. pose proof (find_scopes (fun s => defined (s ++ [w])) sc (List.length sc)) as H.
  pose proof (prefix_of_length _ _ PB) as LB. pose proof (prefix_firstn _ _ PB) as EB.
  destruct (find _ _) as [s|].
  - destruct H as (m & M1 & -> & M3 & M4). split.
    + intros [= E]. apply app_inv_tail in E. intros s Ps Ls. rewrite (prefix_firstn _ _ Ps). apply M4.
      apply (f_equal (@List.length _)) in E. rewrite firstn_length in E. pose proof (prefix_of_length _ _ Ps). lia.
    + intros A. destruct (Nat.lt_trichotomy m (List.length base)) as [L|[L|L]].
      * specialize (M4 (List.length base) ltac:(lia)). rewrite <- EB in M4. congruence.
      * subst m. now rewrite <- EB.
      * specialize (A (firstn m sc)). rewrite A in M3; [discriminate| |].
        -- exists (skipn m sc). now rewrite firstn_skipn.
        -- rewrite firstn_length. lia.
  - specialize (H (List.length base) LB). cbv beta in H. rewrite <- EB in H. congruence.
Qed.

(** ** Source locations *)

Lemma chr_mod_inj a b : (a < 256)%N -> (b < 256)%N -> chr a = chr b -> a = b.
Proof. intros A B E. apply (f_equal N_of_ascii) in E. unfold chr in E. now rewrite !N_ascii_embedding in E. Qed.
Lemma quad u : (u < 4294967296)%N -> u = (u mod 256 + 256 * (u / 256 mod 256) + 65536 * (u / 65536 mod 256) + 16777216 * (u / 16777216 mod 256))%N.
Proof.
  intros H.
  assert (A : (u / 65536 = u / 256 / 256)%N) by (rewrite N.div_div by discriminate; reflexivity).
  assert (B : (u / 16777216 = u / 256 / 256 / 256)%N) by (rewrite !N.div_div by discriminate; reflexivity).
  rewrite A, B. pose proof (N.div_mod u 256 ltac:(discriminate)). pose proof (N.div_mod (u / 256) 256 ltac:(discriminate)).
  pose proof (N.div_mod (u / 256 / 256) 256 ltac:(discriminate)).
  assert (C : (u / 256 / 256 / 256 < 256)%N).
  { rewrite <- B. apply N.div_lt_upper_bound; [discriminate|exact H]. }
  rewrite (N.mod_small (u / 256 / 256 / 256) 256 C). set (q1 := (u / 256)%N) in *. set (q2 := (q1 / 256)%N) in *. set (q3 := (q2 / 256)%N) in *.
  set (m0 := (u mod 256)%N) in *. set (m1 := (q1 mod 256)%N) in *. set (m2 := (q2 mod 256)%N) in *. lia.
Qed.
Lemma le_bytes_inj a b : int32 a -> int32 b -> le_bytes a = le_bytes b -> a = b.
Proof.
  unfold le_bytes. intros Ha Hb E.
  assert (Ba : (Z.to_N (a mod 4294967296) < 4294967296)%N) by (pose proof (Z.mod_pos_bound a 4294967296 ltac:(reflexivity)); lia).
  assert (Bb : (Z.to_N (b mod 4294967296) < 4294967296)%N) by (pose proof (Z.mod_pos_bound b 4294967296 ltac:(reflexivity)); lia).
  set (u := Z.to_N (a mod 4294967296)) in *. set (v := Z.to_N (b mod 4294967296)) in *.
  assert (U : u = v).
  { rewrite (quad u Ba), (quad v Bb).
    assert (E1 : chr (u mod 256) = chr (v mod 256)) by congruence.
    assert (E2 : chr (u / 256 mod 256) = chr (v / 256 mod 256)) by congruence.
    assert (E3 : chr (u / 65536 mod 256) = chr (v / 65536 mod 256)) by congruence.
    assert (E4 : chr (u / 16777216 mod 256) = chr (v / 16777216 mod 256)) by congruence.
    apply chr_mod_inj in E1; try (apply N.mod_lt; discriminate). apply chr_mod_inj in E2; try (apply N.mod_lt; discriminate).
    apply chr_mod_inj in E3; try (apply N.mod_lt; discriminate). apply chr_mod_inj in E4; try (apply N.mod_lt; discriminate).
    now rewrite E1, E2, E3, E4. }
  unfold u, v in U. apply Z2N.inj in U; try (apply Z.mod_pos_bound; reflexivity).
  unfold int32 in *. lia.
Qed.
Lemma map_key_inj : forall p q, Forall int32 p -> Forall int32 q -> map_key p = map_key q -> p = q.
Proof.
  induction p as [|a p IH]; intros q Fp Fq E; destruct q as [|b q]; auto; try discriminate.
  inversion Fp; subst. inversion Fq; subst. unfold map_key in E. cbn [flat_map] in E.
  assert (E1 : le_bytes a = le_bytes b) by (apply (f_equal (firstn 4)) in E; exact E).
  assert (E2 : flat_map le_bytes p = flat_map le_bytes q) by (apply (f_equal (skipn 4)) in E; exact E).
  apply le_bytes_inj in E1; auto. subst b. f_equal. now apply IH.
Qed.

Definition z_eqb (p q : list Z) : bool := if list_eq_dec Z.eq_dec p q then true else false.
Lemma get_all_added {A} (locs : list (list Z * A)) : Forall (fun l => Forall int32 (fst l)) locs -> forall p, Forall int32 p ->
  info_get_all (fold_left (fun m l => info_add m (fst l) (snd l)) locs no_info) p = map snd (filter (fun l => z_eqb (fst l) p) locs).
Proof.
  intros F p Fp. induction locs as [|l locs IH] using rev_ind; [reflexivity|].
  apply Forall_app in F as [F Fl]. inversion Fl as [|? ? Fl' _]; subst. rewrite fold_left_app. cbn [fold_left].
  rewrite filter_app, map_app. rewrite <- (IH F). unfold info_get_all, info_add at 1. cbn [filter].
  unfold z_eqb. destruct (list_eq_dec Z.eq_dec (fst l) p) as [->|N].
  - now rewrite beq_refl.
  - cbn [map]. rewrite app_nil_r. destruct (beq (map_key p) (map_key (fst l))) eqn:E; [|reflexivity].
    apply beq_eq in E. apply map_key_inj in E; auto. congruence.
Qed.
Lemma get_first {A} (m : info_map A) p : info_get m p = hd_error (info_get_all m p).
Proof. reflexivity. Qed.
Lemma put_if_absent_spec {A} (m : info_map A) p x q : Forall int32 p -> Forall int32 q ->
  snd (info_put_if_absent m p x) = (match info_get m p with None => true | Some _ => false end) /\
  info_get_all (fst (info_put_if_absent m p x)) q =
    if z_eqb p q then match info_get m p with None => [x] | Some _ => info_get_all m q end else info_get_all m q.
Proof.
  intros Fp Fq. unfold info_put_if_absent, info_get, info_get_all, z_eqb.
  destruct (m (map_key p)) as [|y l] eqn:E; cbn [snd fst hd_error]; (split; [reflexivity|]).
  - destruct (list_eq_dec Z.eq_dec p q) as [->|N]; [now rewrite beq_refl|].
    destruct (beq (map_key q) (map_key p)) eqn:B; [|reflexivity]. apply beq_eq in B. apply map_key_inj in B; auto. congruence.
  - destruct (list_eq_dec Z.eq_dec p q); reflexivity.
Qed.

(** ** The writer *)

Definition ends_blank (p : bytes) : bool := match last_char p with Some c => Ascii.eqb c sp | None => false end.
Lemma strip_blank_app p : p = strip_blank p ++ (if ends_blank p then [sp] else []).
Proof.
  unfold strip_blank, ends_blank. destruct p as [|c p] using rev_ind; [reflexivity|]. rewrite last_char_app.
  destruct (Ascii.eqb_spec c sp) as [->|]; [now rewrite removelast_last|now rewrite app_nil_r].
Qed.
Lemma write_eq w p : p <> [] ->
  fst (write w p) = mkW (w_out w ++ (if (w_space w && negb (starts_tight p))%bool then [sp] else []) ++ strip_blank p) (ends_blank p)
                        (match last_char (strip_blank p) with Some c => Ascii.eqb c nl | None => false end).
Proof.
  intros N. destruct p as [|c p]; [congruence|]. unfold write. cbn [fst]. unfold strip_blank, ends_blank.
  destruct (last_char (c :: p)) as [d|] eqn:E.
  2:{ exfalso. unfold last_char in E. destruct (rev (c :: p)) eqn:R; [|discriminate].
      apply (f_equal (@List.length _)) in R. rewrite rev_length in R. discriminate. }
  destruct (Ascii.eqb d sp); destruct (w_space w && negb (starts_tight (c :: p)))%bool; cbn [app]; now rewrite <- ?app_assoc.
Qed.
Lemma attaches_tight q : attaches q = starts_tight q.
Proof. destruct q as [|[[] [] [] [] [] [] [] []] [|d q]]; vm_compute; reflexivity. Qed.
Lemma write_all_spec ps : forall w,
  w_out (write_all w ps) = w_out w ++
    (match filter nonempty ps with [] => [] | q :: _ => if (w_space w && negb (starts_tight q))%bool then [sp] else [] end)
    ++ rendered (filter nonempty ps).
Proof.
  induction ps as [|p ps IH]; intros w; [cbn; now rewrite app_nil_r|].
  unfold write_all. cbn [fold_left]. fold (write_all (fst (write w p)) ps).
  destruct p as [|c p].
  - cbn [filter nonempty write fst]. apply IH.
  - rewrite IH. rewrite write_eq by discriminate. cbn [w_out w_space]. cbn [filter nonempty].
    destruct (filter nonempty ps) as [|q qs] eqn:F.
    + cbn [rendered]. now rewrite !app_nil_r, <- ?app_assoc.
    + cbn [rendered]. rewrite <- !app_assoc. f_equal. f_equal.
      pose proof (strip_blank_app (c :: p)) as SB. set (st := strip_blank (c :: p)) in *. set (eb := ends_blank (c :: p)) in *.
      rewrite attaches_tight. destruct (starts_tight q); cbn [negb].
      * rewrite andb_false_r. reflexivity.
      * rewrite andb_true_r, SB. now rewrite <- app_assoc.
Qed.
Lemma strip_no_blanks p : no_blanks (strip_blank p) = no_blanks p.
Proof.
  rewrite (strip_blank_app p) at 2. unfold no_blanks. rewrite filter_app. destruct (ends_blank p); cbn; now rewrite app_nil_r.
Qed.
Lemma rendered_no_blanks ps : no_blanks (rendered ps) = no_blanks (concat ps).
Proof.
  induction ps as [|p r IH]; [reflexivity|]. cbn [concat]. unfold no_blanks in *. rewrite filter_app, <- IH. cbn [rendered].
  destruct r as [|q r]; [cbn; rewrite app_nil_r; apply strip_no_blanks|].
  rewrite filter_app. f_equal. destruct (attaches q); [apply strip_no_blanks|reflexivity].
Qed.
Lemma concat_nonempty ps : concat (filter nonempty ps) = concat ps.
Proof. induction ps as [|[|c p] r IH]; cbn; [reflexivity|exact IH|now rewrite IH]. Qed.
Lemma write_count w p : snd (write w p) = List.length p.
Proof.
  destruct p as [|c p]; [reflexivity|]. unfold write. cbn [snd].
  destruct (last_char (c :: p)) as [d|] eqn:E; [|lia].
  destruct (Ascii.eqb d sp); [|lia]. destruct (@exists_last _ (c :: p) ltac:(discriminate)) as (l & x & ->). rewrite removelast_last, app_length. reflexivity.
Qed.
