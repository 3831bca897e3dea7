From Coq Require Import Ascii String Permutation ZifyNat.
From Verif Require Import Base Strs.
From Verif.Decode Require Import Model Spec.
Open Scope list_scope.
Ltac Zify.zify_post_hook ::= Z.div_mod_to_equations.

(** ** White space *)

Lemma trim_left_blank w s : blank w -> trim_left (w ++ s) = trim_left s.
Proof.
  induction w as [|c w IH]; intros B; cbn; [reflexivity|]. rewrite (B c) by now left. apply IH. intros x I. apply B. now right.
Qed.
Lemma trim_left_tight s : (forall c r, s = c :: r -> is_space c = false) -> trim_left s = s.
Proof. destruct s as [|c s]; [reflexivity|]. intros H. cbn. now rewrite (H c s eq_refl). Qed.
Lemma blank_rev w : blank w -> blank (rev w).
Proof. intros B c I. apply B. now apply in_rev. Qed.
Lemma trim_left_all w : blank w -> trim_left w = [].
Proof. intros B. rewrite <- (app_nil_r w). now rewrite trim_left_blank. Qed.

Lemma trim_tight s : tight s -> trim s = s.
Proof.
  intros [L R]. unfold trim. rewrite (trim_left_tight s L). rewrite trim_left_tight; [apply rev_involutive|].
  intros c r E. apply (R c (rev r)). rewrite <- (rev_involutive s), E. cbn. reflexivity.
Qed.

Lemma trim_around a s b : blank a -> blank b -> s <> [] -> tight s -> trim (a ++ s ++ b) = s.
Proof.
  intros A B N [L R]. unfold trim. rewrite trim_left_blank by exact A.
  rewrite (trim_left_tight (s ++ b)).
  2:{ intros c r E. destruct s as [|x s]; [congruence|]. cbn in E. injection E as <- _. now apply (L x s). }
  rewrite rev_app_distr. rewrite trim_left_blank by now apply blank_rev.
  rewrite trim_left_tight; [apply rev_involutive|].
  intros c r E. apply (R c (rev r)). rewrite <- (rev_involutive s), E. reflexivity.
Qed.

Lemma trim_left_split s : exists w, s = w ++ trim_left s /\ blank w.
Proof.
  induction s as [|c s IH]; cbn; [exists []; split; [reflexivity|intros ? []]|].
  destruct (is_space c) eqn:E.
  - destruct IH as (w & Es & B). exists (c :: w). split; [cbn; now f_equal|]. intros x [<-|I]; auto.
  - exists []. split; [reflexivity|intros ? []].
Qed.
Lemma trim_left_first s c r : trim_left s = c :: r -> is_space c = false.
Proof. induction s as [|x s IH]; cbn; [discriminate|]. destruct (is_space x) eqn:E; [exact IH|]. intros H. now injection H as <- _. Qed.

Lemma trim_split s : exists a b, s = a ++ trim s ++ b /\ blank a /\ blank b.
Proof.
  destruct (trim_left_split s) as (a & Ea & Ba). destruct (trim_left_split (rev (trim_left s))) as (b & Eb & Bb).
  exists a, (rev b). split; [|split; [exact Ba | now apply blank_rev]].
  rewrite Ea at 1. f_equal. rewrite <- (rev_involutive (trim_left s)), Eb at 1. rewrite rev_app_distr. unfold trim. reflexivity.
Qed.

Lemma trim_is_tight s : tight (trim s).
Proof.
  split.
  - intros c r E. destruct (trim_left_split (rev (trim_left s))) as (b & Eb & Bb).
    assert (X : trim_left s = trim s ++ rev b).
    { rewrite <- (rev_involutive (trim_left s)), Eb at 1. rewrite rev_app_distr. reflexivity. }
    rewrite E in X. cbn in X. exact (trim_left_first s c _ X).
  - intros c r E. unfold trim in E. apply (f_equal (@rev _)) in E. rewrite rev_involutive, rev_app_distr in E. cbn in E.
    exact (trim_left_first _ c _ E).
Qed.

Lemma trim_same_iff s : trim s = s <-> tight s.
Proof. split; [intros <-; apply trim_is_tight | apply trim_tight]. Qed.

(** ** Digits *)

Lemma upto64 (P : nat -> bool) : forallb P (seq 0 64) = true -> forall n, n < 64 -> P n = true.
Proof. intros H n L. rewrite forallb_forall in H. apply H. apply in_seq. lia. Qed.

Definition four : list codec := [std; url; raw_std; raw_url].

Lemma value_digit k n : In k four -> n < 64 -> value k (digit k n) = Some n.
Proof.
  intros I L.
  assert (X : (match value k (digit k n) with Some m => m =? n | None => false end) = true).
  { revert n L. apply upto64. repeat (destruct I as [<-|I]; [vm_compute; reflexivity|]). destruct I. }
  destruct (value k (digit k n)); [|discriminate]. apply Nat.eqb_eq in X. now subst.
Qed.

Lemma value_other k k' n : In k four -> In k' four -> n < 64 -> value k (digit k' n) = None \/ value k (digit k' n) = Some n.
Proof.
  intros I J L.
  assert (X : (match value k (digit k' n) with Some m => m =? n | None => true end) = true).
  { revert n L. apply upto64.
    repeat (destruct I as [<-|I]; [repeat (destruct J as [<-|J]; [vm_compute; reflexivity|]); destruct J|]). destruct I. }
  destruct (value k (digit k' n)); [|now left]. apply Nat.eqb_eq in X. subst. now right.
Qed.

Lemma digit_chars k n : In k four -> n < 64 -> base64_char (digit k n) = true /\ Ascii.eqb (digit k n) pad_char = false /\ is_space (digit k n) = false.
Proof.
  intros I L.
  assert (X : (base64_char (digit k n) && negb (Ascii.eqb (digit k n) pad_char) && negb (is_space (digit k n)))%bool = true).
  { revert n L. apply upto64. repeat (destruct I as [<-|I]; [vm_compute; reflexivity|]). destruct I. }
  apply andb_true_iff in X as [X Z]. apply andb_true_iff in X as [X Y]. apply negb_true_iff in Y, Z. auto.
Qed.

Lemma value_pad k : In k four -> value k pad_char = None.
Proof. intros I. repeat (destruct I as [<-|I]; [vm_compute; reflexivity|]). destruct I. Qed.

Lemma byte_lt c : nat_of_ascii c < 256. Proof. apply nat_ascii_bounded. Qed.
Lemma bits_lt a b c : a < 256 -> b < 256 -> c < 256 ->
  bits1 a < 64 /\ bits2 a b < 64 /\ bits3 b c < 64 /\ bits4 c < 64.
Proof. intros. unfold bits1, bits2, bits3, bits4. lia. Qed.

Lemma byte1_bits x b : b < 256 -> byte1 (bits1 (nat_of_ascii x)) (bits2 (nat_of_ascii x) b) = x.
Proof.
  intros L. unfold byte1, bits1, bits2. rewrite <- (ascii_nat_embedding x) at 3. f_equal. pose proof (byte_lt x). lia.
Qed.
Lemma byte2_bits a y c : c < 256 -> byte2 (bits2 a (nat_of_ascii y)) (bits3 (nat_of_ascii y) c) = y.
Proof.
  intros L. unfold byte2, bits2, bits3. rewrite <- (ascii_nat_embedding y) at 3. f_equal. pose proof (byte_lt y). lia.
Qed.
Lemma byte3_bits b z : byte3 (bits3 b (nat_of_ascii z)) (bits4 (nat_of_ascii z)) = z.
Proof.
  unfold byte3, bits3, bits4. rewrite <- (ascii_nat_embedding z) at 3. f_equal. pose proof (byte_lt z). lia.
Qed.

(** induction by threes *)
Lemma by_threes (P : bytes -> Prop) : P [] -> (forall a, P [a]) -> (forall a b, P [a; b]) ->
  (forall a b c r, P r -> P (a :: b :: c :: r)) -> forall m, P m.
Proof.
  intros H0 H1 H2 H3. fix F 1. intros [|a [|b [|c r]]]; [exact H0|apply H1|apply H2|]. apply H3, F.
Qed.

Lemma not_pad k k' n : In k' four -> n < 64 -> is_pad k (digit k' n) = false.
Proof. intros I L. unfold is_pad. destruct (digit_chars k' n I L) as (_ & -> & _). apply andb_false_r. Qed.

Lemma decode_own k m : In k four -> decode k (encode k m) = Some m.
Proof.
  intros I. induction m as [|a|a b|a b c r IH] using by_threes.
  - reflexivity.
  - pose proof (byte_lt a) as La. destruct (bits_lt _ 0 0 La ltac:(lia) ltac:(lia)) as (B1 & B2 & _).
    cbn [encode]. unfold pads. destruct (padded k) eqn:P; cbn [repeat decode].
    + rewrite (value_digit k _ I B1), (value_digit k _ I B2). unfold is_pad. rewrite P, Ascii.eqb_refl. cbn [andb].
      now rewrite byte1_bits by lia.
    + rewrite P, (value_digit k _ I B1), (value_digit k _ I B2). now rewrite byte1_bits by lia.
  - pose proof (byte_lt a) as La. pose proof (byte_lt b) as Lb.
    destruct (bits_lt _ _ 0 La Lb ltac:(lia)) as (B1 & B2 & B3 & _).
    cbn [encode]. unfold pads. destruct (padded k) eqn:P; cbn [repeat decode].
    + rewrite (value_digit k _ I B1), (value_digit k _ I B2), (not_pad k k _ I B3), (value_digit k _ I B3).
      unfold is_pad. rewrite P, Ascii.eqb_refl. cbn [andb].
      now rewrite byte1_bits, byte2_bits by lia.
    + rewrite P, (value_digit k _ I B1), (value_digit k _ I B2), (value_digit k _ I B3). now rewrite byte1_bits, byte2_bits by lia.
  - pose proof (byte_lt a) as La. pose proof (byte_lt b) as Lb. pose proof (byte_lt c) as Lc.
    destruct (bits_lt _ _ _ La Lb Lc) as (B1 & B2 & B3 & B4).
    cbn [encode decode].
    rewrite (value_digit k _ I B1), (value_digit k _ I B2), (not_pad k k _ I B3), (value_digit k _ I B3),
      (not_pad k k _ I B4), (value_digit k _ I B4), IH.
    cbn [option_map app]. now rewrite byte1_bits, byte2_bits, byte3_bits by lia.
Qed.

Lemma decode_other k k' m r : In k four -> In k' four -> decode k (encode k' m) = Some r -> r = m.
Proof.
  intros I J. revert r. induction m as [|a|a b|a b c m IH] using by_threes; intros r H.
  - cbn in H. congruence.
  - pose proof (byte_lt a) as La. destruct (bits_lt _ 0 0 La ltac:(lia) ltac:(lia)) as (B1 & B2 & _).
    cbn [encode] in H. unfold pads in H.
    destruct (value_other k k' _ I J B1) as [V1|V1], (value_other k k' _ I J B2) as [V2|V2];
      destruct (padded k') eqn:P'; cbn [repeat decode] in H; rewrite V1, ?V2 in H;
      destruct (padded k) eqn:P; try discriminate; unfold is_pad in H; rewrite ?P, ?Ascii.eqb_refl in H; cbn [andb] in H;
      rewrite ?(value_pad k I) in H; try discriminate; injection H as <-; now rewrite byte1_bits by lia.
  - pose proof (byte_lt a) as La. pose proof (byte_lt b) as Lb.
    destruct (bits_lt _ _ 0 La Lb ltac:(lia)) as (B1 & B2 & B3 & _).
    cbn [encode] in H. unfold pads in H. pose proof (not_pad k k' _ J B3) as NP.
    destruct (value_other k k' _ I J B1) as [V1|V1], (value_other k k' _ I J B2) as [V2|V2], (value_other k k' _ I J B3) as [V3|V3];
      destruct (padded k') eqn:P'; cbn [repeat decode] in H; rewrite V1, ?V2, ?NP, ?V3 in H;
      destruct (padded k) eqn:P; try discriminate; unfold is_pad in H; rewrite ?P, ?Ascii.eqb_refl in H; cbn [andb] in H;
      rewrite ?(value_pad k I) in H; try discriminate; injection H as <-; now rewrite byte1_bits, byte2_bits by lia.
  - pose proof (byte_lt a) as La. pose proof (byte_lt b) as Lb. pose proof (byte_lt c) as Lc.
    destruct (bits_lt _ _ _ La Lb Lc) as (B1 & B2 & B3 & B4).
    cbn [encode decode] in H. rewrite (not_pad k k' _ J B3), (not_pad k k' _ J B4) in H.
    destruct (value_other k k' _ I J B1) as [V1|V1]; rewrite V1 in H; [discriminate|].
    destruct (value_other k k' _ I J B2) as [V2|V2]; rewrite V2 in H; [discriminate|].
    destruct (value_other k k' _ I J B3) as [V3|V3]; rewrite V3 in H; [discriminate|].
    destruct (value_other k k' _ I J B4) as [V4|V4]; rewrite V4 in H; [discriminate|].
    destruct (decode k (encode k' m)) as [r'|] eqn:D; [|discriminate]. cbn [option_map app] in H. injection H as <-.
    rewrite (IH r' eq_refl). now rewrite byte1_bits, byte2_bits, byte3_bits by lia.
Qed.

Lemma encode_chars k m c : In k four -> In c (encode k m) ->
  base64_char c = true /\ is_space c = false /\ (padded k = false -> Ascii.eqb c pad_char = false).
Proof.
  intros I. induction m as [|a|a b|a b d m IH] using by_threes; intros J.
  - destruct J.
  - pose proof (byte_lt a) as La. destruct (bits_lt _ 0 0 La ltac:(lia) ltac:(lia)) as (B1 & B2 & _).
    cbn [encode] in J. unfold pads in J.
    destruct J as [<-|[<-|J]]; [destruct (digit_chars k _ I B1) as (? & ? & ?); auto | destruct (digit_chars k _ I B2) as (? & ? & ?); auto|].
    destruct (padded k); [|destruct J]. destruct J as [<-|[<-|[]]]; repeat split; try reflexivity; discriminate.
  - pose proof (byte_lt a) as La. pose proof (byte_lt b) as Lb.
    destruct (bits_lt _ _ 0 La Lb ltac:(lia)) as (B1 & B2 & B3 & _).
    cbn [encode] in J. unfold pads in J.
    destruct J as [<-|[<-|[<-|J]]]; [destruct (digit_chars k _ I B1) as (? & ? & ?); auto | destruct (digit_chars k _ I B2) as (? & ? & ?); auto
      | destruct (digit_chars k _ I B3) as (? & ? & ?); auto|].
    destruct (padded k); [|destruct J]. destruct J as [<-|[]]; repeat split; try reflexivity; discriminate.
  - pose proof (byte_lt a) as La. pose proof (byte_lt b) as Lb. pose proof (byte_lt d) as Ld.
    destruct (bits_lt _ _ _ La Lb Ld) as (B1 & B2 & B3 & B4).
    cbn [encode] in J. destruct J as [<-|[<-|[<-|[<-|J]]]];
      [destruct (digit_chars k _ I B1) as (? & ? & ?); auto | destruct (digit_chars k _ I B2) as (? & ? & ?); auto
      | destruct (digit_chars k _ I B3) as (? & ? & ?); auto | destruct (digit_chars k _ I B4) as (? & ? & ?); auto | auto].
Qed.

Lemma encode_nonempty k m : m <> [] -> encode k m <> [].
Proof. destruct m as [|a [|b [|c r]]]; [congruence|..]; cbn; discriminate. Qed.

Lemma first_decoded_spec ks s m : (forall k r, In k ks -> decode k s = Some r -> r = m) ->
  (exists k, In k ks /\ decode k s = Some m) -> first_decoded ks s = Some m.
Proof.
  induction ks as [|k ks IH]; intros U (k0 & I & D); [destruct I|]. cbn [first_decoded].
  destruct (decode k s) as [r|] eqn:E; [f_equal; apply (U k r); [now left | exact E]|].
  apply IH.
  - intros k1 r1 I1. apply U. now right.
  - exists k0. split; [|exact D]. destruct I as [->|I]; [congruence|exact I].
Qed.

Lemma first_decoded_in ks s m : first_decoded ks s = Some m -> exists k, In k ks /\ decode k s = Some m.
Proof.
  induction ks as [|k ks IH]; cbn [first_decoded]; [discriminate|]. destruct (decode k s) as [r|] eqn:E.
  - intros H. injection H as ->. exists k. split; [now left|exact E].
  - intros H. destruct (IH H) as (k' & I & D). exists k'. split; [now right|exact D].
Qed.

Lemma first_decoded_none ks s : first_decoded ks s = None <-> forall k, In k ks -> decode k s = None.
Proof.
  induction ks as [|k ks IH]; cbn [first_decoded].
  - split; [intros _ k []|reflexivity].
  - destruct (decode k s) eqn:E.
    + split; [discriminate|]. intros H. rewrite (H k) in E by now left. discriminate.
    + rewrite IH. split.
      * intros H x [<-|I]; auto.
      * intros H x I. apply H. now right.
Qed.

(** decoding makes shorter *)
Lemma decode_shorter k s : forall r, s <> [] -> decode k s = Some r -> List.length r < List.length s.
Proof.
  enough (X : forall n s r, List.length s <= n -> s <> [] -> decode k s = Some r -> List.length r < List.length s) by (intros r; now apply (X (List.length s))).
  clear s. induction n as [|n IH]; intros s r L N D; [destruct s; [congruence|cbn in L; lia]|].
  destruct s as [|x [|y [|z [|w s]]]]; [congruence|discriminate| | |].
  - cbn [decode] in D. destruct (padded k); [discriminate|]. destruct (value k x), (value k y); try discriminate. injection D as <-. cbn. lia.
  - cbn [decode] in D. destruct (padded k); [discriminate|]. destruct (value k x), (value k y), (value k z); try discriminate. injection D as <-. cbn. lia.
  - cbn [decode] in D. destruct (value k x), (value k y); try discriminate.
    destruct (is_pad k z).
    { destruct (_ && _)%bool; [|discriminate]. injection D as <-. cbn. lia. }
    destruct (value k z); [|discriminate]. destruct (is_pad k w).
    { destruct s; [|discriminate]. injection D as <-. cbn. lia. }
    destruct (value k w); [|discriminate]. destruct (decode k s) as [r'|] eqn:E; [|discriminate]. injection D as <-.
    cbn [List.length app] in *. destruct s as [|c s]; [cbn in E; injection E as <-; cbn; lia|].
    specialize (IH (c :: s) r' ltac:(cbn in *; lia) ltac:(discriminate) E). lia.
Qed.

(** ** Types *)

Lemma scan_exact all t : In t all -> forall a b, fst (fst (scan all t a b)) = Some t.
Proof.
  induction all as [|d all IH]; intros I a b; [destruct I|]. cbn [scan]. destruct (beq d t) eqn:E.
  - apply beq_eq in E. cbn. now subst.
  - destruct I as [->|I]; [rewrite beq_refl in E; discriminate|].
    destruct (beq (short d) t); [now apply IH|]. destruct (contains _ _); now apply IH.
Qed.

Definition by_short (t : bytes) (d : bytes) : bool := beq (short d) t.
Definition by_part (t : bytes) (d : bytes) : bool := (negb (beq (short d) t) && contains (lower d) (lower t))%bool.

Lemma scan_rest all t : ~ In t all -> forall a b,
  scan all t a b = (None, a ++ filter (by_short t) all, b ++ filter (by_part t) all).
Proof.
  induction all as [|d all IH]; intros N a b; cbn [scan filter].
  - now rewrite !app_nil_r.
  - destruct (beq d t) eqn:E.
    + exfalso. apply beq_eq in E. apply N. now left.
    + unfold by_short at 1, by_part at 1. assert (N' : ~ In t all) by (intros I; apply N; now right).
      destruct (beq (short d) t); cbn [negb andb].
      * rewrite (IH N'), <- app_assoc. reflexivity.
      * destruct (contains (lower d) (lower t)); rewrite (IH N'), ?(app_assoc b [d]) by fail; [|reflexivity].
        now rewrite <- app_assoc.
Qed.

Lemma contains_spec s t : contains s t = true <-> exists a b, s = a ++ t ++ b.
Proof.
  induction s as [|c s IH]; cbn [contains]; rewrite orb_true_iff.
  - split.
    + intros [H|H]; [|discriminate]. apply has_prefix_spec in H as [r E]. exists [], r. exact E.
    + intros (a & b & E). left. apply has_prefix_spec. destruct a; [|discriminate]. now exists b.
  - rewrite IH. split.
    + intros [H|(a & b & E)].
      * apply has_prefix_spec in H as [r E]. exists [], r. exact E.
      * exists (c :: a), b. cbn. now rewrite E.
    + intros (a & b & E). destruct a as [|x a].
      * left. apply has_prefix_spec. now exists b.
      * right. cbn in E. injection E as -> E. now exists a, b.
Qed.

Lemma lower_app a b : lower (a ++ b) = lower a ++ lower b.
Proof. apply map_app. Qed.

Lemma short_suffix d : exists p, d = p ++ short d.
Proof.
  unfold short. pose proof (split_on_nonempty dot d) as N.
  destruct (exists_last N) as (l & x & E). rewrite E, last_last.
  rewrite <- (join_split dot d), E. destruct l as [|y l]; [now exists []|].
  exists (join_with dot (y :: l) ++ [dot]).
  rewrite <- app_assoc. cbn [app].
  clear. revert y. induction l as [|z l IH]; intros y; [reflexivity|].
  transitivity (y ++ dot :: join_with dot (z :: l ++ [x])); [reflexivity|]. rewrite (IH z).
  transitivity ((y ++ dot :: join_with dot (z :: l)) ++ dot :: x); [now rewrite <- app_assoc | reflexivity].
Qed.

(** ** fmt *)

Section Fmt.
  Variable format : bytes -> option bytes.
  Variable fs0 : files.

  Definition job_ok (fs : files) (j : job) : Prop :=
    let c0 := fs0 (j_file j) in
    let c := fs (j_file j) in
    match j_state j with
    | Start => c = c0
    | Stated n => n = List.length c0 /\ c = c0
    | HasRead n o => n = List.length c0 /\ o = c0 /\ c = c0
    | Wrote n len => n = List.length c0 /\ exists t, format c0 = Some t /\ len = List.length t /\ c = t ++ skipn len c0
    | Done => c = formatted format c0
    end.

  Lemma step_ok fs j : job_ok fs j -> job_ok (fst (step1 format fs j)) (snd (step1 format fs j)) /\
    j_file (snd (step1 format fs j)) = j_file j /\ forall f, f <> j_file j -> fst (step1 format fs j) f = fs f.
  Proof.
    unfold job_ok, step1. destruct j as [f s]. cbn [j_file j_state]. destruct s as [|n|n o|n len|].
    - intros E. cbn. rewrite E. auto.
    - intros (-> & E). cbn. rewrite E. auto.
    - intros (-> & -> & E). destruct (format (fs0 f)) as [t|] eqn:F; cbn [fst snd j_file j_state].
      + repeat split; auto.
        * exists t. unfold upd. rewrite Nat.eqb_refl. now rewrite E.
        * intros g N. unfold upd. destruct (Nat.eqb_spec g f); congruence.
      + repeat split; auto. unfold formatted. now rewrite F.
    - intros (-> & t & F & -> & E). cbn [fst snd j_file j_state]. unfold formatted. rewrite F.
      destruct (Nat.ltb_spec (List.length t) (List.length (fs0 f))) as [L|L].
      + repeat split; auto.
        * unfold upd. rewrite Nat.eqb_refl, E. rewrite firstn_app, firstn_all, Nat.sub_diag. cbn. apply app_nil_r.
        * intros g N. unfold upd. destruct (Nat.eqb_spec g f); congruence.
      + repeat split; auto. rewrite E, skipn_all2 by lia. apply app_nil_r.
    - intros E. cbn. auto.
  Qed.

  Lemma split_nth {A} (l : list A) i x : nth_error l i = Some x -> l = firstn i l ++ x :: skipn (S i) l.
  Proof.
    revert i. induction l as [|y l IH]; intros [|i] E; cbn in *; try discriminate.
    - congruence.
    - f_equal. now apply IH.
  Qed.

  Lemma run_ok schedule : forall fs jobs, NoDup (map j_file jobs) -> (forall j, In j jobs -> job_ok fs j) ->
    (forall f, ~ In f (map j_file jobs) -> fs f = fs0 f) ->
    let '(fs', jobs') := run format schedule fs jobs in
    map j_file jobs' = map j_file jobs /\ (forall j, In j jobs' -> job_ok fs' j) /\
    (forall f, ~ In f (map j_file jobs) -> fs' f = fs0 f).
  Proof.
    induction schedule as [|i r IH]; intros fs jobs N H O; cbn [run]; [auto|].
    destruct (nth_error jobs i) as [j|] eqn:E; [|now apply IH].
    pose proof (split_nth jobs i j E) as S. set (a := firstn i jobs) in *. set (b := skipn (Datatypes.S i) jobs) in *.
    destruct (step_ok fs j (H j (nth_error_In _ _ E))) as (S1 & S2 & S3).
    destruct (step1 format fs j) as [fs' j'] eqn:St. cbn [fst snd] in *.
    assert (M : map j_file (a ++ j' :: b) = map j_file jobs).
    { rewrite S, !map_app. cbn. now rewrite S2. }
    specialize (IH fs' (a ++ j' :: b)). rewrite M in IH. apply IH; [exact N| |].
    - intros x I. apply in_app_or in I as [I|[<-|I]]; [|exact S1|].
      + assert (X : In x jobs) by (rewrite S; apply in_or_app; now left).
        assert (D : j_file x <> j_file j).
        { intros Ex. rewrite S, map_app in N. cbn in N. apply NoDup_remove_2 in N. apply N. apply in_or_app. left. rewrite <- Ex. now apply in_map. }
        pose proof (H x X) as Hx. unfold job_ok in *. now rewrite (S3 (j_file x) D).
      + assert (X : In x jobs) by (rewrite S; apply in_or_app; right; now right).
        assert (D : j_file x <> j_file j).
        { intros Ex. rewrite S, map_app in N. cbn in N. apply NoDup_remove_2 in N. apply N. apply in_or_app. right. rewrite <- Ex. now apply in_map. }
        pose proof (H x X) as Hx. unfold job_ok in *. now rewrite (S3 (j_file x) D).
    - intros f Nf. rewrite S3; [now apply O|]. intros ->. apply Nf. apply in_map. eapply nth_error_In, E.
  Qed.
End Fmt.

(** ** Reading *)

Lemma raw_digits k s : padded k = false -> forall r, decode k s = Some r -> forall c, In c s -> value k c <> None.
Proof.
  intros P.
  enough (X : forall n s r, List.length s <= n -> decode k s = Some r -> forall c, In c s -> value k c <> None)
    by (intros r; now apply (X (List.length s))).
  clear s. induction n as [|n IH]; intros s r L D c I; [destruct s; [destruct I|cbn in L; lia]|].
  destruct s as [|x [|y [|z [|w s]]]]; [destruct I|discriminate| | |].
  - cbn [decode] in D. rewrite P in D. destruct (value k x) eqn:X, (value k y) eqn:Y; try discriminate.
    destruct I as [<-|[<-|[]]]; congruence.
  - cbn [decode] in D. rewrite P in D. destruct (value k x) eqn:X, (value k y) eqn:Y, (value k z) eqn:Z; try discriminate.
    destruct I as [<-|[<-|[<-|[]]]]; congruence.
  - cbn [decode] in D. destruct (value k x) eqn:X, (value k y) eqn:Y; try discriminate.
    unfold is_pad in D. rewrite P in D. cbn [andb] in D. destruct (value k z) eqn:Z; [|discriminate].
    destruct (value k w) eqn:W; [|discriminate]. destruct (decode k s) as [r'|] eqn:E; [|discriminate].
    destruct I as [<-|[<-|[<-|[<-|I]]]]; try congruence. eapply (IH s); [cbn in L; lia | exact E | exact I].
Qed.

Lemma raw_no_pad k s : In k four -> padded k = false -> has_suffix s [pad_char] = true -> decode k s = None.
Proof.
  intros I P H. apply has_suffix_spec in H as [r ->]. destruct (decode k (r ++ [pad_char])) as [d|] eqn:D; [|reflexivity].
  exfalso. apply (raw_digits k _ P d D pad_char); [apply in_or_app; right; now left | now apply value_pad].
Qed.

Lemma first_four s : first_decoded (if has_suffix s [pad_char] then [std; url] else [std; url; raw_std; raw_url]) s = first_decoded four s.
Proof.
  destruct (has_suffix s [pad_char]) eqn:H; [|reflexivity]. unfold four. cbn [first_decoded].
  rewrite (raw_no_pad raw_std s), (raw_no_pad raw_url s); auto; try reflexivity; unfold four; cbn; auto.
Qed.

Lemma encode_tight k m : In k four -> tight (encode k m).
Proof.
  intros I. split.
  - intros c r E. apply (encode_chars k m c I). rewrite E. now left.
  - intros c r E. apply (encode_chars k m c I). rewrite E. apply in_or_app. right. now left.
Qed.

Lemma read_unfold s : read s = match trim s with
  | [] => None
  | _ => if looks_like_base64 (trim s) then match first_decoded four (trim s) with Some d => Some d | None => Some (trim s) end
         else Some (trim s) end.
Proof. unfold read. rewrite <- first_four. reflexivity. Qed.

Lemma read_encoded k m a b : In k four -> m <> [] -> blank a -> blank b -> read (a ++ encode k m ++ b) = Some m.
Proof.
  intros I N A B. rewrite read_unfold. pose proof (encode_nonempty k m N) as NE.
  rewrite (trim_around a _ b A B NE (encode_tight k m I)).
  destruct (encode k m) as [|c r] eqn:E; [congruence|]. rewrite <- E in *.
  replace (looks_like_base64 (encode k m)) with true.
  2:{ symmetry. apply forallb_forall. intros x J. now apply (encode_chars k m x I). }
  rewrite (first_decoded_spec four (encode k m) m); [reflexivity| |].
  - intros k' q J D. exact (decode_other k' k m q J I D).
  - exists k. split; [exact I | now apply decode_own].
Qed.

Lemma encodings_four k : In k encodings -> In k [std; url; raw_std; raw_url].
Proof.
  assert (E : encodings = [std; raw_std; url; raw_url]) by (vm_compute; reflexivity).
  rewrite E. cbn. tauto.
Qed.

Lemma space_in c : is_space c = true <-> In c [" "; "009"; "010"; "011"; "012"; "013"]%char.
Proof. destruct c as [[] [] [] [] [] [] [] []]; vm_compute; (split; [try discriminate; tauto|intuition congruence]). Qed.
Definition all_chars : bytes := map ascii_of_nat (seq 0 256).
Lemma in_all_chars c : In c all_chars.
Proof. apply in_map_iff. exists (nat_of_ascii c). split; [apply ascii_nat_embedding|]. apply in_seq. pose proof (nat_ascii_bounded c). lia. Qed.
Definition same_letterb (c d : ascii) : bool :=
  (Ascii.eqb c d || existsb (fun '(x, y) => (Ascii.eqb c x && Ascii.eqb d y) || (Ascii.eqb c y && Ascii.eqb d x)) (combine upper_case lower_case))%bool.
Lemma same_letterb_spec c d : same_letterb c d = true <-> same_letter c d.
Proof.
  unfold same_letterb, same_letter. rewrite orb_true_iff, Ascii.eqb_eq, existsb_exists. split.
  - intros [H|((x & y) & I & H)]; [auto|]. apply orb_true_iff in H as [H|H]; apply andb_true_iff in H as [H1 H2]; apply Ascii.eqb_eq in H1; apply Ascii.eqb_eq in H2; subst; auto.
  - intros [H|[H|H]]; [auto|right..]; [exists (c, d)|exists (d, c)]; (split; [exact H|]); rewrite !Ascii.eqb_refl; cbn; [reflexivity|apply orb_true_r].
Qed.
Lemma same_letter_lower c d : lower [c] = lower [d] <-> same_letter c d.
Proof.
  rewrite <- same_letterb_spec, <- beq_eq. apply eq_iff_eq_true.
  assert (G : forallb (fun c => forallb (fun d => Bool.eqb (beq (lower [c]) (lower [d])) (same_letterb c d)) all_chars) all_chars = true) by (vm_compute; reflexivity).
  rewrite forallb_forall in G. specialize (G c (in_all_chars c)). rewrite forallb_forall in G. specialize (G d (in_all_chars d)). now apply Bool.eqb_prop in G.
Qed.
Lemma lower_cons c s : exists d, lower [c] = [d] /\ lower (c :: s) = d :: lower s.
Proof. unfold lower. cbn [map]. eexists. split; reflexivity. Qed.
Lemma same_letters s : forall t, lower s = lower t <-> Forall2 same_letter s t.
Proof.
  induction s as [|c s IH]; intros [|d t]; try (split; [discriminate|inversion 1]); [split; constructor|].
  destruct (lower_cons c s) as (x & X1 & X2). destruct (lower_cons d t) as (y & Y1 & Y2). rewrite X2, Y2. pose proof (same_letter_lower c d) as L. rewrite X1, Y1 in L. split.
  - intro E. injection E as E1 E2. constructor; [apply L; now rewrite E1|now apply IH].
  - intro F. inversion F as [|? ? ? ? H F']; subst. apply L in H. apply IH in F'. now rewrite F', (f_equal (hd "0"%char) H : x = y).
Qed.
Lemma lower_split s : forall a b, lower s = a ++ b -> exists x y, s = x ++ y /\ lower x = a /\ lower y = b.
Proof.
  induction s as [|c s IH]; intros a b E.
  - destruct a, b; try discriminate. now exists [], [].
  - destruct a as [|d a].
    + exists [], (c :: s). auto.
    + destruct (lower_cons c s) as (z & Z1 & Z2). rewrite Z2 in E. cbn [app] in E. injection E as E1 E2. destruct (IH a b E2) as (x & y & -> & <- & <-). exists (c :: x), y. split; [reflexivity|]. split; [|reflexivity].
      destruct (lower_cons c x) as (z' & Z3 & ->). rewrite Z1 in Z3. injection Z3 as <-. now rewrite E1.
Qed.

Lemma split_app c p t : split_on c (p ++ c :: t) = split_on c p ++ split_on c t.
Proof.
  induction p as [|x p IH]; cbn [app split_on]; [now rewrite Ascii.eqb_refl|]. rewrite IH. destruct (Ascii.eqb x c); [reflexivity|].
  pose proof (split_on_nonempty c p) as N. now destruct (split_on c p).
Qed.
Lemma join_snoc c ws w : ws <> [] -> join_with c (ws ++ [w]) = join_with c ws ++ c :: w.
Proof.
  induction ws as [|x ws IH]; intros N; [easy|]. destruct ws as [|y ws]; [reflexivity|]. cbn [app join_with] in *. rewrite IH by discriminate. now rewrite <- app_assoc.
Qed.

Lemma decode_length k s : forall m, decode k s = Some m -> List.length s = List.length (encode k m).
Proof.
  remember (List.length s) as n eqn:En. revert s En. induction n as [n IH] using lt_wf_ind. intros s -> m H.
  destruct s as [|x [|y [|z [|w r]]]].
  - injection H as <-. reflexivity.
  - discriminate.
  - cbn [decode] in H. destruct (padded k) eqn:P; [discriminate|]. destruct (value k x), (value k y); try discriminate. injection H as <-.
    cbn [encode]. unfold pads. now rewrite P.
  - cbn [decode] in H. destruct (padded k) eqn:P; [discriminate|]. destruct (value k x), (value k y), (value k z); try discriminate. injection H as <-.
    cbn [encode]. unfold pads. now rewrite P.
  - cbn [decode] in H. destruct (value k x) as [a|], (value k y) as [b|]; try discriminate. unfold is_pad in H. destruct (padded k) eqn:P; cbn [andb] in H.
    + destruct (Ascii.eqb z pad_char).
      * destruct (Ascii.eqb w pad_char); [|discriminate]. destruct r; [|discriminate]. injection H as <-. cbn [encode]. unfold pads. now rewrite P.
      * destruct (value k z) as [c|]; [|discriminate]. destruct (Ascii.eqb w pad_char).
        -- destruct r; [|discriminate]. injection H as <-. cbn [encode]. unfold pads. now rewrite P.
        -- destruct (value k w) as [d|]; [|discriminate]. destruct (decode k r) as [m'|] eqn:D; [|discriminate]. injection H as <-.
           cbn [encode List.length]. do 4 f_equal. apply (IH (List.length r) ltac:(cbn [List.length]; lia) r eq_refl _ D).
    + destruct (value k z) as [c|]; [|discriminate]. destruct (value k w) as [d|]; [|discriminate]. destruct (decode k r) as [m'|] eqn:D; [|discriminate]. injection H as <-.
      cbn [encode List.length]. do 4 f_equal. apply (IH (List.length r) ltac:(cbn [List.length]; lia) r eq_refl _ D).
Qed.
