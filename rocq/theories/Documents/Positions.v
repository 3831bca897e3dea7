(** Proofs about positions in texts. *)
From Coq Require Import Ascii NArith ZifyN Wf_nat.
From Verif Require Import Base.
From Verif.Print Require Import Model Literals.
From Verif.Documents Require Import Model Spec.

Ltac Zify.zify_post_hook ::= Z.div_mod_to_equations.

Lemma decode_of_encode r s : scalar r -> decode_rune (encode_rune r ++ s) = Some (r, length (encode_rune r)).
Proof.
  intros [B NS]. unfold encode_rune.
  destruct (N.ltb_spec r 128).
  { cbn [app decode_rune length]. rewrite code_chr by lia.
    destruct (N.ltb_spec r 128); [reflexivity|lia]. }
  destruct (N.ltb_spec r 2048).
  { cbn [app decode_rune length]. unfold cont, in_range. rewrite !code_chr by lia.
    destruct (N.ltb_spec (192 + r / 64) 128); [lia|].
    replace ((194 <=? 192 + r / 64) && (192 + r / 64 <=? 223))%N%bool with true
      by (symmetry; apply andb_true_iff; rewrite !N.leb_le; lia).
    replace ((128 <=? 128 + r mod 64) && (128 + r mod 64 <=? 191))%N%bool with true
      by (symmetry; apply andb_true_iff; rewrite !N.leb_le; lia).
    do 2 f_equal. lia. }
  replace ((55296 <=? r) && (r <=? 57343) || (1114111 <? r))%N%bool with false.
  2:{ symmetry. apply orb_false_iff. split; [|apply N.ltb_ge; lia]. apply andb_false_iff.
      rewrite !N.leb_gt. lia. }
  destruct (N.ltb_spec r 65536).
  { cbn [app decode_rune length]. unfold second3, cont, in_range. rewrite !code_chr by lia.
    destruct (N.ltb_spec (224 + r / 4096) 128); [lia|].
    replace ((194 <=? 224 + r / 4096) && (224 + r / 4096 <=? 223))%N%bool with false
      by (symmetry; apply andb_false_iff; rewrite !N.leb_gt; lia).
    replace ((224 <=? 224 + r / 4096) && (224 + r / 4096 <=? 239))%N%bool with true
      by (symmetry; apply andb_true_iff; rewrite !N.leb_le; lia).
    match goal with |- context [if (?a && ?b)%bool then Some _ else _] =>
      replace a with true; [replace b with true by (symmetry; apply andb_true_iff; rewrite !N.leb_le; lia)|] end.
    2:{ symmetry. destruct (N.eqb_spec (224 + r / 4096) 224); [|destruct (N.eqb_spec (224 + r / 4096) 237)];
        apply andb_true_iff; rewrite !N.leb_le; lia. }
    cbn [andb]. do 2 f_equal. lia. }
  cbn [app decode_rune length]. unfold second4, cont, in_range. rewrite !code_chr by lia.
  destruct (N.ltb_spec (240 + r / 262144) 128); [lia|].
  replace ((194 <=? 240 + r / 262144) && (240 + r / 262144 <=? 223))%N%bool with false
    by (symmetry; apply andb_false_iff; rewrite !N.leb_gt; lia).
  replace ((224 <=? 240 + r / 262144) && (240 + r / 262144 <=? 239))%N%bool with false
    by (symmetry; apply andb_false_iff; rewrite !N.leb_gt; lia).
  replace ((240 <=? 240 + r / 262144) && (240 + r / 262144 <=? 244))%N%bool with true
    by (symmetry; apply andb_true_iff; rewrite !N.leb_le; lia).
  match goal with |- context [if (?a && ?b && ?c)%bool then Some _ else _] =>
    replace a with true; [replace b with true by (symmetry; apply andb_true_iff; rewrite !N.leb_le; lia);
      replace c with true by (symmetry; apply andb_true_iff; rewrite !N.leb_le; lia)|] end.
  2:{ symmetry. destruct (N.eqb_spec (240 + r / 262144) 240); [|destruct (N.eqb_spec (240 + r / 262144) 244)];
      apply andb_true_iff; rewrite !N.leb_le; lia. }
  cbn [andb]. do 2 f_equal. lia.
Qed.

Lemma decode_scalar s r n : decode_rune s = Some (r, n) -> (r =? rune_error)%N && (n =? 1) = false -> scalar r.
Proof.
  intros E NE. split; [now apply (decode_bound s r n)|]. intros S.
  destruct (decode_encode s r n E NE) as (EN & Hn & _).
  unfold encode_rune in EN.
  destruct (N.ltb_spec r 128); [lia|]. destruct (N.ltb_spec r 2048); [lia|].
  replace ((55296 <=? r) && (r <=? 57343) || (1114111 <? r))%N%bool with true in EN
    by (symmetry; apply orb_true_iff; left; apply andb_true_iff; rewrite !N.leb_le; lia).
  destruct s as [|c0 [|c1 [|c2 s]]]; try (destruct n as [|[|[|n]]]; cbn in EN; discriminate).
  destruct n as [|[|[|n]]]; try (cbn in EN; discriminate). injection EN as <- <- <- _.
  vm_compute in E. injection E as <- _. lia.
Qed.

Lemma decode_append s r n : decode_rune s = Some (r, n) -> (r =? rune_error)%N && (n =? 1) = false ->
  exists rest, s = encode_rune r ++ rest /\ n = length (encode_rune r) /\ 1 <= n.
Proof.
  intros E NE. destruct (decode_encode s r n E NE) as (EN & Hn & _).
  exists (skipn n s). rewrite EN, firstn_skipn. split; [reflexivity|].
  rewrite firstn_length, Nat.min_l by apply Hn. split; [reflexivity|apply Hn].
Qed.

Lemma encode_good r : scalar r -> (r =? rune_error)%N && (length (encode_rune r) =? 1) = false.
Proof.
  intros _. destruct (N.eqb_spec r rune_error) as [->|]; reflexivity.
Qed.

Lemma column_skip k c t rest : length t = k -> column k c (t ++ rest) = option_map (Nat.add k) (column 0 c rest).
Proof.
  revert t; induction k as [|k IH]; intros [|x t] H; cbn [length] in H; try discriminate; cbn [app].
  - destruct (column 0 c rest); reflexivity.
  - change (column (S k) c (x :: t ++ rest)) with (option_map S (column k c (t ++ rest))).
    rewrite IH by (now injection H). destruct (column 0 c rest); reflexivity.
Qed.

(** one character of a line *)
Lemma column_char c r rest : scalar r -> r <> 10%N ->
  column 0 (S c) (encode_rune r ++ rest) =
  if (r <? 65536)%N then option_map (Nat.add (length (encode_rune r))) (column 0 c rest)
  else match c with 0 => Some 0 | S c' => option_map (Nat.add (length (encode_rune r))) (column 0 c' rest) end.
Proof.
  intros S N10. pose proof (decode_of_encode r rest S) as D. pose proof (encode_good r S) as G.
  destruct (encode_rune r) as [|x e] eqn:EN; [now apply encode_nonempty in EN|].
  cbn [app] in D |- *. cbn [column]. rewrite D, G.
  destruct (N.eqb_spec r 10); [contradiction|].
  replace (length (x :: e) - 1) with (length e) by (cbn [length]; lia).
  rewrite !(column_skip (length e)) by reflexivity.
  destruct (r <? 65536)%N; [|destruct c as [|c]; [reflexivity|rewrite (column_skip (length e)) by reflexivity]];
    cbn [length]; (destruct (column 0 c rest); reflexivity).
Qed.

Lemma column_some c t k : column 0 (S c) t = Some k ->
  exists r rest, t = encode_rune r ++ rest /\ scalar r /\ r <> 10%N.
Proof.
  destruct t as [|x t]; [discriminate|]. cbn [column].
  destruct (decode_rune (x :: t)) as [[r n]|] eqn:D; [|discriminate].
  destruct (N.eqb_spec r 10); [discriminate|].
  destruct ((r =? rune_error)%N && (n =? 1)) eqn:G; [discriminate|]. intros _.
  destruct (decode_append _ _ _ D G) as (rest & E & _). exists r, rest.
  split; [exact E|]. split; [|assumption]. now apply (decode_scalar _ _ _ D).
Qed.

Definition here (t : text) (c k : nat) : Prop := exists line after, t = line ++ after /\ k = length line /\ chars line c.
Definition within (t : text) (c k : nat) : Prop :=
  exists c' r line after, c = S c' /\ scalar r /\ (65536 <= r)%N /\ t = line ++ encode_rune r ++ after /\
    k = length line /\ chars line c'.

Lemma column_fwd c : forall t k, column 0 c t = Some k -> here t c k \/ within t c k.
Proof.
  induction c as [c IH] using lt_wf_ind. intros t k H. destruct c as [|c].
  - assert (k = 0) as -> by (destruct t; injection H as <-; reflexivity).
    left. exists [], t. repeat split. constructor.
  - destruct (column_some _ _ _ H) as (r & rest & -> & Sc & N10). rewrite column_char in H by assumption.
    destruct (N.ltb_spec r 65536) as [L|L].
    + destruct (column 0 c rest) as [j|] eqn:E; [|discriminate]. injection H as <-.
      destruct (IH c (Nat.lt_succ_diag_r c) _ _ E) as [(line & after & -> & -> & C)|(c' & r' & line & after & -> & S' & L' & -> & -> & C)].
      * left. exists (encode_rune r ++ line), after. rewrite app_assoc, app_length. repeat split.
        now apply chars_one.
      * right. exists (S c'), r', (encode_rune r ++ line), after. rewrite <- app_assoc, app_length.
        repeat (split; [reflexivity||assumption|]). now apply chars_one.
    + destruct c as [|c].
      * injection H as <-. right. exists 0, r, [], rest. repeat (split; [reflexivity||assumption|]). constructor.
      * destruct (column 0 c rest) as [j|] eqn:E; [|discriminate]. injection H as <-.
        destruct (IH c (Nat.lt_lt_succ_r _ _ (Nat.lt_succ_diag_r c)) _ _ E) as [(line & after & -> & -> & C)|(c' & r' & line & after & -> & S' & L' & -> & -> & C)].
        -- left. exists (encode_rune r ++ line), after. rewrite app_assoc, app_length. repeat split.
           now apply chars_two.
        -- right. exists (S (S c')), r', (encode_rune r ++ line), after. rewrite <- app_assoc, app_length.
           repeat (split; [reflexivity||assumption|]). now apply chars_two.
Qed.

Lemma column_line line c : chars line c -> forall d rest,
  column 0 (c + d) (line ++ rest) = option_map (Nat.add (length line)) (column 0 d rest).
Proof.
  induction 1 as [|r s n Sc N10 L C IH|r s n Sc L C IH]; intros d rest.
  - cbn [app length Nat.add]. destruct (column 0 d rest); reflexivity.
  - cbn [Nat.add]. rewrite <- app_assoc, column_char, IH by assumption.
    apply N.ltb_lt in L. rewrite L, app_length. destruct (column 0 d rest); [|reflexivity]. cbn. f_equal. lia.
  - cbn [Nat.add]. rewrite <- app_assoc, column_char, IH by (assumption||lia).
    destruct (N.ltb_spec r 65536); [lia|]. rewrite app_length. destruct (column 0 d rest); [|reflexivity]. cbn. f_equal. lia.
Qed.

Lemma column_spec c t k : column 0 c t = Some k <-> here t c k \/ within t c k.
Proof.
  split; [apply column_fwd|]. intros [(line & after & -> & -> & C)|(c' & r' & line & after & -> & S' & L' & -> & -> & C)].
  - pose proof (column_line _ _ C 0 after) as H. rewrite Nat.add_0_r in H. rewrite H.
    destruct after; cbn; f_equal; lia.
  - pose proof (column_line _ _ C 1 (encode_rune r' ++ after)) as H. rewrite Nat.add_comm in H. cbn [Nat.add] in H. rewrite H.
    rewrite column_char by (assumption||lia). destruct (N.ltb_spec r' 65536); [lia|]. cbn. f_equal. lia.
Qed.

(** ** lines *)
Lemma lines_app a b : lines_before (a ++ b) = lines_before a + lines_before b.
Proof. unfold lines_before. now rewrite filter_app, app_length. Qed.
Lemma lines_cons x t : lines_before (x :: t) = (if Ascii.eqb x newline then 1 else 0) + lines_before t.
Proof.
  unfold lines_before. cbn [filter]. rewrite Ascii.eqb_sym. destruct (Ascii.eqb x newline); reflexivity.
Qed.

Lemma whole_zero before : whole_lines before 0 <-> before = [].
Proof.
  split; [|intros ->; split; [reflexivity|now left]].
  intros [L [->|(b & ->)]]; [reflexivity|]. rewrite lines_app in L. cbn in L. lia.
Qed.
Lemma whole_cons x before l : whole_lines (x :: before) (S l) <->
  (if Ascii.eqb x newline then whole_lines before l else whole_lines before (S l)).
Proof.
  unfold whole_lines. rewrite lines_cons. destruct (Ascii.eqb_spec x newline) as [->|NE].
  - split; intros [L E]; (split; [lia|]).
    + destruct E as [E|(b & E)]; [discriminate|]. destruct b as [|y b]; injection E as E; [now left|]. subst. right. now exists b.
    + destruct E as [->|(b & ->)]; right; [now exists []|now exists (newline :: b)].
  - split; intros [L E]; (split; [lia|]).
    + destruct E as [E|(b & E)]; [discriminate|]. destruct b as [|y b]; injection E as E; [contradiction|]. subst. right. now exists b.
    + destruct E as [->|(b & ->)]; [cbn in L; lia|]. right. now exists (x :: b).
Qed.
Lemma whole_S before l : whole_lines before (S l) -> exists x b, before = x :: b.
Proof. intros [L _]. destruct before; [discriminate|eauto]. Qed.

Lemma position_cons x t l c k : position (x :: t) (S l) c (S k) <->
  (if Ascii.eqb x newline then position t l c k else position t (S l) c k).
Proof.
  assert (G : position (x :: t) (S l) c (S k) <-> exists before line after, t = before ++ line ++ after /\
    k = length (before ++ line) /\ whole_lines (x :: before) (S l) /\ chars line c).
  { split; intros (before & line & after & E & K & W & C).
    - destruct (whole_S _ _ W) as (y & b & ->). injection E as -> E. injection K as K. exists b, line, after. auto.
    - exists (x :: before), line, after. subst. auto. }
  rewrite G. unfold position.
  split.
  - intros (before & line & after & E & K & W & C). apply whole_cons in W.
    destruct (Ascii.eqb x newline); exists before, line, after; auto.
  - intros H. destruct (Ascii.eqb x newline) eqn:X; destruct H as (before & line & after & E & K & W & C);
      exists before, line, after; repeat (split; [assumption|]); (split; [|assumption]); rewrite whole_cons, X; assumption.
Qed.
Lemma inside_cons x t l c k : inside (x :: t) (S l) c (S k) <->
  (if Ascii.eqb x newline then inside t l c k else inside t (S l) c k).
Proof.
  assert (G : inside (x :: t) (S l) c (S k) <-> exists c' r before line after, c = S c' /\ scalar r /\ (65536 <= r)%N /\
    t = before ++ line ++ encode_rune r ++ after /\
    k = length (before ++ line) /\ whole_lines (x :: before) (S l) /\ chars line c').
  { split; intros (c' & r & before & line & after & Ec & Sc & L & E & K & W & C).
    - destruct (whole_S _ _ W) as (y & b & ->). injection E as -> E. injection K as K. exists c', r, b, line, after. auto 10.
    - exists c', r, (x :: before), line, after. subst. auto 10. }
  rewrite G. unfold inside.
  split.
  - intros (c' & r & before & line & after & Ec & Sc & L & E & K & W & C). apply whole_cons in W.
    destruct (Ascii.eqb x newline); exists c', r, before, line, after; auto 10.
  - intros H. destruct (Ascii.eqb x newline) eqn:X; destruct H as (c' & r & before & line & after & Ec & Sc & L & E & K & W & C);
      exists c', r, before, line, after; repeat (split; [assumption|]); (split; [|assumption]); rewrite whole_cons, X; assumption.
Qed.
Lemma past_cons x t l c k : past_end (x :: t) (S l) c (S k) <->
  (if Ascii.eqb x newline then past_end t l c k else past_end t (S l) c k).
Proof.
  unfold past_end. rewrite lines_cons. cbn [length]. destruct (Ascii.eqb x newline); lia.
Qed.

Lemma poff_spec t : forall l c k, poff t l c = Some k <-> position t l c k \/ inside t l c k \/ past_end t l c k.
Proof.
  induction t as [|x t IH]; intros l c k; (destruct l as [|l];
    [cbn [poff]; rewrite column_spec; split|]).
  1,4: intros [(line & after & E & K & C)|(c' & r & line & after & Ec & Sc & L & E & K & C)];
    [left; exists [], line, after; auto using (proj2 (whole_zero []))|
     right; left; exists c', r, [], line, after; repeat (split; [assumption|]); (split; [now apply whole_zero|assumption])].
  1,3: intros [(before & line & after & E & K & W & C)|[(c' & r & before & line & after & Ec & Sc & L & E & K & W & C)|(L & _)]];
    [apply whole_zero in W; subst before; left; exists line, after; auto|
     apply whole_zero in W; subst before; right; exists c', r, line, after; auto 10|discriminate].
  - cbn [poff]. split.
    + intros H. right; right. destruct l, c; try discriminate. injection H as <-. repeat split.
    + intros [(before & line & after & E & K & W & C)|[(c' & r & before & line & after & Ec & Sc & L & E & K & W & C)|(L & -> & ->)]].
      * destruct (whole_S _ _ W) as (y & b & ->). discriminate.
      * destruct (whole_S _ _ W) as (y & b & ->). discriminate.
      * injection L as ->. reflexivity.
  - destruct k as [|k].
    + split.
      * cbn [poff]. destruct (if Ascii.eqb x newline then poff t l c else poff t (S l) c); discriminate.
      * intros [(before & line & after & E & K & W & C)|[(c' & r & before & line & after & Ec & Sc & L & E & K & W & C)|(L & -> & K)]];
          [destruct (whole_S _ _ W) as (y & b & ->); discriminate..|discriminate].
    + rewrite position_cons, inside_cons, past_cons. cbn [poff].
      destruct (Ascii.eqb x newline); rewrite <- IH.
      * destruct (poff t l c); cbn; [|split; discriminate]. split; congruence.
      * destruct (poff t (S l) c); cbn; [|split; discriminate]. split; congruence.
Qed.

Lemma poff_le t l c k : poff t l c = Some k -> k <= length t.
Proof.
  intros H. apply poff_spec in H as [(before & line & after & -> & -> & _)|[(c' & r & before & line & after & _ & _ & _ & -> & -> & _)|(_ & _ & ->)]].
  - rewrite !app_length. lia.
  - rewrite !app_length. lia.
  - lia.
Qed.

Lemma position_poff t l c k : position t l c k -> poff t l c = Some k.
Proof. intros H. apply poff_spec. now left. Qed.

Lemma position_local t l c k n r : position t l c k -> k <= n -> position (firstn n t ++ r) l c k.
Proof.
  intros (before & line & after & -> & -> & W & C) L.
  exists before, line, (firstn (n - length (before ++ line)) after ++ r).
  split; [|auto].
  rewrite (app_assoc before line after), firstn_app.
  rewrite (firstn_all2 (n := n) (before ++ line)) by assumption.
  now rewrite <- !app_assoc.
Qed.
