From Coq Require Import Ascii NArith ZArith.
From Verif Require Import Base.
From Verif.Print Require Import Model Literals.
From Verif.Documents Require Import Model Spec Positions.
From Verif.Documents Require Props.
From Verif.Ranges Require Import Model Spec.
Open Scope list_scope.

Lemma is_nl x : Ascii.eqb newline x = true <-> x = newline.
Proof. split; [intro H; now apply Ascii.eqb_eq in H|intros ->; reflexivity]. Qed.
Lemma has_nl t : existsb (Ascii.eqb newline) t = true <-> In newline t.
Proof. rewrite existsb_exists. split; [intros [x [H E]]; apply is_nl in E; now subst|intro H; exists newline; now split]. Qed.
Lemma no_nl t : existsb (Ascii.eqb newline) t = false <-> ~ In newline t.
Proof. rewrite <- has_nl. destruct (existsb _ t); split; intros; congruence || (exfalso; auto). Qed.

Lemma last_line_plain t : ~ In newline t -> last_line t = t.
Proof.
  destruct t as [|x t]; [reflexivity|]. intro H. cbn [last_line]. replace (existsb (Ascii.eqb newline) t) with false by (symmetry; apply no_nl; intro; apply H; now right).
  destruct (Ascii.eqb x newline) eqn:E; [|reflexivity]. apply Ascii.eqb_eq in E. subst. destruct H. now left.
Qed.
Lemma last_line_app b line : ~ In newline line -> last_line (b ++ newline :: line) = line.
Proof.
  intro H. induction b as [|x b IH]; cbn [app last_line].
  - replace (existsb (Ascii.eqb newline) line) with false by (symmetry; now apply no_nl). reflexivity.
  - replace (existsb (Ascii.eqb newline) (b ++ newline :: line)) with true; [exact IH|].
    symmetry. apply has_nl, in_or_app. right. now left.
Qed.
Lemma last_line_split t : exists before, t = before ++ last_line t /\ whole_lines before (lines_before t) /\ ~ In newline (last_line t).
Proof.
  destruct (existsb (Ascii.eqb newline) t) eqn:E.
  - apply has_nl in E. revert E. induction t as [|x t IH]; intros H; [destruct H|]. cbn [last_line].
    destruct (existsb (Ascii.eqb newline) t) eqn:Et.
    + apply has_nl in Et. destruct (IH Et) as [b [Eb [[Wn Wb] Hn]]]. exists (x :: b). split; [now rewrite Eb at 1|]. split; [|exact Hn]. split.
      * rewrite !lines_cons. now rewrite Wn.
      * right. destruct Wb as [->|[b' ->]]; [|now exists (x :: b')]. exfalso. apply Hn. cbn [app] in Eb. now rewrite <- Eb.
    + apply no_nl in Et. destruct H as [->|H]; [|contradiction]. replace (Ascii.eqb newline newline) with true by reflexivity.
      exists [newline]. split; [reflexivity|]. split; [|exact Et]. split; [|right; now exists []].
      change (newline :: t) with ([newline] ++ t). rewrite lines_app. assert (Hz : lines_before t = 0).
      { unfold lines_before. clear - Et. induction t as [|y t IH]; [reflexivity|]. cbn [filter]. destruct (Ascii.eqb newline y) eqn:Ey.
        - apply is_nl in Ey. subst. destruct Et. now left.
        - apply IH. intro. apply Et. now right. }
      rewrite Hz. reflexivity.
  - apply no_nl in E. exists []. rewrite (last_line_plain t E). split; [reflexivity|]. split; [|exact E]. split; [|now left].
    unfold lines_before. symmetry. clear - E. induction t as [|y t IH]; [reflexivity|]. cbn [filter]. destruct (Ascii.eqb newline y) eqn:Ey.
    + apply is_nl in Ey. subst. destruct E. now left.
    + apply IH. intro. apply E. now right.
Qed.
Lemma whole_last before line l : whole_lines before l -> ~ In newline line -> last_line (before ++ line) = line.
Proof.
  intros [_ [->|[b ->]]] H; [now apply last_line_plain|]. rewrite <- app_assoc. now apply last_line_app.
Qed.
Lemma plain_lines line : ~ In newline line -> lines_before line = 0.
Proof.
  intro H. unfold lines_before. induction line as [|y t IH]; [reflexivity|]. cbn [filter]. destruct (Ascii.eqb newline y) eqn:Ey.
  - apply is_nl in Ey. subst. destruct H. now left.
  - apply IH. intro. apply H. now right.
Qed.

(** ** Characters *)
Lemma code_chr_lt n : (n < 256)%N -> code (chr n) = n.
Proof. intro. unfold code, chr. now apply N_ascii_embedding. Qed.
Lemma encode_ascii r : (r < 128)%N -> encode_rune r = [chr r].
Proof. intro H. unfold encode_rune. apply N.ltb_lt in H. now rewrite H. Qed.
Lemma encode_longer r : scalar r -> (128 <= r)%N -> 2 <= List.length (encode_rune r) /\ ((65536 <= r)%N -> 4 <= List.length (encode_rune r)) /\ exists x e, encode_rune r = x :: e /\ (128 <= code x)%N.
Proof.
  intros [Hs1 Hs2] H. unfold encode_rune. destruct (N.ltb_spec r 128); [lia|]. destruct (N.ltb_spec r 2048).
  - split; [cbn; lia|]. split; [lia|]. eexists. eexists. split; [reflexivity|]. rewrite code_chr_lt; [lia|].
    assert (r / 64 < 32)%N by (apply N.div_lt_upper_bound; lia). lia.
  - replace ((55296 <=? r)%N && (r <=? 57343)%N || (1114111 <? r)%N) with false.
    2:{ symmetry. apply orb_false_iff. split; [|apply N.ltb_ge; lia]. destruct (N.leb_spec 55296 r); [|reflexivity]. destruct (N.leb_spec r 57343); [|reflexivity]. exfalso. apply Hs2. lia. }
    destruct (N.ltb_spec r 65536).
    + split; [cbn; lia|]. split; [lia|]. eexists. eexists. split; [reflexivity|]. rewrite code_chr_lt; [lia|].
      assert (r / 4096 < 16)%N by (apply N.div_lt_upper_bound; lia). lia.
    + split; [cbn; lia|]. split; [cbn; lia|]. eexists. eexists. split; [reflexivity|]. rewrite code_chr_lt; [lia|].
      assert (r / 262144 < 16)%N by (apply N.div_lt_upper_bound; lia). lia.
Qed.
Lemma chars_no_nl s n : chars s n -> ~ In newline s.
Proof.
  intro C. destruct (in_dec ascii_dec newline s) as [H|H]; [|exact H]. exfalso.
  pose proof (column_line s n C 0 []) as E.
  (* a line feed in s would stop the mapper before its end *)
  assert (G : forall t c k, column 0 c t = Some k -> ~ In newline (firstn k t)).
  { clear. intro t. remember (List.length t) as m eqn:Em. revert t Em. induction m as [m IH] using lt_wf_ind. intros t -> [|c] k Hk.
    - assert (k = 0) as -> by (destruct t; injection Hk as <-; reflexivity). cbn. tauto.
    - destruct (column_some _ _ _ Hk) as (r & rest & -> & Sc & N10). rewrite column_char in Hk by assumption.
      assert (Hr : ~ In newline (encode_rune r)).
      { clear - Sc N10. intro Hin. assert (Hc : exists n, In (chr n) [newline] /\ (n = r /\ (r < 128)%N \/ (128 <= n < 256)%N)).
        { unfold encode_rune in Hin. destruct Sc as [S1 S2]. destruct (N.ltb_spec r 128).
          - destruct Hin as [E|[]]. exists r. split; [left; now rewrite E|]. left. now split.
          - destruct (N.ltb_spec r 2048).
            + assert (r / 64 < 32)%N by (apply N.div_lt_upper_bound; lia). assert (r mod 64 < 64)%N by (apply N.mod_lt; lia).
              destruct Hin as [E|[E|[]]]; eexists; (split; [left; symmetry; exact E|right; lia]).
            + destruct ((55296 <=? r)%N && (r <=? 57343)%N || (1114111 <? r)%N).
              * destruct Hin as [E|[E|[E|[]]]]; eexists; (split; [left; symmetry; exact E|right; lia]).
              * destruct (N.ltb_spec r 65536).
                -- assert (r / 4096 < 16)%N by (apply N.div_lt_upper_bound; lia). assert ((r / 64) mod 64 < 64)%N by (apply N.mod_lt; lia). assert (r mod 64 < 64)%N by (apply N.mod_lt; lia).
                   destruct Hin as [E|[E|[E|[]]]]; eexists; (split; [left; symmetry; exact E|right; lia]).
                -- assert (r / 262144 < 16)%N by (apply N.div_lt_upper_bound; lia). assert ((r / 4096) mod 64 < 64)%N by (apply N.mod_lt; lia). assert ((r / 64) mod 64 < 64)%N by (apply N.mod_lt; lia). assert (r mod 64 < 64)%N by (apply N.mod_lt; lia).
                   destruct Hin as [E|[E|[E|[E|[]]]]]; eexists; (split; [left; symmetry; exact E|right; lia]). }
        destruct Hc as [n [[E|[]] Hn]]. assert (Hcn : code (chr n) = 10%N) by (rewrite <- E; reflexivity). rewrite code_chr_lt in Hcn by lia. subst n. destruct Hn as [[Hr _]|Hn]; [exact (N10 (eq_sym Hr))|lia]. }
      assert (Hl : List.length rest < List.length (encode_rune r ++ rest)).
      { rewrite app_length. destruct (encode_rune r) eqn:Er; [now apply encode_nonempty in Er|cbn; lia]. }
      assert (Step : forall c' j, column 0 c' rest = Some j -> ~ In newline (firstn (List.length (encode_rune r) + j) (encode_rune r ++ rest))).
      { intros c' j Hj Hin. rewrite firstn_app, firstn_all2 in Hin by lia. apply in_app_or in Hin. destruct Hin as [Hin|Hin]; [now apply Hr|].
        replace (List.length (encode_rune r) + j - List.length (encode_rune r)) with j in Hin by lia. now apply (IH _ Hl rest eq_refl c' j Hj). }
      destruct (r <? 65536)%N.
      + destruct (column 0 c rest) as [j|] eqn:Ej; [|discriminate]. injection Hk as <-. now apply (Step c).
      + destruct c as [|c]; [injection Hk as <-; cbn; tauto|]. destruct (column 0 c rest) as [j|] eqn:Ej; [|discriminate]. injection Hk as <-. now apply (Step c). }
  assert (Hc : column 0 n s = Some (List.length s)).
  { apply column_spec. left. exists s, []. rewrite app_nil_r. now repeat split. }
  apply (G s n _ Hc). now rewrite firstn_all.
Qed.
Lemma chars_ascii s : ascii_only s -> ~ In newline s -> chars s (List.length s).
Proof.
  induction s as [|x s IH]; intros A Hn; [constructor|]. inversion A as [|? ? Hx As]; subst. cbn [List.length]. apply Documents.Props.C06_ascii; [exact Hx| |].
  - intro E. apply Hn. left. unfold newline. apply (f_equal chr) in E. unfold chr, code in E. rewrite ascii_N_embedding in E. rewrite E. reflexivity.
  - apply IH; [exact As|]. intro. apply Hn. now right.
Qed.
Lemma chars_bytes s n : chars s n -> n <= List.length s /\ (n = List.length s -> ascii_only s).
Proof.
  induction 1 as [|r s n Sc N10 L C [IH1 IH2]|r s n Sc L C [IH1 IH2]].
  - split; [cbn; lia|]. intros _. constructor.
  - rewrite app_length. destruct (N.ltb_spec r 128) as [Hr|Hr].
    + rewrite (encode_ascii r Hr). cbn [List.length app]. split; [lia|]. intro E. constructor; [rewrite code_chr_lt; lia|]. apply IH2. lia.
    + destruct (encode_longer r Sc Hr) as [H2 _]. split; [lia|]. intro. lia.
  - rewrite app_length. destruct (encode_longer r Sc ltac:(lia)) as [_ [H4 _]]. specialize (H4 L). split; lia.
Qed.
Lemma chars_length s : chars s (List.length s) <-> ascii_only s /\ ~ In newline s.
Proof.
  split; [|intros [A Hn]; now apply chars_ascii]. intro C. split; [now apply (chars_bytes _ _ C)|now apply (chars_no_nl _ _ C)].
Qed.

(** ** Places *)
Lemma pred_succ n : (N.of_nat n < 4294967295)%N -> N.to_nat (pred32 (N.of_nat (S n))) = n.
Proof.
  intro H. unfold pred32, pow32. replace (N.of_nat (S n) + 4294967295)%N with (N.of_nat n + 1 * 4294967296)%N by lia.
  rewrite N.mod_add by lia. rewrite N.mod_small by lia. apply Nat2N.id.
Qed.
Lemma lines_le t : lines_before t <= List.length t.
Proof. unfold lines_before. induction t as [|x t IH]; [cbn; lia|]. cbn [filter]. destruct (Ascii.eqb newline x); cbn [List.length]; lia. Qed.
Lemma position_unique t l c k before line after :
  t = before ++ line ++ after -> k = List.length (before ++ line) -> whole_lines before (lines_before (before ++ line)) -> ~ In newline line ->
  (Spec.position t l c k <-> l = lines_before (before ++ line) /\ chars line c).
Proof.
  intros Et Ek W Hn. split.
  - intros (b' & l' & a' & Et' & Ek' & W' & C'). pose proof (chars_no_nl _ _ C') as Hn'.
    assert (E : b' ++ l' = before ++ line).
    { assert (F : forall b l a, t = b ++ l ++ a -> k = List.length (b ++ l) -> firstn k t = b ++ l).
      { intros b0 l0 a0 E1 E2. rewrite E1, E2, app_assoc, firstn_app, firstn_all, Nat.sub_diag. cbn [firstn]. apply app_nil_r. }
      rewrite <- (F _ _ _ Et Ek). symmetry. apply (F _ _ _ Et' Ek'). }
    assert (El : l' = line).
    { pose proof (whole_last _ _ _ W' Hn') as E1. rewrite E in E1. now rewrite (whole_last _ _ _ W Hn) in E1. }
    subst l'. split; [|exact C']. destruct W' as [<- _]. rewrite <- E, lines_app, (plain_lines line Hn). lia.
  - intros [-> C]. exists before, line, after. repeat split; try assumption. apply W. apply W.
Qed.

Section P.
Variable cols : text -> nat.
Lemma place_denotes t k line : fits t -> on_line t k line -> (N.of_nat (cols line) < 4294967295)%N ->
  (denotes t (to_position (place cols t k)) k <-> chars line (cols line)).
Proof.
  intros F (before & after & l & Et & Ek & W & Hn) Hc. unfold denotes, to_position, place. cbn [fst snd].
  assert (Ef : firstn k t = before ++ line).
  { rewrite Et, Ek, app_assoc, firstn_app, firstn_all, Nat.sub_diag. cbn [firstn]. now rewrite app_nil_r. }
  rewrite Ef. rewrite (whole_last _ _ _ W Hn). rewrite (pred_succ (cols line) Hc).
  assert (Hl : (N.of_nat (lines_before (before ++ line)) < 4294967295)%N).
  { unfold fits in F. pose proof (lines_le (before ++ line)). assert (List.length (before ++ line) <= List.length t) by (rewrite Et, !app_length; lia). lia. }
  change (List.length (filter (Ascii.eqb newline) (before ++ line))) with (lines_before (before ++ line)).
  rewrite (pred_succ _ Hl). assert (W' : whole_lines before (lines_before (before ++ line))).
  { destruct W as [W1 W2]. split; [|exact W2]. rewrite lines_app, (plain_lines line Hn). lia. }
  rewrite (position_unique t _ _ k before line after Et Ek W' Hn). tauto.
Qed.
End P.
Lemma on_line_short t k line : on_line t k line -> List.length line <= List.length t /\ k <= List.length t.
Proof. intros (b & a & l & -> & -> & _). rewrite !app_length. lia. Qed.
Lemma on_line_exists t k : k <= List.length t -> exists line, on_line t k line.
Proof.
  intro H. destruct (last_line_split (firstn k t)) as [b [E [W Hn]]]. exists (last_line (firstn k t)), b, (skipn k t), (lines_before (firstn k t)).
  split; [rewrite app_assoc, <- E; symmetry; apply firstn_skipn|]. split; [rewrite <- E, firstn_length; lia|]. now split.
Qed.
Lemma bytes_denote t k line : fits t -> on_line t k line ->
  (denotes t (to_position (place (@List.length ascii) t k)) k <-> ascii_only line).
Proof.
  intros F O. rewrite (place_denotes _ t k line F O).
  - rewrite chars_length. destruct O as (b & a & l & _ & _ & _ & Hn). tauto.
  - destruct (on_line_short _ _ _ O). unfold fits in F. lia.
Qed.
Lemma denotes_offset t p k : denotes t p k -> offset t p = Some k.
Proof. apply position_poff. Qed.
