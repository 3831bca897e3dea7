(* Proof of C146: the second formatting of a file puts every token on the line of the first one, and
   the third changes nothing. *)
From Coq Require Import List Arith Bool Lia Ascii String.
From Verif Require Import Base Strs.
From Verif.Format Require Import Model Spec.
From Verif.FormatTree Require Import Model Spec.
From Verif.Stable Require Import Spec Sim Atoms Cols Tree.
Import ListNotations.
Open Scope list_scope.

Lemma adj0 hs : adj 0 hs = hs. Proof. destruct hs; reflexivity. Qed.
Lemma reads_splits text f : reads text f -> exists n, splits text (texts (file_toks f)) (map newl (file_toks f)) n.
Proof.
  intros ((w & B & ->) & F & _). induction F as [|t l A _ [n IH]]; cbn [flat_map texts map app]; [eexists; now apply splits_blank|].
  exists n. rewrite <- !app_assoc. apply split_word; [exact A|exact IH].
Qed.
Lemma keys ts ts' : map newl ts = map newl ts' -> map t_line ts = lines_from 0 ts -> map t_line ts' = lines_from 0 ts' -> map key ts = map key ts'.
Proof.
  intros N A B. assert (L : lines_from 0 ts = lines_from 0 ts').
  { clear A B. generalize 0. revert ts' N. induction ts as [|t ts IH]; intros [|t' ts'] N n; try discriminate; [reflexivity|]. cbn [map] in N. apply cons_eq in N as [N1 N2].
    unfold newl in N1. cbn [lines_from]. rewrite N1. f_equal. now apply IH. }
  rewrite L in A. rewrite <- B in A. clear - N A. revert ts' N A. induction ts as [|t ts IH]; intros [|t' ts'] N A; try discriminate; [reflexivity|].
  cbn [map] in *. apply cons_eq in N as [N1 N2]. apply cons_eq in A as [A1 A2]. unfold key at 1 3. rewrite N1, A1. f_equal. now apply IH.
Qed.
Section Files.
Variables (dec : list nat -> nat -> bool) (isort : list import -> list import) (osort : list opt -> list opt).
Lemma files_sim f g : relaid f g -> canonical f -> sorted isort osort f -> sorted isort osort g ->
  sim false (top (file_toks f)) (file_toks f) (file_toks g) (write_file dec isort osort f) (write_file dec isort osort g) any.
Proof. intros. apply file_sim with (phi := bare); auto using tw_bare. Qed.
Lemma canonical_relaid f g : relaid f g -> canonical f -> canonical g. Proof. unfold relaid, canonical. congruence. Qed.
Lemma second f g : canonical f -> sorted isort osort f -> sorted isort osort g -> no_blank_start f -> relaid f g -> reads (out (format dec isort osort f)) g ->
  exists n, splits (out (format dec isort osort f)) (texts (file_toks f)) (map newl (file_toks g)) n /\ splits (out (format dec isort osort g)) (texts (file_toks f)) (map newl (file_toks g)) n.
Proof.
  intros C Sf Sg B R D. destruct (files_sim f g R C Sf Sg) as [T W _ Rn _]. destruct (tws_texts _ _ T) as [E G]. destruct (reads_splits _ _ D) as [n S]. rewrite <- E in S.
  exists n. split; [exact S|]. destruct (Rn 0 start _ n eq_refl (or_introl (conj eq_refl (conj eq_refl B))) S ltac:(now rewrite adj0)) as (A & _). exact A.
Qed.
Lemma third f g h : canonical f -> sorted isort osort f -> sorted isort osort g -> sorted isort osort h -> no_blank_start f ->
  relaid f g -> reads (out (format dec isort osort f)) g -> relaid g h -> reads (out (format dec isort osort g)) h ->
  out (format dec isort osort h) = out (format dec isort osort g).
Proof.
  intros C Sf Sg Sh B R D R' D'. destruct (second f g C Sf Sg B R D) as (n & _ & S2). destruct (files_sim f g R C Sf Sg) as [T _ _ _ _]. destruct (tws_texts _ _ T) as [E G].
  destruct (files_sim g h R' (canonical_relaid _ _ R C) Sg Sh) as [T' _ _ _ X]. destruct (tws_texts _ _ T') as [E' _]. destruct (reads_splits _ _ D') as [m S3]. rewrite <- E', <- E in S3.
  destruct (splits_unique _ G _ _ _ _ _ S2 S3) as [N _]. unfold format. rewrite (X (keys _ _ N (proj2 (proj2 D)) (proj2 (proj2 D'))) start eq_refl). reflexivity.
Qed.
Lemma settled text f g : canonical f -> sorted isort osort f -> sorted isort osort g -> reads text f -> relaid f g -> reads (out (format dec isort osort f)) g ->
  same_lines (texts (file_toks f)) text (out (format dec isort osort f)) -> out (format dec isort osort g) = out (format dec isort osort f).
Proof.
  intros C Sf Sg D R D' (hs & n & m & A & B). destruct (files_sim f g R C Sf Sg) as [T _ _ _ X]. destruct (tws_texts _ _ T) as [E G].
  destruct (reads_splits _ _ D) as [k S]. destruct (reads_splits _ _ D') as [k' S']. rewrite <- E in S'.
  destruct (splits_unique _ G _ _ _ _ _ A S) as [N _]. destruct (splits_unique _ G _ _ _ _ _ B S') as [N' _].
  unfold format. rewrite (X (keys _ _ (eq_trans (eq_sym N) N') (proj2 (proj2 D)) (proj2 (proj2 D'))) start eq_refl). reflexivity.
Qed.
End Files.
