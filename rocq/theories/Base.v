(** Shared library: list helpers and byte strings. No modelling content. *)
From Coq Require Export List Arith ZArith Lia Bool.
Export ListNotations.

(** [upd m k v]: functional map update on [nat] keys. *)
Definition upd {A : Type} (m : nat -> A) (k : nat) (v : A) : nat -> A :=
  fun k' => if Nat.eqb k' k then v else m k'.

Lemma upd_same {A} (m : nat -> A) k v : upd m k v k = v.
Proof. unfold upd. now rewrite Nat.eqb_refl. Qed.

Lemma upd_other {A} (m : nat -> A) k v k' : k' <> k -> upd m k v k' = m k'.
Proof. unfold upd. intros H. apply Nat.eqb_neq in H. now rewrite H. Qed.

(** [prefix_of l1 l2]: [l1] is an initial segment of [l2]. *)
Definition prefix_of {A : Type} (l1 l2 : list A) : Prop := exists r, l2 = l1 ++ r.

Lemma prefix_of_refl {A} (l : list A) : prefix_of l l.
Proof. exists []. now rewrite app_nil_r. Qed.

Lemma prefix_of_app {A} (l r : list A) : prefix_of l (l ++ r).
Proof. now exists r. Qed.

Lemma prefix_of_trans {A} (a b c : list A) :
  prefix_of a b -> prefix_of b c -> prefix_of a c.
Proof. intros [r ->] [r' ->]. exists (r ++ r'). now rewrite app_assoc. Qed.

Lemma prefix_of_snoc_inv {A} (p l : list A) x :
  prefix_of p (l ++ [x]) -> prefix_of p l \/ p = l ++ [x].
Proof.
  intros [r H]. destruct r as [|y r] using rev_ind.
  - right. now rewrite app_nil_r in H.
  - left. rewrite app_assoc in H. apply app_inj_tail in H as [H _]. now exists r.
Qed.

Lemma prefix_of_length {A} (a b : list A) : prefix_of a b -> length a <= length b.
Proof. intros [r ->]. rewrite app_length. lia. Qed.

Lemma fold_left_snoc {A B} (f : A -> B -> A) l x a :
  fold_left f (l ++ [x]) a = f (fold_left f l a) x.
Proof. now rewrite fold_left_app. Qed.
