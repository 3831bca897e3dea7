(** Byte strings and the Go standard-library string functions the modelled code
    uses (package strings, package path), written from their documented
    contracts. Library only: nothing here models code of /repo. *)
From Coq Require Import Ascii String.
From Verif Require Import Base.
Open Scope list_scope.
Open Scope nat_scope.

Notation bytes := (list ascii).
Definition b_ (s : string) : bytes := list_ascii_of_string s.

Definition beq (a b : bytes) : bool := if list_eq_dec ascii_dec a b then true else false.

Lemma beq_eq a b : beq a b = true <-> a = b.
Proof. unfold beq. destruct (list_eq_dec ascii_dec a b); split; congruence. Qed.
Lemma beq_refl a : beq a a = true.
Proof. now apply beq_eq. Qed.
Lemma beq_neq a b : beq a b = false <-> a <> b.
Proof. unfold beq. destruct (list_eq_dec ascii_dec a b); split; congruence. Qed.

(** strings.HasPrefix *)
Fixpoint has_prefix (s p : bytes) : bool :=
  match p, s with
  | [], _ => true
  | _ :: _, [] => false
  | x :: p', y :: s' => (Ascii.eqb x y && has_prefix s' p')%bool
  end.

Lemma has_prefix_nil s : has_prefix s [] = true.
Proof. destruct s; reflexivity. Qed.

Lemma has_prefix_spec s p : has_prefix s p = true <-> exists r, s = p ++ r.
Proof.
  revert s; induction p as [|x p IH]; intros s.
  - rewrite has_prefix_nil. split; [intros _; now exists s|reflexivity].
  - destruct s as [|y s]; [split; [discriminate|intros [r H]; discriminate]|].
    cbn [has_prefix]. rewrite andb_true_iff, IH, Ascii.eqb_eq. split.
    + intros [-> [r ->]]. now exists r.
    + intros [r [= -> ->]]. eauto.
Qed.

(** strings.HasSuffix *)
Definition has_suffix (s p : bytes) : bool := has_prefix (rev s) (rev p).

Lemma has_suffix_spec s p : has_suffix s p = true <-> exists l, s = l ++ p.
Proof.
  unfold has_suffix. rewrite has_prefix_spec. split; intros [r H].
  - exists (rev r). apply (f_equal (@rev _)) in H. rewrite rev_involutive, rev_app_distr, rev_involutive in H.
    assumption.
  - exists (rev r). rewrite H. now rewrite rev_app_distr.
Qed.

(** strings.Split(s, c) for a one-byte separator *)
Fixpoint split_on (c : ascii) (s : bytes) : list bytes :=
  match s with
  | [] => [[]]
  | x :: s' =>
      if Ascii.eqb x c then [] :: split_on c s'
      else match split_on c s' with
           | [] => [[x]]
           | w :: ws => (x :: w) :: ws
           end
  end.

(** strings.Join(ws, c) for a one-byte separator *)
Fixpoint join_with (c : ascii) (ws : list bytes) : bytes :=
  match ws with
  | [] => []
  | [w] => w
  | w :: ws' => w ++ c :: join_with c ws'
  end.

Lemma split_on_nonempty c s : split_on c s <> [].
Proof. destruct s as [|x s]; cbn; [discriminate|]. destruct (Ascii.eqb x c); [discriminate|]. now destruct (split_on c s). Qed.

Lemma join_split c s : join_with c (split_on c s) = s.
Proof.
  induction s as [|x s IH]; [reflexivity|]. cbn [split_on].
  destruct (Ascii.eqb_spec x c) as [->|Hne].
  - pose proof (split_on_nonempty c s). destruct (split_on c s) as [|w ws] eqn:E; [congruence|].
    cbn [join_with]. cbn [join_with] in IH. now rewrite IH.
  - pose proof (split_on_nonempty c s). destruct (split_on c s) as [|w ws] eqn:E; [congruence|].
    destruct ws as [|w' ws]; cbn [join_with] in *; cbn [app]; now rewrite IH.
Qed.

Lemma split_on_sep_free c s w : In w (split_on c s) -> ~ In c w.
Proof.
  revert w; induction s as [|x s IH]; intros w; cbn [split_on].
  - intros [<-|[]] [].
  - destruct (Ascii.eqb_spec x c) as [->|Hne].
    + intros [<-|H]; [intros []|now apply IH].
    + destruct (split_on c s) as [|v vs] eqn:E.
      * intros [<-|[]] [H|[]]. now apply Hne.
      * intros [<-|H].
        -- intros [H|H]; [now apply Hne|]. eapply IH; [now left|exact H].
        -- apply IH. now right.
Qed.

Lemma split_on_no_sep c s : ~ In c s -> split_on c s = [s].
Proof.
  induction s as [|x s IH]; intros H; [reflexivity|]. cbn [split_on].
  destruct (Ascii.eqb_spec x c) as [->|Hne]; [elim H; now left|].
  rewrite IH; [reflexivity|]. intros Hin. apply H. now right.
Qed.

Lemma split_on_app c s t : ~ In c s -> split_on c (s ++ c :: t) = s :: split_on c t.
Proof.
  induction s as [|x s IH]; intros H; cbn [app split_on].
  - now rewrite Ascii.eqb_refl.
  - destruct (Ascii.eqb_spec x c) as [->|Hne]; [elim H; now left|].
    rewrite IH; [reflexivity|]. intros Hin. apply H. now right.
Qed.

Lemma split_join c ws : ws <> [] -> (forall w, In w ws -> ~ In c w) -> split_on c (join_with c ws) = ws.
Proof.
  intros Hne. induction ws as [|w ws IH]; [congruence|]. intros H. destruct ws as [|w' ws].
  - cbn. apply split_on_no_sep. apply H. now left.
  - cbn [join_with]. change (match ws with [] => w' | _ => w' ++ c :: join_with c ws end) with (join_with c (w' :: ws)).
    rewrite split_on_app by (apply H; now left). f_equal. apply IH; [discriminate|]. intros v Hv. apply H. now right.
Qed.

(* ---------- package path ---------- *)
Definition slash : ascii := "/"%char.
Definition dot1 : bytes := b_ ".".
Definition dot2 : bytes := b_ "..".

(** The component walk of path.Clean. [acc] is the reversed output. *)
Fixpoint clean_comps (rooted : bool) (acc cs : list bytes) : list bytes :=
  match cs with
  | [] => rev acc
  | c :: cs' =>
      if (beq c [] || beq c dot1)%bool then clean_comps rooted acc cs'
      else if beq c dot2 then
        match acc with
        | [] => if rooted then clean_comps rooted [] cs' else clean_comps rooted [dot2] cs'
        | a :: acc' => if beq a dot2 then clean_comps rooted (dot2 :: acc) cs'
                       else clean_comps rooted acc' cs'
        end
      else clean_comps rooted (c :: acc) cs'
  end.

Definition is_rooted (s : bytes) : bool := has_prefix s [slash].

(** path.Clean *)
Definition path_clean (s : bytes) : bytes :=
  let r := is_rooted s in
  let cs := clean_comps r [] (split_on slash s) in
  if r then slash :: join_with slash cs
  else match cs with [] => dot1 | _ => join_with slash cs end.

(** everything up to and including the last slash / everything after it *)
Fixpoint cut_last_slash (s : bytes) : bytes * bytes :=
  match s with
  | [] => ([], [])
  | x :: s' =>
      let (d, f) := cut_last_slash s' in
      match d with
      | _ :: _ => (x :: d, f)
      | [] => if Ascii.eqb x slash then ([x], f) else ([], x :: f)
      end
  end.

(** path.Dir *)
Definition path_dir (s : bytes) : bytes := path_clean (fst (cut_last_slash s)).

Fixpoint strip_slashes (s : bytes) : bytes := (* of a reversed string *)
  match s with
  | x :: s' => if Ascii.eqb x slash then strip_slashes s' else s
  | [] => []
  end.

(** path.Base *)
Definition path_base (s : bytes) : bytes :=
  match s with
  | [] => dot1
  | _ => match snd (cut_last_slash (rev (strip_slashes (rev s)))) with
         | [] => [slash]
         | f => f
         end
  end.

(** path.Join(a, b) *)
Definition path_join (a b : bytes) : bytes :=
  match a, b with
  | [], [] => []
  | [], _ => path_clean b
  | _, [] => path_clean a
  | _, _ => path_clean (a ++ slash :: b)
  end.

Lemma cut_last_app s : fst (cut_last_slash s) ++ snd (cut_last_slash s) = s.
Proof.
  induction s as [|x s IH]; [reflexivity|]. cbn [cut_last_slash].
  destruct (cut_last_slash s) as [[|d0 d] f]; cbn in *.
  - destruct (Ascii.eqb x slash); cbn; now rewrite IH.
  - now rewrite IH.
Qed.

Lemma cut_last_noslash s : ~ In slash (snd (cut_last_slash s)).
Proof.
  induction s as [|x s IH]; [intros []|]. cbn [cut_last_slash].
  destruct (cut_last_slash s) as [[|d0 d] f]; cbn in *; [|assumption].
  destruct (Ascii.eqb_spec x slash); cbn; [assumption|]. intros [H|H]; auto.
Qed.

Lemma path_base_noslash s : In slash (path_base s) -> path_base s = [slash].
Proof.
  unfold path_base. destruct s as [|x s]; [intros [H|[]]; discriminate|].
  pose proof (cut_last_noslash (rev (strip_slashes (rev (x :: s))))) as H.
  destruct (snd (cut_last_slash (rev (strip_slashes (rev (x :: s)))))); [reflexivity|]. intros Hin. now elim H.
Qed.
