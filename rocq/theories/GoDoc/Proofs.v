From Coq Require Import Ascii String.
From Verif Require Import Base Strs.
From Verif.GoDoc Require Import Model Spec.
Open Scope list_scope.

Lemma made_app a b s t : made_of a s -> made_of b t -> made_of (a ++ b) (s ++ t).
Proof. intros [Fa ->] [Fb ->]. split; [now apply Forall_app|]. now rewrite map_app, concat_app. Qed.
Lemma made_one l : ~ In nl l -> made_of [l] (put l).
Proof. intro N. split; [now constructor|]. unfold put. cbn. now rewrite app_nil_r. Qed.
Lemma made_nil : made_of [] [].
Proof. split; [constructor|reflexivity]. Qed.
Lemma slashes_free r : ~ In nl r -> ~ In nl (b_ "//" ++ r).
Proof. intros N [E|[E|I]]; [discriminate|discriminate|auto]. Qed.
Lemma without_end_spec c : c = without_end c \/ c = without_end c ++ [nl].
Proof.
  unfold without_end. destruct (rev c) as [|x r] eqn:E.
  - left. apply (f_equal (@rev ascii)) in E. now rewrite rev_involutive in E.
  - destruct (Ascii.eqb_spec x nl) as [->|]; [|now left]. right. apply (f_equal (@rev ascii)) in E. rewrite rev_involutive in E. exact E.
Qed.
Lemma join_lines ls : ls <> [] -> join_with nl ls ++ [nl] = List.concat (map (fun l => l ++ [nl]) ls).
Proof.
  induction ls as [|l ls IH]; [congruence|]. intros _. destruct ls as [|m ls]; [cbn; now rewrite app_nil_r|].
  change (join_with nl (l :: m :: ls)) with (l ++ nl :: join_with nl (m :: ls)). change (List.concat (map (fun l => l ++ [nl]) (l :: m :: ls))) with ((l ++ [nl]) ++ List.concat (map (fun l => l ++ [nl]) (m :: ls))).
  rewrite <- IH by discriminate. rewrite <- !app_assoc. reflexivity.
Qed.
Lemma split_made s : made_of (split_on nl s) (s ++ [nl]).
Proof. split; [apply Forall_forall; intros l I; now apply (split_on_sep_free nl s)|]. rewrite <- join_lines by apply split_on_nonempty. now rewrite join_split. Qed.
Lemma string_made c : c <> [] -> exists ls, ls <> [] /\ made_of ls (comments_string c) /\ Forall comment_line ls /\ says ls c.
Proof.
  intro N. set (rs := split_on nl (without_end c)). exists (map (fun r => b_ "//" ++ r) rs). pose proof (split_made (without_end c)) as M. fold rs in M. split; [|split; [|split]].
  - pose proof (split_on_nonempty nl (without_end c)). fold rs in H. now destruct rs.
  - split.
    + apply Forall_forall. intros l I. apply in_map_iff in I. destruct I as (r & <- & I). apply slashes_free. destruct M as [F _]. rewrite Forall_forall in F. auto.
    + unfold comments_string. destruct c; [congruence|]. rewrite flat_map_concat_map, map_map. reflexivity.
  - apply Forall_forall. intros l I. apply in_map_iff in I. destruct I as (r & <- & _). now exists r.
  - exists rs. split; [reflexivity|]. destruct (without_end_spec c) as [E|E]; [right; rewrite E|left; rewrite E]; rewrite <- ?E; [rewrite E at 1; exact M|rewrite E; exact M].
Qed.
(** trimming *)
Lemma trim_right_app a b : trim_right (a ++ b) = match trim_right b with [] => trim_right a | t => a ++ t end.
Proof.
  induction a as [|c a IH]; [cbn; now destruct (trim_right b)|]. cbn [app trim_right]. rewrite IH. destruct (trim_right b) as [|x t] eqn:E; [reflexivity|]. destruct a; reflexivity.
Qed.
Lemma trim_right_in c s : In c (trim_right s) -> In c s.
Proof.
  induction s as [|x s IH]; [intros []|]. cbn [trim_right]. destruct (trim_right s) as [|y t]; [destruct (is_space x); [intros []|intros [->|[]]; now left]|]. intros [->|I]; [now left|right; auto].
Qed.
Lemma trim_comment r : trim_right (b_ "//" ++ r) = b_ "//" ++ trim_right r.
Proof. rewrite trim_right_app. now destruct (trim_right r). Qed.
Lemma trim_lines ls : ls <> [] -> Forall comment_line ls -> Forall (fun l => ~ In nl l) ls ->
  exists ms, made_of ms (put (trim_right (List.concat (map (fun l => l ++ [nl]) ls)))) /\ Forall comment_line ms /\ trim_right (List.concat (map (fun l => l ++ [nl]) ls)) <> [].
Proof.
  induction ls as [|l ls IH]; [congruence|]. intros _ C F. pose proof (Forall_inv C) as [r L]. apply Forall_inv_tail in C. pose proof (Forall_inv F) as N. apply Forall_inv_tail in F. cbn beta in N.
  change (List.concat (map (fun l => l ++ [nl]) (l :: ls))) with ((l ++ [nl]) ++ List.concat (map (fun l => l ++ [nl]) ls)). rewrite (trim_right_app (l ++ [nl])). destruct ls as [|m ls].
  - change (trim_right (List.concat (map (fun l : bytes => l ++ [nl]) []))) with (@nil ascii). cbv iota. rewrite (trim_right_app l [nl]). change (trim_right [nl]) with (@nil ascii). cbv iota.
    rewrite L, trim_comment. exists [b_ "//" ++ trim_right r]. split; [apply made_one|split; [constructor; [now eexists|constructor]|discriminate]].
    apply slashes_free. intro I. apply N. rewrite L. apply in_or_app. right. now apply trim_right_in.
  - destruct (IH ltac:(discriminate) C F) as (ms & M & Cm & Nn). destruct (trim_right (List.concat (map (fun l => l ++ [nl]) (m :: ls)))) as [|x t] eqn:E; [congruence|].
    exists (l :: ms). split; [|split; [constructor; [now exists r|exact Cm]|rewrite L; discriminate]].
    change (l :: ms) with ([l] ++ ms). unfold put in *. rewrite <- app_assoc. apply made_app; [apply made_one; exact N|exact M].
Qed.
Lemma trim_right_rest s : exists w, s = trim_right s ++ w /\ Forall (fun c => is_space c = true) w.
Proof.
  induction s as [|c s (w & E & F)]; [exists []; split; [reflexivity|constructor]|]. cbn [trim_right]. destruct (trim_right s) as [|x t] eqn:T.
  - destruct (is_space c) eqn:B; [exists (c :: w); split; [now rewrite E|now constructor]|exists w; split; [now rewrite E|exact F]].
  - exists w. split; [rewrite E at 1; reflexivity|exact F].
Qed.
