From Coq Require Import Ascii String Lia.
From Verif Require Import Base Strs.
From Verif.Offers Require Import Model Spec Proofs.
From Verif.Parts Require Import Model Spec.
Import ListNotations.
Open Scope list_scope.

Lemma nth_dots l t : forall j, (nth_error (flat_map (fun x : ref * bytes => [Dot; Ref (fst x) (snd x)]) l ++ (if t : bool then [Dot] else [])) (S (2 * j)) = option_map (fun x => Ref (fst x) (snd x)) (nth_error l j)) /\
  (nth_error (flat_map (fun x : ref * bytes => [Dot; Ref (fst x) (snd x)]) l ++ (if t then [Dot] else [])) (2 * j) = if (j <? List.length l) || ((j =? List.length l) && t) then Some Dot else None).
Proof.
  induction l as [|x l IH]; intro j.
  - cbn [flat_map app List.length]. destruct j as [|j].
    + destruct t; split; reflexivity.
    + replace (2 * S j) with (S (S (2 * j))) by lia. cbn [Nat.ltb Nat.leb Nat.eqb orb andb]. destruct t; cbn; split; destruct j; reflexivity.
  - destruct j as [|j]; [split; reflexivity|]. replace (2 * S j) with (S (S (2 * j))) by lia. cbn [flat_map app nth_error List.length]. destruct (IH j) as [A B]. split; [exact A|]. exact B.
Qed.
Lemma nth_ref rs t j : nth_error (dotted rs t) (2 * j) = option_map (fun x => Ref (fst x) (snd x)) (nth_error rs j).
Proof.
  destruct rs as [|[r n] l]; [now destruct j|]. cbn [dotted]. destruct j as [|j]; [reflexivity|]. replace (2 * S j) with (S (S (2 * j))) by lia. cbn [nth_error]. apply (nth_dots l t j).
Qed.
Lemma nth_dot rs t j : nth_error (dotted rs t) (S (2 * j)) = if (S j <? List.length rs) || ((S j =? List.length rs) && t) then Some Dot else None.
Proof. destruct rs as [|[r n] l]; [reflexivity|]. cbn [dotted nth_error]. rewrite (proj2 (nth_dots l t j)). reflexivity. Qed.
Lemma last_app ps : forall n, last_ref (ps ++ [Dot]) n = last_ref ps n.
Proof. induction ps as [|p ps IH]; intro n; [reflexivity|]. cbn [app last_ref]. now rewrite IH. Qed.
Lemma last_dots l : forall n, last_ref (flat_map (fun x : ref * bytes => [Dot; Ref (fst x) (snd x)]) l) n = match l with [] => None | _ => Some (n + 2 * List.length l - 1) end.
Proof.
  induction l as [|x l IH]; intro n; [reflexivity|]. cbn [flat_map app last_ref]. rewrite (IH (S (S n))). destruct l; cbn [List.length]; f_equal; lia.
Qed.
Lemma last_dotted rs t : rs <> [] -> last_ref (dotted rs t) 0 = Some (2 * (List.length rs - 1)).
Proof.
  destruct rs as [|[r n] l]; [congruence|]. intros _. cbn [dotted last_ref].
  assert (E : last_ref (flat_map (fun x : ref * bytes => [Dot; Ref (fst x) (snd x)]) l ++ (if t then [Dot] else [])) 1 = match l with [] => None | _ => Some (1 + 2 * List.length l - 1) end).
  { destruct t; [rewrite last_app|rewrite app_nil_r]; apply last_dots. }
  rewrite E. destruct l; cbn [List.length]; f_equal; lia.
Qed.

(** the cursor before the dot after part [j] *)
Lemma before_dot rs t j r n : nth_error rs j = Some (r, n) -> S j < List.length rs \/ t = true ->
  at_part (dotted rs t) (S (2 * j)) true =
  (Some (match j with 0 => OfOptions | S i => OfPart (2 * i) end), n, match j with 0 => Some r | S i => option_map fst (nth_error rs i) end).
Proof.
  intros N L. assert (B : j < List.length rs) by (apply nth_error_Some; congruence). unfold at_part. rewrite nth_dot.
  replace ((S j <? List.length rs) || ((S j =? List.length rs) && t)) with true.
  2: { symmetry. destruct (Nat.ltb_spec (S j) (List.length rs)); [reflexivity|]. destruct L as [L|L]; [lia|]. rewrite L, andb_true_r. cbn [orb]. apply Nat.eqb_eq. lia. }
  rewrite nth_ref, N. cbn [option_map fst snd].
  destruct j as [|i].
  - change (S (2 * 0) <? 3) with true. cbv iota. destruct rs as [|[r' n'] l]; [discriminate|]. cbn in N. injection N as -> ->. reflexivity.
  - replace (S (2 * S i) <? 3) with false by (symmetry; apply Nat.ltb_ge; lia). replace (S (2 * S i) - 3) with (2 * i) by lia. cbv iota beta. rewrite nth_ref.
    destruct (nth_error rs i) as [[r' n']|] eqn:E; [reflexivity|]. exfalso. apply nth_error_None in E. lia.
Qed.
Lemma after_last rs : rs <> [] -> at_part (dotted rs true) (S (2 * (List.length rs - 1))) false = (Some (OfPart (2 * (List.length rs - 1))), [], None).
Proof.
  intro N. assert (0 < List.length rs) by (destruct rs; cbn; [congruence|lia]). unfold at_part. rewrite nth_dot. replace (S (List.length rs - 1)) with (List.length rs) by lia. rewrite Nat.ltb_irrefl, Nat.eqb_refl. cbn [orb andb].
  replace (S (S (2 * (List.length rs - 1)))) with (2 * List.length rs) by lia. rewrite nth_ref. assert (E : nth_error rs (List.length rs) = None) by (apply nth_error_None; lia). rewrite E. cbn [option_map]. now rewrite (last_dotted rs true N).
Qed.

(** the edit of a field's item *)
Lemma field_edit exts pkg ex p pa su r pos i t : In i (complete_names exts pkg ex p pa su r pos) -> goal i = TField t ->
  change i = mkEdit (pos - List.length pa) (pos + List.length su) t.
Proof.
  intros Hi Ht. unfold complete_names in Hi. destruct (match p with PMsg m => (Some m, true) | PField (Some m) => (Some m, ranges m) | _ => (None, false) end) as [[m|] w]; [|contradiction]. destruct (map_entry m); [contradiction|].
  apply in_app_or in Hi as [Hi|Hi].
  - destruct (negb _); [|contradiction]. apply in_map_iff in Hi as (f & <- & _). cbn in Ht. injection Ht as <-. reflexivity.
  - destruct w; [|contradiction]. apply in_map_iff in Hi as (x & <- & _). discriminate.
Qed.
Lemma ext_edit exts pkg ex p pa su c n pos i t : In i (complete_names exts pkg ex p pa su (Some (paren_ref c n)) pos) -> goal i = TExt t -> c + 1 + List.length n < pos ->
  change i = mkEdit (pos - List.length pa - 1 - 1) (pos + List.length su) (b_ "(" ++ t ++ b_ ")").
Proof.
  intros Hi Ht L. unfold complete_names in Hi. destruct (match p with PMsg m => (Some m, true) | PField (Some m) => (Some m, ranges m) | _ => (None, false) end) as [[m|] w]; [|contradiction]. destruct (map_entry m); [contradiction|].
  apply in_app_or in Hi as [Hi|Hi].
  - destruct (negb _); [|contradiction]. apply in_map_iff in Hi as (f & <- & _). discriminate.
  - destruct w; [|contradiction]. apply in_map_iff in Hi as (x & <- & _). unfold ext_item, paren_ref in *. cbn [goal change opens closes] in *. injection Ht as <-. cbn [over from upto text opened closed].
    replace (c <? pos) with true by (symmetry; apply Nat.ltb_lt; lia). cbn [over from upto text]. replace (c + 1 + List.length n <? pos) with true by (symmetry; apply Nat.ltb_lt; lia). reflexivity.
Qed.
