(** C142: completion at the dots of an option's name.  C143: the type that is completed is replaced. *)
From Coq Require Import Ascii String Lia.
From Verif Require Import Base Strs.
From Verif.Offers Require Import Model Spec Proofs.
From Verif.Parts Require Import Model Spec Proofs.
Import ListNotations.
Open Scope list_scope.

(** ** C142 *)
(** Full statement: with the cursor right before a dot of an option's name, or after the last one, the fields offered are those
    of the message that this part of the name is a field of, of the names that begin with what is typed; accepting one leaves it
    in place of the part.  Missing: parts after an extension, and a cursor after a dot that is not the last (refuted below). *)
Theorem C142_before_partial : forall exts pkg options types rs trailing j r pre n post m,
  nth_error rs j = Some (r, n) -> S j < List.length rs \/ trailing = true ->
  opens r = None -> (forall i r' n', j = S i -> nth_error rs i = Some (r', n') -> opens r' = None) ->
  scope options types j m -> map_entry m = false ->
  let offered := at_dot exts pkg options types (dotted rs trailing) (S (2 * j)) true (List.length (pre ++ n)) in
  (forall t, (exists i, In i offered /\ goal i = TField t) <-> exists f, In f (fields m) /\ fname f = t /\ exists s, t = n ++ s) /\
  (forall i t, In i offered -> goal i = TField t -> accept (pre ++ n ++ post) (change i) = pre ++ t ++ post).
Proof.
  intros exts pkg options types rs trailing j r pre n post m N L O O' Sc M offered. unfold offered, at_dot. rewrite (before_dot rs trailing j r n N L).
  set (p := match Some (match j with 0 => OfOptions | S i => OfPart (2 * i) end) with None => POther | Some OfOptions => PMsg options | Some (OfPart i) => types i end).
  assert (P : p = PMsg m \/ p = PField (Some m)) by (unfold p; destruct j as [|i]; cbn [scope] in Sc; [left; now subst|now right]). split.
  - intro t. rewrite (offered_fields exts pkg [] p m n [] _ _ t P M).
    + split; intros (f & I & E & Q).
      * exists f. destruct Q as [Q _]. auto.
      * exists f. repeat split; auto. right. right. auto.
    + intros x X. destruct j as [|i]; [injection X as <-; exact O|]. destruct (nth_error rs i) as [[r' n']|] eqn:E; [|discriminate]. injection X as <-. exact (O' i r' n' eq_refl E).
  - intros i t I G. rewrite (field_edit _ _ _ _ _ _ _ _ _ _ I G). apply (accept_at pre n post); cbn [from upto]; rewrite app_length; cbn; lia.
Qed.
(** an extension in place of the extension that the name begins with *)
Theorem C142_extension_partial : forall exts pkg options types rs trailing pre n post,
  nth_error rs 0 = Some (paren_ref (List.length pre) n, n) -> 1 < List.length rs \/ trailing = true ->
  forall i t, In i (at_dot exts pkg options types (dotted rs trailing) 1 true (List.length (pre ++ b_ "(" ++ n ++ b_ ")"))) -> goal i = TExt t ->
  accept (pre ++ (b_ "(" ++ n ++ b_ ")") ++ post) (change i) = pre ++ (b_ "(" ++ t ++ b_ ")") ++ post.
Proof.
  intros exts pkg options types rs trailing pre n post N L i t I G. unfold at_dot in I. change 1 with (S (2 * 0)) in I. rewrite (before_dot rs trailing 0 _ n N L) in I. cbv iota beta in I.
  rewrite (ext_edit _ _ _ _ _ _ _ _ _ _ _ I G).
  - apply (accept_at pre (b_ "(" ++ n ++ b_ ")") post); cbn [from upto]; rewrite !app_length; cbn; lia.
  - rewrite !app_length. cbn. lia.
Qed.
(** after the last dot *)
Theorem C142_after_partial : forall exts pkg options types rs pre post m,
  rs <> [] -> types (2 * (List.length rs - 1)) = PField (Some m) -> map_entry m = false ->
  let offered := at_dot exts pkg options types (dotted rs true) (S (2 * (List.length rs - 1))) false (List.length pre) in
  (forall t, (exists i, In i offered /\ goal i = TField t) <-> exists f, In f (fields m) /\ fname f = t) /\
  (forall i t, In i offered -> goal i = TField t -> accept (pre ++ post) (change i) = pre ++ t ++ post).
Proof.
  intros exts pkg options types rs pre post m N T M offered. unfold offered, at_dot. rewrite (after_last rs N), T. split.
  - intro t. rewrite (offered_fields exts pkg [] _ m [] [] None _ t (or_intror eq_refl) M) by discriminate. split; intros (f & I & E).
    + exists f. tauto.
    + exists f. repeat split; auto; [now exists t|]. right. right. auto.
  - intros i t I G. rewrite (field_edit _ _ _ _ _ _ _ _ _ _ I G). apply (accept_at pre [] post); cbn [from upto List.length]; lia.
Qed.
(** with the cursor on a part of the name itself nothing is offered but for the first part, for which all the fields of the options
    are (the part's own name is completed elsewhere, C121) *)
Theorem C142_on_part : forall exts pkg options types rs trailing j r n before pos,
  nth_error rs j = Some (r, n) -> opens r = None ->
  let offered := at_dot exts pkg options types (dotted rs trailing) (2 * j) before pos in
  (0 < j -> offered = []) /\
  (j = 0 -> map_entry options = false -> forall t, (exists i, In i offered /\ goal i = TField t) <-> exists f, In f (fields options) /\ fname f = t).
Proof.
  intros exts pkg options types rs trailing j r n before pos N O offered. unfold offered, at_dot, at_part. rewrite nth_ref, N. cbn [option_map fst snd]. split; intro J.
  - destruct j as [|j]; [lia|]. replace (2 * S j) with (S (S (2 * j))) by lia. cbn [fst snd]. rewrite nth_dot. assert (B : S j < List.length rs) by (apply nth_error_Some; congruence).
    apply Nat.ltb_lt in B. rewrite B. reflexivity.
  - subst j. intros M t. assert (E : match dotted rs trailing with Ref r0 _ :: _ => Some r0 | _ => None end = Some r) by (destruct rs as [|[r0 n0] l]; [discriminate|]; injection N as -> ->; reflexivity).
    change (2 * 0) with 0. cbv iota beta. rewrite E. cbv iota beta. rewrite (offered_fields exts pkg [] _ options [] [] (Some r) _ t (or_introl eq_refl) M) by (intros x X; injection X as <-; exact O).
    split; intros (f & I & Ef); [exists f; tauto|]. exists f. repeat split; auto; [now exists t|]. right. right. auto.
Qed.
Definition leaf (n : string) : field := mkField (b_ n) (b_ n) false None.
Definition with_ranges : message := mkMessage [leaf "bar"; leaf "baz"] true false.
Definition without : message := mkMessage [leaf "bar"; leaf "baz"] false false.
(** a.ba|.c *)
Example abc : list (ref * bytes) := [(plain_ref 0 (b_ "a"), b_ "a"); (plain_ref 2 (b_ "ba"), b_ "ba"); (plain_ref 5 (b_ "c"), b_ "c")].
Example C142_case : map (fun i => accept (b_ "a.ba.c") (change i)) (at_dot [] (b_ "p") with_ranges (fun i => if i =? 0 then PField (Some without) else POther) (dotted abc false) 3 true 4) = [b_ "a.bar.c"; b_ "a.baz.c"].
Proof. reflexivity. Qed.
Example C142_on_part_case : nth_error abc 1 = Some (plain_ref 2 (b_ "ba"), b_ "ba") /\ opens (plain_ref 2 (b_ "ba")) = None /\
  map goal (at_dot [] (b_ "p") without (fun _ => PField (Some with_ranges)) (dotted abc false) 0 true 0) = [TField (b_ "bar"); TField (b_ "baz")].
Proof. repeat split. Qed.
(** (a).ba|.c: the parentheses of the part before count as those of the part at the cursor, and if that part's message has extension
    ranges, its fields are not offered, *)
Theorem C142_fields_refuted : exists exts pkg options types rs j r n m, nth_error rs j = Some (r, n) /\ S j < List.length rs /\ opens r = None /\ scope options types j m /\ map_entry m = false /\
  (exists f s, In f (fields m) /\ fname f = n ++ s) /\ at_dot exts pkg options types (dotted rs false) (S (2 * j)) true 6 = [].
Proof.
  exists [], (b_ "p"), with_ranges, (fun i => PField (Some with_ranges)), [(paren_ref 0 (b_ "a"), b_ "a"); (plain_ref 4 (b_ "ba"), b_ "ba"); (plain_ref 7 (b_ "c"), b_ "c")], 1. do 3 eexists. repeat split; [cbn; lia|].
  exists (leaf "bar"), (b_ "r"). split; [now left|reflexivity].
Qed.
(** and an extension is written over them. *)
Theorem C142_eaten_refuted : exists exts options types i t, let line := b_ "(a).ba.c" in
  In i (at_dot exts (b_ "p") options types (dotted [(paren_ref 0 (b_ "a"), b_ "a"); (plain_ref 4 (b_ "ba"), b_ "ba"); (plain_ref 7 (b_ "c"), b_ "c")] false) 3 true 6) /\ goal i = TExt t /\
  accept line (change i) = b_ "(a(" ++ t ++ b_ ").c".
Proof. exists [b_ "q.x"], with_ranges, (fun _ => PField (Some with_ranges)). do 2 eexists. split; [left; reflexivity|]. split; reflexivity. Qed.
(** a.| b: after a dot that is not the last, the fields of the type of the part that follows are offered *)
Theorem C142_middle_refuted : exists exts pkg options types rs j m, S j < List.length rs /\ types (2 * j) = PField (Some m) /\ (exists f, In f (fields m)) /\
  exists i, In i (at_dot exts pkg options types (dotted rs false) (S (2 * j)) false 2) /\ goal i = TField (b_ "other") /\ ~ exists f, In f (fields m) /\ fname f = b_ "other".
Proof.
  exists [], (b_ "p"), with_ranges, (fun i => if i =? 0 then PField (Some without) else PField (Some (mkMessage [leaf "other"] false false))), [(plain_ref 0 (b_ "a"), b_ "a"); (plain_ref 3 (b_ "b"), b_ "b")], 0, without.
  split; [cbn; lia|]. split; [reflexivity|]. split; [exists (leaf "bar"); now left|]. eexists. split; [left; reflexivity|]. split; [reflexivity|]. intros (f & [<-|[<-|[]]] & E); discriminate.
Qed.

(** ** C143 *)
(** Full statement: accepting a type while a field's type or an extendee is typed leaves it in place of what stands there, and
    completion does not panic.  Missing: names written with blanks or comments inside, for which both are false. *)
Theorem C143_field_partial : forall pre ident post k label, k <= List.length ident ->
  exists typed, in_field_type ident (List.length pre) (List.length pre + k) = Some typed /\ fst typed = firstn k ident /\
  accept (pre ++ ident ++ post) (type_edit typed (List.length pre + k) label) = pre ++ label ++ post.
Proof.
  intros pre ident post k label H. unfold in_field_type. replace (List.length pre + k - List.length pre) with k by lia. apply Nat.leb_le in H as H'. rewrite H'. eexists. split; [reflexivity|]. split; [reflexivity|].
  apply (accept_at pre ident post); unfold type_edit; cbn [from upto fst snd]; rewrite ?firstn_length, ?skipn_length; lia.
Qed.
Theorem C143_extendee_partial : forall pre ident post k label, k <= List.length ident ->
  exists typed, in_extendee ident (List.length pre) (List.length pre + k) = Some typed /\ fst typed = firstn k ident /\
  accept (pre ++ ident ++ post) (type_edit typed (List.length pre + k) label) = pre ++ label ++ post.
Proof.
  intros pre ident post k label H. unfold in_extendee. replace (List.length pre + k - List.length pre) with k by lia. replace (List.length ident <? k) with false by (symmetry; apply Nat.ltb_ge; lia). eexists. split; [reflexivity|]. split; [reflexivity|].
  apply (accept_at pre ident post); unfold type_edit; cbn [from upto fst snd]; rewrite ?firstn_length, ?skipn_length; lia.
Qed.
Example C143_case : in_field_type (b_ "foo.Ba") 2 7 = Some (b_ "foo.B", b_ "a") /\ accept (b_ "  foo.Ba x = 1;") (type_edit (b_ "foo.B", b_ "a") 7 (b_ "foo.Bar")) = b_ "  foo.Bar x = 1;".
Proof. split; reflexivity. Qed.
(** foo . bar|: the extendee's name is shorter than what is written *)
Theorem C143_panic_refuted : exists pre written post ident, ident = filter (fun c => negb (Ascii.eqb c " ")) written /\ pre ++ written ++ post = b_ "extend foo . bar {}" /\ in_extendee ident (List.length pre) (List.length (pre ++ written)) = None.
Proof. exists (b_ "extend "), (b_ "foo . bar"), (b_ " {}"), (b_ "foo.bar"). repeat split. Qed.
(** foo . b|ar in a field: the end of the name stays *)
Theorem C143_blanks_refuted : exists line ident pos typed, line = b_ "foo . bar x = 1;" /\ ident = b_ "foo.bar" /\ pos = 7 /\ in_field_type ident 0 pos = Some typed /\ accept line (type_edit typed pos (b_ "foo.barn")) = b_ "foo.barnar x = 1;".
Proof. exists (b_ "foo . bar x = 1;"), (b_ "foo.bar"), 7. eexists. repeat split. Qed.
Print Assumptions C142_before_partial.
Print Assumptions C142_extension_partial.
Print Assumptions C142_after_partial.
Print Assumptions C142_on_part.
Print Assumptions C142_fields_refuted.
Print Assumptions C142_eaten_refuted.
Print Assumptions C142_middle_refuted.
Print Assumptions C143_field_partial.
Print Assumptions C143_extendee_partial.
Print Assumptions C143_panic_refuted.
Print Assumptions C143_blanks_refuted.
