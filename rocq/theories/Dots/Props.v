(** Property theorems for completion at the dots of an option's name (C168). *)
From Coq Require Import Ascii String Lia.
From Verif Require Import Base Strs.
From Verif.Offers Require Import Model Spec Proofs.
From Verif.Dots Require Import Model Spec Proofs.
Open Scope list_scope.

(** After a dot at the end, all the fields of the message that the name leads to are offered and no others; *)
Theorem C168_after : forall exts pkg options c a p m pos t, type p = Some m -> map_entry m = false ->
  ((exists i, In i (complete_parts exts pkg options (tree c (a ++ [p])) (Some (2 * List.length a + 1)) false pos) /\ goal i = TField t) <-> member m [] t).
Proof.
  intros exts pkg options c a p m pos t T M. unfold complete_parts. rewrite at_trailing, T. apply fields_offered; [|exact M]. right. split; [reflexivity|discriminate].
Qed.
(** extensions are offered too, if the message can have some; nothing is offered if the name leads to no message; *)
Theorem C168_after_extensions : forall exts pkg options c a p pos x, 
  ((exists i, In i (complete_parts exts pkg options (tree c (a ++ [p])) (Some (2 * List.length a + 1)) false pos) /\ goal i = TExt x) ->
   exists m, type p = Some m /\ ranges m = true) /\
  (type p = None -> complete_parts exts pkg options (tree c (a ++ [p])) (Some (2 * List.length a + 1)) false pos = []).
Proof.
  intros exts pkg options c a p pos x. unfold complete_parts. rewrite at_trailing. split; [|now intros ->]. intros (i & I & G). unfold complete_names in I.
  destruct (type p) as [m|]; [|destruct I]. exists m. split; [reflexivity|]. destruct (map_entry m); [destruct I|]. cbn [negb] in I. apply in_app_or in I as [I|I].
  - apply in_map_iff in I as (f & <- & _). discriminate.
  - now destruct (ranges m).
Qed.
(** and accepting an offer puts it after the dot. *)
Theorem C168_after_accept : forall exts pkg options pre a p post i,
  In i (complete_parts exts pkg options (tree (List.length pre) (a ++ [p])) (Some (2 * List.length a + 1)) false (List.length (pre ++ dotted (a ++ [p])))) ->
  accept (pre ++ dotted (a ++ [p]) ++ post) (change i) = pre ++ dotted (a ++ [p]) ++ written false (goal i) ++ post.
Proof.
  intros exts pkg options pre a p post i I. unfold complete_parts in I. rewrite at_trailing in I. rewrite !(app_assoc pre). set (l := pre ++ dotted (a ++ [p])) in *. clearbody l.
  apply items_edits in I as [(f & -> & _)|(x & _ & ->)]; unfold accept; cbn; rewrite Nat.sub_0_r, Nat.add_0_r, firstn_app, firstn_all, Nat.sub_diag, skipn_app, skipn_all, Nat.sub_diag; cbn; now rewrite app_nil_r, <- ?app_assoc.
Qed.

(** At the end of the first name, before the dot, the options that start as it does are offered, *)
Theorem C168_first : forall exts pkg options c p z pos t, ext p = false -> map_entry options = false ->
  ((exists i, In i (complete_parts exts pkg options (tree c (p :: z)) (Some 1) true pos) /\ goal i = TField t) <-> member options (word p) t).
Proof.
  intros exts pkg options c p z pos t E M. unfold complete_parts. rewrite at_first, E. apply fields_offered; [|exact M]. left. split; [reflexivity|]. now intros r' [= <-].
Qed.
(** and accepting one, or an extension if the name is one, replaces the name and nothing else. *)
Theorem C168_first_accept : forall exts pkg options pre p z post i, ext p = (match goal i with TExt _ => true | TField _ => false end) ->
  In i (complete_parts exts pkg options (tree (List.length pre) (p :: z)) (Some 1) true (List.length (pre ++ shown p))) ->
  accept (pre ++ shown p ++ post) (change i) = pre ++ written false (goal i) ++ post.
Proof.
  intros exts pkg options pre p z post i E I. unfold complete_parts in I. rewrite at_first in I. unfold shown in *. 
  apply items_edits in I as [(f & -> & _)|(x & _ & ->)]; cbn [goal field_item ext_item] in E; rewrite E in *.
  - rewrite accept_at; [reflexivity| |]; cbn [change field_item from upto text List.length]; rewrite app_length; lia.
  - assert (W : from (change (ext_item pkg (List.length (pre ++ b_ "(" ++ word p ++ b_ ")")) (word p) [] (Some (paren_ref (List.length pre) (word p))) x)) = List.length pre /\
                upto (change (ext_item pkg (List.length (pre ++ b_ "(" ++ word p ++ b_ ")")) (word p) [] (Some (paren_ref (List.length pre) (word p))) x)) = List.length pre + List.length (b_ "(" ++ word p ++ b_ ")")).
    { unfold ext_item. cbn [change goal opens closes paren_ref over]. rewrite !app_length. cbn [List.length b_ list_ascii_of_string].
      destruct (Nat.ltb_spec (List.length pre) (List.length pre + (1 + (List.length (word p) + 1)))); [|lia]. cbn [from upto text].
      destruct (Nat.ltb_spec (List.length pre + 1 + List.length (word p)) (List.length pre + (1 + (List.length (word p) + 1)))); [|lia]. cbn [from upto text]. lia. }
    destruct W as [W1 W2]. rewrite (accept_at _ _ _ _ W1 W2). reflexivity.
Qed.

(** At the end of a later name, the fields of the message that the names before it lead to are offered, and accepting one
    replaces the name; so if neither it nor the name before it is an extension. *)
Theorem C168_inner_partial : forall exts pkg options c a q p z m pos t, ext q = false \/ ranges m = false -> type q = Some m -> map_entry m = false ->
  ((exists i, In i (complete_parts exts pkg options (tree c (a ++ q :: p :: z)) (Some (2 * List.length a + 3)) true pos) /\ goal i = TField t) <-> member m (word p) t).
Proof.
  intros exts pkg options c a q p z m pos t E T M. unfold complete_parts. rewrite at_inner, T. apply fields_offered; [|exact M]. right. split; [reflexivity|].
  intros r' [= <-] X. destruct E as [E|E]; [rewrite E in X; discriminate|exact E].
Qed.
Theorem C168_inner_accept_partial : forall exts pkg options pre a q p z post i t, ext p = false -> goal i = TField t ->
  let line := pre ++ dotted a ++ shown q ++ b_ "." in
  In i (complete_parts exts pkg options (tree (List.length pre) (a ++ q :: p :: z)) (Some (2 * List.length a + 3)) true (List.length (line ++ shown p))) ->
  accept (line ++ shown p ++ post) (change i) = line ++ t ++ post.
Proof.
  intros exts pkg options pre a q p z post i t E G line I. unfold complete_parts in I. rewrite at_inner in I. clearbody line. unfold shown in *. rewrite E in *.
  apply items_edits in I as [(f & -> & _)|(x & _ & ->)]; [|discriminate]. injection G as <-.
  rewrite accept_at; [reflexivity| |]; cbn [change field_item from upto text List.length]; rewrite app_length; lia.
Qed.

Definition b (s : string) : bytes := b_ s.
Definition fld (n : string) : field := mkField (b n) (b "p.M." ++ b n) false None.
Definition inner : message := mkMessage [fld "bar"; fld "baz"] true false.
Definition opts : message := mkMessage [fld "features"; fld "foo"] true false.
Definition foo : piece := mkPiece false (b "foo") (Some inner).
Definition (* an extension of the type of foo *) own : piece := mkPiece true (b "p.x") (Some inner).
Definition ba : piece := mkPiece false (b "ba") None.
Example C168_after_case : map label (complete_parts [] (b "p") opts (tree 7 [foo]) (Some 1) false 11) = [b "bar"; b "baz"].
Proof. reflexivity. Qed.
Example C168_first_case : map label (complete_parts [] (b "p") opts (tree 7 [mkPiece false (b "f") None; ba]) (Some 1) true 8) = [b "features"; b "foo"].
Proof. reflexivity. Qed.
Example C168_inner_case : map label (complete_parts [] (b "p") opts (tree 7 [foo; ba; ba]) (Some 3) true 13) = [b "bar"; b "baz"].
Proof. reflexivity. Qed.

(** After an extension of a message that can have extensions, no field is offered though some start as the name does. *)
Theorem C168_inner_refuted : exists exts pkg options c q p z m pos t, type q = Some m /\ map_entry m = false /\ member m (word p) t /\
  ~ exists i, In i (complete_parts exts pkg options (tree c (q :: p :: z)) (Some 3) true pos) /\ goal i = TField t.
Proof.
  exists [], (b "p"), opts, 7, own, ba, [ba], inner, 15, (b "bar"). split; [reflexivity|]. split; [reflexivity|]. split; [exists (fld "bar"), (b "r"); repeat split; now left|]. intros (i & [] & _).
Qed.
(** After a field, accepting an offer in the place of an extension writes a name with unpaired parentheses. *)
Theorem C168_inner_accept_refuted : exists exts pkg options pre q p z post i,
  In i (complete_parts exts pkg options (tree (List.length pre) (q :: p :: z)) (Some 3) true (List.length (pre ++ shown q ++ b_ "." ++ shown p))) /\
  pre ++ shown q ++ b_ "." ++ shown p ++ post = b "option foo.(p.x).ba = 1;" /\
  accept (pre ++ shown q ++ b_ "." ++ shown p ++ post) (change i) = b "option foo.(pp.y.ba = 1;" /\ goal i = TExt (b "p.y").
Proof.
  exists [b "p.y"], (b "q"), opts, (b "option "), foo, (mkPiece true (b "p.x") (Some inner)), [ba], (b ".ba = 1;"). eexists. split; [left; reflexivity|]. split; [reflexivity|]. split; reflexivity.
Qed.

Print Assumptions C168_after.
Print Assumptions C168_after_extensions.
Print Assumptions C168_after_accept.
Print Assumptions C168_first.
Print Assumptions C168_first_accept.
Print Assumptions C168_inner_partial.
Print Assumptions C168_inner_accept_partial.
Print Assumptions C168_inner_refuted.
Print Assumptions C168_inner_accept_refuted.
