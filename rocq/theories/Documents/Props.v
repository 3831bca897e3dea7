(** Property theorems for file events and text synchronisation (C04-C06). *)
From Coq Require Import Ascii String.
From Verif Require Import Base.
From Verif.Versions Require Import Model Spec.
From Verif.Print Require Import Model.
From Verif.Documents Require Import Model Spec Positions Proofs.
Open Scope list_scope.

(* ------------------------- C04 ------------------------- *)

(** C04, full statement: whatever the client does between opening and closing
    a document, as long as its versions do not decrease, neither does the
    published version. It is false: a save publishes version 0. The witness
    opens a document at version 5, saves it, and then a wait for version 5 -
    already processed - blocks. *)
Definition ex_env : env := mkEnv (fun u => Some u) (fun u => Some u) (fun _ => false) (fun _ => 5%Z).

Theorem C04_published_version_monotone_refuted :
  exists (h : session) (u : uri) (w : waiter),
    client_versions u h = [5%Z] /\
    latest (published_all h) u = Some 0%Z /\
    ~ released (run (ops_of h ++ [OEnter w u 5%Z])) w.
Proof.
  exists [(ex_env, EOpen 1 5%Z true); (ex_env, ESave 1)], 1, 0.
  repeat split; try (vm_compute; reflexivity). vm_compute. discriminate.
Qed.

(** What holds: without saves and on-disk notifications for the document.
    Missing for the full property: saves (refuted above). *)
Theorem C04_published_version_monotone_partial :
  forall u h1 h2 a b,
  (forall e ev, In (e, ev) (h1 ++ h2) -> ~ touches_save_or_disk u ev) ->
  (forall x y, In x (client_versions u h1) -> In y (client_versions u h2) -> (x <= y)%Z) ->
  latest (published_all h1) u = Some a ->
  latest (published_all (h1 ++ h2)) u = Some b -> (a <= b)%Z.
Proof. exact version_monotone. Qed.

(** Every change of a resolvable document is published, as the only
    publication of that notification. *)
Theorem C04_change_publishes_its_version :
  forall e u v p, path_after e u = Some p -> published e (EChange u v) = [(u, v)].
Proof. exact change_publishes. Qed.

(** Closing a document publishes nothing, so the marker -1 that would release
    the waits on it is never seen: waits pending at the close stay pending. *)
Theorem C04_close_releases_waits_refuted :
  forall e u, published e (EClose u) = [].
Proof. exact close_publishes_nothing. Qed.

Example C04_partial_example :
  let h1 := [(ex_env, EOpen 1 5%Z true)] in
  let h2 := [(ex_env, EChange 1 6%Z); (ex_env, EClose 1)] in
  (forall e ev, In (e, ev) (h1 ++ h2) -> ~ touches_save_or_disk 1 ev) /\
  (forall x y, In x (client_versions 1 h1) -> In y (client_versions 1 h2) -> (x <= y)%Z) /\
  latest (published_all h1) 1 = Some 5%Z /\ latest (published_all (h1 ++ h2)) 1 = Some 6%Z.
Proof.
  cbn. repeat split.
  - intros e ev [[= _ <-]|[[= _ <-]|[[= _ <-]|[]]]]; cbn; tauto.
  - intros x y [<-|[]] [<-|[]]. lia.
Qed.

(* ------------------------- C05 ------------------------- *)

(** C05: a batch of file events is applied without exactly its unresolvable
    events if and only if it has at most one of them. *)
Theorem C05_batch_filtered_iff_at_most_one_unresolvable :
  forall e mods,
  (exists o, did_modify e mods = Some o /\ o_applied o = filter (resolvable e) mods)
  <-> unresolvable_count e mods <= 1.
Proof. exact did_modify_exact. Qed.

(** With at most one unresolvable event, the versions published are those of
    the resolvable events (nothing if nothing needs recompiling). *)
Theorem C05_batch_published_partial :
  forall e mods, unresolvable_count e mods <= 1 ->
  exists o, did_modify e mods = Some o /\ o_applied o = filter (resolvable e) mods /\
            o_published o = match o_recompiled o with [] => [] | _ => filter (resolvable e) mods end.
Proof. exact did_modify_at_most_one. Qed.

(** Whatever the batch, if it is handled, exactly the paths it asks for are
    compiled. *)
Theorem C05_batch_compiled :
  forall e mods o p, did_modify e mods = Some o ->
  (In p (o_recompiled o) <-> exists m, In m mods /\ asks e m p).
Proof. exact did_modify_compiled. Qed.

(** With two or more, either the server panics or an unresolvable event is
    applied. *)
Theorem C05_batch_two_unresolvable_refuted :
  forall e mods o, 2 <= unresolvable_count e mods -> did_modify e mods = Some o ->
  exists m, In m (o_applied o) /\ resolvable e m = false.
Proof. exact did_modify_two_or_more. Qed.

Definition ex_env2 : env :=
  mkEnv (fun _ => None) (fun u => if Nat.even u then Some u else None) (fun _ => false) (fun _ => 0%Z).
Definition cr (u : uri) := mkMod u ACreate (-1)%Z false.

(** Both failure modes occur: a panic, and a resolvable event (4) dropped while
    an unresolvable one (3) is applied. *)
Example C05_panic : did_modify ex_env2 [cr 1; cr 3] = None.
Proof. reflexivity. Qed.
Example C05_wrong_event :
  option_map o_applied (did_modify ex_env2 [cr 1; cr 2; cr 3; cr 4]) = Some [cr 2; cr 3].
Proof. reflexivity. Qed.
Example C05_ok_example :
  unresolvable_count ex_env2 [cr 2; cr 1; cr 4] = 1 /\
  option_map o_published (did_modify ex_env2 [cr 2; cr 1; cr 4]) = Some [cr 2; cr 4].
Proof. split; reflexivity. Qed.

Example C05_compiled_example :
  option_map o_recompiled (did_modify ex_env2 [mkMod 2 ASave 0%Z false; mkMod 4 AClose 0%Z false; mkMod 6 AOpen 1%Z false; mkMod 8 AOpen 1%Z true]) = Some [2; 8].
Proof. reflexivity. Qed.

(* ------------------------- C06 ------------------------- *)

Definition tx (s : string) : text := list_ascii_of_string s.
Definition ins (c : nat) (s : string) := mkChange (Some ((0, c), (0, c))) true (tx s).
Definition rep (c1 c2 : nat) (s : string) := mkChange (Some ((0, c1), (0, c2))) false (tx s).

(** C06, full statement: for every text and non-empty list of changes,
    [changed_text t cs = ROk t' <-> apply_changes t cs = Some t']. It is false:
    a second change positioned after the first is applied at the wrong place. *)
Theorem C06_changes_applied_in_sequence_refuted :
  exists t cs t1 t2,
    changed_text t cs = ROk t1 /\ apply_changes t cs = Some t2 /\ t1 <> t2.
Proof.
  exists (tx "abc"), [ins 0 "X"; ins 1 "Y"], (tx "XaYbc"), (tx "XYabc").
  repeat split; try reflexivity. discriminate.
Qed.

(** It may also reject a legal notification, or crash on one (a full-text
    change among several). *)
Theorem C06_legal_changes_accepted_refuted :
  exists t cs t2, changed_text t cs = RErr /\ apply_changes t cs = Some t2.
Proof.
  exists (tx "abc"), [rep 0 2 "XYZ"; rep 1 3 "-"], (tx "X-c"). split; reflexivity.
Qed.

Theorem C06_full_text_among_changes_refuted :
  exists t cs t2, changed_text t cs = RPanic /\ apply_changes t cs = Some t2.
Proof.
  exists (tx "abc"), [mkChange None true (tx "new"); ins 0 "X"], (tx "Xnew"). split; reflexivity.
Qed.

(** What holds: one change per notification (any kind), *)
Theorem C06_single_change :
  forall t c t',
  (c_range c = None -> c_len0 c = true) ->
  (changed_text t [c] = ROk t' <-> apply_change t c = Some t').
Proof. exact changed_text_single. Qed.

(** and any number of changes ordered from the end of the document towards its
    start (what multi-cursor editors send). Missing: every other order. *)
Theorem C06_descending_changes_partial :
  forall t cs, cs <> [] -> descending t (length t) false cs ->
  exists t', changed_text t cs = ROk t' /\ apply_changes t cs = Some t'.
Proof. exact changed_text_descending. Qed.

Definition euro : text := [ascii_of_nat 226; ascii_of_nat 130; ascii_of_nat 172].            (* U+20AC *)
Definition clef : text := [ascii_of_nat 240; ascii_of_nat 157; ascii_of_nat 132; ascii_of_nat 158]. (* U+1D11E *)
Lemma C06_ascii x s n : (code x < 128)%N -> code x <> 10%N -> chars s n -> chars (x :: s) (S n).
Proof.
  intros L N10 C. assert (E : encode_rune (code x) = [x]).
  { unfold encode_rune. apply N.ltb_lt in L. rewrite L. unfold chr, code. now rewrite ascii_N_embedding. }
  change (x :: s) with ([x] ++ s). rewrite <- E. apply chars_one; auto; unfold scalar; lia.
Qed.
Lemma C06_euro s n : chars s n -> chars (euro ++ s) (S n).
Proof. apply (chars_one 8364); [unfold scalar; lia|lia|lia]. Qed.
Lemma C06_clef s n : chars s n -> chars (clef ++ s) (S (S n)).
Proof. apply (chars_two 119070); [unfold scalar; lia|lia]. Qed.

(** The places that positions denote: lines are ended by line feeds and the
    columns of a line count the UTF-16 units of its characters, so a euro sign
    is one column and three bytes, a clef two columns and four bytes. The
    server also accepts a column inside a clef, for the place before it, and
    the start of the line after the last one, for the end of the text; it
    accepts no other position. *)
Theorem C06_positions :
  forall t l c k, poff t l c = Some k <-> position t l c k \/ inside t l c k \/ past_end t l c k.
Proof. exact poff_spec. Qed.

Example C06_positions_example :
  let t := tx "a" ++ [newline] ++ euro ++ clef ++ tx "b" in
  position t 1 3 9 /\ inside t 1 2 5 /\ past_end t 2 0 10 /\
  poff t 1 3 = Some 9 /\ poff t 1 5 = None /\ poff t 0 2 = None /\ poff (ascii_of_nat 200 :: t) 0 1 = None.
Proof.
  cbn zeta. split; [|split; [|split; [|repeat split; vm_compute; reflexivity]]].
  - exists (tx "a" ++ [newline]), (euro ++ clef), (tx "b"). split; [reflexivity|]. split; [reflexivity|].
    split; [split; [reflexivity|right; now exists (tx "a")]|]. apply C06_euro. rewrite <- (app_nil_r clef). apply C06_clef, chars_nil.
  - exists 1, 119070%N, (tx "a" ++ [newline]), euro, (tx "b"). split; [reflexivity|]. split; [unfold scalar; lia|].
    split; [lia|]. split; [reflexivity|]. split; [reflexivity|].
    split; [split; [reflexivity|right; now exists (tx "a")]|]. rewrite <- (app_nil_r euro). apply C06_euro, chars_nil.
  - repeat split.
Qed.

Example C06_descending_example :
  let t := tx "ab" ++ [newline] ++ euro ++ clef ++ tx "ef" in
  let cs := [mkChange (Some ((1, 3), (1, 5))) false (tx "X");
             mkChange (Some ((1, 3), (1, 3))) true (tx "Y");
             mkChange (Some ((0, 1), (1, 1))) false (tx "Z")] in
  descending t (length t) false cs /\ changed_text t cs = ROk (tx "aZ" ++ clef ++ tx "YX").
Proof.
  cbn zeta. split; [|vm_compute; reflexivity]. cbn [descending].
  set (t := tx "ab" ++ [newline] ++ euro ++ clef ++ tx "ef").
  assert (W : whole_lines (tx "ab" ++ [newline]) 1) by (split; [reflexivity|right; now exists (tx "ab")]).
  assert (P3 : position t 1 3 10).
  { exists (tx "ab" ++ [newline]), (euro ++ clef), (tx "ef"). repeat (split; [reflexivity||assumption|]).
    apply C06_euro. rewrite <- (app_nil_r clef). apply C06_clef, chars_nil. }
  assert (P5 : position t 1 5 12).
  { exists (tx "ab" ++ [newline]), (euro ++ clef ++ tx "ef"), []. repeat (split; [reflexivity||assumption|]).
    apply C06_euro, C06_clef. repeat (apply C06_ascii; [vm_compute; reflexivity|vm_compute; discriminate|]). apply chars_nil. }
  assert (P1 : position t 1 1 6).
  { exists (tx "ab" ++ [newline]), euro, (clef ++ tx "ef"). repeat (split; [reflexivity||assumption|]).
    rewrite <- (app_nil_r euro). apply C06_euro, chars_nil. }
  assert (P0 : position t 0 1 1).
  { exists [], (tx "a"), (tx "b" ++ [newline] ++ euro ++ clef ++ tx "ef"). split; [reflexivity|]. split; [reflexivity|].
    split; [split; [reflexivity|now left]|].
    repeat (apply C06_ascii; [vm_compute; reflexivity|vm_compute; discriminate|]). apply chars_nil. }
  exists 1, 3, 1, 5, 10, 12. split; [reflexivity|]. split; [exact P3|]. split; [exact P5|]. split; [lia|]. split; [cbn; lia|]. split; [lia|].
  exists 1, 3, 1, 3, 10, 10. split; [reflexivity|]. split; [exact P3|]. split; [exact P3|]. split; [lia|]. split; [lia|]. split; [cbn; lia|].
  exists 0, 1, 1, 1, 1, 6. split; [reflexivity|]. split; [exact P0|]. split; [exact P1|]. split; [lia|]. split; [lia|]. split; [lia|exact I].
Qed.

Print Assumptions C04_published_version_monotone_refuted.
Print Assumptions C04_published_version_monotone_partial.
Print Assumptions C04_change_publishes_its_version.
Print Assumptions C04_close_releases_waits_refuted.
Print Assumptions C05_batch_filtered_iff_at_most_one_unresolvable.
Print Assumptions C05_batch_published_partial.
Print Assumptions C05_batch_compiled.
Print Assumptions C05_batch_two_unresolvable_refuted.
Print Assumptions C06_changes_applied_in_sequence_refuted.
Print Assumptions C06_legal_changes_accepted_refuted.
Print Assumptions C06_full_text_among_changes_refuted.
Print Assumptions C06_positions.
Print Assumptions C06_single_change.
Print Assumptions C06_descending_changes_partial.
