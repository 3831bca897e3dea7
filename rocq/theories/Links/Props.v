(** Document links, import hints and formatting requests: theorems C107 to C109. *)
From Coq Require Import Ascii String.
From Verif Require Import Base Strs.
From Verif.Links Require Import Model Spec Proofs.
Open Scope list_scope.

(** ** C107: links *)

(** Whatever links and hints were asked for before, each request for links is
    answered with the links from each import's literal to the file it resolved
    to. *)
Theorem C107_links : forall target imports resolved deps before,
  records imports resolved deps -> plain imports resolved deps ->
  fst (links target imports (snd (serve_all target imports deps before))) = Some (expected target imports resolved).
Proof.
  intros target imports resolved deps before R P.
  pose proof (serve_all_ok target imports resolved deps R P (before ++ [Links]) deps (or_introl eq_refl)) as H.
  rewrite map_app in H.
  assert (X : forall rs d, fst (serve_all target imports d (rs ++ [Links])) =
    fst (serve_all target imports d rs) ++ [ALinks (fst (links target imports (snd (serve_all target imports d rs))))]).
  { induction rs as [|r rs IH]; intros d; cbn [serve_all app].
    - unfold serve. cbn [fst snd app]. destruct (links target imports d). reflexivity.
    - destruct (serve target imports d r) as [a d']. specialize (IH d').
      destruct (serve_all target imports d' (rs ++ [Links])), (serve_all target imports d' rs). cbn [fst snd] in *. now rewrite IH. }
  rewrite X in H. apply app_inj_tail in H as [_ H]. cbn [right_answer] in H. congruence.
Qed.
Example C107_links_case :
  let imports := [mkImport (b_ "a.proto") 2 7 16; mkImport (b_ "b.proto") 3 7 16] in
  let resolved := [b_ "x/a.proto"; b_ "b.proto"] in
  let deps := [b_ "x/a.proto"; desc_file; b_ "b.proto"] in
  records imports resolved deps /\ plain imports resolved deps /\
  fst (links (fun p => Some (b_ "file:///" ++ p)) imports deps) =
    Some [(mkImport (b_ "a.proto") 2 7 16, b_ "file:///x/a.proto"); (mkImport (b_ "b.proto") 3 7 16, b_ "file:///b.proto")].
Proof.
  cbv zeta. split; [split; [reflexivity|right; now exists [b_ "x/a.proto"], [b_ "b.proto"]]|].
  split; [|vm_compute; reflexivity]. split; [intros (i & [<-|[<-|[]]] & E); discriminate E|]. intros _ [E|[E|[]]]; discriminate.
Qed.

(** Exactly when a request crashes. *)
Theorem C107_crash_iff : forall target imports deps,
  fst (links target imports deps) = None <->
  List.length deps < List.length imports \/
  (List.length deps = List.length imports /\ In desc_file deps /\ forall i, In i imports -> i_name i <> desc_file).
Proof.
  intros target imports deps. unfold links.
  assert (Sx : spelled imports = false <-> forall i, In i imports -> i_name i <> descriptor).
  { unfold spelled. split.
    - intros E i I X. assert (Y : existsb (fun i => beq (i_name i) descriptor) imports = true)
        by (apply existsb_exists; exists i; split; [exact I | now apply beq_eq]). congruence.
    - intros H. apply not_true_is_false. intros E. apply existsb_exists in E as (i & I & E). apply beq_eq in E. now apply (H i). }
  unfold view. destruct (spelled imports) eqn:Sp.
  - cbn [fst]. rewrite zip_none. split; [now left|]. intros [L|(_ & _ & N)]; [exact L|]. apply Sx in N. discriminate.
  - assert (N : forall i, In i imports -> i_name i <> descriptor) by now apply Sx.
    destruct (find_dep deps) as [i|] eqn:F.
    + cbn [fst]. rewrite zip_none. destruct (find_dep_some deps i F) as (a & b & -> & -> & _). rewrite cut_split.
      rewrite !app_length. cbn [List.length]. split.
      * intros L. destruct (Nat.eq_dec (List.length a + S (List.length b)) (List.length imports)) as [E|E]; [right|left; lia].
        split; [exact E|]. split; [apply in_or_app; right; now left | exact N].
      * intros [L|(L & _)]; lia.
    + cbn [fst]. rewrite zip_none. apply find_dep_none in F. tauto.
Qed.
Example C107_crash_iff_case : fst (links (fun p => Some p) [mkImport desc_file 0 7 41] [desc_file]) <> None.
Proof. vm_compute. discriminate. Qed.

(** An import of the descriptor by another name crashes the request. *)
Theorem C107_other_name_refuted : exists target imports resolved deps,
  records imports resolved deps /\ fst (links target imports deps) = None /\ fst (hints imports deps) = None.
Proof.
  exists (fun p => Some p), [mkImport (b_ "protobuf/descriptor.proto") 0 7 34], [descriptor], [descriptor].
  split; [split; [reflexivity|now left]|]. split; vm_compute; reflexivity.
Qed.

(** The file's recorded dependencies survive a request exactly if nothing had to
    be left out or it was the last one. *)
Theorem C107_kept_iff : forall target imports deps, NoDup deps ->
  (snd (links target imports deps) = deps <->
   named imports \/ ~ In desc_file deps \/ exists a, deps = a ++ [desc_file]).
Proof.
  intros target imports deps ND. rewrite <- spelled_named. unfold links, view. destruct (spelled imports); [cbn; tauto|].
  destruct (find_dep deps) as [i|] eqn:F.
  - cbn [snd]. destruct (find_dep_some deps i F) as (a & b & E & -> & N). subst deps. unfold after_cut. rewrite cut_split. split.
    + intros E. right. right. destruct (exists_last_or b) as [->|(b' & y & ->)]; [now exists a|]. exfalso.
      rewrite <- app_assoc in E. apply app_inv_head in E. destruct b' as [|z b'].
      * cbn in E. injection E as E1 E2. apply NoDup_remove_2 in ND. apply ND. apply in_or_app. right. subst y. now left.
      * cbn [app] in E. injection E as E1 E2. apply NoDup_remove_2 in ND. apply ND. apply in_or_app. right. subst z. now left.
    + intros [X|[X|[c E]]]; [discriminate| |].
      * elim X. apply in_or_app. right. now left.
      * destruct (exists_last_or b) as [->|(b' & y & ->)]; [now rewrite app_nil_r, last_last|].
        exfalso. change (a ++ descriptor :: b' ++ [y]) with (a ++ (descriptor :: b') ++ [y]) in E. rewrite app_assoc in E.
        apply app_inj_tail in E as [_ E]. subst y. apply NoDup_remove_2 in ND. apply ND. rewrite !in_app_iff. right. right. now left.
  - cbn [snd]. apply find_dep_none in F. tauto.
Qed.
Example C107_kept_iff_case : NoDup [b_ "a"; desc_file; b_ "b"] /\ NoDup [b_ "a"; b_ "b"; desc_file].
Proof. repeat constructor; cbn; intuition discriminate. Qed.

(** Otherwise a request for links, made with the read lock, changes them: *)
Theorem C107_kept_refuted : exists target imports resolved deps,
  records imports resolved deps /\ plain imports resolved deps /\
  snd (links target imports deps) = [b_ "a.proto"; b_ "a.proto"] /\ deps = [desc_file; b_ "a.proto"].
Proof.
  exists (fun p => Some p), [mkImport (b_ "a.proto") 0 7 16], [b_ "a.proto"], [descriptor; b_ "a.proto"].
  split; [split; [reflexivity|right; now exists [], [b_ "a.proto"]]|].
  split; [split; [intros (i & [<-|[]] & E); discriminate E|]; intros _ [E|[]]; discriminate|]. split; [vm_compute; reflexivity|reflexivity].
Qed.

(** ** C108: import hints *)

(** Whatever was asked for before, the hints are those of each import with the
    path it resolved to. *)
Theorem C108_hints : forall target imports resolved deps before,
  records imports resolved deps -> plain imports resolved deps ->
  fst (serve_all target imports deps (before ++ [Hints])) =
  fst (serve_all target imports deps before) ++ [AHints (Some (flat_map (fun ip => hint_for (fst ip) (snd ip)) (combine imports resolved)))].
Proof.
  intros target imports resolved deps before R P.
  rewrite !(serve_all_ok target imports resolved deps R P _ deps (or_introl eq_refl)). now rewrite map_app.
Qed.
Example C108_hints_case : hint_for (mkImport (b_ "b.proto") 3 7 16) (b_ "a/b.proto") =
  [mkHint 3 8 (b_ "a/") 8 15 (b_ "a/b.proto")].
Proof. vm_compute. reflexivity. Qed.

(** A hint is shown exactly for imports that resolve to another path. *)
Theorem C108_shown_iff : forall i p, hint_for i p <> [] <-> p <> i_name i.
Proof.
  intros i p. unfold hint_for. destruct (beq p (i_name i)) eqn:B.
  - apply beq_eq in B. split; congruence.
  - apply beq_neq in B. destruct (has_suffix p (i_name i)); split; intros _; (exact B || discriminate).
Qed.
Example C108_shown_iff_case : hint_for (mkImport (b_ "b.proto") 3 7 16) (b_ "b.proto") = [].
Proof. vm_compute. reflexivity. Qed.

(** Accepting it makes the literal that path, and the hint goes away. *)
Theorem C108_accept : forall line i quote pre inside post p h,
  literal_at line i quote pre inside post -> In h (hint_for i p) ->
  accept line h = pre ++ quote :: p ++ quote :: post /\
  forall s e, hint_for (mkImport p (i_line i) s e) p = [].
Proof.
  intros line i quote pre inside post p h (-> & Es & Ee) I. split.
  - unfold hint_for in I. destruct (beq p (i_name i)); [destruct I|].
    destruct (if has_suffix p (i_name i) then _ else _) as [col label]. destruct I as [<-|[]]. unfold accept. cbn [h_from h_to h_new].
    rewrite Es, Ee. replace (List.length pre + List.length inside + 2 - 1) with (List.length (pre ++ quote :: inside)) by (rewrite app_length; cbn; lia).
    replace (pre ++ quote :: inside ++ quote :: post) with ((pre ++ quote :: inside) ++ quote :: post) by (now rewrite <- app_assoc).
    rewrite skipn_app, skipn_all, Nat.sub_diag. cbn [skipn app].
    replace (List.length pre + 1) with (List.length (pre ++ [quote])) by (rewrite app_length; cbn; lia).
    replace ((pre ++ quote :: inside) ++ quote :: post) with ((pre ++ [quote]) ++ inside ++ quote :: post) by (now rewrite <- !app_assoc).
    rewrite firstn_app, firstn_all, Nat.sub_diag. cbn [firstn]. rewrite app_nil_r. now rewrite <- app_assoc.
  - intros s e. unfold hint_for. cbn [i_name]. now rewrite beq_refl.
Qed.
Example C108_accept_case : literal_at (b_ "import ""b.proto"";") (mkImport (b_ "b.proto") 3 7 16) """"%char (b_ "import ") (b_ "b.proto") (b_ ";") /\
  map (accept (b_ "import ""b.proto"";")) (hint_for (mkImport (b_ "b.proto") 3 7 16) (b_ "a/b.proto")) = [b_ "import ""a/b.proto"";"].
Proof. split; [repeat split|vm_compute; reflexivity]. Qed.

(** Where possible the hint is shown so that with it the literal reads as the
    resolved path; otherwise it is the resolved path, after the literal. *)
Theorem C108_reads : forall line i quote pre post p h,
  literal_at line i quote pre (i_name i) post -> In h (hint_for i p) ->
  ((exists more, p = more ++ i_name i) ->
   firstn (h_col h) line ++ h_label h ++ skipn (h_col h) line = pre ++ quote :: p ++ quote :: post) /\
  ((~ exists more, p = more ++ i_name i) -> h_label h = p /\ i_end i < h_col h).
Proof.
  intros line i quote pre post p h (-> & Es & Ee) I. unfold hint_for in I.
  destruct (beq p (i_name i)) eqn:B; [destruct I|].
  destruct (has_suffix p (i_name i)) eqn:S.
  - destruct I as [<-|[]]. cbn [h_col h_label]. apply has_suffix_spec in S. split; [intros _ | intros N; contradiction].
    destruct S as [more ->]. unfold trim_suffix. rewrite drop_tail, Es.
    replace (List.length pre + 1) with (List.length (pre ++ [quote])) by (rewrite app_length; cbn; lia).
    replace (pre ++ quote :: i_name i ++ quote :: post) with ((pre ++ [quote]) ++ i_name i ++ quote :: post) by (now rewrite <- !app_assoc).
    rewrite firstn_app, firstn_all, skipn_app, skipn_all, Nat.sub_diag. cbn [firstn skipn app]. rewrite app_nil_r.
    now rewrite <- !app_assoc.
  - destruct I as [<-|[]]. cbn [h_col h_label]. split.
    + intros X. apply has_suffix_spec in X. congruence.
    + intros _. split; [reflexivity|lia].
Qed.
Example C108_reads_case : exists more, b_ "a/b.proto" = more ++ b_ "b.proto".
Proof. now exists (b_ "a/"). Qed.

(** ** C109: formatting requests *)

(** A request during which nothing is changed, in whatever way other requests
    are interleaved with it, is answered for the document's text: no edits if
    it does not parse or opts out, otherwise edits to its formatted form. *)
Theorem C109_undisturbed_partial : forall parses nofmt format s rs es n,
  settled parses s -> rs n = Before -> Forall is_read es -> 3 <= reads n es ->
  snd (run parses nofmt format es (s, rs)) n =
  if (negb (parses (overlay s)) || nofmt (overlay s))%bool then NoEdits else Edits (overlay s) (format (overlay s)).
Proof.
  intros parses nofmt format s rs es n [S1 S2] B F L. destruct (run_reads parses nofmt format es F s rs n) as [_ E]. rewrite E, B.
  remember (reads n es) as k eqn:Ek. clear Ek E. destruct k as [|[|[|k]]]; try lia. cbn [iter step_req]. rewrite S1.
  destruct (parses (overlay s)) eqn:P; cbn [negb orb step_req].
  - rewrite (S2 eq_refl). destruct (nofmt (overlay s)); now apply iter_done.
  - now apply iter_done.
Qed.
Example C109_undisturbed_partial_case :
  let parses := fun c => negb (existsb (Ascii.eqb "?"%char) c) in
  settled parses (mkServer false (b_ "a  b") (b_ "a  b")) /\ Forall is_read [Read 0; Read 1; Read 0; Read 0] /\
  reads 0 [Read 0; Read 1; Read 0; Read 0] = 3.
Proof. cbv zeta. split; [split; reflexivity|]. split; [repeat constructor|reflexivity]. Qed.

(** So after any history of changes, compilations and other requests: what was last typed is formatted, once it is
    compiled. *)
Theorem C109_latest_partial : forall parses nofmt format c0 es later n,
  ~ In (Read n) es -> Forall is_read later -> 3 <= reads n later ->
  exists c, (exists before after, Change c0 :: es = before ++ Change c :: after /\ forall c', ~ In (Change c') after) /\
    snd (run parses nofmt format (es ++ Compile :: later) (mkServer (negb (parses c0)) c0 c0, fun _ => Before)) n =
    if (negb (parses c) || nofmt c)%bool then NoEdits else Edits c (format c).
Proof.
  intros parses nofmt format c0 es later n N F L.
  assert (I : exists c, (exists before after, Change c0 :: es = before ++ Change c :: after /\ forall c', ~ In (Change c') after) /\
    overlay (fst (run parses nofmt format es (mkServer (negb (parses c0)) c0 c0, fun _ => Before))) = c /\
    snd (run parses nofmt format es (mkServer (negb (parses c0)) c0 c0, fun _ => Before)) n = Before).
  { clear F L later. induction es as [|e es IH] using rev_ind.
    - exists c0. split; [exists [], []; split; [reflexivity|intros c' []]|split; reflexivity].
    - destruct IH as (c & (before & after & E & A) & O & B); [intro H; apply N, in_or_app; now left|].
      unfold run in *. rewrite fold_left_app. cbn [fold_left]. destruct (fold_left (step parses nofmt format) es _) as [s rs]. cbn [fst snd] in O, B.
      destruct e as [c1| |m]; cbn [step fst snd overlay].
      + exists c1. split; [|split; [reflexivity|exact B]]. exists (Change c0 :: es), []. split; [reflexivity|intros c' []].
      + exists c. split; [|split; assumption]. exists before, (after ++ [Compile]). rewrite app_comm_cons, E, <- app_assoc. split; [reflexivity|].
        intros c' H. apply in_app_or in H. destruct H as [H|[H|[]]]; [now apply (A c')|discriminate].
      + exists c. split; [|split; [exact O|]].
        * exists before, (after ++ [Read m]). rewrite app_comm_cons, E, <- app_assoc. split; [reflexivity|].
          intros c' H. apply in_app_or in H. destruct H as [H|[H|[]]]; [now apply (A c')|discriminate].
        * unfold upd. destruct (n =? m) eqn:Q; [|exact B]. apply Nat.eqb_eq in Q. subst m. exfalso. apply N, in_or_app. right. now left. }
  destruct I as (c & W & O & B). exists c. split; [exact W|]. replace (es ++ Compile :: later) with ((es ++ [Compile]) ++ later) by now rewrite <- app_assoc.
  unfold run in *. rewrite !fold_left_app. destruct (fold_left (step parses nofmt format) es _) as [s rs]. cbn [fst snd fold_left step] in *. subst c.
  set (s' := mkServer _ _ _). change (overlay s) with (overlay s'). apply (C109_undisturbed_partial parses nofmt format s' rs later n); try assumption.
  split; [reflexivity|]. cbn [overlay parsed s']. intros ->. reflexivity.
Qed.
Example C109_latest_partial_case :
  snd (run (fun c => negb (existsb (Ascii.eqb "?"%char) c)) (fun _ => false) (fun c => c ++ b_ "!") ([Change (b_ "a?"); Read 1; Compile; Change (b_ "ab")] ++ Compile :: [Read 0; Read 0; Read 0])
    (mkServer false (b_ "a") (b_ "a"), fun _ => Before)) 0 = Edits (b_ "ab") (b_ "ab!") /\
  snd (run (fun c => negb (existsb (Ascii.eqb "?"%char) c)) (fun _ => false) (fun c => c ++ b_ "!") ([Change (b_ "a?")] ++ Compile :: [Read 0; Read 0; Read 0])
    (mkServer false (b_ "a") (b_ "a"), fun _ => Before)) 0 = NoEdits.
Proof. split; vm_compute; reflexivity. Qed.

(** The only texts a request ever writes are formatted forms of texts the
    document had. *)
Theorem C109_only_formatted : forall parses nofmt format es n old new,
  forall c0, parses c0 = true ->
  snd (run parses nofmt format es (mkServer false c0 c0, fun _ => Before)) n = Edits old new ->
  exists c, (c = c0 \/ In (Change c) es) /\ parses c = true /\ nofmt c = false /\ new = format c.
Proof.
  intros parses nofmt format es n old new c0 P0.
  assert (X : forall es, let st := run parses nofmt format es (mkServer false c0 c0, fun _ => Before) in
    (overlay (fst st) = c0 \/ In (Change (overlay (fst st))) es) /\
    ((parsed (fst st) = c0 \/ In (Change (parsed (fst st))) es) /\ parses (parsed (fst st)) = true) /\
    forall n old new, snd st n = Edits old new -> exists c, (c = c0 \/ In (Change c) es) /\ parses c = true /\ nofmt c = false /\ new = format c).
  { clear -P0. intros es. induction es as [|e es IH] using rev_ind.
    - cbn. split; [now left|]. split; [split; [now left|assumption]|]. discriminate.
    - cbv zeta in *. unfold run in *. rewrite fold_left_app. cbn [fold_left].
      destruct (fold_left (step parses nofmt format) es _) as [s rs]. cbn [fst snd] in IH. destruct IH as (I1 & (I2 & I3) & I4).
      assert (W : forall c, c = c0 \/ In (Change c) es -> c = c0 \/ In (Change c) (es ++ [e])).
      { intros c [->|I]; [now left|right; apply in_or_app; now left]. }
      assert (I4' : forall n old new, rs n = Edits old new -> exists c, (c = c0 \/ In (Change c) (es ++ [e])) /\ parses c = true /\ nofmt c = false /\ new = format c).
      { intros m o w E. destruct (I4 m o w E) as (c & A & Bc). exists c. split; [now apply W|exact Bc]. }
      destruct e as [c| |m]; cbn [step fst snd overlay parsed].
      + split; [right; apply in_or_app; right; now left|]. split; [split; [now apply W|exact I3]|exact I4'].
      + split; [now apply W|]. split; [|exact I4']. destruct (parses (overlay s)) eqn:P; (split; [now apply W|assumption]).
      + split; [now apply W|]. split; [split; [now apply W|exact I3]|].
        intros k o w. unfold upd. destruct (k =? m) eqn:Q; [|apply I4']. apply Nat.eqb_eq in Q. subst k.
        destruct (rs m) as [| |c| |o' w'] eqn:Rm; cbn [step_req]; try discriminate.
        * destruct (bad s); discriminate.
        * destruct (nofmt (parsed s)) eqn:Nf; [discriminate|]. intros E. injection E as _ <-.
          exists (parsed s). split; [now apply W|]. auto.
        * intros E. apply (I4' m o w). congruence. }
  intros E. destruct (X es) as (_ & _ & H). exact (H n old new E).
Qed.
Example C109_only_formatted_case :
  snd (run (fun _ => true) (fun _ => false) (fun c => c ++ b_ "!") [Read 0; Read 0; Read 0] (mkServer false (b_ "a") (b_ "a"), fun _ => Before)) 0
  = Edits (b_ "a") (b_ "a!").
Proof. vm_compute. reflexivity. Qed.

(** A change between the reads: the edits for the new text take it back. *)
Theorem C109_erased_refuted : exists parses nofmt format s es c,
  settled parses s /\ parses c = true /\
  let '(s', rs) := run parses nofmt format es (s, fun _ => Before) in
  overlay s' = c /\ rs 0 = Edits c (format (overlay s)) /\ format (overlay s) <> format c.
Proof.
  exists (fun _ => true), (fun _ => false), (fun c => c), (mkServer false (b_ "message A {}") (b_ "message A {}")),
    [Read 0; Change (b_ "message A {} message B {}"); Read 0; Read 0; Compile], (b_ "message A {} message B {}").
  split; [split; reflexivity|]. split; [reflexivity|]. vm_compute. repeat split. discriminate.
Qed.

Print Assumptions C107_links.
Print Assumptions C107_crash_iff.
Print Assumptions C107_other_name_refuted.
Print Assumptions C107_kept_iff.
Print Assumptions C107_kept_refuted.
Print Assumptions C108_hints.
Print Assumptions C108_shown_iff.
Print Assumptions C108_accept.
Print Assumptions C108_reads.
Print Assumptions C109_undisturbed_partial.
Print Assumptions C109_latest_partial.
Print Assumptions C109_only_formatted.
Print Assumptions C109_erased_refuted.
