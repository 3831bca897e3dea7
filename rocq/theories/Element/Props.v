(** Property theorems for what happens before a descriptor is printed (C171, C172). *)
From Coq Require Import Ascii String ZArith Lia.
From Verif Require Import Base Strs.
From Verif.Element Require Import Model Spec Proofs.
Open Scope list_scope.

(** Only types of files that the file sees are registered, and only extensions if only these are asked for. *)
Theorem C171_only_seen : forall only f e, In e (registered only f) -> (exists g, sees f g /\ in_file g e) /\ (only = true -> is_ext e).
Proof. intros only f e I. rewrite registered_eq in I. destruct (fold_from _ _ _ I) as [[]|J]. now apply of_file_iff in J. Qed.
(** All of them are, or another that takes the same name or the same number, *)
Theorem C171_all_seen : forall only f g e, sees f g -> in_file g e -> (only = true -> is_ext e) -> exists e', In e' (registered only f) /\ conflict e e'.
Proof. intros only f g e S D O. rewrite registered_eq. apply fold_has. apply of_file_iff. split; [eauto|exact O]. Qed.
(** of which only one is, *)
Theorem C171_no_conflict : forall only f i j a b, nth_error (registered only f) i = Some a -> nth_error (registered only f) j = Some b -> conflict a b -> i = j.
Proof. intros only f i j a b A B C. rewrite registered_eq in A, B. eapply (fold_clean _ []); eauto. intros i' j' a' b' A'. destruct i'; discriminate. Qed.
(** so if the files have no conflicts, exactly the types that are seen are registered. *)
Theorem C171_exactly : forall only f, (forall g h a b, sees f g -> sees f h -> in_file g a -> in_file h b -> conflict a b -> a = b) ->
  forall e, In e (registered only f) <-> (exists g, sees f g /\ in_file g e) /\ (only = true -> is_ext e).
Proof.
  intros only f C e. split; [apply C171_only_seen|]. intros [(g & S & D) O]. destruct (C171_all_seen only f g e S D O) as (e' & I & K).
  destruct (C171_only_seen only f e' I) as [(h & S' & D') _]. now rewrite (C g h e e' S S' D D' K).
Qed.
(** Unknown fields become known exactly if an extension is registered for them, at every depth. *)
Theorem C171_reparse : forall decode r full k u kids, (forall x b, decode x b <> None) -> exists k' u', reparse decode r (Node full k u kids) = Node full (k ++ k') u' (map (reparse decode r) kids) /\
  (forall n b, In (n, b) u' <-> In (n, b) u /\ forall x, In (EExt x) r -> extendee x = full -> number x <> n) /\
  (forall n v, In (n, v) k' -> exists b x, In (n, b) u /\ In (EExt x) r /\ extendee x = full /\ number x = n /\ decode x b = Some v) /\
  (forall n b x, In (n, b) u -> In (EExt x) r -> extendee x = full -> number x = n -> exists v, In (n, v) k').
Proof.
  intros decode r full k u kids T. destruct (unmarshal_spec decode r full u T) as (k' & w & E & W & K). exists k', w. split; [cbn; now rewrite E|]. split; [|split].
  - intros n b. rewrite W. now rewrite lookup_iff.
  - intros n v I. apply K in I. destruct I as (b & x & I & L & D). apply lookup_some in L. exists b, x. tauto.
  - intros n b x I J E1 E2. destruct (lookup_ext r full n) as [y|] eqn:L.
    + destruct (decode y b) as [v|] eqn:D; [|destruct (T y b D)]. exists v. apply K. eauto.
    + exfalso. exact (proj1 (lookup_iff r full n) L x J E1 E2).
Qed.

(** a file that declares no type itself, and imports a file that publicly imports the extension *)
Definition opt : ext := mkExt (b_ "a.opt") (b_ "FileOptions") 50000.
Definition hidden : ext := mkExt (b_ "b.opt") (b_ "FileOptions") 50001.
Definition base := File [opt] [] [Message (b_ "a.M") [] [b_ "a.M.E"] []] [].
Definition other := File [hidden] [] [] [].
Definition middle := File [] [] [] [(true, base); (false, other)].
Definition top := File [] [] [] [(false, middle)].
Example C171_case : registered false top = [EExt opt; EMessage (b_ "a.M"); EEnum (b_ "a.M.E")] /\ registered true top = [EExt opt] /\
  (sees top base /\ in_file base (EExt opt)) /\ (in_file other (EExt hidden) /\ ~ sees top other).
Proof.
  repeat split; try reflexivity.
  - eapply s_import; [now left|]. eapply po_public; [now left|constructor].
  - eapply if_ext; [reflexivity|now left].
  - eapply if_ext; [reflexivity|now left].
  - intro X. inversion X as [|? ? ? ? I P]; subst. destruct I as [[= <- <-]|[]]. inversion P as [|? ? ? J Q]; subst. destruct J as [[= <-]|[[=]|[]]]. inversion Q as [|? ? ? J' Q']; subst. destruct J'.
Qed.
Example C171_reparse_case : reparse (fun _ b => Some b) (registered false top) (Node (b_ "FileOptions") [(1%Z, b_ "x")] [(50000%Z, b_ "y"); (50001%Z, b_ "z")] []) =
  Node (b_ "FileOptions") [(1%Z, b_ "x"); (50000%Z, b_ "y")] [(50001%Z, b_ "z")] [].
Proof. reflexivity. Qed.
(** Finding: the options are read again in a copy, and printed from the descriptor: an unknown option is left out though
    its extension is seen. *)
Theorem C171_printed_refuted : exists f options n v, (forall decode, (forall x b, decode x b = Some b) ->
  (exists k u kids, reparse decode (registered false f) options = Node (b_ "FileOptions") k u kids /\ In (n, v) k) /\ ~ In n (map fst (print_proto decode f options))).
Proof.
  exists top, (Node (b_ "FileOptions") [(1%Z, b_ "x")] [(50000%Z, b_ "y")] []), 50000%Z, (b_ "y"). intros decode D. split.
  - exists [(1%Z, b_ "x"); (50000%Z, b_ "y")], [], []. split; [|right; now left]. cbn. now rewrite D.
  - cbn. intros [E|[]]. discriminate.
Qed.

(** The path of every element leads to it, *)
Theorem C172_leads : forall d, exists_ d -> leads DFile (find_element d) d.
Proof.
  assert (M : forall d, exists_ d -> leads DFile (find_element d) d); [|exact M].
  induction 1; cbn [find_element is_message]; try (apply leads_one; reflexivity); try constructor;
    try (eapply leads_app; [eassumption|apply leads_one; reflexivity]).
  apply (leads_app _ [6; j]%Z (DService DFile j)); apply leads_one; reflexivity.
Qed.
(** and to nothing else; no two elements have the same path. *)
Theorem C172_one : forall d, exists_ d -> forall e, leads DFile (find_element d) e -> e = d.
Proof. intros d X e L. symmetry. eapply leads_det; [now apply C172_leads|exact L]. Qed.
Theorem C172_different : forall d e, exists_ d -> exists_ e -> find_element d = find_element e -> d = e.
Proof. intros d e X Y E. symmetry. apply (C172_one d X). rewrite E. now apply C172_leads. Qed.
(** Conversely whatever a path leads to has this path. *)
Theorem C172_path : forall path d, leads DFile path d -> find_element d = path /\ exists_ d.
Proof.
  assert (G : forall a path d, leads a path d -> exists_ a -> find_element d = find_element a ++ path /\ exists_ d).
  { induction 1 as [d|d tag i d1 path d2 C L IH]; intro X; [now rewrite app_nil_r|].
    assert (Y : find_element d1 = find_element d ++ [tag; i] /\ exists_ d1).
    { destruct d; cbn in C; try discriminate C; repeat (match type of C with context [match ?x with _ => _ end] => destruct x; try discriminate C end); injection C as <-; cbn; (split; [reflexivity|]); try (now constructor); inversion X; subst; now constructor. }
    destruct Y as [E Y]. destruct (IH Y) as [E' Z]. split; [|exact Z]. rewrite E', E, <- app_assoc. reflexivity. }
  intros path d L. apply (G _ _ _ L). constructor.
Qed.
Example C172_case : find_element (DValue (DEnum (DMessage (DMessage DFile 2) 0) 1) 5) = [4; 2; 3; 0; 4; 1; 2; 5]%Z /\ exists_ (DValue (DEnum (DMessage (DMessage DFile 2) 0) 1) 5).
Proof. split; [reflexivity|]. repeat constructor. Qed.

Print Assumptions C171_only_seen.
Print Assumptions C171_all_seen.
Print Assumptions C171_no_conflict.
Print Assumptions C171_exactly.
Print Assumptions C171_reparse.
Print Assumptions C171_printed_refuted.
Print Assumptions C172_leads.
Print Assumptions C172_one.
Print Assumptions C172_different.
Print Assumptions C172_path.
