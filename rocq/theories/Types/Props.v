(** C147: accepting an offered type writes a name that means it.  C148: which types are offered. *)
From Coq Require Import Ascii String Permutation.
From Verif Require Import Base Strs.
From Verif.Completion Require Import Model Spec Proofs.
From Verif.Types Require Import Model Spec Proofs.
Open Scope list_scope.

(** The item is one of those offered for a field's type, or one of those for an extendee. *)
Definition is_offered (order : list desc -> list desc) (fs : list file) (partial pkg : bytes) (i : titem) : Prop :=
  In i (complete_types order fs partial pkg) \/ exists proto2, In i (complete_extendees order proto2 fs partial pkg).
Lemma is_offered_text order fs partial pkg i : (forall l, Permutation (order l) l) -> is_offered order fs partial pkg i ->
  t_text i = type_label partial pkg (d_name (t_desc i)).
Proof.
  intros O [H|[p2 H]]; apply from_list_in in H as (_ & A & B & _); try exact O; now rewrite B.
Qed.

(** A small workspace: package a declares M, with M.T in it, T and an enum E; package b.c declares U and an
    enum W; one file has no package and declares N. *)
Definition msg (n : string) : desc := mkDesc (b_ n) (KMessage false false).
Definition fa := mkFile (b_ "a") [msg "a.M"; msg "a.M.T"; mkDesc (b_ "a.M.SEntry") (KMessage true false); msg "a.T"; mkDesc (b_ "a.E") KEnum; mkDesc (b_ "a.x") KOther; mkDesc (b_ "a.X") (KMessage false true)].
Definition fb := mkFile (b_ "b.c") [msg "b.c.U"; mkDesc (b_ "b.c.W") KEnum].
Definition fn := mkFile [] [msg "N"].
Definition ws : list file := [fa; fb; fn].
Definition names : list (list bytes) :=
  [[b_ "a"]; [b_ "a"; b_ "M"]; [b_ "a"; b_ "M"; b_ "T"]; [b_ "a"; b_ "M"; b_ "SEntry"]; [b_ "a"; b_ "T"]; [b_ "a"; b_ "E"]; [b_ "a"; b_ "x"]; [b_ "a"; b_ "X"]; [b_ "b"]; [b_ "b"; b_ "c"]; [b_ "b"; b_ "c"; b_ "U"]; [b_ "b"; b_ "c"; b_ "W"]; [b_ "N"]].
Definition same (l : list desc) : list desc := l.
Lemma same_permutes l : Permutation (same l) l. Proof. apply Permutation_refl. Qed.
Lemma names_closed : closed names.
Proof.
  intros a b N H. unfold names in *.
  assert (L : List.length (a ++ b) <= 3) by (clear N; revert H; generalize (a ++ b); intros l H; repeat (destruct H as [<-|H]; [cbn; lia|]); destruct H).
  rewrite app_length in L. destruct a as [|x [|y [|z [|u a]]]]; [congruence| | | |cbn in L; lia]; destruct b as [|p [|q [|r b]]]; try (cbn in L; lia); cbn [app] in *;
    repeat (destruct H as [H|H]; [try discriminate H; injection H; intros; subst; cbn; auto 20|]); try contradiction.
Qed.

(** With a leading dot the name written is the full name with a leading dot, and it means the type from
    every place. *)
Theorem C147_absolute : forall order, (forall l, Permutation (order l) l) -> forall fs p pkg i T declared scope,
  is_offered order fs (b_ "." ++ p) pkg i -> parts T -> T <> [] -> d_name (t_desc i) = dotted T -> In T declared ->
  t_text i = b_ "." ++ dotted T /\ means declared scope (t_text i) T.
Proof.
  intros order O fs p pkg i T declared F H HT NT E I. apply is_offered_text in H; [|exact O]. change (b_ "." ++ p) with (dot :: p) in H. rewrite type_label_absolute, E in H.
  split; [exact H|]. rewrite H. unfold means. cbn [Ascii.eqb]. replace (Ascii.eqb dot "."%char) with true by reflexivity. split; [now apply split_dotted|exact I].
Qed.
Example C147_absolute_case :
  In (mkTitem (b_ ".b.c.U") AsClass (b_ ".b.c.U") (msg "b.c.U")) (complete_types same ws (b_ ".b") (b_ "a")) /\
  means names [b_ "a"; b_ "M"] (b_ ".b.c.U") [b_ "b"; b_ "c"; b_ "U"].
Proof. split; [vm_compute; auto|vm_compute; split; [reflexivity|tauto]]. Qed.

(** With a dot elsewhere in what was typed the full name is written; it means the type exactly when no
    enclosing scope declares something with the name of its outermost package. *)
Theorem C147_qualified : forall order, (forall l, Permutation (order l) l) -> forall fs partial pkg i T declared scope,
  In "."%char partial -> ~ begins partial (b_ ".") ->
  is_offered order fs partial pkg i -> parts T -> T <> [] -> d_name (t_desc i) = dotted T -> closed declared -> In T declared ->
  t_text i = dotted T /\ (means declared scope (t_text i) T <-> ~ captured declared scope [] (hd [] T)).
Proof.
  intros order O fs partial pkg i T declared F D L H HT NT E C I. apply is_offered_text in H; [|exact O].
  rewrite type_label_full, E in H; [|now apply contains_dot_spec|apply not_true_is_false; intros B; apply L; now apply has_prefix_spec in B].
  split; [exact H|]. rewrite H. now apply (means_iff declared F [] F T T).
Qed.
Example C147_qualified_case :
  In (mkTitem (b_ "b.c.W") AsEnum (b_ "b.c.W") (mkDesc (b_ "b.c.W") KEnum)) (complete_types same ws (b_ "b.") (b_ "a")) /\
  means names [b_ "a"; b_ "M"] (b_ "b.c.W") [b_ "b"; b_ "c"; b_ "W"] /\ ~ captured names [b_ "a"; b_ "M"] [] (b_ "b").
Proof.
  split; [vm_compute; auto|]. assert (M : means names [b_ "a"; b_ "M"] (b_ "b.c.W") [b_ "b"; b_ "c"; b_ "W"]) by (vm_compute; reflexivity). split; [exact M|].
  apply (means_iff names [b_ "a"; b_ "M"] [] [b_ "a"; b_ "M"] [b_ "b"; b_ "c"; b_ "W"] [b_ "b"; b_ "c"; b_ "W"]); auto using names_closed; try discriminate; vm_compute; auto 20.
  repeat constructor; intuition congruence.
Qed.

(** Without a dot in what was typed, the package of the file edited is left off the names of its own types;
    what is written means the type exactly when no scope inside the package declares something with its first name. *)
Theorem C147_own_package : forall order, (forall l, Permutation (order l) l) -> forall fs partial P i R declared inner,
  ~ In "."%char partial -> parts P -> P <> [] -> parts R -> R <> [] ->
  is_offered order fs partial (dotted P) i -> d_name (t_desc i) = dotted (P ++ R) -> closed declared -> In (P ++ R) declared ->
  t_text i = dotted R /\ (means declared (P ++ inner) (t_text i) (P ++ R) <-> ~ captured declared (P ++ inner) P (hd [] R)).
Proof.
  intros order O fs partial P i R declared X D HP NP HR NR H E C I. apply is_offered_text in H; [|exact O].
  rewrite type_label_short, E in H by (apply not_true_is_false; now rewrite contains_dot_spec).
  assert (Q : parts (P ++ R)) by now apply Forall_app.
  rewrite (proj2 (dotted_prefix P (P ++ R) HP NP Q)) in H by now exists R.
  rewrite dotted_app in H by assumption. replace (dotted P ++ dot :: dotted R) with ((dotted P ++ [dot]) ++ dotted R) in H by now rewrite <- app_assoc.
  rewrite skipn_app_exact in H. split; [exact H|]. rewrite H. now apply (means_iff declared (P ++ X) P X R (P ++ R)).
Qed.
Example C147_own_package_case :
  In (mkTitem (b_ "M.T") AsClass (b_ "M.T") (msg "a.M.T")) (complete_types same ws (b_ "M") (b_ "a")) /\
  means names ([b_ "a"] ++ [b_ "M"]) (b_ "M.T") ([b_ "a"] ++ [b_ "M"; b_ "T"]) /\ ~ captured names ([b_ "a"] ++ [b_ "M"]) [b_ "a"] (b_ "M").
Proof.
  split; [vm_compute; auto|]. assert (M : means names ([b_ "a"] ++ [b_ "M"]) (b_ "M.T") ([b_ "a"] ++ [b_ "M"; b_ "T"])) by (vm_compute; reflexivity). split; [exact M|].
  apply (means_iff names ([b_ "a"] ++ [b_ "M"]) [b_ "a"] [b_ "M"] [b_ "M"; b_ "T"] ([b_ "a"] ++ [b_ "M"; b_ "T"])); auto using names_closed; try discriminate; vm_compute; auto 20.
  repeat constructor; intuition congruence.
Qed.

(** Names of other packages are written in full; and so are all names while the file edited has no package. *)
Theorem C147_other_package : forall order, (forall l, Permutation (order l) l) -> forall fs partial P i T declared scope,
  ~ In "."%char partial -> parts P -> parts T -> T <> [] -> (P <> [] -> ~ exists R, R <> [] /\ T = P ++ R) ->
  is_offered order fs partial (dotted P) i -> d_name (t_desc i) = dotted T -> closed declared -> In T declared ->
  t_text i = dotted T /\ (means declared scope (t_text i) T <-> ~ captured declared scope [] (hd [] T)).
Proof.
  intros order O fs partial P i T declared F D HP HT NT N H E C I. apply is_offered_text in H; [|exact O].
  rewrite type_label_short, E in H by (apply not_true_is_false; now rewrite contains_dot_spec).
  assert (B : has_prefix (dotted T) (dotted P ++ [dot]) = false).
  { apply not_true_is_false. intros B. destruct P as [|w P].
    - destruct (dotted_first T HT NT) as (c & r & Q & Z). rewrite Q in B. apply has_prefix_spec in B as (s & B). cbn in B. injection B as -> _. discriminate Z.
    - apply dotted_prefix in B; try assumption; try discriminate. now apply N. }
  rewrite B in H. split; [exact H|]. rewrite H. now apply (means_iff declared F [] F T T).
Qed.
Example C147_other_package_case :
  In (mkTitem (b_ "b.c.U") AsClass (b_ "b.c.U") (msg "b.c.U")) (complete_types same ws (b_ "U") (b_ "a")) /\
  means names [b_ "a"; b_ "M"] (b_ "b.c.U") [b_ "b"; b_ "c"; b_ "U"].
Proof. split; [vm_compute; auto|vm_compute; reflexivity]. Qed.

(** Refuted: that what is accepted means what was offered.  In message M, which declares T itself, the type
    a.T is offered as T, which means a.M.T there; nothing else is offered for it. *)
Theorem C147_captured_refuted : exists i, complete_types same [fa] (b_ "T") (b_ "a") = [i] /\
  d_name (t_desc i) = b_ "a.T" /\ means names [b_ "a"; b_ "M"] (t_text i) [b_ "a"; b_ "M"; b_ "T"] /\ ~ means names [b_ "a"; b_ "M"] (t_text i) [b_ "a"; b_ "T"].
Proof. eexists. split; [vm_compute; reflexivity|]. split; [reflexivity|]. split; [vm_compute; reflexivity|]. vm_compute. discriminate. Qed.
(** The same for a full name: in package a.b, where a message a.b.b exists, the type b.c.U is written b.c.U. *)
Theorem C147_package_captured_refuted : exists i declared, complete_types same [mkFile (b_ "b.c") [msg "b.c.U"]] (b_ "b.c") (b_ "a") = [i] /\
  d_name (t_desc i) = b_ "b.c.U" /\ In [b_ "b"; b_ "c"; b_ "U"] declared /\ closed declared /\ ~ means declared [b_ "a"] (t_text i) [b_ "b"; b_ "c"; b_ "U"].
Proof.
  exists (mkTitem (b_ "b.c.U") AsClass (b_ "b.c.U") (msg "b.c.U")), [[b_ "a"]; [b_ "a"; b_ "b"]; [b_ "b"]; [b_ "b"; b_ "c"]; [b_ "b"; b_ "c"; b_ "U"]].
  split; [vm_compute; reflexivity|]. split; [reflexivity|]. split; [cbn; tauto|]. split.
  - intros a b N H.
    assert (L : List.length (a ++ b) <= 3) by (clear N; revert H; generalize (a ++ b); intros l H; repeat (destruct H as [<-|H]; [cbn; lia|]); destruct H).
    rewrite app_length in L. destruct a as [|x [|y [|z [|u a]]]]; [congruence| | | |cbn in L; lia]; destruct b as [|p [|q [|r b]]]; try (cbn in L; lia); cbn [app] in *;
    repeat (destruct H as [H|H]; [try discriminate H; injection H; intros; subst; cbn; auto 20|]); try contradiction.
  - vm_compute. discriminate.
Qed.

(** ** C148 *)
(** The types offered for a field, and for the request or response of an rpc, are the messages, other than
    entries of maps, and the enums that the search for what was typed finds.  Messages are shown as classes and
    enums as enums. *)
Theorem C148_types : forall order, (forall l, Permutation (order l) l) -> forall fs partial pkg d,
  offered (complete_types order fs partial pkg) d <-> usable d /\ sought fs partial d.
Proof.
  intros order O fs partial pkg d. unfold complete_types. rewrite offered_in by exact O. rewrite find_all_in, is_type_spec. split; [tauto|].
  intros [U S]. repeat split; auto. destruct U as [U|(r & U)]; rewrite U; discriminate.
Qed.
Theorem C148_shown : forall order, (forall l, Permutation (order l) l) -> forall fs partial pkg i,
  is_offered order fs partial pkg i -> t_label i = t_text i /\ (t_shown i = AsEnum <-> d_kind (t_desc i) = KEnum).
Proof.
  intros order O fs partial pkg i [H|[p2 H]]; apply from_list_in in H as (_ & A & B & K); try exact O; (split; [congruence|]); destruct (d_kind (t_desc i)); rewrite ?K; split; try discriminate; try easy.
Qed.
(** Nothing is offered twice, when the files declare nothing twice. *)
Theorem C148_once : forall order, (forall l, Permutation (order l) l) -> forall fs partial pkg,
  NoDup (flat_map f_descs fs) -> NoDup (complete_types order fs partial pkg).
Proof.
  intros order O fs partial pkg N.
  assert (A : NoDup (find_all is_type fs partial)).
  { unfold find_all. destruct (contains_dot partial).
    - unfold find_qualified. cbv zeta. generalize (has_prefix partial [dot]). intros b. generalize (if b then tl partial else partial). intros p. apply filtered_nodup; [exact N|].
      intros f. destruct (f_pkg f) eqn:E; [exists (fun _ => false); symmetry; apply filter_none|]. destruct (b && _); [exists (fun _ => false); symmetry; apply filter_none|]. eexists. reflexivity.
    - unfold find_relative. apply filtered_nodup; [exact N|]. intros f. destruct (f_pkg f) eqn:E; [exists (fun _ => false); symmetry; apply filter_none|]. eexists. reflexivity. }
  unfold complete_types, from_list. apply items_nodup. apply (Permutation_NoDup (Permutation_sym (O _))). exact A.
Qed.
(** The messages offered to be extended: in proto2 those with extension ranges that the search finds; otherwise
    the nine kinds of options, whatever was typed. *)
Theorem C148_extendees_proto2 : forall order, (forall l, Permutation (order l) l) -> forall fs partial pkg d,
  offered (complete_extendees order true fs partial pkg) d <-> extendable d /\ sought fs partial d.
Proof.
  intros order O fs partial pkg d. unfold complete_extendees. rewrite offered_in by exact O. rewrite find_all_in, is_extendable_spec. split; [tauto|].
  intros [U S]. repeat split; auto. rewrite U. discriminate.
Qed.
Definition option_kinds : list bytes :=
  [b_ "google.protobuf.FileOptions"; b_ "google.protobuf.MessageOptions"; b_ "google.protobuf.FieldOptions"; b_ "google.protobuf.OneofOptions"; b_ "google.protobuf.ExtensionRangeOptions";
   b_ "google.protobuf.EnumOptions"; b_ "google.protobuf.EnumValueOptions"; b_ "google.protobuf.ServiceOptions"; b_ "google.protobuf.MethodOptions"].
Theorem C148_extendees_proto3 : forall order, (forall l, Permutation (order l) l) -> forall fs partial pkg,
  Permutation (map (fun i => d_name (t_desc i)) (complete_extendees order false fs partial pkg)) option_kinds.
Proof.
  intros order O fs partial pkg. unfold complete_extendees, from_list.
  assert (Q : forall l, (forall d, In d l -> exists e r, d_kind d = KMessage e r) -> map (fun i => d_name (t_desc i)) (flat_map (fun d => let l := type_label partial pkg (d_name d) in
    match d_kind d with KMessage _ _ => [mkTitem l AsClass l d] | KEnum => [mkTitem l AsEnum l d] | KOther => [] end) l) = map d_name l).
  { induction l as [|d l IH]; intros H; [reflexivity|]. destruct (H d (or_introl eq_refl)) as (e & r & K). cbn [flat_map map]. rewrite K. cbn [app map t_desc]. f_equal. apply IH. intros x X. apply H. now right. }
  rewrite Q. 2:{ intros d H. apply (Permutation_in _ (O allowed)) in H. unfold allowed in H. apply in_map_iff in H as (n & <- & _). exists false, true. reflexivity. }
  change option_kinds with (map d_name allowed). apply Permutation_map, O.
Qed.
Example C148_cases :
  map t_text (complete_types same ws [] (b_ "a")) = [b_ "M"; b_ "M.T"; b_ "T"; b_ "E"; b_ "X"; b_ "b.c.U"; b_ "b.c.W"] /\
  map t_text (complete_types same ws (b_ "M") (b_ "a")) = [b_ "M"; b_ "M.T"] /\
  map t_text (complete_types same ws (b_ "b.c.") (b_ "a")) = [b_ "b.c.U"; b_ "b.c.W"] /\
  map t_text (complete_types same ws (b_ ".") (b_ "a")) = [b_ ".a.M"; b_ ".a.M.T"; b_ ".a.T"; b_ ".a.E"; b_ ".a.X"; b_ ".b.c.U"; b_ ".b.c.W"] /\
  map t_text (complete_extendees same true ws [] (b_ "a")) = [b_ "X"] /\
  List.length (complete_extendees same false ws (b_ "X") (b_ "a")) = 9.
Proof. vm_compute. repeat split. Qed.
Example C148_once_case : NoDup (flat_map f_descs ws).
Proof. cbn. repeat constructor; cbn; intuition discriminate. Qed.

(** Every type of the package of the file edited is offered under a beginning of its name in that package, and every
    type of a package under a beginning of its full name that has a dot in it. *)
Theorem C148_own_package : forall order, (forall l, Permutation (order l) l) -> forall fs f d partial rest,
  packaged fs f d -> usable d -> ~ In "."%char partial -> d_name d = f_pkg f ++ b_ "." ++ partial ++ rest ->
  exists i, In i (complete_types order fs partial (f_pkg f)) /\ t_desc i = d /\ t_text i = partial ++ rest.
Proof.
  intros order O fs f d partial rest P U D E.
  assert (H : offered (complete_types order fs partial (f_pkg f)) d).
  { apply C148_types; [exact O|]. split; [exact U|]. exists f. split; [exact P|]. left. split; [exact D|]. exists rest. now rewrite E, <- !app_assoc. }
  destruct H as (i & H & <-). exists i. split; [exact H|]. split; [reflexivity|].
  apply from_list_in in H as (_ & A & B & _); [|exact O]. rewrite B, A, type_label_short by (apply not_true_is_false; now rewrite contains_dot_spec). rewrite E.
  replace (f_pkg f ++ b_ "." ++ partial ++ rest) with ((f_pkg f ++ [dot]) ++ partial ++ rest) by now rewrite <- app_assoc.
  rewrite (proj2 (has_prefix_spec _ _)) by now exists (partial ++ rest). apply skipn_app_exact.
Qed.
Theorem C148_qualified : forall order, (forall l, Permutation (order l) l) -> forall fs f d partial rest pkg,
  packaged fs f d -> usable d -> In "."%char partial -> ~ begins partial (b_ ".") -> d_name d = partial ++ rest ->
  exists i, In i (complete_types order fs partial pkg) /\ t_desc i = d /\ t_text i = partial ++ rest.
Proof.
  intros order O fs f d partial rest pkg P U D L E.
  assert (H : offered (complete_types order fs partial pkg) d).
  { apply C148_types; [exact O|]. split; [exact U|]. exists f. split; [exact P|]. right. left. split; [exact D|]. split; [exact L|]. now exists rest. }
  destruct H as (i & H & <-). exists i. split; [exact H|]. split; [reflexivity|].
  apply from_list_in in H as (_ & A & B & _); [|exact O]. rewrite B, A, type_label_full; [exact E|now apply contains_dot_spec|]. apply not_true_is_false. intros X. apply L. now apply has_prefix_spec in X.
Qed.
Example C148_own_package_case : packaged ws fa (msg "a.M.T") /\ usable (msg "a.M.T") /\ d_name (msg "a.M.T") = b_ "a" ++ b_ "." ++ b_ "M" ++ b_ ".T" /\ In "."%char (b_ "a.").
Proof. repeat split; cbn; auto; try discriminate. right. now exists false. Qed.

(** Refuted: that every type that what was typed can be continued to a name of is offered. *)
(** In message M the type M.T, whose name is T there, is not offered for T. *)
Theorem C148_nested_refuted : exists d, packaged ws fa d /\ usable d /\ d_name d = b_ "a.M.T" /\
  wanted names [b_ "a"; b_ "M"] (b_ "T") [b_ "a"; b_ "M"; b_ "T"] /\ ~ offered (complete_types same ws (b_ "T") (b_ "a")) d.
Proof.
  exists (msg "a.M.T"). repeat split; cbn; auto; try discriminate; [right; now exists false|exists []; vm_compute; reflexivity|].
  intros (i & H & E). vm_compute in H. repeat (destruct H as [<-|H]; [discriminate E|]). destruct H.
Qed.
(** Nor after a dot: in package a, nothing is offered for M. *)
Theorem C148_relative_refuted : exists d, packaged ws fa d /\ usable d /\ d_name d = b_ "a.M.T" /\
  wanted names [b_ "a"] (b_ "M.") [b_ "a"; b_ "M"; b_ "T"] /\ complete_types same ws (b_ "M.") (b_ "a") = [].
Proof. exists (msg "a.M.T"). repeat split; cbn; auto; try discriminate; [right; now exists false|exists (b_ "T"); vm_compute; reflexivity]. Qed.
(** A full name with a leading dot is not continued behind the package. *)
Theorem C148_absolute_refuted : exists d, packaged ws fa d /\ usable d /\ d_name d = b_ "a.M" /\
  wanted names [b_ "b"] (b_ ".a.") [b_ "a"; b_ "M"] /\ complete_types same ws (b_ ".a.") (b_ "b") = [] /\ offered (complete_types same ws (b_ ".a") (b_ "b")) d.
Proof.
  exists (msg "a.M"). repeat split; cbn; auto; try discriminate; [right; now exists false|exists (b_ "M"); vm_compute; auto|].
  eexists. split; [vm_compute; left; reflexivity|reflexivity].
Qed.
(** Types of files without a package are never offered. *)
Theorem C148_no_package_refuted : exists f d, In f ws /\ In d (f_descs f) /\ usable d /\ d_name d = b_ "N" /\
  wanted names [b_ "a"] (b_ "N") [b_ "N"] /\ forall order partial pkg, (forall l, Permutation (order l) l) -> ~ offered (complete_types order ws partial pkg) d.
Proof.
  exists fn, (msg "N"). repeat split; cbn; auto; [right; now exists false|exists []; vm_compute; reflexivity|].
  intros order partial pkg O H. apply C148_types in H as [_ (f & (I & K & M) & _)]; [|exact O].
  cbn in I. repeat (destruct I as [<-|I]; [cbn in K, M; try congruence; repeat (destruct M as [M|M]; [discriminate M|]); contradiction|]). contradiction.
Qed.

Print Assumptions C147_absolute.
Print Assumptions C147_qualified.
Print Assumptions C147_own_package.
Print Assumptions C147_other_package.
Print Assumptions C147_captured_refuted.
Print Assumptions C147_package_captured_refuted.
Print Assumptions C148_types.
Print Assumptions C148_shown.
Print Assumptions C148_once.
Print Assumptions C148_extendees_proto2.
Print Assumptions C148_extendees_proto3.
Print Assumptions C148_own_package.
Print Assumptions C148_qualified.
Print Assumptions C148_nested_refuted.
Print Assumptions C148_relative_refuted.
Print Assumptions C148_absolute_refuted.
Print Assumptions C148_no_package_refuted.
