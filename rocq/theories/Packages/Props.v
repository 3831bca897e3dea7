(** References and package names: theorems C99 and C100. *)
From Coq Require Import Ascii String.
From Verif Require Import Base Strs.
From Verif.Packages Require Import Model Spec Proofs.
Open Scope list_scope.

Definition src_foo : source := mkSource (b_ "foo.proto") 1 [mkComp 2 (b_ "foo") 8 11] 2.
Definition src_foobar : source := mkSource (b_ "foobar.proto") 1 [mkComp 2 (b_ "foobar") 8 14] 0.
Definition src_foo_a : source := mkSource (b_ "a.proto") 0 [mkComp 1 (b_ "foo") 8 11; mkComp 3 (b_ "a") 12 13] 0.
Definition src_foo_a_b : source :=
  mkSource (b_ "ab.proto") 0 [mkComp 1 (b_ "foo") 8 11; mkComp 3 (b_ "a") 12 13; mkComp 5 (b_ "b") 14 15] 0.
Definition all_sources : list source := [src_foo; src_foobar; src_foo_a; src_foo_a_b].
Definition doc (p : bytes) : option bytes := Some (b_ "file:///" ++ p).

Lemma all_proper : forall s, In s all_sources -> proper s.
Proof.
  intros s I. destruct I as [<-|[<-|[<-|[<-|[]]]]]; (split; [discriminate|]); (split;
    [intros c I; repeat (destruct I as [<-|I]; [split; [discriminate | vm_compute; intuition discriminate]|]); destruct I
    |repeat constructor; vm_compute; intuition discriminate]).
Qed.

Lemma one_file (uri_of : bytes -> option bytes) s u rg name pm :
  In (u, rg) (if f_placeholder (file_of s) then [] else
     match uri_of (f_path (file_of s)), f_decls (file_of s) with
     | Some v, Some ds => map (pair v) (decl_ranges name pm ds) | _, _ => [] end) <->
  uri_of (s_path s) = Some u /\ In rg (decl_ranges name pm (decls_of s)).
Proof.
  cbn [file_of f_placeholder f_path f_decls]. destruct (uri_of (s_path s)) as [v|].
  - rewrite in_map_iff. split.
    + intros (r & E & I). split; congruence.
    + intros (E & I). exists rg. split; [congruence | exact I].
  - split; [intros [] | intros [E _]; discriminate].
Qed.

(** ** C99: references to a package *)

(** Asked at the i-th component of a package declaration: the declarations in
    whose name these first i components come first, each with the range of
    these components; at the last component only those of the same package. *)
Theorem C99_package_references : forall uri_of ss s i c u rg,
  (forall t, In t ss -> proper t) -> proper s -> nth_error (s_comps s) i = Some c ->
  (In (u, rg) (package_refs_at exactly below uri_of (map file_of ss) (decls_of s) (c_tok c)) <->
   exists t, In t ss /\ uri_of (s_path t) = Some u /\ rg = upto t (S i) /\
     prefix_of (firstn (S i) (names s)) (names t) /\ (S i = List.length (names s) -> names t = names s)).
Proof.
  intros uri_of ss s i c u rg P Ps E. unfold package_refs_at. rewrite (cursor_spec s i c Ps E).
  pose proof (proper_free s Ps) as [Ns Fs]. set (q := firstn (S i) (names s)).
  assert (Li : i < List.length (names s)).
  { unfold names. rewrite map_length. apply nth_error_Some. congruence. }
  assert (Lq : List.length q = S i) by (unfold q; rewrite firstn_length; lia).
  assert (Nq : q <> []) by (destruct q; [discriminate|congruence]).
  assert (Fq : free q).
  { intros w I. apply Fs. unfold q in I. rewrite <- (firstn_skipn (S i) (names s)). apply in_or_app. now left. }
  unfold package_refs. rewrite in_flat_map. split.
  - intros (f & If & I). apply filter_In in If as [If Ff]. apply in_map_iff in If as (t & <- & It).
    apply one_file in I as [Eu I]. pose proof (P t It) as Pt. pose proof (proper_free t Pt) as [Nt Ft].
    exists t. split; [exact It|]. split; [exact Eu|].
    cbn [file_of f_package] in Ff. unfold decls_of in I.
    destruct (S i =? List.length (names s)) eqn:L; cbn [negb] in Ff, I.
    + apply (exactly_iff q (names t) Nq Nt Fq Ft) in Ff.
      destruct (range_exact t q Pt Ff) as [N R]. rewrite (decls_pass _ _ _ _ _ N) in I.
      destruct (name_of t); [|congruence]. rewrite R in I. destruct I as [<-|[]].
      rewrite Lq. split; [reflexivity|]. split; [rewrite Ff; apply prefix_of_refl|].
      intros _. rewrite Ff. apply Nat.eqb_eq in L. unfold q. rewrite L. apply firstn_all.
    + apply (below_iff q (names t) Nq Nt Fq Ft) in Ff.
      pose proof (range_prefix t q Pt Nq Fq Ff) as R.
      assert (N : name_of t <> None) by (apply (range_exact t (names t) Pt eq_refl)).
      rewrite (decls_pass _ _ _ _ _ N) in I. destruct (name_of t); [|congruence]. rewrite R in I. destruct I as [<-|[]].
      rewrite Lq. split; [reflexivity|]. split; [exact Ff|]. intros X. apply Nat.eqb_neq in L. contradiction.
  - intros (t & It & Eu & -> & Q & X). pose proof (P t It) as Pt. pose proof (proper_free t Pt) as [Nt Ft].
    exists (file_of t). rewrite filter_In, one_file. cbn [file_of f_package].
    assert (N : name_of t <> None) by (apply (range_exact t (names t) Pt eq_refl)).
    unfold decls_of. rewrite (decls_pass _ _ _ _ _ N).
    destruct (S i =? List.length (names s)) eqn:L; cbn [negb].
    + apply Nat.eqb_eq in L. specialize (X L).
      assert (Eq : names t = q). { unfold q. rewrite L, firstn_all. exact X. }
      split; [split; [now apply in_map|] | split; [exact Eu|]].
      * now apply (exactly_iff q (names t) Nq Nt Fq Ft).
      * destruct (range_exact t q Pt Eq) as [_ R]. destruct (name_of t); [|congruence]. rewrite R, Lq. now left.
    + split; [split; [now apply in_map|] | split; [exact Eu|]].
      * now apply (below_iff q (names t) Nq Nt Fq Ft).
      * pose proof (range_prefix t q Pt Nq Fq Q) as R. destruct (name_of t); [|congruence]. rewrite R, Lq. now left.
Qed.

Example C99_package_references_case :
  (forall t, In t all_sources -> proper t) /\ nth_error (s_comps src_foo_a_b) 1 = Some (mkComp 3 (b_ "a") 12 13) /\
  package_refs_at exactly below doc (map file_of all_sources) (decls_of src_foo_a_b) 3
  = [(b_ "file:///a.proto", (8, 13)); (b_ "file:///ab.proto", (8, 13))] /\
  package_refs_at exactly below doc (map file_of all_sources) (decls_of src_foo_a_b) 1
  = [(b_ "file:///foo.proto", (8, 11)); (b_ "file:///a.proto", (8, 11)); (b_ "file:///ab.proto", (8, 11))].
Proof. split; [exact all_proper|]. vm_compute. auto. Qed.

(** Each document is listed once. *)
Theorem C99_once : forall uri_of ss s i c,
  (forall t, In t ss -> proper t) -> proper s -> nth_error (s_comps s) i = Some c ->
  NoDup (map (fun t => uri_of (s_path t)) ss) ->
  NoDup (map fst (package_refs_at exactly below uri_of (map file_of ss) (decls_of s) (c_tok c))).
Proof.
  intros uri_of ss s i c P Ps E N. unfold package_refs_at. rewrite (cursor_spec s i c Ps E).
  set (name := join_with dot _). set (pm := negb _). unfold package_refs.
  set (g := fun f => if f_placeholder f then [] else _).
  assert (One : forall t, In t ss -> g (file_of t) = [] \/ exists u rg, uri_of (s_path t) = Some u /\ g (file_of t) = [(u, rg)]).
  { intros t It. unfold g. cbn [file_of f_placeholder f_path f_decls]. destruct (uri_of (s_path t)) as [u|]; [|now left].
    unfold decls_of. rewrite decls_pass by (apply (range_exact t (names t) (P t It) eq_refl)).
    destruct (name_of t); [|now left]. destruct (name_range name pm p) as [r|]; [right; now exists u, r | now left]. }
  revert One N. clear P. induction ss as [|t ss IH]; intros One N; cbn [map filter flat_map]; [constructor|].
  inversion N as [|x l Nx Nl]; subst. specialize (IH (fun t I => One t (or_intror I)) Nl).
  destruct ((if pm then below else exactly) name (f_package (file_of t))); [|exact IH].
  cbn [flat_map]. destruct (One t (or_introl eq_refl)) as [-> | (u & rg & Eu & ->)]; [exact IH|].
  cbn [app map fst]. constructor; [|exact IH]. intros I. apply Nx. rewrite Eu.
  apply in_map_iff in I as ([v r] & Ev & I). cbn in Ev. subst v. apply in_flat_map in I as (f & If & I).
  apply filter_In in If as [If _]. apply in_map_iff in If as (t' & <- & It).
  apply in_map_iff. exists t'. split; [|exact It].
  destruct (One t' (or_intror It)) as [X | (u' & rg' & Eu' & X)]; rewrite X in I; [destruct I|].
  destruct I as [Y|[]]. rewrite Eu'. congruence.
Qed.
Example C99_once_case : NoDup (map (fun t => doc (s_path t)) all_sources).
Proof. repeat constructor; vm_compute; intuition discriminate. Qed.

(** Compound names are checked by component even if the index also visits
    packages that only start with the same text, *)
Theorem C99_compound_checked : forall by_package by_prefix uri_of ss q u rg,
  (forall t, In t ss -> proper t /\ 1 < List.length (s_comps t)) ->
  q <> [] -> (forall w, In w q -> w <> [] /\ ~ In dot w) ->
  In (u, rg) (package_refs by_package by_prefix uri_of (map file_of ss) (join_with dot q) true) ->
  exists t, In t ss /\ uri_of (s_path t) = Some u /\ prefix_of q (names t).
Proof.
  intros bp bx uri_of ss q u rg P Nq Fq I. unfold package_refs in I. apply in_flat_map in I as (f & If & I).
  apply filter_In in If as [If _]. apply in_map_iff in If as (t & <- & It). apply one_file in I as [Eu I].
  destruct (P t It) as [Pt L]. exists t. split; [exact It|]. split; [exact Eu|].
  unfold decls_of in I. rewrite decls_pass in I by (apply (range_exact t (names t) Pt eq_refl)).
  destruct (name_of t) as [x|] eqn:En; [|destruct I]. destruct (name_range (join_with dot q) true x) as [r|] eqn:R; [|destruct I].
  exact (range_none t q Pt Nq Fq L x r En R).
Qed.
Example C99_compound_checked_case :
  let ss := [src_foo_a; mkSource (b_ "fa.proto") 0 [mkComp 1 (b_ "foox") 8 12; mkComp 3 (b_ "a") 13 14] 0] in
  package_refs exactly starts_with doc (map file_of ss) (b_ "foo") true = [(b_ "file:///a.proto", (8, 11))].
Proof. vm_compute. reflexivity. Qed.

(** but simple names are not: with such an index package foobar would be
    reported as a reference to foo. *)
Theorem C99_simple_unchecked_refuted : exists ss u rg,
  (forall t, In t ss -> proper t) /\
  In (u, rg) (package_refs exactly starts_with doc (map file_of ss) (b_ "foo") true) /\
  forall t, In t ss -> doc (s_path t) = Some u -> ~ prefix_of [b_ "foo"] (names t).
Proof.
  exists all_sources, (b_ "file:///foobar.proto"), (8, 14). split; [exact all_proper|].
  split; [vm_compute; auto|]. intros t I E [r X].
  destruct I as [<-|[<-|[<-|[<-|[]]]]]; vm_compute in E; try discriminate; vm_compute in X; discriminate.
Qed.

(** The relation is not symmetric: the reference from foo.a to foo is found when
    asked in foo.a, but not when asked in the declaration of foo itself. *)
Theorem C99_symmetric_refuted : exists ss s t i c c' u rg,
  (forall x, In x ss -> proper x) /\ In s ss /\ In t ss /\
  nth_error (s_comps s) i = Some c /\ nth_error (s_comps t) i = Some c' /\
  firstn (S i) (names s) = firstn (S i) (names t) /\
  In (u, rg) (package_refs_at exactly below doc (map file_of ss) (decls_of s) (c_tok c)) /\
  ~ In (u, rg) (package_refs_at exactly below doc (map file_of ss) (decls_of t) (c_tok c')).
Proof.
  exists all_sources, src_foo_a, src_foo, 0, (mkComp 1 (b_ "foo") 8 11), (mkComp 2 (b_ "foo") 8 11), (b_ "file:///a.proto"), (8, 11).
  split; [exact all_proper|]. split; [right; right; now left|]. split; [now left|].
  split; [reflexivity|]. split; [reflexivity|]. split; [reflexivity|].
  split; [vm_compute; auto|]. vm_compute. intuition discriminate.
Qed.

(** Hovering shows the same name and the same range that the references of the
    document itself have. *)
Theorem C99_hover : forall uri_of ss s i c name partly rg u,
  (forall t, In t ss -> proper t) -> In s ss -> nth_error (s_comps s) i = Some c ->
  uri_of (s_path s) = Some u ->
  hover (c_tok c) (decls_of s) = Some (name, partly, rg) ->
  name = join_with dot (firstn (S i) (names s)) /\ (partly = true <-> S i < List.length (names s)) /\
  In (u, rg) (package_refs_at exactly below uri_of (map file_of ss) (decls_of s) (c_tok c)).
Proof.
  intros uri_of ss s i c name partly rg u P I E Eu H. pose proof (P s I) as Ps.
  rewrite (hover_spec s i c Ps E) in H. assert (X : name = join_with dot (firstn (S i) (names s)) /\
    partly = negb (S i =? List.length (names s)) /\ rg = upto s (S i)) by (repeat split; congruence).
  destruct X as (-> & -> & ->). clear H.
  assert (Li : i < List.length (names s)).
  { unfold names. rewrite map_length. apply nth_error_Some. congruence. }
  split; [reflexivity|]. split.
  - rewrite negb_true_iff, Nat.eqb_neq. lia.
  - apply (C99_package_references uri_of ss s i c u (upto s (S i)) P Ps E). exists s.
    split; [exact I|]. split; [exact Eu|]. split; [reflexivity|]. split; [|reflexivity].
    exists (skipn (S i) (names s)). symmetry. apply firstn_skipn.
Qed.
Example C99_hover_case : hover 3 (decls_of src_foo_a_b) = Some (b_ "foo.a", true, (8, 13)) /\
  hover 5 (decls_of src_foo_a_b) = Some (b_ "foo.a.b", false, (8, 15)).
Proof. vm_compute. auto. Qed.

(** ** C100: references to a symbol *)

(** The declaration, if it is asked for, comes first; then every reference in a
    document that has a URI, in order; nothing else. *)
Theorem C100_symbol : forall by_package by_prefix uri_of files document ds tok definition refs,
  find_references by_package by_prefix uri_of files document ds tok (Symbol definition refs) false
  = Some (ref_locations uri_of refs) /\
  find_references by_package by_prefix uri_of files document ds tok (Symbol definition refs) true
  = match definition with Some l => Some (l :: ref_locations uri_of refs) | None => None end.
Proof. intros. split; [reflexivity|]. cbn. now destruct definition. Qed.
Example C100_symbol_case : find_references exactly below doc [] (b_ "file:///a.proto") [] 0
  (Symbol (Some (b_ "file:///d.proto", (4, 7))) [(b_ "r.proto", (9, 12))]) true
  = Some [(b_ "file:///d.proto", (4, 7)); (b_ "file:///r.proto", (9, 12))].
Proof. vm_compute. reflexivity. Qed.

Theorem C100_located : forall uri_of refs u rg,
  In (u, rg) (ref_locations uri_of refs) <-> exists p, In (p, rg) refs /\ uri_of p = Some u.
Proof.
  intros uri_of refs u rg. unfold ref_locations. rewrite in_flat_map. split.
  - intros ([p r] & I & J). cbn in J. destruct (uri_of p) as [v|] eqn:E; [|destruct J]. destruct J as [J|[]].
    exists p. split; [congruence | congruence].
  - intros (p & I & E). exists (p, rg). split; [exact I|]. cbn. rewrite E. now left.
Qed.
Example C100_located_case : ref_locations (fun p => if beq p (b_ "x") then None else doc p) [(b_ "x", (0, 1)); (b_ "y", (2, 3))]
  = [(b_ "file:///y", (2, 3))].
Proof. vm_compute. reflexivity. Qed.

Theorem C100_count : forall uri_of refs, (forall p rg, In (p, rg) refs -> uri_of p <> None) ->
  List.length (ref_locations uri_of refs) = List.length refs.
Proof.
  intros uri_of refs H. unfold ref_locations. induction refs as [|[p rg] refs IH]; [reflexivity|].
  cbn [flat_map fst snd]. destruct (uri_of p) eqn:E; [|exfalso; exact (H p rg (or_introl eq_refl) E)].
  cbn [app List.length]. f_equal. apply IH. intros q r I. apply (H q r). now right.
Qed.
Example C100_count_case : forall p rg, In (p, rg) [(b_ "x", (0, 1)); (b_ "x", (4, 5))] -> doc p <> None.
Proof. discriminate. Qed.

(** Without the declaration, references to a package leave out the document
    that was asked in, and only that one. *)
Theorem C100_package : forall by_package by_prefix uri_of files document ds tok u rg,
  (exists ls, find_references by_package by_prefix uri_of files document ds tok Nothing false = Some ls /\
     (In (u, rg) ls <-> In (u, rg) (package_refs_at by_package by_prefix uri_of files ds tok) /\ u <> document)) /\
  find_references by_package by_prefix uri_of files document ds tok Nothing true
  = Some (package_refs_at by_package by_prefix uri_of files ds tok).
Proof.
  intros. split; [|reflexivity]. eexists. split; [reflexivity|]. rewrite filter_In. cbn [fst].
  rewrite negb_true_iff, beq_neq. reflexivity.
Qed.
Example C100_package_case :
  find_references exactly below doc (map file_of all_sources) (b_ "file:///ab.proto") (decls_of src_foo_a_b) 3 Nothing false
  = Some [(b_ "file:///a.proto", (8, 13))].
Proof. vm_compute. reflexivity. Qed.

Print Assumptions C99_package_references.
Print Assumptions C99_once.
Print Assumptions C99_compound_checked.
Print Assumptions C99_simple_unchecked_refuted.
Print Assumptions C99_symmetric_refuted.
Print Assumptions C99_hover.
Print Assumptions C100_symbol.
Print Assumptions C100_located.
Print Assumptions C100_count.
Print Assumptions C100_package.
