From Coq Require Import Ascii String.
From Verif Require Import Base Strs.
From Verif.Workspaces Require Import Model.
From Verif.Commands Require Import Model Spec.
Open Scope list_scope.

Lemma map_get_some k o v : map_get k o = Some v <-> member k o v.
Proof.
  induction o as [|[k' w] o IH]; simpl.
  - split; [discriminate|]. intros (l & r & E & _). now destruct l.
  - split.
    + destruct (map_get k o) as [x|] eqn:G.
      * intros [= ->]. destruct (proj1 IH eq_refl) as (l & r & -> & N). exists ((k', w) :: l), r. now split.
      * destruct (beq k' k) eqn:Q; [|discriminate]. intros [= ->]. apply beq_eq in Q as ->. exists [], o. split; [reflexivity|].
        clear IH. intros I. revert G. induction o as [|[a b] o IHo]; simpl in *; [tauto|].
        destruct (map_get k o) eqn:G; [discriminate|]. destruct I as [-> | I]; [now rewrite beq_refl|]. destruct (beq a k); [discriminate|]. now apply IHo.
    + intros (l & r & E & N). destruct l as [|x l]; simpl in E; injection E as E1 E2.
      * inversion E1; subst. assert (map_get k r = None) as ->.
        { clear -N. induction r as [|[a b] r IHr]; simpl in *; [reflexivity|].
          rewrite IHr by tauto. destruct (beq a k) eqn:Q; [|reflexivity]. apply beq_eq in Q. exfalso. apply N. now left. }
        now rewrite beq_refl.
      * subst. assert (map_get k (l ++ (k, v) :: r) = Some v) as -> by (apply IH; exists l, r; now split). reflexivity.
Qed.

Lemma map_get_none k o : map_get k o = None <-> ~ has k o.
Proof.
  unfold has. induction o as [|[a b] o IH]; simpl; [tauto|].
  destruct (map_get k o) eqn:G.
  - split; [discriminate|]. intros N. exfalso. assert (~ ~ In k (map fst o)) by (intros X; apply IH in X; discriminate). apply H. tauto.
  - destruct (beq a k) eqn:Q.
    + split; [discriminate|]. apply beq_eq in Q. intros N. exfalso. apply N. now left.
    + apply beq_neq in Q. split; [|reflexivity]. intros _ [E | E]; [congruence|]. now apply IH.
Qed.

Lemma beq_false a b : a <> b -> beq a b = false.
Proof. intros H. now apply beq_neq. Qed.

Lemma in_served cmd : existsb (beq cmd) served = true <-> cmd = b_ "protols/generate" \/ cmd = b_ "protols/generateWorkspace".
Proof. unfold served. cbn [existsb]. rewrite !orb_true_iff, !beq_eq. intuition discriminate. Qed.

Section P.
Variable parse : bytes -> option (bytes * bytes).
Variable normal : bytes -> option bytes.
Variable order : list (bytes * cache).
Variable drivers : bool.

Lemma with_uri_crash u k : with_uri parse order u k = Crash <-> exists c, belongs parse order u c /\ k c = Crash.
Proof.
  unfold with_uri, belongs. destruct (parse u) as [[f p]|].
  - destruct (cache_for_uri order u f p) eqn:Q; split; try discriminate.
    + intros H. exists c. split; [|exact H]. exists f, p. now split.
    + intros (c' & (f' & p' & E1 & E2) & H). injection E1 as <- <-. congruence.
    + intros (c' & (f' & p' & E1 & E2) & H). injection E1 as <- <-. congruence.
    + intros (c' & (f' & p' & E1 & E2) & H). injection E1 as <- <-. congruence.
  - split; [discriminate|]. intros (c & (f & p & E & _) & _). discriminate.
Qed.

Lemma with_uri_served u k x : (forall c, k c <> x) -> (forall e, x <> Fail e) -> with_uri parse order u k <> x.
Proof.
  intros H N. unfold with_uri. destruct (parse u) as [[f p]|]; [destruct (cache_for_uri order u f p)|]; auto; intros E; eapply N; now symmetry.
Qed.

Lemma with_uri_inv u k x : with_uri parse order u k = x -> (exists c, belongs parse order u c /\ k c = x) \/ exists e, x = Fail e.
Proof.
  unfold with_uri, belongs. destruct (parse u) as [[f p]|]; [destruct (cache_for_uri order u f p) eqn:Q|]; intros <-; try (right; eexists; reflexivity).
  left. exists c. split; [|reflexivity]. exists f, p. now split.
Qed.

Lemma with_uri_belongs u k c : belongs parse order u c -> with_uri parse order u k = k c.
Proof. intros (f & p & E & Q). unfold with_uri. now rewrite E, Q. Qed.

Lemma dispatch_no_crash cmd a c : dispatch normal served cmd a c <> Crash.
Proof.
  unfold dispatch. destruct (existsb (beq cmd) served) eqn:S; [|discriminate].
  unfold handle. destruct (beq cmd (b_ "protols/generate")) eqn:Q.
  - destruct (entries a) as [o|]; [|discriminate]. destruct (field _ _ _ _); [|discriminate]. now destruct c.
  - destruct (beq cmd (b_ "protols/generateWorkspace")) eqn:Q2; [now destruct c|].
    apply in_served in S as [-> | ->]; rewrite beq_refl in *; discriminate.
Qed.

Lemma crash_with u cmd a : with_uri parse order u (fun c => dispatch normal served cmd a (Some c)) = Crash <-> False.
Proof. rewrite with_uri_crash. split; [|tauto]. intros (c & _ & H). now apply dispatch_no_crash in H. Qed.

Lemma other_crash cmd arg :
  other parse normal order served cmd arg = Crash <-> exists o, arg = JObj o /\ bad_address o.
Proof.
  unfold other. destruct arg as [|b|n|s|l|o]; cbn [entries map_get]; try (split; [discriminate|intros (o & E & _); discriminate]).
  - split; [intros H; now apply dispatch_no_crash in H|]. intros (o & E & _). discriminate.
  - assert (forall P : Prop, (P <-> bad_address o) -> (P <-> exists o', JObj o = JObj o' /\ bad_address o')) as R.
    { intros P H. rewrite H. split; [intros X; now exists o|]. intros (o' & [= <-] & X). exact X. }
    apply R. clear R. unfold bad_address.
    destruct (map_get (b_ "uri") o) as [v|] eqn:G1.
    + assert (has (b_ "uri") o) as HU. { apply map_get_some in G1. destruct G1 as (l & r & -> & _). unfold has. rewrite map_app. apply in_or_app. right. now left. }
      assert ((exists v0, member (b_ "uri") o v0 /\ (forall u, v0 <> JStr u)) <-> forall u, v <> JStr u) as E1.
      { split. - intros (v0 & M & N). apply map_get_some in M. congruence. - intros N. exists v. split; [now apply map_get_some|exact N]. }
      rewrite E1. destruct v; try (split; [intros _; left; discriminate|reflexivity]).
      rewrite crash_with. split; [tauto|]. intros [H | [[H _] | [H _]]]; try tauto. now specialize (H s).
    + assert (~ has (b_ "uri") o) as HU by now apply map_get_none.
      assert (~ (exists v0, member (b_ "uri") o v0 /\ (forall u, v0 <> JStr u))) as N1.
      { intros (v0 & M & _). apply map_get_some in M. congruence. }
      destruct (map_get (b_ "uris") o) as [v|] eqn:G2.
      * assert (has (b_ "uris") o) as HS. { apply map_get_some in G2. destruct G2 as (l & r & -> & _). unfold has. rewrite map_app. apply in_or_app. right. now left. }
        assert ((exists v0, member (b_ "uris") o v0 /\ (forall u l, v0 <> JArr (JStr u :: l))) <-> forall u l, v <> JArr (JStr u :: l)) as E2.
        { split. - intros (v0 & M & N). apply map_get_some in M. congruence. - intros N. exists v. split; [now apply map_get_some|exact N]. }
        rewrite E2. destruct v as [|b|n|s|l|w]; try (split; [intros _; right; left; split; [exact HU|discriminate]|reflexivity]).
        destruct l as [|x l]; [split; [intros _; right; left; split; [exact HU|discriminate]|reflexivity]|].
        destruct x; try (split; [intros _; right; left; split; [exact HU|discriminate]|reflexivity]).
        rewrite crash_with. split; [tauto|]. intros [H | [[_ H] | [_ [H _]]]]; try tauto. now specialize (H s l).
      * assert (~ has (b_ "uris") o) as HS by now apply map_get_none.
        assert (~ (exists v0, member (b_ "uris") o v0 /\ (forall u l, v0 <> JArr (JStr u :: l)))) as N2.
        { intros (v0 & M & _). apply map_get_some in M. congruence. }
        destruct (map_get (b_ "workspace") o) as [v|] eqn:G3.
        -- assert ((exists v0, member (b_ "workspace") o v0 /\ (forall w u n, v0 = JObj w -> member (b_ "uri") w (JStr u) -> ~ member (b_ "name") w (JStr n)))
                   <-> forall w u n, v = JObj w -> member (b_ "uri") w (JStr u) -> ~ member (b_ "name") w (JStr n)) as E3.
           { split. - intros (v0 & M & N). apply map_get_some in M. assert (v = v0) as -> by congruence. exact N.
             - intros N. exists v. split; [now apply map_get_some|exact N]. }
           rewrite E3. destruct v as [|b|n|s|l|w]; try (split; [intros _; right; right; repeat split; auto; discriminate|reflexivity]).
           assert (forall A, (A = Crash <-> forall u n, member (b_ "uri") w (JStr u) -> ~ member (b_ "name") w (JStr n)) ->
             (A = Crash <-> (exists v, member (b_ "uri") o v /\ (forall u, v <> JStr u))
               \/ (~ has (b_ "uri") o /\ exists v, member (b_ "uris") o v /\ (forall u l, v <> JArr (JStr u :: l)))
               \/ (~ has (b_ "uri") o /\ ~ has (b_ "uris") o /\ forall w0 u n, JObj w = JObj w0 -> member (b_ "uri") w0 (JStr u) -> ~ member (b_ "name") w0 (JStr n)))) as R.
           { intros A H. rewrite H. split.
             - intros X. right. right. repeat split; auto. intros w0 u n [= <-]. apply X.
             - intros [X | [[_ X] | (_ & _ & X)]]; try tauto. intros u n. now apply X. }
           apply R. clear R.
           destruct (map_get (b_ "uri") w) as [vu|] eqn:GU; [destruct vu as [|b|n|u|l|x]|].
           4: { destruct (map_get (b_ "name") w) as [vn|] eqn:GN; [destruct vn as [|b|n|n|l|x]|].
             4: { split.
               - destruct (cache_for_workspace order (mkFolder u n)); try discriminate. intros H. now apply dispatch_no_crash in H.
               - intros H. exfalso. eapply H; apply map_get_some; eassumption. }
             all: split; [intros _ u' n' _ M; apply map_get_some in M; congruence|reflexivity]. }
           all: split; [intros _ u' n' M; apply map_get_some in M; congruence|reflexivity].
        -- split; [intros H; now apply dispatch_no_crash in H|].
           intros [X | [[_ X] | (_ & _ & v & M & _)]]; try tauto. apply map_get_some in M. congruence.
Qed.

Lemma execute_crash cmd args : execute parse normal order drivers served cmd args = Crash <-> deadly cmd args.
Proof.
  unfold execute, deadly, argument_free, typed. cbn [In].
  destruct (beq cmd (b_ "protols/reindexWorkspaces")) eqn:Q1.
  { apply beq_eq in Q1 as ->. split; [discriminate|]. intros [H _]. exfalso. apply H. now left. }
  destruct (beq cmd (b_ "protols/refreshModules")) eqn:Q2.
  { apply beq_eq in Q2 as ->. split; [destruct drivers; discriminate|]. intros [H _]. exfalso. apply H. right. now left. }
  apply beq_neq in Q1, Q2.
  assert (~ (b_ "protols/reindexWorkspaces" = cmd \/ b_ "protols/refreshModules" = cmd \/ False)) as NA by (intros [E|[E|[]]]; congruence).
  destruct args as [|arg r]; [split; [intros _; split; [exact NA|now left]|reflexivity]|].
  assert (forall P : Prop, (P -> False) -> (In cmd typed) -> (P <-> ~ (b_ "protols/reindexWorkspaces" = cmd \/ b_ "protols/refreshModules" = cmd \/ False) /\
    (arg :: r = [] \/ ~ (b_ "protols/syntheticFileContents" = cmd \/ b_ "protols/ast" = cmd \/ b_ "protols/goToGeneratedDefinition" = cmd \/ False) /\
      (exists o r0, arg :: r = JObj o :: r0 /\ bad_address o)))) as R.
  { intros P NP I. split; [tauto|]. intros (_ & [E | [N _]]); [discriminate|]. exfalso. apply N. exact I. }
  destruct (beq cmd (b_ "protols/syntheticFileContents")) eqn:Q3.
  { apply beq_eq in Q3 as ->. apply R; [|now left]. destruct (entries arg) as [o|]; [|discriminate].
    destruct (field set_string (b_ "uri") [] o); [|discriminate]. rewrite with_uri_crash. intros (c & _ & H). discriminate. }
  destruct (beq cmd (b_ "protols/ast")) eqn:Q4.
  { apply beq_eq in Q4 as ->. apply R; [|right; now left]. destruct (entries arg) as [o|]; [|discriminate].
    destruct (field set_string (b_ "uri") [] o); [|discriminate]. destruct (field _ (b_ "version") _ o); [|discriminate].
    rewrite with_uri_crash. intros (c & _ & H). discriminate. }
  destruct (beq cmd (b_ "protols/goToGeneratedDefinition")) eqn:Q5.
  { apply beq_eq in Q5 as ->. apply R; [|right; right; now left]. destruct (entries arg) as [o|]; [|discriminate].
    destruct (field (set_document normal) _ _ o); [|discriminate]. destruct (field _ (b_ "position") _ o) as [[ln ch]|]; [|discriminate].
    rewrite with_uri_crash. intros (c & _ & H). discriminate. }
  apply beq_neq in Q3, Q4, Q5. clear R. rewrite other_crash. split.
  - intros (o & -> & B). split; [exact NA|]. right. split; [intros [E|[E|[E|[]]]]; congruence|]. now exists o, r.
  - intros (_ & [E | (_ & o & r0 & E & B)]); [discriminate|]. injection E as -> ->. now exists o.
Qed.

Lemma session_all cmds :
  List.length (session parse normal order drivers served cmds) = List.length cmds
  <-> forall c a, In (c, a) cmds -> ~ deadly c a.
Proof.
  induction cmds as [|[c a] r IH]; [split; [intros _ c a []|reflexivity]|]. cbn [session].
  destruct (execute parse normal order drivers served c a) eqn:X.
  1: { split; [discriminate|]. intros H. exfalso. apply (H c a (or_introl eq_refl)). now apply execute_crash. }
  all: cbn [List.length]; split;
    [ intros [= E] c' a' [[= <- <-] | I]; [intros D; apply execute_crash in D; congruence | now apply IH]
    | intros H; f_equal; apply IH; intros c' a' I; apply H; now right ].
Qed.

(** *** Which workspace *)

Lemma field_one {A} (set : A -> json -> option A) f x l k v r :
  (forall k', In k' (map fst l) -> folds k' f = false) -> (forall k', In k' (map fst r) -> folds k' f = false) ->
  folds k f = true -> field set f x (l ++ (k, v) :: r) = set x v.
Proof.
  intros NL NR F.
  assert (forall y q, (forall k', In k' (map fst q) -> folds k' f = false) -> field set f y q = Some y) as R0.
  { intros y q. induction q as [|[a b] q IH]; simpl; [reflexivity|]. intros N. rewrite (N a (or_introl eq_refl)). apply IH. intros k' I. apply N. now right. }
  induction l as [|[a b] l IH]; simpl.
  - rewrite F. destruct (set x v) as [y|]; [now apply R0|reflexivity].
  - rewrite (NL a (or_introl eq_refl)). apply IH. intros k' I. apply NL. now right.
Qed.

Lemma field_absent {A} (set : A -> json -> option A) f x q :
  (forall k', In k' (map fst q) -> folds k' f = false) -> field set f x q = Some x.
Proof.
  induction q as [|[a b] q IH]; simpl; [reflexivity|]. intros N. rewrite (N a (or_introl eq_refl)). apply IH. intros k' I. apply N. now right.
Qed.

Lemma set_elems_spec l us : set_elems normal l = Some us <->
  Forall2 (fun v u => match v with JStr s => normal s = Some u | JNull => u = [] | _ => False end) l us.
Proof.
  revert us. induction l as [|v l IH]; intros us; simpl.
  - split; [intros [= <-]; constructor|]. intros H. now inversion H.
  - split.
    + destruct (set_uri normal [] v) as [u|] eqn:S; [|discriminate]. destruct (set_elems normal l) as [w|]; [|discriminate].
      intros [= <-]. constructor; [|now apply IH]. destruct v; simpl in S; try discriminate; congruence.
    + intros H. inversion H as [|? u ? w H1 H2]; subst. apply IH in H2. rewrite H2.
      destruct v; try contradiction; simpl; [now subst|now rewrite H1].
Qed.

(** what [other] gives, by where the workspace is taken from *)
Definition source (o : list (bytes * json)) (c : option cache) : Prop :=
  match c with
  | Some c => addressed parse order o c
  | None => ~ has (b_ "uri") o /\ ~ has (b_ "uris") o /\ ~ has (b_ "workspace") o
  end.

Lemma other_inv reg cmd arg x : other parse normal order reg cmd arg = x -> x <> Crash -> (forall e, x <> Fail e) ->
  exists o c, entries arg = Some o /\ source o c /\ dispatch normal reg cmd arg c = x.
Proof.
  unfold other. intros H NC NF. destruct (entries arg) as [o|]; [|exfalso; eapply NF; symmetry; exact H].
  exists o.
  destruct (map_get (b_ "uri") o) as [v|] eqn:G1.
  { apply map_get_some in G1. destruct v; try (congruence).
    apply with_uri_inv in H as [(c & B & H) | [e E]]; [|exfalso; now apply (NF e)].
    exists (Some c). repeat split; [|exact H]. left. now exists s. }
  apply map_get_none in G1.
  destruct (map_get (b_ "uris") o) as [v|] eqn:G2.
  { apply map_get_some in G2. destruct v as [|b|n|s|l|w]; try (congruence).
    destruct l as [|y l]; [congruence|]. destruct y; try (congruence).
    apply with_uri_inv in H as [(c & B & H) | [e E]]; [|exfalso; now apply (NF e)].
    exists (Some c). repeat split; [|exact H]. right. left. split; [exact G1|]. now exists s, l. }
  apply map_get_none in G2.
  destruct (map_get (b_ "workspace") o) as [v|] eqn:G3.
  - apply map_get_some in G3. destruct v as [|b|n|s|l|w]; try (congruence).
    destruct (map_get (b_ "uri") w) as [vu|] eqn:GU; [|congruence]. destruct vu as [|b|n|u|l|z]; try (congruence).
    destruct (map_get (b_ "name") w) as [vn|] eqn:GN; [|congruence]. destruct vn as [|b|n|n|l|z]; try (congruence).
    apply map_get_some in GU, GN.
    destruct (cache_for_workspace order (mkFolder u n)) as [c| |] eqn:Q; try (exfalso; eapply NF; symmetry; exact H).
    exists (Some c). repeat split; [|exact H]. right. right. split; [exact G1|]. split; [exact G2|]. exists w, u, n. repeat split; assumption.
  - apply map_get_none in G3. exists None. repeat split; assumption.
Qed.

Lemma source_in o c : source o (Some c) -> In c (map snd order).
Proof.
  assert (forall u, belongs parse order u c -> In c (map snd order)) as B.
  { intros u (f & p & _ & Q). revert Q. unfold cache_for_uri. destruct (negb (beq f [])).
    - destruct (find _ order) as [e|] eqn:F; [|discriminate]. intros [= <-]. apply find_some in F as [F _]. now apply in_map.
    - destruct (find (takes p) order) as [e|] eqn:F; [intros [= <-]; apply find_some in F as [F _]; now apply in_map|].
      destruct (find (fun e => c_tracks (snd e) u) order) as [e|] eqn:F2; [|discriminate]. intros [= <-]. apply find_some in F2 as [F2 _]. now apply in_map. }
  intros [(u & _ & H) | [(_ & u & l & _ & H) | (_ & _ & w & u & n & _ & _ & _ & Q)]]; eauto.
  revert Q. unfold cache_for_workspace. destruct (find _ order) as [e|] eqn:F; [|discriminate]. intros [= <-]. apply find_some in F as [F _]. now apply in_map.
Qed.

Lemma execute_other reg cmd arg r : ~ In cmd argument_free -> ~ In cmd typed ->
  execute parse normal order drivers reg cmd (arg :: r) = other parse normal order reg cmd arg.
Proof.
  unfold argument_free, typed. cbn [In]. intros NA NT. unfold execute.
  rewrite !beq_false; [reflexivity| | | | |]; intros ->; tauto.
Qed.
End P.

Lemma find_split {A} (f : A -> bool) (l : list A) x : find f l = Some x -> exists a b, l = a ++ x :: b /\ f x = true /\ forall y, In y a -> f y = false.
Proof.
  induction l as [|z l IH]; [discriminate|]. simpl. destruct (f z) eqn:Q.
  - intros [= ->]. exists [], l. repeat split; auto. intros y [].
  - intros H. destruct (IH H) as (a & b & -> & F & N). exists (z :: a), b. repeat split; auto. intros y [<- | I]; auto.
Qed.
Lemma find_first {A} (f : A -> bool) a x b : f x = true -> (forall y, In y a -> f y = false) -> find f (a ++ x :: b) = Some x.
Proof. intros F. induction a as [|z a IH]; intros N; simpl; [now rewrite F|]. rewrite (N z (or_introl eq_refl)). apply IH. intros y I. apply N. now right. Qed.
