From Coq Require Import Permutation.
From Verif Require Import Base.
From Verif.Search Require Import Model Spec Proofs.
Open Scope list_scope.

(** ** C49: the token at the cursor *)

(** What is returned is a token of the list, is meaningful and touches the cursor. *)
Theorem C49_sound : forall ts l c t,
  lookup ts l c = Some t -> In t ts /\ meaningful t /\ touches l c t.
Proof. exact lookup_sound. Qed.

(** Something is returned whenever some meaningful token touches the cursor. *)
Theorem C49_complete : forall ts l c t,
  ordered ts -> In t ts -> meaningful t -> touches l c t -> exists u, lookup ts l c = Some u.
Proof. exact lookup_complete. Qed.

(** It is the first such token. *)
Theorem C49_first : forall ts l c t,
  ordered ts ->
  (lookup ts l c = Some t <->
   exists a b, ts = a ++ t :: b /\ meaningful t /\ touches l c t /\
     forall u, In u a -> meaningful u -> ~ touches l c u).
Proof.
  intros ts l c t O. split.
  - intros H. destruct (lookup_first _ _ _ _ H) as (a & b & E & F).
    destruct (lookup_sound _ _ _ _ H) as (_ & M & T). exists a, b. auto.
  - intros (a & b & E & M & T & F).
    destruct (lookup_complete ts l c t O) as [u H]; [rewrite E; apply in_or_app; right; now left | assumption | assumption |].
    rewrite H. f_equal. destruct (lookup_first _ _ _ _ H) as (a' & b' & E' & F').
    destruct (lookup_sound _ _ _ _ H) as (_ & M' & T'). clear H O.
    subst ts. revert a' E' F'. induction a as [|x a IH]; intros [|x' a'] E' F'; cbn in E'.
    + now injection E' as -> _.
    + injection E' as -> _. exfalso. now apply (F' x' (or_introl eq_refl)).
    + injection E' as -> _. exfalso. now apply (F u (or_introl eq_refl)).
    + injection E' as <- E'. apply (IH (fun v I => F v (or_intror I)) a' E' (fun v I => F' v (or_intror I))).
Qed.

(** For disjoint tokens, a cursor between two characters of a token finds that token. *)
Theorem C49_inside : forall ts l c t,
  ordered ts -> disjoint ts -> In t ts -> meaningful t -> inside l c t -> lookup ts l c = Some t.
Proof.
  intros ts l c t O D I M (L & G1 & G2).
  assert (T : touches l c t) by (unfold touches; lia).
  destruct (lookup_complete ts l c t O I M T) as [u H]. rewrite H. f_equal.
  destruct (lookup_sound _ _ _ _ H) as (J & _ & T').
  destruct (disjoint_pair ts u t D J I) as [E|[A|A]]; [exact E| |];
    destruct T' as (L' & Z & S); specialize (A ltac:(congruence)); lia.
Qed.

(** If no other meaningful token touches the cursor then the one that does is found,
    wherever the cursor touches it. *)
Theorem C49_only_candidate : forall ts l c t,
  ordered ts -> In t ts -> meaningful t -> touches l c t ->
  (forall u, In u ts -> meaningful u -> touches l c u -> u = t) ->
  lookup ts l c = Some t.
Proof.
  intros ts l c t O I M T U. destruct (lookup_complete ts l c t O I M T) as [u H].
  destruct (lookup_sound _ _ _ _ H) as (J & M' & T'). now rewrite <- (U u J M' T').
Qed.

(** The full statement fails at a boundary: the cursor is before the first
    character of a token that directly follows another, and the other is found. *)
Theorem C49_contains_refuted : exists ts l c t u,
  ordered ts /\ disjoint ts /\ In t ts /\ meaningful t /\
  line t = l /\ start t <= c < start t + len t /\ lookup ts l c = Some u /\ u <> t.
Proof.
  exists [mkItem true 0 0 3 (NodeTok 1); mkItem true 0 3 4 (NodeTok 2)], 0, 3,
    (mkItem true 0 3 4 (NodeTok 2)), (mkItem true 0 0 3 (NodeTok 1)).
  split; [|split; [|split; [|split; [|split; [|split; [|split]]]]]].
  - constructor; [intros u [<-|[]]; right; cbn; lia|]. constructor; [intros u []|constructor].
  - constructor; [intros u [<-|[]]; unfold apart; cbn; lia|]. constructor; [intros u []|constructor].
  - right; now left.
  - split; [reflexivity | now exists 2].
  - reflexivity.
  - cbn; lia.
  - reflexivity.
  - discriminate.
Qed.

(** Of nested tokens the outer one is found, not the narrowest. *)
Theorem C49_narrowest_refuted : exists ts l c t u,
  ordered ts /\ In t ts /\ meaningful t /\ inside l c t /\ lookup ts l c = Some u /\ len t < len u.
Proof.
  exists [mkItem true 0 0 9 (NodeTok 1); mkItem true 0 2 4 (NodeTok 2)], 0, 3,
    (mkItem true 0 2 4 (NodeTok 2)), (mkItem true 0 0 9 (NodeTok 1)).
  split; [|split; [|split; [|split; [|split]]]].
  - constructor; [intros u [<-|[]]; right; cbn; lia|]. constructor; [intros u []|constructor].
  - right; now left.
  - split; [reflexivity | now exists 2].
  - unfold inside; cbn; lia.
  - reflexivity.
  - cbn; lia.
Qed.

(* message Foo { on line 0 and a field on line 1: the cursor in the field's name *)
Example C49_ex :
  let ts := [mkItem true 0 0 7 (NodeTok 1); mkItem true 0 8 3 (NodeTok 2); mkItem true 0 12 1 RuneTok;
             mkItem false 1 0 9 (NodeTok 9); mkItem true 1 2 6 (NodeTok 3); mkItem true 1 9 3 (NodeTok 4)] in
  lookup ts 1 10 = Some (mkItem true 1 9 3 (NodeTok 4)) /\ lookup ts 0 12 = None /\
  lookup ts 0 11 = Some (mkItem true 0 8 3 (NodeTok 2)) /\ ordered ts.
Proof.
  repeat split. repeat (constructor; [intros u I; repeat (destruct I as [<-|I]; [unfold before; cbn; lia|]); destruct I|]).
  constructor.
Qed.

(** ** C50: references *)

(** At any point of any schedule nothing is reported twice, and only what some
    file reports. *)
Theorem C50_once : forall ref (key : ref -> nat) files acts s,
  run key (begin files) acts = Some (Next s) ->
  NoDup (map key (received s)) /\ forall r, In r (received s) -> found_in files r.
Proof.
  intros ref key files acts s H. apply (partial_once key files).
  apply (run_inv key files _ _ _ (begin_inv key files) H).
Qed.

(** When the search is over everything has been reported. *)
Theorem C50_all : forall ref (key : ref -> nat) files acts s,
  run key (begin files) acts = Some (Next s) -> over s = true ->
  forall r, found_in files r -> exists r', In r' (received s) /\ key r' = key r.
Proof.
  intros ref key files acts s H O r F.
  destruct (final key files s (run_inv key files _ _ _ (begin_inv key files) H) O) as (_ & _ & A).
  apply A in F. apply in_map_iff in F as (r' & E & I). now exists r'.
Qed.

(** Every schedule gives the same references, in some order. *)
Theorem C50_same : forall ref (key : ref -> nat) files acts1 s1 acts2 s2,
  run key (begin files) acts1 = Some (Next s1) -> over s1 = true ->
  run key (begin files) acts2 = Some (Next s2) -> over s2 = true ->
  Permutation (map key (received s1)) (map key (received s2)).
Proof.
  intros ref key files a1 s1 a2 s2 H1 O1 H2 O2.
  destruct (final key files s1 (run_inv key files _ _ _ (begin_inv key files) H1) O1) as (N1 & F1 & A1).
  destruct (final key files s2 (run_inv key files _ _ _ (begin_inv key files) H2) O2) as (N2 & F2 & A2).
  apply NoDup_Permutation; [exact N1 | exact N2 |]. intros k. split; intros I;
    apply in_map_iff in I as (r & <- & I); auto.
Qed.

(** The search never gets stuck, ends after a bounded number of steps and never
    sends on the closed channel. *)
Theorem C50_progress : forall ref (key : ref -> nat) files acts s,
  run key (begin files) acts = Some (Next s) -> over s = false ->
  exists a s', step key s a = Some (Next s').
Proof.
  intros ref key files acts s H O. apply (progress key files s); [|exact O].
  apply (run_inv key files _ _ _ (begin_inv key files) H).
Qed.

Theorem C50_terminates : forall ref (key : ref -> nat) files acts s,
  run key (begin files) acts = Some (Next s) ->
  length acts <= 3 * fold_right (fun f n => match f with None => n | Some rs => length rs + n end) 0 files
                 + length files + 2.
Proof.
  intros ref key files acts s H. apply run_measure in H. pose proof (begin_measure files) as B.
  unfold refs_of in B. lia.
Qed.

Theorem C50_no_panic : forall ref (key : ref -> nat) files acts,
  run key (begin files) acts <> Some Panic.
Proof. intros ref key files acts. apply (run_no_panic key files). apply begin_inv. Qed.

(* two files and a placeholder; the second file repeats a reference of the first *)
Example C50_ex :
  match run (fun r : nat => r) (begin [Some [1; 2]; None; Some [2; 3]])
          [Work 1; Work 0; Work 1; Work 1; Work 1; Receive; Work 0; Work 0; Work 1; Work 0; Receive; Receive; Close; End] with
  | Some (Next s) => over s = true /\ received s = [2; 3; 1]
  | _ => False
  end.
Proof. vm_compute. split; reflexivity. Qed.

(** ** C93: the innermost nodes enclosing a range *)

(** [node_at d i]: a node with identity [i] and path length [d] that the walk
    reaches and that is of a kind to be reported. *)
Definition node_at enter role t d i : Prop :=
  exists k s e cs, reached enter (through role) 1 t d (Tree i k s e cs) /\ role i = Some true.

(** Exactly the deepest such nodes are returned. *)
Theorem C93_deepest : forall enter role t qs,
  enclosing_range enter role t = Some qs ->
  forall d i, In (d, i) qs <-> node_at enter role t d i /\ forall d' i', node_at enter role t d' i' -> d' <= d.
Proof.
  intros enter role t qs H d i. rewrite enclosing_range_eq in H.
  assert (E : qs = filter (fun q => fst q =? top (enclosing enter role 1 t)) (enclosing enter role 1 t)).
  { destruct (enclosing enter role 1 t); [discriminate|]. now injection H as <-. }
  rewrite E, filter_top_in, enclosing_in. split.
  - intros ((d' & i' & k & s & e & cs & Re & Ro & X) & M). injection X as <- <-. split.
    + now exists k, s, e, cs.
    + intros d' i' (k' & s' & e' & cs' & Re' & Ro'). apply (M (d', i')). apply enclosing_in.
      now exists d', i', k', s', e', cs'.
  - intros ((k & s & e & cs & Re & Ro) & M). split.
    + now exists d, i, k, s, e, cs.
    + intros [d' i'] I. apply enclosing_in in I as (d1 & i1 & k1 & s1 & e1 & cs1 & Re1 & Ro1 & X).
      injection X as -> ->. cbn. apply (M d1 i1). now exists k1, s1, e1, cs1.
Qed.

(** Something is returned exactly if there is such a node; then the list is not empty. *)
Theorem C93_found : forall enter role t,
  (exists qs, enclosing_range enter role t = Some qs) <-> exists d i, node_at enter role t d i.
Proof.
  intros enter role t. rewrite enclosing_range_eq. split.
  - intros [qs H]. destruct (enclosing enter role 1 t) as [|x ps] eqn:E; [discriminate|].
    assert (I : In x (enclosing enter role 1 t)) by (rewrite E; now left).
    apply enclosing_in in I as (d & i & k & s & e & cs & Re & Ro & ->). exists d, i. now exists k, s, e, cs.
  - intros (d & i & k & s & e & cs & Re & Ro).
    assert (I : In (d, i) (enclosing enter role 1 t)) by (apply enclosing_in; now exists d, i, k, s, e, cs).
    destruct (enclosing enter role 1 t); [destruct I | eauto].
Qed.

Theorem C93_not_empty : forall enter role t, enclosing_range enter role t <> Some [].
Proof.
  intros enter role t. rewrite enclosing_range_eq. generalize (enclosing enter role 1 t) as ps. intros ps H.
  destruct ps as [|x ps]; [discriminate|].
  assert (F : filter (fun u => fst u =? top (x :: ps)) (x :: ps) = []) by congruence. clear H.
  assert (M : exists q, In q (x :: ps) /\ forall u, In u (x :: ps) -> fst u <= fst q).
  { clear. induction ps as [|y ps IH] in x |- *.
    - exists x. split; [now left|]. intros u [<-|[]]. lia.
    - destruct (IH y) as (q & I & F). destruct (Nat.le_gt_cases (fst x) (fst q)).
      + exists q. split; [now right|]. intros u [<-|J]; auto.
      + exists x. split; [now left|]. intros u [<-|J]; [lia|]. apply F in J. lia. }
  destruct M as (q & M). apply filter_top_in in M. rewrite F in M. destruct M.
Qed.

(** They are in the order of the source. *)
Theorem C93_source_order : forall enter role t qs,
  enclosing_range enter role t = Some qs -> sublist qs (preorder 1 t).
Proof.
  intros enter role t qs H. rewrite enclosing_range_eq in H.
  assert (E : qs = filter (fun q => fst q =? top (enclosing enter role 1 t)) (enclosing enter role 1 t)).
  { destruct (enclosing enter role 1 t); [discriminate | congruence]. }
  rewrite E. eapply sublist_trans; [apply sublist_filter | apply enclosing_sublist].
Qed.

(** A node that is not of a listed kind hides everything below it. *)
Theorem C93_skipped_subtree : forall enter role i k s e cs,
  role i = None -> enclosing_range enter role (Tree i k s e cs) = None.
Proof.
  intros enter role i k s e cs R. rewrite enclosing_range_eq. cbn [enclosing]. rewrite R.
  destruct (enter i); reflexivity.
Qed.

(* file > message > two fields, and another message: the two fields *)
Example C93_ex :
  let leaf i := Tree i Plain (mkPos 0 0) (mkPos 0 0) [] in
  let t := Tree 0 Plain (mkPos 0 0) (mkPos 9 0)
    [([0; 0], Tree 1 Plain (mkPos 0 0) (mkPos 5 0) [([0; 0], leaf 3); ([0; 1], leaf 4)]); ([0; 1], leaf 2)] in
  enclosing_range (fun _ => true) (fun i => Some (negb (i =? 0))) t = Some [(5, 3); (5, 4)].
Proof. reflexivity. Qed.

(** ** C94: the path at a position *)

(** What the walk records: a node that holds the position by the rule of its
    kind, or the name of a message literal's field whose separator is the token
    at the position. *)
Definition candidate enter name_of p token t (x : nat * nat) : Prop :=
  exists d i k s e cs, reached enter (fun _ => true) 1 t d (Tree i k s e cs) /\
    (records k s e p = true /\ x = (d, i) \/
     exists sep, k = MsgField (Some sep) /\ token = sep /\ x = (d + 1, name_of i)).

(** The result is a candidate and no candidate is deeper. *)
Theorem C94_deepest : forall enter name_of p token t x,
  path_at enter name_of p token t = Some x ->
  candidate enter name_of p token t x /\ forall y, candidate enter name_of p token t y -> fst y <= fst x.
Proof.
  intros enter name_of p token t x H. apply path_at_spec in H as (a & b & E & F & G). split.
  - apply visit_in. rewrite E. apply in_or_app. right. now left.
  - intros y C. apply visit_in in C. rewrite E in C. apply in_app_or in C as [C|[<-|C]].
    + apply F in C. lia.
    + lia.
    + now apply G.
Qed.

(** Among equally deep candidates the first one recorded is taken. *)
Theorem C94_first : forall enter name_of p token t x,
  path_at enter name_of p token t = Some x <->
  exists a b, visit enter name_of p token 1 t = a ++ x :: b /\
    (forall q, In q a -> fst q < fst x) /\ forall q, In q b -> fst q <= fst x.
Proof. exact path_at_spec. Qed.

Theorem C94_found : forall enter name_of p token t,
  path_at enter name_of p token t = None <-> forall y, ~ candidate enter name_of p token t y.
Proof.
  intros enter name_of p token t. split.
  - intros H y C. apply visit_in in C. unfold path_at in H.
    destruct (visit enter name_of p token 1 t); [destruct C | discriminate].
  - intros N. unfold path_at. destruct (visit enter name_of p token 1 t) as [|x l] eqn:E; [reflexivity|].
    exfalso. apply (N x). apply visit_in. rewrite E. now left.
Qed.

(** Which positions a declaration holds: from its first character up to, but
    not including, the position after its closing token. *)
Theorem C94_half_open : forall s e q p,
  records (Scoped (ClosesAt q)) s e p = true <-> le_pos s p /\ lt_pos p q.
Proof. intros. apply exclusive_iff. Qed.

(** Without a closing token, and for names and references, the end counts. *)
Theorem C94_closed : forall s e p k,
  In k [Scoped NoClose; Scoped VirtualClose; Spanned; MsgField None; Extend true NoClose; Extend false NoClose] ->
  records k s e p = true <-> le_pos s p /\ le_pos p e.
Proof.
  intros s e p k I. cbn in I.
  repeat (destruct I as [<-|I]; [cbn [records intersects_exclusive]; apply intersects_iff|]). destruct I.
Qed.

(** An rpc that ends in a body instead of a semicolon is never the result. *)
Theorem C94_rpc_body_never : forall enter name_of p token t d i k s e cs close,
  reached enter (fun _ => true) 1 t d (Tree i k s e cs) -> k = Rpc NoClose close ->
  (forall d' k' s' e' cs', reached enter (fun _ => true) 1 t d' (Tree i k' s' e' cs') -> k' = k) ->
  (forall j, name_of j <> i) ->
  forall d', path_at enter name_of p token t <> Some (d', i).
Proof.
  intros enter name_of p token t d i k s e cs close _ Hk U N d' H.
  apply C94_deepest in H as [(d1 & i1 & k1 & s1 & e1 & cs1 & Re & [[R E]|(sep & _ & _ & E)]) _].
  - injection E as -> ->. rewrite (U _ _ _ _ _ Re), Hk in R. destruct close; discriminate.
  - injection E as _ E. now apply (N i1).
Qed.

(** Hence a cursor inside the body of an rpc finds the service around it. *)
Theorem C94_innermost_refuted : exists t p d d' k s e cs,
  path_at (fun _ => true) (fun i => i + 100) p 0 t = Some (d, 1) /\
  reached (fun _ => true) (fun _ => true) 1 t d' (Tree 2 k s e cs) /\ d < d' /\
  le_pos s p /\ lt_pos p e.
Proof.
  set (rpc := Tree 2 (Rpc NoClose (ClosesAt (mkPos 2 3))) (mkPos 1 2) (mkPos 2 3) []).
  exists (Tree 0 Plain (mkPos 0 0) (mkPos 3 1)
    [([0; 0], Tree 1 (Scoped (ClosesAt (mkPos 3 1))) (mkPos 0 0) (mkPos 3 1) [([0; 0], rpc)])]),
    (mkPos 1 20), 3, 5, (Rpc NoClose (ClosesAt (mkPos 2 3))), (mkPos 1 2), (mkPos 2 3), [].
  split; [reflexivity|]. split.
  - apply reached_below with (steps := [0; 0]) (c := Tree 1 (Scoped (ClosesAt (mkPos 3 1))) (mkPos 0 0) (mkPos 3 1) [([0; 0], rpc)]);
      [reflexivity | reflexivity | now left |].
    apply reached_below with (steps := [0; 0]) (c := rpc); [reflexivity | reflexivity | now left |].
    apply reached_here. reflexivity.
  - unfold le_pos, lt_pos; cbn. lia.
Qed.

(* a field inside a message; and the field's name when the token is the separator *)
Example C94_ex :
  let t := Tree 0 Plain (mkPos 0 0) (mkPos 3 1)
    [([0; 0], Tree 1 (Scoped (ClosesAt (mkPos 3 1))) (mkPos 0 0) (mkPos 3 1)
       [([0; 0], Tree 2 (Scoped (ClosesAt (mkPos 1 17))) (mkPos 1 2) (mkPos 1 17) []);
        ([0; 1], Tree 3 (MsgField (Some 7)) (mkPos 2 2) (mkPos 2 9) [])])] in
  path_at (fun _ => true) (fun i => i + 100) (mkPos 1 5) 0 t = Some (5, 2) /\
  path_at (fun _ => true) (fun i => i + 100) (mkPos 1 17) 0 t = Some (3, 1) /\
  path_at (fun _ => true) (fun i => i + 100) (mkPos 2 4) 7 t = Some (6, 103) /\
  path_at (fun _ => true) (fun i => i + 100) (mkPos 3 1) 0 t = None.
Proof. repeat split. Qed.

Print Assumptions C49_sound.
Print Assumptions C49_complete.
Print Assumptions C49_first.
Print Assumptions C49_inside.
Print Assumptions C49_only_candidate.
Print Assumptions C49_contains_refuted.
Print Assumptions C49_narrowest_refuted.
Print Assumptions C50_once.
Print Assumptions C50_all.
Print Assumptions C50_same.
Print Assumptions C50_progress.
Print Assumptions C50_terminates.
Print Assumptions C50_no_panic.
Print Assumptions C93_deepest.
Print Assumptions C93_found.
Print Assumptions C93_source_order.
Print Assumptions C93_not_empty.
Print Assumptions C93_skipped_subtree.
Print Assumptions C94_deepest.
Print Assumptions C94_first.
Print Assumptions C94_found.
Print Assumptions C94_half_open.
Print Assumptions C94_closed.
Print Assumptions C94_rpc_body_never.
Print Assumptions C94_innermost_refuted.
