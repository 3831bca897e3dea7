From Coq Require Import Ascii String.
From Verif Require Import Base Strs.
From Verif.PrefixSearch Require Import Model Spec.
Open Scope list_scope.

Lemma find_in f p n : In n (find_by_prefix f p) <-> In n (names f) /\ starts n p.
Proof. unfold find_by_prefix, starts. rewrite filter_In, has_prefix_spec. tauto. Qed.

Lemma search_iff fs p n :
  found (search fs p) n <-> exists f, declared fs f n /\ starts n (pkg f ++ dotc :: p).
Proof.
  unfold found, search, declared. split.
  - intros (l & Hl & Hn). apply in_map_iff in Hl as (f & <- & Hf).
    destruct (pkg f) as [|c k] eqn:E; [contradiction|]. apply find_in in Hn as [Hn Hs].
    exists f. rewrite E. repeat split; auto. discriminate.
  - intros (f & (Hf & Hk & Hn) & Hs). eexists. split; [apply in_map; exact Hf|].
    cbn. destruct (pkg f) eqn:E; [congruence|]. now apply find_in.
Qed.

Lemma qualified_iff fs p n :
  found (search_qualified fs (dotc :: p)) n <->
  exists f, declared fs f n /\ starts n p /\ starts (pkg f) p.
Proof.
  unfold found, search_qualified, declared. cbn [has_prefix tl]. rewrite Ascii.eqb_refl, has_prefix_nil. cbn [andb].
  split.
  - intros (l & Hl & Hn). apply in_map_iff in Hl as (f & <- & Hf).
    destruct (pkg f) as [|c k] eqn:E; [contradiction|]. rewrite <- E in *.
    destruct (has_prefix (pkg f) p) eqn:Eh; cbn [negb] in Hn; [|contradiction].
    apply find_in in Hn as [Hn Hs]. apply has_prefix_spec in Eh. exists f. repeat split; auto. rewrite E. discriminate.
  - intros (f & (Hf & Hk & Hn) & Hs & Hp). eexists. split; [apply in_map; exact Hf|].
    cbn beta. apply has_prefix_spec in Hp. destruct (pkg f) as [|c k] eqn:E; [congruence|].
    rewrite Hp. cbn [negb]. now apply find_in.
Qed.

Lemma unqualified_iff fs p n : has_prefix p [dotc] = false ->
  (found (search_qualified fs p) n <-> exists f, declared fs f n /\ starts n p).
Proof.
  intros Hd. unfold found, search_qualified, declared. rewrite Hd. cbn [andb]. split.
  - intros (l & Hl & Hn). apply in_map_iff in Hl as (f & <- & Hf).
    destruct (pkg f) as [|c k] eqn:E; [contradiction|].
    apply find_in in Hn as [Hn Hs]. exists f. rewrite E. repeat split; auto. discriminate.
  - intros (f & (Hf & Hk & Hn) & Hs). eexists. split; [apply in_map; exact Hf|].
    cbn beta. destruct (pkg f) as [|c k] eqn:E; [congruence|]. now apply find_in.
Qed.
