(** Property theorems for descriptor search by prefix (C53). *)
From Coq Require Import Ascii String.
From Verif Require Import Base Strs.
From Verif.PrefixSearch Require Import Model Spec Proofs.
Open Scope list_scope.

(** A search relative to each file's package finds exactly the matching names. *)
Theorem C53_relative_prefix_search_exact :
  forall fs p n, found (search fs p) n <-> exists f, declared fs f n /\ starts n (pkg f ++ dotc :: p).
Proof. exact search_iff. Qed.

(** A search by full name without leading dot finds exactly the matching names. *)
Theorem C53_full_prefix_search_exact :
  forall fs p n, has_prefix p [dotc] = false ->
  (found (search_qualified fs p) n <-> exists f, declared fs f n /\ starts n p).
Proof. exact unqualified_iff. Qed.

(** With a leading dot the full statement would be
    [found (search_qualified fs (dotc :: p)) n <-> exists f, declared fs f n /\ starts n p].
    What holds is that, restricted to files whose package itself starts with
    the prefix ... *)
Theorem C53_dotted_prefix_search_partial :
  forall fs p n, found (search_qualified fs (dotc :: p)) n <->
  exists f, declared fs f n /\ starts n p /\ starts (pkg f) p.
Proof. exact qualified_iff. Qed.

(** ... so as soon as the prefix reaches beyond the package name nothing is found. *)
Definition file1 := mkFile (b_ "foo.bar") [b_ "foo.bar.Msg"; b_ "foo.bar.Other"].
Theorem C53_dotted_prefix_search_refuted :
  exists fs p n f, declared fs f n /\ starts n p /\ ~ found (search_qualified fs (dotc :: p)) n.
Proof.
  exists [file1], (b_ "foo.bar.M"), (b_ "foo.bar.Msg"), file1.
  split; [repeat split; cbn; auto; discriminate|]. split; [exists (b_ "sg"); reflexivity|].
  rewrite qualified_iff. intros (f & ([<-|[]] & _) & _ & [r H]). discriminate.
Qed.

Example C53_example :
  search_qualified [file1] (b_ ".foo") = [[b_ "foo.bar.Msg"; b_ "foo.bar.Other"]] /\
  search_qualified [file1] (b_ "foo.bar.M") = [[b_ "foo.bar.Msg"]] /\
  search [file1] (b_ "M") = [[b_ "foo.bar.Msg"]].
Proof. repeat split; reflexivity. Qed.

Print Assumptions C53_relative_prefix_search_exact.
Print Assumptions C53_full_prefix_search_exact.
Print Assumptions C53_dotted_prefix_search_partial.
Print Assumptions C53_dotted_prefix_search_refuted.
