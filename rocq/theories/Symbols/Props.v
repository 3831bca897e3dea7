(** Property theorems for workspace symbol search (C18, C19). *)
From Coq Require Import Ascii String QArith Permutation Sorted.
From Verif Require Import Base.
From Verif.Symbols Require Import Model Spec Proofs.
Open Scope list_scope.
Open Scope nat_scope.

(** C18: for every sequence of candidates, storing never panics and the results
    are a ranked best-100 selection of the candidates with positive score
    (less those the resolver rejects). *)
Theorem C18_results_ranked_best_100 :
  forall l, exists res sel, store_all (init_store maxSymbols) l = Some res /\
    ranked sel /\ best_selection maxSymbols l sel /\
    forall B (resolve : info -> option B),
      results resolve res =
      flat_map (fun si => match resolve si with Some x => [x] | None => [] end) sel.
Proof. intros l. apply store_all_spec. unfold maxSymbols. lia. Qed.

(** Among candidates of equal score the selection at the cut-off is not by
    name: a later candidate with a better-ranked name is dropped. *)
Definition bb (s : string) : bytes := list_ascii_of_string s.
Theorem C18_ties_at_cutoff_by_rank_refuted :
  exists l res x y, store_all (init_store maxSymbols) l = Some res /\
    In x l /\ ~ In x res /\ In y res /\ ranks_before x y.
Proof.
  exists (repeat (mkInfo 1 (bb "bb") 0) 100 ++ [mkInfo 1 (bb "a") 1]).
  eexists. exists (mkInfo 1 (bb "a") 1), (mkInfo 1 (bb "bb") 0).
  split; [vm_compute; reflexivity|]. split; [|split; [|split]].
  - apply in_or_app. right. now left.
  - intros H. repeat (destruct H as [H|H]; [discriminate|]). destruct H.
  - now left.
  - right. split; [reflexivity|]. left. cbn. lia.
Qed.

Example C18_example :
  store_all (init_store 2) [mkInfo 1 (bb "x") 0; mkInfo 3 (bb "yy") 1; mkInfo 3 (bb "z") 2; mkInfo 2 (bb "w") 3]
  = Some [mkInfo 3 (bb "z") 2; mkInfo 3 (bb "yy") 1].
Proof. reflexivity. Qed.

(** C19: a query matches (positive score) exactly if it has at least one word
    and each of its words matches. [fuzzy] is the third-party matcher used for
    plain words; its scores are not negative. *)
Theorem C19_query_is_conjunction :
  forall fuzzy q s ws,
  (forall g x, (0 <= snd (fuzzy g x))%Q) ->
  words_of q ws ->
  ((0 < snd (parse_query fuzzy q s))%Q <->
   ws <> [] /\ forall f, In f ws -> field_matches fuzzy f s).
Proof. exact parse_query_spec. Qed.

(** every query has its words (the relation used above is total), uniquely *)
Theorem C19_words_exist_unique :
  forall q, words_of q (fields q) /\ forall ws, words_of q ws -> ws = fields q.
Proof. intros q. split; [apply fields_words|intros ws; apply words_fields]. Qed.

Example C19_example :
  let fz : bytes -> matcher := fun _ _ => (0%Z, (1#2)%Q) in
  (forall g x, (0 <= snd (fz g x))%Q) /\
  words_of (bb " ^foo  bar") [bb "^foo"; bb "bar"] /\
  snd (parse_query fz (bb " ^foo  bar") (bb "Foo.x")) = (1#2)%Q /\
  snd (parse_query fz (bb " ^Foo  bar") (bb "foo.x")) == 0.
Proof.
  split; [intros; discriminate|]. split; [exact (fields_words (bb " ^foo  bar"))|].
  split; reflexivity.
Qed.

Print Assumptions C18_results_ranked_best_100.
Print Assumptions C18_ties_at_cutoff_by_rank_refuted.
Print Assumptions C19_query_is_conjunction.
Print Assumptions C19_words_exist_unique.
