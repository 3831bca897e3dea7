(** A tactic for [Permutation] between lists built with [++] and [::] from the same parts. *)
From Coq Require Import List Arith Permutation.
Import ListNotations.

Fixpoint del (x : nat) (l : list nat) : option (list nat) :=
  match l with
  | [] => None
  | y :: r => if Nat.eqb x y then Some r else option_map (cons y) (del x r)
  end.
Fixpoint same (l m : list nat) : bool :=
  match l with
  | [] => match m with [] => true | _ => false end
  | x :: r => match del x m with Some m' => same r m' | None => false end
  end.
Lemma del_perm x : forall l r, del x l = Some r -> Permutation l (x :: r).
Proof.
  induction l as [|y l IH]; cbn; intros r E; [discriminate|]. destruct (Nat.eqb x y) eqn:Q.
  - injection E as <-. apply Nat.eqb_eq in Q. now subst.
  - destruct (del x l) as [s|]; [|discriminate]. injection E as <-. rewrite (IH s eq_refl). apply perm_swap.
Qed.
Lemma same_perm : forall l m, same l m = true -> Permutation l m.
Proof.
  induction l as [|x l IH]; cbn; intros m E; [destruct m; [constructor|discriminate]|]. destruct (del x m) as [m'|] eqn:D; [|discriminate].
  apply del_perm in D. rewrite D. constructor. now apply IH.
Qed.
Lemma reflect_perm {A} (env : list (list A)) l m : same l m = true -> Permutation (flat_map (fun i => nth i env []) l) (flat_map (fun i => nth i env []) m).
Proof. intro E. apply Permutation_flat_map. now apply same_perm. Qed.

Ltac in_env x env := match env with [] => constr:(false) | x :: _ => constr:(true) | _ :: ?e => in_env x e end.
Ltac add x env := match in_env x env with true => env | false => constr:(x :: env) end.
Ltac index x env := match env with x :: _ => constr:(O) | _ :: ?e => let n := index x e in constr:(S n) end.
Ltac collect l env :=
  match l with
  | ?a ++ ?b => let e := collect a env in collect b e
  | [] => env
  | ?x :: ?r => let e := add constr:([x]) env in collect r e
  | ?x => add x env
  end.
Ltac reify l env :=
  match l with
  | ?a ++ ?b => let x := reify a env in let y := reify b env in constr:(x ++ y)
  | [] => constr:(@nil nat)
  | ?x :: ?r => let i := index constr:([x]) env in let y := reify r env in constr:(i :: y)
  | ?x => let i := index x env in constr:([i])
  end.
Ltac perm :=
  match goal with |- @Permutation ?A ?l ?m =>
    let e := collect l (@nil (list A)) in let env := collect m e in
    let x := reify l env in let y := reify m env in
    let x' := eval cbn in x in let y' := eval cbn in y in
    let P := fresh in
    assert (P := reflect_perm env x' y' eq_refl); cbn [flat_map nth app] in P;
    repeat rewrite <- app_assoc; repeat rewrite app_nil_r in *; repeat rewrite <- app_assoc in P; cbn [app] in P |- *; exact P
  end.
Example perm_works : forall (a b c : list nat) x, Permutation (a ++ x :: b ++ c ++ []) ((c ++ [x]) ++ b ++ a).
Proof. intros. perm. Qed.
