(** The printed tokens read as statements: the statements that the printer writes, and that its tokens spell them. *)
From Coq Require Import Ascii String NArith QArith Qreduction Permutation.
From Verif Require Import Base Strs.
From Verif.Print Require Model.
From Verif.PrintTree Require Import Model Grammar Spec Read.
Open Scope list_scope.
Open Scope nat_scope.

Lemma strip_app a b : strip (a ++ b) = strip a ++ strip b.
Proof. apply filter_app. Qed.
Lemma strip_flat {A} (f : A -> list tok) l : strip (flat_map f l) = flat_map (fun x => strip (f x)) l.
Proof. induction l as [|x l IH]; [easy|]. cbn [flat_map]. now rewrite strip_app, IH. Qed.
Lemma strip_sep {A} s s' (f : A -> list tok) l : strip s = s' -> strip (sep s f l) = sep s' (fun x => strip (f x)) l.
Proof.
  intros <-. induction l as [|x l IH]; [easy|]. destruct l as [|y l]; [easy|].
  change (sep s f (x :: y :: l)) with (f x ++ s ++ sep s f (y :: l)). rewrite !strip_app, IH. reflexivity.
Qed.
Lemma strip_ints z r : strip (int_toks z ++ r) = int_toks z ++ strip r.
Proof. now rewrite strip_app, int_toks_strip. Qed.
Lemma sep_ext {A} s (f g : A -> list tok) l : (forall x, In x l -> f x = g x) -> sep s f l = sep s g l.
Proof.
  induction l as [|x l IH]; [easy|]. intros H. destruct l as [|y l]; [simpl; apply H; now left|].
  change (sep s f (x :: y :: l)) with (f x ++ s ++ sep s f (y :: l)). change (sep s g (x :: y :: l)) with (g x ++ s ++ sep s g (y :: l)).
  rewrite (H x (or_introl eq_refl)), IH; [easy|]. intros z Hz. apply H. now right.
Qed.
Lemma sep_map {A B} s (f : B -> list tok) (g : A -> B) l : sep s f (map g l) = sep s (fun x => f (g x)) l.
Proof.
  induction l as [|x l IH]; [easy|]. destruct l as [|y l]; [easy|].
  change (sep s f (map g (x :: y :: l))) with (f (g x) ++ s ++ sep s f (map g (y :: l))). now rewrite IH.
Qed.

(** ** Values *)
Section ValueInd.
Variable Q : value -> Prop.
Hypothesis H0 : forall v, match v with VMsg _ | VList _ => True | _ => Q v end.
Hypothesis HM : forall fs, (forall k v, In (k, v) fs -> Q v) -> Q (VMsg fs).
Hypothesis HL : forall vs, (forall v, In v vs -> Q v) -> Q (VList vs).
Fixpoint value_ind' (v : value) : Q v :=
  match v as v0 return Q v0 with
  | VMsg fs => HM fs ((fix go (l : list (fkey * value)) : forall k v, In (k, v) l -> Q v :=
      match l with
      | [] => fun k v H => match H with end
      | (k0, v0) :: r => fun k v H => match H with or_introl E => match E in (_ = (_, y)) return Q y with eq_refl => value_ind' v0 end | or_intror H' => go r k v H' end
      end) fs)
  | VList vs => HL vs ((fix go (l : list value) : forall v, In v l -> Q v :=
      match l with
      | [] => fun v H => match H with end
      | v0 :: r => fun v H => match H with or_introl E => match E in (_ = y) return Q y with eq_refl => value_ind' v0 end | or_intror H' => go r v H' end
      end) vs)
  | VInt z => H0 (VInt z) | VFloat m e => H0 (VFloat m e) | VInf n => H0 (VInf n) | VNan => H0 VNan | VStr s => H0 (VStr s)
  | VBytes s => H0 (VBytes s) | VBool b => H0 (VBool b) | VEnum n => H0 (VEnum n)
  end.
End ValueInd.

Section Printed.
Variable long_sort : list addr -> list addr.
Variable same_opts : opts -> opts -> bool.
Variable force : bool.
Variable syn : syntax.
Variable pkg : bytes.
(** the texts of names *)
Definition printed (u : use) (scope n : bytes) : bytes :=
  match u with UType | UOption => q force pkg scope n | UMessageOption => q_msg_option force pkg scope n | ULiteral => q_literal force pkg scope n end.

Definition wkey (scope : bytes) (k : fkey) : fkey := match k with FExt n => FExt (printed ULiteral scope n) | k => k end.
Fixpoint written (scope : bytes) (v : value) : sval :=
  match v with
  | VInt z => SNum (Qred (z # 1))
  | VFloat m e => number (m <? 0)%Z (Z.to_N (round_even (Z.abs m * million) (2 ^ Z.of_nat e))) 1000000
  | VMsg fs => SMsg (map (fun kv => (wkey scope (fst kv), written scope (snd kv))) fs)
  | VList vs => SList (map (written scope) vs)
  | v => mean v
  end.
Lemma print_msg scope fs : print_value force pkg scope (VMsg fs) =
  [P "{"] ++ sep [P ","] (fun kv => print_key force pkg scope (fst kv) ++ print_value force pkg scope (snd kv)) fs ++ [P "}"].
Proof.
  cbn [print_value]. f_equal. f_equal. induction fs as [|[k v] fs IH]; [easy|]. destruct fs as [|[k' v'] fs]; [easy|].
  rewrite IH. change (sep [P ","] ?f ((k, v) :: ?l)) with (f (k, v) ++ [P ","] ++ sep [P ","] f l). cbn [fst snd]. now rewrite <- !app_assoc.
Qed.
Lemma print_list scope vs : print_value force pkg scope (VList vs) = [P "["] ++ sep [P ","; B] (print_value force pkg scope) vs ++ [P "]"].
Proof.
  cbn [print_value]. f_equal. f_equal. induction vs as [|v vs IH]; [easy|]. destruct vs as [|v' vs]; [easy|].
  rewrite IH. reflexivity.
Qed.
Definition vt (scope : bytes) (v : value) : list tok := strip (print_value force pkg scope v).
Definition kt (scope : bytes) (k : fkey) : list tok := strip (print_key force pkg scope k).
Lemma vt_msg scope fs : vt scope (VMsg fs) = P "{" :: sep [P ","] (fun kv => kt scope (fst kv) ++ vt scope (snd kv)) fs ++ [P "}"].
Proof.
  unfold vt. rewrite print_msg, !strip_app. rewrite (strip_sep [P ","] [P ","]) by easy. cbn [app strip filter is_blank negb].
  f_equal. f_equal. apply sep_ext. intros [k v] _. now rewrite strip_app.
Qed.
Lemma vt_list scope vs : vt scope (VList vs) = P "[" :: sep [P ","] (vt scope) vs ++ [P "]"].
Proof. unfold vt. rewrite print_list, !strip_app. now rewrite (strip_sep [P ","; B] [P ","]) by easy. Qed.
Lemma kt_reads scope k : forall r, pkey (kt scope k ++ r) = Some (wkey scope k, P ":" :: r).
Proof. intros r. destruct k; reflexivity. Qed.
Lemma vt_head scope v : match v with VInf _ => True | _ => exists t u, vt scope v = t :: u /\ t <> P "}" /\ t <> P "]" end.
Proof.
  destruct v; try easy; try (eexists; eexists; split; [reflexivity|split; discriminate]).
  - unfold vt. cbn [print_value]. unfold int_toks. destruct (z <? 0)%Z; (eexists; eexists; split; [reflexivity|split; discriminate]).
  - unfold vt. cbn [print_value]. unfold float_toks. destruct (m <? 0)%Z; (eexists; eexists; split; [reflexivity|split; discriminate]).
  - unfold vt. cbn [print_value]. destruct b; (eexists; eexists; split; [reflexivity|split; discriminate]).
Qed.
(** infinities are not read back *)
Inductive finite : value -> Prop :=
| fin_msg fs : (forall k v, In (k, v) fs -> finite v) -> finite (VMsg fs)
| fin_list vs : (forall v, In v vs -> finite v) -> finite (VList vs)
| fin_leaf v : match v with VMsg _ | VList _ | VInf _ | VNan => False | _ => True end -> finite v.
Lemma vt_length scope v : finite v -> 1 <= List.length (vt scope v).
Proof.
  intros H. pose proof (vt_head scope v) as E. destruct v; try (destruct E as (t & u & -> & _); simpl; lia).
  inversion H; subst; easy.
Qed.
Lemma sep_tok_head {A} (t : A -> list tok) l c : l <> [] -> (forall x, In x l -> exists a b, t x = a :: b /\ a <> P c) -> forall r, eat c (sep [P ","] t l ++ r) = None.
Proof.
  destruct l as [|x l]; [easy|]. intros _ H r. destruct (H x (or_introl eq_refl)) as (a & b & E & Ha).
  assert (E2 : exists u, sep [P ","] t (x :: l) ++ r = a :: u).
  { destruct l as [|y l]; [cbn [sep]; rewrite E; eexists; reflexivity|].
    change (sep [P ","] t (x :: y :: l)) with (t x ++ [P ","] ++ sep [P ","] t (y :: l)). rewrite E. eexists; reflexivity. }
  destruct E2 as (u & ->). unfold eat. destruct a as [| | | |d|]; try easy. destruct (Ascii.eqb c d) eqn:Ec; [|easy].
  apply Ascii.eqb_eq in Ec. subst. easy.
Qed.
Lemma vt_reads scope v : finite v -> forall f r, List.length (vt scope v) <= f -> pvalue f (vt scope v ++ r) = Some (written scope v, r).
Proof.
  refine (value_ind' (fun v => finite v -> forall f r, List.length (vt scope v) <= f -> pvalue f (vt scope v ++ r) = Some (written scope v, r)) _ _ _ v); clear v;
    [intros v|intros fs IH|intros vs IH].
  - destruct v; try exact I; intros Hn f r Hf; try (inversion Hn; subst; easy); (destruct f; [exfalso; pose proof (vt_length scope _ Hn); lia|]); try reflexivity.
    + unfold vt. cbn [print_value]. unfold int_toks. destruct (z <? 0)%Z eqn:E; cbn [strip filter is_blank negb app pvalue Ascii.eqb Bool.eqb].
      * apply Z.ltb_lt in E. unfold number. rewrite Z2N.id by lia. now rewrite Z.opp_involutive.
      * apply Z.ltb_ge in E. unfold number. now rewrite Z2N.id by lia.
    + unfold vt. cbn [print_value]. unfold float_toks, written. now destruct (m <? 0)%Z.
    + now destruct b.
  - intros Hn f r Hf. assert (Hfin : forall k v, In (k, v) fs -> finite v) by (inversion Hn; subst; easy).
    rewrite vt_msg in *. destruct f; [simpl in Hf; lia|]. cbn [pvalue app]. change (Ascii.eqb "{" "-") with false. change (Ascii.eqb "{" "{") with true. cbv iota.
    rewrite <- app_assoc. cbn [List.length] in Hf. rewrite app_length in Hf. cbn [List.length] in Hf. destruct fs as [|kv fs]; [reflexivity|].
    rewrite (sep_tok_head _ (kv :: fs) "}" ltac:(easy)).
    2:{ intros [k v] _. cbn [fst snd]. destruct k; (eexists; eexists; split; [reflexivity|discriminate]). }
    assert (HS : forall x, In x (kv :: fs) -> reads (fun ts => do (k, r1) <- pkey ts; do r2 <- eat ":" r1; do (v, r3) <- pvalue f r2; Some (k, v, r3))
       (wkey scope (fst x), written scope (snd x)) (kt scope (fst x) ++ vt scope (snd x))).
    { intros [k v] Hx r'. cbn [fst snd]. rewrite <- app_assoc, kt_reads.
      change (eat ":" (P ":" :: ?u)) with (Some u). cbv iota beta.
      rewrite (IH k v Hx (Hfin k v Hx)); [reflexivity|].
      assert (Hle : List.length (kt scope k ++ vt scope v) <= List.length (sep [P ","] (fun kv => kt scope (fst kv) ++ vt scope (snd kv)) (kv :: fs))).
      { clear -Hx. set (l := kv :: fs) in *. clearbody l. induction l as [|y l IHl]; [easy|]. destruct l as [|y' l].
        - destruct Hx as [->|[]]. cbn [sep fst snd]. lia.
        - change (sep [P ","] ?g (y :: y' :: l)) with (g y ++ [P ","] ++ sep [P ","] g (y' :: l)). rewrite !app_length.
          destruct Hx as [->|Hx]; [cbn [fst snd]; lia|]. specialize (IHl Hx). rewrite ?app_length in *. lia. }
      rewrite app_length in Hle. lia. }
    rewrite (psep_reads _ (fun kv => (wkey scope (fst kv), written scope (snd kv))) (fun kv => kt scope (fst kv) ++ vt scope (snd kv)) (kv :: fs) ltac:(easy) HS).
    + reflexivity.
    + rewrite app_length. enough (HL : List.length (kv :: fs) <= List.length (sep [P ","] (fun kv => kt scope (fst kv) ++ vt scope (snd kv)) (kv :: fs))) by lia.
      apply sep_length. intros [k v] Hx. rewrite app_length. cbn [fst snd]. pose proof (vt_length scope v (Hfin k v Hx)). lia.
    + reflexivity.
  - intros Hn f r Hf. assert (Hfin : forall v, In v vs -> finite v) by (inversion Hn; subst; easy).
    rewrite vt_list in *. destruct f; [simpl in Hf; lia|]. cbn [pvalue app]. change (Ascii.eqb "[" "-") with false. change (Ascii.eqb "[" "{") with false. change (Ascii.eqb "[" "[") with true. cbv iota.
    rewrite <- app_assoc. cbn [List.length] in Hf. rewrite app_length in Hf. cbn [List.length] in Hf. destruct vs as [|v0 vs]; [reflexivity|].
    rewrite (sep_tok_head _ (v0 :: vs) "]" ltac:(easy)).
    2:{ intros v Hv. pose proof (vt_head scope v) as E. pose proof (Hfin v Hv) as Hfv. destruct v; try (inversion Hfv; subst; easy); destruct E as (a0 & b0 & E & _ & E2); exists a0, b0; split; assumption. }
    assert (HS : forall x, In x (v0 :: vs) -> reads (pvalue f) (written scope x) (vt scope x)).
    { intros v Hx r'. rewrite (IH v Hx (Hfin v Hx)); [reflexivity|].
      enough (Hle : List.length (vt scope v) <= List.length (sep [P ","] (vt scope) (v0 :: vs))) by lia.
      clear -Hx. set (l := v0 :: vs) in *. clearbody l. induction l as [|y l IHl]; [easy|]. destruct l as [|y' l].
      - destruct Hx as [->|[]]. cbn [sep]. lia.
      - change (sep [P ","] ?g (y :: y' :: l)) with (g y ++ [P ","] ++ sep [P ","] g (y' :: l)). rewrite !app_length.
        destruct Hx as [->|Hx]; [lia|]. specialize (IHl Hx). lia. }
    rewrite (psep_reads _ (written scope) (vt scope) (v0 :: vs) ltac:(easy) HS).
    + reflexivity.
    + rewrite app_length. enough (HL : List.length (v0 :: vs) <= List.length (sep [P ","] (vt scope) (v0 :: vs))) by lia.
      apply sep_length. intros v Hx. apply vt_length. now apply Hfin.
    + reflexivity.
Qed.
End Printed.
