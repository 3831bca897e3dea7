From Coq Require Import Ascii String Permutation.
From Verif Require Import Base Strs.
From Verif.Rename Require Import Model Spec.
Open Scope list_scope.

(** ** Names *)

Lemma split_mid s : forall t, split_on dot (s ++ dot :: t) = split_on dot s ++ split_on dot t.
Proof.
  intros t. rewrite <- (join_split dot s) at 1.
  pose proof (split_on_nonempty dot s) as N. pose proof (split_on_sep_free dot s) as F.
  revert N F. generalize (split_on dot s) as ws. induction ws as [|w ws IH]; [congruence|].
  intros _ F. destruct ws as [|v ws].
  - cbn [join_with]. rewrite split_on_app; [reflexivity|]. apply F. now left.
  - assert (E : join_with dot (w :: v :: ws) = w ++ dot :: join_with dot (v :: ws)) by reflexivity.
    rewrite E, <- app_assoc. cbn [app]. rewrite split_on_app by (apply F; now left).
    rewrite IH; [reflexivity | discriminate |]. intros x I. apply F. now right.
Qed.

Lemma removelast_in {A} (l : list A) x : In x (removelast l) -> In x l.
Proof.
  induction l as [|a l IH]; cbn; [auto|]. destruct l; [intros []|]. intros [->|I]; [now left|right; auto].
Qed.

Lemma split_parent n : removelast (split_on dot n) <> [] -> split_on dot (parent n) = removelast (split_on dot n).
Proof.
  intros N. unfold parent. apply split_join; [exact N|]. intros w I. apply removelast_in in I.
  now apply split_on_sep_free with (s := n).
Qed.

Lemma ident_nonempty : ident [] = false. Proof. reflexivity. Qed.

Lemma split_append p n : p <> [] -> split_on dot (append p n) = split_on dot p ++ split_on dot n.
Proof. destruct p as [|c p]; [congruence|]. intros _. unfold append. apply split_mid. Qed.

Lemma parent_nil n : valid_full n = true -> parent n = [] -> removelast (split_on dot n) = [].
Proof.
  intros V E. destruct (removelast (split_on dot n)) as [|w ws] eqn:R; [reflexivity|]. exfalso.
  assert (I : In w (split_on dot n)) by (apply removelast_in; rewrite R; now left).
  unfold valid_full in V. rewrite forallb_forall in V. apply V in I.
  unfold parent in E. rewrite R in E. destruct w as [|c w]; [discriminate|]. destruct ws; discriminate.
Qed.

Lemma valid_append full new : valid_full full = true ->
  valid_full (append (parent full) new) = forallb ident (split_on dot new).
Proof.
  intros V. destruct (list_eq_dec ascii_dec (parent full) []) as [E|N].
  - rewrite E. reflexivity.
  - unfold valid_full. rewrite split_append by exact N. rewrite forallb_app.
    rewrite split_parent.
    2:{ intros E. apply N. unfold parent. now rewrite E. }
    replace (forallb ident (removelast (split_on dot full))) with true; [reflexivity|].
    symmetry. apply forallb_forall. intros w I. apply removelast_in in I.
    unfold valid_full in V. rewrite forallb_forall in V. now apply V.
Qed.

Lemma removelast_snoc {A} (l : list A) x : removelast (l ++ [x]) = l.
Proof. apply removelast_last. Qed.

Lemma parent_append p n : ~ In dot n -> parent (append p n) = p.
Proof.
  intros N. destruct p as [|c p].
  - unfold append, parent. now rewrite split_on_no_sep.
  - unfold parent. rewrite split_append by discriminate. rewrite (split_on_no_sep _ _ N), removelast_snoc. apply join_split.
Qed.

Lemma short_append p n : ~ In dot n -> short (append p n) = n.
Proof.
  intros N. unfold short. destruct p as [|c p].
  - unfold append. now rewrite split_on_no_sep.
  - rewrite split_append by discriminate. rewrite (split_on_no_sep _ _ N). apply last_last.
Qed.

(** ** Edits *)

Section Env.
  Variable local : bytes -> bool.
  Variable uri_of : bytes -> option bytes.
  Notation edits := (edits local uri_of).

  Definition plan (r : ref) : list (bytes * range) :=
    match edit_range (r_node r), uri_of (r_file r) with
    | At rg, Some u => [(u, rg)]
    | _, _ => []
    end.
  Definition fine (r : ref) : Prop :=
    match edit_range (r_node r) with
    | Skip => True
    | Refuse => False
    | At _ => exists u, uri_of (r_file r) = Some u /\ local u = true
    end.

  Lemma edits_ok rs : (forall r, In r rs -> fine r) -> edits rs = Some (flat_map plan rs).
  Proof.
    induction rs as [|r rs IH]; [reflexivity|]. intros F. cbn [Model.edits flat_map].
    pose proof (F r (or_introl eq_refl)) as Fr. unfold fine in Fr. unfold plan at 1.
    specialize (IH (fun x I => F x (or_intror I))).
    destruct (edit_range (r_node r)); [|exact IH|destruct Fr].
    destruct Fr as (u & -> & ->). now rewrite IH.
  Qed.

  Lemma edits_some rs es : edits rs = Some es -> es = flat_map plan rs /\ forall r, In r rs -> fine r.
  Proof.
    revert es. induction rs as [|r rs IH]; cbn [Model.edits]; intros es H.
    - injection H as <-. split; [reflexivity | intros r []].
    - cbn [flat_map]. unfold plan at 1. destruct (edit_range (r_node r)) eqn:Er; [| |discriminate].
      + destruct (uri_of (r_file r)) as [u|] eqn:Eu; [|discriminate]. destruct (local u) eqn:El; [|discriminate].
        destruct (edits rs) as [es'|] eqn:E; [|discriminate]. cbn in H. injection H as <-.
        destruct (IH _ eq_refl) as [-> F]. split; [reflexivity|].
        intros x [<-|I]; [|now apply F]. unfold fine. rewrite Er. eauto.
      + destruct (IH _ H) as [-> F]. split; [reflexivity|]. intros x [<-|I]; [|now apply F].
        unfold fine. now rewrite Er.
  Qed.
End Env.

(** ** Documents *)

Fixpoint ranges (old : bytes) (off : nat) (d : list seg) : list range :=
  match d with
  | [] => []
  | Text t :: r => ranges old (off + List.length t) r
  | Use _ q :: r => (off + List.length q, off + List.length q + List.length old)
                    :: ranges old (off + List.length q + List.length old) r
  end.

Lemma splice_ranges old new d : forall pos t0,
  splice pos (t0 ++ render old d) (ranges old (pos + List.length t0) d) new = t0 ++ render new d.
Proof.
  induction d as [|[t|k q] d IH]; intros pos t0; cbn [render ranges splice].
  - reflexivity.
  - rewrite !app_assoc. rewrite <- (IH pos). rewrite app_length, Nat.add_assoc. reflexivity.
  - replace (pos + List.length t0 + List.length q - pos) with (List.length (t0 ++ q)) by (rewrite app_length; lia).
    replace (pos + List.length t0 + List.length q + List.length old - pos) with (List.length ((t0 ++ q) ++ old))
      by (rewrite !app_length; lia).
    replace (t0 ++ q ++ old ++ render old d) with ((t0 ++ q) ++ old ++ render old d) by now rewrite <- app_assoc.
    rewrite firstn_app, Nat.sub_diag, firstn_all, firstn_O, app_nil_r.
    rewrite (app_assoc (t0 ++ q) old), skipn_app, Nat.sub_diag, skipn_all. cbn [skipn app].
    specialize (IH (pos + List.length t0 + List.length q + List.length old) []). cbn [app List.length] in IH.
    rewrite Nat.add_0_r in IH. rewrite IH. now rewrite <- app_assoc.
Qed.

Lemma node_range off old k q : (k = URpcType -> q = []) ->
  edit_range (node_of off old k q) = At (off + List.length q, off + List.length q + List.length old).
Proof.
  intros H. destruct k, q as [|c q]; cbn [node_of edit_range last_part last List.length]; rewrite ?Nat.add_0_r; try reflexivity.
  specialize (H eq_refl). discriminate.
Qed.

Lemma plan_refs uri_of file u old d : uri_of file = Some u -> (forall s, In s d -> plain_rpc s) ->
  forall off, flat_map (plan uri_of) (refs_of file old off d) = map (pair u) (ranges old off d).
Proof.
  intros U. induction d as [|[t|k q] d IH]; intros P off; cbn [refs_of ranges flat_map map]; [reflexivity| |].
  - apply IH. intros s I. apply P. now right.
  - unfold plan at 1. cbn [r_node r_file]. rewrite node_range.
    + rewrite U. cbn [app]. f_equal. apply IH. intros s I. apply P. now right.
    + intros ->. apply (P (Use URpcType q)). now left.
Qed.

Lemma refs_of_file file old d : forall off r, In r (refs_of file old off d) ->
  r_file r = file /\ exists k q o, r_node r = node_of o old k q.
Proof.
  induction d as [|[t|k q] d IH]; cbn [refs_of]; intros off r I; [destruct I|eauto|].
  destruct I as [<-|I]; [|eauto]. split; [reflexivity|]. now exists k, q, off.
Qed.

Lemma node_of_range off old k q : exists rg, edit_range (node_of off old k q) = At rg.
Proof. destruct k, q; cbn; eauto. Qed.

(** ** Resolution *)

Lemma path_eq_iff a b : path_eq a b = true <-> a = b.
Proof. unfold path_eq. destruct (list_eq_dec _ a b); split; congruence. Qed.

Definition defined (defs : list path) (p : path) : bool := existsb (path_eq p) defs.
Lemma defined_iff defs p : defined defs p = true <-> In p defs.
Proof.
  unfold defined. rewrite existsb_exists. split.
  - intros (x & I & E). apply path_eq_iff in E. now subst.
  - intros I. exists p. split; [exact I | now apply path_eq_iff].
Qed.

Lemma scopes_snoc scope x : enclosing_scopes (rev (scope ++ [x])) = (scope ++ [x]) :: enclosing_scopes (rev scope).
Proof. rewrite rev_unit. cbn [enclosing_scopes rev]. now rewrite rev_involutive. Qed.

Lemma scopes_split scope ctx : prefix_of ctx scope ->
  exists a b, enclosing_scopes (rev scope) = a ++ ctx :: b /\
    forall s, In s a <-> prefix_of s scope /\ List.length ctx < List.length s.
Proof.
  induction scope as [|x scope IH] using rev_ind.
  - intros [r E]. destruct ctx; [|discriminate]. exists [], []. split; [reflexivity|].
    intros s. split; [intros []|]. intros [[r' E'] L]. destruct s; [cbn in L; lia | discriminate].
  - intros P. rewrite scopes_snoc. apply prefix_of_snoc_inv in P as [P| ->].
    + destruct (IH P) as (a & b & E & F). exists ((scope ++ [x]) :: a), b. split; [now rewrite E|].
      intros s. split.
      * intros [<-|I].
        -- split; [apply prefix_of_refl|]. apply prefix_of_length in P. rewrite app_length. cbn. lia.
        -- apply F in I as [Q L]. split; [|exact L]. eapply prefix_of_trans; [exact Q | apply prefix_of_app].
      * intros [Q L]. apply prefix_of_snoc_inv in Q as [Q| ->]; [right; now apply F | now left].
    + exists [], (enclosing_scopes (rev scope)). split; [reflexivity|]. intros s. split; [intros []|].
      intros [Q L]. apply prefix_of_length in Q. lia.
Qed.

Lemma find_app {A} (f : A -> bool) l m : find f (l ++ m) = match find f l with Some x => Some x | None => find f m end.
Proof. induction l; cbn; [reflexivity|]. destruct (f a); auto. Qed.

Lemma resolve_iff defs scope ctx n : prefix_of ctx scope ->
  resolve defs scope n = Some (ctx ++ [n]) <->
  In (ctx ++ [n]) defs /\ forall s, prefix_of s scope -> List.length ctx < List.length s -> ~ In (s ++ [n]) defs.
Proof.
  intros P. destruct (scopes_split scope ctx P) as (a & b & E & F). unfold resolve. rewrite E, map_app, find_app.
  cbn [map find]. fold (defined defs (ctx ++ [n])). split.
  - intros H. destruct (find _ (map _ a)) as [p|] eqn:Ef.
    + exfalso. injection H as ->. apply find_some in Ef as [I _]. apply in_map_iff in I as (s & Es & I).
      apply F in I as [_ L]. apply app_inj_tail in Es as [-> _]. lia.
    + destruct (defined defs (ctx ++ [n])) eqn:D.
      * apply defined_iff in D. split; [exact D|]. intros s Q L J.
        assert (I : In (s ++ [n]) (map (fun s => s ++ [n]) a)) by (apply in_map_iff; exists s; split; [reflexivity | now apply F]).
        pose proof (find_none _ _ Ef _ I) as X. cbn beta in X. fold (defined defs (s ++ [n])) in X.
        apply defined_iff in J. congruence.
      * exfalso. apply find_some in H as [_ H]. fold (defined defs (ctx ++ [n])) in H. congruence.
  - intros [D N]. replace (find _ (map _ a)) with (@None path).
    + apply defined_iff in D. now rewrite D.
    + symmetry. destruct (find _ (map _ a)) as [p|] eqn:Ef; [|reflexivity]. exfalso.
      apply find_some in Ef as [I J]. apply in_map_iff in I as (s & <- & I). apply F in I as [Q L].
      fold (defined defs (s ++ [n])) in J. apply defined_iff in J. now apply (N s Q L).
Qed.

Lemma strip_self p r : strip_path p (p ++ r) = Some r.
Proof. induction p as [|x p IH]; cbn; [reflexivity|]. now rewrite beq_refl. Qed.

Lemma renamed_self old new : renamed old new old = new.
Proof. unfold renamed. rewrite <- (app_nil_r old) at 2. rewrite strip_self. apply app_nil_r. Qed.

(** ** A whole workspace *)

Lemma ranges_ascending old d : forall off, ascending off (ranges old off d).
Proof.
  assert (W : forall es a b, a <= b -> ascending b es -> ascending a es).
  { intros [|[x y] es] a b L; cbn; [auto|]. intros (? & ? & ?). repeat split; auto; lia. }
  induction d as [|[t|k q] d IH]; intros off; cbn [ranges ascending]; [exact Logic.I| |].
  - eapply W; [|apply IH]. lia.
  - repeat split; [lia..|apply IH].
Qed.

Lemma edits_of_perm u es es' : Permutation es es' -> Permutation (edits_of u es) (edits_of u es').
Proof.
  intros P. unfold edits_of. apply Permutation_map.
  induction P; cbn; auto.
  - destruct (beq (fst x) u); auto.
  - destruct (beq (fst y) u), (beq (fst x) u); auto. apply perm_swap.
  - etransitivity; eauto.
Qed.

Lemma edits_of_same u rs : edits_of u (map (pair u) rs) = rs.
Proof. induction rs; cbn; [reflexivity|]. unfold edits_of in *. cbn. rewrite beq_refl. cbn. now rewrite IHrs. Qed.
Lemma edits_of_other u v rs : v <> u -> edits_of u (map (pair v) rs) = [].
Proof. intros N. induction rs; cbn; [reflexivity|]. unfold edits_of in *. cbn. rewrite (proj2 (beq_neq _ _) N). exact IHrs. Qed.
Lemma edits_of_app u a b : edits_of u (a ++ b) = edits_of u a ++ edits_of u b.
Proof. unfold edits_of. now rewrite filter_app, map_app. Qed.

Definition all_refs (old : bytes) (ws : list (bytes * list seg)) : list ref :=
  flat_map (fun fd => refs_of (fst fd) old 0 (snd fd)) ws.

Lemma plan_all uri_of old ws u :
  (forall f d, In (f, d) ws -> exists v, uri_of f = Some v) ->
  (forall f d s, In (f, d) ws -> In s d -> plain_rpc s) ->
  NoDup (map (fun fd => uri_of (fst fd)) ws) ->
  (forall f d, In (f, d) ws -> uri_of f = Some u ->
     edits_of u (flat_map (plan uri_of) (all_refs old ws)) = ranges old 0 d) /\
  ((forall f d, In (f, d) ws -> uri_of f <> Some u) ->
     edits_of u (flat_map (plan uri_of) (all_refs old ws)) = []).
Proof.
  unfold all_refs. induction ws as [|[f d] ws IH]; intros U P N; cbn [flat_map fst snd].
  - split; [intros f d []|reflexivity].
  - inversion N as [|x l Nx Nl]; subst. cbn [fst] in Nx.
    destruct (U f d (or_introl eq_refl)) as [v Ev].
    destruct (IH (fun f d I => U f d (or_intror I)) (fun f d s I => P f d s (or_intror I)) Nl) as [IH1 IH2].
    rewrite flat_map_app, edits_of_app.
    rewrite (plan_refs uri_of f v old d Ev) by (intros s I; apply (P f d s); [now left | exact I]).
    split.
    + intros g e [E|I] Eg.
      * injection E as <- <-. assert (v = u) by congruence. subst v. rewrite edits_of_same. rewrite IH2; [apply app_nil_r|].
        intros h k I Eh. apply Nx. apply in_map_iff. exists (h, k). cbn. split; [congruence | exact I].
      * rewrite edits_of_other; [now apply (IH1 g e)|]. intros ->. apply Nx. apply in_map_iff. exists (g, e). cbn. split; [congruence|exact I].
    + intros H. rewrite edits_of_other.
      * apply IH2. intros g e I. apply (H g e). now right.
      * intros ->. now apply (H f d (or_introl eq_refl)).
Qed.

Lemma flat_map_perm {A B} (f : A -> list B) l m : Permutation l m -> Permutation (flat_map f l) (flat_map f m).
Proof.
  induction 1; cbn; auto.
  - now apply Permutation_app_head.
  - rewrite !app_assoc. apply Permutation_app_tail, Permutation_app_comm.
  - etransitivity; eauto.
Qed.

Lemma refs_fine local uri_of old ws r :
  (forall f d, In (f, d) ws -> exists v, uri_of f = Some v /\ local v = true) ->
  In r (all_refs old ws) -> fine local uri_of r.
Proof.
  intros U I. unfold all_refs in I. apply in_flat_map in I as ([f d] & I & J). cbn in J.
  apply refs_of_file in J as (Ef & k & q & o & En). unfold fine. rewrite En.
  destruct (node_of_range o old k q) as [rg ->]. rewrite Ef. exact (U f d I).
Qed.

Lemma letter_in c : is_letter c = true <-> In c letters.
Proof.
  split.
  - destruct c as [[] [] [] [] [] [] [] []]; vm_compute; intro H; try discriminate H; tauto.
  - intro I. vm_compute in I. repeat destruct I as [<-|I]; try reflexivity. destruct I.
Qed.
Lemma letter_digit_in c : is_letter_digit c = true <-> In c (letters ++ b_ "0123456789").
Proof.
  split.
  - destruct c as [[] [] [] [] [] [] [] []]; vm_compute; intro H; try discriminate H; tauto.
  - intro I. vm_compute in I. repeat destruct I as [<-|I]; try reflexivity. destruct I.
Qed.
Lemma ident_iff w : ident w = true <-> identifier w.
Proof.
  split.
  - destruct w as [|c r]; [discriminate|]. cbn [ident]. intro H. apply andb_true_iff in H as [A B]. exists c, r. split; [reflexivity|].
    split; [now apply letter_in|]. intros x I. rewrite forallb_forall in B. apply letter_digit_in, B, I.
  - intros (c & r & -> & A & B). cbn [ident]. apply andb_true_iff. split; [now apply letter_in|]. apply forallb_forall. intros x I. apply letter_digit_in, B, I.
Qed.
