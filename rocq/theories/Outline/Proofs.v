From Coq Require Import Ascii String.
From Verif Require Import Base Strs.
From Verif.Outline Require Import Model Spec.
Open Scope list_scope.

Section Nested.
  Variable P : decl -> Prop.
  Hypothesis HM : forall i b, Forall P b -> P (Message i b).
  Hypothesis HE : forall i b, Forall P b -> P (Enum i b).
  Hypothesis HV : forall i, P (EnumValue i).
  Hypothesis HF : forall c i, P (Field c i).
  Hypothesis HMF : forall i, P (MapField i).
  Hypothesis HO : forall i b, Forall P b -> P (Oneof i b).
  Hypothesis HG : forall i b, Forall P b -> P (Group i b).
  Hypothesis HX : forall r b, Forall P b -> P (Extend r b).
  Hypothesis HS : forall i b, Forall P b -> P (Service i b).
  Hypothesis HR : forall i, P (Rpc i).
  Hypothesis HD : P OtherDecl.
  Fixpoint decl_nested (d : decl) : P d :=
    let all := fix all (l : list decl) : Forall P l :=
      match l with [] => Forall_nil P | x :: r => Forall_cons x (decl_nested x) (all r) end in
    match d with
    | Message i b => HM i b (all b)
    | Enum i b => HE i b (all b)
    | EnumValue i => HV i
    | Field c i => HF c i
    | MapField i => HMF i
    | Oneof i b => HO i b (all b)
    | Group i b => HG i b (all b)
    | Extend r b => HX r b (all b)
    | Service i b => HS i b (all b)
    | Rpc i => HR i
    | OtherDecl => HD
    end.
End Nested.

Lemma flat_map_flat_map {A B C} (f : A -> list B) (g : B -> list C) l :
  flat_map g (flat_map f l) = flat_map (fun x => flat_map g (f x)) l.
Proof. induction l; cbn; [reflexivity|]. now rewrite flat_map_app, IHl. Qed.

Lemma flat_map_ext_in {A B} (f g : A -> list B) l : (forall x, In x l -> f x = g x) -> flat_map f l = flat_map g l.
Proof. induction l; cbn; [reflexivity|]. intros H. rewrite (H a) by now left. f_equal. apply IHl. intros x I. apply H. now right. Qed.

(** ** Everything shown, exactly, for plain declarations *)

Lemma enum_exact scope b : forallb is_value b = true ->
  flat_map (shown scope) (flat_map enum_child b) = flat_map (declared scope) b.
Proof.
  intros H. rewrite forallb_forall in H. rewrite flat_map_flat_map. apply flat_map_ext_in. intros d I. apply H in I.
  destruct d; try discriminate; reflexivity.
Qed.
Lemma service_exact scope b : forallb is_method b = true ->
  flat_map (shown scope) (flat_map service_child b) = flat_map (declared scope) b.
Proof.
  intros H. rewrite forallb_forall in H. rewrite flat_map_flat_map. apply flat_map_ext_in. intros d I. apply H in I.
  destruct d; try discriminate; reflexivity.
Qed.
Lemma extend_exact scope b : forallb (fun d => is_ext d && in_message d)%bool b = true -> forallb plain b = true ->
  flat_map (shown scope) (extend_symbols b) = flat_map (declared scope) b.
Proof.
  intros H P. rewrite forallb_forall in H, P. unfold extend_symbols. rewrite flat_map_flat_map. apply flat_map_ext_in.
  intros d I. pose proof (H d I) as Hd. pose proof (P d I) as Pd. apply andb_true_iff in Hd as [Hd _].
  destruct d; cbn in *; try congruence. now rewrite Pd.
Qed.

Lemma message_exact : forall d scope, in_message d = true -> plain d = true ->
  flat_map (shown scope) (message_child d) = declared scope d.
Proof.
  induction d as [i b IH|i b IH|i|c i|i|i b IH|i b IH|r b IH|i b IH|i|] using decl_nested; intros scope G P;
    cbn [in_message] in G; cbn [plain] in P; try discriminate; try reflexivity.
  - cbn [message_child flat_map shown declared]. rewrite app_nil_r. f_equal.
    rewrite flat_map_flat_map. apply flat_map_ext_in. intros d I. rewrite forallb_forall in G, P.
    rewrite Forall_forall in IH. apply IH; auto.
  - cbn [message_child enum_symbol flat_map shown declared]. rewrite app_nil_r. f_equal. now apply enum_exact.
  - subst c. reflexivity.
  - cbn [message_child declared]. now apply extend_exact.
Qed.

Lemma top_exact d scope : at_top d = true -> plain d = true ->
  flat_map (shown scope) (top_child d) = declared scope d.
Proof.
  destruct d; cbn [at_top plain]; intros G P; try discriminate; try reflexivity.
  - exact (message_exact (Message i body) scope G P).
  - exact (message_exact (Enum i body) scope G P).
  - exact (message_exact (Extend r body) scope G P).
  - cbn [top_child service_symbol flat_map shown declared]. rewrite app_nil_r. f_equal. now apply service_exact.
Qed.

(** ** Nothing else is ever shown *)

Lemma sub_refl {A} (l : list A) : sub l l. Proof. induction l; constructor; auto. Qed.
Lemma sub_app {A} (a b c d : list A) : sub a b -> sub c d -> sub (a ++ c) (b ++ d).
Proof.
  induction 1 as [l|x l m H IH|x l m H IH]; intros S; cbn.
  - induction l; cbn; [exact S|]. apply sub_skip. exact IHl.
  - apply sub_keep. auto.
  - apply sub_skip. auto.
Qed.
Lemma sub_flat {A B} (f g : A -> list B) l : (forall x, In x l -> sub (f x) (g x)) -> sub (flat_map f l) (flat_map g l).
Proof.
  induction l; cbn; [constructor|]. intros H. apply sub_app; [apply H; now left|]. apply IHl. intros x I. apply H. now right.
Qed.
Lemma sub_in {A} (l m : list A) x : sub l m -> In x l -> In x m.
Proof. induction 1; cbn; [intros []| |]; intuition. Qed.

Lemma message_sub : forall d scope, sub (flat_map (shown scope) (message_child d)) (declared scope d).
Proof.
  induction d as [i b IH|i b IH|i|c i|i|i b IH|i b IH|r b IH|i b IH|i|] using decl_nested; intros scope;
    cbn [message_child declared]; try apply sub_nil.
  - cbn [flat_map shown]. rewrite app_nil_r. apply sub_keep. rewrite flat_map_flat_map. apply sub_flat.
    intros d I. rewrite Forall_forall in IH. now apply IH.
  - unfold enum_symbol. cbn [flat_map shown]. rewrite app_nil_r. apply sub_keep. rewrite flat_map_flat_map. apply sub_flat.
    intros d I. destruct d; cbn; try apply sub_nil. apply sub_refl.
  - destruct c; cbn; [apply sub_refl | apply sub_nil].
  - apply sub_refl.
  - unfold extend_symbols. rewrite flat_map_flat_map. apply sub_flat. intros d I. destruct d; cbn; try apply sub_nil.
    destruct complete; cbn; [apply sub_refl | apply sub_nil].
Qed.

Lemma top_sub d scope : sub (flat_map (shown scope) (top_child d)) (declared scope d).
Proof.
  destruct d; try (cbn [top_child flat_map]; apply sub_nil).
  - exact (message_sub (Message i body) scope).
  - exact (message_sub (Enum i body) scope).
  - exact (message_sub (Extend r body) scope).
  - cbn [top_child declared service_symbol flat_map shown]. unfold service_symbol. cbn [flat_map shown]. rewrite app_nil_r.
    apply sub_keep. rewrite flat_map_flat_map. apply sub_flat. intros d I. destruct d; cbn; try apply sub_nil. apply sub_refl.
Qed.

(** ** Places *)

Lemma inside_trans a b c : inside a b -> inside b c -> inside a c.
Proof. unfold inside. lia. Qed.

Lemma well_wider s t y : inside s t -> well_placed s y -> well_placed t y.
Proof. intros H W. inversion W; subst. constructor; auto. eapply inside_trans; eauto. Qed.

Lemma message_placed : forall d s, placed s d -> Forall (well_placed s) (message_child d).
Proof.
  induction d as [i b IH|i b IH|i|c i|i|i b IH|i b IH|r b IH|i b IH|i|] using decl_nested; intros s H;
    cbn [message_child]; try (apply Forall_nil); inversion H; subst.
  - constructor; [|constructor]. constructor; auto. apply Forall_flat_map. rewrite Forall_forall in *. intros d I. apply IH; auto.
  - constructor; [|constructor]. unfold enum_symbol. constructor; auto. apply Forall_flat_map. rewrite Forall_forall in *. intros d I.
    match goal with X : forall x, _ -> placed _ x |- _ => specialize (X _ I); inversion X; subst; cbn; try apply Forall_nil; (constructor; [|constructor]); constructor; auto end.
  - destruct c; [|apply Forall_nil]. constructor; [|constructor]. constructor; auto.
  - constructor; [|constructor]. constructor; auto.
  - unfold extend_symbols. apply Forall_flat_map. rewrite Forall_forall in *. intros d I.
    match goal with X : forall x, _ -> placed _ x |- _ => specialize (X _ I); inversion X; subst; cbn; try apply Forall_nil end.
    match goal with |- context [if ?c then _ else _] => destruct c | c : bool |- _ => destruct c end; [|apply Forall_nil].
    constructor; [|constructor]. constructor; auto. eapply inside_trans; eauto.
Qed.

Lemma top_placed d s : placed s d -> Forall (well_placed s) (top_child d).
Proof.
  destruct d; intros H; try (cbn [top_child]; constructor; fail).
  - exact (message_placed (Message i body) s H).
  - exact (message_placed (Enum i body) s H).
  - exact (message_placed (Extend r body) s H).
  - cbn [top_child]. inversion H; subst. unfold service_symbol. constructor; [|constructor]. constructor; auto.
    apply Forall_flat_map. rewrite Forall_forall in *. intros d I.
    match goal with X : forall x, _ -> placed _ x |- _ => specialize (X _ I); inversion X; subst; cbn; try apply Forall_nil; (constructor; [|constructor]); constructor; auto end.
Qed.

(** ** Types *)

Lemma filter_flat {A B} (p : B -> bool) (f : A -> list B) l : filter p (flat_map f l) = flat_map (fun x => filter p (f x)) l.
Proof. induction l; cbn; [reflexivity|]. now rewrite filter_app, IHl. Qed.
Lemma flat_nil {A B} (f : A -> list B) l : (forall x, In x l -> f x = []) -> flat_map f l = [].
Proof. induction l; cbn; [reflexivity|]. intros H. rewrite (H a) by now left. apply IHl. intros x I. apply H. now right. Qed.
Lemma choice_types scope b : forallb (fun d => (is_choice d && in_message d)%bool) b = true -> forallb no_groups b = true ->
  filter is_type (flat_map (declared scope) b) = [].
Proof.
  intros H N. rewrite filter_flat. apply flat_nil. intros d I. rewrite forallb_forall in H, N.
  specialize (H d I). specialize (N d I). apply andb_true_iff in H as [H _]. destruct d; cbn in *; try discriminate; reflexivity.
Qed.
Lemma ext_types scope b : forallb (fun d => (is_ext d && in_message d)%bool) b = true -> forallb no_groups b = true ->
  filter is_type (flat_map (declared scope) b) = [] /\ filter is_type (flat_map (shown scope) (extend_symbols b)) = [].
Proof.
  intros H N. unfold extend_symbols. rewrite flat_map_flat_map, !filter_flat. rewrite forallb_forall in H, N.
  split; apply flat_nil; intros d I; specialize (H d I); specialize (N d I); apply andb_true_iff in H as [H _];
    destruct d; cbn in *; try discriminate; try reflexivity. now destruct complete.
Qed.
Lemma message_types : forall d scope, in_message d = true -> no_groups d = true ->
  filter is_type (flat_map (shown scope) (message_child d)) = filter is_type (declared scope d).
Proof.
  induction d as [i b IH|i b IH|i|c i|i|i b IH|i b IH|r b IH|i b IH|i|] using decl_nested; intros scope G N;
    cbn [in_message] in G; cbn [no_groups] in N; try discriminate; try reflexivity.
  - cbn [message_child flat_map shown declared]. rewrite app_nil_r. cbn [filter is_type fst snd]. f_equal.
    rewrite flat_map_flat_map, !filter_flat. apply flat_map_ext_in. intros d I. rewrite forallb_forall in G, N.
    rewrite Forall_forall in IH. apply IH; auto.
  - cbn [message_child]. unfold enum_symbol. cbn [flat_map shown declared]. rewrite app_nil_r. cbn [filter is_type fst snd]. f_equal.
    now rewrite enum_exact.
  - destruct c; reflexivity.
  - cbn [message_child declared flat_map filter]. symmetry. now apply choice_types.
  - cbn [message_child declared]. destruct (ext_types scope b G N) as [-> ->]. reflexivity.
Qed.
