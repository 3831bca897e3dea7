(** The names declared for the services of a file, kept apart by what they are made of. *)
From Coq Require Import Ascii String.
From Verif Require Import Base Strs.
From Verif.Grpc Require Import Model Spec Proofs.
Open Scope list_scope.

Inductive sym := YConst (s m : bytes) | YClient (s : bytes) | YStruct (s : bytes) | YNew (s : bytes) | YCStream (s m : bytes)
| YServer (s : bytes) | YUnimpl (s : bytes) | YUnsafe (s : bytes) | YRegister (s : bytes) | YSStream (s m : bytes) | YHandler (s m : bytes) | YDesc (s : bytes).
Inductive suffix := FConst | FClient | FServer | FHandler | FDesc.
Definition suf (f : suffix) : bytes := b_ match f with FConst => "_FullMethodName" | FClient => "Client" | FServer => "Server" | FHandler => "_Handler" | FDesc => "_ServiceDesc" end.
Definition ends (y : sym) : suffix :=
  match y with
  | YConst _ _ => FConst | YClient _ | YStruct _ | YNew _ | YCStream _ _ => FClient
  | YServer _ | YUnimpl _ | YUnsafe _ | YRegister _ | YSStream _ _ => FServer | YHandler _ _ => FHandler | YDesc _ => FDesc
  end.
Definition stem (y : sym) : bytes :=
  match y with
  | YConst s m | YCStream s m | YSStream s m => s ++ "_"%char :: m
  | YClient s | YServer s | YDesc s => s
  | YStruct s => unexport s | YNew s => b_ "New" ++ s | YUnimpl s => b_ "Unimplemented" ++ s | YUnsafe s => b_ "Unsafe" ++ s | YRegister s => b_ "Register" ++ s
  | YHandler s m => "_"%char :: s ++ "_"%char :: m
  end.
Definition text (y : sym) : bytes := stem y ++ suf (ends y).
Definition owner (y : sym) : bytes :=
  match y with
  | YConst s _ | YCStream s _ | YSStream s _ | YClient s | YServer s | YDesc s | YStruct s | YNew s | YUnimpl s | YUnsafe s | YRegister s | YHandler s _ => s
  end.

Lemma suf_differ p q f g : p ++ suf f = q ++ suf g -> f = g.
Proof.
  intros E. apply (f_equal (@rev ascii)) in E. rewrite !rev_app_distr in E. destruct f, g; try reflexivity; exfalso; unfold suf in E; cbn in E; discriminate.
Qed.
Lemma cut_under s m : forall s' m', ~ In "_"%char s -> ~ In "_"%char s' -> s ++ "_"%char :: m = s' ++ "_"%char :: m' -> s = s' /\ m = m'.
Proof.
  induction s as [|c s IH]; intros s' m' H H' E; destruct s' as [|d s']; cbn [app] in E.
  - now injection E as ->.
  - injection E as E _. exfalso. apply H'. now left.
  - injection E as E _. exfalso. apply H. now left.
  - injection E as -> E. destruct (IH s' m') as [-> ->]; [intros Hx; apply H; now right|intros Hx; apply H'; now right|exact E|easy].
Qed.
Lemma no_cut (x s m : bytes) : ~ In "_"%char x -> x = s ++ "_"%char :: m -> False.
Proof. intros H ->. apply H, in_or_app. right. now left. Qed.

Section Names.
Variable names : list bytes.
Hypothesis Hup : forall s, In s names -> exists c r, s = c :: r /\ Generated.Model.is_upper c = true.
Hypothesis Hflat : forall s, In s names -> ~ In "_"%char s.
Hypothesis Hsep : forall s s' w, In s names -> In s' names -> In w (map b_ ["New"; "Register"; "Unimplemented"; "Unsafe"]%string) -> s <> w ++ s'.

Lemma lower_not_upper c d : Generated.Model.is_upper c = true -> Generated.Model.is_upper d = true -> c = to_lower d -> False.
Proof. intros Hc Hd E. unfold to_lower in E. rewrite Hd in E. subst c. destruct d as [[] [] [] [] [] [] [] []]; try discriminate Hc; discriminate Hd. Qed.
Lemma lower_inj c d : Generated.Model.is_upper c = true -> Generated.Model.is_upper d = true -> to_lower c = to_lower d -> c = d.
Proof.
  intros Hc Hd E. unfold to_lower in E. rewrite Hc, Hd in E. apply (f_equal nat_of_ascii) in E. unfold Generated.Model.is_upper, Generated.Model.code in *.
  apply andb_true_iff in Hc as [_ Hc]. apply andb_true_iff in Hd as [_ Hd]. apply Nat.leb_le in Hc. apply Nat.leb_le in Hd.
  rewrite !nat_ascii_embedding in E by lia. rewrite <- (ascii_nat_embedding c), <- (ascii_nat_embedding d). f_equal. lia.
Qed.
Lemma under_not_upper : Generated.Model.is_upper "_" = false. Proof. reflexivity. Qed.
Lemma new_flat w s : In s names -> In w (map b_ ["New"; "Register"; "Unimplemented"; "Unsafe"]%string) -> ~ In "_"%char (w ++ s).
Proof.
  intros Hs Hw H. apply in_app_or in H as [H|H]; [|now apply (Hflat s Hs)]. cbn in Hw. destruct Hw as [<-|[<-|[<-|[<-|[]]]]]; cbn in H; repeat (destruct H as [H|H]; [discriminate|]); exact H.
Qed.
Lemma word_in (w : string) : In w ["New"; "Register"; "Unimplemented"; "Unsafe"]%string -> In (b_ w) (map b_ ["New"; "Register"; "Unimplemented"; "Unsafe"]%string).
Proof. apply in_map. Qed.
Ltac word := apply word_in; cbn; tauto.

Lemma stem_inj a b : In (owner a) names -> In (owner b) names -> ends a = ends b -> stem a = stem b -> a = b.
Proof.
  intros Ha Hb He E. destruct a as [s m|s|s|s|s m|s|s|s|s|s m|s m|s], b as [s' m'|s'|s'|s'|s' m'|s'|s'|s'|s'|s' m'|s' m'|s']; cbn [ends] in He; try discriminate He; clear He; cbn [owner stem] in *;
  try (apply cut_under in E as [-> ->]; [reflexivity|now apply Hflat|now apply Hflat]);
  try (rewrite E; reflexivity);
  try (exfalso; eapply no_cut; [|exact E]; (now apply Hflat) || (apply new_flat; [assumption|word]));
  try (exfalso; eapply no_cut; [|exact (eq_sym E)]; (now apply Hflat) || (apply new_flat; [assumption|word]));
  try (exfalso; revert E; apply Hsep; [assumption|assumption|word]);
  try (exfalso; symmetry in E; revert E; apply Hsep; [assumption|assumption|word]);
  try (apply app_inv_head in E; rewrite E; reflexivity);
  try (destruct (Hup s Ha) as (c & r & -> & Hc); destruct (Hup s' Hb) as (d & t & -> & Hd); cbn [unexport] in E);
  try (cbn [b_ list_ascii_of_string app] in E; discriminate E).
  - exfalso. injection E as E _. exact (lower_not_upper _ _ Hc Hd E).
  - exfalso. injection E as E _. exact (lower_not_upper _ _ Hd Hc (eq_sym E)).
  - injection E as E ->. now rewrite (lower_inj _ _ Hc Hd E).
  - exfalso. cbn in E. injection E as E _. eapply (lower_not_upper "N"); [reflexivity|exact Hc|now symmetry].
  - exfalso. cbn [app] in E. injection E as E _. exact (lower_not_upper _ _ Hd Hc (eq_sym E)).
  - exfalso. cbn in E. injection E as E _. eapply (lower_not_upper "N"); [reflexivity|exact Hd|exact E].
  - exfalso. cbn [app] in E. injection E as E _. exact (lower_not_upper _ _ Hc Hd E).
  - cbn [app] in E. injection E as E Er. assert (E2 : (c :: r) ++ "_"%char :: m = (d :: t) ++ "_"%char :: m') by (cbn [app]; now f_equal).
    apply cut_under in E2 as [-> ->]; [reflexivity|now apply Hflat|now apply Hflat].
Qed.
Lemma text_inj a b : In (owner a) names -> In (owner b) names -> text a = text b -> a = b.
Proof.
  intros Ha Hb E. unfold text in E. pose proof (suf_differ _ _ _ _ E) as He. rewrite He in E. apply app_inv_tail in E. now apply stem_inj.
Qed.
End Names.
