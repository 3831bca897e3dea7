(** The names declared in a file with generic streams are distinct when the Go names are. *)
From Coq Require Import Ascii String.
From Verif Require Import Base Strs.
From Verif.Grpc Require Import Model Spec Proofs Names.
Open Scope list_scope.

Definition syms (s : service) : list sym :=
  let S := sv_go s in
  map (fun m => YConst S (me_go m)) (sv_methods s) ++ [YClient S; YStruct S; YNew S] ++
  flat_map (fun m => if streaming m then [YCStream S (me_go m)] else []) (sv_methods s) ++
  [YServer S; YUnimpl S; YUnsafe S; YRegister S] ++
  flat_map (fun m => YHandler S (me_go m) :: if streaming m then [YSStream S (me_go m)] else []) (sv_methods s) ++ [YDesc S].

Lemma flat_map_flat {A B C} (f : B -> list C) (g : A -> list B) l : flat_map f (flat_map g l) = flat_map (fun x => flat_map f (g x)) l.
Proof. induction l as [|x l IH]; [easy|]. cbn [flat_map]. now rewrite flat_map_app, IH. Qed.
Lemma map_flat {A B C} (f : B -> C) (g : A -> list B) l : map f (flat_map g l) = flat_map (fun x => map f (g x)) l.
Proof. induction l as [|x l IH]; [easy|]. cbn [flat_map]. now rewrite map_app, IH. Qed.
Lemma flat_ext {A B} (f g : A -> list B) l : (forall x, In x l -> f x = g x) -> flat_map f l = flat_map g l.
Proof. induction l as [|x l IH]; intros H; [easy|]. cbn [flat_map]. rewrite H by now left. now rewrite IH by (intros y Hy; apply H; now right). Qed.

Section One.
Variable req : bool.
Lemma scope_client s ms : forall mi si, flat_map declared (gen_client_methods true s ms mi si) = map text (flat_map (fun m => if streaming m then [YCStream (sv_go s) (me_go m)] else []) ms).
Proof.
  induction ms as [|m ms IH]; intros mi si; [easy|]. cbn [gen_client_methods flat_map]. fold (unary m). rewrite map_app. unfold gen_client_method. fold (unary m). rewrite unary_streaming.
  destruct (streaming m); cbn [negb]; rewrite flat_map_app, IH; [|easy]. f_equal. cbn [app flat_map declared map]. f_equal. unfold client_stream_type, text. cbn [stem ends suf]. now rewrite <- app_assoc.
Qed.
Lemma scope_server s m : flat_map declared (gen_server_method true s m) = map text (YHandler (sv_go s) (me_go m) :: if streaming m then [YSStream (sv_go s) (me_go m)] else []).
Proof.
  unfold gen_server_method. assert (E : negb (me_cs m) && negb (me_ss m) = negb (streaming m)) by (unfold streaming; now destruct (me_cs m), (me_ss m)). rewrite E.
  assert (H : handler_name s m = text (YHandler (sv_go s) (me_go m))).
  { unfold handler_name, text. cbn [stem ends suf]. cbn [app]. rewrite <- app_assoc. reflexivity. }
  destruct (streaming m); cbn [negb flat_map declared app map]; rewrite H; [|easy]. f_equal. f_equal. unfold server_stream_type, text. cbn [stem ends suf]. now rewrite <- app_assoc.
Qed.
Lemma scope_methods (l : list decl) : Forall (fun d => declared d = []) l -> flat_map declared l = [].
Proof. induction 1 as [|d l H _ IH]; [easy|]. cbn [flat_map]. now rewrite H, IH. Qed.
Lemma scope_service s : sv_go s <> [] -> flat_map declared (gen_service req true s) = map text (syms s).
Proof.
  intros Hne. unfold gen_service, syms. rewrite !flat_map_app, !map_app. f_equal; [|f_equal; [|f_equal; [|]]].
  - unfold gen_full_methods. rewrite map_map. induction (sv_methods s) as [|m ms IH]; [easy|]. cbn [map flat_map declared app]. rewrite IH. f_equal. unfold method_symbol, text. cbn [stem ends suf]. now rewrite <- app_assoc.
  - cbn [flat_map declared app map]. unfold text. cbn [stem ends suf]. unfold client_name. rewrite unexport_app by exact Hne. now rewrite <- app_assoc.
  - apply scope_client.
  - cbn [flat_map declared app map]. unfold gen_unimplemented. rewrite !flat_map_app. cbn [flat_map declared app].
    assert (Z : forall b : bool, flat_map declared (if b then [DMethod (b_ "Unimplemented" ++ server_type s) (must_embed s) (Sig [] []) BEmpty] else []) = []) by (now intros []). rewrite Z.
    rewrite scope_methods; [|apply Forall_forall; intros d Hd; apply in_map_iff in Hd as (m & <- & _); reflexivity]. cbn [app].
    unfold text at 1 2 3 4. cbn [stem ends suf]. unfold server_type. rewrite <- !app_assoc. do 4 f_equal.
    unfold gen_server_functions. rewrite flat_map_app, flat_map_flat, map_flat. f_equal. apply flat_ext. intros m _. apply scope_server.
Qed.
End One.

Lemma owner_syms s y : In y (syms s) -> owner y = sv_go s.
Proof.
  unfold syms. rewrite !in_app_iff, in_map_iff, !in_flat_map. cbn [In].
  intros [(m & <- & _)|[H|[(m & _ & H)|[H|[(m & _ & H)|H]]]]]; try reflexivity; try (destruct (streaming m)); cbn [In] in H; intuition (subst; reflexivity).
Qed.
Lemma nodup_syms s : NoDup (map me_go (sv_methods s)) -> NoDup (syms s).
Proof.
  intros HN. unfold syms. repeat apply app_nodup.
  - rewrite <- (map_map me_go (YConst (sv_go s))). apply nodup_map; [exact HN|]. intros x y _ _ E. now injection E.
  - repeat constructor; cbn; intuition discriminate.
  - apply (nodup_flat _ me_go (fun y => match y with YCStream _ m => m | _ => [] end)); [exact HN| |].
    + intros m _. destruct (streaming m); repeat constructor; easy.
    + intros m y _ Hy. destruct (streaming m); [|easy]. destruct Hy as [<-|[]]. reflexivity.
  - repeat constructor; cbn; intuition discriminate.
  - apply (nodup_flat _ me_go (fun y => match y with YHandler _ m | YSStream _ m => m | _ => [] end)); [exact HN| |].
    + intros m _. destruct (streaming m); repeat constructor; cbn; intuition discriminate.
    + intros m y _ Hy. destruct (streaming m); cbn [In] in Hy; intuition (subst; reflexivity).
  - repeat constructor; easy.
  - intros y Hy [<-|[]]. apply in_flat_map in Hy as (m & _ & Hy). destruct (streaming m); cbn [In] in Hy; intuition discriminate.
  - intros y Hy Hz. rewrite in_app_iff, in_flat_map in Hz. cbn [In] in Hy, Hz. destruct Hz as [(m & _ & Hz)|[<-|[]]]; [destruct (streaming m); cbn [In] in Hz|]; intuition (subst; discriminate).
  - intros y Hy Hz. apply in_flat_map in Hy as (m & _ & Hy). destruct (streaming m); [|easy]. destruct Hy as [<-|[]]. rewrite !in_app_iff, in_flat_map in Hz. cbn [In] in Hz.
    destruct Hz as [Hz|[(m' & _ & Hz)|[Hz|[]]]]; [intuition discriminate| |discriminate]. destruct (streaming m'); cbn [In] in Hz; intuition discriminate.
  - intros y Hy Hz. rewrite !in_app_iff, !in_flat_map in Hz. cbn [In] in Hy, Hz. destruct Hz as [(m' & _ & Hz)|[Hz|[(m' & _ & Hz)|[Hz|[]]]]]; try destruct (streaming m'); cbn [In] in Hz; intuition (subst; discriminate).
  - intros y Hy Hz. apply in_map_iff in Hy as (m & <- & _). rewrite !in_app_iff, !in_flat_map in Hz. cbn [In] in Hz.
    destruct Hz as [Hz|[(m' & _ & Hz)|[Hz|[(m' & _ & Hz)|[Hz|[]]]]]]; try destruct (streaming m'); cbn [In] in Hz; intuition discriminate.
Qed.

(** methods, by receiver *)
Inductive mem := MClient (s m : bytes) | MServer (s m : bytes).
Definition mtext (x : mem) : bytes * bytes := match x with MClient s m => (unexport s ++ b_ "Client", m) | MServer s m => (b_ "Unimplemented" ++ s ++ b_ "Server", m) end.
Definition mowner (x : mem) : bytes := match x with MClient s _ | MServer s _ => s end.
Definition mems (req : bool) (s : service) : list mem :=
  map (fun m => MClient (sv_go s) (me_go m)) (sv_methods s) ++ map (fun m => MServer (sv_go s) (me_go m)) (sv_methods s) ++
  (if req then [MServer (sv_go s) (must_embed s)] else []) ++ [MServer (sv_go s) (b_ "testEmbeddedByValue")].
Lemma members_client s ms : forall mi si, flat_map member (gen_client_methods true s ms mi si) = map mtext (map (fun m => MClient (sv_go s) (me_go m)) ms).
Proof.
  induction ms as [|m ms IH]; intros mi si; [easy|]. cbn [gen_client_methods map]. fold (unary m). unfold gen_client_method. fold (unary m). destruct (unary m); cbn [app flat_map member]; now rewrite IH.
Qed.
Lemma no_members (l : list decl) : Forall (fun d => member d = []) l -> flat_map member l = [].
Proof. induction 1 as [|d l H _ IH]; [easy|]. cbn [flat_map]. now rewrite H, IH. Qed.
Lemma members_service req s : flat_map member (gen_service req true s) = map mtext (mems req s).
Proof.
  unfold gen_service, mems. rewrite !flat_map_app, members_client. unfold gen_full_methods.
  rewrite (no_members (map _ (sv_methods s))) by (apply Forall_forall; intros d Hd; apply in_map_iff in Hd as (m & <- & _); reflexivity).
  rewrite (no_members (gen_server_functions _ _)).
  2:{ apply Forall_forall. intros d Hd. unfold gen_server_functions in Hd. apply in_app_or in Hd as [Hd|[<-|[]]]; [|reflexivity]. apply in_flat_map in Hd as (m & _ & Hd). unfold gen_server_method in Hd.
      destruct (negb (me_cs m) && negb (me_ss m)); cbn in Hd; intuition (subst; reflexivity). }
  cbn [flat_map member app]. rewrite app_nil_r, !map_app. f_equal. unfold gen_unimplemented. rewrite !flat_map_app. cbn [flat_map member app]. f_equal.
  - rewrite map_map. induction (sv_methods s) as [|m ms IH]; [easy|]. cbn [map flat_map member app]. now rewrite IH.
  - now destruct req.
Qed.
Lemma mowner_mems req s y : In y (mems req s) -> mowner y = sv_go s.
Proof. unfold mems. rewrite !in_app_iff, !in_map_iff. intros [(m & <- & _)|[(m & <- & _)|[H|[<-|[]]]]]; try reflexivity. destruct req; [destruct H as [<-|[]]; reflexivity|easy]. Qed.
Lemma nodup_mems req s : service_ok s -> NoDup (map me_go (sv_methods s)) -> NoDup (mems req s).
Proof.
  intros (_ & Hm & _) HN. rewrite Forall_forall in Hm.
  assert (Low : forall m c r, In m (sv_methods s) -> Generated.Model.is_upper c = false -> me_go m <> c :: r).
  { intros m c r Hin Hc E. destruct (go_upper (me_name m) (Hm m Hin)) as (d & t & Hd & Hu). unfold me_go in E. rewrite Hd in E. injection E as -> _. congruence. }
  unfold mems. repeat apply app_nodup.
  - rewrite <- (map_map me_go (MClient (sv_go s))). apply nodup_map; [exact HN|]. intros x y _ _ E. now injection E.
  - rewrite <- (map_map me_go (MServer (sv_go s))). apply nodup_map; [exact HN|]. intros x y _ _ E. now injection E.
  - destruct req; repeat constructor; easy.
  - repeat constructor; easy.
  - intros y Hy [<-|[]]. destruct req; [|easy]. destruct Hy as [E|[]]. unfold must_embed in E. cbn in E. discriminate.
  - intros y Hy Hz. apply in_map_iff in Hy as (m & <- & Hin). apply in_app_or in Hz as [Hz|Hz].
    + destruct req; [|easy]. destruct Hz as [E|[]]. injection E as E. eapply (Low m "m"%char); [exact Hin|reflexivity|symmetry; exact E].
    + destruct Hz as [E|[]]. injection E as E. eapply (Low m "t"%char); [exact Hin|reflexivity|symmetry; exact E].
  - intros y Hy Hz. apply in_map_iff in Hy as (m & <- & Hin). rewrite !in_app_iff, in_map_iff in Hz. destruct Hz as [(m' & E & _)|[Hz|[E|[]]]]; try discriminate. destruct req; [destruct Hz as [E|[]]; discriminate|easy].
Qed.
Lemma mtext_inj a b : (exists c r, mowner a = c :: r /\ Generated.Model.is_upper c = true) -> (exists c r, mowner b = c :: r /\ Generated.Model.is_upper c = true) -> mtext a = mtext b -> a = b.
Proof.
  intros (c & r & Ha & Hc) (d & t & Hb & Hd) E. pose proof (f_equal fst E) as E1. pose proof (f_equal snd E) as E2. clear E.
  destruct a as [s m|s m], b as [s' m'|s' m']; cbn [mtext mowner fst snd] in *; subst.
  - cbn [unexport app] in E1. injection E1 as E1 E2. apply (app_inv_tail (b_ "Client") r t) in E2 as ->. now rewrite (lower_inj c d Hc Hd E1).
  - exfalso. cbn [unexport app b_ list_ascii_of_string] in E1. injection E1 as E1 _. eapply (lower_not_upper "U"); [reflexivity|exact Hc|now symmetry].
  - exfalso. cbn [unexport app b_ list_ascii_of_string] in E1. injection E1 as E1 _. eapply (lower_not_upper "U"); [reflexivity|exact Hd|exact E1].
  - apply app_inv_head, app_inv_tail in E1. now rewrite E1.
Qed.

Lemma distinct req f : file_ok f -> separate f -> compiles (gen_content req true (fi_services f)).
Proof.
  intros (Hok & _ & _) (HN & Hp & Hsep). rewrite Forall_forall in Hok.
  assert (Hup : forall s, In s (fi_services f) -> exists c r, sv_go s = c :: r /\ Generated.Model.is_upper c = true).
  { intros s Hs. apply go_upper. now apply (Hok s Hs). }
  assert (Hne : forall s, In s (fi_services f) -> sv_go s <> []).
  { intros s Hs E. destruct (Hup s Hs) as (c & r & E' & _). congruence. }
  split.
  - unfold scope, gen_content. rewrite flat_map_flat. rewrite (flat_ext _ (fun s => map text (syms s))) by (intros s Hs; now apply scope_service, Hne). rewrite <- map_flat.
    assert (Hown : forall y, In y (flat_map syms (fi_services f)) -> In (owner y) (map sv_go (fi_services f))).
    { intros y Hy. apply in_flat_map in Hy as (s & Hs & Hy). rewrite (owner_syms s y Hy). now apply in_map. }
    apply nodup_map.
    + apply (nodup_flat _ sv_go owner); [exact HN|intros s Hs; apply nodup_syms, (Hp s Hs)|intros s y _; apply owner_syms].
    + intros a b Ha Hb. apply (text_inj (map sv_go (fi_services f))); [| | |now apply Hown|now apply Hown].
      * intros n Hn. apply in_map_iff in Hn as (s & <- & Hs). now apply Hup.
      * intros n Hn. apply in_map_iff in Hn as (s & <- & Hs). now apply (Hp s Hs).
      * intros n n' w Hn Hn' Hw. apply in_map_iff in Hn as (s & <- & Hs). apply in_map_iff in Hn' as (s' & <- & Hs'). now apply Hsep.
  - unfold members, gen_content. rewrite flat_map_flat. rewrite (flat_ext _ (fun s => map mtext (mems req s))) by (intros s _; apply members_service). rewrite <- map_flat. apply nodup_map.
    + apply (nodup_flat _ sv_go mowner); [exact HN|intros s Hs; apply nodup_mems; [now apply Hok|apply (Hp s Hs)]|intros s y _; apply mowner_mems].
    + intros a b Ha Hb. apply in_flat_map in Ha as (s & Hs & Ha). apply in_flat_map in Hb as (s' & Hs' & Hb). apply mtext_inj; [rewrite (mowner_mems _ _ _ Ha)|rewrite (mowner_mems _ _ _ Hb)]; now apply Hup.
Qed.
