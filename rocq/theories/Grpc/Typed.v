(** The generated types have the methods of the generated interfaces, and bodies fit signatures. *)
From Coq Require Import Ascii String.
From Verif Require Import Base Strs.
From Verif.Grpc Require Import Model Spec Proofs.
Open Scope list_scope.

Ltac ors := repeat match goal with H : _ \/ _ |- _ => destruct H | H : False |- _ => destruct H | H : (_, _) = (_, _) |- _ => injection H as <- <- end.

Lemma own_client_list s m (l : list decl) : streaming m = true -> (forall d, (forall j, In d (gen_client_method false s m j)) -> In d l) ->
  implements l (unexport (sv_go s) ++ me_go m ++ b_ "Client") (client_stream_type s m).
Proof.
  intros Hst P. unfold gen_client_method in P. fold (unary m) in P. rewrite unary_streaming, Hst in P. cbn [negb] in P.
  eexists. split; [apply P; intros j; right; now left|]. split; [apply P; intros j; right; right; now left|].
  intros n sg H. rewrite !in_app_iff in H.
  destruct (me_cs m), (me_ss m); cbn [app In] in H; ors; eexists; apply P; intros j; cbn [app In]; eauto 10.
Qed.
Lemma own_server_list s m (l : list decl) : streaming m = true -> (forall d, In d (gen_server_method false s m) -> In d l) ->
  implements l (unexport (sv_go s) ++ me_go m ++ b_ "Server") (server_stream_type s m).
Proof.
  intros Hst P. unfold gen_server_method in P. assert (E : negb (me_cs m) && negb (me_ss m) = negb (streaming m)) by (unfold streaming; now destruct (me_cs m), (me_ss m)). rewrite E, Hst in P. cbn [negb] in P.
  eexists. split; [apply P; right; now left|]. split; [apply P; right; right; now left|].
  intros n sg H. rewrite !in_app_iff in H.
  destruct (me_cs m), (me_ss m); cbn [app In] in H; ors; eexists; apply P; cbn [app In]; eauto 10.
Qed.

Section Gen.
Variable req generic : bool.
Variable services : list service.
Notation ds := (gen_content req generic services).

Section One.
Variable s : service.
Hypothesis Hs : In s services.
Hypothesis Hok : service_ok s.
Lemma client_implements : implements ds (unexport (client_name s)) (client_name s).
Proof.
  exists (map (fun m => (me_go m, client_sig generic s m)) (sv_methods s)). split; [|split].
  - apply (in_content req generic services s _ Hs), part_three. now left.
  - apply (in_content req generic services s _ Hs), part_three. right. now left.
  - intros n sg H. apply in_map_iff in H as (m & E & Hm). injection E as <- <-. destruct (client_method_in req generic services s Hs Hok m Hm) as (i & Hi & _). eauto.
Qed.
Lemma server_interface : In (DInterface (server_type s) (map (fun m => (me_go m, server_sig generic s m)) (sv_methods s) ++ (if req then [(must_embed s, Sig [] [])] else []))) ds.
Proof. apply (in_content req generic services s _ Hs), part_server. Qed.
Lemma server_implements : implements ds (b_ "Unimplemented" ++ server_type s) (server_type s).
Proof.
  eexists. split; [apply server_interface|]. split.
  - apply (in_content req generic services s _ Hs), part_unimplemented. now left.
  - intros n sg H. apply in_app_or in H as [H|H].
    + apply in_map_iff in H as (m & E & Hm). injection E as <- <-. eexists. apply (in_content req generic services s _ Hs), part_unimplemented. unfold gen_unimplemented. apply in_or_app. right. apply in_or_app. left. apply in_map_iff. eauto.
    + destruct req; [|easy]. destruct H as [E|[]]. injection E as <- <-. eexists. apply (in_content true generic services s _ Hs), part_unimplemented. unfold gen_unimplemented. apply in_or_app. right. apply in_or_app. right. apply in_or_app. left. now left.
Qed.
Variable m : method.
Hypothesis Hm : In m (sv_methods s).
Lemma client_part d i : In d (gen_client_method generic s m i) -> (forall j, In d (gen_client_method generic s m j)) -> In d ds.
Proof.
  intros _ H. apply (in_content req generic services s _ Hs), part_client. apply in_split in Hm as (pre & post & E). rewrite E. apply client_methods_at. apply H.
Qed.
Lemma own_client : generic = false -> streaming m = true -> implements ds (unexport (sv_go s) ++ me_go m ++ b_ "Client") (client_stream_type s m).
Proof. intros Hg Hst. apply own_client_list; [exact Hst|]. rewrite <- Hg. intros d H. exact (client_part d 0 (H 0) H). Qed.
Lemma own_server : generic = false -> streaming m = true -> implements ds (unexport (sv_go s) ++ me_go m ++ b_ "Server") (server_stream_type s m).
Proof. intros Hg Hst. apply own_server_list; [exact Hst|]. rewrite <- Hg. intros d H. apply (in_content req generic services s _ Hs), (part_handler req generic s m _ Hm H). Qed.
Lemma stream_provides client : generic = true -> streaming m = true -> provides ds (IGeneric (me_in m) (me_out m)) (stream_interface client m).
Proof. intros _ Hst. unfold stream_interface. unfold streaming in Hst. destruct (me_cs m), (me_ss m); cbn [andb]; try constructor. Qed.
Lemma client_fits i d : In d (gen_client_method generic s m i) -> fits ds d.
Proof.
  unfold gen_client_method. fold (unary m). rewrite unary_streaming. destruct (streaming m) eqn:Est; cbn [negb].
  - intros H. apply in_app_or in H as [[<-|[]]|H].
    + cbn [fits]. exists (if me_cs m then None else Some (me_in m)), (if generic then stream_interface true m else TNamed (client_stream_type s m)). split; [|split].
      * unfold client_sig. assert (E : negb (me_cs m) && negb (me_ss m) = negb (streaming m)) by (unfold streaming; now destruct (me_cs m), (me_ss m)). rewrite E, Est. cbn [negb]. now destruct (me_cs m).
      * pose proof (stream_provides true) as A. pose proof own_client as B. clear - A B Est. destruct generic; [now apply A|constructor; now apply B].
      * destruct (me_cs m); cbn; split; try discriminate; intuition congruence.
    + destruct generic; cbn [In app] in H; [intuition (subst; exact I)|]. destruct (me_cs m), (me_ss m); cbn [app In] in H; intuition (subst; exact I).
  - intros [<-|[]]. cbn [fits]. unfold client_sig. assert (E : negb (me_cs m) && negb (me_ss m) = negb (streaming m)) by (unfold streaming; now destruct (me_cs m), (me_ss m)). now rewrite E, Est.
Qed.
Lemma client_operations : streaming m = true -> exists ms t, In (DInterface (client_name s) ms) ds /\
  In (me_go m, Sig ([TContext] ++ (if me_cs m then [] else [TPtr (me_in m)]) ++ [TOptions]) [t; TError]) ms /\ operations ds t (client_does m).
Proof.
  intros Hst. exists (map (fun m => (me_go m, client_sig generic s m)) (sv_methods s)), (if generic then stream_interface true m else TNamed (client_stream_type s m)). split; [|split].
  - apply (in_content req generic services s _ Hs), part_three. now left.
  - apply in_map_iff. exists m. split; [|exact Hm]. unfold client_sig. unfold streaming in Hst. now destruct (me_cs m), (me_ss m).
  - pose proof client_part as P. revert P. unfold client_does, stream_interface. destruct generic.
    + intros _. unfold streaming in Hst. destruct (me_cs m), (me_ss m); try discriminate; constructor.
    + intros P. constructor. apply (P _ 0); [|intros j]; unfold gen_client_method; fold (unary m); rewrite unary_streaming, Hst; cbn [negb]; right; left; now destruct (me_cs m), (me_ss m).
Qed.
Lemma server_operations : streaming m = true -> exists ms t, In (DInterface (server_type s) ms) ds /\
  In (me_go m, Sig ((if me_cs m then [] else [TPtr (me_in m)]) ++ [t]) [TError]) ms /\ operations ds t (server_does m).
Proof.
  intros Hst. eexists. exists (if generic then stream_interface false m else TNamed (server_stream_type s m)). split; [apply server_interface|split].
  - apply in_or_app. left. apply in_map_iff. exists m. split; [|exact Hm]. unfold server_sig. rewrite Hst. unfold streaming in Hst. now destruct (me_cs m), (me_ss m).
  - assert (P : forall d, In d (gen_server_method generic s m) -> In d ds) by (intros d; intros H; apply (in_content req generic services s _ Hs), (part_handler req generic s m _ Hm H)).
    revert P. unfold server_does, stream_interface. destruct generic.
    + intros _. unfold streaming in Hst. destruct (me_cs m), (me_ss m); try discriminate; constructor.
    + intros P. constructor. apply P. unfold gen_server_method. assert (E : negb (me_cs m) && negb (me_ss m) = negb (streaming m)) by (unfold streaming; now destruct (me_cs m), (me_ss m)). rewrite E, Hst. cbn [negb]. right; left. now destruct (me_cs m), (me_ss m).
Qed.
Lemma method_in_interface : In (me_go m, server_sig generic s m) (map (fun m => (me_go m, server_sig generic s m)) (sv_methods s) ++ (if req then [(must_embed s, Sig [] [])] else [])).
Proof. apply in_or_app. left. apply in_map_iff. eauto. Qed.
Lemma server_fits d : In d (gen_server_method generic s m) -> fits ds d.
Proof.
  unfold gen_server_method. assert (E : negb (me_cs m) && negb (me_ss m) = negb (streaming m)) by (unfold streaming; now destruct (me_cs m), (me_ss m)). rewrite E.
  pose proof method_in_interface as Hin. unfold server_sig in Hin. rewrite E in Hin. destruct (streaming m) eqn:Est; cbn [negb] in *.
  - intros H. apply in_app_or in H as [[<-|[]]|H].
    + cbn [fits]. eexists. exists (if generic then stream_interface false m else TNamed (server_stream_type s m)). split; [apply server_interface|]. split.
      * unfold server_sig in *. destruct (me_cs m); cbn [request app negb] in *; exact Hin.
      * pose proof (stream_provides false) as A. pose proof own_server as B. clear - A B Est. destruct generic; [now apply A|constructor; now apply B].
    + destruct generic; cbn [In app] in H; [intuition (subst; exact I)|]. destruct (me_cs m), (me_ss m); cbn [app In] in H; intuition (subst; exact I).
  - intros [<-|[]]. cbn [fits]. eexists. exists (me_out m). split; [apply server_interface|]. assert (Hc : me_cs m = false) by (unfold streaming in Est; now destruct (me_cs m)). rewrite Hc in Hin. exact Hin.
Qed.
End One.

Lemma client_methods_from s ms : forall mi si d, In d (gen_client_methods generic s ms mi si) -> exists m i, In m ms /\ In d (gen_client_method generic s m i).
Proof.
  induction ms as [|m ms IH]; intros mi si d H; [easy|]. cbn [gen_client_methods] in H. destruct (negb (me_ss m) && negb (me_cs m)); apply in_app_or in H as [H|H].
  1, 3: exists m; eexists; split; [now left|exact H].
  all: apply IH in H as (m' & i & H1 & H2); exists m', i; split; [now right|exact H2].
Qed.
Lemma all_fit : Forall service_ok services -> forall d, In d ds -> fits ds d.
Proof.
  intros Hok d H. rewrite Forall_forall in Hok. apply in_flat_map in H as (s & Hs & H). specialize (Hok s Hs). unfold gen_service in H. rewrite !in_app_iff in H. destruct H as [H|[H|[H|[H|[H|[H|H]]]]]].
  - apply in_map_iff in H as (m & <- & _). exact I.
  - cbn [In] in H. destruct H as [<-|[<-|[<-|[]]]]; try exact I. cbn [fits]. apply (in_content req generic services s _ Hs), part_three. right. now left.
  - apply client_methods_from in H as (m & i & Hm & H). now apply (client_fits s Hs m Hm i).
  - destruct H as [<-|[]]. exact I.
  - unfold gen_unimplemented in H. rewrite !in_app_iff in H. destruct H as [[<-|[]]|[H|[H|[<-|[]]]]]; try exact I.
    + apply in_map_iff in H as (m & <- & _). exact I.
    + destruct req; [destruct H as [<-|[]]; exact I|easy].
  - cbn [In] in H. destruct H as [<-|[<-|[]]]; exact I.
  - unfold gen_server_functions in H. apply in_app_or in H as [H|[<-|[]]].
    + apply in_flat_map in H as (m & Hm & H). now apply (server_fits s Hs m Hm).
    + cbn [fits sd_type]. eexists. now apply server_interface.
Qed.
End Gen.

Lemma written fs f ds : NoDup (map fi_prefix fs) -> In f fs -> In (grpc_file f, ds) (generate fs) ->
  fi_generate f = true /\ ds = gen_content (or_ (fi_unimplemented f) false) (or_ (fi_generic f) true) (fi_services f).
Proof.
  intros HN Hf H. apply in_flat_map in H as (f' & Hf' & H).
  destruct (fi_generate f') eqn:Eg; [|easy]. destruct (fi_services f') as [|s ss] eqn:Es; [easy|]. destruct H as [H|[]]. injection H as E1 E2. unfold grpc_file in E1. apply app_inv_tail in E1.
  assert (f' = f).
  { clear -HN Hf Hf' E1. revert HN Hf Hf'. induction fs as [|x l IH]; intros HN H1 H2; [easy|]. inversion HN as [|? ? N1 N2]; subst. destruct H1 as [->|H1], H2 as [->|H2]; try reflexivity; try (now apply IH);
    exfalso; apply N1; [rewrite <- E1|rewrite E1]; now apply in_map. }
  subst f'. rewrite Es. rewrite <- E2. easy.
Qed.
