From Coq Require Import Ascii String.
From Verif Require Import Base Strs.
From Verif.Generated Require Proofs.
From Verif.Grpc Require Import Model Spec.
Open Scope list_scope.

(** ** Lists *)
Lemma flat_in {A B} (f : A -> list B) l x y : In x l -> In y (f x) -> In y (flat_map f l).
Proof. intros H1 H2. apply in_flat_map. eauto. Qed.
Lemma nodup_app {A} (a b : list A) : NoDup (a ++ b) -> NoDup a /\ NoDup b /\ forall x, In x a -> ~ In x b.
Proof.
  induction a as [|x a IH]; intros H; [split; [constructor|split; [exact H|intros x []]]|]. inversion H as [|? ? H1 H2]; subst. destruct (IH H2) as (Ha & Hb & Hd).
  split; [constructor; [intros Hx; apply H1, in_or_app; now left|exact Ha]|]. split; [exact Hb|]. intros y [<-|Hy]; [intros Hy; apply H1, in_or_app; now right|now apply Hd].
Qed.
Lemma app_nodup {A} (a b : list A) : NoDup a -> NoDup b -> (forall x, In x a -> ~ In x b) -> NoDup (a ++ b).
Proof.
  induction a as [|x a IH]; intros Ha Hb Hd; [exact Hb|]. inversion Ha as [|? ? H1 H2]; subst. cbn [app]. constructor.
  - intros Hx. apply in_app_or in Hx as [Hx|Hx]; [now apply H1|]. apply (Hd x); [now left|exact Hx].
  - apply IH; [exact H2|exact Hb|]. intros y Hy. apply Hd. now right.
Qed.
Lemma flat_same {A B} (f : A -> list B) l x y b : NoDup (flat_map f l) -> In x l -> In y l -> In b (f x) -> In b (f y) -> x = y.
Proof.
  induction l as [|z l IH]; intros HN Hx Hy Bx By; [easy|]. cbn [flat_map] in HN. apply nodup_app in HN as (_ & H2 & Hd).
  destruct Hx as [->|Hx], Hy as [->|Hy]; try reflexivity.
  - exfalso. apply (Hd b Bx). now apply (flat_in f l y).
  - exfalso. apply (Hd b By). now apply (flat_in f l x).
  - now apply IH.
Qed.
Lemma nodup_flat {A B K} (f : A -> list B) (g : A -> K) (k : B -> K) l : NoDup (map g l) -> (forall x, In x l -> NoDup (f x)) -> (forall x y, In x l -> In y (f x) -> k y = g x) -> NoDup (flat_map f l).
Proof.
  induction l as [|x l IH]; intros HN Hf Hk; [constructor|]. cbn [flat_map]. cbn [map] in HN. inversion HN as [|? ? H1 H2]; subst. apply app_nodup.
  - apply Hf. now left.
  - apply IH; [exact H2|intros y Hy; apply Hf; now right|intros y z Hy; apply Hk; now right].
  - intros y Hy Hc. apply in_flat_map in Hc as (z & Hz & Hyz). apply H1. rewrite <- (Hk x y (or_introl eq_refl) Hy), (Hk z y (or_intror Hz) Hyz). now apply in_map.
Qed.
Lemma nodup_map {A B} (f : A -> B) l : NoDup l -> (forall x y, In x l -> In y l -> f x = f y -> x = y) -> NoDup (map f l).
Proof.
  induction l as [|x l IH]; intros HN Hi; [constructor|]. inversion HN as [|? ? H1 H2]; subst. cbn [map]. constructor.
  - intros H. apply in_map_iff in H as (y & E & Hy). apply H1. replace x with y; [exact Hy|]. apply Hi; [now right|now left|exact E].
  - apply IH; [exact H2|]. intros a b Ha Hb. apply Hi; now right.
Qed.
Lemma nodup_of_map {A B} (f : A -> B) l : NoDup (map f l) -> NoDup l.
Proof. induction l as [|x l IH]; intros H; [constructor|]. inversion H as [|? ? H1 H2]; subst. constructor; [|now apply IH]. intros Hx. apply H1. now apply in_map. Qed.

(** ** Names *)
Lemma unexport_app a b : a <> [] -> unexport (a ++ b) = unexport a ++ b.
Proof. destruct a; [easy|reflexivity]. Qed.
Lemma go_upper n : proto_ident n -> exists c r, go_name n = c :: r /\ Generated.Model.is_upper c = true.
Proof.
  intros (c & r & -> & Hc & _). destruct (Generated.Proofs.camel_head c r) as (c' & r' & E & Hu & _); [exact Hc|]. unfold go_name. rewrite E. eauto.
Qed.
Lemma go_nonempty n : proto_ident n -> go_name n <> [].
Proof. intros H. destruct (go_upper n H) as (c & r & -> & _). discriminate. Qed.
Lemma no_slash n : proto_ident n -> ~ In "/"%char n.
Proof.
  intros (c & r & -> & Hc & Hr) [E|H].
  - subst c. destruct Hc as [Hc|Hc]; discriminate.
  - rewrite Forall_forall in Hr. specialize (Hr _ H) as [Hr|[Hr|Hr]]; discriminate.
Qed.
Lemma last_cut (a b : bytes) : forall c d, ~ In "/"%char b -> ~ In "/"%char d -> a ++ "/"%char :: b = c ++ "/"%char :: d -> a = c /\ b = d.
Proof.
  induction a as [|x a IH]; intros c d Hb Hd E; destruct c as [|y c]; cbn [app] in E.
  - injection E as ->. easy.
  - injection E as <- E. exfalso. apply Hb. rewrite E. apply in_or_app. right. now left.
  - injection E as -> E. exfalso. apply Hd. rewrite <- E. apply in_or_app. right. now left.
  - injection E as -> E. destruct (IH _ _ Hb Hd E) as [-> ->]. easy.
Qed.
Lemma path_unique p svc m svc' m' : is_path p svc m -> is_path p svc' m' -> svc = svc' /\ m = m'.
Proof. intros [E H] [E' H']. rewrite E in E'. cbn [b_ app] in E'. injection E' as E'. now apply last_cut in E'. Qed.

(** ** Entries *)
Definition count_if {A} (p : A -> bool) (l : list A) : nat := List.length (filter p l).
Lemma entries_at keep names pre m post i : keep m = true ->
  nth_error (entries keep names (pre ++ m :: post) i) (count_if keep pre) = Some (Entry (me_name m) (nth (i + List.length pre) names []) (me_ss m) (me_cs m)).
Proof.
  intros Hk. revert i. unfold count_if. induction pre as [|x pre IH]; intros i; cbn [app entries filter List.length].
  - now rewrite Hk, Nat.add_0_r.
  - destruct (keep x); cbn [app List.length nth_error]; rewrite IH; do 3 f_equal; lia.
Qed.
Lemma entries_in keep names ms i e : In e (entries keep names ms i) -> exists pre m post, ms = pre ++ m :: post /\ keep m = true /\ e = Entry (me_name m) (nth (i + List.length pre) names []) (me_ss m) (me_cs m).
Proof.
  revert i. induction ms as [|x ms IH]; intros i H; [easy|]. cbn [entries] in H. apply in_app_or in H as [H|H].
  - destruct (keep x) eqn:E; [|easy]. destruct H as [<-|[]]. exists [], x, ms. rewrite Nat.add_0_r. easy.
  - apply IH in H as (pre & m & post & -> & Hk & ->). exists (x :: pre), m, post. split; [easy|]. split; [easy|]. cbn [List.length]. do 2 f_equal. lia.
Qed.
Lemma entries_names keep names ms : forall i, map en_name (entries keep names ms i) = map me_name (filter keep ms).
Proof. induction ms as [|x ms IH]; intros i; [easy|]. cbn [entries filter]. destruct (keep x); cbn [app map]; now rewrite IH. Qed.
Lemma nodup_filter {A B} (f : A -> B) p l : NoDup (map f l) -> NoDup (map f (filter p l)).
Proof.
  induction l as [|x l IH]; intros H; [constructor|]. inversion H as [|? ? H1 H2]; subst. cbn [filter]. destruct (p x); [|now apply IH]. cbn [map]. constructor; [|now apply IH].
  intros Hx. apply H1. apply in_map_iff in Hx as (y & E & Hy). apply filter_In in Hy as [Hy _]. rewrite <- E. now apply in_map.
Qed.
Lemma entry_found es e : NoDup (map en_name es) -> In e es -> entry_of es (en_name e) = Some e.
Proof.
  intros HN He. unfold entry_of. apply in_rev in He. apply NoDup_rev in HN. rewrite <- map_rev in HN. revert HN He. generalize (rev es) as l.
  induction l as [|x l IH]; intros HN He; [easy|]. destruct He as [->|He]; cbn [find]; inversion HN as [|? ? H1 H2]; subst.
  - unfold named. now rewrite beq_refl.
  - unfold named. destruct (beq (en_name x) (en_name e)) eqn:E; [|now apply IH]. apply beq_eq in E. exfalso. apply H1. rewrite E. now apply in_map.
Qed.
Lemma entry_name es n e : entry_of es n = Some e -> In e es /\ en_name e = n.
Proof. unfold entry_of. intros H. apply find_some in H as [H1 H2]. apply in_rev in H1. split; [exact H1|]. now apply beq_eq in H2. Qed.
Lemma entry_absent es n : ~ In n (map en_name es) -> entry_of es n = None.
Proof. intros H. destruct (entry_of es n) as [e|] eqn:E; [|easy]. apply entry_name in E as [E1 <-]. exfalso. apply H. now apply in_map. Qed.

Section Gen.
Variable require_unimplemented generic : bool.
Variable services : list service.
Notation ds := (gen_content require_unimplemented generic services).
Notation gen := (gen_service require_unimplemented generic).

Lemma in_content s d : In s services -> In d (gen s) -> In d ds.
Proof. apply flat_in. Qed.
(** the parts of a service *)
Lemma part_const s m : In m (sv_methods s) -> In (DConst (method_symbol s m) (full_method s m)) (gen s).
Proof. intros H. unfold gen_service. apply in_or_app. left. unfold gen_full_methods. apply in_map_iff. eauto. Qed.
Lemma part_three s d : In d [DInterface (client_name s) (map (fun m => (me_go m, client_sig generic s m)) (sv_methods s)); DStruct (unexport (client_name s)); DFunc (b_ "New" ++ client_name s) (BNewClient (unexport (client_name s)))] -> In d (gen s).
Proof. intros H. unfold gen_service. apply in_or_app. right. apply in_or_app. now left. Qed.
Lemma part_client s d : In d (gen_client_methods generic s (sv_methods s) 0 0) -> In d (gen s).
Proof. intros H. unfold gen_service. do 2 (apply in_or_app; right). apply in_or_app. now left. Qed.
Lemma part_server s : In (DInterface (server_type s) (map (fun m => (me_go m, server_sig generic s m)) (sv_methods s) ++ (if require_unimplemented then [(must_embed s, Sig [] [])] else []))) (gen s).
Proof. unfold gen_service. do 3 (apply in_or_app; right). apply in_or_app. left. now left. Qed.
Lemma part_unimplemented s d : In d (gen_unimplemented require_unimplemented generic s) -> In d (gen s).
Proof. intros H. unfold gen_service. do 4 (apply in_or_app; right). apply in_or_app. now left. Qed.
Lemma part_register s : In (DFunc (b_ "Register" ++ server_type s) (BRegister (desc_var s))) (gen s).
Proof. unfold gen_service. do 5 (apply in_or_app; right). apply in_or_app. left. right. now left. Qed.
Lemma part_functions s d : In d (gen_server_functions generic s) -> In d (gen s).
Proof. intros H. unfold gen_service. do 6 (apply in_or_app; right). exact H. Qed.
Definition desc_of (s : service) : sdesc :=
  SDesc (sv_full s) (server_type s) (entries (fun m => negb (streaming m)) (map (handler_name s) (sv_methods s)) (sv_methods s) 0) (entries streaming (map (handler_name s) (sv_methods s)) (sv_methods s) 0).
Lemma part_desc s : In (DVar (desc_var s) (desc_of s)) (gen s).
Proof. apply part_functions. unfold gen_server_functions. apply in_or_app. right. now left. Qed.
Lemma part_handler s m d : In m (sv_methods s) -> In d (gen_server_method generic s m) -> In d (gen s).
Proof. intros Hm Hd. apply part_functions. unfold gen_server_functions. apply in_or_app. left. now apply (flat_in _ _ m). Qed.

(** the descriptions in the file are those of its services *)
Lemma no_var_client s ms : forall mi si n d, ~ In (DVar n d) (gen_client_methods generic s ms mi si).
Proof.
  assert (H : forall m i n d, ~ In (DVar n d) (gen_client_method generic s m i)).
  { intros m i n d. unfold gen_client_method. destruct generic, (me_ss m), (me_cs m); cbn; intuition discriminate. }
  induction ms as [|m ms IH]; intros mi si n d; [easy|]. cbn [gen_client_methods]. destruct (negb (me_ss m) && negb (me_cs m)); rewrite in_app_iff; intros [Hd|Hd]; now (apply H in Hd || apply IH in Hd).
Qed.
Lemma vars_service s n d : In (DVar n d) (gen s) -> n = desc_var s /\ d = desc_of s.
Proof.
  unfold gen_service. rewrite !in_app_iff. intros [H|[H|[H|[H|[H|[H|H]]]]]].
  - unfold gen_full_methods in H. apply in_map_iff in H as (m & E & _). discriminate.
  - cbn in H. intuition discriminate.
  - now apply no_var_client in H.
  - cbn in H. intuition discriminate.
  - unfold gen_unimplemented in H. rewrite !in_app_iff in H. destruct H as [[H|[]]|[H|[H|[H|[]]]]]; try discriminate.
    + apply in_map_iff in H as (m & E & _). discriminate.
    + destruct require_unimplemented; [destruct H as [H|[]]; discriminate|easy].
  - cbn in H. intuition discriminate.
  - unfold gen_server_functions in H. apply in_app_or in H as [H|H].
    + apply in_flat_map in H as (m & _ & H). unfold gen_server_method in H. destruct generic, (me_ss m), (me_cs m); cbn in H; intuition discriminate.
    + destruct H as [H|[]]. now injection H as <- <-.
Qed.
Lemma vars_content n d : In (DVar n d) ds -> exists s, In s services /\ n = desc_var s /\ d = desc_of s.
Proof. intros H. apply in_flat_map in H as (s & Hs & H). exists s. split; [exact Hs|]. now apply vars_service. Qed.

(** the client's methods and their indices *)
Definition unary (m : method) : bool := negb (me_ss m) && negb (me_cs m).
Lemma unary_streaming m : unary m = negb (streaming m).
Proof. unfold unary, streaming. destruct (me_ss m), (me_cs m); reflexivity. Qed.
Lemma client_methods_at s pre m post : forall mi si d, In d (gen_client_method generic s m (if unary m then mi + count_if unary pre else si + count_if streaming pre)) ->
  In d (gen_client_methods generic s (pre ++ m :: post) mi si).
Proof.
  induction pre as [|x pre IH]; intros mi si d H; cbn [app gen_client_methods].
  - unfold count_if in H. cbn [filter List.length] in H. rewrite !Nat.add_0_r in H. fold (unary m). destruct (unary m); apply in_or_app; now left.
  - fold (unary x). unfold count_if in H, IH. cbn [filter] in H. rewrite (unary_streaming x) in *. destruct (streaming x); cbn [negb] in *; apply in_or_app; right; apply IH;
    cbn [List.length] in H; rewrite ?Nat.add_succ_r in H; cbn [Nat.add]; exact H.
Qed.

Section One.
Variable s : service.
Hypothesis Hs : In s services.
Hypothesis Hok : service_ok s.
Variable m : method.
Hypothesis Hm : In m (sv_methods s).
Notation recv := (unexport (client_name s)).
Lemma recv_is : unexport (sv_go s) ++ b_ "Client" = recv.
Proof. unfold client_name. rewrite unexport_app; [reflexivity|]. apply go_nonempty, Hok. Qed.
(** an index, a client method and an entry *)
Lemma client_method_in : exists i, In (DMethod recv (me_go m) (client_sig generic s m)
    (if streaming m then BStream (desc_var s) i (method_symbol s m) (if generic then IGeneric (me_in m) (me_out m) else IOwn (unexport (sv_go s) ++ me_go m ++ b_ "Client")) (negb (me_cs m))
     else BInvoke (method_symbol s m) (me_out m))) ds /\
  (streaming m = true -> nth_error (sd_streams (desc_of s)) i = Some (Entry (me_name m) (handler_name s m) (me_ss m) (me_cs m))).
Proof.
  apply in_split in Hm as (pre & post & E). exists (if unary m then 0 + count_if unary pre else 0 + count_if streaming pre). split.
  - apply (in_content s _ Hs), part_client. rewrite E. apply client_methods_at. unfold gen_client_method. fold (unary m). rewrite (unary_streaming m), recv_is. destruct (streaming m); cbn [negb]; now left.
  - intros Hst. rewrite unary_streaming, Hst. cbn [negb Nat.add desc_of sd_streams]. rewrite E. rewrite entries_at by exact Hst. f_equal. f_equal. cbn [Nat.add].
    rewrite map_app, app_nth2; rewrite map_length; [|lia]. now rewrite Nat.sub_diag.
Qed.
Lemma handler_in : In (DFunc (handler_name s m) (if streaming m then BHandle (if me_cs m then None else Some (me_in m)) (server_type s) (me_go m) (if generic then IGeneric (me_in m) (me_out m) else IOwn (unexport (sv_go s) ++ me_go m ++ b_ "Server"))
    else BUnary (me_in m) (server_type s) (me_go m) (method_symbol s m))) ds.
Proof.
  apply (in_content s _ Hs), (part_handler s m _ Hm). unfold gen_server_method. assert (E : negb (me_cs m) && negb (me_ss m) = negb (streaming m)) by (unfold streaming; now destruct (me_cs m), (me_ss m)).
  rewrite E. destruct (streaming m); cbn [negb]; now left.
Qed.
Lemma entry_in keep : keep m = true -> In (Entry (me_name m) (handler_name s m) (me_ss m) (me_cs m)) (entries keep (map (handler_name s) (sv_methods s)) (sv_methods s) 0).
Proof.
  intros Hk. pose proof Hm as H. apply in_split in H as (pre & post & E). apply (nth_error_In _ (count_if keep pre)). rewrite E, entries_at by exact Hk. f_equal. f_equal. cbn [Nat.add].
  rewrite map_app, app_nth2; rewrite map_length; [|lia]. now rewrite Nat.sub_diag.
Qed.
Lemma entry_here keep : keep m = true -> entry_of (entries keep (map (handler_name s) (sv_methods s)) (sv_methods s) 0) (me_name m) = Some (Entry (me_name m) (handler_name s m) (me_ss m) (me_cs m)).
Proof.
  intros Hk. apply (entry_found _ (Entry (me_name m) (handler_name s m) (me_ss m) (me_cs m))); [|now apply entry_in]. rewrite entries_names. apply nodup_filter, Hok.
Qed.
Lemma entry_not keep : keep m = false -> entry_of (entries keep (map (handler_name s) (sv_methods s)) (sv_methods s) 0) (me_name m) = None.
Proof.
  intros Hk. apply entry_absent. rewrite entries_names. intros H. apply in_map_iff in H as (m' & E & H). apply filter_In in H as [H1 H2].
  assert (m' = m); [|congruence]. destruct Hok as (_ & _ & HN). clear -HN H1 Hm E. revert HN H1 Hm. generalize (sv_methods s) as l.
  induction l as [|x l IH]; intros HN H1 H2; [easy|]. destruct H1 as [->|H1], H2 as [->|H2]; inversion HN as [|? ? N1 N2]; subst; try reflexivity; try (now apply IH); exfalso; apply N1; [rewrite E|rewrite <- E]; now apply in_map.
Qed.
Lemma name_ok : proto_ident (me_name m).
Proof. destruct Hok as (_ & H & _). rewrite Forall_forall in H. now apply H. Qed.

Hypothesis Hscope : NoDup (scope ds).
Hypothesis Hmembers : NoDup (members ds).
Lemma const_value v : const_ ds (method_symbol s m) v <-> v = full_method s m.
Proof.
  split.
  - intros [H]. assert (E : DConst (method_symbol s m) v = DConst (method_symbol s m) (full_method s m)).
    { apply (flat_same declared ds _ _ (method_symbol s m) Hscope H); [apply (in_content s _ Hs), part_const, Hm|now left|now left]. }
    now injection E.
  - intros ->. constructor. apply (in_content s _ Hs), part_const, Hm.
Qed.
Lemma desc_value d : In (DVar (desc_var s) d) ds -> d = desc_of s.
Proof.
  intros H. assert (E : DVar (desc_var s) d = DVar (desc_var s) (desc_of s)).
  { apply (flat_same declared ds _ _ (desc_var s) Hscope H); [apply (in_content s _ Hs), part_desc|now left|now left]. }
  now injection E.
Qed.
Lemma calls_iff c : calls ds recv (me_go m) c <-> c = wanted_call s m.
Proof.
  destruct client_method_in as (i & Hi & He). unfold wanted_call. change (me_cs m || me_ss m) with (streaming m). split.
  - assert (U : forall sg b, In (DMethod recv (me_go m) sg b) ds -> DMethod recv (me_go m) sg b = DMethod recv (me_go m) (client_sig generic s m)
        (if streaming m then BStream (desc_var s) i (method_symbol s m) (if generic then IGeneric (me_in m) (me_out m) else IOwn (unexport (sv_go s) ++ me_go m ++ b_ "Client")) (negb (me_cs m)) else BInvoke (method_symbol s m) (me_out m))).
    { intros sg b H. apply (flat_same member ds _ _ (recv, me_go m) Hmembers H Hi); now left. }
    intros [sg sym out path H Hc|sg dv j sym x send path d e H Hc Hd Hn]; apply U in H; injection H as _ H; destruct (streaming m) eqn:Est; try discriminate.
    + injection H as -> ->. apply const_value in Hc as ->. reflexivity.
    + injection H as -> -> -> -> ->. apply const_value in Hc as ->. apply desc_value in Hd as ->. rewrite He in Hn by reflexivity. injection Hn as <-. reflexivity.
  - intros ->. destruct (streaming m) eqn:Est.
    + eapply (calls_stream ds recv (me_go m) _ _ _ _ _ _ _ _ (Entry (me_name m) (handler_name s m) (me_ss m) (me_cs m))).
      * exact Hi.
      * apply const_value. reflexivity.
      * apply (in_content s _ Hs), part_desc.
      * now apply He.
    + eapply calls_unary; [exact Hi|]. apply const_value. reflexivity.
Qed.

Hypothesis Hnames : NoDup (map sv_full services).
Variable registered : list bytes.
Hypothesis Hreg : In (desc_var s) registered.
Lemma same_service s' : In s' services -> sv_full s' = sv_full s -> s' = s.
Proof.
  intros Hs' E. revert Hnames Hs Hs'. clear -E. generalize services as l. induction l as [|x l IH]; intros HN H1 H2; [easy|]. destruct H1 as [->|H1], H2 as [->|H2]; inversion HN as [|? ? N1 N2]; subst; try reflexivity; try (now apply IH);
  exfalso; apply N1; [rewrite <- E|rewrite E]; now apply in_map.
Qed.
Lemma is_path_own : is_path (full_method s m) (sv_full s) (me_name m).
Proof. split; [reflexivity|apply no_slash, name_ok]. Qed.
Lemma handler_unique h b : h = handler_name s m -> In (DFunc h b) ds -> b = (if streaming m then BHandle (if me_cs m then None else Some (me_in m)) (server_type s) (me_go m) (if generic then IGeneric (me_in m) (me_out m) else IOwn (unexport (sv_go s) ++ me_go m ++ b_ "Server"))
    else BUnary (me_in m) (server_type s) (me_go m) (method_symbol s m)).
Proof.
  intros -> H. pose proof (flat_same declared ds _ _ (handler_name s m) Hscope H handler_in (or_introl eq_refl) (or_introl eq_refl)) as E. now injection E.
Qed.
Lemma serves_iff r : serves ds registered (full_method s m) r <-> r = wanted_run s m.
Proof.
  assert (En : (fun m => negb (streaming m)) m = negb (streaming m)) by reflexivity. unfold wanted_run. change (me_cs m || me_ss m) with (streaming m). split.
  - intros [svc n dv d e i t k sym Hp Hr Hv Hd He Hf|svc n dv d e i t k x Hp Hr Hv Hd Hnone He Hf];
    destruct (path_unique _ _ _ _ _ Hp is_path_own) as [-> ->]; apply vars_content in Hv as (s' & Hs' & -> & ->); cbn [desc_of sd_name sd_methods sd_streams] in *;
    rewrite (same_service s' Hs' Hd) in *.
    + destruct (streaming m) eqn:Est; [rewrite (entry_not (fun m => negb (streaming m))) in He by (now rewrite Est); discriminate|].
      rewrite (entry_here (fun m => negb (streaming m))) in He by (now rewrite Est). injection He as <-. apply handler_unique in Hf; [|reflexivity]. rewrite Est in Hf. injection Hf as -> -> -> ->. reflexivity.
    + destruct (streaming m) eqn:Est; [|rewrite (entry_not streaming) in He by (exact Est); discriminate].
      rewrite (entry_here streaming) in He by exact Est. injection He as <-. apply handler_unique in Hf; [|reflexivity]. rewrite Est in Hf. injection Hf as -> -> -> ->. reflexivity.
  - intros ->. pose proof handler_in as Hf. destruct (streaming m) eqn:Est.
    + eapply (serves_stream _ _ _ (sv_full s) (me_name m) (desc_var s) (desc_of s)); [apply is_path_own|exact Hreg|apply (in_content s _ Hs), part_desc|reflexivity| | |].
      * apply (entry_not (fun m => negb (streaming m))). now rewrite Est.
      * apply (entry_here streaming), Est.
      * exact Hf.
    + eapply (serves_unary _ _ _ (sv_full s) (me_name m) (desc_var s) (desc_of s)); [apply is_path_own|exact Hreg|apply (in_content s _ Hs), part_desc|reflexivity| |].
      * apply (entry_here (fun m => negb (streaming m))). now rewrite Est.
      * exact Hf.
Qed.
End One.
End Gen.
