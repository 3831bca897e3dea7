From Coq Require Import Ascii String.
From Verif Require Import Base Strs.
From Verif.Locate Require Import Model Spec.
Open Scope list_scope.

(** ** The table *)
Lemma kind_of_app p k n : kind_of (p ++ [(k, n)]) = Some k.
Proof. unfold kind_of. now rewrite rev_app_distr. Qed.
Definition value (p : way) (k : kind) (n : bytes) : way :=
  match kind_of p, k with Some KOneof, KField => removelast p ++ [(KField, n)] | _, _ => p ++ [(k, n)] end.
Definition row_ok (r : row) : Prop := let '(p, k, n, d) := r in d = value p k n.
Lemma put_ok p k n : kind_of p <> Some KOneof -> row_ok (put p k n).
Proof. intros H. unfold put, row_ok, value. destruct (kind_of p) as [[]|]; try reflexivity. now destruct H. Qed.
Lemma flat_ok {A} (g : A -> list row) l : (forall x, In x l -> Forall row_ok (g x)) -> Forall row_ok (flat_map g l).
Proof. induction l as [|x l IH]; intros H; [constructor|]. cbn [flat_map]. apply Forall_app. split; [apply H; now left|apply IH; intros y Hy; apply H; now right]. Qed.
Lemma oneof_row_ok p n f : row_ok (p ++ [(KOneof, n)], KField, f, p ++ [(KField, f)]).
Proof. unfold row_ok, value. rewrite kind_of_app. now rewrite removelast_last. Qed.
Fixpoint rows_ok (e : elem) : forall p, kind_of p <> Some KOneof -> Forall row_ok (rows p e).
Proof.
  assert (Hk : forall p k n, k <> KOneof -> kind_of (p ++ [(k, n)]) <> Some KOneof) by (intros p k n H; rewrite kind_of_app; congruence).
  assert (G : forall (b : list elem) p, kind_of p <> Some KOneof -> Forall row_ok (flat_map (rows p) b)).
  { intros b p Hp. induction b as [|x b IHb]; [constructor|]. cbn [flat_map]. apply Forall_app. split; [now apply rows_ok|exact IHb]. }
  destruct e as [n|n v|n b|n b|n b|n vs|x b]; intros p Hp; cbn [rows].
  - constructor; [now apply put_ok|constructor].
  - constructor; [now apply put_ok|constructor].
  - do 2 (constructor; [now apply put_ok|]).
    assert (Q : kind_of (p ++ [(KMsg, n)]) <> Some KOneof) by (now apply Hk). revert Q. generalize (p ++ [(KMsg, n)]) as q. intros q Hq. induction b as [|y b IHb]; [constructor|]. cbn [flat_map]. apply Forall_app. split; [now apply rows_ok|exact IHb].
  - constructor; [now apply put_ok|]. induction b as [|m b IHb]; [constructor|]. cbn [flat_map]. apply Forall_app. split; [|exact IHb]. destruct m as [f|g c].
    + constructor; [now apply put_ok|]. constructor; [apply oneof_row_ok|constructor].
    + do 2 (constructor; [now apply put_ok|]). constructor; [apply oneof_row_ok|].
      assert (Q : kind_of (p ++ [(KMsg, g)]) <> Some KOneof) by (now apply Hk). revert Q. generalize (p ++ [(KMsg, g)]) as q. intros q Hq. induction c as [|y c IHc]; [constructor|]. cbn [flat_map]. apply Forall_app. split; [now apply rows_ok|exact IHc].
  - constructor; [now apply put_ok|].
    assert (Q : kind_of (p ++ [(KMsg, n)]) <> Some KOneof) by (now apply Hk). revert Q. generalize (p ++ [(KMsg, n)]) as q. intros q Hq. induction b as [|y b IHb]; [constructor|]. cbn [flat_map]. apply Forall_app. split; [now apply rows_ok|exact IHb].
  - constructor; [now apply put_ok|]. apply Forall_forall. intros r Hr. apply in_map_iff in Hr as (v & <- & _). apply put_ok, Hk. discriminate.
  - induction b as [|m b IHb]; [constructor|]. cbn [flat_map]. apply Forall_app. split; [|exact IHb]. destruct m as [f|g c].
    + constructor; [now apply put_ok|constructor].
    + do 2 (constructor; [now apply put_ok|]).
      assert (Q : kind_of (p ++ [(KMsg, g)]) <> Some KOneof) by (now apply Hk). revert Q. generalize (p ++ [(KMsg, g)]) as q. intros q Hq. induction c as [|y c IHc]; [constructor|]. cbn [flat_map]. apply Forall_app. split; [now apply rows_ok|exact IHc].
Qed.
Lemma table_ok f : Forall row_ok (table f).
Proof.
  apply flat_ok. intros t _. destruct t as [n b|n vs|x b|n ms]; cbn [top_rows]; try (apply rows_ok; discriminate).
  constructor; [apply put_ok; discriminate|]. apply Forall_forall. intros r Hr. apply in_map_iff in Hr as (m & <- & _). apply put_ok. discriminate.
Qed.
Lemma by_name_in tab p k n d : Forall row_ok tab -> In (p, k, n, d) tab -> by_name tab p k n = Some d.
Proof.
  intros Hok Hin. unfold by_name. induction tab as [|r tab IH]; [easy|]. inversion Hok as [|? ? H1 H2]; subst. cbn [find].
  destruct (is_row p k n r) eqn:E.
  - destruct r as [[[q k'] n'] d']. unfold is_row in E. apply andb_true_iff in E as [E En]. apply andb_true_iff in E as [Ep Ek]. apply beq_eq in En. destruct (way_eq_dec p q); [|discriminate]. destruct (kind_eq_dec k k'); [|discriminate]. subst.
    assert (Hd : row_ok (q, k', n', d)) by (apply (proj1 (Forall_forall _ _) Hok); exact Hin).
    cbn [option_map snd]. unfold row_ok in H1, Hd. congruence.
  - destruct Hin as [->|Hin]; [|now apply IH]. exfalso. unfold is_row in E. destruct (way_eq_dec p p); [|congruence]. destruct (kind_eq_dec k k); [|congruence]. rewrite beq_refl in E. discriminate.
Qed.
Lemma by_name_some tab p k n d : by_name tab p k n = Some d -> In (p, k, n, d) tab.
Proof.
  unfold by_name. destruct (find (is_row p k n) tab) as [r|] eqn:E; [|discriminate]. intros H. cbn in H. injection H as <-. apply find_some in E as [E1 E2]. destruct r as [[[q k'] n'] d']. unfold is_row in E2.
  apply andb_true_iff in E2 as [E2 En]. apply andb_true_iff in E2 as [Ep Ek]. apply beq_eq in En. destruct (way_eq_dec p q); [|discriminate]. destruct (kind_eq_dec k k'); [|discriminate]. now subst.
Qed.

(** messages found from the file are declared there *)
Lemma rows_below e : forall p r, In r (rows p e) -> exists s, fst (fst (fst r)) = p ++ s.
Proof.
  revert e. fix IH 1. intros e.
  assert (G : forall (b : list elem), (forall y, In y b -> forall p r, In r (rows p y) -> exists s, fst (fst (fst r)) = p ++ s) -> forall p r, In r (flat_map (rows p) b) -> exists s, fst (fst (fst r)) = p ++ s).
  { intros b Hb p r H. apply in_flat_map in H as (y & Hy & H). now apply (Hb y Hy). }
  assert (S : forall p r k n, (exists s, fst (fst (fst r)) = (p ++ [(k, n)]) ++ s) -> exists s, fst (fst (fst (r : row))) = p ++ s).
  { intros p r k n (s & E). rewrite <- app_assoc in E. eauto. }
  assert (P : forall p k n, exists s, fst (fst (fst (put p k n))) = p ++ s) by (intros; exists []; now rewrite app_nil_r).
  destruct e as [n|n v|n b|n b|n b|n vs|x b]; intros p r H; cbn [rows] in H.
  - destruct H as [<-|[]]. apply P.
  - destruct H as [<-|[]]. apply P.
  - destruct H as [<-|[<-|H]]; [apply P|apply P|]. apply (S p r KMsg n). revert H. generalize (p ++ [(KMsg, n)]) as q. intros q. induction b as [|y b IHb]; [easy|]. cbn [flat_map]. intros H. apply in_app_or in H as [H|H]; [now apply (IH y)|now apply IHb].
  - destruct H as [<-|H]; [apply P|]. induction b as [|m b IHb]; [easy|]. cbn [flat_map] in H. apply in_app_or in H as [H|H]; [|now apply IHb]. destruct m as [f|g c].
    + destruct H as [<-|[<-|[]]]; [apply P|]. exists [(KOneof, n)]. reflexivity.
    + destruct H as [<-|[<-|[<-|H]]]; [apply P|apply P|exists [(KOneof, n)]; reflexivity|]. apply (S p r KMsg g). revert H. generalize (p ++ [(KMsg, g)]) as q. intros q. induction c as [|y c IHc]; [easy|]. cbn [flat_map]. intros H. apply in_app_or in H as [H|H]; [now apply (IH y)|now apply IHc].
  - destruct H as [<-|H]; [apply P|]. apply (S p r KMsg n). revert H. generalize (p ++ [(KMsg, n)]) as q. intros q. induction b as [|y b IHb]; [easy|]. cbn [flat_map]. intros H. apply in_app_or in H as [H|H]; [now apply (IH y)|now apply IHb].
  - destruct H as [<-|H]; [apply P|]. apply in_map_iff in H as (v & <- & _). exists [(KEnum, n)]. reflexivity.
  - induction b as [|m b IHb]; [easy|]. cbn [flat_map] in H. apply in_app_or in H as [H|H]; [|now apply IHb]. destruct m as [f|g c].
    + destruct H as [<-|[]]. apply P.
    + destruct H as [<-|[<-|H]]; [apply P|apply P|]. apply (S p r KMsg g). revert H. generalize (p ++ [(KMsg, g)]) as q. intros q. induction c as [|y c IHc]; [easy|]. cbn [flat_map]. intros H. apply in_app_or in H as [H|H]; [now apply (IH y)|now apply IHc].
Qed.
Lemma not_below (p s : way) k n : [] <> (p ++ [(k, n)]) ++ s.
Proof. intros E. destruct p; discriminate. Qed.
Lemma file_messages f v d : by_name (table f) [] KMsg v = Some d -> file_msg f v.
Proof.
  intros H. apply by_name_some in H. unfold table in H. apply in_flat_map in H as (t & Ht & H). destruct t as [n b|n vs|x b|n ms]; cbn [top_rows rows] in H.
  - destruct H as [H|H]; [injection H as <- _; left; eauto|]. apply in_flat_map in H as (y & _ & H). apply rows_below in H as (s & E). cbn [fst] in E. now apply not_below in E.
  - destruct H as [H|H]; [discriminate|]. apply in_map_iff in H as (w & E & _). discriminate.
  - apply in_flat_map in H as (m & Hm & H). destruct m as [g|g c].
    + destruct H as [H|[]]. discriminate.
    + destruct H as [H|[H|H]]; [injection H as <- _; right; eauto|discriminate|]. apply in_flat_map in H as (y & _ & H). apply rows_below in H as (s & E). cbn [fst] in E. now apply not_below in E.
  - destruct H as [H|H]; [discriminate|]. apply in_map_iff in H as (w & E & _). discriminate.
Qed.

Lemma last_cons {A} (x : A) l : forall a, last (x :: l) a = last l x.
Proof. revert x. induction l as [|y l IH]; intros x a; [reflexivity|]. change (last (x :: y :: l) a) with (last (y :: l) a). now rewrite !IH. Qed.
Section Search.
Variable f : list top.
Notation tab := (table f).
Variable types : way -> target.
Variable io : way -> bool -> desc.
Variable extends : way -> desc.
Variable full : desc -> bytes.
Variable extendee : bytes -> option desc.
Variable group_msg : bool.
Notation descend := (descend tab types io extends full extendee).
Notation resolve := (resolve tab types io extends full extendee).
Notation classify := (classify tab group_msg).
Notation climb := (climb tab group_msg).
Notation search := (search tab types io extends full extendee group_msg).

(** ** Up and down again *)
Definition deep (x : node) : Prop := match x with NFile | NSvc _ | NIdent _ AsKey => False | _ => True end.
Lemma no_key_below below : Forall deep below -> in_key below = false.
Proof.
  intros H. destruct below as [|x [|y r]]; [easy|now destruct x|]. inversion H as [|? ? _ H2]; subst. inversion H2 as [|? ? Hy _]; subst. destruct x; try reflexivity. destruct y as [| | | | | | | | | | | | | |i []]; try reflexivity. easy.
Qed.
Lemma inner_push below x above a u b : deep x -> Forall deep below -> above = a :: u :: b -> a <> NFile -> at_ok f u a x -> classify below x above = Push.
Proof.
  intros Hd Hb -> Ha Hok. unfold Model.classify. cbn [nth_error]. destruct x; cbn [mapping at_ok deep] in *; try reflexivity; try easy.
  - destruct a; try easy.
  - rewrite (no_key_below below Hb). destruct Hok as [Hok|(m & ->)]; [|reflexivity]. destruct (is_msg_node _); [reflexivity|]. destruct (by_name tab [] KMsg v) as [d|] eqn:E; [|reflexivity]. apply file_messages in E. contradiction.
  - destruct Hok as (n' & ->). now destruct group_msg.
  - destruct a; try easy.
Qed.
Definition outer (x : node) : Prop := match x with NMsg _ | NEnum _ | NExtend _ | NSvc _ => True | _ => False end.
Fixpoint linked (up above : node) (l : list node) : Prop := match l with [] => True | x :: r => at_ok f up above x /\ linked above x r end.
Lemma plain_linked l : forall u a, plain_from f u a l -> linked u a l.
Proof. induction l as [|x l IH]; intros u a H; [exact I|]. destruct H as [H1 H2]. split; [exact H1|now apply IH]. Qed.
(** the last two nodes *)
Fixpoint ends (up above : node) (l : list node) : node * node := match l with [] => (up, above) | x :: r => ends above x r end.
Lemma ends_last l : forall u a, snd (ends u a l) = last l a.
Proof. induction l as [|x l IH]; intros u a; [reflexivity|]. cbn [ends]. rewrite IH. symmetry. apply last_cons. Qed.
Lemma ends_app l y : forall u a, ends u a (l ++ [y]) = (snd (ends u a l), y).
Proof. induction l as [|x l IH]; intros u a; [reflexivity|]. cbn [app ends]. apply IH. Qed.
Lemma ends_rev l : forall u a, exists t, rev l ++ [a; u] = snd (ends u a l) :: fst (ends u a l) :: t.
Proof.
  induction l as [|y l IH] using rev_ind; intros u a; [exists []; reflexivity|]. destruct (IH u a) as (t & E). rewrite ends_app, rev_app_distr. cbn [rev app fst snd]. rewrite E. eauto.
Qed.
Lemma linked_app l m : forall u a, linked u a (l ++ m) -> linked u a l /\ linked (fst (ends u a l)) (snd (ends u a l)) m.
Proof.
  induction l as [|x l IH]; intros u a H; [split; [exact I|exact H]|]. cbn [app linked] in H. destruct H as [H1 H2]. destruct (IH _ _ H2) as [H3 H4]. split; [split; assumption|exact H4].
Qed.
Lemma climb_inner x0 pre : forall below, Forall deep pre -> Forall deep below -> deep x0 \/ outer x0 -> x0 <> NFile -> linked NFile x0 pre -> climb below (rev pre ++ [x0; NFile]) = climb (pre ++ below) [x0; NFile].
Proof.
  induction pre as [|y pre IH] using rev_ind; intros below Hp Hb H0 Hn Hl; [reflexivity|]. apply Forall_app in Hp as [Hp Hy]. inversion Hy as [|? ? Hy1 _]; subst. apply linked_app in Hl as [Hl Hl2].
  rewrite rev_app_distr. cbn [rev app]. destruct Hl2 as [Hok _].
  assert (Hlast : snd (ends NFile x0 pre) <> NFile).
  { rewrite ends_last. destruct pre as [|z pre _] using rev_ind; [exact Hn|]. rewrite last_last. apply Forall_app in Hp as [_ Hz]. inversion Hz as [|? ? Hz1 _]; subst. intros ->. exact Hz1. }
  destruct (ends_rev pre NFile x0) as (b & E). cbn [Model.climb]. rewrite E. rewrite (inner_push below y _ _ _ b Hy1 Hb eq_refl Hlast Hok). rewrite <- E.
  rewrite IH; [|assumption|constructor; assumption|assumption|assumption|assumption]. now rewrite <- app_assoc.
Qed.
Lemma search_down x l : outer x -> Forall deep l -> linked NFile x l -> search (NFile :: x :: l) = descend NFile (Own []) (x :: l).
Proof.
  intros Hx Hd Hl. unfold Model.search. cbn [rev]. rewrite <- app_assoc. cbn [app].
  rewrite climb_inner; [|assumption|constructor|now right|now destruct x|assumption]. rewrite app_nil_r.
  destruct x; try easy; cbn [Model.climb Model.classify mapping nth_error is_msg_node Model.descend Model.resolve kind_of rev].
  - destruct (by_name tab [] KMsg n) as [d|]; reflexivity.
  - destruct (by_name tab [] KEnum n) as [d|]; reflexivity.
  - destruct (by_name tab [] KSvc n) as [d|]; reflexivity.
Qed.
Lemma descend_app l m : forall a h d, descend a h l = Found d -> descend a h (l ++ m) = descend (last l a) d m.
Proof.
  induction l as [|x l IH]; intros a h d H; [injection H as ->; reflexivity|]. cbn [app Model.descend] in *. destruct (resolve a h x) as [e| |]; try discriminate. rewrite (IH _ _ _ H). now rewrite last_cons.
Qed.

(** ** The way to a name *)
Definition held (p : way) (es : list elem) : Prop := forall e r, In e es -> In r (rows p e) -> In r tab.
Lemma held_get p es e k n d : held p es -> In e es -> In (p, k, n, d) (rows p e) -> by_name tab p k n = Some d.
Proof. intros H He Hr. apply by_name_in; [apply table_ok|]. now apply (H e). Qed.
Lemma held_get' p q es e k n d : held p es -> In e es -> In (q, k, n, d) (rows p e) -> by_name tab q k n = Some d.
Proof. intros H He Hr. apply by_name_in; [apply table_ok|]. now apply (H e). Qed.
Lemma held_msg p es n b : held p es -> In (EMsg n b) es -> held (p ++ [(KMsg, n)]) b.
Proof. intros H He e r H1 H2. apply (H _ r He). cbn [rows]. right. apply in_flat_map. eauto. Qed.
Lemma held_group p es n b : held p es -> In (EGroup n b) es -> held (p ++ [(KMsg, n)]) b.
Proof. intros H He e r H1 H2. apply (H _ r He). cbn [rows]. do 2 right. apply in_flat_map. eauto. Qed.
Lemma oneof_rows p n b f0 : In (OField f0) b -> In (p ++ [(KOneof, n)], KField, f0, p ++ [(KField, f0)]) (rows p (EOneof n b)).
Proof. intros H. cbn [rows]. right. apply in_flat_map. exists (OField f0). split; [exact H|]. right. now left. Qed.
Lemma value_rows p n vs v : In v vs -> In (put (p ++ [(KEnum, n)]) KVal v) (rows p (EEnum n vs)).
Proof. intros H. cbn [rows]. right. apply in_map_iff. eauto. Qed.
Lemma ext_rows p x b f0 : In (OField f0) b -> In (put p KExt f0) (rows p (EExtend x b)).
Proof. intros H. cbn [rows]. apply in_flat_map. exists (OField f0). split; [exact H|]. now left. Qed.
(** the descriptor is that of the last node before the identifier *)
Definition leads (a : node) (p : way) (l : list node) (d : way) : Prop :=
  exists l' x n, l = l' ++ [x; NIdent n AsName] /\ descend a (Own p) (l' ++ [x]) = Found (Own d) /\
    match x with NField _ => kind_of d = Some KField \/ kind_of d = Some KExt | NMap _ _ => kind_of d = Some KField | NEnum _ => kind_of d = Some KEnum | NRpc _ => kind_of d = Some KMethod
               | NExtend _ | NFile | NMapType | NRpcType _ | NCompound _ | NIdent _ _ => False | NMsg _ | NGroup _ => kind_of d = Some KMsg | NOneof _ => kind_of d = Some KOneof | NVal _ => kind_of d = Some KVal | NSvc _ => kind_of d = Some KSvc end.
Lemma leads_cons a p x q l d : resolve a (Own p) x = Found (Own q) -> leads x q l d -> leads a p (x :: l) d.
Proof.
  intros H (l' & y & n & -> & Hd & Hk). exists (x :: l'), y, n. split; [reflexivity|]. split; [|exact Hk]. cbn [app Model.descend]. now rewrite H.
Qed.
Ltac last_one k := exists [], k; eexists; split; [reflexivity|]; split; [|rewrite ?kind_of_app; auto].
Lemma names_lead p es l d : names p es l d -> forall u a, held p es -> kind_of p = Some KMsg -> (forall x, a <> NExtend x) -> linked u a l -> leads a p l d.
Proof.
  induction 1; intros up a Hh Hk Ha Hl.
  - last_one (NField n). cbn [app Model.descend Model.resolve]. rewrite Hk. rewrite (held_get p es (EField n) KField n _ Hh H (or_introl eq_refl)). destruct a; try reflexivity. now destruct (Ha x).
  - last_one (NMap n v). cbn [app Model.descend Model.resolve]. rewrite Hk. now rewrite (held_get p es (EMap n v) KField n _ Hh H (or_introl eq_refl)).
  - last_one (NOneof n). cbn [app Model.descend Model.resolve]. rewrite Hk. now rewrite (held_get p es (EOneof n b) KOneof n _ Hh H (or_introl eq_refl)).
  - eapply leads_cons.
    + cbn [Model.resolve]. rewrite Hk. rewrite (held_get p es (EOneof n b) KOneof n _ Hh H (or_introl eq_refl)). reflexivity.
    + last_one (NField f0). cbn [app Model.descend Model.resolve]. rewrite kind_of_app. now rewrite (held_get' p _ es (EOneof n b) KField f0 _ Hh H (oneof_rows p n b f0 H0)).
  - destruct Hl as [_ [(n' & E) _]]. discriminate.
  - destruct Hl as [_ [(n' & E) _]]. discriminate.
  - last_one (NGroup n). cbn [app Model.descend Model.resolve]. rewrite Hk. now rewrite (held_get p es (EGroup n b) KMsg n _ Hh H (or_introl eq_refl)).
  - eapply leads_cons.
    + cbn [Model.resolve]. rewrite Hk. rewrite (held_get p es (EGroup n b) KMsg n _ Hh H (or_introl eq_refl)). reflexivity.
    + apply (IHnames a); [now apply (held_group p es)|apply kind_of_app|discriminate|apply Hl].
  - last_one (NMsg n). cbn [app Model.descend Model.resolve]. rewrite Hk. now rewrite (held_get p es (EMsg n b) KMsg n _ Hh H (or_introl eq_refl)).
  - eapply leads_cons.
    + cbn [Model.resolve]. rewrite Hk. rewrite (held_get p es (EMsg n b) KMsg n _ Hh H (or_introl eq_refl)). reflexivity.
    + apply (IHnames a); [now apply (held_msg p es)|apply kind_of_app|discriminate|apply Hl].
  - last_one (NEnum n). cbn [app Model.descend Model.resolve]. rewrite Hk. now rewrite (held_get p es (EEnum n vs) KEnum n _ Hh H (or_introl eq_refl)).
  - eapply leads_cons.
    + cbn [Model.resolve]. rewrite Hk. rewrite (held_get p es (EEnum n vs) KEnum n _ Hh H (or_introl eq_refl)). reflexivity.
    + last_one (NVal v). cbn [app Model.descend Model.resolve]. rewrite kind_of_app. now rewrite (held_get' p _ es (EEnum n vs) KVal v _ Hh H (value_rows p n vs v H0)).
  - eapply leads_cons.
    + cbn [Model.resolve]. rewrite Hk. reflexivity.
    + last_one (NField f0). cbn [app Model.descend Model.resolve]. rewrite Hk. now rewrite (held_get p es (EExtend x b) KExt f0 _ Hh H (ext_rows p x b f0 H0)).
  - destruct Hl as [_ [(n' & E) _]]. discriminate.
  - destruct Hl as [_ [(n' & E) _]]. discriminate.
Qed.

Lemma names_deep p es l d : names p es l d -> Forall deep l.
Proof. induction 1; repeat (constructor; [exact I|]); (exact IHnames || constructor). Qed.
Lemma in_top e : In e (flat_map as_elem f) -> (exists n b, e = EMsg n b) \/ (exists n vs, e = EEnum n vs) \/ exists x b, e = EExtend x b.
Proof. intros H. apply in_flat_map in H as ([n b|n vs|x b|n ms] & _ & H); cbn in H; [| | |easy]; destruct H as [<-|[]]; eauto 10. Qed.
Lemma held_top : held [] (flat_map as_elem f).
Proof.
  intros e r He Hr. apply in_flat_map in He as (t & Ht & He). apply in_flat_map. exists t. split; [exact Ht|]. destruct t as [n b|n vs|x b|n ms]; cbn in He; [| | |easy]; destruct He as [<-|[]]; exact Hr.
Qed.
Ltac no_top H := apply in_top in H as [(? & ? & H)|[(? & ? & H)|(? & ? & H)]]; discriminate.
Lemma top_leads es p l d : names p es l d -> p = [] -> es = flat_map as_elem f -> linked NFile NFile l -> leads NFile [] l d /\ exists x r, l = x :: r /\ outer x.
Proof.
  intros H -> -> Hl. pose proof held_top as Hh. inversion H; subst; try (match goal with H : In _ (flat_map as_elem f) |- _ => no_top H end).
  - split; [|do 2 eexists; split; [reflexivity|exact I]]. last_one (NMsg n). cbn [app Model.descend Model.resolve kind_of rev]. now rewrite (held_get [] _ (EMsg n b) KMsg n _ Hh H0 (or_introl eq_refl)).
  - split; [|do 2 eexists; split; [reflexivity|exact I]]. eapply leads_cons.
    + cbn [Model.resolve kind_of rev]. rewrite (held_get [] _ (EMsg n b) KMsg n _ Hh H0 (or_introl eq_refl)). reflexivity.
    + apply (names_lead _ b _ _ H1 NFile); [now apply (held_msg [] (flat_map as_elem f))|reflexivity|discriminate|apply Hl].
  - split; [|do 2 eexists; split; [reflexivity|exact I]]. last_one (NEnum n). cbn [app Model.descend Model.resolve kind_of rev]. now rewrite (held_get [] _ (EEnum n vs) KEnum n _ Hh H0 (or_introl eq_refl)).
  - split; [|do 2 eexists; split; [reflexivity|exact I]]. eapply leads_cons.
    + cbn [Model.resolve kind_of rev]. rewrite (held_get [] _ (EEnum n vs) KEnum n _ Hh H0 (or_introl eq_refl)). reflexivity.
    + last_one (NVal v). cbn [app Model.descend Model.resolve kind_of rev]. now rewrite (held_get' [] [(KEnum, n)] _ (EEnum n vs) KVal v _ Hh H0 (value_rows [] n vs v H1)).
  - split; [|do 2 eexists; split; [reflexivity|exact I]]. eapply leads_cons.
    + cbn [Model.resolve kind_of rev]. reflexivity.
    + last_one (NField f0). cbn [app Model.descend Model.resolve kind_of rev]. now rewrite (held_get [] _ (EExtend x b) KExt f0 _ Hh H0 (ext_rows [] x b f0 H1)).
  - destruct Hl as [_ [(n' & E) _]]. discriminate.
  - destruct Hl as [_ [(n' & E) _]]. discriminate.
Qed.
Lemma in_leads c d : names_in f c d -> plain f NFile (tl c) -> exists x r, c = NFile :: x :: r /\ outer x /\ Forall deep r /\ linked NFile x r /\ leads NFile [] (x :: r) d.
Proof.
  intros [l d0 H|n ms H|n ms m H Hm] Hp.
  - cbn [tl] in Hp. apply plain_linked in Hp. destruct (top_leads _ _ _ _ H eq_refl eq_refl Hp) as (Hd & x & r & -> & Hx). exists x, r. split; [reflexivity|]. split; [exact Hx|]. split; [|split; [apply Hp|exact Hd]].
    apply names_deep in H. now inversion H.
  - eexists. eexists. split; [reflexivity|]. split; [exact I|]. split; [repeat constructor|]. split; [repeat constructor|]. last_one (NSvc n). cbn [app Model.descend Model.resolve kind_of rev].
    rewrite (by_name_in tab [] KSvc n [(KSvc, n)] (table_ok f)); [reflexivity|]. apply in_flat_map. exists (TSvc n ms). split; [exact H|]. now left.
  - eexists. eexists. split; [reflexivity|]. split; [exact I|]. split; [repeat constructor|]. split; [repeat constructor|]. eapply leads_cons.
    + cbn [Model.resolve kind_of rev]. rewrite (by_name_in tab [] KSvc n [(KSvc, n)] (table_ok f)); [reflexivity|]. apply in_flat_map. exists (TSvc n ms). split; [exact H|]. now left.
    + last_one (NRpc m). cbn [app Model.descend Model.resolve kind_of rev]. rewrite (by_name_in tab [(KSvc, n)] KMethod m [(KSvc, n); (KMethod, m)] (table_ok f)); [reflexivity|].
      apply in_flat_map. exists (TSvc n ms). split; [exact H|]. right. apply in_map_iff. exists m. split; [reflexivity|exact Hm].
Qed.
Lemma last_two {A} (l : list A) x y a : last (l ++ [x; y]) a = y.
Proof. change [x; y] with ([x] ++ [y]). rewrite app_assoc. apply last_last. Qed.
Lemma name_found c d : names_in f c d -> plain f NFile (tl c) -> search c = Found (Own d).
Proof.
  intros H Hp. destruct (in_leads c d H Hp) as (x & r & -> & Hx & Hd & Hl & l' & y & n & E & Hf & Hk). rewrite search_down by assumption. rewrite E.
  change [y; NIdent n AsName] with ([y] ++ [NIdent n AsName]). rewrite app_assoc. rewrite (descend_app _ _ _ _ _ Hf). rewrite last_last. cbn [Model.descend Model.resolve].
  destruct y; try easy; try (rewrite Hk; reflexivity). destruct Hk as [Hk|Hk]; rewrite Hk; reflexivity.
Qed.
Lemma deep_app l m : Forall deep (l ++ m) -> Forall deep l.
Proof. intros H. now apply Forall_app in H. Qed.
Lemma swap_last l y a z : l <> [] -> NFile :: l = a ++ [y; z] -> exists b, a = NFile :: b /\ l = b ++ [y; z] \/ a = [] /\ NFile = y.
Proof. intros Hn E. destruct a as [|x a]; cbn [app] in E; [injection E as E _; exists []; right; easy|]. injection E as <- E. exists a. left. easy. Qed.
(** another node in place of the name *)
Lemma other_found c d l y n w : names_in f c d -> plain f NFile (tl c) -> c = l ++ [y; NIdent n AsName] -> deep w -> (forall u, at_ok f u y w) ->
  search (l ++ [y; w]) = (match resolve y (Own d) w with Found e => Found e | Nothing => Nothing | Failed => Failed end).
Proof.
  intros H Hp E Hw Hok. destruct (in_leads c d H Hp) as (x & r & E0 & Hx & Hd & Hl & l' & y' & n' & E1 & Hf & Hk). subst c.
  assert (El : l = NFile :: l' /\ y' = y).
  { rewrite E1 in E0. change (NFile :: l' ++ [y'; NIdent n' AsName]) with ((NFile :: l') ++ [y'; NIdent n' AsName]) in E0.
    change [y; NIdent n AsName] with ([y] ++ [NIdent n AsName]) in E0. change [y'; NIdent n' AsName] with ([y'] ++ [NIdent n' AsName]) in E0. rewrite !app_assoc in E0.
    apply app_inj_tail in E0 as [E0 _]. now apply app_inj_tail in E0 as [-> ->]. }
  destruct El as [-> ->]. cbn [app].
  assert (Hr : exists r', l' ++ [y; w] = x :: r' /\ Forall deep r' /\ linked NFile x r').
  { destruct l' as [|x' l'']; cbn [app] in *.
    - injection E1 as -> ->. exists [w]. split; [reflexivity|]. split; [constructor; [exact Hw|constructor]|]. split; [apply Hok|exact I].
    - injection E1 as -> ->. exists (l'' ++ [y; w]). split; [reflexivity|]. split.
      + apply Forall_app in Hd as [H1 H2]. apply Forall_app. split; [exact H1|]. inversion H2; subst. constructor; [assumption|]. constructor; [exact Hw|constructor].
      + change [y; NIdent n' AsName] with ([y] ++ [NIdent n' AsName]) in Hl. rewrite app_assoc in Hl. apply linked_app in Hl as [Hl _]. change [y; w] with ([y] ++ [w]). rewrite app_assoc.
        clear -Hl Hok. generalize dependent NFile. revert x'. induction l'' as [|z l'' IH]; intros a u Hl; cbn [app linked] in *; [split; [apply Hl|]; split; [apply Hok|exact I]|]. split; [apply Hl|]. apply IH, Hl. }
  destruct Hr as (r' & Er & Hd' & Hl'). rewrite Er. rewrite search_down by assumption. rewrite <- Er. change [y; w] with ([y] ++ [w]). rewrite app_assoc. rewrite (descend_app _ _ _ _ _ Hf). rewrite last_last. cbn [Model.descend].
  now destruct (resolve y (Own d) w).
Qed.
Lemma lead_kind c d l y n : names_in f c d -> plain f NFile (tl c) -> c = l ++ [y; NIdent n AsName] ->
  match y with NField _ => kind_of d = Some KField \/ kind_of d = Some KExt | NMap _ _ => kind_of d = Some KField | NRpc _ => kind_of d = Some KMethod | _ => True end.
Proof.
  intros H Hp E. destruct (in_leads c d H Hp) as (x & r & E0 & Hx & Hd & Hl & l' & y' & n' & E1 & Hf & Hk). subst c. rewrite E1 in E0.
  change (NFile :: l' ++ [y'; NIdent n' AsName]) with ((NFile :: l') ++ [y'; NIdent n' AsName]) in E0.
  change [y; NIdent n AsName] with ([y] ++ [NIdent n AsName]) in E0. change [y'; NIdent n' AsName] with ([y'] ++ [NIdent n' AsName]) in E0. rewrite !app_assoc in E0.
  apply app_inj_tail in E0 as [E0 _]. apply app_inj_tail in E0 as [-> ->]. now destruct y'.
Qed.
Lemma type_found c c' d : names_in f c d -> plain f NFile (tl c) -> type_path c c' ->
  search c' = match types d with TgMsg t => Found t | TgEnum t => match last c' NFile with NMapType => Failed | _ => Found t end | TgNone => Failed end.
Proof.
  intros H Hp Ht. inversion Ht; subst.
  - rewrite (other_found _ d l (NField n) n (NIdent t AsType) H Hp eq_refl I (fun _ => I)). rewrite last_two. pose proof (lead_kind _ d l (NField n) n H Hp eq_refl) as K. cbn in K. destruct K as [K|K]; cbn [Model.resolve]; rewrite K; cbn [is_ident]; now destruct (types d).
  - rewrite (other_found _ d l (NField n) n (NCompound t) H Hp eq_refl I (fun _ => I)). rewrite last_two. pose proof (lead_kind _ d l (NField n) n H Hp eq_refl) as K. cbn in K. destruct K as [K|K]; cbn [Model.resolve]; rewrite K; cbn [is_ident]; now destruct (types d).
  - rewrite (other_found _ d l (NMap n v) n NMapType H Hp eq_refl I (fun _ => I)). rewrite last_two. pose proof (lead_kind _ d l (NMap n v) n H Hp eq_refl) as K. cbn in K. cbn [Model.resolve]. rewrite K. now destruct (types d).
Qed.
Lemma rpc_found c c' d i : names_in f c d -> plain f NFile (tl c) -> rpc_path i c c' -> search c' = Found (io d i).
Proof.
  intros H Hp Ht. inversion Ht; subst. rewrite (other_found _ d l (NRpc m) m (NRpcType i) H Hp eq_refl I (fun _ => I)). pose proof (lead_kind _ d l (NRpc m) m H Hp eq_refl) as K. cbn in K. cbn [Model.resolve]. now rewrite K.
Qed.
Lemma key_nothing l n v k : search (NFile :: l ++ [NMap n v; NMapType; NIdent k AsKey]) = Nothing.
Proof.
  unfold Model.search. destruct l as [|x l]; cbn [app]; [reflexivity|].
  assert (E : rev (NFile :: x :: l ++ [NMap n v; NMapType; NIdent k AsKey]) = NIdent k AsKey :: NMapType :: NMap n v :: rev l ++ [x; NFile]).
  { cbn [rev]. rewrite rev_app_distr. cbn [rev app]. now rewrite <- !app_assoc. }
  rewrite E. cbn [Model.climb Model.classify mapping]. destruct (rev l ++ [x; NFile]) eqn:E2; [destruct (rev l); discriminate|]. reflexivity.
Qed.
Lemma extendee_found x b : In (TExtend x b) f -> search [NFile; NExtend x; NIdent x AsType] = opt (extendee (undot x)) /\ search [NFile; NExtend x; NCompound x] = opt (extendee (undot x)).
Proof.
  intros _. split; (rewrite search_down; [|exact I|repeat constructor|repeat constructor]); cbn [Model.descend Model.resolve kind_of rev]; rewrite ?beq_refl; now destruct (extendee (undot x)).
Qed.
End Search.
