From Coq Require Import ZArith Lia.
From Verif Require Import Base Strs.
From Verif.Documents Require Import Model.
From Verif.Sync Require Import Model Spec.
Open Scope list_scope.

(** delivery of a modification, by cases *)
Lemma deliver_eq dsk after h a v pr t od : (a = ADelete -> after = false) -> (a = AOpen -> after = h_path h) ->
  deliver dsk after h (mkN (mkMod 0 a v pr) t od) =
  match a with
  | AOpen => if pr then (if after then match update_overlay (mkN (mkMod 0 a v pr) t od) (h_overlay h) with
                                        | Some ov => Some (mkH after ov (read ov dsk)) | None => None end
                         else Some (mkH after (h_overlay h) (h_compiled h)))
             else match update_overlay (mkN (mkMod 0 a v pr) t od) (h_overlay h) with Some ov => Some (mkH after ov (h_compiled h)) | None => None end
  | ADelete => Some (mkH false (h_overlay h) (if h_path h then None else h_compiled h))
  | AChange | ACreate | ASave => if after then match update_overlay (mkN (mkMod 0 a v pr) t od) (h_overlay h) with
                                         | Some ov => Some (mkH after ov (read ov dsk)) | None => None end
                       else Some (mkH after (h_overlay h) (h_compiled h))
  | AClose | AUnknown => if after then match update_overlay (mkN (mkMod 0 a v pr) t od) (h_overlay h) with
                                         | Some ov => Some (mkH after ov (h_compiled h)) | None => None end
                       else Some (mkH after (h_overlay h) (h_compiled h))
  end.
Proof.
  intros D O. unfold deliver, did_modify. cbn [scan recompile_deleted flat_map n_mod m_action m_uri m_proto m_version action_eqb app].
  destruct a; cbn [skipped action_eqb m_action m_proto andb negb scan recompiles flat_map app]; try (destruct after; reflexivity).
  - destruct pr; cbn; destruct after; reflexivity.
  - rewrite D by reflexivity. destruct (h_path h); reflexivity.
Qed.

Lemma along_and P es : forall s, along P s es -> match es with [] => True | e :: r => P s e /\ forall s', step s e = Some s' -> along P s' r end.
Proof. destruct es as [|e r]; intros s A; [exact I|]. simpl in A. destruct A as [A B]. split; [exact A|]. intros s' E. now rewrite E in B. Qed.

Section Invariant.
Variables (P : state -> event -> Prop) (J : state -> Prop).
Hypothesis J_step : forall s e, J s -> P s e -> exists s', step s e = Some s' /\ J s'.
Lemma run_inv es : forall s, J s -> along P s es -> exists s', run s es = Some s' /\ J s'.
Proof.
  induction es as [|e r IH]; intros s H A; [exists s; now split|]. apply along_and in A as [A B]. destruct (J_step s e H A) as (s' & E & H').
  simpl. rewrite E. apply IH; auto.
Qed.
End Invariant.

(** ** A document that is open has an overlay in its workspace *)
Definition covered (s : state) : Prop := editor s <> None -> exists h, held s h /\ h_overlay h <> None.

Lemma held_set s c h : route s = Some c -> held (set_ws s c h) h.
Proof. intros R. exists c. split; [exact R|]. unfold set_ws. simpl. now rewrite Nat.eqb_refl. Qed.

Lemma path_delete x ok gone b : path_after ADelete x ok gone b = false.
Proof. reflexivity. Qed.

(** what serving comes to *)
Lemma serve_cases s a v pr od ok gone tf : (a = ADelete -> True) ->
  serve s a v pr od ok gone tf = Some s \/ exists c h t, route s = Some c /\ ws s c = Some h /\ tf h = Some t /\
    serve s a v pr od ok gone tf =
    match deliver (disk s) (path_after a (is_some (disk s)) ok gone (h_path h)) h (mkN (mkMod 0 a v pr) t od) with
    | Some h' => Some (set_ws s c h') | None => None end.
Proof.
  intros _. unfold serve. destruct (route s) as [c|] eqn:R; [|now left]. destruct (ws s c) as [h|] eqn:W; [|now left].
  destruct (tf h) as [t|] eqn:T; [|now left]. right. exists c, h, t. repeat split; auto.
Qed.

(** an overlay stays as long as the document is not closed *)
Lemma deliver_keeps dsk after h a v pr t od : (a = ADelete -> after = false) -> (a = AOpen -> after = h_path h) -> h_overlay h <> None -> a <> AClose ->
  exists h', deliver dsk after h (mkN (mkMod 0 a v pr) t od) = Some h' /\ h_overlay h' <> None.
Proof.
  intros D O H N. rewrite deliver_eq by assumption. unfold update_overlay. cbn [n_mod n_text n_disk m_action]. destruct (h_overlay h) as [x|]; [|congruence].
  destruct a; try congruence; try (destruct after; eexists; split; try reflexivity; simpl; discriminate).
  - destruct pr; [destruct after|]; eexists; (split; [reflexivity|]); simpl; discriminate.
Qed.

Lemma path_open x ok gone b : path_after AOpen x ok gone b = b.
Proof. reflexivity. Qed.

Lemma covered_serve s a v pr od ok gone tf : a <> AClose -> a <> AOpen -> covered s -> (editor s <> None \/ od = true) ->
  exists s', serve s a v pr od ok gone tf = Some s' /\ editor s' = editor s /\ covered s'.
Proof.
  intros NC NO C E. destruct (serve_cases s a v pr od ok gone tf (fun _ => I)) as [Q | (c & h & t & R & W & T & Q)]; [exists s; auto|].
  rewrite Q. set (after := path_after _ _ _ _ _). assert (D : a = ADelete -> after = false) by (intros ->; reflexivity).
  assert (O : a = AOpen -> after = h_path h) by congruence. clearbody after.
  destruct (h_overlay h) as [x|] eqn:V.
  - destruct (deliver_keeps (disk s) after h a v pr t od D O) as (h' & K & L); [congruence|exact NC|]. rewrite K. eexists. split; [reflexivity|]. split; [reflexivity|].
    intros _. exists h'. split; [now apply held_set|exact L].
  - destruct (editor s) as [e|] eqn:ED.
    + exfalso. destruct C as (h0 & (c0 & R0 & W0) & V0); [congruence|]. rewrite R in R0. injection R0 as <-. rewrite W in W0. injection W0 as <-. congruence.
    + destruct E as [E | ->]; [congruence|]. rewrite deliver_eq by assumption. unfold update_overlay. rewrite V. cbn [n_mod n_text n_disk m_action].
      assert (F : forall s', editor s' = None -> covered s') by (intros s' H1 H2; congruence).
      destruct a; try congruence; try destruct after; (eexists; split; [reflexivity|split; [exact ED|apply F; exact ED]]).
Qed.

Lemma covered_step s e : covered s -> legal s e /\ settled s e -> exists s', step s e = Some s' /\ covered s'.
Proof.
  intros C [L S]. destruct e as [t proto|ch gone|gone| |t|a ok gone|cc ok]; simpl in L, S.
  - destruct S as (h & (c & R & W) & P). unfold step, serve. cbn [route ws disk]. rewrite R, W. cbn [path_after is_some].
    rewrite deliver_eq by (congruence || auto). unfold update_overlay. cbn [n_mod n_text n_disk m_action].
    assert (K : forall h', h_overlay h' <> None -> covered (set_ws (mkS (Some t) (disk s) (Some c) (ws s)) c h')).
    { intros h' X _. exists h'. split; [now apply held_set|exact X]. }
    destruct proto; [rewrite P by reflexivity|]; destruct (h_overlay h); eexists; (split; [reflexivity|]); apply K; simpl; discriminate.
  - destruct L as (t & t' & E & F). simpl. rewrite E, F. 
    destruct (covered_serve (mkS (Some t') (disk s) (route s) (ws s)) AChange 2 false false false gone
      (fun h => match changed_text ch (read (h_overlay h) (disk s)) with Some t0 => Some (Some t0) | None => None end)) as (s' & Q & _ & V); try discriminate.
    + intros _. destruct C as (h & (c & R & W) & V); [congruence|]. exists h. split; [exists c; split; assumption|exact V].
    + left. discriminate.
    + rewrite Q. exists s'. split; [reflexivity|exact V].
  - simpl. destruct (covered_serve (mkS (editor s) (editor s) (route s) (ws s)) ASave 0 false false false gone (fun _ => Some None)) as (s' & Q & _ & V); try discriminate.
    + intros H. destruct (C H) as (h & (c & R & W) & V). exists h. split; [exists c; split; assumption|exact V].
    + now left.
    + rewrite Q. exists s'. split; [reflexivity|exact V].
  - destruct (C L) as (h & (c & R & W) & V). unfold step, serve. cbn [route ws disk]. rewrite R, W. cbn [path_after is_some].
    rewrite deliver_eq by congruence. unfold update_overlay. cbn [n_mod n_text n_disk m_action]. destruct (h_overlay h) as [x|]; [|congruence].
    destruct (h_path h); eexists; (split; [reflexivity|]); intros H; exfalso; now apply H.
  - eexists. split; [reflexivity|]. intros H. destruct (C H) as (h & (c & R & W) & V). exists h. split; [exists c; split; assumption|exact V].
  - simpl. destruct (covered_serve s a (-1) false true ok gone (fun _ => Some None)) as (s' & Q & _ & V).
    + destruct L as [-> | [-> | ->]]; discriminate.
    + destruct L as [-> | [-> | ->]]; discriminate.
    + exact C.
    + now right.
    + rewrite Q. exists s'. split; [reflexivity|exact V].
  - destruct S as [S | (-> & h & c & R & W)].
    + unfold step. destruct cc as [i|]; [destruct (ws s i)|]; eexists; (split; [reflexivity|]); intros H; exfalso; now apply H.
    + unfold step. rewrite R, W. eexists. split; [reflexivity|]. intros H. destruct (C H) as (h' & (c' & R' & W') & V). exists h'. split; [|exact V].
      exists c'. split; [cbn; congruence|exact W'].
Qed.

(** ** Its text is that of the editor *)
Definition agrees (s : state) : Prop :=
  (forall t, editor s = Some t -> exists h, held s h /\ h = mkH true (Some t) (Some t)) /\
  (forall c h, ws s c = Some h -> h_overlay h <> None -> editor s <> None /\ route s = Some c).

Lemma closed_agrees s : editor s = None -> (forall c h, ws s c = Some h -> h_overlay h = None) -> agrees s.
Proof. intros E H. split; [intros t; congruence|]. intros c h W V. now apply H in W. Qed.
Lemma agrees_closed s : agrees s -> editor s = None -> forall c h, ws s c = Some h -> h_overlay h = None.
Proof. intros [_ A] E c h W. destruct (h_overlay h) eqn:V; [|reflexivity]. destruct (A c h W) as [X _]; congruence. Qed.

Lemma set_closed s c h' : editor s = None -> (forall x h, ws s x = Some h -> x <> c -> h_overlay h = None) -> h_overlay h' = None -> agrees (set_ws s c h').
Proof.
  intros E H V. apply closed_agrees; [exact E|]. intros x h. unfold set_ws. simpl. destruct (Nat.eqb_spec x c) as [->|N].
  - intros [= <-]. exact V.
  - intros W. now apply (H x).
Qed.
Lemma set_open s c t : editor s = Some t -> route s = Some c -> (forall x h, ws s x = Some h -> h_overlay h <> None -> x = c) -> agrees (set_ws s c (mkH true (Some t) (Some t))).
Proof.
  intros E R H. split.
  - intros t0 E0. simpl in E0. rewrite E in E0. injection E0 as <-. eexists. split; [now apply held_set|reflexivity].
  - intros x h. unfold set_ws. simpl. destruct (Nat.eqb_spec x c) as [->|N]; [intros _ _; split; [congruence|exact R]|].
    intros W V. now apply (H x) in W.
Qed.

Lemma agrees_step s e : agrees s -> legal s e /\ tidy s e -> exists s', step s e = Some s' /\ agrees s'.
Proof.
  intros A [L [S T]]. destruct e as [t proto|ch gone|gone| |t|a ok gone|cc ok]; simpl in L, S, T.
  - destruct S as (h & (c & R & W) & P). subst proto. specialize (P eq_refl). unfold step, serve. cbn [route ws disk]. rewrite R, W. cbn [path_after is_some].
    rewrite deliver_eq by (congruence || auto). unfold update_overlay. cbn [n_mod n_text n_disk m_action]. rewrite P, (agrees_closed s A L c h W).
    eexists. split; [reflexivity|]. cbn [read]. apply set_open; [reflexivity|reflexivity|].
    cbn [ws]. intros x hx WX V. now rewrite (agrees_closed s A L x hx WX) in V.
  - destruct L as (t & t' & E & F). subst gone. destruct (proj1 A t E) as (h & (c & R & W) & ->).
    unfold step, serve. cbn [route ws disk]. rewrite R, W, E, F. cbn [h_overlay read h_path path_after andb negb].
    assert (X : changed_text ch (Some t) = Some t') by (destruct ch; exact F). rewrite X. rewrite deliver_eq by congruence.
    cbn [update_overlay h_overlay n_mod n_text m_action read]. eexists. split; [reflexivity|]. apply set_open; [reflexivity|reflexivity|].
    cbn [ws]. intros x hx WX V. destruct (proj2 A x hx WX V) as [_ Q]. congruence.
  - subst gone. destruct (editor s) as [t|] eqn:E; [|congruence]. destruct (proj1 A t E) as (h & (c & R & W) & ->).
    unfold step, serve. cbn [route ws disk]. rewrite R, W. cbn [h_overlay read h_path path_after andb negb].
    rewrite deliver_eq by congruence. cbn [update_overlay h_overlay n_mod n_text m_action read]. eexists. split; [reflexivity|].
    apply set_open; [exact E|reflexivity|]. cbn [ws]. intros x hx WX V. destruct (proj2 A x hx WX V) as [_ Q]. congruence.
  - destruct (editor s) as [t|] eqn:E; [|congruence]. destruct (proj1 A t E) as (h & (c & R & W) & ->).
    unfold step, serve. cbn [route ws disk]. rewrite R, W. cbn [h_overlay read h_path path_after andb negb].
    rewrite deliver_eq by congruence. cbn [update_overlay h_overlay n_mod n_text m_action read]. eexists. split; [reflexivity|].
    apply set_closed; [reflexivity| |reflexivity]. cbn [ws]. intros x hx WX N. destruct (h_overlay hx) eqn:V; [|reflexivity].
    destruct (proj2 A x hx WX) as [_ Q]; congruence.
  - eexists. split; [reflexivity|]. destruct A as [A1 A2]. split; [intros u U; destruct (A1 u U) as (h & (c & R & W) & ->); eexists; split; [exists c; split; eassumption|reflexivity]|exact A2].
  - unfold step. destruct (serve_cases s a (-1) false true ok gone (fun _ => Some None) (fun _ => I)) as [Q | (c & h & t & R & W & TT & Q)]; rewrite Q; [exists s; auto|].
    injection TT as <-. set (after := path_after _ _ _ _ _). assert (D : a = ADelete -> after = false) by (intros ->; reflexivity).
    assert (O : a = AOpen -> after = h_path h) by (intros ->; destruct L as [L|[L|L]]; discriminate). rewrite deliver_eq by assumption.
    destruct (editor s) as [t|] eqn:E.
    + destruct T as [T | [T ->]]; [congruence|]. destruct (proj1 A t E) as (h0 & (c0 & R0 & W0) & ->). rewrite R in R0. injection R0 as <-. rewrite W in W0. injection W0 as ->.
      assert (Z : after = true) by (unfold after; destruct L as [-> | [-> | ->]]; [reflexivity|cbn; now destruct (_ && _)%bool|congruence]). rewrite Z.
      destruct L as [-> | [-> | ->]]; [| |congruence]; cbn [update_overlay h_overlay n_mod n_text m_action read]; (eexists; split; [reflexivity|]);
        (apply set_open; [exact E|exact R|]; intros x hx WX V; destruct (proj2 A x hx WX V) as [_ Y]; congruence).
    + clearbody after. assert (V := agrees_closed s A E c h W). unfold update_overlay. cbn [n_mod n_text n_disk m_action]. rewrite V.
      assert (K : forall h', h_overlay h' = None -> agrees (set_ws s c h')).
      { intros h' H'. apply set_closed; [exact E| |exact H']. intros x hx WX _. now apply (agrees_closed s A E x). }
      destruct L as [-> | [-> | ->]]; [destruct after|destruct after|]; eexists; (split; [reflexivity|]); apply K; try exact V; reflexivity.
  - destruct S as [S | (-> & h & c & R & W)].
    + unfold step. assert (K := agrees_closed s A S). destruct cc as [i|]; [destruct (ws s i) eqn:W|]; (eexists; split; [reflexivity|]).
      * apply closed_agrees; [exact S|exact K].
      * apply set_closed; [exact S| |reflexivity]. intros x hx WX _. now apply (K x).
      * apply closed_agrees; [exact S|exact K].
    + unfold step. rewrite R, W. eexists. split; [reflexivity|]. destruct A as [A1 A2]. split.
      * intros u U. destruct (A1 u U) as (h' & (c' & R' & W') & ->). eexists. split; [exists c'; split; [cbn; congruence|exact W']|reflexivity].
      * intros x hx WX V. destruct (A2 x hx WX V). split; [assumption|cbn; congruence].
Qed.
