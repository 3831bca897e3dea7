(* Lemmas for C111: what every writer of the formatter does to the indentation. *)
From Coq Require Import Ascii String Permutation.
From Verif Require Import Base Strs.
From Verif.Format Require Import Model Spec Proofs.
From Verif.FormatTree Require Import Model Spec Lexing Proofs BalanceSpec.
Import ListNotations.
Open Scope list_scope.
Notation int := BinNums.Z.

(* The writer m, started under pre with indentation i and pending change p, ends under post without
   error. *)
Definition T (ic : bool) (pre : nat -> int -> Prop) (post : nat -> int -> nat -> int -> Prop) (m : M) : Prop :=
  forall f, incompact f = ic -> pre (indent f) (pindent f) ->
  incompact (m f) = ic /\ err (m f) = err f /\ post (indent f) (pindent f) (indent (m f)) (pindent (m f)).
(* the indentation after a settled line *)
Definition step (i : nat) (p : int) : nat := if (0 <? p)%Z then S i else if (p <? 0)%Z then Nat.pred i else i.
Definition able (i : nat) (p : int) : Prop := (p < 0)%Z -> 0 < i.
Definition flat ic (d : int) := T ic (fun _ _ => True) (fun i p i' p' => i' = i /\ (p' = p + d)%Z).
Definition sets ic := T ic able (fun i p i' p' => i' = step i p /\ (p' = 0)%Z).
Definition mays ic := T ic able (fun i p i' p' => i' = i /\ p' = p \/ i' = step i p /\ (p' = 0)%Z).
Definition lev ic (k : nat) := T ic (fun _ p => (- Z.of_nat k <= p)%Z)
  (fun i p i' p' => i' = i /\ p' = p \/ i' = step i (p + Z.of_nat k) /\ (p' = - Z.of_nat k)%Z).
Definition lev0 ic (k : nat) := T ic (fun _ p => p = 0%Z)
  (fun i p i' p' => i' = i /\ p' = p \/ i' = step i (p + Z.of_nat k) /\ (p' = - Z.of_nat k)%Z).
Definition whole ic := T ic (fun _ p => p = 0%Z) (fun i _ i' p' => i' = i /\ p' = 0%Z).

Lemma T_seq ic pre1 post1 pre2 post2 (pre : nat -> int -> Prop) (post : nat -> int -> nat -> int -> Prop) a b :
  T ic pre1 post1 a -> T ic pre2 post2 b -> (forall i p, pre i p -> pre1 i p) ->
  (forall i p i' p', pre i p -> post1 i p i' p' -> pre2 i' p') ->
  (forall i p i1 p1 i2 p2, pre i p -> post1 i p i1 p1 -> post2 i1 p1 i2 p2 -> post i p i2 p2) -> T ic pre post (a ;; b).
Proof.
  intros A B H1 H2 H3 f Ei P. destruct (A f Ei (H1 _ _ P)) as (E1 & E2 & E3). destruct (B (a f) E1 (H2 _ _ _ _ P E3)) as (F1 & F2 & F3).
  unfold seq. split; [exact F1|]. split; [congruence|]. eapply H3; eassumption.
Qed.
Lemma T_sub ic pre1 post1 (pre : nat -> int -> Prop) (post : nat -> int -> nat -> int -> Prop) m : T ic pre1 post1 m -> (forall i p, pre i p -> pre1 i p) ->
  (forall i p i' p', pre i p -> post1 i p i' p' -> post i p i' p') -> T ic pre post m.
Proof. intros A H1 H2 f Ei P. destruct (A f Ei (H1 _ _ P)) as (E1 & E2 & E3). auto. Qed.
Lemma T_fun ic pre post (m : fmt -> M) : (forall g, T ic pre post (m g)) -> T ic pre post (fun f => m f f).
Proof. intros A f. apply A. Qed.
Ltac stp := unfold step, able in *; repeat match goal with
  | |- context [(?a <? ?b)%Z] => destruct (Z.ltb_spec a b)
  | X : context [(?a <? ?b)%Z] |- _ => destruct (Z.ltb_spec a b)
  end.
Ltac bal := let go := (cbv beta in *; repeat match goal with
    | X : _ /\ _ |- _ => destruct X | X : _ \/ _ |- _ => destruct X end; subst; stp; lia) in
  intros; go.
Ltac tseq A B := eapply T_seq; [eapply A|eapply B|bal|bal|bal].
Ltac tsub A := eapply T_sub; [eapply A|bal|bal].

Lemma flat_lev ic k m : flat ic 0 m -> lev ic k m. Proof. intro A. tsub A. Qed.
Lemma flat_mays ic m : flat ic 0 m -> mays ic m. Proof. intro A. tsub A. Qed.
Lemma flat_whole ic m : flat ic 0 m -> whole ic m. Proof. intro A. tsub A. Qed.
Lemma sets_mays ic m : sets ic m -> mays ic m. Proof. intro A. tsub A. Qed.
Lemma mays_lev ic m : mays ic m -> lev ic 0 m. Proof. intro A. tsub A. Qed.
Lemma mays_whole ic m : mays ic m -> whole ic m. Proof. intro A. tsub A. Qed.
Lemma sets_whole ic m : sets ic m -> whole ic m. Proof. intro A. tsub A. Qed.
Lemma lev_lev0 ic k m : lev ic k m -> lev0 ic k m. Proof. intro A. tsub A. Qed.
Lemma whole_lev0 ic k m : whole ic m -> lev0 ic k m. Proof. intro A. tsub A. Qed.
Lemma flat_seq ic x y z a b : flat ic x a -> flat ic y b -> (z = x + y)%Z -> flat ic z (a ;; b). Proof. intros A B E. tseq A B. Qed.
Lemma flat_l ic x a b : flat ic x a -> flat ic 0 b -> flat ic x (a ;; b). Proof. intros A B. tseq A B. Qed.
Lemma flat_r ic x a b : flat ic 0 a -> flat ic x b -> flat ic x (a ;; b). Proof. intros A B. tseq A B. Qed.
Lemma flat_seq0 ic a b : flat ic 0 a -> flat ic 0 b -> flat ic 0 (a ;; b). Proof. intros A B. tseq A B. Qed.
Lemma mays_seq ic a b : mays ic a -> mays ic b -> mays ic (a ;; b). Proof. intros A B. tseq A B. Qed.
Lemma mays_sets ic a b : mays ic a -> sets ic b -> sets ic (a ;; b). Proof. intros A B. tseq A B. Qed.
Lemma sets_mays_seq ic a b : sets ic a -> mays ic b -> sets ic (a ;; b). Proof. intros A B. tseq A B. Qed.
Lemma whole_seq ic a b : whole ic a -> whole ic b -> whole ic (a ;; b). Proof. intros A B. tseq A B. Qed.
Lemma lev_seq ic k a b : lev ic k a -> lev ic k b -> lev ic k (a ;; b). Proof. intros A B. tseq A B. Qed.
Lemma lev_sets ic k a b : lev0 ic k a -> sets ic b -> whole ic (a ;; b). Proof. intros A B. tseq A B. Qed.
Lemma whole_lev ic k a b : whole ic a -> lev0 ic k b -> lev0 ic k (a ;; b). Proof. intros A B. tseq A B. Qed.
Lemma lev0_seq ic k a b : lev0 ic k a -> lev ic k b -> lev0 ic k (a ;; b). Proof. intros A B. tseq A B. Qed.

(* ---- writers that do not look at tokens ---- *)
Lemma flat_state ic m : (forall f, indent (m f) = indent f /\ pindent (m f) = pindent f /\ incompact (m f) = incompact f /\ err (m f) = err f) -> flat ic 0 m.
Proof. intros A f Ei _. destruct (A f) as (-> & -> & -> & ->). rewrite Z.add_0_r. auto. Qed.
Lemma flat_skip ic : flat ic 0 skip. Proof. apply flat_state. auto. Qed.
Lemma flat_space ic : flat ic 0 space. Proof. apply flat_state. auto. Qed.
Lemma flat_inl ic b : flat ic 0 (set_inl b). Proof. apply flat_state. auto. Qed.
Lemma flat_prev ic b : flat ic 0 (set_prev b). Proof. apply flat_state. auto. Qed.
Lemma flat_crash ic : flat ic 0 set_crash. Proof. apply flat_state. auto. Qed.
Lemma flat_out ic o : flat ic 0 (set_out o). Proof. apply flat_state. auto. Qed.
Lemma flat_write ic s : flat ic 0 (write_string s). Proof. apply flat_state. auto. Qed.
Lemma flat_when ic b m : flat ic 0 m -> flat ic 0 (when b m). Proof. intro A. destruct b; [exact A|apply flat_skip]. Qed.
Lemma flat_indent ic b : flat ic 0 (write_indent b). Proof. apply flat_state. intro f. unfold write_indent. destruct (Ascii.eqb _ _); auto. Qed.
Lemma mays_when ic b m : mays ic m -> mays ic (when b m). Proof. intro A. destruct b; [exact A|apply flat_mays, flat_skip]. Qed.
Lemma sets_settle ic : sets ic settle.
Proof.
  intros f Ei P. unfold settle, step, able in *. destruct (Z.ltb_spec 0 (pindent f)); [cbn; auto|]. destruct (Z.ltb_spec (pindent f) 0); [|cbn; auto].
  unfold shift_out. destruct (indent f) eqn:E; [lia|]. cbn. auto.
Qed.
Lemma sets_p_line ic s : sets ic (p_line s).
Proof.
  unfold p_line. apply mays_sets; [apply flat_mays, flat_when, flat_seq0; [apply flat_indent|apply flat_write]|]. apply mays_sets; [apply flat_mays, flat_write|apply sets_settle].
Qed.
Lemma sets_p_blank ic : sets ic p_blank. Proof. apply sets_p_line. Qed.
Lemma mays_block ic : forall ls, mays ic (comment_block ls).
Proof.
  induction ls as [|l [|l2 r] IH]; [apply flat_mays, flat_skip|apply flat_mays, flat_seq0; [apply flat_indent|apply flat_write]|]. change (comment_block (l :: l2 :: r)) with (p_line l ;; comment_block (l2 :: r)).
  apply mays_seq; [apply sets_mays, sets_p_line|exact IH].
Qed.
Lemma flat_inline_comments ic cs : flat ic 0 (inline_comments cs).
Proof.
  unfold inline_comments. generalize true. induction cs as [|c r IH]; intro b; cbn [inline_comments_from]; [apply flat_skip|]. apply flat_seq0; [|apply IH]. apply flat_when. apply flat_seq0; [|apply flat_write].
  apply (T_fun ic _ _ (fun f => when (negb b || nonempty (c_ws c) || mem (lastw f) (b_ ";}")) space)). intro g. apply flat_when, flat_space.
Qed.
Lemma mays_multiline ic force cs : mays ic (multiline_comments force cs).
Proof.
  unfold multiline_comments. apply (T_fun ic _ _ (fun f => multiline_from (force || prev_open f) cs)). intro g. generalize (force || prev_open g). induction cs as [|c r IH]; intro b; cbn [multiline_from]; [apply flat_mays, flat_skip|].
  apply mays_seq; [apply mays_when, sets_mays, sets_p_blank|]. apply mays_seq; [apply mays_block|]. apply mays_seq; [apply flat_mays, flat_write|apply IH].
Qed.
Lemma sets_trailing ic cs : sets ic (trailing_end_comments cs).
Proof.
  unfold trailing_end_comments. apply mays_sets; [|apply sets_p_blank]. generalize true. induction cs as [|c r IH]; intro b; cbn [trailing_from]; [apply flat_mays, flat_skip|].
  apply mays_seq; [|apply mays_seq; [apply mays_block|apply IH]]. destruct (has_nl _); [apply sets_mays, sets_p_blank|apply mays_when, flat_mays, flat_space].
Qed.

(* ---- tokens ---- *)
Definition delta (t : token) : int := (if opens t then 1 else if closes t then -1 else 0)%Z.
Lemma flat_tok ic t : flat ic (delta t) (write_tok t).
Proof. intros f Ei _. unfold write_tok, delta. destruct (opens t); [cbn; auto|]. destruct (closes t); cbn; auto using Z.add_0_r. Qed.
Lemma flat_lead ic t : flat ic 0 (lead_inline t).
Proof. unfold lead_inline. apply flat_when, flat_seq0; [apply flat_inline_comments|apply flat_when, flat_space]. Qed.
Lemma flat_inline_tok ic t : flat ic (delta t) (inline_tok t).
Proof.
  unfold inline_tok. eapply flat_seq; [apply flat_inl| |reflexivity]. eapply flat_seq; [apply flat_lead| |reflexivity].
  eapply flat_seq; [apply flat_tok| |rewrite Z.add_0_r; reflexivity]. apply flat_seq0; [apply flat_inline_comments|]. apply flat_seq0; [apply flat_prev|apply flat_inl].
Qed.
Lemma inline_node_T ic pre post m : T ic pre post m -> T ic pre post (inline_node m).
Proof. intro A. intros f Ei P. destruct (A (set_inl true f) Ei P) as (E1 & E2 & E3). unfold inline_node, seq. auto. Qed.
Lemma mays_start_pre ic force ts b : mays ic (start_pre force ts b).
Proof.
  unfold start_pre. apply mays_seq; [|apply flat_mays, flat_indent].
  destruct (nonempty (lead_of ts)).
  - apply (mays_seq ic (multiline_comments force (lead_of ts)) (when (negb force && (1 <? newlines (ws_of ts))) p_blank)); [apply mays_multiline|apply mays_when, sets_mays, sets_p_blank].
  - apply (T_fun ic _ _ (fun f => when (negb (force || prev_open f) && (1 <? newlines (ws_of ts))) p_blank)). intro g. apply mays_when, sets_mays, sets_p_blank.
Qed.
Lemma flat_start_pre ic force ts b : lead_of ts = [] -> force = true \/ newlines (ws_of ts) <= 1 -> flat ic 0 (start_pre force ts b).
Proof.
  intros E F. unfold start_pre. apply flat_seq0; [|apply flat_indent]. rewrite E. cbn [nonempty].
  apply (T_fun ic _ _ (fun f => when (negb (force || prev_open f) && (1 <? newlines (ws_of ts))) p_blank)). intro g.
  replace (negb (force || prev_open g) && (1 <? newlines (ws_of ts))) with false; [apply flat_skip|]. symmetry. destruct F as [->|F]; [reflexivity|].
  apply andb_false_iff. right. apply Nat.ltb_ge. exact F.
Qed.
Lemma flat_start_post ic ts b : flat ic 0 (start_post ts b).
Proof. unfold start_post. apply flat_seq0; [apply flat_when, flat_inline_comments|apply flat_prev]. Qed.
Definition still (t : token) : Prop := delta t = 0%Z.
Lemma still_tok ic t : still t -> flat ic 0 (write_tok t). Proof. intro S. rewrite <- S. apply flat_tok. Qed.
Lemma still_inline ic t : still t -> flat ic 0 (inline_tok t). Proof. intro S. rewrite <- S. apply flat_inline_tok. Qed.
Lemma mays_start_tok ic force t : still t -> mays ic (start_tok force t).
Proof. intro S. unfold start_tok. apply mays_seq; [apply mays_start_pre|]. apply flat_mays, flat_seq0; [apply still_tok, S|apply flat_start_post]. Qed.
Lemma flat_start_tok ic force t : still t -> t_lead t = [] -> force = true \/ newlines (t_ws t) <= 1 -> flat ic 0 (start_tok force t).
Proof. intros S E F. unfold start_tok. apply flat_seq0; [apply flat_start_pre; assumption|]. apply flat_seq0; [apply still_tok, S|apply flat_start_post]. Qed.
Lemma sets_line_end ic t : still t -> sets ic (line_end t).
Proof.
  intro S. unfold line_end. apply mays_sets; [apply flat_mays, flat_lead|]. apply mays_sets; [apply flat_mays, still_tok, S|]. apply mays_sets; [apply flat_mays, flat_space|].
  apply sets_mays_seq; [apply sets_trailing|apply flat_mays, flat_prev].
Qed.
(* opening and closing brackets *)
Definition opened ic := T ic (fun _ p => (-1 <= p)%Z) (fun i p i' p' => i' = step i (p + 1) /\ p' = 0%Z).
Definition closed ic := T ic (fun i p => p = 0%Z /\ 0 < i) (fun i p i' p' => i' = Nat.pred i /\ p' = 0%Z).
Definition ending ic := T ic (fun i p => p = 0%Z) (fun i p i' p' => i' = i /\ p' = (-1)%Z).
Lemma open_prefix_b ic t : delta t = 1%Z -> opened ic (open_prefix t).
Proof.
  intro D. unfold open_prefix. assert (A : flat ic 1 (lead_inline t ;; write_tok t)) by (eapply flat_seq; [apply flat_lead|apply flat_tok|rewrite D; reflexivity]).
  assert (B : sets ic ((if nonempty (t_trail t) then trailing_end_comments (t_trail t) else p_blank) ;; set_prev (is_open_brace t))).
  { apply sets_mays_seq; [destruct (nonempty (t_trail t)); [apply sets_trailing|apply sets_p_blank]|apply flat_mays, flat_prev]. }
  pose proof (T_seq ic _ _ _ _ (fun _ p => (-1 <= p)%Z) (fun i p i' p' => i' = step i (p + 1) /\ p' = 0%Z) _ _ A B ltac:(bal) ltac:(bal) ltac:(bal)) as C. exact C.
Qed.
Lemma open_prefix_array_b ic t : delta t = 1%Z -> t_lead t = [] -> opened ic (open_prefix_array t).
Proof.
  intros D E. unfold open_prefix_array. rewrite E. cbn [nonempty when]. assert (A : flat ic 1 (skip ;; write_indent (closes t) ;; write_tok t)).
  { eapply flat_seq; [apply flat_skip| |reflexivity]. eapply flat_seq; [apply flat_indent|apply flat_tok|rewrite D; reflexivity]. }
  assert (B : sets ic ((if nonempty (t_trail t) then trailing_end_comments (t_trail t) else p_blank) ;; set_prev (is_open_brace t))).
  { apply sets_mays_seq; [destruct (nonempty (t_trail t)); [apply sets_trailing|apply sets_p_blank]|apply flat_mays, flat_prev]. }
  pose proof (T_seq ic _ _ _ _ (fun _ p => (-1 <= p)%Z) (fun i p i' p' => i' = step i (p + 1) /\ p' = 0%Z) _ _ A B ltac:(bal) ltac:(bal) ltac:(bal)) as C. exact C.
Qed.
Definition opened0 ic := T ic (fun _ p => p = 0%Z) (fun i p i' p' => i' = S i /\ p' = 0%Z).
Lemma opened_opened0 ic m : opened ic m -> opened0 ic m. Proof. intro A. tsub A. Qed.
Lemma open_prefix_array_b0 ic t : delta t = 1%Z -> opened0 ic (open_prefix_array t).
Proof.
  intro D. unfold open_prefix_array. assert (A : mays ic (when (nonempty (t_lead t)) (multiline_comments false (t_lead t)) ;; write_indent (closes t))).
  { apply mays_seq; [apply mays_when, mays_multiline|apply flat_mays, flat_indent]. }
  assert (B : sets ic ((if nonempty (t_trail t) then trailing_end_comments (t_trail t) else p_blank) ;; set_prev (is_open_brace t))).
  { apply sets_mays_seq; [destruct (nonempty (t_trail t)); [apply sets_trailing|apply sets_p_blank]|apply flat_mays, flat_prev]. }
  pose proof (flat_tok ic t) as W. rewrite D in W.
  assert (C : opened0 ic (write_tok t ;; (if nonempty (t_trail t) then trailing_end_comments (t_trail t) else p_blank) ;; set_prev (is_open_brace t))) by tseq W B.
  assert (G : opened0 ic ((when (nonempty (t_lead t)) (multiline_comments false (t_lead t)) ;; write_indent (closes t)) ;; write_tok t ;; (if nonempty (t_trail t) then trailing_end_comments (t_trail t) else p_blank) ;; set_prev (is_open_brace t))) by tseq A C.
  exact G.
Qed.
Lemma open_prefix_inline_b ic t : delta t = 1%Z -> flat ic 1 (open_prefix_inline t).
Proof.
  intro D. unfold open_prefix_inline. eapply flat_seq; [apply flat_lead| |reflexivity]. rewrite <- D. apply flat_l; [apply flat_tok|]. apply flat_seq0; [apply flat_when, flat_inline_comments|apply flat_prev].
Qed.
Lemma mays_end_lead ic (b : bool) t : mays ic (if b then lead_inline t else multiline_comments false (t_lead t) ;; write_indent (closes t)).
Proof. destruct b; [apply flat_mays, flat_lead|]. apply mays_seq; [apply mays_multiline|apply flat_mays, flat_indent]. Qed.
Lemma sets_body_end_tail ic t sm : sets ic ((if nonempty (t_trail t) then trailing_end_comments (t_trail t)
   else match virtual_trail sm with Some cs => space ;; trailing_end_comments cs | None => trailing_end_comments [] end) ;; set_prev (is_open_brace t)).
Proof.
  apply sets_mays_seq; [|apply flat_mays, flat_prev]. destruct (nonempty (t_trail t)); [apply sets_trailing|]. destruct (virtual_trail sm); [|apply sets_trailing]. apply mays_sets; [apply flat_mays, flat_space|apply sets_trailing].
Qed.
Lemma body_end_b ic t sm b : delta t = (-1)%Z -> closed ic (body_end t sm b).
Proof.
  intro D. unfold body_end. pose proof (flat_tok ic t) as W. rewrite D in W. pose proof (sets_body_end_tail ic t sm) as S.
  pose proof (T_seq ic _ _ _ _ (fun i p => p = 0%Z /\ 0 < i) (fun i p i' p' => i' = Nat.pred i /\ p' = 0%Z) _ _ W S ltac:(bal) ltac:(bal) ltac:(bal)) as C.
  pose proof (mays_end_lead ic b t) as L. tseq L C.
Qed.
(* an empty body on one line: the closing bracket right after the opening one *)
Definition shut ic := T ic (fun i p => (0 <= p - 1)%Z \/ 0 < i) (fun i p i' p' => i' = step i (p - 1) /\ p' = 0%Z).
Lemma body_end_empty_b ic t sm : delta t = (-1)%Z -> shut ic (body_end t sm true).
Proof.
  intro D. unfold body_end. pose proof (flat_tok ic t) as W. rewrite D in W. pose proof (sets_body_end_tail ic t sm) as S.
  pose proof (T_seq ic _ _ _ _ (fun i p => (0 <= p - 1)%Z \/ 0 < i) (fun i p i' p' => i' = step i (p - 1) /\ p' = 0%Z) _ _ W S ltac:(bal) ltac:(bal) ltac:(bal)) as C.
  pose proof (flat_lead ic t) as L. tseq L C.
Qed.
Lemma flat_end_inline_tail ic t sm : flat ic 0 ((if nonempty (t_trail t) then inline_comments (t_trail t)
   else match virtual_trail sm with Some cs => inline_comments cs | None => skip end) ;; set_prev (is_open_brace t)).
Proof. apply flat_seq0; [|apply flat_prev]. destruct (nonempty (t_trail t)); [apply flat_inline_comments|]. destruct (virtual_trail sm); [apply flat_inline_comments|apply flat_skip]. Qed.
Lemma body_end_inline_flat ic t sm b : b = true \/ t_lead t = [] -> flat ic (delta t) (body_end_inline t sm b).
Proof.
  intro E. unfold body_end_inline. apply flat_r; [|apply flat_l; [apply flat_tok|apply flat_end_inline_tail]].
  destruct b; [apply flat_lead|]. destruct E as [E|E]; [discriminate|]. rewrite E. apply flat_seq0; [|apply flat_indent]. apply flat_state. intro f. auto.
Qed.
Lemma body_end_inline_b ic t sm b : delta t = (-1)%Z -> ending ic (body_end_inline t sm b).
Proof.
  intro D. unfold body_end_inline. pose proof (mays_end_lead ic b t) as L.
  assert (W : flat ic (-1) (write_tok t ;; (if nonempty (t_trail t) then inline_comments (t_trail t)
   else match virtual_trail sm with Some cs => inline_comments cs | None => skip end) ;; set_prev (is_open_brace t))).
  { rewrite <- D. apply flat_l; [apply flat_tok|apply flat_end_inline_tail]. }
  tseq L W.
Qed.
Lemma sets_line_element ic t : still t -> sets ic (line_element t).
Proof.
  intro S. unfold line_element, body_end. apply mays_sets; [apply (mays_end_lead ic false t)|]. apply mays_sets; [apply flat_mays, still_tok, S|]. apply (sets_body_end_tail ic t None).
Qed.

(* ---- bodies ---- *)
Lemma body_lev ic op cl sm m open_w close_w : opened ic (open_w op) -> whole ic m -> ending ic (close_w cl sm false) -> lev ic 1 (body op cl sm (Some m) open_w close_w).
Proof.
  intros A B C. unfold body.
  assert (D : ending ic (m ;; close_w cl sm false)) by tseq B C. tseq A D.
Qed.
Lemma body_lev0 ic op cl sm m open_w close_w : opened0 ic (open_w op) -> whole ic m -> ending ic (close_w cl sm false) -> lev0 ic 1 (body op cl sm (Some m) open_w close_w).
Proof.
  intros A B C. unfold body.
  assert (D : ending ic (m ;; close_w cl sm false)) by tseq B C. tseq A D.
Qed.
Lemma body_whole ic op cl sm m open_w close_w : opened0 ic (open_w op) -> whole ic m -> closed ic (close_w cl sm false) -> whole ic (body op cl sm (Some m) open_w close_w).
Proof.
  intros A B C. unfold body.
  assert (D : closed ic (m ;; close_w cl sm false)) by tseq B C. tseq A D.
Qed.
Definition bodied ic := T ic (fun i p => able i p /\ (-1 <= p <= 0)%Z) (fun i p i' p' => i' = step i p /\ p' = 0%Z).
Lemma bodied_whole ic m : bodied ic m -> whole ic m. Proof. intro A. tsub A. Qed.
Lemma type_body_b ic op cl sm elems : delta op = 1%Z -> delta cl = (-1)%Z -> (forall m, elems = Some m -> whole ic m) -> bodied ic (type_body op cl sm elems).
Proof.
  intros Do Dc E. unfold type_body, body. pose proof (open_prefix_b ic op Do) as A. destruct elems as [m|].
  - pose proof (E m eq_refl) as B. pose proof (body_end_b ic cl sm false Dc) as C. assert (D : closed ic (m ;; body_end cl sm false)) by tseq B C. tseq A D.
  - destruct (interior_comments [op; cl]).
    + pose proof (body_end_b ic cl sm false Dc) as C. tseq A C.
    + pose proof (flat_inline_tok ic op) as B. rewrite Do in B. pose proof (body_end_empty_b ic cl sm Dc) as C. tseq B C.
Qed.

(* ---- columns ---- *)
Section Columns.
Variable dec : list nat -> nat -> bool.
Definition elem_b (ic lastx : bool) (e : elem) : Prop :=
  (e_kind e = ENone /\ whole ic (e_node e)) \/
  (e_kind e <> ENone /\ e_incomplete e = false /\
     let s := e_seg e ic lastx in let z := set_out [] in
     whole ic (s_ctx s ;; z ;; s_type s ;; z ;; s_name s ;; z ;; s_eq s ;; z ;; s_end s ;; z) /\ flat ic 0 (s_outer s)).
Inductive elems_b (ic : bool) (n : nat) : list elem -> Prop :=
| eb_nil : elems_b ic n []
| eb_cons e r : elem_b ic ((n =? 0) && negb (nonempty r)) e -> elems_b ic n r -> elems_b ic n (e :: r).
Lemma elems_b_split ic n : forall a b, elems_b ic n (a ++ b) -> elems_b ic (n + List.length b) a /\ elems_b ic n b.
Proof.
  induction a as [|e a IH]; intros b E; cbn [app] in E.
  - split; [constructor|exact E].
  - inversion E as [|e' r' A B]; subst. destruct (IH _ B) as (C & D). split; [|exact D].
    constructor; [|exact C]. replace ((n + List.length b =? 0) && negb (nonempty a)) with ((n =? 0) && negb (nonempty (a ++ b))); [exact A|].
    destruct b; [rewrite app_nil_r, Nat.add_0_r; reflexivity|]. cbn [List.length]. rewrite Nat.add_succ_r. cbn [Nat.eqb andb].
    destruct a; cbn; now rewrite ?andb_false_r.
Qed.
Lemma run_elems_b ic n : forall es, elems_b ic n es -> Forall plain_elem es -> forall outer f fs,
  incompact outer = ic -> incompact f = ic -> pindent f = 0%Z ->
  let '(outer', f', _) := run_elems ic n es (outer, f, fs) in err outer' = err outer /\ incompact f' = ic /\ pindent f' = 0%Z /\ indent f' = indent f.
Proof.
  induction 1 as [|e r E _ IH]; intros P outer f fs Io If Pf; [cbn; auto|].
  inversion P as [|e' r' Pe Pr]; subst e' r'. destruct E as [[E _]|(_ & Inc & W & O)]; [destruct (Pe E)|].
  cbn [run_elems]. unfold run_elem. rewrite Inc. set (s := e_seg e ic ((n =? 0) && negb (nonempty r))) in *. cbv zeta in *. unfold drain. cbv zeta.
  destruct (W f If Pf) as (E1 & E2 & E3 & E4). destruct (O outer Io Logic.I) as (O1 & O2 & _). unfold seq in E1, E2, E3, E4.
  set (f4 := set_out [] (s_end s _)) in *.
  specialize (IH Pr (s_outer s outer) f4 (fs ++ [{| ctx := out (s_ctx s f); typeName := out (s_type s (set_out [] (s_ctx s f)));
    fieldName := out (s_name s (set_out [] (s_type s (set_out [] (s_ctx s f)))));
    equalsTag := out (s_eq s (set_out [] (s_name s (set_out [] (s_type s (set_out [] (s_ctx s f)))))));
    lineEnd := out (s_end s (set_out [] (s_eq s (set_out [] (s_name s (set_out [] (s_type s (set_out [] (s_ctx s f))))))))) |}]) O1 E1 E4).
  match type of IH with context [run_elems ic n r ?x] => match goal with |- context [run_elems ic n r ?y] => change y with x end; destruct (run_elems ic n r x) as [[outer' f'] fs'] end.
  destruct IH as (I1 & I2 & I3 & I4). repeat split; congruence.
Qed.
Lemma merged_b ic rest g : elems_b ic rest g -> Forall plain_elem g ->
  whole ic (fun f => let '(outer, fc, fs) := run_elems (incompact f) rest g (f, set_out [] f, []) in
         match write_columns dec fs with Some b => merge outer fc (out fc ++ b) | None => set_crash f end).
Proof.
  intros E P f Ei Pf. rewrite Ei. pose proof (run_elems_b ic rest g E P f (set_out [] f) [] Ei Ei Pf) as R.
  destruct (run_elems ic rest g _) as [[outer' f'] fs']. destruct R as (R1 & R2 & R3 & R4). destruct (write_columns dec fs'); cbn; auto.
Qed.
Lemma group_b ic rest g : elems_b ic rest g -> pure g -> whole ic (run_group dec rest g).
Proof.
  intros E P. destruct g as [|e [|e2 r]].
  - exact (merged_b ic rest [] E (Forall_nil _)).
  - unfold run_group. destruct (e_kind e) eqn:Ke.
    + inversion E as [|e' r' A B]; subst. destruct A as [[_ h]|[N _]]; [exact h|congruence].
    + apply (merged_b ic rest [e] E). repeat constructor. unfold plain_elem. congruence.
    + apply (merged_b ic rest [e] E). repeat constructor. unfold plain_elem. congruence.
  - destruct P as [[x X]|P]; [discriminate|]. exact (merged_b ic rest (e :: e2 :: r) E P).
Qed.
Lemma groups_b ic : forall gs, elems_b ic 0 (List.concat gs) -> Forall pure gs -> whole ic (run_groups dec gs).
Proof.
  induction gs as [|g gs IH]; intros E P; cbn [run_groups List.concat] in *.
  - apply flat_whole, flat_skip.
  - inversion P; subst. destruct (elems_b_split ic 0 _ _ E) as (A & B). apply whole_seq; [apply group_b; auto|]. apply IH; assumption.
Qed.
Lemma columns_b ic es : elems_b ic 0 es -> whole ic (columns dec es).
Proof. intro E. unfold columns. apply groups_b; [rewrite groups_concat; exact E|apply groups_pure]. Qed.
End Columns.

(* ---- identifiers and names ---- *)
Definition neutral (c : ascii) : bool := negb (mem c (b_ "{[(<")) && negb (mem c (b_ "}])>")).
Lemma idt_still t : idt t -> still t. Proof. intros (K & _). unfold still, delta, opens, closes. now rewrite K. Qed.
Lemma numt_still t : numt t -> still t. Proof. intros (K & _). unfold still, delta, opens, closes. now rewrite K. Qed.
Lemma strt_still t : strt t -> still t. Proof. intros (K & _). unfold still, delta, opens, closes. now rewrite K. Qed.
Lemma rune_still s t : runet s t -> forallb neutral (b_ s) = true -> still t.
Proof.
  intros (K & _ & c & E & I) F. rewrite forallb_forall in F. specialize (F c I). unfold neutral in F. apply andb_true_iff in F as [F1 F2]. apply negb_true_iff in F1, F2.
  unfold still, delta, opens, closes. rewrite K, E, F1, F2. reflexivity.
Qed.
Lemma rune_open s t : runet s t -> forallb (fun c => mem c (b_ "{[(<")) (b_ s) = true -> delta t = 1%Z.
Proof. intros (K & _ & c & E & I) F. rewrite forallb_forall in F. specialize (F c I). cbv beta in F. unfold delta, opens. rewrite K, E, F. reflexivity. Qed.
Lemma rune_close s t : runet s t -> forallb (fun c => mem c (b_ "}])>") && negb (mem c (b_ "{[(<"))) (b_ s) = true -> delta t = (-1)%Z.
Proof.
  intros (K & _ & c & E & I) F. rewrite forallb_forall in F. specialize (F c I). cbv beta in F. apply andb_true_iff in F as [F1 F2]. apply negb_true_iff in F2.
  unfold delta, opens, closes. rewrite K, E, F1, F2. reflexivity.
Qed.
Lemma dotted_still ts : dotted ts -> Forall still ts.
Proof. induction 1; repeat constructor; auto using idt_still. eapply rune_still; [eassumption|reflexivity]. Qed.
Lemma ident_still i : ident_ok i -> Forall still (ident_toks i).
Proof.
  destruct i as [t|ts]; cbn [ident_ok ident_toks]; [repeat constructor; now apply idt_still|]. intros [D|(d & r & -> & R & D)]; [now apply dotted_still|].
  constructor; [eapply rune_still; [eassumption|reflexivity]|now apply dotted_still].
Qed.
Lemma flat_inline_toks ic ts : Forall still ts -> flat ic 0 (seqs (map inline_tok ts)).
Proof. induction 1; [apply flat_skip|]. cbn [map seqs]. apply flat_seq0; [now apply still_inline|assumption]. Qed.
Lemma flat_ident ic i : ident_ok i -> flat ic 0 (write_ident i).
Proof. intro O. pose proof (ident_still i O) as S. destruct i; [inversion S; subst; now apply still_tok|now apply flat_inline_toks]. Qed.
Lemma flat_inline_ident ic i : ident_ok i -> flat ic 0 (inline_ident i).
Proof. intro O. pose proof (ident_still i O) as S. destruct i; [inversion S; subst; now apply still_inline|]. apply inline_node_T. exact (flat_ident ic _ O). Qed.
Lemma flat_otok ic s o : orune s o -> forallb neutral (b_ s) = true -> flat ic 0 (opt_w inline_tok o).
Proof. intros R F. destruct o; [|apply flat_skip]. apply still_inline. exact (rune_still _ _ R F). Qed.
Lemma flat_ref_rest ic r : ref_ok r -> flat ic 0 (opt_w inline_ident (fr_url r) ;; opt_w inline_tok (fr_slash r) ;; inline_ident (fr_name r)).
Proof.
  intros (On & O). destruct (fr_open r).
  - destruct O as (_ & _ & O). destruct (fr_slash r) as [s|].
    + destruct O as (Rs & _ & (u & -> & Ou) & _). apply flat_seq0; [apply flat_inline_ident, Ou|]. apply flat_seq0; [apply still_inline, (rune_still _ _ Rs); reflexivity|apply flat_inline_ident, On].
    + rewrite O. apply flat_seq0; [apply flat_skip|]. apply flat_seq0; [apply flat_skip|apply flat_inline_ident, On].
  - destruct O as (_ & -> & ->). apply flat_seq0; [apply flat_skip|]. apply flat_seq0; [apply flat_skip|apply flat_inline_ident, On].
Qed.
Lemma close_ref_some ic r o : ref_ok r -> fr_open r = Some o -> delta o = 1%Z /\ flat ic (-1) (close_ref r).
Proof.
  intros (_ & O) E. unfold close_ref. rewrite E in *. destruct O as (Ro & (c & -> & Rc) & _). split; [apply (rune_open _ _ Ro); reflexivity|]. rewrite <- (rune_close _ _ Rc eq_refl). apply flat_inline_tok.
Qed.
Lemma close_ref_none ic r : ref_ok r -> fr_open r = None -> flat ic 0 (close_ref r).
Proof. intros (_ & O) E. unfold close_ref. rewrite E in *. destruct O as (-> & _ & _). apply flat_skip. Qed.
Lemma flat_ref ic r : ref_ok r -> flat ic 0 (write_ref r).
Proof.
  intro O. unfold write_ref. pose proof (flat_ref_rest ic r O) as A. destruct (fr_open r) as [o|] eqn:E.
  - destruct (close_ref_some ic r o O E) as [D C]. cbn [opt_w]. pose proof (flat_inline_tok ic o) as B. rewrite D in B. pose proof (flat_seq ic _ _ (-1)%Z _ _ A C eq_refl) as A2. exact (flat_seq ic _ _ 0%Z _ _ B A2 eq_refl).
  - pose proof (close_ref_none ic r O E) as C. apply flat_seq0; [apply flat_skip|]. exact (flat_seq0 ic _ _ A C).
Qed.
Lemma flat_first_part ic r : ref_ok r -> flat ic 0 (first_part r).
Proof.
  intro O. unfold first_part. destruct (fr_open r) as [o|] eqn:E.
  - destruct (close_ref_some ic r o O E) as [D C]. apply (flat_seq ic 1 (-1)); [|exact C|reflexivity]. rewrite <- D. apply flat_l; [apply flat_tok|]. apply flat_seq0; [apply flat_when, flat_inline_comments|apply flat_inline_ident, O].
  - apply flat_seq0; [|exact (close_ref_none ic r O E)]. apply flat_seq0; [apply flat_ident, O|apply flat_when, flat_inline_comments].
Qed.
Lemma flat_ref_start ic r : ref_ok r -> flat ic 0 (ref_start_rest r).
Proof.
  intro O. unfold ref_start_rest. destruct (fr_open r) as [o|] eqn:E.
  - destruct (close_ref_some ic r o O E) as [D C]. apply (flat_seq ic 1 (-1)); [|exact C|reflexivity]. rewrite <- D. apply flat_l; [apply flat_tok|]. apply flat_seq0; [apply flat_start_post|]. exact (flat_ref_rest ic r O).
  - apply flat_seq0; [|exact (close_ref_none ic r O E)]. apply flat_seq0; [apply flat_ident, O|apply flat_start_post].
Qed.
Lemma flat_part ic p : part_ok p -> flat ic 0 (write_part p).
Proof. destruct p as [r|t]; cbn; [intros (O & _); now apply flat_ref|]. intro R. apply still_tok, (rune_still _ _ R). reflexivity. Qed.
Lemma flat_parts ic ps : Forall part_ok ps -> flat ic 0 (seqs (map write_part ps)).
Proof. induction 1; [apply flat_skip|]. cbn [map seqs]. apply flat_seq0; [now apply flat_part|assumption]. Qed.
Lemma name_parts ps : name_ok ps -> Forall part_ok ps. Proof. induction 1; [constructor; [assumption|constructor]|]. constructor; [assumption|]. constructor; assumption. Qed.
Lemma flat_name ic ps : name_ok ps -> flat ic 0 (write_name ps).
Proof.
  intro N. apply name_parts in N. unfold write_name. destruct ps as [|[r|t] rest]; [apply (flat_skip ic)| |exact (flat_parts ic _ N)].
  inversion N as [|x y Or Of]; subst. destruct Or as (Or & _).
  apply (T_fun ic _ _ (fun f => (if incompact f then first_part r else write_ref r) ;; seqs (map write_part rest))). intro g.
  apply flat_seq0; [|now apply flat_parts]. destruct (incompact g); [now apply flat_first_part|now apply flat_ref].
Qed.

(* ---- values ---- *)
Lemma strt_all ts : Forall strt ts -> Forall still ts. Proof. apply Forall_impl. exact strt_still. Qed.
Lemma mays_string_lines ic ei : forall ts, Forall still ts -> mays ic (string_lines ei ts).
Proof.
  induction ts as [|t [|t2 r] IH]; intro F; [apply flat_mays, flat_skip| |]; inversion F as [|x y St Fr]; subst.
  - cbn [string_lines]. destruct ei; [now apply mays_start_tok|now apply sets_mays, sets_line_element].
  - change (string_lines ei (t :: t2 :: r)) with (line_element t ;; string_lines ei (t2 :: r)). apply mays_seq; [now apply sets_mays, sets_line_element|now apply IH].
Qed.
Lemma sets_compound ic ind ei ts : Forall still ts -> sets ic (compound_string ind ei ts).
Proof.
  intro F. unfold compound_string. pose proof (sets_p_blank ic) as A. pose proof (mays_whole _ _ (mays_string_lines ic ei ts F)) as B. destruct ind; cbn [when].
  - assert (I : T ic (fun _ p => p = 0%Z) (fun i _ i' p' => i' = S i /\ p' = 0%Z) shift_in) by (intros f Ei P; cbn; auto).
    assert (O : T ic (fun i p => p = 0%Z /\ 0 < i) (fun i _ i' p' => i' = Nat.pred i /\ p' = 0%Z) shift_out).
    { intros f Ei [P L]. unfold shift_out. destruct (indent f); [lia|]. cbn. auto. }
    assert (C : T ic (fun i p => p = 0%Z /\ 0 < i) (fun i _ i' p' => i' = Nat.pred i /\ p' = 0%Z) (string_lines ei ts ;; shift_out)) by tseq B O.
    assert (D : whole ic (shift_in ;; string_lines ei ts ;; shift_out)) by tseq I C. tseq A D.
  - pose proof (flat_whole _ _ (flat_skip ic)) as S. pose proof (whole_seq _ _ _ S (whole_seq _ _ _ B S)) as D. tseq A D.
Qed.
Lemma flat_colon ic s v : match s with Some t => runet ":" t | None => literal v = true end -> flat ic 0 (colon s).
Proof. intro R. unfold colon. apply still_inline. destruct s; [apply (rune_still _ _ R)|]; reflexivity. Qed.
Lemma still_comma c t : neutral c = true -> still (with_rune c t).
Proof. intro N. apply andb_true_iff in N as [N1 N2]. apply negb_true_iff in N1, N2. unfold still, delta, opens, closes. cbn [with_rune t_kind t_text]. rewrite N1, N2. destruct (t_kind t); reflexivity. Qed.
Lemma still_field_comma ts sm : still (field_comma ts sm).
Proof. unfold field_comma. destruct sm; [apply still_comma; reflexivity|]. destruct (rev ts); reflexivity. Qed.
Lemma lev_any ic m : lev ic 1 m -> lev ic 2 m -> lev ic 0 m.
Proof.
  intros A B f Ei P. destruct (A f Ei ltac:(cbv beta in *; lia)) as (A1 & A2 & A3). destruct (B f Ei ltac:(cbv beta in *; lia)) as (_ & _ & B3). split; [exact A1|]. split; [exact A2|]. bal.
Qed.
(* a bracket around what breaks at depth k *)
Lemma lev_around ic k op m cl : flat ic 1 op -> lev ic k m -> flat ic (-1) cl -> lev ic (S k) (op ;; m ;; cl).
Proof.
  intros A B C.
  assert (D : T ic (fun _ p => (- Z.of_nat k <= p)%Z) (fun i p i' p' => i' = i /\ (p' = p - 1)%Z \/ i' = step i (p + Z.of_nat k) /\ (p' = - Z.of_nat k - 1)%Z) (m ;; cl)) by tseq B C.
  eapply T_seq; [exact A|exact D|bal|bal|]. intros i p i1 p1 i2 p2 H1 [-> ->] [[-> ->]|[-> ->]]; [left; lia|right]. split; [f_equal; lia|lia].
Qed.
Lemma all_depth (l : list nat) : level l -> exists k, forall d, In d l -> d = k.
Proof. intro L. destruct l as [|x r]; [exists 0; intros d []|]. exists x. intros d I. apply L; [exact I|now left]. Qed.
Lemma around_depths ic l K op m cl : flat ic 1 op -> flat ic (-1) cl -> (forall k, (forall d, In d l -> d = k) -> lev ic k m) ->
  (forall d, In d (map S l) -> d = K) -> lev ic K (op ;; m ;; cl).
Proof.
  intros A C B E. destruct K as [|k].
  - assert (N : l = []) by (destruct l as [|x r]; [reflexivity|specialize (E (S x) (or_introl eq_refl)); discriminate]).
    apply lev_any; apply lev_around; auto; apply B; rewrite N; intros d [].
  - apply lev_around; auto. apply B. intros d I. specialize (E (S d) (in_map S l d I)). congruence.
Qed.
Section Values.
Variable dec : list nat -> nat -> bool.
Lemma neat_msg o fs c sm : neat (VMsg o fs c sm) <-> level (depths (VMsg o fs c sm)) /\ Forall neat_field fs.
Proof. cbn [neat]. rewrite <- (all_forall neat_field fs). reflexivity. Qed.
Lemma neat_arr o vs cs c sm : neat (VArr o vs cs c sm) <-> level (depths (VArr o vs cs c sm)) /\ (values_expanded vs = false -> t_lead c = [] /\ Forall bare vs) /\ Forall neat vs.
Proof. cbn [neat]. rewrite <- (all_forall neat vs). reflexivity. Qed.
Lemma neat_level v : neat v -> level (depths v).
Proof.
  destruct v; intro N; [intros x y []|intros x y []|intros x y [<-|[]] [<-|[]]; reflexivity|intros x y []|apply neat_msg in N; apply N|apply neat_arr in N; apply N].
Qed.
Definition VB (v : value) : Prop := value_ok v -> neat v -> forall ic k, (forall d, In d (depths v) -> d = k) ->
  lev ic k (write_v dec v) /\
  (match v with VArr _ _ _ _ _ | VIdent _ | VTok _ => True | _ =>
     (bare v -> lev ic k (write_value dec (MArr false) v)) /\ lev0 ic k (write_value dec (MArr false) v) /\ whole ic (write_value dec (MArr true) v) end).
Definition val_of (m : mfield) : value := match m with MField _ _ v _ => v end.
Lemma field_elem_b ic lastx m : VB (val_of m) -> field_ok m -> neat_field m -> elem_b ic lastx (field_elem dec m).
Proof.
  destruct m as [n s v sm]. intros B (On & Ov & _ & Oc) N. cbn [val_of] in B. cbn [neat_field] in N. right. split; [discriminate|]. split; [reflexivity|]. cbn [field_elem e_seg]. cbv zeta. cbn [s_ctx s_type s_name s_eq s_end s_outer].
  split; [|apply flat_skip]. destruct (all_depth _ (neat_level v N)) as (k & D). destruct (B Ov N ic k D) as [W _].
  apply whole_seq; [apply mays_whole, mays_start_pre|]. do 3 (apply whole_seq; [apply flat_whole, flat_skip || apply flat_whole, flat_out|]).
  apply whole_seq; [apply flat_whole, flat_seq0; [apply flat_ref_start, On|exact (flat_colon ic s v Oc)]|]. do 3 (apply whole_seq; [apply flat_whole, flat_skip || apply flat_whole, flat_out|]).
  apply whole_seq; [|apply flat_whole, flat_out]. apply (lev_sets ic k); [apply lev_lev0, W|]. apply sets_line_end, still_field_comma.
Qed.
Lemma inline_v_b ic k v : value_ok v -> lev ic k (write_v dec v) -> lev ic k (inline_v dec v).
Proof.
  intros O A. destruct v; try (apply inline_node_T; exact A). apply flat_lev, still_inline. destruct O as [O|[O|O]]; auto using idt_still, numt_still, strt_still.
Qed.
Lemma compact_fields_b ic k : forall fs, Forall (fun m => VB (val_of m)) fs -> Forall field_ok fs -> Forall neat_field fs -> (forall d, In d (flat_map field_depths fs) -> d = k) ->
  lev ic k (compact_fields (map (fun m => match m with MField n s v sm => (n, s, inline_value (write_value dec MNode v) v, sm) end) fs)).
Proof.
  induction fs as [|[n s v sm] r IH]; intros F O N D; [apply flat_lev, flat_skip|]. inversion F as [|? ? Fv Fr]; inversion O as [|? ? Ov Or]; inversion N as [|? ? Nv Nr]; subst.
  cbn [map compact_fields]. destruct Ov as (On & Ov & Os & Oc). cbn [flat_map field_depths] in D. cbn [val_of neat_field] in *.
  apply lev_seq; [apply flat_lev, inline_node_T, flat_ref, On|]. apply lev_seq; [apply flat_lev, (flat_colon ic s v Oc)|]. apply lev_seq; [apply flat_lev, flat_space|].
  apply lev_seq; [apply (inline_v_b ic k v Ov); apply (Fv Ov Nv); intros d I; apply D, in_or_app; now left|].
  apply lev_seq; [|apply IH; auto; intros d I; apply D, in_or_app; now right]. apply flat_lev, flat_when, flat_seq0; [|apply flat_space]. apply still_inline. destruct sm as [t|]; [apply (rune_still _ _ Os)|]; reflexivity.
Qed.
Lemma array_step one v v2 r cs : array_items one (map (fun v => (terminal v, fun l => write_value dec (MArr l) v)) (v :: v2 :: r)) cs =
  (match terminal v with Some t => start_tok one t | None => write_value dec (MArr false) v end ;;
   must (fun c => if one then inline_tok c ;; space else line_end c) (nth_error cs 0) ;;
   array_items one (map (fun v => (terminal v, fun l => write_value dec (MArr l) v)) (v2 :: r)) (tl cs)).
Proof. destruct v; reflexivity. Qed.
Lemma tok_still t : value_ok (VTok t) -> still t.
Proof. intros [O|[O|O]]; auto using idt_still, numt_still, strt_still. Qed.
Notation simple vs := (forallb (fun v => match v with VArr _ _ _ _ _ | VIdent _ => false | _ => true end) vs = true).
Lemma array_one_b ic k : forall vs cs, Forall VB vs -> Forall value_ok vs -> Forall neat vs -> Forall bare vs -> Forall (runet ",") cs -> simple vs ->
  (forall d, In d (flat_map depths vs) -> d = k) ->
  lev ic k (array_items true (map (fun v => (terminal v, fun l => write_value dec (MArr l) v)) vs) cs).
Proof.
  induction vs as [|v vs IH]; intros cs F O N B Rc S D; [apply flat_lev, flat_skip|].
  inversion F as [|? ? Fv Fr]; inversion O as [|? ? Ov Or]; inversion N as [|? ? Nv Nr]; inversion B as [|? ? Bv Br]; subst. cbn [forallb] in S. apply andb_true_iff in S as [Sv Sr]. cbn [flat_map] in D.
  destruct (Fv Ov Nv ic k) as [_ W]; [intros d I; apply D, in_or_app; now left|].
  assert (E : lev ic k (match terminal v with Some t => start_tok true t | None => write_value dec (MArr false) v end)).
  { destruct v; try discriminate; cbn [terminal]; try (apply W, Bv). apply flat_lev, flat_start_tok; [exact (tok_still _ Ov)|apply Bv|now left]. }
  destruct vs as [|v2 r].
  - cbn [map array_items]. destruct v; try discriminate; cbn [terminal] in *; try exact E. apply flat_lev. rewrite <- (tok_still _ Ov). apply body_end_inline_flat. now left.
  - rewrite array_step. apply lev_seq; [exact E|]. apply lev_seq; [|apply IH; auto; [inversion Rc; subst; [constructor|assumption]|intros d I; apply D, in_or_app; now right]].
    apply flat_lev. destruct cs as [|c cr]; cbn [nth_error must]; [apply flat_crash|]. inversion Rc as [|? ? R0 _]; subst. apply flat_seq0; [apply still_inline, (rune_still _ _ R0); reflexivity|apply flat_space].
Qed.
Lemma array_lines_b ic : forall vs cs, Forall VB vs -> Forall value_ok vs -> Forall neat vs -> Forall (runet ",") cs -> Nat.pred (List.length vs) <= List.length cs -> simple vs ->
  whole ic (array_items false (map (fun v => (terminal v, fun l => write_value dec (MArr l) v)) vs) cs).
Proof.
  induction vs as [|v vs IH]; intros cs F O N Rc Le S; [apply flat_whole, flat_skip|].
  inversion F as [|? ? Fv Fr]; inversion O as [|? ? Ov Or]; inversion N as [|? ? Nv Nr]; subst. cbn [forallb] in S. apply andb_true_iff in S as [Sv Sr].
  destruct (all_depth _ (neat_level v Nv)) as (k & D). destruct (Fv Ov Nv ic k D) as [_ W]. destruct vs as [|v2 r].
  - cbn [map array_items]. destruct v; try discriminate; cbn [terminal negb] in *; try (apply W). apply sets_whole, sets_line_element. exact (tok_still _ Ov).
  - rewrite array_step. destruct cs as [|c cr]; [cbn in Le; lia|]. inversion Rc as [|? ? R0 Rr]; subst. cbn [nth_error must tl].
    assert (E : lev0 ic k (match terminal v with Some t => start_tok false t | None => write_value dec (MArr false) v end)).
    { destruct v; try discriminate; cbn [terminal]; try (apply W). apply whole_lev0, mays_whole, mays_start_tok. exact (tok_still _ Ov). }
    pose proof (lev_sets ic k _ _ E (sets_line_end ic c (rune_still _ _ R0 eq_refl))) as G.
    pose proof (IH cr Fr Or Nr Rr ltac:(cbn in Le |- *; lia) Sr) as G2. exact (whole_seq ic _ _ G G2).
Qed.
Lemma lev_eq ic k m m' : lev ic k m -> (forall f, m f = m' f) -> lev ic k m'.
Proof. intros A E f. rewrite <- E. apply A. Qed.
Lemma VB_all : forall v, VB v.
Proof.
  apply (value_ind2 VB (fun m => VB (val_of m))).
  - intros t O _ ic k _. split; [|exact Logic.I]. apply flat_lev, still_tok. exact (tok_still t O).
  - intros ts O _ ic k _. split; [|exact Logic.I]. apply flat_lev, flat_inline_toks. exact (ident_still (Cid ts) O).
  - intros ts (_ & O) _ ic k D. pose proof (D 0 (or_introl eq_refl)) as <-. apply strt_all in O. split; [apply mays_lev, sets_mays, sets_compound, O|]. split; [intros _; apply mays_lev, mays_string_lines, O|].
    split; [apply lev_lev0, mays_lev, mays_string_lines, O|]. apply mays_whole, mays_string_lines, O.
  - intros s n (Rs & On) _ ic k _. assert (Ss : still s) by (apply (rune_still _ _ Rs); reflexivity). assert (Sn : still n) by (destruct On; auto using numt_still, idt_still).
    split; [apply flat_lev, flat_seq0; apply still_inline; assumption|]. split; [intros [B1 B2]; apply flat_lev, flat_seq0; [apply flat_start_tok; [assumption|exact B1|right; exact B2]|apply still_inline; assumption]|].
    split; [apply whole_lev0, whole_seq; [apply mays_whole, mays_start_tok; assumption|apply flat_whole, still_inline; assumption]|].
    apply whole_seq; [apply mays_whole, mays_start_tok; assumption|apply sets_whole, sets_line_end; assumption].
  - intros o fs c sm IH O N ic k D. apply value_ok_msg in O as (Ro & Rc & Rs & F). apply neat_msg in N as (L & N).
    pose proof (rune_open _ _ Ro eq_refl) as Do. pose proof (rune_close _ _ Rc eq_refl) as Dc. cbn [depths] in D, L. unfold write_v. cbn [write_value]. destruct (fields_expanded fs).
    + pose proof (D 1 (or_introl eq_refl)) as <-.
      assert (E : whole ic (columns dec (map (field_elem dec) fs))).
      { apply columns_b. clear D L. induction fs as [|m r IHr]; [constructor|]. inversion IH; inversion F; inversion N; subst. cbn [map]. constructor; [now apply field_elem_b|now apply IHr]. }
      split; [apply body_lev; [apply open_prefix_b, Do|exact E|apply body_end_inline_b, Dc]|]. split; [intros [B1 _]; apply body_lev; [apply open_prefix_array_b; [exact Do|exact B1]|exact E|apply body_end_inline_b, Dc]|].
      split; [apply body_lev0; [apply open_prefix_array_b0, Do|exact E|apply body_end_inline_b, Dc]|]. apply body_whole; [apply open_prefix_array_b0, Do|exact E|apply body_end_b, Dc].
    + assert (W : lev ic k (inline_tok o ;; compact_fields (map (fun m => match m with MField n s v sm => (n, s, inline_value (write_value dec MNode v) v, sm) end) fs) ;; inline_tok c)).
      { apply (around_depths ic (flat_map field_depths fs)); [rewrite <- Do; apply flat_inline_tok|rewrite <- Dc; apply flat_inline_tok| |exact D]. intros j Dj. now apply compact_fields_b. }
      cbn [when].
      assert (G : lev ic k (write_indent (closes o) ;; inline_tok o ;; compact_fields (map (fun m => match m with MField n s v sm => (n, s, inline_value (write_value dec MNode v) v, sm) end) fs) ;; inline_tok c)).
      { apply lev_seq; [apply flat_lev, flat_indent|exact W]. }
      split; [exact W|]. split; [intros _; exact G|]. split; [apply lev_lev0; exact G|]. exact (lev_sets ic k _ _ (lev_lev0 _ _ _ G) (sets_p_blank ic)).
  - intros o vs cs c sm IH O N ic k D. apply value_ok_arr in O as (Ro & Rc & Rs & Rcs & Le & F & S). apply neat_arr in N as (L & B & N).
    pose proof (rune_open _ _ Ro eq_refl) as Do. pose proof (rune_close _ _ Rc eq_refl) as Dc. split; [|exact Logic.I]. cbn [depths] in D, L. unfold write_v. cbn [write_value]. destruct (values_expanded vs) eqn:E.
    + pose proof (D 1 (or_introl eq_refl)) as <-. destruct vs as [|v r]; [discriminate|]. cbn [negb]. apply body_lev; [apply open_prefix_b, Do| |apply body_end_inline_b, Dc]. apply array_lines_b; auto. apply Le.
    + destruct (B eq_refl) as [Ec Bs]. cbn [negb]. destruct vs as [|v r].
      * apply flat_lev. unfold body. assert (C : forall b, flat ic (-1) (body_end_inline c sm b)) by (intro b; rewrite <- Dc; apply body_end_inline_flat; now right).
        destruct (interior_comments [o; c]); (apply (flat_seq ic 1 (-1)); [|apply C|reflexivity]); [apply open_prefix_inline_b, Do|rewrite <- Do; apply flat_inline_tok].
      * apply (around_depths ic (flat_map depths (v :: r))); [apply open_prefix_inline_b, Do|rewrite <- Dc; apply body_end_inline_flat; now right| |exact D]. intros j Dj. apply array_one_b; auto.
  - intros n s v sm A. exact A.
Qed.
Lemma value_b ic k v : value_ok v -> neat v -> (forall d, In d (depths v) -> d = k) -> lev ic k (write_v dec v).
Proof. intros O N D. apply (VB_all v O N ic k D). Qed.
Lemma inline_b ic k v : value_ok v -> neat v -> (forall d, In d (depths v) -> d = k) -> lev ic k (inline_v dec v).
Proof. intros O N D. apply inline_v_b; [exact O|now apply value_b]. Qed.

(* ---- the end of a value on a line of its own ---- *)
Lemma last_in {A} (d : A) : forall s, last s d = d \/ In (last s d) s.
Proof. induction s as [|a [|b r] IH]; [now left|right; now left|]. destruct IH as [E|E]; [left; exact E|right; right; exact E]. Qed.
Lemma comment_no_nl c : comment_ok c -> ~ In nl (inline_comment (c_text c)).
Proof. intros [O|(b & E & N & _)]; apply inline_no_nl; [now right|]. left. exists b. auto. Qed.
Lemma write_last s f : ~ In nl s -> lastw f <> nl -> lastw (write_string s f) <> nl.
Proof. intros N L. cbn [write_string lastw]. destruct (last_in (lastw f) s) as [->|I]; [exact L|]. intro E. rewrite E in I. auto. Qed.
Lemma when_space_last b f : lastw (when b space f) = lastw f. Proof. destruct b; reflexivity. Qed.
Lemma inline_last : forall cs f, comments_ok cs -> lastw f <> nl -> lastw (inline_comments cs f) <> nl.
Proof.
  intro cs. unfold inline_comments. generalize true. induction cs as [|c r IH]; intros b f O L; [exact L|]. destruct O as (Oc & Or & _). cbn [inline_comments_from]. unfold seq. apply IH; [exact Or|].
  destruct (negb (c_virtual c)); cbn [when]; [|exact L]. apply write_last; [exact (comment_no_nl c Oc)|]. rewrite when_space_last. exact L.
Qed.
Lemma rune_last s t f : runet s t -> ~ In nl (b_ s) -> lastw (write_tok t f) <> nl.
Proof.
  intros (K & _ & c & E & I) N X. unfold write_tok, wtext in X. rewrite K, E in X. assert (G : c = nl) by (destruct (opens t); [|destruct (closes t)]; exact X). subst c. auto.
Qed.
Lemma inline_tok_last s t f : runet s t -> ~ In nl (b_ s) -> lastw (inline_tok t f) <> nl.
Proof. intros R N. unfold inline_tok, seq. cbn [set_inl set_prev lastw]. apply inline_last; [apply (rune_coms _ _ R)|]. exact (rune_last s t _ R N). Qed.
Lemma end_inline_last s t sm b f : runet s t -> ~ In nl (b_ s) -> orune ";" sm -> lastw (body_end_inline t sm b f) <> nl.
Proof.
  intros R N Rs. unfold body_end_inline, seq. cbn [set_prev lastw]. set (g := if b then _ else _). pose proof (rune_last s t (g f) R N) as L. destruct (nonempty (t_trail t)); [apply inline_last; [apply (rune_coms _ _ R)|exact L]|].
  unfold virtual_trail. destruct sm as [s'|]; [|exact L]. destruct (t_virtual s'); [|exact L]. apply inline_last; [apply (rune_coms _ _ Rs)|exact L].
Qed.
Lemma literal_last v f : value_ok v -> match v with VMsg _ _ _ _ | VArr _ _ _ _ _ => True | _ => False end -> lastw (write_v dec v f) <> nl.
Proof.
  intros O Lt. assert (N1 : ~ In nl (b_ "}>")) by (intros [X|[X|[]]]; discriminate). assert (N2 : ~ In nl (b_ "]")) by (intros [X|[]]; discriminate). destruct v as [| | | |o fs c sm|o vs cs c sm]; try destruct Lt.
  - apply value_ok_msg in O as (_ & Rc & Rs & _). unfold write_v. cbn [write_value]. destruct (fields_expanded fs).
    + unfold body, seq. exact (end_inline_last _ _ _ _ _ Rc N1 Rs).
    + unfold seq, skip. exact (inline_tok_last _ _ _ Rc N1).
  - apply value_ok_arr in O as (_ & Rc & Rs & _). unfold write_v. cbn [write_value]. unfold body. destruct vs as [|v r].
    + destruct (interior_comments [o; c]); unfold seq; exact (end_inline_last _ _ _ _ _ Rc N2 Rs).
    + unfold seq. exact (end_inline_last _ _ _ _ _ Rc N2 Rs).
Qed.
Lemma mays_fresh ic : mays ic fresh_line.
Proof. unfold fresh_line. intros f. destruct (Ascii.eqb (lastw f) nl); [exact (flat_mays ic skip (flat_skip ic) f)|exact (sets_mays ic _ (sets_p_blank ic) f)]. Qed.
Lemma line_end_v_b ic v : value_ok v -> neat v -> whole ic (line_end_v dec v).
Proof.
  intros O N. destruct (all_depth _ (neat_level v N)) as (k & D). pose proof (value_b ic k v O N D) as A.
  assert (L : match v with VMsg _ _ _ _ | VArr _ _ _ _ _ => True | _ => False end -> whole ic (write_v dec v ;; fresh_line)).
  { intros Lt f Ei P. unfold seq, fresh_line. destruct (Ascii.eqb (lastw (write_v dec v f)) nl) eqn:E; [apply Ascii.eqb_eq in E; destruct (literal_last v f O Lt E)|].
    exact (lev_sets ic k _ _ (lev_lev0 _ _ _ A) (sets_p_blank ic) f Ei P). }
  destruct v as [t|ts|ts|s n|o fs c sm|o vs cs c sm]; try exact (L Logic.I); cbn [line_end_v].
  - apply sets_whole, sets_line_end. exact (tok_still t O).
  - apply whole_seq; [|apply mays_whole, mays_fresh]. apply flat_whole, flat_inline_toks. exact (ident_still (Cid ts) O).
  - apply whole_seq; [|apply mays_whole, mays_fresh]. apply sets_whole, sets_compound, strt_all, O.
  - apply whole_seq; [|apply mays_whole, mays_fresh]. destruct O as (Rs & On). apply flat_whole, flat_seq0; apply still_inline; [apply (rune_still _ _ Rs); reflexivity|]. destruct On; auto using numt_still, idt_still.
Qed.

(* ---- options ---- *)
Lemma some_still s o : some_rune s o -> forallb neutral (b_ s) = true -> exists t, o = Some t /\ still t.
Proof. intros (t & -> & R) N. exists t. split; [reflexivity|]. exact (rune_still _ _ R N). Qed.
Lemma compound_val v ts : compound (Some v) = Some ts -> v = VStr ts. Proof. destruct v; cbn; congruence. Qed.
Ltac seg := repeat (apply whole_seq; [first [apply flat_whole, flat_out | apply flat_whole, flat_skip | apply mays_whole, mays_start_pre]|]).
Lemma opt_elem_b lastx w o : keyword_option_ok o -> oneat (o_val o) -> elem_b false lastx (opt_elem dec false w o).
Proof.
  intros (((ps & En & On) & Oe & (v & Ev & Ov) & Os) & (k & Ek & Ok) & Ns) N. destruct (some_still _ _ Oe eq_refl) as (e & Ee & Se). rewrite Ev in N. cbn [oneat] in N.
  destruct (o_semi o) as [sm|] eqn:Es; [|congruence]. assert (Ss : still sm) by (apply (rune_still _ _ Os); reflexivity).
  right. split; [discriminate|]. split; [reflexivity|]. cbn [opt_elem e_seg]. cbv zeta. unfold opt_seg. rewrite En, Ee, Ev, Ek, Es. cbn [s_ctx s_type s_name s_eq s_end s_outer opt_toks opt_w must]. split; [|apply flat_skip].
  seg. apply whole_seq; [apply flat_whole, flat_seq0; [apply still_tok, idt_still, Ok|apply flat_start_post]|]. seg. apply whole_seq; [apply flat_whole, flat_seq0; [apply flat_name, On|apply flat_skip]|]. seg.
  apply whole_seq; [apply flat_whole, still_inline, Se|]. seg. apply whole_seq; [|apply flat_whole, flat_out]. destruct (compound (Some v)) as [ts|] eqn:Ec.
  - apply compound_val in Ec. subst v. apply whole_seq; [apply sets_whole, sets_compound, strt_all, Ov|apply sets_whole, sets_line_end, Ss].
  - destruct (all_depth _ (neat_level v N)) as (j & D). apply (lev_sets false j); [apply lev_lev0, value_b; assumption|apply sets_line_end, Ss].
Qed.
Lemma copt_elem_b lastx o : o_kw o = None -> (only_comma o = true \/ opt_ok "," o) -> (lastx = true \/ o_semi o <> None) -> (forall ts, compound (o_val o) = Some ts -> o_semi o <> None) -> oneat (o_val o) -> elem_b true lastx (opt_elem dec true skip o).
Proof.
  intros Ek O Hl Hc N. right. split; [discriminate|]. split; [reflexivity|]. cbn [opt_elem e_seg]. cbv zeta. destruct O as [O|((ps & En & On) & Oe & (v & Ev & Ov) & Os)].
  - unfold only_comma in O. destruct (o_name o) eqn:En, (o_eq o) eqn:Ee, (o_val o) eqn:Ev, (o_semi o) as [sm|] eqn:Es; try discriminate. unfold opt_seg. rewrite En, Ee, Ev, Es, Ek. cbn [s_ctx s_type s_name s_eq s_end s_outer opt_toks opt_w must compound negb].
    split; [|apply flat_skip]. seg. apply whole_seq; [|apply flat_whole, flat_out]. destruct lastx; [apply flat_whole, flat_skip|]. apply whole_seq; [apply flat_whole, flat_skip|]. apply sets_whole, sets_line_end, still_comma. reflexivity.
  - destruct (some_still _ _ Oe eq_refl) as (e & Ee & Se). rewrite Ev in N, Hc. cbn [oneat] in N. unfold opt_seg. rewrite En, Ee, Ev, Ek. cbn [s_ctx s_type s_name s_eq s_end s_outer opt_toks opt_w negb].
    split; [|apply flat_skip]. seg. apply whole_seq; [apply flat_whole, flat_seq0; [apply flat_name, On|apply flat_start_post]|]. seg.
    apply whole_seq; [apply flat_whole, still_inline, Se|]. seg. apply whole_seq; [|apply flat_whole, flat_out]. destruct (compound (Some v)) as [ts|] eqn:Ec.
    + destruct (o_semi o) as [sm|] eqn:Es; [|destruct (Hc ts eq_refl eq_refl)]. apply compound_val in Ec. subst v. cbn [must]. apply whole_seq; [apply sets_whole, sets_compound, strt_all, Ov|].
      apply sets_whole, sets_line_end, (rune_still _ _ Os). reflexivity.
    + destruct lastx; [apply line_end_v_b; assumption|]. destruct Hl as [Hl|Hl]; [discriminate|]. destruct (o_semi o) as [sm|] eqn:Es; [|congruence]. cbn [must].
      destruct (all_depth _ (neat_level v N)) as (j & D). apply (lev_sets true j); [apply lev_lev0, value_b; assumption|apply sets_line_end, still_comma; reflexivity].
Qed.
Lemma last_map_cons {A} (a b : A) r : last (map Some (a :: b :: r)) None = last (map Some (b :: r)) None. Proof. reflexivity. Qed.
Lemma copts_elems_b : forall os, opts_ok os -> Forall (fun o => oneat (o_val o)) os ->
  (forall o ts, last (map Some os) None = Some o -> compound (o_val o) = Some ts -> o_semi o <> None) -> elems_b true 0 (map (opt_elem dec true skip) os).
Proof.
  induction os as [|o r IH]; intros O N H; [constructor|]. destruct O as (Ek & Hs & Oo & Or). inversion N as [|? ? No Nr]; subst. cbn [map]. constructor.
  - cbn [Nat.eqb andb]. apply copt_elem_b; [exact Ek|destruct Oo as [[Oo _]|Oo]; auto| | |exact No].
    + destruct r; [left; reflexivity|right; destruct Hs as [Hs|Hs]; [exact Hs|discriminate]].
    + intros ts Ec. destruct r as [|o2 r2]; [exact (H o ts eq_refl Ec)|destruct Hs as [Hs|Hs]; [exact Hs|discriminate]].
  - apply IH; [exact Or|exact Nr|]. destruct r as [|o2 r2]; [intros o' ts X; discriminate|]. intros o' ts. rewrite <- (last_map_cons o o2 r2). apply H.
Qed.
Lemma inline_opts_b k close : flat true (-1) close -> forall os, opts_ok os -> Forall (fun o => oneat (o_val o)) os -> (forall d, In d (flat_map (fun o => odepths (o_val o)) os) -> d = k) ->
  T true (fun _ p => (- Z.of_nat k <= p)%Z) (fun i p i' p' => i' = i /\ (p' = p - 1)%Z \/ i' = step i (p + Z.of_nat k) /\ (p' = - Z.of_nat k - 1)%Z) (inline_opts dec close os).
Proof.
  intro C. induction os as [|o r IH]; intros O N D; [cbn [inline_opts]; tsub C|]. destruct O as (Ek & Hs & Oo & Or). inversion N as [|? ? No Nr]; subst. cbn [inline_opts]. cbn [flat_map] in D.
  assert (IH' := IH Or Nr (fun d I => D d (in_or_app _ _ _ (or_intror I)))). destruct (only_comma o) eqn:Oc; [exact IH'|]. destruct Oo as [[Oo _]|((ps & En & On) & Oe & (v & Ev & Ov) & Os)]; [discriminate|].
  destruct (some_still _ _ Oe eq_refl) as (e & Ee & Se). rewrite En, Ee, Ev in *. cbn [opt_w oneat must odepths] in *.
  assert (A : flat true 0 (inline_node (write_name ps) ;; space ;; inline_tok e)).
  { apply flat_seq0; [apply inline_node_T, flat_name, On|]. apply flat_seq0; [apply flat_space|apply still_inline, Se]. }
  assert (G : T true (fun _ p => (- Z.of_nat k <= p)%Z) (fun i p i' p' => i' = i /\ (p' = p - 1)%Z \/ i' = step i (p + Z.of_nat k) /\ (p' = - Z.of_nat k - 1)%Z)
    match compound (Some v) with
    | Some ts => compound_string false true ts ;; close
    | None => space ;; inline_v dec v ;; match o_semi o with Some t => when (nonempty r) (inline_tok (with_rune "," t) ;; space) | None => skip end ;; inline_opts dec close r
    end).
  { destruct (compound (Some v)) as [ts|] eqn:Ec.
    - apply compound_val in Ec. subst v. assert (k = 0) as -> by (symmetry; apply D; now left). pose proof (mays_lev _ _ (sets_mays _ _ (sets_compound true false true ts (strt_all _ (proj2 Ov))))) as S. tseq S C.
    - assert (V : lev true k (space ;; inline_v dec v)) by (apply lev_seq; [apply flat_lev, flat_space|apply inline_b; [exact Ov|exact No|intros d I; apply D, in_or_app; now left]]).
      assert (W : lev true k (match o_semi o with Some t => when (nonempty r) (inline_tok (with_rune "," t) ;; space) | None => skip end)).
      { apply flat_lev. destruct (o_semi o); [apply flat_when, flat_seq0; [apply still_inline, still_comma; reflexivity|apply flat_space]|apply flat_skip]. }
      pose proof (lev_seq _ _ _ _ V W) as VW.
      pose proof (T_seq true _ _ _ _ (fun _ p => (- Z.of_nat k <= p)%Z) (fun i p i' p' => i' = i /\ (p' = p - 1)%Z \/ i' = step i (p + Z.of_nat k) /\ (p' = - Z.of_nat k - 1)%Z) _ _ VW IH' ltac:(bal) ltac:(bal) ltac:(bal)) as X. exact X. }
  pose proof (T_seq true _ _ _ _ (fun _ p => (- Z.of_nat k <= p)%Z) (fun i p i' p' => i' = i /\ (p' = p - 1)%Z \/ i' = step i (p + Z.of_nat k) /\ (p' = - Z.of_nat k - 1)%Z) _ _ A G ltac:(bal) ltac:(bal) ltac:(bal)) as X. exact X.
Qed.
Lemma set_compact_b pre post m : T true pre post m -> T false pre post (set_compact true ;; m ;; set_compact false).
Proof. intros A f Ei P. destruct (A (set_compact true f) eq_refl P) as (E1 & E2 & E3). unfold seq. cbn. auto. Qed.
Lemma copts_b k c : copts_ok (Some c) -> neat_copts (Some c) -> (forall d, In d (copts_depths (Some c)) -> d = k) -> lev false k (write_copts dec c).
Proof.
  intros (Ro & Rc & Rs & Oo & Kc & Ke) N D. cbn [neat_copts copts_depths] in *. pose proof (rune_open _ _ Ro eq_refl) as Do. pose proof (rune_close _ _ Rc eq_refl) as Dc.
  unfold write_copts. apply set_compact_b. destruct (copts_expanded c) eqn:E.
  - pose proof (D 1 (or_introl eq_refl)) as <-. destruct (co_opts c) as [|o r] eqn:Eo; [unfold copts_expanded in E; rewrite Eo in E; discriminate|]. apply body_lev; [apply open_prefix_b, Do| |apply body_end_inline_b, Dc]. apply columns_b, copts_elems_b; [exact Oo|exact N|exact (Ke eq_refl)].
  - destruct (co_opts c) as [|o r] eqn:Eo; cbn [nonempty when]; [apply flat_lev, flat_skip|]. rewrite <- Eo in *.
    assert (C : flat true (-1) (inline_tok (co_close c))) by (rewrite <- Dc; apply flat_inline_tok). assert (A : flat true 1 (inline_tok (co_open c))) by (rewrite <- Do; apply flat_inline_tok).
    assert (W : forall j, (forall d, In d (flat_map (fun o => odepths (o_val o)) (co_opts c)) -> d = j) -> lev true (S j) (inline_tok (co_open c) ;; inline_opts dec (inline_tok (co_close c)) (co_opts c))).
    { intros j Dj. pose proof (inline_opts_b j _ C (co_opts c) Oo N Dj) as B. eapply T_seq; [exact A|exact B|bal|bal|]. intros i p i1 p1 i2 p2 H1 [-> ->] [[-> ->]|[-> ->]]; [left; lia|right]. split; [f_equal; lia|lia]. }
    destruct k as [|k].
    + assert (Z0 : flat_map (fun o => odepths (o_val o)) (co_opts c) = []) by (destruct (flat_map _ _) as [|x l]; [reflexivity|specialize (D (S x) (or_introl eq_refl)); discriminate]).
      apply lev_any; apply W; rewrite Z0; intros d [].
    + apply W. intros d I. specialize (D (S d) (in_map S _ d I)). congruence.
Qed.
Lemma ocopts_b k oc : copts_ok oc -> neat_copts oc -> (forall d, In d (copts_depths oc) -> d = k) -> lev false k (opt_w (write_copts dec) oc).
Proof. destruct oc; [apply copts_b|]. intros _ _ _. apply flat_lev, flat_skip. Qed.
Lemma opts_b k oc : copts_ok oc -> neat_copts oc -> (forall d, In d (copts_depths oc) -> d = k) -> lev false k (write_opts dec oc).
Proof. intros O N D. destruct oc; [|apply flat_lev, flat_skip]. cbn [write_opts opt_w]. apply lev_seq; [apply flat_lev, flat_space|now apply copts_b]. Qed.
Lemma option_b o : keyword_option_ok o -> oneat (o_val o) -> whole false (write_option dec o).
Proof.
  intros (((ps & En & On) & Oe & (v & Ev & Ov) & Os) & (k & Ek & Ok) & Ns) N. destruct (some_still _ _ Oe eq_refl) as (e & Ee & Se). rewrite Ev in N. cbn [oneat] in N.
  destruct (o_semi o) as [sm|] eqn:Es; [|congruence]. assert (Ss : still sm) by (apply (rune_still _ _ Os); reflexivity).
  unfold write_option. rewrite En, Ee, Ev, Ek, Es. cbn [opt_w must]. apply whole_seq; [apply whole_seq; [apply mays_whole, mays_start_tok, idt_still, Ok|]; apply flat_whole, flat_seq0; [apply flat_space|apply flat_name, On]|].
  apply whole_seq; [apply flat_whole, flat_space|]. apply whole_seq; [apply flat_whole, still_inline, Se|]. apply whole_seq; [apply flat_whole, flat_space|]. destruct (compound (Some v)) as [ts|] eqn:Ec.
  - apply compound_val in Ec. subst v. apply whole_seq; [apply sets_whole, sets_compound, strt_all, Ov|apply sets_whole, sets_line_end, Ss].
  - destruct (all_depth _ (neat_level v N)) as (j & D). apply (lev_sets false j); [apply lev_lev0, inline_b; assumption|apply sets_line_end, Ss].
Qed.

(* ---- declarations ---- *)
Lemma level_both l1 l2 : level (l1 ++ l2) -> exists k, (forall d, In d l1 -> d = k) /\ (forall d, In d l2 -> d = k).
Proof. intro L. destruct (all_depth _ L) as (k & D). exists k. split; intros d I; apply D, in_or_app; auto. Qed.
Lemma flat_oidt ic o : oidt o -> flat ic 0 (opt_w (fun t => inline_tok t ;; space) o).
Proof. intro O. destruct o; [|apply flat_skip]. apply flat_seq0; [apply still_inline, idt_still, O|apply flat_space]. Qed.
Lemma flat_spaced ic m : flat ic 0 m -> flat ic 0 (space ;; m). Proof. intro A. apply flat_seq0; [apply flat_space|exact A]. Qed.
Lemma flat_type_rest ic ty : ident_ok ty -> flat ic 0 (field_type_rest ty).
Proof.
  intro O. pose proof (ident_still ty O) as S. destruct ty as [t|[|t r]]; cbn [field_type_rest]; [inversion S; subst; apply flat_seq0; [now apply still_tok|apply flat_start_post]|apply flat_crash|].
  inversion S; subst. apply flat_seq0; [now apply still_tok|]. apply flat_seq0; [apply flat_start_post|]. apply flat_seq0; [apply flat_when; now apply still_inline|now apply flat_inline_toks].
Qed.
Lemma lev0_l ic k a b : whole ic a -> lev ic k b -> lev0 ic k (a ;; b). Proof. intros A B. apply whole_lev; [exact A|now apply lev_lev0]. Qed.
Lemma whole_end ic k a b c : lev ic k a -> lev ic k b -> sets ic c -> whole ic (a ;; b ;; c).
Proof. intros A B C. exact (lev_sets ic k _ _ (lev_lev0 _ _ _ (lev_seq _ _ _ _ A B)) C). Qed.
Lemma field_b l ty n e tg os sm : decl_ok (DField l ty n e tg os sm) -> neat_decl (DField l ty n e tg os sm) ->
  whole false (write_field dec l ty n e tg os sm) /\ forall lastx w, elem_b false lastx (decl_elem dec w (DField l ty n e tg os sm)).
Proof.
  intros (Ol & Oty & _ & (nt & En & On) & Oe & (v & Ev & Ov) & Oc & Os) (N1 & N2 & L). destruct (some_still _ _ Oe eq_refl) as (et & Ee & Se). destruct (some_still _ _ Os eq_refl) as (st & Es & Ss). subst n tg e sm.
  cbn [oneat odepths] in *. destruct (level_both _ _ L) as (k & D1 & D2). pose proof (idt_still _ On) as Sn.
  assert (V : lev false k (inline_v dec v)) by (apply inline_b; assumption).
  split.
  - unfold write_field. cbn [opt_w must]. apply whole_seq.
    { destruct l as [t|]; [apply whole_seq; [apply mays_whole, mays_start_tok, idt_still, Ol|apply flat_whole, flat_spaced, flat_inline_ident, Oty]|].
      apply whole_seq; [apply mays_whole, mays_start_pre|apply flat_whole, flat_type_rest, Oty]. }
    apply whole_seq; [apply flat_whole, flat_spaced, still_inline, Sn|]. apply whole_seq; [apply flat_whole, flat_spaced, still_inline, Se|].
    apply (whole_end false k); [apply lev_seq; [apply flat_lev, flat_space|exact V]|apply opts_b; assumption|apply sets_line_end, Ss].
  - intros lastx w. right. split; [discriminate|]. split; [reflexivity|]. cbn [decl_elem e_seg]. cbv zeta. unfold field_seg. cbn [s_ctx s_type s_name s_eq s_end s_outer opt_w must]. split; [|apply flat_skip].
    apply whole_seq; [destruct l; apply mays_whole, mays_start_pre|]. seg. apply whole_seq.
    { destruct l as [t|]; [|apply flat_whole, flat_type_rest, Oty]. apply flat_whole, flat_seq0; [apply still_tok, idt_still, Ol|]. apply flat_seq0; [apply flat_start_post|apply flat_spaced, flat_inline_ident, Oty]. }
    seg. apply whole_seq; [apply flat_whole, still_inline, Sn|]. seg.
    assert (A : lev false k (inline_tok et ;; space ;; inline_v dec v)) by (apply lev_seq; [apply flat_lev, still_inline, Se|]; apply lev_seq; [apply flat_lev, flat_space|exact V]).
    assert (B : lev false k (set_out [])) by apply flat_lev, flat_out.
    assert (C : whole false ((inline_tok et ;; space ;; inline_v dec v) ;; (set_out [] ;; opt_w (write_copts dec) os) ;; line_end st)).
    { apply (whole_end false k); [exact A|apply lev_seq; [exact B|apply ocopts_b; assumption]|apply sets_line_end, Ss]. }
    exact (whole_seq false _ _ C (flat_whole _ _ (flat_out false []))).
Qed.
Lemma flat_map_rest ic o k cm v c : runet "<" o -> ident_ok k -> runet "," cm -> ident_ok v -> runet ">" c -> flat ic 0 (map_type_rest o k cm v c).
Proof.
  intros Ro Ok Rm Ov Rc. unfold map_type_rest. apply (flat_seq ic 1 (-1)); [rewrite <- (rune_open _ _ Ro eq_refl); apply flat_inline_tok| |reflexivity].
  apply flat_r; [apply flat_inline_ident, Ok|]. apply flat_r; [apply still_inline, (rune_still _ _ Rm); reflexivity|]. apply flat_r; [apply flat_space|]. apply flat_r; [apply flat_inline_ident, Ov|]. rewrite <- (rune_close _ _ Rc eq_refl). apply flat_inline_tok.
Qed.
Lemma flat_map_semi ic o : flat ic 0 (map_semi_comments o).
Proof. destruct o; [apply flat_when, flat_inline_comments|apply flat_skip]. Qed.
Lemma map_b kw o k cm v c tsm n e tg os sm : let d := DMap kw o k cm v c tsm n e tg os sm in decl_ok d -> neat_decl d ->
  whole false (write_decl dec d) /\ forall lastx w, elem_b false lastx (decl_elem dec w d).
Proof.
  intros d (Okw & Ro & Ok & Rm & Ov & Rc & Rt & On & Re & Og & Oc & Os) (N1 & N2 & L). destruct (some_still _ _ Os eq_refl) as (st & -> & Ss). destruct (level_both _ _ L) as (j & D1 & D2).
  pose proof (idt_still _ On) as Sn. assert (Se : still e) by (apply (rune_still _ _ Re); reflexivity). pose proof (flat_map_rest false _ _ _ _ _ Ro Ok Rm Ov Rc) as R.
  assert (V : lev false j (inline_v dec tg)) by (apply inline_b; assumption). split.
  - cbn [d write_decl must]. apply whole_seq; [apply mays_whole, mays_start_tok, idt_still, Okw|]. apply whole_seq; [apply flat_whole, R|]. apply whole_seq; [apply flat_whole, flat_map_semi|].
    apply whole_seq; [apply flat_whole, flat_space|]. apply whole_seq; [apply flat_whole, still_inline, Sn|]. apply whole_seq; [apply flat_whole, flat_space|]. apply whole_seq; [apply flat_whole, still_inline, Se|]. apply whole_seq; [apply flat_whole, flat_space|].
    apply (whole_end false j); [exact V|apply opts_b; assumption|apply sets_line_end, Ss].
  - intros lastx w. right. split; [discriminate|]. split; [reflexivity|]. cbn [d decl_elem e_seg]. cbv zeta. unfold map_seg. cbn [s_ctx s_type s_name s_eq s_end s_outer opt_w must]. split; [|apply flat_map_semi].
    seg. apply whole_seq; [apply flat_whole, flat_seq0; [apply still_tok, idt_still, Okw|]; apply flat_seq0; [apply flat_start_post|exact R]|]. seg. apply whole_seq; [apply flat_whole, still_inline, Sn|]. seg.
    assert (A : lev false j (inline_tok e ;; space ;; inline_v dec tg)) by (apply lev_seq; [apply flat_lev, still_inline, Se|]; apply lev_seq; [apply flat_lev, flat_space|exact V]).
    assert (B : lev false j (set_out [])) by apply flat_lev, flat_out.
    assert (C : whole false ((inline_tok e ;; space ;; inline_v dec tg) ;; (set_out [] ;; opt_w (write_copts dec) os) ;; line_end st)).
    { apply (whole_end false j); [exact A|apply lev_seq; [exact B|apply ocopts_b; assumption]|apply sets_line_end, Ss]. }
    exact (whole_seq false _ _ C (flat_whole _ _ (flat_out false []))).
Qed.
Lemma enum_value_b n e v os sm : let d := DEnumValue n e v os sm in decl_ok d -> neat_decl d ->
  whole false (write_decl dec d) /\ forall lastx w, elem_b false lastx (decl_elem dec w d).
Proof.
  intros d (On & Re & Ov & Oc & (st & -> & _)) (N1 & N2 & L). destruct (level_both _ _ L) as (j & D1 & D2).
  pose proof (idt_still _ On) as Sn. assert (Se : still e) by (apply (rune_still _ _ Re); reflexivity). assert (Ss : still (with_rune ";" st)) by (apply still_comma; reflexivity).
  assert (V : lev false j (inline_v dec v)) by (apply inline_b; assumption). split.
  - cbn [d write_decl must]. apply whole_seq; [apply mays_whole, mays_start_tok, Sn|]. apply whole_seq; [apply flat_whole, flat_space|]. apply whole_seq; [apply flat_whole, still_inline, Se|]. apply whole_seq; [apply flat_whole, flat_space|].
    apply (whole_end false j); [exact V|apply opts_b; assumption|apply sets_line_end, Ss].
  - intros lastx w. right. split; [discriminate|]. split; [reflexivity|]. cbn [d decl_elem e_seg]. cbv zeta. unfold enum_value_seg. cbn [s_ctx s_type s_name s_eq s_end s_outer opt_w must]. split; [|apply flat_skip].
    seg. apply whole_seq; [apply flat_whole, flat_seq0; [apply still_tok, Sn|apply flat_start_post]|]. seg.
    assert (A : lev false j (inline_tok e ;; space ;; inline_v dec v)) by (apply lev_seq; [apply flat_lev, still_inline, Se|]; apply lev_seq; [apply flat_lev, flat_space|exact V]).
    assert (B : lev false j (set_out [])) by apply flat_lev, flat_out.
    assert (C : whole false ((inline_tok e ;; space ;; inline_v dec v) ;; (set_out [] ;; opt_w (write_copts dec) os) ;; line_end (with_rune ";" st))).
    { apply (whole_end false j); [exact A|apply lev_seq; [exact B|apply ocopts_b; assumption]|apply sets_line_end, Ss]. }
    exact (whole_seq false _ _ C (flat_whole _ _ (flat_out false []))).
Qed.
Lemma relem_b k e : relem_ok e -> neat_relem e -> (forall d, In d (relem_depths e) -> d = k) -> lev false k (write_relem dec e).
Proof.
  destruct e as [t|v|s to en mx]; cbn [relem_ok neat_relem relem_depths write_relem].
  - intros R _ _. apply flat_lev, still_inline, (rune_still _ _ R). reflexivity.
  - intros O N D. apply lev_seq; [apply flat_lev, flat_space|now apply inline_b].
  - intros (Os & Ot & Oe) (Ns & Ne) D. apply lev_seq; [apply flat_lev, flat_space|]. apply inline_node_T. apply lev_seq; [apply inline_b; auto; intros d I; apply D, in_or_app; now left|].
    apply lev_seq; [destruct to; [apply flat_lev, flat_spaced, still_inline, idt_still, Ot|apply flat_lev, flat_skip]|]. destruct en as [v|].
    + apply lev_seq; [apply flat_lev, flat_space|]. apply inline_b; [apply Oe|exact Ne|]. intros d I. apply D, in_or_app. now right.
    + destruct mx; [apply flat_lev, flat_spaced, still_inline, idt_still, Oe|apply flat_lev, flat_skip].
Qed.
Lemma relems_b k : forall es, Forall relem_ok es -> Forall neat_relem es -> (forall d, In d (flat_map relem_depths es) -> d = k) -> lev false k (seqs (map (write_relem dec) es)).
Proof.
  induction es as [|e r IH]; intros O N D; [apply flat_lev, flat_skip|]. inversion O; inversion N; subst. cbn [map seqs flat_map] in *.
  apply lev_seq; [apply relem_b; auto; intros d I; apply D, in_or_app; now left|apply IH; auto; intros d I; apply D, in_or_app; now right].
Qed.
Lemma flat_rpctype ic r : rpctype_ok r -> flat ic 0 (write_rpctype r).
Proof.
  intros (Ro & Rc & Ot & Os). unfold write_rpctype. apply inline_node_T. apply (flat_seq ic 1 (-1)); [rewrite <- (rune_open _ _ Ro eq_refl); apply flat_inline_tok| |reflexivity].
  apply flat_r; [apply flat_oidt, Os|]. apply flat_r; [apply flat_inline_ident, Ot|]. rewrite <- (rune_close _ _ Rc eq_refl). apply flat_inline_tok.
Qed.
Definition DB (d : decl) : Prop := decl_ok d -> neat_decl d -> whole false (write_decl dec d) /\ forall lastx, elem_b false lastx (decl_elem dec (write_decl dec d) d).
Lemma plain_b d : e_kind (decl_elem dec (write_decl dec d) d) = ENone -> e_node (decl_elem dec (write_decl dec d) d) = write_decl dec d ->
  whole false (write_decl dec d) -> whole false (write_decl dec d) /\ forall lastx, elem_b false lastx (decl_elem dec (write_decl dec d) d).
Proof. intros E1 E2 A. split; [exact A|]. intro lastx. left. split; [exact E1|]. rewrite E2. exact A. Qed.
Lemma decls_elems_b : forall b, Forall DB b -> Forall decl_ok b -> Forall neat_decl b -> elems_b false 0 (map (fun d => decl_elem dec (write_decl dec d) d) b).
Proof.
  induction b as [|d r IH]; intros F O N; [constructor|]. inversion F as [|x y Fd Fr]; inversion O as [|x' y' Od Or]; inversion N as [|x2 y2 Nd Nr]; subst. cbn [map]. constructor; [apply (Fd Od Nd)|now apply IH].
Qed.
Lemma decls_b : forall b, Forall DB b -> Forall decl_ok b -> Forall neat_decl b -> whole false (seqs (map (write_decl dec) b)).
Proof.
  induction b as [|d r IH]; intros F O N; [apply flat_whole, flat_skip|]. inversion F as [|x y Fd Fr]; inversion O as [|x' y' Od Or]; inversion N as [|x2 y2 Nd Nr]; subst. cbn [map seqs]. apply whole_seq; [apply (Fd Od Nd)|now apply IH].
Qed.
Lemma some_if_b {A} (b : list A) m : whole false m -> forall m', some_if b m = Some m' -> whole false m'.
Proof. intros W m' E. destruct b; [discriminate|]. injection E as <-. exact W. Qed.
Lemma columns_body_b o c sm b : runet "{" o -> runet "}" c -> Forall DB b -> Forall decl_ok b -> Forall neat_decl b ->
  bodied false (type_body o c sm (some_if b (columns dec (map (fun d => decl_elem dec (write_decl dec d) d) b)))).
Proof. intros Ro Rc F O N. apply type_body_b; [apply (rune_open _ _ Ro); reflexivity|apply (rune_close _ _ Rc); reflexivity|]. apply some_if_b, columns_b, decls_elems_b; assumption. Qed.
Lemma seqs_body_b o c sm b : runet "{" o -> runet "}" c -> Forall DB b -> Forall decl_ok b -> Forall neat_decl b ->
  bodied false (type_body o c sm (some_if b (seqs (map (write_decl dec) b)))).
Proof. intros Ro Rc F O N. apply type_body_b; [apply (rune_open _ _ Ro); reflexivity|apply (rune_close _ _ Rc); reflexivity|]. apply some_if_b, decls_b; assumption. Qed.
Lemma named_b kw n m : idt kw -> idt n -> bodied false m -> whole false (start_tok false kw ;; space ;; inline_tok n ;; space ;; m).
Proof.
  intros Ok On A. apply whole_seq; [apply mays_whole, mays_start_tok, idt_still, Ok|]. apply whole_seq; [apply flat_whole, flat_space|]. apply whole_seq; [apply flat_whole, still_inline, idt_still, On|].
  apply whole_seq; [apply flat_whole, flat_space|]. apply bodied_whole, A.
Qed.
Lemma lev1_bodied ic a b : lev0 ic 1 a -> bodied ic b -> whole ic (a ;; b). Proof. intros A B. tseq A B. Qed.
Lemma DB_all : forall d, DB d.
Proof.
  apply decl_ind2; unfold DB.
  - intros l ty n e tg os sm O N. destruct (field_b _ _ _ _ _ _ _ O N) as [A B]. split; [exact A|]. intro. apply B.
  - intros kw o k cm v c tsm n e tg os sm O N. destruct (map_b _ _ _ _ _ _ _ _ _ _ _ _ O N) as [A B]. split; [exact A|]. intro. apply B.
  - intros n e v os sm O N. destruct (enum_value_b _ _ _ _ _ O N) as [A B]. split; [exact A|]. intro. apply B.
  - intros o O N. split; [exact (option_b o O N)|]. intro lastx. exact (opt_elem_b lastx skip o O N).
  - intros kw es sm (Ok & Oe & Os) (N & L). apply plain_b; [reflexivity..|]. cbn [write_decl]. destruct (some_still _ _ Os eq_refl) as (st & -> & Ss). destruct (all_depth _ L) as (k & D).
    apply whole_seq; [apply mays_whole, mays_start_tok, idt_still, Ok|]. apply (lev_sets false k); [apply lev_lev0; now apply relems_b|apply sets_line_end, Ss].
  - intros kw es os sm (Ok & Oe & Oc & Os) (N & Nc & L). apply plain_b; [reflexivity..|]. cbn [write_decl]. destruct (some_still _ _ Os eq_refl) as (st & -> & Ss). destruct (level_both _ _ L) as (k & D1 & D2).
    apply whole_seq; [apply mays_whole, mays_start_tok, idt_still, Ok|]. apply whole_seq; [apply flat_whole, flat_space|]. apply (whole_end false k); [now apply relems_b|now apply opts_b|apply sets_line_end, Ss].
  - intros kw n o b c sm F (Ok & On & Ro & Rc & _ & Ob) N. apply all_forall in Ob. apply (all_forall neat_decl) in N. apply plain_b; [reflexivity..|]. exact (named_b kw n _ Ok On (columns_body_b o c sm b Ro Rc F Ob N)).
  - intros kw n o b c sm F (Ok & On & Ro & Rc & _ & Ob) N. apply all_forall in Ob. apply (all_forall neat_decl) in N. apply plain_b; [reflexivity..|]. exact (named_b kw n _ Ok On (columns_body_b o c sm b Ro Rc F Ob N)).
  - intros kw n o b c sm F (Ok & On & Ro & Rc & _ & Ob) N. apply all_forall in Ob. apply (all_forall neat_decl) in N. apply plain_b; [reflexivity..|]. exact (named_b kw n _ Ok On (columns_body_b o c sm b Ro Rc F Ob N)).
  - intros kw x o b c sm F (Ok & Ox & Ro & Rc & _ & Ob) N. apply all_forall in Ob. apply (all_forall neat_decl) in N. apply plain_b; [reflexivity..|]. cbn [write_decl].
    apply whole_seq; [apply mays_whole, mays_start_tok, idt_still, Ok|]. apply whole_seq; [destruct x; [apply flat_whole, flat_spaced, flat_inline_ident, Ox|apply flat_whole, flat_skip]|].
    apply whole_seq; [apply flat_whole, flat_space|]. apply bodied_whole. exact (columns_body_b o c sm b Ro Rc F Ob N).
  - intros l kw n e tg os o b c sm F (Ol & Ok & On & Re & Ov & Oc & Ro & Rc & _ & Ob) (N1 & N2 & L & N). apply all_forall in Ob. apply (all_forall neat_decl) in N. apply plain_b; [reflexivity..|]. cbn [write_decl].
    assert (D : forall d, In d (depths tg ++ copts_depths os) -> d = 1) by (intros d I; apply L; rewrite app_assoc; apply in_or_app; [now left|right; now left]).
    apply whole_seq; [destruct l; [apply whole_seq; [apply mays_whole, mays_start_tok, idt_still, Ol|apply flat_whole, flat_spaced, still_inline, idt_still, Ok]|apply mays_whole, mays_start_tok, idt_still, Ok]|].
    apply whole_seq; [apply flat_whole, flat_space|]. apply whole_seq; [apply flat_whole, still_inline, idt_still, On|]. apply whole_seq; [apply flat_whole, flat_space|]. apply whole_seq; [apply flat_whole, still_inline, (rune_still _ _ Re); reflexivity|]. apply whole_seq; [apply flat_whole, flat_space|].
    assert (A : lev false 1 (inline_v dec tg ;; write_opts dec os ;; space)).
    { apply lev_seq; [apply inline_b; auto; intros d I; apply D, in_or_app; now left|]. apply lev_seq; [apply opts_b; auto; intros d I; apply D, in_or_app; now right|apply flat_lev, flat_space]. }
    exact (lev1_bodied false _ _ (lev_lev0 _ _ _ A) (seqs_body_b o c sm b Ro Rc F Ob N)).
  - intros kw n o b c sm F (Ok & On & Ro & Rc & _ & Ob) N. apply all_forall in Ob. apply (all_forall neat_decl) in N. apply plain_b; [reflexivity..|]. exact (named_b kw n _ Ok On (seqs_body_b o c sm b Ro Rc F Ob N)).
  - intros kw n i rt u br b sm F (Ok & On & Oi & Ort & Ou & _ & Ob & Hb) N. apply all_forall in Ob. apply (all_forall neat_decl) in N. apply plain_b; [reflexivity..|]. cbn [write_decl].
    apply whole_seq; [apply mays_whole, mays_start_tok, idt_still, Ok|]. apply whole_seq; [apply flat_whole, flat_space|]. apply whole_seq; [apply flat_whole, still_inline, idt_still, On|]. apply whole_seq; [apply flat_whole, flat_rpctype, Oi|]. apply whole_seq; [apply flat_whole, flat_space|].
    apply whole_seq; [apply flat_whole, still_inline, idt_still, Ort|]. apply whole_seq; [apply flat_whole, flat_space|]. apply whole_seq; [apply flat_whole, flat_rpctype, Ou|]. destruct b as [|d r]; [apply sets_whole, sets_line_end; reflexivity|].
    apply whole_seq; [apply flat_whole, flat_space|]. destruct br as [[o c]|]; [|discriminate]. destruct Hb as [Ro Rc]. apply bodied_whole. exact (seqs_body_b o c sm (d :: r) Ro Rc F Ob N).
  - intros t _ _. apply plain_b; [reflexivity..|]. apply flat_whole, flat_skip.
Qed.

(* ---- files ---- *)
Lemma mays_sep ic ts : mays ic (sep_line ts).
Proof. unfold sep_line. apply (T_fun ic _ _ (fun f => when (match prev f with Some _ => true | None => false end && negb (blank_before ts)) p_blank)). intro g. apply mays_when, sets_mays, sets_p_blank. Qed.
Lemma import_b force i : import_ok i -> neat (i_name i) -> whole false (write_import dec force i).
Proof.
  intros (Ok & Om & Ov & Os) N. destruct (some_still _ _ Os eq_refl) as (st & Es & Ss). unfold write_import. rewrite Es. cbn [must]. destruct (all_depth _ (neat_level _ N)) as (k & D).
  apply whole_seq; [apply mays_whole, mays_start_tok, idt_still, Ok|]. apply whole_seq; [apply flat_whole, flat_space|]. apply whole_seq; [apply flat_whole, flat_oidt, Om|]. apply (lev_sets false k); [apply lev_lev0; now apply inline_b|apply sets_line_end, Ss].
Qed.
Lemma imports_b : forall l previous, Forall import_ok l -> Forall (fun i => neat (i_name i)) l -> whole false (write_imports dec previous l).
Proof.
  induction l as [|i r IH]; intros previous O N; [apply flat_whole, flat_skip|]. inversion O as [|x y Oi Or]; inversion N as [|x2 y2 Ni Nr]; subst. cbn [write_imports]. apply whole_seq; [|now apply IH]. destruct previous as [p|].
  - destruct (negb _); cbn [when]; [now apply import_b|apply flat_whole, flat_skip].
  - apply whole_seq; [apply mays_whole, mays_sep|now apply import_b].
Qed.
Lemma options_elems_b : forall os, Forall keyword_option_ok os -> Forall (fun o => oneat (o_val o)) os -> elems_b false 0 (map (opt_elem dec false skip) os).
Proof. induction os as [|o r IH]; intros O N; [constructor|]. inversion O; inversion N; subst. cbn [map]. constructor; [now apply opt_elem_b|now apply IH]. Qed.
Lemma types_b : forall ds, Forall fdecl_ok ds -> Forall neat_fdecl ds -> whole false (seqs (map (write_type dec) ds)).
Proof.
  induction ds as [|d r IH]; intros O N; [apply flat_whole, flat_skip|]. inversion O as [|x y Od Or]; inversion N as [|x2 y2 Nd Nr]; subst. cbn [map seqs]. apply whole_seq; [|now apply IH].
  destruct d as [kw n sm|i|o|d]; try (apply flat_whole, flat_skip). destruct Od as [Od No].
  assert (G : whole false (sep_line (decl_toks d) ;; write_decl dec d)) by (apply whole_seq; [apply mays_whole, mays_sep|apply (DB_all d Od Nd)]).
  destruct d; try exact G; apply flat_whole, flat_skip.
Qed.
Lemma neat_imports ds : Forall neat_fdecl ds -> Forall (fun i => neat (i_name i)) (imports ds).
Proof. induction 1 as [|d r N _ IH]; [constructor|]. destruct d; cbn [imports flat_map app]; try exact IH. constructor; [exact N|exact IH]. Qed.
Lemma neat_options ds : Forall neat_fdecl ds -> Forall (fun o => oneat (o_val o)) (options ds).
Proof. induction 1 as [|d r N _ IH]; [constructor|]. destruct d; cbn [options flat_map app]; try exact IH. constructor; [exact N|exact IH]. Qed.
Lemma package_b d : fdecl_ok d -> whole false (write_package d).
Proof.
  destruct d as [kw n sm|i|o|d]; try (intros; apply flat_whole, flat_skip). intros (Ok & (i & -> & Oi) & Os). destruct (some_still _ _ Os eq_refl) as (st & -> & Ss). cbn [write_package opt_w must].
  apply whole_seq; [apply mays_whole, mays_start_tok, idt_still, Ok|]. apply whole_seq; [apply flat_whole, flat_space|]. apply whole_seq; [apply flat_whole, flat_inline_ident, Oi|apply sets_whole, sets_line_end, Ss].
Qed.
Variables (isort : list import -> list import) (osort : list opt -> list opt).
Hypothesis isort_perm : forall l, Permutation (isort l) l.
Hypothesis osort_perm : forall l, Permutation (osort l) l.
Lemma file_b f : file_ok f -> neat_file f -> whole false (write_file dec isort osort f).
Proof.
  intros (Os & Od & _ & _) (Ns & Nd). unfold write_file, write_header. apply whole_seq; [apply whole_seq; [|apply whole_seq; [|apply whole_seq]]|apply whole_seq; [now apply types_b|apply whole_seq]].
  - destruct (f_syntax f) as [[[[k e] v] sm]|]; [|apply flat_whole, flat_skip]. destruct Os as (Ok & Re & Ov & Os). destruct (some_still _ _ Os eq_refl) as (st & -> & Ss). cbn [opt_w write_syntax must]. destruct (all_depth _ (neat_level _ Ns)) as (j & D).
    apply whole_seq; [apply mays_whole, mays_start_tok, idt_still, Ok|]. apply whole_seq; [apply flat_whole, flat_space|]. apply whole_seq; [apply flat_whole, still_inline, (rune_still _ _ Re); reflexivity|]. apply whole_seq; [apply flat_whole, flat_space|].
    apply (lev_sets false j); [apply lev_lev0; now apply inline_b|apply sets_line_end, Ss].
  - destruct (rev (packages (f_decls f))) as [|p r] eqn:E; [apply flat_whole, flat_skip|]. apply package_b. rewrite Forall_forall in Od. apply Od.
    assert (I : In p (packages (f_decls f))) by (apply in_rev; rewrite E; now left). unfold packages in I. apply filter_In in I. apply I.
  - apply imports_b; [exact (Permutation_Forall (Permutation_sym (isort_perm _)) (forall_imports _ Od))|exact (Permutation_Forall (Permutation_sym (isort_perm _)) (neat_imports _ Nd))].
  - assert (C : whole false (columns dec (map (opt_elem dec false skip) (osort (options (f_decls f)))))).
    { apply columns_b, options_elems_b; [exact (Permutation_Forall (Permutation_sym (osort_perm _)) (forall_options _ Od))|exact (Permutation_Forall (Permutation_sym (osort_perm _)) (neat_options _ Nd))]. }
    destruct (osort (options (f_decls f))) as [|o r]; [exact C|]. apply whole_seq; [apply mays_whole, mays_sep|exact C].
  - destruct (f_eof f); [apply mays_whole, mays_multiline|apply flat_whole, flat_skip].
  - apply (T_fun false _ _ (fun st => when (negb (mem (lastw st) [zero; nl])) p_blank)). intro g. apply mays_whole, mays_when, sets_mays, sets_p_blank.
Qed.
End Values.
Lemma no_error dec isort osort f : (forall l, Permutation (isort l) l) -> (forall l, Permutation (osort l) l) -> file_ok f -> neat_file f ->
  err (format dec isort osort f) = false /\ indent (format dec isort osort f) = 0.
Proof. intros Pi Po O N. destruct (file_b dec isort osort Pi Po f O N start eq_refl eq_refl) as (_ & E & I & _). exact (conj E I). Qed.
