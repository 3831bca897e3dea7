(** Reading back: lemmas about the grammar's parser. *)
From Coq Require Import Ascii String NArith QArith Qreduction.
From Verif Require Import Base Strs.
From Verif.PrintTree Require Import Model Grammar.
Open Scope list_scope.
Open Scope nat_scope.

Definition reads {A} (p : list tok -> option (A * list tok)) (x : A) (t : list tok) : Prop := forall r, p (t ++ r) = Some (x, r).

Ltac compute_ t := let v := eval vm_compute in t in change t with v.
Ltac isx := repeat match goal with
  | |- context [is (b_ ?a) ?b] => compute_ (is (b_ a) b)
  | |- context [mem (b_ ?a) (keywords ?c)] => compute_ (mem (b_ a) (keywords c))
  | |- context [mem (head_word (b_ ?a)) (keywords ?c)] => compute_ (mem (head_word (b_ a)) (keywords c))
  end; cbn [andb negb]; cbv iota.

Lemma psep_reads {A B} (p : list tok -> option (A * list tok)) (g : B -> A) (t : B -> list tok) (l : list B) :
  l <> [] -> (forall x, In x l -> reads p (g x) (t x)) ->
  forall f r, List.length l <= f -> eat "," r = None -> psep p f (sep [P ","] t l ++ r) = Some (map g l, r).
Proof.
  intros HN. induction l as [|x l IH]; [easy|].
  intros HR f r Hf He. destruct f; [simpl in Hf; lia|].
  destruct l as [|y l].
  - cbn [sep psep map]. rewrite (HR x (or_introl eq_refl)). now rewrite He.
  - change (sep [P ","] t (x :: y :: l)) with (t x ++ [P ","] ++ sep [P ","] t (y :: l)).
    cbn [psep]. rewrite <- !app_assoc, (HR x (or_introl eq_refl)).
    assert (E : eat "," ([P ","] ++ sep [P ","] t (y :: l) ++ r) = Some (sep [P ","] t (y :: l) ++ r)) by reflexivity.
    rewrite E. rewrite IH; [reflexivity|easy| |simpl in *; lia|easy].
    intros z Hz. apply HR. now right.
Qed.
Lemma sep_length {A} (t : A -> list tok) (l : list A) : (forall x, In x l -> 1 <= List.length (t x)) -> List.length l <= List.length (sep [P ","] t l).
Proof.
  induction l as [|x l IH]; [simpl; lia|]. intros H.
  destruct l as [|y l].
  - simpl. apply H. now left.
  - change (sep [P ","] t (x :: y :: l)) with (t x ++ [P ","] ++ sep [P ","] t (y :: l)).
    rewrite !app_length. specialize (IH (fun z Hz => H z (or_intror Hz))). pose proof (H x (or_introl eq_refl)).
    cbn [List.length] in *. lia.
Qed.

(** ** Numbers *)
Lemma int_toks_strip z : strip (int_toks z) = int_toks z.
Proof. unfold int_toks. now destruct (z <? 0)%Z. Qed.
Lemma pint_reads z : reads pint z (int_toks z).
Proof.
  intros r. unfold int_toks. destruct (z <? 0)%Z eqn:E.
  - apply Z.ltb_lt in E. cbn -[Z.to_N]. rewrite Z2N.id by lia. f_equal. f_equal. lia.
  - apply Z.ltb_ge in E. cbn -[Z.to_N]. rewrite Z2N.id by lia. reflexivity.
Qed.

(** ** Statements *)
Definition reads_stmt (c : ctx) (s : stmt) (t : list tok) : Prop :=
  (forall r, at_end (t ++ r) = false) /\ (forall f r, List.length t <= f -> pstmt f c (t ++ r) = Some (s, r)).
Definition reads_body (c : ctx) (ss : list stmt) (t : list tok) : Prop :=
  exists ts, Forall2 (reads_stmt c) ss ts /\ t = List.concat ts.
Lemma rb_nil c : reads_body c [] [].
Proof. now exists []. Qed.
Lemma rb_one c s t : reads_stmt c s t -> reads_body c [s] t.
Proof. intros H. exists [t]. split; [auto|]. simpl. now rewrite app_nil_r. Qed.
Lemma rb_app c s1 t1 s2 t2 : reads_body c s1 t1 -> reads_body c s2 t2 -> reads_body c (s1 ++ s2) (t1 ++ t2).
Proof. intros (a & Ha & ->) (b & Hb & ->). exists (a ++ b). split; [now apply Forall2_app|]. now rewrite concat_app. Qed.
Lemma rb_cons c s t ss u : reads_stmt c s t -> reads_body c ss u -> reads_body c (s :: ss) (t ++ u).
Proof. intros H. apply (rb_app c [s]). now apply rb_one. Qed.
Lemma rb_flat {A} c (g : A -> list stmt) (t : A -> list tok) l : (forall x, In x l -> reads_body c (g x) (t x)) -> reads_body c (flat_map g l) (flat_map t l).
Proof. induction l as [|x l IH]; intros H; [apply rb_nil|]. simpl. apply rb_app; [apply H; now left|]. apply IH. intros y Hy. apply H. now right. Qed.
Lemma rs_nonempty c s t : reads_stmt c s t -> 1 <= List.length t.
Proof. intros [H _]. destruct t; [|simpl; lia]. specialize (H []). discriminate. Qed.
Lemma pmany_reads c ss t : reads_body c ss t -> forall f n r, List.length t <= f -> List.length t < n -> at_end r = true ->
  pmany (pstmt f c) n (t ++ r) = Some (ss, r).
Proof.
  intros (ts & H & ->). induction H as [|s t ss ts Hs _ IH]; intros f n r Hf Hn Hr.
  - simpl. destruct n; [lia|]. simpl. now rewrite Hr.
  - pose proof (rs_nonempty _ _ _ Hs). destruct Hs as [H1 H2]. cbn [List.concat] in *. rewrite app_length in *.
    destruct n; [lia|]. cbn [pmany]. rewrite <- app_assoc, H1, H2 by lia. now rewrite IH by (easy || lia).
Qed.
Lemma parse_reads ss t : reads_body CFile ss t -> parse t = Some ss.
Proof.
  intros H. unfold parse. rewrite <- (app_nil_r t) at 3.
  rewrite (pmany_reads _ _ _ H) by (easy || lia). reflexivity.
Qed.

(** a block *)
Definition block_toks (t : list tok) : list tok := P "{" :: t ++ [P "}"].
Lemma block_reads c ss t f r : reads_body c ss t -> List.length t <= f ->
  (do r0 <- eat "{" (block_toks t ++ r); do (b, r1) <- pmany (pstmt f c) (S (List.length r0)) r0; do r2 <- eat "}" r1; Some (b, r2)) = Some (ss, r).
Proof.
  intros H Hf. unfold block_toks.
  assert (E : eat "{" ((P "{" :: t ++ [P "}"]) ++ r) = Some (t ++ P "}" :: r)) by (cbn; now rewrite <- app_assoc). rewrite E.
  rewrite (pmany_reads _ _ _ H); [|lia|rewrite app_length; simpl; lia|reflexivity]. reflexivity.
Qed.

Ltac start := split; [reflexivity|]; let f := fresh "f" in let r := fresh "r" in let H := fresh "Hf" in
  intros f r H; destruct f as [|f]; [simpl in H; lia|].

(** options *)
Lemma read_option c o t : In c [CFile; CMessage; CEnum; COneof; CService; CRpc] -> reads poption o t -> reads_stmt c (SOption o) (kw "option" :: t ++ [P ";"]).
Proof.
  intros Hc HR. start. cbn [pstmt word app].
  rewrite <- app_assoc. unfold kw.
  simpl in Hc; intuition subst; isx; rewrite HR; reflexivity.
Qed.
(** named blocks *)
Lemma read_named c (k : bytes -> list stmt -> stmt) (w : string) c' n ss t :
  In (c, w, c') [(CFile, "message", CMessage); (CFile, "enum", CEnum); (CFile, "extend", CExtend); (CFile, "service", CService);
                 (CMessage, "message", CMessage); (CMessage, "enum", CEnum); (CMessage, "extend", CExtend); (CMessage, "oneof", COneof)]%string ->
  k = (if String.eqb w "message" then SMessage else if String.eqb w "enum" then SEnum else if String.eqb w "extend" then SExtend
       else if String.eqb w "service" then SService else SOneof)%string ->
  reads_body c' ss t -> reads_stmt c (k n ss) (kw w :: W n :: block_toks t).
Proof.
  intros Hc -> HR. split.
  - intros r. reflexivity.
  - intros f r Hf. destruct f as [|f]; [simpl in Hf; lia|].
    assert (Hb : List.length t <= f) by (unfold block_toks in Hf; simpl in Hf; rewrite app_length in Hf; simpl in Hf; lia).
    pose proof (block_reads _ _ _ f r HR Hb) as E.
    simpl in Hc. repeat (destruct Hc as [Hc|Hc]; [injection Hc as <- <- <-|]); try easy;
    (cbn [pstmt word app]; unfold kw; isx; cbn [word]; cbv iota beta; rewrite E; reflexivity).
Qed.
(** fields *)
Definition label_words (l : label) : list tok :=
  match l with LNone => [] | LOptional => [kw "optional"] | LRequired => [kw "required"] | LRepeated => [kw "repeated"] end.
(** options in brackets, where none follow *)
Definition reads_opts (os : list soption) (t : list tok) : Prop := forall r, eat "[" r = None -> popts (t ++ r) = Some (os, r).
Lemma read_number z os t r : reads_opts os t -> eat "[" r = None -> pnumber ((P "=" :: int_toks z ++ t) ++ r) = Some (z, os, r).
Proof.
  intros H Hr. unfold pnumber. cbn [app eat]. rewrite Ascii.eqb_refl. rewrite <- app_assoc.
  pose proof (pint_reads z (t ++ r)) as E. rewrite E. now rewrite (H r Hr).
Qed.
Lemma beq_sym a b : beq a b = beq b a.
Proof. destruct (beq a b) eqn:E, (beq b a) eqn:F; auto; [apply beq_eq in E; subst; now rewrite beq_refl in F|apply beq_eq in F; subst; now rewrite beq_refl in E]. Qed.
Lemma mem_in w l : mem w l = true <-> In w l.
Proof.
  unfold mem. rewrite existsb_exists. split.
  - intros (x & Hx & E). apply beq_eq in E. now subst.
  - intros H. exists w. split; [easy|apply beq_refl].
Qed.
Lemma mem_not w l : mem w l = false <-> ~ In w l.
Proof. rewrite <- mem_in. now destruct (mem w l). Qed.
Definition no_keyword (w : bytes) : Prop := ~ In (head_word w) (keywords CMessage).
Lemma keyword_head w : In w (keywords CMessage) -> head_word w = w.
Proof. intros H. unfold keywords in H. repeat (destruct H as [H|H]; [subst; vm_compute; reflexivity|]). destruct H. Qed.
Lemma no_keyword_not w : no_keyword w -> ~ In w (keywords CMessage).
Proof. intros H Hi. apply H. now rewrite (keyword_head _ Hi). Qed.
Definition field_ctx (c : ctx) : Prop := In c [CMessage; COneof; CExtend].
Lemma keywords_incl c w : field_ctx c -> In w (keywords c) -> In w (keywords CMessage).
Proof.
  intros [<-|[<-|[<-|[]]]]; [easy| |]; unfold keywords; intros H; repeat (destruct H as [H|H]; [subst; apply mem_in; vm_compute; reflexivity|]); destruct H.
Qed.
Lemma is_not w s : no_keyword w -> mem (b_ s) (keywords CMessage) = true -> is w s = false.
Proof. intros H Hm. apply beq_neq. intros ->. apply (no_keyword_not _ H). now apply mem_in. Qed.
Lemma no_group w : no_keyword w -> is (head_word w) "group" = false.
Proof. intros H. apply beq_neq. intros E. apply H. rewrite E. apply mem_in. reflexivity. Qed.

(** what follows the label *)
Inductive field_form : label -> stmt -> list tok -> Prop :=
| form_field l w n z os t : no_keyword w -> reads_opts os t ->
    field_form l (SField l w n z os) (W w :: W n :: P "=" :: int_toks z ++ t ++ [P ";"])
| form_map k v n z os t : reads_opts os t ->
    field_form LNone (SMap k v n z os) (kw "map" :: P "<" :: W k :: P "," :: W v :: P ">" :: W n :: P "=" :: int_toks z ++ t ++ [P ";"])
| form_group l n z os t ss b : reads_opts os t -> reads_body CMessage ss b ->
    field_form l (SGroup l n z os ss) (kw "group" :: W n :: P "=" :: int_toks z ++ t ++ block_toks b).
Definition pfield (f' : nat) (l : label) (ts : list tok) : option (stmt * list tok) :=
  let block c' ts := do r <- eat "{" ts; do (b, r1) <- pmany (pstmt f' c') (S (List.length r)) r; do r2 <- eat "}" r1; Some (b, r2) in
  do (w, r) <- word ts;
  if is w "group" then
    do (n, r1) <- word r; do (z, os, r2) <- pnumber r1; do (b, r3) <- block CMessage r2; Some (SGroup l n z os b, r3)
  else if is w "map" && next "<" r then
    match l with
    | LNone =>
        do r1 <- eat "<" r; do (k, r2) <- word r1; do r3 <- eat "," r2; do (v, r4) <- word r3; do r5 <- eat ">" r4;
        do (n, r6) <- word r5; do (z, os, r7) <- pnumber r6; do r8 <- eat ";" r7; Some (SMap k v n z os, r8)
    | _ => None
    end
  else if is (head_word w) "group" then None
  else do (n, r1) <- word r; do (z, os, r2) <- pnumber r1; do r3 <- eat ";" r2; Some (SField l w n z os, r3).
Lemma numbered (z : Z) os t u r : reads_opts os t -> eat "[" (u ++ r) = None -> pnumber (P "=" :: int_toks z ++ t ++ u ++ r) = Some (z, os, u ++ r).
Proof. intros H Hr. pose proof (read_number z os t (u ++ r) H Hr) as E. cbn [app] in E. rewrite <- app_assoc in E. exact E. Qed.
Lemma pfield_form l s t f r : field_form l s t -> List.length t <= S f -> pfield f l (t ++ r) = Some (s, r).
Proof.
  intros H Hf. destruct H as [l w n z os t Hw Ht|k v n z os t Ht|l n z os t ss b Ht Hb].
  - unfold pfield. cbn [app word]. rewrite (is_not w "group" Hw eq_refl), (no_group w Hw).
    assert (E : is w "map" && next "<" (W n :: P "=" :: (int_toks z ++ t ++ [P ";"]) ++ r) = false) by (now rewrite andb_comm). rewrite E.
    rewrite <- !app_assoc. cbn [word]. rewrite (numbered z os t [P ";"] r Ht eq_refl). reflexivity.
  - unfold pfield. cbn [app word]. unfold kw. isx. cbn [next eat word]. rewrite !Ascii.eqb_refl. cbn [andb eat word]. rewrite !Ascii.eqb_refl. cbn [andb eat word].
    repeat (rewrite !Ascii.eqb_refl; cbn [andb eat word]). rewrite <- !app_assoc. rewrite (numbered z os t [P ";"] r Ht eq_refl). reflexivity.
  - unfold pfield. cbn [app word]. unfold kw. isx. cbn [word]. rewrite <- !app_assoc. rewrite (numbered z os t (block_toks b) r Ht eq_refl).
    assert (Hl : List.length b <= f) by (cbn [List.length] in Hf; rewrite !app_length in Hf; unfold block_toks in Hf; cbn [List.length] in Hf; rewrite app_length in Hf; lia).
    now rewrite (block_reads _ _ _ f r Hb Hl).
Qed.
Lemma form_head l s t : field_form l s t -> exists w u, t = W w :: u /\ (no_keyword w \/ w = b_ "map" \/ w = b_ "group").
Proof.
  intros [l0 w n z os t0 Hw Ht|k v n z os t0 Ht|l0 n z os t0 ss b Ht Hb].
  - exists w. eexists. split; [reflexivity|now left].
  - eexists. eexists. split; [reflexivity|right; now left].
  - eexists. eexists. split; [reflexivity|right; now right].
Qed.
(** a field without its label *)
Lemma unlabelled c f ts : field_ctx c -> (exists w u, ts = W w :: u /\ (no_keyword w \/ w = b_ "map" \/ w = b_ "group")) ->
  pstmt (S f) c ts = pfield f LNone ts.
Proof.
  intros Hc (w & u & -> & Hw). cbn [pstmt word].
  assert (Hm : mem (head_word w) (keywords c) && negb (mem w (keywords c)) = false).
  { destruct Hw as [Hw|[-> | ->]].
    - replace (mem (head_word w) (keywords c)) with false; [easy|]. symmetry. apply mem_not. intros H. apply Hw. now apply (keywords_incl c).
    - destruct Hc as [<-|[<-|[<-|[]]]]; reflexivity.
    - destruct Hc as [<-|[<-|[<-|[]]]]; reflexivity. }
  assert (Hi : forall s, In s ["message"; "enum"; "oneof"; "extend"; "extensions"; "reserved"; "option"; "optional"; "required"; "repeated"]%string -> is w s = false).
  { intros s Hs. destruct Hw as [Hw|[-> | ->]].
    - apply is_not; [easy|]. simpl in Hs. intuition subst; reflexivity.
    - simpl in Hs. intuition subst; reflexivity.
    - simpl in Hs. intuition subst; reflexivity. }
  pose proof (Hi "message" ltac:(simpl; tauto))%string as H1. pose proof (Hi "enum" ltac:(simpl; tauto))%string as H2.
  pose proof (Hi "oneof" ltac:(simpl; tauto))%string as H3. pose proof (Hi "extend" ltac:(simpl; tauto))%string as H4.
  pose proof (Hi "extensions" ltac:(simpl; tauto))%string as H5. pose proof (Hi "reserved" ltac:(simpl; tauto))%string as H6.
  pose proof (Hi "option" ltac:(simpl; tauto))%string as H7. pose proof (Hi "optional" ltac:(simpl; tauto))%string as H8.
  pose proof (Hi "required" ltac:(simpl; tauto))%string as H9. pose proof (Hi "repeated" ltac:(simpl; tauto))%string as H10.
  destruct Hc as [<-|[<-|[<-|[]]]]; rewrite Hm, H1, H2, H3, H4, H5, H6, H7, H8, H9, H10, !andb_false_r; reflexivity.
Qed.
Lemma labelled_field c f l ts : field_ctx c -> l <> LNone -> pstmt (S f) c (label_words l ++ ts) = pfield f l ts.
Proof.
  intros Hc Hl. destruct l; [easy| | |]; destruct Hc as [<-|[<-|[<-|[]]]]; cbn [label_words app pstmt word]; unfold kw; isx; reflexivity.
Qed.
Lemma read_field c l s t : field_ctx c -> field_form l s t -> reads_stmt c s (label_words l ++ t).
Proof.
  intros Hc HF. pose proof (form_head _ _ _ HF) as (w & u & E & Hw). split.
  - intros r. subst t. now destruct l.
  - intros f r Hf. rewrite app_length in Hf. destruct f; [subst t; simpl in Hf; lia|].
    rewrite <- app_assoc. destruct l.
    + change (label_words LNone ++ t ++ r) with (t ++ r). rewrite unlabelled; [|easy|exists w, (u ++ r); split; [now subst t|easy]]. apply pfield_form; [easy|simpl in *; lia].
    + rewrite labelled_field by easy. apply pfield_form; [easy|simpl in *; lia].
    + rewrite labelled_field by easy. apply pfield_form; [easy|simpl in *; lia].
    + rewrite labelled_field by easy. apply pfield_form; [easy|simpl in *; lia].
Qed.

(** ranges and names *)
Definition bound_toks (r : Z * rbound) : list tok :=
  int_toks (fst r) ++ match snd r with UOne => [] | UTo b => kw "to" :: int_toks b | UMax => [kw "to"; kw "max"] end.
Definition no_to (r : list tok) : Prop := eat_word "to" r = None.
Lemma prange_to a b r : prange (bound_toks (a, UTo b) ++ r) = Some ((a, UTo b), r).
Proof.
  unfold prange, bound_toks. cbn [fst snd]. rewrite <- app_assoc. rewrite (pint_reads a).
  change (eat_word "to" ((kw "to" :: int_toks b) ++ r)) with (Some (int_toks b ++ r)). cbv iota.
  assert (E : eat_word "max" (int_toks b ++ r) = None) by (unfold int_toks; now destruct (b <? 0)%Z). rewrite E.
  now rewrite (pint_reads b).
Qed.
Lemma prange_max a r : prange (bound_toks (a, UMax) ++ r) = Some ((a, UMax), r).
Proof. unfold prange, bound_toks. cbn [fst snd]. rewrite <- app_assoc. rewrite (pint_reads a). reflexivity. Qed.
Lemma prange_one a r : no_to r -> prange (bound_toks (a, UOne) ++ r) = Some ((a, UOne), r).
Proof. intros H. unfold prange, bound_toks. cbn [fst snd]. rewrite <- app_assoc. rewrite (pint_reads a). cbn [app]. now rewrite H. Qed.
Lemma prange_reads x r : no_to r -> prange (bound_toks x ++ r) = Some (x, r).
Proof. destruct x as [a []]; intros H; [now apply prange_one|apply prange_to|apply prange_max]. Qed.
Lemma pranges l : l <> [] -> forall f r, List.length l <= f -> eat "," r = None -> no_to r -> psep prange f (sep [P ","] bound_toks l ++ r) = Some (l, r).
Proof.
  intros HN. induction l as [|x l IH]; [easy|].
  intros f r Hf He Ht. destruct f; [simpl in Hf; lia|]. destruct l as [|y l].
  - cbn [sep psep]. rewrite prange_reads by easy. now rewrite He.
  - change (sep [P ","] bound_toks (x :: y :: l)) with (bound_toks x ++ [P ","] ++ sep [P ","] bound_toks (y :: l)).
    cbn [psep]. rewrite <- !app_assoc, prange_reads by reflexivity.
    assert (E : eat "," ([P ","] ++ sep [P ","] bound_toks (y :: l) ++ r) = Some (sep [P ","] bound_toks (y :: l) ++ r)) by reflexivity. rewrite E.
    rewrite IH by (easy || (simpl in *; lia)). reflexivity.
Qed.
Lemma bound_length x : 1 <= List.length (bound_toks x).
Proof. unfold bound_toks, int_toks. rewrite app_length. destruct (fst x <? 0)%Z; simpl; lia. Qed.
Lemma sep_bound_head l : l <> [] -> exists t u, sep [P ","] bound_toks l = t :: u /\ match t with TI _ | P _ => True | _ => False end.
Proof.
  destruct l as [|x l]; [easy|]. intros _. assert (E : exists t u, bound_toks x = t :: u /\ match t with TI _ | P _ => True | _ => False end).
  { unfold bound_toks, int_toks. destruct (fst x <? 0)%Z; cbn [app]; (eexists; eexists; split; [reflexivity|exact I]). }
  destruct E as (t & u & E & H). destruct l as [|y l]; [exists t, u; now cbn [sep]|].
  change (sep [P ","] bound_toks (x :: y :: l)) with (bound_toks x ++ [P ","] ++ sep [P ","] bound_toks (y :: l)). rewrite E. cbn [app]. eauto.
Qed.
Lemma read_reserved c l : In c [CMessage; CEnum] -> l <> [] -> reads_stmt c (SReserved l) (kw "reserved" :: sep [P ","] bound_toks l ++ [P ";"]).
Proof.
  intros Hc Hl. start. cbn [pstmt word app].
  rewrite <- app_assoc.
  assert (HP : forall n, List.length l <= n -> psep prange n (sep [P ","] bound_toks l ++ [P ";"] ++ r) = Some (l, [P ";"] ++ r)) by (intros; now apply pranges).
  assert (HL : List.length l <= List.length (sep [P ","] bound_toks l ++ [P ";"] ++ r)).
  { rewrite app_length. pose proof (sep_length bound_toks l (fun x _ => bound_length x)). lia. }
  destruct (sep_bound_head l Hl) as (t & u & E & Ht).
  specialize (HP _ HL). rewrite E in *. unfold kw.
  destruct Hc as [<-|[<-|[]]]; isx; destruct t; try easy; cbn [app] in *; rewrite HP; reflexivity.
Qed.
Lemma read_names c l : In c [CMessage; CEnum] -> l <> [] -> reads_stmt c (SReservedNames l) (kw "reserved" :: sep [P ","] (fun n => [TS n]) l ++ [P ";"]).
Proof.
  intros Hc Hl. start. cbn [pstmt word app].
  rewrite <- app_assoc.
  assert (HP : forall n, List.length l <= n -> psep str n (sep [P ","] (fun n => [TS n]) l ++ [P ";"] ++ r) = Some (l, [P ";"] ++ r)).
  { intros n Hn. rewrite (psep_reads str (fun x => x) (fun n => [TS n]) l Hl); [now rewrite map_id| |easy|reflexivity]. intros x _ r'. reflexivity. }
  assert (HL : List.length l <= List.length (sep [P ","] (fun n => [TS n]) l ++ [P ";"] ++ r)).
  { rewrite app_length. pose proof (sep_length (fun n => [TS n]) l (fun x _ => le_n 1)). lia. }
  specialize (HP _ HL).
  destruct l as [|x l]; [easy|].
  assert (E : exists u, sep [P ","] (fun n => [TS n]) (x :: l) = TS x :: u) by (destruct l; [exists []; reflexivity|eexists; reflexivity]).
  destruct E as (u & E). rewrite E in *. unfold kw.
  destruct Hc as [<-|[<-|[]]]; isx; cbn [app] in *; rewrite HP; reflexivity.
Qed.
Lemma read_extensions l os t : l <> [] -> reads_opts os t -> (forall r, eat "," (t ++ P ";" :: r) = None) -> (forall r, no_to (t ++ P ";" :: r)) ->
  reads_stmt CMessage (SExtensions l os) (kw "extensions" :: sep [P ","] bound_toks l ++ t ++ [P ";"]).
Proof.
  intros Hl Ht H1 H2. start. cbn [pstmt word app]. unfold kw. isx. rewrite <- !app_assoc.
  rewrite pranges; [|easy| |apply H1|apply H2].
  - cbn [app]. rewrite (Ht (P ";" :: r) eq_refl). reflexivity.
  - rewrite app_length. pose proof (sep_length bound_toks l (fun x _ => bound_length x)). lia.
Qed.
(** enum values *)
Lemma read_value n z os t : n <> b_ "option" -> n <> b_ "reserved" -> reads_opts os t ->
  reads_stmt CEnum (SValue n z os) (W n :: P "=" :: int_toks z ++ t ++ [P ";"]).
Proof.
  intros H1 H2 Ht. start. cbn [pstmt word app].
  replace (is n "option") with false by (symmetry; now apply beq_neq). replace (is n "reserved") with false by (symmetry; now apply beq_neq).
  rewrite <- !app_assoc. rewrite (numbered z os t [P ";"] r Ht eq_refl). reflexivity.
Qed.
(** methods *)
Definition rpc_toks (s : bool) (n : bytes) : list tok := P "(" :: (if s then [kw "stream"] else []) ++ [W n; P ")"].
Lemma prpc_type_reads s n r : is (head_word n) "stream" = false -> prpc_type (rpc_toks s n ++ r) = Some (s, n, r).
Proof.
  intros H. unfold prpc_type, rpc_toks. destruct s; cbn [app eat word]; rewrite Ascii.eqb_refl; cbn [word].
  - change (is (head_word (b_ "stream")) "stream") with true. isx. reflexivity.
  - rewrite H. reflexivity.
Qed.
Lemma read_rpc n cs i ss o body : is (head_word i) "stream" = false -> is (head_word o) "stream" = false ->
  forall u, (body = [] /\ u = [P ";"]) \/ (exists t, reads_body CRpc body t /\ u = block_toks t) ->
  reads_stmt CService (SRpc n cs i ss o body) (kw "rpc" :: W n :: rpc_toks cs i ++ kw "returns" :: rpc_toks ss o ++ u).
Proof.
  intros Hi Ho u Hu. start. cbn [pstmt app word]. unfold kw. isx. cbn [word].
  rewrite <- !app_assoc. cbn [app]. rewrite (prpc_type_reads cs i _ Hi).
  assert (Er : forall x, eat_word "returns" (W (b_ "returns") :: x) = Some x) by reflexivity. rewrite Er.
  rewrite <- !app_assoc. rewrite (prpc_type_reads ss o _ Ho).
  destruct Hu as [[-> ->]|(t & Ht & ->)]; [reflexivity|].
  change (eat ";" (block_toks t ++ r)) with (@None (list tok)). cbv iota.
  assert (Hl : List.length t <= f).
  { cbn [List.length] in Hf. rewrite app_length in Hf. cbn [List.length] in Hf. rewrite app_length in Hf. unfold block_toks in Hf. cbn [List.length] in Hf. rewrite app_length in Hf. lia. }
  now rewrite (block_reads _ _ _ f r Ht Hl).
Qed.
(** file level *)
Lemma read_syntax s : reads_stmt CFile (SSyntax s) [kw "syntax"; P "="; TS s; P ";"].
Proof. start. reflexivity. Qed.
Lemma read_package n : reads_stmt CFile (SPackage n) [kw "package"; W n; P ";"].
Proof. start. reflexivity. Qed.
Lemma read_import m p : reads_stmt CFile (SImport m p) (kw "import" :: match m with INone => [] | IPublic => [kw "public"] | IWeak => [kw "weak"] end ++ [TS p; P ";"]).
Proof. split; [now destruct m|]. intros f r Hf. destruct f; [simpl in Hf; lia|]. now destruct m. Qed.
