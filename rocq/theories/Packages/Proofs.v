From Coq Require Import Ascii String.
From Verif Require Import Base Strs.
From Verif.Packages Require Import Model Spec.
Open Scope list_scope.

Definition free (ws : list bytes) : Prop := forall w, In w ws -> w <> [] /\ ~ In dot w.

Lemma join_inj a b : a <> [] -> b <> [] -> free a -> free b -> join_with dot a = join_with dot b -> a = b.
Proof.
  intros Na Nb Fa Fb E.
  rewrite <- (split_join dot a), <- (split_join dot b), E; auto; intros w I; [apply Fb in I|apply Fa in I]; tauto.
Qed.

Lemma join_app2 a b : a <> [] -> b <> [] -> join_with dot (a ++ b) = join_with dot a ++ dot :: join_with dot b.
Proof.
  induction a as [|x a IH]; [congruence|]. intros _ Nb. destruct a as [|y a].
  - destruct b; [congruence|]. reflexivity.
  - change (join_with dot ((x :: y :: a) ++ b)) with (x ++ dot :: join_with dot ((y :: a) ++ b)).
    rewrite IH by (auto; discriminate).
    change (join_with dot (x :: y :: a)) with (x ++ dot :: join_with dot (y :: a)).
    now rewrite <- app_assoc.
Qed.

Lemma split_mid s : forall t, split_on dot (s ++ dot :: t) = split_on dot s ++ split_on dot t.
Proof.
  intros t. rewrite <- (join_split dot s) at 1.
  pose proof (split_on_nonempty dot s) as N. pose proof (split_on_sep_free dot s) as F.
  revert N F. generalize (split_on dot s) as ws. induction ws as [|w ws IH]; [congruence|].
  intros _ F. destruct ws as [|v ws].
  - cbn [join_with]. rewrite split_on_app; [reflexivity|]. apply F. now left.
  - assert (E : join_with dot (w :: v :: ws) = w ++ dot :: join_with dot (v :: ws)) by reflexivity.
    rewrite E, <- app_assoc. cbn [app]. rewrite split_on_app by (apply F; now left).
    rewrite IH; [reflexivity | discriminate |]. intros x I. apply F. now right.
Qed.

Lemma below_iff q cs : q <> [] -> cs <> [] -> free q -> free cs ->
  below (join_with dot q) (join_with dot cs) = true <-> prefix_of q cs.
Proof.
  intros Nq Nc Fq Fc. unfold below. rewrite orb_true_iff. split.
  - intros [E|E].
    + apply beq_eq in E. rewrite (join_inj cs q Nc Nq Fc Fq E). apply prefix_of_refl.
    + apply has_prefix_spec in E as [r E]. rewrite <- app_assoc in E. cbn [app] in E.
      assert (X : split_on dot (join_with dot cs) = q ++ split_on dot r).
      { rewrite E, split_mid. f_equal. apply split_join; [exact Nq|]. intros w I. now apply Fq. }
      rewrite split_join in X; [|exact Nc | intros w I; now apply Fc]. exists (split_on dot r). exact X.
  - intros [r ->]. destruct r as [|x r].
    + left. rewrite app_nil_r. apply beq_refl.
    + right. apply has_prefix_spec. exists (join_with dot (x :: r)). rewrite join_app2 by (auto; discriminate).
      now rewrite <- app_assoc.
Qed.

Lemma exactly_iff q cs : q <> [] -> cs <> [] -> free q -> free cs ->
  exactly (join_with dot q) (join_with dot cs) = true <-> cs = q.
Proof.
  intros Nq Nc Fq Fc. unfold exactly. rewrite beq_eq. split; [|now intros ->]. now apply join_inj.
Qed.

(** ** One file *)

Lemma decls_pass name pm n p m : p <> None ->
  decl_ranges name pm (repeat OtherDecl n ++ Package p :: repeat OtherDecl m) =
  match p with Some x => match name_range name pm x with Some r => [r] | None => [] end | None => [] end.
Proof.
  intros N. induction n as [|n IH]; cbn [repeat app decl_ranges]; [|exact IH].
  destruct p as [x|]; [|congruence]. destruct (name_range name pm x); [|reflexivity].
  assert (E : decl_ranges name pm (repeat OtherDecl m) = []) by (induction m; cbn; auto). now rewrite E.
Qed.

Lemma part_at_spec first q cs : forall before,
  free (before ++ map c_name cs) -> free q -> q <> [] -> prefix_of before q -> List.length before < List.length q ->
  part_at (join_with dot q) (ident_of first) before (map ident_of cs) =
  if list_eq_dec (list_eq_dec ascii_dec) (before ++ firstn (List.length q - List.length before) (map c_name cs)) q
  then match nth_error cs (List.length q - List.length before - 1) with
       | Some c => Some (c_from first, c_to c)
       | None => None
       end
  else None.
Proof.
  induction cs as [|c cs IH]; intros before F Fq Nq P L; cbn [map part_at].
  - destruct (list_eq_dec _ _ _) as [E|]; [|reflexivity]. rewrite firstn_nil, app_nil_r in E. subst. lia.
  - destruct (beq (join_with dot (before ++ [i_val (ident_of c)])) (join_with dot q)) eqn:E.
    + apply beq_eq in E. apply join_inj in E; [| intros X; destruct before; discriminate | exact Nq | | exact Fq].
      2:{ intros w I. apply F. apply in_app_or in I as [I|[<-|[]]]; apply in_or_app; [now left|right; now left]. }
      subst q. rewrite app_length in *. cbn [List.length] in *.
      replace (List.length before + 1 - List.length before) with 1 by lia. cbn [firstn map Nat.sub nth_error].
      destruct (list_eq_dec _ _ _) as [|X]; [reflexivity|]. exfalso. apply X. reflexivity.
    + apply beq_neq in E.
      destruct (Nat.eq_dec (List.length q) (S (List.length before))) as [H|H].
      * replace (List.length q - List.length before) with 1 by lia. cbn [firstn].
        destruct (list_eq_dec _ _ _) as [X|_].
        -- exfalso. apply E. rewrite <- X. reflexivity.
        -- assert (G : forall cs' b, List.length q <= List.length b -> free (b ++ map c_name cs') ->
               part_at (join_with dot q) (ident_of first) b (map ident_of cs') = None).
           { clear -Nq Fq. induction cs' as [|d cs' IH]; intros b Lb Fb; cbn [map part_at]; [reflexivity|].
             destruct (beq _ _) eqn:E.
             - exfalso. apply beq_eq in E. apply join_inj in E; [| intros X; destruct b; discriminate | exact Nq | | exact Fq].
               + rewrite <- E, app_length in Lb. cbn in Lb. lia.
               + intros w I. apply Fb. apply in_app_or in I as [I|[<-|[]]]; apply in_or_app; [now left|right; now left].
             - apply IH; [rewrite app_length; lia|]. rewrite <- app_assoc. exact Fb. }
           apply G; [rewrite app_length; cbn; lia|]. rewrite <- app_assoc. exact F.
      * destruct (list_eq_dec (list_eq_dec ascii_dec) (firstn (S (List.length before)) q) (before ++ [c_name c])) as [Y|Y].
        -- rewrite IH; [| rewrite <- app_assoc; exact F | exact Fq | exact Nq | | rewrite app_length; cbn; lia].
           ++ rewrite app_length. cbn [List.length i_val ident_of].
              replace (List.length q - List.length before) with (S (List.length q - (List.length before + 1))) by lia.
              cbn [firstn nth_error map]. rewrite <- app_assoc. cbn [app].
              destruct (list_eq_dec _ _ _); [|reflexivity].
              replace (S (List.length q - (List.length before + 1)) - 1) with (S (List.length q - (List.length before + 1) - 1)) by lia.
              reflexivity.
           ++ exists (skipn (S (List.length before)) q). cbn [i_val ident_of]. rewrite <- Y. symmetry. apply firstn_skipn.
        -- assert (G : forall cs' b, ~ prefix_of b q -> free (b ++ map c_name cs') ->
               part_at (join_with dot q) (ident_of first) b (map ident_of cs') = None).
           { clear -Nq Fq. induction cs' as [|d cs' IH]; intros b Nb Fb; cbn [map part_at]; [reflexivity|].
             destruct (beq _ _) eqn:E.
             - exfalso. apply beq_eq in E. apply join_inj in E; [| intros X; destruct b; discriminate | exact Nq | | exact Fq].
               + apply Nb. rewrite <- E. apply prefix_of_app.
               + intros w I. apply Fb. apply in_app_or in I as [I|[<-|[]]]; apply in_or_app; [now left|right; now left].
             - apply IH; [|rewrite <- app_assoc; exact Fb]. intros P. apply Nb.
               eapply prefix_of_trans; [apply prefix_of_app | exact P]. }
           rewrite G.
           ++ destruct (list_eq_dec _ _ _) as [X|]; [|reflexivity]. exfalso. apply Y. apply (f_equal (firstn (S (List.length before)))) in X. rewrite <- X. clear X.
              rewrite firstn_app, firstn_all2 by lia.
              replace (S (List.length before) - List.length before) with 1 by lia.
              replace (List.length q - List.length before) with (S (List.length q - (List.length before + 1))) by lia. reflexivity.
           ++ intros [r X]. apply Y. rewrite X. cbn [i_val ident_of]. rewrite firstn_app, firstn_all2 by (rewrite app_length; cbn; lia).
              replace (S (List.length before) - List.length (before ++ [c_name c])) with 0 by (rewrite app_length; cbn [List.length]; lia).
              rewrite firstn_O. apply app_nil_r.
           ++ rewrite <- app_assoc. exact F.
Qed.

Lemma proper_free s : proper s -> names s <> [] /\ free (names s).
Proof.
  intros (N & F & _). unfold names. split; [destruct (s_comps s); [congruence|discriminate]|].
  intros w I. apply in_map_iff in I as (c & <- & I). now apply F.
Qed.

Lemma prefix_firstn {A} (q l : list A) : prefix_of q l -> firstn (List.length q) l = q.
Proof. intros [r ->]. rewrite firstn_app, firstn_all, Nat.sub_diag. cbn. apply app_nil_r. Qed.

Lemma range_exact s q : proper s -> names s = q ->
  name_of s <> None /\
  match name_of s with Some x => name_range (join_with dot q) false x = Some (upto s (List.length q)) | None => True end.
Proof.
  intros P <-. unfold names. rewrite map_length. destruct P as (N & _). unfold name_of, upto.
  destruct (s_comps s) as [|c [|d cs]] eqn:E; [congruence| |]; (split; [discriminate|]); cbn [name_range negb]; reflexivity.
Qed.

Lemma range_prefix s q : proper s -> q <> [] -> free q -> prefix_of q (names s) ->
  match name_of s with Some x => name_range (join_with dot q) true x = Some (upto s (List.length q)) | None => True end.
Proof.
  intros P Nq Fq Q. pose proof (proper_free s P) as [Ns Fs]. pose proof (prefix_of_length _ _ Q) as LQ.
  unfold name_of, upto, names in *. rewrite map_length in LQ.
  destruct (s_comps s) as [|c [|d cs]] eqn:E; [exact I| |].
  - cbn [name_range ident_of i_at]. do 2 f_equal. destruct q as [|? [|? ?]]; [congruence| |cbn in LQ; lia]. reflexivity.
  - unfold name_range. cbn [negb map]. change (ident_of c :: ident_of d :: map ident_of cs) with (map ident_of (c :: d :: cs)).
    rewrite (part_at_spec c q (c :: d :: cs) []); [| exact Fs | exact Fq | exact Nq | now exists q | destruct q; [congruence|cbn; lia]].
    cbn [app List.length]. rewrite Nat.sub_0_r.
    destruct (list_eq_dec _ _ _) as [_|X]; [| exfalso; apply X; now apply prefix_firstn].
    rewrite (nth_error_nth' (c :: d :: cs) c); [reflexivity|]. destruct q; [congruence|]. cbn [List.length] in *. lia.
Qed.

Lemma range_none s q : proper s -> q <> [] -> free q -> 1 < List.length (s_comps s) ->
  forall x r, name_of s = Some x -> name_range (join_with dot q) true x = Some r -> prefix_of q (names s).
Proof.
  intros P Nq Fq L x r E H. pose proof (proper_free s P) as [Ns Fs]. unfold name_of, names in *.
  destruct (s_comps s) as [|c [|d cs]] eqn:Es; [cbn in L; lia | cbn in L; lia|].
  injection E as <-. unfold name_range in H. cbn [negb map] in H.
  change (ident_of c :: ident_of d :: map ident_of cs) with (map ident_of (c :: d :: cs)) in H.
  rewrite (part_at_spec c q (c :: d :: cs) []) in H; [| exact Fs | exact Fq | exact Nq | now exists q | destruct q; [congruence|cbn; lia]].
  destruct (list_eq_dec _ _ _) as [X|]; [|discriminate]. cbn [app] in X. rewrite <- X at 1.
  eexists. symmetry. apply firstn_skipn.
Qed.

(** ** The cursor *)

Lemma cursor_pass tok n p m : cursor_name tok (repeat OtherDecl n ++ Package p :: repeat OtherDecl m) = cursor_name tok [Package p].
Proof. induction n as [|n IH]; cbn [repeat app cursor_name]; [|exact IH]. destruct p as [[]|]; reflexivity. Qed.

Lemma cursor_in_spec cs : forall before i c, NoDup (map c_tok cs) -> nth_error cs i = Some c ->
  cursor_in (c_tok c) before (map ident_of cs) =
  Some (join_with dot (before ++ firstn (S i) (map c_name cs)), negb (S i =? List.length cs)).
Proof.
  induction cs as [|d cs IH]; intros before i c N E; [destruct i; discriminate|].
  inversion N as [|x l Nx Nl]; subst. cbn [map cursor_in ident_of i_tok i_val]. destruct i as [|i].
  - cbn in E. injection E as ->. rewrite Nat.eqb_refl. cbn [firstn map]. do 2 f_equal. destruct cs; reflexivity.
  - cbn [nth_error] in E. destruct (c_tok d =? c_tok c) eqn:T.
    + exfalso. apply Nat.eqb_eq in T. apply Nx. rewrite T. apply in_map. eapply nth_error_In, E.
    + rewrite (IH _ i c Nl E). rewrite <- app_assoc. reflexivity.
Qed.

Lemma cursor_spec s i c : proper s -> nth_error (s_comps s) i = Some c ->
  cursor_name (c_tok c) (decls_of s) =
  Some (join_with dot (firstn (S i) (names s)), negb (S i =? List.length (names s))).
Proof.
  intros (N & F & D) E. unfold decls_of. rewrite cursor_pass. unfold name_of, names. rewrite map_length.
  destruct (s_comps s) as [|a [|b cs]] eqn:Es; [congruence| |].
  - destruct i as [|[]]; cbn in E; try discriminate. injection E as ->. cbn. now rewrite Nat.eqb_refl.
  - cbn [cursor_name]. now rewrite (cursor_in_spec (a :: b :: cs) [] i c D E).
Qed.

Lemma hover_pass tok n p m : hover tok (repeat OtherDecl n ++ Package p :: repeat OtherDecl m) = hover tok [Package p].
Proof. induction n as [|n IH]; cbn [repeat app hover]; [|exact IH]. destruct p as [[]|]; reflexivity. Qed.

Lemma hover_in_spec whole first cs : forall before i c, NoDup (map c_tok cs) -> nth_error cs i = Some c ->
  hover_in (c_tok c) (Some whole) (ident_of first) before (map ident_of cs) =
  Some (join_with dot (before ++ firstn (S i) (map c_name cs)), negb (S i =? List.length cs),
        if S i =? List.length cs then whole else (c_from first, c_to c)).
Proof.
  induction cs as [|d cs IH]; intros before i c N E; [destruct i; discriminate|].
  inversion N as [|x l Nx Nl]; subst. cbn [map hover_in ident_of i_tok i_val i_at]. destruct i as [|i].
  - cbn in E. injection E as ->. rewrite Nat.eqb_refl. cbn [firstn map]. destruct cs; reflexivity.
  - cbn [nth_error] in E. destruct (c_tok d =? c_tok c) eqn:T.
    + exfalso. apply Nat.eqb_eq in T. apply Nx. rewrite T. apply in_map. eapply nth_error_In, E.
    + fold (ident_of first). rewrite (IH _ i c Nl E). rewrite <- app_assoc. reflexivity.
Qed.

Lemma hover_spec s i c : proper s -> nth_error (s_comps s) i = Some c ->
  hover (c_tok c) (decls_of s) =
  Some (join_with dot (firstn (S i) (names s)), negb (S i =? List.length (names s)), upto s (S i)).
Proof.
  intros (N & F & D) E. unfold decls_of. rewrite hover_pass. unfold name_of, names, upto. rewrite map_length.
  destruct (s_comps s) as [|a [|b cs]] eqn:Es; [congruence| |].
  - destruct i as [|[]]; cbn in E; try discriminate. injection E as ->. cbn. now rewrite Nat.eqb_refl.
  - etransitivity; [exact (hover_in_spec _ a (a :: b :: cs) [] i c D E)|]. cbn [app]. do 2 f_equal.
    assert (X : nth (S i - 1) (a :: b :: cs) a = c) by (replace (S i - 1) with i by lia; now apply nth_error_nth).
    destruct (S i =? List.length (a :: b :: cs)) eqn:L; [|now rewrite X].
    apply Nat.eqb_eq in L. rewrite <- L, X. reflexivity.
Qed.
