(** What the printed statements declare: services and files. *)
From Coq Require Import Ascii String NArith QArith Qreduction Permutation.
From Verif Require Import Base Strs.
From Verif.PrintTree Require Import Model Grammar Spec Read Ast Body Facts.
Open Scope list_scope.
Open Scope nat_scope.

Section Service.
Variable long_sort : list addr -> list addr.
Hypothesis long_perm : forall l, Permutation (long_sort l) l.
Variable force : bool.
Variable syn : syntax.
Variable pkg : bytes.
Variable res : use -> bytes -> bytes -> bytes.
Notation pr := (printed force pkg).
Notation wopt := (wopt force pkg).
Notation facts := (facts res syn).

Lemma method_facts_ok full m pl ow : type_found res pr pkg full (me_in m) -> type_found res pr pkg full (me_out m) -> opts_ok res pr UOption (join full (me_name m)) (me_opts m) ->
  pl_scope pl = full -> Permutation (facts pl ow (ast_method long_sort force pkg full m)) (desc_method full m).
Proof.
  intros Hi Ho Hp Hs. unfold ast_method, desc_method. cbn [Grammar.facts]. rewrite Hs, body_options_long.
  destruct Hi as (Hi & _). destruct Ho as (Ho & _). unfold found in *. rewrite Hi, Ho. apply perm_skip.
  destruct (options_of_perm long_sort long_perm force pkg false (join full (me_name m)) (me_opts m)) as (os' & HP & ->).
  now apply (options_facts force pkg res (OwMethod _) false).
Qed.
Lemma service_facts_ok s pl ow : service_ok res pr pkg s -> pl_scope pl = pkg -> Permutation (facts pl ow (ast_service long_sort force pkg pkg s)) (desc_service pkg s).
Proof.
  intros [Hopt Hm] Hs. rewrite Forall_forall in Hm. unfold ast_service, desc_service. cbn [Grammar.facts]. rewrite Hs. set (full := join pkg (se_name s)) in *. apply perm_skip.
  pose proof (sorted_perm long_sort long_perm (option_addrs force pkg false full (se_opts s) ++ indexed (fun i m => Addr AMethod i (me_name m) 0 false) (se_methods s))) as HP.
  set (l := sorted long_sort _) in *.
  assert (EO : body_options (flat_map (ast_service_element long_sort force pkg full s) l) = map (wopt false full) (options_in (se_opts s) l)).
  { assert (Hl : forall a, In a l -> a_tag a = AOption \/ a_tag a = AMethod).
    { intros a Ha. apply (Permutation_in _ HP) in Ha. apply in_app_or in Ha as [Ha|Ha]; [left; now apply (option_addrs_is force pkg false full (se_opts s))|].
      right. apply in_indexed in Ha as (i & x & _ & ->). reflexivity. }
    clear HP. induction l as [|a l IH]; [easy|]. cbn [flat_map]. rewrite body_options_app, IH by (intros b Hb; apply Hl; now right). rewrite options_in_cons, map_app. f_equal.
    unfold ast_service_element, is_option. destruct (Hl a (or_introl eq_refl)) as [-> | ->]; cbn [atag_eqb]; [apply body_options_long|]. now destruct (nth_error (se_methods s) (a_index a)). }
  rewrite EO. apply Permutation_app.
  - apply (options_in_facts force pkg res (OwService full) false full (se_opts s) l _ Hopt HP). intros a Ha. apply in_indexed in Ha as (i & x & _ & ->). discriminate.
  - set (part := fun a => match a_tag a with AMethod => match nth_error (se_methods s) (a_index a) with Some m => desc_method full m | None => [] end | _ => [] end).
    transitivity (flat_map part l).
    + rewrite flat_map_flat. apply flat_map_perm_in. intros a _. unfold ast_service_element, part. destruct (a_tag a); try easy; [now rewrite facts_long|].
      destruct (nth_error (se_methods s) (a_index a)) as [m|] eqn:E; [|easy]. cbn [flat_map]. rewrite app_nil_r. apply nth_error_In in E. destruct (Hm m E) as (H1 & H2 & H3). now apply method_facts_ok.
    + etransitivity; [apply (Permutation_flat_map part HP)|]. rewrite flat_map_app. rewrite (flat_map_none part (option_addrs _ _ _ _ _)) by (intros a Ha; unfold part; now rewrite (option_addrs_is force pkg false full _ a Ha)).
      cbn [app]. now rewrite (flat_map_indexed _ part (desc_method full)) by (intros i x Ex; unfold part; cbn; now rewrite Ex).
Qed.
End Service.

Section File.
Variable long_sort : list addr -> list addr.
Hypothesis long_perm : forall l, Permutation (long_sort l) l.
Variable same_opts : opts -> opts -> bool.
Hypothesis same_sound : forall a b, same_opts a b = true -> a = b.
Variable force : bool.
Variable res : use -> bytes -> bytes -> bytes.
Variable f : fdesc.
Notation syn := (fd_syntax f).
Notation pkg := (fd_package f).
Notation pr := (printed force pkg).
Hypothesis Hf : file_ok res pr f.
Notation bst := (ast_bodies long_sort same_opts force f).
Notation loop := (ast_file_loop long_sort force f bst).
Notation fpl := (Place pkg None None 0%Z).
Notation F := (facts res syn fpl OwFile).
Notation wopt := (wopt force pkg).

Definition faddr_ok (a : addr) : Prop := match a_tag a with AExt => nth_in (fd_exts f) (a_index a) | _ => True end.
Definition fpart (a : addr) : list fact :=
  match a_tag a with
  | APackage => [FPackage pkg]
  | AImport => match nth_error (fd_imports f) (a_index a) with Some i => [FImport (snd i) (fst i)] | None => [] end
  | AMessage => match nth_error (fd_messages f) (a_index a) with Some m => message_facts syn res pkg (m_name m) (nth (a_index a) bst []) | None => [] end
  | AEnum => match nth_error (fd_enums f) (a_index a) with Some e => desc_enum pkg e | None => [] end
  | AService => match nth_error (fd_services f) (a_index a) with Some s => desc_service pkg s | None => [] end
  | AExt => match nth_error (fd_exts f) (a_index a) with Some x => desc_field pkg [] (fd_messages f) x ++ group_facts syn res pkg (fd_messages f) bst x | None => [] end
  | _ => []
  end.
Definition fquiet (sk : list key) : Prop := forall t i, In (t, i) sk -> t = AMessage \/ t = AExt.
Definition fclosed (sk : list key) : Prop := forall x, closed AExt (fd_exts f) (extends x) sk.
Lemma fquiet_app l sk : fquiet sk -> fquiet (keyed AExt l ++ sk).
Proof.
  intros H t' i Hi. apply in_app_or in Hi as [Hi|Hi]; [|now apply (H t' i)]. unfold keyed in Hi. apply in_map_iff in Hi as (j & E & _). injection E as <- <-. now right.
Qed.
Lemma fclosed_app x sk : fclosed sk -> fclosed (keyed AExt (where_ (extends x) (fd_exts f)) ++ sk).
Proof.
  intros H2 x' a b Ha Hb. rewrite !unsk_grown, !andb_true_iff. intros [Hn Hu]. split; [|now apply (H2 x' a b)].
  destruct (list_eq_dec ascii_dec x x') as [->|Hne]; [now rewrite Ha in Hn|]. unfold memb in *. apply andb_true_iff in Hb as [_ Hb]. rewrite andb_comm.
  destruct (nth_error (fd_exts f) (a_index b)) as [g|]; [|easy]. unfold extends in *. destruct (f_ext g) as [y|]; [|easy].
  apply beq_eq in Hb. subst y. now replace (beq x x') with false by (symmetry; now apply beq_neq).
Qed.
Lemma import_mod_ok i : In i (fd_imports f) -> import_mod f (fst i) = snd i.
Proof.
  destruct Hf as (_ & HN & _). unfold import_mod. revert HN. induction (fd_imports f) as [|j l IH]; intros HN Hi; [easy|]. cbn [find]. inversion HN as [|? ? H1 H2]; subst.
  destruct Hi as [->|Hi].
  - rewrite beq_refl. now destruct i.
  - destruct (beq (fst j) (fst i)) eqn:E; [|now apply IH]. apply beq_eq in E. exfalso. apply H1. rewrite E. now apply in_map.
Qed.
Lemma exts_fine : exts_ok res pr syn pkg (fd_messages f) (fd_exts f).
Proof. now destruct Hf as (_ & _ & _ & _ & _ & _ & H & _). Qed.

Lemma file_loop_facts : forall l sk, (forall a, In a l -> faddr_ok a) -> NoDup (map akey l) -> fclosed sk ->
  Permutation (flat_map F (loop l sk)) (flat_map fpart (filter (unsk sk) l)).
Proof.
  pose proof Hf as (_ & _ & _ & _ & He & Hs & _). rewrite Forall_forall in He, Hs.
  induction l as [|a l IH]; intros sk Hok Hnd Hcl; [easy|]. cbn [ast_file_loop filter]. unfold unsk at 1.
  assert (Hok' : forall b, In b l -> faddr_ok b) by (intros b Hb; apply Hok; now right).
  assert (Hnd' : NoDup (map akey l)) by (now inversion Hnd).
  destruct (key_in (a_tag a, a_index a) sk) eqn:Ek; cbn [negb]; [now apply IH|].
  assert (Hu : unsk sk a = true) by (unfold unsk; now rewrite Ek).
  pose proof (Hok a (or_introl eq_refl)) as Ha. unfold faddr_ok in Ha. cbn [flat_map].
  assert (Hone : forall ss, Permutation (flat_map F ss) (fpart a) -> Permutation (flat_map F (ss ++ loop l sk)) (fpart a ++ flat_map fpart (filter (unsk sk) l))).
  { intros ss HP. rewrite flat_map_app. apply Permutation_app; [exact HP|now apply IH]. }
  destruct (a_tag a) eqn:Et.
  all: try (apply (Hone []); unfold fpart; now rewrite Et).
  - apply (Hone [SPackage pkg]). unfold fpart. now rewrite Et.
  - apply Hone. unfold fpart. rewrite Et. destruct (nth_error (fd_imports f) (a_index a)) as [i|] eqn:E; [|easy]. apply nth_error_In in E. cbn [flat_map Grammar.facts app]. now rewrite import_mod_ok.
  - apply Hone. unfold fpart. rewrite Et. now rewrite facts_long.
  - apply Hone. unfold fpart. rewrite Et. destruct (nth_error (fd_messages f) (a_index a)) as [m|] eqn:E; [|easy]. cbn [flat_map ast_nested Grammar.facts]. now rewrite app_nil_r.
  - apply Hone. unfold fpart. rewrite Et. destruct (nth_error (fd_enums f) (a_index a)) as [e|] eqn:E; [|easy]. cbn [flat_map]. rewrite app_nil_r.
    apply (enum_facts_ok long_sort long_perm force syn pkg res); [|easy]. apply He. now apply nth_error_In in E.
  - apply Hone. unfold fpart. rewrite Et. destruct (nth_error (fd_services f) (a_index a)) as [s|] eqn:E; [|easy]. cbn [flat_map]. rewrite app_nil_r.
    apply (service_facts_ok long_sort long_perm force syn pkg res); [|easy]. apply Hs. now apply nth_error_In in E.
  - destruct (nth_in_some _ _ Ha) as (g & Eg). rewrite Eg. cbv zeta. pose proof exts_fine as Hx. unfold Spec.exts_ok in Hx.
    pose proof (proj1 (Forall_forall _ _) Hx g ltac:(now apply nth_error_In in Eg)) as (_ & _ & (x & Efx & _) & _). rewrite Efx.
    set (sk' := keyed AExt (where_ (extends x) (fd_exts f)) ++ sk). set (M := filter (memb AExt (fd_exts f) (extends x)) (a :: l)).
    assert (Hma : memb AExt (fd_exts f) (extends x) a = true) by (unfold memb; rewrite Et, Eg; cbn; unfold extends; rewrite Efx; apply beq_refl).
    assert (HG : Permutation (filter (unsk sk) (a :: l)) (M ++ filter (unsk sk') l)).
    { etransitivity; [apply (grab AExt (fd_exts f) (extends x))|].
      - intros b Hb Hmb. now apply (Hcl x a b).
      - fold M. fold sk'. apply Permutation_app_head. cbn [filter]. unfold sk' at 1. rewrite unsk_grown, Hma. cbn [negb andb]. reflexivity. }
    cbn [filter] in HG. rewrite Hu in HG. cbn [flat_map].
    assert (HO : Permutation (F (ast_extend long_sort force syn pkg pkg (fd_exts f) (fd_messages f) bst x (a :: l))) (flat_map fpart M)).
    { etransitivity; [apply (extend_facts_ok long_sort long_perm force syn pkg res); [exact Hx|easy|exists g; split; [now apply nth_error_In in Eg|easy]|]|].
      - apply block_all. now apply memb_count.
      - fold M. erewrite flat_map_ext_in; [reflexivity|]. intros b Hb. apply filter_In in Hb as [_ Hb]. unfold memb in Hb. apply andb_true_iff in Hb as [Hb _]. apply atag_eqb_eq in Hb.
        unfold fpart. now rewrite Hb. }
    assert (HI : Permutation (flat_map F (loop l sk')) (flat_map fpart (filter (unsk sk') l))).
    { apply IH; [easy|easy|now apply fclosed_app]. }
    etransitivity; [apply Permutation_app; [exact HO|exact HI]|].
    change (fpart a ++ flat_map fpart (filter (unsk sk) l)) with (flat_map fpart (a :: filter (unsk sk) l)).
    etransitivity; [|apply Permutation_sym, (Permutation_flat_map fpart HG)]. now rewrite flat_map_app.
Qed.

(** the options of the file, and its package *)
Lemma file_loop_options : forall l sk, (forall a, In a l -> faddr_ok a) -> fquiet sk -> body_options (loop l sk) = map (wopt false pkg) (options_in (fd_opts f) l).
Proof.
  induction l as [|a l IH]; intros sk Hok Hq; [easy|]. cbn [ast_file_loop]. rewrite options_in_cons, map_app. unfold is_option.
  assert (Hok' : forall b, In b l -> faddr_ok b) by (intros b Hb; apply Hok; now right). pose proof (Hok a (or_introl eq_refl)) as Ha. unfold faddr_ok in Ha.
  destruct (key_in (a_tag a, a_index a) sk) eqn:Ek.
  - apply key_in_iff, Hq in Ek. destruct Ek as [E|E]; rewrite E; cbn [atag_eqb map app]; now apply IH.
  - destruct (a_tag a); cbn [atag_eqb map app]; try (now apply IH).
    + rewrite body_options_app, IH by easy. now destruct (nth_error (fd_imports f) (a_index a)).
    + rewrite body_options_app, IH by easy. now rewrite body_options_long.
    + rewrite body_options_app, IH by easy. now destruct (nth_error (fd_messages f) (a_index a)).
    + rewrite body_options_app, IH by easy. now destruct (nth_error (fd_enums f) (a_index a)).
    + rewrite body_options_app, IH by easy. now destruct (nth_error (fd_services f) (a_index a)).
    + destruct (nth_in_some _ _ Ha) as (g & Eg). rewrite Eg. cbv zeta. cbn [body_options flat_map app]. apply IH; [easy|now apply fquiet_app].
Qed.
Definition packages (ss : list stmt) : list bytes := flat_map (fun s => match s with SPackage n => [n] | _ => [] end) ss.
Lemma packages_app a b : packages (a ++ b) = packages a ++ packages b.
Proof. apply flat_map_app. Qed.
Lemma file_loop_packages : forall l sk, (forall a, In a l -> faddr_ok a) -> fquiet sk -> packages (loop l sk) = map (fun _ => pkg) (filter (fun a => atag_eqb (a_tag a) APackage) l).
Proof.
  induction l as [|a l IH]; intros sk Hok Hq; [easy|]. cbn [ast_file_loop filter].
  assert (Hok' : forall b, In b l -> faddr_ok b) by (intros b Hb; apply Hok; now right). pose proof (Hok a (or_introl eq_refl)) as Ha. unfold faddr_ok in Ha.
  destruct (key_in (a_tag a, a_index a) sk) eqn:Ek.
  - apply key_in_iff, Hq in Ek. destruct Ek as [E|E]; rewrite E; cbn [atag_eqb]; now apply IH.
  - destruct (a_tag a); cbn [atag_eqb]; try (now apply IH).
    + cbn [packages flat_map app map]. f_equal. now apply IH.
    + rewrite packages_app, IH by easy. now destruct (nth_error (fd_imports f) (a_index a)).
    + rewrite packages_app, IH by easy. unfold packages at 1, ast_long. rewrite (flat_map_none _ (map _ _)); [easy|]. intros s H. now apply in_map_iff in H as (? & <- & _).
    + rewrite packages_app, IH by easy. now destruct (nth_error (fd_messages f) (a_index a)).
    + rewrite packages_app, IH by easy. now destruct (nth_error (fd_enums f) (a_index a)).
    + rewrite packages_app, IH by easy. now destruct (nth_error (fd_services f) (a_index a)).
    + destruct (nth_in_some _ _ Ha) as (g & Eg). rewrite Eg. cbv zeta. cbn [packages flat_map app]. apply IH; [easy|now apply fquiet_app].
Qed.

Lemma file_addrs_ok a : In a (file_addrs force pkg f) -> faddr_ok a.
Proof.
  unfold file_addrs. rewrite !in_app_iff. intros H. unfold faddr_ok.
  destruct H as [H|[H|[H|[H|[H|[H|H]]]]]].
  - destruct pkg; [easy|]. now destruct H as [<-|[]].
  - apply in_indexed in H as (i & x & E & ->). exact I.
  - now rewrite (option_addrs_is _ _ _ _ _ a H).
  - apply in_indexed in H as (i & x & E & ->). exact I.
  - apply in_indexed in H as (i & x & E & ->). exact I.
  - apply in_indexed in H as (i & x & E & ->). exact I.
  - apply in_indexed in H as (i & x & E & ->). now apply nth_some_in in E.
Qed.
Ltac not_key := let i := fresh in let H := fresh in intros i H; repeat (apply in_app_or in H as [H|H]); apply in_map_iff in H as (? & H & _); discriminate.
Lemma file_addrs_nodup : NoDup (map akey (file_addrs force pkg f)).
Proof.
  unfold file_addrs. rewrite !map_app.
  assert (H : NoDup (map akey (indexed (fun i im => Addr AImport i (fst im) 0 false) (fd_imports f)) ++ map (fun i => (AOption, i)) (seq 0 (List.length (fd_opts f))) ++
    map akey (indexed (fun i m => Addr AMessage i (m_name m) 0 false) (fd_messages f)) ++ map akey (indexed (plain_addr AEnum) (fd_enums f)) ++
    map akey (indexed (plain_addr AService) (fd_services f)) ++ map akey (indexed (field_addr AExt) (fd_exts f)))).
  { rewrite (indexed_keys (fun i im => Addr AImport i (fst im) 0 false) AImport), (indexed_keys (fun i m => Addr AMessage i (m_name m) 0 false) AMessage),
      (indexed_keys (plain_addr AEnum) AEnum), (indexed_keys (plain_addr AService) AService), (indexed_keys (field_addr AExt) AExt) by easy.
    repeat (apply keys_app; [|not_key]). apply keys_nodup. }
  assert (HP : Permutation (map akey (indexed (fun i im => Addr AImport i (fst im) 0 false) (fd_imports f)) ++ map (fun i => (AOption, i)) (seq 0 (List.length (fd_opts f))) ++
    map akey (indexed (fun i m => Addr AMessage i (m_name m) 0 false) (fd_messages f)) ++ map akey (indexed (plain_addr AEnum) (fd_enums f)) ++
    map akey (indexed (plain_addr AService) (fd_services f)) ++ map akey (indexed (field_addr AExt) (fd_exts f)))
    (map akey (indexed (fun i im => Addr AImport i (fst im) 0 false) (fd_imports f)) ++ map akey (option_addrs force pkg false pkg (fd_opts f)) ++
    map akey (indexed (fun i m => Addr AMessage i (m_name m) 0 false) (fd_messages f)) ++ map akey (indexed (plain_addr AEnum) (fd_enums f)) ++
    map akey (indexed (plain_addr AService) (fd_services f)) ++ map akey (indexed (field_addr AExt) (fd_exts f)))).
  { apply Permutation_app_head, Permutation_app_tail. symmetry. apply option_keys. }
  destruct pkg as [|c p] eqn:Ep; [cbn [map app]; now apply (Permutation_NoDup HP)|].
  cbn [map app]. apply (Permutation_NoDup (perm_skip _ HP)). constructor; [|exact H].
  rewrite (indexed_keys (fun i im => Addr AImport i (fst im) 0 false) AImport), (indexed_keys (fun i m => Addr AMessage i (m_name m) 0 false) AMessage),
      (indexed_keys (plain_addr AEnum) AEnum), (indexed_keys (plain_addr AService) AService), (indexed_keys (field_addr AExt) AExt) by easy.
  intros Hi. repeat (apply in_app_or in Hi as [Hi|Hi]); apply in_map_iff in Hi as (? & Hi & _); discriminate.
Qed.
Lemma file_skip_list : file_skip f = keyed AMessage (group_refs (fd_exts f)).
Proof. reflexivity. Qed.
Lemma message_body_facts i m : nth_error (fd_messages f) i = Some m -> Permutation (message_facts syn res pkg (m_name m) (nth i bst [])) (desc_message pkg m).
Proof.
  intros E. pose proof Hf as (_ & _ & _ & Hm & _). rewrite Forall_forall in Hm. unfold ast_bodies. rewrite nth_map_pair, E.
  apply (body_facts long_sort long_perm same_opts same_sound force syn pkg res). apply Hm. now apply nth_error_In in E.
Qed.
Lemma file_assemble {A} (S_ P I O M E Sv X G Ms : list A) : Permutation Ms (M ++ G) ->
  Permutation (O ++ S_ ++ P ++ I ++ M ++ E ++ Sv ++ X ++ G) (S_ ++ P ++ I ++ O ++ Ms ++ E ++ Sv ++ X).
Proof.
  intros H. etransitivity; [|do 4 apply Permutation_app_head; apply Permutation_app_tail, Permutation_sym, H].
  replace (O ++ S_ ++ P ++ I ++ M ++ E ++ Sv ++ X ++ G) with (List.concat [O; S_; P; I; M; E; Sv; X; G]) by (cbn [List.concat]; now rewrite ?app_nil_r).
  replace (S_ ++ P ++ I ++ O ++ (M ++ G) ++ E ++ Sv ++ X) with (List.concat [S_; P; I; O; M; G; E; Sv; X]) by (cbn [List.concat]; now rewrite <- !app_assoc, ?app_nil_r).
  apply concat_perm. apply (Permutation_cons_app [S_; P; I] [M; G; E; Sv; X] O). do 4 apply perm_skip.
  apply (Permutation_cons_app [G] [Sv; X] E). apply (Permutation_cons_app [G] [X] Sv). apply (Permutation_cons_app [G] [] X). reflexivity.
Qed.
Lemma file_facts_ok : Permutation (file_facts res (ast_file long_sort same_opts force f)) (desc_file f).
Proof.
  pose proof Hf as (Hsyn & _ & Ho & Hm & _ & _ & Hx & HN).
  pose proof (sorted_perm long_sort long_perm (file_addrs force pkg f)) as HP. unfold ast_file. set (l := sorted long_sort (file_addrs force pkg f)) in *.
  assert (Hl : forall a, In a l -> faddr_ok a) by (intros a Ha; apply file_addrs_ok; now apply (Permutation_in _ HP)).
  assert (Hnd : NoDup (map akey l)) by (apply (Permutation_NoDup (Permutation_map akey (Permutation_sym HP))), file_addrs_nodup).
  rewrite file_skip_list. set (sk := keyed AMessage (group_refs (fd_exts f))).
  assert (Hq : fquiet sk) by (intros t i H; unfold sk, keyed in H; apply in_map_iff in H as (j & E & _); injection E as <- <-; now left).
  assert (Hcl : fclosed sk) by (intros x a b _ Hb _; unfold sk; rewrite keyed_unsk; unfold memb in Hb; apply andb_true_iff in Hb as [Hb _]; apply atag_eqb_eq in Hb; now rewrite Hb).
  assert (ES : file_syntax (SSyntax (syntax_word f) :: loop l sk) = syn).
  { unfold file_syntax, syntax_word. now destruct syn. }
  assert (EP : file_package (SSyntax (syntax_word f) :: loop l sk) = pkg).
  { unfold file_package. change (flat_map _ (SSyntax (syntax_word f) :: loop l sk)) with (packages (loop l sk)). rewrite file_loop_packages by easy.
    pose proof (filter_perm (fun a => atag_eqb (a_tag a) APackage) _ _ HP) as HQ. unfold file_addrs in HQ. rewrite filter_app in HQ. rewrite (filter_none _ (_ ++ _)) in HQ.
    - rewrite app_nil_r in HQ. destruct pkg as [|c p]; [|apply Permutation_sym, Permutation_length_1_inv in HQ; now rewrite HQ].
      cbn [filter] in HQ. apply Permutation_sym, Permutation_nil in HQ. now rewrite HQ.
    - intros a Ha. rewrite !in_app_iff in Ha. destruct Ha as [H|[H|[H|[H|[H|H]]]]]; [| now rewrite (option_addrs_is _ _ _ _ _ a H) | | | |]; apply in_indexed in H as (i & x & E & ->); reflexivity. }
  unfold file_facts. rewrite ES, EP. cbn [flat_map body_options]. fold (body_options (loop l sk)). cbn [app]. rewrite file_loop_options by easy.
  set (Pk := match pkg with [] => [] | p => [Addr APackage 0 p 0 false] end).
  assert (HO : Permutation (option_facts res OwFile UOption pkg (map (wopt false pkg) (options_in (fd_opts f) l))) (opt_facts OwFile (fd_opts f))).
  { apply (options_in_facts force pkg res OwFile false pkg (fd_opts f) l (Pk ++ indexed (fun i im => Addr AImport i (fst im) 0 false) (fd_imports f) ++
      indexed (fun i m => Addr AMessage i (m_name m) 0 false) (fd_messages f) ++ indexed (plain_addr AEnum) (fd_enums f) ++ indexed (plain_addr AService) (fd_services f) ++ indexed (field_addr AExt) (fd_exts f)) Ho).
    - etransitivity; [exact HP|]. unfold file_addrs. fold Pk. rewrite (app_assoc Pk). rewrite Permutation_app_swap_app. now rewrite <- app_assoc.
    - intros a Ha. rewrite !in_app_iff in Ha. destruct Ha as [H|[H|[H|[H|[H|H]]]]]; [unfold Pk in H; destruct pkg; [easy|destruct H as [<-|[]]; discriminate]| | | | |];
        apply in_indexed in H as (i & x & E & ->); discriminate. }
  etransitivity; [apply Permutation_app; [exact HO|apply Permutation_app_head; apply (file_loop_facts l sk Hl Hnd Hcl)]|].
  pose proof (Permutation_flat_map fpart (filter_perm (unsk sk) _ _ HP)) as HP'.
  etransitivity; [do 2 apply Permutation_app_head; exact HP'|]. unfold file_addrs. fold Pk. rewrite !filter_app, !flat_map_app. unfold sk.
  rewrite (filter_unsk_all _ Pk) by (intros a Ha; unfold Pk in Ha; destruct pkg; [easy|destruct Ha as [<-|[]]; discriminate]).
  rewrite (filter_unsk_all _ (option_addrs _ _ _ _ _)) by (intros a Ha; rewrite (option_addrs_is force pkg false pkg _ a Ha); discriminate).
  rewrite (filter_unsk_all _ (indexed (fun i im => Addr AImport i (fst im) 0 false) _)) by (intros a Ha; apply in_indexed in Ha as (i & x & Ex & ->); discriminate).
  rewrite !(filter_unsk_all _ (indexed (plain_addr _) _)) by (intros a Ha; apply in_indexed in Ha as (i & x & Ex & ->); discriminate).
  rewrite !(filter_unsk_all _ (indexed (field_addr _) _)) by (intros a Ha; apply in_indexed in Ha as (i & x & Ex & ->); discriminate).
  rewrite (flat_map_none fpart (option_addrs _ _ _ _ _)) by (intros a Ha; unfold fpart; now rewrite (option_addrs_is force pkg false pkg _ a Ha)). cbn [app].
  rewrite (flat_map_indexed (fun i im => Addr AImport i (fst im) 0 false) fpart (fun i => [FImport (snd i) (fst i)])) by (intros i x Ex; unfold fpart; cbn; now rewrite Ex).
  rewrite (flat_map_indexed (plain_addr AEnum) fpart (desc_enum pkg)) by (intros i x Ex; unfold fpart; cbn; now rewrite Ex).
  rewrite (flat_map_indexed (plain_addr AService) fpart (desc_service pkg)) by (intros i x Ex; unfold fpart; cbn; now rewrite Ex).
  rewrite (flat_map_indexed (field_addr AExt) fpart (fun x => desc_field pkg [] (fd_messages f) x ++ group_facts syn res pkg (fd_messages f) bst x)) by (intros i x Ex; unfold fpart; cbn; now rewrite Ex).
  set (G := fun i => match nth_error (fd_messages f) i with Some m => message_facts syn res pkg (m_name m) (nth i bst []) | None => [] end).
  set (E := fun i => match nth_error (fd_messages f) i with Some m => desc_message pkg m | None => [] end).
  assert (HGE : forall i, Permutation (G i) (E i)) by (intros i; unfold G, E; destruct (nth_error (fd_messages f) i) as [m|] eqn:Em; [now apply message_body_facts|easy]).
  etransitivity; [do 7 apply Permutation_app_head; apply flat_map_two|]. rewrite (group_refs_total syn res G pkg (fd_messages f) bst) by easy.
  unfold desc_file. rewrite <- !map_flat.
  replace (flat_map fpart Pk) with (match pkg with [] => [] | _ => [FPackage pkg] end) by (unfold Pk; destruct pkg eqn:Epk; [reflexivity|cbn [flat_map fpart a_tag app]; unfold fpart; cbn [a_tag]; now rewrite Epk]).
  replace (F (SSyntax (syntax_word f))) with ([FSyntax syn]) by (unfold syntax_word; revert Hsyn; destruct syn; now intros).
  apply file_assemble.
  set (n := List.length (fd_messages f)).
  assert (EMs : flat_map fpart (filter (unsk (keyed AMessage (group_refs (fd_exts f)))) (indexed (fun i m => Addr AMessage i (m_name m) 0 false) (fd_messages f))) =
                flat_map G (filter (fun i => negb (in_list (group_refs (fd_exts f)) i)) (seq 0 n))).
  { rewrite !filter_flat_map. unfold n.
    assert (HH : forall k pre l', fd_messages f = pre ++ l' -> k = List.length pre ->
       flat_map (fun x => if unsk (keyed AMessage (group_refs (fd_exts f))) x then fpart x else []) (indexed_from (fun i m => Addr AMessage i (m_name m) 0 false) k l') =
       flat_map (fun x => if negb (in_list (group_refs (fd_exts f)) x) then G x else []) (seq k (List.length l'))).
    { intros k pre l'. revert k pre. induction l' as [|x l' IHl]; intros k pre E0 -> ; [easy|]. cbn [indexed_from flat_map List.length seq]. f_equal.
      - rewrite keyed_unsk. cbn [a_tag a_index atag_eqb andb]. destruct (negb _); [|easy]. reflexivity.
      - apply (IHl _ (pre ++ [x])); [rewrite E0, <- app_assoc; reflexivity|rewrite app_length; cbn [List.length]; lia]. }
    now apply (HH 0 [] (fd_messages f)). }
  rewrite EMs. rewrite <- (flat_map_seq (desc_message pkg) (fd_messages f)). fold n. change (flat_map _ (seq 0 n)) with (flat_map E (seq 0 n)).
  assert (HGI : forall i, In i (group_refs (fd_exts f)) -> i < n).
  { intros i Hi. apply in_flat_map in Hi as (g & Hgi & Hk). unfold Spec.exts_ok in Hx. rewrite Forall_forall in Hx. destruct (Hx g Hgi) as ((Hkind & _) & _). unfold kind_ok in Hkind.
    destruct (f_kind g); try easy. destruct Hk as [->|[]]. destruct Hkind as (m & Em). now apply nth_some_in in Em. }
  pose proof (filter_split n [] (group_refs (fd_exts f)) HN HGI) as HS. cbn [app] in HS. rewrite filter_all in HS by easy.
  etransitivity; [apply (Permutation_flat_map E HS)|]. rewrite flat_map_app. apply Permutation_app; apply flat_map_perm_in; intros i _; symmetry; apply HGE.
Qed.
End File.
