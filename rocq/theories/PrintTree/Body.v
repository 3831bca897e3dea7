(** The statements of a printed descriptor, and that its tokens spell them. *)
From Coq Require Import Ascii String NArith QArith Qreduction Permutation.
From Verif Require Import Base Strs.
From Verif.Print Require Model.
From Verif.PrintTree Require Import Model Grammar Spec Read Ast.
Open Scope list_scope.
Open Scope nat_scope.

(** ** Sorting *)
Lemma insert_left_perm less x l : Permutation (insert_left less x l) (x :: l).
Proof.
  induction l as [|y l IH]; [easy|]. simpl. destruct (less x y); [|easy].
  transitivity (y :: x :: l); [now constructor|apply perm_swap].
Qed.
Lemma insertion_sort_perm less l : Permutation (insertion_sort less l) l.
Proof.
  unfold insertion_sort. rewrite <- Permutation_rev.
  assert (H : forall l acc, Permutation (fold_left (fun seen x => insert_left less x seen) l acc) (l ++ acc)).
  { clear l. induction l as [|x l IH]; intros acc; [easy|]. simpl. rewrite IH, insert_left_perm. symmetry. apply Permutation_middle. }
  rewrite H. now rewrite app_nil_r.
Qed.
Lemma pick_indexed {A} (mk : nat -> A -> addr) (l : list A) : (forall i x, a_index (mk i x) = i) -> pick l (indexed mk l) = l.
Proof.
  intros Hmk. unfold pick, indexed.
  assert (H : forall l pre, flat_map (fun a => match nth_error (pre ++ l) (a_index a) with Some x => [x] | None => [] end) (indexed_from mk (List.length pre) l) = l).
  { clear l. induction l as [|x l IH]; intros pre; [easy|]. cbn [indexed_from flat_map]. rewrite Hmk.
    rewrite nth_error_app2, Nat.sub_diag by lia. cbn [nth_error app]. f_equal.
    specialize (IH (pre ++ [x])). rewrite app_length, Nat.add_1_r in IH. rewrite <- app_assoc in IH. exact IH. }
  exact (H l []).
Qed.
Lemma pick_perm {A} (l : list A) a b : Permutation a b -> Permutation (pick l a) (pick l b).
Proof. apply Permutation_flat_map. Qed.
Lemma pick_in {A} (l : list A) as_ x : In x (pick l as_) -> In x l.
Proof.
  unfold pick. rewrite in_flat_map. intros (a & _ & H). destruct (nth_error l (a_index a)) eqn:E; [|easy].
  destruct H as [->|[]]. eapply nth_error_In; eauto.
Qed.
Lemma flat_map_flat {A B C} (f : A -> list B) (g : B -> list C) l : flat_map g (flat_map f l) = flat_map (fun x => flat_map g (f x)) l.
Proof. induction l as [|x l IH]; [easy|]. simpl. now rewrite flat_map_app, IH. Qed.
Lemma map_flat {A B} (f : A -> B) l : map f l = flat_map (fun x => [f x]) l.
Proof. induction l as [|x l IH]; [easy|]. simpl. now rewrite IH. Qed.

Section MsgInd.
Variable P : msg -> Prop.
Hypothesis step : forall n set os fs oos nested ens exts xrs rs ns, (forall m, In m nested -> P m) -> P (Msg n set os fs oos nested ens exts xrs rs ns).
Fixpoint msg_ind' (m : msg) : P m :=
  match m with
  | Msg n set os fs oos nested ens exts xrs rs ns =>
      step n set os fs oos nested ens exts xrs rs ns
        ((fix go (l : list msg) : forall m, In m l -> P m :=
            match l with
            | [] => fun _ H => match H with end
            | x :: r => fun m H => match H with or_introl E => eq_ind x P (msg_ind' x) m E | or_intror H' => go r m H' end
            end) nested)
  end.
End MsgInd.

Section Body.
Variable long_sort : list addr -> list addr.
Hypothesis long_perm : forall l, Permutation (long_sort l) l.
Variable same_opts : opts -> opts -> bool.
Hypothesis same_sound : forall a b, same_opts a b = true -> a = b.
Variable force : bool.
Variable syn : syntax.
Variable pkg : bytes.
Variable res : use -> bytes -> bytes -> bytes.
Notation pr := (printed force pkg).
Notation wr := (written force pkg).
Notation opts_ok := (opts_ok res pr).
Notation value_ok := (value_ok res pr).
Notation field_ok := (field_ok res pr syn).

Lemma sorted_perm l : Permutation (sorted long_sort l) l.
Proof. unfold sorted. destruct (List.length l <=? 20); [apply insertion_sort_perm|apply long_perm]. Qed.

Lemma value_ok_finite scope v : value_ok scope v -> finite v.
Proof.
  refine (value_ind' (fun v => value_ok scope v -> finite v) _ _ _ v); clear v.
  - intros v. destruct v; try exact I; intros H; try (inversion H; fail); now apply fin_leaf.
  - intros fs IH H. inversion H as [| | | | | |fs0 H1|]; subst. apply fin_msg. intros k v Hv. apply (IH k v Hv). now apply (H1 k v).
  - intros vs IH H. inversion H as [| | | | | | |vs0 H1]; subst. apply fin_list. intros v Hv. apply (IH v Hv). now apply H1.
Qed.

(** ** Options *)
Definition woname (im : bool) (scope : bytes) (o : oname) : oname :=
  match o with OExt n => OExt (pr (if im then UMessageOption else UOption) scope n) | o => o end.
Definition wopt (im : bool) (scope : bytes) (ov : oname * value) : soption := (woname im scope (fst ov), wr scope (snd ov)).
(** the options in the order in which they are printed *)
Definition options_of (im : bool) (scope : bytes) (os : opts) : list (oname * value) :=
  flat_map (fun a => options_at os (a_index a)) (sorted long_sort (option_addrs force pkg im scope os)).
Lemma option_addrs_perm im scope os : Permutation (option_addrs force pkg im scope os) (indexed (option_addr force pkg im scope) os).
Proof. apply insertion_sort_perm. Qed.
Lemma options_at_pick os as_ : flat_map (fun a => options_at os (a_index a)) as_ = flat_map spread (pick os as_).
Proof.
  unfold pick, options_at. induction as_ as [|a l IH]; [easy|]. cbn [flat_map]. rewrite flat_map_app, <- IH. f_equal.
  destruct (nth_error os (a_index a)); [simpl; now rewrite app_nil_r|easy].
Qed.
Lemma options_of_perm im scope os : exists os', Permutation os' os /\ options_of im scope os = flat_map spread os'.
Proof.
  exists (pick os (sorted long_sort (option_addrs force pkg im scope os))). split; [|apply options_at_pick].
  transitivity (pick os (indexed (option_addr force pkg im scope) os)); [|now rewrite pick_indexed by easy].
  apply pick_perm. rewrite sorted_perm. apply option_addrs_perm.
Qed.
Definition fine (l : list (oname * value)) : Prop := forall o v, In (o, v) l -> finite v.
Definition fine_opts (os : opts) : Prop := forall n vs, In (n, vs) os -> vs <> [] /\ forall v, In v vs -> finite v.
Lemma opts_ok_fine u scope os : opts_ok u scope os -> fine_opts os.
Proof. intros [_ H] n vs Hi. destruct (H n vs Hi) as (H1 & H2 & _). split; [easy|]. intros v Hv. now apply (value_ok_finite scope), H2. Qed.
Lemma spread_fine os : fine_opts os -> fine (flat_map spread os).
Proof.
  intros H o v Hi. apply in_flat_map in Hi as ([n vs] & Hg & Hi). unfold spread in Hi. cbn [fst snd] in Hi.
  apply in_map_iff in Hi as (x & E & Hx). injection E as <- <-. now apply (H n vs Hg).
Qed.
Lemma fine_opts_perm os os' : Permutation os' os -> fine_opts os -> fine_opts os'.
Proof. intros HP H n vs Hi. apply (H n vs). now apply (Permutation_in _ HP). Qed.
Lemma options_of_fine im scope os : fine_opts os -> fine (options_of im scope os).
Proof. intros H. destruct (options_of_perm im scope os) as (os' & HP & ->). apply spread_fine. now apply (fine_opts_perm os). Qed.
Lemma options_of_nil im scope os : fine_opts os -> options_of im scope os = [] -> os = [].
Proof.
  intros H. destruct (options_of_perm im scope os) as (os' & HP & ->). intros E. destruct os' as [|[n vs] os']; [now apply Permutation_nil in HP|].
  exfalso. destruct (H n vs) as [Hn _]; [apply (Permutation_in _ HP); now left|]. cbn [flat_map] in E. unfold spread in E at 1. cbn [fst snd] in E.
  destruct vs; easy.
Qed.
Lemma options_at_fine os i : fine_opts os -> fine (options_at os i).
Proof.
  intros H o v Hi. unfold options_at in Hi. destruct (nth_error os i) as [[n vs]|] eqn:E; [|easy]. apply nth_error_In in E.
  unfold spread in Hi. apply in_map_iff in Hi as (x & Ex & Hx). injection Ex as <- <-. now apply (H n vs E).
Qed.
Definition ot (im : bool) (scope : bytes) (ov : oname * value) : list tok := strip (print_option force pkg im scope ov).
Lemma ot_reads im scope ov : finite (snd ov) -> reads poption (wopt im scope ov) (ot im scope ov).
Proof.
  intros H r. unfold ot, print_option. rewrite !strip_app. unfold poption.
  assert (E : poname ((strip (print_oname force pkg im scope (fst ov)) ++ strip [B; P "="; B] ++ strip (print_value force pkg scope (snd ov))) ++ r) =
              Some (woname im scope (fst ov), P "=" :: vt force pkg scope (snd ov) ++ r)).
  { destruct (fst ov); [reflexivity|]. cbn [print_oname]. destruct im; reflexivity. }
  rewrite E. change (eat "=" (P "=" :: ?u)) with (Some u). cbv iota beta.
  rewrite vt_reads; [reflexivity|easy|]. rewrite app_length. lia.
Qed.
Lemma ot_length im scope ov : 1 <= List.length (ot im scope ov).
Proof. unfold ot, print_option. rewrite strip_app, app_length. destruct (fst ov); simpl; lia. Qed.
Definition ast_short (im : bool) (scope : bytes) (os : opts) : list soption := map (wopt im scope) (options_of im scope os).
Definition st (im : bool) (scope : bytes) (os : opts) : list tok := strip (print_short long_sort force pkg im scope os).
Lemma st_nil im scope : st im scope [] = [].
Proof. reflexivity. Qed.
Lemma st_cons im scope os : os <> [] -> st im scope os = P "[" :: sep [P ","] (ot im scope) (options_of im scope os) ++ [P "]"].
Proof.
  intros H. unfold st, print_short. destruct os as [|g os]; [easy|]. rewrite !strip_app. rewrite (strip_sep [P ","; B] [P ","]) by easy. reflexivity.
Qed.
Lemma st_reads im scope os : fine_opts os -> reads_opts (ast_short im scope os) (st im scope os).
Proof.
  intros H r Hr. destruct os as [|g os].
  - rewrite st_nil. unfold popts. cbn [app]. now rewrite Hr.
  - rewrite st_cons by easy. unfold popts. cbn [app eat]. rewrite Ascii.eqb_refl, <- app_assoc. set (gs := g :: os) in *.
    assert (HN : options_of im scope gs <> []) by (intros E; now apply options_of_nil in E).
    rewrite (psep_reads poption (wopt im scope) (ot im scope) _ HN).
    + reflexivity.
    + intros [o v] Hx. apply ot_reads. now apply (options_of_fine im scope gs H o v).
    + rewrite app_length. pose proof (sep_length (ot im scope) (options_of im scope gs) (fun x _ => ot_length im scope x)). lia.
    + reflexivity.
Qed.
Lemma st_head im scope os r : eat "," (st im scope os ++ P ";" :: r) = None /\ no_to (st im scope os ++ P ";" :: r).
Proof. destruct os as [|g os]; [now rewrite st_nil|]. now rewrite st_cons by easy. Qed.
(** option statements *)
Definition ast_long (im : bool) (scope : bytes) (l : list (oname * value)) : list stmt := map (fun ov => SOption (wopt im scope ov)) l.
Lemma long_reads c im scope l : In c [CFile; CMessage; CEnum; COneof; CService; CRpc] -> fine l ->
  reads_body c (ast_long im scope l) (strip (print_long force pkg im scope l)).
Proof.
  intros Hc H. unfold print_long, ast_long. rewrite strip_flat. induction l as [|[o v] l IH]; [apply rb_nil|]. cbn [map flat_map].
  apply rb_cons; [|apply IH; intros o' v' Hi; apply (H o' v'); now right].
  rewrite !strip_app. apply (read_option c (wopt im scope (o, v)) (ot im scope (o, v)) Hc). apply ot_reads. apply (H o v). now left.
Qed.

(** ** Fields *)
Definition label_of (f : field) : label :=
  if emit_label syn f then match f_card f with Optional => if f_optkw f then LOptional else LNone | Required => LRequired | Repeated => LRepeated end else LNone.
Definition simple_word (scope : bytes) (k : fkind) : bytes := match k with KScalar t => t | KType n => pr UType scope n | _ => [] end.
Definition entry_word (scope : bytes) (e : msg) (number : Z) : bytes :=
  match find (fun f => (f_num f =? number)%Z) (m_fields e) with Some f => simple_word scope (f_kind f) | None => [] end.
Definition ast_field (scope : bytes) (nested : list msg) (bst : list (list stmt)) (f : field) : stmt :=
  let os := ast_short false (join scope (f_name f)) (field_opts syn f) in
  match f_kind f with
  | KGroup i => SGroup (label_of f) (match nth_error nested i with Some m => m_name m | None => [] end) (f_num f) os (nth i bst [])
  | KMap i =>
      match nth_error nested i with
      | Some e => SMap (entry_word scope e 1) (entry_word scope e 2) (f_name f) (f_num f) os
      | None => SMap [] [] (f_name f) (f_num f) os
      end
  | k => SField (label_of f) (simple_word scope k) (f_name f) (f_num f) os
  end.
Lemma label_strip f : strip (if emit_label syn f then label_toks f ++ [B] else []) = label_words (label_of f).
Proof. unfold label_of. destruct (emit_label syn f); [|easy]. unfold label_toks. destruct (f_card f), (f_optkw f); reflexivity. Qed.
Lemma scalar_no_keyword t : In t scalars -> no_keyword t.
Proof. intros H. unfold scalars in H. repeat (destruct H as [H|H]; [subst; apply mem_not; reflexivity|]). destruct H. Qed.
Lemma field_opts_fine scope oos nested f : field_ok scope oos nested f -> fine_opts (field_opts syn f).
Proof.
  intros (_ & _ & _ & _ & H & _ & _ & Hd & _) n vs Hi. unfold field_opts in Hi. apply in_app_or in Hi as [Hi|Hi].
  - exact (opts_ok_fine _ _ _ H n vs Hi).
  - apply in_app_or in Hi as [Hi|Hi].
    + assert (Hv : exists v, f_default f = Some v /\ (n, vs) = (OPlain (b_ "default"), [v])).
      { destruct syn, (f_default f) as [v|]; simpl in Hi; try easy; destruct Hi as [Hi|[]]; exists v; (split; [easy|symmetry; exact Hi]). }
      destruct Hv as (v & Hv & E). injection E as -> ->. split; [easy|]. intros x [<-|[]]. destruct (Hd v Hv) as [Hok _]. now apply (value_ok_finite (join scope (f_name f))).
    + destruct (f_ext f); [easy|]. destruct (_ || _) in Hi; [easy|]. destruct Hi as [Hi|[]]. injection Hi as <- <-. split; [easy|]. intros x [<-|[]]. now apply fin_leaf.
Qed.
Lemma type_ok scope n : type_found res pr scope scope n -> no_keyword (pr UType scope n).
Proof. intros (_ & H & _) Hi. apply H. unfold type_words. apply in_or_app. now left. Qed.
Lemma field_reads c scope oos nested bst bodies f : field_ctx c -> field_ok scope oos nested f ->
  (forall i, f_kind f = KGroup i -> reads_body CMessage (nth i bst []) (strip (nth i bodies []))) ->
  reads_stmt c (ast_field scope nested bst f) (strip (print_field long_sort force syn pkg scope nested bodies f)).
Proof.
  intros Hc Hok Hb. pose proof (st_reads false (join scope (f_name f)) _ (field_opts_fine _ _ _ _ Hok)) as HO.
  pose proof Hok as (Hk & Hl & _). unfold print_field, ast_field. rewrite strip_app, label_strip. apply read_field; [easy|].
  unfold kind_ok in Hk. destruct (f_kind f) as [t|n|i|i] eqn:Ek.
  - cbn [type_toks simple_type]. rewrite !strip_app, int_toks_strip.
    apply (form_field (label_of f) t (f_name f) (f_num f) _ _ (scalar_no_keyword _ Hk) HO).
  - cbn [type_toks simple_type]. rewrite !strip_app, int_toks_strip.
    apply (form_field (label_of f) (pr UType scope n) (f_name f) (f_num f) _ _ (type_ok _ _ Hk) HO).
  - destruct Hk as (m & Hm). cbn [type_toks]. rewrite Hm, !strip_app, int_toks_strip.
    pose proof (form_group (label_of f) (m_name m) (f_num f) _ _ _ _ HO (Hb i eq_refl)) as HF. exact HF.
  - destruct Hk as (e & kf & vf & He & Hkf & Hvf & (tk & Etk & Htk) & Hv). cbn [type_toks]. rewrite He.
    unfold label_ok in Hl. rewrite Ek in Hl. destruct Hl as (Hcard & Hkw & Hoo & Hx).
    assert (El : label_of f = LNone) by (unfold label_of, emit_label, is_map; now rewrite Hkw, Ek). rewrite El.
    unfold entry_type, entry_word. rewrite Hkf, Hvf, Etk. cbn [simple_type simple_word].
    assert (Ev : strip (simple_type force pkg scope (f_kind vf)) = [W (simple_word scope (f_kind vf))]) by (destruct (f_kind vf); easy).
    rewrite !strip_app, int_toks_strip, Ev. apply (form_map _ _ (f_name f) (f_num f) _ _ HO).
Qed.

(** ** Ranges *)
Definition wrange (r : Print.Model.range_text) : Z * rbound :=
  match r with Print.Model.Single a => (a, UOne) | Print.Model.To a b => (a, UTo b) | Print.Model.ToMax a => (a, UMax) end.
Lemma range_strip r : strip (range_toks r) = bound_toks (wrange r).
Proof. destruct r; cbn [range_toks wrange]; unfold bound_toks; cbn [fst snd]; rewrite !strip_app, !int_toks_strip; cbn [strip filter is_blank negb app]; now rewrite ?app_nil_r. Qed.
Definition ast_ranges (max : Z) (rs : list (Z * Z)) : stmt := SReserved (map (fun r => wrange (Print.Model.print_range max (fst r) (snd r))) rs).
Lemma ranges_reads c max rs : In c [CMessage; CEnum] -> rs <> [] -> reads_stmt c (ast_ranges max rs) (strip (print_ranges max rs)).
Proof.
  intros Hc H. unfold print_ranges, ast_ranges. rewrite !strip_app, (strip_sep [P ","; B] [P ","]) by easy.
  rewrite (sep_ext _ _ (fun r => bound_toks (wrange (Print.Model.print_range max (fst r) (snd r))))) by (intros; apply range_strip).
  rewrite <- (sep_map [P ","] bound_toks). apply (read_reserved c _ Hc). now destruct rs.
Qed.
Lemma names_reads c ns : In c [CMessage; CEnum] -> ns <> [] -> reads_stmt c (SReservedNames ns) (strip (print_names ns)).
Proof.
  intros Hc H. unfold print_names. rewrite !strip_app, (strip_sep [P ","; B] [P ","]) by easy. apply (read_names c _ Hc H).
Qed.
Definition ast_xranges (scope : bytes) (max : Z) (xs : list xrange) : stmt :=
  SExtensions (map (fun x => wrange (Print.Model.print_ext_range max (x_start x) (x_end x))) xs) (ast_short true scope (last (map x_opts xs) [])).
Lemma last_in {A} (l : list A) d : l <> [] -> In (last l d) l.
Proof. induction l as [|x l IH]; [easy|]. intros _. destruct l as [|y l]; [now left|]. right. now apply IH. Qed.
Lemma xranges_reads scope max xs : xs <> [] -> (forall x, In x xs -> fine_opts (x_opts x)) -> reads_stmt CMessage (ast_xranges scope max xs) (strip (print_xranges long_sort force pkg scope max xs)).
Proof.
  intros H HO. unfold print_xranges, ast_xranges. rewrite !strip_app, (strip_sep [P ","; B] [P ","]) by easy.
  rewrite (sep_ext _ _ (fun x => bound_toks (wrange (Print.Model.print_ext_range max (x_start x) (x_end x))))) by (intros; apply range_strip).
  rewrite <- (sep_map [P ","] bound_toks). fold (st true scope (last (map x_opts xs) [])). apply read_extensions; [now destruct xs| | |].
  - apply st_reads. assert (Hl : In (last (map x_opts xs) []) (map x_opts xs)) by (apply last_in; now destruct xs).
    apply in_map_iff in Hl as (x & E & Hx). rewrite <- E. now apply HO.
  - intros r. apply st_head.
  - intros r. apply st_head.
Qed.

(** ** Enums *)
Definition ast_value (scope : bytes) (v : evalue) : stmt := SValue (v_name v) (v_num v) (ast_short false (join scope (v_name v)) (v_opts v)).
Fixpoint ast_enum_loop (outer scope : bytes) (e : enum) (l : list addr) (sk : list skey) : list stmt :=
  match l with
  | [] => []
  | a :: rest =>
      match a_tag a with
      | AOption => ast_long false scope (options_at (en_opts e) (a_index a)) ++ ast_enum_loop outer scope e rest sk
      | AValue => match nth_error (en_values e) (a_index a) with Some v => [ast_value outer v] | None => [] end ++ ast_enum_loop outer scope e rest sk
      | ARange =>
          match nth_error (en_ranges e) (a_index a) with
          | Some r =>
              if skipped (SRange r) sk then ast_enum_loop outer scope e rest sk
              else let more := pick (en_ranges e) (run_of ARange rest) in
                   ast_ranges Print.Model.max_enum (r :: more) :: ast_enum_loop outer scope e rest (map SRange more ++ sk)
          | None => []
          end
      | AName =>
          match nth_error (en_names e) (a_index a) with
          | Some n =>
              if skipped (SName n) sk then ast_enum_loop outer scope e rest sk
              else let more := pick (en_names e) (run_of AName rest) in
                   SReservedNames (n :: more) :: ast_enum_loop outer scope e rest (map SName more ++ sk)
          | None => []
          end
      | _ => ast_enum_loop outer scope e rest sk
      end
  end.
Definition ast_enum (scope : bytes) (e : enum) : stmt :=
  let full := join scope (en_name e) in SEnum (en_name e) (ast_enum_loop scope full e (sorted long_sort (enum_addrs force pkg full e)) []).
Lemma enum_loop_reads outer scope e l : enum_ok res pr outer e ->
  forall sk, reads_body CEnum (ast_enum_loop outer scope e l sk) (strip (enum_loop long_sort force pkg outer scope e l sk)).
Proof.
  intros (Ho & Hv & _). induction l as [|a l IH]; intros sk; [apply rb_nil|]. cbn [ast_enum_loop enum_loop].
  destruct (a_tag a); try apply IH.
  - rewrite strip_app. apply rb_app; [|apply IH]. apply long_reads; [simpl; tauto|]. apply options_at_fine. now apply (opts_ok_fine UOption (join outer (en_name e))).
  - destruct (nth_error (en_ranges e) (a_index a)); [|apply rb_nil]. destruct (skipped _ sk); [apply IH|]. rewrite strip_app.
    apply rb_cons; [|apply IH]. apply ranges_reads; [simpl; tauto|easy].
  - destruct (nth_error (en_names e) (a_index a)); [|apply rb_nil]. destruct (skipped _ sk); [apply IH|]. rewrite strip_app.
    apply rb_cons; [|apply IH]. apply names_reads; [simpl; tauto|easy].
  - rewrite strip_app. apply rb_app; [|apply IH]. destruct (nth_error (en_values e) (a_index a)) as [v|] eqn:E; [|apply rb_nil].
    apply nth_error_In in E. rewrite Forall_forall in Hv. destruct (Hv v E) as (H1 & H2 & H3). apply rb_one. unfold print_evalue.
    rewrite !strip_app, int_toks_strip. apply (read_value (v_name v) (v_num v) _ _ H2 H3). apply st_reads. now apply (opts_ok_fine UOption (join outer (v_name v))).
Qed.
Lemma enum_reads c scope e : In c [CFile; CMessage] -> enum_ok res pr scope e -> reads_stmt c (ast_enum scope e) (strip (print_enum long_sort force pkg scope e)).
Proof.
  intros Hc He. unfold print_enum, ast_enum. rewrite !strip_app.
  apply (read_named c SEnum "enum" CEnum (en_name e)); [simpl in *; intuition subst; tauto|easy|]. now apply enum_loop_reads.
Qed.

(** ** Oneofs, extensions and messages *)
Definition ast_oneof_element (scope full : bytes) (fs : list field) (nested : list msg) (bst : list (list stmt)) (os : opts) (a : addr) : list stmt :=
  match a_tag a with
  | AOption => ast_long false full (options_at os (a_index a))
  | AField => match nth_error fs (a_index a) with Some f => [ast_field scope nested bst f] | None => [] end
  | _ => []
  end.
Definition ast_oneof (scope : bytes) (fs : list field) (nested : list msg) (bst : list (list stmt)) (o : nat) (oo : oneof) (l : list addr) : stmt :=
  let full := join scope (oo_name oo) in
  SOneof (oo_name oo) (flat_map (ast_oneof_element scope full fs nested bst (oo_opts oo))
    (sorted long_sort (option_addrs force pkg false full (oo_opts oo) ++ members fs o (count_if (in_oneof o) fs) l))).
Definition ast_extend (scope : bytes) (xs : list field) (nested : list msg) (bst : list (list stmt)) (x : bytes) (l : list addr) : stmt :=
  SExtend (pr UType scope x) (map (ast_field scope nested bst) (pick xs (block_of xs x (count_if (extends x) xs) l))).
Definition ast_nested (bst : list (list stmt)) (i : nat) (m : msg) : stmt := SMessage (m_name m) (nth i bst []).
Fixpoint ast_loop (scope : bytes) (c : container) (bst : list (list stmt)) (l : list addr) (sk : list key) (n : nat) : list stmt :=
  match l with
  | [] => []
  | a :: rest =>
      match n with
      | S n' => ast_loop scope c bst rest sk n'
      | 0 =>
          if key_in (a_tag a, a_index a) sk then ast_loop scope c bst rest sk 0
          else
            match a_tag a with
            | AOption => ast_long true scope (options_at (c_opts c) (a_index a)) ++ ast_loop scope c bst rest sk 0
            | AField =>
                match nth_error (c_fields c) (a_index a) with
                | Some f =>
                    match match f_oneof f with Some o => option_map (pair o) (nth_error (c_oneofs c) o) | None => None end with
                    | Some (o, oo) =>
                        if oo_synth oo then ast_field scope (c_nested c) bst f :: ast_loop scope c bst rest sk 0
                        else ast_oneof scope (c_fields c) (c_nested c) bst o oo l ::
                             ast_loop scope c bst rest (keyed AField (where_ (in_oneof o) (c_fields c)) ++ sk) 0
                    | None => ast_field scope (c_nested c) bst f :: ast_loop scope c bst rest sk 0
                    end
                | None => []
                end
            | AExt =>
                match nth_error (c_exts c) (a_index a) with
                | Some f =>
                    let x := match f_ext f with Some x => x | None => [] end in
                    ast_extend scope (c_exts c) (c_nested c) bst x l ::
                    ast_loop scope c bst rest (keyed AExt (where_ (extends x) (c_exts c)) ++ sk) 0
                | None => []
                end
            | AMessage =>
                match nth_error (c_nested c) (a_index a) with Some m => [ast_nested bst (a_index a) m] | None => [] end ++ ast_loop scope c bst rest sk 0
            | AEnum => match nth_error (c_enums c) (a_index a) with Some e => [ast_enum scope e] | None => [] end ++ ast_loop scope c bst rest sk 0
            | AXRange =>
                match nth_error (c_xranges c) (a_index a) with
                | Some x =>
                    let run := xrun_of same_opts (c_xranges c) (x_opts x) rest in
                    ast_xranges scope (Print.Model.max_tag (c_set c)) (x :: pick (c_xranges c) run) :: ast_loop scope c bst rest sk (List.length run)
                | None => []
                end
            | ARange =>
                match nth_error (c_ranges c) (a_index a) with
                | Some r =>
                    let run := run_of ARange rest in
                    ast_ranges (Print.Model.max_tag (c_set c)) (r :: pick (c_ranges c) run) :: ast_loop scope c bst rest sk (List.length run)
                | None => []
                end
            | AName =>
                match nth_error (c_names c) (a_index a) with
                | Some n =>
                    let run := run_of AName rest in
                    SReservedNames (n :: pick (c_names c) run) :: ast_loop scope c bst rest sk (List.length run)
                | None => []
                end
            | _ => ast_loop scope c bst rest sk 0
            end
      end
  end.
Notation exts_ok := (exts_ok res pr syn).
(** what reading needs of a message *)
Record parts_ok (scope : bytes) (c : container) : Prop := {
  po_opts : fine_opts (c_opts c);
  po_fields : forall f, In f (c_fields c) -> field_ok scope (c_oneofs c) (c_nested c) f;
  po_oneofs : forall oo, In oo (c_oneofs c) -> fine_opts (oo_opts oo);
  po_exts : exts_ok scope (c_nested c) (c_exts c);
  po_enums : forall e, In e (c_enums c) -> enum_ok res pr scope e;
  po_xranges : forall x, In x (c_xranges c) -> fine_opts (x_opts x) }.
Lemma field_reads_in c scope oos nested bst bodies fs f : field_ctx c -> field_ok scope oos nested f -> In f fs ->
  (forall i, In i (group_refs fs) -> reads_body CMessage (nth i bst []) (strip (nth i bodies []))) ->
  reads_stmt c (ast_field scope nested bst f) (strip (print_field long_sort force syn pkg scope nested bodies f)).
Proof.
  intros Hc Hok Hf Hb. apply (field_reads c scope oos); [easy|easy|]. intros i E. apply Hb. apply in_flat_map. exists f. split; [easy|]. rewrite E. now left.
Qed.
Lemma extend_reads c scope xs nested bst bodies x l : In c [CFile; CMessage] -> exts_ok scope nested xs ->
  (forall i, In i (group_refs xs) -> reads_body CMessage (nth i bst []) (strip (nth i bodies []))) ->
  reads_stmt c (ast_extend scope xs nested bst x l) (strip (print_extend long_sort force syn pkg scope xs nested bodies x l)).
Proof.
  intros Hc Hx Hb. unfold print_extend, ast_extend. rewrite !strip_app.
  apply (read_named c SExtend "extend" CExtend (pr UType scope x)); [simpl in *; intuition subst; tauto|easy|].
  rewrite strip_flat, map_flat. apply rb_flat. intros f Hf. apply rb_one. apply pick_in in Hf.
  unfold Spec.exts_ok in Hx. rewrite Forall_forall in Hx. apply (field_reads_in CExtend scope [] nested bst bodies xs); [unfold field_ctx; simpl; tauto|apply (Hx f Hf)|easy|easy].
Qed.
Lemma oneof_reads scope oos fs nested bst bodies o oo l : (forall f, In f fs -> field_ok scope oos nested f) -> fine_opts (oo_opts oo) ->
  (forall i, In i (group_refs fs) -> reads_body CMessage (nth i bst []) (strip (nth i bodies []))) ->
  reads_stmt CMessage (ast_oneof scope fs nested bst o oo l) (strip (print_oneof long_sort force syn pkg scope fs nested bodies o oo l)).
Proof.
  intros Hf Ho Hb. unfold print_oneof, ast_oneof. rewrite !strip_app.
  apply (read_named CMessage SOneof "oneof" COneof (oo_name oo)); [simpl; tauto|easy|].
  rewrite strip_flat. apply rb_flat. intros a _. unfold ast_oneof_element, oneof_element. destruct (a_tag a); try apply rb_nil.
  - apply long_reads; [simpl; tauto|]. now apply options_at_fine.
  - destruct (nth_error fs (a_index a)) as [f|] eqn:E; [|apply rb_nil]. apply nth_error_In in E. apply rb_one.
    apply (field_reads_in COneof scope oos nested bst bodies fs); [unfold field_ctx; simpl; tauto|now apply Hf|easy|easy].
Qed.
Lemma message_read c n body t : In c [CFile; CMessage] -> reads_body CMessage body (strip t) ->
  reads_stmt c (SMessage n body) (strip ([kw "message"; B; W n; B; P "{"; B] ++ t ++ [P "}"; B])).
Proof.
  intros Hc H. rewrite !strip_app. apply (read_named c SMessage "message" CMessage n); [simpl in *; intuition subst; tauto|easy|easy].
Qed.
Lemma key_in_app k a b : key_in k (a ++ b) = key_in k a || key_in k b.
Proof. apply existsb_app. Qed.
Lemma loop_reads scope c bst : parts_ok scope c ->
  (forall i, ~ In i (map_refs (c_fields c)) -> reads_body CMessage (nth i bst []) (strip (nth i (c_bodies c) []))) ->
  (forall i, In i (group_refs (c_fields c) ++ group_refs (c_exts c)) -> ~ In i (map_refs (c_fields c))) ->
  forall l sk n, (forall i, In i (map_refs (c_fields c)) -> key_in (AMessage, i) sk = true) ->
  reads_body CMessage (ast_loop scope c bst l sk n) (strip (message_loop long_sort same_opts force syn pkg scope c l sk n)).
Proof.
  intros [Ho Hf Hoo Hx He Hxr] Hb Hg. assert (HbF : forall i, In i (group_refs (c_fields c)) -> reads_body CMessage (nth i bst []) (strip (nth i (c_bodies c) []))) by (intros i Hi; apply Hb, Hg, in_or_app; now left).
  assert (HbX : forall i, In i (group_refs (c_exts c)) -> reads_body CMessage (nth i bst []) (strip (nth i (c_bodies c) []))) by (intros i Hi; apply Hb, Hg, in_or_app; now right).
  induction l as [|a l IH]; intros sk n Hsk; [apply rb_nil|]. cbn [ast_loop message_loop]. destruct n; [|now apply IH].
  destruct (key_in (a_tag a, a_index a) sk) eqn:Ek; [now apply IH|].
  assert (HF : forall f, In f (c_fields c) -> reads_stmt CMessage (ast_field scope (c_nested c) bst f) (strip (print_field long_sort force syn pkg scope (c_nested c) (c_bodies c) f))).
  { intros f Hi. apply (field_reads_in CMessage scope (c_oneofs c) _ _ _ (c_fields c)); [unfold field_ctx; simpl; tauto|now apply Hf|easy|easy]. }
  assert (HS : forall s i, In i (map_refs (c_fields c)) -> key_in (AMessage, i) (s ++ sk) = true) by (intros s i Hi; rewrite key_in_app, (Hsk i Hi); apply orb_true_r).
  destruct (a_tag a) eqn:Et; try now apply IH.
  - rewrite strip_app. apply rb_app; [|now apply IH]. apply long_reads; [simpl; tauto|]. now apply options_at_fine.
  - destruct (nth_error (c_fields c) (a_index a)) as [f|] eqn:Ef; [|apply rb_nil]. apply nth_error_In in Ef.
    destruct (f_oneof f) as [o|]; [destruct (nth_error (c_oneofs c) o) as [oo|] eqn:Eo|]; cbn [option_map].
    + destruct (oo_synth oo); rewrite strip_app; apply rb_cons.
      * now apply HF.
      * now apply IH.
      * apply (oneof_reads scope (c_oneofs c)); [easy|apply Hoo; now apply nth_error_In in Eo|easy].
      * apply IH. apply HS.
    + rewrite strip_app. apply rb_cons; [now apply HF|now apply IH].
    + rewrite strip_app. apply rb_cons; [now apply HF|now apply IH].
  - rewrite strip_app. apply rb_app; [|now apply IH]. destruct (nth_error (c_nested c) (a_index a)) as [m|]; [|apply rb_nil]. apply rb_one.
    apply message_read; [simpl; tauto|]. apply Hb. intros Hi. rewrite (Hsk _ Hi) in Ek. discriminate.
  - rewrite strip_app. apply rb_app; [|now apply IH]. destruct (nth_error (c_enums c) (a_index a)) as [e|] eqn:Ee; [|apply rb_nil]. apply rb_one.
    apply enum_reads; [simpl; tauto|]. apply He. now apply nth_error_In in Ee.
  - destruct (nth_error (c_xranges c) (a_index a)) as [x|] eqn:Exx; [|apply rb_nil]. apply nth_error_In in Exx. cbv zeta. rewrite strip_app. apply rb_cons; [|now apply IH].
    apply xranges_reads; [easy|]. intros y [<-|Hy]; [now apply Hxr|]. apply pick_in in Hy. now apply Hxr.
  - destruct (nth_error (c_exts c) (a_index a)) as [f|] eqn:Ef; [|apply rb_nil]. cbv zeta. rewrite strip_app. apply rb_cons; [|apply IH; apply HS].
    apply extend_reads; [simpl; tauto|easy|easy].
  - destruct (nth_error (c_ranges c) (a_index a)) as [r|]; [|apply rb_nil]. cbv zeta. rewrite strip_app. apply rb_cons; [|now apply IH]. apply ranges_reads; [simpl; tauto|easy].
  - destruct (nth_error (c_names c) (a_index a)) as [r|]; [|apply rb_nil]. cbv zeta. rewrite strip_app. apply rb_cons; [|now apply IH]. apply names_reads; [simpl; tauto|easy].
Qed.

Fixpoint ast_body (scope : bytes) (m : msg) {struct m} : list stmt :=
  match m with
  | Msg _ set os fs oos nested ens exts xrs rs ns =>
      let c := Container os set fs oos nested (map (fun n => print_body long_sort same_opts force syn pkg (join scope (m_name n)) n) nested) ens exts xrs rs ns in
      ast_loop scope c (map (fun n => ast_body (join scope (m_name n)) n) nested) (sorted long_sort (message_addrs force pkg scope c)) (initial_skip c) 0
  end.
Notation message_ok := (message_ok res pr syn).
Lemma all_nested full fs nested :
  (fix all (i : nat) (l : list msg) : Prop := match l with [] => True | x :: r => (~ In i (map_refs fs) -> message_ok full x) /\ all (S i) r end) 0 nested ->
  forall i x, nth_error nested i = Some x -> ~ In i (map_refs fs) -> message_ok full x.
Proof.
  intros H i x. change (~ In i (map_refs fs)) with (~ In (0 + i) (map_refs fs)). revert i x. generalize dependent 0.
  induction nested as [|y r IH]; intros k H i x E Hi; [now destruct i|]. destruct H as [H1 H2]. destruct i as [|i].
  - injection E as <-. apply H1. now rewrite Nat.add_0_r in Hi.
  - apply (IH (S k) H2 i x E). now replace (S k + i) with (k + S i) by lia.
Qed.
Lemma keyed_in t i l : In i l -> key_in (t, i) (keyed t l) = true.
Proof.
  intros H. unfold key_in, keyed. apply existsb_exists. exists (t, i). split; [apply in_map_iff; now exists i|]. cbn. rewrite Nat.eqb_refl. now destruct t.
Qed.
Lemma atag_eqb_eq a b : atag_eqb a b = true <-> a = b.
Proof. split; [now destruct a, b|intros ->; now destruct b]. Qed.
Lemma key_in_iff t i sk : key_in (t, i) sk = true <-> In (t, i) sk.
Proof.
  unfold key_in. rewrite existsb_exists. split.
  - intros ((t', i') & H & E). cbn in E. apply andb_true_iff in E as [E1 E2]. apply atag_eqb_eq in E1. apply Nat.eqb_eq in E2. now subst.
  - intros H. exists (t, i). split; [easy|]. cbn. rewrite Nat.eqb_refl. now destruct t.
Qed.
Lemma map_refs_skip c i : In i (map_refs (c_fields c)) -> key_in (AMessage, i) (initial_skip c) = true.
Proof.
  intros H. apply keyed_in. apply in_or_app. left. apply in_flat_map in H as (f & Hf & H). apply in_flat_map. exists f. split; [easy|].
  unfold ref_of. now destruct (f_kind f).
Qed.
Lemma disjoint_refs (a b : list nat) i : NoDup (a ++ b) -> In i b -> ~ In i a.
Proof.
  intros H Hb Ha. induction a as [|x a IH]; [easy|]. cbn in H. inversion H as [|? ? H1 H2]; subst. destruct Ha as [->|Ha]; [|now apply IH].
  apply H1. apply in_or_app. now right.
Qed.
Lemma message_parts scope n set os fs oos nested bodies ens exts xrs rs ns :
  message_ok scope (Msg n set os fs oos nested ens exts xrs rs ns) -> parts_ok (join scope n) (Container os set fs oos nested bodies ens exts xrs rs ns).
Proof.
  intros (H1 & _ & _ & H2 & _ & H3 & H4 & _ & H5 & H6 & _). rewrite Forall_forall in H2, H3, H5, H6. split; cbn.
  - now apply opts_ok_fine in H1.
  - intros f Hf. now apply H2.
  - intros oo Hi. specialize (H3 oo Hi). now apply opts_ok_fine in H3.
  - easy.
  - easy.
  - intros x Hi. destruct (H6 x Hi) as [_ H7]. now apply opts_ok_fine in H7.
Qed.
Lemma nth_map_pair {A} (f : msg -> A) (d : A) i l : nth i (map f l) d = match nth_error l i with Some m => f m | None => d end.
Proof. revert i. induction l as [|x l IH]; intros [|i]; try easy. apply IH. Qed.
Lemma body_reads m : forall scope, message_ok scope m -> reads_body CMessage (ast_body (join scope (m_name m)) m) (strip (print_body long_sort same_opts force syn pkg (join scope (m_name m)) m)).
Proof.
  induction m as [n set os fs oos nested ens exts xrs rs ns IH] using msg_ind'. intros scope Hok. cbn [m_name print_body ast_body]. set (full := join scope n).
  pose proof (message_parts _ _ _ _ _ _ _ (map (fun n => print_body long_sort same_opts force syn pkg (join full (m_name n)) n) nested) _ _ _ _ _ Hok) as HP. fold full in HP.
  destruct Hok as (_ & _ & _ & _ & _ & _ & _ & HN & _ & _ & _ & Hall). fold full in Hall. pose proof (all_nested _ _ _ Hall) as HA.
  apply loop_reads; [easy| | |].
  - cbn. intros i Hi. rewrite !nth_map_pair. destruct (nth_error nested i) as [x|] eqn:E; [|apply rb_nil]. apply (IH x); [now apply nth_error_In in E|now apply (HA i)].
  - cbn. intros i Hi. now apply (disjoint_refs _ (group_refs fs ++ group_refs exts)).
  - intros i Hi. now apply map_refs_skip.
Qed.

(** ** Services *)
Definition ast_method (scope : bytes) (m : method) : stmt :=
  SRpc (me_name m) (me_cs m) (pr UType pkg (me_in m)) (me_ss m) (pr UType pkg (me_out m))
    (ast_long false (join scope (me_name m)) (options_of false (join scope (me_name m)) (me_opts m))).
Definition ast_service_element (full : bytes) (s : service) (a : addr) : list stmt :=
  match a_tag a with
  | AOption => ast_long false full (options_at (se_opts s) (a_index a))
  | AMethod => match nth_error (se_methods s) (a_index a) with Some m => [ast_method full m] | None => [] end
  | _ => []
  end.
Definition ast_service (scope : bytes) (s : service) : stmt :=
  let full := join scope (se_name s) in
  SService (se_name s) (flat_map (ast_service_element full s)
    (sorted long_sort (option_addrs force pkg false full (se_opts s) ++ indexed (fun i m => Addr AMethod i (me_name m) 0 false) (se_methods s)))).
Lemma stream_ok s s' n : type_found res pr s s' n -> is (head_word (pr UType s n)) "stream" = false.
Proof.
  intros (_ & H & _). apply beq_neq. intros E. apply H. rewrite E. unfold type_words. apply in_or_app. right. now left.
Qed.
Lemma method_reads full m : type_found res pr pkg full (me_in m) -> type_found res pr pkg full (me_out m) -> opts_ok UOption (join full (me_name m)) (me_opts m) ->
  reads_stmt CService (ast_method full m) (strip (print_method long_sort force pkg full m)).
Proof.
  intros Hi Ho Hp. unfold print_method, ast_method.
  set (u := match me_opts m with
    | [] => [P ";"; B]
    | os => [P "{"; B] ++ flat_map (fun a => print_long force pkg false (join full (me_name m)) (options_at os (a_index a))) (sorted long_sort (option_addrs force pkg false (join full (me_name m)) os)) ++ [P "}"; B]
    end). rewrite !strip_app.
  assert (E : forall b n, strip (rpc_type force pkg b n) = rpc_toks b (pr UType pkg n)) by (intros [] n; reflexivity). rewrite !E.
  apply (read_rpc (me_name m) (me_cs m) _ (me_ss m) _ _ (stream_ok _ _ _ Hi) (stream_ok _ _ _ Ho)).
  pose proof (opts_ok_fine _ _ _ Hp) as HF. unfold u, options_of. destruct (me_opts m) as [|g os] eqn:Eo.
  - left. split; reflexivity.
  - right. rewrite !strip_app, strip_flat. eexists. split; [|reflexivity].
    unfold ast_long. rewrite map_flat, flat_map_flat. apply rb_flat. intros a _. rewrite <- map_flat. apply long_reads; [simpl; tauto|]. now apply options_at_fine.
Qed.
Notation service_ok := (service_ok res pr).
Lemma service_reads s : service_ok pkg s -> reads_stmt CFile (ast_service pkg s) (strip (print_service long_sort force pkg pkg s)).
Proof.
  intros [Ho Hm]. unfold print_service, ast_service. rewrite !strip_app.
  apply (read_named CFile SService "service" CService (se_name s)); [simpl; tauto|easy|].
  rewrite strip_flat. apply rb_flat. intros a _. unfold ast_service_element, service_element. destruct (a_tag a); try apply rb_nil.
  - apply long_reads; [simpl; tauto|]. apply options_at_fine. now apply opts_ok_fine in Ho.
  - destruct (nth_error (se_methods s) (a_index a)) as [m|] eqn:E; [|apply rb_nil]. apply nth_error_In in E. rewrite Forall_forall in Hm. destruct (Hm m E) as (H1 & H2 & H3).
    apply rb_one. now apply method_reads.
Qed.
End Body.

(** ** Files *)
Section File.
Variable long_sort : list addr -> list addr.
Hypothesis long_perm : forall l, Permutation (long_sort l) l.
Variable same_opts : opts -> opts -> bool.
Variable force : bool.
Variable res : use -> bytes -> bytes -> bytes.
Variable f : fdesc.
Notation syn := (fd_syntax f).
Notation pkg := (fd_package f).
Notation pr := (printed force pkg).
Definition import_mod (p : bytes) : imod := match find (fun i => beq (fst i) p) (fd_imports f) with Some (_, m) => m | None => INone end.
Fixpoint ast_file_loop (bst : list (list stmt)) (l : list addr) (sk : list key) : list stmt :=
  match l with
  | [] => []
  | a :: rest =>
      if key_in (a_tag a, a_index a) sk then ast_file_loop bst rest sk
      else
        match a_tag a with
        | APackage => SPackage pkg :: ast_file_loop bst rest sk
        | AImport => match nth_error (fd_imports f) (a_index a) with Some i => [SImport (import_mod (fst i)) (fst i)] | None => [] end ++ ast_file_loop bst rest sk
        | AOption => ast_long force pkg false pkg (options_at (fd_opts f) (a_index a)) ++ ast_file_loop bst rest sk
        | AMessage => match nth_error (fd_messages f) (a_index a) with Some m => [ast_nested bst (a_index a) m] | None => [] end ++ ast_file_loop bst rest sk
        | AEnum => match nth_error (fd_enums f) (a_index a) with Some e => [ast_enum long_sort force pkg pkg e] | None => [] end ++ ast_file_loop bst rest sk
        | AService => match nth_error (fd_services f) (a_index a) with Some s => [ast_service long_sort force pkg pkg s] | None => [] end ++ ast_file_loop bst rest sk
        | AExt =>
            match nth_error (fd_exts f) (a_index a) with
            | Some x0 =>
                let x := match f_ext x0 with Some x => x | None => [] end in
                ast_extend long_sort force syn pkg pkg (fd_exts f) (fd_messages f) bst x l ::
                ast_file_loop bst rest (keyed AExt (where_ (extends x) (fd_exts f)) ++ sk)
            | None => []
            end
        | _ => ast_file_loop bst rest sk
        end
  end.
Definition ast_bodies : list (list stmt) := map (fun m => ast_body long_sort same_opts force syn pkg (join pkg (m_name m)) m) (fd_messages f).
Definition syntax_word : bytes := match syn with Proto2 => b_ "proto2" | Proto3 => b_ "proto3" | Editions => b_ "editions" end.
Definition ast_file : list stmt := SSyntax syntax_word :: ast_file_loop ast_bodies (sorted long_sort (file_addrs force pkg f)) (file_skip f).
Lemma file_reads : file_ok res pr f -> reads_body CFile ast_file (strip (print_file long_sort same_opts force f)).
Proof.
  intros (_ & _ & Ho & Hm & He & Hs & Hx & _). rewrite Forall_forall in Hm, He, Hs. unfold print_file, ast_file. cbv zeta. rewrite strip_app.
  apply rb_cons; [apply read_syntax|]. generalize (file_skip f). generalize (sorted long_sort (file_addrs force pkg f)).
  set (bodies := map _ _).
  assert (HB : forall i, reads_body CMessage (nth i ast_bodies []) (strip (nth i bodies []))).
  { intros i. unfold bodies, ast_bodies. rewrite !nth_map_pair. destruct (nth_error (fd_messages f) i) as [m|] eqn:E; [|apply rb_nil].
    apply nth_error_In in E. apply (body_reads long_sort long_perm same_opts force syn pkg res); [now apply Hm]. }
  induction l as [|a l IH]; intros sk; [apply rb_nil|]. cbn [ast_file_loop file_loop]. destruct (key_in _ sk); [apply IH|].
  destruct (a_tag a); try apply IH.
  - rewrite strip_app. apply rb_cons; [apply read_package|apply IH].
  - rewrite strip_app. apply rb_app; [|apply IH]. destruct (nth_error (fd_imports f) (a_index a)) as [i|]; [|apply rb_nil]. apply rb_one.
    unfold print_import, import_mod. rewrite !strip_app. destruct (find _ (fd_imports f)) as [[p []]|]; apply read_import.
  - rewrite strip_app. apply rb_app; [|apply IH]. apply long_reads; [simpl; tauto|]. apply options_at_fine. now apply opts_ok_fine in Ho.
  - rewrite strip_app. apply rb_app; [|apply IH]. destruct (nth_error (fd_messages f) (a_index a)) as [m|]; [|apply rb_nil]. apply rb_one.
    apply message_read; [simpl; tauto|apply HB].
  - rewrite strip_app. apply rb_app; [|apply IH]. destruct (nth_error (fd_enums f) (a_index a)) as [e|] eqn:E; [|apply rb_nil]. apply rb_one.
    apply (enum_reads long_sort long_perm force pkg res); [simpl; tauto|]. apply He. now apply nth_error_In in E.
  - rewrite strip_app. apply rb_app; [|apply IH]. destruct (nth_error (fd_services f) (a_index a)) as [s|] eqn:E; [|apply rb_nil]. apply rb_one.
    apply (service_reads long_sort force pkg res). apply Hs. now apply nth_error_In in E.
  - destruct (nth_error (fd_exts f) (a_index a)) as [x0|]; [|apply rb_nil]. cbv zeta. rewrite strip_app. apply rb_cons; [|apply IH].
    apply (extend_reads long_sort long_perm force syn pkg res); [simpl; tauto|easy|intros; apply HB].
Qed.
End File.
