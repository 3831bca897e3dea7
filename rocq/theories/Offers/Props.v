From Coq Require Import Ascii String Lia Sorted.
From Verif Require Import Base Strs.
From Verif.Locate Require Import Model Spec Proofs.
From Verif.Offers Require Import Model Spec Proofs.
Open Scope list_scope.

Definition b (s : string) : bytes := b_ s.
Definition deprecated := mkField (b "deprecated") (b "google.protobuf.MessageOptions.deprecated") false None.
Definition message_options := mkMessage [mkField (b "map_entry") (b "google.protobuf.MessageOptions.map_entry") false None; deprecated] true false.

(** ** C121: accepting an option's name writes the name *)
(** where no name has been typed; a plain name for a plain name; and an extension for a name in
    parentheses, with the cursor anywhere from before the first to after the last character *)
Theorem C121_new : forall exts pkg set pre post m i,
  In i (offers exts pkg set (pre ++ post) m AtKeyword (List.length pre)) -> accept (pre ++ post) (change i) = pre ++ written false (goal i) ++ post.
Proof. intros exts pkg set pre post m i H. eapply accept_new. exact H. Qed.
Theorem C121_plain_partial : forall exts pkg existing pre n post p k i t, k <= List.length n ->
  In i (complete_name exts pkg existing (pre ++ n ++ post) p (Some (plain_ref (List.length pre) n)) (List.length pre + k)) -> goal i = TField t ->
  accept (pre ++ n ++ post) (change i) = pre ++ written false (goal i) ++ post.
Proof. intros exts pkg ex pre n post p k i t Hk Hi Ht. rewrite (accept_plain exts pkg ex pre n post k p i t Hk Hi Ht). now rewrite Ht. Qed.
Theorem C121_extension_partial : forall exts pkg existing pre n post p k i t, k <= List.length (b_ "(" ++ n ++ b_ ")") ->
  In i (complete_name exts pkg existing (pre ++ (b_ "(" ++ n ++ b_ ")") ++ post) p (Some (paren_ref (List.length pre) n)) (List.length pre + k)) -> goal i = TExt t ->
  accept (pre ++ (b_ "(" ++ n ++ b_ ")") ++ post) (change i) = pre ++ written false (goal i) ++ post.
Proof.
  intros exts pkg ex pre n post p k i t Hk Hi Ht. rewrite (accept_paren exts pkg ex pre n post k p i t); [now rewrite Ht| |exact Hi|exact Ht].
  rewrite !app_length in Hk. cbn [List.length b_ list_ascii_of_string] in Hk. lia.
Qed.
(** the list shows a field by its name and an extension by its name in parentheses *)
Theorem C121_shown : forall exts pkg existing p partial suffix r pos i,
  In i (complete_names exts pkg existing p partial suffix r pos) -> label i = written false (goal i).
Proof. intros exts pkg existing p pa su r pos i H. apply items_edits in H as [(f & -> & _)|(x & _ & ->)]; reflexivity. Qed.
Example C121_shown_case : map label (offers [b "my.ext"] (b "pkg") [] (b "option ") message_options AtKeyword 7) <> [] /\ In (b "(my.ext)") (map label (offers [b "my.ext"] (b "pkg") [] (b "option ") message_options AtKeyword 7)).
Proof. split; [discriminate|]. vm_compute. auto. Qed.
Definition line1 : bytes := b "  option dep = true;".
Example C121_plain_case : exists i, In i (complete_name [b "my.ext"] (b "my") [] line1 (PMsg message_options) (Some (plain_ref 9 (b "dep"))) 11) /\ goal i = TField (b "deprecated") /\
  accept line1 (change i) = b "  option deprecated = true;".
Proof. eexists. split; [left; reflexivity|]. split; reflexivity. Qed.
Definition line2 : bytes := b "  option (m) = true;".
Example C121_extension_case : exists i, In i (complete_name [b "my.ext"; b "other.ext"] (b "my") [] line2 (PMsg message_options) (Some (paren_ref 9 (b "m"))) 11) /\ goal i = TExt (b "other.ext") /\
  accept line2 (change i) = b "  option (other.ext) = true;".
Proof. eexists. split; [right; left; reflexivity|]. split; reflexivity. Qed.
(** What is missing.  An extension taken for a name typed without parentheses is written without them; *)
Theorem C121_no_parentheses_refuted : exists exts pkg set line m r pos i n,
  In i (offers exts pkg set line m (InName r) pos) /\ goal i = TExt n /\ r = plain_ref 9 (b "my") /\ line = b "  option my" /\ accept line (change i) = b "  option " ++ n.
Proof.
  exists [b "my.ext"], (b "pkg"), [], (b "  option my"), message_options, (plain_ref 9 (b "my")), 11. eexists. exists (b "my.ext"). split; [left; reflexivity|]. repeat split.
Qed.
(** with blanks inside the parentheses these are doubled; *)
Theorem C121_blanks_refuted : exists exts pkg set line m r pos i n,
  In i (offers exts pkg set line m (InName r) pos) /\ goal i = TExt n /\ r = spaced_ref 9 (b "my") /\ line = b "  option ( my ) = 1;" /\ accept line (change i) = b "  option ((" ++ n ++ b ")) = 1;".
Proof.
  exists [b "my.ext"], (b "pkg"), [], (b "  option ( my ) = 1;"), message_options, (spaced_ref 9 (b "my")), 13. eexists. exists (b "my.ext"). split; [left; reflexivity|]. repeat split.
Qed.
(** a parenthesis that is not closed stays open; *)
Theorem C121_not_closed_refuted : exists exts pkg set line m r pos i n,
  In i (offers exts pkg set line m (InName r) pos) /\ goal i = TExt n /\ r = mkRef (Some 9) None 10 12 /\ line = b "  option (my" /\ accept line (change i) = b "  option (" ++ n.
Proof.
  exists [b "my.ext"], (b "pkg"), [], (b "  option (my"), message_options, (mkRef (Some 9) None 10 12), 12. eexists. exists (b "my.ext"). split; [left; reflexivity|]. repeat split.
Qed.
(** in a message literal, the brackets around an extension are replaced by parentheses; *)
Theorem C121_literal_refuted : exists exts pkg set line m r pos i n,
  In i (offers exts pkg set line m (InLiteral r (b "M") []) pos) /\ goal i = TExt n /\ r = paren_ref 2 (b "my") /\ line = b "  [my]: 1" /\ accept line (change i) = b "  (" ++ n ++ b "): 1".
Proof.
  exists [b "my.ext"], (b "pkg"), [], (b "  [my]: 1"), message_options, (paren_ref 2 (b "my")), 5. eexists. exists (b "my.ext"). split; [left; reflexivity|]. repeat split.
Qed.
(** and a field of a message without extensions, offered for a name in parentheses, stays in them. *)
Theorem C121_field_refuted : exists exts pkg line m r pos i n,
  In i (complete_name exts pkg [] line (PField (Some m)) (Some r) pos) /\ goal i = TField n /\ r = paren_ref 14 (b "fi") /\ line = b "  option (my).(fi) = 1;" /\ accept line (change i) = b "  option (my).(" ++ n ++ b ") = 1;".
Proof.
  exists [], (b "pkg"), (b "  option (my).(fi) = 1;"), (mkMessage [mkField (b "first") (b "pkg.M.first") false None] false false), (paren_ref 14 (b "fi")), 17. eexists. exists (b "first"). split; [left; reflexivity|]. repeat split.
Qed.

(** ** C122: what may still be set is offered, and nothing else *)
(** the fields that start with what is typed and that may still be set, or that stand there already *)
Theorem C122_fields_partial : forall exts pkg existing p m partial suffix r pos n,
  (p = PMsg m \/ p = PField (Some m)) -> map_entry m = false -> (forall x, r = Some x -> opens x = None) ->
  (exists i, In i (complete_names exts pkg existing p partial suffix r pos) /\ goal i = TField n) <->
  exists f, In f (fields m) /\ fname f = n /\ (exists s, n = partial ++ s) /\ (n = partial ++ suffix \/ settable existing f).
Proof. intros exts pkg existing p m pa su r pos n. apply offered_fields. Qed.
(** the one that is preselected is the one whose name is written there *)
Theorem C122_preselected : forall exts pkg existing p partial suffix r pos i,
  In i (complete_names exts pkg existing p partial suffix r pos) -> (preselect i = true <-> goal i = TField (partial ++ suffix)).
Proof.
  intros exts pkg existing p pa su r pos i H. apply items_edits in H as [(f & -> & _)|(x & _ & ->)]; cbn [preselect field_item ext_item goal].
  - rewrite beq_eq. split; [now intros ->|intros E; injection E as ->; reflexivity].
  - split; discriminate.
Qed.
(** at the keyword: exactly those that are not set *)
Theorem C122_keyword : forall exts pkg set line m pos n, map_entry m = false -> (forall f, In f (fields m) -> fname f <> []) ->
  (exists i, In i (offers exts pkg set line m AtKeyword pos) /\ goal i = TField n) <-> exists f, In f (fields m) /\ fname f = n /\ settable set f.
Proof.
  intros exts pkg set line m pos n Hm Hn. unfold offers, complete_name. cbn [ref_at existing_at]. rewrite (offered_fields exts pkg set (PMsg m) m [] [] None pos n (or_introl eq_refl) Hm) by discriminate. split.
  - intros (f & Hf & E & _ & [H|H]); [|eauto]. subst n. now destruct (Hn f Hf).
  - intros (f & Hf & E & H). exists f. repeat split; eauto.
Qed.
(** every extension of the message, those of package gogoproto excepted *)
Theorem C122_extensions_partial : forall exts pkg existing p m partial suffix r pos n,
  (p = PMsg m \/ p = PField (Some m) /\ ranges m = true) -> map_entry m = false ->
  (exists i, In i (complete_names exts pkg existing p partial suffix r pos) /\ goal i = TExt n) <->
  exists x, In x exts /\ ~ left_out partial x /\ Completion.Model.relative_full_name x pkg = n.
Proof.
  intros exts pkg existing p m pa su r pos n Hp Hm. rewrite (offered_exts exts pkg existing p m pa su r pos n Hp Hm). split; intros (x & H1 & H2 & H3); exists x; apply gogo_spec in H2; auto.
Qed.
(** and nothing else in parentheses *)
Theorem C122_parentheses : forall exts pkg existing p m partial suffix r c pos i n,
  (p = PMsg m \/ p = PField (Some m) /\ ranges m = true) -> opens r = Some c -> In i (complete_names exts pkg existing p partial suffix (Some r) pos) -> goal i <> TField n.
Proof. intros exts pkg existing p m pa su r c pos i n. apply only_exts. Qed.
Theorem C122_no_extensions : forall exts pkg existing m partial suffix r pos i n,
  ranges m = false -> In i (complete_names exts pkg existing (PField (Some m)) partial suffix r pos) -> goal i <> TExt n.
Proof. intros exts pkg existing m pa su r pos i n. apply no_exts. Qed.
Example C122_case : (exists i, In i (offers [] (b "p") [b "google.protobuf.MessageOptions.map_entry"] (b "option ") message_options AtKeyword 7) /\ goal i = TField (b "deprecated")) /\
  (forall i, In i (offers [] (b "p") [ffull deprecated] (b "option ") message_options AtKeyword 7) -> goal i = TField (b "map_entry")).
Proof. split; [eexists; split; [left; reflexivity|reflexivity]|]. intros i [<-|[]]. reflexivity. Qed.
(** What is missing.  When a part of the name is typed, an option that is set is offered again; *)
Theorem C122_again_refuted : exists exts pkg set line m r pos i f, In f (fields m) /\ In (ffull f) set /\ repeated f = false /\
  r = plain_ref 9 (b "d") /\ line = b "  option d" /\ In i (offers exts pkg set line m (InName r) pos) /\ goal i = TField (fname f).
Proof. exists [], (b "p"), [ffull deprecated], (b "  option d"), message_options, (plain_ref 9 (b "d")), 10. eexists. exists deprecated. split; [right; now left|]. split; [now left|]. do 3 (split; [reflexivity|]). split; [left; reflexivity|reflexivity]. Qed.
(** an extension that is set is offered again everywhere; *)
Theorem C122_extension_again_refuted : exists exts pkg set line m pos i x, In x set /\ In x exts /\ In i (offers exts pkg set line m AtKeyword pos) /\ goal i = TExt x.
Proof. exists [b "my.ext"], (b "p"), [b "my.ext"], (b "option "), (mkMessage [] true false), 7. eexists. exists (b "my.ext"). split; [now left|]. split; [now left|]. split; [left; reflexivity|reflexivity]. Qed.
(** extensions of gogoproto are not offered until "gogo" is typed; *)
Theorem C122_gogo_refuted : exists exts pkg set line m pos, exts = [b "gogoproto.marshaler"] /\ map_entry m = false /\ offers exts pkg set line m AtKeyword pos = [].
Proof. exists [b "gogoproto.marshaler"], (b "p"), [], (b "option "), (mkMessage [] true false), 7. repeat split. Qed.
(** and in a message literal, another member of a oneof of which one is set. *)
Theorem C122_oneof_refuted : exists exts pkg set line m r elems pos i f g o, In f (fields m) /\ In g (fields m) /\ f <> g /\ oneof f = Some o /\ oneof g = Some o /\ In (fname g) elems /\
  In i (offers exts pkg set line m (InLiteral r (b "M") elems) pos) /\ goal i = TField (fname f).
Proof.
  exists [], (b "p"), [], (b "  b: 1 a"), (mkMessage [mkField (b "a") (b "M.a") false (Some (b "o")); mkField (b "b") (b "M.b") false (Some (b "o"))] false false), (plain_ref 7 (b "a")), [b "b"], 8.
  eexists. exists (mkField (b "a") (b "M.a") false (Some (b "o"))), (mkField (b "b") (b "M.b") false (Some (b "o"))), (b "o"). split; [now left|]. split; [right; now left|]. split; [discriminate|]. do 3 (split; [now auto using in_eq|]). split; [left; reflexivity|reflexivity].
Qed.

(** ** C123: the options offered are those of the element that is edited *)
(** messages, fields and extensions, enums and services, and the file *)
Theorem C123_element_partial : forall f types io extends full extendee group_msg options_message c d l y n,
  names_in f c d -> plain f NFile (tl c) -> c = l ++ [y; NIdent n AsName] ->
  match y with NMsg _ | NField _ | NEnum _ | NSvc _ => True | _ => False end ->
  let search := search (table f) types io extends full extendee group_msg in
  find_scope search (l ++ [y]) = Some (Own d) /\ at_option search options_message (l ++ [y]) = Some (PMsg (options_message (options_of (Own d)))).
Proof.
  intros f types io ex full xt gm om c d l y n H Hp E Hy search. pose proof (scope_own f types io ex full xt gm c d l y n H Hp E Hy) as S. fold search in S. split; [exact S|]. unfold at_option. now rewrite S.
Qed.
Theorem C123_file : forall search options_message, at_option search options_message [NFile] = Some (PMsg (options_message FileOptions)).
Proof. reflexivity. Qed.
Definition file1 : list top :=
  [TMsg (b "A") [EField (b "x"); EMap (b "m") (b "string"); EOneof (b "o") [OField (b "y")]; EEnum (b "E") [b "V"]; EGroup (b "G") []]; TSvc (b "S") [b "Do"]].
Definition body1 : list elem := [EField (b "x"); EMap (b "m") (b "string"); EOneof (b "o") [OField (b "y")]; EEnum (b "E") [b "V"]; EGroup (b "G") []].
Example C123_case : exists c d, names_in file1 c d /\ plain file1 NFile (tl c) /\ c = [NFile; NMsg (b "A")] ++ [NEnum (b "E"); NIdent (b "E") AsName] /\ options_of (Own d) = EnumOptions.
Proof.
  eexists. eexists. split; [apply ni_elem; eapply (nm_in_msg [] _ (b "A") body1); [now left|]; eapply (nm_enum _ body1 (b "E")); do 3 right; now left|]. split; [cbn; tauto|]. split; reflexivity.
Qed.
(** What is missing.  In a method the options of the file are offered, *)
Theorem C123_method_refuted : exists f c d l y n, names_in f c d /\ plain f NFile (tl c) /\ c = l ++ [y; NIdent n AsName] /\ options_of (Own d) = MethodOptions /\
  forall types io extends full extendee group_msg options_message,
  at_option (search (table f) types io extends full extendee group_msg) options_message (l ++ [y]) = Some (PMsg (options_message FileOptions)).
Proof.
  exists file1, [NFile; NSvc (b "S"); NRpc (b "Do"); NIdent (b "Do") AsName]. eexists. exists [NFile; NSvc (b "S")], (NRpc (b "Do")), (b "Do"). split; [eapply ni_rpc; [right; now left|now left]|]. split; [cbn; tauto|]. repeat split.
Qed.
(** in a oneof those of the message, *)
Theorem C123_oneof_refuted : exists f c d l y n, names_in f c d /\ plain f NFile (tl c) /\ c = l ++ [y; NIdent n AsName] /\ options_of (Own d) = OneofOptions /\
  forall types io extends full extendee group_msg options_message,
  at_option (search (table f) types io extends full extendee group_msg) options_message (l ++ [y]) = Some (PMsg (options_message MessageOptions)).
Proof.
  exists file1, [NFile; NMsg (b "A"); NOneof (b "o"); NIdent (b "o") AsName]. eexists. exists [NFile; NMsg (b "A")], (NOneof (b "o")), (b "o").
  split; [apply ni_elem; eapply (nm_in_msg [] _ (b "A") body1); [now left|]; eapply (nm_oneof _ body1 (b "o")); do 2 right; now left|]. split; [cbn; tauto|]. repeat split.
Qed.
(** at a value of an enum those of the enum, *)
Theorem C123_value_refuted : exists f c d l y n, names_in f c d /\ plain f NFile (tl c) /\ c = l ++ [y; NIdent n AsName] /\ options_of (Own d) = EnumValueOptions /\
  forall types io extends full extendee group_msg options_message,
  at_option (search (table f) types io extends full extendee group_msg) options_message (l ++ [y]) = Some (PMsg (options_message EnumOptions)).
Proof.
  exists file1, [NFile; NMsg (b "A"); NEnum (b "E"); NVal (b "V"); NIdent (b "V") AsName]. eexists. exists [NFile; NMsg (b "A"); NEnum (b "E")], (NVal (b "V")), (b "V").
  split; [apply ni_elem; eapply (nm_in_msg [] _ (b "A") body1); [now left|]; eapply (nm_value _ body1 (b "E") [b "V"]); [do 3 right; now left|now left]|]. split; [cbn; tauto|]. repeat split.
Qed.
(** at a map field those of the message around it, *)
Theorem C123_map_refuted : exists f c d l y n, names_in f c d /\ plain f NFile (tl c) /\ c = l ++ [y; NIdent n AsName] /\ options_of (Own d) = FieldOptions /\
  forall types io extends full extendee group_msg options_message,
  at_option (search (table f) types io extends full extendee group_msg) options_message (l ++ [y]) = Some (PMsg (options_message MessageOptions)).
Proof.
  exists file1, [NFile; NMsg (b "A"); NMap (b "m") (b "string"); NIdent (b "m") AsName]. eexists. exists [NFile; NMsg (b "A")], (NMap (b "m") (b "string")), (b "m").
  split; [apply ni_elem; eapply (nm_in_msg [] _ (b "A") body1); [now left|]; eapply (nm_map _ body1 (b "m")); do 1 right; now left|]. split.
  - cbn [tl plain plain_from at_ok msg_or_file]. repeat split. left. intros [(c & H)|(x & c & e & H & G)]; cbv in H; repeat (destruct H as [H|H]; [now inversion H|]); contradiction.
  - repeat split.
Qed.
(** and in a group those that are set on the message around it count as set on the group. *)
Theorem C123_group_refuted : exists f c d l y n e, names_in f c d /\ plain f NFile (tl c) /\ c = l ++ [y; NIdent n AsName] /\ e <> d /\
  forall types io extends full extendee group_msg, find_scope (search (table f) types io extends full extendee group_msg) (l ++ [y]) = Some (Own e).
Proof.
  exists file1, [NFile; NMsg (b "A"); NGroup (b "G"); NIdent (b "G") AsName]. eexists. exists [NFile; NMsg (b "A")], (NGroup (b "G")), (b "G"), [(KMsg, b "A")].
  split; [apply ni_elem; eapply (nm_in_msg [] _ (b "A") body1); [now left|]; eapply (nm_group _ body1 (b "G")); do 4 right; now left|]. split; [cbn; eauto 10|]. repeat split. discriminate.
Qed.
(** In brackets with no name yet, a field's options are not offered, but the fields of the message that is its type, and nothing at a scalar. *)
Theorem C123_brackets_refuted : exists f c d l y n m o, names_in f c d /\ plain f NFile (tl c) /\ c = l ++ [y; NIdent n AsName] /\ options_of (Own d) = FieldOptions /\
  forall types io extends full extendee group_msg msg type exts pkg existing pos,
  exists p, at_brackets (search (table f) types io extends full extendee group_msg) msg type (l ++ [y]) = Some p /\
    (type (Own d) = None -> complete_names exts pkg existing p [] [] None pos = []) /\
    (type (Own d) = Some m -> exists i, In i (complete_names exts pkg existing p [] [] None pos) /\ goal i = TField o).
Proof.
  exists file1, [NFile; NMsg (b "A"); NField (b "x"); NIdent (b "x") AsName]. eexists. exists [NFile; NMsg (b "A")], (NField (b "x")), (b "x"), (mkMessage [mkField (b "of_the_type") (b "M.of_the_type") true None] false false), (b "of_the_type").
  assert (N : names_in file1 [NFile; NMsg (b "A"); NField (b "x"); NIdent (b "x") AsName] ([(KMsg, b "A")] ++ [(KField, b "x")])).
  { apply ni_elem. eapply (nm_in_msg [] _ (b "A") body1); [now left|]. apply (nm_field _ body1 (b "x")). now left. }
  assert (P : plain file1 NFile [NMsg (b "A"); NField (b "x"); NIdent (b "x") AsName]) by (cbn; tauto).
  split; [exact N|]. split; [exact P|]. split; [reflexivity|]. split; [reflexivity|]. intros types io ex full xt gm msg type exts pkg existing pos. eexists. split; [|split].
  - apply (brackets_field file1 types io ex full xt gm msg type _ _ [NFile; NMsg (b "A")] (b "x") (b "x") N P eq_refl).
  - intros ->. reflexivity.
  - intros ->. apply (offered_fields exts pkg existing _ (mkMessage [mkField (b "of_the_type") (b "M.of_the_type") true None] false false) [] [] None pos (b "of_the_type")); [right; reflexivity|reflexivity|discriminate|].
    eexists. split; [left; reflexivity|]. split; [reflexivity|]. split; [eexists; reflexivity|]. right. now left.
Qed.

(** ** C124: accepting a name from another file imports that file *)
(** [resolves] finds what the file sees.  Then the name is seen afterwards, and an import is added only if it was not seen before. *)
Theorem C124_visible : forall ws s declaring n resolves, In s ws -> In declaring ws -> In n (declares declaring) -> (forall m, resolves m = true <-> sees ws (path s) m) ->
  sees (accept_import ws (path s) (import_for resolves declaring n)) (path s) n /\ (import_for resolves declaring n = None <-> sees ws (path s) n).
Proof.
  intros ws s de n res Hs Hd Hn Hr. unfold import_for. destruct (res n) eqn:E.
  - apply Hr in E. split; [now apply accept_sees|]. easy.
  - split; [apply accept_new_import; [exact Hs|now apply sh_own]|]. split; [discriminate|]. intros X. apply Hr in X. congruence.
Qed.
Theorem C124_others_kept : forall ws f i p n, sees ws p n -> sees (accept_import ws f i) p n.
Proof. intros. now apply accept_sees. Qed.
(** the imports have no cycle then, unless the declaring file imports this one, directly or not *)
Theorem C124_acyclic_partial : forall ws s declaring n resolves, In s ws -> acyclic ws ->
  (acyclic (accept_import ws (path s) (import_for resolves declaring n)) <-> import_for resolves declaring n = None \/ ~ reaches ws (path declaring) (path s)).
Proof.
  intros ws s de n res Hs Ha. unfold import_for. destruct (res n).
  - split; [now left|]. intros _ p q H R. apply accept_imports in H as [H|(_ & E & _)]; [|discriminate]. apply (Ha p q H).
    clear H. induction R as [p0|p0 q0 r0 H R IH]; [constructor|]. apply accept_imports in H as [H|(_ & E & _)]; [|discriminate]. eapply re_step; eauto.
  - rewrite acyclic_iff by assumption. split; [now right|]. intros [X|X]; [discriminate|exact X].
Qed.
Definition src_a := mkSource (b "a.proto") [] [b "p.A"].
Definition src_b := mkSource (b "b.proto") [(b "a.proto", false)] [b "p.B"].
Lemma ws_acyclic : acyclic [src_a; src_b].
Proof.
  assert (N : forall q, ~ imports_file [src_a; src_b] (b "a.proto") q).
  { intros q (s & bl & [<-|[<-|[]]] & Hp & Hq); [destruct Hq|discriminate]. }
  intros p q (s & bl & [<-|[<-|[]]] & Hp & Hq); [destruct Hq|]. destruct Hq as [Hq|[]]. injection Hq as <- <-. subst p. intros R. inversion R as [|? q' ? H _]; subst. now apply (N q').
Qed.
Example C124_case : acyclic [src_a; src_b] /\ ~ sees [src_b; mkSource (b "c.proto") [] [b "p.C"]] (b "b.proto") (b "p.C") /\
  import_for (fun _ => false) src_a (b "p.A") = Some (b "a.proto").
Proof.
  split; [exact ws_acyclic|]. split; [|reflexivity]. intros [s [<-|[<-|[]]] Hp Hn|s q bl [<-|[<-|[]]] Hp Hq Hs]; try discriminate.
  - destruct Hn as [Hn|[]]. discriminate.
  - destruct Hq as [Hq|[]]. injection Hq as <- <-. inversion Hs as [s0 n0 [<-|[<-|[]]] Hn0 E1 E2|s0 q0 n0 [<-|[<-|[]]] Hq0 Hs0 E1 E2]; discriminate.
Qed.
(** What is missing: the type of a file that imports this one is offered, and taking it makes a cycle. *)
Theorem C124_cycle_refuted : exists ws s declaring n, In s ws /\ In declaring ws /\ In n (declares declaring) /\ acyclic ws /\ ~ sees ws (path s) n /\
  forall resolves, resolves n = false -> ~ acyclic (accept_import ws (path s) (import_for resolves declaring n)).
Proof.
  exists [src_a; src_b], src_a, src_b, (b "p.B"). split; [now left|]. split; [right; now left|]. split; [now left|]. split; [exact ws_acyclic|]. split.
  - intros [s [<-|[<-|[]]] Hp Hn|s q bl [<-|[<-|[]]] Hp Hq Hs]; try discriminate.
    + destruct Hn as [Hn|[]]. discriminate.
    + destruct Hq.
  - intros res Hr. unfold import_for. rewrite Hr. rewrite acyclic_iff; [|now left|exact ws_acyclic]. intros H. apply H. eapply re_step; [|constructor]. exists src_b, false. split; [right; now left|]. split; [reflexivity|]. now left.
Qed.
(** the statement written names the file, *)
Theorem C124_statement_partial : forall p, ~ In """"%char p -> ~ In "\"%char p -> import_named (import_text p) = Some p.
Proof. apply import_read. Qed.
Example C124_statement_case : import_named (import_text (b "a/b.proto")) = Some (b "a/b.proto").
Proof. reflexivity. Qed.
(** except that characters are not escaped. *)
Theorem C124_statement_refuted : exists p, import_named (import_text p) <> Some p.
Proof. exists (b "a""b.proto"). discriminate. Qed.

(** ** C125: package names offered *)
(** the name of the directory and the packages of the other files in it, those that start with what is typed *)
Theorem C125_packages_partial : forall files self partial n,
  (forall f, In f files -> path_dir (ppath f) = path_dir self -> exists r, ppath f = path_dir self ++ r) ->
  (In n (package_names files self partial) <->
   (exists r, n = partial ++ r) /\ ((n = path_base (path_dir self) /\ package_name n) \/ exists f, In f files /\ ppath f <> self /\ path_dir (ppath f) = path_dir self /\ ppkg f = n)).
Proof.
  intros files self pa n Hf. rewrite names_in_iff. unfold candidates. rewrite in_app_iff, in_map_iff. split.
  - intros [[H|(f & <- & H)] Hr]; (split; [exact Hr|]).
    + left. destruct (valid_name _) eqn:E; [|contradiction]. destruct H as [<-|[]]. split; [reflexivity|now apply valid_name_spec].
    + right. apply filter_In in H as [H1 H2]. rewrite !Bool.andb_true_iff, Bool.negb_true_iff, beq_neq, beq_eq in H2. exists f. tauto.
  - intros [Hr H]. split; [|exact Hr]. destruct H as [[-> H]|(f & H1 & H2 & H3 & <-)].
    + left. apply valid_name_spec in H. rewrite H. now left.
    + right. exists f. split; [reflexivity|]. apply filter_In. split; [exact H1|]. rewrite !Bool.andb_true_iff, Bool.negb_true_iff, beq_neq, beq_eq, has_prefix_spec. repeat split; auto.
Qed.
(** in ascending order, each once *)
Theorem C125_ascending : forall files self partial, StronglySorted (fun x y => Completion.Model.blt x y = true) (package_names files self partial).
Proof. apply names_sorted. Qed.
Definition files1 := [mkPFile (b "x/foo/a.proto") (b "x.foo.v1"); mkPFile (b "x/foo/b.proto") (b "foo"); mkPFile (b "x/foo/c/d.proto") (b "x.foo.c"); mkPFile (b "x/foo/self.proto") (b "gone")].
Example C125_case : (forall f, In f files1 -> path_dir (ppath f) = path_dir (b "x/foo/self.proto") -> exists r, ppath f = path_dir (b "x/foo/self.proto") ++ r) /\
  package_names files1 (b "x/foo/self.proto") [] = [b "foo"; b "x.foo.v1"].
Proof. split; [|reflexivity]. intros f Hf E. apply has_prefix_spec. repeat (destruct Hf as [<-|Hf]; [first [reflexivity|discriminate]|]). contradiction. Qed.
(** What is missing: for a file at the root, the files beside it are not looked at; *)
Theorem C125_root_refuted : exists files self f, In f files /\ ppath f <> self /\ path_dir (ppath f) = path_dir self /\ package_names files self [] = [].
Proof. exists [mkPFile (b "a.proto") (b "pkg")], (b "b.proto"). eexists. split; [left; reflexivity|]. split; [discriminate|]. split; reflexivity. Qed.
(** and a file without a package makes the empty name an offer. *)
Theorem C125_empty_refuted : exists files self, package_names files self [] = [[]; b "dir"].
Proof. exists [mkPFile (b "dir/a.proto") []], (b "dir/b.proto"). reflexivity. Qed.

Print Assumptions C121_new.
Print Assumptions C121_shown.
Print Assumptions C121_plain_partial.
Print Assumptions C121_extension_partial.
Print Assumptions C121_no_parentheses_refuted.
Print Assumptions C121_blanks_refuted.
Print Assumptions C121_not_closed_refuted.
Print Assumptions C121_literal_refuted.
Print Assumptions C121_field_refuted.
Print Assumptions C122_fields_partial.
Print Assumptions C122_keyword.
Print Assumptions C122_extensions_partial.
Print Assumptions C122_parentheses.
Print Assumptions C122_no_extensions.
Print Assumptions C122_again_refuted.
Print Assumptions C122_extension_again_refuted.
Print Assumptions C122_gogo_refuted.
Print Assumptions C122_oneof_refuted.
Print Assumptions C123_element_partial.
Print Assumptions C123_file.
Print Assumptions C123_method_refuted.
Print Assumptions C123_oneof_refuted.
Print Assumptions C123_value_refuted.
Print Assumptions C123_map_refuted.
Print Assumptions C123_group_refuted.
Print Assumptions C123_brackets_refuted.
Print Assumptions C124_visible.
Print Assumptions C124_others_kept.
Print Assumptions C124_acyclic_partial.
Print Assumptions C124_cycle_refuted.
Print Assumptions C124_statement_partial.
Print Assumptions C124_statement_refuted.
Print Assumptions C125_packages_partial.
Print Assumptions C125_ascending.
Print Assumptions C125_root_refuted.
Print Assumptions C125_empty_refuted.
Print Assumptions C122_preselected.
