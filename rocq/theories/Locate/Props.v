From Coq Require Import Ascii String.
From Verif Require Import Base Strs.
From Verif.Locate Require Import Model Spec Proofs.
Open Scope list_scope.

(** ** C119: the descriptor found at the name of a declaration is that declaration *)
Theorem C119_name_partial : forall f types io extends full extendee group_msg c d,
  names_in f c d -> plain f NFile (tl c) -> search (table f) types io extends full extendee group_msg c = Found (Own d).
Proof. intros. now apply name_found. Qed.

Definition b (s : string) : bytes := b_ s.
(** message Outer { message Inner { oneof pick { Kind kind } enum Kind { A } } extend Outer { ext } group Grp { x } map m }
    service Svc { Do } *)
Definition inner : list elem := [EField (b "id"); EOneof (b "pick") [OField (b "kind"); OField (b "other")]; EEnum (b "Kind") [b "ZERO"; b "ONE"]].
Definition file1 : list top :=
  [TMsg (b "Outer") [EField (b "name"); EMsg (b "Inner") inner; EMap (b "m") (b "pkg.Outer.Inner"); EGroup (b "Grp") [EField (b "x")]; EExtend (b "Outer") [OField (b "ext")]];
   TEnum (b "Kind") [b "NONE"]; TExtend (b "Outer") [OField (b "top_ext")]; TSvc (b "Svc") [b "Do"]].
Definition path1 : list node := [NFile; NMsg (b "Outer"); NMsg (b "Inner"); NOneof (b "pick"); NField (b "kind"); NIdent (b "kind") AsName].
Definition way1 : way := [(KMsg, b "Outer"); (KMsg, b "Inner"); (KField, b "kind")].
Ltac alts := repeat match goal with [ X : _ \/ _ |- _ ] => destruct X as [X|X] | [ X : False |- _ ] => destruct X end.
Ltac not_file_msg := let c := fresh in let x := fresh in let e := fresh in let H := fresh in let G := fresh in
  intros [(c & H)|(x & c & e & H & G)]; cbv in H; alts; inversion H; subst; cbv in G; alts; now inversion G.
Lemma names1 : names_in file1 path1 way1.
Proof.
  apply ni_elem. apply (nm_in_msg [] _ (b "Outer") [EField (b "name"); EMsg (b "Inner") inner; EMap (b "m") (b "pkg.Outer.Inner"); EGroup (b "Grp") [EField (b "x")]; EExtend (b "Outer") [OField (b "ext")]]); [now left|].
  apply (nm_in_msg _ _ (b "Inner") inner); [right; now left|].
  apply (nm_oneof_field [(KMsg, b "Outer"); (KMsg, b "Inner")] inner (b "pick") [OField (b "kind"); OField (b "other")] (b "kind")); [right; now left|now left].
Qed.
Example C119_case : names_in file1 path1 way1 /\ plain file1 NFile (tl path1) /\
  (exists p, names_in file1 [NFile; NMsg (b "Outer"); NMap (b "m") (b "pkg.Outer.Inner"); NIdent (b "m") AsName] p /\ plain file1 NFile [NMsg (b "Outer"); NMap (b "m") (b "pkg.Outer.Inner"); NIdent (b "m") AsName]).
Proof.
  split; [apply names1|]. split; [cbn; tauto|]. eexists. split.
  - apply ni_elem. eapply (nm_in_msg [] _ (b "Outer")); [now left|]. apply nm_map. do 2 right. now left.
  - cbn [plain plain_from at_ok msg_or_file]. repeat split. left. not_file_msg.
Qed.

(** a map in a message in a message, whose value type is a message of the file *)
Definition nested_map : list top := [TMsg (b "A") [EMsg (b "B") [EMap (b "m") (b "V")]]; TMsg (b "V") []].
Example C119_nested_map_case : exists d, names_in nested_map [NFile; NMsg (b "A"); NMsg (b "B"); NMap (b "m") (b "V"); NIdent (b "m") AsName] d /\
  plain nested_map NFile [NMsg (b "A"); NMsg (b "B"); NMap (b "m") (b "V"); NIdent (b "m") AsName] /\ file_msg nested_map (b "V").
Proof.
  eexists. split; [apply ni_elem; eapply (nm_in_msg [] _ (b "A")); [now left|]; eapply nm_in_msg; [now left|]; apply nm_map; now left|]. split; [cbn; repeat split; right; eauto|]. left. exists []. right. now left.
Qed.
(** What is missing.  A message declared in a group: the one of that name in the file is found instead, *)
Definition some_types : way -> target := fun _ => TgNone.
Theorem C119_in_group_refuted : exists f c d d', names_in f c d /\ d <> d' /\
  forall types io extends full extendee group_msg, search (table f) types io extends full extendee group_msg c = Found (Own d').
Proof.
  exists [TMsg (b "A") [EGroup (b "G") [EMsg (b "B") []]]; TMsg (b "B") []], [NFile; NMsg (b "A"); NGroup (b "G"); NMsg (b "B"); NIdent (b "B") AsName],
    [(KMsg, b "A"); (KMsg, b "G"); (KMsg, b "B")], [(KMsg, b "B")].
  split; [|split; [discriminate|]].
  - apply ni_elem. eapply (nm_in_msg [] _ (b "A")); [now left|]. eapply nm_in_group; [now left|]. eapply nm_msg. now left.
  - intros types io ex full xt gm. reflexivity.
Qed.
(** or nothing, for messages and enums alike; *)
Theorem C119_in_group_fails_refuted : exists f c d, names_in f c d /\
  forall types io extends full extendee group_msg, search (table f) types io extends full extendee group_msg c = Failed.
Proof.
  exists [TMsg (b "A") [EGroup (b "G") [EEnum (b "E") [b "V"]]]], [NFile; NMsg (b "A"); NGroup (b "G"); NEnum (b "E"); NVal (b "V"); NIdent (b "V") AsName], [(KMsg, b "A"); (KMsg, b "G"); (KEnum, b "E"); (KVal, b "V")].
  split.
  - apply ni_elem. eapply (nm_in_msg [] _ (b "A")); [now left|]. eapply nm_in_group; [now left|]. eapply (nm_value [(KMsg, b "A"); (KMsg, b "G")]); [now left|now left].
  - intros. reflexivity.
Qed.
(** a group in a oneof, *)
Theorem C119_oneof_group_refuted : exists f c d, names_in f c d /\
  forall types io extends full extendee group_msg, search (table f) types io extends full extendee group_msg c = Failed.
Proof.
  exists [TMsg (b "A") [EOneof (b "o") [OGroup (b "G") []]]], [NFile; NMsg (b "A"); NOneof (b "o"); NGroup (b "G"); NIdent (b "G") AsName], [(KMsg, b "A"); (KMsg, b "G")].
  split.
  - apply ni_elem. eapply (nm_in_msg [] _ (b "A")); [now left|]. eapply nm_oneof_group; [now left|now left].
  - intros types io ex full xt []; reflexivity.
Qed.
(** or in an extension that the parser maps to its field; *)
Theorem C119_ext_group_refuted : exists f c d, names_in f c d /\
  forall types io extends full extendee, search (table f) types io extends full extendee false c = Failed.
Proof.
  exists [TExtend (b "X") [OGroup (b "G") []]], [NFile; NExtend (b "X"); NGroup (b "G"); NIdent (b "G") AsName], [(KMsg, b "G")].
  split.
  - apply ni_elem. apply (nm_ext_group [] _ (b "X") [OGroup (b "G") []] (b "G") []); now left.
  - intros. reflexivity.
Qed.
(** the name of a map field whose value type is a message of a file without a package: that message. *)
Theorem C119_map_refuted : exists f c d d', names_in f c d /\ d <> d' /\
  forall types io extends full extendee group_msg, search (table f) types io extends full extendee group_msg c = Found (Own d').
Proof.
  exists [TMsg (b "A") [EMap (b "m") (b "V")]; TMsg (b "V") []], [NFile; NMsg (b "A"); NMap (b "m") (b "V"); NIdent (b "m") AsName], [(KMsg, b "A"); (KField, b "m")], [(KMsg, b "V")].
  split; [|split; [discriminate|intros; reflexivity]]. apply ni_elem. eapply (nm_in_msg [] _ (b "A")); [now left|]. apply nm_map. now left.
Qed.

(** ** C120: the descriptor found at a type is the type *)
Theorem C120_type_partial : forall f types io extends full extendee group_msg c c' d t,
  names_in f c d -> plain f NFile (tl c) -> type_path c c' -> types d = TgMsg t \/ (types d = TgEnum t /\ last c' NFile <> NMapType) ->
  search (table f) types io extends full extendee group_msg c' = Found t.
Proof.
  intros f types io ex full xt gm c c' d t H Hp Ht Hty. rewrite (type_found f types io ex full xt gm c c' d H Hp Ht). destruct Hty as [->|[-> Hl]]; [reflexivity|]. destruct (last c' NFile); try reflexivity. now destruct Hl.
Qed.
Theorem C120_scalar : forall f types io extends full extendee group_msg c c' d,
  names_in f c d -> plain f NFile (tl c) -> type_path c c' -> types d = TgNone -> search (table f) types io extends full extendee group_msg c' = Failed.
Proof. intros f types io ex full xt gm c c' d H Hp Ht Hty. rewrite (type_found f types io ex full xt gm c c' d H Hp Ht). now rewrite Hty. Qed.
Theorem C120_method : forall f types io extends full extendee group_msg c c' d input,
  names_in f c d -> plain f NFile (tl c) -> rpc_path input c c' -> search (table f) types io extends full extendee group_msg c' = Found (io d input).
Proof. intros. now apply (rpc_found f types io extends full extendee group_msg c c' d input). Qed.
Theorem C120_key : forall f types io extends full extendee group_msg l n v k,
  search (table f) types io extends full extendee group_msg (NFile :: l ++ [NMap n v; NMapType; NIdent k AsKey]) = Nothing.
Proof. intros. apply key_nothing. Qed.
Theorem C120_extendee : forall f types io extends full extendee group_msg x m d,
  In (TExtend x m) f -> extendee (undot x) = Some d ->
  search (table f) types io extends full extendee group_msg [NFile; NExtend x; NIdent x AsType] = Found d /\
  search (table f) types io extends full extendee group_msg [NFile; NExtend x; NCompound x] = Found d.
Proof. intros f types io ex full xt gm x m d Hin E. destruct (extendee_found f types io ex full xt gm x m Hin) as [-> ->]. now rewrite E. Qed.
Example C120_case : exists c', type_path path1 c' /\ last c' NFile <> NMapType /\ c' = [NFile; NMsg (b "Outer"); NMsg (b "Inner"); NOneof (b "pick"); NField (b "kind"); NIdent (b "Kind") AsType].
Proof.
  eexists. split; [apply (tp_word [NFile; NMsg (b "Outer"); NMsg (b "Inner"); NOneof (b "pick")] (b "kind") (b "Kind"))|]. split; [discriminate|reflexivity].
Qed.
Example C120_method_case : exists c c' d, names_in file1 c d /\ plain file1 NFile (tl c) /\ rpc_path true c c'.
Proof.
  exists [NFile; NSvc (b "Svc"); NRpc (b "Do"); NIdent (b "Do") AsName], [NFile; NSvc (b "Svc"); NRpc (b "Do"); NRpcType true], [(KSvc, b "Svc"); (KMethod, b "Do")].
  split; [eapply ni_rpc; [do 3 right; now left|now left]|]. split; [cbn; tauto|]. apply (rp true [NFile; NSvc (b "Svc")]).
Qed.
(** What is missing.  An enum that is the value of a map, *)
Theorem C120_map_enum_refuted : exists f c c' d t, names_in f c d /\ plain f NFile (tl c) /\ type_path c c' /\
  forall types io extends full extendee group_msg, types d = TgEnum t -> search (table f) types io extends full extendee group_msg c' = Failed.
Proof.
  exists [TMsg (b "A") [EMap (b "m") (b "E")]; TEnum (b "E") [b "V"]], [NFile; NMsg (b "A"); NMap (b "m") (b "E"); NIdent (b "m") AsName], [NFile; NMsg (b "A"); NMap (b "m") (b "E"); NMapType], [(KMsg, b "A"); (KField, b "m")], (Own [(KEnum, b "E")]).
  assert (N : names_in [TMsg (b "A") [EMap (b "m") (b "E")]; TEnum (b "E") [b "V"]] [NFile; NMsg (b "A"); NMap (b "m") (b "E"); NIdent (b "m") AsName] [(KMsg, b "A"); (KField, b "m")]).
  { apply ni_elem. eapply (nm_in_msg [] _ (b "A")); [now left|]. apply nm_map. now left. }
  split; [exact N|]. split; [|split].
  - cbn [tl plain plain_from at_ok msg_or_file]. repeat split. left. not_file_msg.
  - apply (tp_map [NFile; NMsg (b "A")]).
  - intros types io ex full xt gm Ht. assert (P : plain [TMsg (b "A") [EMap (b "m") (b "E")]; TEnum (b "E") [b "V"]] NFile [NMsg (b "A"); NMap (b "m") (b "E"); NIdent (b "m") AsName]).
    { cbn [plain plain_from at_ok msg_or_file]. repeat split. left. not_file_msg. }
    pose proof (type_found _ types io ex full xt gm _ _ _ N P (tp_map [NFile; NMsg (b "A")] (b "m") (b "E"))) as E. rewrite Ht in E. exact E.
Qed.
(** a message that is the value of a map in a file without a package, *)
Theorem C120_map_message_refuted : exists f c c' d t, names_in f c d /\ type_path c c' /\
  forall types io extends full extendee group_msg, types d = TgMsg t -> search (table f) types io extends full extendee group_msg c' = Failed.
Proof.
  exists [TMsg (b "A") [EMap (b "m") (b "V")]; TMsg (b "V") []], [NFile; NMsg (b "A"); NMap (b "m") (b "V"); NIdent (b "m") AsName], [NFile; NMsg (b "A"); NMap (b "m") (b "V"); NMapType], [(KMsg, b "A"); (KField, b "m")], (Own [(KMsg, b "V")]).
  split; [|split; [apply (tp_map [NFile; NMsg (b "A")])|intros; reflexivity]]. apply ni_elem. eapply (nm_in_msg [] _ (b "A")); [now left|]. apply nm_map. now left.
Qed.
(** and the message extended by a declaration inside a message, unless it is written with its full name. *)
Definition nested (x : bytes) : list top := [TMsg (b "A") [EExtend x [OField (b "x")]]].
Theorem C120_nested_extendee_refuted : exists x, forall types io extends full extendee group_msg,
  extends [(KMsg, b "A"); (KExt, b "x")] = Own [(KMsg, b "A")] -> full (Own [(KMsg, b "A")]) = b "pkg.A" ->
  search (table (nested x)) types io extends full extendee group_msg [NFile; NMsg (b "A"); NExtend x; NIdent x AsType] = Failed /\
  search (table (nested (b ".pkg.A"))) types io extends full extendee group_msg [NFile; NMsg (b "A"); NExtend (b ".pkg.A"); NCompound (b ".pkg.A")] = Found (Own [(KMsg, b "A")]).
Proof.
  exists (b "A"). intros types io ex full xt gm He Hf. split; cbn in He, Hf |- *; rewrite He; cbn; rewrite Hf; cbn; now rewrite ?He.
Qed.

Print Assumptions C119_name_partial.
Print Assumptions C119_in_group_refuted.
Print Assumptions C119_in_group_fails_refuted.
Print Assumptions C119_oneof_group_refuted.
Print Assumptions C119_ext_group_refuted.
Print Assumptions C119_map_refuted.
Print Assumptions C120_type_partial.
Print Assumptions C120_scalar.
Print Assumptions C120_method.
Print Assumptions C120_key.
Print Assumptions C120_extendee.
Print Assumptions C120_map_enum_refuted.
Print Assumptions C120_map_message_refuted.
Print Assumptions C120_nested_extendee_refuted.
