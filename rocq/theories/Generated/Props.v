(** C48, C76-C80: Go names and generated Go files. *)
From Coq Require Import Ascii String.
From Verif Require Import Base Strs.
From Verif.Generated Require Import Model Spec Proofs.
Open Scope list_scope.

(** ** C48: derived Go names *)

(** names of messages and enums: identifiers joined by dots *)
Theorem C48_camel_case_exported : forall path, path <> [] -> Forall proto_ident path -> exported (type_ident path).
Proof.
  intros path Hne H. apply go_camel_exported. unfold dotted. destruct path as [|n path]; [congruence|]. inversion H as [|? ? Hn Hp]; subst.
  destruct Hn as (c & r & -> & Hc & Hr).
  assert (W : forall p, Forall proto_ident p -> Forall wd (join_with dot p)).
  { induction p as [|m p IH]; intro Hm; [constructor|]. inversion Hm as [|? ? (d & t & -> & Hd & Ht) Hm']; subst.
    assert (A : Forall wd (d :: t)). { constructor; [left; destruct Hd as [Hd| ->]; [now left|right; now right]|]. eapply Forall_impl; [|exact Ht]. intros; now left. }
    destruct p; cbn [join_with]; [assumption|]. apply Forall_app. split; [assumption|]. constructor; [now right|]. now apply IH. }
  destruct path as [|m path]; cbn [join_with].
  - exists c, r. split; [reflexivity|]. split; [assumption|]. eapply Forall_impl; [|exact Hr]. intros; now left.
  - exists c, (r ++ dot :: join_with dot (m :: path)). split; [reflexivity|]. split; [assumption|]. apply Forall_app. split; [eapply Forall_impl; [|exact Hr]; intros; now left|].
    constructor; [now right|]. now apply W.
Qed.
Example C48_camel_case_example : type_ident [b_ "foo_bar"; b_ "_baz"; b_ "qux_2x"] = b_ "FooBar_XBazQux_2X".
Proof. vm_compute. reflexivity. Qed.

(** the letters and digits of Spec.v *)
Theorem C48_characters : forall c,
  (is_lower c = true <-> In c (b_ "abcdefghijklmnopqrstuvwxyz")) /\ (is_upper c = true <-> In c (b_ "ABCDEFGHIJKLMNOPQRSTUVWXYZ")) /\
  (letter c <-> is_lower c = true \/ is_upper c = true) /\ (word c <-> letter c \/ In c (b_ "0123456789") \/ c = "_"%char).
Proof.
  intro c. split; [apply lower_in|]. split; [apply upper_in|]. split; [unfold letter, is_letter; apply orb_true_iff|]. unfold word. rewrite digit_in. reflexivity.
Qed.
Theorem C48_camel_case_fixpoints : forall s, proto_ident s -> (go_camel_case s = s <-> camel_cased s).
Proof.
  intros s (c & r & -> & Hc & Hr). split.
  - intro E. rewrite <- E. apply camel_cased_result. exists c, r. split; [reflexivity|]. split; [assumption|]. eapply Forall_impl; [|exact Hr]. intros; now left.
  - now apply camel_cased_fix.
Qed.
Example C48_fixpoints_example : go_camel_case (b_ "HTTPServer_2") = b_ "HTTPServer_2" /\ go_camel_case (b_ "http_server") = b_ "HttpServer".
Proof. split; reflexivity. Qed.

Theorem C48_camel_case_idempotent : forall s, proto_ident s -> go_camel_case (go_camel_case s) = go_camel_case s.
Proof.
  intros s (c & r & -> & Hc & Hr). assert (Hw : Forall wd r) by (eapply Forall_impl; [|exact Hr]; intros; now left).
  pose proof (camel_cased_result (c :: r) (ex_intro _ c (ex_intro _ r (conj eq_refl (conj Hc Hw))))) as C.
  destruct (camel_head c r Hc) as (c' & r' & E & Hu & _). rewrite E in *. apply camel_cased_fix; [|assumption]. left. now apply upper_letter.
Qed.
Example C48_idempotent_example : go_camel_case (b_ "_a_b__c") = b_ "XAB_C" /\ go_camel_case (b_ "XAB_C") = b_ "XAB_C".
Proof. split; reflexivity. Qed.

(** the documented rule on snake-case names *)
Theorem C48_snake_case : forall ws, Forall snake_word ws -> go_camel_case (join_with under ws) = concat (map capitalized ws).
Proof. intros ws H. apply camel_snake; [assumption|now right]. Qed.
Example C48_snake_example : snake_word (b_ "line2") /\ go_camel_case (b_ "address_line2_text") = b_ "AddressLine2Text".
Proof. split; [|reflexivity]. exists "l"%char, (b_ "ine"), (b_ "2"). repeat split; repeat constructor. Qed.

(** nested types: Outer_Inner *)
Theorem C48_nested_names : forall path,
  Forall (fun n => camel_cased n /\ exists c r, n = c :: r /\ is_upper c = true) path -> type_ident path = join_with under path.
Proof. intros path H. now apply camel_nested. Qed.
Example C48_nested_example : type_ident [b_ "Outer"; b_ "InnerType"] = b_ "Outer_InnerType".
Proof. reflexivity. Qed.

Theorem C48_sanitized_identifier : forall s, go_ident (go_sanitized s) /\ ~ In (go_sanitized s) go_keywords.
Proof. intro s. rewrite <- keyword_in. destruct (sanitized_go_ident s) as [I E]. split; [exact I|congruence]. Qed.
Theorem C48_sanitized_unchanged : forall s, go_sanitized s = s <-> (exists c r, s = c :: r /\ letter c) /\ Forall word s /\ ~ In s go_keywords.
Proof. intro s. rewrite <- keyword_in, sanitized_id. destruct (is_keyword s); intuition congruence. Qed.
Example C48_sanitized_example : go_sanitized (b_ "type") = b_ "_type" /\ go_sanitized (b_ "a/b.proto") = b_ "a_b_proto" /\ go_sanitized (b_ "_x") = b_ "__x".
Proof. repeat split; reflexivity. Qed.

(** Different proto names may have the same Go name. *)
Theorem C48_distinct_names_refuted : exists a b, proto_ident a /\ proto_ident b /\ a <> b /\ go_camel_case a = go_camel_case b.
Proof.
  exists (b_ "foo_bar"), (b_ "FooBar"). split; [exists "f"%char, (b_ "oo_bar")|split; [exists "F"%char, (b_ "ooBar")|split; [vm_compute; discriminate|vm_compute; reflexivity]]].
  - split; [reflexivity|]. split; [left; reflexivity|]. repeat (constructor; [vm_compute; auto|]). constructor.
  - split; [reflexivity|]. split; [left; reflexivity|]. repeat (constructor; [vm_compute; auto|]). constructor.
Qed.

(** ** C76: the declaration that is looked up is the declared one *)

Theorem C76_declared_exactly_if : forall bound taken d,
  looked_up d = declared (S bound) taken d <->
  match d with
  | DEnumValue _ n => (exists c r, n = c :: r /\ letter c) /\ Forall word n /\ is_keyword n = false
  | DField _ n oneof => oneof = false /\ taken (go_camel_case n) = false
  | DExtension scope _ => scope = []
  | _ => True
  end.
Proof.
  intros bound taken [p|p|n|s n|e n|m n oneof|scope n]; cbn [looked_up declared]; try (split; auto; fail).
  - rewrite <- sanitized_id. split; [|intros ->; reflexivity]. intros [= H]. apply app_inv_head in H. now injection H.
  - cbv zeta. destruct oneof.
    + split; [|intros [H _]; discriminate]. intro H. exfalso. injection H as H _. apply (f_equal (@List.length _)) in H. rewrite app_length in H. cbn [List.length] in H. lia.
    + split.
      * intro H. injection H as H. split; [reflexivity|]. apply (unique_id bound). now symmetry.
      * intros [_ H]. f_equal. symmetry. now apply unique_id.
  - destruct scope as [|x scope]; [tauto|]. split; [|discriminate]. intro H. exfalso. injection H as H. apply (f_equal (@List.length _)) in H. rewrite app_length in H. cbn [List.length] in H. lia.
Qed.
Example C76_example : looked_up (DEnumValue [b_ "Outer"; b_ "Kind"] (b_ "KIND_A")) = TopLevel (b_ "Outer_KIND_A")
  /\ looked_up (DMethod (b_ "Greeter") (b_ "say_hello")) = Member (b_ "GreeterServer") (b_ "SayHello").
Proof. split; reflexivity. Qed.

(** Legal elements whose generated declaration is not looked up: an enum value named like a Go keyword, a field of
    a oneof, a field named like a method of generated messages, an extension declared in a message. *)
Theorem C76_declared_refuted : exists d1 d2 d3 d4,
  d1 = DEnumValue [b_ "Kind"] (b_ "type") /\ looked_up d1 <> declared 1 (fun _ => false) d1 /\
  d2 = DField [b_ "M"] (b_ "x") true /\ looked_up d2 <> declared 1 (fun _ => false) d2 /\
  d3 = DField [b_ "M"] (b_ "reset") false /\ looked_up d3 <> declared 1 (beq (b_ "Reset")) d3 /\
  d4 = DExtension [b_ "M"] (b_ "ext") /\ looked_up d4 <> declared 1 (fun _ => false) d4.
Proof. do 4 eexists. repeat split; vm_compute; congruence. Qed.

(** ** C77: the generated files of a document *)

Theorem C77_source_read : forall captures pre m a x src b post,
  (forall g, In g pre -> before_package g = true -> forall t, In t (texts g) -> ~ marks_generated t) ->
  marks_generated m -> stripped x src -> (forall t y, In t b -> t <> b_ "// source:" ++ y) ->
  parse_preamble captures (pre ++ mkGroup true (m :: a ++ (b_ "// source:" ++ x) :: b) :: post) = (mkPre src [], true).
Proof.
  intros captures pre m a x src b post Hpre Hm Hx Hb0. apply marker_spec in Hm. apply trim_stripped in Hx. subst src. change (b_ "// source:") with source_prefix in *.
  assert (Hb : forall t, In t b -> has_prefix t source_prefix = false).
  { intros t I. destruct (has_prefix t source_prefix) eqn:E; [|reflexivity]. apply has_prefix_spec in E as (y & ->). now elim (Hb0 _ y I). }
  unfold parse_preamble.
  assert (E : find_group (pre ++ mkGroup true (m :: a ++ (source_prefix ++ x) :: b) :: post) = Some (m :: a ++ (source_prefix ++ x) :: b)).
  { induction pre as [|g pre IH]; cbn [app find_group].
    - cbn [before_package texts existsb]. rewrite Hm. reflexivity.
    - destruct (before_package g && existsb is_marker (texts g))%bool eqn:E.
      + exfalso. apply andb_true_iff in E as [E1 E2]. apply existsb_exists in E2 as (t & Ht & E2). apply (Hpre g (or_introl eq_refl) E1 t Ht). now apply marker_spec.
      + apply IH. intros g' Hg'. apply Hpre. now right. }
  rewrite E. f_equal. pose proof (loop_source captures a x b (mkPre [] []) Hb) as S. pose proof (loop_versions captures (a ++ (source_prefix ++ x) :: b) (mkPre [] [])) as V.
  destruct (preamble_loop captures _ _) as [ps pv]. cbn [p_source p_versions] in *. subst. reflexivity.
Qed.
Example C77_source_example : parse_preamble (fun _ => Some (b_ "protoc", b_ "v4"))
  [mkGroup true (map b_ ["// Copyright"]); mkGroup true (map b_ ["// Code generated by protoc-gen-go. DO NOT EDIT."; "// versions:"; "// 	protoc v4"; "// source: a/b.proto"])]%string
  = (mkPre (b_ "a/b.proto") [], true).
Proof. reflexivity. Qed.

Example C77_source_case : marks_generated (b_ "// Code generated by protoc-gen-go. DO NOT EDIT.") /\ stripped (b_ " a/b.proto ") (b_ "a/b.proto").
Proof.
  split; [exists (b_ " by protoc-gen-go. "); right; reflexivity|]. exists (b_ " "), (b_ " "). split; [reflexivity|].
  split; [|split]; [repeat constructor..|]. split; [intros c r E; injection E as <- _; vm_compute; intuition discriminate|].
  intros c r E. change (b_ "a/b.proto") with (b_ "a/b.prot" ++ b_ "o") in E. apply app_inj_tail in E as [_ <-]. vm_compute. intuition discriminate.
Qed.
(** The files of the package that are kept: all that are marked as generated. *)
Theorem C77_marked_files_kept : forall captures alias source uri_path f,
  source <> [] \/ path_base (g_name f) <> path_base uri_path ->
  keep_file captures alias source uri_path f = true <-> (alias = [] \/ g_pkg f = alias) /\ marked f.
Proof.
  intros captures alias source uri_path f H. unfold keep_file.
  assert (A : (negb (beq alias []) && negb (beq (g_pkg f) alias))%bool = false <-> alias = [] \/ g_pkg f = alias).
  { rewrite andb_false_iff, !negb_false_iff. rewrite !beq_eq. tauto. }
  destruct (negb (beq alias []) && negb (beq (g_pkg f) alias))%bool.
  { split; [discriminate|]. intros [Ha _]. apply A in Ha. discriminate. }
  pose proof (parse_ok captures (g_comments f)) as P. pose proof (parse_none captures (g_comments f)) as N.
  destruct (parse_preamble captures (g_comments f)) as [p ok]. cbn [fst snd] in *. assert (Q : marked f <-> ok = true) by (rewrite P; unfold marked; split; intros (g & t & I1 & I2 & I3 & I4); exists g, t; (repeat split; try assumption); now apply marker_spec). rewrite Q. rewrite <- A. destruct ok; [tauto|].
  rewrite (N eq_refl). cbn [p_source]. split; [|intros [_ Hd]; discriminate]. destruct (beq source []) eqn:E; cbn [negb].
  - apply beq_eq in E. intro Hb. apply beq_eq in Hb. exfalso. destruct H; contradiction.
  - discriminate.
Qed.
(** FindGeneratedFiles is the filter *)
Theorem C77_files_of_package : forall captures alias source uri_path fs f,
  source <> [] ->
  In f (find_generated captures alias source uri_path fs) <-> In f fs /\ (alias = [] \/ g_pkg f = alias) /\ marked f.
Proof.
  intros captures alias source uri_path fs f H. unfold find_generated. rewrite filter_In. rewrite C77_marked_files_kept by now left. tauto.
Qed.
(** Hence a file generated from another source is returned. *)
Theorem C77_only_own_files_refuted : exists captures source fs f,
  source = b_ "a/b.proto" /\ names_source f (b_ "a/other.proto") /\ ~ names_source f source /\
  In f (find_generated captures [] source (b_ "/w/a/b.proto") fs).
Proof.
  exists (fun _ => None), (b_ "a/b.proto").
  set (f := mkGo (b_ "a") (b_ "/w/a/other.pb.go") [mkGroup true (map b_ ["// Code generated by protoc-gen-go. DO NOT EDIT."; "// source: a/other.proto"]%string)]).
  exists [f], f. split; [reflexivity|]. split; [exists (hd (mkGroup true []) (g_comments f)); repeat split; vm_compute; auto|]. split.
  - intros (g & [<-|[]] & _ & H). vm_compute in H. destruct H as [H|[H|[]]]; discriminate.
  - vm_compute. auto.
Qed.
(** The versions in the preamble are never recorded, whatever they look like. *)
Theorem C77_versions_never_recorded : forall captures gs, p_versions (fst (parse_preamble captures gs)) = [].
Proof. intros captures gs. unfold parse_preamble. destruct (find_group gs) as [[|t ts]|]; cbn [fst]; try reflexivity. rewrite loop_versions. reflexivity. Qed.

(** ** C78: the raw descriptor of a generated file *)

Theorem C78_symbol_exactly_if : forall source,
  raw_desc_symbol source = b_ "file_" ++ go_sanitized source ++ b_ "_rawDesc" <->
  (exists c r, source = c :: r /\ letter c) /\ Forall (fun c => word c \/ c = slash \/ c = dot) source /\
  is_keyword (map sanitize_char source) = false.
Proof.
  intro source. unfold raw_desc_symbol. rewrite replaced_map. split.
  - intro H. apply app_inv_head in H. apply app_inv_tail in H. unfold go_sanitized in H. cbv zeta in H.
    destruct (is_keyword (map sanitize_char source) || _)%bool eqn:E.
    { exfalso. apply (f_equal (@List.length _)) in H. cbn [List.length] in H. rewrite !map_length in H. lia. }
    apply orb_false_iff in E as [E1 E2]. apply negb_false_iff in E2. split; [|split; [|assumption]].
    + destruct source as [|c r]; [discriminate|]. cbn [map] in E2. exists c, r. split; [reflexivity|]. unfold sanitize_char in E2. unfold letter.
      destruct (is_letter c) eqn:L; [reflexivity|]. cbn [orb] in E2. destruct (is_digit c); [congruence|discriminate].
    + clear -H. induction source as [|c s IH]; [constructor|]. cbn [map] in H. injection H as H1 H2. constructor; [now apply replaced_char|auto].
  - intros ((c & r & -> & Hc) & Hw & Hk). f_equal. f_equal. unfold go_sanitized. cbv zeta. rewrite Hk. cbn [orb map].
    assert (L : sanitize_char c = c) by (apply sanitize_id; now left). rewrite L. unfold letter in Hc. rewrite Hc. cbn [negb].
    assert (M : map (fun c => if Ascii.eqb c slash then under else if Ascii.eqb c dot then under else c) (c :: r) = map sanitize_char (c :: r)).
    { clear -Hw. induction Hw as [|d t Hd Ht IH]; [reflexivity|]. cbn [map]. f_equal; [now apply replaced_char|exact IH]. }
    cbn [map] in M. rewrite L in M. exact M.
Qed.
Example C78_example : raw_desc_symbol (b_ "google/api/http.proto") = b_ "file_google_api_http_proto_rawDesc".
Proof. reflexivity. Qed.
(** A dash in the path or a digit in front gives another variable name. *)
Theorem C78_symbol_refuted : exists s1 s2,
  s1 = b_ "my-api/a.proto" /\ raw_desc_symbol s1 <> b_ "file_" ++ go_sanitized s1 ++ b_ "_rawDesc" /\
  s2 = b_ "3d/a.proto" /\ raw_desc_symbol s2 <> b_ "file_" ++ go_sanitized s2 ++ b_ "_rawDesc".
Proof. do 2 eexists. repeat split; vm_compute; congruence. Qed.

(** ** C79: imports resolved through generated code *)

Theorem C79_unique_candidate : forall imports path x,
  resolve_import imports path = Some x <->
  exists ip, In ip imports /\ has_suffix ip (path_dir path) = true /\
    (forall q, In q imports -> has_suffix q (path_dir path) = true -> q = ip) /\ x = path_join ip (path_base path).
Proof. exact resolve_iff. Qed.
Example C79_example : resolve_import (map b_ ["fmt"; "example.com/m/api"; "example.com/m/api"; "example.com/m/other"])%string (b_ "api/types.proto")
  = Some (b_ "example.com/m/api/types.proto").
Proof. vm_compute. reflexivity. Qed.
(** the order and repetition of the imports do not matter *)
Theorem C79_order_irrelevant : forall imports1 imports2 path,
  (forall p, In p imports1 <-> In p imports2) -> resolve_import imports1 path = resolve_import imports2 path.
Proof.
  intros i1 i2 path H. assert (A : forall a b x, (forall p, In p a <-> In p b) -> resolve_import a path = Some x -> resolve_import b path = Some x).
  { intros a b x Hab Hx. apply resolve_iff in Hx as (ip & H1 & H2 & H3 & H4). apply resolve_iff. exists ip. split; [now apply Hab|]. split; [assumption|]. split; [|assumption].
    intros q Hq. apply H3. now apply Hab. }
  destruct (resolve_import i1 path) as [x|] eqn:E1; [symmetry; now apply (A i1 i2)|].
  destruct (resolve_import i2 path) as [y|] eqn:E2; [|reflexivity]. rewrite (A i2 i1 y) in E1; [discriminate| |assumption]. intro p. symmetry. apply H.
Qed.
(** The candidate may be a package whose last component merely ends like the directory, and such a package makes
    the right one ambiguous. *)
Theorem C79_component_boundary_refuted : exists imports1 imports2 path x,
  path = b_ "api/types.proto" /\ resolve_import imports1 path = Some x /\ (forall ip, In ip imports1 -> ~ component_suffix ip (path_dir path)) /\
  (exists ip, In ip imports2 /\ component_suffix ip (path_dir path) /\ forall q, In q imports2 -> component_suffix q (path_dir path) -> q = ip) /\
  resolve_import imports2 path = None.
Proof.
  assert (N : ~ component_suffix (b_ "example.com/myapi") (path_dir (b_ "api/types.proto"))).
  { intros [H|(p & H)]; [vm_compute in H; discriminate|]. assert (has_suffix (b_ "example.com/myapi") (slash :: path_dir (b_ "api/types.proto")) = true) as K by (apply has_suffix_spec; eauto).
    vm_compute in K. discriminate. }
  exists [b_ "example.com/myapi"], [b_ "example.com/api"; b_ "example.com/myapi"], (b_ "api/types.proto"), (b_ "example.com/myapi/types.proto").
  split; [reflexivity|]. split; [vm_compute; reflexivity|]. split; [intros ip [<-|[]]; exact N|]. split; [|vm_compute; reflexivity].
  exists (b_ "example.com/api"). split; [now left|]. split; [right; exists (b_ "example.com"); reflexivity|].
  intros q [<-|[<-|[]]]; [reflexivity|]. intro H. contradiction.
Qed.

(** ** C80: the Go package of a document *)

Theorem C80_path_and_name : forall path name is_file implicit,
  ~ In semicolon path -> go_package (path ++ semicolon :: name) is_file implicit = Some (path, name).
Proof.
  intros path name is_file implicit H. unfold go_package.
  assert (B : beq (path ++ semicolon :: name) [] = false) by (destruct path; reflexivity). rewrite B. cbn [andb].
  assert (E : existsb (Ascii.eqb semicolon) (path ++ semicolon :: name) = true) by (apply existsb_exists; exists semicolon; split; [apply in_app_iff; right; now left|apply Ascii.eqb_refl]).
  rewrite E. f_equal. clear -H. induction path as [|c path IH]; cbn [app cut]; [now rewrite Ascii.eqb_refl|].
  destruct (Ascii.eqb c semicolon) eqn:E; [apply Ascii.eqb_eq in E; subst; exfalso; apply H; now left|]. rewrite IH; [reflexivity|]. intro. apply H. now right.
Qed.
Example C80_example : go_package (b_ "example.com/m/api;apiv1") true None = Some (b_ "example.com/m/api", b_ "apiv1").
Proof. reflexivity. Qed.

Theorem C80_path_only : forall path is_file implicit,
  path <> [] -> ~ In semicolon path -> (In slash path \/ In dot path) -> go_package path is_file implicit = Some (path, []).
Proof.
  intros path is_file implicit Hne Hs Hp. unfold go_package. assert (B : beq path [] = false) by (destruct path; [congruence|reflexivity]). rewrite B. cbn [andb].
  assert (X : forall c, existsb (Ascii.eqb c) path = true <-> In c path).
  { intro c. rewrite existsb_exists. split; [intros (y & Hy & E); apply Ascii.eqb_eq in E; now subst|]. intro. exists c. split; [assumption|apply Ascii.eqb_refl]. }
  destruct (existsb (Ascii.eqb semicolon) path) eqn:E; [exfalso; now apply Hs, X|].
  destruct Hp as [Hp|Hp]; apply X in Hp; rewrite Hp; cbn [negb]; rewrite ?andb_false_r; reflexivity.
Qed.
(** a bare name is a package name at the implied path *)
Theorem C80_name_only : forall name implicit,
  name <> [] -> ~ In semicolon name -> ~ In slash name -> ~ In dot name -> go_package name true (Some implicit) = Some (implicit, name).
Proof.
  intros name implicit Hne Hs Hl Hd. unfold go_package. assert (B : beq name [] = false) by (destruct name; [congruence|reflexivity]). rewrite B. cbn [andb].
  assert (X : forall c, ~ In c name -> existsb (Ascii.eqb c) name = false).
  { intros c Hc. destruct (existsb (Ascii.eqb c) name) eqn:E; [|reflexivity]. apply existsb_exists in E as (y & Hy & E). apply Ascii.eqb_eq in E. now subst. }
  rewrite !X by assumption. reflexivity.
Qed.
(** Without an option the implied path is used; the package name is then open exactly if the path has a slash or a
    dot. *)
Theorem C80_implicit : forall implicit, ~ In semicolon implicit ->
  go_package [] true (Some implicit) = Some (implicit, if (existsb (Ascii.eqb slash) implicit || existsb (Ascii.eqb dot) implicit)%bool then [] else implicit).
Proof.
  intros implicit Hs. unfold go_package. rewrite (beq_refl []). cbn [andb].
  destruct (existsb (Ascii.eqb semicolon) implicit) eqn:E; [exfalso; apply existsb_exists in E as (y & Hy & E); apply Ascii.eqb_eq in E; now subst|].
  destruct (existsb (Ascii.eqb slash) implicit), (existsb (Ascii.eqb dot) implicit); reflexivity.
Qed.
(** Hence files of a module whose path is a single word are not found when their package has another name (the
    package name is taken from the module path though the document does not give one). *)
Theorem C80_single_word_module_refuted : exists captures implicit f,
  go_package [] true (Some implicit) = Some (implicit, implicit) /\ marked f /\
  find_generated captures [] (b_ "a.proto") (b_ "/w/a.proto") [f] = [f] /\ find_generated captures implicit (b_ "a.proto") (b_ "/w/a.proto") [f] = [].
Proof.
  exists (fun _ => None), (b_ "mymodule").
  set (f := mkGo (b_ "mypb") (b_ "/w/a.pb.go") [mkGroup true (map b_ ["// Code generated by protoc-gen-go. DO NOT EDIT."; "// source: a.proto"]%string)]).
  exists f. split; [reflexivity|]. split; [|split; reflexivity].
  exists (hd (mkGroup true []) (g_comments f)), (b_ "// Code generated by protoc-gen-go. DO NOT EDIT."). split; [now left|]. split; [reflexivity|]. split; [now left|].
  exists (b_ " by protoc-gen-go. "). now right.
Qed.
Print Assumptions C48_camel_case_exported.
Print Assumptions C48_characters.
Print Assumptions C48_camel_case_fixpoints.
Print Assumptions C48_camel_case_idempotent.
Print Assumptions C48_snake_case.
Print Assumptions C48_nested_names.
Print Assumptions C48_sanitized_identifier.
Print Assumptions C48_sanitized_unchanged.
Print Assumptions C48_distinct_names_refuted.
Print Assumptions C76_declared_exactly_if.
Print Assumptions C76_declared_refuted.
Print Assumptions C77_source_read.
Print Assumptions C77_marked_files_kept.
Print Assumptions C77_files_of_package.
Print Assumptions C77_only_own_files_refuted.
Print Assumptions C77_versions_never_recorded.
Print Assumptions C78_symbol_exactly_if.
Print Assumptions C78_symbol_refuted.
Print Assumptions C79_unique_candidate.
Print Assumptions C79_order_irrelevant.
Print Assumptions C79_component_boundary_refuted.
Print Assumptions C80_path_and_name.
Print Assumptions C80_path_only.
Print Assumptions C80_name_only.
Print Assumptions C80_implicit.
Print Assumptions C80_single_word_module_refuted.
