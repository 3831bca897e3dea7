(** The decode and fmt commands: theorems C103 to C106. *)
From Coq Require Import Ascii String Permutation.
From Verif Require Import Base Strs.
From Verif.Decode Require Import Model Spec Proofs.
Open Scope list_scope.

Definition bts (l : list nat) : bytes := map ascii_of_nat l.
Definition newline : ascii := ascii_of_nat 10.

(** ** C103: base64 *)

(** A message in any of the four encodings, with white space around it, is
    decoded to itself. *)
Theorem C103_decoded : forall k m before after,
  In k encodings -> m <> [] -> blank before -> blank after ->
  read (before ++ encode k m ++ after) = Some m.
Proof. intros. apply read_encoded; try assumption. now apply encodings_four. Qed.
Example C103_decoded_case : encode raw_url (bts [8; 150; 255; 1]) = b_ "CJb_AQ" /\
  blank [newline] /\ read (b_ "CJb_AQ" ++ [newline]) = Some (bts [8; 150; 255; 1]) /\
  read (b_ "CJb/AQ==") = Some (bts [8; 150; 255; 1]).
Proof. split; [vm_compute; reflexivity|]. split; [intros c [<-|[]]; reflexivity|]. vm_compute. auto. Qed.

(** What is decoded is decoded as a whole: the input is as long as the encoding of the result; else it is left as it is. *)
Theorem C103_whole : forall s m, read s = Some m -> exists before core after, s = before ++ core ++ after /\ blank before /\ blank after /\
  (m = core \/ exists k, In k encodings /\ List.length core = List.length (encode k m)).
Proof.
  intros s m H. destruct (trim_split s) as (a & c & E & A & C). exists a, (trim s), c. split; [exact E|]. split; [exact A|]. split; [exact C|].
  rewrite read_unfold in H. destruct (trim s) as [|x r] eqn:T; [discriminate|]. rewrite <- T in *. destruct (looks_like_base64 (trim s)).
  - destruct (first_decoded four (trim s)) as [d|] eqn:F; injection H as <-; [right|now left].
    apply first_decoded_in in F as (k & I & D). exists k. split; [|now apply decode_length].
    assert (Ee : encodings = [std; raw_std; url; raw_url]) by (vm_compute; reflexivity). rewrite Ee. cbn in I |- *. tauto.
  - injection H as <-. now left.
Qed.
Example C103_whole_case : read (b_ "CJYB QQ==QQ==") = Some (b_ "CJYB QQ==QQ==") /\ read (b_ "QQ==QQ==") = Some (b_ "QQ==QQ==") /\ read (b_ " QQ== ") = Some (b_ "A").
Proof. repeat split; vm_compute; reflexivity. Qed.
(** With a line end inside, as encoders break lines, it is not decoded: *)
Theorem C103_not_decoded : forall a b, a <> [] -> b <> [] -> tight (a ++ newline :: b) ->
  read (a ++ newline :: b) = Some (a ++ newline :: b).
Proof.
  intros a b Na Nb T. rewrite read_unfold, (trim_tight _ T). destruct (a ++ newline :: b) as [|c r] eqn:E.
  - destruct a; [congruence|discriminate].
  - rewrite <- E. replace (looks_like_base64 (a ++ newline :: b)) with false; [reflexivity|].
    symmetry. apply not_true_is_false. unfold looks_like_base64. rewrite forallb_forall. intros H.
    assert (I : In newline (a ++ newline :: b)) by (apply in_or_app; right; now left).
    apply H in I. vm_compute in I. discriminate.
Qed.
Example C103_not_decoded_case : tight (b_ "CJb_" ++ newline :: b_ "AQ").
Proof. apply trim_same_iff. vm_compute. reflexivity. Qed.

Theorem C103_wrapped_refuted : exists k m a b,
  In k [std; url; raw_std; raw_url] /\ m <> [] /\ encode k m = a ++ b /\ read (a ++ newline :: b) <> Some m.
Proof.
  exists std, (bts [8; 150; 255; 1]), (b_ "CJb/"), (b_ "AQ==").
  split; [now left|]. split; [discriminate|]. split; vm_compute; [reflexivity|discriminate].
Qed.

(** ** C104: messages given as they are *)

(** Exactly when a message is read as it is given. *)
Theorem C104_unchanged_iff : forall m,
  read m = Some m <->
  m <> [] /\ tight m /\ (looks_like_base64 m = false \/ forall k, In k [std; url; raw_std; raw_url] -> decode k m = None).
Proof.
  intros m. rewrite read_unfold. split.
  - intros H.
    assert (LT : List.length (trim m) <= List.length m).
    { destruct (trim_split m) as (a & b & E & _). rewrite E at 2. rewrite !app_length. lia. }
    assert (T : trim m = m /\ (looks_like_base64 (trim m) = false \/ first_decoded four (trim m) = None) /\ trim m <> []).
    { assert (Nt : trim m <> []) by (intros X; rewrite X in H; discriminate).
      destruct (trim m) as [|c r] eqn:Et; [discriminate|]. rewrite <- Et in *. clear c r Et.
      destruct (looks_like_base64 (trim m)) eqn:L.
      - destruct (first_decoded four (trim m)) as [d|] eqn:F.
        + exfalso. injection H as ->. apply first_decoded_in in F as (k & _ & D).
          apply decode_shorter in D; [lia | exact Nt].
        + injection H as H. auto.
      - injection H as H. auto. }
    destruct T as (T & F & N). rewrite T in *. split; [exact N|]. split; [now apply trim_same_iff|].
    destruct F as [F|F]; [now left | right]. now apply first_decoded_none.
  - intros (N & T & F). rewrite (trim_tight m T). destruct m as [|c r] eqn:E; [congruence|]. rewrite <- E in *.
    destruct F as [->|F]; [reflexivity|]. destruct (looks_like_base64 m); [|reflexivity].
    apply (first_decoded_none four m) in F. now rewrite F.
Qed.
Example C104_unchanged_iff_case : read (bts [8; 150; 1]) = Some (bts [8; 150; 1]).
Proof. vm_compute. reflexivity. Qed.

(** A message that starts or ends with a byte that is white space in ASCII is
    never read as it is given. *)
Theorem C104_white_space : forall c, is_space c = true <-> In c [" "; "009"; "010"; "011"; "012"; "013"]%char.
Proof. exact space_in. Qed.
Theorem C104_space_lost : forall c r, is_space c = true ->
  read (c :: r) <> Some (c :: r) /\ read (r ++ [c]) <> Some (r ++ [c]).
Proof.
  intros c r S. split; rewrite C104_unchanged_iff; intros (_ & [L R] & _).
  - rewrite (L c r eq_refl) in S. discriminate.
  - rewrite (R c r eq_refl) in S. discriminate.
Qed.
(** The tag of a first field with number 1 and a string, bytes or message value
    is such a byte. *)
Example C104_space_lost_case : is_space (ascii_of_nat (1 * 8 + 2)) = true /\
  read (bts [10; 2; 104; 105]) = Some (bts [2; 104; 105]).
Proof. vm_compute. auto. Qed.

Theorem C104_unchanged_refuted : exists m, m <> [] /\ read m <> Some m /\ looks_like_base64 m = false.
Proof. exists (bts [10; 2; 104; 105]). split; [discriminate|]. split; [vm_compute; discriminate | reflexivity]. Qed.

(** So is a message all of whose bytes are base64 digits, here two 32-bit fields
    with number 6. *)
Theorem C104_digits_refuted : exists m, tight m /\ m <> [] /\ looks_like_base64 m = true /\ read m <> Some m /\
  m = bts (6 * 8 + 5 :: [65; 65; 65; 65] ++ 6 * 8 + 5 :: [65; 65; 65; 65]).
Proof.
  exists (b_ "5AAAA5AAAA"). split; [apply trim_same_iff; vm_compute; reflexivity|]. split; [discriminate|].
  split; [reflexivity|]. split; [vm_compute; discriminate | vm_compute; reflexivity].
Qed.

(** Nothing is read from nothing. *)
Theorem C104_no_input : forall s, read s = None <-> blank s.
Proof.
  intros s. rewrite read_unfold. split.
  - destruct (trim s) as [|c r] eqn:E.
    + intros _. destruct (trim_split s) as (a & b & Es & A & B). rewrite E in Es. cbn [app] in Es. rewrite Es.
      intros x I. apply in_app_or in I as [I|I]; auto.
    + destruct (looks_like_base64 (c :: r)); [|discriminate]. destruct (first_decoded four (c :: r)); discriminate.
  - intros B. unfold trim. rewrite (trim_left_all s B). reflexivity.
Qed.
Example C104_no_input_case : read [newline; " "%char] = None.
Proof. vm_compute. reflexivity. Qed.

(** ** C105: the type *)

(** A full name is always used. *)
Theorem C105_full_name : forall all t, In t all -> choose all t = Use t.
Proof.
  intros all t I. unfold choose. pose proof (scan_exact all t I [] []) as E.
  destruct (scan all t [] []) as [[o a] b]. cbn in E. subst o. reflexivity.
Qed.
Example C105_full_name_case : choose [b_ "a.b.M"; b_ "a.M"; b_ "M"] (b_ "a.M") = Use (b_ "a.M").
Proof. vm_compute. reflexivity. Qed.

(** The last name of a message is what follows its last dot. *)
Theorem C105_last_name : forall d t,
  beq (short d) t = true <-> ~ In "."%char t /\ (d = t \/ exists package, d = package ++ b_ "." ++ t).
Proof.
  intros d t. rewrite beq_eq. unfold short. split.
  - intros <-. split.
    + pose proof (split_on_nonempty dot d) as N. destruct (exists_last N) as (l & x & E). apply (split_on_sep_free dot d). rewrite E, last_last, in_app_iff. right. now left.
    + pose proof (join_split dot d) as J. pose proof (split_on_nonempty dot d) as N. destruct (exists_last N) as (l & x & E). rewrite E in J |- *. rewrite last_last.
      destruct l as [|y l]; [left; symmetry; exact J|]. right. exists (join_with dot (y :: l)). rewrite <- J. apply join_snoc. discriminate.
  - intros [N [->|(p & ->)]].
    + now rewrite split_on_no_sep.
    + change (b_ "." ++ t) with (dot :: t). rewrite split_app, (split_on_no_sep dot t) by exact N. apply last_last.
Qed.
Example C105_last_name_case : beq (short (b_ "a.b.M")) (b_ "M") = true /\ beq (short (b_ "M")) (b_ "M") = true /\ beq (short (b_ "a.bM")) (b_ "M") = false.
Proof. vm_compute. auto. Qed.

(** Otherwise the messages with that name are meant, and only if there is none
    those whose full name contains the text in any case; one is used, of several
    the user chooses. *)
Theorem C105_otherwise : forall all t, ~ In t all ->
  let named := filter (fun d => beq (short d) t) all in
  let containing := filter (fun d => contains (lower d) (lower t)) all in
  let meant := match named with [] => containing | _ => named end in
  choose all t = match meant with [] => NotFound | [d] => Use d | ds => Ask ds end.
Proof.
  intros all t N named containing meant. unfold choose. rewrite (scan_rest all t N). cbn [app].
  change (filter (by_short t) all) with named.
  assert (P : named = [] -> filter (by_part t) all = containing).
  { unfold named, containing. clear. induction all as [|d all IH]; [reflexivity|]. cbn [filter]. unfold by_part at 1.
    destruct (beq (short d) t); [discriminate|]. cbn [negb andb]. intros E. rewrite (IH E). reflexivity. }
  unfold meant. destruct named as [|d [|e named]]; [|reflexivity|reflexivity].
  rewrite (P eq_refl). destruct containing as [|d [|e c]]; reflexivity.
Qed.
Example C105_otherwise_case :
  choose [b_ "a.Msg"; b_ "b.Msg"; b_ "b.MsgList"] (b_ "Msg") = Ask [b_ "a.Msg"; b_ "b.Msg"] /\
  choose [b_ "a.Msg"; b_ "b.Msg"; b_ "b.MsgList"] (b_ "msgl") = Use (b_ "b.MsgList").
Proof. vm_compute. auto. Qed.

(** What it means that one name contains another, in any case. *)
Theorem C105_any_case : forall t s, occurs t s <-> exists a b c, s = a ++ b ++ c /\ Forall2 same_letter b t.
Proof.
  intros t s. unfold occurs. split.
  - intros (a & c & E). apply lower_split in E as (x & y & -> & <- & E). apply lower_split in E as (b & z & -> & E & <-). exists x, b, z. split; [reflexivity|now apply same_letters].
  - intros (a & b & c & -> & F). apply same_letters in F. exists (lower a), (lower c). now rewrite !lower_app, F.
Qed.
Example C105_any_case_case : occurs (b_ "msgL") (b_ "b.MsgList").
Proof. apply C105_any_case. exists (b_ "b."), (b_ "MsgL"), (b_ "ist"). split; [reflexivity|]. apply Forall2_cons; [right; left; apply nth_error_In with 12; reflexivity|]. repeat (apply Forall2_cons; [left; reflexivity|]). constructor. Qed.
(** A type is found if some full name contains the text. *)
Theorem C105_found_iff : forall all t, choose all t = NotFound <-> forall d, In d all -> ~ occurs t d.
Proof.
  intros all t.
  assert (C : forall d, contains (lower d) (lower t) = true <-> occurs t d) by (intros d; apply contains_spec).
  destruct (in_dec (list_eq_dec ascii_dec) t all) as [I|N].
  - rewrite (C105_full_name all t I). split; [discriminate|]. intros H. exfalso. apply (H t I). exists [], [].
    cbn. now rewrite app_nil_r.
  - rewrite (C105_otherwise all t N). split.
    + intros E d I O.
      assert (J : In d (filter (fun d => contains (lower d) (lower t)) all)) by (apply filter_In; split; [exact I | now apply C]).
      destruct (filter (fun d => beq (short d) t) all) as [|x [|y l]]; [|discriminate|discriminate].
      destruct (filter (fun d => contains (lower d) (lower t)) all) as [|x [|y l]]; [destruct J|discriminate|discriminate].
    + intros H.
      assert (E2 : filter (fun d => contains (lower d) (lower t)) all = []).
      { destruct (filter (fun d => contains (lower d) (lower t)) all) as [|d l] eqn:F; [reflexivity|]. exfalso.
        assert (J : In d (d :: l)) by now left. rewrite <- F in J. apply filter_In in J as [J K]. apply (H d J). now apply C. }
      assert (E1 : filter (fun d => beq (short d) t) all = []).
      { destruct (filter (fun d => beq (short d) t) all) as [|d l] eqn:F; [reflexivity|]. exfalso.
        assert (J : In d (d :: l)) by now left. rewrite <- F in J. apply filter_In in J as [J K]. apply beq_eq in K.
        apply (H d J). destruct (short_suffix d) as [p E]. exists (lower p), []. rewrite E at 1. rewrite K, lower_app, app_nil_r. reflexivity. }
      now rewrite E1, E2.
Qed.
Example C105_found_iff_case : choose [b_ "a.Msg"] (b_ "other") = NotFound.
Proof. vm_compute. reflexivity. Qed.

(** The order in which messages are listed does not matter, except to the order
    of the choices. *)
Theorem C105_any_order : forall all all' t, Permutation all all' ->
  match choose all t, choose all' t with
  | Use d, Use d' => d = d'
  | Ask ds, Ask ds' => Permutation ds ds'
  | NotFound, NotFound => True
  | _, _ => False
  end.
Proof.
  intros all all' t P.
  assert (FP : forall f : bytes -> bool, Permutation (filter f all) (filter f all')).
  { intros f. clear -P. induction P; cbn; auto.
    - destruct (f x); auto.
    - destruct (f x), (f y); auto. apply perm_swap.
    - etransitivity; eauto. }
  destruct (in_dec (list_eq_dec ascii_dec) t all) as [I|N].
  - rewrite (C105_full_name all t I), (C105_full_name all' t); [reflexivity|]. eapply Permutation_in; eauto.
  - assert (N' : ~ In t all') by (intros I; apply N; eapply Permutation_in; [apply Permutation_sym, P | exact I]).
    rewrite (C105_otherwise all t N), (C105_otherwise all' t N').
    pose proof (FP (fun d => beq (short d) t)) as P1. pose proof (FP (fun d => contains (lower d) (lower t))) as P2.
    assert (G : forall l l' : list bytes, Permutation l l' ->
      match (match l with [] => NotFound | [d] => Use d | ds => Ask ds end), (match l' with [] => NotFound | [d] => Use d | ds => Ask ds end) with
      | Use d, Use d' => d = d' | Ask ds, Ask ds' => Permutation ds ds' | NotFound, NotFound => True | _, _ => False end).
    { intros l l' Q. pose proof (Permutation_length Q) as L. destruct l as [|x [|y l]], l' as [|x' [|y' l']]; cbn in L; try lia; auto.
      apply Permutation_length_1 in Q. exact Q. }
    destruct (filter (fun d => beq (short d) t) all) as [|x l].
    + apply Permutation_nil in P1. rewrite P1. now apply G.
    + destruct (filter (fun d => beq (short d) t) all') as [|x' l']; [apply Permutation_sym, Permutation_nil in P1; discriminate|].
      exact (G _ _ P1).
Qed.
Example C105_any_order_case : Permutation [b_ "a.Msg"; b_ "b.Msg"] [b_ "b.Msg"; b_ "a.Msg"].
Proof. apply perm_swap. Qed.

(** The documented fallback for unknown types, the wire format, is not taken:
    the command fails whatever the input. *)
Theorem C105_fallback_refuted : exists all t, t <> [] /\ choose all t = NotFound /\
  forall input, command all t input = Error.
Proof. exists [b_ "a.Msg"], (b_ "other"). split; [discriminate|]. split; [vm_compute; reflexivity|]. reflexivity. Qed.

(** The messages chosen from are those not declared in others, *)
Theorem C105_listed : forall files n, In n (all_messages files) <-> exists f inner, In f files /\ In (Declared n inner) f.
Proof.
  intros files n. unfold all_messages. rewrite in_flat_map. split.
  - intros (f & I & J). apply in_map_iff in J. destruct J as ([n' inner] & E & J). cbn in E. subst. eauto.
  - intros (f & inner & I & J). exists f. split; [exact I|]. apply in_map_iff. exists (Declared n inner). auto.
Qed.
(** so the full name of a message declared in another does not select it: nothing is found, or even another message. *)
Theorem C105_inner_refuted : exists files n, (exists f, In f files /\ declares f n) /\ choose (all_messages files) n = NotFound.
Proof.
  exists [[Declared (b_ "a.M") [Declared (b_ "a.M.N") []]]], (b_ "a.M.N"). split; [|vm_compute; reflexivity]. eexists. split; [now left|].
  eapply d_inner; [now left|]. eapply d_here. now left.
Qed.
Theorem C105_inner_other_refuted : exists files n d, (exists f, In f files /\ declares f n) /\ d <> n /\ choose (all_messages files) n = Use d.
Proof.
  exists [[Declared (b_ "a.M") [Declared (b_ "a.M.N") []]]; [Declared (b_ "ba.M.N") []]], (b_ "a.M.N"), (b_ "ba.M.N"). split; [|split; [discriminate|vm_compute; reflexivity]]. eexists. split; [now left|].
  eapply d_inner; [now left|]. eapply d_here. now left.
Qed.
(** The full name of a message of a file is used. *)
Theorem C105_full_name_file : forall files f n inner, In f files -> In (Declared n inner) f -> choose (all_messages files) n = Use n.
Proof. intros files f n inner I J. apply C105_full_name. apply C105_listed. eauto. Qed.
Example C105_full_name_file_case : choose (all_messages [[Declared (b_ "a.M") [Declared (b_ "a.M.N") []]]; [Declared (b_ "ba.M.N") []]]) (b_ "a.M") = Use (b_ "a.M").
Proof. vm_compute. reflexivity. Qed.

(** ** C106: fmt *)

(** Different files are formatted independently of the schedule: when all
    goroutines are done each file that parses has its formatted content and
    every other file its old one. *)
Theorem C106_formatted_partial : forall format fs names schedule,
  NoDup names ->
  let '(fs', jobs) := run format schedule fs (map (fun f => mkJob f Start) names) in
  (forall j, In j jobs -> j_state j = Done) ->
  (forall f, In f names -> fs' f = formatted format (fs f)) /\ (forall f, ~ In f names -> fs' f = fs f).
Proof.
  intros format fs names schedule N.
  assert (M : map j_file (map (fun f => mkJob f Start) names) = names) by (rewrite map_map; apply map_id).
  pose proof (run_ok format fs schedule fs (map (fun f => mkJob f Start) names)) as R. rewrite M in R.
  specialize (R N). destruct (run _ _ _ _) as [fs' jobs].
  destruct R as (R1 & R2 & R3).
  - intros j I. apply in_map_iff in I as (f & <- & I). reflexivity.
  - reflexivity.
  - intros D. split; [|exact R3]. intros f I. rewrite <- R1 in I. apply in_map_iff in I as (j & <- & I).
    pose proof (R2 j I) as O. unfold job_ok in O. now rewrite (D j I) in O.
Qed.
Definition no_blanks (s : bytes) : option bytes := Some (filter (fun c => negb (Ascii.eqb c " "%char)) s).
Example C106_formatted_partial_case :
  let fs := fun f => if f =? 0 then b_ "a  b" else b_ "c d" in
  let '(fs', jobs) := run no_blanks [0; 1; 1; 0; 1; 0; 1; 0] fs (map (fun f => mkJob f Start) [0; 1]) in
  map j_state jobs = [Done; Done] /\ fs' 0 = b_ "ab" /\ fs' 1 = b_ "cd".
Proof. vm_compute. auto. Qed.

(** At any moment, whatever has happened, a file is as it was, or formatted, or
    formatted with an old ending. *)
Theorem C106_any_moment : forall format fs names schedule f,
  NoDup names -> In f names ->
  let '(fs', jobs) := run format schedule fs (map (fun f => mkJob f Start) names) in
  fs' f = fs f \/ exists t, format (fs f) = Some t /\ (fs' f = t \/ fs' f = t ++ skipn (List.length t) (fs f)).
Proof.
  intros format fs names schedule f N I.
  assert (M : map j_file (map (fun f => mkJob f Start) names) = names) by (rewrite map_map; apply map_id).
  pose proof (run_ok format fs schedule fs (map (fun f => mkJob f Start) names)) as R. rewrite M in R.
  specialize (R N). destruct (run _ _ _ _) as [fs' jobs].
  destruct R as (R1 & R2 & _).
  - intros j J. apply in_map_iff in J as (g & <- & J). reflexivity.
  - reflexivity.
  - rewrite <- R1 in I. apply in_map_iff in I as (j & <- & I).
    pose proof (R2 j I) as O. unfold job_ok in O. destruct (j_state j) as [|n|n o|n len|].
    + now left.
    + left. tauto.
    + left. tauto.
    + destruct O as (_ & t & F & -> & E). right. exists t. auto.
    + unfold formatted in O. destruct (format (fs (j_file j))) as [t|] eqn:F; [right; exists t; auto | now left].
Qed.
Example C106_any_moment_case :
  let fs := fun _ => b_ "a  b" in
  let '(fs', _) := run no_blanks [0; 0; 0] fs [mkJob 0 Start] in fs' 0 = b_ "ab b".
Proof. vm_compute. reflexivity. Qed.

(** A file that is named twice can be damaged although formatting is idempotent
    and both goroutines finish without error: the second one reads between the
    write and the truncation of the first one. *)
Theorem C106_twice_refuted : exists format fs schedule,
  (forall s t, format s = Some t -> format t = Some t) /\
  let '(fs', jobs) := run format schedule fs [mkJob 0 Start; mkJob 0 Start] in
  (forall j, In j jobs -> j_state j = Done) /\ fs' 0 <> formatted format (fs 0).
Proof.
  exists no_blanks, (fun _ => b_ "a  b"), [0; 0; 0; 1; 1; 0; 1; 1]. split.
  - intros s t H. unfold no_blanks in *. injection H as <-. f_equal.
    induction s as [|c s IH]; [reflexivity|]. cbn [filter]. destruct (negb (Ascii.eqb c " "%char)) eqn:E; [|exact IH].
    cbn [filter]. rewrite E. now f_equal.
  - vm_compute. split; [|discriminate]. intros j [<-|[<-|[]]]; reflexivity.
Qed.

Print Assumptions C103_decoded.
Print Assumptions C103_not_decoded.
Print Assumptions C103_wrapped_refuted.
Print Assumptions C104_unchanged_iff.
Print Assumptions C104_white_space.
Print Assumptions C104_space_lost.
Print Assumptions C104_unchanged_refuted.
Print Assumptions C104_digits_refuted.
Print Assumptions C104_no_input.
Print Assumptions C105_full_name.
Print Assumptions C105_listed.
Print Assumptions C105_inner_refuted.
Print Assumptions C105_inner_other_refuted.
Print Assumptions C105_full_name_file.
Print Assumptions C105_otherwise.
Print Assumptions C105_any_case.
Print Assumptions C105_found_iff.
Print Assumptions C105_any_order.
Print Assumptions C105_fallback_refuted.
Print Assumptions C106_formatted_partial.
Print Assumptions C106_any_moment.
Print Assumptions C106_twice_refuted.
Print Assumptions C105_last_name.
Print Assumptions C103_whole.
