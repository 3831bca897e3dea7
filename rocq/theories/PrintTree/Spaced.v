(** Words, numbers and strings are kept apart. *)
From Coq Require Import Ascii String NArith.
From Verif Require Import Base Strs.
From Verif.Print Require Model.
From Verif.PrintTree Require Import Model Grammar Spec.
Open Scope list_scope.
Open Scope nat_scope.

Fixpoint spaced (p : bool) (ts : list tok) : bool := match ts with [] => true | t :: r => negb (p && wordy t) && spaced (wordy t) r end.
Fixpoint ends (p : bool) (ts : list tok) : bool := match ts with [] => p | t :: r => ends (wordy t) r end.
Lemma spaced_app a b p : spaced p (a ++ b) = spaced p a && spaced (ends p a) b.
Proof. revert p. induction a as [|t a IH]; intros p; [easy|]. cbn [app spaced ends]. now rewrite IH, andb_assoc. Qed.
Lemma ends_app a b p : ends p (a ++ b) = ends (ends p a) b.
Proof. revert p. induction a as [|t a IH]; intros p; [easy|]. cbn [app ends]. apply IH. Qed.
Lemma spaced_apart ts : spaced false ts = true -> apart ts.
Proof.
  induction ts as [|t ts IH]; intros H; [constructor|]. cbn [spaced andb negb] in H. destruct ts as [|u ts]; [constructor|].
  cbn [spaced] in H. apply andb_true_iff in H as [H1 H2]. apply negb_true_iff in H1. constructor; [easy|]. apply IH. cbn [spaced andb negb]. exact H2.
Qed.
(** fragments, and fragments that end with a blank or a sign *)
Definition R (ts : list tok) : Prop := spaced false ts = true.
Definition Q (ts : list tok) : Prop := spaced false ts = true /\ ends false ts = false.
Lemma Q_nil : Q [].
Proof. now split. Qed.
Lemma Q_app a b : Q a -> Q b -> Q (a ++ b).
Proof. intros [H1 H2] [H3 H4]. split; [now rewrite spaced_app, H1, H2|now rewrite ends_app, H2]. Qed.
Lemma Q_R a : Q a -> R a.
Proof. now intros []. Qed.
Lemma QR_app a b : Q a -> R b -> R (a ++ b).
Proof. intros [H1 H2] H. unfold R in *. now rewrite spaced_app, H1, H2. Qed.
Lemma R_cut a t b : R a -> wordy t = false -> Q b -> Q (a ++ t :: b).
Proof.
  intros H Ht [H1 H2]. unfold R in H. split.
  - rewrite spaced_app, H. cbn [spaced]. now rewrite Ht, andb_false_r, H1.
  - rewrite ends_app. cbn [ends]. now rewrite Ht.
Qed.
Lemma Q_flat {A} (f : A -> list tok) l : (forall x, In x l -> Q (f x)) -> Q (flat_map f l).
Proof. induction l as [|x l IH]; intros H; [apply Q_nil|]. cbn [flat_map]. apply Q_app; [apply H; now left|]. apply IH. intros y Hy. apply H. now right. Qed.
Ltac q := now split.

Section Spaced.
Variable long_sort : list addr -> list addr.
Variable same_opts : opts -> opts -> bool.
Variable force : bool.
Variable syn : syntax.
Variable pkg : bytes.

Lemma int_R z : R (int_toks z).
Proof. unfold R, int_toks. now destruct (z <? 0)%Z. Qed.
Lemma float_R m e : R (float_toks m e).
Proof. unfold R, float_toks. now destruct (m <? 0)%Z. Qed.
Lemma key_Q scope k : Q (print_key force pkg scope k).
Proof. destruct k; q. Qed.
Fixpoint value_R scope v : R (print_value force pkg scope v).
Proof.
  destruct v as [z|m e|n| |s|s|b|n|fs|vs]; cbn [print_value].
  - apply int_R.
  - apply float_R.
  - now destruct n.
  - reflexivity.
  - reflexivity.
  - reflexivity.
  - now destruct b.
  - reflexivity.
  - apply (Q_R ([P "{"] ++ _)). apply Q_app; [q|]. apply R_cut; [|easy|q].
    induction fs as [|[k x] fs IH]; [reflexivity|]. destruct fs as [|kx fs].
    + apply QR_app; [apply key_Q|apply value_R].
    + apply QR_app; [apply key_Q|]. change ([P ","] ++ ?r) with (P "," :: r). unfold R. rewrite spaced_app, (value_R scope x). cbn [app spaced wordy andb negb]. rewrite andb_false_r. exact IH.
  - apply (Q_R ([P "["] ++ _)). apply Q_app; [q|]. apply R_cut; [|easy|q].
    induction vs as [|x vs IH]; [reflexivity|]. destruct vs as [|y vs]; [apply value_R|].
    unfold R. rewrite spaced_app, (value_R scope x). cbn [app spaced wordy andb negb]. rewrite andb_false_r. exact IH.
Qed.
Lemma oname_R im scope o : R (print_oname force pkg im scope o).
Proof. now destruct o. Qed.
Lemma option_R im scope ov : R (print_option force pkg im scope ov).
Proof. unfold print_option. unfold R. rewrite spaced_app, oname_R. cbn [app spaced wordy andb negb]. rewrite andb_false_r. apply value_R. Qed.
Lemma long_Q im scope l : Q (print_long force pkg im scope l).
Proof. apply Q_flat. intros ov _. cbn [app]. apply (Q_app [_; _]); [q|]. apply R_cut; [apply option_R|easy|q]. Qed.
Lemma sep_R {A} (f : A -> list tok) l : (forall x, R (f x)) -> R (sep [P ","; B] f l).
Proof.
  intros H. induction l as [|x l IH]; [reflexivity|]. destruct l as [|y l]; [apply H|].
  change (sep [P ","; B] f (x :: y :: l)) with (f x ++ [P ","; B] ++ sep [P ","; B] f (y :: l)). unfold R. rewrite spaced_app, (H x).
  cbn [app spaced wordy andb negb]. rewrite andb_false_r. exact IH.
Qed.
Lemma short_Q im scope os : Q (print_short long_sort force pkg im scope os).
Proof.
  unfold print_short. destruct os as [|g os]; [apply Q_nil|]. set (os' := g :: os). apply Q_app; [q|]. apply R_cut; [|easy|q]. apply sep_R. intros x. apply option_R.
Qed.
Lemma type_R scope nested k : R (type_toks force pkg scope nested k).
Proof.
  assert (HS : forall k, R (simple_type force pkg scope k)) by (now intros []).
  assert (HE : forall e n, R (entry_type force pkg scope e n)) by (intros e n; unfold entry_type; destruct (find _ _); [apply HS|reflexivity]).
  destruct k as [t|n|i|i]; cbn [type_toks]; [apply HS|apply HS|now destruct (nth_error nested i)|].
  destruct (nth_error nested i) as [e|]; [|reflexivity]. apply Q_R. apply Q_app; [q|]. change ([P ","; B] ++ ?r) with ([P ","; B] ++ r). cbn [app].
  apply (R_cut _ (P ",")); [apply HE|easy|]. apply (Q_app [B]); [q|]. apply R_cut; [apply HE|easy|q].
Qed.
Lemma field_Q scope nested bodies f : (forall i, Q (nth i bodies [])) -> Q (print_field long_sort force syn pkg scope nested bodies f).
Proof.
  intros HB. unfold print_field. apply Q_app.
  - destruct (emit_label syn f); [|apply Q_nil]. unfold label_toks. destruct (f_card f); [destruct (f_optkw f); q|q|q].
  - assert (HI : forall r, Q r -> Q (int_toks (f_num f) ++ [B] ++ print_short long_sort force pkg false (join scope (f_name f)) (field_opts syn f) ++ r)).
    { intros r Hr. apply (R_cut _ B); [apply int_R|easy|]. apply Q_app; [apply short_Q|exact Hr]. }
    pose proof (type_R scope nested (f_kind f)) as HT.
    destruct (f_kind f) as [t|n|i|i].
    1, 2, 4: cbn [app]; apply (R_cut _ B); [exact HT|easy|]; apply (Q_app [_; _; _; _]); [q|]; apply HI; q.
    cbn [app]. apply (Q_app [_; _]); [q|]. apply (R_cut _ B); [exact HT|easy|]. apply (Q_app [_; _]); [q|]. apply HI. apply (Q_app [_; _]); [q|]. apply Q_app; [apply HB|q].
Qed.
Lemma range_Q r : Q (range_toks r).
Proof.
  destruct r as [a|a b|a]; cbn [range_toks].
  - apply R_cut; [apply int_R|easy|q].
  - cbn [app]. apply (R_cut _ B); [apply int_R|easy|]. apply (Q_app [_; _]); [q|]. apply R_cut; [apply int_R|easy|q].
  - apply R_cut; [apply int_R|easy|q].
Qed.
Lemma ranges_Q max rs : Q (print_ranges max rs).
Proof. unfold print_ranges. apply Q_app; [q|]. apply R_cut; [|easy|q]. apply sep_R. intros r. apply Q_R, range_Q. Qed.
Lemma names_Q ns : Q (print_names ns).
Proof. unfold print_names. apply Q_app; [q|]. apply R_cut; [|easy|q]. now apply sep_R. Qed.
Lemma sep_Q {A} (f : A -> list tok) l : (forall x, Q (f x)) -> Q (sep [P ","; B] f l).
Proof.
  intros H. induction l as [|x l IH]; [apply Q_nil|]. destruct l as [|y l]; [apply H|].
  change (sep [P ","; B] f (x :: y :: l)) with (f x ++ [P ","; B] ++ sep [P ","; B] f (y :: l)). apply Q_app; [apply H|]. apply Q_app; [q|exact IH].
Qed.
Lemma xranges_Q scope max xs : Q (print_xranges long_sort force pkg scope max xs).
Proof.
  unfold print_xranges. apply Q_app; [q|]. apply Q_app; [apply sep_Q; intros x; apply range_Q|]. apply Q_app; [apply short_Q|q].
Qed.
Lemma evalue_Q scope v : Q (print_evalue long_sort force pkg scope v).
Proof. unfold print_evalue. apply Q_app; [q|]. cbn [app]. apply (R_cut _ B); [apply int_R|easy|]. apply Q_app; [apply short_Q|q]. Qed.
Lemma enum_loop_Q outer scope e l : forall sk, Q (enum_loop long_sort force pkg outer scope e l sk).
Proof.
  induction l as [|a l IH]; intros sk; [apply Q_nil|]. cbn [enum_loop]. destruct (a_tag a); try apply IH.
  - apply Q_app; [apply long_Q|apply IH].
  - destruct (nth_error (en_ranges e) (a_index a)); [|apply Q_nil]. destruct (skipped _ sk); [apply IH|]. apply Q_app; [apply ranges_Q|apply IH].
  - destruct (nth_error (en_names e) (a_index a)); [|apply Q_nil]. destruct (skipped _ sk); [apply IH|]. apply Q_app; [apply names_Q|apply IH].
  - apply Q_app; [|apply IH]. destruct (nth_error (en_values e) (a_index a)); [apply evalue_Q|apply Q_nil].
Qed.
Lemma enum_Q scope e : Q (print_enum long_sort force pkg scope e).
Proof. unfold print_enum. apply Q_app; [q|]. apply Q_app; [apply enum_loop_Q|q]. Qed.
Lemma oneof_Q scope fs nested bodies o oo l : (forall i, Q (nth i bodies [])) -> Q (print_oneof long_sort force syn pkg scope fs nested bodies o oo l).
Proof.
  intros HB. unfold print_oneof. apply Q_app; [q|]. apply Q_app; [|q]. apply Q_flat. intros a _. unfold oneof_element. destruct (a_tag a); try apply Q_nil; [apply long_Q|].
  destruct (nth_error fs (a_index a)); [now apply field_Q|apply Q_nil].
Qed.
Lemma extend_Q scope xs nested bodies x l : (forall i, Q (nth i bodies [])) -> Q (print_extend long_sort force syn pkg scope xs nested bodies x l).
Proof. intros HB. unfold print_extend. apply Q_app; [q|]. apply Q_app; [|q]. apply Q_flat. intros f _. now apply field_Q. Qed.
Lemma message_Q bodies i m : (forall i, Q (nth i bodies [])) -> Q (print_message bodies i m).
Proof. intros HB. unfold print_message. apply Q_app; [q|]. apply Q_app; [apply HB|q]. Qed.
Lemma loop_Q scope c l : (forall i, Q (nth i (c_bodies c) [])) -> forall sk n, Q (message_loop long_sort same_opts force syn pkg scope c l sk n).
Proof.
  intros HB. induction l as [|a l IH]; intros sk n; [apply Q_nil|]. cbn [message_loop]. destruct n as [|n]; [|apply IH]. destruct (key_in _ sk); [apply IH|].
  destruct (a_tag a); try apply IH.
  - apply Q_app; [apply long_Q|apply IH].
  - destruct (nth_error (c_fields c) (a_index a)) as [f|]; [|apply Q_nil]. destruct (match f_oneof f with Some o => option_map (pair o) (nth_error (c_oneofs c) o) | None => None end) as [[o oo]|].
    + destruct (oo_synth oo); apply Q_app; try apply IH; [now apply field_Q|now apply oneof_Q].
    + apply Q_app; [now apply field_Q|apply IH].
  - apply Q_app; [|apply IH]. destruct (nth_error (c_nested c) (a_index a)); [now apply message_Q|apply Q_nil].
  - apply Q_app; [|apply IH]. destruct (nth_error (c_enums c) (a_index a)); [apply enum_Q|apply Q_nil].
  - destruct (nth_error (c_xranges c) (a_index a)); [|apply Q_nil]. apply Q_app; [apply xranges_Q|apply IH].
  - destruct (nth_error (c_exts c) (a_index a)) as [f|]; [|apply Q_nil]. apply Q_app; [now apply extend_Q|apply IH].
  - destruct (nth_error (c_ranges c) (a_index a)); [|apply Q_nil]. apply Q_app; [apply ranges_Q|apply IH].
  - destruct (nth_error (c_names c) (a_index a)); [|apply Q_nil]. apply Q_app; [apply names_Q|apply IH].
Qed.
Fixpoint body_Q scope m {struct m} : Q (print_body long_sort same_opts force syn pkg scope m).
Proof.
  destruct m as [n set os fs oos nested ens exts xrs rs ns]. cbn [print_body]. apply loop_Q. cbn [c_bodies].
  induction nested as [|m nested IH]; intros [|i]; try apply Q_nil; [apply body_Q|apply IH].
Qed.
Lemma rpc_type_Q b n : Q (rpc_type force pkg b n).
Proof. destruct b; q. Qed.
Lemma method_Q scope m : Q (print_method long_sort force pkg scope m).
Proof.
  unfold print_method. cbv zeta. change ([kw "rpc"; B; W (me_name m)] ++ ?r) with ([kw "rpc"; B; W (me_name m)] ++ r).
  assert (HR : forall b n r, Q r -> Q (rpc_type force pkg b n ++ r)) by (intros b n r Hr; apply Q_app; [apply rpc_type_Q|exact Hr]).
  unfold rpc_type at 1. rewrite <- (app_assoc [P "("]). apply (R_cut [kw "rpc"; B; W (me_name m)] (P "(")); [reflexivity|easy|].
  rewrite <- app_assoc. apply Q_app; [destruct (me_cs m); [q|apply Q_nil]|]. apply Q_app; [q|]. apply Q_app; [q|]. apply HR.
  destruct (me_opts m) as [|g os]; [q|]. set (os' := g :: os). apply Q_app; [q|]. apply Q_app; [|q]. apply Q_flat. intros a _. apply long_Q.
Qed.
Lemma service_Q scope s : Q (print_service long_sort force pkg scope s).
Proof.
  unfold print_service. apply Q_app; [q|]. apply Q_app; [|q]. apply Q_flat. intros a _. unfold service_element. destruct (a_tag a); try apply Q_nil; [apply long_Q|].
  destruct (nth_error (se_methods s) (a_index a)); [apply method_Q|apply Q_nil].
Qed.
Lemma import_Q is_ p : Q (print_import is_ p).
Proof. unfold print_import. apply Q_app; [q|]. apply Q_app; [|q]. destruct (find _ is_) as [[? []]|]; q. Qed.
Lemma file_loop_Q f bodies l : (forall i, Q (nth i bodies [])) -> forall sk, Q (file_loop long_sort force syn pkg f bodies l sk).
Proof.
  intros HB. induction l as [|a l IH]; intros sk; [apply Q_nil|]. cbn [file_loop]. destruct (key_in _ sk); [apply IH|]. destruct (a_tag a); try apply IH.
  - apply Q_app; [|apply IH]. destruct (nth_error (fd_imports f) (a_index a)); [apply import_Q|apply Q_nil].
  - apply Q_app; [apply long_Q|apply IH].
  - apply Q_app; [|apply IH]. destruct (nth_error (fd_messages f) (a_index a)); [now apply message_Q|apply Q_nil].
  - apply Q_app; [|apply IH]. destruct (nth_error (fd_enums f) (a_index a)); [apply enum_Q|apply Q_nil].
  - apply Q_app; [|apply IH]. destruct (nth_error (fd_services f) (a_index a)); [apply service_Q|apply Q_nil].
  - destruct (nth_error (fd_exts f) (a_index a)); [|apply Q_nil]. apply Q_app; [now apply extend_Q|apply IH].
Qed.
End Spaced.
Lemma file_apart long_sort same_opts force f : apart (print_file long_sort same_opts force f).
Proof.
  apply spaced_apart. apply Q_R. unfold print_file. apply Q_app; [q|]. apply file_loop_Q. generalize (fd_messages f).
  induction l as [|m l IH]; intros [|i]; try apply Q_nil; [apply body_Q|apply IH].
Qed.
