(** Property theorems for the use of the tables of paths (C173) and of the results (C174). *)
From Coq Require Import Lia.
From Verif Require Import Base.
From Verif.Races Require Import Model Spec Proofs.
Open Scope list_scope.

(** However many programs run, and however they take turns, no table is written while it is used, if every use is
    covered by the lock. *)
Theorem C173_guarded : forall l ps s, (forall p, In p ps -> guarded l [] None p) -> reach (init ps) s -> ~ racing s.
Proof.
  intros l ps s G H. destruct (reach_keeps l _ _ H) as [A K]; [|now apply (no_race l)]. split.
  - intros i j a b x y _ Ea _ Ix. destruct (init_nth _ _ _ Ea) as (p & _ & ->). destruct Ix.
  - intros i t E. destruct (init_nth _ _ _ E) as (p & I & ->). now apply G.
Qed.
(** So requests other than those that generate code can run together.  Missing: those, see below. *)
Theorem C173_requests_partial : forall rs s, (forall r, In r rs -> ~ generates r) -> reach (init (map program rs)) s -> ~ racing s.
Proof.
  intros rs s N. apply (C173_guarded Paths). intros p I. apply in_map_iff in I. destruct I as (r & <- & I). specialize (N r I). apply piece_guarded.
  destruct r as [before n between compiling|cs|cs|cs|n cs]; cbn [program]; [|apply locked_piece, calls_piece|apply calls_piece|destruct N; exact Coq.Init.Logic.I|destruct N; exact Coq.Init.Logic.I].
  repeat apply piece_app; auto using calls_piece, update_piece, locked_piece.
Qed.
(** Requests that generate code can run together with those that write no table at all, *)
Theorem C173_generate_alone : forall ps s, (forall p, In p ps -> ~ In (Begin W) p) -> reach (init ps) s -> ~ racing s.
Proof.
  intros ps s N H. assert (K : forall i t, nth_error s i = Some t -> ~ In (Begin W) (prog t) /\ busy t <> Some W).
  { remember (init ps) as s0 eqn:E0. induction H as [s|s t u i H IH S]; subst.
    - intros i t E. destruct (init_nth _ _ _ E) as (p & I & ->). split; [now apply N|discriminate].
    - specialize (IH eq_refl). unfold step in S. destruct (nth_error t i) as [[[|[x|x|m|] p] h b]|] eqn:E; try discriminate;
        [destruct (free x t); [|discriminate]| | |]; injection S as <-; intros j v Ej; assert (L : i < List.length t) by (apply nth_error_Some; congruence);
        (destruct (Nat.eq_dec i j) as [<-|D]; [rewrite (set_same i _ _ t E) in Ej; injection Ej as <-; destruct (IH i _ E) as [P B]; cbn in *; split|rewrite set_other in Ej by auto; exact (IH j v Ej)]); intuition congruence. }
  intros (i & j & a & b & m & _ & Ea & _ & Ba & _). now destruct (K i a Ea).
Qed.
(** but not with editing: generating code reads the tables under another lock, and the edit of a document writes them in
    between, at which the Go runtime ends the server. *)
Theorem C173_generate_refuted : exists g e s, generates g /\ edits e /\ reach (init [program g; program e]) s /\ racing s.
Proof.
  exists (Generate []), (Edit [] 1 [] []). eexists. split; [exact I|]. split; [exact I|]. split; [eapply (run_reach [0; 0; 1; 1; 1; 1]); [constructor|reflexivity]|].
  exists 1, 0. do 2 eexists. exists R. repeat split; try reflexivity. discriminate.
Qed.
(** This is so for every request that generates code, whatever else it does, and every change of the tables. *)
Theorem C173_every_generate_refuted : forall cs n m between compiling, (exists s, reach (init [program (Generate cs); program (Edit [] (S n) between compiling)]) s /\ racing s) /\
  exists s, reach (init [program (GenerateWorkspace (S m) cs); program (Edit [] (S n) between compiling)]) s /\ racing s.
Proof.
  intros cs n m between compiling. split; (eexists; split; [eapply (run_reach [0; 0; 1; 1; 1; 1]); [constructor|reflexivity]|]);
    (exists 1, 0; do 2 eexists; exists R; repeat split; try reflexivity; discriminate).
Qed.
(** an edit and a request for links, which also fills the tables *)
Example C173_case : exists s, reach (init (map program [Edit [Lookup] 2 [] [Find 1]; Query [Find 1; Lookup]])) s /\ (exists a b, s = [a; b] /\ busy a = Some W /\ held b = [(Results, R)]) /\ ~ racing s.
Proof.
  eexists. split; [eapply (run_reach [1; 0; 0; 0; 0; 0; 0; 0; 0]); [constructor|reflexivity]|]. split; [do 2 eexists; split; [reflexivity|]; split; reflexivity|].
  apply (C173_requests_partial [Edit [Lookup] 2 [] [Find 1]; Query [Find 1; Lookup]]); [intros r [<-|[<-|[]]] []|]. eapply (run_reach [1; 0; 0; 0; 0; 0; 0; 0; 0]); [constructor|reflexivity].
Qed.
Example C173_alone_case : forall p, In p (map program [Generate [Lookup]; GenerateWorkspace 2 []; Query [Lookup]]) -> ~ In (Begin W) p.
Proof. intros p [<-|[<-|[<-|[]]]] I; cbn in I; repeat destruct I as [I|I]; try discriminate; destruct I. Qed.

(** The results are not replaced while another request reads them, however many requests run.  Missing: completion in the
    name of a package, see below. *)
Theorem C174_requests_partial : forall rs s, (forall r, In r rs -> ~ names_packages r) -> reach (init (map results_program rs)) s -> ~ racing s.
Proof.
  intros rs s N. apply (C173_guarded Results). intros p I. apply in_map_iff in I. destruct I as (r & <- & I). specialize (N r I). apply piece_guarded.
  destruct r as [n|ns|ns n]; cbn [results_program]; [apply write_piece|apply looks_piece|destruct N; exact Coq.Init.Logic.I].
Qed.
Example C174_case : exists s, reach (init (map results_program [Compile 1; Reads [1; 2]])) s /\ (exists a b, s = [a; b] /\ busy a = Some W /\ held b = []) /\ ~ racing s.
Proof.
  eexists. split; [eapply (run_reach [1; 1; 1; 1; 0; 0; 0; 0]); [constructor|reflexivity]|]. split; [do 2 eexists; split; [reflexivity|]; split; reflexivity|].
  apply (C174_requests_partial [Compile 1; Reads [1; 2]]); [intros r [<-|[<-|[]]] []|]. eapply (run_reach [1; 1; 1; 1; 0; 0; 0; 0]); [constructor|reflexivity].
Qed.
(** Completion in the name of a package goes through the results without the lock. *)
Theorem C174_packages_refuted : forall n m, exists s, reach (init [results_program (PackageNames [] (S n)); results_program (Compile (S m))]) s /\ racing s.
Proof.
  intros n m. eexists. split; [eapply (run_reach [0; 1; 1; 1; 1]); [constructor|reflexivity]|]. exists 1, 0. do 2 eexists. exists R. repeat split; try reflexivity. discriminate.
Qed.

Print Assumptions C174_requests_partial.
Print Assumptions C174_packages_refuted.
Print Assumptions C173_guarded.
Print Assumptions C173_requests_partial.
Print Assumptions C173_generate_alone.
Print Assumptions C173_generate_refuted.
Print Assumptions C173_every_generate_refuted.
