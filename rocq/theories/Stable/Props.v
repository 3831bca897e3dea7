(* C146: formatting a formatted file.  The tree of a text is any tree whose tokens and white space make
   up the text (reads), and the tree of a formatted text has the declarations of the tree it was written
   from (relaid). *)
From Coq Require Import List Arith Bool Lia Ascii String.
From Verif Require Import Base Strs.
From Verif.Format Require Import Model Spec.
From Verif.FormatTree Require Import Model Spec Samples.
From Verif.Stable Require Import Spec Proofs Samples.
Import ListNotations.
Open Scope list_scope.

(* Formatting a formatted file puts every word on the line where it is.
   Missing: files with comments, with message or list literals, with several literals for the value of a
   compact option, with declarations that are out of order, and with several empty lines at the start. *)
Theorem C146_same_lines_partial dec isort osort f g :
  canonical f -> sorted isort osort f -> sorted isort osort g -> no_blank_start f ->
  relaid f g -> reads (out (format dec isort osort f)) g ->
  same_lines (map t_text (file_toks f)) (out (format dec isort osort f)) (out (format dec isort osort g)).
Proof. intros C Sf Sg B R D. destruct (second dec isort osort f g C Sf Sg B R D) as (n & S1 & S2). exists (map Sim.newl (file_toks g)), n, n. split; assumption. Qed.
(* The third formatting changes nothing, nor does any later one.  Missing: as above. *)
Theorem C146_third_partial dec isort osort f g h :
  canonical f -> sorted isort osort f -> sorted isort osort g -> sorted isort osort h -> no_blank_start f ->
  relaid f g -> reads (out (format dec isort osort f)) g -> relaid g h -> reads (out (format dec isort osort g)) h ->
  out (format dec isort osort h) = out (format dec isort osort g).
Proof. apply third. Qed.
(* When formatting has moved no word to another line, formatting again changes nothing.  Missing: as
   above, but the file may start with empty lines. *)
Theorem C146_settled_partial dec isort osort text f g :
  canonical f -> sorted isort osort f -> sorted isort osort g -> reads text f ->
  relaid f g -> reads (out (format dec isort osort f)) g ->
  same_lines (map t_text (file_toks f)) text (out (format dec isort osort f)) ->
  out (format dec isort osort g) = out (format dec isort osort f).
Proof. apply settled. Qed.

Ltac canon :=
  lazymatch goal with
  | |- _ /\ _ => split; canon
  | |- True => exact I
  | |- _ = _ => first [reflexivity|vm_compute; reflexivity]
  | |- exists _, _ => eexists; canon
  | |- ~ In _ _ => let H := fresh in intro H; vm_compute in H; repeat destruct H as [H|H]; discriminate || exact H
  | |- _ <> _ => discriminate
  | |- _ -> False => let H := fresh in intro H; discriminate H
  | |- _ <= _ => cbn; lia
  | |- Forall ?P ?l => let l' := eval hnf in l in change (Forall P l'); constructor; canon
  | |- ?g => let h := eval hnf in g in change h; canon
  end.
Ltac readw := split; [eexists [nl]; split; reflexivity|split; [vm_compute; repeat constructor|vm_compute; reflexivity]].

(* Columns are aligned only among fields on one line each, and whether a field is on one line is decided
   in the source: a field that formatting has joined to one line is aligned the next time. *)
Theorem C146_joined_refuted : exists text f g, reads text f /\ canonical f /\ no_blank_start f /\
  relaid f g /\ reads (out (format exact_dec (fun l => l) (fun l => l) f)) g /\
  out (format exact_dec (fun l => l) (fun l => l) g) <> out (format exact_dec (fun l => l) (fun l => l) f).
Proof.
  exists lines0_text, lines0, lines1. split; [readw|]. split; [unfold canonical, lines0; canon|]. split; [vm_compute; repeat constructor|]. split; [reflexivity|]. split; [readw|vm_compute; discriminate].
Qed.
(* Fields are aligned together when the second starts on the line where the first ends, which formatting
   changes when the options of the first are over several lines. *)
Theorem C146_options_refuted : exists text f g, reads text f /\ canonical f /\ no_blank_start f /\
  relaid f g /\ reads (out (format exact_dec (fun l => l) (fun l => l) f)) g /\
  out (format exact_dec (fun l => l) (fun l => l) g) <> out (format exact_dec (fun l => l) (fun l => l) f).
Proof.
  exists opts0_text, opts0, opts1. split; [readw|]. split; [unfold canonical, opts0; canon|]. split; [vm_compute; repeat constructor|]. split; [reflexivity|]. split; [readw|vm_compute; discriminate].
Qed.
Theorem C146_map_refuted : exists text f g, reads text f /\ canonical f /\ no_blank_start f /\
  relaid f g /\ reads (out (format exact_dec (fun l => l) (fun l => l) f)) g /\
  out (format exact_dec (fun l => l) (fun l => l) g) <> out (format exact_dec (fun l => l) (fun l => l) f).
Proof.
  exists maps0_text, maps0, maps1. split; [readw|]. split; [unfold canonical, maps0; canon|]. split; [vm_compute; repeat constructor|]. split; [reflexivity|]. split; [readw|vm_compute; discriminate].
Qed.
(* Several empty lines at the start of a file become one, which the next formatting removes: the words
   are on other lines. *)
Theorem C146_start_refuted : exists text f g, reads text f /\ canonical f /\
  relaid f g /\ reads (out (format exact_dec (fun l => l) (fun l => l) f)) g /\
  out (format exact_dec (fun l => l) (fun l => l) g) <> out (format exact_dec (fun l => l) (fun l => l) f) /\
  ~ same_lines (map t_text (file_toks f)) (out (format exact_dec (fun l => l) (fun l => l) f)) (out (format exact_dec (fun l => l) (fun l => l) g)).
Proof.
  exists head0_text, head0, head1. split; [readw|]. split; [unfold canonical, head0; canon|]. split; [reflexivity|]. split; [readw|]. split; [vm_compute; discriminate|].
  intros (hs & n & m & A & B). remember (out (format exact_dec (fun l => l) (fun l => l) head0)) as x eqn:X. remember (out (format exact_dec (fun l => l) (fun l => l) head1)) as y eqn:Y. vm_compute in X, Y.
  inversion A as [|w u x1 us hs1 n1 Bw Sw E1 E2 E3 E4]; subst. inversion B as [|w' u' x1' us' hs1' n1' Bw' Sw' E1' E2' E3' E4']; subst.
  assert (W : w' = []). { destruct w' as [|c w']; [reflexivity|]. injection E1' as E0 _. rewrite E0 in Bw'. discriminate Bw'. }
  subst w'. destruct w as [|c w]; [cbn in E1; discriminate E1|]. injection E1 as E0 _. subst c.
  match goal with H : _ = newlines (_ :: _) |- _ => discriminate H | H : newlines (_ :: _) = _ |- _ => discriminate H end.
Qed.

(* The hypotheses hold of a file with most of the grammar that is not formatted. *)
Example C146_case : reads neat0_text neat0 /\ canonical neat0 /\ no_blank_start neat0 /\ sorted (fun l => l) (fun l => l) neat0 /\
  relaid neat0 neat1 /\ out (format exact_dec (fun l => l) (fun l => l) neat0) = neat1_text /\ reads neat1_text neat1 /\
  out (format exact_dec (fun l => l) (fun l => l) neat1) = neat1_text /\ neat0_text <> neat1_text.
Proof.
  split; [readw|]. split; [unfold canonical, neat0; canon|]. split; [vm_compute; repeat constructor|]. split; [split; reflexivity|]. split; [reflexivity|]. split; [vm_compute; reflexivity|].
  split; [readw|]. split; [vm_compute; reflexivity|vm_compute; discriminate].
Qed.
(* Where the second formatting changes something, the third does not. *)
Example C146_third_case : reads (out (format exact_dec (fun l => l) (fun l => l) lines1)) lines2 /\ relaid lines1 lines2 /\
  reads (out (format exact_dec (fun l => l) (fun l => l) opts1)) opts2 /\ relaid opts1 opts2 /\
  reads (out (format exact_dec (fun l => l) (fun l => l) maps1)) maps2 /\ relaid maps1 maps2 /\
  out (format exact_dec (fun l => l) (fun l => l) lines1) <> lines1_text.
Proof. split; [readw|]. split; [reflexivity|]. split; [readw|]. split; [reflexivity|]. split; [readw|]. split; [reflexivity|vm_compute; discriminate]. Qed.
Example C146_settled_case : reads neat1_text neat1 /\ canonical neat1 /\ out (format exact_dec (fun l => l) (fun l => l) neat1) = neat1_text /\
  exists hs n, splits neat1_text (map t_text (file_toks neat1)) hs n.
Proof.
  assert (R : reads neat1_text neat1) by readw. split; [exact R|]. split; [unfold canonical, neat1; canon|]. split; [vm_compute; reflexivity|]. destruct (reads_splits _ _ R) as [n S]. eauto.
Qed.
Print Assumptions C146_same_lines_partial.
Print Assumptions C146_third_partial.
Print Assumptions C146_settled_partial.
Print Assumptions C146_joined_refuted.
Print Assumptions C146_options_refuted.
Print Assumptions C146_map_refuted.
Print Assumptions C146_start_refuted.
