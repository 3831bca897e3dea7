(** Property theorems for replacing a file's contents (C16, C17). *)
From Coq Require Import Ascii String.
From Verif Require Import Base.
From Verif.Overwrite Require Import Model Spec Proofs.
Open Scope list_scope.

(** C16: whatever the operating system answers and wherever the process dies,
    the original contents are recoverable, files that existed before are not
    touched, and there is at most one new file. Hypothesis: the caller passes
    the file's current contents and size. *)
Theorem C16_overwrite_crash_safe :
  forall o s0 f orig new s,
  s0 f = Some orig ->
  In s (s0 :: fst (overwrite_file o s0 f orig new (length orig))) ->
  recoverable s0 s f orig new /\ others_untouched s0 s f /\ one_new_file s0 s f.
Proof. exact crash_safe. Qed.

(** C17: success means the file holds the new contents (and no new file is left
    unless deleting the backup failed); *)
Theorem C17_overwrite_success :
  forall o s0 f orig new t,
  s0 f = Some orig ->
  overwrite_file o s0 f orig new (length orig) = (t, ROk) ->
  final s0 t f = Some new /\
  (remove_err o = false -> no_new_file s0 (final s0 t) f).
Proof. exact result_ok. Qed.

(** an error means the file is unchanged or there is a complete backup. *)
Theorem C17_overwrite_error :
  forall o s0 f orig new t,
  s0 f = Some orig ->
  overwrite_file o s0 f orig new (length orig) = (t, RErr) ->
  final s0 t f = Some orig \/ backed_up s0 (final s0 t) f orig.
Proof. exact result_err. Qed.

(** Examples: a run that fails half-way and restores, a run that succeeds, a
    run whose restore fails, all on a three-byte file. *)
Definition nm (s : string) : name := list_ascii_of_string s.
Definition fs0 : fs := set (set (fun _ => None) (nm "a.proto") (Some (nm "old")))
                           (nm "a.proto.1") (Some (nm "user file")).
Definition io_ok : io :=
  mkIo [nm "1"; nm "2"] false 0 false false false 0 false false 0 false false false false false.
Definition io_fail : io :=
  mkIo [nm "1"; nm "2"] false 0 false false false 2 true false 0 false false false false false.
Definition io_fail2 : io :=
  mkIo [nm "1"; nm "2"] false 0 false false false 2 true false 1 true false false false false.
Definition io_bak : io :=
  mkIo [nm "1"; nm "2"] false 1 true false false 0 false false 0 false false false false false.

Example ex_ok :
  let '(t, r) := overwrite_file io_ok fs0 (nm "a.proto") (nm "old") (nm "N") 3 in
  r = ROk /\ final fs0 t (nm "a.proto") = Some (nm "N") /\
  final fs0 t (nm "a.proto.1") = Some (nm "user file") /\
  final fs0 t (nm "a.proto.2") = None /\ length t = 7.
Proof. vm_compute. auto. Qed.

Example ex_restored :
  let '(t, r) := overwrite_file io_fail fs0 (nm "a.proto") (nm "old") (nm "brand new") 3 in
  r = RErr /\ final fs0 t (nm "a.proto") = Some (nm "old") /\
  final fs0 t (nm "a.proto.2") = None.
Proof. vm_compute. auto. Qed.

Example ex_backup_left :
  let '(t, r) := overwrite_file io_fail2 fs0 (nm "a.proto") (nm "old") (nm "brand new") 3 in
  r = RErr /\ final fs0 t (nm "a.proto") = Some (nm "ord") /\
  final fs0 t (nm "a.proto.2") = Some (nm "old").
Proof. vm_compute. auto. Qed.

(** Finding: if writing the backup itself fails, the incomplete backup file is
    left behind although the original is untouched. *)
Theorem C17_no_stray_file_on_error_refuted :
  exists o s0 f orig new t n,
  s0 f = Some orig /\
  overwrite_file o s0 f orig new (length orig) = (t, RErr) /\
  remove_err o = false /\
  n <> f /\ s0 n = None /\ final s0 t n = Some [hd "0"%char orig] /\
  final s0 t f = Some orig.
Proof.
  exists io_bak, fs0, (nm "a.proto"), (nm "old"), (nm "N").
  eexists. exists (nm "a.proto.2").
  split; [reflexivity|]. split; [vm_compute; reflexivity|].
  repeat split; try discriminate.
Qed.

Print Assumptions C16_overwrite_crash_safe.
Print Assumptions C17_overwrite_success.
Print Assumptions C17_overwrite_error.
Print Assumptions C17_no_stray_file_on_error_refuted.
