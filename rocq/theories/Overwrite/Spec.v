(** Crash safety of replacing a file's contents. *)
From Verif Require Import Base.
From Verif.Overwrite Require Import Model.

(** A complete copy of [orig] exists under a name that was unused before. *)
Definition backed_up (s0 s : fs) (f : name) (orig : bytes) : Prop :=
  exists b, b <> f /\ s0 b = None /\ s b = Some orig.

(** After a crash in state [s], nothing is lost: the file has the old contents
    or the new contents, or there is a complete backup. *)
Definition recoverable (s0 s : fs) (f : name) (orig new : bytes) : Prop :=
  s f = Some orig \/ s f = Some new \/ backed_up s0 s f orig.

(** Files that existed before, other than [f], are never touched. *)
Definition others_untouched (s0 s : fs) (f : name) : Prop :=
  forall n c, n <> f -> s0 n = Some c -> s n = Some c.

(** At most one new file exists. *)
Definition one_new_file (s0 s : fs) (f : name) : Prop :=
  forall n1 n2, n1 <> f -> n2 <> f -> s0 n1 = None -> s0 n2 = None ->
    s n1 <> None -> s n2 <> None -> n1 = n2.

Definition no_new_file (s0 s : fs) (f : name) : Prop :=
  forall n, n <> f -> s0 n = None -> s n = None.
