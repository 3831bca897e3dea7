(** Model of pkg/util/gofmt_helpers.go (OverwriteFile, backupFile).

    A run produces the list of all file-system states it goes through, so that
    a crash of the process is: stop at any state of that list. The operating
    system's behaviour (what each call returns, how many bytes a failing write
    transferred) is an arbitrary [io] record. A write is not atomic: every
    intermediate number of bytes is a state. Truncate, create and remove are
    atomic. Loss of the page cache (power failure) is not modelled: the code
    never calls fsync. The descriptor semaphore fdSem (lines 29, 39, 110) does
    not affect the contents and is left out. *)
From Coq Require Import Ascii String.
From Verif Require Import Base.
Open Scope list_scope.

Definition bytes := list ascii.
Definition name := list ascii.
Definition name_eqb (a b : name) : bool :=
  if list_eq_dec ascii_dec a b then true else false.

(** The directory: contents of each regular file. *)
Definition fs := name -> option bytes.
Definition set (s : fs) (n : name) (c : option bytes) : fs :=
  fun n' => if name_eqb n' n then c else s n'.

(** What the operating system answers. *)
Record io := mkIo {
  randoms : list name;      (* successive results of nextRandom, line 114 *)
  bopen_err : bool;         (* line 125: error other than "exists" *)
  bwrite_n : nat;           (* line 135: bytes transferred ... *)
  bwrite_err : bool;        (* ... and error *)
  bclose_err : bool;        (* line 136 *)
  open_err : bool;          (* line 42 *)
  write_n : nat;            (* line 55 *)
  write_err : bool;
  trunc_err : bool;         (* line 57 *)
  rwrite_n : nat;           (* line 71: restore *)
  rwrite_err : bool;
  rtrunc_err : bool;        (* line 80 *)
  rclose_err : bool;        (* line 86 *)
  close_err : bool;         (* line 96 *)
  remove_err : bool         (* lines 46, 65, 92, 102: result ignored *)
}.

(** Bytes actually transferred by a write of [data]: all of them if it reports
    no error (contract of os.File.Write), at most all of them otherwise. *)
Definition xfer (n : nat) (err : bool) (data : bytes) : nat :=
  if err then Nat.min n (length data) else length data.

(** Contents after writing [d] at offset 0 of a file holding [c]. *)
Definition overlay (c d : bytes) : bytes := d ++ skipn (length d) c.

(** The states during a write of the first [k] bytes of [data] at offset 0. *)
Definition write_states (s : fs) (f : name) (c data : bytes) (k : nat) : list fs :=
  map (fun i => set s f (Some (overlay c (firstn i data)))) (seq 1 k).

Definition content (s : fs) (f : name) : bytes :=
  match s f with Some c => c | None => [] end.

(** Outcome of a run. *)
Inductive res := ROk | RErr | RDiverge.

Definition trace := list fs.

(** Last state of a non-empty trace starting at [s]. *)
Definition final (s : fs) (t : trace) : fs := last t s.

(** os.Remove *)
Definition remove (o : io) (s : fs) (f : name) : trace :=
  if remove_err o then [] else [set s f None].

(** gofmt_helpers.go:117-132: choose a name that does not exist. The name is
    filename + "." + random digits (filepath.Join(dir, base+...); filename is
    assumed to be a clean path). None: still looping when the list of random
    numbers given to the model is exhausted. *)
Fixpoint pick (s : fs) (f : name) (rs : list name) : option name :=
  match rs with
  | [] => None
  | r :: rs' =>
      let b := f ++ "."%char :: r in
      match s b with
      | None => Some b
      | Some _ => pick s f rs'
      end
  end.

(** gofmt_helpers.go:109-141. Result: states, backup name and error flag. *)
Definition backup_file (o : io) (s : fs) (f : name) (data : bytes) :
  trace * option (name * bool) :=
  match pick s f (randoms o) with
  | None => ([], None)
  | Some b =>
      if bopen_err o then ([], Some (b, true))
      else
        let s1 := set s b (Some []) in
        let k := xfer (bwrite_n o) (bwrite_err o) data in
        (s1 :: write_states s1 b [] data k,
         Some (b, (bwrite_err o || bclose_err o)%bool))
  end.

(** gofmt_helpers.go:32-104. [orig], [formatted] and [size] are the arguments;
    the open file is addressed by its name (no concurrent renames). *)
Definition overwrite_file (o : io) (s0 : fs) (f : name)
           (orig formatted : bytes) (size : nat) : trace * res :=
  match backup_file o s0 f orig with
  | (t, None) => (t, RDiverge)
  | (t, Some (b, true)) => (t, RErr)                              (* 35-37 *)
  | (t1, Some (b, false)) =>
      let s1 := final s0 t1 in
      if open_err o then (t1 ++ remove o s1 b, RErr)              (* 43-48 *)
      else
        let n := xfer (write_n o) (write_err o) formatted in
        let t2 := write_states s1 f (content s1 f) formatted n in (* 55 *)
        let s2 := final s1 t2 in
        (* 56-58 *)
        let dotrunc := (negb (write_err o) && Nat.ltb n size)%bool in
        let t3 := if (dotrunc && negb (trunc_err o))%bool
                  then [set s2 f (Some (firstn n (content s2 f)))] else [] in
        let s3 := final s2 t3 in
        let err := (write_err o || (dotrunc && trunc_err o))%bool in
        let t := t1 ++ t2 ++ t3 in
        if err then
          if Nat.eqb n 0 then (t ++ remove o s3 b, RErr)          (* 63-67 *)
          else
            let no := xfer (rwrite_n o) (rwrite_err o) orig in
            let t4 := write_states s3 f (content s3 f) orig no in (* 71 *)
            let s4 := final s3 t4 in
            if rwrite_err o then (t ++ t4, RErr)                  (* 72-76 *)
            else
              let rt := Nat.ltb no n in
              if (rt && rtrunc_err o)%bool then (t ++ t4, RErr)   (* 80-83 *)
              else
                let t5 := if rt then [set s4 f (Some (firstn no (content s4 f)))] else [] in
                let s5 := final s4 t5 in
                if rclose_err o then (t ++ t4 ++ t5, RErr)        (* 86-89 *)
                else (t ++ t4 ++ t5 ++ remove o s5 b, RErr)       (* 92-93 *)
        else if close_err o then (t, RErr)                        (* 96-99 *)
        else (t ++ remove o s3 b, ROk)                            (* 102-103 *)
  end.
