(** When the Go runtime stops a program for its use of a map, and what keeps it from that. *)
From Verif Require Import Base.
From Verif.Races Require Import Model.
Open Scope list_scope.

(** a table is written by one request while another one reads or writes it *)
Definition racing (ts : list thread) : Prop :=
  exists i j a b m, i <> j /\ nth_error ts i = Some a /\ nth_error ts j = Some b /\ busy a = Some W /\ busy b = Some m.
(** the lock [l] is held for the use: for writing by one who writes *)
Definition covers (l : lock) (h : list (lock * mode)) (b : option mode) : Prop :=
  match b with None => True | Some R => In (l, R) h \/ In (l, W) h | Some W => In (l, W) h end.
(** a program whose uses are all covered, when it holds [h] *)
Fixpoint guarded (l : lock) (h : list (lock * mode)) (b : option mode) (p : list action) : Prop :=
  covers l h b /\
  match p with
  | [] => True
  | Acq x :: p => guarded l (x :: h) b p
  | Rel x :: p => guarded l (release x h) b p
  | Begin m :: p => guarded l h (Some m) p
  | End :: p => guarded l h None p
  end.
Definition names_packages (r : results_request) : Prop := match r with PackageNames _ _ => True | _ => False end.
Definition generates (r : request) : Prop := match r with Generate _ | GenerateWorkspace _ _ => True | _ => False end.
Definition edits (r : request) : Prop := match r with Edit _ (S _) _ _ => True | _ => False end.
