(** What the SDK's properties mean. *)
From Coq Require Import Ascii String.
From Verif Require Import Base Strs.
From Verif.Sdk Require Import Model.
Open Scope list_scope.

(** ** Import graphs *)
Definition paths (fs : list file) : list bytes := map f_path fs.

(** [p] imports [q] directly or indirectly, or is [q] *)
Inductive reaches (fs : list file) : bytes -> bytes -> Prop :=
| reach_refl p : reaches fs p p
| reach_step f p q : In f fs -> In p (f_imports f) -> reaches fs p q -> reaches fs (f_path f) q.

(** [p] is a proper predecessor of itself *)
Definition acyclic (fs : list file) : Prop :=
  forall f p, In f fs -> In p (f_imports f) -> ~ reaches fs p (f_path f).

(** every import of every file is in the set *)
Definition closed (fs : list file) : Prop :=
  forall f p, In f fs -> In p (f_imports f) -> In p (paths fs).

(** every file comes after all files it imports *)
Definition in_order (l : list file) : Prop :=
  forall l1 f l2 p, l = l1 ++ f :: l2 -> In p (f_imports f) -> In p (paths l1).

(** ** Directories *)
Definition below (ws f : list bytes) : Prop := exists r, f = ws ++ r.

(** ** Names *)
(** the name a file is known by at run time *)
Definition original (uri_of orig_of : bytes -> option bytes) (n o : bytes) : Prop :=
  (exists u, uri_of n = Some u /\ orig_of u = Some o) \/
  ((forall u, uri_of n = Some u -> orig_of u = None) /\ o = n).
Definition restored (uri_of orig_of : bytes -> option bytes) (f g : desc) : Prop :=
  original uri_of orig_of (name f) (name g) /\ Forall2 (original uri_of orig_of) (deps f) (deps g).

(** ** Go packages *)
(** the import path and the package name of a go_package option
    ("path;name", or "path" with the last component as name) *)
Definition import_path (g : bytes) : bytes := hd [] (split_on ";"%char g).
Definition go_name (g : bytes) : bytes :=
  match split_on ";"%char g with
  | _ :: n :: r => join_with ";"%char (n :: r)
  | _ => snd (cut_last_slash g)
  end.

Definition same_dir (a b : src) : Prop := path_dir (s_path a) = path_dir (s_path b).
(** the files of each directory agree *)
Definition consistent (fs : list src) : Prop :=
  forall a b, In a fs -> In b fs -> same_dir a b -> s_pkg a = s_pkg b /\
    forall g h, s_go a = Some g -> s_go b = Some h ->
      sanitize (path_dir (s_path a)) g = sanitize (path_dir (s_path a)) h.
(** what a file's Go package should be *)
Definition meant (fs : list src) (a : src) (g : bytes) : Prop :=
  (exists b h, In b fs /\ same_dir a b /\ s_go b = Some h /\ g = sanitize (path_dir (s_path a)) h) \/
  ((forall b, In b fs -> same_dir a b -> s_go b = None) /\ g = path_dir (s_path a)).
