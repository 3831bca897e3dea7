(** What code generation may touch, stated on documents and paths. *)
From Coq Require Import Ascii String.
From Verif Require Import Base Strs.
From Verif.Generate Require Import Model.
Open Scope list_scope.

(** a document that takes part in generation *)
Definition selected (d : doc) : Prop :=
  d_package d <> [] /\ d_nogen d = false.

(** the documents among those requested that the generators are run on *)
Definition participants (ds : list doc) : list doc :=
  filter (fun d => negb (beq (d_package d) []) && negb (d_nogen d))%bool ds.

(** [p] is the file called [name] directly inside directory [dir] *)
Definition file_in (dir name p : bytes) : Prop :=
  name <> [] /\ ~ In slash name /\
  p = (if beq dir [slash] then [] else dir) ++ slash :: name.

(** output [n] belongs to document [d]: its directory part is the directory of
    the document's import path or the import path in the document's go_package
    option *)
Definition belongs (n : bytes) (d : doc) : Prop :=
  path_dir n = path_dir (d_file_path d) \/
  exists g rest, d_go_package d = Some g /\ ~ In semi (path_dir n) /\
    (g = path_dir n \/ g = path_dir n ++ semi :: rest).

(** output [n] may be written to [p] *)
Definition placed (ds : list doc) (n p : bytes) : Prop :=
  exists d, In d ds /\ selected d /\ belongs n d /\
    file_in (path_dir (d_uri_path d)) (path_base n) p.

(** the requested documents have absolute paths and exist, so the directories
    that contain them, and their parents, are directories *)
Definition docs_exist (f : fs) (ds : list doc) : Prop :=
  forall d, In d ds ->
    (exists r, d_uri_path d = slash :: r) /\
    is_dir f (path_dir (d_uri_path d)) = true /\
    is_dir f (path_join (path_dir (d_uri_path d)) dot2) = true.
