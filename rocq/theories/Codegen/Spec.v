(** What the code generation properties mean. *)
From Coq Require Import Ascii String.
From Verif Require Import Base Strs Paths.
From Verif.Codegen Require Import Model.
Open Scope list_scope.

(** ** Messages *)
Definition lines (content : bytes) : list bytes := split_on nl content.
(** warnings and errors about needed code come with the source line *)
Definition with_context (d : diag) : Prop := sev d <= 2 /\ unnecessary d = false.
Definition single_line (d : diag) : Prop := line1 d = line2 d.
(** the shown parts make up the line [x] *)
Definition shows (m : message) (x : bytes) : Prop :=
  exists a b c, m_source m = Some (a, b, c) /\ a ++ b ++ c = x.
(** a message for a diagnostic *)
Definition about (d : diag) (m : message) : Prop :=
  m_sev m = sev d /\ m_line m = S (line1 d) /\ m_text m = text d.

(** ** Directories *)
(** each import directory is one directory on disk *)
Definition one_place (fs : list cfile) : Prop :=
  forall f g d e, In f fs -> In g fs -> c_disk f = Some d -> c_disk g = Some e ->
    path_dir (c_path f) = path_dir (c_path g) -> path_dir d = path_dir e.

(** ** Readers *)
(** reading to the end gives the content, for every choice of buffer sizes *)
Definition delivers (rd : nat -> bytes * bool) (content : bytes) : Prop :=
  forall sizes, (forall n, 0 < sizes n) -> exists fuel, read_all rd sizes fuel [] = Some content.

(** ** Plugins *)
(** A plugin that reads its whole input before it writes. *)
Inductive pstate := Collect (got : bytes) | Emit (rest : bytes).
Definition batch (f : bytes -> bytes) (p : pstate) : act pstate :=
  match p with
  | Collect got => ARead (fun o => match o with Some b => Collect (got ++ [b]) | None => Emit (f got) end)
  | Emit (b :: r) => AWrite b (Emit r)
  | Emit [] => AExit
  end.
(** A plugin that answers while it reads. *)
Inductive estate := Wait | Send (b : ascii) | Stop.
Definition echo (p : estate) : act estate :=
  match p with
  | Wait => ARead (fun o => match o with Some b => Send b | None => Stop end)
  | Send b => AWrite b Wait
  | Stop => AExit
  end.
Definition over {P} (s : sys P) : Prop := match h s with Finished _ | Failed => True | _ => False end.

(** ** Sources *)
Definition proto_name (n : bytes) : Prop := exists b, n = b ++ b_ ".proto".
Definition special (n : bytes) : Prop :=
  n = b_ "node_modules" \/ n = b_ "vendor" \/ exists r, n = b_ "_bazel_" ++ r.
(** The .proto files below [t], by their components, that are not in a
    directory with a special name. *)
Inductive source : bytes -> tree -> list bytes -> Prop :=
| source_file n : proto_name n -> source n File [n]
| source_dir n es m u p : ~ special n -> In (m, u) es -> source m u p -> source n (Dir es) (n :: p).
(** the file that keeps a directory out of the build *)
Definition mark : bytes := b_ "DO_NOT_BUILD_HERE".
(** ... and whose directories have no marker in front of them *)
Inductive visible : bytes -> tree -> list bytes -> Prop :=
| visible_file n : proto_name n -> visible n File [n]
| visible_dir n es1 m u es2 p : ~ special n -> ~ In (mark, File) es1 -> visible m u p ->
    visible n (Dir (es1 ++ (m, u) :: es2)) (n :: p).
(** no directory has a marker *)
Inductive unmarked : tree -> Prop :=
| unmarked_file : unmarked File
| unmarked_dir es : ~ In (mark, File) es -> (forall m u, In (m, u) es -> unmarked u) -> unmarked (Dir es).
(** names in a directory are distinct *)
Inductive distinct : tree -> Prop :=
| distinct_file : distinct File
| distinct_dir es : NoDup (map fst es) -> (forall m u, In (m, u) es -> distinct u) -> distinct (Dir es).
