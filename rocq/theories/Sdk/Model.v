(** Model of the SDK's compilation driver and plugin set-up:
    sdk/util/transform.go, sdk/driver/driver.go:188-247, sdk/plugin/protogen.go
    and pkg/lsp/externalapi.go:29-43. *)
From Coq Require Import Ascii String.
From Verif Require Import Base Strs.
Open Scope list_scope.

(** ** Topological sort, sdk/util/transform.go:9-35 *)

(** The part of a linker.Result the sort looks at: Path() and the paths of
    Imports(). *)
Record file := mkFile { f_path : bytes; f_imports : list bytes }.

(** transform.go:11-14: later results overwrite earlier ones with the same path *)
Definition index (results : list file) (p : bytes) : option file :=
  find (fun f => beq (f_path f) p) (rev results).

Definition seen_in (p : bytes) (seen : list bytes) : bool := existsb (beq p) seen.

(** Go has no depth bound (its stack is taken to be large enough); [Deep] is
    the model's own outcome for exhausted fuel, and C45_panics_exactly and C45_complete
    show that it never occurs. *)
Inductive outcome := Sorted (sorted : list file) (seen : list bytes) | NilPanic | Deep.

Section Topo.
Variable idx : bytes -> option file.

(** transform.go:19-35. A dependency that is missing from the index is a nil
    interface value, on which res.Path() (line 21) panics. *)
Fixpoint topo (fuel : nat) : list (option file) -> list file -> list bytes -> outcome :=
  match fuel with
  | 0 => fun _ _ _ => Deep
  | S n =>
      fix loop (rs : list (option file)) (sorted : list file) (seen : list bytes) : outcome :=
        match rs with
        | [] => Sorted sorted seen
        | None :: _ => NilPanic
        | Some r :: rest =>
            if seen_in (f_path r) seen then loop rest sorted seen           (* 21-23 *)
            else
              match topo n (map idx (f_imports r)) sorted (f_path r :: seen) with   (* 24-32 *)
              | Sorted sorted' seen' => loop rest (sorted' ++ [r]) seen'    (* 33 *)
              | o => o
              end
        end
  end.
End Topo.

(** transform.go:9-17 *)
Definition topological_sort (results : list file) : outcome :=
  topo (index results) (S (S (List.length results))) (map Some results) [] [].

(** externalapi.go:29-43: what Driver.Compile (driver.go:190) sorts. *)
Record compiled := mkCompiled { c_file : file; c_placeholder : bool; c_editions : bool }.
Definition linker_results (cs : list compiled) : list file :=
  map c_file (filter (fun c => negb (c_placeholder c) && negb (c_editions c))%bool cs).

(** ** Workspace-local files, sdk/driver/driver.go:217-240 *)

(** Absolute paths are lists of components (no empty, "." or ".."). *)
(** filepath.Rel(base, target) for absolute paths: "" stands for "." *)
Fixpoint rel_path (base target : list bytes) : list bytes :=
  match base, target with
  | x :: b, y :: t => if beq x y then rel_path b t else map (fun _ => dot2) base ++ target
  | _, _ => map (fun _ => dot2) base ++ target
  end.
(** filepath.IsLocal of a path computed by [rel_path] *)
Definition is_local (r : list bytes) : bool :=
  match r with c :: _ => negb (beq c dot2) | [] => true end.
(** the file os.Stat looks at for a relative path: the working directory
    followed by the path, with ".." removing components *)
Fixpoint resolve (cwd r : list bytes) : list bytes :=
  match r with
  | [] => cwd
  | c :: r' => if beq c dot2 then resolve (removelast cwd) r' else resolve (cwd ++ [c]) r'
  end.

Section Local.
(** FileURIsByPath followed by IsFile/Path: the absolute path of a file URI *)
Variable disk_path : bytes -> option (list bytes).
Variable exists_ : list bytes -> bool.
Variable cwd ws : list bytes.
(** driver.go:224-237 *)
Definition local_one (p : bytes) : bool :=
  match disk_path p with
  | None => false                                              (* 226-228 *)
  | Some d => let r := rel_path ws d in exists_ (resolve cwd r) && is_local r   (* 229-235 *)
  end.
Definition workspace_local (sorted : list file) : list file :=
  filter (fun f => local_one (f_path f)) sorted.
End Local.

(** ** Restoring names, sdk/util/transform.go:37-62 *)

(** The part of a FileDescriptorProto that is changed. *)
Record desc := mkDesc { name : bytes; deps : list bytes }.

Section Restore.
Variable uri_of : bytes -> option bytes.       (** FileURIsByPath *)
Variable orig_of : bytes -> option bytes.      (** SyntheticFileOriginalNamesByURI *)

(** lines 50-59 *)
Definition restore_dep (d : bytes) : bytes :=
  match uri_of d with
  | None => d
  | Some u => match orig_of u with
              | None => d
              | Some o => if beq o d then d else o
              end
  end.
(** lines 38-61 *)
Definition restore (f : desc) : desc :=
  match uri_of (name f) with
  | None => f                                                   (* 40-42 *)
  | Some u =>
      match orig_of u with
      | Some o => if beq o (name f) then f                       (* 44-46 *)
                  else mkDesc o (map restore_dep (deps f))
      | None => mkDesc (name f) (map restore_dep (deps f))
      end
  end.
Definition restore_all (fs : list desc) : list desc := map restore fs.
(** driver.go:204-208: both lists hold pointers to the same descriptors, so
    those of workspace-local files are restored twice. *)
Definition compile_restore (is_local : desc -> bool) (fs : list desc) : list desc :=
  map (fun f => if is_local f then restore (restore f) else restore f) fs.
End Restore.

(** ** Go packages, sdk/plugin/protogen.go:29-120 *)

Record src := mkSrc { s_path : bytes; s_pkg : bytes; s_go : option bytes; s_deps : list bytes }.

Definition semi : ascii := ";"%char.
Definition dot : ascii := "."%char.
Definition contains (c : ascii) (s : bytes) : bool := existsb (Ascii.eqb c) s.

(** lines 38-50, for the directory of desc.Path() *)
Definition sanitize (dir g : bytes) : bytes :=
  if (contains dot g || contains slash g)%bool then g
  else if has_suffix dir g then dir
  else dir ++ semi :: g.

(** The two messages of lines 90 and 98, with the package names in order. *)
Inductive problem := CannotInfer (path dir : bytes) (pkgs : bytes * bytes) | Inconsistent (dir : bytes) (pkgs : bytes * bytes).

Section GoPackage.
Variable sorted_pair : bytes -> bytes -> bytes * bytes.   (** lines 86-89, 94-97 *)

Inductive scan := Found (g : bytes) | Fails (p : problem) | CanInfer.
(** lines 71-102: the other files in closure order *)
Fixpoint scan_others (d : src) (others : list src) : scan :=
  let dir := path_dir (s_path d) in
  match others with
  | [] => CanInfer
  | o :: r =>
      if negb (beq (path_dir (s_path o)) dir) then scan_others d r        (* 75-77 *)
      else match s_go o with
           | Some g =>
               if beq (s_pkg d) (s_pkg o) then Found (sanitize dir g)      (* 82-84 *)
               else Fails (CannotInfer (s_path d) dir (sorted_pair (s_pkg d) (s_pkg o)))
           | None =>
               if beq (s_pkg d) (s_pkg o) then scan_others d r
               else Fails (Inconsistent dir (sorted_pair (s_pkg d) (s_pkg o)))   (* 93-100 *)
           end
  end.

Definition dirs := bytes -> option bytes.     (** implicitGoPackagesByDir *)

(** lines 35-116 for one file; [before] and [after] are the other files of the
    closure. The file keeps [None] only together with a problem. *)
Definition one (m : dirs) (before : list src) (d : src) (after : list src)
  : dirs * option bytes * list problem :=
  let dir := path_dir (s_path d) in
  match s_go d with
  | Some g => (m, Some (sanitize dir g), [])                              (* 54-58 *)
  | None =>
      match m dir with
      | Some g => (m, Some g, [])                                         (* 69, 110-112 *)
      | None =>
          match scan_others d (before ++ after) with
          | Found g => (fun x => if beq x dir then Some g else m x, Some g, [])
          | Fails p => (m, None, [p])                                     (* continue RESULTS *)
          | CanInfer => (fun x => if beq x dir then Some dir else m x, Some dir, [])   (* 104-109 *)
          end
      end
  end.
(** lines 34-116 *)
Fixpoint go_packages (m : dirs) (before rest : list src) : list (option bytes) * list problem :=
  match rest with
  | [] => ([], [])
  | d :: r =>
      let '(m', g, e) := one m before d r in
      let '(gs, es) := go_packages m' (before ++ [d]) r in
      (g :: gs, e ++ es)
  end.

(** ** plugin.New, lines 29-140. *)

(** protogen.Options.New as far as this code can violate it: file names are
    distinct, imports come earlier in the list, and each file to generate is
    in the list. *)
Fixpoint accepts_files (earlier : list bytes) (fs : list desc) : bool :=
  match fs with
  | [] => true
  | f :: r => negb (existsb (beq (name f)) earlier) && forallb (fun d => existsb (beq d) earlier) (deps f)
              && accepts_files (earlier ++ [name f]) r
  end%bool.
Definition protogen_accepts (fs : list desc) (to_generate : list bytes) : bool :=
  (accepts_files [] fs && forallb (fun t => existsb (beq t) (map name fs)) to_generate)%bool.

Inductive new_result := Problems (es : list problem) | Panics | Plugin (fs : list desc) (go : list bytes).
Definition go_of (g : option bytes) : bytes := match g with Some x => x | None => [] end.
(** lines 117-140; sorting and de-duplicating the messages is left out.
    [targets] are the paths of the files to generate. *)
Definition plugin_new (uri_of orig_of : bytes -> option bytes) (targets : list bytes) (closure : list src) : new_result :=
  let '(gs, es) := go_packages (fun _ => None) [] closure in
  match es with
  | _ :: _ => Problems es
  | [] =>
      let fs := restore_all uri_of orig_of (map (fun d => mkDesc (s_path d) (s_deps d)) closure) in
      if protogen_accepts fs targets then Plugin fs (map go_of gs) else Panics
  end.
End GoPackage.
