(** Model of code generation output: pkg/lsprpc/handler.go:123-192 (doGenerate).

    Simplifications: the generators (lines 155-167) are an arbitrary function
    from the selected documents to a list of named outputs, or an error. The
    file system is a map from absolute paths to contents plus a set of
    directories. Every write may fail (parameter [io]) and then leaves
    arbitrary contents at its path; OverwriteFile's backup is the subject of
    the Overwrite area and is left out here. *)
From Coq Require Import Ascii String.
From Verif Require Import Base Strs.
Open Scope list_scope.

(** what doGenerate looks up for one requested document *)
Record doc := mkDoc {
  d_uri_path : bytes;            (** uri.Path() *)
  d_found : bool;                (** FindResultByURI succeeds, line 128 *)
  d_package : bytes;             (** res.Package(), line 132 *)
  d_nogen : bool;                (** the nogenerate pragma, line 135 *)
  d_file_path : bytes;           (** FilePathsByURI[uri], line 139; "" if absent *)
  d_go_package : option bytes    (** lines 141-142 *)
}.

Definition dirmap := list (bytes * bytes).

Fixpoint lookup (m : dirmap) (k : bytes) : option bytes :=
  match m with
  | [] => None
  | (k', v) :: m' => if beq k' k then Some v else lookup m' k
  end.

Definition semi : ascii := ";"%char.

(** lines 127-148; the newest binding of the Go map is at the front *)
Fixpoint output_dirs (m : dirmap) (roots : list doc) (ds : list doc) : option (dirmap * list doc) :=
  match ds with
  | [] => Some (m, roots)
  | d :: ds' =>
      if negb (d_found d) then None                          (* 129-131 *)
      else if beq (d_package d) [] then output_dirs m roots ds'   (* 132-134 *)
      else if d_nogen d then output_dirs m roots ds'         (* 135-137 *)
      else
        let dir := path_dir (d_uri_path d) in
        let m1 := (path_dir (d_file_path d), dir) :: m in    (* 140 *)
        let m2 := match d_go_package d with                  (* 141-147 *)
                  | Some g => (hd [] (split_on semi g), dir) :: m1
                  | None => m1
                  end in
        output_dirs m2 (roots ++ [d]) ds'
  end.

Record fs := mkFs { files : bytes -> option bytes; is_dir : bytes -> bool }.

Definition write (f : fs) (p : bytes) (c : option bytes) : fs :=
  mkFs (fun q => if beq q p then c else files f q) (is_dir f).

Inductive result := Done | DoneWithErrors | Aborted.

(** lines 169-190. [io n] = None: the n-th write succeeds; Some left: it fails
    and leaves [left] at the path. A directory at the path exists for Stat but
    cannot be read (lines 176-180). *)
Fixpoint write_loop (m : dirmap) (io : nat -> option (option bytes)) (n : nat)
    (f : fs) (errs : bool) (outs : list (bytes * bytes)) : fs * result :=
  match outs with
  | [] => (f, if errs then DoneWithErrors else Done)          (* 191 *)
  | (name, content) :: outs' =>
      match lookup m (path_dir name) with
      | None => write_loop m io n f true outs'                (* 170-174 *)
      | Some dir =>
          let p := path_join dir (path_base name) in          (* 175 *)
          if is_dir f p then (f, Aborted)                     (* 176-180 *)
          else match io n with
               | Some lft => (write f p lft, Aborted)       (* 182-184, 186-188 *)
               | None => write_loop m io (S n) (write f p (Some content)) errs outs'
               end
      end
  end.

(** doGenerate. [gen] stands for lines 149-167. *)
Definition do_generate (gen : list doc -> option (list (bytes * bytes)))
    (io : nat -> option (option bytes)) (f : fs) (ds : list doc) : fs * result :=
  match output_dirs [] [] ds with
  | None => (f, Aborted)
  | Some (m, roots) =>
      match gen roots with
      | None => (f, Aborted)
      | Some outs => write_loop m io 0 f false outs
      end
  end.
