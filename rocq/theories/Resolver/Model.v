(** Import path resolution: pkg/lsp/resolver.go and the package path functions of
    pkg/lsp/golang.go.

    The file system, the Go module resolver and the compiled-in descriptor registry are inputs
    (records of functions below).  URIs and import paths are byte strings.  All of resolver.go's
    map accesses happen under pathsMu (110-112, 278-280, 75, 90), so operations are atomic.
    Timing and logging are left out. *)
From Coq Require Import Ascii String NArith.
From Verif Require Import Base Strs.
Open Scope list_scope.

Notation uri := (list ascii) (only parsing).
Notation path := (list ascii) (only parsing).

(** resolver.go:32-40 *)
Inductive source := WellKnown | RelativePath | LocalGoModule | GoModuleCache | SyntheticSource.

(** resolver.go:42-53; syntheticFileOriginalNames is only read by code generation and left out *)
Record maps := mkMaps {
  paths : uri -> option path;      (** filePathsByURI *)
  uris : path -> option uri;       (** fileURIsByPath *)
  srcs : uri -> option source;     (** importSourcesByURI *)
  synth : uri -> option bytes      (** syntheticFiles *)
}.
Definition init : maps := mkMaps (fun _ => None) (fun _ => None) (fun _ => None) (fun _ => None).

Definition bset {A} (m : bytes -> option A) (k : bytes) (v : option A) : bytes -> option A :=
  fun k' => if beq k' k then v else m k'.

Definition semi : ascii := ";"%char.
(** resolver.go:78-80 *)
Fixpoint strip_semi (s : bytes) : bytes :=
  match s with [] => [] | c :: r => if Ascii.eqb c semi then [] else c :: strip_semi r end.

(** resolver.go:74-87 PathToURI, 89-98 URIToPath *)
Definition path_to_uri (m : maps) (p : path) : option uri := uris m (strip_semi p).
Definition uri_to_path (m : maps) (u : uri) : option path := paths m u.

(** the pair of assignments at 180-181, 192-193, 424-425, 493-494, 524-525, 783-784, 797-798 and
    the import source set with it (None: not set, 524-525) *)
Definition bind (m : maps) (u : uri) (p : path) (s : option source) : maps :=
  mkMaps (bset (paths m) u (Some p)) (bset (uris m) p (Some u))
    (match s with Some x => bset (srcs m) u (Some x) | None => srcs m end) (synth m).

(** strings.TrimPrefix *)
Definition trim_prefix (s p : bytes) : bytes := if has_prefix s p then skipn (List.length p) s else s.

(** result of opening a file and of LookupGoModule on it (resolver.go:126-150, 166-190) *)
Inductive lookup := LOpenError | LNoModule | LError | LPackage (pkg : bytes).

(** filepath.Join(goPkg, filepath.Base(filename)), resolver.go:151, 191, 782 *)
Definition canonical (pkg filename : bytes) : path := path_join pkg (path_base filename).

Definition is_local_module (s : option source) : bool := match s with Some LocalGoModule => true | _ => false end.

Inductive op :=
| Change (u : uri) (filename : bytes) (r : lookup)                 (* Change, Save: 116-163 *)
| Create (u : uri) (filename : bytes) (r : lookup)                 (* 164-194 *)
| Delete (u : uri)                                                 (* 195-199 *)
| Found (u : uri) (p : path) (s : option source)                   (* a binding made while resolving, see [bind] *)
| Synthesized (u : uri) (text : bytes).                            (* 260, 534 *)

Section Update.
Variable folder : bytes.     (* the path of the workspace folder *)

(** resolver.go:110-205 UpdateURIPathMappings, one modification; and the bindings of resolution *)
Definition step (m : maps) (o : op) : maps :=
  match o with
  | Change u filename r =>
      if is_local_module (srcs m u) then
        match r with
        | LOpenError | LError => m
        | LNoModule =>
            mkMaps (bset (paths m) u None)
                   (match paths m u with Some p => bset (uris m) p None | None => bset (uris m) [] None end)
                   (bset (srcs m) u None) (synth m)
        | LPackage pkg =>
            let p' := canonical pkg filename in
            match paths m u with
            | Some p =>
                if beq p' p then m
                else mkMaps (bset (paths m) u (Some p'))
                       (match p with [] => bset (uris m) p' (Some u) | _ => bset (bset (uris m) p' (Some u)) p None end)
                       (srcs m) (synth m)
            | None => if beq p' [] then m else mkMaps (bset (paths m) u (Some p')) (bset (uris m) p' (Some u)) (srcs m) (synth m)
            end
        end
      else m
  | Create u filename r =>
      match r with
      | LOpenError | LError => m
      | LNoModule => bind m u (trim_prefix filename (folder ++ [slash])) (Some RelativePath)
      | LPackage pkg => bind m u (canonical pkg filename) (Some LocalGoModule)
      end
  | Delete u =>
      mkMaps (bset (paths m) u None)
             (bset (uris m) (match paths m u with Some p => p | None => [] end) None)
             (bset (srcs m) u None) (synth m)
  | Found u p s => bind m u p s
  | Synthesized u t => mkMaps (paths m) (uris m) (srcs m) (bset (synth m) u (Some t))
  end.
Definition run_from (m : maps) (ops : list op) : maps := fold_left step ops m.
Definition run (ops : list op) : maps := run_from init ops.
End Update.

(** ** Looking up one path, resolver.go:320-539 *)

Definition well_known (p : path) : bool := has_prefix p (b_ "google/").        (* wellknown.go:68-70 *)
Definition proto_scheme : bytes := b_ "proto://".
Definition is_synthetic (u : uri) : bool := has_prefix u proto_scheme.
(** resolver.go:479-484, 511-515: url.URL{Scheme: "proto", Path: p, Fragment: name}.String(), for paths
    and names that need no escaping *)
Definition synthetic_uri (name : bytes) (p : path) : uri := proto_scheme ++ p ++ b_ "#" ++ name.

(** ImportFromGoModule (golang.go:173-226) and what follows from it (resolver.go:412-503) *)
Inductive module_answer :=
| MNotExist                        (* an error wrapping os.ErrNotExist *)
| MOther                           (* any other error *)
| MSource (file : uri) (opens : bool) (local : bool)   (* a .proto file; os.Open succeeds *)
| MGenerated (alt : option path) (synthesized : option bytes).  (* generated code only; the descriptor made from it *)

Record env := mkEnv {
  e_name : bytes;                       (** the workspace folder's name *)
  e_has_module : bool;                  (** HasGoModule, golang.go:73-78 *)
  e_registry : path -> option bytes;    (** protoregistry.GlobalFiles, printed *)
  e_read : uri -> option bytes;         (** ReadFile and Content: overlay, then disk; None: error or nil *)
  e_module : path -> module_answer
}.

Inductive origin :=
| FromRegistry (text : bytes)
| FromFile (u : uri) (text : bytes)
| FromModule (u : uri)
| FromSynthetic (text : bytes)       (* source already made for a synthesized file *)
| FromDescriptor (d : bytes).        (* descriptor just synthesized *)
Inductive answer := Served (resolved : path) (o : origin) | NotExist | NoModule | Failed.

Definition large (n : nat) : bool := (1048576 <? N.of_nat n)%N.   (* resolver.go:380, 387 *)

(** resolver.go:506-539 checkGlobalCache. protoregistry.NotFound is not os.ErrNotExist (third party),
    hence Failed. Simplified: printing the descriptor does not fail. *)
Definition check_global (e : env) (m : maps) (p : path) : maps * answer :=
  match e_registry e p with
  | None => (m, Failed)
  | Some text =>
      let u := synthetic_uri (e_name e) p in
      match synth m u with
      | Some t => (m, Served p (FromRegistry t))
      | None => (let m1 := bind m u p None in mkMaps (paths m1) (uris m1) (srcs m1) (bset (synth m1) u (Some text)),
                 Served p (FromRegistry text))
      end
  end.
(** resolver.go:373-378 *)
Definition check_well_known (e : env) (m : maps) (p : path) : maps * answer :=
  if well_known p then check_global e m p else (m, NotExist).
(** resolver.go:382-401 checkFS *)
Definition check_fs (e : env) (m : maps) (p : path) : answer :=
  match uris m p with
  | Some u => match e_read e u with
              | Some t => if large (List.length t) then Failed else Served p (FromFile u t)
              | None => NotExist
              end
  | None => NotExist
  end.
Definition gogo_prefix := b_ "github.com/gogo/googleapis/".
(** resolver.go:403-504 checkGoModule; the error returned at 503 wraps the outer, nil err *)
Definition check_module (e : env) (m : maps) (p : path) : maps * answer :=
  if negb (e_has_module e) then (m, NoModule)
  else if has_prefix p gogo_prefix then check_well_known e m (skipn (List.length gogo_prefix) p)
  else match e_module e p with
       | MNotExist => (m, NotExist)
       | MOther => (m, Failed)
       | MSource u opens local =>
           if opens then (bind m u p (Some (if local then LocalGoModule else GoModuleCache)), Served p (FromModule u))
           else (m, NotExist)
       | MGenerated alt d =>
           let resolved := match alt with Some a => a | None => p end in
           match (match uris m resolved with Some u => synth m u | None => synth m [] end) with
           | Some t => (m, Served resolved (FromSynthetic t))
           | None => match d with
                     | Some x => (bind m (synthetic_uri (e_name e) resolved) resolved (Some SyntheticSource), Served resolved (FromDescriptor x))
                     | None => (m, Failed)
                     end
           end
       end.
Definition gogo_proto := b_ "github.com/gogo/protobuf/gogoproto/gogo.proto".
(** resolver.go:320-371 findFileByPathLocked *)
Definition find_file (e : env) (m : maps) (p : path) : maps * answer :=
  let synthetic := match uris m p with Some u => is_synthetic u | None => false end in
  match check_well_known e m p with
  | (m1, NotExist) =>
      match (if synthetic then NotExist else check_fs e m1 p) with
      | NotExist =>
          match check_module e m1 p with
          | (m2, NotExist) | (m2, NoModule) =>
              match (if well_known p then check_global e m2 p else (m2, NotExist)) with
              | (m3, NotExist) =>
                  if beq (path_base p) (b_ "gogo.proto") then
                    match check_module e m3 gogo_proto with
                    | (m4, Served r o) => (m4, Served r o)
                    | (m4, _) => (m4, NotExist)
                    end
                  else (m3, NotExist)
              | r => r
              end
          | r => r
          end
      | a => (m1, a)
      end
  | r => r
  end.

(** ** Package paths *)

(** The components of an absolute path. *)
Definition comps (s : bytes) : list bytes := filter (fun c => negb (beq c [])) (split_on slash s).
Fixpoint strip_common (a b : list bytes) : list bytes * list bytes :=
  match a, b with
  | x :: a', y :: b' => if beq x y then strip_common a' b' else (a, b)
  | _, _ => (a, b)
  end.
(** filepath.Rel(base, target) for clean absolute paths; an error if only one is absolute (the
    remaining case, two relative paths, does not occur here) *)
Definition rel_path (base target : bytes) : option bytes :=
  if is_rooted base && is_rooted target then
    let '(a, b) := strip_common (comps base) (comps target) in
    Some (match repeat dot2 (List.length a) ++ b with [] => dot1 | l => join_with slash l end)
  else None.

(** golang.go:228-236 ImplicitGoPackagePath *)
Definition implicit_package (mod_dir mod_name filename : bytes) : option bytes :=
  match rel_path mod_dir filename with
  | Some r => Some (path_join mod_name (path_dir r))
  | None => None
  end.

(** ** The quick scan for go_package, resolver.go:636-674 *)
Definition nl : ascii := Eval vm_compute in ascii_of_nat 10.
Definition cr : ascii := Eval vm_compute in ascii_of_nat 13.
Definition dq : ascii := Eval vm_compute in ascii_of_nat 34.
Definition eqc : ascii := "="%char.
(** for ; index < len(line); index++ { if line[index] == c { break } } : how far from the start of [s] *)
Fixpoint skip_to (c : ascii) (s : bytes) : nat :=
  match s with [] => 0 | x :: r => if Ascii.eqb x c then 0 else S (skip_to c r) end.
(** strings.Index *)
Fixpoint index_sub (s sub : bytes) : option nat :=
  if has_prefix s sub then Some 0
  else match s with [] => None | _ :: r => match index_sub r sub with Some i => Some (S i) | None => None end end.
(** strings.LastIndexByte *)
Fixpoint last_byte (c : ascii) (s : bytes) : option nat :=
  match s with
  | [] => None
  | x :: r => match last_byte c r with Some i => Some (S i) | None => if Ascii.eqb x c then Some 0 else None end
  end.
(** resolver.go:641-671, one line *)
Definition scan_line (line : bytes) : option bytes :=
  if negb (has_prefix line (b_ "option")) then None
  else match index_sub line (b_ "go_package") with
       | None => None
       | Some i =>
           let i1 := i + skip_to eqc (skipn i line) in
           let i2 := i1 + skip_to dq (skipn i1 line) in
           if i2 =? List.length line then None
           else
             let start := S i2 in
             let stop := match last_byte dq line with Some k => k | None => 0 end in
             let sc := skip_to semi line in          (* strings.IndexByte; the length if there is none, 665 is then false *)
             let stop' := if (start <? sc) && (sc <? stop) then sc else stop in
             if stop' <=? start then None else Some (firstn (stop' - start) (skipn start line))
       end.
(** bufio.ScanLines drops one carriage return at the end of a line; lines of 64 KiB and more, which
    stop the scanner, are not modelled *)
Definition drop_cr (l : bytes) : bytes := match rev l with c :: r => if Ascii.eqb c cr then rev r else l | [] => l end.
Fixpoint scan_lines (ls : list bytes) : option bytes :=
  match ls with
  | [] => None
  | l :: r => match scan_line (drop_cr l) with Some p => Some p | None => scan_lines r end
  end.
Definition fast_lookup (text : bytes) : option bytes := scan_lines (split_on nl text).

(** resolver.go:554-570 LookupGoModule; [driver]: directory and name of the local module *)
Definition lookup_go_module (driver : option (bytes * bytes)) (filename text : bytes) : lookup :=
  match driver with
  | None => LNoModule
  | Some (dir, name) =>
      match implicit_package dir name filename with
      | Some p => LPackage p
      | None => match fast_lookup text with Some p => LPackage p | None => LError end
      end
  end.

(** ** Imports relative to the importing file, resolver.go:704-811 *)

(** filepath.IsLocal *)
Definition is_local (p : bytes) : bool :=
  negb (is_rooted p) && negb (beq p []) &&
  match split_on slash (path_clean p) with c :: _ => negb (beq c dot2) | [] => true end.

(** resolver.go:856-864 *)
Fixpoint score (target source : list bytes) : nat :=
  match target, source with
  | t :: target', s :: source' => if beq t s then S (score target' source') else 0
  | _, _ => 0
  end.
(** append(append(sourceParts[:start], targetParts...), base): the new slice, and what the array
    behind sourceParts holds afterwards (867). strings.Split returns a slice without spare capacity. *)
Definition overwrite (parts : list bytes) (start : nat) (new : list bytes) : list bytes :=
  firstn start parts ++ new ++ skipn (start + List.length new) parts.
Definition append_in_place (parts : list bytes) (start : nat) (target : list bytes) (base : bytes) : list bytes :=
  if start + List.length target <=? List.length parts then
    let p1 := overwrite parts start target in
    if start + List.length target + 1 <=? List.length parts then overwrite p1 (start + List.length target) [base] else p1
  else parts.
Definition root_part (parts : list bytes) : list bytes :=
  match parts with [] :: r => [slash] :: r | _ => parts end.
(** filepath.Join of several elements *)
Definition join_all (parts : list bytes) : bytes :=
  match filter (fun c => negb (beq c [])) parts with [] => [] | l => path_clean (join_with slash l) end.
(** resolver.go:834-871: offsets counted from the end; collects (path, score) *)
Fixpoint suffix_matches (n offset : nat) (parts target : list bytes) (base : bytes) : list (bytes * nat) :=
  match n with
  | 0 => []
  | S n' =>
      let start := List.length parts - offset in
      let sc := score target (skipn start parts) in
      if 0 <? sc then
        (join_all (firstn start parts ++ target ++ [base]), sc)
        :: suffix_matches n' (S offset) (append_in_place parts start target base) target base
      else suffix_matches n' (S offset) parts target base
  end.
(** sort.Slice by descending score: the first of the best for at most 12 matches (insertion sort),
    any of the best otherwise (simplified: the first) *)
Fixpoint best (ms : list (bytes * nat)) (cur : option (bytes * nat)) : option bytes :=
  match ms with
  | [] => match cur with Some (p, _) => Some p | None => None end
  | (p, s) :: r => best r (match cur with Some (_, t) => if t <? s then Some (p, s) else cur | None => Some (p, s) end)
  end.
(** resolver.go:818-883 FindSuffixMatchedPath *)
Definition find_suffix_matched (target source : bytes) : option bytes :=
  let td := path_dir target in
  if beq td dot1 then Some (path_join (path_dir source) target)
  else
    let parts := root_part (split_on slash (path_dir source)) in
    best (suffix_matches (List.length parts) 1 parts (split_on slash td) (path_base target)) None.

Section Translate.
Variable regular : bytes -> bool.                (* os.Stat: a regular file *)
Variable lookup_module : bytes -> lookup.        (* os.Open and LookupGoModule, 773-781 *)

(** resolver.go:723-762; the candidate "prefix duplicated" (727-730) equals the one of 753 *)
Definition candidates (p filename : bytes) : list bytes :=
  path_join (path_dir filename) p ::
  (match split_on slash p with
   | d :: _ :: _ => if negb (beq d []) && beq d (path_base (path_dir filename))
                    then [path_join (path_dir (path_dir filename)) p] else []
   | _ => []
   end) ++
  (match find_suffix_matched p filename with Some c => [c] | None => [] end) ++
  [path_join (path_dir (path_dir filename)) p].
Definition locate (p filename : bytes) : option bytes :=
  if is_local p then find regular (candidates p filename) else None.

(** protocol.URIFromPath for paths without special characters *)
Definition file_scheme : bytes := b_ "file://".
Definition uri_of_file (f : bytes) : uri := file_scheme ++ f.

(** resolver.go:704-811 translatePathLocked; [importer] is the import path of the importing file,
    [filename] its file name *)
Definition translate (m : maps) (importer : path) (p : path) : maps * option path :=
  match uris m p with
  | Some _ => (m, Some p)
  | None =>
      match uris m importer with
      | None => (m, None)
      | Some u =>
          if negb (has_prefix u file_scheme) then (m, None)
          else
            let filename := skipn (List.length file_scheme) u in
            match locate p filename with
            | None => (m, None)
            | Some f =>
                match srcs m u with
                | Some LocalGoModule =>
                    match lookup_module f with
                    | LPackage pkg => let c := canonical pkg f in (bind m (uri_of_file f) c (Some LocalGoModule), Some c)
                    | _ => (m, None)
                    end
                | Some GoModuleCache =>
                    match rel_path (path_dir filename) (path_dir f) with
                    | None => (m, None)
                    | Some r =>
                        let orig := match paths m u with Some x => x | None => [] end in
                        let c := path_join (path_join (path_dir orig) r) (path_base f) in
                        (bind m (uri_of_file f) c (Some GoModuleCache), Some c)
                    end
                | Some RelativePath => (m, rel_path (path_dir filename) f)
                | _ => (m, None)
                end
            end
      end
  end.

(** resolver.go:277-318 FindFileByPath without the reverse lookup through generated code (296-306) *)
Definition resolve (e : env) (m : maps) (importer : option path) (p : path) : maps * answer :=
  match find_file e m p with
  | (m1, Served r o) => (m1, Served r o)
  | (m1, a) =>
      match importer with
      | None => (m1, a)
      | Some i =>
          match translate m1 i p with
          | (m2, Some t) =>
              match find_file e m2 t with
              | (m3, Served _ o) => (m3, Served t o)       (* 293: the resolved path is the translated one *)
              | (m3, _) => (m3, a)
              end
          | (m2, None) => (m2, a)
          end
      end
  end.
End Translate.
