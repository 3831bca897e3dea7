(** Model of the SDK's code generation: the messages of sdk/driver/driver.go:103-186,
    sdk/codegen/generator.go, sdk/codegen/generators/external/generator.go and
    pkg/sources/search.go. *)
From Coq Require Import Ascii String.
From Verif Require Import Base Strs.
Open Scope list_scope.

Definition nl : ascii := "010"%char.

(** ** Messages for diagnostics, driver.go:103-186 *)

(** Severities are the protocol's numbers: 1 error, 2 warning, 3 information,
    4 hint. [unnecessary]: one of the tags is Unnecessary. *)
Record diag := mkDiag { sev : nat; line1 : nat; char1 : nat; line2 : nat; char2 : nat; unnecessary : bool; text : bytes }.

(** Mapper.PositionOffset (gopls) for column 0 *)
Fixpoint line_start (ls : list bytes) (l : nat) : option nat :=
  match l with
  | 0 => Some 0
  | S l' =>
      match ls with
      | [] => None
      | x :: r =>
          match r with
          | [] => match l' with 0 => Some (List.length x) | S _ => None end     (* the end of the file *)
          | _ :: _ => option_map (fun o => List.length x + 1 + o) (line_start r l')
          end
      end
  end.

(** content[i:j] for an end that may be -1; None is a panic *)
Definition slice (c : bytes) (i j : Z) : option bytes :=
  if ((0 <=? i) && (i <=? j) && (j <=? Z.of_nat (List.length c)))%Z%bool
  then Some (firstn (Z.to_nat (j - i)) (skipn (Z.to_nat i) c)) else None.

(** One message: severity, line number shown, text and, with source context,
    the parts of the line before, in and after the highlighted range. Colours
    and the file name are left out. *)
Record message := mkMessage { m_sev : nat; m_line : nat; m_text : bytes; m_source : option (bytes * bytes * bytes) }.

Inductive rendered := Shown (m : message) | Dropped | Fails | Panics.

(** lines 112-184 for one diagnostic *)
Definition render (content : bytes) (d : diag) : rendered :=
  if negb (line1 d =? line2 d) then Dropped                                  (* 112 *)
  else
    let ls := split_on nl content in
    match line_start ls (line1 d), line_start ls (line2 d + 1) with
    | Some startp, Some endp =>                                               (* 121-127 *)
        if negb ((sev d <=? 2) && negb (unnecessary d)) then                  (* 128-134, 153-161 *)
          Shown (mkMessage (sev d) (line1 d + 1) (text d) None)
        else
          match slice content (Z.of_nat startp) (Z.of_nat endp - 1) with     (* 164 *)
          | None => Panics
          | Some full =>
              let n := List.length full in
              let '(a, b) := if (n <? char1 d) || (n <? char2 d) || (char2 d <? char1 d)
                             then (0, n) else (char1 d, char2 d) in           (* 165-170 *)
              Shown (mkMessage (sev d) (line1 d + 1) (text d)
                (Some (firstn a full, firstn (b - a) (skipn a full), skipn b full)))   (* 171-182 *)
          end
    | _, _ => Fails                                                           (* 125-127 *)
    end%bool.

Inductive compile_result := CPanics | CFails | CDone (messages : list message) (error : bool).
(** lines 103-187 over the diagnostics of all files, each with its content *)
Fixpoint messages (ds : list (bytes * diag)) (acc : list message) (err : bool) : compile_result :=
  match ds with
  | [] => CDone acc err
  | (c, d) :: r =>
      let err' := (err || (sev d =? 1))%bool in                               (* 109-111 *)
      match render c d with
      | Shown m => messages r (acc ++ [m]) err'
      | Dropped => messages r acc err'
      | Fails => CFails
      | Panics => CPanics
      end
  end.

(** ** Selecting files and placing outputs, generator.go:85-196 *)

(** a compiled file: its path and the path of its file URI, if it is one *)
Record cfile := mkCfile { c_path : bytes; c_disk : option bytes }.

Definition dirmap := bytes -> option bytes.
(** lines 111-117 *)
Definition source_dirs (fs : list cfile) : dirmap :=
  fold_left (fun m f => match c_disk f with
                        | Some d => fun k => if beq k (path_dir (c_path f)) then Some (path_dir d) else m k
                        | None => m
                        end) fs (fun _ => None).
(** lines 95-99; only paths that are not absolute are cleaned *)
Definition search_dir (wd d : bytes) : bytes := if is_rooted d then d else path_join wd d.
Definition or_empty (o : option bytes) : bytes := match o with Some d => d | None => [] end.
(** lines 121-130 *)
Definition to_generate (all local : list cfile) (search : list bytes) : list bytes :=
  map c_path (filter (fun f => existsb (has_prefix (or_empty (source_dirs all (path_dir (c_path f))))) search) local).

(** the text from the first occurrence of [sub] on *)
Fixpoint from_first (sub s : bytes) : option bytes :=
  if has_prefix s sub then Some s
  else match s with [] => None | _ :: r => from_first sub r end.
Definition trim_slash (s : bytes) : bytes :=
  match rev s with c :: r => if Ascii.eqb c slash then rev r else s | [] => s end.
(** lines 174-193: the path an output called [out] is written to *)
Definition output_path (m : dirmap) (out : bytes) : bytes :=
  let '(pkg0, name) := cut_last_slash out in
  let pkg := trim_slash pkg0 in
  let dir := match m pkg with
             | Some d => d
             | None => match from_first (b_ "google/") pkg with Some r => r | None => pkg end
             end in
  path_join dir name.

(** ** Reading a generated file, generator.go:41-43: the bytes copied into a
    buffer of a given size; the error is always nil. The receiver is not
    changed. *)
Definition read (content : bytes) (size : nat) : bytes * bool := (firstn size content, false).

(** io.ReadAll: reads until the end of the file is reported. [fuel] bounds the
    number of reads; None: not finished. The buffer sizes are arbitrary. *)
Section ReadAll.
Variable rd : nat -> bytes * bool.       (** the reader *)
Fixpoint read_all (sizes : nat -> nat) (fuel : nat) (got : bytes) : option bytes :=
  match fuel with
  | 0 => None
  | S n => let '(bs, eof) := rd (sizes n) in if eof then Some (got ++ bs) else read_all sizes n (got ++ bs)
  end.
End ReadAll.

(** ** Talking to an external plugin, external/generator.go:48-104 *)

(** A plugin process; that it exits with a failure (lines 84-86) is left out. *)
Inductive act (P : Type) := ARead (k : option ascii -> P) | AWrite (b : ascii) (k : P) | AExit.
Arguments ARead {P}. Arguments AWrite {P}. Arguments AExit {P}.

Section Pipes.
Variable P : Type.
Variable prog : P -> act P.
Variable cap : nat.                    (** capacity of a pipe *)

(** lines 71-82: the request is written completely, then stdin is closed, then
    stdout is read until its end. *)
Inductive host := Writing (rest : bytes) | Reading (got : bytes) | Finished (got : bytes) | Failed.
Record sys := mkSys { h : host; inp : bytes; outp : bytes; closed : bool; pl : P }.

Inductive step : sys -> sys -> Prop :=
| host_write b r i o p : List.length i < cap -> prog p <> AExit ->
    step (mkSys (Writing (b :: r)) i o false p) (mkSys (Writing r) (i ++ [b]) o false p)
| host_epipe b r i o p : prog p = AExit ->                                   (* 71-73 *)
    step (mkSys (Writing (b :: r)) i o false p) (mkSys Failed i o false p)
| host_close i o p : step (mkSys (Writing []) i o false p) (mkSys (Reading []) i o true p)   (* 75-77 *)
| host_read g i b o c p : step (mkSys (Reading g) i (b :: o) c p) (mkSys (Reading (g ++ [b])) i o c p)   (* 79 *)
| host_eof g i c p : prog p = AExit -> step (mkSys (Reading g) i [] c p) (mkSys (Finished g) i [] c p)
| plugin_read hh b i o c p k : prog p = ARead k ->
    step (mkSys hh (b :: i) o c p) (mkSys hh i o c (k (Some b)))
| plugin_eof hh o p k : prog p = ARead k -> step (mkSys hh [] o true p) (mkSys hh [] o true (k None))
| plugin_write hh i o c p b k : prog p = AWrite b k -> List.length o < cap ->
    step (mkSys hh i o c p) (mkSys hh i (o ++ [b]) c k).

Inductive steps : sys -> sys -> Prop :=
| steps_refl s : steps s s
| steps_more s t u : step s t -> steps t u -> steps s u.
Definition start (req : bytes) (p : P) : sys := mkSys (Writing req) [] [] false p.
End Pipes.
Arguments mkSys {P}. Arguments h {P}. Arguments pl {P}. Arguments inp {P}. Arguments outp {P}. Arguments closed {P}.
Arguments step {P}. Arguments steps {P}. Arguments start {P}.
Arguments steps_refl {P prog cap}. Arguments steps_more {P prog cap}.

(** ** Searching for sources, pkg/sources/search.go *)

(** A directory's entries are in the order of os.ReadDir (sorted by name).
    Links, unreadable directories and changes during the walk are left out. *)
Inductive tree := File | Dir (entries : list (bytes * tree)).
Definition skip_name (n : bytes) : bool :=
  (beq n (b_ "node_modules") || beq n (b_ "vendor") || has_prefix n (b_ "_bazel_"))%bool.
Definition marker : bytes := b_ "DO_NOT_BUILD_HERE".
Definition is_proto (n : bytes) : bool := has_suffix n (b_ ".proto").

(** filepath.WalkDir with the function of lines 19-40: the files found, as
    lists of components, and whether SkipDir is passed on to the enclosing
    directory. *)
Fixpoint walk (path : list bytes) (n : bytes) (t : tree) : list (list bytes) * bool :=
  match t with
  | File => if is_proto n then ([path ++ [n]], false)                         (* 33-34 *)
            else ([], beq n marker)                                           (* 35-37 *)
  | Dir es =>
      if skip_name n then ([], false)                                         (* 22-30 *)
      else ((fix entries l := match l with
                              | [] => []
                              | (m, u) :: r => let '(fs, skip) := walk (path ++ [n]) m u in
                                               fs ++ (if skip : bool then [] else entries r)
                              end) es, false)
  end.
(** lines 9-43: [None] is a directory that does not exist, for which the
    function is called with a nil entry (line 20 panics) *)
Fixpoint search_dirs (roots : list (list bytes * bytes * option tree)) : option (list (list bytes)) :=
  match roots with
  | [] => Some []
  | (path, n, t) :: r =>
      match t with
      | None => None
      | Some t => option_map (fun fs => fst (walk path n t) ++ fs) (search_dirs r)
      end
  end.
