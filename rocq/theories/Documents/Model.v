(** Model of pkg/lsp/documents.go and of the file-event handlers of
    pkg/lsp/server.go that call it. *)
From Coq Require Import Ascii NArith.
From Verif Require Import Base.
From Verif.Print Require Import Model.
From Verif.Versions Require Import Model.

(* ------------------------------------------------------------------ *)
(** * DidModifyFiles (documents.go:52-103) *)

(** file.Action as used by the server (third-party enumeration). *)
Inductive action := AUnknown | AOpen | AChange | AClose | ASave | ACreate | ADelete.

Definition action_eqb (a b : action) : bool :=
  match a, b with
  | AUnknown, AUnknown | AOpen, AOpen | AChange, AChange | AClose, AClose
  | ASave, ASave | ACreate, ACreate | ADelete, ADelete => true
  | _, _ => false
  end.

(** file.Modification, the fields DidModifyFiles reads. [m_proto] is
    LanguageID == "protobuf" (line 66). *)
Record modification := mkMod {
  m_uri : uri;
  m_action : action;
  m_version : Z;
  m_proto : bool
}.

(** What DidModifyFiles asks its environment: the resolver before and after
    UpdateURIPathMappings (lines 56 and 69) and the file system (line 81:
    whether ReadFile failed and the version of the handle). Arbitrary. *)
Record env := mkEnv {
  path_before : uri -> option nat;
  path_after : uri -> option nat;
  read_fails : uri -> bool;
  fh_version : uri -> Z
}.

(** documents.go:53-61 *)
Definition recompile_deleted (e : env) (mods : list modification) : list nat :=
  flat_map (fun m =>
    if action_eqb (m_action m) ADelete then
      match path_before e (m_uri m) with Some p => [p] | None => [] end
    else []) mods.

(** documents.go:66 and 69-77: the event is skipped, unresolved, or resolved. *)
Definition skipped (m : modification) : bool :=
  (action_eqb (m_action m) AOpen && negb (m_proto m))%bool.

Definition unresolved (e : env) (m : modification) : bool :=
  (negb (skipped m) && match path_after e (m_uri m) with None => true | _ => false end)%bool.

(** documents.go:78-87: is the path of a resolved event recompiled? *)
Definition recompiles (e : env) (m : modification) : bool :=
  match m_action m with
  | AClose | AUnknown => false
  | AOpen | ASave =>
      (negb (read_fails e (m_uri m)) ||
       negb (Z.eqb (fh_version e (m_uri m)) (m_version m)))%bool
  | AChange | ACreate | ADelete => true
  end.

(** documents.go:64-88: the loop; [i] is the loop index. Returns toDelete and
    the paths appended to toRecompile. *)
Fixpoint scan (e : env) (i : nat) (mods : list modification) : list nat * list nat :=
  match mods with
  | [] => ([], [])
  | m :: mods' =>
      let '(del, rec) := scan e (S i) mods' in
      if skipped m then (del, rec)
      else match path_after e (m_uri m) with
           | None => (i :: del, rec)
           | Some p => (del, if recompiles e m then p :: rec else rec)
           end
  end.

(** slices.Delete(s, i, i+1): panics (None) unless i+1 <= len(s). *)
Fixpoint delete_at {A : Type} (l : list A) (i : nat) : option (list A) :=
  match l, i with
  | [], _ => None
  | _ :: l', 0 => Some l'
  | x :: l', S i' => match delete_at l' i' with Some r => Some (x :: r) | None => None end
  end.

(** documents.go:89-91 *)
Fixpoint delete_all {A : Type} (l : list A) (idxs : list nat) : option (list A) :=
  match idxs with
  | [] => Some l
  | i :: r => match delete_at l i with Some l' => delete_all l' r | None => None end
  end.

(** Result of DidModifyFiles: the modifications applied to the overlays
    (line 92), the paths recompiled, and the modifications passed to
    documentVersions.Update (line 98; only if something is recompiled,
    line 95). None is the run-time panic of slices.Delete. The panic of line 93
    (UpdateOverlays failing) is not modelled. *)
Record outcome := mkOut {
  o_applied : list modification;
  o_recompiled : list nat;
  o_published : list modification
}.

Definition did_modify (e : env) (mods : list modification) : option outcome :=
  let '(del, rec) := scan e 0 mods in
  let torec := recompile_deleted e mods ++ rec in
  match delete_all mods del with
  | None => None
  | Some mods' =>
      Some (mkOut mods' torec (match torec with [] => [] | _ => mods' end))
  end.

(* ------------------------------------------------------------------ *)
(** * Event handlers (server.go) *)

(** Client notifications. URIs are file URIs that belong to one cache (the
    IsFile and CacheForURI guards are not modelled here). *)
Inductive event :=
| EOpen (u : uri) (v : Z) (proto : bool)        (* server.go:324-344 *)
| EClose (u : uri)                              (* server.go:347-366 *)
| EChange (u : uri) (v : Z)                     (* server.go:369-390 *)
| EWatched (l : list (uri * action))            (* server.go:393-415 *)
| ESave (u : uri).                              (* server.go:508-522 *)

Definition mods_of (ev : event) : list modification :=
  match ev with
  | EOpen u v pr => [mkMod u AOpen v pr]
  | EClose u => [mkMod u AClose (-1)%Z false]
  | EChange u v => [mkMod u AChange v false]
  | EWatched l => map (fun '(u, a) => mkMod u a (-1)%Z false) l
  | ESave u => [mkMod u ASave 0%Z false]   (* Version is left at its zero value *)
  end.

(** The versions published while handling one event (nothing on a panic). *)
Definition published (e : env) (ev : event) : list (uri * Z) :=
  match did_modify e (mods_of ev) with
  | Some o => map (fun m => (m_uri m, m_version m)) (o_published o)
  | None => []
  end.

(** A session: each event is handled in its own environment. *)
Definition session := list (env * event).

Definition published_all (h : session) : list (uri * Z) :=
  flat_map (fun '(e, ev) => published e ev) h.

(** The session as a history of the version queue. *)
Definition ops_of (h : session) : list op :=
  map (fun '(e, ev) => OUpdate (published e ev)) h.

(* ------------------------------------------------------------------ *)
(** * ChangedText (documents.go:18-50) *)

Definition text := list ascii.
Definition newline : ascii := "010"%char.

(** Position to offset, gopls' protocol.Mapper.PositionOffset (third party).
    Lines end at LF; the text of a line is decoded as UTF-8 and columns count
    UTF-16 units, so a character beyond the basic plane counts two. A position
    between its two halves is moved before the character. [skip] is the number
    of bytes left of the character just counted. Errors ([None]): beyond the
    end of the line or of the text, or bytes that are not UTF-8 before the
    column. *)
Fixpoint column (skip c : nat) (t : text) : option nat :=
  match skip, t with
  | S k, [] => None
  | S k, _ :: t' => option_map S (column k c t')
  | 0, _ =>
      match c, t with
      | 0, _ => Some 0
      | S _, [] => None
      | S c', x :: t' =>
          match decode_rune t with
          | None => None
          | Some (r, n) =>
              if (r =? 10)%N then None
              else if ((r =? rune_error)%N && (n =? 1))%bool then None
              else if (r <? 65536)%N then option_map S (column (n - 1) c' t')
              else match c' with
                   | 0 => Some 0
                   | S c'' => option_map S (column (n - 1) c'' t')
                   end
          end
      end
  end.
(** Column 0 of the line after the last one is the end of the text. *)
Fixpoint poff (t : text) (l c : nat) : option nat :=
  match l, t with
  | 0, _ => column 0 c t
  | S l', [] => match l', c with 0, 0 => Some 0 | _, _ => None end
  | S l', x :: t' => option_map S (if Ascii.eqb x newline then poff t' l' c else poff t' l c)
  end.

Definition pos := (nat * nat)%type.

(** TextDocumentContentChangeEvent; [c_len0] is RangeLength == 0. *)
Record change := mkChange {
  c_range : option (pos * pos);
  c_len0 : bool;
  c_text : text
}.

Definition edit := (nat * nat * text)%type.

Inductive result :=
| ROk (t : text)
| RErr
| RPanic.            (* nil dereference of change.Range, line 44 *)

(** documents.go:40-50 with protocol.EditsToDiffEdits (third party: converts
    each range with the mapper of the original content). *)
Fixpoint to_edits (t : text) (cs : list change) : option (option (list edit)) :=
  match cs with
  | [] => Some (Some [])
  | c :: cs' =>
      match c_range c with
      | None => None                                   (* panic *)
      | Some ((l1, c1), (l2, c2)) =>
          match to_edits t cs' with
          | None => None
          | Some None => Some None
          | Some (Some es) =>
              match poff t l1 c1, poff t l2 c2 with
              | Some s, Some e => Some (Some ((s, e, c_text c) :: es))
              | _, _ => Some None                      (* error *)
              end
          end
      end
  end.

(** diff.SortEdits (third party): stable sort by (Start, End). *)
Definition edit_lt (a b : edit) : bool :=
  let '(s1, e1, _) := a in let '(s2, e2, _) := b in
  (Nat.ltb s1 s2 || (Nat.eqb s1 s2 && Nat.ltb e1 e2))%bool.

Fixpoint insert_edit (x : edit) (l : list edit) : list edit :=
  match l with
  | [] => [x]
  | y :: l' => if edit_lt y x then y :: insert_edit x l' else x :: l
  end.

(** insertion from the right keeps equal edits in order *)
Fixpoint sort_edits (l : list edit) : list edit :=
  match l with [] => [] | x :: l' => insert_edit x (sort_edits l') end.

(** diff.validate (third party): bounds and overlap. *)
Fixpoint valid_edits (size last : nat) (l : list edit) : bool :=
  match l with
  | [] => true
  | (s, e, _) :: l' =>
      (Nat.leb s e && Nat.leb e size && Nat.leb last s && valid_edits size e l')%bool
  end.

(** diff.Apply (third party): copy the text between the edits. *)
Fixpoint build (t : text) (last : nat) (l : list edit) : text :=
  match l with
  | [] => skipn last t
  | (s, e, n) :: l' => firstn (s - last) (skipn last t) ++ n ++ build t e l'
  end.

Definition apply_bytes (t : text) (es : list edit) : result :=
  let es := sort_edits es in
  if valid_edits (length t) 0 es then ROk (build t 0 es) else RErr.

(** documents.go:18-38; [t] is the current content of the document. *)
Definition changed_text (t : text) (cs : list change) : result :=
  match cs with
  | [] => RErr
  | [c] =>
      match c_range c, c_len0 c with
      | None, true => ROk (c_text c)
      | _, _ =>
          match to_edits t cs with
          | None => RPanic
          | Some None => RErr
          | Some (Some es) => apply_bytes t es
          end
      end
  | _ =>
      match to_edits t cs with
      | None => RPanic
      | Some None => RErr
      | Some (Some es) => apply_bytes t es
      end
  end.
