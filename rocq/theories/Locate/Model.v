(** Model of the search for the descriptor at a place in a file, pkg/lsp/search.go (line numbers without a
    file): deepPathSearch.

    A file is the tree of its declarations; the descriptor of a declaration is known by the way down to it,
    so that descriptors are equal when they are of the same declaration.  What the linker has added (the
    types of fields, the messages of methods, the messages extended) is a parameter.  A path is the list of
    nodes that paths.DereferenceAll gives without wrapper nodes (37-43), the file first.  Options, message
    literals, imports and nodes of incomplete declarations are not in the model, and of the result only the
    descriptor is kept, not its range. *)
From Coq Require Import Ascii String.
From Verif Require Import Base Strs.
Open Scope list_scope.

(** ** Declarations *)
(** [EMap n v]: v is the type name in the second field of the entry message, without a leading dot (93), and
    empty if the value is a scalar *)
Inductive elem := EField (n : bytes) | EMap (n v : bytes) | EGroup (n : bytes) (b : list elem) | EOneof (n : bytes) (b : list member)
| EMsg (n : bytes) (b : list elem) | EEnum (n : bytes) (vs : list bytes) | EExtend (x : bytes) (b : list member)
with member := OField (n : bytes) | OGroup (n : bytes) (b : list elem).
Inductive top := TMsg (n : bytes) (b : list elem) | TEnum (n : bytes) (vs : list bytes) | TExtend (x : bytes) (b : list member) | TSvc (n : bytes) (ms : list bytes).

(** ** Descriptors *)
Inductive kind := KMsg | KEnum | KVal | KField | KExt | KOneof | KSvc | KMethod.
Definition kind_eq_dec (a b : kind) : {a = b} + {a <> b}. Proof. decide equality. Defined.
Definition way := list (kind * bytes).
(** of this file or of another one *)
Inductive desc := Own (p : way) | Other (file : bytes) (p : way).
(** what a descriptor's lists hold: the descriptor, the list, the name, and what is found there *)
Definition row := (way * kind * bytes * way)%type.
(** linker contract: the lists of a message hold its own declarations; a group is a message and a field
    named in lower case; fields of a oneof are in the lists of both; an enum's values are in its list *)
Definition lower (n : bytes) : bytes := map (fun c => let k := nat_of_ascii c in if (65 <=? k) && (k <=? 90) then ascii_of_nat (k + 32) else c) n.
Definition put (p : way) (k : kind) (n : bytes) : row := (p, k, n, p ++ [(k, n)]).
Fixpoint rows (p : way) (e : elem) : list row :=
  match e with
  | EField n | EMap n _ => [put p KField n]
  | EGroup n b => put p KMsg n :: put p KField (lower n) :: flat_map (rows (p ++ [(KMsg, n)])) b
  | EOneof n b => put p KOneof n :: flat_map (fun m => match m with
      | OField f => [put p KField f; (p ++ [(KOneof, n)], KField, f, p ++ [(KField, f)])]
      | OGroup g c => put p KMsg g :: put p KField (lower g) :: (p ++ [(KOneof, n)], KField, lower g, p ++ [(KField, lower g)]) :: flat_map (rows (p ++ [(KMsg, g)])) c end) b
  | EMsg n b => put p KMsg n :: flat_map (rows (p ++ [(KMsg, n)])) b
  | EEnum n vs => put p KEnum n :: map (put (p ++ [(KEnum, n)]) KVal) vs
  | EExtend _ b => flat_map (fun m => match m with
      | OField f => [put p KExt f]
      | OGroup g c => put p KMsg g :: put p KExt (lower g) :: flat_map (rows (p ++ [(KMsg, g)])) c end) b
  end.
Definition top_rows (t : top) : list row :=
  match t with
  | TMsg n b => rows [] (EMsg n b)
  | TEnum n vs => rows [] (EEnum n vs)
  | TExtend x b => rows [] (EExtend x b)
  | TSvc n ms => put [] KSvc n :: map (put [(KSvc, n)] KMethod) ms
  end.
Definition table (f : list top) : list row := flat_map top_rows f.
Definition way_eq_dec (a b : way) : {a = b} + {a <> b}. Proof. repeat decide equality. Defined.
(** ByName *)
Definition is_row (p : way) (k : kind) (n : bytes) (r : row) : bool :=
  let '(q, k', n', _) := r in (if way_eq_dec p q then true else false) && (if kind_eq_dec k k' then true else false) && beq n n'.
Definition by_name (t : list row) (p : way) (k : kind) (n : bytes) : option way := option_map snd (find (is_row p k n) t).
Definition kind_of (p : way) : option kind := match rev p with [] => None | (k, _) :: _ => Some k end.

(** ** Nodes *)
(** an identifier is the name of the declaration above it, its type (or extendee), or the key of a map *)
Inductive role := AsName | AsType | AsKey.
Inductive node := NFile | NMsg (n : bytes) | NField (n : bytes) | NMap (n v : bytes) | NGroup (n : bytes) | NOneof (n : bytes) | NEnum (n : bytes) | NVal (n : bytes)
| NExtend (x : bytes) | NSvc (n : bytes) | NRpc (n : bytes) | NMapType | NRpcType (input : bool) | NCompound (id : bytes) | NIdent (id : bytes) (r : role).

(** what the linker knows of a field, an enum or message, or neither *)
Inductive target := TgNone | TgMsg (d : desc) | TgEnum (d : desc).
Inductive outcome (A : Type) := Found (a : A) | Nothing | Failed.
Arguments Found {A}. Arguments Nothing {A}. Arguments Failed {A}.

Section Search.
Variable tab : list row.
(** the type of a field or extension, the value's type for a map field *)
Variable types : way -> target.
(** Input and Output of a method *)
Variable io : way -> bool -> desc.
(** ContainingMessage of an extension, and full names *)
Variable extends : way -> desc.
Variable full : desc -> bytes.
(** FindExtendeeDescriptorByName *)
Variable extendee : bytes -> option desc.
(** whether the parser maps a group node to the group's message or to its field (Descriptor, 68) *)
Variable group_msg : bool.

(** strings.TrimPrefix(_, ".") *)
Definition undot (n : bytes) : bytes := match n with "."%char :: r => r | _ => n end.

(** ** Upwards, 47-163 *)
(** what the parser maps a node to, as far as the cases tell them apart *)
Inductive mapped := MapNone | MapMsg (n : bytes) | MapEntry (v : bytes) | MapEnum (n : bytes) | MapSvc (n : bytes) | MapOther.
Definition mapping (x : node) : mapped :=
  match x with
  | NMsg n => MapMsg n
  | NGroup n => if group_msg then MapMsg n else MapOther
  | NMap _ v => MapEntry v
  | NEnum n => MapEnum n
  | NSvc n => MapSvc n
  | NField _ | NOneof _ | NVal _ | NRpc _ => MapOther
  | NFile | NExtend _ | NMapType | NRpcType _ | NCompound _ | NIdent _ _ => MapNone
  end.
Definition is_msg_node (x : option node) : bool := match x with Some (NMsg _) => true | _ => false end.
Definition in_key (below : list node) : bool := match below with NMapType :: NIdent _ AsKey :: _ => true | _ => false end.
Inductive step := Push | Stop (p : way) | Give (o : outcome desc).
Definition classify (below : list node) (x : node) (above : list node) : step :=
  let up1 := nth_error above 0 in
  match mapping x with
  | MapNone | MapOther => Push
  | MapMsg n => if is_msg_node up1 then Push else match by_name tab [] KMsg n with Some d => Stop d | None => Give Failed end
  | MapEntry v =>
      if in_key below then Give Nothing
      else if is_msg_node (nth_error above 1) then Push
      else match by_name tab [] KMsg v with Some d => Stop d | None => Push end
  | MapEnum n => if is_msg_node up1 then Push else match by_name tab [] KEnum n with Some d => Stop d | None => Give Failed end
  | MapSvc n => match by_name tab [] KSvc n with Some d => Stop d | None => Give Failed end
  end.
(** [rest] is the node looked at and those above it; the loop ends at the file (i > 0); the stack is the
    nodes below, the outermost first, and the last may be resolved *)
Inductive climbed := Climbed (stack : list node) (resolved : option way) | Gave (o : outcome desc).
Fixpoint climb (below rest : list node) : climbed :=
  match rest with
  | x :: ((_ :: _) as above) =>
      match classify below x above with
      | Push => climb (x :: below) above
      | Stop d => Climbed (x :: below) (Some d)
      | Give o => Gave o
      end
  | _ => Climbed below None
  end.

(** ** Downwards, 170-493: the next resolved entry is the one above, as every entry is resolved or ends the search *)
Definition own (o : option way) : outcome desc := match o with Some p => Found (Own p) | None => Failed end.
Definition opt (o : option desc) : outcome desc := match o with Some d => Found d | None => Failed end.
Definition of_target (t : target) : outcome desc := match t with TgMsg d | TgEnum d => Found d | TgNone => Failed end.
Definition exts_of (p : way) : list way :=
  flat_map (fun r : row => let '(q, k, _, d) := r in if way_eq_dec p q then (if kind_eq_dec k KExt then [d] else []) else []) tab.
Definition is_ident (x : node) : option (bytes * role) := match x with NIdent i r => Some (i, r) | NCompound i => Some (i, AsType) | _ => None end.
Definition resolve (above : node) (have : desc) (want : node) : outcome desc :=
  match have with
  | Own p =>
      match kind_of p with
      | None => (* 180-244 FileDescriptor *)
          match want with
          | NMsg n => own (by_name tab p KMsg n)
          | NEnum n => own (by_name tab p KEnum n)
          | NSvc n => own (by_name tab p KSvc n)
          | NExtend _ => Found have
          | NField n => own (by_name tab p KExt n)
          | NCompound i => match above with NExtend x => if beq i x then opt (extendee (undot i)) else Failed | _ => Failed end
          | NIdent _ AsType => match above with NExtend x => opt (extendee (undot x)) | _ => Failed end
          | _ => Failed
          end
      | Some KMsg => (* 245-311 MessageDescriptor *)
          match want with
          | NField n => match above with NExtend _ => own (by_name tab p KExt n) | _ => own (by_name tab p KField n) end
          | NMap n _ => own (by_name tab p KField n)
          | NOneof n => own (by_name tab p KOneof n)
          | NGroup n | NMsg n => own (by_name tab p KMsg n)
          | NEnum n => own (by_name tab p KEnum n)
          | NExtend _ => Found have
          | NIdent i _ | NCompound i =>
              match above with
              | NExtend _ => match find (fun e => beq (full (extends e)) (undot i)) (exts_of p) with Some e => Found (extends e) | None => Failed end
              | _ => Found have
              end
          | _ => Failed
          end
      | Some KExt => (* 312-347 ExtensionTypeDescriptor *)
          match is_ident want, above with
          | Some (_, AsName), NField _ => Found have
          | Some (_, AsType), NField _ => of_target (types p)
          | _, _ => Failed
          end
      | Some KField => (* 348-412 FieldDescriptor *)
          match want with
          | NMapType => match types p with TgMsg d => Found d | _ => Failed end
          | _ =>
            match is_ident want, above with
            | Some (_, AsType), (NField _ | NMap _ _) => of_target (types p)
            | Some (_, AsName), (NField _ | NMap _ _) => Found have
            | _, _ => Failed
            end
          end
      | Some KEnum => (* 413-430 EnumDescriptor *)
          match want with
          | NVal n => own (by_name tab p KVal n)
          | NIdent i AsName => match above with NEnum _ => Found have | _ => own (by_name tab p KVal i) end
          | NIdent i _ => own (by_name tab p KVal i)
          | _ => Failed
          end
      | Some KVal => match is_ident want with Some _ => Found have | None => Failed end
      | Some KSvc => match want with NRpc n => own (by_name tab p KMethod n) | _ => match is_ident want with Some _ => Found have | None => Failed end end
      | Some KMethod => match want, above with
          | NRpcType i, NRpc _ => Found (io p i)
          | NRpcType _, _ => Failed
          | _, _ => match is_ident want with Some _ => Found have | None => Failed end end
      | Some KOneof => match want with NField n => own (by_name tab p KField n) | _ => match is_ident want with Some _ => Found have | None => Failed end end
      end
  | Other _ p => (* a type of another file: only identifiers that are part of its name come below it *)
      match kind_of p, is_ident want with Some KMsg, Some _ => Found have | _, _ => Failed end
  end.
Fixpoint descend (above : node) (have : desc) (wants : list node) : outcome desc :=
  match wants with
  | [] => Found have
  | w :: r => match resolve above have w with Found d => descend w d r | Nothing => Nothing | Failed => Failed end
  end.
(** 29-508 deepPathSearch *)
Definition search (path : list node) : outcome desc :=
  match path with
  | [_] => Found (Own [])
  | _ =>
    match climb [] (rev path) with
    | Gave o => o
    | Climbed (x :: r) (Some d) => descend x (Own d) r
    | Climbed stack _ => descend NFile (Own []) stack
    end
  end.
End Search.
