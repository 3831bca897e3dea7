(** Model of what happens before a descriptor is printed: pkg/format/protoprint/internal/registry.go (the types that are
    registered), pkg/format/protoprint/print.go:349-355 (PrintProto), 516-550 (reparseUnknown) and 402-444 (findElement). *)
From Coq Require Import Ascii String ZArith.
From Verif Require Import Base Strs.
Open Scope list_scope.

(** descriptors, by what is registered of them *)
Record ext := mkExt { ext_name : bytes; extendee : bytes; number : Z }.
Inductive message := Message (name : bytes) (exts : list ext) (enums : list bytes) (messages : list message).
(** imports: whether they are public, and the file; files do not import themselves, even through others *)
Inductive file := File (exts : list ext) (enums : list bytes) (messages : list message) (imports : list (bool * file)).
Definition message_name (m : message) : bytes := match m with Message n _ _ _ => n end.

Inductive entry := EMessage (n : bytes) | EEnum (n : bytes) | EExt (e : ext).
Definition entry_name (e : entry) : bytes := match e with EMessage n | EEnum n => n | EExt x => ext_name x end.
(** protoregistry.Types: by its contract a name can be registered once, and a number of a message once *)
Definition clash (a b : entry) : bool :=
  beq (entry_name a) (entry_name b) ||
  match a, b with EExt x, EExt y => (beq (extendee x) (extendee y) && (number x =? number y)%Z)%bool | _, _ => false end.
(** Register..., whose errors are dropped (registry.go:29, 33, 36) *)
Definition register (r : list entry) (e : entry) : list entry := if existsb (clash e) r then r else r ++ [e].

(** registry.go:27-42 without the last loop *)
Definition register_own (only : bool) (es : list ext) (ens : list bytes) (ms : list message) (r : list entry) : list entry :=
  let r := fold_left (fun r e => register r (EExt e)) es r in
  if only then r else fold_left (fun r n => register r (EEnum n)) ens (fold_left (fun r m => register r (EMessage (message_name m))) ms r).
(** 27-42 *)
Fixpoint register_message (only : bool) (m : message) (r : list entry) : list entry :=
  match m with Message _ es ens ms => fold_left (fun r m => register_message only m r) ms (register_own only es ens ms r) end.
(** 17-25 *)
Fixpoint register_file (only public_only : bool) (f : file) (r : list entry) : list entry :=
  match f with
  | File es ens ms imps =>
      let r := fold_left (fun r m => register_message only m r) ms (register_own only es ens ms r) in
      fold_left (fun r i => if (fst i || negb public_only)%bool then register_file only true (snd i) r else r) imps r
  end.
(** 9-15 *)
Definition registered (only : bool) (f : file) : list entry := register_file only false f [].

(** a message of the descriptor: its full name, the fields that are set, by number, the bytes of unknown fields by number,
    and the messages in it *)
Inductive node := Node (full : bytes) (known : list (Z * bytes)) (unknown : list (Z * bytes)) (kids : list node).
Definition lookup_ext (r : list entry) (full : bytes) (n : Z) : option ext :=
  match find (fun e => match e with EExt x => (beq (extendee x) full && (number x =? n)%Z)%bool | _ => false end) r with
  | Some (EExt x) => Some x
  | _ => None
  end.
Section Reparse.
(** the decoding of the value of an extension, None if it is malformed *)
Variable decode : ext -> bytes -> option bytes.
(** proto.Unmarshal of the unknown bytes: the fields found and those still unknown *)
Fixpoint unmarshal (r : list entry) (full : bytes) (u : list (Z * bytes)) : option (list (Z * bytes) * list (Z * bytes)) :=
  match u with
  | [] => Some ([], [])
  | (n, b) :: u =>
      match unmarshal r full u with
      | None => None
      | Some (k, w) =>
          match lookup_ext r full n with
          | None => Some (k, (n, b) :: w)
          | Some x => match decode x b with Some v => Some ((n, v) :: k, w) | None => None end
          end
      end
  end.
(** 516-550 *)
Fixpoint reparse (r : list entry) (m : node) : node :=
  match m with
  | Node full k u kids =>
      let kids := map (reparse r) kids in
      match unmarshal r full u with Some (k', u') => Node full (k ++ k') u' kids | None => Node full k u kids end
  end.
(** 349-361: what printFile lists as the options of the file; extractOptions (1905-1944) takes those of the descriptor
    that are set.  protodesc.ToFileDescriptorProto makes a new message with copies of the options (its contract). *)
Definition to_proto (options : node) : node := options.
Definition print_proto (f : file) (options : node) : list (Z * bytes) :=
  let copy := reparse (registered false f) (to_proto options) in
  match options with Node _ k _ _ => k end.
End Reparse.

(** descriptors by their parents and their index there; [DField]: whether it is an extension *)
Inductive desc := DFile | DMessage (p : desc) (i : Z) | DField (p : desc) (i : Z) (is_ext : bool) | DOneof (p : desc) (i : Z) | DEnum (p : desc) (i : Z)
  | DValue (p : desc) (i : Z) | DService (p : desc) (i : Z) | DMethod (p : desc) (i : Z).
Definition is_message (d : desc) : bool := match d with DMessage _ _ => true | _ => false end.
(** 402-444; the tags are those of internal/util.go:35-167 *)
Fixpoint find_element (d : desc) : list Z :=
  match d with
  | DFile => []
  | DMessage p i => find_element p ++ [if is_message p then 3 else 4; i]%Z
  | DField p i true => find_element p ++ [if is_message p then 6 else 7; i]%Z
  | DField p i false => find_element p ++ [2; i]%Z
  | DOneof p i => find_element p ++ [8; i]%Z
  | DEnum p i => find_element p ++ [if is_message p then 4 else 5; i]%Z
  | DValue p i => find_element p ++ [2; i]%Z
  | DService p i => find_element p ++ [6; i]%Z
  | DMethod p i => find_element p ++ [2; i]%Z
  end.
