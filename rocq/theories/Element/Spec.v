(** What a file sees, and what paths in descriptors mean. *)
From Coq Require Import Ascii String ZArith.
From Verif Require Import Base Strs.
From Verif.Element Require Import Model.
Open Scope list_scope.

(** types declared in a message, at any depth *)
Inductive in_message : message -> entry -> Prop :=
| im_ext n es ens ms e : In e es -> in_message (Message n es ens ms) (EExt e)
| im_enum n es ens ms x : In x ens -> in_message (Message n es ens ms) (EEnum x)
| im_message n es ens ms n' es' ens' ms' : In (Message n' es' ens' ms') ms -> in_message (Message n es ens ms) (EMessage n')
| im_deep n es ens ms m e : In m ms -> in_message m e -> in_message (Message n es ens ms) e.
(** and in a file *)
Inductive in_file (f : file) : entry -> Prop :=
| if_ext es ens ms is e : f = File es ens ms is -> In e es -> in_file f (EExt e)
| if_enum es ens ms is x : f = File es ens ms is -> In x ens -> in_file f (EEnum x)
| if_message es ens ms is n' es' ens' ms' : f = File es ens ms is -> In (Message n' es' ens' ms') ms -> in_file f (EMessage n')
| if_deep es ens ms is m e : f = File es ens ms is -> In m ms -> in_message m e -> in_file f e.
Definition imports_of (f : file) : list (bool * file) := match f with File _ _ _ is => is end.
(** a file sees itself, what it imports, and what that imports publicly *)
Inductive passes_on : file -> file -> Prop :=
| po_self g : passes_on g g
| po_public g h k : In (true, h) (imports_of g) -> passes_on h k -> passes_on g k.
Inductive sees : file -> file -> Prop :=
| s_self f : sees f f
| s_import f b g h : In (b, g) (imports_of f) -> passes_on g h -> sees f h.
Definition is_ext (e : entry) : Prop := exists x, e = EExt x.
(** two entries that cannot be registered both *)
Definition conflict (a b : entry) : Prop :=
  entry_name a = entry_name b \/ exists x y, a = EExt x /\ b = EExt y /\ extendee x = extendee y /\ number x = number y.

(** descriptors that exist *)
Inductive exists_ : desc -> Prop :=
| x_file : exists_ DFile
| x_message0 i : exists_ (DMessage DFile i)
| x_message p j i : exists_ (DMessage p j) -> exists_ (DMessage (DMessage p j) i)
| x_field p j i : exists_ (DMessage p j) -> exists_ (DField (DMessage p j) i false)
| x_ext0 i : exists_ (DField DFile i true)
| x_ext p j i : exists_ (DMessage p j) -> exists_ (DField (DMessage p j) i true)
| x_oneof p j i : exists_ (DMessage p j) -> exists_ (DOneof (DMessage p j) i)
| x_enum0 i : exists_ (DEnum DFile i)
| x_enum p j i : exists_ (DMessage p j) -> exists_ (DEnum (DMessage p j) i)
| x_value p j i : exists_ (DEnum p j) -> exists_ (DValue (DEnum p j) i)
| x_service i : exists_ (DService DFile i)
| x_method j i : exists_ (DMethod (DService DFile j) i).
(** where a pair of a field number and an index leads, by google/protobuf/descriptor.proto *)
Definition child (d : desc) (tag i : Z) : option desc :=
  match d, tag with
  | DFile, 4%Z => Some (DMessage d i) | DFile, 5%Z => Some (DEnum d i) | DFile, 6%Z => Some (DService d i) | DFile, 7%Z => Some (DField d i true)
  | DMessage _ _, 2%Z => Some (DField d i false) | DMessage _ _, 3%Z => Some (DMessage d i) | DMessage _ _, 4%Z => Some (DEnum d i)
  | DMessage _ _, 6%Z => Some (DField d i true) | DMessage _ _, 8%Z => Some (DOneof d i)
  | DEnum _ _, 2%Z => Some (DValue d i)
  | DService _ _, 2%Z => Some (DMethod d i)
  | _, _ => None
  end.
Inductive leads : desc -> list Z -> desc -> Prop :=
| l_here d : leads d [] d
| l_child d tag i d1 path d2 : child d tag i = Some d1 -> leads d1 path d2 -> leads d (tag :: i :: path) d2.
