(** Which declaration a place in a document stands for. *)
From Coq Require Import Ascii String.
From Verif Require Import Base Strs.
From Verif.Compile Require Import Spec.
From Verif.Locate Require Import Model Spec.
From Verif.Definition Require Import Model.
Open Scope list_scope.

(** The names of declarations, the types of fields and the messages of methods, in the places where the
    search finds them (Locate, C119 and C120). *)
Inductive stands_for (u : unit_) : list node -> desc -> Prop :=
| sf_name c d : names_in (u_tops u) c d -> plain (u_tops u) NFile (tl c) -> stands_for u c (Own d)
| sf_message c c' d t : names_in (u_tops u) c d -> plain (u_tops u) NFile (tl c) -> type_path c c' -> u_types u d = TgMsg t -> stands_for u c' t
| sf_enum c c' d t : names_in (u_tops u) c d -> plain (u_tops u) NFile (tl c) -> type_path c c' -> last c' NFile <> NMapType -> u_types u d = TgEnum t -> stands_for u c' t
| sf_method c c' d i : names_in (u_tops u) c d -> plain (u_tops u) NFile (tl c) -> rpc_path i c c' -> stands_for u c' (u_io u d i).

(** After the history h, r is the current result of the file p: it linked, at least in part. *)
Definition current (h : list Compile.Model.op) (p : path) (r : rid) : Prop := latest h p (IsLinked r) \/ latest h p (IsPartial r).

(** The declaration that a descriptor of the result r is of: its own, or one of the result that an import of r was linked with. *)
Inductive declared (units : rid -> unit_) (r : rid) : desc -> rid -> way -> Prop :=
| dl_own w : declared units r (Own w) r w
| dl_import f w : declared units r (Other f w) (u_links (units r) f) w.
