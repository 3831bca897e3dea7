(** Model of the completion of type names, pkg/lsp/completion.go:1015-1100 (line numbers without a file),
    with the searches of pkg/lsp/cache.go:366-451 it starts from.

    A file is its package and its descriptors with their full names, as in PrefixSearch; which files are
    searched is the subject of the Compile area, and the order of their descriptors is the linker's.  The
    order by distance (1067) is a parameter that permutes (C31 says which order it is).  Of an item the
    label, its kind and the text inserted are kept; where the text goes is C61 and C143, the import that
    comes with it is C124. *)
From Coq Require Import Ascii String.
From Verif Require Import Base Strs.
From Verif.Completion Require Import Model.
Open Scope list_scope.

(** descriptors: a message (is it the entry of a map; has it extension ranges), an enum, or anything else *)
Inductive kind := KMessage (entry ranges : bool) | KEnum | KOther.
Record desc := mkDesc { d_name : bytes; d_kind : kind }.
Record file := mkFile { f_pkg : bytes; f_descs : list desc }.

Inductive shown := AsClass | AsEnum.
Record titem := mkTitem { t_label : bytes; t_shown : shown; t_text : bytes; t_desc : desc }.

(** 1017-1025 and 1038-1044 *)
Definition is_type (d : desc) : bool := match d_kind d with KMessage e _ => negb e | KEnum => true | KOther => false end.
Definition is_extendable (d : desc) : bool := match d_kind d with KMessage e r => negb e && r | _ => false end.

(** linker.Result.FindDescriptorsByPrefix, by its contract *)
Definition by_prefix (keep : desc -> bool) (f : file) (p : bytes) : list desc :=
  filter (fun d => has_prefix (d_name d) p && keep d) (f_descs f).
(** cache.go:366-399 and 330-342 (All) *)
Definition find_relative (keep : desc -> bool) (fs : list file) (partial : bytes) : list desc :=
  flat_map (fun f => match f_pkg f with [] => [] | _ => by_prefix keep f (f_pkg f ++ dot :: partial) end) fs.
(** cache.go:409-451 *)
Definition find_qualified (keep : desc -> bool) (fs : list file) (partial : bytes) : list desc :=
  let full := has_prefix partial [dot] in
  let p := if full then tl partial else partial in
  flat_map (fun f => match f_pkg f with
                     | [] => []
                     | _ => if full && negb (has_prefix (f_pkg f) p) then [] else by_prefix keep f p
                     end) fs.
Definition contains_dot (s : bytes) : bool := existsb (Ascii.eqb dot) s.
(** 1026-1030, 1045-1049 *)
Definition find_all (keep : desc -> bool) (fs : list file) (partial : bytes) : list desc :=
  if contains_dot partial then find_qualified keep fs partial else find_relative keep fs partial.

Section Complete.
(** distanceSort, 1067 *)
Variable order : list desc -> list desc.

(** 1056-1100 completeTypeNamesFromList; [pkg] is the package of the file edited *)
Definition from_list (candidates : list desc) (partial pkg : bytes) : list titem :=
  flat_map (fun d =>
    let l := type_label partial pkg (d_name d) in
    match d_kind d with
    | KMessage _ _ => [mkTitem l AsClass l d]
    | KEnum => [mkTitem l AsEnum l d]
    | KOther => []
    end) (order candidates).
(** 1015-1033 *)
Definition complete_types (fs : list file) (partial pkg : bytes) : list titem :=
  from_list (find_all is_type fs partial) partial pkg.
(** 717-735: the messages that proto3 files may extend *)
Definition allowed : list desc :=
  map (fun n => mkDesc (b_ "google.protobuf." ++ b_ n) (KMessage false true))
    ["FileOptions"; "MessageOptions"; "FieldOptions"; "OneofOptions"; "ExtensionRangeOptions"; "EnumOptions"; "EnumValueOptions"; "ServiceOptions"; "MethodOptions"]%string.
(** 1035-1054 *)
Definition complete_extendees (proto2 : bool) (fs : list file) (partial pkg : bytes) : list titem :=
  from_list (if proto2 then find_all is_extendable fs partial else allowed) partial pkg.
End Complete.
