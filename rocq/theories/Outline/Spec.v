(** What a file declares, by the scoping of the language. *)
From Coq Require Import Ascii String.
From Verif Require Import Base Strs.
From Verif.Outline Require Import Model.
Open Scope list_scope.

(** A declared name: the names of the declarations it is shown inside of, its
    kind, itself. *)
Definition name_in := (list bytes * kind * info)%type.

(** Everything that is declared, in source order. Fields of a oneof are fields
    of the message; a group is a message and a field; an extension belongs to
    where the extend block is. *)
Fixpoint declared (scope : list bytes) (d : decl) : list name_in :=
  match d with
  | Message i body => (scope, KClass, i) :: flat_map (declared (scope ++ [i_name i])) body
  | Enum i body => (scope, KEnum, i) :: flat_map (declared (scope ++ [i_name i])) body
  | EnumValue i => [(scope, KMember, i)]
  | Field _ i => [(scope, KField, i)]
  | MapField i => [(scope, KField, i)]
  | Oneof _ body => flat_map (declared scope) body
  | Group i body => (scope, KClass, i) :: flat_map (declared (scope ++ [i_name i])) body
  | Extend _ body => flat_map (declared scope) body
  | Service i body => (scope, KInterface, i) :: flat_map (declared (scope ++ [i_name i])) body
  | Rpc i => [(scope, KMethod, i)]
  | OtherDecl => []
  end.

(** what an outline shows, read from top to bottom *)
Fixpoint shown (scope : list bytes) (s : symbol) : list name_in :=
  match s with
  | Sym k i children => (scope, k, i) :: flat_map (shown (scope ++ [i_name i])) children
  end.

(** Where declarations may be (the grammar). *)
Definition is_value (d : decl) : bool := match d with EnumValue _ | OtherDecl => true | _ => false end.
Definition is_ext (d : decl) : bool := match d with Field _ _ | Group _ _ | OtherDecl => true | _ => false end.
Definition is_method (d : decl) : bool := match d with Rpc _ | OtherDecl => true | _ => false end.
Definition is_choice (d : decl) : bool := match d with Field _ _ | Group _ _ | OtherDecl => true | _ => false end.

Fixpoint in_message (d : decl) : bool :=
  match d with
  | Message _ body | Group _ body => forallb in_message body
  | Enum _ body => forallb is_value body
  | Extend _ body => forallb (fun d => is_ext d && in_message d) body
  | Oneof _ body => forallb (fun d => is_choice d && in_message d) body
  | Field _ _ | MapField _ | OtherDecl => true
  | EnumValue _ | Service _ _ | Rpc _ => false
  end.
Definition at_top (d : decl) : bool :=
  match d with
  | Message _ body => forallb in_message body
  | Enum _ body => forallb is_value body
  | Extend _ body => forallb (fun d => is_ext d && in_message d) body
  | Service _ body => forallb is_method body
  | OtherDecl => true
  | _ => false
  end.

(** no oneofs, groups or unfinished fields anywhere *)
Fixpoint plain (d : decl) : bool :=
  match d with
  | Message _ body | Enum _ body | Extend _ body | Service _ body => forallb plain body
  | Oneof _ _ | Group _ _ => false
  | Field complete _ => complete
  | EnumValue _ | MapField _ | Rpc _ | OtherDecl => true
  end.

(** ** Places *)
Definition inside (r s : range) : Prop := fst s <= fst r /\ snd r <= snd s.

(** each declaration is inside the one around it, its name inside itself *)
Inductive placed : range -> decl -> Prop :=
| P_message s i b : inside (i_range i) s -> inside (i_name_range i) (i_range i) -> Forall (placed (i_range i)) b -> placed s (Message i b)
| P_enum s i b : inside (i_range i) s -> inside (i_name_range i) (i_range i) -> Forall (placed (i_range i)) b -> placed s (Enum i b)
| P_value s i : inside (i_range i) s -> inside (i_name_range i) (i_range i) -> placed s (EnumValue i)
| P_field s c i : inside (i_range i) s -> inside (i_name_range i) (i_range i) -> placed s (Field c i)
| P_map s i : inside (i_range i) s -> inside (i_name_range i) (i_range i) -> placed s (MapField i)
| P_oneof s i b : inside (i_range i) s -> Forall (placed (i_range i)) b -> placed s (Oneof i b)
| P_group s i b : inside (i_range i) s -> Forall (placed (i_range i)) b -> placed s (Group i b)
| P_extend s r b : inside r s -> Forall (placed r) b -> placed s (Extend r b)
| P_service s i b : inside (i_range i) s -> inside (i_name_range i) (i_range i) -> Forall (placed (i_range i)) b -> placed s (Service i b)
| P_rpc s i : inside (i_range i) s -> inside (i_name_range i) (i_range i) -> placed s (Rpc i)
| P_other s : placed s OtherDecl.

(** what the protocol requires of a symbol shown inside a range *)
Inductive well_placed : range -> symbol -> Prop :=
| WP s k i cs : inside (i_range i) s -> inside (i_name_range i) (i_range i) -> Forall (well_placed (i_range i)) cs ->
                well_placed s (Sym k i cs).

(** part of a list, in order *)
Inductive sub {A} : list A -> list A -> Prop :=
| sub_nil l : sub [] l
| sub_keep x l m : sub l m -> sub (x :: l) (x :: m)
| sub_skip x l m : sub l m -> sub l (x :: m).

(** no groups anywhere; and everything but fields *)
Fixpoint no_groups (d : decl) : bool :=
  match d with
  | Group _ _ => false
  | Message _ b | Enum _ b | Oneof _ b | Extend _ b | Service _ b => forallb no_groups b
  | _ => true
  end.
Definition is_type (e : name_in) : bool := match snd (fst e) with KField => false | _ => true end.
