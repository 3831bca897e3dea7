(* Specification for C111_no_error_partial: the files whose literals break into lines evenly. *)
From Coq Require Import Ascii String.
From Verif Require Import Base Strs.
From Verif.Format Require Import Model Spec.
From Verif.FormatTree Require Import Model Spec.
Import ListNotations.
Open Scope list_scope.

(* How many brackets of the value are open at the places where its text is broken into lines: a
   string of several literals starts on a new line; so does what follows the opening bracket of a
   literal whose first element is on a new line. *)
Fixpoint depths (v : value) : list nat :=
  match v with
  | VTok _ | VIdent _ | VNum _ _ => []
  | VStr _ => [0]
  | VMsg _ fs _ _ => if fields_expanded fs then [1] else map S (flat_map field_depths fs)
  | VArr _ vs _ _ _ => if values_expanded vs then [1] else map S (flat_map depths vs)
  end
with field_depths (m : mfield) : list nat := match m with MField _ _ v _ => depths v end.
Definition odepths (o : option value) : list nat := match o with Some v => depths v | None => [] end.
Definition copts_depths (oc : option copts) : list nat :=
  match oc with
  | Some c => if copts_expanded c then [1] else map S (flat_map (fun o => odepths (o_val o)) (co_opts c))
  | None => []
  end.
Definition relem_depths (e : relem) : list nat :=
  match e with RComma _ => [] | RVal v => depths v | RRange s _ e _ => depths s ++ odepths e end.
(* all at the same depth *)
Definition level (l : list nat) : Prop := forall x y, In x l -> In y l -> x = y.

(* Every literal breaks evenly; before the elements of a list on one line there are no comments and
   no blank lines, nor are there comments before the bracket that ends it. *)
Definition bare (v : value) : Prop := lead_of (value_toks v) = [] /\ newlines (ws_of (value_toks v)) <= 1.
Fixpoint neat (v : value) : Prop :=
  match v with
  | VTok _ | VIdent _ | VNum _ _ | VStr _ => True
  | VMsg _ fs _ _ => level (depths v) /\ (fix all l := match l with [] => True | m :: r => neat_field m /\ all r end) fs
  | VArr _ vs _ c _ =>
      level (depths v) /\ (values_expanded vs = false -> t_lead c = [] /\ Forall bare vs) /\
      (fix all l := match l with [] => True | v :: r => neat v /\ all r end) vs
  end
with neat_field (m : mfield) : Prop := match m with MField _ _ v _ => neat v end.
Definition oneat (o : option value) : Prop := match o with Some v => neat v | None => True end.
Definition neat_copts (oc : option copts) : Prop :=
  match oc with Some c => Forall (fun o => oneat (o_val o)) (co_opts c) | None => True end.
Definition neat_relem (e : relem) : Prop :=
  match e with RComma _ => True | RVal v => neat v | RRange s _ e _ => neat s /\ oneat e end.
(* The values and options of one declaration break evenly; the body of a group counts. *)
Fixpoint neat_decl (d : decl) : Prop :=
  let all := fix all l := match l with [] => True | d :: r => neat_decl d /\ all r end in
  match d with
  | DField _ _ _ _ tg os _ => oneat tg /\ neat_copts os /\ level (odepths tg ++ copts_depths os)
  | DMap _ _ _ _ _ _ _ _ _ tg os _ => neat tg /\ neat_copts os /\ level (depths tg ++ copts_depths os)
  | DEnumValue _ _ v os _ => neat v /\ neat_copts os /\ level (depths v ++ copts_depths os)
  | DOption o => oneat (o_val o)
  | DReserved _ es _ => Forall neat_relem es /\ level (flat_map relem_depths es)
  | DExtensions _ es os _ => Forall neat_relem es /\ neat_copts os /\ level (flat_map relem_depths es ++ copts_depths os)
  | DGroup _ _ _ _ tg os _ b _ _ => neat tg /\ neat_copts os /\ level (depths tg ++ copts_depths os ++ [1]) /\ all b
  | DMessage _ _ _ b _ _ | DEnum _ _ _ b _ _ | DOneof _ _ _ b _ _ | DExtend _ _ _ b _ _ | DService _ _ _ b _ _ | DRpc _ _ _ _ _ _ b _ => all b
  | DEmpty _ => True
  end.
Definition neat_fdecl (d : fdecl) : Prop :=
  match d with FPackage _ _ _ => True | FImport i => neat (i_name i) | FOption o => oneat (o_val o) | FDecl d => neat_decl d end.
Definition neat_file (f : file) : Prop :=
  match f_syntax f with Some (_, _, v, _) => neat v | None => True end /\ Forall neat_fdecl (f_decls f).
