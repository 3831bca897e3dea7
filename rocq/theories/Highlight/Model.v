(** Model of the semantic tokens computed for a syntax tree: pkg/lsp/semantic.go inspect (454-686) with
    mktokens, mkcomments (which comments), inspectCompoundIdent, inspectFieldLiteral and inspectArrayLiteral
    (284-309, 326-412, 688-703, 785-880).

    Trees are those of the formatter's model (FormatTree).  A reported item is given by the tokens it covers;
    how the literal of one token is split (C54) and how comments are cut into lines (C55) is modelled in
    Tokens, the order and encoding of the items in C15.  The walk (ast.Inspect) visits every node and token of
    the tree once, in source order, unless the visitor returns false (contract).  Identifiers are keywords in
    the places the grammar has a keyword in (contract); for the values of options and fields, where the parser
    cannot tell, [kw_value] says what it does.  Not modelled: message literals with both a field [id] and a
    field [expression] (CEL), incomplete nodes. *)
From Coq Require Import Ascii String.
From Verif Require Import Base Strs.
From Verif.FormatTree Require Import Model.
Import ListNotations.
Open Scope list_scope.

(** 16-60 *)
Inductive ttype := TNamespace | TType | TClass | TInterface | TVariable | TProperty | TEnumMember | TFunction | TKeyword | TString | TNumber | TOperator.
Record style := Style { s_type : ttype; s_lib : bool; s_def : bool }.
Definition sty (t : ttype) : style := Style t false false.
Definition def (t : ttype) : style := Style t false true.
Inductive item := Tok (ts : list token) (s : style) | Com (c : comment).

(** 326-412: the comments of a node are those before its first and after its last token *)
Definition real (c : comment) : bool := negb (c_virtual c).
Definition coms (ts : list token) : list item := map Com (lead_of ts) ++ map Com (filter real (trail_of ts)).
(** 284-309 *)
Definition mk (ts : list token) (s : style) : list item := match ts with [] => [] | _ => Tok ts s :: coms ts end.

(** 488-499 *)
Definition punct : bytes := b_ "}{.,<>()[];:".
Definition is_punct (t : token) : bool := match t_text t with [c] => existsb (Ascii.eqb c) punct | _ => false end.
Definition visit_rune (t : token) : list item :=
  if t_virtual t then [] else if is_punct t then coms [t] else mk [t] (sty TOperator).
(** 468-487: a token that is not a keyword *)
Definition visit (t : token) : list item :=
  match t_kind t with
  | KId => []
  | KNum => mk [t] (sty TNumber)
  | KStr => mk [t] (sty TString)
  | KRune => visit_rune t
  end.
Definition visits (ts : list token) : list item := flat_map visit ts.
Definition keyword (t : token) : list item := mk [t] (sty TKeyword).
Definition okeyword (o : option token) : list item := match o with Some t => keyword t | None => [] end.
Definition ovisit (o : option token) : list item := visits (otoks o).

(** 688-703: the text of the node is its name if there is nothing between the parts *)
Fixpoint tight (ts : list token) : bool :=
  match ts with
  | t :: ((u :: _) as r) => negb (nonempty (t_trail t)) && negb (nonempty (t_lead u)) && negb (nonempty (t_ws u)) && tight r
  | _ => true
  end.
Fixpoint contains (s w : bytes) : bool := has_prefix s w || match s with [] => false | _ :: r => contains r w end.
Definition name_text (ts : list token) : bytes := flat_map t_text ts.
Definition trim_dot (s : bytes) : bytes := match s with c :: r => if Ascii.eqb c "." then r else s | [] => [] end.
Definition compound (ts : list token) : list item :=
  let s := Style TType (contains (trim_dot (name_text ts)) (b_ "google.protobuf.")) false in
  if tight ts then mk ts s else flat_map (fun t => mk [t] s) ts.

Inductive vkind := VFloat | VBool | VEnum (members : list bytes) | VElse.
Definition is_bool (s : bytes) : bool := beq s (b_ "true") || beq s (b_ "false").
Definition member (s : bytes) (ms : list bytes) : bool := existsb (beq s) ms.
(* a number that is a word: SpecialFloatLiteralNode *)
Definition lower1 (c : ascii) : ascii := let n := nat_of_ascii c in if (65 <=? n) && (n <=? 90) then ascii_of_nat (n + 32) else c.
Definition is_special (s : bytes) : bool := beq (map lower1 s) (b_ "inf") || beq (map lower1 s) (b_ "nan").
Definition special (t : token) : bool := match t_kind t with KNum => is_special (t_text t) | _ => false end.
Definition is_id (t : token) : bool := match t_kind t with KId => true | _ => false end.

Section Walk.
(* protocompile.IsScalarType or IsWellKnownType *)
Variable lib_type : bytes -> bool.
Variable kw_value : token -> bool.
(* the linker's results, if there are any: the kind of the field a node of a message literal or an option sets *)
Variable field_kind : mfield -> option vkind.
Variable option_kind : opt -> option vkind.

(** 785-831 for a value that is no list *)
Definition literal_items (k : option vkind) (v : value) : list item :=
  match k, v with
  | Some VFloat, VTok t => if special t then mk [t] (sty TNumber) else []
  | Some VBool, VTok t => if is_id t && is_bool (t_text t) then mk [t] (sty TKeyword) else []
  | Some (VEnum ms), VTok t => if is_id t && member (t_text t) ms then mk [t] (sty TEnumMember) else []
  | _, _ => []
  end.
(** 833-880 for one element of a list *)
Definition element_items (k : option vkind) (v : value) : list item :=
  match k, v with
  | Some VBool, VTok t => if is_id t && kw_value t && is_bool (t_text t) then mk [t] (sty TKeyword) else []
  | _, _ => literal_items k v
  end.
(** 638-643 *)
Definition field_value_items (k : option vkind) (v : value) : list item :=
  match v with VArr _ vs _ _ _ => flat_map (element_items k) vs | _ => literal_items k v end.
(** 484-487 for an identifier that is a value *)
Definition visit_value (t : token) : list item := if is_id t then (if kw_value t then keyword t else []) else visit t.
(** 611-637 *)
Definition ref_items (r : fieldref) : list item :=
  match fr_open r, fr_slash r with
  | Some o, Some s =>
      mk [o] (sty TOperator) ++ match fr_url r with Some u => mk (ident_toks u) (Style TType true false) | None => [] end ++
      mk [s] (Style TType true false) ++ mk (ident_toks (fr_name r)) (sty TType) ++ mk (otoks (fr_close r)) (sty TOperator)
  | Some o, None => mk [o] (sty TOperator) ++ mk (ident_toks (fr_name r)) (sty TProperty) ++ mk (otoks (fr_close r)) (sty TOperator)
  | None, _ => mk (ref_toks r) (sty TProperty)
  end.
Fixpoint weave (vs : list (list item)) (cs : list token) : list item :=
  match vs with
  | [] => visits cs
  | v :: r => match cs with [] => v ++ weave r [] | c :: cr => v ++ visit c ++ weave r cr end
  end.
(** the walk over a value: 468-499, 586-643 *)
Fixpoint walk_value (v : value) : list item :=
  match v with
  | VTok t => visit_value t
  | VIdent ts => visits ts
  | VStr ts => visits ts
  | VNum s n => visit s ++ mk [n] (sty TNumber)
  | VMsg o fs c sm => visit o ++ flat_map walk_field fs ++ visit c ++ ovisit sm
  | VArr o vs cs c sm => visit o ++ weave (map walk_value vs) cs ++ visit c ++ ovisit sm
  end
with walk_field (m : mfield) : list item :=
  match m with
  | MField n s v sm => ref_items n ++ field_value_items (field_kind m) v ++ visits (ref_toks n) ++ ovisit s ++ walk_value v ++ ovisit sm
  end.

(** 532-556: the parts of the name of an option; its tokens are not visited *)
Definition pseudo (s : bytes) : bool := beq s (b_ "default") || beq s (b_ "json_name").
Definition part_items (p : part) : list item :=
  match p with
  | PRef r => match fr_open r with
              | Some o => mk [o] (sty TOperator) ++ mk (ident_toks (fr_name r)) (sty TProperty) ++ mk (otoks (fr_close r)) (sty TOperator)
              | None => mk (ident_toks (fr_name r)) (sty (if pseudo (name_text (ident_toks (fr_name r))) then TKeyword else TProperty))
              end
  | PDot t => mk [t] (sty TProperty)
  end.
(** 557-585.  The last part of the name is not unwrapped, so inspectFieldLiteral and inspectArrayLiteral find no
    descriptor for it (562, 564, 790-795, 838-843) and do nothing. *)
Definition option_value_items (k : option vkind) (v : option value) : list item :=
  match v with
  | Some (VTok t) =>
      if is_id t && negb (kw_value t) then
        match k with
        | Some VBool => mk [t] (sty (if is_bool (t_text t) then TKeyword else TVariable))
        | Some (VEnum ms) => mk [t] (sty (if member (t_text t) ms then TEnumMember else TVariable))
        | Some VFloat => if is_special (t_text t) then mk [t] (sty TNumber) else []
        | _ => []
        end
      else []
  | _ => []
  end.
Definition walk_option (o : opt) : list item :=
  option_value_items (option_kind o) (o_val o) ++ okeyword (o_kw o) ++
  match o_name o with Some ps => flat_map part_items ps | None => [] end ++ ovisit (o_eq o) ++
  match o_val o with Some v => walk_value v | None => [] end ++ ovisit (o_semi o).
Definition walk_copts (c : copts) : list item :=
  visit (co_open c) ++ flat_map walk_option (co_opts c) ++ visit (co_close c) ++ ovisit (co_semi c).
Definition ocopts (o : option copts) : list item := match o with Some c => walk_copts c | None => [] end.
Definition ovalue (o : option value) : list item := match o with Some v => walk_value v | None => [] end.
Definition walk_relem (e : relem) : list item :=
  match e with
  | RComma t => visit t
  | RVal v => walk_value v
  | RRange s to e m => walk_value s ++ okeyword to ++ ovalue e ++ okeyword m
  end.
(** 500-506, 517-527: a type *)
Definition type_items (i : ident) (s : style) : list item :=
  match i with Id t => mk [t] s | Cid ts => compound ts end.
(** 650-655 *)
Definition walk_rpctype (r : rpctype) : list item :=
  mk (ident_toks (rt_type r)) (sty TType) ++ visit (rt_open r) ++ okeyword (rt_stream r) ++ visits (ident_toks (rt_type r)) ++ visit (rt_close r).
(** 500-686: what a declaration and the nodes in it lead to *)
Fixpoint walk (d : decl) : list item :=
  match d with
  | DField l ty n e tg os sm =>
      type_items ty (Style TType (lib_type (name_text (ident_toks ty))) false) ++ mk (otoks n) (def TVariable) ++
      okeyword l ++ visits (ident_toks ty) ++ ovisit n ++ ovisit e ++ ovalue tg ++ ocopts os ++ ovisit sm
  | DMap kw o k cm v c tsm n e tg os sm =>
      mk [n] (sty TProperty) ++ mk (ident_toks k) (sty TType) ++ mk (ident_toks v) (sty TType) ++
      keyword kw ++ visit o ++ visits (ident_toks k) ++ visit cm ++ visits (ident_toks v) ++ visit c ++ ovisit tsm ++
      visit n ++ visit e ++ walk_value tg ++ ocopts os ++ ovisit sm
  | DEnumValue n e v os sm => mk [n] (sty TEnumMember) ++ visit n ++ visit e ++ walk_value v ++ ocopts os ++ ovisit sm
  | DOption o => walk_option o
  | DReserved kw es sm => keyword kw ++ flat_map walk_relem es ++ ovisit sm
  | DExtensions kw es os sm => keyword kw ++ flat_map walk_relem es ++ ocopts os ++ ovisit sm
  | DMessage kw n o b c sm => mk [n] (def TType) ++ keyword kw ++ visit n ++ visit o ++ flat_map walk b ++ visit c ++ ovisit sm
  | DEnum kw n o b c sm => mk [n] (sty TClass) ++ keyword kw ++ visit n ++ visit o ++ flat_map walk b ++ visit c ++ ovisit sm
  | DOneof kw n o b c sm => mk [n] (def TInterface) ++ keyword kw ++ visit n ++ visit o ++ flat_map walk b ++ visit c ++ ovisit sm
  | DService kw n o b c sm => mk [n] (sty TClass) ++ keyword kw ++ visit n ++ visit o ++ flat_map walk b ++ visit c ++ ovisit sm
  | DExtend kw x o b c sm =>
      match x with Some i => type_items i (sty TType) | None => [] end ++ keyword kw ++
      match x with Some i => visits (ident_toks i) | None => [] end ++ visit o ++ flat_map walk b ++ visit c ++ ovisit sm
  | DGroup l kw n e tg os o b c sm =>
      mk [n] (def TType) ++ okeyword l ++ keyword kw ++ visit n ++ visit e ++ walk_value tg ++ ocopts os ++ visit o ++ flat_map walk b ++ visit c ++ ovisit sm
  | DRpc kw n i rt u br b sm =>
      mk [n] (sty TFunction) ++ keyword kw ++ visit n ++ walk_rpctype i ++ keyword rt ++ walk_rpctype u ++
      match br with Some (o, c) => visit o ++ flat_map walk b ++ visit c | None => flat_map walk b end ++ ovisit sm
  | DEmpty t => visit t
  end.
Definition walk_import (i : import) : list item := keyword (i_kw i) ++ okeyword (i_mod i) ++ walk_value (i_name i) ++ ovisit (i_semi i).
Definition walk_fdecl (d : fdecl) : list item :=
  match d with
  | FPackage kw n sm =>
      match n with Some i => mk (ident_toks i) (sty TNamespace) | None => [] end ++ keyword kw ++
      match n with Some i => visits (ident_toks i) | None => [] end ++ ovisit sm
  | FImport i => walk_import i
  | FOption o => walk_option o
  | FDecl d => walk d
  end.
(** the end of the file is a rune 0, at which nothing is done (489-491) *)
Definition walk_file (f : file) : list item :=
  match f_syntax f with
  | Some (k, e, v, sm) => keyword k ++ visit e ++ walk_value v ++ ovisit sm
  | None => []
  end ++ flat_map walk_fdecl (f_decls f).
End Walk.
