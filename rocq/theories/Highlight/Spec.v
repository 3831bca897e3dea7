(** Vocabulary for C131-C133, independent of the walk: what every token of a declaration is, how each kind of
    token is to be shown, and the comments of a declaration. *)
From Coq Require Import Ascii String.
From Verif Require Import Base Strs.
From Verif.FormatTree Require Import Model.
From Verif.Highlight Require Import Model.
Import ListNotations.
Open Scope list_scope.

(** ** What is reported *)
Definition shown (i : item) : list (token * ttype * bool) := match i with Tok ts s => map (fun t => (t, s_type s, s_def s)) ts | Com _ => [] end.
Definition tokens_shown (l : list item) : list (token * ttype * bool) := flat_map shown l.
Definition comments_shown (l : list item) : list comment := flat_map (fun i => match i with Com c => [c] | Tok _ _ => [] end) l.

(** without results of the linker *)
Definition no_kw (_ : token) : bool := false.
Definition no_field (_ : mfield) : option vkind := None.
Definition no_option (_ : opt) : option vkind := None.

(** ** What every token is *)
Inductive role :=
| Keyword | TypeName | TypeUrl | FieldName | MapFieldName | EnumValueName | MessageName | OneofName | EnumName | ServiceName | MethodName
| PackageName | OptionName | PseudoOption | Bracket | Number | StringLiteral | Operator | Punctuation | ValueName | Inserted.
(** how it is shown: its type, and whether it is marked as a definition *)
Definition style_of (r : role) : option (ttype * bool) :=
  match r with
  | Keyword | PseudoOption => Some (TKeyword, false)
  | TypeName | TypeUrl => Some (TType, false)
  | FieldName => Some (TVariable, true)
  | MapFieldName | OptionName => Some (TProperty, false)
  | EnumValueName => Some (TEnumMember, false)
  | MessageName => Some (TType, true)
  | OneofName => Some (TInterface, true)
  | EnumName | ServiceName => Some (TClass, false)
  | MethodName => Some (TFunction, false)
  | PackageName => Some (TNamespace, false)
  | Number => Some (TNumber, false)
  | StringLiteral => Some (TString, false)
  | Bracket | Operator => Some (TOperator, false)
  | Punctuation | ValueName | Inserted => None
  end.
Definition marks := list (token * role).
Definition expected (m : marks) : list (token * ttype * bool) :=
  flat_map (fun '(t, r) => match style_of r with Some (ty, d) => [(t, ty, d)] | None => [] end) m.

Definition all_ (r : role) (ts : list token) : marks := map (fun t => (t, r)) ts.
Definition rune (r : role) (t : token) : marks := [(t, if t_virtual t then Inserted else r)].
Definition pun (t : token) : marks := rune Punctuation t.
Definition opun (o : option token) : marks := match o with Some t => pun t | None => [] end.
Definition sign (t : token) : marks := rune Operator t.
Definition osign (o : option token) : marks := match o with Some t => sign t | None => [] end.
Definition okw (o : option token) : marks := all_ Keyword (otoks o).
Definition omark {A} (f : A -> marks) (o : option A) : marks := match o with Some a => f a | None => [] end.
Definition imark (r : role) (i : ident) : marks := all_ r (ident_toks i).
(** the name of a field of a message literal: a name, [extension] or [url/type] *)
Definition ref_marks (r : fieldref) : marks :=
  match fr_open r, fr_slash r with
  | Some o, Some s => (o, Bracket) :: omark (imark TypeUrl) (fr_url r) ++ (s, TypeUrl) :: imark TypeName (fr_name r) ++ all_ Bracket (otoks (fr_close r))
  | Some o, None => (o, Bracket) :: imark OptionName (fr_name r) ++ all_ Bracket (otoks (fr_close r))
  | None, _ => imark OptionName (fr_name r)
  end.
Fixpoint weave_marks (vs : list marks) (cs : list token) : marks :=
  match vs with
  | [] => flat_map pun cs
  | v :: r => match cs with [] => v ++ weave_marks r [] | c :: cr => v ++ pun c ++ weave_marks r cr end
  end.
Fixpoint value_marks (v : value) : marks :=
  match v with
  | VTok t => [(t, match t_kind t with KId => ValueName | KNum => Number | KStr => StringLiteral | KRune => Punctuation end)]
  | VIdent ts => all_ ValueName ts
  | VStr ts => all_ StringLiteral ts
  | VNum s n => sign s ++ [(n, Number)]
  | VMsg o fs c sm => pun o ++ flat_map field_marks fs ++ pun c ++ opun sm
  | VArr o vs cs c sm => pun o ++ weave_marks (map value_marks vs) cs ++ pun c ++ opun sm
  end
with field_marks (m : mfield) : marks :=
  match m with MField n s v sm => ref_marks n ++ opun s ++ value_marks v ++ opun sm end.
(** the two options of fields that belong to the language *)
Definition language_option (s : bytes) : bool := existsb (beq s) [b_ "default"; b_ "json_name"].
(** the name of an option: names, the dots between them, and (extensions) *)
Definition part_marks (p : part) : marks :=
  match p with
  | PRef r => match fr_open r with
              | Some o => (o, Bracket) :: imark OptionName (fr_name r) ++ all_ Bracket (otoks (fr_close r))
              | None => imark (if language_option (flat_map t_text (ident_toks (fr_name r))) then PseudoOption else OptionName) (fr_name r)
              end
  | PDot t => [(t, OptionName)]
  end.
Definition option_marks (o : opt) : marks :=
  okw (o_kw o) ++ omark (flat_map part_marks) (o_name o) ++ osign (o_eq o) ++ omark value_marks (o_val o) ++ opun (o_semi o).
Definition copts_marks (c : copts) : marks := pun (co_open c) ++ flat_map option_marks (co_opts c) ++ pun (co_close c) ++ opun (co_semi c).
Definition relem_marks (e : relem) : marks :=
  match e with
  | RComma t => pun t
  | RVal v => value_marks v
  | RRange s to e m => value_marks s ++ okw to ++ omark value_marks e ++ okw m
  end.
Definition rpctype_marks (r : rpctype) : marks := pun (rt_open r) ++ okw (rt_stream r) ++ imark TypeName (rt_type r) ++ pun (rt_close r).
Fixpoint decl_marks (d : decl) : marks :=
  match d with
  | DField l ty n e tg os sm =>
      okw l ++ imark TypeName ty ++ all_ FieldName (otoks n) ++ osign e ++ omark value_marks tg ++ omark copts_marks os ++ opun sm
  | DMap kw o k cm v c tsm n e tg os sm =>
      (kw, Keyword) :: pun o ++ imark TypeName k ++ pun cm ++ imark TypeName v ++ pun c ++ opun tsm ++
      (n, MapFieldName) :: sign e ++ value_marks tg ++ omark copts_marks os ++ opun sm
  | DEnumValue n e v os sm => (n, EnumValueName) :: sign e ++ value_marks v ++ omark copts_marks os ++ opun sm
  | DOption o => option_marks o
  | DReserved kw es sm => (kw, Keyword) :: flat_map relem_marks es ++ opun sm
  | DExtensions kw es os sm => (kw, Keyword) :: flat_map relem_marks es ++ omark copts_marks os ++ opun sm
  | DMessage kw n o b c sm => (kw, Keyword) :: (n, MessageName) :: pun o ++ flat_map decl_marks b ++ pun c ++ opun sm
  | DEnum kw n o b c sm => (kw, Keyword) :: (n, EnumName) :: pun o ++ flat_map decl_marks b ++ pun c ++ opun sm
  | DOneof kw n o b c sm => (kw, Keyword) :: (n, OneofName) :: pun o ++ flat_map decl_marks b ++ pun c ++ opun sm
  | DService kw n o b c sm => (kw, Keyword) :: (n, ServiceName) :: pun o ++ flat_map decl_marks b ++ pun c ++ opun sm
  | DExtend kw x o b c sm => (kw, Keyword) :: omark (imark TypeName) x ++ pun o ++ flat_map decl_marks b ++ pun c ++ opun sm
  | DGroup l kw n e tg os o b c sm =>
      okw l ++ (kw, Keyword) :: (n, MessageName) :: sign e ++ value_marks tg ++ omark copts_marks os ++ pun o ++ flat_map decl_marks b ++ pun c ++ opun sm
  | DRpc kw n i rt u br b sm =>
      (kw, Keyword) :: (n, MethodName) :: rpctype_marks i ++ (rt, Keyword) :: rpctype_marks u ++
      match br with Some (o, c) => pun o ++ flat_map decl_marks b ++ pun c | None => flat_map decl_marks b end ++ opun sm
  | DEmpty t => pun t
  end.
Definition fdecl_marks (d : fdecl) : marks :=
  match d with
  | FPackage kw n sm => (kw, Keyword) :: omark (imark PackageName) n ++ opun sm
  | FImport i => (i_kw i, Keyword) :: okw (i_mod i) ++ value_marks (i_name i) ++ opun (i_semi i)
  | FOption o => option_marks o
  | FDecl d => decl_marks d
  end.
Definition file_marks (f : file) : marks :=
  match f_syntax f with
  | Some (k, e, v, sm) => (k, Keyword) :: sign e ++ value_marks v ++ opun sm
  | None => []
  end ++ flat_map fdecl_marks (f_decls f).

(** ** Tokens that are reported twice: the slashes of type URLs, which are operators as well *)
Definition ref_again (r : fieldref) : list (token * ttype * bool) :=
  match fr_open r, fr_slash r with Some _, Some s => if t_virtual s then [] else [(s, TOperator, false)] | _, _ => [] end.
Fixpoint value_again (v : value) : list (token * ttype * bool) :=
  match v with
  | VMsg _ fs _ _ => flat_map field_again fs
  | VArr _ vs _ _ _ => flat_map value_again vs
  | _ => []
  end
with field_again (m : mfield) : list (token * ttype * bool) := match m with MField n _ v _ => ref_again n ++ value_again v end.
Definition oagain {A B} (f : A -> list B) (o : option A) : list B := match o with Some a => f a | None => [] end.
Definition option_again (o : opt) : list (token * ttype * bool) := oagain value_again (o_val o).
Definition copts_again (c : copts) : list (token * ttype * bool) := flat_map option_again (co_opts c).
Definition relem_again (e : relem) : list (token * ttype * bool) :=
  match e with RComma _ => [] | RVal v => value_again v | RRange s _ e _ => value_again s ++ oagain value_again e end.
Fixpoint decl_again (d : decl) : list (token * ttype * bool) :=
  match d with
  | DField _ _ _ _ tg os _ => oagain value_again tg ++ oagain copts_again os
  | DMap _ _ _ _ _ _ _ _ _ tg os _ => value_again tg ++ oagain copts_again os
  | DEnumValue _ _ v os _ => value_again v ++ oagain copts_again os
  | DOption o => option_again o
  | DReserved _ es _ => flat_map relem_again es
  | DExtensions _ es os _ => flat_map relem_again es ++ oagain copts_again os
  | DMessage _ _ _ b _ _ | DEnum _ _ _ b _ _ | DOneof _ _ _ b _ _ | DService _ _ _ b _ _ | DExtend _ _ _ b _ _ => flat_map decl_again b
  | DGroup _ _ _ _ tg os _ b _ _ => value_again tg ++ oagain copts_again os ++ flat_map decl_again b
  | DRpc _ _ _ _ _ _ b _ => flat_map decl_again b
  | DEmpty _ => []
  end.
Definition fdecl_again (d : fdecl) : list (token * ttype * bool) :=
  match d with FPackage _ _ _ => [] | FImport i => value_again (i_name i) | FOption o => option_again o | FDecl d => decl_again d end.
Definition file_again (f : file) : list (token * ttype * bool) :=
  match f_syntax f with Some (_, _, v, _) => value_again v | None => [] end ++ flat_map fdecl_again (f_decls f).

(** ** Comments *)
Definition in_text (c : comment) : bool := negb (c_virtual c).
Definition seen1 (t : token) : list comment := t_lead t ++ filter in_text (t_trail t).
Definition seen (ts : list token) : list comment := flat_map seen1 ts.
(** the comments between the tokens of a name, at those tokens [f] holds of *)
Fixpoint inner_r (f : token -> bool) (ts : list token) : list comment :=
  match ts with
  | [] => []
  | t :: r => match r with [] => if f t then t_lead t else [] | _ => (if f t then seen1 t else []) ++ inner_r f r end
  end.
Definition inner (f : token -> bool) (ts : list token) : list comment :=
  match ts with
  | t :: r => match r with [] => [] | _ => (if f t then filter in_text (t_trail t) else []) ++ inner_r f r end
  | [] => []
  end.
Definition quiet (t : token) : bool := is_id t || t_virtual t.
Definition loud (t : token) : list comment := if quiet t then [] else seen1 t.
(** not reported, reported twice: names reported as one item and then visited; names of options, not visited;
    names whose parts are reported one by one, and visited *)
Definition missed_name (i : ident) : list comment := inner quiet (ident_toks i).
Definition doubled_name (i : ident) : list comment := match ident_toks i with t :: _ => if quiet t then [] else t_lead t | [] => [] end.
Definition missed_option (i : ident) : list comment := inner (fun _ => true) (ident_toks i).
Definition doubled_type (i : ident) : list comment := flat_map loud (ident_toks i).

Definition mute (t : token) : list comment := if t_virtual t then seen1 t else [].
Definition omute (o : option token) : list comment := oagain mute o.
Definition ref_missed (r : fieldref) : list comment := oagain missed_name (fr_url r) ++ missed_name (fr_name r).
Definition ref_doubled (r : fieldref) : list comment :=
  oagain loud (fr_open r) ++ oagain doubled_name (fr_url r) ++ oagain loud (fr_slash r) ++ doubled_name (fr_name r) ++ oagain loud (fr_close r).
(** a value that is a name is not reported *)
Fixpoint value_missed (v : value) : list comment :=
  match v with
  | VTok t => if is_id t then seen1 t else []
  | VIdent ts => flat_map (fun t => if quiet t then seen1 t else []) ts
  | VStr _ => []
  | VNum s _ => mute s
  | VMsg o fs c sm => mute o ++ flat_map field_missed fs ++ mute c ++ omute sm
  | VArr o vs cs c sm => mute o ++ flat_map value_missed vs ++ flat_map mute cs ++ mute c ++ omute sm
  end
with field_missed (m : mfield) : list comment :=
  match m with MField n s v sm => ref_missed n ++ omute s ++ value_missed v ++ omute sm end.
Fixpoint value_doubled (v : value) : list comment :=
  match v with
  | VMsg _ fs _ _ => flat_map field_doubled fs
  | VArr _ vs _ _ _ => flat_map value_doubled vs
  | _ => []
  end
with field_doubled (m : mfield) : list comment := match m with MField n _ v _ => ref_doubled n ++ value_doubled v end.
Definition part_missed (p : part) : list comment := match p with PRef r => missed_option (fr_name r) | PDot _ => [] end.
Definition option_missed (o : opt) : list comment := oagain (flat_map part_missed) (o_name o) ++ omute (o_eq o) ++ oagain value_missed (o_val o) ++ omute (o_semi o).
Definition option_doubled (o : opt) : list comment := oagain value_doubled (o_val o).
Definition copts_missed (c : copts) : list comment := mute (co_open c) ++ flat_map option_missed (co_opts c) ++ mute (co_close c) ++ omute (co_semi c).
Definition copts_doubled (c : copts) : list comment := flat_map option_doubled (co_opts c).
Definition relem_missed (e : relem) : list comment :=
  match e with RComma t => mute t | RVal v => value_missed v | RRange s _ e _ => value_missed s ++ oagain value_missed e end.
Definition relem_doubled (e : relem) : list comment :=
  match e with RComma _ => [] | RVal v => value_doubled v | RRange s _ e _ => value_doubled s ++ oagain value_doubled e end.
Definition rpctype_missed (r : rpctype) : list comment := mute (rt_open r) ++ missed_name (rt_type r) ++ mute (rt_close r).
Fixpoint decl_missed (d : decl) : list comment :=
  match d with
  | DField _ _ _ e tg os sm => omute e ++ oagain value_missed tg ++ oagain copts_missed os ++ omute sm
  | DMap _ o k cm v c tsm _ e tg os sm =>
      mute o ++ missed_name k ++ mute cm ++ missed_name v ++ mute c ++ omute tsm ++ mute e ++ value_missed tg ++ oagain copts_missed os ++ omute sm
  | DEnumValue _ e v os sm => mute e ++ value_missed v ++ oagain copts_missed os ++ omute sm
  | DOption o => option_missed o
  | DReserved _ es sm => flat_map relem_missed es ++ omute sm
  | DExtensions _ es os sm => flat_map relem_missed es ++ oagain copts_missed os ++ omute sm
  | DMessage _ _ o b c sm | DEnum _ _ o b c sm | DOneof _ _ o b c sm | DService _ _ o b c sm | DExtend _ _ o b c sm =>
      mute o ++ flat_map decl_missed b ++ mute c ++ omute sm
  | DGroup _ _ _ e tg os o b c sm =>
      mute e ++ value_missed tg ++ oagain copts_missed os ++ mute o ++ flat_map decl_missed b ++ mute c ++ omute sm
  | DRpc _ _ i _ u br b sm =>
      rpctype_missed i ++ rpctype_missed u ++ match br with Some (o, c) => mute o ++ mute c | None => [] end ++ flat_map decl_missed b ++ omute sm
  | DEmpty t => mute t
  end.
Definition type_doubled (i : ident) : list comment := match i with Id _ => [] | Cid _ => doubled_type i end.
Fixpoint decl_doubled (d : decl) : list comment :=
  match d with
  | DField _ ty _ _ tg os _ => type_doubled ty ++ oagain value_doubled tg ++ oagain copts_doubled os
  | DMap _ _ k _ v _ _ _ _ tg os _ => doubled_name k ++ doubled_name v ++ value_doubled tg ++ oagain copts_doubled os
  | DEnumValue _ _ v os _ => value_doubled v ++ oagain copts_doubled os
  | DOption o => option_doubled o
  | DReserved _ es _ => flat_map relem_doubled es
  | DExtensions _ es os _ => flat_map relem_doubled es ++ oagain copts_doubled os
  | DMessage _ _ _ b _ _ | DEnum _ _ _ b _ _ | DOneof _ _ _ b _ _ | DService _ _ _ b _ _ => flat_map decl_doubled b
  | DExtend _ x _ b _ _ => oagain type_doubled x ++ flat_map decl_doubled b
  | DGroup _ _ _ _ tg os _ b _ _ => value_doubled tg ++ oagain copts_doubled os ++ flat_map decl_doubled b
  | DRpc _ _ i _ u _ b _ => doubled_name (rt_type i) ++ doubled_name (rt_type u) ++ flat_map decl_doubled b
  | DEmpty _ => []
  end.
Definition fdecl_missed (d : fdecl) : list comment :=
  match d with
  | FPackage _ n sm => oagain missed_name n ++ omute sm
  | FImport i => value_missed (i_name i) ++ omute (i_semi i)
  | FOption o => option_missed o
  | FDecl d => decl_missed d
  end.
Definition fdecl_doubled (d : fdecl) : list comment :=
  match d with FPackage _ n _ => oagain doubled_name n | FImport i => value_doubled (i_name i) | FOption o => option_doubled o | FDecl d => decl_doubled d end.
(** nor are comments at the end of the file *)
Definition file_missed (f : file) : list comment :=
  match f_syntax f with Some (_, e, v, sm) => mute e ++ value_missed v ++ omute sm | None => [] end ++
  flat_map fdecl_missed (f_decls f) ++ seen (otoks (f_eof f)).
Definition file_doubled (f : file) : list comment :=
  match f_syntax f with Some (_, _, v, _) => value_doubled v | None => [] end ++ flat_map fdecl_doubled (f_decls f).

(** ** Well-formed trees: every token is of the kind the grammar asks for *)
Definition h_idt (t : token) : Prop := t_kind t = KId.
Definition h_runet (s : string) (t : token) : Prop := t_kind t = KRune /\ exists c, t_text t = [c] /\ In c (b_ s).
Definition h_orune (s : string) (o : option token) : Prop := match o with Some t => h_runet s t | None => True end.
Definition h_some (s : string) (o : option token) : Prop := exists t, o = Some t /\ h_runet s t.
Inductive h_dotted : list token -> Prop :=
| h_one t : h_idt t -> h_dotted [t]
| h_more t d r : h_idt t -> h_runet "." d -> h_dotted r -> h_dotted (t :: d :: r).
Definition h_ident (i : ident) : Prop :=
  match i with Id t => h_idt t | Cid ts => h_dotted ts \/ exists d r, ts = d :: r /\ h_runet "." d /\ h_dotted r end.
Definition h_ref (r : fieldref) : Prop :=
  h_ident (fr_name r) /\
  match fr_open r with
  | Some o => h_runet "([" o /\ h_some ")]" (fr_close r) /\
      match fr_slash r with Some s => h_runet "/" s /\ (exists u, fr_url r = Some u /\ h_ident u) | None => fr_url r = None end
  | None => fr_close r = None /\ fr_slash r = None /\ fr_url r = None
  end.
Fixpoint h_value (v : value) : Prop :=
  match v with
  | VTok t => t_kind t <> KRune
  | VIdent ts => h_ident (Cid ts)
  | VStr ts => Forall (fun t => t_kind t = KStr) ts
  | VNum s n => h_runet "-+" s
  | VMsg o fs c sm => h_runet "{<" o /\ h_runet "}>" c /\ h_orune ";" sm /\ (fix all l := match l with [] => True | m :: r => h_field m /\ all r end) fs
  | VArr o vs cs c sm =>
      h_runet "[" o /\ h_runet "]" c /\ h_orune ";" sm /\ Forall (h_runet ",") cs /\ (fix all l := match l with [] => True | v :: r => h_value v /\ all r end) vs
  end
with h_field (m : mfield) : Prop := match m with MField n s v sm => h_ref n /\ h_value v /\ h_orune ",;" sm /\ h_orune ":" s end.
Definition h_part (p : part) : Prop := match p with PRef r => h_ref r /\ fr_url r = None /\ fr_slash r = None | PDot _ => True end.
Definition h_ovalue (o : option value) : Prop := match o with Some v => h_value v | None => True end.
Definition h_opt (semi : string) (o : opt) : Prop :=
  match o_name o with Some ps => Forall h_part ps | None => True end /\ h_orune "=" (o_eq o) /\ h_ovalue (o_val o) /\ h_orune semi (o_semi o).
Definition h_copts (oc : option copts) : Prop :=
  match oc with
  | None => True
  | Some c => h_runet "[" (co_open c) /\ h_runet "]" (co_close c) /\ h_orune ";" (co_semi c) /\ Forall (h_opt ",") (co_opts c)
  end.
Definition h_relem (e : relem) : Prop :=
  match e with RComma t => h_runet "," t | RVal v => h_value v | RRange s _ e _ => h_value s /\ h_ovalue e end.
Definition h_rpctype (r : rpctype) : Prop := h_runet "(" (rt_open r) /\ h_runet ")" (rt_close r) /\ h_ident (rt_type r).
Definition h_oidt (o : option token) : Prop := match o with Some t => h_idt t | None => True end.
Fixpoint h_decl (d : decl) : Prop :=
  let all := fix all l := match l with [] => True | d :: r => h_decl d /\ all r end in
  match d with
  | DField l ty n e tg os sm => h_ident ty /\ h_oidt n /\ h_orune "=" e /\ h_ovalue tg /\ h_copts os /\ h_orune ";" sm
  | DMap kw o k cm v c tsm n e tg os sm =>
      h_runet "<" o /\ h_ident k /\ h_runet "," cm /\ h_ident v /\ h_runet ">" c /\ h_orune ";" tsm /\
      h_idt n /\ h_runet "=" e /\ h_value tg /\ h_copts os /\ h_orune ";" sm
  | DEnumValue n e v os sm => h_idt n /\ h_runet "=" e /\ h_value v /\ h_copts os /\ h_orune ";," sm
  | DOption o => h_opt ";" o
  | DReserved _ es sm => Forall h_relem es /\ h_orune ";" sm
  | DExtensions _ es os sm => Forall h_relem es /\ h_copts os /\ h_orune ";" sm
  | DMessage _ n o b c sm | DEnum _ n o b c sm | DOneof _ n o b c sm | DService _ n o b c sm =>
      h_idt n /\ h_runet "{" o /\ h_runet "}" c /\ h_orune ";" sm /\ all b
  | DExtend _ x o b c sm => match x with Some i => h_ident i | None => True end /\ h_runet "{" o /\ h_runet "}" c /\ h_orune ";" sm /\ all b
  | DGroup _ _ n e tg os o b c sm => h_idt n /\ h_runet "=" e /\ h_value tg /\ h_copts os /\ h_runet "{" o /\ h_runet "}" c /\ h_orune ";" sm /\ all b
  | DRpc _ n i _ u br b sm => h_idt n /\ h_rpctype i /\ h_rpctype u /\ h_orune ";" sm /\ all b /\ match br with Some (o, c) => h_runet "{" o /\ h_runet "}" c | None => True end
  | DEmpty t => h_runet ";" t
  end.
Definition h_fdecl (d : fdecl) : Prop :=
  match d with
  | FPackage _ n sm => match n with Some i => h_ident i | None => True end /\ h_orune ";" sm
  | FImport i => h_value (i_name i) /\ h_orune ";" (i_semi i)
  | FOption o => h_opt ";" o
  | FDecl d => h_decl d
  end.
Definition h_file (f : file) : Prop :=
  match f_syntax f with Some (_, e, v, sm) => h_runet "=" e /\ h_value v /\ h_orune ";" sm | None => True end /\ Forall h_fdecl (f_decls f).
(** values of fields and options that are a name or a number *)
Definition val_tok (m : marks) (t : token) : Prop := In (t, ValueName) m \/ In (t, Number) m.
Definition truth (s : bytes) : bool := existsb (beq s) [b_ "true"; b_ "false"].
(** inf and nan, in lower or upper case *)
Fixpoint in_some_case (s w : bytes) : bool :=
  match s, w with
  | [], [] => true
  | c :: s, d :: w => (Ascii.eqb c d || (nat_of_ascii c + 32 =? nat_of_ascii d)) && in_some_case s w
  | _, _ => false
  end.
Definition word_number (s : bytes) : bool := in_some_case s (b_ "inf") || in_some_case s (b_ "nan").

(** ** What is marked as coming from a library *)
Definition library_shown (l : list item) : list token := flat_map (fun i => match i with Tok ts s => if s_lib s then ts else [] | Com _ => [] end) l.
Definition inside (w s : bytes) : bool := existsb (fun k => beq (firstn (List.length w) (skipn k s)) w) (List.seq 0 (S (List.length s))).
Definition of_library (lib : bytes -> bool) (i : ident) : list token :=
  match i with
  | Id t => if lib (t_text t) then [t] else []
  | Cid ts => if inside (b_ "google.protobuf.") (flat_map t_text ts) then ts else []
  end.
(** a type URL up to its slash, in the name of a field of a message literal *)
Definition url_toks (r : fieldref) : list token :=
  match fr_open r, fr_slash r with Some _, Some s => opt_toks ident_toks (fr_url r) ++ [s] | _, _ => [] end.
Fixpoint value_library (v : value) : list token :=
  match v with
  | VMsg _ fs _ _ => flat_map field_library fs
  | VArr _ vs _ _ _ => flat_map value_library vs
  | _ => []
  end
with field_library (m : mfield) : list token := match m with MField n _ v _ => url_toks n ++ value_library v end.
Definition ovalue_library (o : option value) : list token := match o with Some v => value_library v | None => [] end.
Definition option_library (o : opt) : list token := ovalue_library (o_val o).
Definition copts_library (o : option copts) : list token := match o with Some c => flat_map option_library (co_opts c) | None => [] end.
Definition relem_library (e : relem) : list token :=
  match e with RComma _ => [] | RVal v => value_library v | RRange s _ e _ => value_library s ++ ovalue_library e end.
Section Library.
Variable lib : bytes -> bool.
Fixpoint decl_library (d : decl) : list token :=
  match d with
  | DField _ ty _ _ tg os _ => of_library lib ty ++ ovalue_library tg ++ copts_library os
  | DMap _ _ _ _ _ _ _ _ _ tg os _ => value_library tg ++ copts_library os
  | DEnumValue _ _ v os _ => value_library v ++ copts_library os
  | DOption o => option_library o
  | DReserved _ es _ => flat_map relem_library es
  | DExtensions _ es os _ => flat_map relem_library es ++ copts_library os
  | DMessage _ _ _ b _ _ | DEnum _ _ _ b _ _ | DOneof _ _ _ b _ _ | DService _ _ _ b _ _ => flat_map decl_library b
  | DExtend _ x _ b _ _ => match x with Some i => of_library (fun _ => false) i | None => [] end ++ flat_map decl_library b
  | DGroup _ _ _ _ tg os _ b _ _ => value_library tg ++ copts_library os ++ flat_map decl_library b
  | DRpc _ _ _ _ _ _ b _ => flat_map decl_library b
  | DEmpty _ => []
  end.
Definition fdecl_library (d : fdecl) : list token :=
  match d with
  | FPackage _ _ _ => []
  | FImport i => value_library (i_name i)
  | FOption o => option_library o
  | FDecl d => decl_library d
  end.
Definition file_library (f : file) : list token :=
  match f_syntax f with Some (_, _, v, _) => value_library v | None => [] end ++ flat_map fdecl_library (f_decls f).
End Library.
