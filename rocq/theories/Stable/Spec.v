(* Vocabulary for C146, independent of the writers: when a tree is what is read from a text, when two
   trees are the same file laid out differently, and which trees the theorems are about. *)
From Coq Require Import List Arith Bool Ascii String.
From Verif Require Import Base Strs.
From Verif.Format Require Import Model Spec.
From Verif.FormatTree Require Import Model Spec.
Import ListNotations.
Open Scope list_scope.

(* ---- the same file laid out differently ---- *)
Section Map.
Variable phi : token -> token.
Definition map_ident (i : ident) : ident := match i with Id t => Id (phi t) | Cid ts => Cid (map phi ts) end.
Definition map_ref (r : fieldref) : fieldref :=
  FieldRef (option_map phi (fr_open r)) (option_map map_ident (fr_url r)) (option_map phi (fr_slash r))
    (map_ident (fr_name r)) (option_map phi (fr_close r)).
Fixpoint map_value (v : value) : value :=
  match v with
  | VTok t => VTok (phi t)
  | VIdent ts => VIdent (map phi ts)
  | VStr ts => VStr (map phi ts)
  | VNum s n => VNum (phi s) (phi n)
  | VMsg o fs c sm => VMsg (phi o) (map map_mfield fs) (phi c) (option_map phi sm)
  | VArr o vs cs c sm => VArr (phi o) (map map_value vs) (map phi cs) (phi c) (option_map phi sm)
  end
with map_mfield (m : mfield) : mfield :=
  match m with MField n s v sm => MField (map_ref n) (option_map phi s) (map_value v) (option_map phi sm) end.
Definition map_part (p : part) : part := match p with PRef r => PRef (map_ref r) | PDot t => PDot (phi t) end.
Definition map_opt (o : opt) : opt :=
  Opt (option_map phi (o_kw o)) (option_map (map map_part) (o_name o)) (option_map phi (o_eq o))
    (option_map map_value (o_val o)) (option_map phi (o_semi o)).
Definition map_copts (c : copts) : copts :=
  COpts (phi (co_open c)) (map map_opt (co_opts c)) (phi (co_close c)) (option_map phi (co_semi c)).
Definition map_relem (e : relem) : relem :=
  match e with
  | RComma t => RComma (phi t)
  | RVal v => RVal (map_value v)
  | RRange s to e m => RRange (map_value s) (option_map phi to) (option_map map_value e) (option_map phi m)
  end.
Definition map_rpctype (r : rpctype) : rpctype :=
  RpcType (phi (rt_open r)) (option_map phi (rt_stream r)) (map_ident (rt_type r)) (phi (rt_close r)).
Fixpoint map_decl (d : decl) : decl :=
  match d with
  | DField l ty n e tg os sm =>
      DField (option_map phi l) (map_ident ty) (option_map phi n) (option_map phi e) (option_map map_value tg)
        (option_map map_copts os) (option_map phi sm)
  | DMap kw o k cm v c tsm n e tg os sm =>
      DMap (phi kw) (phi o) (map_ident k) (phi cm) (map_ident v) (phi c) (option_map phi tsm) (phi n) (phi e)
        (map_value tg) (option_map map_copts os) (option_map phi sm)
  | DEnumValue n e v os sm => DEnumValue (phi n) (phi e) (map_value v) (option_map map_copts os) (option_map phi sm)
  | DOption o => DOption (map_opt o)
  | DReserved kw es sm => DReserved (phi kw) (map map_relem es) (option_map phi sm)
  | DExtensions kw es os sm => DExtensions (phi kw) (map map_relem es) (option_map map_copts os) (option_map phi sm)
  | DMessage kw n o b c sm => DMessage (phi kw) (phi n) (phi o) (map map_decl b) (phi c) (option_map phi sm)
  | DEnum kw n o b c sm => DEnum (phi kw) (phi n) (phi o) (map map_decl b) (phi c) (option_map phi sm)
  | DOneof kw n o b c sm => DOneof (phi kw) (phi n) (phi o) (map map_decl b) (phi c) (option_map phi sm)
  | DExtend kw x o b c sm => DExtend (phi kw) (option_map map_ident x) (phi o) (map map_decl b) (phi c) (option_map phi sm)
  | DGroup l kw n e tg os o b c sm =>
      DGroup (option_map phi l) (phi kw) (phi n) (phi e) (map_value tg) (option_map map_copts os) (phi o) (map map_decl b)
        (phi c) (option_map phi sm)
  | DService kw n o b c sm => DService (phi kw) (phi n) (phi o) (map map_decl b) (phi c) (option_map phi sm)
  | DRpc kw n i rt u br b sm =>
      DRpc (phi kw) (phi n) (map_rpctype i) (phi rt) (map_rpctype u) (option_map (fun p => (phi (fst p), phi (snd p))) br)
        (map map_decl b) (option_map phi sm)
  | DEmpty t => DEmpty (phi t)
  end.
Definition map_import (i : import) : import :=
  Import (phi (i_kw i)) (option_map phi (i_mod i)) (map_value (i_name i)) (i_path i) (option_map phi (i_semi i)).
Definition map_fdecl (d : fdecl) : fdecl :=
  match d with
  | FPackage kw n sm => FPackage (phi kw) (option_map map_ident n) (option_map phi sm)
  | FImport i => FImport (map_import i)
  | FOption o => FOption (map_opt o)
  | FDecl d => FDecl (map_decl d)
  end.
Definition map_syntax (s : token * token * value * option token) : token * token * value * option token :=
  let '(k, e, v, sm) := s in (phi k, phi e, map_value v, option_map phi sm).
Definition map_file (f : file) : file :=
  File (option_map map_syntax (f_syntax f)) (map map_fdecl (f_decls f)) (option_map phi (f_eof f)).
End Map.
(* The token without its place. *)
Definition bare (t : token) : token := Token (t_kind t) (t_text t) (t_lead t) (t_trail t) [] 0 (t_virtual t).
(* The same declarations, token by token; white space and line numbers may differ. *)
Definition relaid (f g : file) : Prop := map_file bare f = map_file bare g.

(* ---- reading a text without comments ---- *)
Definition blank (x : bytes) : Prop := forallb is_space x = true.
(* the line of every token, when n line ends come before *)
Fixpoint lines_from (n : nat) (ts : list token) : list nat :=
  match ts with
  | [] => []
  | t :: r => let m := n + newlines (t_ws t) in m :: lines_from m r
  end.
(* The tokens of the tree and the white space before them make up the text, and every token has the
   number of its line. *)
Definition reads (text : bytes) (f : file) : Prop :=
  (exists w, blank w /\ text = flat_map (fun t => t_ws t ++ t_text t) (file_toks f) ++ w) /\
  Forall (fun t => blank (t_ws t)) (file_toks f) /\
  map t_line (file_toks f) = lines_from 0 (file_toks f).
(* The words of a text and the line each of them is on, when the words are given: the white space
   between them contains so many line ends. *)
Inductive splits : bytes -> list bytes -> list nat -> nat -> Prop :=
| split_end w : blank w -> splits w [] [] (newlines w)
| split_word w u x us hs n : blank w -> splits x us hs n -> splits (w ++ u ++ x) (u :: us) (newlines w :: hs) n.
(* The same words on the same lines. *)
Definition same_lines (us : list bytes) (x y : bytes) : Prop := exists hs n m, splits x us hs n /\ splits y us hs m.

(* ---- the trees the theorems are about ---- *)
(* A token as it is printed: without comments, not made up by the parser, a literal in double quotes. *)
Definition tok_ok (t : token) : Prop :=
  t_lead t = [] /\ t_trail t = [] /\ t_virtual t = false /\ wtext t = t_text t /\
  (exists c r, t_text t = c :: r /\ is_space c = false) /\ ~ In nl (t_text t).
Definition otok_ok (o : option token) : Prop := match o with Some t => tok_ok t | None => True end.
Definition reads_as (s : string) (t : token) : Prop := tok_ok t /\ t_text t = b_ s.
Definition ends_with (s : string) (o : option token) : Prop := match o with Some t => reads_as s t | None => False end.
Definition some {A} (P : A -> Prop) (o : option A) : Prop := match o with Some a => P a | None => False end.
Definition if_some {A} (P : A -> Prop) (o : option A) : Prop := match o with Some a => P a | None => True end.
Definition toks_ok (ts : list token) : Prop := ts <> [] /\ Forall tok_ok ts.
Definition ident_c (i : ident) : Prop := match i with Id t => tok_ok t | Cid ts => toks_ok ts end.
(* Values on one line: literals of one token, names and signed numbers. *)
Definition value_c (v : value) : Prop :=
  match v with
  | VTok t => tok_ok t
  | VIdent ts => toks_ok ts
  | VNum s n => tok_ok s /\ tok_ok n
  | _ => False
  end.
Definition ref_c (r : fieldref) : Prop :=
  fr_url r = None /\ fr_slash r = None /\ ident_c (fr_name r) /\
  match fr_open r, fr_close r with Some o, Some c => tok_ok o /\ tok_ok c | None, None => True | _, _ => False end.
Definition part_c (p : part) : Prop := match p with PRef r => ref_c r | PDot t => tok_ok t end.
Definition name_c (ps : list part) : Prop := ps <> [] /\ Forall part_c ps.
Definition opt_c (o : opt) : Prop := some name_c (o_name o) /\ some tok_ok (o_eq o) /\ some value_c (o_val o).
(* The value of a declared option may also be several string literals, one after the other. *)
Definition long_value_c (v : value) : Prop := match v with VStr ts => 2 <= List.length ts /\ Forall tok_ok ts | _ => value_c v end.
Definition keyword_opt_c (o : opt) : Prop :=
  some tok_ok (o_kw o) /\ some name_c (o_name o) /\ some tok_ok (o_eq o) /\ some long_value_c (o_val o) /\ ends_with ";" (o_semi o).
(* Compact options are separated by commas. *)
Fixpoint opts_c (os : list opt) : Prop :=
  match os with
  | [] => False
  | o :: r => o_kw o = None /\ opt_c o /\ match r with [] => o_semi o = None | _ => ends_with "," (o_semi o) /\ opts_c r end
  end.
Definition copts_c (c : copts) : Prop := tok_ok (co_open c) /\ opts_c (co_opts c) /\ tok_ok (co_close c) /\ co_semi c = None.
Definition relem_c (e : relem) : Prop :=
  match e with
  | RComma t => tok_ok t
  | RVal v => value_c v
  | RRange s to e m => value_c s /\ otok_ok to /\ if_some value_c e /\ match e with Some _ => m = None | None => otok_ok m end
  end.
Definition rpctype_c (r : rpctype) : Prop :=
  tok_ok (rt_open r) /\ otok_ok (rt_stream r) /\ ident_c (rt_type r) /\ tok_ok (rt_close r).
(* A field without label whose type starts with a dot is not written back (C110_leading_dot_refuted). *)
Definition type_c (l : option token) (ty : ident) : Prop :=
  ident_c ty /\ match l, ident_toks ty with None, t :: _ => t_kind t <> KRune | _, _ => True end.
Fixpoint decl_c (d : decl) : Prop :=
  let all := fix all l := match l with [] => True | d :: r => decl_c d /\ all r end in
  match d with
  | DField l ty n e tg os sm =>
      otok_ok l /\ type_c l ty /\ some tok_ok n /\ some tok_ok e /\ some value_c tg /\ if_some copts_c os /\ ends_with ";" sm
  | DMap kw o k cm v c tsm n e tg os sm =>
      tok_ok kw /\ tok_ok o /\ ident_c k /\ tok_ok cm /\ ident_c v /\ tok_ok c /\ tsm = None /\ tok_ok n /\ tok_ok e /\ value_c tg /\
      if_some copts_c os /\ ends_with ";" sm
  | DEnumValue n e v os sm => tok_ok n /\ tok_ok e /\ value_c v /\ if_some copts_c os /\ ends_with ";" sm
  | DOption o => keyword_opt_c o
  | DReserved kw es sm => tok_ok kw /\ Forall relem_c es /\ ends_with ";" sm
  | DExtensions kw es os sm => tok_ok kw /\ Forall relem_c es /\ if_some copts_c os /\ ends_with ";" sm
  | DMessage kw n o b c sm | DEnum kw n o b c sm | DOneof kw n o b c sm | DService kw n o b c sm =>
      tok_ok kw /\ tok_ok n /\ reads_as "{" o /\ all b /\ reads_as "}" c /\ sm = None
  | DExtend kw x o b c sm => tok_ok kw /\ if_some ident_c x /\ reads_as "{" o /\ all b /\ reads_as "}" c /\ sm = None
  | DGroup l kw n e tg os o b c sm =>
      otok_ok l /\ tok_ok kw /\ tok_ok n /\ tok_ok e /\ value_c tg /\ if_some copts_c os /\ reads_as "{" o /\ all b /\ reads_as "}" c /\ sm = None
  | DRpc kw n i rt u br b sm =>
      tok_ok kw /\ tok_ok n /\ rpctype_c i /\ tok_ok rt /\ rpctype_c u /\
      match br with
      | Some (o, c) => b <> [] /\ reads_as "{" o /\ all b /\ reads_as "}" c /\ sm = None
      | None => b = [] /\ some (fun t => reads_as ";" t /\ t_kind t = KRune) sm
      end
  | DEmpty _ => False
  end.
Definition import_c (i : import) : Prop := tok_ok (i_kw i) /\ otok_ok (i_mod i) /\ value_c (i_name i) /\ ends_with ";" (i_semi i).
Definition fdecl_c (d : fdecl) : Prop :=
  match d with
  | FPackage kw n sm => tok_ok kw /\ some ident_c n /\ ends_with ";" sm
  | FImport i => import_c i
  | FOption o => keyword_opt_c o
  | FDecl (DMessage _ _ _ _ _ _ as d) | FDecl (DEnum _ _ _ _ _ _ as d) | FDecl (DService _ _ _ _ _ _ as d)
  | FDecl (DExtend _ _ _ _ _ _ as d) => decl_c d
  | FDecl _ => False
  end.
Fixpoint unrepeated (l : list import) : Prop :=
  match l with
  | i :: (j :: _) as r => i_path i <> i_path j /\ unrepeated r
  | _ => True
  end.
(* Package, imports, options and types, in this order; no import is repeated. *)
Definition rank (d : fdecl) : nat := match d with FPackage _ _ _ => 0 | FImport _ => 1 | FOption _ => 2 | FDecl _ => 3 end.
Fixpoint ranked (ds : list fdecl) : Prop :=
  match ds with
  | d :: r => match r with e :: _ => rank d <= rank e | [] => True end /\ ranked r
  | [] => True
  end.
Definition in_order (f : file) : Prop :=
  ranked (f_decls f) /\ List.length (packages (f_decls f)) <= 1 /\ unrepeated (imports (f_decls f)).
Definition file_c (f : file) : Prop :=
  match f_syntax f with Some (k, e, v, sm) => tok_ok k /\ tok_ok e /\ value_c v /\ ends_with ";" sm | None => True end /\
  Forall fdecl_c (f_decls f) /\ in_order f /\ match f_eof f with Some t => t_lead t = [] | None => True end.
(* What is read from a formatted text has this form, whatever its white space. *)
Definition canonical (f : file) : Prop := file_c (map_file bare f).
(* The sort functions leave the declarations of a file in order alone. *)
Definition sorted (isort : list import -> list import) (osort : list opt -> list opt) (f : file) : Prop :=
  isort (imports (f_decls f)) = imports (f_decls f) /\ osort (options (f_decls f)) = options (f_decls f).
(* The file does not start with empty lines. *)
Definition no_blank_start (f : file) : Prop := match file_toks f with t :: _ => newlines (t_ws t) <= 1 | [] => True end.
