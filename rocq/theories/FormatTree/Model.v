(* The formatter over syntax trees (pkg/format/formatter.go and column_format.go): the writers for
   every node type, the column formatter, and the state machine underneath (pending space, indentation,
   current line).  String literals, comment texts and column blocks are those of Format.Model.

   Simplifications that apply throughout: runes are bytes; NodeInfo of a composite node is what its
   first token (leading comments, leading white space, start line) and its last token (trailing
   comments, end line) carry; a token made up by the formatter has no comments and no white space
   (NodeInfo of token 0); a nil pointer dereference, an index out of range and an explicit panic set
   the crash flag and leave the rest of the run as it is; the writer never fails. *)
From Coq Require Import List Arith Bool ZArith Ascii String.
From Verif Require Import Base Strs.
From Verif.Format Require Import Model.
Import ListNotations.
Open Scope list_scope.

(* ---- tokens and trees: the nodes of protocompile/ast the formatter handles ---- *)
Record comment := Comment { c_text : bytes; c_ws : bytes; c_virtual : bool }.
(* identifiers and keywords, numbers (also inf and nan), string literals, single runes *)
Inductive kind := KId | KNum | KStr | KRune.
Record token := Token {
  t_kind : kind; t_text : bytes;
  t_lead : list comment; t_trail : list comment;
  t_ws : bytes;            (* white space before the token, after its leading comments *)
  t_line : nat;
  t_virtual : bool         (* inserted by the parser *)
}.
Definition fill (c : ascii) : token := Token KRune [c] [] [] [] 0 false.

(* IdentValueNode: IdentNode or CompoundIdentNode (identifiers and dots) *)
Inductive ident := Id (t : token) | Cid (ts : list token).
(* FieldReferenceNode *)
Record fieldref := FieldRef {
  fr_open : option token; fr_url : option ident; fr_slash : option token; fr_name : ident; fr_close : option token }.
(* ValueNode: VNum is NegativeIntLiteralNode or SignedFloatLiteralNode; in VArr the values and the
   commas of the literal (ArrayLiteralNode.Split) *)
Inductive value :=
| VTok (t : token)
| VIdent (ts : list token)
| VStr (ts : list token)
| VNum (sign num : token)
| VMsg (op : token) (fields : list mfield) (cl : token) (semi : option token)
| VArr (op : token) (vals : list value) (commas : list token) (cl : token) (semi : option token)
with mfield := MField (name : fieldref) (sep : option token) (val : value) (semi : option token).

(* parts of an OptionNameNode *)
Inductive part := PRef (r : fieldref) | PDot (t : token).
(* OptionNode; the semicolon of a compact option is the comma after it *)
Record opt := Opt {
  o_kw : option token; o_name : option (list part); o_eq : option token; o_val : option value; o_semi : option token }.
(* CompactOptionsNode *)
Record copts := COpts { co_open : token; co_opts : list opt; co_close : token; co_semi : option token }.

(* elements of ReservedNode and ExtensionRangeNode *)
Inductive relem := RComma (t : token) | RVal (v : value) | RRange (start : value) (to : option token) (end_ : option value) (max : option token).
(* RPCTypeNode *)
Record rpctype := RpcType { rt_open : token; rt_stream : option token; rt_type : ident; rt_close : token }.

Inductive decl :=
| DField (label : option token) (type : ident) (name eq_ : option token) (tag : option value) (os : option copts) (semi : option token)
| DMap (kw op : token) (key : ident) (comma : token) (val : ident) (cl : token) (tsemi : option token)
    (name eq_ : token) (tag : value) (os : option copts) (semi : option token)
| DEnumValue (name eq_ : token) (num : value) (os : option copts) (semi : option token)
| DOption (o : opt)
| DReserved (kw : token) (es : list relem) (semi : option token)
| DExtensions (kw : token) (es : list relem) (os : option copts) (semi : option token)
| DMessage (kw name : token) (op : token) (body : list decl) (cl : token) (semi : option token)
| DEnum (kw name : token) (op : token) (body : list decl) (cl : token) (semi : option token)
| DOneof (kw name : token) (op : token) (body : list decl) (cl : token) (semi : option token)
| DExtend (kw : token) (ext : option ident) (op : token) (body : list decl) (cl : token) (semi : option token)
| DGroup (label : option token) (kw name eq_ : token) (tag : value) (os : option copts)
    (op : token) (body : list decl) (cl : token) (semi : option token)
| DService (kw name : token) (op : token) (body : list decl) (cl : token) (semi : option token)
| DRpc (kw name : token) (inp : rpctype) (returns : token) (outp : rpctype)
    (braces : option (token * token)) (body : list decl) (semi : option token)
| DEmpty (semi : token).

(* ImportNode; i_path is what Name.AsString() returns *)
Record import := Import { i_kw : token; i_mod : option token; i_name : value; i_path : bytes; i_semi : option token }.
Inductive fdecl :=
| FPackage (kw : token) (name : option ident) (semi : option token)
| FImport (i : import)
| FOption (o : opt)
| FDecl (d : decl).
Record file := File {
  (* syntax or edition: keyword, '=', string, ';' *)
  f_syntax : option (token * token * value * option token);
  f_decls : list fdecl;
  f_eof : option token }.

(* ---- the tokens of a node in source order ---- *)
Definition otoks (o : option token) : list token := match o with Some t => [t] | None => [] end.
Definition ident_toks (i : ident) : list token := match i with Id t => [t] | Cid ts => ts end.
Definition opt_toks {A} (f : A -> list token) (o : option A) : list token := match o with Some a => f a | None => [] end.
Definition ref_toks (r : fieldref) : list token :=
  otoks (fr_open r) ++ opt_toks ident_toks (fr_url r) ++ otoks (fr_slash r) ++ ident_toks (fr_name r) ++ otoks (fr_close r).
Fixpoint interleave (vs : list (list token)) (cs : list token) : list token :=
  match vs with
  | [] => cs
  | v :: r => match cs with [] => v ++ interleave r [] | c :: cr => v ++ c :: interleave r cr end
  end.
Fixpoint value_toks (v : value) : list token :=
  match v with
  | VTok t => [t] | VIdent ts => ts | VStr ts => ts
  | VNum s n => [s; n]
  | VMsg o fs c sm => o :: flat_map field_toks fs ++ [c] ++ otoks sm
  | VArr o vs cs c sm => o :: interleave (map value_toks vs) cs ++ [c] ++ otoks sm
  end
with field_toks (m : mfield) : list token :=
  match m with MField n s v sm => ref_toks n ++ otoks s ++ value_toks v ++ otoks sm end.
Definition part_toks (p : part) : list token := match p with PRef r => ref_toks r | PDot t => [t] end.
Definition opt_node_toks (o : opt) : list token :=
  otoks (o_kw o) ++ opt_toks (flat_map part_toks) (o_name o) ++ otoks (o_eq o) ++ opt_toks value_toks (o_val o) ++ otoks (o_semi o).
Definition copts_toks (c : copts) : list token :=
  co_open c :: flat_map opt_node_toks (co_opts c) ++ [co_close c] ++ otoks (co_semi c).
Definition relem_toks (e : relem) : list token :=
  match e with
  | RComma t => [t] | RVal v => value_toks v
  | RRange s to e m => value_toks s ++ otoks to ++ opt_toks value_toks e ++ otoks m
  end.
Definition rpctype_toks (r : rpctype) : list token :=
  rt_open r :: otoks (rt_stream r) ++ ident_toks (rt_type r) ++ [rt_close r].
Fixpoint decl_toks (d : decl) : list token :=
  match d with
  | DField l ty n e tg os sm => otoks l ++ ident_toks ty ++ otoks n ++ otoks e ++ opt_toks value_toks tg ++ opt_toks copts_toks os ++ otoks sm
  | DMap kw o k cm v c tsm n e tg os sm =>
      kw :: o :: ident_toks k ++ cm :: ident_toks v ++ c :: otoks tsm ++ n :: e :: value_toks tg ++ opt_toks copts_toks os ++ otoks sm
  | DEnumValue n e v os sm => n :: e :: value_toks v ++ opt_toks copts_toks os ++ otoks sm
  | DOption o => opt_node_toks o
  | DReserved kw es sm => kw :: flat_map relem_toks es ++ otoks sm
  | DExtensions kw es os sm => kw :: flat_map relem_toks es ++ opt_toks copts_toks os ++ otoks sm
  | DMessage kw n o b c sm | DEnum kw n o b c sm | DOneof kw n o b c sm | DService kw n o b c sm =>
      kw :: n :: o :: flat_map decl_toks b ++ c :: otoks sm
  | DExtend kw x o b c sm => kw :: opt_toks ident_toks x ++ o :: flat_map decl_toks b ++ c :: otoks sm
  | DGroup l kw n e tg os o b c sm =>
      otoks l ++ kw :: n :: e :: value_toks tg ++ opt_toks copts_toks os ++ o :: flat_map decl_toks b ++ c :: otoks sm
  | DRpc kw n i rt u br b sm =>
      kw :: n :: rpctype_toks i ++ rt :: rpctype_toks u ++
      match br with Some (o, c) => o :: flat_map decl_toks b ++ [c] | None => flat_map decl_toks b end ++ otoks sm
  | DEmpty t => [t]
  end.
Definition import_toks (i : import) : list token := i_kw i :: otoks (i_mod i) ++ value_toks (i_name i) ++ otoks (i_semi i).

(* NodeInfo of a composite node *)
Definition lead_of (ts : list token) : list comment := match ts with t :: _ => t_lead t | [] => [] end.
Definition ws_of (ts : list token) : bytes := match ts with t :: _ => t_ws t | [] => [] end.
Definition line_of (ts : list token) : nat := match ts with t :: _ => t_line t | [] => 0 end.
Definition trail_of (ts : list token) : list comment := match rev ts with t :: _ => t_trail t | [] => [] end.
Definition end_line_of (ts : list token) : nat := match rev ts with t :: _ => t_line t | [] => 0 end.
Definition newlines (s : bytes) : nat := count_occ ascii_dec s nl.
Definition has_nl (s : bytes) : bool := existsb (Ascii.eqb nl) s.
Definition nonempty {A} (l : list A) : bool := match l with [] => false | _ => true end.

(* ---- the state of the formatter, formatter.go:40-76 ---- *)
Record fmt := Fmt {
  out : bytes;                 (* what was written *)
  indent : nat;
  lastw : ascii;               (* lastWritten; 0 at the start *)
  prev : option bool;          (* previousNode: nil, or whether it is an opening brace, 2566-2577 *)
  pspace : bool;               (* pendingSpace *)
  incompact : bool;            (* inCompactOptions *)
  pindent : Z;                 (* pendingIndent *)
  inl : bool;                  (* inline *)
  err : bool;                  (* err != nil *)
  crash : bool
}.
Definition start : fmt := Fmt [] 0 zero None false false 0 false false false.
Definition set_out o f := Fmt o (indent f) (lastw f) (prev f) (pspace f) (incompact f) (pindent f) (inl f) (err f) (crash f).
Definition set_prev p f := Fmt (out f) (indent f) (lastw f) (Some p) (pspace f) (incompact f) (pindent f) (inl f) (err f) (crash f).
Definition set_space f := Fmt (out f) (indent f) (lastw f) (prev f) true (incompact f) (pindent f) (inl f) (err f) (crash f).
Definition set_compact b f := Fmt (out f) (indent f) (lastw f) (prev f) (pspace f) b (pindent f) (inl f) (err f) (crash f).
Definition set_inl b f := Fmt (out f) (indent f) (lastw f) (prev f) (pspace f) (incompact f) (pindent f) b (err f) (crash f).
Definition set_pindent z f := Fmt (out f) (indent f) (lastw f) (prev f) (pspace f) (incompact f) z (inl f) (err f) (crash f).
Definition set_crash f := Fmt (out f) (indent f) (lastw f) (prev f) (pspace f) (incompact f) (pindent f) (inl f) (err f) true.

(* Writers are functions on the state. *)
Definition M := fmt -> fmt.
Definition skip : M := fun f => f.
Definition seq (a b : M) : M := fun f => b (a f).
Notation "a ;; b" := (seq a b) (at level 60, right associativity).
Fixpoint seqs (l : list M) : M := match l with [] => skip | m :: r => m ;; seqs r end.
Definition when (b : bool) (m : M) : M := if b then m else skip.
Definition opt_w {A} (w : A -> M) (o : option A) : M := match o with Some a => w a | None => skip end.
Definition must {A} (w : A -> M) (o : option A) : M := match o with Some a => w a | None => set_crash end.

(* formatter.go:188-224 WriteString *)
Definition mem (c : ascii) (l : bytes) : bool := existsb (Ascii.eqb c) l.
Definition prev_block (inline : bool) : bytes := [zero; sp; tab; nl] ++ (if inline then b_ "<[{(" else []).
Definition next_block (inline : bool) : bytes := [nl] ++ b_ ";," ++ (if inline then b_ ")]}>" else []).
(* the first rune of the empty string is utf8.RuneError, which is in no list *)
Definition blocked_next (inline : bool) (s : bytes) : bool :=
  match s with c :: _ => mem c (next_block inline) | [] => false end.
Definition write_string (s : bytes) : M := fun f =>
  let gap := pspace f && negb (mem (lastw f) (prev_block (inl f))) && negb (blocked_next (inl f) s) in
  Fmt (out f ++ (if gap then [sp] else []) ++ s) (indent f) (last s (lastw f)) (prev f) false (incompact f)
    (pindent f) (inl f) (err f) (crash f).

(* 144-147 Space, 149-164 In and Out *)
Definition space : M := set_space.
Definition shift_in : M := fun f =>
  Fmt (out f) (S (indent f)) (lastw f) (prev f) (pspace f) (incompact f) (pindent f) (inl f) (err f) (crash f).
Definition shift_out : M := fun f =>
  match indent f with
  | 0 => Fmt (out f) 0 (lastw f) (prev f) (pspace f) (incompact f) (pindent f) (inl f) true (crash f)
  | S n => Fmt (out f) n (lastw f) (prev f) (pspace f) (incompact f) (pindent f) (inl f) (err f) (crash f)
  end.
(* 166-182 Indent; closing: the next node is one of the runes in "}])>" *)
Definition write_indent (closing : bool) : M := fun f =>
  if Ascii.eqb (lastw f) nl
  then write_string (repeat sp (2 * (if closing then Nat.pred (indent f) else indent f))) f
  else f.
(* 136-141, the end of P *)
Definition settle : M := fun f =>
  set_pindent 0 (if (0 <? pindent f)%Z then shift_in f else if (pindent f <? 0)%Z then shift_out f else f).
(* 127-142 P *)
Definition p_line (s : bytes) : M :=
  when (nonempty (trim s)) (write_indent false ;; write_string s) ;; write_string [nl] ;; settle.
Definition p_blank : M := p_line [].

(* ---- comments ---- *)
(* 2320-2418 writeComment; the lines are Format.Model's comment_lines *)
Fixpoint comment_block (ls : list bytes) : M :=
  match ls with
  | [] => skip
  | [l] => write_indent false ;; write_string l
  | l :: r => p_line l ;; comment_block r
  end.
Definition write_comment (t : bytes) : M := comment_block (comment_lines t).
(* 2265-2288 writeInlineComments; i > 0 is the negation of first *)
Fixpoint inline_comments_from (first : bool) (cs : list comment) : M :=
  match cs with
  | [] => skip
  | c :: r =>
      when (negb (c_virtual c))
        ((fun f => when (negb first || nonempty (c_ws c) || mem (lastw f) (b_ ";}")) space f) ;;
         write_string (inline_comment (c_text c))) ;;
      inline_comments_from false r
  end.
Definition inline_comments := inline_comments_from true.
(* 2223-2244 writeMultilineCommentsMaybeCompact *)
Fixpoint multiline_from (compact : bool) (cs : list comment) : M :=
  match cs with
  | [] => skip
  | c :: r =>
      when (negb compact && (1 <? newlines (c_ws c))) p_blank ;;
      write_comment (c_text c) ;; write_string [nl] ;; multiline_from false r
  end.
Definition prev_open (f : fmt) : bool := match prev f with Some b => b | None => false end.
Definition multiline_comments (force : bool) (cs : list comment) : M :=
  fun f => multiline_from (force || prev_open f) cs f.
(* 2305-2318 writeTrailingEndComments *)
Fixpoint trailing_from (first : bool) (cs : list comment) : M :=
  match cs with
  | [] => skip
  | c :: r =>
      (if has_nl (c_ws c) then p_blank else when (nonempty (c_ws c) && negb first) space) ;;
      write_comment (c_text c) ;; trailing_from false r
  end.
Definition trailing_end_comments (cs : list comment) : M := trailing_from true cs ;; p_blank.

(* ---- tokens ---- *)
Definition opens (t : token) : bool := match t_kind t, t_text t with KRune, [c] => mem c (b_ "{[(<") | _, _ => false end.
Definition closes (t : token) : bool := match t_kind t, t_text t with KRune, [c] => mem c (b_ "}])>") | _, _ => false end.
Definition is_open_brace (t : token) : bool := match t_kind t, t_text t with KRune, [c] => mem c (b_ "{[<") | _, _ => false end.
(* what is written for a token: 1736-1738, 1764-1782, 1784-1791, 1816-1834 *)
Definition wtext (t : token) : bytes := match t_kind t with KStr => write_string_literal (t_text t) | _ => t_text t end.
Definition write_tok (t : token) : M := fun f =>
  write_string (wtext t)
    (if opens t then set_pindent (pindent f + 1)%Z f else if closes t then set_pindent (pindent f - 1)%Z f else f).
Definition lead_inline (t : token) : M :=
  when (nonempty (t_lead t)) (inline_comments (t_lead t) ;; when (nonempty (t_ws t)) space).
(* 2025-2049 writeInline of a terminal and of a composite node *)
Definition inline_tok (t : token) : M :=
  set_inl true ;; lead_inline t ;; write_tok t ;; inline_comments (t_trail t) ;; set_prev (is_open_brace t) ;; set_inl false.
Definition inline_node (m : M) : M := set_inl true ;; m ;; set_inl false.
(* 1959-2014 writeStartMaybeCompact up to the call of the node writer, for a node with the given
   tokens; the rest of it, for a node that is the token t or composite *)
Definition start_pre (force : bool) (ts : list token) (closing : bool) : M :=
  (fun f =>
     if nonempty (lead_of ts)
     then (multiline_comments force (lead_of ts) ;; when (negb force && (1 <? newlines (ws_of ts))) p_blank) f
     else when (negb (force || prev_open f) && (1 <? newlines (ws_of ts))) p_blank f) ;;
  write_indent closing.
Definition start_post (ts : list token) (open : bool) : M :=
  when (nonempty (trail_of ts)) (inline_comments (trail_of ts)) ;; set_prev open.
Definition start_tok (force : bool) (t : token) : M :=
  start_pre force [t] (closes t) ;; write_tok t ;; start_post [t] (is_open_brace t).
(* 2184-2207 writeLineEnd of a terminal *)
Definition line_end (t : token) : M :=
  lead_inline t ;; write_tok t ;; space ;; trailing_end_comments (t_trail t) ;; set_prev (is_open_brace t).
Definition fresh_line : M := fun f => if Ascii.eqb (lastw f) nl then f else p_blank f.
(* 2069-2105 writeBodyEnd of a terminal; inline_lead is leadingEndline *)
Definition virtual_trail (semi : option token) : option (list comment) :=
  match semi with Some s => if t_virtual s then Some (t_trail s) else None | None => None end.
Definition body_end (t : token) (semi : option token) (inline_lead : bool) : M :=
  (if inline_lead then lead_inline t
   else multiline_comments false (t_lead t) ;; write_indent (closes t)) ;;
  write_tok t ;;
  (if nonempty (t_trail t) then trailing_end_comments (t_trail t)
   else match virtual_trail semi with
        | Some cs => space ;; trailing_end_comments cs
        | None => trailing_end_comments []
        end) ;;
  set_prev (is_open_brace t).
(* 2137-2171 writeBodyEndInline of a terminal *)
Definition body_end_inline (t : token) (semi : option token) (inline_lead : bool) : M :=
  (if inline_lead then lead_inline t
   else multiline_comments false (t_lead t) ;; write_indent (closes t)) ;;
  write_tok t ;;
  (if nonempty (t_trail t) then inline_comments (t_trail t)
   else match virtual_trail semi with Some cs => inline_comments cs | None => skip end) ;;
  set_prev (is_open_brace t).
Definition line_element (t : token) : M := body_end t None false.

(* 1590-1637 writeOpenBracePrefix, ...Inline, ...ForArray *)
Definition open_prefix (t : token) : M :=
  lead_inline t ;; write_tok t ;;
  (if nonempty (t_trail t) then trailing_end_comments (t_trail t) else p_blank) ;; set_prev (is_open_brace t).
Definition open_prefix_inline (t : token) : M :=
  lead_inline t ;; write_tok t ;; when (nonempty (t_trail t)) (inline_comments (t_trail t)) ;; set_prev (is_open_brace t).
Definition open_prefix_array (t : token) : M :=
  when (nonempty (t_lead t)) (multiline_comments false (t_lead t)) ;; write_indent (closes t) ;; write_tok t ;;
  (if nonempty (t_trail t) then trailing_end_comments (t_trail t) else p_blank) ;; set_prev (is_open_brace t).
(* 1559-1585 writeBody with both braces present *)
Definition interior_comments (ts : list token) : bool :=
  existsb (fun t => nonempty (t_lead t)) (tl ts) || existsb (fun t => nonempty (t_trail t)) (removelast ts).
Definition body (op cl : token) (semi : option token) (elems : option M)
    (open_w : token -> M) (close_w : token -> option token -> bool -> M) : M :=
  match elems with
  | None => if interior_comments [op; cl] then open_w op ;; close_w cl semi false
            else inline_tok op ;; close_w cl semi true
  | Some m => open_w op ;; m ;; close_w cl semi false
  end.

(* ---- identifiers and names ---- *)
(* 1640-1644 writeCompoundIdent, and writeInline of an identifier *)
Definition write_ident (i : ident) : M := match i with Id t => write_tok t | Cid ts => seqs (map inline_tok ts) end.
Definition inline_ident (i : ident) : M := match i with Id t => inline_tok t | Cid _ => inline_node (write_ident i) end.
(* 1010-1027 writeFieldReference *)
Definition close_ref (r : fieldref) : M :=
  match fr_close r with
  | Some c => inline_tok c
  | None => when (match fr_open r with Some _ => true | None => false end) (inline_tok (fill ")"))
  end.
Definition write_ref (r : fieldref) : M :=
  opt_w inline_tok (fr_open r) ;; opt_w inline_ident (fr_url r) ;; opt_w inline_tok (fr_slash r) ;;
  inline_ident (fr_name r) ;; close_ref r.
(* 536-570 writeOptionName.  Under inCompactOptions the first part is written without its leading
   comments, and without URL prefix. *)
Definition first_part (r : fieldref) : M :=
  match fr_open r with
  | Some o => write_tok o ;; when (nonempty (t_trail o)) (inline_comments (t_trail o)) ;; inline_ident (fr_name r)
  | None => write_ident (fr_name r) ;;
            (let tr := trail_of (ident_toks (fr_name r)) in when (nonempty tr) (inline_comments tr))
  end ;; close_ref r.
Definition write_part (p : part) : M := match p with PRef r => write_ref r | PDot t => write_tok t end.
Definition write_name (ps : list part) : M := fun f =>
  match ps with
  | PRef r :: rest => ((if incompact f then first_part r else write_ref r) ;; seqs (map write_part rest)) f
  | _ => seqs (map write_part ps) f
  end.

(* ---- columns, column_format.go ---- *)
(* One element of a container as columnFormatElements sees it.  The segments are what is written
   between two reads of the buffer; seg_outer is written to the enclosing formatter. *)
Record seg := Seg { s_ctx : M; s_type : M; s_name : M; s_eq : M; s_end : M; s_outer : M }.
Inductive ekind := ENone | EField | EOption.
Record elem := Elem {
  e_kind : ekind;          (* groupableNodeType, 18-26 *)
  e_toks : list token;
  e_incomplete : bool;     (* an incomplete FieldNode *)
  e_alone : bool;          (* 81-122: it has options or a literal that will be expanded *)
  e_merge : bool;          (* 149-180: the next element may join it although it spans several lines *)
  e_seg : bool -> bool -> seg;     (* inCompactOptions, is the last element of the container *)
  e_node : M               (* writeNode, or writeField for an incomplete field *)
}.
Definition ekind_eqb (a b : ekind) : bool :=
  match a, b with ENone, ENone => true | EField, EField => true | EOption, EOption => true | _, _ => false end.
(* 42-194: groups collected so far, current group, kind of the previous element *)
Definition push (gs : list (list elem)) (cur : list elem) : list (list elem) := match cur with [] => gs | _ => gs ++ [cur] end.
Definition group_one (gs : list (list elem)) (cur : list elem) (e : elem) : list (list elem) * list elem :=
  match e_kind e with
  | ENone => (push (push gs cur) [e], [])
  | _ =>
    match rev cur with
    | [] => (gs, [e])
    | p :: _ =>
      if e_incomplete e then (push gs cur, [e])
      else if e_alone e then (push (push gs cur) [e], [])
      else
        let line := line_of (e_toks e) in
        if (line =? line_of (e_toks p)) || (line =? S (line_of (e_toks p)))
        then if nonempty (lead_of (e_toks e)) then (push gs cur, [e]) else (gs, cur ++ [e])
        else if (line =? S (end_line_of (e_toks p))) && e_merge p then (gs, cur ++ [e])
        else (push gs cur, [e])
    end
  end.
Fixpoint group_from (k : option ekind) (gs : list (list elem)) (cur : list elem) (es : list elem) : list (list elem) :=
  match es with
  | [] => push gs cur
  | e :: r =>
      let '(gs1, cur1) := match k with
                          | Some k0 => if ekind_eqb k0 (e_kind e) then (gs, cur) else (push gs cur, [])
                          | None => (gs, cur)
                          end in
      let '(gs2, cur2) := group_one gs1 cur1 e in
      group_from (Some (e_kind e)) gs2 cur2 r
  end.
Definition groups (es : list elem) : list (list elem) := group_from None [] [] es.

Section Columns.
(* alg.go:33-35, see Format.Model *)
Variable dec : list nat -> nat -> bool.

(* 210-433: the outer formatter, the clone with the buffer in out, the segments read *)
Definition drain (m : M) (f : fmt) : bytes * fmt := let f1 := m f in (out f1, set_out [] f1).
Definition run_elem (compact : bool) (lastx : bool) (e : elem) (st : fmt * fmt * list segfield) : fmt * fmt * list segfield :=
  let '(outer, f, fs) := st in
  if e_incomplete e then (outer, e_node e f, fs)
  else
    let s := e_seg e compact lastx in
    let '(b0, f0) := drain (s_ctx s) f in
    let '(b1, f1) := drain (s_type s) f0 in
    let '(b2, f2) := drain (s_name s) f1 in
    let '(b3, f3) := drain (s_eq s) f2 in
    let '(b4, f4) := drain (s_end s) f3 in
    (s_outer s outer, f4, fs ++ [{| ctx := b0; typeName := b1; fieldName := b2; equalsTag := b3; lineEnd := b4 |}]).
(* rest: how many elements of the container follow the group *)
Fixpoint run_elems (compact : bool) (rest : nat) (es : list elem) (st : fmt * fmt * list segfield) : fmt * fmt * list segfield :=
  match es with
  | [] => st
  | e :: r => run_elems compact rest r (run_elem compact ((rest =? 0) && negb (nonempty r)) e st)
  end.
(* 92-101 mergeState: everything but the error *)
Definition merge (outer f : fmt) (text : bytes) : fmt :=
  Fmt (out outer ++ text) (indent f) (lastw f) (prev f) (pspace f) (incompact f) (pindent f) (inl f) (err outer) (crash outer || crash f).
Definition run_group (rest : nat) (g : list elem) : M := fun f =>
  match g with
  | [e] =>
      match e_kind e with
      | ENone => e_node e f
      | _ => let '(outer, fc, fs) := run_elems (incompact f) rest g (f, set_out [] f, []) in
             match write_columns dec fs with Some b => merge outer fc (out fc ++ b) | None => set_crash f end
      end
  | _ => let '(outer, fc, fs) := run_elems (incompact f) rest g (f, set_out [] f, []) in
         match write_columns dec fs with Some b => merge outer fc (out fc ++ b) | None => set_crash f end
  end.
Fixpoint run_groups (gs : list (list elem)) : M :=
  match gs with
  | [] => skip
  | g :: r => run_group (List.length (List.concat r)) g ;; run_groups r
  end.
Definition columns (es : list elem) : M := run_groups (groups es).

(* ---- values ---- *)
Definition expanded (ts : list token) : bool := has_nl (ws_of ts).
(* 1677-1715 writeCompoundStringLiteral *)
Fixpoint string_lines (end_inline : bool) (ts : list token) : M :=
  match ts with
  | [] => skip
  | [t] => if end_inline then start_tok false t else line_element t
  | t :: r => line_element t ;; string_lines end_inline r
  end.
Definition compound_string (indented end_inline : bool) (ts : list token) : M :=
  p_blank ;; when indented shift_in ;; string_lines end_inline ts ;; when indented shift_out.
(* 848-866: the name of a message field at the start of a line, split at the node writer *)
Definition ref_start_toks (r : fieldref) : list token := match fr_open r with Some o => [o] | None => ident_toks (fr_name r) end.
Definition ref_start_closing (r : fieldref) : bool :=
  match fr_open r with Some o => closes o | None => match fr_name r with Id t => closes t | Cid _ => false end end.
Definition ref_start_rest (r : fieldref) : M :=
  match fr_open r with
  | Some o => write_tok o ;; start_post [o] (is_open_brace o) ;; opt_w inline_ident (fr_url r) ;;
              opt_w inline_tok (fr_slash r) ;; inline_ident (fr_name r)
  | None => write_ident (fr_name r) ;; start_post (ident_toks (fr_name r)) false
  end ;; close_ref r.
(* 722-728, 322-333 *)
Definition colon (s : option token) : M := inline_tok (match s with Some t => t | None => fill ":" end).
Definition with_rune (c : ascii) (t : token) : token :=
  Token (t_kind t) [c] (t_lead t) (t_trail t) (t_ws t) (t_line t) (t_virtual t).
(* column_format.go:337-343: the separator of a message field; without one, a comma that stands for
   the last token of the field *)
Definition field_comma (ts : list token) (semi : option token) : token :=
  match semi with
  | Some t => with_rune "," t
  | None => match rev ts with
            | t :: _ => Token KRune [","%char] (t_lead t) (t_trail t) (t_ws t) (t_line t) false
            | [] => fill ","
            end
  end.
(* 709-741: the fields of a literal written on one line: names, separators, and the writers of the values *)
Fixpoint compact_fields (fs : list (fieldref * option token * M * option token)) : M :=
  match fs with
  | [] => skip
  | (n, s, w, sm) :: r =>
      inline_node (write_ref n) ;; colon s ;; space ;; w ;;
      when (nonempty r) (inline_tok (match sm with Some t => t | None => fill "," end) ;; space) ;;
      compact_fields r
  end.
(* 1425-1462: the values of an array, each with the token it is (if terminal) and its writer as the
   last element or not *)
Fixpoint array_items (one_line : bool) (vs : list (option token * (bool -> M))) (cs : list token) : M :=
  match vs with
  | [] => skip
  | (Some t, _) :: [] => if one_line then body_end_inline t None true else line_element t
  | (None, w) :: [] => w (negb one_line)
  | (o, w) :: r =>
      match o with Some t => start_tok one_line t | None => w false end ;;
      must (fun c => if one_line then inline_tok c ;; space else line_end c) (nth_error cs 0) ;;
      array_items one_line r (tl cs)
  end.

(* the literal's first field or value, for messageLiteralShouldBeExpanded and its array twin, 676-707 *)
Definition fields_expanded (fs : list mfield) : bool := match fs with m :: _ => expanded (field_toks m) | [] => false end.
Definition values_expanded (vs : list value) : bool := match vs with v :: _ => expanded (value_toks v) | [] => false end.

(* How a value is written: writeNode, or writeCompositeValueForArrayLiteral (1497-1513) as the last
   element or not. *)
Inductive mode := MNode | MArr (lastx : bool).
Definition terminal (v : value) : option token := match v with VTok t => Some t | _ => None end.
(* writeInline of a value written by m *)
Definition inline_value (m : M) (v : value) : M := match v with VTok t => inline_tok t | _ => inline_node m end.
Fixpoint write_value (md : mode) (v : value) {struct v} : M :=
  match v with
  | VTok t => write_tok t
  | VIdent ts => match md with MNode => seqs (map inline_tok ts) | MArr _ => set_crash end
  | VStr ts => match md with MNode => compound_string true true ts | MArr l => string_lines (negb l) ts end
  | VNum s n =>
      match md with
      | MNode => inline_tok s ;; inline_tok n
      | MArr l => start_tok false s ;; (if l then line_end n else inline_tok n)
      end
  | VMsg o fs c sm =>
      (* 626-642, 646-674 *)
      if fields_expanded fs then
        let m := columns (map field_elem fs) in
        match md with
        | MNode => body o c sm (Some m) open_prefix body_end_inline
        | MArr l => body o c sm (Some m) open_prefix_array (if l then body_end else body_end_inline)
        end
      else
        when (match md with MArr _ => true | MNode => false end) (write_indent (closes o)) ;;
        inline_tok o ;;
        compact_fields (map (fun m => match m with MField n s v sm => (n, s, inline_value (write_value MNode v) v, sm) end) fs) ;;
        inline_tok c ;;
        match md with MArr l => when l p_blank | MNode => skip end
  | VArr o vs cs c sm =>
      (* 1421-1475 *)
      match md with
      | MArr _ => set_crash
      | MNode =>
          let one_line := negb (values_expanded vs) in
          body o c sm
            (match vs with
             | [] => None
             | _ => Some (array_items one_line (map (fun v => (terminal v, fun l => write_value (MArr l) v)) vs) cs)
             end)
            (if one_line then open_prefix_inline else open_prefix) body_end_inline
      end
  end
with field_elem (m : mfield) {struct m} : elem :=
  match m with
  | MField n s v sm =>
      let ts := field_toks m in
      Elem EField ts false
        (match v with VMsg _ fs _ _ => fields_expanded fs | VArr _ vs _ _ _ => values_expanded vs | _ => false end)
        (match v with VMsg _ fs _ _ => negb (fields_expanded fs) | VArr _ vs _ _ _ => negb (values_expanded vs) | VStr _ => false | _ => true end)
        (fun _ _ =>
           Seg (start_pre false (ref_start_toks n) (ref_start_closing n)) skip
               (ref_start_rest n ;; colon s) skip
               (write_value MNode v ;; line_end (field_comma ts sm)) skip)
        skip
  end.
Definition write_v (v : value) : M := write_value MNode v.
Definition inline_v (v : value) : M := inline_value (write_v v) v.
(* writeLineEnd of a value *)
Definition line_end_v (v : value) : M := match v with VTok t => line_end t | _ => write_v v ;; fresh_line end.

(* ---- options ---- *)
Definition co_trail (ts : list token) : list comment := trail_of ts.
(* 1279-1291, 1398-1411 *)
Definition opts_interior (os : list opt) : bool :=
  existsb (fun o => nonempty (lead_of (opt_node_toks o))) (tl os) ||
  existsb (fun o => nonempty (trail_of (opt_node_toks o))) (removelast os).
Definition copts_expanded (c : copts) : bool :=
  match co_opts c with
  | [] => false
  | o :: _ => has_nl (ws_of (opt_node_toks o)) || opts_interior (co_opts c)
  end.
Definition only_comma (o : opt) : bool :=
  match o_name o, o_eq o, o_val o, o_semi o with None, None, None, Some _ => true | _, _, _, _ => false end.
Definition compound (v : option value) : option (list token) := match v with Some (VStr ts) => Some ts | _ => None end.
(* 1343-1371: options written on one line; a compound string ends the list *)
Fixpoint inline_opts (close : M) (os : list opt) : M :=
  match os with
  | [] => close
  | o :: r =>
      if only_comma o then inline_opts close r
      else
        inline_node (opt_w write_name (o_name o)) ;; space ;; opt_w inline_tok (o_eq o) ;;
        match compound (o_val o) with
        | Some ts => compound_string false true ts ;; close
        | None =>
            space ;; must inline_v (o_val o) ;;
            match o_semi o with
            | Some t => when (nonempty r) (inline_tok (with_rune "," t) ;; space)
            | None => skip
            end ;;
            inline_opts close r
        end
  end.
(* column_format.go:348-421 *)
Definition opt_seg (container_compact : bool) (o : opt) (compact lastx : bool) : seg :=
  let name_toks := opt_toks (flat_map part_toks) (o_name o) in
  Seg
    (match o_kw o with
     | Some k => start_pre false [k] (closes k)
     | None => match o_name o with Some _ => start_pre false name_toks false | None => skip end
     end)
    (match o_kw o with Some k => write_tok k ;; start_post [k] (is_open_brace k) | None => skip end)
    (match o_name o with
     | Some ps => write_name ps ;; (match o_kw o with Some _ => skip | None => start_post name_toks false end)
     | None => skip
     end)
    (opt_w inline_tok (o_eq o))
    (match compound (o_val o) with
     | Some ts => compound_string true true ts ;; must line_end (o_semi o)
     | None =>
         if compact then
           if negb container_compact then set_crash
           else if lastx then opt_w line_end_v (o_val o)
           else opt_w write_v (o_val o) ;; must (fun t => line_end (with_rune "," t)) (o_semi o)
         else opt_w write_v (o_val o) ;; must line_end (o_semi o)
     end)
    skip.
Definition val_merge (v : option value) : bool :=
  match v with
  | Some (VMsg _ fs _ _) => negb (fields_expanded fs)
  | Some (VArr _ vs _ _ _) => negb (values_expanded vs)
  | Some (VStr _) => false
  | _ => true
  end.
Definition opt_elem (container_compact : bool) (w : M) (o : opt) : elem :=
  Elem EOption (opt_node_toks o) false false (val_merge (o_val o)) (opt_seg container_compact o) w.
(* 1321-1396 writeCompactOptions *)
Definition write_copts (c : copts) : M :=
  set_compact true ;;
  (if copts_expanded c
   then body (co_open c) (co_close c) (co_semi c)
          (match co_opts c with [] => None | os => Some (columns (map (opt_elem true skip) os)) end)
          open_prefix body_end_inline
   else when (nonempty (co_opts c)) (inline_tok (co_open c) ;; inline_opts (inline_tok (co_close c)) (co_opts c))) ;;
  set_compact false.
(* 471-492, 515-527 writeOption for an option with its keyword *)
Definition write_option (o : opt) : M :=
  match o_kw o with
  | Some k => start_tok false k ;; space ;; opt_w write_name (o_name o)
  | None => opt_w (fun ps => start_pre false (flat_map part_toks ps) false ;; write_name ps ;; start_post (flat_map part_toks ps) false) (o_name o)
  end ;;
  space ;; must inline_tok (o_eq o) ;; space ;;
  match o_semi o, compound (o_val o) with
  | Some t, Some ts => compound_string true true ts ;; line_end t
  | Some t, None => must inline_v (o_val o) ;; line_end t
  | None, Some ts => compound_string true false ts
  | None, None => must inline_v (o_val o)
  end.

(* ---- declarations ---- *)
Definition write_opts (os : option copts) : M := opt_w (fun c => space ;; write_copts c) os.
(* 940-974 writeField *)
Definition is_dot (t : token) : bool := match t_kind t with KRune => true | _ => false end.
(* 1655-1668: what follows the node writer's first token; the leading dot is written again *)
Definition field_type_rest (ty : ident) : M :=
  match ty with
  | Id t => write_tok t ;; start_post [t] (is_open_brace t)
  | Cid [] => set_crash
  | Cid (t :: r) => write_tok t ;; start_post [t] (is_open_brace t) ;; when (is_dot t) (inline_tok t) ;; seqs (map inline_tok r)
  end.
Definition write_field (l : option token) (ty : ident) (n e : option token) (tg : option value) (os : option copts) (sm : option token) : M :=
  match l with
  | Some t => start_tok false t ;; space ;; inline_ident ty
  | None => start_pre false (firstn 1 (ident_toks ty)) (match ident_toks ty with t :: _ => closes t | [] => false end) ;; field_type_rest ty
  end ;;
  opt_w (fun t => space ;; inline_tok t) n ;; opt_w (fun t => space ;; inline_tok t) e ;; opt_w (fun v => space ;; inline_v v) tg ;;
  write_opts os ;; must line_end sm.
(* FieldNode.IsIncomplete: name, '=' or number missing *)
Definition incomplete (n e : option token) (tg : option value) : bool :=
  match n, e, tg with Some _, Some _, Some _ => false | _, _, _ => true end.
(* 1227-1277 *)
Definition write_relem (e : relem) : M :=
  match e with
  | RComma t => inline_tok t
  | RVal v => space ;; inline_v v
  | RRange s to en mx =>
      space ;; inline_node (inline_v s ;; opt_w (fun t => space ;; inline_tok t) to ;;
        match en, mx with
        | Some v, _ => space ;; inline_v v
        | None, Some t => space ;; inline_tok t
        | None, None => skip
        end)
  end.
(* 1130-1138 *)
Definition write_rpctype (r : rpctype) : M :=
  inline_node (inline_tok (rt_open r) ;; opt_w (fun t => inline_tok t ;; space) (rt_stream r) ;;
    inline_ident (rt_type r) ;; inline_tok (rt_close r)).
Definition type_body (op cl : token) (semi : option token) (elems : option M) : M := body op cl semi elems open_prefix body_end.
Definition some_if {A} (l : list A) (m : M) : option M := match l with [] => None | _ => Some m end.
Definition opt_expanded (os : option copts) : bool := match os with Some c => copts_expanded c | None => false end.
(* 171-180: a field whose type spans several lines or whose options stay on one line *)
Definition field_merge (ty : ident) (os : option copts) : bool :=
  (line_of (ident_toks ty) <? end_line_of (ident_toks ty)) || match os with Some c => negb (copts_expanded c) | None => false end.
(* 992-1007 the map type without its first token *)
Definition map_type_rest (op : token) (k : ident) (cm : token) (v : ident) (c : token) : M :=
  inline_tok op ;; inline_ident k ;; inline_tok cm ;; space ;; inline_ident v ;; inline_tok c.
Definition map_semi_comments (sm : option token) : M :=
  match sm with Some s => when (nonempty (t_trail s)) (inline_comments (t_trail s)) | None => skip end.
(* column_format.go:217-308 *)
Definition field_seg l ty n e tg os sm : seg :=
  Seg (match l with
       | Some t => start_pre false [t] (closes t)
       | None => start_pre false (firstn 1 (ident_toks ty)) (match ident_toks ty with t :: _ => closes t | [] => false end)
       end)
      (match l with
       | Some t => write_tok t ;; start_post [t] (is_open_brace t) ;; space ;; inline_ident ty
       | None => field_type_rest ty
       end)
      (must inline_tok n) (must inline_tok e ;; space ;; must inline_v tg)
      (opt_w write_copts os ;; must line_end sm) skip.
Definition map_seg kw o k cm v c tsm n e tg os sm : seg :=
  Seg (start_pre false [kw] (closes kw))
      (write_tok kw ;; start_post [kw] (is_open_brace kw) ;; map_type_rest o k cm v c)
      (inline_tok n) (inline_tok e ;; space ;; inline_v tg)
      (opt_w write_copts os ;; must line_end sm) (map_semi_comments tsm).
Definition enum_value_seg n e v os sm : seg :=
  Seg (start_pre false [n] (closes n)) skip (write_tok n ;; start_post [n] (is_open_brace n))
      (inline_tok e ;; space ;; inline_v v)
      (opt_w write_copts os ;; must (fun t => line_end (with_rune ";" t)) sm) skip.
Definition no_seg : seg := Seg skip skip skip skip skip skip.

(* The element columnFormatElements makes of a declaration that writeNode writes by w. *)
Definition decl_elem (w : M) (d : decl) : elem :=
  let ts := decl_toks d in
  match d with
  | DField l ty n e tg os sm =>
      Elem EField ts (incomplete n e tg) (opt_expanded os) (field_merge ty os) (fun _ _ => field_seg l ty n e tg os sm)
        (write_field l ty n e tg os sm)
  | DMap kw o k cm v c tsm n e tg os sm =>
      Elem EField ts false false false (fun _ _ => map_seg kw o k cm v c tsm n e tg os sm) skip
  | DEnumValue n e v os sm => Elem EField ts false (opt_expanded os) false (fun _ _ => enum_value_seg n e v os sm) skip
  | DOption o => opt_elem false skip o
  | _ => Elem ENone ts false false false (fun _ _ => no_seg) w
  end.
Fixpoint write_decl (d : decl) : M :=
  match d with
  | DField l ty n e tg os sm => write_field l ty n e tg os sm
  | DMap kw o k cm v c tsm n e tg os sm =>
      start_tok false kw ;; map_type_rest o k cm v c ;; map_semi_comments tsm ;;
      space ;; inline_tok n ;; space ;; inline_tok e ;; space ;; inline_v tg ;; write_opts os ;; must line_end sm
  | DEnumValue n e v os sm =>
      start_tok false n ;; space ;; inline_tok e ;; space ;; inline_v v ;; write_opts os ;; must (fun t => line_end (with_rune ";" t)) sm
  | DOption o => write_option o
  | DReserved kw es sm => start_tok false kw ;; seqs (map write_relem es) ;; must line_end sm
  | DExtensions kw es os sm => start_tok false kw ;; space ;; seqs (map write_relem es) ;; write_opts os ;; must line_end sm
  | DMessage kw n o b c sm | DEnum kw n o b c sm | DOneof kw n o b c sm =>
      start_tok false kw ;; space ;; inline_tok n ;; space ;; type_body o c sm (some_if b (columns (map (fun d => decl_elem (write_decl d) d) b)))
  | DService kw n o b c sm =>
      start_tok false kw ;; space ;; inline_tok n ;; space ;; type_body o c sm (some_if b (seqs (map write_decl b)))
  | DExtend kw x o b c sm =>
      start_tok false kw ;; opt_w (fun i => space ;; inline_ident i) x ;; space ;; type_body o c sm (some_if b (columns (map (fun d => decl_elem (write_decl d) d) b)))
  | DGroup l kw n e tg os o b c sm =>
      match l with Some t => start_tok false t ;; space ;; inline_tok kw | None => start_tok false kw end ;;
      space ;; inline_tok n ;; space ;; inline_tok e ;; space ;; inline_v tg ;; write_opts os ;; space ;;
      type_body o c sm (some_if b (seqs (map write_decl b)))
  | DRpc kw n i rt u br b sm =>
      start_tok false kw ;; space ;; inline_tok n ;; write_rpctype i ;; space ;; inline_tok rt ;; space ;; write_rpctype u ;;
      match b with
      | [] => line_end (fill ";")
      | _ => space ;; match br with
                      | Some (o, c) => type_body o c sm (Some (seqs (map write_decl b)))
                      | None => seqs (map write_decl b)
                      end
      end
  | DEmpty _ => skip
  end.

(* ---- files ---- *)
(* sort.Slice on imports (292-314) and file options (329-345) *)
Variable isort : list import -> list import.
Variable osort : list opt -> list opt.

(* 2478-2487 leadingCommentsContainBlankLine *)
Definition blank_before (ts : list token) : bool :=
  existsb (fun c => 1 <? newlines (c_ws c)) (lead_of ts) || (1 <? newlines (ws_of ts)).
(* 2489-2515 importHasComment *)
Definition commented (ts : list token) : bool := nonempty (lead_of ts) || nonempty (trail_of ts).
Definition import_commented (i : import) : bool :=
  commented (import_toks i) || commented [i_kw i] || commented (value_toks (i_name i)) || commented (otoks (i_semi i)) || commented (otoks (i_mod i)).
(* 417-432 writeImport *)
Definition write_import (force : bool) (i : import) : M :=
  start_tok force (i_kw i) ;; space ;; opt_w (fun t => inline_tok t ;; space) (i_mod i) ;; inline_v (i_name i) ;; must line_end (i_semi i).
Definition sep_line (ts : list token) : M := fun f =>
  when (match prev f with Some _ => true | None => false end && negb (blank_before ts)) p_blank f.
(* 315-328 *)
Fixpoint write_imports (previous : option bytes) (l : list import) : M :=
  match l with
  | [] => skip
  | i :: r =>
      match previous with
      | None => sep_line (import_toks i) ;; write_import false i
      | Some p => when (negb (beq (i_path i) p && negb (import_commented i))) (write_import true i)
      end ;;
      write_imports (Some (i_path i)) r
  end.
Definition packages (ds : list fdecl) : list fdecl := filter (fun d => match d with FPackage _ _ _ => true | _ => false end) ds.
Definition imports (ds : list fdecl) : list import := flat_map (fun d => match d with FImport i => [i] | _ => [] end) ds.
Definition options (ds : list fdecl) : list opt := flat_map (fun d => match d with FOption o => [o] | _ => [] end) ds.
(* 375-410 *)
Definition write_syntax (s : token * token * value * option token) : M :=
  let '(k, e, v, sm) := s in start_tok false k ;; space ;; inline_tok e ;; space ;; inline_v v ;; must line_end sm.
Definition write_package (d : fdecl) : M :=
  match d with
  | FPackage kw n sm => start_tok false kw ;; space ;; opt_w inline_ident n ;; must line_end sm
  | _ => skip
  end.
(* 262-351 writeFileHeader; of several package declarations the last is written *)
Definition write_header (f : file) : M :=
  opt_w write_syntax (f_syntax f) ;;
  match rev (packages (f_decls f)) with p :: _ => write_package p | [] => skip end ;;
  write_imports None (isort (imports (f_decls f))) ;;
  match osort (options (f_decls f)) with
  | [] => columns []
  | o :: r => sep_line (opt_node_toks o) ;; columns (map (opt_elem false skip) (o :: r))
  end.
(* 355-368 writeFileTypes *)
Definition write_type (d : fdecl) : M :=
  match d with
  | FDecl (DOption _) | FDecl (DEmpty _) => skip
  | FDecl d => sep_line (decl_toks d) ;; write_decl d
  | _ => skip
  end.
(* 233-245 writeFile *)
Definition write_file (f : file) : M :=
  write_header f ;; seqs (map write_type (f_decls f)) ;;
  opt_w (fun t => multiline_comments false (t_lead t)) (f_eof f) ;;
  (fun st => when (negb (mem (lastw st) [zero; nl])) p_blank st).
Definition format (f : file) : fmt := write_file f start.
End Columns.
