(* Vocabulary for C110-C115, independent of the writers: the lexical grammar of the language, what it
   means that a sequence of words spells a syntax tree, and well-formed trees. *)
From Coq Require Import List Arith Bool ZArith Ascii String.
From Verif Require Import Base Strs.
From Verif.Format Require Import Model Spec.
From Verif.FormatTree Require Import Model.
Import ListNotations.
Open Scope list_scope.

(* ---- the lexical grammar ---- *)
Inductive lexeme := LW (w : bytes) | LC (c : bytes).      (* a word (token) or a comment *)
Inductive lst := S0 | SId (w : bytes) | SNum (w : bytes) | SDot | SSlash | SStr (q : ascii) (esc : bool) (w : bytes)
| SLine (w : bytes) | SBlock (star : bool) (w : bytes) | SErr.

Definition between (a b : nat) (c : ascii) : bool := let n := nat_of_ascii c in (a <=? n) && (n <=? b).
Definition digit (c : ascii) : bool := between 48 57 c.
Definition letter (c : ascii) : bool := between 65 90 c || between 97 122 c || Ascii.eqb c "_".
Definition idchar (c : ascii) : bool := letter c || digit c.
Definition dotc : ascii := "."%char.
Definition numchar (w : bytes) (c : ascii) : bool :=
  idchar c || Ascii.eqb c dotc ||
  ((Ascii.eqb c "+" || Ascii.eqb c "-") && (Ascii.eqb (last w zero) "e" || Ascii.eqb (last w zero) "E")).

Definition lstart (c : ascii) : lst * list lexeme :=
  if is_space c then (S0, [])
  else if letter c then (SId [c], [])
  else if digit c then (SNum [c], [])
  else if Ascii.eqb c dotc then (SDot, [])
  else if Ascii.eqb c slash then (SSlash, [])
  else if Ascii.eqb c dq || Ascii.eqb c sq then (SStr c false [c], [])
  else (S0, [LW [c]]).
Definition after (l : lexeme) (r : lst * list lexeme) : lst * list lexeme := (fst r, l :: snd r).
Definition lstep (s : lst) (c : ascii) : lst * list lexeme :=
  match s with
  | S0 => lstart c
  | SId w => if idchar c then (SId (w ++ [c]), []) else after (LW w) (lstart c)
  | SNum w => if numchar w c then (SNum (w ++ [c]), []) else after (LW w) (lstart c)
  | SDot => if digit c then (SNum [dotc; c], []) else after (LW [dotc]) (lstart c)
  | SSlash => if Ascii.eqb c slash then (SLine [slash; slash], [])
              else if Ascii.eqb c star then (SBlock false [slash; star], [])
              else after (LW [slash]) (lstart c)
  | SStr q e w =>
      if e then (SStr q false (w ++ [c]), [])
      else if Ascii.eqb c q then (S0, [LW (w ++ [c])])
      else if Ascii.eqb c nl then (SErr, [])
      else (SStr q (Ascii.eqb c backslash) (w ++ [c]), [])
  | SLine w => if Ascii.eqb c nl then (S0, [LC w]) else (SLine (w ++ [c]), [])
  | SBlock st w => if st && Ascii.eqb c slash then (S0, [LC (w ++ [c])]) else (SBlock (Ascii.eqb c star) (w ++ [c]), [])
  | SErr => (SErr, [])
  end.
Fixpoint lrun (s : lst) (x : bytes) : lst * list lexeme :=
  match x with
  | [] => (s, [])
  | c :: r => let '(s1, l1) := lstep s c in let '(s2, l2) := lrun s1 r in (s2, l1 ++ l2)
  end.
(* What the end of the text completes. *)
Definition flush (s : lst) : list lexeme :=
  match s with SId w => [LW w] | SNum w => [LW w] | SDot => [LW [dotc]] | SSlash => [LW [slash]] | SLine w => [LC w] | _ => [] end.
Definition lexemes (x : bytes) : list lexeme := snd (lrun S0 x) ++ flush (fst (lrun S0 x)).
(* The text is lexically complete: no open literal or comment, no error. *)
Definition complete (x : bytes) : Prop :=
  match fst (lrun S0 x) with SStr _ _ _ | SBlock _ _ | SErr => False | _ => True end.
Definition wds (l : list lexeme) : list bytes := flat_map (fun x => match x with LW w => [w] | LC _ => [] end) l.
Definition coms (l : list lexeme) : list bytes := flat_map (fun x => match x with LC c => [c] | LW _ => [] end) l.
Definition words_of (x : bytes) : list bytes := wds (lexemes x).
Definition comments_of (x : bytes) : list bytes := coms (lexemes x).

(* ---- spelling: the words of a tree, up to the choices the grammar leaves ---- *)
(* The word of a token; single quoted literals are spelled with double quotes (C35). *)
Definition ows (o : option token) : list bytes := map wtext (otoks o).
Definition ident_ws (i : ident) : list bytes := map wtext (ident_toks i).
Definition comma_w : bytes := b_ ",".
Definition semi_w : bytes := b_ ";".
Definition colon_w : bytes := b_ ":".
Definition ref_ws (r : fieldref) : list bytes := map wtext (ref_toks r).
Definition literal (v : value) : bool := match v with VMsg _ _ _ _ | VArr _ _ _ _ _ => true | _ => false end.
(* In a message literal a field may be followed by a comma, a semicolon or nothing, and the colon
   before a message or list may be left out. *)
Inductive sp_value : value -> list bytes -> Prop :=
| sp_tok t : sp_value (VTok t) [wtext t]
| sp_ident ts : sp_value (VIdent ts) (map wtext ts)
| sp_str ts : sp_value (VStr ts) (map wtext ts)
| sp_num s n : sp_value (VNum s n) [wtext s; wtext n]
| sp_msg o fs c sm ws : sp_fields fs ws -> sp_value (VMsg o fs c sm) (wtext o :: ws ++ [wtext c])
| sp_arr o vs cs c sm ws : sp_values vs ws -> sp_value (VArr o vs cs c sm) (wtext o :: ws ++ [wtext c])
with sp_fields : list mfield -> list bytes -> Prop :=
| sp_nil : sp_fields [] []
| sp_cons n s v sm r col wv sep wr :
    (col = [colon_w] \/ (col = [] /\ literal v = true)) -> sp_value v wv ->
    (sep = [] \/ sep = [comma_w] \/ sep = [semi_w]) -> sp_fields r wr ->
    sp_fields (MField n s v sm :: r) (ref_ws n ++ col ++ wv ++ sep ++ wr)
with sp_values : list value -> list bytes -> Prop :=
| sp_vnil : sp_values [] []
| sp_vone v w : sp_value v w -> sp_values [v] w
| sp_vcons v w v' r ws : sp_value v w -> sp_values (v' :: r) ws -> sp_values (v :: v' :: r) (w ++ comma_w :: ws).

Definition name_ws (ps : list part) : list bytes := map wtext (flat_map part_toks ps).
Definition sp_oval (v : option value) (ws : list bytes) : Prop := match v with Some v => sp_value v ws | None => ws = [] end.
(* the name, the equals sign and the value of an option *)
Definition sp_assign (o : opt) (ws : list bytes) : Prop :=
  exists wv, sp_oval (o_val o) wv /\
    ws = match o_name o with Some ps => name_ws ps | None => [] end ++ ows (o_eq o) ++ wv.
Definition sp_option (o : opt) (ws : list bytes) : Prop :=
  exists wa, sp_assign o wa /\ ws = ows (o_kw o) ++ wa ++ [semi_w].
(* Compact options: separated by commas; a stray comma of the extended syntax and the comma after
   the last option may be left out, and so may empty brackets. *)
Inductive sp_opts : list opt -> list bytes -> Prop :=
| sp_onil : sp_opts [] []
| sp_ostray o r ws : only_comma o = true -> sp_opts r ws -> sp_opts (o :: r) ws
| sp_ostray' o r ws : only_comma o = true -> sp_opts r ws -> sp_opts (o :: r) (comma_w :: ws)
| sp_ocons o r wa sep ws : only_comma o = false -> sp_assign o wa -> sp_opts r ws ->
    (sep = [comma_w] \/ (sep = [] /\ forallb only_comma r = true)) -> sp_opts (o :: r) (wa ++ sep ++ ws).
Definition sp_copts (oc : option copts) (ws : list bytes) : Prop :=
  match oc with
  | None => ws = []
  | Some c => (exists wo, sp_opts (co_opts c) wo /\ ws = wtext (co_open c) :: wo ++ [wtext (co_close c)]) \/
              (co_opts c = [] /\ ws = [])
  end.
Definition sp_relem (e : relem) (ws : list bytes) : Prop :=
  match e with
  | RComma t => ws = [wtext t]
  | RVal v => sp_value v ws
  | RRange s to e m => exists w1 w2, sp_value s w1 /\ sp_oval e w2 /\ ws = w1 ++ ows to ++ w2 ++ ows m
  end.
Inductive sp_list {A} (sp : A -> list bytes -> Prop) : list A -> list bytes -> Prop :=
| sp_lnil : sp_list sp [] []
| sp_lcons a r w ws : sp a w -> sp_list sp r ws -> sp_list sp (a :: r) (w ++ ws).
Definition rpctype_ws (r : rpctype) : list bytes := map wtext (rpctype_toks r).
(* Declarations.  The semicolon after a body, and empty declarations, may be left out; a method
   without body may be written with or without braces; an enum value may end with a comma. *)
Inductive sp_decl : decl -> list bytes -> Prop :=
| sp_field l ty n e tg os sm w1 w2 : sp_oval tg w1 -> sp_copts os w2 ->
    sp_decl (DField l ty n e tg os sm) (ows l ++ ident_ws ty ++ ows n ++ ows e ++ w1 ++ w2 ++ [semi_w])
| sp_map kw o k cm v c tsm n e tg os sm w1 w2 : sp_value tg w1 -> sp_copts os w2 ->
    sp_decl (DMap kw o k cm v c tsm n e tg os sm)
      (wtext kw :: wtext o :: ident_ws k ++ wtext cm :: ident_ws v ++ wtext c :: wtext n :: wtext e :: w1 ++ w2 ++ [semi_w])
| sp_enum_value n e v os sm w1 w2 last : sp_value v w1 -> sp_copts os w2 -> last = semi_w \/ last = comma_w ->
    sp_decl (DEnumValue n e v os sm) (wtext n :: wtext e :: w1 ++ w2 ++ [last])
| sp_opt o w : sp_option o w -> sp_decl (DOption o) w
| sp_reserved kw es sm w : sp_list sp_relem es w -> sp_decl (DReserved kw es sm) (wtext kw :: w ++ [semi_w])
| sp_extensions kw es os sm w w2 : sp_list sp_relem es w -> sp_copts os w2 ->
    sp_decl (DExtensions kw es os sm) (wtext kw :: w ++ w2 ++ [semi_w])
| sp_message kw n o b c sm w e : sp_decls b w -> e = [] \/ e = [semi_w] ->
    sp_decl (DMessage kw n o b c sm) (wtext kw :: wtext n :: wtext o :: w ++ wtext c :: e)
| sp_enum kw n o b c sm w e : sp_decls b w -> e = [] \/ e = [semi_w] ->
    sp_decl (DEnum kw n o b c sm) (wtext kw :: wtext n :: wtext o :: w ++ wtext c :: e)
| sp_oneof kw n o b c sm w e : sp_decls b w -> e = [] \/ e = [semi_w] ->
    sp_decl (DOneof kw n o b c sm) (wtext kw :: wtext n :: wtext o :: w ++ wtext c :: e)
| sp_extend kw x o b c sm w e : sp_decls b w -> e = [] \/ e = [semi_w] ->
    sp_decl (DExtend kw x o b c sm) (wtext kw :: map wtext (opt_toks ident_toks x) ++ wtext o :: w ++ wtext c :: e)
| sp_group l kw n e tg os o b c sm w1 w2 w en : sp_value tg w1 -> sp_copts os w2 -> sp_decls b w -> en = [] \/ en = [semi_w] ->
    sp_decl (DGroup l kw n e tg os o b c sm)
      (ows l ++ wtext kw :: wtext n :: wtext e :: w1 ++ w2 ++ wtext o :: w ++ wtext c :: en)
| sp_service kw n o b c sm w e : sp_decls b w -> e = [] \/ e = [semi_w] ->
    sp_decl (DService kw n o b c sm) (wtext kw :: wtext n :: wtext o :: w ++ wtext c :: e)
| sp_rpc kw n i rt u br b sm w wb : sp_decls b w ->
    (wb = [semi_w] /\ b = [] \/ exists o c e, (e = [] \/ e = [semi_w]) /\ br = Some (o, c) /\ wb = wtext o :: w ++ wtext c :: e) ->
    sp_decl (DRpc kw n i rt u br b sm)
      (wtext kw :: wtext n :: rpctype_ws i ++ wtext rt :: rpctype_ws u ++ wb)
| sp_empty t w : w = [] \/ w = [semi_w] -> sp_decl (DEmpty t) w
with sp_decls : list decl -> list bytes -> Prop :=
| sp_dnil : sp_decls [] []
| sp_dcons d r w ws : sp_decl d w -> sp_decls r ws -> sp_decls (d :: r) (w ++ ws).

Definition sp_syntax (s : option (token * token * value * option token)) (ws : list bytes) : Prop :=
  match s with
  | Some (k, e, v, _) => exists wv, sp_value v wv /\ ws = wtext k :: wtext e :: wv ++ [semi_w]
  | None => ws = []
  end.
Definition sp_package (d : fdecl) (ws : list bytes) : Prop :=
  match d with FPackage kw n _ => ws = wtext kw :: map wtext (opt_toks ident_toks n) ++ [semi_w] | _ => False end.
Definition sp_import (i : import) (ws : list bytes) : Prop :=
  exists wv, sp_value (i_name i) wv /\ ws = wtext (i_kw i) :: ows (i_mod i) ++ wv ++ [semi_w].
(* Imports of a file that is already imported by the previous declaration may be left out. *)
Inductive deduped : option bytes -> list import -> list import -> Prop :=
| dd_nil p : deduped p [] []
| dd_keep p i r r' : deduped (Some (i_path i)) r r' -> deduped p (i :: r) (i :: r')
| dd_drop i r r' : deduped (Some (i_path i)) r r' -> deduped (Some (i_path i)) (i :: r) r'.
(* The other declarations of a file. *)
Definition types (ds : list fdecl) : list decl := flat_map (fun d => match d with FDecl d => [d] | _ => [] end) ds.

(* The words that are not separators or brackets. *)
Definition separator (w : bytes) : bool := existsb (beq w) [b_ ","; b_ ";"; b_ ":"; b_ "["; b_ "]"; b_ "{"; b_ "}"].
Definition core (ws : list bytes) : list bytes := filter (fun w => negb (separator w)) ws.
(* The tokens of a file in source order. *)
Definition syntax_toks (s : option (token * token * value * option token)) : list token :=
  match s with Some (k, e, v, sm) => k :: e :: value_toks v ++ otoks sm | None => [] end.
Definition fdecl_toks (d : fdecl) : list token :=
  match d with
  | FPackage kw n sm => kw :: opt_toks ident_toks n ++ otoks sm
  | FImport i => import_toks i
  | FOption o => opt_node_toks o
  | FDecl d => decl_toks d
  end.
Definition file_toks (f : file) : list token := syntax_toks (f_syntax f) ++ flat_map fdecl_toks (f_decls f).
(* The text is a source of the tree: its words are those of the tokens that are not inserted. *)
Definition source_of (text : bytes) (f : file) : Prop :=
  complete text /\ words_of text = map t_text (filter (fun t => negb (t_virtual t)) (file_toks f)) /\
  comments_of text = flat_map (fun t => map c_text (t_lead t ++ t_trail t)) (file_toks f ++ otoks (f_eof f)).

(* ---- well-formed trees: what the parser produces for a file without syntax errors ---- *)
Definition one_line_safe (t : bytes) : Prop := exists body, t = b_ "//" ++ body /\ ~ In nl body /\ after_end body = None.
(* A line comment that contains "*/" is excluded (C36). *)
Definition comment_ok (c : comment) : Prop := one_block (c_text c) \/ one_line_safe (c_text c).
(* A line comment ends at the end of its line, so what follows it is on another line. *)
Fixpoint comments_ok (cs : list comment) : Prop :=
  match cs with
  | [] => True
  | c :: r => comment_ok c /\ comments_ok r /\
              match r with d :: _ => one_line (c_text c) -> has_nl (c_ws d) = true | [] => True end
  end.
Definition coms_ok (t : token) : Prop := comments_ok (t_lead t) /\ comments_ok (t_trail t).
Definition idt (t : token) : Prop :=
  t_kind t = KId /\ coms_ok t /\ exists c r, t_text t = c :: r /\ letter c = true /\ forallb idchar r = true.
Definition numt (t : token) : Prop := t_kind t = KNum /\ coms_ok t /\ t_text t <> [] /\ lrun S0 (t_text t) = (SNum (t_text t), []).
(* A string literal that is still one literal when it is written with double quotes. *)
Definition strt (t : token) : Prop :=
  t_kind t = KStr /\ coms_ok t /\ (exists q r, wtext t = q :: r /\ (q = dq \/ q = sq)) /\ lrun S0 (wtext t) = (S0, [LW (wtext t)]).
Definition runet (s : string) (t : token) : Prop := t_kind t = KRune /\ coms_ok t /\ exists c, t_text t = [c] /\ In c (b_ s).
Definition orune (s : string) (o : option token) : Prop := match o with Some t => runet s t | None => True end.
Definition some_rune (s : string) (o : option token) : Prop := exists t, o = Some t /\ runet s t.
(* identifiers separated by dots; a leading dot is possible *)
Inductive dotted : list token -> Prop :=
| dot_one t : idt t -> dotted [t]
| dot_more t d r : idt t -> runet "." d -> dotted r -> dotted (t :: d :: r).
Definition ident_ok (i : ident) : Prop :=
  match i with
  | Id t => idt t
  | Cid ts => dotted ts \/ exists d r, ts = d :: r /\ runet "." d /\ dotted r
  end.
(* After the slash of a type URL comes no comment (it would have to be set off by a blank, or the
   source would read as a comment). *)
Definition set_off (t : token) : Prop := t_lead t = [].
Definition ref_ok (r : fieldref) : Prop :=
  ident_ok (fr_name r) /\
  match fr_open r with
  | Some o => runet "([" o /\ some_rune ")]" (fr_close r) /\
      match fr_slash r with
      | Some s => runet "/" s /\ t_trail s = [] /\ (exists u, fr_url r = Some u /\ ident_ok u) /\
                  match ident_toks (fr_name r) with t :: _ => idt t /\ t_lead t = [] | [] => False end
      | None => fr_url r = None
      end
  | None => fr_close r = None /\ fr_slash r = None /\ fr_url r = None
  end.
Fixpoint value_ok (v : value) : Prop :=
  match v with
  | VTok t => idt t \/ numt t \/ strt t
  | VIdent ts => ident_ok (Cid ts)
  | VStr ts => ts <> [] /\ Forall strt ts
  | VNum s n => runet "-+" s /\ (numt n \/ idt n)
  | VMsg o fs c sm => runet "{<" o /\ runet "}>" c /\ orune ";" sm /\ (fix all l := match l with [] => True | m :: r => field_ok m /\ all r end) fs
  | VArr o vs cs c sm =>
      runet "[" o /\ runet "]" c /\ orune ";" sm /\ Forall (runet ",") cs /\ pred (List.length vs) <= List.length cs <= List.length vs /\
      (fix all l := match l with [] => True | v :: r => value_ok v /\ all r end) vs /\
      (* lists are not nested and enum values are simple names *)
      forallb (fun v => match v with VArr _ _ _ _ _ | VIdent _ => false | _ => true end) vs = true
  end
with field_ok (m : mfield) : Prop :=
  match m with
  | MField n s v sm =>
      ref_ok n /\ value_ok v /\ orune ",;" sm /\
      match s with Some t => runet ":" t | None => literal v = true end
  end.
Definition part_ok (p : part) : Prop := match p with PRef r => ref_ok r /\ fr_url r = None /\ fr_slash r = None | PDot t => runet "." t end.
(* parts separated by dots *)
Inductive name_ok : list part -> Prop :=
| name_one r : part_ok (PRef r) -> name_ok [PRef r]
| name_more r d ps : part_ok (PRef r) -> part_ok (PDot d) -> name_ok ps -> name_ok (PRef r :: PDot d :: ps).
Definition opt_ok (semi : string) (o : opt) : Prop :=
  (exists ps, o_name o = Some ps /\ name_ok ps) /\ some_rune "=" (o_eq o) /\
  (exists v, o_val o = Some v /\ value_ok v) /\ orune semi (o_semi o).
Definition keyword_option_ok (o : opt) : Prop :=
  opt_ok ";" o /\ (exists k, o_kw o = Some k /\ idt k) /\ o_semi o <> None.
(* Compact options: every option but the last is followed by a comma. *)
Fixpoint opts_ok (os : list opt) : Prop :=
  match os with
  | [] => True
  | o :: r =>
      o_kw o = None /\ (o_semi o <> None \/ r = []) /\
      (only_comma o = true /\ some_rune "," (o_semi o) \/ opt_ok "," o) /\ opts_ok r
  end.
(* What the formatter does not get right: in a list on one line only the last option may be a
   string of several literals, and in a list over several lines such a last option needs a comma. *)
Definition copts_kept (c : copts) : Prop :=
  (copts_expanded c = false -> forall o, In o (removelast (co_opts c)) -> compound (o_val o) = None) /\
  (copts_expanded c = true -> forall o ts, last (map Some (co_opts c)) None = Some o -> compound (o_val o) = Some ts -> o_semi o <> None).
Definition copts_ok (oc : option copts) : Prop :=
  match oc with
  | None => True
  | Some c => runet "[" (co_open c) /\ runet "]" (co_close c) /\ orune ";" (co_semi c) /\ opts_ok (co_opts c) /\ copts_kept c
  end.
Definition relem_ok (e : relem) : Prop :=
  match e with
  | RComma t => runet "," t
  | RVal v => value_ok v
  | RRange s to e m =>
      value_ok s /\ match to with Some t => idt t | None => True end /\
      match e with Some v => value_ok v /\ m = None | None => match m with Some t => idt t | None => True end end
  end.
Definition rpctype_ok (r : rpctype) : Prop :=
  runet "(" (rt_open r) /\ runet ")" (rt_close r) /\ ident_ok (rt_type r) /\ match rt_stream r with Some t => idt t | None => True end.
Definition oidt (o : option token) : Prop := match o with Some t => idt t | None => True end.
(* A field type with a leading dot and no label is not kept (C110_leading_dot_refuted). *)
Definition type_kept (l : option token) (ty : ident) : Prop :=
  l = None -> match ident_toks ty with t :: _ => t_kind t = KId | [] => False end.
Definition semi_ok (semi : option token) : Prop := orune ";" semi.
Fixpoint decl_ok (d : decl) : Prop :=
  let all := fix all l := match l with [] => True | d :: r => decl_ok d /\ all r end in
  match d with
  | DField l ty n e tg os sm =>
      oidt l /\ ident_ok ty /\ type_kept l ty /\ (exists t, n = Some t /\ idt t) /\ some_rune "=" e /\
      (exists v, tg = Some v /\ value_ok v) /\ copts_ok os /\ some_rune ";" sm
  | DMap kw o k cm v c tsm n e tg os sm =>
      idt kw /\ runet "<" o /\ ident_ok k /\ runet "," cm /\ ident_ok v /\ runet ">" c /\ orune ";" tsm /\
      idt n /\ runet "=" e /\ value_ok tg /\ copts_ok os /\ some_rune ";" sm
  | DEnumValue n e v os sm => idt n /\ runet "=" e /\ value_ok v /\ copts_ok os /\ some_rune ";," sm
  | DOption o => keyword_option_ok o
  | DReserved kw es sm => idt kw /\ Forall relem_ok es /\ some_rune ";" sm
  | DExtensions kw es os sm => idt kw /\ Forall relem_ok es /\ copts_ok os /\ some_rune ";" sm
  | DMessage kw n o b c sm | DEnum kw n o b c sm | DOneof kw n o b c sm | DService kw n o b c sm =>
      idt kw /\ idt n /\ runet "{" o /\ runet "}" c /\ semi_ok sm /\ all b
  | DExtend kw x o b c sm =>
      idt kw /\ match x with Some i => ident_ok i | None => True end /\ runet "{" o /\ runet "}" c /\ semi_ok sm /\ all b
  | DGroup l kw n e tg os o b c sm =>
      oidt l /\ idt kw /\ idt n /\ runet "=" e /\ value_ok tg /\ copts_ok os /\ runet "{" o /\ runet "}" c /\ semi_ok sm /\ all b
  | DRpc kw n i rt u br b sm =>
      idt kw /\ idt n /\ rpctype_ok i /\ idt rt /\ rpctype_ok u /\ semi_ok sm /\ all b /\
      match br with Some (o, c) => runet "{" o /\ runet "}" c | None => b = [] end
  | DEmpty t => runet ";" t
  end.
Definition import_ok (i : import) : Prop :=
  idt (i_kw i) /\ oidt (i_mod i) /\ value_ok (i_name i) /\ some_rune ";" (i_semi i).
Definition fdecl_ok (d : fdecl) : Prop :=
  match d with
  | FPackage kw n sm => idt kw /\ (exists i, n = Some i /\ ident_ok i) /\ some_rune ";" sm
  | FImport i => import_ok i
  | FOption o => keyword_option_ok o
  | FDecl d => decl_ok d /\ match d with DOption _ => False | _ => True end
  end.
Definition file_ok (f : file) : Prop :=
  match f_syntax f with
  | Some (k, e, v, sm) => idt k /\ runet "=" e /\ value_ok v /\ some_rune ";" sm
  | None => True
  end /\
  Forall fdecl_ok (f_decls f) /\ List.length (packages (f_decls f)) <= 1 /\
  match f_eof f with Some t => comments_ok (t_lead t) | None => True end.
