(* Specification for C112: what it means that a comment is in the output, and the places in a file
   where the formatter does not look for comments. *)
From Coq Require Import Ascii String.
From Verif Require Import Base Strs.
From Verif.Format Require Import Model Spec.
From Verif.FormatTree Require Import Model Spec.
Import ListNotations.
Open Scope list_scope.

Definition tok_comments (t : token) : list comment := t_lead t ++ t_trail t.
Definition comments (ts : list token) : list comment := flat_map tok_comments ts.
Definition file_comments (f : file) : list comment := comments (file_toks f ++ otoks (f_eof f)).

(* What a reader sees of a comment: its text without the delimiters and without white space. *)
Definition content (t : bytes) : bytes :=
  if has_prefix t (b_ "/*") then removelast (removelast (skipn 2 (visible t))) else skipn 2 (visible t).
(* The text contains a comment that says the same. *)
Definition shown (t s : bytes) : Prop :=
  exists a w b, s = a ++ w ++ b /\ (one_block w \/ one_line w) /\ content w = content t.

(* ---- the places whose comments are not written ---- *)
(* The semicolon after a closing brace: only the comments after a semicolon the parser inserted are
   written, and these only if no comment follows the brace itself. *)
Definition semi_lost (cl : token) (sm : option token) : list comment :=
  match sm with
  | Some s => t_lead s ++ (if t_virtual s && negb (nonempty (t_trail cl)) then [] else t_trail s)
  | None => []
  end.
(* A single token as the value of an option or field that is written in columns. *)
Definition token_lost (v : value) : list comment := match v with VTok t => tok_comments t | _ => [] end.
Fixpoint value_lost (v : value) : list comment :=
  match v with
  | VTok _ | VIdent _ | VStr _ | VNum _ _ => []
  | VMsg _ fs c sm =>
      if fields_expanded fs then semi_lost c sm ++ flat_map field_lost fs
      else comments (otoks sm) ++
           (* the separator after the last field *)
           (fix go l := match l with
                        | [] => []
                        | MField _ _ v s :: r => value_lost v ++ (if nonempty r then [] else comments (otoks s)) ++ go r
                        end) fs
  | VArr _ vs cs c sm =>
      (* a comma after the last value *)
      semi_lost c sm ++ flat_map value_lost vs ++ comments (skipn (Nat.pred (List.length vs)) cs)
  end
with field_lost (m : mfield) : list comment :=
  match m with MField _ _ v s => value_lost v ++ match s with Some _ => token_lost v | None => [] end end.
(* The dots of an option name. *)
Definition name_lost (o : opt) : list comment :=
  comments (opt_toks (flat_map (fun p => match p with PDot t => [t] | PRef _ => [] end)) (o_name o)).
Definition val_lost (o : opt) : list comment := match o_val o with Some v => value_lost v | None => [] end.
Definition is_str (v : option value) : bool := match v with Some (VStr _) => true | _ => false end.
(* An option written in columns.  The last option of a list keeps the comments of its value and
   loses its comma, unless the value is a string of several literals. *)
Definition column_lost (last_compact : bool) (o : opt) : list comment :=
  name_lost o ++ val_lost o ++
  if last_compact then (if is_str (o_val o) then [] else comments (otoks (o_semi o)))
  else match o_val o with Some v => token_lost v | None => [] end.
Fixpoint columns_lost (os : list opt) : list comment :=
  match os with [] => [] | o :: r => column_lost (negb (nonempty r)) o ++ columns_lost r end.
(* The options of a list that stays on one line: what stands before an option, commas that separate
   nothing, the comma after the last option. *)
Fixpoint inline_lost (os : list opt) : list comment :=
  match os with
  | [] => []
  | o :: r =>
      (if only_comma o then comments (otoks (o_semi o))
       else lead_of (opt_node_toks o) ++ name_lost o ++ val_lost o ++ (if nonempty r then [] else comments (otoks (o_semi o)))) ++
      inline_lost r
  end.
Definition copts_lost (oc : option copts) : list comment :=
  match oc with
  | None => []
  | Some c =>
      if copts_expanded c then semi_lost (co_close c) (co_semi c) ++ columns_lost (co_opts c)
      else if nonempty (co_opts c) then comments (otoks (co_semi c)) ++ inline_lost (co_opts c)
      else comments (copts_toks c)
  end.
Definition relem_lost (e : relem) : list comment :=
  match e with
  | RComma _ => []
  | RVal v => value_lost v
  | RRange s _ e _ => value_lost s ++ match e with Some v => value_lost v | None => [] end
  end.
(* in_columns: the declaration stands in a message, enum, oneof or extend block *)
Fixpoint decl_lost (in_columns : bool) (d : decl) : list comment :=
  match d with
  | DField _ _ _ _ tg os _ => match tg with Some v => value_lost v | None => [] end ++ copts_lost os
  | DMap _ _ _ _ _ _ tsm _ _ tg os _ => lead_of (otoks tsm) ++ value_lost tg ++ copts_lost os
  | DEnumValue _ _ v os _ => value_lost v ++ copts_lost os
  | DOption o => if in_columns then column_lost false o else name_lost o ++ val_lost o
  | DReserved _ es _ => flat_map relem_lost es
  | DExtensions _ es os _ => flat_map relem_lost es ++ copts_lost os
  | DMessage _ _ _ b c sm | DEnum _ _ _ b c sm | DOneof _ _ _ b c sm | DExtend _ _ _ b c sm =>
      flat_map (decl_lost true) b ++ semi_lost c sm
  | DService _ _ _ b c sm => flat_map (decl_lost false) b ++ semi_lost c sm
  | DGroup _ _ _ _ tg os _ b c sm => value_lost tg ++ copts_lost os ++ flat_map (decl_lost false) b ++ semi_lost c sm
  | DRpc _ _ _ _ _ br b sm =>
      (* a method without options: its braces and its semicolon *)
      match b with
      | [] => comments (match br with Some (o, c) => [o; c] | None => [] end ++ otoks sm)
      | _ => flat_map (decl_lost false) b ++ match br with Some (_, c) => semi_lost c sm | None => [] end
      end
  | DEmpty t => tok_comments t
  end.
(* An import with a comment at its start, its end or around one of its words is written even if the
   file is imported twice. *)
Definition import_lost (i : import) : list comment :=
  value_lost (i_name i) ++ (if import_commented i then [] else comments (import_toks i)).
Definition fdecl_lost (d : fdecl) : list comment :=
  match d with
  | FPackage _ _ _ => []
  | FImport i => import_lost i
  | FOption o => column_lost false o
  | FDecl d => decl_lost false d
  end.
Definition file_lost (f : file) : list comment :=
  match f_syntax f with Some (_, _, v, _) => value_lost v | None => [] end ++
  flat_map fdecl_lost (f_decls f) ++ match f_eof f with Some t => t_trail t | None => [] end.
