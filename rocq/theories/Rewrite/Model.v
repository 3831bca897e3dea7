(** Model of the text edits made by the refactorings of messages: pkg/lsp/refactor.go extractFields (517-651),
    inlineMessageFields (694-797), renumberFields (845-897), indentTextHanging and indentText (931-937), with
    format.go PrintNode (83-115, Hover) and NodeInfoOverlay (117-150).

    Messages are those of the formatter's model (FormatTree).  Which fields may be chosen and which names and
    numbers are given to new fields and messages is modelled in Refactor (C27-C29, C58, C59); here they are
    parameters.  A node that is made by hand, or whose information is overlaid with an empty one, has no
    comments and no white space before it (contract of ast.NodeInfo{}).  A name with dots that is put into a
    single identifier node (748) is written like one of several nodes; it is modelled as the latter. *)
From Coq Require Import Ascii String DecimalString.
From Verif Require Import Base Strs.
From Verif.Hover Require Import Model.
From Verif.Format Require Import Model.
From Verif.FormatTree Require Import Model.
Import ListNotations.
Open Scope list_scope.

(** 931-937 *)
Fixpoint hanging (col : nat) (s : bytes) : bytes :=
  match s with [] => [] | c :: r => if Ascii.eqb c nl then nl :: repeat sp col ++ hanging col r else c :: hanging col r end.
Definition indented (col : nat) (s : bytes) : bytes := repeat sp col ++ hanging col s.

(** nodes made by hand; strconv.FormatUint (formatter.go:1785-1791) *)
Definition made (k : kind) (s : bytes) : token := Token k s [] [] [] 0 false.
Definition decimal (n : nat) : bytes := b_ (NilEmpty.string_of_uint (Nat.to_uint n)).
Definition tag (n : nat) : value := VTok (made KNum (decimal n)).
(** the overlay of the keyword: 621, 724, 849 *)
Definition bare (t : token) : token := made (t_kind t) (t_text t).
Definition word (s : bytes) : token := made KId s.
Definition punct (c : ascii) : token := made KRune [c].
Fixpoint dotted_name (ps : list bytes) : list token :=
  match ps with [] => [] | [p] => [word p] | p :: r => word p :: punct "." :: dotted_name r end.
Definition type_name (ps : list bytes) : ident := match ps with [p] => Id (word p) | _ => Cid (dotted_name ps) end.
(** 590-602, 754-761 *)
Definition new_field (proto2 : bool) (ty : list bytes) (name : bytes) (n : nat) : decl :=
  DField (if proto2 then Some (word (b_ "optional")) else None) (type_name ty) (Some (word name)) (Some (punct "="))
    (Some (tag n)) None (Some (punct ";")).

(** ** Renumbering: 851-872; only plain fields are numbered *)
Fixpoint renumber (n : nat) (ds : list decl) : list decl :=
  match ds with
  | [] => []
  | DField l ty nm e _ os sm :: r => DField l ty nm e (Some (tag n)) os sm :: renumber (S n) r
  | d :: r => d :: renumber n r
  end.
(** ** Extraction: 527-538, 603-608.  [chosen] are the enclosed fields; their first is replaced by the new field *)
Fixpoint replace_chosen (chosen : decl -> bool) (new : list decl) (ds : list decl) : list decl :=
  match ds with
  | [] => []
  | d :: r => if chosen d then new ++ replace_chosen chosen [] r else d :: replace_chosen chosen new r
  end.
(** 539-579; [retype] is the type the field has in the new message *)
Fixpoint extracted (retype : decl -> ident -> ident) (n : nat) (ds : list decl) : list decl :=
  match ds with
  | [] => []
  | DField l ty nm e tg os sm :: r => DField l (retype (DField l ty nm e tg os sm) ty) nm e (Some (tag n)) os sm :: extracted retype (S n) r
  | _ :: r => extracted retype n r
  end.
(** 582-589 *)
Definition new_message (name : bytes) (fields : list decl) : decl :=
  DMessage (word (b_ "message")) (word name) (punct "{") fields (punct "}") (Some (punct ";")).
(** ** Inlining: 700-767 *)
Fixpoint inline_at (chosen : decl -> bool) (new : list decl) (ds : list decl) : list decl :=
  match ds with
  | [] => []
  | d :: r => if chosen d then new ++ r else d :: inline_at chosen new r
  end.

(** the message with another body: 609-616, 769-776, 874-881 *)
Definition with_body (d : decl) (b : list decl) : decl :=
  match d with DMessage kw n o _ c sm => DMessage (bare kw) n o b c sm | _ => d end.
Definition message_body (d : decl) : list decl := match d with DMessage _ _ _ b _ _ => b | _ => [] end.

Section Edit.
Variable dec : list nat -> nat -> bool.     (* see FormatTree *)
(** The text before, in and after the range of the message (846: from its first token to its closing brace,
    without comments), and the column the range starts at. *)
Record site := Site { before : bytes; col : nat; after_it : bytes }.
Definition replace (s : site) (d : decl) : bytes := before s ++ hanging (col s) (print_node dec d) ++ after_it s.
(** 883-896 *)
Definition renumber_edit (s : site) (d : decl) : bytes := replace s (with_body d (renumber 1 (message_body d))).
(** 786-797 *)
Definition inline_edit (s : site) (chosen : decl -> bool) (new : list decl) (d : decl) : bytes :=
  replace s (with_body d (inline_at chosen new (message_body d))).
(** 517-525, 618-649; [tail] is the text from the closing brace to the place of insertion: a semicolon and
    trailing comments *)
Definition extract_edit (s : site) (tail : bytes) (chosen : decl -> bool) (retype : decl -> ident -> ident)
    (proto2 : bool) (message field : bytes) (n : nat) (d : decl) : bytes :=
  before s ++
  hanging (col s) (print_node dec (with_body d (replace_chosen chosen [new_field proto2 [message] field n] (message_body d)))) ++
  tail ++ nl :: nl :: indented (col s) (print_node dec (new_message message (extracted retype 1 (filter chosen (message_body d))))) ++
  after_it s.
End Edit.
