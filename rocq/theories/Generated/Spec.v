(** Identifiers of the protobuf and Go languages, and the names protoc-gen-go and protoc-gen-go-grpc declare
    (their documented naming rules). *)
From Coq Require Import Ascii String.
From Verif Require Import Base Strs.
From Verif.Generated Require Import Model.
Open Scope list_scope.

Definition letter c := is_letter c = true.
Definition word c := is_letter c = true \/ is_digit c = true \/ c = under.
(** proto identifiers *)
Definition proto_ident (s : bytes) : Prop := exists c r, s = c :: r /\ (letter c \/ c = under) /\ Forall word r.
(** Go identifiers that are exported and ASCII *)
Definition exported (s : bytes) : Prop := exists c r, s = c :: r /\ is_upper c = true /\ Forall word r.
Definition go_ident (s : bytes) : Prop := exists c r, s = c :: r /\ (letter c \/ c = under) /\ Forall word r.

(** the keywords of Go *)
Definition go_keywords : list bytes := map b_
  ["break"; "default"; "func"; "interface"; "select"; "case"; "defer"; "go"; "map"; "struct"; "chan"; "else"; "goto"; "package"; "switch";
   "const"; "fallthrough"; "if"; "range"; "type"; "continue"; "for"; "import"; "return"; "var"]%string.
(** Names that are camel case already: upper case start, no dots, and lower case letters only after letters *)
Fixpoint lower_after_letter (prev_letter : bool) (s : bytes) : Prop :=
  match s with
  | [] => True
  | c :: r => (is_lower c = true -> prev_letter = true) /\ lower_after_letter (is_letter c) r
  end.
Definition camel_cased (s : bytes) : Prop :=
  Forall word s /\ lower_after_letter false s /\ match s with c :: _ => c <> under | [] => True end.

(** the declared names *)
Fixpoint unique (n : nat) (taken : bytes -> bool) (s : bytes) : bytes :=
  match n with 0 => s | S n' => if taken s then unique n' taken (s ++ [under]) else s end.
(** [taken]: names of the message's methods and of earlier fields and their getters; at most [bound] underscores
    are needed *)
Definition declared (bound : nat) (taken : bytes -> bool) (d : desc) : go_decl :=
  match d with
  | DMessage p | DEnum p => TopLevel (type_ident p)
  | DService n => TopLevel (type_ident [n] ++ b_ "Server")
  | DMethod s n => Member (type_ident [s] ++ b_ "Server") (go_camel_case n)
  | DEnumValue e n =>
      TopLevel ((match removelast e with [] => type_ident e | container => type_ident container end) ++ under :: n)
  | DField m n oneof =>
      let f := unique bound taken (go_camel_case n) in
      if oneof then Member (type_ident m ++ under :: f) f else Member (type_ident m) f
  | DExtension [] n => TopLevel (b_ "E_" ++ go_camel_case n)
  | DExtension scope n => TopLevel (b_ "E_" ++ type_ident scope ++ under :: go_camel_case n)
  end.

(** words of a snake-case name: lower case letters, then digits *)
Definition snake_word (w : bytes) : Prop :=
  exists l ls ds, w = l :: ls ++ ds /\ is_lower l = true /\ Forall (fun c => is_lower c = true) ls /\ Forall (fun c => is_digit c = true) ds.
Definition capitalized (w : bytes) : bytes := match w with [] => [] | c :: r => to_upper c :: r end.

(** a Go file that is marked as generated; the source it names *)
Definition marks_generated (t : bytes) : Prop :=
  exists w, t = b_ "// Code generated" ++ w ++ b_ "DO NOT EDIT" \/ t = b_ "// Code generated" ++ w ++ b_ "DO NOT EDIT.".
Definition marked (f : gofile) : Prop :=
  exists g t, In g (g_comments f) /\ before_package g = true /\ In t (texts g) /\ marks_generated t.
(** [src] is [x] without the white space around it *)
Definition blank (c : ascii) : Prop := In c [" "; "009"; "010"; "011"; "012"; "013"]%char.
Definition stripped (x src : bytes) : Prop :=
  exists a b, x = a ++ src ++ b /\ Forall blank a /\ Forall blank b /\ (forall c r, src = c :: r -> ~ blank c) /\ (forall c r, src = r ++ [c] -> ~ blank c).
Definition names_source (f : gofile) (src : bytes) : Prop :=
  exists g, In g (g_comments f) /\ before_package g = true /\ In (source_prefix ++ " "%char :: src) (texts g).
(** [dir] is a suffix of the import path at a component boundary *)
Definition component_suffix (path dir : bytes) : Prop := path = dir \/ exists p, path = p ++ slash :: dir.
