(** Where a message stands in a text, and what the refactorings do to its body.  Words, comments and the spelling
    of declarations are those of FormatTree/Spec.v. *)
From Coq Require Import Ascii String.
From Verif Require Import Base Strs.
From Verif.Format Require Import Model Spec.
From Verif.FormatTree Require Import CommentSpec Model Spec.
From Verif.Rewrite Require Import Model.
Import ListNotations.
Open Scope list_scope.

(** ** Places *)
Definition in_source (t : token) : bool := negb (t_virtual t).
(** the tokens from the keyword of a message to its closing brace *)
Definition message_toks (d : decl) : list token :=
  match d with DMessage kw n o b c _ => kw :: n :: o :: flat_map decl_toks b ++ [c] | _ => [] end.
(** the message stands in the text where the site says: nothing else begins before its first token or ends
    after its last one *)
Definition stands (text : bytes) (s : site) (d : decl) : Prop :=
  exists it, text = before s ++ it ++ after_it s /\ fst (lrun S0 (before s)) = S0 /\ fst (lrun S0 it) = S0 /\
  words_of it = map t_text (filter in_source (message_toks d)).
(** the rest of the line has no words, and no comment that goes on after it *)
Definition quiet_line (s : bytes) : Prop := words_of (hd [] (split_on nl s)) = [] /\ complete (hd [] (split_on nl s)).
(** the comments after a message; a line comment ends the line *)
Definition end_comments (d : decl) : list comment :=
  match d with DMessage _ _ _ _ c sm => t_trail c ++ match sm with Some s => t_trail s | None => [] end | _ => [] end.
Definition ends_well (d : decl) (rest : bytes) : Prop := Forall (fun c => one_block (c_text c)) (end_comments d) \/ quiet_line rest.
(** the text before the place of insertion is complete, and what comes after does not go on with it *)
Definition breaks (tail rest : bytes) : Prop := complete tail /\ (fst (lrun S0 tail) = S0 \/ exists r, rest = nl :: r).
(** no literal goes on over the end of a line *)
Definition single_lined (d : decl) : Prop := forall t, In t (decl_toks d) -> ~ In nl (wtext t).

(** ** Names and numbers *)
Definition name (s : bytes) : Prop := exists c r, s = c :: r /\ letter c = true /\ forallb idchar r = true.
Definition digits_value (s : bytes) : nat := fold_left (fun a c => 10 * a + (nat_of_ascii c - 48)) s 0.
Definition numeral (s : bytes) (n : nat) : Prop := s <> [] /\ forallb digit s = true /\ digits_value s = n.
(** a number without comments *)
Definition is_number (v : value) (n : nat) : Prop :=
  exists t, v = VTok t /\ t_kind t = KNum /\ t_lead t = [] /\ t_trail t = [] /\ numeral (t_text t) n.
Definition is_field (d : decl) : bool := match d with DField _ _ _ _ _ _ _ => true | _ => false end.

(** ** Bodies *)
(** the plain fields have the numbers from [n] on, in order; everything else is as it was *)
Inductive renumbered : nat -> list decl -> list decl -> Prop :=
| rn_nil n : renumbered n [] []
| rn_field n l ty nm e tg v os sm r r' : is_number v n -> renumbered (S n) r r' ->
    renumbered n (DField l ty nm e tg os sm :: r) (DField l ty nm e (Some v) os sm :: r')
| rn_other n d r r' : is_field d = false -> renumbered n r r' -> renumbered n (d :: r) (d :: r').
(** the fields with the numbers from [n] on and their types as [same_type] says *)
Inductive moved (same_type : decl -> ident -> Prop) : nat -> list decl -> list decl -> Prop :=
| mv_nil n : moved same_type n [] []
| mv_field n l ty ty' nm e tg v os sm r r' : is_number v n -> same_type (DField l ty nm e tg os sm) ty' -> moved same_type (S n) r r' ->
    moved same_type n (DField l ty nm e tg os sm :: r) (DField l ty' nm e (Some v) os sm :: r').
(** a type that is written as it was, or by a name of its own *)
Definition type_fits (retype : decl -> ident -> ident) (d : decl) : Prop :=
  match d with
  | DField l ty _ _ _ _ _ => retype d ty = ty \/ exists p r, retype d ty = type_name (p :: r) /\ name p /\ Forall name r
  | _ => True
  end.
(** names separated by dots *)
Fixpoint dots (ps : list bytes) : list bytes := match ps with [] => [] | [p] => [p] | p :: r => p :: b_ "." :: dots r end.
(** the words of a field of type [ty] *)
Definition field_words (proto2 : bool) (ty : list bytes) (nm num : bytes) : list bytes :=
  (if proto2 then [b_ "optional"] else []) ++ dots ty ++ [nm; b_ "="; num; b_ ";"].

(** ** Comments *)

Definition tag_comments (d : decl) : list comment := match d with DField _ _ _ _ tg _ _ => comments (opt_toks value_toks tg) | _ => [] end.
Definition type_comments (d : decl) : list comment := match d with DField _ ty _ _ _ _ _ => comments (ident_toks ty) | _ => [] end.
(** the comments in the range of a message, and those after it; those before the keyword are not in the range *)
Definition inner_comments (d : decl) : list comment := match d with DMessage _ n o b c sm => comments (n :: o :: flat_map decl_toks b ++ c :: otoks sm) | _ => [] end.
(** a refactoring leaves a comment out because of the token it belongs to *)
Definition chosen_comments (what : decl -> list comment) (chosen : decl -> bool) (d : decl) : list comment :=
  flat_map what (filter chosen (message_body d)).
(** the words of several fields *)
Inductive fields_words (proto2 : bool) : list (list bytes * bytes * nat) -> list bytes -> Prop :=
| fw_nil : fields_words proto2 [] []
| fw_cons ty nm n num r w : numeral num n -> fields_words proto2 r w -> fields_words proto2 ((ty, nm, n) :: r) (field_words proto2 ty nm num ++ w).
Definition field_named (f : list bytes * bytes * nat) : Prop := let '(ty, nm, _) := f in ty <> [] /\ Forall name ty /\ name nm.
