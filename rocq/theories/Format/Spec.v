(* Vocabulary for C33-C36 and C62-C63, independent of the formatter. *)
From Coq Require Import List Arith Bool Lia Ascii String NArith Permutation Sorted.
From Verif Require Import Base Strs.
From Verif.Completion Require Import Model.
From Verif.Format Require Import Model.
Import ListNotations.
Open Scope list_scope.

(* ---- string literals: what a literal of the protobuf language denotes ---- *)
(* A literal denotes a sequence of bytes and, for \u and \U escapes, code points. *)
Inductive item := IByte (n : N) | IRune (n : N).
Inductive lexstate := Norm | Esc | Oct (digits : nat) (v : N) | Hex (digits : nat) (v : N) | Uni (left : nat) (v : N).

Definition nul : ascii := zero.
Definition backslash : ascii := "\"%char.
Definition digit_val (c : ascii) : option N :=
  let n := N_of_ascii c in
  if (48 <=? n)%N && (n <=? 57)%N then Some (n - 48)%N
  else if (97 <=? n)%N && (n <=? 102)%N then Some (n - 87)%N
  else if (65 <=? n)%N && (n <=? 70)%N then Some (n - 55)%N
  else None.
Definition oct_val (c : ascii) : option N :=
  match digit_val c with Some v => if (v <? 8)%N then Some v else None | None => None end.
Definition simple_escape (c : ascii) : option N :=
  if Ascii.eqb c "a" then Some 7%N else if Ascii.eqb c "b" then Some 8%N
  else if Ascii.eqb c "t" then Some 9%N else if Ascii.eqb c "n" then Some 10%N
  else if Ascii.eqb c "v" then Some 11%N else if Ascii.eqb c "f" then Some 12%N
  else if Ascii.eqb c "r" then Some 13%N
  else if Ascii.eqb c backslash || Ascii.eqb c sq || Ascii.eqb c dq || Ascii.eqb c "?"
  then Some (N_of_ascii c) else None.

(* The rest of a literal opened by quote q, from the given state: Some v if it is closed by q at
   the very end and denotes v. *)
Definition cons_item (i : item) (o : option (list item)) : option (list item) :=
  match o with Some l => Some (i :: l) | None => None end.
Definition is_some {A} (o : option A) : bool := match o with Some _ => true | None => false end.
Fixpoint lex (q : ascii) (st : lexstate) (s : bytes) {struct s} : option (list item) :=
  match s with
  | [] => None
  | c :: r =>
    let norm :=
      if Ascii.eqb c q then match r with [] => Some [] | _ => None end
      else if Ascii.eqb c backslash then lex q Esc r
      else if Ascii.eqb c nl || Ascii.eqb c nul then None
      else cons_item (IByte (N_of_ascii c)) (lex q Norm r) in
    match st with
    | Norm => norm
    | Esc =>
      if Ascii.eqb c "x" || Ascii.eqb c "X" then lex q (Hex 0 0) r
      else if Ascii.eqb c "u" then lex q (Uni 4 0) r
      else if Ascii.eqb c "U" then lex q (Uni 8 0) r
      else match oct_val c with
           | Some v => lex q (Oct 1 v) r
           | None => match simple_escape c with
                     | Some v => cons_item (IByte v) (lex q Norm r)
                     | None => None
                     end
           end
    | Oct k v =>
      if (k <? 3) && is_some (oct_val c)
      then lex q (Oct (S k) (v * 8 + match oct_val c with Some d => d | None => 0 end)) r
      else cons_item (IByte v) norm
    | Hex k v =>
      if (k <? 2) && is_some (digit_val c)
      then lex q (Hex (S k) (v * 16 + match digit_val c with Some d => d | None => 0 end)) r
      else if k =? 0 then None else cons_item (IByte v) norm
    | Uni (S k) v =>
      match digit_val c with
      | Some d => if k =? 0 then cons_item (IRune (v * 16 + d)) (lex q Norm r) else lex q (Uni k (v * 16 + d)) r
      | None => None
      end
    | Uni 0 _ => None
    end
  end.
Definition denotes (raw : bytes) : option (list item) :=
  match raw with
  | q :: r => if Ascii.eqb q sq || Ascii.eqb q dq then lex q Norm r else None
  | [] => None
  end.

(* A double quote that stands for itself, i.e. is not part of an escape. *)
Fixpoint bare_dq (esc : bool) (s : bytes) : bool :=
  match s with
  | [] => false
  | c :: r => if esc then bare_dq false r
              else if Ascii.eqb c backslash then bare_dq true r
              else Ascii.eqb c dq || bare_dq false r
  end.

(* ---- comments ---- *)
(* The text after the first "*/", if there is one. *)
Fixpoint after_end (s : bytes) : option bytes :=
  match s with
  | [] => None
  | c :: r => if Ascii.eqb c star && has_prefix r [slash] then Some (tl r) else after_end r
  end.
(* The text is one block comment: it starts with "/*" and the first "*/" after that ends it. *)
Definition one_block (t : bytes) : Prop := exists body, t = b_ "/*" ++ body /\ after_end body = Some [].
(* The text is one line comment. *)
Definition one_line (t : bytes) : Prop := exists body, t = b_ "//" ++ body /\ ~ In nl body.
(* What a reader sees of a text if white space is ignored. *)
Definition visible (t : bytes) : bytes := filter (fun c => negb (is_space c)) t.

(* A line that contains white space other than blanks and tabs and nothing else, as the blank
   lines of a file with Windows line ends. *)
Definition odd_blank (l : bytes) : Prop := trim l = [] /\ exists c, In c l /\ c <> sp /\ c <> tab.

(* ---- column alignment ---- *)
(* s is the concatenation of the pieces with only blanks inserted between them. *)
Inductive spaced : list bytes -> bytes -> Prop :=
| spaced_nil : spaced [] []
| spaced_cons p ps n s : spaced ps s -> spaced (p :: ps) (p ++ repeat sp n ++ s).

(* ---- imports ---- *)
(* In the order of their names; among equal names plain before public before weak. *)
Definition import_le (a b : import) : Prop :=
  blt (iname a) (iname b) = true \/ (iname a = iname b /\ import_order b <= import_order a).

(* One field of an aligned block: its pieces, in order, separated by a, b and c blanks.  The columns
   are measured from the start of the type: names start in column ct if there is a type, tags
   (and option values) follow in columns common to the block. *)
Definition aligned_line (ct cf ce : nat) (f : segfield) (line : bytes) : Prop :=
  exists a b c le,
    line = ctx f ++ typeName f ++ repeat sp a ++ fieldName f ++ repeat sp b ++ equalsTag f ++ repeat sp c ++ le /\
    (le = lineEnd f \/ lineEnd f = sp :: le) /\
    (typeName f <> [] -> List.length (typeName f) + a = ct /\ 1 <= a) /\
    (fieldName f <> [] -> List.length (fieldName f) + b = cf /\ 1 <= b) /\
    (equalsTag f <> [] -> (List.length (equalsTag f) + c = ce /\ 1 <= c) \/ (c = 0 /\ exists r, le = semic :: r)).

(* An order-preserving, complete grouping of the fields. *)
Definition grouping (groups : list (list segfield)) (fs : list segfield) : Prop :=
  List.concat groups = fs /\ (fs <> [] -> forall g, In g groups -> g <> []).

(* ---- file options ---- *)
(* A file option: its name and its value. *)
Definition fopt := (bytes * nat)%type.
(* Standard options before custom ones, by name. *)
Definition option_le (a b : fopt) : Prop :=
  (custom (fst a) = false /\ custom (fst b) = true) \/
  (custom (fst a) = custom (fst b) /\ (blt (fst a) (fst b) = true \/ fst a = fst b)).
(* The values given to the option named n, in order. *)
Definition values_of (n : bytes) (l : list fopt) : list nat := map snd (filter (fun o => beq (fst o) n) l).
