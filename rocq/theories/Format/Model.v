(* Text-level parts of the formatter (pkg/format/formatter.go, column_format.go, alg.go): string
   literals, comments, column alignment, import and option order.

   Strings are byte strings.  strings.TrimSpace and unicode.IsSpace are modelled for the ASCII
   white space characters only (simplification: U+0085, U+00A0 and the other Unicode spaces are
   treated as ordinary text). *)
From Coq Require Import List Arith Bool Lia Ascii String NArith.
From Verif Require Import Base Strs.
From Verif.Completion Require Import Model.
Import ListNotations.
Open Scope list_scope.

Definition tab : ascii := Eval vm_compute in ascii_of_nat 9.
Definition nl : ascii := Eval vm_compute in ascii_of_nat 10.
Definition cr : ascii := Eval vm_compute in ascii_of_nat 13.
Definition sp : ascii := " "%char.
Definition star : ascii := "*"%char.
Definition semic : ascii := ";"%char.
Definition sq : ascii := "'"%char.
Definition dq : ascii := Eval vm_compute in ascii_of_nat 34.

(* unicode.IsSpace on ASCII. *)
Definition is_space (c : ascii) : bool :=
  let n := nat_of_ascii c in ((9 <=? n) && (n <=? 13)) || (n =? 32).
Fixpoint trim_left (s : bytes) : bytes :=
  match s with
  | c :: r => if is_space c then trim_left r else s
  | [] => []
  end.
(* strings.TrimRightFunc(s, unicode.IsSpace). *)
Fixpoint trim_right (s : bytes) : bytes :=
  match s with
  | [] => []
  | c :: r => match trim_right r with
              | [] => if is_space c then [] else [c]
              | r' => c :: r'
              end
  end.
(* strings.TrimSpace. *)
Definition trim (s : bytes) : bytes := trim_right (trim_left s).

(* formatter.go:1771-1782 writeStringLiteral: a literal in single quotes gets double quotes; only
   the first and the last character are replaced.  (The code goes through []rune, which also
   replaces invalid UTF-8 by U+FFFD; not modelled.) *)
Definition write_string_literal (raw : bytes) : bytes :=
  match raw with
  | q :: (_ :: _) as r =>
    if Ascii.eqb q sq && Ascii.eqb (last r dq) sq then dq :: removelast (tl raw) ++ [dq] else raw
  | _ => raw
  end.

(* formatter.go:2274-2286, the text writeInlineComments writes for one comment. *)
Definition inline_comment (t : bytes) : bytes :=
  if has_prefix t (b_ "//") then b_ "/* " ++ trim (skipn 2 t) ++ b_ " */"
  else join_with sp (map trim (split_on nl t)).

(* formatter.go:2458-2476 computeIndent (None is the false result). *)
Fixpoint indent_from (n : nat) (s : bytes) : option nat :=
  match s with
  | [] => None
  | c :: r => if Ascii.eqb c sp then indent_from (S n) r
              else if Ascii.eqb c tab then indent_from (n + (8 - n mod 8)) r
              else Some n
  end.
Definition compute_indent (s : bytes) : option nat :=
  if beq (trim s) (b_ "*/") then None else indent_from 0 s.

(* formatter.go:2432-2456 unindent. *)
Fixpoint unindent_from (pos k : nat) (s : bytes) : bytes :=
  match s with
  | [] => []
  | c :: r =>
    if pos =? k then s
    else if k <? pos then repeat sp (pos - k) ++ s
    else if Ascii.eqb c sp then unindent_from (S pos) k r
    else if Ascii.eqb c tab then unindent_from (pos + (8 - pos mod 8)) k r
    else s
  end.
Definition unindent (s : bytes) (k : nat) : bytes := unindent_from 0 k s.

(* formatter.go:2420-2430 isCommentPrefix: the byte as a Latin-1 character is neither a letter nor
   a number. *)
Definition is_letter_or_number (c : ascii) : bool :=
  let n := N_of_ascii c in
  let between a b := (a <=? n)%N && (n <=? b)%N in
  (between 48 57 || between 65 90 || between 97 122
  || (n =? 170) || between 178 179 || (n =? 181) || (n =? 185) || (n =? 186)
  || between 188 190 || between 192 214 || between 216 246 || between 248 255)%N.
Definition is_comment_prefix (c : ascii) : bool := negb (is_letter_or_number c).

(* formatter.go:2340-2343: the prefix of one (trimmed) line. *)
Definition line_prefix (l : bytes) : bytes :=
  match l with c :: _ => if is_comment_prefix c then [c] else [] | [] => [] end.

(* formatter.go:2327-2350, the shared prefix; i is the index of the first line in ls. *)
Fixpoint shared_prefix (i : nat) (prefix : bytes) (ls : list bytes) : bytes :=
  match ls with
  | [] => prefix
  | l :: r =>
    if (1 <? i) && (List.length prefix =? 0) then shared_prefix (S i) prefix r
    else let line := trim l in
      if beq line (b_ "*/") then shared_prefix (S i) prefix r
      else let lp := line_prefix line in
        let prefix' := if i =? 1 then lp else if beq lp prefix then prefix else [] in
        shared_prefix (S i) prefix' r
  end.

(* formatter.go:2328-2331, 2351-2355, the smallest indentation. *)
Fixpoint min_indent (ls : list bytes) : option nat :=
  match ls with
  | [] => None
  | l :: r => match compute_indent l, min_indent r with
              | Some a, Some b => Some (Nat.min a b)
              | Some a, None => Some a
              | None, o => o
              end
  end.

(* formatter.go:2356-2403: one line of the rewritten comment; first is i = 0. *)
Definition comment_line (prefix : bytes) (m : nat) (first : bool) (line : bytes) : bytes :=
  let t := trim line in
  let line1 := if beq t [] || beq t (b_ "*/") || negb (List.length prefix =? 0) then t
               else trim_right (unindent line m) in
  let line2 := if negb first && negb (beq line1 (b_ "*/"))
               then (if List.length prefix =? 0 then b_ "   " ++ line1 else sp :: line1)
               else line1 in
  if beq line2 (b_ "*/") && beq prefix [star] then sp :: line2 else line2.

(* formatter.go:2320-2418 writeComment: the lines written, without the indentation P and Indent
   put in front of them. *)
Definition is_multiline_block (t : bytes) : bool := has_prefix t (b_ "/*") && existsb (Ascii.eqb nl) t.
Definition comment_lines (t : bytes) : list bytes :=
  if is_multiline_block t then
    match split_on nl t with
    | [] => []
    | l0 :: ls =>
      let prefix := shared_prefix 1 [] ls in
      let m := match min_indent ls with Some a => a | None => 0 end in
      comment_line prefix m true l0 :: map (comment_line prefix m false) ls
    end
  else [trim t].

(* formatter.go:127-142 P and 168-182 Indent: a line that starts at the beginning of an output line
   is preceded by k spaces of indentation, a blank one is written empty; the first line's
   indentation is not part of the comment.  Result: the text of the comment in the formatted file. *)
Definition placed_line (k : nat) (l : bytes) : bytes :=
  if beq (trim l) [] then [] else repeat sp k ++ l.
Definition written_comment (k : nat) (t : bytes) : bytes :=
  match comment_lines t with
  | [] => []
  | l0 :: ls => join_with nl (l0 :: map (placed_line k) ls)
  end.

(* column_format.go:32-38. *)
Record segfield := { ctx : bytes; typeName : bytes; fieldName : bytes; equalsTag : bytes; lineEnd : bytes }.

(* alg.go:27-31. *)
Definition seg_size (f : segfield) : nat :=
  if (List.length (fieldName f) <=? 3) || beq (typeName f) (b_ "option")
  then List.length (typeName f) + List.length (fieldName f)
  else List.length (typeName f) + List.length (fieldName f) * 2 / 3.

Section Split.
(* alg.go:33-35: the comparison of the size with the geometric mean of the sizes since the last
   split, in floating point; any decision procedure on those sizes. *)
Variable split_here : list nat -> nat -> bool.
Definition small_size : nat := 40.

(* alg.go:18-54 splitSegmentedFields: cur is fields[lower:i]; sizes are the positive sizes in it. *)
Fixpoint split_loop (cur : list segfield) (sizes : list nat) (prev : nat) (fs : list segfield)
  : list (list segfield) :=
  match fs with
  | [] => [cur]
  | f :: r =>
    let size := seg_size f in
    let cond := (0 <? size) && (0 <? prev) && negb (List.length sizes =? 0)
                && ((small_size <? prev) || (small_size <? size)) in
    if cond && split_here sizes size
    then cur :: split_loop [f] (if 0 <? size then [size] else []) size r
    else split_loop (cur ++ [f]) (if 0 <? size then sizes ++ [size] else sizes) size r
  end.
Definition split_fields (fs : list segfield) : list (list segfield) := split_loop [] [] 0 fs.
End Split.

(* column_format.go:442-449. *)
Definition drop_space (f : segfield) : segfield :=
  match lineEnd f with
  | c :: r => if Ascii.eqb c sp
              then {| ctx := ctx f; typeName := typeName f; fieldName := fieldName f; equalsTag := equalsTag f; lineEnd := r |}
              else f
  | [] => f
  end.
Definition col (sel : segfield -> bytes) (fs : list segfield) : nat :=
  fold_right (fun f a => Nat.max (List.length (sel f)) a) 0 fs.
Definition padding (s : bytes) : nat := if List.length s =? 0 then 0 else 1.
(* bytes.Repeat panics on a negative count (None). *)
Definition pad_to (c : nat) (s : bytes) : option bytes :=
  if c + padding s <? List.length s then None else Some (repeat sp (c + padding s - List.length s)).
Definition opt_app (a b : option bytes) : option bytes :=
  match a, b with Some x, Some y => Some (x ++ y) | _, _ => None end.
Definition starts_semicolon (s : bytes) : bool := match s with c :: _ => Ascii.eqb c semic | [] => false end.

(* column_format.go:453-477, one field of a block whose columns are given. *)
Definition write_field (ct cf ce : nat) (f : segfield) : option bytes :=
  opt_app (Some (ctx f ++ typeName f))
  (opt_app (pad_to ct (typeName f))
  (opt_app (Some (fieldName f))
  (opt_app (pad_to cf (fieldName f))
  (opt_app (Some (equalsTag f))
    (if starts_semicolon (lineEnd f) then Some (lineEnd f)
     else opt_app (pad_to ce (equalsTag f)) (Some (lineEnd f))))))).
(* column_format.go:435-478, one block. *)
Definition write_block (block : list segfield) : option bytes :=
  let fs := map drop_space block in
  let ct := col typeName fs in let cf := col fieldName fs in let ce := col equalsTag fs in
  fold_right (fun f a => opt_app (write_field ct cf ce f) a) (Some []) fs.
Definition write_columns (dec : list nat -> nat -> bool) (fs : list segfield) : option bytes :=
  fold_right (fun b a => opt_app (write_block b) a) (Some []) (split_fields dec fs).

(* Import declarations: name, modifier, and whether any of its tokens carries a comment
   (importHasComment, formatter.go:2489-2502). *)
Inductive imod := IPlain | IPublic | IWeak.
Record import := { iname : bytes; imd : imod; icommented : bool }.
(* formatter.go:2519-2528 importSortOrder. *)
Definition import_order (i : import) : nat := match imd i with IPublic => 2 | IWeak => 1 | IPlain => 3 end.
(* formatter.go:292-314: the sort's comparison. *)
Definition import_less (a b : import) : bool :=
  if blt (iname a) (iname b) then true
  else if blt (iname b) (iname a) then false
  else if import_order b <? import_order a then true
  else if import_order a <? import_order b then false
  else negb (icommented b).
(* formatter.go:315-328: what is written of the sorted imports. *)
Fixpoint dedupe (prev : option bytes) (l : list import) : list import :=
  match l with
  | [] => []
  | i :: r =>
    let rest := dedupe (Some (iname i)) r in
    match prev with
    | Some p => if beq (iname i) p && negb (icommented i) then rest else i :: rest
    | None => i :: rest
    end
  end.
Definition write_imports (sorted : list import) : list import := dedupe None sorted.

(* formatter.go:329-345: comparison of file options by name. *)
Definition lparen : ascii := "("%char.
Definition custom (n : bytes) : bool := has_prefix n [lparen].
Definition option_less (a b : bytes) : bool :=
  if custom a && negb (custom b) then false
  else if negb (custom a) && custom b then true
  else blt a b.
(* sort.Slice uses insertion sort for at most 12 elements (contract used: for larger slices the
   result is some permutation in which no element is less than its predecessor). *)
Section Insertion.
Variable A : Type.
Variable less : A -> A -> bool.
(* One pass of insertionSort: x is moved left past the elements it is less than; the sorted part
   is given from its right end. *)
Fixpoint insert_left (x : A) (rsorted : list A) : list A :=
  match rsorted with
  | [] => [x]
  | y :: r => if less x y then y :: insert_left x r else x :: rsorted
  end.
Definition insertion_sort (l : list A) : list A := rev (fold_left (fun acc x => insert_left x acc) l []).
End Insertion.
Arguments insert_left {A}. Arguments insertion_sort {A}.
