(** Completion (completion.go): relative names, ranking, preselection, and the
    edits that insert a completed word. *)
From Coq Require Import Ascii String ZArith.
From Verif Require Import Base Strs.
Open Scope list_scope.

Definition dot : ascii := "."%char.

(** ** Names *)

(** strings.LastIndexByte(s, '.') and the text around it *)
Fixpoint cut_last (s : bytes) : option (bytes * bytes) :=
  match s with
  | [] => None
  | c :: r => match cut_last r with
              | Some (a, b) => Some (c :: a, b)
              | None => if Ascii.eqb c dot then Some ([], r) else None
              end
  end.
(** protoreflect.FullName.Parent, Name, Append (library) *)
Definition parent (s : bytes) : bytes := match cut_last s with Some (a, _) => a | None => [] end.
Definition name (s : bytes) : bytes := match cut_last s with Some (_, b) => b | None => s end.
Definition append (p n : bytes) : bytes := match p with [] => n | _ => p ++ dot :: n end.

(** the loop of completion.go:1470-1480 *)
Fixpoint scan (a b : bytes) (i last_dot : nat) : nat * nat :=
  match a, b with
  | x :: a', y :: b' => if Ascii.eqb x y then scan a' b' (S i) (if Ascii.eqb x dot then i else last_dot) else (i, last_dot)
  | _, _ => (i, last_dot)
  end.
(** completion.go:1481-1494 *)
Definition strip (target from : bytes) : bytes * bytes :=
  let '(i, d) := scan target from 0 0 in
  let d := if i =? Nat.min (List.length target) (List.length from) then i else d in
  if 0 <? d then (skipn (S d) target, skipn (S d) from) else (target, from).
(** completion.go:1496-1511; the stack's top comes first; the fuel is the length of the name *)
Fixpoint walk (fuel : nat) (pkg from target nm : bytes) (stack : list bytes) : bytes :=
  if beq pkg from then append (fold_left append stack []) nm
  else match pkg with
       | [] => append target nm
       | _ => match fuel with
              | 0 => append target nm (* not reached: every parent is shorter *)
              | S fuel' => walk fuel' (parent pkg) from target nm (name pkg :: stack)
              end
       end.
(** relativeFullName, completion.go:1465-1513 *)
Definition relative_full_name (target from : bytes) : bytes :=
  let '(t, f) := strip (parent target) from in
  walk (List.length t) t f t (name target) [].

(** the label of a type, completion.go:1057-1079 *)
Definition trim_prefix (s p : bytes) : bytes := if has_prefix s p then skipn (List.length p) s else s.
Definition type_label (partial pkg full : bytes) : bytes :=
  let trim := if existsb (Ascii.eqb dot) partial then [] else pkg ++ [dot] in
  let pre := if has_prefix partial [dot] then [dot] else [] in
  trim_prefix (pre ++ full) trim.

(** ** Ranking *)

(** Go's < on strings *)
Fixpoint blt (a b : bytes) : bool :=
  match a, b with
  | _, [] => false
  | [], _ :: _ => true
  | x :: a', y :: b' => if Ascii.eqb x y then blt a' b' else (N_of_ascii x <? N_of_ascii y)%N
  end.

(** nameDistance on the parts of the names, completion.go:1442-1454 *)
Fixpoint mismatch (a b : list bytes) (i : nat) : option nat :=
  match a, b with
  | x :: a', y :: b' => if beq x y then mismatch a' b' (S i) else Some i
  | _, _ => None
  end.
Definition name_distance (from to : bytes) : Z :=
  if beq from to then 0%Z
  else
    let a := split_on dot from in
    let b := split_on dot to in
    let la := Z.of_nat (List.length a) in
    let lb := Z.of_nat (List.length b) in
    match mismatch a b 0 with
    | Some i => (la - Z.of_nat i + lb - Z.of_nat i)%Z
    | None => let m := Z.min la lb in ((la - m) - (lb - m))%Z
    end.

Record entry := mkEntry { full : bytes; pkg_dist : Z; scope_dist : Z }.
(** distanceSort's entries, completion.go:1379-1395 *)
Definition make_entry (pkg_scope scope cand_pkg cand_full : bytes) : entry :=
  let pd := name_distance pkg_scope cand_pkg in
  let sd := if (pd =? 0)%Z && negb (beq scope []) then name_distance scope cand_full else 0%Z in
  mkEntry cand_full pd sd.
(** the comparison of one distance in affineEntrySort, completion.go:1416-1424 and 1425-1430 *)
Definition dist_less (a b : Z) : bool :=
  if (a =? 0)%Z || (b =? 0)%Z then (a =? 0)%Z
  else if Bool.eqb (a <? 0)%Z (b <? 0)%Z then (Z.max a (- a) <? Z.max b (- b))%Z
  else (a <? 0)%Z.
(** affineEntrySort's comparator, completion.go:1411-1431 *)
Definition entry_less (a b : entry) : bool :=
  if (pkg_dist a =? pkg_dist b)%Z then
    if (scope_dist a =? scope_dist b)%Z then blt (full a) (full b)
    else dist_less (scope_dist a) (scope_dist b)
  else dist_less (pkg_dist a) (pkg_dist b).

(** ** Finishing a list of items, completion.go:25-42 *)
Record citem := mkItem { label : bytes; preselect : bool; sort_text : bytes }.

Definition ndigit (n : N) : ascii := ascii_of_N (48 + n).
(** decimal digits, at least [w] of them: fmt's %0wd *)
Fixpoint digits (w fuel : nat) (n : N) (acc : bytes) : bytes :=
  match w, fuel with
  | S w', S fuel' => digits w' fuel' (n / 10)%N (ndigit (n mod 10) :: acc)
  | 0, S fuel' => if (n =? 0)%N then acc else digits 0 fuel' (n / 10)%N (ndigit (n mod 10) :: acc)
  | _, 0 => acc
  end.
(** fmt.Sprintf("%05d", i), i below 10^20 *)
Definition sort_key (i : N) : bytes := digits 5 20 i [].

Fixpoint finish_loop (items : list citem) (i : N) (found : bool) : list citem * bool :=
  match items with
  | [] => ([], found)
  | x :: r =>
      let p := preselect x && negb found in
      let '(r', f) := finish_loop r (N.succ i) (found || preselect x) in
      (mkItem (label x) p (sort_key i) :: r', f)
  end.
Definition finish (items : list citem) : list citem :=
  match finish_loop items 0 false with
  | (x :: r, false) => mkItem (label x) true (sort_text x) :: r
  | (l, _) => l
  end.

(** ** Inserting a word *)

(** Text as code points; lengths in bytes (Go's len) and in UTF-16 units (LSP
    columns). *)
Definition blen (c : N) : nat := if (c <? 128)%N then 1 else if (c <? 2048)%N then 2 else if (c <? 65536)%N then 3 else 4.
Definition ulen (c : N) : nat := if (c <? 65536)%N then 1 else 2.
Definition sum (f : N -> nat) (s : list N) : nat := fold_right (fun c n => f c + n) 0 s.
(** the text at a column, for columns at code point boundaries; past the end: the end *)
Fixpoint drop_cols (s : list N) (n : nat) : list N :=
  match n, s with
  | 0, _ => s
  | _, [] => []
  | _, c :: r => drop_cols r (n - ulen c)
  end.
Fixpoint take_cols (s : list N) (n : nat) : list N :=
  match n, s with
  | 0, _ => []
  | _, [] => []
  | _, c :: r => c :: take_cols r (n - ulen c)
  end.
Definition apply_edit (line : list N) (start stop : nat) (new : list N) : list N :=
  take_cols line start ++ new ++ drop_cols line stop.
(** adjustColumn with byte lengths: fields, types, enum values, packages
    (completion.go:634-637, 1086-1089, 1176-1179, 1219-1222) *)
Definition complete_replace (line : list N) (pos : nat) (partial suffix word : list N) : list N :=
  apply_edit line (pos - sum blen partial) (pos + sum blen suffix) word.
(** imports and syntax versions: insert what is missing (completion.go:1122-1129, 1150-1156) *)
Definition complete_insert (line : list N) (pos : nat) (partial suffix word : list N) : list N :=
  apply_edit line pos (pos + sum blen suffix) (skipn (List.length partial) word).
