(** Model of pkg/x/symbols/symbols.go. *)
From Coq Require Import Ascii String QArith.
From Verif Require Import Base.
Open Scope list_scope.
Open Scope nat_scope.

Definition bytes := list ascii.

(* ------------------------------------------------------------------ *)
(** * symbolStore (symbols.go:30-77) *)

(** Go's string comparison: byte-wise lexicographic. *)
Fixpoint bytes_ltb (a b : bytes) : bool :=
  match a, b with
  | _, [] => false
  | [], _ :: _ => true
  | x :: a', y :: b' =>
      if Nat.ltb (nat_of_ascii x) (nat_of_ascii y) then true
      else if Nat.eqb (nat_of_ascii x) (nat_of_ascii y) then bytes_ltb a' b' else false
  end.

(** SymbolInformation[T] (73-77). Scores are only compared, so float64 scores
    (NaN excluded) are integers here. [data] identifies the descriptor. *)
Record info := mkInfo { score : Z; symbol : bytes; data : nat }.

(** the zero value *)
Definition zero_info : info := mkInfo 0 [] 0.

(** the array res [maxSymbols]SymbolInformation (32), zero-initialised; the
    model is parametric in the capacity, the code uses 100 (line 16) *)
Definition init_store (K : nat) : list info := repeat zero_info K.

Definition maxSymbols : nat := 100.

(** sort.Search(n, f) (Go standard library): the binary search loop
    i, j := 0, n; for i < j { h := (i+j)/2; if !f(h) { i = h+1 } else { j = h } }.
    [fuel] = n is always enough; running out returns None. *)
Fixpoint search_loop (fuel : nat) (f : nat -> bool) (i j : nat) : option nat :=
  match fuel with
  | 0 => if Nat.ltb i j then None else Some i
  | S fuel' =>
      if Nat.ltb i j then
        let h := Nat.div2 (i + j) in
        if f h then search_loop fuel' f i h else search_loop fuel' f (S h) j
      else Some i
  end.

Definition sort_search (n : nat) (f : nat -> bool) : option nat := search_loop n f 0 n.

(** symbols.go:40-49, the predicate given to sort.Search: si goes before r *)
Definition goes_before (si r : info) : bool :=
  if negb (Z.eqb (score r) (score si)) then Z.ltb (score r) (score si)
  else if negb (Nat.eqb (length (symbol r)) (length (symbol si)))
       then Nat.ltb (length (symbol si)) (length (symbol r))
       else bytes_ltb (symbol si) (symbol r).

(** symbols.go:56-58 *)
Definition too_low (res : list info) (s : Z) : bool :=
  Z.leb s (score (last res zero_info)).

(** symbols.go:36-54. None: index out of range panic (insertAt = len). *)
Definition store (res : list info) (si : info) : option (list info) :=
  if too_low res (score si) then Some res
  else
    match sort_search (length res) (fun i => goes_before si (nth i res zero_info)) with
    | None => None
    | Some at_ =>
        if Nat.ltb at_ (length res) then
          (* copy(res[at+1:], res[at:len-1]); res[at] = si *)
          Some (firstn at_ res ++ si :: firstn (length res - 1 - at_) (skipn at_ res))
        else None
    end.

Fixpoint store_all (res : list info) (l : list info) : option (list info) :=
  match l with
  | [] => Some res
  | x :: l' => match store res x with Some r => store_all r l' | None => None end
  end.

(** symbols.go:60-71; [resolve] is the resolver callback *)
Fixpoint results {B : Type} (resolve : info -> option B) (res : list info) : list B :=
  match res with
  | [] => []
  | si :: r =>
      if Z.leb (score si) 0 then []
      else match resolve si with
           | Some x => x :: results resolve r
           | None => results resolve r
           end
  end.

(* ------------------------------------------------------------------ *)
(** * ParseQuery and matchers (symbols.go:79-188) *)

(** A matcher takes the symbol name (the single chunk passed by
    QueryWorkspaceSymbols, so strings.Join(chunks, "") is the name) and returns
    (index, score). Scores are rationals; float rounding and underflow of
    products are not modelled. *)
Definition matcher := bytes -> (Z * Q)%type.

Definition space_char (c : ascii) : bool :=
  match nat_of_ascii c with 9 | 10 | 11 | 12 | 13 | 32 => true | _ => false end.

(** strings.Fields, ASCII white space *)
Fixpoint fields_aux (cur : bytes) (s : bytes) : list bytes :=
  match s with
  | [] => match cur with [] => [] | _ => [rev cur] end
  | c :: s' =>
      if space_char c then
        match cur with [] => fields_aux [] s' | _ => rev cur :: fields_aux [] s' end
      else fields_aux (c :: cur) s'
  end.
Definition fields (s : bytes) : list bytes := fields_aux [] s.

(** strings.ToLower, ASCII *)
Definition lower_char (c : ascii) : ascii :=
  let n := nat_of_ascii c in
  if (Nat.leb 65 n && Nat.leb n 90)%bool then ascii_of_nat (n + 32) else c.
Definition to_lower (s : bytes) : bytes := map lower_char s.

Fixpoint has_prefix (s p : bytes) : bool :=
  match p, s with
  | [], _ => true
  | _ :: _, [] => false
  | x :: p', y :: s' => (Ascii.eqb x y && has_prefix s' p')%bool
  end.

Definition has_suffix (s p : bytes) : bool := has_prefix (rev s) (rev p).

(** strings.LastIndex: the largest i with s[i:] starting with p *)
Fixpoint last_index (s p : bytes) : option nat :=
  match s with
  | [] => match p with [] => Some 0 | _ => None end
  | _ :: s' =>
      match last_index s' p with
      | Some i => Some (S i)
      | None => if has_prefix s p then Some 0 else None
      end
  end.

Definition bytes_eqb (a b : bytes) : bool :=
  if list_eq_dec ascii_dec a b then true else false.

(** symbols.go:140-151 *)
Definition smart_case (q : bytes) (m : matcher) : matcher :=
  fun s => m (if bytes_eqb (to_lower q) q then to_lower s else s).

(** symbols.go:103-109 *)
Definition match_prefix (p : bytes) : matcher :=
  fun s => if has_prefix s p then (0%Z, 1%Q) else ((-1)%Z, 0%Q).
(** symbols.go:153-161 *)
Definition match_exact (p : bytes) : matcher :=
  fun s => match last_index s p with
           | Some i => (Z.of_nat i, 1%Q)
           | None => ((-1)%Z, 0%Q)
           end.
(** symbols.go:115-121 *)
Definition match_suffix (p : bytes) : matcher :=
  fun s => if has_suffix s p then (Z.of_nat (length s - length p), 1%Q) else ((-1)%Z, 0%Q).

(** symbols.go:98-126, one field; [fuzzy] is newMatcher *)
Definition field_matcher (fuzzy : bytes -> matcher) (f : bytes) : matcher :=
  if has_prefix f ["^"%char] then let p := tl f in smart_case p (match_prefix p)
  else if has_prefix f ["'"%char] then let p := tl f in smart_case p (match_exact p)
  else if has_suffix f ["$"%char]
  then let p := firstn (length f - 1) f in smart_case p (match_suffix p)
  else fuzzy f.

(** symbols.go:165-176 *)
Definition combo (ms : list matcher) : matcher :=
  fun s => fold_left (fun '(first, sc) m =>
    let '(i, x) := m s in
    ((if Z.ltb i first then i else first), (sc * x)%Q)) ms (0%Z, 1%Q).

(** symbols.go:92-131 *)
Definition parse_query (fuzzy : bytes -> matcher) (q : bytes) : matcher :=
  match map (field_matcher fuzzy) (fields q) with
  | [] => fun _ => ((-1)%Z, 0%Q)
  | [m] => m
  | ms => combo ms
  end.
