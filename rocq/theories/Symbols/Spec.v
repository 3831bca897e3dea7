(** Ranking of symbols and meaning of queries. *)
From Coq Require Import Ascii String QArith Permutation Sorted.
From Verif Require Import Base.
From Verif.Symbols Require Import Model.
Open Scope list_scope.
Open Scope nat_scope.

(** Lexicographic order on byte strings, as a relation. *)
Inductive lex_lt : bytes -> bytes -> Prop :=
| lex_nil : forall y b, lex_lt [] (y :: b)
| lex_head : forall x a y b, nat_of_ascii x < nat_of_ascii y -> lex_lt (x :: a) (y :: b)
| lex_tail : forall x a b, lex_lt a b -> lex_lt (x :: a) (x :: b).

(** [a] ranks strictly before [b]: higher score, then shorter name, then
    lexically smaller name. *)
Definition ranks_before (a b : info) : Prop :=
  (score b < score a)%Z \/
  (score a = score b /\
   (length (symbol a) < length (symbol b) \/
    (length (symbol a) = length (symbol b) /\ lex_lt (symbol a) (symbol b)))).

(** A result list is ranked if no element ranks before an earlier one. *)
Definition ranked (l : list info) : Prop :=
  StronglySorted (fun x y => ~ ranks_before y x) l.

Definition positive (i : info) : bool := Z.ltb 0 (score i).

(** [r] is a best-[K] selection of the candidates [l] by score: what is left
    out ([d]) is left out only because [r] is full of candidates that score at
    least as high. *)
Definition best_selection (K : nat) (l r : list info) : Prop :=
  exists d, Permutation (r ++ d) (filter positive l) /\ length r <= K /\
            (d <> [] -> length r = K) /\
            (forall x y, In x d -> In y r -> (score x <= score y)%Z).

(* ---- queries ---- *)
Definition no_upper (s : bytes) : Prop :=
  forall c, In c s -> ~ (65 <= nat_of_ascii c <= 90).

(** equal up to case where the query has no upper-case letters *)
Definition in_lower_case (s s' : bytes) : Prop :=
  Forall2 (fun c d => if existsb (Ascii.eqb c) (list_ascii_of_string "ABCDEFGHIJKLMNOPQRSTUVWXYZ") then nat_of_ascii d = nat_of_ascii c + 32 else d = c) s s'.
Definition subject (q s : bytes) (s' : bytes) : Prop :=
  (no_upper q /\ in_lower_case s s') \/ (~ no_upper q /\ s' = s).

(** A field matches a name. *)
Inductive field_matches (fuzzy : bytes -> matcher) : bytes -> bytes -> Prop :=
| fm_prefix : forall p s s' r, subject p s s' -> s' = p ++ r ->
    field_matches fuzzy ("^"%char :: p) s
| fm_exact : forall p s s' l r, subject p s s' -> s' = l ++ p ++ r ->
    field_matches fuzzy ("'"%char :: p) s
| fm_suffix : forall p s s' l, 
    hd_error (p ++ ["$"%char]) <> Some "^"%char ->
    hd_error (p ++ ["$"%char]) <> Some "'"%char ->
    subject p s s' -> s' = l ++ p ->
    field_matches fuzzy (p ++ ["$"%char]) s
| fm_fuzzy : forall f s,
    hd_error f <> Some "^"%char -> hd_error f <> Some "'"%char ->
    (forall p, f <> p ++ ["$"%char]) ->
    (0 < snd (fuzzy f s))%Q -> field_matches fuzzy f s.

(** Words of a query: maximal runs of characters that are not white space. *)
Definition white (c : ascii) : Prop := In c [" "; "009"; "010"; "011"; "012"; "013"]%char.
Definition word (w : bytes) : Prop := w <> [] /\ forall c, In c w -> ~ white c.
Inductive words_of : bytes -> list bytes -> Prop :=
| wo_nil : words_of [] []
| wo_space : forall c s ws, white c -> words_of s ws -> words_of (c :: s) ws
| wo_word : forall w s ws, word w -> (s = [] \/ exists c s', s = c :: s' /\ white c) ->
    words_of s ws -> words_of (w ++ s) (w :: ws).
