From Coq Require Import Ascii String Sorted Permutation.
From Verif Require Import Base Strs.
From Verif.Tokens Require Import Model.
Open Scope list_scope.

(** ** The protocol's decoding of a token array *)
Section Decode.
Open Scope Z_scope.
Fixpoint decode_from (l c : Z) (x : list Z) : option (list item) :=
  match x with
  | [] => Some []
  | dl :: ds :: n :: t :: m :: x' =>
      let l' := l + dl in
      let c' := if dl =? 0 then c + ds else ds in
      match decode_from l' c' x' with
      | Some r => Some (mkItem l' c' n t m :: r)
      | None => None
      end
  | _ => None
  end.
Definition decode (x : list Z) : option (list item) := decode_from 0 0 x.

Definition is_u32 (x : Z) : Prop := 0 <= x < 4294967296.
Definition valid (i : item) : Prop :=
  is_u32 (line i) /\ is_u32 (start i) /\ is_u32 (len i) /\ is_u32 (typ i) /\ is_u32 (mods i).

(** document order *)
Definition before_or_at (a b : item) : Prop := line a < line b \/ (line a = line b /\ start a <= start b).
End Decode.

(** ** Pieces of a literal *)

(** matches: non-empty, in order, disjoint, inside [0, n) *)
Inductive matches_in : nat -> nat -> list (nat * nat) -> Prop :=
| mi_nil i n : i <= n -> matches_in i n []
| mi_cons i n a b ms : i <= a -> a < b -> matches_in b n ms -> matches_in i n ((a, b) :: ms).

(** the pieces tile the columns from [i] to [j]: no gap, no overlap *)
Inductive tiles : nat -> nat -> list piece -> Prop :=
| t_nil i : tiles i i []
| t_cons i j p ps : pstart p = i -> 0 < plen p -> tiles (i + plen p) j ps -> tiles i j (p :: ps).

(** the pieces marked as escape sequences *)
Definition escapes (ps : list piece) : list (nat * nat) :=
  map (fun p => (pstart p, pstart p + plen p)) (filter pesc ps).

(** What the tokens of a literal should be. [n] is the length of the raw text
    and [q] the number of quote characters in front of it in the raw text that
    the code's columns have to account for: 0 if the raw text is what is
    between the quotes, 1 if it includes both quotes. *)
Definition covers_literal (q n : nat) (ms : list (nat * nat)) (ps : list piece) : Prop :=
  tiles 0 (if q =? 0 then n + 2 else n) ps /\
  escapes ps = map (fun m => (1 - q + fst m, 1 - q + snd m)) ms.

(** ** Comments *)

(** the (line, column) positions covered by tokens *)
Definition covered (ts : list ctok) (l c : nat) : Prop :=
  exists t, In t ts /\ cline t = l /\ ccol t <= c < ccol t + clen t.
(** no position is covered twice *)
Definition no_overlap (ts : list ctok) : Prop :=
  forall a b t u, nth_error ts a = Some t -> nth_error ts b = Some u -> a <> b -> cline t = cline u ->
    ccol t + clen t <= ccol u \/ ccol u + clen u <= ccol t.

(** the positions of the characters of a text whose first character is at
    column [col] of line 0 *)
Fixpoint occupies (text : bytes) (l c : nat) : nat -> nat -> Prop :=
  match text with
  | [] => fun _ _ => False
  | x :: text' => fun l' c' =>
      if Ascii.eqb x nl then occupies text' (S l) 0 l' c'
      else (l' = l /\ c' = c) \/ occupies text' l (S c) l' c'
  end.
