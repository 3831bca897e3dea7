(** Base64 encoding, white space, matching names. *)
From Coq Require Import Ascii String.
From Verif Require Import Base Strs.
From Verif.Decode Require Import Model.
Open Scope list_scope.

(** RFC 4648: three bytes are four digits of six bits *)
(** The alphabets of RFC 4648, tables 1 and 2. *)
Definition rfc_digit (c62 c63 : ascii) (n : nat) : ascii :=
  if n <? 26 then ascii_of_nat (65 + n) else if n <? 52 then ascii_of_nat (97 + (n - 26))
  else if n <? 62 then ascii_of_nat (48 + (n - 52)) else if n =? 62 then c62 else c63.
Definition rfc_std : bytes := map (rfc_digit "+" "/") (seq 0 64).
Definition rfc_url : bytes := map (rfc_digit "-" "_") (seq 0 64).
Definition encodings : list codec := [mkCodec rfc_std true; mkCodec rfc_std false; mkCodec rfc_url true; mkCodec rfc_url false].
Definition digit (k : codec) (n : nat) : ascii := nth n (digits k) pad_char.
Definition bits1 (a : nat) : nat := a / 4.
Definition bits2 (a b : nat) : nat := a mod 4 * 16 + b / 16.
Definition bits3 (b c : nat) : nat := b mod 16 * 4 + c / 64.
Definition bits4 (c : nat) : nat := c mod 64.
Definition pads (k : codec) (n : nat) : bytes := if padded k then repeat pad_char n else [].

Fixpoint encode (k : codec) (m : bytes) : bytes :=
  match m with
  | [] => []
  | [a] => let a := nat_of_ascii a in
           digit k (bits1 a) :: digit k (bits2 a 0) :: pads k 2
  | [a; b] => let a := nat_of_ascii a in let b := nat_of_ascii b in
              digit k (bits1 a) :: digit k (bits2 a b) :: digit k (bits3 b 0) :: pads k 1
  | a :: b :: c :: r =>
      let a := nat_of_ascii a in let b := nat_of_ascii b in let c := nat_of_ascii c in
      digit k (bits1 a) :: digit k (bits2 a b) :: digit k (bits3 b c) :: digit k (bits4 c) :: encode k r
  end.

Definition blank (s : bytes) : Prop := forall c, In c s -> is_space c = true.
(** no white space at either end *)
Definition tight (s : bytes) : Prop :=
  (forall c r, s = c :: r -> is_space c = false) /\ (forall c r, s = r ++ [c] -> is_space c = false).

(** the same letter in another case *)
Definition upper_case : bytes := b_ "ABCDEFGHIJKLMNOPQRSTUVWXYZ".
Definition lower_case : bytes := b_ "abcdefghijklmnopqrstuvwxyz".
Definition same_letter (c d : ascii) : Prop := c = d \/ In (c, d) (combine upper_case lower_case) \/ In (d, c) (combine upper_case lower_case).
(** case-insensitive occurrence *)
Definition occurs (t s : bytes) : Prop := exists a b, lower s = a ++ lower t ++ b.

(** how a file ends up *)
Definition formatted (format : bytes -> option bytes) (c : bytes) : bytes :=
  match format c with Some t => t | None => c end.

(** the messages of a file, at any depth *)
Inductive declares : list declared -> bytes -> Prop :=
| d_here n inner ms : In (Declared n inner) ms -> declares ms n
| d_inner n inner ms m : In (Declared n inner) ms -> declares inner m -> declares ms m.
