(** Reading comments, and which comments of an element are to be found in a text. *)
From Coq Require Import Ascii String.
From Verif Require Import Base Strs.
From Verif.Print Require Import Model Spec.
Open Scope list_scope.

Inductive remark := Line (s : bytes) | Block (s : bytes).
(** text without words: blanks, line ends and whole comments *)
Inductive trivia : bytes -> list remark -> Prop :=
| t_nil : trivia [] []
| t_blank c s rs : c = sp \/ c = tab \/ c = nl -> trivia s rs -> trivia (c :: s) rs
| t_line body s rs : ~ In nl body -> trivia s rs -> trivia (b_ "//" ++ body ++ nl :: s) (Line body :: rs)
(** a block comment ends with the first closing mark *)
| t_block body s rs : index_sub (body ++ b_ "*/") (b_ "*/") = Some (List.length body) -> trivia s rs ->
    trivia (b_ "/*" ++ body ++ b_ "*/" ++ s) (Block body :: rs).

(** the lines of a comment, without an empty first and an empty last one *)
Definition has_lines (c : bytes) (ls : list bytes) : Prop :=
  ls = [] /\ (c = [] \/ c = [nl]) \/
  ls <> [] /\ Forall (fun l => ~ In nl l) ls /\ exists a b, (a = [] \/ a = [nl]) /\ (b = [] \/ b = [nl]) /\ c = a ++ join_with nl ls ++ b.
(** what is printed for a comment has its lines, in order *)
Definition renders (rs : list remark) (c : bytes) : Prop :=
  exists ls, has_lines c ls /\
  ((exists ts, rs = map Line ts /\ Forall2 same_line ts ls) \/
   (exists l body, ls = [l] /\ rs = [Block body] /\ (body = l \/ body = l ++ [sp])) \/
   (exists body ind ts, rs = [Block body] /\ split_on nl body = [] :: map (fun t => ind ++ b_ " *" ++ t) ts ++ [ind ++ b_ " "] /\
      blank_text ind /\ Forall2 same_line ts ls)).
(** what the writer has been given *)
Definition given (w : writer) : bytes := w_out w ++ (if w_space w then [sp] else []).
Definition ends_line (s : bytes) : Prop := exists r, s = r ++ [nl].

(** [s] is [e] between its comments, and otherwise only blanks and line ends *)
Definition around (detached : list bytes) (leading trailing : bytes) (e s : bytes) : Prop :=
  exists gap rss rs trail ts, s = gap ++ e ++ trail /\ trivia gap (List.concat rss ++ rs) /\ Forall2 renders rss detached /\ renders rs leading /\ trivia trail ts /\ renders ts trailing.
