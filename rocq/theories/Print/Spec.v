(** What the printed pieces mean: the lexical rules of string literals, the numbers a range stands for, protobuf's
    name resolution, and the text between comment marks. *)
From Coq Require Import Ascii String NArith.
From Verif Require Import Base Strs.
From Verif.Print Require Import Model.
Open Scope list_scope.

(** ** String literals (protobuf language specification, strLit) *)

Definition octal_val (c : ascii) : option N :=
  if ((48 <=? code c) && (code c <=? 55))%N%bool then Some (code c - 48)%N else None.
Definition hex_val (c : ascii) : option N :=
  (if (48 <=? code c) && (code c <=? 57) then Some (code c - 48)
   else if (65 <=? code c) && (code c <=? 70) then Some (code c - 55)
   else if (97 <=? code c) && (code c <=? 102) then Some (code c - 87)
   else None)%N%bool.
Definition simple_escape (c : ascii) : option ascii :=
  (if code c =? 97 then Some (chr 7) else if code c =? 98 then Some (chr 8) else if code c =? 102 then Some (chr 12)
   else if code c =? 110 then Some (chr 10) else if code c =? 114 then Some (chr 13) else if code c =? 116 then Some (chr 9)
   else if code c =? 118 then Some (chr 11) else if code c =? 92 then Some (chr 92) else if code c =? 39 then Some (chr 39)
   else if code c =? 34 then Some (chr 34) else if code c =? 63 then Some (chr 63) else None)%N.
Fixpoint hex_vals (acc : N) (ds : bytes) : option N :=
  match ds with
  | [] => Some acc
  | d :: r => match hex_val d with Some v => hex_vals (acc * 16 + v)%N r | None => None end
  end.
Definition put (v : bytes) (rest : option bytes) : option bytes := option_map (app v) rest.
(** a byte given by an octal escape must fit *)
Definition put_octal (n : N) (rest : option bytes) : option bytes := if (n <? 256)%N then put [chr n] rest else None.
Definition put_rune (n : option N) (rest : option bytes) : option bytes :=
  match n with Some r => if (r <=? 1114111)%N then put (encode_rune r) rest else None | None => None end.

(** the value of what follows the opening quote; [None]: not a literal, or something follows the closing quote *)
Fixpoint lex (s : bytes) : option bytes :=
  match s with
  | [] => None
  | c :: t =>
      if Ascii.eqb c dq then match t with [] => Some [] | _ => None end
      else if Ascii.eqb c bs then
        match t with
        | [] => None
        | e :: t1 =>
            match simple_escape e with
            | Some v => put [v] (lex t1)
            | None =>
                match octal_val e with
                | Some a =>
                    match t1 with
                    | [] => None
                    | e2 :: t2 =>
                        match octal_val e2 with
                        | Some b =>
                            match t2 with
                            | [] => None
                            | e3 :: t3 =>
                                match octal_val e3 with
                                | Some c => put_octal ((a * 8 + b) * 8 + c)%N (lex t3)
                                | None => put_octal (a * 8 + b)%N (lex t2)
                                end
                            end
                        | None => put_octal a (lex t1)
                        end
                    end
                | None =>
                    if ((code e =? 120) || (code e =? 88))%N%bool then
                      match t1 with
                      | [] => None
                      | h1 :: t2 =>
                          match hex_val h1 with
                          | None => None
                          | Some a =>
                              match t2 with
                              | [] => None
                              | h2 :: t3 =>
                                  match hex_val h2 with
                                  | Some b => put [chr (a * 16 + b)%N] (lex t3)
                                  | None => put [chr a] (lex t2)
                                  end
                              end
                          end
                      end
                    else if (code e =? 117)%N then
                      match t1 with
                      | h1 :: h2 :: h3 :: h4 :: t2 => put_rune (hex_vals 0 [h1; h2; h3; h4]) (lex t2)
                      | _ => None
                      end
                    else if (code e =? 85)%N then
                      match t1 with
                      | h1 :: h2 :: h3 :: h4 :: h5 :: h6 :: h7 :: h8 :: t2 =>
                          put_rune (hex_vals 0 [h1; h2; h3; h4; h5; h6; h7; h8]) (lex t2)
                      | _ => None
                      end
                    else None
                end
            end
        end
      else if (Ascii.eqb c nl || (code c =? 0)%N)%bool then None
      else put [c] (lex t)
  end.
(** the value of a text that is one double-quoted literal *)
Definition denotes (text : bytes) : option bytes :=
  match text with c :: t => if Ascii.eqb c dq then lex t else None | [] => None end.

(** ** Ranges *)

Definition range_numbers (max : Z) (r : range_text) (x : Z) : Prop :=
  match r with
  | Single a => x = a
  | To a b => (a <= x <= b)%Z
  | ToMax a => (a <= x <= max)%Z
  end.
(** the language allows "a to b" only with a <= b *)
Definition range_valid (max : Z) (r : range_text) : Prop :=
  match r with Single _ => True | To a b => (a <= b)%Z | ToMax a => (a <= max)%Z end.

(** ** Names: lists of components *)

Definition component (w : bytes) : Prop := w <> [] /\ ~ In dot w.
Definition dotted (ws : list bytes) : bytes := join_with dot ws.

(** protobuf's resolution of a relative name: the innermost enclosing scope in which the first component names
    something decides.  [defined]: the symbols that end the search for this kind of reference. *)
Fixpoint scopes_from (scope : list bytes) (n : nat) : list (list bytes) :=      (* innermost first *)
  match n with 0 => [[]] | S n' => firstn n scope :: scopes_from scope n' end.
Definition resolves_to (defined : list bytes -> bool) (scope name : list bytes) : option (list bytes) :=
  match name with
  | [] => None
  | w :: _ =>
      match find (fun s => defined (s ++ [w])) (scopes_from scope (List.length scope)) with
      | Some s => Some (s ++ name)
      | None => None
      end
  end.

(** ** Writes *)

Definition strip_blank (p : bytes) : bytes :=
  match last_char p with Some c => if Ascii.eqb c sp then removelast p else p | None => p end.
(** text that attaches to what precedes it: it starts with a semicolon or a comma *)
Definition attaches (q : bytes) : bool := has_prefix q (b_ ";") || has_prefix q (b_ ",").
(** the writes, without the blank that ends one when the next starts with a semicolon or comma, or when it is the
    last *)
Fixpoint rendered (ps : list bytes) : bytes :=
  match ps with
  | [] => []
  | p :: r => match r with
              | [] => strip_blank p
              | q :: _ => (if attaches q then strip_blank p else p) ++ rendered r
              end
  end.
Definition nonempty (p : bytes) : bool := match p with [] => false | _ => true end.
Definition no_blanks (s : bytes) : bytes := filter (fun c => negb (Ascii.eqb c sp)) s.

(** ** Comments *)

(** a block comment: the text after the opening mark up to the first closing mark, and what follows *)
Definition read_block (text : bytes) : option (bytes * bytes) :=
  if has_prefix text (b_ "/*") then
    match index_sub (skipn 2 text) close_mark with
    | Some i => Some (firstn i (skipn 2 text), skipn (i + 2) (skipn 2 text))
    | None => None
    end
  else None.
(** equal up to one added leading blank and blanks at the end *)
Definition same_line (printed given : bytes) : Prop :=
  printed = trim_right given \/ printed = trim_right (sp :: given).
Definition blank_text (s : bytes) : Prop := forall c, In c s -> c = sp \/ c = tab.
