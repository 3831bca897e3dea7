(** Model of parts of pkg/lsp/semantic.go: the integer encoding of semantic
    tokens, the tokens of a string literal with escape sequences, and the
    tokens of comments. Columns and lengths are counted in bytes as the code does. *)
From Coq Require Import Ascii String.
From Verif Require Import Base Strs.
Open Scope list_scope.

(** ** Encoding *)
Open Scope Z_scope.

(** semantic.go:79-92 semanticItem; the fields that are encoded *)
Record item := mkItem { line : Z; start : Z; len : Z; typ : Z; mods : Z }.

(** uint32 arithmetic *)
Definition u32 (x : Z) : Z := x mod 4294967296.

(** semantic.go:978-1002 Data. [last] is [None] in the first iteration
    (j == 0). *)
Fixpoint data_from (last : option item) (l : list item) : list Z :=
  match l with
  | [] => []
  | it :: l' =>
      let dl := match last with None => line it | Some p => u32 (line it - line p) end in
      let ds := match last with
                | None => start it
                | Some p => if dl =? 0 then u32 (start it - start p) else start it
                end in
      dl :: ds :: len it :: typ it :: mods it :: data_from (Some it) l'
  end.
Definition data (l : list item) : list Z := data_from None l.

(** semantic.go:205-210: the comparison given to sort.Slice *)
Definition less (a b : item) : bool :=
  if negb (line a =? line b) then line a <? line b else start a <? start b.

(** ** Strings with escape sequences *)
Open Scope nat_scope.

(** A token inside the literal: column relative to the opening quote, length,
    and whether it is an escape sequence token. *)
Record piece := mkPiece { pstart : nat; plen : nat; pesc : bool }.

(** semantic.go:736-760, the loop over the matches [(from, to)] of
    escapeCharRegex in node.Raw; [i] is the loop variable. The column variable
    [start] of the code is 1 + column of the literal after line 734. The final
    value of [i] is returned too. *)
Fixpoint esc_loop (i : nat) (ms : list (nat * nat)) : list piece * nat :=
  match ms with
  | [] => ([], i)
  | (a, b) :: ms' =>
      let p1 := if i <? a then [mkPiece (1 + i) (a - i) false] else [] in
      let i1 := if i <? a then a else i in
      let p2 := if i1 =? a then [mkPiece (1 + i1) (b - a) true] else [] in
      let i2 := if i1 =? a then b else i1 in
      let r := esc_loop i2 ms' in
      (p1 ++ p2 ++ fst r, snd r)
  end.

(** semantic.go:704-788 inspectStringLiteralWithEscapeSequences (without the
    comments at the end); [n] is len(node.Raw), [ms] the regex matches. The
    test is [i < len(node.Raw)-2] on signed integers. *)
Definition string_tokens (n : nat) (ms : list (nat * nat)) : list piece :=
  let r := esc_loop 0 ms in
  let i := snd r in
  let tail := if i + 2 <? n then [mkPiece (1 + i) (n - 1 - i) false] else [] in
  let i' := if i + 2 <? n then n - 1 else i in
  mkPiece 0 1 false :: fst r ++ tail ++ [mkPiece (1 + i') 1 false].

(** ** Comments *)
Definition nl : ascii := Ascii.ascii_of_nat 10.

(** (line relative to the first, start column, length) *)
Record ctok := mkCtok { cline : nat; ccol : nat; clen : nat; cmacro : bool }.

(** semantic.go:413-444 multilineComment; [col] is cstart.Col - 1, [endline]
    is cend.Line - cstart.Line and [endcol] is cend.Col (the 1-based column of
    the last character). Only called if [0 < endline]. *)
Definition multiline_tokens (text : bytes) (col endline endcol : nat) : list ctok :=
  let lines := split_on nl text in
  mkCtok 0 col (List.length (hd [] lines)) false ::
  map (fun i => mkCtok i 0 (List.length (nth i lines [])) false) (seq 1 (List.length lines - 2)) ++
  [mkCtok endline 0 endcol false].

Definition space : ascii := " "%char.
Definition pragma_prefix : bytes := b_ "//protols:".

(** strings.SplitN(text, " ", 2)[0] *)
Fixpoint upto_space (s : bytes) : bytes :=
  match s with
  | [] => []
  | c :: s' => if Ascii.eqb c space then [] else c :: upto_space s'
  end.

(** semantic.go:341-392: tokens of one single-line leading comment at column
    [col]; [at_top] says that the node is the keyword "syntax" or "edition".
    The comment's end column is that of its last character, so the token length
    of line 389 is the length of the text. *)
Definition comment_tokens (at_top : bool) (text : bytes) (col : nat) : list ctok :=
  let whole := [mkCtok 0 col (List.length text) false] in
  if has_prefix text pragma_prefix then
    let rest := skipn (List.length pragma_prefix) text in
    let key := upto_space rest in
    match key with
    | [] => whole
    | _ =>
        if at_top then
          let keyLen := 8 + List.length key in
          mkCtok 0 col 2 false :: mkCtok 0 (col + 2) keyLen true ::
          (if keyLen + 2 <? List.length rest
           then [mkCtok 0 (col + 2 + keyLen) (List.length text - 2 - keyLen) false] else [])
        else whole
    end
  else whole.
