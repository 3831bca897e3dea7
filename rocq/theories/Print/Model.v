(** Pieces of the descriptor printer, pkg/format/protoprint: string literals, ranges, qualified names, source
    locations, the writer and comments. *)
From Coq Require Import Ascii String NArith.
From Verif Require Import Base Strs.
Open Scope list_scope.

Definition code (c : ascii) : N := N_of_ascii c.
Definition chr (n : N) : ascii := ascii_of_N n.
Definition nl : ascii := Eval vm_compute in chr 10.
Definition cr : ascii := Eval vm_compute in chr 13.
Definition tab : ascii := Eval vm_compute in chr 9.
Definition dq : ascii := Eval vm_compute in chr 34.
Definition bs : ascii := Eval vm_compute in chr 92.
Definition sp : ascii := " "%char.

(** ** String literals *)

Definition digit8 (n : N) : ascii := chr (48 + n).
(** fmt "%03o" of a byte *)
Definition octal3 (c : ascii) : bytes := [digit8 (code c / 64); digit8 (code c / 8 mod 8); digit8 (code c mod 8)]%N.

(** print.go:2077-2107 quotedBytes: one byte *)
Definition byte_chunk (c : ascii) : bytes :=
  if Ascii.eqb c nl then [bs; "n"%char]
  else if Ascii.eqb c cr then [bs; "r"%char]
  else if Ascii.eqb c tab then [bs; "t"%char]
  else if Ascii.eqb c dq then [bs]
  else if Ascii.eqb c bs then [bs; bs]
  else if ((32 <=? code c) && (code c <? 127))%N%bool then [c]
  else bs :: octal3 c.
Definition quoted_bytes (s : bytes) : bytes := dq :: flat_map byte_chunk s ++ [dq].

(** unicode/utf8: DecodeRuneInString ([None]: empty string; (RuneError, 1): invalid) and the encoding of
    WriteRune *)
Definition rune_error : N := 65533.
Definition in_range (a b : N) (c : ascii) : bool := ((a <=? code c) && (code c <=? b))%N%bool.
Definition cont (c : ascii) : bool := in_range 128 191 c.
Definition second3 (c0 c1 : ascii) : bool :=
  if (code c0 =? 224)%N then in_range 160 191 c1 else if (code c0 =? 237)%N then in_range 128 159 c1 else cont c1.
Definition second4 (c0 c1 : ascii) : bool :=
  if (code c0 =? 240)%N then in_range 144 191 c1 else if (code c0 =? 244)%N then in_range 128 143 c1 else cont c1.
Definition decode_rune (s : bytes) : option (N * nat) :=
  match s with
  | [] => None
  | c0 :: t =>
      if (code c0 <? 128)%N then Some (code c0, 1)
      else if in_range 194 223 c0 then
        match t with
        | c1 :: _ => if cont c1 then Some ((code c0 - 192) * 64 + (code c1 - 128), 2%nat)%N else Some (rune_error, 1)
        | _ => Some (rune_error, 1)
        end
      else if in_range 224 239 c0 then
        match t with
        | c1 :: c2 :: _ =>
            if (second3 c0 c1 && cont c2)%bool
            then Some (((code c0 - 224) * 64 + (code c1 - 128)) * 64 + (code c2 - 128), 3%nat)%N else Some (rune_error, 1)
        | _ => Some (rune_error, 1)
        end
      else if in_range 240 244 c0 then
        match t with
        | c1 :: c2 :: c3 :: _ =>
            if (second4 c0 c1 && cont c2 && cont c3)%bool
            then Some ((((code c0 - 240) * 64 + (code c1 - 128)) * 64 + (code c2 - 128)) * 64 + (code c3 - 128), 4%nat)%N
            else Some (rune_error, 1)
        | _ => Some (rune_error, 1)
        end
      else Some (rune_error, 1)
  end.
Definition encode_rune (r : N) : bytes :=
  (if r <? 128 then [chr r]
   else if r <? 2048 then [chr (192 + r / 64); chr (128 + r mod 64)]
   else if ((55296 <=? r) && (r <=? 57343)) || (1114111 <? r) then [chr 239; chr 191; chr 189]
   else if r <? 65536 then [chr (224 + r / 4096); chr (128 + r / 64 mod 64); chr (128 + r mod 64)]
   else [chr (240 + r / 262144); chr (128 + r / 4096 mod 64); chr (128 + r / 64 mod 64); chr (128 + r mod 64)])%N%bool.

Definition hex_digit (n : N) : ascii := chr (if n <? 10 then 48 + n else 55 + n)%N.
Fixpoint hex (k : nat) (r : N) : bytes :=       (* "%0kX" for r < 16^k *)
  match k with 0 => [] | S k' => hex k' (r / 16)%N ++ [hex_digit (r mod 16)%N] end.

Section Quoted.
Variable is_print : N -> bool.     (* unicode.IsPrint *)
(** print.go:2112-2163 quotedString: one rune *)
Definition rune_chunk (r : N) : bytes :=
  (if r =? 10 then [bs; "n"%char]
   else if r =? 13 then [bs; "r"%char]
   else if r =? 9 then [bs; "t"%char]
   else if r =? 34 then [bs]
   else if r =? 92 then [bs; bs]
   else if is_print r then encode_rune r
   else if 65535 <? r then bs :: "U"%char :: hex 8 r
   else if 127 <? r then bs :: "u"%char :: hex 4 r
   else bs :: octal3 (chr r))%N.
(** the loop; [skip]: bytes that belong to the rune already written *)
Fixpoint string_chunks (skip : nat) (s : bytes) : bytes :=
  match s with
  | [] => []
  | c :: t =>
      match skip with
      | S k => string_chunks k t
      | 0 =>
          match decode_rune s with
          | None => []
          | Some (r, n) =>
              if ((r =? rune_error)%N && (n =? 1))%bool then (bs :: octal3 c) ++ string_chunks 0 t
              else rune_chunk r ++ string_chunks (n - 1) t
          end
      end
  end.
Definition quoted_string (s : bytes) : bytes := dq :: string_chunks 0 s ++ [dq].
End Quoted.

(** ** Ranges *)

(** int32 arithmetic *)
Definition wrap32 (z : Z) : Z := ((z + 2147483648) mod 4294967296 - 2147483648)%Z.
(** "a", "a to b", "a to max" *)
Inductive range_text := Single (a : Z) | To (a b : Z) | ToMax (a : Z).
(** print.go:1329-1337 printReservedRanges, one range; [max]: maxVal *)
Definition print_range (max start stop : Z) : range_text :=
  if ((start =? wrap32 (stop - 1)) || (start =? stop))%Z%bool then Single start
  else if (wrap32 (stop - 1) =? max)%Z then ToMax start
  else To start (wrap32 (stop - 1)).
(** print.go:1299-1307 printExtensionRanges, one range *)
Definition print_ext_range (max start stop : Z) : range_text :=
  if (start =? wrap32 (stop - 1))%Z then Single start
  else if (wrap32 (stop - 1) =? max)%Z then ToMax start
  else To start (wrap32 (stop - 1)).
(** internal/util.go:11-15, 288-293 GetMaxTag; print.go:1421 for enums *)
Definition max_tag (message_set : bool) : Z := if message_set then 2147483646%Z else 536870911%Z.
Definition max_enum : Z := 2147483647%Z.

(** ** Qualified names *)

Definition dot : ascii := "."%char.
(** the prefix through the last dot ([] if there is none): scope[:strings.LastIndex(scope, ".")+1] *)
Fixpoint through_last_dot (s : bytes) : bytes :=
  match s with
  | [] => []
  | c :: r => match through_last_dot r with
              | [] => if Ascii.eqb c dot then [c] else []
              | l => c :: l
              end
  end.
(** print.go:809-819, the loop; the scope becomes shorter in each round *)
Fixpoint qualify_loop (fuel : nat) (pkg scope fqn : bytes) (count required : Z) : bytes :=
  match fuel with
  | 0 => fqn
  | S fuel' =>
      match scope with
      | [] => fqn
      | _ =>
          if (has_prefix fqn scope && (required <=? count)%Z)%bool then skipn (List.length scope) fqn
          else if beq scope (pkg ++ [dot]) then fqn
          else qualify_loop fuel' pkg (through_last_dot (removelast scope)) fqn (count + 1)%Z required
      end
  end.
Definition last_char (s : bytes) : option ascii := match rev s with c :: _ => Some c | [] => None end.
(** print.go:790-821 qualifyElementName ([None]: index out of range on an empty name) *)
Definition qualify (force : bool) (pkg scope fqn : bytes) (required : Z) : option bytes :=
  match fqn with
  | [] => None
  | c :: r =>
      if force then Some (if Ascii.eqb c dot then fqn else dot :: fqn)
      else
        let fqn' := if Ascii.eqb c dot then r else fqn in
        let scope' :=
          if (required <? 0)%Z then pkg ++ [dot]
          else match last_char scope with
               | Some d => if Ascii.eqb d dot then scope else scope ++ [dot]
               | None => scope
               end in
        Some (qualify_loop (S (List.length scope')) pkg scope' fqn' 0 required)
  end.

(** ** Source locations, internal/source_info.go *)

Definition le_bytes (z : Z) : bytes :=
  let u := Z.to_N (z mod 4294967296) in
  [chr (u mod 256); chr (u / 256 mod 256); chr (u / 65536 mod 256); chr (u / 16777216 mod 256)]%N.
(** source_info.go:43-62 asMapKey *)
Definition map_key (path : list Z) : bytes := flat_map le_bytes path.
Definition info_map (A : Type) := bytes -> list A.
Definition no_info {A} : info_map A := fun _ => [].
(** source_info.go:13-31 *)
Definition info_get {A} (m : info_map A) (path : list Z) : option A := hd_error (m (map_key path)).
Definition info_get_all {A} (m : info_map A) (path : list Z) : list A := m (map_key path).
Definition info_add {A} (m : info_map A) (path : list Z) (x : A) : info_map A :=
  fun k => if beq k (map_key path) then m k ++ [x] else m k.
(** source_info.go:34-41 *)
Definition info_put_if_absent {A} (m : info_map A) (path : list Z) (x : A) : info_map A * bool :=
  match m (map_key path) with
  | [] => (fun k => if beq k (map_key path) then [x] else m k, true)
  | _ => (m, false)
  end.

(** ** The writer, print.go:2735-2782 (the underlying writer does not fail) *)

Record writer := mkW { w_out : bytes; w_space : bool; w_newline : bool }.
Definition new_writer : writer := mkW [] false true.
Definition starts_tight (p : bytes) : bool :=
  match p with c :: _ => (Ascii.eqb c ";"%char || Ascii.eqb c ","%char)%bool | [] => false end.
(** the new state and the number of bytes reported *)
Definition write (w : writer) (p : bytes) : writer * nat :=
  match p with
  | [] => (w, 0)
  | _ =>
      let out := if (w_space w && negb (starts_tight p))%bool then w_out w ++ [sp] else w_out w in
      let space := match last_char p with Some c => Ascii.eqb c sp | None => false end in
      let p' := if space then removelast p else p in
      let newline := match last_char p' with Some c => Ascii.eqb c nl | None => false end in
      (mkW (out ++ p') space newline, List.length p' + (if space then 1 else 0))
  end.
Definition write_all (w : writer) (ps : list bytes) : writer := fold_left (fun w p => fst (write w p)) ps w.

(** ** Comments, print.go:2622-2719 *)

(** strings.Index of a text *)
Fixpoint index_sub (s sub : bytes) : option nat :=
  if has_prefix s sub then Some 0
  else match s with [] => None | _ :: r => match index_sub r sub with Some i => Some (S i) | None => None end end.
Definition close_mark : bytes := b_ "*/".
Definition contains_close (s : bytes) : bool := match index_sub s close_mark with Some _ => true | None => false end.

(** 2639-2651: the lines without a blank first and last one *)
Definition drop_first_blank (ls : list bytes) : list bytes := match ls with [] :: r => r | _ => ls end.
Definition drop_last_blank (ls : list bytes) : list bytes := rev (drop_first_blank (rev ls)).
Definition comment_lines (comments : bytes) : list bytes := drop_last_blank (drop_first_blank (split_on nl comments)).

(** strings.TrimRight(l, " \t") *)
Fixpoint trim_left_blank (s : bytes) : bytes :=
  match s with c :: r => if (Ascii.eqb c sp || Ascii.eqb c tab)%bool then trim_left_blank r else s | [] => [] end.
Definition trim_right (s : bytes) : bytes := rev (trim_left_blank (rev s)).
(** 2689-2691 *)
Definition pad (l : bytes) : bytes := match l with [] => [] | c :: _ => if Ascii.eqb c sp then l else sp :: l end.

(** 2721-2733 indent, maybeIndent *)
Definition indent_text (unit : bytes) (n : Z) : bytes := concat (repeat unit (Z.to_nat n)).
Definition maybe_indent (unit : bytes) (n : Z) (required : bool) : bytes :=
  if ((n <? 0)%Z && required)%bool then indent_text unit (- n) else indent_text unit n.
Definition inline (n : Z) : Z := if (n <? 0)%Z then n else (- n - 2)%Z.

Inductive outcome := Panics | Prints (out : bytes) (ends_in_newline : bool).

(** 2704-2709: one line of a line comment *)
Definition line_comment (unit : bytes) (n : Z) (i : nat) (l : bytes) : bytes :=
  maybe_indent unit n (0 <? i) ++ b_ "//" ++ trim_right (pad l) ++ [nl].
Fixpoint mapi {A B} (f : nat -> A -> B) (i : nat) (l : list A) : list B :=
  match l with [] => [] | x :: r => f i x :: mapi f (S i) r end.
(** 2694-2703: the lines between the added blank first and last line of a block comment *)
Definition block_line (unit : bytes) (n : Z) (l : bytes) : bytes :=
  maybe_indent unit n true ++ b_ " *" ++ trim_right (pad l) ++ [nl].
Definition block_comment (unit : bytes) (n : Z) (ls : list bytes) : bytes :=
  maybe_indent unit n false ++ b_ "/*" ++ [nl] ++ flat_map (block_line unit n) ls ++ maybe_indent unit n true ++ b_ " */" ++
  (if (0 <=? n)%Z then [nl] else []).
(** 2668-2671 *)
Definition symmetric (l : bytes) : bytes :=
  match l, last_char l with
  | c :: _, Some d => if (Ascii.eqb c sp && negb (Ascii.eqb d sp))%bool then l ++ [sp] else l
  | _, _ => l
  end.

(** printComment; [newline], [space]: the state of the writer; the text goes to the writer in one piece here
    (simplified: only the pieces' concatenation is modelled; a withheld blank is always written, because no piece
    starts with a semicolon or comma) *)
Definition print_comment (prefer_block : bool) (unit : bytes) (comments : bytes) (newline space : bool) (n : Z) (force_next : bool) : outcome :=
  match comments with
  | [] => Prints [] false
  | _ =>
      let block := (((n <? 0)%Z || prefer_block) && negb (contains_close comments))%bool in
      match comment_lines comments with
      | [] => Prints [] false
      | ls =>
          let own_line := ((0 <=? n)%Z && negb newline)%bool in
          let next := (own_line && (force_next || (1 <? List.length ls)))%bool in
          let pre := if next then [nl] else if (own_line && negb space)%bool then [sp] else [] in
          let n' := if (own_line && negb next)%bool then inline n else n in
          if block then
            match ls with
            | [l] =>
                match l with
                | [] => Panics                                             (* line[0], 2668 *)
                | _ => Prints (pre ++ indent_text unit n' ++ b_ "/*" ++ symmetric l ++ close_mark ++ (if (0 <=? n')%Z then [nl] else [])) (0 <=? n')%Z
                end
            | _ => Prints (pre ++ block_comment unit n' ls) (0 <=? n')%Z
            end
          else Prints (pre ++ concat (mapi (line_comment unit n') 0 ls)) true
      end
  end.
