(** Property theorems for semantic tokens (C15, C54, C55). *)
From Coq Require Import Ascii String Sorted Permutation.
From Verif Require Import Base Strs.
From Verif.Tokens Require Import Model Spec Proofs.
Open Scope list_scope.

(** C15: whatever tokens were collected, and however they were sorted (the
    sort is not stable), decoding the array sent gives exactly those tokens,
    in document order. *)
Theorem C15_tokens_decode :
  forall collected l, Forall valid collected ->
  Permutation collected l -> Sorted (fun a b => less b a = false) l ->
  decode (data l) = Some l /\ Sorted before_or_at l.
Proof.
  intros collected l V P S. split; [|now apply less_sorted]. apply decode_data; [now apply (valid_perm collected)|now apply less_sorted].
Qed.
Definition toks : list item := [mkItem 1 0 3 2 0; mkItem 0 4 6 1 1; mkItem 1 10 2 5 4]%Z.
Example C15_example :
  let l := [mkItem 0 4 6 1 1; mkItem 1 0 3 2 0; mkItem 1 10 2 5 4]%Z in
  Forall valid toks /\ Permutation toks l /\ Sorted (fun a b => less b a = false) l.
Proof.
  cbv zeta. split; [|split].
  - repeat constructor; cbn; discriminate.
  - apply perm_swap.
  - repeat constructor.
Qed.

(** C54. If the raw text is what is between the quotes, the tokens of a literal
    with escapes cover it exactly iff it ends with an escape sequence; if the
    raw text includes the quotes they never do. *)
Theorem C54_literal_covered_iff_partial :
  forall n ms, matches_in 0 n ms -> (covers_literal 0 n ms (string_tokens n ms) <-> last (map snd ms) 0 = n).
Proof.
  intros n ms M. split; [|now apply string_tokens_ok]. intros C.
  destruct (Nat.eq_dec (last (map snd ms) 0) n) as [E|E]; [exact E|]. exfalso. now apply (string_tokens_wrong n ms).
Qed.
(** In general the tokens leave no gap and do not overlap, the escape sequences are in place, and only
    columns at the end are missing (the last one, or two if fewer than three characters follow the last
    escape sequence). *)
Theorem C54_gapless_partial :
  forall n ms, matches_in 0 n ms -> exists stop, tiles 0 stop (string_tokens n ms) /\ n <= stop <= n + 2 /\
    (last (map snd ms) 0 + 2 < n -> stop = n + 1) /\
    escapes (string_tokens n ms) = map (fun m => (1 + fst m, 1 + snd m)) ms.
Proof.
  intros n ms M. destruct (string_tokens_tile n ms M) as [T E]. destruct (esc_loop_tiles n ms 0 M) as (_ & _ & B & _ & F).
  rewrite F in B. eexists. split; [exact T|]. destruct (Nat.ltb_spec (last (map snd ms) 0 + 2) n); repeat split; try lia; exact E.
Qed.
Theorem C54_quoted_raw_text_refuted :
  forall n ms, ms <> [] -> matches_in 0 n ms -> ~ covers_literal 1 n ms (string_tokens n ms).
Proof. exact string_tokens_quoted_wrong. Qed.
(** e.g. the literal ["\tfoo"]: raw text of 5 characters, one escape at 0..2 *)
Theorem C54_literal_covered_refuted :
  exists n ms, matches_in 0 n ms /\ ~ covers_literal 0 n ms (string_tokens n ms).
Proof.
  exists 5, [(0, 2)]. assert (M : matches_in 0 5 [(0, 2)]) by (repeat constructor).
  split; [exact M|]. apply string_tokens_wrong; [exact M|discriminate].
Qed.
Example C54_example : (* the literal ["foo\xFFbar\t"] *)
  let ms := [(3, 7); (10, 12)] in matches_in 0 12 ms /\ last (map snd ms) 0 = 12 /\
  string_tokens 12 ms = [mkPiece 0 1 false; mkPiece 1 3 false; mkPiece 4 4 true; mkPiece 8 3 false; mkPiece 11 2 true; mkPiece 13 1 false].
Proof. split; [repeat constructor|split; reflexivity]. Qed.

(** C55. The tokens of a comment of several lines cover exactly its characters;
    so does the token of an ordinary single-line comment ... *)
Theorem C55_multiline_comment_covered :
  forall text col endcol, let lines := split_on nl text in
  2 <= List.length lines -> endcol = List.length (last lines []) ->
  forall l c, covered (multiline_tokens text col (List.length lines - 1) endcol) l c <-> occupies text 0 col l c.
Proof. exact multiline_covered. Qed.
(** ... with one token for each line *)
Theorem C55_multiline_one_token_per_line :
  forall text col endcol, let lines := split_on nl text in 2 <= List.length lines ->
  map cline (multiline_tokens text col (List.length lines - 1) endcol) = seq 0 (List.length lines).
Proof.
  intros text col endcol lines H. rewrite multiline_lines; [f_equal; unfold lines in *; lia|unfold lines in *; lia|exact H|reflexivity].
Qed.
Theorem C55_plain_comment_covered :
  forall at_top text col,
  (at_top = false \/ forall key rest, text <> pragma_prefix ++ key ++ rest \/ key = [] \/ In space key) ->
  forall c, covered (comment_tokens at_top text col) 0 c <-> col <= c < col + List.length text.
Proof.
  intros at_top text col H c. rewrite comment_plain by assumption. split.
  - intros (t & [<-|[]] & _ & HC). exact HC.
  - intros HC. eexists. split; [left; reflexivity|]. auto.
Qed.
(** ... and is never shown as anything but a comment; of a pragma comment exactly "protols:" and the key are. *)
Theorem C55_only_pragmas :
  (forall text col endline endcol t, In t (multiline_tokens text col endline endcol) -> cmacro t = false) /\
  (forall at_top text col, (at_top = false \/ forall key rest, text <> pragma_prefix ++ key ++ rest \/ key = [] \/ In space key) ->
     forall t, In t (comment_tokens at_top text col) -> cmacro t = false) /\
  (forall key rest col, key <> [] -> ~ In space key -> (rest = [] \/ exists r, rest = space :: r) ->
     filter cmacro (comment_tokens true (b_ "//protols:" ++ key ++ rest) col) = [mkCtok 0 (col + 2) (List.length (b_ "protols:" ++ key)) true]).
Proof.
  split; [|split].
  - intros text col endline endcol t [<-|I]; [reflexivity|]. apply in_app_or in I as [I|[<-|[]]]; [|reflexivity]. now apply in_map_iff in I as (i & <- & _).
  - intros at_top text col H t I. rewrite comment_plain in I by assumption. now destruct I as [<-|[]].
  - intros key rest col K S R. change (b_ "//protols:") with pragma_prefix. rewrite comment_pragma by assumption. cbn [filter cmacro]. rewrite app_length. destruct (_ <? _); reflexivity.
Qed.
(** ... but a pragma comment's value is only covered if it is longer than ten
    characters (semantic.go:371 compares with the wrong length). *)
Theorem C55_pragma_comment_covered_iff_partial :
  forall key rest col, key <> [] -> ~ In space key -> (rest = [] \/ exists r, rest = space :: r) ->
  ((forall c, covered (comment_tokens true (pragma_prefix ++ key ++ rest) col) 0 c <->
             col <= c < col + List.length (pragma_prefix ++ key ++ rest)) <->
   rest = [] \/ 10 < List.length rest).
Proof. exact pragma_covered. Qed.
Theorem C55_pragma_comment_covered_refuted :
  exists text c, c < List.length text /\ ~ covered (comment_tokens true text 0) 0 c.
Proof.
  exists (b_ "//protols:debug on"), 16. split; [cbn; lia|]. intros (t & HI & _ & HC). cbn in HI.
  destruct HI as [<-|[<-|[]]]; cbn in HC; lia.
Qed.
Example C55_example :
  let text := b_ "/* a" ++ [nl] ++ b_ "b */" in
  2 <= List.length (split_on nl text) /\ covered (multiline_tokens text 3 1 4) 0 6 /\
  comment_tokens true (b_ "//protols:debug Wnoerror=all") 0 = [mkCtok 0 0 2 false; mkCtok 0 2 13 true; mkCtok 0 15 13 false].
Proof.
  cbv zeta. split; [cbn; lia|]. split; [|reflexivity]. eexists. split; [left; reflexivity|]. cbn. lia.
Qed.

Print Assumptions C15_tokens_decode.
Print Assumptions C54_literal_covered_iff_partial.
Print Assumptions C54_gapless_partial.
Print Assumptions C54_quoted_raw_text_refuted.
Print Assumptions C54_literal_covered_refuted.
Print Assumptions C55_multiline_comment_covered.
Print Assumptions C55_multiline_one_token_per_line.
Print Assumptions C55_plain_comment_covered.
Print Assumptions C55_only_pragmas.
Print Assumptions C55_pragma_comment_covered_iff_partial.
Print Assumptions C55_pragma_comment_covered_refuted.
