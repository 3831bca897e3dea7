From Coq Require Import Ascii String Sorted Permutation.
From Verif Require Import Base Strs.
From Verif.Tokens Require Import Model Spec.
Open Scope list_scope.

(** ** C15 *)
Section C15.
Open Scope Z_scope.
Lemma u32_small x : is_u32 x -> u32 x = x.
Proof. intros H. apply Z.mod_small. exact H. Qed.

Lemma decode_data_from l : forall p, valid p -> Forall valid l -> Sorted before_or_at (p :: l) ->
  decode_from (line p) (start p) (data_from (Some p) l) = Some l.
Proof.
  induction l as [|it l IH]; intros p Vp Vl S; [reflexivity|].
  inversion Vl as [|? ? Vi Vl']; subst. apply Sorted_inv in S as [S HR]. apply HdRel_inv in HR.
  cbn [data_from decode_from].
  destruct Vp as (Vp1 & Vp2 & _). destruct Vi as (Vi1 & Vi2 & Vi3). unfold is_u32 in *.
  assert (DL : u32 (line it - line p) = line it - line p).
  { apply u32_small. unfold is_u32. destruct HR as [HR|[HR _]]; lia. }
  rewrite DL. destruct (Z.eqb_spec (line it - line p) 0) as [E|N].
  - assert (E' : line it = line p) by lia. destruct HR as [HR|[_ HR]]; [lia|].
    assert (DS : u32 (start it - start p) = start it - start p) by (apply u32_small; unfold is_u32; lia).
    rewrite DS. replace (line p + (line it - line p)) with (line it) by lia.
    replace (start p + (start it - start p)) with (start it) by lia.
    rewrite IH; [destruct it; reflexivity| |exact Vl'|exact S]. split; [exact Vi1|split; [exact Vi2|exact Vi3]].
  - replace (line p + (line it - line p)) with (line it) by lia.
    rewrite IH; [destruct it; reflexivity| |exact Vl'|exact S]. split; [exact Vi1|split; [exact Vi2|exact Vi3]].
Qed.

Lemma decode_data l : Forall valid l -> Sorted before_or_at l -> decode (data l) = Some l.
Proof.
  intros V S. destruct l as [|it l]; [reflexivity|]. unfold decode, data. cbn [data_from decode_from].
  inversion V; subst. replace (0 + line it) with (line it) by lia.
  assert (E : (if line it =? 0 then 0 + start it else start it) = start it) by (destruct (line it =? 0); lia).
  rewrite E, decode_data_from; auto. destruct it; reflexivity.
Qed.

(** a list in the order of [less] is in document order *)
Lemma less_order a b : less b a = false -> before_or_at a b.
Proof.
  unfold less, before_or_at. destruct (Z.eqb_spec (line b) (line a)) as [E|N]; cbn [negb].
  - rewrite Z.ltb_ge. lia.
  - rewrite Z.ltb_ge. lia.
Qed.
Lemma less_sorted l : Sorted (fun a b => less b a = false) l -> Sorted before_or_at l.
Proof.
  induction 1 as [|a l S IH HR]; constructor; [exact IH|]. inversion HR; constructor. now apply less_order.
Qed.
Lemma valid_perm l l' : Permutation l l' -> Forall valid l -> Forall valid l'.
Proof. intros P F. rewrite Forall_forall in *. intros x H. apply F. eapply Permutation_in; [symmetry|]; eauto. Qed.
End C15.

(** ** C54 *)
Lemma tiles_app i j k a b : tiles i j a -> tiles j k b -> tiles i k (a ++ b).
Proof. induction 1; [auto|]. intros H2. cbn. apply t_cons; auto. Qed.

Lemma last_cons (x : nat) l d : last (x :: l) d = last l x.
Proof. revert x d. induction l as [|y l IH]; intros x d; [reflexivity|]. change (last (x :: y :: l) d) with (last (y :: l) d). now rewrite !IH. Qed.

Lemma esc_loop_tiles n ms : forall i, matches_in i n ms ->
  tiles (1 + i) (1 + snd (esc_loop i ms)) (fst (esc_loop i ms)) /\
  escapes (fst (esc_loop i ms)) = map (fun m => (1 + fst m, 1 + snd m)) ms /\
  i <= snd (esc_loop i ms) <= n /\
  (ms <> [] -> exists a, In (a, snd (esc_loop i ms)) ms) /\
  (snd (esc_loop i ms) = last (map snd ms) i).
Proof.
  induction ms as [|[a b] ms IH]; intros i M.
  - inversion M; subst. cbn. split; [constructor|]. split; [reflexivity|]. split; [lia|]. split; [congruence|reflexivity].
  - inversion M as [|? ? ? ? ? H1 H2 H3]; subst. cbn [esc_loop].
    set (p1 := if i <? a then [mkPiece (1 + i) (a - i) false] else []).
    assert (E1 : (if i <? a then a else i) = a) by (destruct (Nat.ltb_spec i a); lia). rewrite E1, Nat.eqb_refl.
    destruct (IH b H3) as (T & E & B & X & L). cbn [fst snd].
    assert (T1 : tiles (1 + i) (1 + a) p1).
    { unfold p1. destruct (Nat.ltb_spec i a).
      - apply t_cons; cbn [pstart plen]; [reflexivity|lia|]. replace (1 + i + (a - i)) with (1 + a) by lia. constructor.
      - replace i with a by lia. constructor. }
    split; [|split; [|split; [|split]]].
    + eapply tiles_app; [exact T1|]. apply (tiles_app (1 + a) (1 + b)); [|exact T].
      apply t_cons; cbn [pstart plen]; [reflexivity|lia|]. replace (1 + a + (b - a)) with (1 + b) by lia. constructor.
    + unfold escapes in *. rewrite !filter_app, !map_app, E.
      assert (filter pesc p1 = []) as -> by (unfold p1; destruct (i <? a); reflexivity).
      cbn. f_equal. f_equal. lia.
    + lia.
    + intros _. destruct ms as [|m ms]; [exists a; left; reflexivity|]. destruct X as [a' Ha']; [discriminate|]. exists a'. now right.
    + rewrite L. cbn [map snd]. symmetry. apply last_cons.
Qed.

(** raw text without quotes: correct iff the literal ends with an escape sequence *)
Lemma string_tokens_ok n ms : matches_in 0 n ms -> last (map snd ms) 0 = n ->
  covers_literal 0 n ms (string_tokens n ms).
Proof.
  intros M L. destruct (esc_loop_tiles n ms 0 M) as (T & E & B & _ & F). unfold string_tokens.
  rewrite F, L. destruct (Nat.ltb_spec (n + 2) n) as [H|_]; [lia|]. cbn [app]. rewrite F, L in T. split.
  - cbn [Nat.eqb]. apply t_cons; cbn [pstart plen]; [reflexivity|lia|]. eapply tiles_app; [exact T|].
    apply t_cons; cbn [pstart plen]; [reflexivity|lia|]. replace (1 + n + 1) with (n + 2) by lia. constructor.
  - unfold escapes in *. cbn [filter pesc]. rewrite filter_app, map_app, E. cbn [filter pesc map]. rewrite app_nil_r.
    apply map_ext. intros [x y]. reflexivity.
Qed.

Lemma tiles_end i j ps : tiles i j ps -> i <= j.
Proof. induction 1; lia. Qed.
Lemma tiles_last_end i j ps p : tiles i j (ps ++ [p]) -> j = pstart p + plen p.
Proof.
  revert i. induction ps as [|x ps IH]; intros i H; cbn in H; inversion H; subst.
  - match goal with T : tiles _ _ [] |- _ => inversion T; subst end. reflexivity.
  - eapply IH; eassumption.
Qed.

Lemma string_tokens_wrong n ms : matches_in 0 n ms -> last (map snd ms) 0 <> n ->
  ~ covers_literal 0 n ms (string_tokens n ms).
Proof.
  intros M L [T _]. cbn [Nat.eqb] in T. destruct (esc_loop_tiles n ms 0 M) as (_ & _ & B & _ & F).
  unfold string_tokens in T. rewrite app_assoc, app_comm_cons in T. apply tiles_last_end in T. cbn [pstart plen] in T.
  rewrite F in *. destruct (Nat.ltb_spec (last (map snd ms) 0 + 2) n); lia.
Qed.

(** what is covered in general: all but the last one to [n] columns, with the escapes in place *)
Lemma string_tokens_tile n ms : matches_in 0 n ms ->
  let i := last (map snd ms) 0 in
  tiles 0 (if i + 2 <? n then n + 1 else i + 2) (string_tokens n ms) /\
  escapes (string_tokens n ms) = map (fun m => (1 + fst m, 1 + snd m)) ms.
Proof.
  intros M i. destruct (esc_loop_tiles n ms 0 M) as (T & E & B & _ & F). unfold string_tokens. fold i in F. rewrite F in *.
  destruct (Nat.ltb_spec (i + 2) n) as [H|H]; split.
  - apply t_cons; cbn [pstart plen]; [reflexivity|lia|]. eapply tiles_app; [exact T|]. cbn [app].
    apply t_cons; cbn [pstart plen]; [reflexivity|lia|]. replace (1 + i + (n - 1 - i)) with (1 + (n - 1)) by lia.
    apply t_cons; cbn [pstart plen]; [reflexivity|lia|]. replace (1 + (n - 1) + 1) with (n + 1) by lia. constructor.
  - unfold escapes in *. cbn [filter pesc]. rewrite filter_app, map_app, E. cbn [filter pesc map app]. rewrite app_nil_r. reflexivity.
  - apply t_cons; cbn [pstart plen]; [reflexivity|lia|]. eapply tiles_app; [exact T|]. cbn [app].
    apply t_cons; cbn [pstart plen]; [reflexivity|lia|]. replace (1 + i + 1) with (i + 2) by lia. constructor.
  - unfold escapes in *. cbn [filter pesc]. rewrite filter_app, map_app, E. cbn [filter pesc map app]. rewrite app_nil_r. reflexivity.
Qed.

(** raw text with quotes: escapes are always misplaced *)
Lemma string_tokens_quoted_wrong n ms : ms <> [] -> matches_in 0 n ms ->
  ~ covers_literal 1 n ms (string_tokens n ms).
Proof.
  intros NE M [_ E]. destruct (esc_loop_tiles n ms 0 M) as (_ & E' & _). unfold string_tokens in E.
  unfold escapes in *. cbn [filter pesc map] in E. rewrite filter_app, map_app, E' in E.
  destruct ms as [|[a b] ms]; [congruence|]. cbn in E. injection E. lia.
Qed.

(** ** C55 *)

Lemma occupies_lines text : forall l0 c0 l c, occupies text l0 c0 l c <->
  exists (k : nat) (ln : bytes), l = l0 + k /\ nth_error (split_on nl text) k = Some ln /\ (k = 0 -> c0 <= c < c0 + List.length ln) /\ (0 < k -> c < List.length ln).
Proof.
  induction text as [|x text IH]; intros l0 c0 l c.
  - cbn. split; [easy|]. intros (k & ln & -> & H & A & B). destruct k as [|k].
    + cbn in H. injection H as <-. cbn in A. specialize (A eq_refl). lia.
    + destruct k; discriminate.
  - cbn [occupies split_on]. destruct (Ascii.eqb x nl).
    + rewrite IH. split.
      * intros (k & ln & -> & H & A & B). exists (S k), ln. split; [lia|]. split; [exact H|]. split; [lia|].
        intros _. destruct k; [destruct (A eq_refl); lia|apply B; lia].
      * intros (k & ln & -> & H & A & B). destruct k as [|k]; [cbn in H; injection H as <-; cbn in A; specialize (A eq_refl); lia|].
        exists k, ln. split; [lia|]. split; [exact H|]. assert (C := B ltac:(lia)). split; intros; lia.
    + destruct (split_on nl text) as [|w ws] eqn:E; [now apply split_on_nonempty in E|].
      rewrite IH. split.
      * intros [[-> ->]|(k & ln & -> & H & A & B)].
        -- exists 0, (x :: w). split; [lia|]. split; [reflexivity|]. cbn. split; lia.
        -- destruct k as [|k].
           ++ cbn in H. injection H as <-. exists 0, (x :: w). split; [lia|]. split; [reflexivity|]. specialize (A eq_refl). cbn. split; lia.
           ++ exists (S k), ln. split; [lia|]. split; [exact H|]. split; [lia|exact B].
      * intros (k & ln & -> & H & A & B). destruct k as [|k].
        -- cbn in H. injection H as <-. specialize (A eq_refl). cbn in A. destruct (Nat.eq_dec c c0) as [->|N].
           ++ left. split; [lia|reflexivity].
           ++ right. exists 0, w. split; [lia|]. split; [reflexivity|]. split; lia.
        -- right. exists (S k), ln. split; [lia|]. split; [exact H|]. split; [lia|exact B].
Qed.

Lemma multiline_covered text col endcol :
  let lines := split_on nl text in
  2 <= List.length lines -> endcol = List.length (last lines []) ->
  forall l c, covered (multiline_tokens text col (List.length lines - 1) endcol) l c <-> occupies text 0 col l c.
Proof.
  cbv zeta. intros L2 -> l c. rewrite occupies_lines. unfold multiline_tokens. set (lines := split_on nl text) in *.
  split.
  - intros (t & HI & <- & HC). cbn [In] in HI. rewrite in_app_iff in HI. destruct HI as [<-|[HI|[<-|[]]]]; cbn [cline ccol clen] in *.
    + destruct lines as [|w ws]; [cbn in L2; lia|]. exists 0, w. cbn in *. split; [lia|]. split; [reflexivity|]. split; lia.
    + apply in_map_iff in HI as (i & <- & HI). apply in_seq in HI. cbn [cline ccol clen] in *.
      exists i, (nth i lines []). split; [lia|]. split; [apply nth_error_nth'; lia|]. split; lia.
    + exists (List.length lines - 1), (last lines []). split; [lia|]. split; [|split; lia].
      destruct (exists_last (l := lines)) as (a & b & E); [destruct lines; [cbn in L2; lia|discriminate]|].
      rewrite E, last_last, app_length. cbn. rewrite nth_error_app2 by lia. now replace (List.length a + 1 - 1 - List.length a) with 0 by lia.
  - intros (k & ln & -> & H & A & B). cbn [Nat.add]. assert (HL : k < List.length lines) by (apply nth_error_Some; congruence).
    destruct (Nat.eq_dec k 0) as [->|K0].
    + eexists. split; [left; reflexivity|]. cbn [cline ccol clen]. split; [reflexivity|].
      destruct lines as [|w ws]; [discriminate|]. cbn in H. injection H as ->. cbn [hd]. auto.
    + assert (C := B ltac:(lia)). destruct (Nat.eq_dec k (List.length lines - 1)) as [E|NE].
      * eexists. split; [right; apply in_or_app; right; left; reflexivity|]. cbn [cline ccol clen]. split; [lia|].
        assert (last lines [] = ln) as ->; [|lia].
        destruct (exists_last (l := lines)) as (a & b & E'); [destruct lines; [cbn in L2; lia|discriminate]|].
        rewrite E' in *. rewrite app_length in *. cbn in *. rewrite last_last. rewrite nth_error_app2 in H by lia.
        replace (k - List.length a) with 0 in H by lia. cbn in H. congruence.
      * eexists. split; [right; apply in_or_app; left; apply in_map_iff; exists k; split; [reflexivity|apply in_seq; lia]|].
        cbn [cline ccol clen]. split; [reflexivity|]. rewrite (nth_error_nth _ _ _ H). lia.
Qed.

(** one token per line *)
Lemma multiline_lines text col endline endcol : 0 < endline -> 2 <= List.length (split_on nl text) ->
  endline = List.length (split_on nl text) - 1 -> map cline (multiline_tokens text col endline endcol) = seq 0 (S endline).
Proof.
  intros H H2 E. unfold multiline_tokens. cbn [map cline]. rewrite map_app, map_map. cbn [cline map].
  rewrite map_id, E. destruct (List.length (split_on nl text)) as [|[|k]] eqn:L; [lia|lia|].
  replace (S (S k) - 2) with k by lia. replace (S (S k) - 1) with (S k) by lia. cbn [seq]. f_equal.
  rewrite <- seq_S. reflexivity.
Qed.

Lemma upto_space_len s : List.length (upto_space s) <= List.length s.
Proof. induction s as [|c s IH]; cbn; [lia|]. destruct (Ascii.eqb c space); cbn; lia. Qed.

Lemma comment_plain at_top text col :
  (at_top = false \/ forall key rest, text <> pragma_prefix ++ key ++ rest \/ key = [] \/ In space key) ->
  comment_tokens at_top text col = [mkCtok 0 col (List.length text) false].
Proof.
  intros H. unfold comment_tokens. destruct (has_prefix text pragma_prefix) eqn:E; [|reflexivity].
  destruct (upto_space (skipn (List.length pragma_prefix) text)) as [|c k] eqn:U; [reflexivity|].
  destruct at_top; [|reflexivity]. destruct H as [H|H]; [discriminate|]. exfalso.
  apply has_prefix_spec in E as [r ->]. rewrite skipn_app, skipn_all, Nat.sub_diag in U. cbn [app skipn] in U.
  destruct r as [|x r]; [discriminate|]. cbn in U. destruct (Ascii.eqb_spec x space) as [->|N]; [discriminate|].
  destruct (H [x] r) as [H1|[H1|[H1|[]]]]; [now apply H1|discriminate|congruence].
Qed.

Lemma upto_space_key key rest : ~ In space key -> (rest = [] \/ exists r, rest = space :: r) -> upto_space (key ++ rest) = key.
Proof.
  induction key as [|c key IH]; intros N R; cbn [app upto_space].
  - destruct R as [->|[r ->]]; reflexivity.
  - cbn [In] in N. destruct (Ascii.eqb_spec c space) as [->|M]; [tauto|]. f_equal. apply IH; auto.
Qed.

Lemma comment_pragma key rest col : key <> [] -> ~ In space key -> (rest = [] \/ exists r, rest = space :: r) ->
  comment_tokens true (pragma_prefix ++ key ++ rest) col =
  mkCtok 0 col 2 false :: mkCtok 0 (col + 2) (8 + List.length key) true ::
  (if 10 <? List.length rest then [mkCtok 0 (col + 10 + List.length key) (List.length rest) false] else []).
Proof.
  intros NE NS R. unfold comment_tokens.
  assert (has_prefix (pragma_prefix ++ key ++ rest) pragma_prefix = true) as -> by (apply has_prefix_spec; eauto).
  rewrite skipn_app, skipn_all, Nat.sub_diag. cbn [app skipn]. rewrite upto_space_key by assumption.
  destruct key as [|c key]; [congruence|]. cbv zeta. f_equal. f_equal.
  rewrite !app_length. set (n := List.length (c :: key)). change (List.length pragma_prefix) with 10.
  destruct (Nat.ltb_spec 10 (List.length rest)), (Nat.ltb_spec (8 + n + 2) (n + List.length rest)); try lia; [|reflexivity].
  f_equal. f_equal; lia.
Qed.

Lemma pragma_covered key rest col : key <> [] -> ~ In space key -> (rest = [] \/ exists r, rest = space :: r) ->
  ((forall c, covered (comment_tokens true (pragma_prefix ++ key ++ rest) col) 0 c <->
             col <= c < col + List.length (pragma_prefix ++ key ++ rest)) <->
   rest = [] \/ 10 < List.length rest).
Proof.
  intros NE NS R. rewrite comment_pragma by assumption. rewrite !app_length. change (List.length pragma_prefix) with 10.
  set (n := List.length key). split.
  - intros H. destruct (Nat.ltb_spec 10 (List.length rest)) as [G|G]; [auto|left].
    destruct rest as [|x rest]; [reflexivity|exfalso].
    destruct (proj2 (H (col + 10 + n))) as (t & HI & _ & HC); [cbn; lia|].
    cbn [In] in HI. destruct HI as [<-|[<-|[]]]; cbn [ccol clen] in HC; lia.
  - intros H c. split.
    + intros (t & HI & _ & HC). destruct (Nat.ltb_spec 10 (List.length rest)) as [G|G]; cbn [In] in HI;
        [destruct HI as [<-|[<-|[<-|[]]]]|destruct HI as [<-|[<-|[]]]]; cbn [ccol clen] in HC; lia.
    + intros HC. destruct (Nat.lt_ge_cases c (col + 2)); [eexists; split; [left; reflexivity|cbn [cline ccol clen]; lia]|].
      destruct (Nat.lt_ge_cases c (col + 10 + n)); [eexists; split; [right; left; reflexivity|cbn [cline ccol clen]; lia]|].
      destruct H as [->|H]; [cbn in HC; lia|]. assert (10 <? List.length rest = true) as -> by (now apply Nat.ltb_lt).
      eexists; split; [right; right; left; reflexivity|cbn [cline ccol clen]; lia].
Qed.
