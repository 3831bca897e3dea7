(** C40-C44, C81, C82: what the descriptor printer writes. *)
From Coq Require Import Ascii String NArith.
From Verif Require Import Base Strs.
From Verif.Print Require Import Model Spec Literals Proofs Comments.
Open Scope list_scope.

(** ** C40, C41: string literals *)

(** a bytes literal denotes the value exactly when the value has no double quote *)
Theorem C40_round_trip_iff_no_quote : forall s, denotes (quoted_bytes s) = Some s <-> ~ In dq s.
Proof. exact bytes_iff. Qed.
Example C40_ex : denotes (quoted_bytes [chr 0; "a"%char; nl; bs; chr 200; "7"%char]) = Some [chr 0; "a"%char; nl; bs; chr 200; "7"%char].
Proof. reflexivity. Qed.
(** a value that is not denoted at all, and one that is misread *)
Theorem C40_quote_refuted : exists s t, denotes (quoted_bytes s) = None /\ denotes (quoted_bytes t) <> Some t /\ denotes (quoted_bytes t) <> None.
Proof. exists (b_ "a" ++ [dq]), ([dq] ++ b_ "name"). vm_compute. repeat split; discriminate. Qed.

(** the same for strings, whatever the bytes; [is_print] is unicode.IsPrint, of which only the ASCII part matters *)
Theorem C41_round_trip_iff_no_quote : forall is_print,
  (forall r, (r < 128)%N -> is_print r = ((32 <=? r) && (r <=? 126))%N%bool) ->
  forall s, denotes (quoted_string is_print s) = Some s <-> ~ In dq s.
Proof. exact string_iff. Qed.
Definition ascii_only (r : N) : bool := ((32 <=? r) && (r <=? 126))%N%bool.
Example C41_ex : (forall r, (r < 128)%N -> ascii_only r = ((32 <=? r) && (r <=? 126))%N%bool) /\
  quoted_string ascii_only [chr 195; chr 169; chr 195; chr 240; chr 159; chr 152; chr 128; "n"%char] =
    [dq] ++ b_ "\u00E9\303\U0001F600n" ++ [dq] /\
  denotes (quoted_string ascii_only [chr 195; chr 169; chr 195; chr 240; chr 159; chr 152; chr 128; "n"%char]) =
    Some [chr 195; chr 169; chr 195; chr 240; chr 159; chr 152; chr 128; "n"%char].
Proof. repeat split. Qed.
Theorem C41_quote_refuted : exists is_print s, (forall r, (r < 128)%N -> is_print r = ((32 <=? r) && (r <=? 126))%N%bool) /\
  denotes (quoted_string is_print s) <> Some s.
Proof. exists ascii_only, ([dq] ++ b_ "name"). split; [reflexivity|]. vm_compute. discriminate. Qed.

(** ** C42: ranges *)

Theorem C42_message_ranges : forall ms start stop, (1 <= start < stop)%Z -> (stop <= max_tag ms + 1)%Z ->
  (forall x, range_numbers (max_tag ms) (print_range (max_tag ms) start stop) x <-> (start <= x < stop)%Z) /\
  range_valid (max_tag ms) (print_range (max_tag ms) start stop).
Proof. intros ms start stop H1 H2. split; [intros x; now apply message_range|]. now apply (message_range ms start stop 0%Z). Qed.
Theorem C42_extension_ranges : forall ms start stop, (1 <= start < stop)%Z -> (stop <= max_tag ms + 1)%Z ->
  (forall x, range_numbers (max_tag ms) (print_ext_range (max_tag ms) start stop) x <-> (start <= x < stop)%Z) /\
  range_valid (max_tag ms) (print_ext_range (max_tag ms) start stop).
Proof. intros ms start stop H1 H2. split; [intros x; now apply extension_range|]. now apply (extension_range ms start stop 0%Z). Qed.
Example C42_ex : print_range (max_tag false) 2 3 = Single 2 /\ print_range (max_tag false) 5 536870912 = ToMax 5 /\
  print_ext_range (max_tag true) 100 201 = To 100 200.
Proof. repeat split. Qed.
(** enum ranges include their end: only ranges of one number are printed correctly *)
Theorem C42_enum_ranges_iff : forall start stop, int32 start -> int32 stop -> (start <= stop)%Z ->
  ((forall x, range_numbers max_enum (print_range max_enum start stop) x <-> (start <= x <= stop)%Z) <-> start = stop).
Proof. exact enum_range. Qed.
Theorem C42_enum_range_refuted : exists start stop, (start <= stop)%Z /\ print_range max_enum start stop = To start (stop - 1) /\
  ~ range_numbers max_enum (print_range max_enum start stop) stop.
Proof. exists 2%Z, 15%Z. split; [lia|]. split; [reflexivity|]. vm_compute. intros [_ H]. now apply H. Qed.

(** ** C43: names *)

Theorem C43_forced : forall lead pkg scope F k, Forall component F -> F <> [] ->
  qualify true pkg scope (full_name lead F) k = Some (dot :: dotted F).
Proof. exact forced. Qed.
(** the printed name with an enclosing scope in front is the full name; the scope is the innermost one that can be
    dropped, is at least [k] levels out, and is never outside the package *)
Theorem C43_prefix : forall lead P R F k, Forall component (P ++ R) -> Forall component F -> F <> [] ->
  exists base rest, qualify false (dotted P) (dotted (P ++ R)) (full_name lead F) (Z.of_nat k) = Some (dotted rest) /\ F = base ++ rest /\
    ((is_base P (P ++ R) F base k /\ (forall b, is_base P (P ++ R) F b k -> List.length b <= List.length base))
      \/ (base = [] /\ forall b, ~ is_base P (P ++ R) F b k)).
Proof. exact qualify_spec. Qed.
(** names of extensions in message literals: the package or nothing is dropped *)
Theorem C43_literal : forall lead P scope F, Forall component P -> Forall component F -> F <> [] ->
  exists base rest, qualify false (dotted P) scope (full_name lead F) (-1) = Some (dotted rest) /\ F = base ++ rest /\ rest <> [] /\
    ((base = P) \/ (base = [] /\ ~ exists r, r <> [] /\ F = P ++ r)).
Proof. exact literal_spec. Qed.
(** the printed name resolves to the element, unless some scope further in defines its first component *)
Theorem C43_resolves_partial : forall lead P R F k defined, Forall component (P ++ R) -> Forall component F -> F <> [] ->
  (forall p, p <> [] -> prefix_of p F -> defined p = true) ->
  exists base rest, qualify false (dotted P) (dotted (P ++ R)) (full_name lead F) (Z.of_nat k) = Some (dotted rest) /\ F = base ++ rest /\ rest <> [] /\
    (resolves_to defined (P ++ R) rest = Some F <->
     forall s, prefix_of s (P ++ R) -> List.length base < List.length s -> defined (s ++ firstn 1 rest) = false).
Proof.
  intros lead P R F k defined FC FF N D. destruct (qualify_spec lead P R F k FC FF N) as (base & rest & E & EF & H).
  exists base, rest. split; [exact E|]. split; [exact EF|].
  assert (PB : prefix_of base (P ++ R) /\ rest <> []).
  { destruct H as [[(B1 & (r & Nr & B2) & _) _]|[-> _]].
    - split; [exact B1|]. rewrite B2 in EF. apply app_inv_head in EF. congruence.
    - split; [now exists (P ++ R)|]. now rewrite EF in N. }
  destruct PB as [PB NR]. split; [exact NR|]. destruct rest as [|w ws]; [congruence|]. rewrite EF. cbn [firstn].
  apply resolves_iff; [exact PB|]. apply D; [destruct base; discriminate|]. exists ws. rewrite EF, <- app_assoc. reflexivity.
Qed.
Definition nm (l : list string) : list bytes := map b_ l.
Example C43_ex : qualify false (b_ "a.b") (b_ "a.b.M.N") (b_ ".a.b.M.X.Y") 0 = Some (b_ "X.Y") /\
  qualify false (b_ "a.b") (b_ "a.b.M") (b_ "a.b.M.opt") 1 = Some (b_ "M.opt") /\
  qualify false (b_ "a.b") (b_ "a.b.M") (b_ "a.c.X") 0 = Some (b_ "a.c.X") /\
  qualify false (b_ "a.b") (b_ "a.b.M") (b_ "a.b.M.ext") (-1) = Some (b_ "M.ext").
Proof. repeat split; vm_compute; reflexivity. Qed.
(** package foo imports google.protobuf.Any and a package foo.google exists *)
Theorem C43_shadowed_refuted : exists P R F defined name, qualify false (dotted P) (dotted (P ++ R)) (dotted F) 0 = Some (dotted name) /\
  Forall component (P ++ R) /\ Forall component F /\ (forall p, p <> [] -> prefix_of p F -> defined p = true) /\
  resolves_to defined (P ++ R) name <> Some F.
Proof.
  exists (nm ["foo"%string]), (nm ["M"%string]), (nm ["google"; "protobuf"; "Any"]%string),
    (fun p => if list_eq_dec (list_eq_dec ascii_dec) (firstn 1 p) (nm ["google"%string]) then true
              else if list_eq_dec (list_eq_dec ascii_dec) p (nm ["foo"; "google"]%string) then true else false),
    (nm ["google"; "protobuf"; "Any"]%string).
  assert (C : forall l, forallb (fun w => match w with [] => false | _ => negb (existsb (Ascii.eqb dot) w) end) l = true -> Forall component l).
  { clear. intros l H. apply Forall_forall. intros w Hw. rewrite forallb_forall in H. specialize (H w Hw). destruct w as [|c w]; [discriminate|].
    split; [discriminate|]. intros I. apply negb_true_iff in H. assert (existsb (Ascii.eqb dot) (c :: w) = true); [|congruence].
    apply existsb_exists. exists dot. split; [exact I|]. apply Ascii.eqb_refl. }
  split; [vm_compute; reflexivity|]. split; [apply C; vm_compute; reflexivity|]. split; [apply C; vm_compute; reflexivity|]. split.
  - intros p Np [r Er]. destruct p as [|w p]; [congruence|]. cbn [app] in Er. apply (f_equal (firstn 1)) in Er. cbn [firstn] in Er.
    cbn [firstn]. rewrite <- Er. destruct (list_eq_dec _ _ _) as [_|X]; [reflexivity|]. exfalso. apply X. reflexivity.
  - vm_compute. discriminate.
Qed.

(** ** C44: source locations *)

Theorem C44_keys_injective : forall p q, Forall int32 p -> Forall int32 q -> map_key p = map_key q -> p = q.
Proof. exact map_key_inj. Qed.
(** after recording the locations of a file, a lookup gives exactly those with the path, in order, and the first *)
Theorem C44_lookup : forall A (locs : list (list Z * A)) p, Forall (fun l => Forall int32 (fst l)) locs -> Forall int32 p ->
  let m := fold_left (fun m l => info_add m (fst l) (snd l)) locs no_info in
  info_get_all m p = map snd (filter (fun l => z_eqb (fst l) p) locs) /\
  info_get m p = hd_error (map snd (filter (fun l => z_eqb (fst l) p) locs)).
Proof. intros A locs p F Fp m. split; [now apply get_all_added|]. unfold m. rewrite get_first. now rewrite get_all_added. Qed.
Theorem C44_put_if_absent : forall A (m : info_map A) p x q, Forall int32 p -> Forall int32 q ->
  snd (info_put_if_absent m p x) = (match info_get m p with None => true | Some _ => false end) /\
  info_get_all (fst (info_put_if_absent m p x)) q =
    if z_eqb p q then match info_get m p with None => [x] | Some _ => info_get_all m q end else info_get_all m q.
Proof. exact @put_if_absent_spec. Qed.
Example C44_ex : let m := fold_left (fun m l => info_add m (fst l) (snd l)) [([4; 0]%Z, 1); ([4]%Z, 2); ([4; 0]%Z, 3); ([-1]%Z, 4)] no_info in
  info_get_all m [4; 0]%Z = [1; 3] /\ info_get m [4; 0]%Z = Some 1 /\ info_get m [0; 4]%Z = None /\ info_get m [4294967295 - 4294967296]%Z = Some 4.
Proof. repeat split. Qed.

(** ** C81: the writer *)

Theorem C81_output : forall ps, w_out (write_all new_writer ps) = rendered (filter nonempty ps).
Proof.
  intros ps. rewrite write_all_spec. cbn [new_writer w_out w_space app]. destruct (filter nonempty ps); reflexivity.
Qed.
Theorem C81_only_blanks_lost : forall ps, no_blanks (w_out (write_all new_writer ps)) = no_blanks (concat ps).
Proof. intros ps. rewrite C81_output, rendered_no_blanks. now rewrite concat_nonempty. Qed.
Theorem C81_reports_everything : forall w p, snd (write w p) = List.length p.
Proof. exact write_count. Qed.
Example C81_ex : w_out (write_all new_writer [b_ "int32 "; b_ "x "; []; b_ "= 1 "; b_ "; "; b_ "a"; b_ "b "]) = b_ "int32 x = 1; ab".
Proof. reflexivity. Qed.

(** ** C82: comments *)

(** printing fails for exactly one comment *)
Theorem C82_panics_iff : forall prefer unit c newline space n force,
  print_comment prefer unit c newline space n force = Panics <-> c = [nl; nl] /\ ((n < 0)%Z \/ prefer = true).
Proof. exact panics_iff. Qed.
Theorem C82_blank_comment_refuted : exists unit c n, print_comment false unit c true false n true = Panics /\ n = (-1)%Z.
Proof. exists (b_ "  "), [nl; nl], (-1)%Z. split; reflexivity. Qed.
Theorem C82_nothing_iff : forall prefer unit c newline space n force,
  print_comment prefer unit c newline space n force = Prints [] false <-> c = [] \/ c = [nl].
Proof. exact nothing_iff. Qed.
(** line style: every line of the comment becomes one line comment *)
Theorem C82_line_comments : forall prefer unit c newline space n force out e,
  blank_text unit -> block_style prefer c n = false -> comment_lines c <> [] ->
  print_comment prefer unit c newline space n force = Prints out e ->
  e = true /\ exists pre body inds ts, out = pre ++ body /\ lead_text pre /\ Forall blank_text inds /\
    split_on nl body = map (fun it => fst it ++ b_ "//" ++ snd it) (combine inds ts) ++ [[]] /\
    List.length inds = List.length ts /\ Forall2 same_line ts (comment_lines c).
Proof. exact line_style. Qed.
(** block style: the comment ends at its last mark and has every line *)
Theorem C82_block_comments : forall prefer unit c newline space n force out e,
  blank_text unit -> block_style prefer c n = true -> comment_lines c <> [] ->
  print_comment prefer unit c newline space n force = Prints out e ->
  exists pre body t, out = pre ++ b_ "/*" ++ body ++ close_mark ++ t /\ lead_text pre /\ read_block (b_ "/*" ++ body ++ close_mark ++ t) = Some (body, t) /\
    t = (if e then [nl] else []) /\
    ((exists l, comment_lines c = [l] /\ (body = l \/ body = l ++ [sp])) \/
     (1 < List.length (comment_lines c) /\ exists ind ts, blank_text ind /\
        split_on nl body = [] :: map (fun t => ind ++ b_ " *" ++ t) ts ++ [ind ++ b_ " "] /\ Forall2 same_line ts (comment_lines c))).
Proof. exact block_style_text. Qed.
Example C82_ex : block_style false (b_ " a" ++ [nl] ++ b_ "*/b  " ++ [nl]) (-2) = false /\
  print_comment false (b_ " ") (b_ " a" ++ [nl] ++ b_ "*/b  " ++ [nl]) true false (-2) true = Prints (b_ "// a" ++ [nl] ++ b_ "  // */b" ++ [nl]) true /\
  block_style false (b_ " a" ++ [nl] ++ b_ "/b  " ++ [nl]) (-2) = true /\
  print_comment false (b_ " ") (b_ " a" ++ [nl] ++ b_ "/b  " ++ [nl]) true false (-2) true =
    Prints (b_ "/*" ++ [nl] ++ b_ "   * a" ++ [nl] ++ b_ "   * /b" ++ [nl] ++ b_ "   */") false /\
  print_comment true (b_ " ") (b_ " x/") false false 2 false = Prints (b_ " /* x/ */") false.
Proof. repeat split; vm_compute; reflexivity. Qed.

Print Assumptions C40_round_trip_iff_no_quote.
Print Assumptions C40_quote_refuted.
Print Assumptions C41_round_trip_iff_no_quote.
Print Assumptions C41_quote_refuted.
Print Assumptions C42_message_ranges.
Print Assumptions C42_extension_ranges.
Print Assumptions C42_enum_ranges_iff.
Print Assumptions C42_enum_range_refuted.
Print Assumptions C43_forced.
Print Assumptions C43_prefix.
Print Assumptions C43_literal.
Print Assumptions C43_resolves_partial.
Print Assumptions C43_shadowed_refuted.
Print Assumptions C44_keys_injective.
Print Assumptions C44_lookup.
Print Assumptions C44_put_if_absent.
Print Assumptions C81_output.
Print Assumptions C81_only_blanks_lost.
Print Assumptions C81_reports_everything.
Print Assumptions C82_panics_iff.
Print Assumptions C82_blank_comment_refuted.
Print Assumptions C82_nothing_iff.
Print Assumptions C82_line_comments.
Print Assumptions C82_block_comments.
