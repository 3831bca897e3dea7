(** Proofs about string literals. *)
From Coq Require Import Ascii String NArith.
From Verif Require Import Base Strs.
From Verif.Print Require Import Model Spec.
Open Scope list_scope.

Ltac Zify.zify_post_hook ::= Z.div_mod_to_equations.

Ltac chars c := destruct c as [[] [] [] [] [] [] [] []].

(** ** Literals *)

Lemma code_chr n : (n < 256)%N -> code (chr n) = n.
Proof. apply N_ascii_embedding. Qed.
Lemma chr_code c : chr (code c) = c.
Proof. apply ascii_N_embedding. Qed.
Lemma code_bound c : (code c < 256)%N.
Proof. chars c; vm_compute; reflexivity. Qed.

Lemma put_nil o : put [] o = o.
Proof. destruct o; reflexivity. Qed.
Lemma put_app a b o : put (a ++ b) o = put a (put b o).
Proof. destruct o; cbn; [|reflexivity]. now rewrite app_assoc. Qed.

(** characters that can occur in an escape sequence that stands for a quote *)
Definition esc_char (c : ascii) : bool :=
  ((match hex_val c with Some _ => true | None => false end) || Ascii.eqb c dq
   || (code c =? 120) || (code c =? 88) || (code c =? 117) || (code c =? 85))%N%bool.

Inductive ok_item : bytes -> bytes -> Prop :=
| ok_ascii c : (0 < code c < 128)%N -> c <> nl -> c <> dq -> c <> bs -> ok_item [c] [c]
| ok_multi c v : (forall x, In x (c :: v) -> (128 <= code x)%N) -> ok_item (c :: v) (c :: v)
| ok_escape e c v : (forall rest, lex (bs :: e ++ rest) = put (c :: v) (lex rest)) -> esc_char c = false ->
    ok_item (bs :: e) (c :: v).
Inductive item : bytes * bytes -> Prop :=
| it_ok t v : ok_item t v -> item (t, v)
| it_quote : item ([bs], [dq]).
Definition texts (l : list (bytes * bytes)) : bytes := flat_map fst l.
Definition values (l : list (bytes * bytes)) : bytes := flat_map snd l.

Lemma lex_plain c t : c <> dq -> c <> bs -> c <> nl -> code c <> 0%N -> lex (c :: t) = put [c] (lex t).
Proof.
  intros A B C D. cbn [lex].
  rewrite (proj2 (Ascii.eqb_neq c dq) A), (proj2 (Ascii.eqb_neq c bs) B), (proj2 (Ascii.eqb_neq c nl) C).
  apply N.eqb_neq in D. now rewrite D.
Qed.
Lemma high_plain c : (128 <= code c)%N -> c <> dq /\ c <> bs /\ c <> nl /\ code c <> 0%N.
Proof. chars c; vm_compute; intros H; repeat split; try discriminate; exfalso; apply H; reflexivity. Qed.
Lemma high_not_esc c : (128 <= code c)%N -> esc_char c = false.
Proof. chars c; vm_compute; intros H; try reflexivity; exfalso; apply H; reflexivity. Qed.

Lemma lex_multi v rest : (forall x, In x v -> (128 <= code x)%N) -> lex (v ++ rest) = put v (lex rest).
Proof.
  induction v as [|c v IH]; intros H; [now rewrite put_nil|].
  destruct (high_plain c) as (A & B & C & D); [apply H; now left|].
  cbn [app]. rewrite lex_plain by assumption. rewrite IH by (intros; apply H; now right).
  change (c :: v) with ([c] ++ v). now rewrite put_app.
Qed.

Lemma lex_ok t v rest : ok_item t v -> lex (t ++ rest) = put v (lex rest).
Proof.
  intros H. inversion H; subst.
  - cbn [app]. apply lex_plain; auto. lia.
  - apply lex_multi; assumption.
  - cbn [app]. auto.
Qed.

Lemma lex_items l : Forall (fun i => ok_item (fst i) (snd i)) l -> lex (texts l ++ [dq]) = Some (values l).
Proof.
  induction 1 as [|[t v] l H _ IH]; [reflexivity|].
  cbn [texts values flat_map fst snd] in *. fold (texts l) (values l) in *.
  rewrite <- app_assoc. rewrite (lex_ok t v _ H). now rewrite IH.
Qed.

(** ** a quote never round-trips *)

Lemma simple_escape_not_esc e v : simple_escape e = Some v -> e <> dq -> esc_char v = false.
Proof.
  assert (A : match simple_escape e with Some v => Ascii.eqb e dq || negb (esc_char v) | None => true end%bool = true)
    by (chars e; vm_compute; reflexivity).
  intros H N. rewrite H in A. rewrite (proj2 (Ascii.eqb_neq e dq) N) in A. now apply negb_true_iff in A.
Qed.

Lemma peel l d rest : Forall item l -> texts l ++ [dq] = d :: rest -> d <> dq -> (code d < 128)%N -> d <> bs ->
  exists l', l = ([d], [d]) :: l' /\ rest = texts l' ++ [dq] /\ Forall item l'.
Proof.
  intros F E Hq Hc Hb. destruct l as [|[t v] l].
  - cbn in E. injection E as E _. congruence.
  - inversion F as [|? ? I F']; subst. cbn [texts flat_map fst] in E. fold (texts l) in E. inversion I as [t' v' O|]; subst.
    + inversion O as [c R1 R2 R3 R4|c v0 R|e c v0 R1 R2]; subst.
      * cbn in E. injection E as <- E. exists l. now rewrite <- E.
      * cbn in E. injection E as <- E. specialize (R c (or_introl eq_refl)). lia.
      * cbn in E. injection E as <- E. congruence.
    + cbn in E. injection E as <- E. congruence.
Qed.

Lemma hex_plain d v : hex_val d = Some v -> d <> dq /\ (code d < 128)%N /\ d <> bs /\ esc_char d = true.
Proof. unfold esc_char. intros H. rewrite H. revert H. chars d; vm_compute; intros H; try discriminate; repeat split; discriminate. Qed.
Lemma octal_hex d v : octal_val d = Some v -> exists v', hex_val d = Some v'.
Proof. chars d; vm_compute; intros H; try discriminate; eauto. Qed.
Lemma letter_plain d : ((code d =? 120) || (code d =? 88) || (code d =? 117) || (code d =? 85))%N%bool = true ->
  d <> dq /\ (code d < 128)%N /\ d <> bs /\ esc_char d = true.
Proof. chars d; vm_compute; intros H; try discriminate; repeat split; discriminate. Qed.

Lemma encode_esc_head r c v : (r <=? 1114111)%N = true -> encode_rune r = c :: v -> esc_char c = true -> v = [].
Proof.
  intros B E H. unfold encode_rune in E.
  apply N.leb_le in B.
  destruct (N.ltb_spec r 128) as [L|L]; [now injection E as _ <-|].
  exfalso.
  destruct (N.ltb_spec r 2048) as [L2|L2].
  { assert (c = chr (192 + r / 64)) by congruence. subst c. rewrite high_not_esc in H; [discriminate|]. rewrite code_chr; lia. }
  destruct ((55296 <=? r) && (r <=? 57343) || (1114111 <? r))%N%bool.
  { injection E as E _. subst c. vm_compute in H. discriminate. }
  destruct (N.ltb_spec r 65536) as [L3|L3].
  { assert (c = chr (224 + r / 4096)) by congruence. subst c. rewrite high_not_esc in H; [discriminate|]. rewrite code_chr; lia. }
  assert (c = chr (240 + r / 262144)) by congruence. subst c. rewrite high_not_esc in H; [discriminate|]. rewrite code_chr; lia.
Qed.

Lemma encode_nonempty r : encode_rune r <> [].
Proof. unfold encode_rune. repeat match goal with |- context [if ?b then _ else _] => destruct b end; discriminate. Qed.

(** what follows a backslash in printed text *)
Lemma after_backslash l out y :
  Forall item l -> lex (bs :: texts l ++ [dq]) = Some (y :: out) -> esc_char y = true ->
  exists ds l', ds <> [] /\ forallb esc_char ds = true /\ l = map (fun d => ([d], [d])) ds ++ l' /\
    lex (texts l' ++ [dq]) = Some out.
Proof.
  intros F E Hy.
  destruct (texts l ++ [dq]) as [|e t1] eqn:T; [destruct (texts l); discriminate|].
  cbn [lex] in E. change (Ascii.eqb bs dq) with false in E. change (Ascii.eqb bs bs) with true in E. cbv beta iota in E.
  destruct (simple_escape e) as [v|] eqn:S.
  { exfalso. destruct (ascii_dec e dq) as [->|N].
    - destruct l as [|[t v'] l].
      + cbn in T. injection T as <-. discriminate.
      + inversion F as [|? ? I F']; subst. cbn [texts flat_map fst] in T. inversion I as [t' v'' O|]; subst.
        * inversion O as [c R1 R2 R3 R4|c v0 R|e0 c v0 R1 R2]; subst; cbn in T; injection T as T1 T2; subst;
            [congruence| |discriminate].
          specialize (R dq (or_introl eq_refl)). vm_compute in R. now apply R.
        * cbn in T. injection T as T1 T2. discriminate.
    - destruct (lex t1) as [o|]; cbn in E; [|discriminate].
      injection E as -> _. rewrite (simple_escape_not_esc e y S N) in Hy. discriminate. }
  (* one digit or letter at a time *)
  destruct (octal_val e) as [a|] eqn:O.
  { destruct (octal_hex e a O) as [a' Ha]. destruct (hex_plain e a' Ha) as (P1 & P2 & P3 & P4).
    destruct (peel l e t1 F T P1 P2 P3) as (l1 & -> & -> & F1).
    destruct (texts l1 ++ [dq]) as [|e2 t2] eqn:T1; [destruct (texts l1); discriminate|].
    destruct (octal_val e2) as [b|] eqn:O2.
    - destruct (octal_hex e2 b O2) as [b' Hb]. destruct (hex_plain e2 b' Hb) as (Q1 & Q2 & Q3 & Q4).
      destruct (peel l1 e2 t2 F1 T1 Q1 Q2 Q3) as (l2 & -> & -> & F2).
      destruct (texts l2 ++ [dq]) as [|e3 t3] eqn:T2; [destruct (texts l2); discriminate|].
      destruct (octal_val e3) as [c|] eqn:O3.
      + destruct (octal_hex e3 c O3) as [c' Hc]. destruct (hex_plain e3 c' Hc) as (R1 & R2 & R3 & R4).
        destruct (peel l2 e3 t3 F2 T2 R1 R2 R3) as (l3 & -> & -> & F3).
        exists [e; e2; e3], l3. repeat split; [discriminate| |].
        * cbn [forallb]. now rewrite P4, Q4, R4.
        * unfold put_octal in E. destruct ((a * 8 + b) * 8 + c <? 256)%N; [|discriminate].
          destruct (lex (texts l3 ++ [dq])); cbn in E; [|discriminate]. now injection E as _ ->.
      + exists [e; e2], l2. repeat split; [discriminate| |].
        * cbn [forallb]. now rewrite P4, Q4.
        * rewrite T2. unfold put_octal in E. destruct (a * 8 + b <? 256)%N; [|discriminate].
          destruct (lex (e3 :: t3)); cbn in E; [|discriminate]. now injection E as _ ->.
    - exists [e], l1. repeat split; [discriminate| |].
      + cbn [forallb]. now rewrite P4.
      + rewrite T1. unfold put_octal in E. destruct (a <? 256)%N; [|discriminate].
        destruct (lex (e2 :: t2)); cbn in E; [|discriminate]. now injection E as _ ->. }
  destruct ((code e =? 120) || (code e =? 88))%N%bool eqn:X.
  { destruct (letter_plain e) as (P1 & P2 & P3 & P4); [rewrite X; reflexivity|].
    destruct (peel l e t1 F T P1 P2 P3) as (l1 & -> & -> & F1).
    destruct (texts l1 ++ [dq]) as [|e2 t2] eqn:T1; [discriminate|].
    destruct (hex_val e2) as [b|] eqn:O2; [|discriminate].
    destruct (hex_plain e2 b O2) as (Q1 & Q2 & Q3 & Q4).
    destruct (peel l1 e2 t2 F1 T1 Q1 Q2 Q3) as (l2 & -> & -> & F2).
    destruct (texts l2 ++ [dq]) as [|e3 t3] eqn:T2; [discriminate|].
    destruct (hex_val e3) as [c|] eqn:O3.
    - destruct (hex_plain e3 c O3) as (R1 & R2 & R3 & R4).
      destruct (peel l2 e3 t3 F2 T2 R1 R2 R3) as (l3 & -> & -> & F3).
      exists [e; e2; e3], l3. repeat split; [discriminate| |].
      + cbn [forallb]. now rewrite P4, Q4, R4.
      + destruct (lex (texts l3 ++ [dq])); cbn in E; [|discriminate]. now injection E as _ ->.
    - exists [e; e2], l2. repeat split; [discriminate| |].
      + cbn [forallb]. now rewrite P4, Q4.
      + rewrite T2. destruct (lex (e3 :: t3)); cbn in E; [|discriminate]. now injection E as _ ->. }
  assert (PR : forall n rest, put_rune n rest = Some (y :: out) -> rest = Some out).
  { intros n rest H. unfold put_rune in H. destruct n as [r|]; [|discriminate].
    destruct (r <=? 1114111)%N eqn:L; [|discriminate]. destruct (encode_rune r) as [|c v] eqn:ER; [now apply encode_nonempty in ER|].
    destruct rest as [o|]; cbn in H; [|discriminate]. injection H as H1 H2. subst y.
    rewrite (encode_esc_head r c v L ER Hy) in H2. cbn in H2. now subst. }
  assert (HX : forall n ds, hex_vals n ds <> None -> forall l0 t, Forall item l0 -> texts l0 ++ [dq] = ds ++ t ->
      exists l', l0 = map (fun d => ([d], [d])) ds ++ l' /\ t = texts l' ++ [dq] /\ forallb esc_char ds = true).
  { intros n ds. revert n. induction ds as [|d ds IH]; intros n H l0 t F0 T0.
    - exists l0. now rewrite T0.
    - cbn in H. destruct (hex_val d) as [v|] eqn:V; [|congruence].
      destruct (hex_plain d v V) as (R1 & R2 & R3 & R4).
      destruct (peel l0 d (ds ++ t) F0 T0 R1 R2 R3) as (l3 & -> & T3 & F3). symmetry in T3.
      destruct (IH _ H l3 t F3 T3) as (l' & -> & -> & A). exists l'. repeat split. cbn [forallb]. now rewrite R4. }
  destruct (code e =? 117)%N eqn:U.
  { destruct (letter_plain e) as (P1 & P2 & P3 & P4); [rewrite U; now rewrite !orb_true_r|].
    destruct (peel l e t1 F T P1 P2 P3) as (l1 & -> & -> & F1).
    destruct (texts l1 ++ [dq]) as [|h1 [|h2 [|h3 [|h4 t2]]]] eqn:T1; try discriminate.
    assert (HN : hex_vals 0 [h1; h2; h3; h4] <> None) by (intros HN; rewrite HN in E; discriminate).
    destruct (HX _ _ HN l1 t2 F1 T1) as (l2 & -> & -> & A).
    exists [e; h1; h2; h3; h4], l2. repeat split; [discriminate| |].
    - change (forallb esc_char (e :: [h1; h2; h3; h4])) with (esc_char e && forallb esc_char [h1; h2; h3; h4])%bool.
      now rewrite P4, A.
    - now apply PR in E. }
  destruct (code e =? 85)%N eqn:U8; [|discriminate].
  { destruct (letter_plain e) as (P1 & P2 & P3 & P4); [rewrite U8; now rewrite !orb_true_r|].
    destruct (peel l e t1 F T P1 P2 P3) as (l1 & -> & -> & F1).
    destruct (texts l1 ++ [dq]) as [|h1 [|h2 [|h3 [|h4 [|h5 [|h6 [|h7 [|h8 t2]]]]]]]] eqn:T1; try discriminate.
    assert (HN : hex_vals 0 [h1; h2; h3; h4; h5; h6; h7; h8] <> None) by (intros HN; rewrite HN in E; discriminate).
    destruct (HX _ _ HN l1 t2 F1 T1) as (l2 & -> & -> & A).
    exists [e; h1; h2; h3; h4; h5; h6; h7; h8], l2. repeat split; [discriminate| |].
    - change (forallb esc_char (e :: [h1; h2; h3; h4; h5; h6; h7; h8])) with (esc_char e && forallb esc_char [h1; h2; h3; h4; h5; h6; h7; h8])%bool.
      now rewrite P4, A.
    - now apply PR in E. }
Qed.

Lemma forallb_snoc {A} (f : A -> bool) l x : forallb f (l ++ [x]) = (forallb f l && f x)%bool.
Proof. rewrite forallb_app. cbn. now rewrite andb_true_r. Qed.

Lemma items_inj n : forall l X, List.length l <= n -> Forall item l -> forallb esc_char X = true ->
  lex (texts l ++ [dq]) = Some (X ++ values l) -> X = [] /\ Forall (fun i => ok_item (fst i) (snd i)) l.
Proof.
  induction n as [|n IH]; intros l X Hl F HX E.
  { destruct l; [|cbn in Hl; lia]. cbn in E. injection E as E. destruct X; [now split|discriminate]. }
  destruct l as [|[t v] l].
  { cbn in E. injection E as E. destruct X; [now split|discriminate]. }
  inversion F as [|? ? I F']; subst. cbn [texts values flat_map fst snd] in E. fold (texts l) (values l) in E.
  cbn [List.length] in Hl. inversion I as [t' v' O|]; subst.
  - rewrite <- app_assoc, (lex_ok t v _ O) in E.
    destruct (lex (texts l ++ [dq])) as [o|] eqn:L; [|discriminate]. cbn in E. injection E as E.
    destruct X as [|x X].
    + cbn in E. apply app_inv_head in E. subst o.
      destruct (IH l [] ltac:(lia) F' eq_refl L) as [_ G]. split; [reflexivity|]. now constructor.
    + exfalso. cbn [forallb] in HX. apply andb_true_iff in HX as [Hx HX].
      assert (V : v = [x]).
      { inversion O as [c R1 R2 R3 R4|c v0 R|e c v0 R1 R2]; subst; cbn in E; injection E as E1 E; subst.
        - reflexivity.
        - rewrite high_not_esc in Hx; [discriminate|]. apply R. now left.
        - congruence. }
      subst v. cbn in E. injection E as E. subst o.
      change (x :: values l) with ([x] ++ values l) in L. rewrite app_assoc in L.
      destruct (IH l (X ++ [x]) ltac:(lia) F') as [N _]; [|exact L|].
      * rewrite forallb_snoc, HX. exact Hx.
      * destruct X; discriminate.
  - exfalso. cbn [app] in E.
    destruct (X ++ dq :: values l) as [|y out] eqn:Y; [destruct X; discriminate|].
    assert (Hy : esc_char y = true).
    { destruct X as [|x X]; cbn in Y; injection Y as <- _; [reflexivity|]. cbn in HX. now apply andb_true_iff in HX as [? _]. }
    destruct (after_backslash l out y F' E Hy) as (ds & l' & Dn & De & -> & L).
    assert (Vd : values (map (fun d => ([d], [d])) ds ++ l') = ds ++ values l').
    { unfold values. rewrite flat_map_app. f_equal. clear. induction ds; [reflexivity|]. cbn. now rewrite IHds. }
    rewrite Vd in Y.
    assert (Out : out = tl (X ++ [dq]) ++ ds ++ values l').
    { destruct X as [|x X]; cbn in Y; injection Y as _ Y; subst out; cbn; [reflexivity|]. now rewrite <- app_assoc. }
    rewrite Out, app_assoc in L.
    destruct (IH l' (tl (X ++ [dq]) ++ ds)) as [N _]; [| | |exact L|].
    + rewrite app_length, map_length in Hl. lia.
    + now apply Forall_app in F' as [_ F'].
    + rewrite forallb_app, De, andb_true_r. destruct X as [|x X]; [reflexivity|]. cbn [app tl].
      rewrite forallb_snoc. cbn in HX. apply andb_true_iff in HX as [_ ->]. reflexivity.
    + apply app_eq_nil in N as [_ N]. contradiction.
Qed.

(** ** the bytes literal *)

Lemma octal3_reads c rest : lex (bs :: octal3 c ++ rest) = put [c] (lex rest).
Proof. chars c; reflexivity. Qed.

Lemma byte_item c : c <> dq -> ok_item (byte_chunk c) [c].
Proof.
  intros N. unfold byte_chunk.
  destruct (Ascii.eqb_spec c nl) as [->|N1]; [apply ok_escape; [intros; reflexivity|reflexivity]|].
  destruct (Ascii.eqb_spec c cr) as [->|N2]; [apply ok_escape; [intros; reflexivity|reflexivity]|].
  destruct (Ascii.eqb_spec c tab) as [->|N3]; [apply ok_escape; [intros; reflexivity|reflexivity]|].
  destruct (Ascii.eqb_spec c dq) as [->|N4]; [congruence|].
  destruct (Ascii.eqb_spec c bs) as [->|N5]; [apply ok_escape; [intros; reflexivity|reflexivity]|].
  destruct ((32 <=? code c) && (code c <? 127))%N%bool eqn:R.
  - apply ok_ascii; auto. apply andb_true_iff in R as [R1 R2]. apply N.leb_le in R1. apply N.ltb_lt in R2. lia.
  - apply ok_escape; [intros; apply octal3_reads|]. revert R. clear. chars c; vm_compute; intros; congruence.
Qed.
Definition byte_items (s : bytes) : list (bytes * bytes) := map (fun c => (byte_chunk c, [c])) s.
Lemma byte_items_ok s : Forall item (byte_items s).
Proof.
  induction s as [|c s IH]; constructor; [|exact IH].
  destruct (ascii_dec c dq) as [->|N]; [apply it_quote|]. apply it_ok, byte_item, N.
Qed.
Lemma byte_texts s : texts (byte_items s) = flat_map byte_chunk s.
Proof. unfold texts, byte_items in *. induction s; [reflexivity|]. cbn [map flat_map fst]. now rewrite IHs. Qed.
Lemma byte_values s : values (byte_items s) = s.
Proof. unfold values, byte_items in *. induction s; [reflexivity|]. cbn [map flat_map snd app]. now rewrite IHs. Qed.

Lemma bytes_iff s : denotes (quoted_bytes s) = Some s <-> ~ In dq s.
Proof.
  unfold denotes, quoted_bytes. change (Ascii.eqb dq dq) with true. cbv iota. rewrite <- byte_texts. split.
  - intros E. rewrite <- (byte_values s) in E at 2.
    destruct (items_inj _ (byte_items s) [] (le_n _) (byte_items_ok s) eq_refl E) as [_ G].
    intros I.
    assert (J : In (byte_chunk dq, [dq]) (byte_items s)) by (unfold byte_items; now apply (in_map (fun c => (byte_chunk c, [c])))).
    apply (proj1 (Forall_forall _ _) G) in J. cbn in J. inversion J as [| |e c v R1 R2]; subst.
    vm_compute in R2. discriminate.
  - intros N. rewrite lex_items; [now rewrite byte_values|].
    apply Forall_forall. intros i I. apply in_map_iff in I as (c & <- & I). cbn. apply byte_item. congruence.
Qed.

(** ** the text literal *)

Lemma in_range_spec a b c : in_range a b c = true <-> (a <= code c <= b)%N.
Proof. unfold in_range. rewrite andb_true_iff, N.leb_le, N.leb_le. reflexivity. Qed.

Lemma split64 q m : (m < 64 -> (q * 64 + m) / 64 = q /\ (q*64+m) mod 64 = m)%N.
Proof.
  intros H. split.
  - rewrite N.div_add_l by discriminate. rewrite N.div_small by exact H. apply N.add_0_r.
  - rewrite N.add_comm, N.mod_add by discriminate. now apply N.mod_small.
Qed.
Lemma div4096 r : (r / 4096 = r / 64 / 64)%N.
Proof. rewrite N.div_div by discriminate. reflexivity. Qed.
Lemma div262144 r : (r / 262144 = r / 64 / 64 / 64)%N.
Proof. rewrite !N.div_div by discriminate. reflexivity. Qed.

Lemma decode_encode s r n : decode_rune s = Some (r, n) -> (r =? rune_error)%N && (n =? 1) = false ->
  encode_rune r = firstn n s /\ 1 <= n <= List.length s /\ (1 < n -> (128 <= r)%N) /\ (n = 1 -> (r < 128)%N)
  /\ (1 < n -> forall c, In c (firstn n s) -> (128 <= code c)%N).
Proof.
  destruct s as [|c0 t]; [discriminate|]. cbn [decode_rune]. intros E NE.
  destruct (N.ltb_spec (code c0) 128) as [L|L].
  { injection E as <- <-. cbn [firstn List.length]. unfold encode_rune. apply N.ltb_lt in L as L'. rewrite L', chr_code.
    repeat split; try lia. }
  destruct (in_range 194 223 c0) eqn:R2.
  { apply in_range_spec in R2. destruct t as [|c1 t]; [injection E as <- <-; discriminate|].
    destruct (cont c1) eqn:C1; [|injection E as <- <-; discriminate].
    apply in_range_spec in C1. assert (Hr : r = ((code c0 - 192) * 64 + (code c1 - 128))%N) by congruence.
    assert (n = 2) by congruence. subst n. clear E. cbn [firstn List.length].
    assert (128 <= r < 2048)%N by lia.
    destruct (split64 (code c0 - 192) (code c1 - 128)) as [S1 S2]; [lia|]. rewrite <- Hr in S1, S2.
    assert (A : (192 + r / 64)%N = code c0) by (rewrite S1; lia).
    assert (B : (128 + r mod 64)%N = code c1) by (rewrite S2; lia).
    unfold encode_rune. destruct (N.ltb_spec r 128); [lia|]. destruct (N.ltb_spec r 2048); [|lia].
    rewrite A, B, !chr_code. repeat split; try lia. intros _ c [<-|[<-|[]]]; lia. }
  destruct (in_range 224 239 c0) eqn:R3.
  { apply in_range_spec in R3. destruct t as [|c1 [|c2 t]]; try (injection E as <- <-; discriminate).
    destruct (second3 c0 c1 && cont c2)%bool eqn:C12; [|injection E as <- <-; discriminate].
    apply andb_true_iff in C12 as [C1 C2]. apply in_range_spec in C2.
    assert (D1 : (128 <= code c1 <= 191 /\ (code c0 = 224 -> 160 <= code c1) /\ (code c0 = 237 -> code c1 <= 159))%N).
    { unfold second3 in C1. destruct (N.eqb_spec (code c0) 224); [|destruct (N.eqb_spec (code c0) 237)];
        apply in_range_spec in C1; lia. }
    assert (Hr : r = (((code c0 - 224) * 64 + (code c1 - 128)) * 64 + (code c2 - 128))%N) by congruence.
    assert (n = 3) by congruence. subst n. clear E. cbn [firstn List.length].
    assert (2048 <= r < 65536)%N by lia.
    destruct (split64 ((code c0 - 224) * 64 + (code c1 - 128)) (code c2 - 128)) as [S1 S2]; [lia|]. rewrite <- Hr in S1, S2.
    destruct (split64 (code c0 - 224) (code c1 - 128)) as [S3 S4]; [lia|].
    assert (A : (224 + r / 4096)%N = code c0) by (rewrite div4096, S1, S3; lia).
    assert (B : (128 + r / 64 mod 64)%N = code c1) by (rewrite S1, S4; lia).
    assert (C : (128 + r mod 64)%N = code c2) by (rewrite S2; lia).
    assert (S : (r < 55296 \/ 57343 < r)%N).
    { destruct (N.le_gt_cases (code c0) 236); [lia|]. destruct (N.eq_dec (code c0) 237); [|lia]. lia. }
    unfold encode_rune. destruct (N.ltb_spec r 128); [lia|]. destruct (N.ltb_spec r 2048); [lia|].
    replace ((55296 <=? r) && (r <=? 57343) || (1114111 <? r))%N%bool with false.
    2:{ symmetry. apply orb_false_iff. split; [|apply N.ltb_ge; lia]. apply andb_false_iff.
        destruct S; [left; apply N.leb_gt; lia|right; apply N.leb_gt; lia]. }
    destruct (N.ltb_spec r 65536); [|lia].
    rewrite A, B, C, !chr_code. repeat split; try lia. intros _ c [<-|[<-|[<-|[]]]]; lia. }
  destruct (in_range 240 244 c0) eqn:R4; [|injection E as <- <-; discriminate].
  apply in_range_spec in R4. destruct t as [|c1 [|c2 [|c3 t]]]; try (injection E as <- <-; discriminate).
  destruct (second4 c0 c1 && cont c2 && cont c3)%bool eqn:C12; [|injection E as <- <-; discriminate].
  apply andb_true_iff in C12 as [C1 C3]. apply andb_true_iff in C1 as [C1 C2]. apply in_range_spec in C2. apply in_range_spec in C3.
  assert (D1 : (128 <= code c1 <= 191 /\ (code c0 = 240 -> 144 <= code c1) /\ (code c0 = 244 -> code c1 <= 143))%N).
  { unfold second4 in C1. destruct (N.eqb_spec (code c0) 240); [|destruct (N.eqb_spec (code c0) 244)];
      apply in_range_spec in C1; lia. }
  assert (Hr : r = ((((code c0 - 240) * 64 + (code c1 - 128)) * 64 + (code c2 - 128)) * 64 + (code c3 - 128))%N) by congruence.
    assert (n = 4) by congruence. subst n. clear E. cbn [firstn List.length].
  assert (65536 <= r <= 1114111)%N by lia.
  destruct (split64 (((code c0 - 240) * 64 + (code c1 - 128)) * 64 + (code c2 - 128)) (code c3 - 128)) as [S1 S2]; [lia|].
  rewrite <- Hr in S1, S2.
  destruct (split64 ((code c0 - 240) * 64 + (code c1 - 128)) (code c2 - 128)) as [S3 S4]; [lia|].
  destruct (split64 (code c0 - 240) (code c1 - 128)) as [S5 S6]; [lia|].
  assert (A : (240 + r / 262144)%N = code c0) by (rewrite div262144, S1, S3, S5; lia).
  assert (B : (128 + r / 4096 mod 64)%N = code c1) by (rewrite div4096, S1, S3, S6; lia).
  assert (C : (128 + r / 64 mod 64)%N = code c2) by (rewrite S1, S4; lia).
  assert (D : (128 + r mod 64)%N = code c3) by (rewrite S2; lia).
  unfold encode_rune. destruct (N.ltb_spec r 128); [lia|]. destruct (N.ltb_spec r 2048); [lia|].
  replace ((55296 <=? r) && (r <=? 57343) || (1114111 <? r))%N%bool with false.
  2:{ symmetry. apply orb_false_iff. split; [|apply N.ltb_ge; lia]. apply andb_false_iff. right. apply N.leb_gt; lia. }
  destruct (N.ltb_spec r 65536); [lia|].
  rewrite A, B, C, D, !chr_code. repeat split; try lia. intros _ c [<-|[<-|[<-|[<-|[]]]]]; lia.
Qed.

Section Text.
Variable is_print : N -> bool.
Hypothesis ascii_print : forall r, (r < 128)%N -> is_print r = ((32 <=? r) && (r <=? 126))%N%bool.

(** the runes of a string with what is printed for them *)
Fixpoint rune_items (skip : nat) (s : bytes) : list (bytes * bytes) :=
  match s with
  | [] => []
  | c :: t =>
      match skip with
      | S k => rune_items k t
      | 0 =>
          match decode_rune s with
          | None => []
          | Some (r, n) =>
              if ((r =? rune_error)%N && (n =? 1))%bool then (bs :: octal3 c, [c]) :: rune_items 0 t
              else (rune_chunk is_print r, firstn n s) :: rune_items (n - 1) t
          end
      end
  end.
Lemma rune_texts s : forall k, texts (rune_items k s) = string_chunks is_print k s.
Proof.
  induction s as [|c t IH]; intros k; [reflexivity|]. cbn [rune_items string_chunks].
  destruct k as [|k]; [|apply IH].
  destruct (decode_rune (c :: t)) as [[r n]|]; [|reflexivity].
  destruct ((r =? rune_error)%N && (n =? 1))%bool; unfold texts; cbn [flat_map fst]; f_equal; apply IH.
Qed.
Lemma decode_some c t : exists r n, decode_rune (c :: t) = Some (r, n).
Proof.
  cbn [decode_rune]. repeat match goal with
  | |- context [if ?b then _ else _] => destruct b
  | |- context [match ?l with [] => _ | _ => _ end] => destruct l
  end; eauto.
Qed.
Lemma rune_values s : forall k, values (rune_items k s) = skipn k s.
Proof.
  induction s as [|c t IH]; intros k; [now destruct k|]. cbn [rune_items].
  destruct k as [|k]; [|apply IH].
  destruct (decode_some c t) as (r & n & E). rewrite E.
  destruct ((r =? rune_error)%N && (n =? 1))%bool eqn:B; unfold values; cbn [flat_map snd].
  - change (flat_map snd (rune_items 0 t)) with (values (rune_items 0 t)). now rewrite IH.
  - change (flat_map snd (rune_items (n - 1) t)) with (values (rune_items (n - 1) t)). rewrite IH.
    destruct (decode_encode _ _ _ E B) as (_ & H & _). destruct n as [|n]; [lia|]. cbn [firstn skipn app].
    rewrite Nat.sub_succ, Nat.sub_0_r. now rewrite firstn_skipn.
Qed.

Lemma hex_digit_val n : (n < 16)%N -> hex_val (hex_digit n) = Some n.
Proof.
  intros H. assert (A : forallb (fun k => match hex_val (hex_digit (N.of_nat k)) with Some v => (v =? N.of_nat k)%N | None => false end) (seq 0 16) = true)
    by (vm_compute; reflexivity).
  rewrite forallb_forall in A. specialize (A (N.to_nat n)). rewrite N2Nat.id in A.
  specialize (A ltac:(apply in_seq; lia)). destruct (hex_val (hex_digit n)); [|discriminate]. apply N.eqb_eq in A. now subst.
Qed.
Lemma hex_vals_app a b acc : hex_vals acc (a ++ b) = match hex_vals acc a with Some v => hex_vals v b | None => None end.
Proof. revert acc. induction a as [|x a IH]; intros acc; [reflexivity|]. cbn. destruct (hex_val x); [apply IH|reflexivity]. Qed.
Lemma hex_reads k : forall r acc, (r < 16 ^ N.of_nat k)%N -> hex_vals acc (hex k r) = Some (acc * 16 ^ N.of_nat k + r)%N.
Proof.
  induction k as [|k IH]; intros r acc H.
  - cbn in *. f_equal. lia.
  - cbn [hex]. rewrite hex_vals_app. rewrite Nat2N.inj_succ, N.pow_succ_r' in *.
    rewrite IH by (apply N.div_lt_upper_bound; lia). cbn [hex_vals]. rewrite hex_digit_val by (apply N.mod_lt; lia).
    f_equal. pose proof (N.div_mod r 16 ltac:(lia)). nia.
Qed.
Lemma hex_length k r : List.length (hex k r) = k.
Proof. revert r. induction k; intros r; [reflexivity|]. cbn [hex]. rewrite app_length, IHk. cbn. lia. Qed.

Lemma u_reads r rest : (r <= 65535)%N -> lex (bs :: ("u"%char :: hex 4 r) ++ rest) = put (encode_rune r) (lex rest).
Proof.
  intros H. assert (L := hex_length 4 r). assert (V := hex_reads 4 r 0 ltac:(cbn; lia)).
  destruct (hex 4 r) as [|h1 [|h2 [|h3 [|h4 [|]]]]]; try discriminate. cbn [app lex].
  change (Ascii.eqb bs dq) with false. change (Ascii.eqb bs bs) with true. cbv beta iota.
  change (simple_escape "u"%char) with (@None ascii). change (octal_val "u"%char) with (@None N). cbv beta iota.
  change (code "u"%char =? 120)%N with false. change (code "u"%char =? 88)%N with false. change (code "u"%char =? 117)%N with true. cbn [orb].
  rewrite V. cbn [put_rune]. rewrite N.mul_0_l, N.add_0_l.
  replace (r <=? 1114111)%N with true by (symmetry; apply N.leb_le; lia). reflexivity.
Qed.
Lemma U_reads r rest : (r <= 1114111)%N -> lex (bs :: ("U"%char :: hex 8 r) ++ rest) = put (encode_rune r) (lex rest).
Proof.
  intros H. assert (L := hex_length 8 r). assert (V := hex_reads 8 r 0 ltac:(cbn; lia)).
  destruct (hex 8 r) as [|h1 [|h2 [|h3 [|h4 [|h5 [|h6 [|h7 [|h8 [|]]]]]]]]]; try discriminate. cbn [app lex].
  change (Ascii.eqb bs dq) with false. change (Ascii.eqb bs bs) with true. cbv beta iota.
  change (simple_escape "U"%char) with (@None ascii). change (octal_val "U"%char) with (@None N). cbv beta iota.
  change (code "U"%char =? 120)%N with false. change (code "U"%char =? 88)%N with false. change (code "U"%char =? 117)%N with false.
  change (code "U"%char =? 85)%N with true. cbn [orb].
  rewrite V. cbn [put_rune]. rewrite N.mul_0_l, N.add_0_l.
  replace (r <=? 1114111)%N with true by (symmetry; apply N.leb_le; lia). reflexivity.
Qed.

Lemma decode_bound s r n : decode_rune s = Some (r, n) -> (r <= 1114111)%N.
Proof.
  destruct s as [|c0 t]; [discriminate|]. cbn [decode_rune]. intros E.
  assert (RE : (rune_error <= 1114111)%N) by (vm_compute; discriminate).
  pose proof (code_bound c0).
  destruct (N.ltb_spec (code c0) 128) as [L|L]; [injection E as <- <-; lia|].
  destruct (in_range 194 223 c0) eqn:R2.
  { destruct t as [|c1 t]; [injection E as <- <-; exact RE|]. pose proof (code_bound c1).
    destruct (cont c1); injection E as <- <-; [lia|exact RE]. }
  destruct (in_range 224 239 c0) eqn:R3.
  { destruct t as [|c1 [|c2 t]]; try (injection E as <- <-; exact RE). pose proof (code_bound c1). pose proof (code_bound c2).
    destruct (second3 c0 c1 && cont c2)%bool; injection E as <- <-; [lia|exact RE]. }
  destruct (in_range 240 244 c0) eqn:R4; [|injection E as <- <-; exact RE].
  destruct t as [|c1 [|c2 [|c3 t]]]; try (injection E as <- <-; exact RE).
  destruct (second4 c0 c1 && cont c2 && cont c3)%bool eqn:B; injection E as <- <-; [|exact RE].
  apply in_range_spec in R4. apply andb_true_iff in B as [B B3]. apply andb_true_iff in B as [B1 B2].
  apply in_range_spec in B2. apply in_range_spec in B3.
  unfold second4 in B1. destruct (N.eqb_spec (code c0) 240); [|destruct (N.eqb_spec (code c0) 244)]; apply in_range_spec in B1; lia.
Qed.

Lemma rune_item s r n : decode_rune s = Some (r, n) -> (r =? rune_error)%N && (n =? 1) = false -> r <> 34%N ->
  ok_item (rune_chunk is_print r) (firstn n s).
Proof.
  intros E B Q. pose proof (decode_bound _ _ _ E) as RB.
  destruct (decode_encode _ _ _ E B) as (A & L & Hm & Hs & Hh). rewrite <- A in *.
  unfold rune_chunk.
  destruct (N.eqb_spec r 10) as [->|N1]; [apply ok_escape; [intros; reflexivity|reflexivity]|].
  destruct (N.eqb_spec r 13) as [->|N2]; [apply ok_escape; [intros; reflexivity|reflexivity]|].
  destruct (N.eqb_spec r 9) as [->|N3]; [apply ok_escape; [intros; reflexivity|reflexivity]|].
  destruct (N.eqb_spec r 34) as [->|N4]; [congruence|].
  destruct (N.eqb_spec r 92) as [->|N5]; [apply ok_escape; [intros; reflexivity|reflexivity]|].
  assert (Ch : forall m, (m < 256)%N -> r <> m -> (r < 128)%N -> chr r <> chr m).
  { intros m M1 M2 M3 M4. apply (f_equal code) in M4. rewrite !code_chr in M4; lia. }
  destruct (Nat.eq_dec n 1) as [->|Nn].
  - specialize (Hs eq_refl). assert (EN : encode_rune r = [chr r]) by (unfold encode_rune; apply N.ltb_lt in Hs; now rewrite Hs).
    rewrite EN. rewrite ascii_print by exact Hs.
    destruct ((32 <=? r) && (r <=? 126))%N%bool eqn:P.
    + apply andb_true_iff in P as [P1 P2]. apply N.leb_le in P1. apply ok_ascii.
      * rewrite code_chr; lia.
      * apply (Ch 10%N); auto. lia.
      * apply (Ch 34%N); auto. lia.
      * apply (Ch 92%N); auto. lia.
    + destruct (N.ltb_spec 65535 r); [lia|]. destruct (N.ltb_spec 127 r); [lia|].
      apply ok_escape; [intros; apply octal3_reads|].
      assert (F : forallb (fun k => ((32 <=? N.of_nat k) && (N.of_nat k <=? 126))%N || negb (esc_char (chr (N.of_nat k))))%bool (seq 0 128) = true)
        by (vm_compute; reflexivity).
      rewrite forallb_forall in F. specialize (F (N.to_nat r) ltac:(apply in_seq; lia)). rewrite N2Nat.id, P in F.
      now apply negb_true_iff in F.
  - assert (M : 1 < n) by lia. specialize (Hm M). specialize (Hh M).
    destruct (encode_rune r) as [|c v] eqn:EN; [now apply encode_nonempty in EN|].
    destruct (is_print r); [now apply ok_multi|].
    destruct (N.ltb_spec 65535 r) as [G|G].
    + apply ok_escape; [|apply high_not_esc, Hh; now left]. intros rest. rewrite <- EN. now apply U_reads.
    + destruct (N.ltb_spec 127 r); [|lia]. apply ok_escape; [|apply high_not_esc, Hh; now left].
      intros rest. rewrite <- EN. apply u_reads. lia.
Qed.

Lemma quote_rune s r n : decode_rune s = Some (r, n) -> (r =? rune_error)%N && (n =? 1) = false -> r = 34%N ->
  firstn n s = [dq] /\ rune_chunk is_print r = [bs].
Proof. intros E B ->. destruct (decode_encode _ _ _ E B) as (A & _). rewrite <- A. split; reflexivity. Qed.

Lemma bad_byte_item c : esc_char c = false -> ok_item (bs :: octal3 c) [c].
Proof. intros H. apply ok_escape; [intros; apply octal3_reads|exact H]. Qed.
Lemma decode_bad c t r : decode_rune (c :: t) = Some (r, 1) -> r = rune_error -> (128 <= code c)%N.
Proof.
  cbn [decode_rune]. destruct (N.ltb_spec (code c) 128); [|auto]. intros [= <-]. intros ->. vm_compute in H. discriminate.
Qed.

Lemma rune_items_ok s : forall k, Forall item (rune_items k s).
Proof.
  induction s as [|c t IH]; intros k; [constructor|]. cbn [rune_items]. destruct k as [|k]; [|apply IH].
  destruct (decode_some c t) as (r & n & E). rewrite E.
  destruct ((r =? rune_error)%N && (n =? 1))%bool eqn:B; constructor; try apply IH.
  - apply it_ok, bad_byte_item, high_not_esc. apply andb_true_iff in B as [B1 B2]. apply N.eqb_eq in B1. apply Nat.eqb_eq in B2. subst n.
    eapply decode_bad; eassumption.
  - destruct (N.eq_dec r 34) as [Q|Q].
    + destruct (quote_rune _ _ _ E B Q) as [-> ->]. apply it_quote.
    + apply it_ok. eapply rune_item; eassumption.
Qed.

Lemma rune_items_all_ok s : forall k, ~ In dq (skipn k s) -> Forall (fun i => ok_item (fst i) (snd i)) (rune_items k s).
Proof.
  induction s as [|c t IH]; intros k H; [constructor|]. cbn [rune_items]. destruct k as [|k]; [|now apply IH].
  destruct (decode_some c t) as (r & n & E). rewrite E. cbn [skipn] in H.
  destruct ((r =? rune_error)%N && (n =? 1))%bool eqn:B; constructor.
  - cbn [fst snd]. apply bad_byte_item, high_not_esc. apply andb_true_iff in B as [B1 B2]. apply N.eqb_eq in B1. apply Nat.eqb_eq in B2. subst n.
    eapply decode_bad; eassumption.
  - apply IH. cbn [skipn]. intros I. apply H. now right.
  - cbn [fst snd]. eapply rune_item; [eassumption..|]. intros Q. destruct (quote_rune _ _ _ E B Q) as [F _]. apply H.
    destruct (decode_encode _ _ _ E B) as (_ & L & _). rewrite <- (firstn_skipn n (c :: t)), F. now left.
  - apply IH. intros I. apply H. right. rewrite <- (firstn_skipn (n - 1) t). apply in_or_app. now right.
Qed.

Lemma rune_quote s : forall k, In dq (skipn k s) -> ~ Forall (fun i => ok_item (fst i) (snd i)) (rune_items k s).
Proof.
  induction s as [|c t IH]; intros k H F; [now destruct k|]. cbn [rune_items] in F. destruct k as [|k]; [|now apply IH in F].
  destruct (decode_some c t) as (r & n & E). rewrite E in F. cbn [skipn] in H.
  destruct ((r =? rune_error)%N && (n =? 1))%bool eqn:B; inversion F as [|? ? O F']; subst; cbn [fst snd] in O.
  - destruct H as [->|H].
    + apply andb_true_iff in B as [B1 B2]. apply N.eqb_eq in B1. apply Nat.eqb_eq in B2. subst n.
      apply (decode_bad _ _ _ E) in B1. vm_compute in B1. now apply B1.
    + revert F'. apply IH. exact H.
  - destruct (decode_encode _ _ _ E B) as (A & L & Hm & Hs & Hh).
    assert (D : In dq (firstn n (c :: t)) \/ In dq (skipn (n - 1) t)).
    { destruct n as [|n]; [lia|]. cbn [firstn]. rewrite Nat.sub_succ, Nat.sub_0_r. destruct H as [->|H]; [left; now left|].
      rewrite <- (firstn_skipn n t) in H. apply in_app_or in H as [H|H]; [left; now right|now right]. }
    destruct D as [D|D]; [|now apply IH in F'].
    destruct (Nat.eq_dec n 1) as [->|Nn].
    + cbn in D. destruct D as [->|[]].
      assert (H0 : r = 34%N) by (assert (E2 : decode_rune (dq :: t) = Some (34%N, 1)) by reflexivity; congruence).
      destruct (quote_rune _ _ _ E B H0) as [F1 F2]. rewrite F1, F2 in O. inversion O as [| |e c v R1 R2]; subst. vm_compute in R2. discriminate.
    + specialize (Hh ltac:(lia) dq D). vm_compute in Hh. now apply Hh.
Qed.

Lemma string_iff s : denotes (quoted_string is_print s) = Some s <-> ~ In dq s.
Proof.
  unfold denotes, quoted_string. change (Ascii.eqb dq dq) with true. cbv iota. rewrite <- rune_texts.
  assert (V : values (rune_items 0 s) = s) by apply rune_values. split.
  - intros E. rewrite <- V in E at 2.
    destruct (items_inj _ (rune_items 0 s) [] (le_n _) (rune_items_ok s 0) eq_refl E) as [_ G].
    intros I. now apply (rune_quote s 0) in G.
  - intros N. rewrite lex_items; [now rewrite V|]. now apply rune_items_all_ok.
Qed.
End Text.
