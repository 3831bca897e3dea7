(** Property theorems for the order of printed elements (C163) and for extend statements (C164). *)
From Coq Require Import Ascii String ZArith Lia Permutation.
From Verif Require Import Base Strs.
From Verif.PrintTree Require Import Model.
From Verif.Arrange Require Import Model Spec Proofs.
Open Scope list_scope.

(** ** C163 *)
(** For declarations that the compiler has described, the comparison is an order, so that the result of sorting is
    determined up to elements that are equal for it. *)
Theorem C163_order : forall o prefix, weak_order (described o prefix) (less o).
Proof. exact weak. Qed.
(** The package comes first, then imports by their paths, then options, the built-in ones first, then the rest. *)
Definition rank (e : element) : nat :=
  match e_kind e with APackage => 0 | AImport => 1 | AOption => if e_custom e then 3 else 2 | _ => 4 end.
Theorem C163_top : forall o s a x b y c, in_order (less o) s -> s = a ++ x :: b ++ y :: c ->
  rank x <= rank y /\ (e_kind x = AImport -> e_kind y = AImport -> bytes_lt (e_name y) (e_name x) = false).
Proof.
  intros o s a x b y c I E. specialize (I a x b y c E). clear E s a b c. unfold less, rank in *. destruct x as [kx ix nx ux cx px], y as [ky iy ny uy cy py]. cbn [e_kind e_name e_custom] in *. split.
  - destruct kx, ky; cbn [atag_eqb] in I; try discriminate; try lia; destruct cx; try lia; destruct cy; try lia; cbn in I; discriminate.
  - intros -> ->. exact I.
Qed.
(** Fields, extensions and enum values are in the order of their numbers. *)
Theorem C163_numbers : forall o s a x b y c, in_order (less o) s -> s = a ++ x :: b ++ y :: c -> e_kind x = e_kind y -> numbered (e_kind x) -> (e_num x <= e_num y)%Z.
Proof.
  intros o s a x b y c I E K N. specialize (I a x b y c E). unfold less in I. rewrite K in I. rewrite K in N. destruct N as [N|[N|N]]; rewrite N in I; cbn [atag_eqb] in I; now apply Z.ltb_ge in I.
Qed.
(** What else is of one kind stays in the order of the declarations. *)
Theorem C163_declarations : forall o prefix s a x b y c, in_order (less o) s -> s = a ++ x :: b ++ y :: c ->
  described o prefix x -> described o prefix y -> e_kind x = e_kind y -> ~ leads (e_kind x) -> ~ numbered (e_kind x) -> located x -> located y -> e_index x <= e_index y.
Proof.
  intros o prefix s a x b y c I E Dx Dy K NL NN Lx Ly. specialize (I a x b y c E). rewrite (less_key o prefix y x Dy Dx) in I. unfold key, number in I. rewrite <- K in I.
  assert (P : forall n, path_less [3; 0; n; Z.of_nat (e_index y)]%Z [3; 0; n; Z.of_nat (e_index x)]%Z = false -> e_index x <= e_index y).
  { intros n H. cbn in H. rewrite Z.ltb_irrefl, or_not in H. apply Z.ltb_ge in H. lia. }
  unfold located in *. destruct (e_place x); [|congruence]. destruct (e_place y); [|congruence].
  destruct (e_kind x); try (exfalso; apply NL; unfold leads; auto; fail); try (exfalso; apply NN; unfold numbered; auto; fail); exact (P _ I).
Qed.
(** Missing: the order of declarations of different kinds is that of their field numbers in descriptor.proto, *)
Theorem C163_kinds_partial : forall o prefix s a x b y c nx ny, in_order (less o) s -> s = a ++ x :: b ++ y :: c ->
  described o prefix x -> described o prefix y -> ~ leads (e_kind x) -> ~ leads (e_kind y) -> located x -> located y ->
  field_number o (e_kind x) = Some nx -> field_number o (e_kind y) = Some ny -> (nx <= ny)%Z.
Proof.
  intros o prefix s a x b y c nx ny I E Dx Dy NLx NLy Lx Ly Fx Fy. specialize (I a x b y c E). rewrite (less_key o prefix y x Dy Dx) in I. unfold key, number in I.
  assert (P : forall u v, path_less [3; 0; ny; u]%Z [3; 0; nx; v]%Z = false -> (nx <= ny)%Z).
  { intros u v H. cbn in H. destruct (Z.ltb_spec ny nx); [discriminate|lia]. }
  unfold located in *. destruct (e_place x); [|congruence]. destruct (e_place y); [|congruence].
  destruct (e_kind x); try (exfalso; apply NLx; unfold leads; auto; fail); destruct (e_kind y); try (exfalso; apply NLy; unfold leads; auto; fail); first [rewrite Fx, Fy in I; exact (P _ _ I)|rewrite Fx in Fy; injection Fy as <-; lia].
Qed.
(** not that of the source, as is intended (sort.go:8-12). *)
Definition an_enum : element := mkE AEnum 0 (b_ "Colour") 0 false (Some (mkPlace [5; 0]%Z 3)).
Definition a_message : element := mkE AMessage 0 (b_ "Paint") 0 false (Some (mkPlace [4; 0]%Z 7)).
Example C163_case : described OFile [] an_enum /\ described OFile [] a_message /\ located an_enum /\ in_order (less OFile) [a_message; an_enum].
Proof.
  split; [exists 5%Z; split; [reflexivity|]; right; left; eexists; split; reflexivity|]. split; [exists 4%Z; split; [reflexivity|]; right; left; eexists; split; reflexivity|].
  split; [discriminate|]. intros a x b y c E. destruct a as [|a0 [|a1 [|a2 a]]]; cbn in E; try discriminate.
  - injection E as <- E. destruct b as [|b0 [|b1 b]]; cbn in E; try discriminate. now injection E as <- _.
  - injection E as _ <- E. destruct b; discriminate.
Qed.
Theorem C163_source_refuted : exists a b, described OFile [] a /\ described OFile [] b /\ earlier a b /\ e_kind a = AEnum /\ e_kind b = AMessage /\
  forall s, Permutation [a; b] s -> in_order (less OFile) s -> s = [b; a].
Proof.
  exists an_enum, a_message. destruct C163_case as (A & B & _ & _). split; [exact A|]. split; [exact B|]. split; [eexists; eexists; repeat split; cbn; lia|]. split; [reflexivity|]. split; [reflexivity|].
  intros s P I. apply Permutation_length_2_inv in P. destruct P as [->| ->]; [|reflexivity]. discriminate (I [] an_enum [] a_message [] eq_refl).
Qed.
(** Without source information the comparison is no order, so that what comes first depends on the sorting algorithm; *)
Theorem C163_unlocated_refuted : ~ weak_order (fun e => e_place e = None /\ exists n, field_number OMessage (e_kind e) = Some n) (less OMessage).
Proof.
  intros (_ & _ & W). set (f (n : Z) := mkE AField 0 [] n false None). set (m := mkE AMessage 0 [] 0 false None).
  assert (H : less OMessage (f 1%Z) (f 2%Z) = false); [|discriminate].
  apply (W (f 1%Z) m (f 2%Z)); try (split; [reflexivity|]; eexists; reflexivity); reflexivity.
Qed.
(** with locations for some fields only it has a cycle. *)
Theorem C163_mixed_refuted : exists a b m, less OMessage a b = true /\ less OMessage b m = true /\ less OMessage m a = true /\
  described OMessage [4; 0]%Z b /\ described OMessage [4; 0]%Z m /\ e_kind a = AField /\ e_place a = None.
Proof.
  exists (mkE AField 0 [] 1 false None), (mkE AField 1 [] 2 false (Some (mkPlace [4; 0; 2; 1]%Z 5))), (mkE AMessage 0 [] 0 false (Some (mkPlace [4; 0; 3; 0]%Z 6))).
  repeat split; eexists; (split; [reflexivity|]); right; left; eexists; split; reflexivity.
Qed.

(** ** C164 *)
(** Extensions printed in one block extend the same message. *)
Theorem C164_extendee : forall sis x y k, block sis x = Some k -> block sis y = Some k -> x_extendee x = x_extendee y.
Proof.
  intros sis x y k. unfold block. destruct (find_ext_si (x_path x) sis); [|discriminate]. destruct (find_ext_si (x_path y) sis); [|discriminate]. intros <- [= E _]. now symmetry.
Qed.
(** In a message at the top level: extensions are printed in one block exactly if they extend the same message, whatever
    their statements were, *)
Lemma nested i k sis : (forall si, In si sis -> p_path si = [4; i; 6]%Z) -> find_ext_si [4; i; 6; k]%Z sis = Some (match sis with [] => None | si :: _ => Some si end).
Proof.
  intros H. destruct sis as [|si sis]; [reflexivity|]. cbn [find_ext_si find_ext]. rewrite (H si (or_introl eq_refl)). unfold span_within. cbn. now rewrite Z.leb_refl.
Qed.
Theorem C164_blocks_partial : forall i sis x y k l, (forall si, In si sis -> p_path si = [4; i; 6]%Z) -> x_path x = [4; i; 6; k]%Z -> x_path y = [4; i; 6; l]%Z ->
  block sis x <> None /\ (block sis x = block sis y <-> x_extendee x = x_extendee y).
Proof.
  intros i sis x y k l H Ex Ey. unfold block. rewrite Ex, Ey, !(nested i _ sis H). split; [discriminate|]. split; [intros [= E]; exact E|now intros ->].
Qed.
(** and every block has the comments of the first extend statement; *)
Theorem C164_comments : forall i first sis x k, (forall si, In si (first :: sis) -> p_path si = [4; i; 6]%Z) -> x_path x = [4; i; 6; k]%Z ->
  block (first :: sis) x = Some (x_extendee x, Some first).
Proof. intros i first sis x k H E. unfold block. now rewrite E, (nested i k (first :: sis) H). Qed.
(** in messages further in, none has any comments. *)
Theorem C164_deep : forall i j rest sis x k, (forall si, In si sis -> p_path si = [4; i; 3; j]%Z ++ rest ++ [6]%Z) -> x_path x = [4; i; 3; j]%Z ++ rest ++ [6; k]%Z ->
  block sis x = Some (x_extendee x, None).
Proof.
  intros i j rest sis x k H E. unfold block. rewrite E. replace (find_ext_si _ sis) with (Some (@None place)); [reflexivity|]. cbn [app find_ext_si].
  induction sis as [|si sis IH]; [reflexivity|]. cbn [find_ext]. rewrite (H si (or_introl eq_refl)). unfold span_within. cbn [app nth_error].
  destruct (Nat.eqb_spec (List.length (4 :: i :: 3 :: j :: rest ++ [6])%Z) 3) as [L|_]; [cbn in L; lia|]. cbn. apply IH. intros s I. apply H. now right.
Qed.
(** An extension that has no location has no comments either, and is no reason to crash. *)
Theorem C164_unlocated : forall sis x, x_path x = [] -> block sis x = Some (x_extendee x, None).
Proof. intros sis x E. unfold block. now rewrite E. Qed.
(** So a comment is printed with the extension of another message, *)
Theorem C164_comment_refuted : exists a b x, p_line a < p_line b /\ block [a; b] x = Some (b_ "B", Some a) /\ x_extendee x = b_ "B" /\ x_path x = [4; 0; 6; 1]%Z /\
  p_path a = [4; 0; 6]%Z /\ p_path b = [4; 0; 6]%Z.
Proof. exists (mkPlace [4; 0; 6]%Z 3), (mkPlace [4; 0; 6]%Z 6), (mkX (b_ "B") [4; 0; 6; 1]%Z). repeat split. cbn. lia. Qed.
(** and a file with extensions cannot be printed. *)
Theorem C164_crash : forall x sis i, (forall si, In si sis -> p_path si = [7]%Z) -> x_path x = [7; i]%Z -> (block sis x = None <-> sis <> []).
Proof.
  intros x sis i H E. unfold block. rewrite E. cbn [find_ext_si]. destruct sis as [|si sis]; cbn [find_ext]; [split; [discriminate|congruence]|]. rewrite (H si (or_introl eq_refl)).
  split; [discriminate|reflexivity].
Qed.
Theorem C164_crash_refuted : exists x si, x_path x = [7; 0]%Z /\ p_path si = [7]%Z /\ block [si] x = None.
Proof. now exists (mkX (b_ "A") [7; 0]%Z), (mkPlace [7]%Z 3). Qed.
Example C164_case : block [mkPlace [4; 0; 6]%Z 3; mkPlace [4; 0; 6]%Z 6] (mkX (b_ "A") [4; 0; 6; 0]%Z) = Some (b_ "A", Some (mkPlace [4; 0; 6]%Z 3)).
Proof. reflexivity. Qed.

Print Assumptions C163_order.
Print Assumptions C163_top.
Print Assumptions C163_numbers.
Print Assumptions C163_declarations.
Print Assumptions C163_kinds_partial.
Print Assumptions C163_source_refuted.
Print Assumptions C163_unlocated_refuted.
Print Assumptions C163_mixed_refuted.
Print Assumptions C164_extendee.
Print Assumptions C164_blocks_partial.
Print Assumptions C164_comments.
Print Assumptions C164_deep.
Print Assumptions C164_unlocated.
Print Assumptions C164_comment_refuted.
Print Assumptions C164_crash.
Print Assumptions C164_crash_refuted.
