From Coq Require Import Ascii String ZArith Lia.
From Verif Require Import Base Strs.
From Verif.PrintTree Require Import Model.
From Verif.Arrange Require Import Model Spec.
Open Scope list_scope.

(** ** paths are ordered *)
Lemma path_irrefl p : path_less p p = false.
Proof. induction p as [|x p IH]; [reflexivity|]. cbn. rewrite Z.ltb_irrefl. exact IH. Qed.
Lemma path_trans p : forall q r, path_less p q = true -> path_less q r = true -> path_less p r = true.
Proof.
  induction p as [|x p IH]; intros [|y q] [|z r]; cbn; try discriminate; try reflexivity.
  destruct (Z.ltb_spec x y), (Z.ltb_spec y x), (Z.ltb_spec y z), (Z.ltb_spec z y), (Z.ltb_spec x z), (Z.ltb_spec z x); try lia; try discriminate; try reflexivity. apply IH.
Qed.
Lemma path_neg p : forall q r, path_less p q = false -> path_less q r = false -> path_less p r = false.
Proof.
  induction p as [|x p IH]; intros [|y q] [|z r]; cbn; try discriminate; try reflexivity.
  destruct (Z.ltb_spec x y), (Z.ltb_spec y x), (Z.ltb_spec y z), (Z.ltb_spec z y), (Z.ltb_spec x z), (Z.ltb_spec z x); try lia; try discriminate; try reflexivity. apply IH.
Qed.
Lemma path_prefix u : forall p q, path_less (u ++ p) (u ++ q) = path_less p q.
Proof. induction u as [|x u IH]; intros p q; [reflexivity|]. cbn. now rewrite Z.ltb_irrefl, IH. Qed.
Definition codes (s : bytes) : list Z := map (fun c => Z.of_N (N_of_ascii c)) s.
Lemma path_codes s : forall t, path_less (codes s) (codes t) = bytes_lt s t.
Proof.
  induction s as [|x s IH]; intros [|y t]; cbn; try reflexivity. fold (codes s) (codes t). rewrite IH.
  destruct (Z.ltb_spec (Z.of_N (N_of_ascii x)) (Z.of_N (N_of_ascii y))) as [L|L]; [apply N2Z.inj_lt in L; apply N.ltb_lt in L; now rewrite L|].
  destruct (N.ltb_spec (N_of_ascii x) (N_of_ascii y)); [lia|]. cbn [orb].
  destruct (Z.ltb_spec (Z.of_N (N_of_ascii y)) (Z.of_N (N_of_ascii x))).
  - destruct (Ascii.eqb_spec x y) as [->|]; [lia|reflexivity].
  - assert (E : N_of_ascii x = N_of_ascii y) by lia. apply (f_equal ascii_of_N) in E. rewrite !ascii_N_embedding in E. subst. now rewrite Ascii.eqb_refl.
Qed.

(** ** the order is that of a key *)
Definition number (o : owner) (k : atag) : Z := match field_number o k with Some n => n | None => 0%Z end.
Definition src_key (first : bool) (pl : option place) : list Z :=
  match pl with Some p => 1%Z :: p_path p | None => [if first then 0 else 2]%Z end.
Definition key (o : owner) (e : element) : list Z :=
  match e_kind e with
  | APackage => 0%Z :: src_key (match o with OFile => true | _ => false end) (e_place e)
  | AImport => 1%Z :: codes (e_name e)
  | AOption => 2%Z :: (if e_custom e then 1 else 0)%Z :: src_key (match o with OOther => false | _ => true end) (e_place e)
  | AField | AExt | AValue => [3; 0; number o (e_kind e); e_num e]%Z
  | k => match e_place e with Some _ => [3; 0; number o k; Z.of_nat (e_index e)]%Z | None => [3; 1]%Z end
  end.
Lemma sure (z : Z) : (if (z <? z)%Z then true else if (z <? z)%Z then false else false) = false.
Proof. now rewrite Z.ltb_irrefl. Qed.
Lemma or_not (x y : Z) : (if (x <? y)%Z then true else if (y <? x)%Z then false else false) = (x <? y)%Z.
Proof. destruct (x <? y)%Z, (y <? x)%Z; reflexivity. Qed.
Lemma less_key o prefix a b : described o prefix a -> described o prefix b -> less o a b = path_less (key o a) (key o b).
Proof.
  intros (n & Fa & La) (m & Fb & Lb). destruct a as [ka ia na ua ca pa], b as [kb ib nb ub cb pb]. cbn [e_kind e_index e_name e_num e_custom e_place] in *.
  assert (Pa : leads ka \/ (exists l, pa = Some (mkPlace (prefix ++ [n; Z.of_nat ia]) l)) \/ (~ numbered ka /\ pa = None)).
  { destruct La as [La|[((pp & pl) & -> & E)|La]]; [now left|right; left; cbn in E; subst; now exists pl|right; now right]. }
  assert (Pb : leads kb \/ (exists l, pb = Some (mkPlace (prefix ++ [m; Z.of_nat ib]) l)) \/ (~ numbered kb /\ pb = None)).
  { destruct Lb as [Lb|[((pp & pl) & -> & E)|Lb]]; [now left|right; left; cbn in E; subst; now exists pl|right; now right]. }
  clear La Lb. unfold less, key, src_less, number, src_key, leads, numbered in *. cbn [e_kind e_index e_name e_num e_custom e_place].
  destruct o; try discriminate; destruct ka; try discriminate; destruct kb; try discriminate; cbn in Fa, Fb; injection Fa as <-; injection Fb as <-;
  cbn [atag_eqb field_number unknown_first]; try reflexivity;
  try (cbn [path_less Z.ltb Z.compare Pos.compare Pos.compare_cont]; rewrite ?path_codes, ?or_not; reflexivity);
  try (destruct ca, cb, pa, pb; cbn; rewrite ?path_prefix; reflexivity); try (destruct pa, pb; cbn; reflexivity);
  (destruct Pa as [[Pa|[Pa|Pa]]|[[la ->]|[Pa ->]]]; try discriminate; try (exfalso; apply Pa; auto; fail);
   destruct Pb as [[Pb|[Pb|Pb]]|[[lb ->]|[Pb ->]]]; try discriminate; try (exfalso; apply Pb; auto; fail);
   cbn [p_path negb]; rewrite ?path_prefix; cbn; rewrite ?or_not; reflexivity).
Qed.
Lemma weak o prefix : weak_order (described o prefix) (less o).
Proof.
  split; [|split].
  - intros a A. rewrite (less_key o prefix a a A A). apply path_irrefl.
  - intros a b c A B C. rewrite (less_key o prefix a b A B), (less_key o prefix b c B C), (less_key o prefix a c A C). apply path_trans.
  - intros a b c A B C. rewrite (less_key o prefix a b A B), (less_key o prefix b c B C), (less_key o prefix a c A C). apply path_neg.
Qed.
