(** What the printed statements declare: values, options, fields and enums. *)
From Coq Require Import Ascii String NArith QArith Qreduction Permutation.
From Verif Require Import Base Strs.
From Verif.Print Require Model Proofs.
From Verif.PrintTree Require Import Model Grammar Spec Read Ast Body.
Open Scope list_scope.
Open Scope nat_scope.

(** ** Lists *)
Lemma filter_perm {A} (p : A -> bool) l l' : Permutation l l' -> Permutation (filter p l) (filter p l').
Proof.
  induction 1 as [|x l l' H IH|x y l|l l' l'' H1 IH1 H2 IH2]; simpl.
  - easy.
  - destruct (p x); [now constructor|easy].
  - destruct (p x), (p y); try easy. apply perm_swap.
  - now transitivity (filter p l').
Qed.
Lemma filter_none {A} (p : A -> bool) l : (forall x, In x l -> p x = false) -> filter p l = [].
Proof. induction l as [|x l IH]; intros H; [easy|]. simpl. rewrite (H x (or_introl eq_refl)). apply IH. intros y Hy. apply H. now right. Qed.
Lemma filter_all {A} (p : A -> bool) l : (forall x, In x l -> p x = true) -> filter p l = l.
Proof. induction l as [|x l IH]; intros H; [easy|]. simpl. rewrite (H x (or_introl eq_refl)). f_equal. apply IH. intros y Hy. apply H. now right. Qed.
Lemma filter_ext_in_ {A} (p q : A -> bool) l : (forall x, In x l -> p x = q x) -> filter p l = filter q l.
Proof. induction l as [|x l IH]; intros H; [easy|]. simpl. rewrite (H x (or_introl eq_refl)), IH; [easy|]. intros y Hy. apply H. now right. Qed.
Lemma flat_map_ext_in {A B} (f g : A -> list B) l : (forall x, In x l -> f x = g x) -> flat_map f l = flat_map g l.
Proof. induction l as [|x l IH]; intros H; [easy|]. simpl. rewrite (H x (or_introl eq_refl)), IH; [easy|]. intros y Hy. apply H. now right. Qed.
Lemma flat_map_perm_in {A B} (f g : A -> list B) l : (forall x, In x l -> Permutation (f x) (g x)) -> Permutation (flat_map f l) (flat_map g l).
Proof. induction l as [|x l IH]; intros H; [easy|]. simpl. apply Permutation_app; [apply H; now left|]. apply IH. intros y Hy. apply H. now right. Qed.
Lemma flat_map_two {A B} (f g : A -> list B) l : Permutation (flat_map (fun x => f x ++ g x) l) (flat_map f l ++ flat_map g l).
Proof.
  induction l as [|x l IH]; [easy|]. simpl. rewrite IH, <- !app_assoc. apply Permutation_app_head. rewrite !app_assoc. apply Permutation_app_tail. apply Permutation_app_comm.
Qed.

(** ** JSON names *)
Lemma json_from_split up s : json_from up s = match split_on "_" s with [] => [] | w :: ws => (if up then capital w else w) ++ List.concat (map capital ws) end.
Proof.
  revert up. induction s as [|c s IH]; intros up; [now destruct up|]. cbn [json_from split_on].
  rewrite Ascii.eqb_sym. destruct (Ascii.eqb "_" c) eqn:E.
  - rewrite IH. pose proof (split_on_nonempty "_" s) as HN. destruct (split_on "_" s) as [|w ws]; [easy|]. cbn [map List.concat]. now destruct up.
  - rewrite IH. pose proof (split_on_nonempty "_" s) as HN. destruct (split_on "_" s) as [|w ws]; [easy|]. now destruct up.
Qed.
Lemma json_default s : default_json s = json_name s.
Proof. unfold json_name, default_json. rewrite json_from_split. now destruct (split_on "_" s). Qed.

(** ** Options *)
Definition spread' (g : oname * list sval) : list soption := map (fun v => (fst g, v)) (snd g).
Lemma oname_eqb_refl n : oname_eqb n n = true.
Proof. unfold oname_eqb. now destruct (oname_dec n n). Qed.
Lemma oname_eqb_neq a b : a <> b -> oname_eqb a b = false.
Proof. unfold oname_eqb. now destruct (oname_dec a b). Qed.
Lemma spread_fst g : map fst (spread' g) = map (fun _ => fst g) (snd g).
Proof. unfold spread'. now rewrite map_map. Qed.
Lemma nodup_names (n : oname) (vs : list sval) rest : vs <> [] -> ~ In n rest ->
  nodup oname_dec (map (fun _ => n) vs ++ rest) = n :: nodup oname_dec rest.
Proof.
  intros Hv Hn. destruct vs as [|v vs]; [easy|]. clear Hv. induction vs as [|v' vs IH].
  - simpl. destruct (in_dec oname_dec n rest); [easy|reflexivity].
  - change (map (fun _ => n) (v :: v' :: vs) ++ rest) with (n :: (map (fun _ => n) (v :: vs) ++ rest)). cbn [nodup].
    destruct (in_dec oname_dec n (map (fun _ => n) (v :: vs) ++ rest)) as [H|H]; [apply IH|]. exfalso. apply H. now left.
Qed.
Lemma grouped_spread (gs : list (oname * list sval)) : NoDup (map fst gs) -> (forall g, In g gs -> snd g <> []) -> grouped (flat_map spread' gs) = gs.
Proof.
  intros HN HV. unfold grouped.
  assert (Hnames : nodup oname_dec (map fst (flat_map spread' gs)) = map fst gs).
  { induction gs as [|g gs IH]; [easy|]. cbn [flat_map map]. rewrite map_app, spread_fst. inversion HN as [|? ? H1 H2]; subst.
    rewrite nodup_names; [f_equal; apply IH; [easy|intros x Hx; apply HV; now right]|apply HV; now left|].
    intros Hi. apply H1. apply in_map_iff in Hi as ((n, v) & E & Hi). apply in_flat_map in Hi as (g' & Hg & Hi). unfold spread' in Hi.
    apply in_map_iff in Hi as (x & Ex & _). injection Ex as E1 _. apply in_map_iff. exists g'. split; [|easy]. now rewrite <- E, <- E1. }
  rewrite Hnames, map_map. transitivity (map (fun g : oname * list sval => g) gs); [|apply map_id]. apply map_ext_in. intros g Hg. destruct g as [n vs]. cbn [fst]. f_equal.
  clear Hnames HV. induction gs as [|h gs IH]; [easy|]. cbn [flat_map]. rewrite filter_app, map_app. inversion HN as [|? ? H1 H2]; subst.
  destruct Hg as [-> | Hg].
  - rewrite filter_all; [|intros x Hx; unfold spread' in Hx; apply in_map_iff in Hx as (y & <- & _); apply oname_eqb_refl].
    rewrite filter_none; [|].
    + unfold spread'. rewrite map_map. cbn [fst snd app]. rewrite map_id. apply app_nil_r.
    + intros (n', v) Hx. apply in_flat_map in Hx as (g' & Hg & Hx). unfold spread' in Hx. apply in_map_iff in Hx as (y & E & _). injection E as <- _.
      apply oname_eqb_neq. intros E. cbn [fst] in E. apply H1. cbn [fst]. rewrite <- E. now apply in_map.
  - rewrite filter_none; [apply IH; easy|]. intros (n', v) Hx. unfold spread' in Hx. apply in_map_iff in Hx as (y & E & _). injection E as <- _.
    apply oname_eqb_neq. intros E. cbn [fst] in E. apply H1. rewrite E. change n with (fst (n, vs)). now apply in_map.
Qed.

(** ** Addresses and skipped elements *)
Definition nth_in {A} (l : list A) (i : nat) : Prop := i < List.length l.
Lemma nth_in_some {A} (l : list A) i : nth_in l i -> exists x, nth_error l i = Some x.
Proof. intros H. destruct (nth_error l i) eqn:E; [eauto|]. apply nth_error_None in E. unfold nth_in in H. lia. Qed.
Lemma nth_some_in {A} (l : list A) i x : nth_error l i = Some x -> nth_in l i.
Proof. intros H. apply nth_error_Some. now rewrite H. Qed.
Definition memb (t : atag) (fs : list field) (p : field -> bool) (a : addr) : bool :=
  atag_eqb (a_tag a) t && match nth_error fs (a_index a) with Some f => p f | None => false end.
Definition unsk (sk : list key) (a : addr) : bool := negb (key_in (a_tag a, a_index a) sk).
Definition akey (a : addr) : key := (a_tag a, a_index a).
Lemma where_spec {A} (p : A -> bool) l i : In i (where_ p l) <-> exists x, nth_error l i = Some x /\ p x = true.
Proof.
  unfold where_. assert (E : forall k i, In i (where_from p k l) <-> exists j x, i = k + j /\ nth_error l j = Some x /\ p x = true).
  { clear i. induction l as [|y l IH]; intros k i; [split; [easy|intros (j & x & _ & H & _); now destruct j]|]. cbn [where_from]. rewrite in_app_iff, IH. split.
    - intros [H|(j & x & -> & H)].
      + destruct (p y) eqn:E; [|easy]. destruct H as [<-|[]]. exists 0, y. now rewrite Nat.add_0_r.
      + exists (S j), x. split; [lia|easy].
    - intros (j & x & -> & H1 & H2). destruct j as [|j].
      + left. injection H1 as ->. rewrite H2, Nat.add_0_r. now left.
      + right. exists j, x. split; [lia|easy]. }
  rewrite E. split; [intros (j & x & -> & H); now exists x|intros (x & H); now exists i, x].
Qed.
Lemma where_length {A} (p : A -> bool) l : List.length (where_ p l) = count_if p l.
Proof.
  unfold where_, count_if. generalize 0. induction l as [|x l IH]; intros k; [easy|]. cbn [where_from filter]. rewrite app_length, IH. now destruct (p x).
Qed.
Lemma memb_key t fs p a : key_in (akey a) (keyed t (where_ p fs)) = memb t fs p a.
Proof.
  apply eq_true_iff_eq. unfold akey. rewrite key_in_iff. unfold keyed, memb. rewrite in_map_iff, andb_true_iff, atag_eqb_eq. split.
  - intros (i & E & H). injection E as <- <-. apply where_spec in H as (x & Hx & Hp). now rewrite Hx.
  - intros [Ht H]. destruct (nth_error fs (a_index a)) as [f|] eqn:E; [|easy]. exists (a_index a). split; [now rewrite Ht|]. apply where_spec. now exists f.
Qed.
Lemma unsk_grown t fs p sk a : unsk (keyed t (where_ p fs) ++ sk) a = negb (memb t fs p a) && unsk sk a.
Proof. unfold unsk. rewrite key_in_app. fold (akey a). rewrite memb_key. now rewrite negb_orb. Qed.
Lemma grab t fs p sk L : (forall a, In a L -> memb t fs p a = true -> unsk sk a = true) ->
  Permutation (filter (unsk sk) L) (filter (memb t fs p) L ++ filter (unsk (keyed t (where_ p fs) ++ sk)) L).
Proof.
  induction L as [|a L IH]; intros H; [easy|]. cbn [filter]. rewrite unsk_grown.
  assert (IH' := IH (fun b Hb => H b (or_intror Hb))). specialize (H a (or_introl eq_refl)).
  destruct (memb t fs p a).
  - rewrite H by easy. cbn [negb andb app]. now apply perm_skip.
  - destruct (unsk sk a); cbn [negb andb]; [|easy]. etransitivity; [apply perm_skip, IH'|]. apply Permutation_middle.
Qed.
Lemma memb_count t fs p L : NoDup (map akey L) -> List.length (filter (memb t fs p) L) <= count_if p fs.
Proof.
  intros HN. rewrite <- where_length. rewrite <- (map_length a_index). apply NoDup_incl_length.
  - induction L as [|a L IH]; [constructor|]. inversion HN as [|? ? H1 H2]; subst. cbn [filter]. destruct (memb t fs p a) eqn:E; [|now apply IH].
    cbn [map]. constructor; [|now apply IH]. intros Hi. apply H1. apply in_map_iff in Hi as (b & Eb & Hb). apply filter_In in Hb as [Hb Mb].
    apply in_map_iff. exists b. split; [|easy]. unfold akey. rewrite Eb. f_equal. unfold memb in E, Mb. apply andb_true_iff in E as [E _], Mb as [Mb _].
    apply atag_eqb_eq in E, Mb. congruence.
  - intros i Hi. apply in_map_iff in Hi as (b & <- & Hb). apply filter_In in Hb as [_ Mb]. unfold memb in Mb. apply andb_true_iff in Mb as [_ Mb].
    apply where_spec. destruct (nth_error fs (a_index b)) as [f|] eqn:E; [|easy]. now exists f.
Qed.
Lemma members_all fs o : forall L count, List.length (filter (memb AField fs (in_oneof o)) L) <= count -> members fs o count L = filter (memb AField fs (in_oneof o)) L.
Proof.
  induction L as [|a L IH]; intros count H; [now destruct count|]. cbn [filter] in *. destruct (memb AField fs (in_oneof o) a) eqn:E.
  - cbn [List.length] in H. destruct count as [|c]; [lia|]. cbn [members]. unfold memb in E. apply andb_true_iff in E as [E1 E2]. apply atag_eqb_eq in E1. rewrite E1.
    destruct (nth_error fs (a_index a)); [|easy]. rewrite E2. f_equal. apply IH. lia.
  - destruct count as [|c].
    + cbn [members]. destruct (filter _ L); [easy|simpl in H; lia].
    + cbn [members]. unfold memb in E. destruct (a_tag a); cbn [atag_eqb andb] in E; try now apply IH. destruct (nth_error fs (a_index a)); [|now apply IH]. rewrite E. now apply IH.
Qed.
Lemma block_all xs x : forall L count, List.length (filter (memb AExt xs (extends x)) L) <= count -> block_of xs x count L = filter (memb AExt xs (extends x)) L.
Proof.
  induction L as [|a L IH]; intros count H; [now destruct count|]. cbn [filter] in *. destruct (memb AExt xs (extends x) a) eqn:E.
  - cbn [List.length] in H. destruct count as [|c]; [lia|]. cbn [block_of]. unfold memb in E. apply andb_true_iff in E as [E1 E2]. apply atag_eqb_eq in E1. rewrite E1.
    destruct (nth_error xs (a_index a)); [|easy]. rewrite E2. f_equal. apply IH. lia.
  - destruct count as [|c].
    + cbn [block_of]. destruct (filter _ L); [easy|simpl in H; lia].
    + cbn [block_of]. unfold memb in E. destruct (a_tag a); cbn [atag_eqb andb] in E; try now apply IH. destruct (nth_error xs (a_index a)); [|now apply IH]. rewrite E. now apply IH.
Qed.
Lemma filter_out {A} (P Q : A -> bool) (o : A) s : NoDup s -> In o s -> P o = true -> Q o = false -> (forall p, In p s -> p <> o -> P p = Q p) ->
  Permutation (filter P s) (o :: filter Q s).
Proof.
  induction s as [|x s IH]; intros HN Hi HP HQ HE; [easy|]. inversion HN as [|? ? H1 H2]; subst. cbn [filter]. destruct Hi as [->|Hi].
  - rewrite HP, HQ. apply perm_skip. rewrite (filter_ext_in_ P Q); [easy|]. intros p Hp. apply HE; [now right|]. intros ->. easy.
  - assert (Hx : x <> o) by (intros ->; easy). rewrite <- (HE x (or_introl eq_refl) Hx).
    assert (IH' := IH H2 Hi HP HQ (fun p Hp => HE p (or_intror Hp))). destruct (P x); [|easy]. etransitivity; [apply perm_skip, IH'|]. apply perm_swap.
Qed.
Lemma run_split t l : exists rest, l = run_of t l ++ rest /\ forall a, In a (run_of t l) -> a_tag a = t.
Proof.
  induction l as [|a l (r & IH1 & IH2)]; [now exists []|]. cbn [run_of]. destruct (atag_eqb (a_tag a) t) eqn:E.
  - apply atag_eqb_eq in E. exists r. split; [cbn [app]; now f_equal|]. intros b [<-|Hb]; [easy|now apply IH2].
  - exists (a :: l). easy.
Qed.
Lemma nodup_app_l {A} (a b : list A) : NoDup (a ++ b) -> NoDup a.
Proof. induction a as [|x a IH]; intros H; [constructor|]. inversion H as [|? ? H1 H2]; subst. constructor; [|now apply IH]. intros Hx. apply H1. apply in_or_app. now left. Qed.
Lemma nodup_app_r {A} (a b : list A) : NoDup (a ++ b) -> NoDup b.
Proof. induction a as [|x a IH]; intros H; [easy|]. inversion H; subst. now apply IH. Qed.
Lemma nodup_disjoint {A} (a b : list A) x : NoDup (a ++ b) -> In x a -> ~ In x b.
Proof.
  intros H Ha Hb. induction a as [|y a IH]; [easy|]. inversion H as [|? ? H1 H2]; subst. destruct Ha as [->|Ha]; [|now apply IH].
  apply H1. apply in_or_app. now right.
Qed.
Lemma nodup_app {A} (a b : list A) : NoDup a -> NoDup b -> (forall x, In x a -> ~ In x b) -> NoDup (a ++ b).
Proof.
  induction a as [|x a IH]; intros Ha Hb H; [easy|]. inversion Ha as [|? ? H1 H2]; subst. cbn [app]. constructor.
  - rewrite in_app_iff. intros [Hi|Hi]; [easy|]. now apply (H x (or_introl eq_refl)).
  - apply IH; [easy|easy|]. intros y Hy. apply H. now right.
Qed.
Lemma indexed_keys {A} (mk : nat -> A -> addr) t l : (forall i x, akey (mk i x) = (t, i)) -> map akey (indexed mk l) = map (fun i => (t, i)) (seq 0 (List.length l)).
Proof.
  intros H. unfold indexed. generalize 0. induction l as [|x l IH]; intros k; [easy|]. cbn [indexed_from map List.length seq]. now rewrite H, IH.
Qed.
Lemma keys_nodup t k n : NoDup (map (fun i : nat => (t : atag, i)) (seq k n)).
Proof. apply FinFun.Injective_map_NoDup; [|apply seq_NoDup]. intros x y E. now injection E. Qed.
Lemma keys_app t n (l : list key) : NoDup l -> (forall i, ~ In (t, i) l) -> NoDup (map (fun i => (t, i)) (seq 0 n) ++ l).
Proof. intros H1 H2. apply nodup_app; [apply keys_nodup|easy|]. intros [t' i] Hi. apply in_map_iff in Hi as (j & E & _). injection E as <- <-. apply H2. Qed.
Lemma flat_map_indexed {A B C} (mk : nat -> A -> B) (g : B -> list C) (h : A -> list C) l :
  (forall i x, nth_error l i = Some x -> g (mk i x) = h x) -> flat_map g (indexed mk l) = flat_map h l.
Proof.
  unfold indexed. intros H.
  assert (E : forall k l', (forall i x, nth_error l' i = Some x -> g (mk (k + i) x) = h x) -> flat_map g (indexed_from mk k l') = flat_map h l').
  { clear. intros k l'. revert k. induction l' as [|x l IH]; intros k H; [easy|]. cbn [indexed_from flat_map]. f_equal.
    - specialize (H 0 x eq_refl). now rewrite Nat.add_0_r in H.
    - apply IH. intros i y E. specialize (H (S i) y E). now rewrite Nat.add_succ_r in H. }
  apply E. easy.
Qed.
Lemma in_indexed {A B} (mk : nat -> A -> B) l b : In b (indexed mk l) -> exists i x, nth_error l i = Some x /\ b = mk i x.
Proof.
  unfold indexed. assert (E : forall k l', In b (indexed_from mk k l') -> exists i x, nth_error l' i = Some x /\ b = mk (k + i) x).
  { intros k l'. revert k. induction l' as [|y l' IH]; intros k H; [easy|]. destruct H as [<-|H].
    - exists 0, y. now rewrite Nat.add_0_r.
    - destruct (IH (S k) H) as (i & x & E1 & E2). exists (S i), x. rewrite Nat.add_succ_r. easy. }
  intros H. destruct (E 0 l H) as (i & x & E1 & E2). now exists i, x.
Qed.
Lemma flat_map_none {A B} (g : A -> list B) l : (forall x, In x l -> g x = []) -> flat_map g l = [].
Proof. induction l as [|x l IH]; intros H; [easy|]. simpl. rewrite (H x (or_introl eq_refl)). apply IH. intros y Hy. apply H. now right. Qed.
Lemma existsb_ext {A} (p q : A -> bool) l : (forall x, In x l -> p x = q x) -> existsb p l = existsb q l.
Proof. induction l as [|x l IH]; intros H; [easy|]. simpl. rewrite (H x (or_introl eq_refl)), IH; [easy|]. intros y Hy. apply H. now right. Qed.
Lemma flat_map_pick {A B} (g : A -> list B) xs l : flat_map g (pick xs l) = flat_map (fun a => match nth_error xs (a_index a) with Some x => g x | None => [] end) l.
Proof. unfold pick. rewrite flat_map_flat. apply flat_map_ext_in. intros a _. destruct (nth_error xs (a_index a)); [simpl; apply app_nil_r|easy]. Qed.
Lemma memb_other t fs p t' fs' p' a : t <> t' -> memb t fs p a = true -> memb t' fs' p' a = false.
Proof. unfold memb. intros H E. apply andb_true_iff in E as [E _]. apply atag_eqb_eq in E. rewrite E. now destruct t, t'. Qed.
Definition in_list (l : list nat) (i : nat) : bool := existsb (Nat.eqb i) l.
Lemma in_existsb i l : existsb (Nat.eqb i) l = true <-> In i l.
Proof. rewrite existsb_exists. split; [intros (x & H & E); apply Nat.eqb_eq in E; now subst|]. intros H. exists i. now rewrite Nat.eqb_refl. Qed.
Lemma filter_flat_map {A B} (p : A -> bool) (g : A -> list B) l : flat_map g (filter p l) = flat_map (fun x => if p x then g x else []) l.
Proof. induction l as [|x l IH]; [easy|]. cbn [filter flat_map]. rewrite <- IH. now destruct (p x). Qed.
Lemma flat_map_seq {A B} (g : A -> list B) l : flat_map (fun i => match nth_error l i with Some x => g x | None => [] end) (seq 0 (List.length l)) = flat_map g l.
Proof.
  assert (H : forall pre, flat_map (fun i => match nth_error (pre ++ l) i with Some x => g x | None => [] end) (seq (List.length pre) (List.length l)) = flat_map g l).
  { induction l as [|x l IH]; intros pre; [easy|]. cbn [List.length seq flat_map]. rewrite nth_error_app2, Nat.sub_diag by lia. cbn [nth_error]. f_equal.
    specialize (IH (pre ++ [x])). rewrite app_length, Nat.add_1_r, <- app_assoc in IH. exact IH. }
  exact (H []).
Qed.
Lemma concat_indexed {A B} (f : nat -> A -> list B) (k : nat) l : List.concat (indexed_from f k l) = flat_map (fun i => match nth_error l (i - k) with Some x => f i x | None => [] end) (seq k (List.length l)).
Proof.
  revert k. induction l as [|x l IH]; intros k; [easy|]. cbn [indexed_from List.concat List.length seq flat_map]. rewrite Nat.sub_diag. cbn [nth_error]. f_equal. rewrite IH.
  apply flat_map_ext_in. intros i Hi. apply in_seq in Hi. replace (i - k) with (S (i - S k)) by lia. reflexivity.
Qed.
Lemma concat_perm {A} (a b : list (list A)) : Permutation a b -> Permutation (List.concat a) (List.concat b).
Proof.
  induction 1 as [|x a b H IH|x y a|a b d H1 IH1 H2 IH2]; cbn [List.concat]; [easy|now apply Permutation_app_head| |now transitivity (List.concat b)].
  rewrite !app_assoc. apply Permutation_app_tail, Permutation_app_comm.
Qed.
Lemma filter_split (n : nat) (maps groups : list nat) : NoDup (maps ++ groups) -> (forall i, In i groups -> i < n) ->
  Permutation (filter (fun i => negb (in_list maps i)) (seq 0 n)) (filter (fun i => negb (in_list (maps ++ groups) i)) (seq 0 n) ++ groups).
Proof.
  intros HN HL. apply NoDup_Permutation.
  - apply NoDup_filter, seq_NoDup.
  - apply nodup_app; [apply NoDup_filter, seq_NoDup|now apply nodup_app_r in HN|]. intros i Hi Hg. apply filter_In in Hi as [_ Hi]. apply negb_true_iff in Hi.
    assert (in_list (maps ++ groups) i = true) by (apply in_existsb, in_or_app; now right). congruence.
  - intros i. rewrite in_app_iff, !filter_In, !negb_true_iff, !in_seq. unfold in_list. rewrite existsb_app. split.
    + intros [H1 H2]. rewrite H2. destruct (existsb (Nat.eqb i) groups) eqn:E; [right; now apply in_existsb|now left].
    + intros [[H1 H2]|H].
      * apply orb_false_iff in H2 as [H2 _]. easy.
      * split; [specialize (HL i H); lia|]. destruct (existsb (Nat.eqb i) maps) eqn:E; [|easy]. apply in_existsb in E. exfalso. now apply (nodup_disjoint _ _ i HN E).
Qed.
Lemma keyed_unsk l a : unsk (keyed AMessage l) a = negb (atag_eqb (a_tag a) AMessage && in_list l (a_index a)).
Proof.
  unfold unsk. f_equal. apply eq_true_iff_eq. rewrite key_in_iff, andb_true_iff, atag_eqb_eq. unfold in_list. rewrite in_existsb. unfold keyed. rewrite in_map_iff. split.
  - intros (i & E & H). injection E as <- <-. easy.
  - intros [-> H]. now exists (a_index a).
Qed.
Lemma filter_unsk_all l (P : list addr) : (forall a, In a P -> a_tag a <> AMessage) -> filter (unsk (keyed AMessage l)) P = P.
Proof. intros H. apply filter_all. intros a Ha. rewrite keyed_unsk. specialize (H a Ha). now destruct (a_tag a). Qed.
Lemma body_options_app a b : body_options (a ++ b) = body_options a ++ body_options b.
Proof. apply flat_map_app. Qed.

Section Facts.
Variable long_sort : list addr -> list addr.
Hypothesis long_perm : forall l, Permutation (long_sort l) l.
Variable same_opts : opts -> opts -> bool.
Hypothesis same_sound : forall a b, same_opts a b = true -> a = b.
Variable force : bool.
Variable syn : syntax.
Variable pkg : bytes.
Variable res : use -> bytes -> bytes -> bytes.
Notation pr := (printed force pkg).
Notation wr := (written force pkg).
Notation opts_ok := (opts_ok res pr).
Notation value_ok := (value_ok res pr).
Notation field_ok := (field_ok res pr syn).
Notation wopt := (wopt force pkg).
Notation facts := (facts res syn).

Lemma round_exact m e : e <= 6 -> (Z.of_N (Z.to_N (round_even (Z.abs m * million) (2 ^ Z.of_nat e))) * 2 ^ Z.of_nat e = Z.abs m * million)%Z.
Proof.
  intros He. set (d := (2 ^ Z.of_nat e)%Z).
  assert (Hd : (d > 0)%Z /\ exists k, (million = k * d)%Z).
  { subst d. do 7 (destruct e as [|e]; [split; [reflexivity|match goal with |- exists k, _ = (k * ?d)%Z => exists (million / d)%Z end; reflexivity]|]). lia. }
  destruct Hd as (Hd & k & Hk). unfold round_even. rewrite Hk, Z.mul_assoc, Z.div_mul, Z.mod_mul by lia.
  replace (2 * 0 <? d)%Z with true by (symmetry; apply Z.ltb_lt; lia). rewrite Z2N.id; [lia|]. assert (0 < k)%Z by (unfold million in Hk; nia). nia.
Qed.
Lemma rvalue_written scope v : value_ok scope v -> rvalue res scope (wr scope v) = mean v.
Proof.
  refine (value_ind' (fun v => value_ok scope v -> rvalue res scope (wr scope v) = mean v) _ _ _ v); clear v.
  - intros v. destruct v; try easy. intros H. inversion H as [|m0 e0 He| | | | | |]; subst. cbn [written mean rvalue number]. f_equal. apply Qred_complete.
    unfold Qeq. cbn [Qnum Qden]. pose proof (round_exact m e He) as HR. set (N := Z.of_N _) in *.
    rewrite Z2Pos.id by (apply Z.pow_pos_nonneg; lia). change (Z.pos 1000000) with million.
    destruct (m <? 0)%Z eqn:E; [apply Z.ltb_lt in E|apply Z.ltb_ge in E]; nia.
  - intros fs IH H. inversion H as [| | | | | |fs0 H1|]; subst. cbn [written mean rvalue]. f_equal. rewrite map_map. apply map_ext_in. intros [k v] Hv.
    destruct (H1 k v Hv) as [H2 H3]. cbn [fst snd]. f_equal; [|now apply (IH k v)]. destruct k; cbn [wkey]; [easy| |easy]. f_equal. exact H2.
  - intros vs IH H. inversion H as [| | | | | | |vs0 H1]; subst. cbn [written mean rvalue]. f_equal. rewrite map_map. apply map_ext_in. intros v Hv. apply IH; [easy|now apply H1].
Qed.
Definition ouse (im : bool) : use := if im then UMessageOption else UOption.
Lemma roption_wopt im scope o v : value_ok scope v -> (match o with OExt x => found res pr (ouse im) scope scope x | _ => True end) ->
  roption res (ouse im) scope (wopt im scope (o, v)) = (o, mean v).
Proof.
  intros Hv Ho. unfold roption, Body.wopt. cbn [fst snd]. rewrite rvalue_written by easy. f_equal. destruct o; cbn [woname]; [easy|]. f_equal. exact Ho.
Qed.
Lemma opts_ok_perm u scope os os' : Permutation os' os -> opts_ok u scope os -> opts_ok u scope os'.
Proof.
  intros HP [H1 H2]. split.
  - apply (Permutation_NoDup (l := map fst os)); [|easy]. apply Permutation_map. now symmetry.
  - intros n vs Hi. apply (H2 n vs). now apply (Permutation_in _ HP).
Qed.
Lemma options_spread ow im scope os : opts_ok (ouse im) scope os ->
  option_facts res ow (ouse im) scope (map (wopt im scope) (flat_map spread os)) = opt_facts ow os.
Proof.
  intros [HN H]. unfold option_facts, opt_facts. rewrite map_map.
  replace (map _ (flat_map spread os)) with (flat_map spread' (map (fun g => (fst g, map mean (snd g))) os)).
  - rewrite grouped_spread.
    + rewrite map_map. reflexivity.
    + now rewrite map_map.
    + intros g Hg. apply in_map_iff in Hg as ([n vs] & <- & Hg). cbn [snd fst]. destruct (H n vs Hg) as [Hn _]. now destruct vs.
  - clear HN. induction os as [|[n vs] os IH]; [easy|]. cbn [flat_map map]. rewrite map_app, <- IH; [|intros n' vs' Hi; apply (H n' vs'); now right]. f_equal.
    unfold spread, spread'. cbn [fst snd]. rewrite !map_map. destruct (H n vs (or_introl eq_refl)) as (_ & Hv & Hn). apply map_ext_in. intros v Hi. symmetry. apply roption_wopt; [now apply Hv|exact Hn].
Qed.
Lemma options_facts ow im scope os os' : opts_ok (ouse im) scope os -> Permutation os' os ->
  Permutation (option_facts res ow (ouse im) scope (map (wopt im scope) (flat_map spread os'))) (opt_facts ow os).
Proof.
  intros H HP. rewrite options_spread by now apply (opts_ok_perm _ _ os). now apply Permutation_map.
Qed.
Lemma short_facts ow im scope os : opts_ok (ouse im) scope os ->
  Permutation (option_facts res ow (ouse im) scope (ast_short long_sort force pkg im scope os)) (opt_facts ow os).
Proof.
  intros H. unfold ast_short. destruct (options_of_perm long_sort long_perm force pkg im scope os) as (os' & HP & ->). now apply options_facts.
Qed.

(** ** Fields *)
Definition named_ (p : oname -> bool) (g : oname * list value) : bool := p (fst g).
Lemma filter_spread im scope (p : oname -> bool) os : (forall n, p (woname force pkg im scope n) = p n) ->
  filter (fun o => p (fst o)) (map (wopt im scope) (flat_map spread os)) = map (wopt im scope) (flat_map spread (filter (named_ p) os)).
Proof.
  intros Hp. induction os as [|[n vs] os IH]; [easy|]. cbn [flat_map filter]. rewrite !map_app, filter_app. etransitivity; [apply f_equal, IH|]. unfold named_ at 2. cbn [fst].
  assert (E : forall x, In x (map (wopt im scope) (spread (n, vs))) -> p (fst x) = p n).
  { intros x Hx. apply in_map_iff in Hx as ([n' v] & <- & Hx). unfold spread in Hx. apply in_map_iff in Hx as (y & Ey & _). injection Ey as <- _. unfold Body.wopt. cbn [fst]. apply Hp. }
  destruct (p n) eqn:Ep.
  - cbn [flat_map]. rewrite map_app. f_equal. apply filter_all. intros x Hx. now apply E.
  - rewrite filter_none; [easy|]. intros x Hx. now apply E.
Qed.
Lemma perm_single {A} (l : list A) x : Permutation l [x] -> l = [x].
Proof. intros H. now apply Permutation_length_1_inv, Permutation_sym. Qed.
Definition plain_is (s : bytes) (n : oname) : bool := oname_eqb n (OPlain s).
Lemma plain_is_w im scope s n : plain_is s (woname force pkg im scope n) = plain_is s n.
Proof. destruct n; [easy|]. unfold plain_is, oname_eqb. cbn [woname]. now destruct (oname_dec _ _), (oname_dec _ _). Qed.
Lemma plain_is_false s n os : ~ In (OPlain s) (map fst os) -> forall g : oname * list value, In g os -> n = s -> plain_is n (fst g) = false.
Proof. intros H g Hg ->. apply oname_eqb_neq. intros E. apply H. rewrite <- E. now apply in_map. Qed.
Lemma find_filter {A} (p : A -> bool) l : find p l = hd_error (filter p l).
Proof. induction l as [|x l IH]; [easy|]. simpl. now destruct (p x). Qed.

Definition default_opts (f : field) : opts := match syn, f_default f with Proto3, _ | _, None => [] | _, Some v => [(OPlain (b_ "default"), [v])] end.
Definition json_opts (f : field) : opts :=
  match f_ext f with
  | Some _ => []
  | None => if match f_json f with [] => true | _ => false end || beq (f_json f) (json_name (f_name f)) then [] else [(OPlain (b_ "json_name"), [VStr (f_json f)])]
  end.
Lemma field_opts_split f : field_opts syn f = f_opts f ++ default_opts f ++ json_opts f.
Proof. reflexivity. Qed.
Lemma filter_parts p f : filter (named_ p) (field_opts syn f) = filter (named_ p) (f_opts f) ++ filter (named_ p) (default_opts f) ++ filter (named_ p) (json_opts f).
Proof. rewrite field_opts_split. now rewrite !filter_app. Qed.
Lemma default_named p f : filter (named_ p) (default_opts f) = if p (OPlain (b_ "default")) then default_opts f else [].
Proof. unfold default_opts, named_. destruct syn, (f_default f); cbn [filter fst]; now destruct (p _). Qed.
Lemma json_named p f : filter (named_ p) (json_opts f) = if p (OPlain (b_ "json_name")) then json_opts f else [].
Proof. unfold json_opts, named_. destruct (f_ext f); [now destruct (p _)|]. destruct (_ || _); cbn [filter fst]; now destruct (p _). Qed.

Definition field_part (oneof : option bytes) (scope : bytes) (nested : list msg) (f : field) : fact :=
  let full := join scope (f_name f) in
  match f_ext f with
  | Some x => FExtension full x (f_card f) (f_optkw f) (type_of scope nested (f_kind f)) (f_num f)
  | None => FField full oneof (f_card f) (f_optkw f) (type_of scope nested (f_kind f)) (f_num f)
  end.
Definition rest_part (scope : bytes) (f : field) : list fact :=
  let full := join scope (f_name f) in
  match f_ext f with Some _ => [] | None => [FJson full (f_json f)] end ++
  match f_default f with Some v => [FDefault full (mean v)] | None => [] end ++ opt_facts (OwField full) (f_opts f).
Lemma desc_field_parts scope oos nested f : desc_field scope oos nested f = field_part (real_oneof scope oos f) scope nested f :: rest_part scope f.
Proof. unfold desc_field, field_part, rest_part. now destruct (f_ext f). Qed.

(** the facts of a field's options *)
Lemma rest_facts scope oos nested f pl : field_ok scope oos nested f -> pl_scope pl = scope -> (pl_extendee pl = None <-> f_ext f = None) ->
  let full := join scope (f_name f) in let os := ast_short long_sort force pkg false full (field_opts syn f) in
  Permutation
   (match pl_extendee pl with
    | Some _ => []
    | None => [FJson full (match find is_json os with Some (_, SStr s) => s | _ => default_json (f_name f) end)]
    end ++
    map (fun o => FDefault full (rvalue res full (snd o))) (filter is_default os) ++
    option_facts res (OwField full) UOption full (filter (fun o => negb (is_default o || is_json o)) os))
   (rest_part scope f).
Proof.
  intros (_ & _ & _ & _ & Ho & Hd & Hj & Hdef & Hjs) Hs Hx. cbv zeta. set (full := join scope (f_name f)) in *. unfold ast_short, rest_part. fold full.
  destruct (options_of_perm long_sort long_perm force pkg false full (field_opts syn f)) as (os' & HP & ->).
  set (os := map (wopt false full) (flat_map spread os')).
  assert (ED : filter is_default os = map (wopt false full) (flat_map spread (filter (named_ (plain_is (b_ "default"))) os'))).
  { apply (filter_spread false full (plain_is (b_ "default"))). intros n. apply plain_is_w. }
  assert (EJ : filter is_json os = map (wopt false full) (flat_map spread (filter (named_ (plain_is (b_ "json_name"))) os'))).
  { apply (filter_spread false full (plain_is (b_ "json_name"))). intros n. apply plain_is_w. }
  set (other := fun n => negb (plain_is (b_ "default") n || plain_is (b_ "json_name") n)).
  assert (EO : filter (fun o => negb (is_default o || is_json o)) os = map (wopt false full) (flat_map spread (filter (named_ other) os'))).
  { apply (filter_spread false full other). intros n. unfold other. now rewrite !plain_is_w. }
  assert (FD : forall g, In g (f_opts f) -> plain_is (b_ "default") (fst g) = false) by (intros g Hg; now apply (plain_is_false (b_ "default") _ (f_opts f))).
  assert (FJ : forall g, In g (f_opts f) -> plain_is (b_ "json_name") (fst g) = false) by (intros g Hg; now apply (plain_is_false (b_ "json_name") _ (f_opts f))).
  assert (PD : filter (named_ (plain_is (b_ "default"))) os' = default_opts f).
  { assert (E : filter (named_ (plain_is (b_ "default"))) (field_opts syn f) = default_opts f).
    { rewrite filter_parts, default_named, json_named, (filter_none _ (f_opts f)) by exact FD. cbn [app].
      change (plain_is (b_ "default") (OPlain (b_ "default"))) with true. change (plain_is (b_ "default") (OPlain (b_ "json_name"))) with false. apply app_nil_r. }
    pose proof (filter_perm (named_ (plain_is (b_ "default"))) _ _ HP) as Q. rewrite E in Q.
    unfold default_opts in *. destruct syn, (f_default f); try (now apply perm_single in Q); now apply Permutation_sym, Permutation_nil in Q. }
  assert (PJ : filter (named_ (plain_is (b_ "json_name"))) os' = json_opts f).
  { assert (E : filter (named_ (plain_is (b_ "json_name"))) (field_opts syn f) = json_opts f).
    { rewrite filter_parts, default_named, json_named, (filter_none _ (f_opts f)) by exact FJ. reflexivity. }
    pose proof (filter_perm (named_ (plain_is (b_ "json_name"))) _ _ HP) as Q. rewrite E in Q.
    unfold json_opts in *. destruct (f_ext f); [now apply Permutation_sym, Permutation_nil in Q|].
    destruct (_ || _); [now apply Permutation_sym, Permutation_nil in Q|now apply perm_single in Q]. }
  assert (PO : Permutation (filter (named_ other) os') (f_opts f)).
  { assert (E : filter (named_ other) (field_opts syn f) = f_opts f).
    { rewrite filter_parts, default_named, json_named. change (other (OPlain (b_ "default"))) with false. change (other (OPlain (b_ "json_name"))) with false.
      rewrite !app_nil_r. apply filter_all. intros g Hg. unfold named_, other. now rewrite FD, FJ. }
    rewrite <- E. now apply filter_perm. }
  rewrite ED, EO, PD. apply Permutation_app; [|apply Permutation_app].
  - destruct (f_ext f) as [x|] eqn:Ef.
    + destruct (pl_extendee pl); [easy|]. assert (Some x = None) by now apply Hx. discriminate.
    + rewrite (proj2 Hx eq_refl). rewrite find_filter, EJ, PJ. unfold json_opts. rewrite Ef, json_default. destruct (f_json f) as [|j0 j] eqn:Ejs; [easy|]. cbn [orb].
      destruct (beq (j0 :: j) (json_name (f_name f))) eqn:Eb; [apply beq_eq in Eb; now rewrite <- Eb|]. reflexivity.
  - unfold default_opts. destruct (f_default f) as [v|] eqn:Ed.
    + destruct (Hdef v eq_refl) as [Hv Hsyn]. destruct syn; try easy; cbn [flat_map spread map app fst snd]; unfold Body.wopt; cbn [fst snd]; now rewrite rvalue_written.
    + now destruct syn.
  - now apply (options_facts (OwField full) false full).
Qed.

Definition message_facts (scope n : bytes) (body : list stmt) : list fact :=
  let full := join scope n in
  FMessage full :: option_facts res (OwMessage full) UMessageOption full (body_options body) ++
  flat_map (facts (Place full None None (message_max body)) (OwMessage full)) body.
Definition group_facts (scope : bytes) (nested : list msg) (bst : list (list stmt)) (f : field) : list fact :=
  match f_kind f with
  | KGroup i => match nth_error nested i with Some m => message_facts scope (m_name m) (nth i bst []) | None => [] end
  | _ => []
  end.
Lemma label_means scope oos nested f pl : field_ok scope oos nested f -> pl_oneof pl = real_oneof scope oos f -> is_map f = false ->
  labelled syn (label_of syn f) pl = Some (f_card f, f_optkw f).
Proof.
  intros (_ & Hl & Hb & _) Hp Hm. unfold label_ok in Hl. unfold is_map in Hm. unfold label_of, emit_label, is_map.
  assert (E : match f_oneof f with Some _ => f_card f = Optional /\ f_optkw f = negb (match real_oneof scope oos f with Some _ => true | None => false end)
     | None => match f_card f with Optional => syn = Proto2 -> f_optkw f = true | _ => f_optkw f = false end end).
  { destruct (f_kind f); try easy; destruct (f_oneof f); tauto. }
  rewrite Hm. clear Hl Hm. destruct (f_oneof f) eqn:Eo.
  - destruct E as [-> ->]. destruct (real_oneof scope oos f); cbn [negb orb andb labelled]; [now rewrite Hp|reflexivity].
  - unfold real_oneof in Hp. rewrite Eo in Hp. destruct (f_card f); [|now rewrite E|now rewrite E].
    destruct (f_optkw f); [reflexivity|]. cbn [negb orb andb]. destruct syn; cbn [negb labelled]; rewrite ?Hp; try easy. now specialize (E eq_refl).
Qed.
Lemma rtype_scalar scope t : In t scalars -> rtype res scope t = TScalar t.
Proof. intros H. unfold rtype. now rewrite (proj2 (mem_in _ _) H). Qed.
Lemma rtype_name scope n : type_found res pr scope scope n -> rtype res scope (pr UType scope n) = TName n.
Proof. intros (H1 & _ & H2). unfold rtype. rewrite (proj2 (mem_not _ _) H2). f_equal. exact H1. Qed.
Lemma field_facts_ok scope oos nested bst f pl ow : field_ok scope oos nested f ->
  pl_scope pl = scope -> pl_oneof pl = real_oneof scope oos f -> pl_extendee pl = f_ext f ->
  Permutation (facts pl ow (ast_field long_sort force syn pkg scope nested bst f)) (desc_field scope oos nested f ++ group_facts scope nested bst f).
Proof.
  intros Hok Hs Ho Hx. assert (Hx' : pl_extendee pl = None <-> f_ext f = None) by now rewrite Hx.
  pose proof (rest_facts scope oos nested f pl Hok Hs Hx') as HR. cbv zeta in HR. rewrite desc_field_parts. unfold group_facts.
  pose proof Hok as (Hk & Hl & _ & Hg & _). pose proof (label_means scope oos nested f pl Hok Ho) as HL.
  assert (HF : forall cl t, cl = Some (f_card f, f_optkw f) -> t = type_of scope nested (f_kind f) ->
    Permutation (field_facts res pl cl t (f_name f) (f_num f) (ast_short long_sort force pkg false (join scope (f_name f)) (field_opts syn f)))
      (field_part (real_oneof scope oos f) scope nested f :: rest_part scope f)).
  { intros cl t -> ->. unfold field_facts. rewrite Hs. cbn [app]. unfold field_part at 1. rewrite Hx, Ho in *. destruct (f_ext f); apply perm_skip; exact HR. }
  unfold ast_field, kind_ok in *. destruct (f_kind f) as [t|n|i|i] eqn:Ek.
  - rewrite app_nil_r. cbn [Grammar.facts simple_word]. rewrite Hs. apply HF; [apply HL; unfold is_map; now rewrite Ek|]. now apply rtype_scalar.
  - rewrite app_nil_r. cbn [Grammar.facts simple_word]. rewrite Hs. apply HF; [apply HL; unfold is_map; now rewrite Ek|]. now apply rtype_name.
  - destruct Hk as (m & Hm). rewrite Hm. cbn [Grammar.facts]. rewrite Hs. apply Permutation_app; [|reflexivity]. rewrite <- (Hg i m eq_refl Hm).
    apply HF; [apply HL; unfold is_map; now rewrite Ek|]. cbn [type_of]. now rewrite Hm.
  - destruct Hk as (e & kf & vf & He & Hkf & Hvf & (tk & Etk & Htk) & Hv). rewrite He, app_nil_r. cbn [Grammar.facts]. rewrite Hs.
    unfold label_ok in Hl. rewrite Ek in Hl. destruct Hl as (Hc & Hkw & _). apply HF; [now rewrite Hc, Hkw|].
    cbn [type_of]. rewrite He. unfold entry_part, entry_word. rewrite Hkf, Hvf, Etk. cbn [simple_word simple_type_of]. f_equal; [now apply rtype_scalar|].
    destruct (f_kind vf); try easy; [now apply rtype_scalar|now apply rtype_name].
Qed.

(** ** Ranges *)
Lemma range_means max r : range_ok r -> range_of max (wrange (Print.Model.print_range max (fst r) (snd r))) = (fst r, snd r - 1)%Z.
Proof.
  intros (H1 & H2 & H3). destruct r as [lo hi]. cbn [fst snd] in *. unfold Print.Model.print_range.
  rewrite Print.Proofs.wrap32_id by (unfold Print.Proofs.int32, int32 in *; lia).
  destruct (Z.eqb_spec lo (hi - 1)); [subst; reflexivity|]. destruct (Z.eqb_spec lo hi); [lia|]. cbn [orb].
  destruct (Z.eqb_spec (hi - 1) max); cbn [wrange]; unfold range_of; cbn [fst snd]; congruence.
Qed.
Lemma xrange_means max lo hi : range_ok (lo, hi) -> range_of max (wrange (Print.Model.print_ext_range max lo hi)) = (lo, hi - 1)%Z.
Proof.
  intros (H1 & H2 & H3). cbn [fst snd] in *. unfold Print.Model.print_ext_range.
  rewrite Print.Proofs.wrap32_id by (unfold Print.Proofs.int32, int32 in *; lia).
  destruct (Z.eqb_spec lo (hi - 1)); [subst; reflexivity|].
  destruct (Z.eqb_spec (hi - 1) max); cbn [wrange]; unfold range_of; cbn [fst snd]; congruence.
Qed.
Lemma single_means max r : fst r = snd r -> range_of max (wrange (Print.Model.print_range max (fst r) (snd r))) = (fst r, snd r).
Proof.
  intros H. unfold Print.Model.print_range. rewrite H, Z.eqb_refl, orb_true_r. reflexivity.
Qed.
Lemma ranges_facts pl ow max f rs : pl_max pl = max -> (forall r, In r rs -> range_of max (wrange (Print.Model.print_range max (fst r) (snd r))) = (fst r, f r)) ->
  facts pl ow (ast_ranges max rs) = map (fun r => FReserved ow (fst r) (f r)) rs.
Proof. intros <- H. unfold ast_ranges. cbn [Grammar.facts]. rewrite map_map. apply map_ext_in. intros r Hr. now rewrite H. Qed.

(** ** Option statements *)
Lemma body_options_long im scope l : body_options (ast_long force pkg im scope l) = map (wopt im scope) l.
Proof. unfold body_options, ast_long. induction l as [|x l IH]; [easy|]. cbn [map flat_map app]. now rewrite IH. Qed.
Lemma facts_long pl ow im scope l : flat_map (facts pl ow) (ast_long force pkg im scope l) = [].
Proof. unfold ast_long. induction l as [|x l IH]; [easy|]. exact IH. Qed.
Definition is_option (a : addr) : bool := atag_eqb (a_tag a) AOption.
Definition options_in (os : opts) (l : list addr) : list (oname * value) := flat_map (fun a => options_at os (a_index a)) (filter is_option l).
Lemma options_in_cons os a l : options_in os (a :: l) = (if is_option a then options_at os (a_index a) else []) ++ options_in os l.
Proof. unfold options_in. cbn [filter]. now destruct (is_option a). Qed.
(** the options among a list of addresses *)
Lemma option_addrs_is im scope os a : In a (option_addrs force pkg im scope os) -> a_tag a = AOption.
Proof.
  intros H. apply (Permutation_in _ (option_addrs_perm force pkg im scope os)) in H. unfold indexed in H. revert H. generalize 0.
  induction os as [|g os IH]; intros k H; [easy|]. destruct H as [<-|H]; [reflexivity|]. now apply (IH (S k)).
Qed.
Lemma options_in_facts ow im scope os l l' : opts_ok (ouse im) scope os -> Permutation l (option_addrs force pkg im scope os ++ l') -> (forall a, In a l' -> a_tag a <> AOption) ->
  Permutation (option_facts res ow (ouse im) scope (map (wopt im scope) (options_in os l))) (opt_facts ow os).
Proof.
  intros Ho HP Hn. unfold options_in. rewrite options_at_pick. apply options_facts; [easy|].
  transitivity (pick os (indexed (option_addr force pkg im scope) os)); [|now rewrite pick_indexed by easy]. apply pick_perm.
  rewrite (filter_perm is_option _ _ HP), filter_app, (filter_none _ l'), app_nil_r.
  - rewrite filter_all; [apply option_addrs_perm|]. intros a Ha. unfold is_option. now rewrite (option_addrs_is im scope os a Ha).
  - intros a Ha. specialize (Hn a Ha). unfold is_option. now destruct (a_tag a).
Qed.

(** ** Enums *)
Definition eaddr_ok (e : enum) (a : addr) : Prop :=
  match a_tag a with ARange => nth_in (en_ranges e) (a_index a) | AName => nth_in (en_names e) (a_index a) | _ => True end.
Definition enum_part (full : bytes) (e : enum) (a : addr) : list fact :=
  match a_tag a with
  | AValue => match nth_error (en_values e) (a_index a) with Some v => FValue full (v_name v) (v_num v) :: opt_facts (OwValue full (v_name v)) (v_opts v) | None => [] end
  | ARange => match nth_error (en_ranges e) (a_index a) with Some r => [FReserved (OwEnum full) (fst r) (snd r)] | None => [] end
  | AName => match nth_error (en_names e) (a_index a) with Some n => [FReservedName (OwEnum full) n] | None => [] end
  | _ => []
  end.
Lemma enum_options outer scope e l : (forall a, In a l -> eaddr_ok e a) ->
  forall sk, body_options (ast_enum_loop long_sort force pkg outer scope e l sk) = map (wopt false scope) (options_in (en_opts e) l).
Proof.
  induction l as [|a l IH]; intros Hok sk; [easy|]. cbn [ast_enum_loop]. rewrite options_in_cons. unfold is_option.
  assert (IH' : forall sk, body_options (ast_enum_loop long_sort force pkg outer scope e l sk) = map (wopt false scope) (options_in (en_opts e) l)) by (apply IH; intros b Hb; apply Hok; now right).
  pose proof (Hok a (or_introl eq_refl)) as Ha. unfold eaddr_ok in Ha. destruct (a_tag a); cbn [atag_eqb app]; try apply IH'.
  - now rewrite body_options_app, body_options_long, IH', map_app.
  - destruct (nth_in_some _ _ Ha) as (r & ->). destruct (skipped _ sk); [apply IH'|]. cbn [body_options flat_map app]. apply IH'.
  - destruct (nth_in_some _ _ Ha) as (r & ->). destruct (skipped _ sk); [apply IH'|]. cbn [body_options flat_map app]. apply IH'.
  - rewrite body_options_app, IH'. now destruct (nth_error (en_values e) (a_index a)).
Qed.
(** the elements that can be skipped *)
Definition ekey (e : enum) (a : addr) : list skey :=
  match a_tag a with
  | ARange => match nth_error (en_ranges e) (a_index a) with Some r => [SRange r] | None => [] end
  | AName => match nth_error (en_names e) (a_index a) with Some n => [SName n] | None => [] end
  | _ => []
  end.
Lemma skey_eqb_eq a b : skey_eqb a b = true <-> a = b.
Proof.
  destruct a as [[x y]|x], b as [[u v]|u]; cbn; try easy.
  - rewrite andb_true_iff, !Z.eqb_eq. split; [intros [-> ->]; easy|intros E; now injection E].
  - rewrite beq_eq. split; [now intros -> |intros E; now injection E].
Qed.
Lemma skipped_iff k sk : skipped k sk = true <-> In k sk.
Proof.
  unfold skipped. rewrite existsb_exists. split; [intros (x & H & E); apply skey_eqb_eq in E; now subst|]. intros H. exists k. split; [easy|now apply skey_eqb_eq].
Qed.
Lemma skipped_not k sk : ~ In k sk -> skipped k sk = false.
Proof. intros H. destruct (skipped k sk) eqn:E; [|easy]. now apply skipped_iff in E. Qed.
Lemma enum_irrelevant outer scope e l : forall sk sk', (forall a k, In a l -> In k (ekey e a) -> (In k sk <-> In k sk')) ->
  ast_enum_loop long_sort force pkg outer scope e l sk = ast_enum_loop long_sort force pkg outer scope e l sk'.
Proof.
  induction l as [|a l IH]; intros sk sk' H; [easy|]. cbn [ast_enum_loop].
  assert (H0 : forall b k, In b l -> In k (ekey e b) -> (In k sk <-> In k sk')) by (intros b k Hb; apply H; now right).
  pose proof (fun k => H a k (or_introl eq_refl)) as Ha. unfold ekey in Ha.
  assert (HA : forall x b k, In b l -> In k (ekey e b) -> (In k (x ++ sk) <-> In k (x ++ sk'))).
  { intros x b k Hb Hk. specialize (H0 b k Hb Hk). rewrite !in_app_iff. tauto. }
  destruct (a_tag a); try now rewrite (IH sk sk').
  - destruct (nth_error (en_ranges e) (a_index a)) as [r|]; [|easy]. replace (skipped (SRange r) sk') with (skipped (SRange r) sk).
    + destruct (skipped (SRange r) sk); [now apply IH|]. f_equal. apply IH. apply HA.
    + apply eq_true_iff_eq. rewrite !skipped_iff. apply Ha. now left.
  - destruct (nth_error (en_names e) (a_index a)) as [r|]; [|easy]. replace (skipped (SName r) sk') with (skipped (SName r) sk).
    + destruct (skipped (SName r) sk); [now apply IH|]. f_equal. apply IH. apply HA.
    + apply eq_true_iff_eq. rewrite !skipped_iff. apply Ha. now left.
Qed.
Lemma enum_skip_run outer scope e t run l sk : t = ARange \/ t = AName -> (forall a, In a run -> a_tag a = t) -> (forall a, In a run -> eaddr_ok e a) ->
  (forall k, In k (flat_map (ekey e) run) -> In k sk) ->
  ast_enum_loop long_sort force pkg outer scope e (run ++ l) sk = ast_enum_loop long_sort force pkg outer scope e l sk.
Proof.
  intros Ht. induction run as [|a run IH]; intros H1 H2 H3; [easy|]. cbn [app ast_enum_loop].
  pose proof (H1 a (or_introl eq_refl)) as Ea. pose proof (H2 a (or_introl eq_refl)) as Eo. unfold eaddr_ok in Eo.
  assert (H3' : forall k, In k (ekey e a) -> In k sk) by (intros k Hk; apply H3; apply in_or_app; now left). unfold ekey in H3'.
  assert (IH' : ast_enum_loop long_sort force pkg outer scope e (run ++ l) sk = ast_enum_loop long_sort force pkg outer scope e l sk).
  { apply IH; [intros b Hb; apply H1; now right|intros b Hb; apply H2; now right|]. intros k Hk. apply H3. apply in_or_app. now right. }
  rewrite Ea in *. destruct Ht as [-> | ->]; destruct (nth_in_some _ _ Eo) as (r & Er); rewrite Er in *;
    now rewrite (proj2 (skipped_iff _ sk) (H3' _ (or_introl eq_refl))).
Qed.
Lemma pick_keys_r e run : (forall a, In a run -> a_tag a = ARange) -> map SRange (pick (en_ranges e) run) = flat_map (ekey e) run.
Proof.
  unfold pick. intros H. induction run as [|a run IH]; [easy|]. cbn [flat_map]. rewrite map_app, IH by (intros b Hb; apply H; now right). f_equal.
  unfold ekey. rewrite (H a (or_introl eq_refl)). now destruct (nth_error (en_ranges e) (a_index a)).
Qed.
Lemma pick_keys_n e run : (forall a, In a run -> a_tag a = AName) -> map SName (pick (en_names e) run) = flat_map (ekey e) run.
Proof.
  unfold pick. intros H. induction run as [|a run IH]; [easy|]. cbn [flat_map]. rewrite map_app, IH by (intros b Hb; apply H; now right). f_equal.
  unfold ekey. rewrite (H a (or_introl eq_refl)). now destruct (nth_error (en_names e) (a_index a)).
Qed.
Lemma pick_part_r full e run : (forall a, In a run -> a_tag a = ARange) ->
  map (fun r => FReserved (OwEnum full) (fst r) (snd r)) (pick (en_ranges e) run) = flat_map (enum_part full e) run.
Proof.
  unfold pick. intros H. induction run as [|a run IH]; [easy|]. cbn [flat_map]. rewrite map_app, IH by (intros b Hb; apply H; now right). f_equal.
  unfold enum_part. rewrite (H a (or_introl eq_refl)). now destruct (nth_error (en_ranges e) (a_index a)).
Qed.
Lemma pick_part_n full e run : (forall a, In a run -> a_tag a = AName) -> map (FReservedName (OwEnum full)) (pick (en_names e) run) = flat_map (enum_part full e) run.
Proof.
  unfold pick. intros H. induction run as [|a run IH]; [easy|]. cbn [flat_map]. rewrite map_app, IH by (intros b Hb; apply H; now right). f_equal.
  unfold enum_part. rewrite (H a (or_introl eq_refl)). now destruct (nth_error (en_names e) (a_index a)).
Qed.
Lemma enum_loop_facts outer e pl : let full := join outer (en_name e) in
  enum_ok res pr outer e -> pl_scope pl = outer -> pl_max pl = enum_max ->
  forall n l, List.length l <= n -> (forall a, In a l -> eaddr_ok e a) -> NoDup (flat_map (ekey e) l) ->
  Permutation (flat_map (facts pl (OwEnum full)) (ast_enum_loop long_sort force pkg outer full e l [])) (flat_map (enum_part full e) l).
Proof.
  intros full (_ & Hv & Hr & _) Hs Hm. rewrite Forall_forall in Hv, Hr. induction n as [|n IH]; intros l Hl Hok Hnd; [destruct l; [easy|simpl in Hl; lia]|].
  destruct l as [|a l]; [easy|]. cbn [ast_enum_loop flat_map]. cbn [List.length] in Hl.
  assert (Hok' : forall b, In b l -> eaddr_ok e b) by (intros b Hb; apply Hok; now right).
  assert (Hnd' : NoDup (flat_map (ekey e) l)) by (cbn [flat_map] in Hnd; now apply nodup_app_r in Hnd).
  assert (HI : Permutation (flat_map (facts pl (OwEnum full)) (ast_enum_loop long_sort force pkg outer full e l [])) (flat_map (enum_part full e) l)) by (apply IH; [lia|easy|easy]).
  pose proof (Hok a (or_introl eq_refl)) as Ha. unfold eaddr_ok in Ha. unfold enum_part at 1.
  (* what a run contributes *)
  assert (HRun : forall t, t = ARange \/ t = AName -> a_tag a = t ->
     let run := run_of t l in
     ast_enum_loop long_sort force pkg outer full e l (flat_map (ekey e) run) = ast_enum_loop long_sort force pkg outer full e (skipn (List.length run) l) [] /\
     Permutation (flat_map (enum_part full e) run ++ flat_map (facts pl (OwEnum full)) (ast_enum_loop long_sort force pkg outer full e (skipn (List.length run) l) [])) (flat_map (enum_part full e) l)).
  { intros t Ht Et run. destruct (run_split t l) as (rest & E & Hrun). fold run in E, Hrun.
    assert (Es : skipn (List.length run) l = rest) by (rewrite E; now rewrite skipn_app, skipn_all, Nat.sub_diag). rewrite Es.
    rewrite E in Hnd', Hok'. rewrite flat_map_app in Hnd'. split.
    - rewrite E. rewrite (enum_skip_run outer full e t run rest); [|easy|easy|intros b Hb; apply Hok', in_or_app; now left|easy].
      apply enum_irrelevant. intros b k Hb Hk. split; [|easy]. intros Hi. exfalso. apply (nodup_disjoint _ _ k Hnd' Hi). apply in_flat_map. now exists b.
    - rewrite E, flat_map_app. apply Permutation_app_head. apply IH.
      + rewrite E, app_length in Hl. lia.
      + intros b Hb. apply Hok', in_or_app. now right.
      + now apply nodup_app_r in Hnd'. }
  destruct (a_tag a) eqn:Et; cbn [app]; try exact HI.
  - rewrite flat_map_app, facts_long. exact HI.
  - destruct (nth_in_some _ _ Ha) as (r & Er). rewrite Er. cbn [skipped existsb]. cbv zeta.
    destruct (HRun ARange (or_introl eq_refl) eq_refl) as [E1 E2]. cbv zeta in E1, E2. set (run := run_of ARange l) in *.
    assert (Hrun : forall b, In b run -> a_tag b = ARange) by (now destruct (run_split ARange l) as (? & ? & ?)).
    rewrite app_nil_r, pick_keys_r, E1 by easy. cbn [flat_map].
    rewrite (ranges_facts pl (OwEnum full) Print.Model.max_enum snd); [|now rewrite Hm|].
    + cbn [map app]. apply perm_skip. rewrite (pick_part_r full e run Hrun). exact E2.
    + intros r' Hr'. apply single_means. apply Hr. destruct Hr' as [<-|Hr']; [now apply nth_error_In in Er|now apply pick_in in Hr'].
  - destruct (nth_in_some _ _ Ha) as (r & Er). rewrite Er. cbn [skipped existsb]. cbv zeta.
    destruct (HRun AName (or_intror eq_refl) eq_refl) as [E1 E2]. cbv zeta in E1, E2. set (run := run_of AName l) in *.
    assert (Hrun : forall b, In b run -> a_tag b = AName) by (now destruct (run_split AName l) as (? & ? & ?)).
    rewrite app_nil_r, pick_keys_n, E1 by easy. cbn [flat_map Grammar.facts map app]. apply perm_skip. rewrite (pick_part_n full e run Hrun). exact E2.
  - rewrite flat_map_app. apply Permutation_app; [|exact HI]. destruct (nth_error (en_values e) (a_index a)) as [v|] eqn:Ev; [|easy].
    apply nth_error_In in Ev. destruct (Hv v Ev) as (Ho & _). cbn [flat_map ast_value Grammar.facts]. rewrite app_nil_r, Hs. apply perm_skip.
    apply (short_facts (OwValue full (v_name v)) false). exact Ho.
Qed.
(** addresses of elements *)
Lemma enum_facts_ok scope e pl ow : enum_ok res pr scope e -> pl_scope pl = scope ->
  Permutation (facts pl ow (ast_enum long_sort force pkg scope e)) (desc_enum scope e).
Proof.
  intros Hok Hs. unfold ast_enum, desc_enum. cbn [Grammar.facts]. rewrite Hs. set (full := join scope (en_name e)). apply perm_skip.
  pose proof (sorted_perm long_sort long_perm (enum_addrs force pkg full e)) as HP. set (l := sorted long_sort _) in *.
  assert (HA : forall a, In a (enum_addrs force pkg full e) -> eaddr_ok e a).
  { intros a Ha. unfold enum_addrs in Ha. unfold eaddr_ok. rewrite !in_app_iff in Ha. destruct Ha as [Ha|[Ha|[Ha|Ha]]].
    - now rewrite (option_addrs_is false full _ a Ha).
    - apply in_indexed in Ha as (i & x & E & ->). exact I.
    - apply in_indexed in Ha as (i & x & E & ->). now apply nth_some_in in E.
    - apply in_indexed in Ha as (i & x & E & ->). now apply nth_some_in in E. }
  assert (HL : forall a, In a l -> eaddr_ok e a) by (intros a Ha; apply HA; now apply (Permutation_in _ HP)).
  pose proof Hok as (Ho & _ & _ & Hn1 & Hn2). rewrite (enum_options scope full e l HL).
  apply Permutation_app.
  - apply (options_in_facts (OwEnum full) false full (en_opts e) l _ Ho HP). intros a Ha. rewrite !in_app_iff in Ha.
    destruct Ha as [Ha|[Ha|Ha]]; apply in_indexed in Ha as (i & x & E & ->); discriminate.
  - etransitivity; [apply (enum_loop_facts scope e (Place scope None None enum_max) Hok eq_refl eq_refl (List.length l) l (le_n _) HL)|].
    + apply (Permutation_NoDup (l := flat_map (ekey e) (enum_addrs force pkg full e))); [apply Permutation_flat_map; now symmetry|].
      unfold enum_addrs. rewrite !flat_map_app.
      rewrite (flat_map_none (ekey e) (option_addrs _ _ _ _ _)) by (intros a Ha; unfold ekey; now rewrite (option_addrs_is false full _ a Ha)).
      rewrite (flat_map_none (ekey e) (indexed value_addr _)) by (intros a Ha; apply in_indexed in Ha as (i & x & E & ->); reflexivity).
      rewrite (flat_map_indexed (plain_addr ARange) (ekey e) (fun r => [SRange r]) (en_ranges e)) by (intros i x E; unfold ekey; cbn; now rewrite E).
      rewrite (flat_map_indexed (plain_addr AName) (ekey e) (fun r => [SName r]) (en_names e)) by (intros i x E; unfold ekey; cbn; now rewrite E).
      rewrite <- !map_flat. cbn [app]. clear -Hn1 Hn2. induction (en_ranges e) as [|r rs IH].
      * cbn [map app]. apply FinFun.Injective_map_NoDup; [|easy]. intros x y E. now injection E.
      * inversion Hn1 as [|? ? H1 H2]; subst. cbn [map app]. constructor; [|now apply IH]. rewrite in_app_iff. intros [H|H].
        -- apply in_map_iff in H as (x & E & H). injection E as ->. easy.
        -- apply in_map_iff in H as (x & E & H). discriminate.
    + cbv zeta. fold full. etransitivity; [apply (Permutation_flat_map (enum_part full e) HP)|]. unfold enum_addrs. rewrite !flat_map_app.
      rewrite (flat_map_none (enum_part full e) (option_addrs _ _ _ _ _)) by (intros a Ha; unfold enum_part; now rewrite (option_addrs_is false full _ a Ha)).
      cbn [app]. apply Permutation_app; [|apply Permutation_app].
      * erewrite flat_map_indexed; [reflexivity|]. intros i x E. unfold enum_part. cbn. now rewrite E.
      * rewrite map_flat. erewrite flat_map_indexed; [reflexivity|]. intros i x E. unfold enum_part. cbn. now rewrite E.
      * rewrite map_flat. erewrite flat_map_indexed; [reflexivity|]. intros i x E. unfold enum_part. cbn. now rewrite E.
Qed.

(** ** Messages *)
(** the addresses of the elements with some property *)
(** extensions *)
Lemma extend_facts_ok scope xs nested bst x L pl ow : exts_ok res pr syn scope nested xs -> pl_scope pl = scope ->
  (exists f, In f xs /\ f_ext f = Some x) ->
  block_of xs x (count_if (extends x) xs) L = filter (memb AExt xs (extends x)) L ->
  Permutation (facts pl ow (ast_extend long_sort force syn pkg scope xs nested bst x L))
    (flat_map (fun a => match nth_error xs (a_index a) with Some f => desc_field scope [] nested f ++ group_facts scope nested bst f | None => [] end) (filter (memb AExt xs (extends x)) L)).
Proof.
  intros Hx Hs (f0 & Hf0 & Ef0) HB. unfold Spec.exts_ok in Hx. rewrite Forall_forall in Hx. unfold ast_extend. rewrite HB. cbn [Grammar.facts]. rewrite Hs.
  destruct (Hx f0 Hf0) as (_ & _ & (x' & Ex' & (Hfound & _)) & _). rewrite Ef0 in Ex'. injection Ex' as <-. unfold found in Hfound. rewrite Hfound.
  rewrite map_flat, flat_map_flat, flat_map_pick. apply flat_map_perm_in. intros a Ha. apply filter_In in Ha as [_ Ha]. unfold memb in Ha. apply andb_true_iff in Ha as [_ Ha].
  destruct (nth_error xs (a_index a)) as [f|] eqn:Ef; [|easy]. apply nth_error_In in Ef. destruct (Hx f Ef) as (Hok & Hno & _).
  cbn [flat_map]. rewrite app_nil_r. unfold extends in Ha. destruct (f_ext f) as [y|] eqn:Ey; [|easy]. apply beq_eq in Ha. subst y.
  apply field_facts_ok; [easy|easy| |now rewrite Ey]. cbn [pl_oneof]. unfold real_oneof. now rewrite Hno.
Qed.

Record mparts_ok (scope : bytes) (c : container) : Prop := {
  mo_fields : forall f, In f (c_fields c) -> field_ok scope (c_oneofs c) (c_nested c) f /\ f_ext f = None;
  mo_oneofs : forall oo, In oo (c_oneofs c) -> opts_ok UOption (join scope (oo_name oo)) (oo_opts oo);
  mo_exts : exts_ok res pr syn scope (c_nested c) (c_exts c);
  mo_enums : forall e, In e (c_enums c) -> enum_ok res pr scope e;
  mo_xranges : forall x, In x (c_xranges c) -> range_ok (x_start x, x_end x) /\ opts_ok UMessageOption scope (x_opts x);
  mo_ranges : forall r, In r (c_ranges c) -> range_ok r }.
Section Loop.
Variable scope : bytes.
Variable c : container.
Variable bst : list (list stmt).
Hypothesis Hc : mparts_ok scope c.
Definition maddr_ok (a : addr) : Prop :=
  match a_tag a with
  | AField => nth_in (c_fields c) (a_index a) | AExt => nth_in (c_exts c) (a_index a) | AXRange => nth_in (c_xranges c) (a_index a)
  | ARange => nth_in (c_ranges c) (a_index a) | AName => nth_in (c_names c) (a_index a) | _ => True
  end.
Definition field_total (oos : list oneof) (f : field) : list fact := desc_field scope oos (c_nested c) f ++ group_facts scope (c_nested c) bst f.
Definition xrange_total (x : xrange) : list fact := FExtRange scope (x_start x) (x_end x - 1)%Z :: opt_facts (OwRange scope (x_start x) (x_end x - 1)%Z) (x_opts x).
Definition mpart (a : addr) : list fact :=
  match a_tag a with
  | AField => match nth_error (c_fields c) (a_index a) with Some f => field_total (c_oneofs c) f | None => [] end
  | AExt => match nth_error (c_exts c) (a_index a) with Some f => field_total [] f | None => [] end
  | AMessage => match nth_error (c_nested c) (a_index a) with Some m => message_facts scope (m_name m) (nth (a_index a) bst []) | None => [] end
  | AEnum => match nth_error (c_enums c) (a_index a) with Some e => desc_enum scope e | None => [] end
  | AXRange => match nth_error (c_xranges c) (a_index a) with Some x => xrange_total x | None => [] end
  | ARange => match nth_error (c_ranges c) (a_index a) with Some r => [FReserved (OwMessage scope) (fst r) (snd r - 1)%Z] | None => [] end
  | AName => match nth_error (c_names c) (a_index a) with Some n => [FReservedName (OwMessage scope) n] | None => [] end
  | _ => []
  end.
Definition real (o : nat) : bool := match nth_error (c_oneofs c) o with Some oo => negb (oo_synth oo) | None => false end.
Definition is_member (o : nat) (a : addr) : bool := real o && memb AField (c_fields c) (in_oneof o) a.
Definition live (sk : list key) (l : list addr) : list nat := filter (fun o => existsb (fun a => unsk sk a && is_member o a) l) (seq 0 (List.length (c_oneofs c))).
Definition oneof_total (o : nat) : list fact := match nth_error (c_oneofs c) o with Some oo => desc_oneof scope oo | None => [] end.
Definition quiet (sk : list key) : Prop := forall t i, In (t, i) sk -> t = AMessage \/ t = AField \/ t = AExt.
Definition closed (t : atag) (fs : list field) (p : field -> bool) (sk : list key) : Prop :=
  forall a b, memb t fs p a = true -> memb t fs p b = true -> unsk sk a = true -> unsk sk b = true.
Definition closed_all (sk : list key) : Prop := (forall o, closed AField (c_fields c) (in_oneof o) sk) /\ (forall x, closed AExt (c_exts c) (extends x) sk).
Notation mpl := (Place scope None None (Print.Model.max_tag (c_set c))).
Notation F := (facts mpl (OwMessage scope)).

Lemma closed_oneof o sk : closed_all sk -> closed_all (keyed AField (where_ (in_oneof o) (c_fields c)) ++ sk).
Proof.
  intros [H1 H2]. split.
  - intros o' a b Ha Hb. rewrite !unsk_grown, !andb_true_iff. intros [Hn Hu]. split; [|now apply (H1 o' a b)].
    destruct (Nat.eq_dec o o') as [->|Hne]; [now rewrite Ha in Hn|]. unfold memb in *. apply andb_true_iff in Hb as [_ Hb]. rewrite andb_comm.
    destruct (nth_error (c_fields c) (a_index b)) as [f|]; [|easy]. unfold in_oneof in *. destruct (f_oneof f) as [p|]; [|easy].
    apply Nat.eqb_eq in Hb. subst p. now replace (Nat.eqb o' o) with false by (symmetry; now apply Nat.eqb_neq; congruence).
  - intros x a b Ha Hb. rewrite !unsk_grown, !andb_true_iff. intros [_ Hu]. split; [|now apply (H2 x a b)].
    now rewrite (memb_other AExt (c_exts c) (extends x) AField).
Qed.
Lemma closed_ext x sk : closed_all sk -> closed_all (keyed AExt (where_ (extends x) (c_exts c)) ++ sk).
Proof.
  intros [H1 H2]. split.
  - intros o a b Ha Hb. rewrite !unsk_grown, !andb_true_iff. intros [_ Hu]. split; [|now apply (H1 o a b)].
    now rewrite (memb_other AField (c_fields c) (in_oneof o) AExt).
  - intros x' a b Ha Hb. rewrite !unsk_grown, !andb_true_iff. intros [Hn Hu]. split; [|now apply (H2 x' a b)].
    destruct (list_eq_dec ascii_dec x x') as [->|Hne]; [now rewrite Ha in Hn|]. unfold memb in *. apply andb_true_iff in Hb as [_ Hb]. rewrite andb_comm.
    destruct (nth_error (c_exts c) (a_index b)) as [f|]; [|easy]. unfold extends in *. destruct (f_ext f) as [y|]; [|easy].
    apply beq_eq in Hb. subst y. now replace (beq x x') with false by (symmetry; now apply beq_neq).
Qed.
Lemma quiet_app t l sk : t = AField \/ t = AExt -> quiet sk -> quiet (keyed t l ++ sk).
Proof.
  intros Ht H t' i Hi. apply in_app_or in Hi as [Hi|Hi]; [|now apply (H t' i)]. unfold keyed in Hi. apply in_map_iff in Hi as (j & E & _). injection E as <- <-.
  destruct Ht as [-> | ->]; tauto.
Qed.
Lemma live_cons sk a l : (forall o, unsk sk a && is_member o a = false) -> live sk (a :: l) = live sk l.
Proof. intros H. unfold live. apply filter_ext_in_. intros o _. cbn [existsb]. now rewrite H. Qed.
Lemma live_app sk run l : (forall a o, In a run -> is_member o a = false) -> live sk (run ++ l) = live sk l.
Proof.
  induction run as [|a run IH]; intros H; [easy|]. cbn [app]. rewrite live_cons; [apply IH; intros b o Hb; apply H; now right|].
  intros o. rewrite (H a o (or_introl eq_refl)). apply andb_false_r.
Qed.
Lemma member_tag o a : a_tag a <> AField -> is_member o a = false.
Proof. intros H. unfold is_member, memb. replace (atag_eqb (a_tag a) AField) with false by (destruct (a_tag a); easy). apply andb_false_r. Qed.
Lemma body_options_field nested f : body_options [ast_field long_sort force syn pkg scope nested bst f] = [].
Proof. unfold ast_field. destruct (f_kind f); try reflexivity. destruct (nth_error nested i); reflexivity. Qed.
(** oneofs *)
Lemma oneof_facts_ok o oo L ow : nth_error (c_oneofs c) o = Some oo -> oo_synth oo = false ->
  members (c_fields c) o (count_if (in_oneof o) (c_fields c)) L = filter (memb AField (c_fields c) (in_oneof o)) L ->
  Permutation (facts mpl ow (ast_oneof long_sort force syn pkg scope (c_fields c) (c_nested c) bst o oo L))
    (desc_oneof scope oo ++ flat_map mpart (filter (memb AField (c_fields c) (in_oneof o)) L)).
Proof.
  intros Ho Hs HM. unfold ast_oneof, desc_oneof. rewrite HM, Hs. cbn [Grammar.facts pl_scope pl_max]. set (full := join scope (oo_name oo)). cbn [app]. apply perm_skip.
  set (M := filter _ L). assert (HMt : forall a, In a M -> exists f, a_tag a = AField /\ nth_error (c_fields c) (a_index a) = Some f /\ f_oneof f = Some o).
  { intros a Ha. apply filter_In in Ha as [_ Ha]. unfold memb in Ha. apply andb_true_iff in Ha as [E Ha]. apply atag_eqb_eq in E.
    destruct (nth_error (c_fields c) (a_index a)) as [f|]; [|easy]. exists f. split; [easy|split; [easy|]]. unfold in_oneof in Ha.
    destruct (f_oneof f) as [p|]; [|easy]. apply Nat.eqb_eq in Ha. now subst. }
  pose proof (sorted_perm long_sort long_perm (option_addrs force pkg false full (oo_opts oo) ++ M)) as HP. set (l := sorted long_sort _) in *.
  apply Permutation_app.
  - replace (body_options _) with (map (wopt false full) (options_in (oo_opts oo) l)).
    + apply (options_in_facts (OwOneof full) false full (oo_opts oo) l M); [|exact HP|].
      * apply (mo_oneofs _ _ Hc). now apply nth_error_In in Ho.
      * intros a Ha. destruct (HMt a Ha) as (f & -> & _). discriminate.
    + clear. induction l as [|a l IH]; [easy|]. cbn [flat_map]. rewrite options_in_cons, body_options_app, map_app, IH. f_equal.
      unfold is_option, ast_oneof_element. destruct (a_tag a); cbn [atag_eqb]; try easy.
      * now rewrite body_options_long.
      * destruct (nth_error (c_fields c) (a_index a)) as [f|]; [now rewrite body_options_field|easy].
  - rewrite flat_map_flat. etransitivity; [apply (Permutation_flat_map _ HP)|]. rewrite flat_map_app.
    rewrite (flat_map_none _ (option_addrs _ _ _ _ _)).
    + cbn [app]. apply flat_map_perm_in. intros a Ha. destruct (HMt a Ha) as (f & Ht & Hf & Hof). unfold ast_oneof_element, mpart. rewrite Ht, Hf. cbn [flat_map]. rewrite app_nil_r.
      destruct (mo_fields _ _ Hc f ltac:(now apply nth_error_In in Hf)) as [Hok Hx]. apply field_facts_ok; [easy|easy| |now rewrite Hx].
      cbn [pl_oneof]. unfold real_oneof. rewrite Hof, Ho, Hs. reflexivity.
    + intros a Ha. unfold ast_oneof_element. rewrite (option_addrs_is false full _ a Ha). apply facts_long.
Qed.
(** runs *)
Lemma loop_run run rest sk : ast_loop long_sort same_opts force syn pkg scope c bst (run ++ rest) sk (List.length run) = ast_loop long_sort same_opts force syn pkg scope c bst rest sk 0.
Proof. induction run as [|a run IH]; [now destruct rest|]. exact IH. Qed.
Lemma xrun_split xs os l : exists rest, l = xrun_of same_opts xs os l ++ rest /\ forall a, In a (xrun_of same_opts xs os l) -> a_tag a = AXRange /\ exists x, nth_error xs (a_index a) = Some x /\ x_opts x = os.
Proof.
  induction l as [|a l (r & IH1 & IH2)]; [now exists []|]. cbn [xrun_of].
  destruct (a_tag a) eqn:Et; try (exists (a :: l); easy). destruct (nth_error xs (a_index a)) as [x|] eqn:Ex; [|exists (a :: l); easy].
  destruct (same_opts os (x_opts x)) eqn:Es; [|exists (a :: l); easy]. exists r. split; [cbn [app]; now f_equal|].
  intros b [<-|Hb]; [|now apply IH2]. split; [easy|]. exists x. split; [easy|]. symmetry. now apply same_sound.
Qed.
Lemma last_same {A} (l : list A) d x : l <> [] -> (forall y, In y l -> y = x) -> last l d = x.
Proof. intros Hn H. apply H. now apply last_in. Qed.
Lemma xranges_facts x run ow : nth_in (c_xranges c) 0 \/ True -> In x (c_xranges c) -> (forall y, In y (pick (c_xranges c) run) -> x_opts y = x_opts x) ->
  Permutation (facts mpl ow (ast_xranges long_sort force pkg scope (Print.Model.max_tag (c_set c)) (x :: pick (c_xranges c) run))) (flat_map xrange_total (x :: pick (c_xranges c) run)).
Proof.
  intros _ Hx Hy. unfold ast_xranges. cbn [Grammar.facts pl_max pl_scope]. rewrite flat_map_concat_map, map_map, <- flat_map_concat_map.
  apply flat_map_perm_in. intros y Hin.
  assert (Hy' : In y (c_xranges c) /\ x_opts y = x_opts x) by (destruct Hin as [<-|Hin]; [easy|split; [now apply pick_in in Hin|now apply Hy]]).
  destruct (mo_xranges _ _ Hc y (proj1 Hy')) as [Hr Ho]. rewrite xrange_means by easy. unfold xrange_total. apply perm_skip.
  rewrite (last_same _ [] (x_opts x)); [|easy|].
  - destruct Hy' as [_ <-]. now apply (short_facts _ true).
  - intros z Hz. cbn [map] in Hz. destruct Hz as [<-|Hz]; [easy|]. apply in_map_iff in Hz as (w & <- & Hw). now apply Hy.
Qed.
Lemma live_nil sk : live sk [] = [].
Proof. now apply filter_none. Qed.
Lemma loop_facts : forall n l sk, List.length l <= n -> (forall a, In a l -> maddr_ok a) -> NoDup (map akey l) -> quiet sk -> closed_all sk ->
  Permutation (flat_map F (ast_loop long_sort same_opts force syn pkg scope c bst l sk 0)) (flat_map mpart (filter (unsk sk) l) ++ flat_map oneof_total (live sk l)).
Proof.
  induction n as [|n IH]; intros l sk Hl Hok Hnd Hq Hcl; [destruct l; [|simpl in Hl; lia]; now rewrite live_nil|].
  destruct l as [|a l]; [now rewrite live_nil|].
  cbn [List.length] in Hl. assert (Hok' : forall b, In b l -> maddr_ok b) by (intros b Hb; apply Hok; now right).
  assert (Hnd' : NoDup (map akey l)) by (now inversion Hnd). assert (Hlen : List.length l <= n) by lia.
  cbn [ast_loop]. cbn [filter]. unfold unsk at 1. destruct (key_in (a_tag a, a_index a) sk) eqn:Ek; cbn [negb].
  { rewrite live_cons; [now apply IH|]. intros o. unfold unsk. now rewrite Ek. }
  assert (Hu : unsk sk a = true) by (unfold unsk; now rewrite Ek).
  pose proof (Hok a (or_introl eq_refl)) as Ha. unfold maddr_ok in Ha. cbn [flat_map].
  (* an element printed by itself *)
  assert (Hone : forall ss, (forall o, is_member o a = false) -> Permutation (flat_map F ss) (mpart a) ->
     Permutation (flat_map F (ss ++ ast_loop long_sort same_opts force syn pkg scope c bst l sk 0)) ((mpart a ++ flat_map mpart (filter (unsk sk) l)) ++ flat_map oneof_total (live sk (a :: l)))).
  { intros ss Hm HP. rewrite flat_map_app, <- app_assoc. rewrite live_cons; [|intros o; rewrite Hm; apply andb_false_r]. apply Permutation_app; [exact HP|now apply IH]. }
  (* a run *)
  assert (Hrun : forall s run rest, l = run ++ rest -> (forall b, In b run -> a_tag b = a_tag a) -> a_tag a <> AMessage -> a_tag a <> AField -> a_tag a <> AExt ->
     Permutation (F s) (mpart a ++ flat_map mpart run) ->
     Permutation (flat_map F (s :: ast_loop long_sort same_opts force syn pkg scope c bst l sk (List.length run))) ((mpart a ++ flat_map mpart (filter (unsk sk) l)) ++ flat_map oneof_total (live sk (a :: l)))).
  { intros s run rest E Ht H1 H2 H3 HP. cbn [flat_map]. rewrite E, loop_run.
    rewrite live_cons; [|intros o; rewrite member_tag by easy; apply andb_false_r].
    rewrite live_app by (intros b o Hb; apply member_tag; now rewrite (Ht b Hb)).
    rewrite filter_app, flat_map_app. rewrite (filter_all _ run).
    - rewrite app_assoc, <- (app_assoc (_ ++ _)). apply Permutation_app; [exact HP|]. apply IH; [| | |easy|easy].
      + rewrite E, app_length in Hlen. lia.
      + intros b Hb. apply Hok'. rewrite E. apply in_or_app. now right.
      + rewrite E, map_app in Hnd'. now apply nodup_app_r in Hnd'.
    - intros b Hb. unfold unsk. destruct (key_in (a_tag b, a_index b) sk) eqn:Eb; [|easy]. apply key_in_iff in Eb. apply Hq in Eb. rewrite (Ht b Hb) in Eb. tauto. }
  destruct (a_tag a) eqn:Et.
  - apply (Hone []); [intros o; apply member_tag; congruence|]. unfold mpart. now rewrite Et.
  - apply (Hone []); [intros o; apply member_tag; congruence|]. unfold mpart. now rewrite Et.
  - apply Hone; [intros o; apply member_tag; congruence|]. unfold mpart. rewrite Et. now rewrite facts_long.
  - (* fields *)
    destruct (nth_in_some _ _ Ha) as (f & Ef). rewrite Ef. destruct (mo_fields _ _ Hc f ltac:(now apply nth_error_In in Ef)) as [Hfok Hfx].
    assert (Hsingle : real_oneof scope (c_oneofs c) f = None -> Permutation (flat_map F [ast_field long_sort force syn pkg scope (c_nested c) bst f]) (mpart a)).
    { intros Hr. cbn [flat_map]. rewrite app_nil_r. unfold mpart. rewrite Et, Ef. apply field_facts_ok; [easy|easy| |now rewrite Hfx]. now rewrite Hr. }
    destruct (f_oneof f) as [o|] eqn:Eo.
    + pose proof Hfok as (_ & _ & Hlt & _). destruct (nth_in_some _ _ (Hlt o Eo)) as (oo & Eoo). rewrite Eoo. cbn [option_map].
      destruct (oo_synth oo) eqn:Es.
      * apply (Hone [_]); [|apply Hsingle; unfold real_oneof; now rewrite Eo, Eoo, Es].
        intros p. unfold is_member, real, memb. rewrite Et, Ef. cbn [atag_eqb andb]. unfold in_oneof. rewrite Eo. destruct (Nat.eqb_spec o p) as [<-|]; [|apply andb_false_r]. now rewrite Eoo, Es.
      * set (sk' := keyed AField (where_ (in_oneof o) (c_fields c)) ++ sk). set (M := filter (memb AField (c_fields c) (in_oneof o)) (a :: l)).
        assert (Hma : memb AField (c_fields c) (in_oneof o) a = true) by (unfold memb; rewrite Et, Ef; cbn; unfold in_oneof; rewrite Eo; apply Nat.eqb_refl).
        assert (HG : Permutation (filter (unsk sk) (a :: l)) (M ++ filter (unsk sk') l)).
        { etransitivity; [apply (grab AField (c_fields c) (in_oneof o))|].
          - intros b Hb Hmb. now apply (proj1 Hcl o a b).
          - fold M. fold sk'. apply Permutation_app_head. cbn [filter]. unfold sk' at 1. rewrite unsk_grown, Hma. cbn [negb andb]. reflexivity. }
        cbn [filter] in HG. rewrite Hu in HG.
        assert (HLv : Permutation (live sk (a :: l)) (o :: live sk' l)).
        { unfold live. apply filter_out; [apply seq_NoDup|apply in_seq; apply nth_some_in in Eoo; unfold nth_in in Eoo; lia| | |].
          - cbn [existsb]. rewrite Hu. unfold is_member, real. now rewrite Eoo, Es, Hma.
          - destruct (existsb _ l) eqn:E; [|easy]. apply existsb_exists in E as (b & Hb & E). unfold sk' in E. rewrite unsk_grown in E. unfold is_member in E.
            destruct (memb AField (c_fields c) (in_oneof o) b); [discriminate|]. rewrite !andb_false_r in E. discriminate.
          - intros p _ Hp. cbn [existsb]. assert (Hap : memb AField (c_fields c) (in_oneof p) a = false).
            { unfold memb. rewrite Et, Ef. cbn [atag_eqb andb]. unfold in_oneof. rewrite Eo. apply Nat.eqb_neq. congruence. }
            unfold is_member at 1. rewrite Hap, !andb_false_r. cbn [orb]. apply existsb_ext. intros b _.
            unfold sk'. rewrite unsk_grown. unfold is_member. destruct (memb AField (c_fields c) (in_oneof p) b) eqn:Eb; [|now rewrite !andb_false_r].
            replace (memb AField (c_fields c) (in_oneof o) b) with false; [easy|]. symmetry. unfold memb in *. apply andb_true_iff in Eb as [-> Eb]. cbn [andb].
            destruct (nth_error (c_fields c) (a_index b)) as [g|]; [|easy]. unfold in_oneof in *. destruct (f_oneof g) as [z|]; [|easy]. apply Nat.eqb_eq in Eb. subst z. now apply Nat.eqb_neq. }
        cbn [flat_map]. assert (HO : Permutation (F (ast_oneof long_sort force syn pkg scope (c_fields c) (c_nested c) bst o oo (a :: l))) (desc_oneof scope oo ++ flat_map mpart M)).
        { apply oneof_facts_ok; [easy|easy|]. apply members_all. now apply memb_count. }
        assert (HI : Permutation (flat_map F (ast_loop long_sort same_opts force syn pkg scope c bst l sk' 0)) (flat_map mpart (filter (unsk sk') l) ++ flat_map oneof_total (live sk' l))).
        { apply IH; [easy|easy|easy|apply quiet_app; [now left|easy]|now apply closed_oneof]. }
        etransitivity; [apply Permutation_app; [exact HO|exact HI]|].
        change (mpart a ++ flat_map mpart (filter (unsk sk) l)) with (flat_map mpart (a :: filter (unsk sk) l)).
        etransitivity; [|apply Permutation_app; [apply Permutation_sym, (Permutation_flat_map mpart HG)|apply Permutation_sym, (Permutation_flat_map oneof_total HLv)]].
        rewrite flat_map_app. cbn [flat_map]. unfold oneof_total at 2. rewrite Eoo.
        set (A := desc_oneof scope oo). set (B := flat_map mpart M). set (C := flat_map mpart (filter (unsk sk') l)). set (D := flat_map oneof_total (live sk' l)).
        rewrite (app_assoc _ A D). etransitivity; [|apply Permutation_app_tail, Permutation_app_comm]. now rewrite <- !app_assoc.
    + apply (Hone [_]); [|apply Hsingle; unfold real_oneof; now rewrite Eo].
      intros p. unfold is_member, memb. rewrite Et, Ef. unfold in_oneof. rewrite Eo. cbn [atag_eqb andb]. apply andb_false_r.
  - apply Hone; [intros o; apply member_tag; congruence|]. unfold mpart. rewrite Et. destruct (nth_error (c_nested c) (a_index a)) as [m|]; [|easy].
    cbn [flat_map ast_nested Grammar.facts]. now rewrite app_nil_r.
  - apply Hone; [intros o; apply member_tag; congruence|]. unfold mpart. rewrite Et. destruct (nth_error (c_enums c) (a_index a)) as [e|] eqn:Ee; [|easy].
    cbn [flat_map]. rewrite app_nil_r. apply enum_facts_ok; [|easy]. apply (mo_enums _ _ Hc). now apply nth_error_In in Ee.
  - apply (Hone []); [intros o; apply member_tag; congruence|]. unfold mpart. now rewrite Et.
  - (* extension ranges *)
    destruct (nth_in_some _ _ Ha) as (x & Ex). rewrite Ex. cbv zeta. destruct (xrun_split (c_xranges c) (x_opts x) l) as (rest & E & Hr).
    apply (Hrun _ _ rest); [easy|intros b Hb; now apply Hr|easy|easy|easy|].
    etransitivity; [apply xranges_facts; [now right|now apply nth_error_In in Ex|]|].
    + intros y Hy. unfold pick in Hy. apply in_flat_map in Hy as (b & Hb & Hy). destruct (Hr b Hb) as (_ & z & Ez & Ho). rewrite Ez in Hy. destruct Hy as [<-|[]]. exact Ho.
    + cbn [flat_map]. unfold mpart at 1. rewrite Et, Ex. apply Permutation_app_head. rewrite flat_map_pick. erewrite flat_map_ext_in; [reflexivity|].
      intros b Hb. destruct (Hr b Hb) as (Etb & z & Ez & _). unfold mpart. now rewrite Etb, Ez.
  - (* extensions *)
    destruct (nth_in_some _ _ Ha) as (f & Ef). rewrite Ef. cbv zeta.
    pose proof (mo_exts _ _ Hc) as Hx. unfold Spec.exts_ok in Hx. pose proof (proj1 (Forall_forall _ _) Hx f ltac:(now apply nth_error_In in Ef)) as (_ & _ & (x & Efx & _) & _). rewrite Efx.
    set (sk' := keyed AExt (where_ (extends x) (c_exts c)) ++ sk). set (M := filter (memb AExt (c_exts c) (extends x)) (a :: l)).
    assert (Hma : memb AExt (c_exts c) (extends x) a = true) by (unfold memb; rewrite Et, Ef; cbn; unfold extends; rewrite Efx; apply beq_refl).
    assert (HG : Permutation (filter (unsk sk) (a :: l)) (M ++ filter (unsk sk') l)).
    { etransitivity; [apply (grab AExt (c_exts c) (extends x))|].
      - intros b Hb Hmb. now apply (proj2 Hcl x a b).
      - fold M. fold sk'. apply Permutation_app_head. cbn [filter]. unfold sk' at 1. rewrite unsk_grown, Hma. cbn [negb andb]. reflexivity. }
    cbn [filter] in HG. rewrite Hu in HG.
    assert (HLv : live sk (a :: l) = live sk' l).
    { rewrite live_cons; [|intros o; rewrite member_tag by congruence; apply andb_false_r]. unfold live. apply filter_ext_in_. intros o _. apply existsb_ext. intros b _. unfold sk'. rewrite unsk_grown. destruct (is_member o b) eqn:Eb; [|now rewrite !andb_false_r].
      unfold is_member in Eb. apply andb_true_iff in Eb as [_ Eb]. now rewrite (memb_other AField (c_fields c) (in_oneof o) AExt). }
    rewrite HLv. cbn [flat_map].
    assert (HO : Permutation (F (ast_extend long_sort force syn pkg scope (c_exts c) (c_nested c) bst x (a :: l))) (flat_map mpart M)).
    { etransitivity; [apply extend_facts_ok; [exact Hx|easy|exists f; split; [now apply nth_error_In in Ef|easy]|]|].
      - apply block_all. now apply memb_count.
      - fold M. erewrite flat_map_ext_in; [reflexivity|]. intros b Hb. apply filter_In in Hb as [_ Hb]. unfold memb in Hb. apply andb_true_iff in Hb as [Hb _]. apply atag_eqb_eq in Hb.
        unfold mpart. now rewrite Hb. }
    assert (HI : Permutation (flat_map F (ast_loop long_sort same_opts force syn pkg scope c bst l sk' 0)) (flat_map mpart (filter (unsk sk') l) ++ flat_map oneof_total (live sk' l))).
    { apply IH; [easy|easy|easy|apply quiet_app; [now right|easy]|now apply closed_ext]. }
    etransitivity; [apply Permutation_app; [exact HO|exact HI]|].
    change (mpart a ++ flat_map mpart (filter (unsk sk) l)) with (flat_map mpart (a :: filter (unsk sk) l)).
    etransitivity; [|apply Permutation_app_tail, Permutation_sym, (Permutation_flat_map mpart HG)]. rewrite flat_map_app. now rewrite <- app_assoc.
  - destruct (nth_in_some _ _ Ha) as (r & Er). rewrite Er. cbv zeta. destruct (run_split ARange l) as (rest & E & Hr).
    apply (Hrun _ _ rest); [easy|easy|easy|easy|easy|]. rewrite (ranges_facts mpl (OwMessage scope) (Print.Model.max_tag (c_set c)) (fun r => snd r - 1)%Z); [|easy|].
    + cbn [map]. unfold mpart at 1. rewrite Et, Er. cbn [app]. apply perm_skip. rewrite map_flat, flat_map_pick. erewrite flat_map_ext_in; [reflexivity|].
      intros b Hb. unfold mpart. now rewrite (Hr b Hb).
    + intros r' Hr'. apply range_means. apply (mo_ranges _ _ Hc). destruct Hr' as [<-|Hr']; [now apply nth_error_In in Er|now apply pick_in in Hr'].
  - destruct (nth_in_some _ _ Ha) as (r & Er). rewrite Er. cbv zeta. destruct (run_split AName l) as (rest & E & Hr).
    apply (Hrun _ _ rest); [easy|easy|easy|easy|easy|]. cbn [Grammar.facts map]. unfold mpart at 1. rewrite Et, Er. cbn [app]. apply perm_skip.
    rewrite map_flat, flat_map_pick. erewrite flat_map_ext_in; [reflexivity|]. intros b Hb. unfold mpart. now rewrite (Hr b Hb).
  - apply (Hone []); [intros o; apply member_tag; congruence|]. unfold mpart. now rewrite Et.
  - apply (Hone []); [intros o; apply member_tag; congruence|]. unfold mpart. now rewrite Et.
Qed.
(** options *)
Lemma options_in_app os a b : options_in os (a ++ b) = options_in os a ++ options_in os b.
Proof. unfold options_in. now rewrite filter_app, flat_map_app. Qed.
Lemma options_in_none os l : (forall a, In a l -> a_tag a <> AOption) -> options_in os l = [].
Proof. intros H. unfold options_in. rewrite filter_none; [easy|]. intros a Ha. specialize (H a Ha). unfold is_option. now destruct (a_tag a). Qed.
Lemma body_options_cons s ss : body_options (s :: ss) = body_options [s] ++ body_options ss.
Proof. apply (body_options_app [s]). Qed.
Lemma loop_options : forall n l sk, List.length l <= n -> (forall a, In a l -> maddr_ok a) -> quiet sk ->
  body_options (ast_loop long_sort same_opts force syn pkg scope c bst l sk 0) = map (wopt true scope) (options_in (c_opts c) l).
Proof.
  induction n as [|n IH]; intros l sk Hl Hok Hq; [destruct l; [easy|simpl in Hl; lia]|]. destruct l as [|a l]; [easy|].
  cbn [List.length] in Hl. assert (Hok' : forall b, In b l -> maddr_ok b) by (intros b Hb; apply Hok; now right). assert (Hlen : List.length l <= n) by lia.
  cbn [ast_loop]. rewrite options_in_cons, map_app. pose proof (Hok a (or_introl eq_refl)) as Ha. unfold maddr_ok in Ha. unfold is_option.
  assert (Hrun : forall s run rest, l = run ++ rest -> (forall b, In b run -> a_tag b <> AOption) -> body_options [s] = [] ->
     body_options (s :: ast_loop long_sort same_opts force syn pkg scope c bst l sk (List.length run)) = map (wopt true scope) (options_in (c_opts c) l)).
  { intros s run rest E Ht Hs. rewrite body_options_cons, Hs. rewrite E, loop_run, options_in_app, (options_in_none _ run Ht). cbn [app]. apply IH.
    - rewrite E, app_length in Hlen. lia.
    - intros b Hb. apply Hok'. rewrite E. apply in_or_app. now right.
    - easy. }
  destruct (key_in (a_tag a, a_index a) sk) eqn:Ek.
  { rewrite IH by easy. apply key_in_iff in Ek. apply Hq in Ek. destruct Ek as [-> | [-> | ->]]; reflexivity. }
  destruct (a_tag a) eqn:Et; cbn [atag_eqb map app]; try now apply IH.
  - rewrite body_options_app, body_options_long. f_equal. now apply IH.
  - destruct (nth_in_some _ _ Ha) as (f & Ef). rewrite Ef. destruct (match f_oneof f with Some o => _ | None => _ end) as [[o oo]|].
    + destruct (oo_synth oo); rewrite body_options_cons.
      * rewrite body_options_field. now apply IH.
      * apply IH; [easy|easy|]. apply quiet_app; [now left|easy].
    + rewrite body_options_cons, body_options_field. now apply IH.
  - rewrite body_options_app, IH by easy. now destruct (nth_error (c_nested c) (a_index a)).
  - rewrite body_options_app, IH by easy. now destruct (nth_error (c_enums c) (a_index a)).
  - destruct (nth_in_some _ _ Ha) as (x & Ex). rewrite Ex. cbv zeta. destruct (xrun_split (c_xranges c) (x_opts x) l) as (rest & E & Hr).
    apply (Hrun _ _ rest); [easy| |easy]. intros b Hb. destruct (Hr b Hb) as [-> _]. discriminate.
  - destruct (nth_in_some _ _ Ha) as (f & Ef). rewrite Ef. cbv zeta. rewrite body_options_cons. apply IH; [easy|easy|]. apply quiet_app; [now right|easy].
  - destruct (nth_in_some _ _ Ha) as (r & Er). rewrite Er. cbv zeta. destruct (run_split ARange l) as (rest & E & Hr).
    apply (Hrun _ _ rest); [easy| |easy]. intros b Hb. rewrite (Hr b Hb). discriminate.
  - destruct (nth_in_some _ _ Ha) as (r & Er). rewrite Er. cbv zeta. destruct (run_split AName l) as (rest & E & Hr).
    apply (Hrun _ _ rest); [easy| |easy]. intros b Hb. rewrite (Hr b Hb). discriminate.
Qed.
End Loop.
(** the addresses of a message *)
Lemma message_addrs_ok scope c a : In a (message_addrs force pkg scope c) -> maddr_ok c a.
Proof.
  unfold message_addrs, maddr_ok. rewrite !in_app_iff. intros [H|[H|[H|[H|[H|[H|[H|H]]]]]]].
  - now rewrite (option_addrs_is true scope _ a H).
  - apply in_indexed in H as (i & x & E & ->). now apply nth_some_in in E.
  - apply in_indexed in H as (i & x & E & ->). now apply nth_some_in in E.
  - apply in_indexed in H as (i & x & E & ->). now apply nth_some_in in E.
  - apply in_indexed in H as (i & x & E & ->). now apply nth_some_in in E.
  - apply in_indexed in H as (i & x & E & ->). exact I.
  - apply in_indexed in H as (i & x & E & ->). exact I.
  - apply in_indexed in H as (i & x & E & ->). now apply nth_some_in in E.
Qed.
Lemma option_keys im scope os : Permutation (map akey (option_addrs force pkg im scope os)) (map (fun i => (AOption, i)) (seq 0 (List.length os))).
Proof. rewrite (Permutation_map akey (option_addrs_perm force pkg im scope os)). now rewrite (indexed_keys _ AOption) by easy. Qed.
Ltac not_key := let i := fresh in let H := fresh in intros i H; repeat (apply in_app_or in H as [H|H]); apply in_map_iff in H as (? & H & _); discriminate.
Lemma message_addrs_nodup scope c : NoDup (map akey (message_addrs force pkg scope c)).
Proof.
  unfold message_addrs. rewrite !map_app.
  apply (Permutation_NoDup (l := map (fun i => (AOption, i)) (seq 0 (List.length (c_opts c))) ++ map akey (indexed (plain_addr ARange) (c_ranges c)) ++ map akey (indexed (plain_addr AName) (c_names c)) ++
    map akey (indexed (plain_addr AXRange) (c_xranges c)) ++ map akey (indexed (field_addr AField) (c_fields c)) ++
    map akey (indexed (fun i m => Addr AMessage i (m_name m) 0 false) (c_nested c)) ++ map akey (indexed (plain_addr AEnum) (c_enums c)) ++ map akey (indexed (field_addr AExt) (c_exts c)))).
  - apply Permutation_app_tail. symmetry. apply option_keys.
  - rewrite (indexed_keys (plain_addr ARange) ARange), (indexed_keys (plain_addr AName) AName), (indexed_keys (plain_addr AXRange) AXRange), (indexed_keys (field_addr AField) AField),
      (indexed_keys (fun i m => Addr AMessage i (m_name m) 0 false) AMessage), (indexed_keys (plain_addr AEnum) AEnum), (indexed_keys (field_addr AExt) AExt) by easy.
    repeat (apply keys_app; [|not_key]). apply keys_nodup.
Qed.

(** block permutations *)
Lemma initial_skip_list c : exists l, initial_skip c = keyed AMessage l /\ (forall i, In i l <-> In i (map_refs (c_fields c) ++ group_refs (c_fields c) ++ group_refs (c_exts c))).
Proof.
  eexists. split; [reflexivity|]. intros i. rewrite !in_app_iff. unfold group_refs at 2. assert (E : In i (flat_map ref_of (c_fields c)) <-> In i (map_refs (c_fields c)) \/ In i (group_refs (c_fields c))); [|tauto].
  unfold map_refs, group_refs. rewrite !in_flat_map. split.
  - intros (f & Hf & H). unfold ref_of in H. destruct (f_kind f) as [| |j|j] eqn:E; try easy; [right|left]; exists f; rewrite E; easy.
  - intros [(f & Hf & H)|(f & Hf & H)]; exists f; (split; [easy|]); unfold ref_of; destruct (f_kind f); easy.
Qed.
Lemma closed_keyed c l : closed_all c (keyed AMessage l).
Proof.
  split; intros o a b _ Hb _; rewrite keyed_unsk; unfold memb in Hb; apply andb_true_iff in Hb as [Hb _]; apply atag_eqb_eq in Hb; now rewrite Hb.
Qed.
Lemma quiet_keyed l : quiet (keyed AMessage l).
Proof. intros t i H. unfold keyed in H. apply in_map_iff in H as (j & E & _). injection E as <- <-. now left. Qed.
Lemma group_refs_total (G : nat -> list fact) scope nested bst fs :
  (forall i, G i = match nth_error nested i with Some m => message_facts scope (m_name m) (nth i bst []) | None => [] end) ->
  flat_map (group_facts scope nested bst) fs = flat_map G (group_refs fs).
Proof.
  intros HG. unfold group_refs. rewrite flat_map_flat. apply flat_map_ext_in. intros f _. unfold group_facts. destruct (f_kind f) as [| |i|]; try easy. cbn [flat_map]. now rewrite HG, app_nil_r.
Qed.
Lemma perm_assemble {A} (O R N X D1 G1 M E D2 G2 On Nest : list A) : Permutation Nest (M ++ G1 ++ G2) ->
  Permutation (O ++ (R ++ N ++ X ++ (D1 ++ G1) ++ M ++ E ++ D2 ++ G2) ++ On) (O ++ D1 ++ On ++ Nest ++ E ++ D2 ++ X ++ R ++ N).
Proof.
  intros H. apply Permutation_app_head. etransitivity; [|do 2 apply Permutation_app_head; apply Permutation_app_tail, Permutation_sym, H].
  change (Permutation ((R ++ N ++ X ++ (D1 ++ G1) ++ M ++ E ++ D2 ++ G2) ++ On) (D1 ++ On ++ (M ++ G1 ++ G2) ++ E ++ D2 ++ X ++ R ++ N)).
  replace ((R ++ N ++ X ++ (D1 ++ G1) ++ M ++ E ++ D2 ++ G2) ++ On) with (List.concat [R; N; X; D1; G1; M; E; D2; G2; On]) by (cbn [List.concat]; now rewrite <- !app_assoc, ?app_nil_r).
  replace (D1 ++ On ++ (M ++ G1 ++ G2) ++ E ++ D2 ++ X ++ R ++ N) with (List.concat [D1; On; M; G1; G2; E; D2; X; R; N]) by (cbn [List.concat]; now rewrite <- !app_assoc, ?app_nil_r).
  apply concat_perm.
  apply (Permutation_cons_app [D1; On; M; G1; G2; E; D2; X] [N] R). apply (Permutation_cons_app [D1; On; M; G1; G2; E; D2; X] [] N).
  apply (Permutation_cons_app [D1; On; M; G1; G2; E; D2] [] X). apply (Permutation_cons_app [] _ D1). apply (Permutation_cons_app [On; M] [G2; E; D2] G1).
  apply (Permutation_cons_app [On] _ M). apply (Permutation_cons_app [On; G2] _ E). apply (Permutation_cons_app [On; G2] [] D2). apply (Permutation_cons_app [On] [] G2). reflexivity.
Qed.

Lemma max_set (im : bool) full os os' (set : bool) : Permutation os' os -> (set = true <-> In set_option os) ->
  (forall vs, In (OPlain (b_ "message_set_wire_format"), vs) os -> exists b, vs = [VBool b]) ->
  existsb (fun o : soption => oname_eqb (fst o) (OPlain (b_ "message_set_wire_format")) && match snd o with SIdent i => is i "true" | _ => false end) (map (wopt im full) (flat_map spread os')) = set.
Proof.
  intros HP Hset Hv. apply eq_true_iff_eq. rewrite Hset, existsb_exists. split.
  - intros (o & Hi & E). apply in_map_iff in Hi as ([n v] & <- & Hi). apply in_flat_map in Hi as ([n' vs] & Hg & Hi). unfold spread in Hi. apply in_map_iff in Hi as (v' & Ev & Hv').
    cbn [fst snd] in Ev. injection Ev as <- <-. apply andb_true_iff in E as [E1 E2]. unfold Body.wopt in E1, E2. cbn [fst snd] in E1, E2.
    assert (En : n' = OPlain (b_ "message_set_wire_format")).
    { unfold oname_eqb in E1. destruct (oname_dec _ _) as [E|]; [|discriminate]. destruct n'; [exact E|discriminate]. }
    subst n'. apply (Permutation_in _ HP) in Hg. destruct (Hv vs Hg) as (b & ->). destruct Hv' as [<-|[]]. destruct b; [exact Hg|discriminate].
  - intros Hi. exists (wopt im full (OPlain (b_ "message_set_wire_format"), VBool true)). split; [|reflexivity].
    apply in_map. apply in_flat_map. exists set_option. split; [apply (Permutation_in _ (Permutation_sym HP)), Hi|now left].
Qed.
Notation message_ok := (message_ok res pr syn).
Notation ast_body := (ast_body long_sort same_opts force syn pkg).
Lemma field_ext_total scope c bst oos fs : Permutation (flat_map (field_total scope c bst oos) fs) (flat_map (desc_field scope oos (c_nested c)) fs ++ flat_map (group_facts scope (c_nested c) bst) fs).
Proof. apply flat_map_two. Qed.
Lemma body_facts m : forall scope, message_ok scope m -> Permutation (message_facts scope (m_name m) (ast_body (join scope (m_name m)) m)) (desc_message scope m).
Proof.
  induction m as [n set os fs oos nested ens exts xrs rs ns IH] using msg_ind'. intros scope Hok. cbn [m_name Body.ast_body desc_message]. set (full := join scope n).
  set (c := Container os set fs oos nested _ ens exts xrs rs ns). set (bst := map (fun n0 => ast_body (join full (m_name n0)) n0) nested).
  destruct Hok as (Ho & Hset & Hsv & Hf & Hof & Hoo & Hx & HN & He & Hxr & Hr & Hall). fold full in Ho, Hf, Hoo, Hx, He, Hxr, Hall.
  rewrite Forall_forall in Hf, Hoo, He, Hxr, Hr. pose proof (all_nested force syn pkg res full fs nested Hall) as HA.
  assert (HC : mparts_ok full c) by (split; cbn; easy).
  destruct (initial_skip_list c) as (il & Eil & Hil). rewrite Eil. cbn [c_fields c_exts c] in Hil.
  pose proof (sorted_perm long_sort long_perm (message_addrs force pkg full c)) as HP. set (l := sorted long_sort (message_addrs force pkg full c)) in *.
  assert (Hl : forall a, In a l -> maddr_ok c a) by (intros a Ha; apply (message_addrs_ok full); now apply (Permutation_in _ HP)).
  assert (Hnd : NoDup (map akey l)) by (apply (Permutation_NoDup (Permutation_map akey (Permutation_sym HP))), message_addrs_nodup).
  unfold message_facts. fold full. set (body := ast_loop long_sort same_opts force syn pkg full c bst l (keyed AMessage il) 0).
  assert (EO : body_options body = map (wopt true full) (options_in os l)) by (apply (loop_options full c bst (List.length l)); [lia|easy|apply quiet_keyed]).
  assert (EM : message_max body = Print.Model.max_tag set).
  { unfold message_max, Print.Model.max_tag. rewrite EO. unfold options_in. rewrite options_at_pick. rewrite (max_set true full os _ set); [reflexivity| |exact Hset|exact Hsv].
    transitivity (pick os (indexed (option_addr force pkg true full) os)); [|now rewrite pick_indexed by easy]. apply pick_perm. rewrite (filter_perm is_option _ _ HP).
    unfold message_addrs. rewrite filter_app. rewrite filter_all by (intros a Ha; unfold is_option; now rewrite (option_addrs_is true full _ a Ha)).
    rewrite (filter_none is_option (_ ++ _)), app_nil_r; [apply option_addrs_perm|]. intros a Ha. rewrite !in_app_iff in Ha.
    destruct Ha as [H|[H|[H|[H|[H|[H|H]]]]]]; apply in_indexed in H as (i & x & E & ->); reflexivity. }
  rewrite EM, EO. apply perm_skip.
  etransitivity; [apply Permutation_app; [|apply (loop_facts full c bst HC (List.length l) l _ (le_n _) Hl Hnd (quiet_keyed il) (closed_keyed c il))]|].
  { apply (options_in_facts (OwMessage full) true full os l _ Ho HP). intros a Ha. rewrite !in_app_iff in Ha.
    destruct Ha as [H|[H|[H|[H|[H|[H|H]]]]]]; apply in_indexed in H as (i & x & E & ->); discriminate. }
  set (G := fun i => match nth_error nested i with Some m => message_facts full (m_name m) (nth i bst []) | None => [] end).
  set (E := fun i => match nth_error nested i with Some m => desc_message full m | None => [] end).
  assert (HGE : forall i, ~ In i (map_refs fs) -> Permutation (G i) (E i)).
  { intros i Hi. unfold G, E. destruct (nth_error nested i) as [m|] eqn:Em; [|easy]. unfold bst. rewrite nth_map_pair, Em. apply IH; [now apply nth_error_In in Em|now apply (HA i)]. }
  (* the oneofs *)
  assert (ELive : live c (keyed AMessage il) l = filter (real c) (seq 0 (List.length oos))).
  { unfold live. cbn [c_oneofs c]. apply filter_ext_in_. intros o Ho'. destruct (real c o) eqn:Er.
    - apply existsb_exists. apply in_seq in Ho'. destruct (nth_error oos o) as [oo|] eqn:Eoo; [|apply nth_error_None in Eoo; lia].
      destruct (Hof o oo Eoo) as (f & Hfi & Efo). apply In_nth_error in Hfi as (i & Ei). exists (field_addr AField i f). split.
      + apply (Permutation_in _ (Permutation_sym HP)). unfold message_addrs. rewrite !in_app_iff. do 4 right. left. cbn [c_fields c]. clear -Ei. unfold indexed.
        change i with (0 + i) at 1. revert Ei. generalize 0. revert i. induction fs as [|g fs IHf]; intros i k Ei; [now destruct i|]. destruct i as [|i].
        * injection Ei as ->. left. now rewrite Nat.add_0_r.
        * right. replace (k + S i) with (S k + i) by lia. now apply IHf.
      + rewrite keyed_unsk. cbn. unfold is_member. rewrite Er. unfold memb. cbn. rewrite Ei. unfold in_oneof. rewrite Efo. apply Nat.eqb_refl.
    - destruct (existsb _ l) eqn:Ex; [|easy]. apply existsb_exists in Ex as (a & _ & Ea). unfold is_member in Ea. now rewrite Er, andb_false_r in Ea. }
  assert (EOn : flat_map (oneof_total full c) (live c (keyed AMessage il) l) = flat_map (desc_oneof full) oos).
  { rewrite ELive, filter_flat_map. rewrite <- (flat_map_seq (desc_oneof full) oos). apply flat_map_ext_in. intros o _. unfold real, oneof_total. cbn [c_oneofs c].
    destruct (nth_error oos o) as [oo|]; [|easy]. unfold desc_oneof. now destruct (oo_synth oo). }
  rewrite EOn.
  (* the elements *)
  pose proof (filter_perm (unsk (keyed AMessage il)) _ _ HP) as HP'. apply (Permutation_flat_map (mpart full c bst)) in HP'.
  etransitivity; [apply Permutation_app_head, Permutation_app_tail, HP'|]. unfold message_addrs. cbn [c_opts c_ranges c_names c_xranges c_fields c_nested c_enums c_exts c].
  rewrite !filter_app, !flat_map_app.
  rewrite (filter_unsk_all il (option_addrs _ _ _ _ _)) by (intros a Ha; rewrite (option_addrs_is true full _ a Ha); discriminate).
  rewrite !(filter_unsk_all il (indexed (plain_addr _) _)) by (intros a Ha; apply in_indexed in Ha as (i & x & Ex & ->); discriminate).
  rewrite !(filter_unsk_all il (indexed (field_addr _) _)) by (intros a Ha; apply in_indexed in Ha as (i & x & Ex & ->); discriminate).
  rewrite (flat_map_none (mpart full c bst) (option_addrs _ _ _ _ _)) by (intros a Ha; unfold mpart; now rewrite (option_addrs_is true full _ a Ha)). cbn [app].
  rewrite (flat_map_indexed (plain_addr ARange) (mpart full c bst) (fun r => [FReserved (OwMessage full) (fst r) (snd r - 1)%Z])) by (intros i x Ex; unfold mpart; cbn; now rewrite Ex).
  rewrite (flat_map_indexed (plain_addr AName) (mpart full c bst) (fun r => [FReservedName (OwMessage full) r])) by (intros i x Ex; unfold mpart; cbn; now rewrite Ex).
  rewrite (flat_map_indexed (plain_addr AXRange) (mpart full c bst) (xrange_total full)) by (intros i x Ex; unfold mpart; cbn; now rewrite Ex).
  rewrite (flat_map_indexed (field_addr AField) (mpart full c bst) (field_total full c bst oos)) by (intros i x Ex; unfold mpart; cbn; now rewrite Ex).
  rewrite (flat_map_indexed (plain_addr AEnum) (mpart full c bst) (desc_enum full)) by (intros i x Ex; unfold mpart; cbn; now rewrite Ex).
  rewrite (flat_map_indexed (field_addr AExt) (mpart full c bst) (field_total full c bst [])) by (intros i x Ex; unfold mpart; cbn; now rewrite Ex).
  rewrite <- !map_flat.
  etransitivity; [apply Permutation_app_head, Permutation_app_tail; do 3 apply Permutation_app_head; apply Permutation_app; [apply field_ext_total|do 2 apply Permutation_app_head; apply field_ext_total]|].
  cbn [c_nested c]. rewrite !(group_refs_total G full nested bst) by easy.
  apply perm_assemble.
  (* the messages *)
  set (n_ := List.length nested).
  assert (EMs : flat_map (mpart full c bst) (filter (unsk (keyed AMessage il)) (indexed (fun i m => Addr AMessage i (m_name m) 0 false) nested)) =
                flat_map G (filter (fun i => negb (in_list il i)) (seq 0 n_))).
  { rewrite !filter_flat_map. unfold n_. clear -G.
    assert (HH : forall k pre l', nested = pre ++ l' -> k = List.length pre ->
       flat_map (fun x => if unsk (keyed AMessage il) x then mpart full c bst x else []) (indexed_from (fun i m => Addr AMessage i (m_name m) 0 false) k l') =
       flat_map (fun x => if negb (in_list il x) then G x else []) (seq k (List.length l'))).
    { intros k pre l'. revert k pre. induction l' as [|x l' IHl]; intros k pre E -> ; [easy|]. cbn [indexed_from flat_map List.length seq]. f_equal.
      - rewrite keyed_unsk. cbn [a_tag a_index atag_eqb andb]. destruct (negb _); [|easy]. unfold mpart, G. cbn [a_tag a_index c_nested c]. reflexivity.
      - apply (IHl _ (pre ++ [x])); [rewrite E, <- app_assoc; reflexivity|rewrite app_length; cbn [List.length]; lia]. }
    now apply (HH 0 [] nested). }
  rewrite EMs.
  assert (EN : List.concat (indexed (fun i x => if existsb (Nat.eqb i) (map_refs fs) then [] else x) (map (desc_message full) nested)) =
               flat_map E (filter (fun i => negb (in_list (map_refs fs) i)) (seq 0 n_))).
  { unfold indexed. rewrite concat_indexed, map_length. rewrite filter_flat_map. apply flat_map_ext_in. intros i _. rewrite Nat.sub_0_r. unfold in_list, E. rewrite nth_error_map.
    destruct (nth_error nested i); cbn [option_map]; destruct (existsb _ _); reflexivity. }
  rewrite EN.
  assert (HGI : forall i, In i (group_refs fs ++ group_refs exts) -> i < n_).
  { intros i Hi. apply in_app_or in Hi as [Hi|Hi]; apply in_flat_map in Hi as (f & Hfi & Hk).
    - destruct (Hf f Hfi) as ((Hkind & _) & _). unfold kind_ok in Hkind. destruct (f_kind f); try easy. destruct Hk as [->|[]]. destruct Hkind as (m & Em). now apply nth_some_in in Em.
    - unfold Spec.exts_ok in Hx. rewrite Forall_forall in Hx. destruct (Hx f Hfi) as ((Hkind & _) & _). unfold kind_ok in Hkind. destruct (f_kind f); try easy. destruct Hk as [->|[]]. destruct Hkind as (m & Em). now apply nth_some_in in Em. }
  pose proof (filter_split n_ (map_refs fs) (group_refs fs ++ group_refs exts) HN HGI) as HS.
  etransitivity; [apply (Permutation_flat_map E HS)|]. rewrite flat_map_app.
  rewrite (filter_ext_in_ (fun i => negb (in_list il i)) (fun i => negb (in_list (map_refs fs ++ group_refs fs ++ group_refs exts) i))).
  - apply Permutation_app.
    + apply flat_map_perm_in. intros i Hi. apply filter_In in Hi as [_ Hi]. apply negb_true_iff in Hi. symmetry. apply HGE. intros Hm.
      assert (in_list (map_refs fs ++ group_refs fs ++ group_refs exts) i = true) by (apply in_existsb, in_or_app; now left). congruence.
    + rewrite <- flat_map_app. apply flat_map_perm_in. intros i Hi. symmetry. apply HGE. now apply (disjoint_refs _ (group_refs fs ++ group_refs exts)).
  - intros i _. f_equal. apply eq_true_iff_eq. unfold in_list. rewrite !in_existsb. apply Hil.
Qed.
End Facts.
