(** The theorems about printing descriptors (C113 - C115). *)
From Coq Require Import Ascii String NArith QArith Permutation.
From Verif Require Import Base Strs.
From Verif.PrintTree Require Import Model Grammar Spec Read Ast Body Facts FileFacts Spaced Cases Order Names.
Open Scope list_scope.
Open Scope nat_scope.

(** ** C113: what is printed declares what the descriptor declares *)
(** A name is found again by the language's rules for its place, exactly if no scope further in than the one
    dropped defines its first part: this is what [file_ok] below asks for as resolvable. *)
Theorem C113_names_partial : forall lead P R F defined u, Forall Print.Spec.component (P ++ R) -> Forall Print.Spec.component F -> F <> [] ->
  (forall p, p <> [] -> prefix_of p F -> defined p = true) -> (u = UMessageOption -> R <> []) ->
  exists rest, printed false (Print.Spec.dotted P) u (Print.Spec.dotted (P ++ R)) (Print.Proofs.full_name lead F) = Print.Spec.dotted rest /\
    (Print.Spec.resolves_to defined (start u P R) rest = Some F <-> unshadowed defined (start u P R) F rest).
Proof. exact names_resolve. Qed.
Example C113_names_case : let P := [b_ "a"] in let R := [b_ "M"] in let F := [b_ "a"; b_ "M"; b_ "opt"] in
  printed false (b_ "a") UMessageOption (b_ "a.M") (b_ "a.M.opt") = b_ "M.opt" /\ start UMessageOption P R = P /\
  Print.Spec.resolves_to (fun p => if list_eq_dec (list_eq_dec ascii_dec) p (firstn (List.length p) F) then true else false) P [b_ "M"; b_ "opt"] = Some F.
Proof. repeat split; vm_compute; reflexivity. Qed.
(** Partial: it speaks of the descriptors [file_ok] admits - resolvable names that are not keywords where a
    type may be left bare, finite numbers with six digits after the point, enum reserved ranges of one
    number, no editions - and of the text without its comments.  The refutations below show that each of
    these is needed. *)
Theorem C113_declares_partial : forall long_sort same_opts force res f,
  (forall l, Permutation (long_sort l) l) -> (forall a b, same_opts a b = true -> a = b) ->
  file_ok res (printed force (fd_package f)) f ->
  exists ss, parse (strip (print_file long_sort same_opts force f)) = Some ss /\ Permutation (file_facts res ss) (desc_file f).
Proof.
  intros long_sort same_opts force res f Hl Hs Hf. exists (ast_file long_sort same_opts force f). split.
  - apply parse_reads. now apply (file_reads long_sort Hl same_opts force res).
  - now apply file_facts_ok.
Qed.
Example C113_case : exists ss, parse (strip (print_file (fun l => l) (fun _ _ => false) false sample)) = Some ss /\ Permutation (file_facts (lookup names) ss) (desc_file sample)
  /\ 60 <= List.length (desc_file sample).
Proof.
  destruct (C113_declares_partial (fun l => l) (fun _ _ => false) false (lookup names) sample) as (ss & H1 & H2); [easy|discriminate|apply sample_ok|].
  exists ss. split; [easy|]. split; [easy|]. vm_compute. lia.
Qed.
(** Two descriptors printed alike declare the same. *)
Theorem C113_same_text_partial : forall long_sort same_opts force res f g,
  (forall l, Permutation (long_sort l) l) -> (forall a b, same_opts a b = true -> a = b) ->
  file_ok res (printed force (fd_package f)) f -> file_ok res (printed force (fd_package g)) g ->
  strip (print_file long_sort same_opts force f) = strip (print_file long_sort same_opts force g) ->
  Permutation (desc_file f) (desc_file g).
Proof.
  intros long_sort same_opts force res f g Hl Hs Hf Hg E.
  destruct (C113_declares_partial long_sort same_opts force res f Hl Hs Hf) as (a & Ea & Pa).
  destruct (C113_declares_partial long_sort same_opts force res g Hl Hs Hg) as (b & Eb & Pb).
  rewrite E in Ea. rewrite Ea in Eb. injection Eb as <-. now rewrite <- Pa.
Qed.
(** the two orders of declaring an enum's values, which print alike *)
Definition swapped : fdesc := enum_file [EValue (b_ "MINUS") (-1) []; EValue (b_ "ZERO") 0 []] (2, 2)%Z.
Definition straight : fdesc := enum_file [EValue (b_ "ZERO") 0 []; EValue (b_ "MINUS") (-1) []] (2, 2)%Z.
Example C113_same_text_case : swapped <> straight /\
  strip (print_file (fun l => l) (fun _ _ => false) false swapped) = strip (print_file (fun l => l) (fun _ _ => false) false straight) /\
  Permutation (desc_file swapped) (desc_file straight).
Proof.
  assert (E : strip (print_file (fun l => l) (fun _ _ => false) false swapped) = strip (print_file (fun l => l) (fun _ _ => false) false straight)) by (vm_compute; reflexivity).
  split; [discriminate|]. split; [exact E|].
  apply (C113_same_text_partial (fun l => l) (fun _ _ => false) false (fun _ _ n => n)); [easy|discriminate|apply swapped_ok|apply range_file_ok|exact E].
Qed.

(** An infinite default prints as +Inf, which no parser reads. *)
Theorem C113_infinity_refuted : exists f g, file_ok (fun _ _ n => n) (printed false []) g /\ f = default_file (VInf false) /\ g = default_file (VFloat 3 1) /\
  parse (strip (print_file (fun l => l) (fun _ _ => false) false f)) = None.
Proof. exists (default_file (VInf false)), (default_file (VFloat 3 1)). split; [apply default_ok|]. repeat split. Qed.
(** A default that is no number prints as NaN, an identifier of no value; it is written nan. *)
Theorem C113_nan_refuted : exists f ss, f = default_file VNan /\
  parse (strip (print_file (fun l => l) (fun _ _ => false) false f)) = Some ss /\
  In (FDefault (b_ "M.x") (SIdent (b_ "nan"))) (desc_file f) /\ In (FDefault (b_ "M.x") (SIdent (b_ "NaN"))) (file_facts (fun _ _ n => n) ss) /\
  ~ Permutation (file_facts (fun _ _ n => n) ss) (desc_file f).
Proof.
  exists (default_file VNan). eexists. split; [reflexivity|]. split; [vm_compute; reflexivity|].
  assert (Hin : In (FDefault (b_ "M.x") (SIdent (b_ "nan"))) (desc_file (default_file VNan))) by (vm_compute; tauto).
  split; [exact Hin|]. split; [vm_compute; tauto|]. intros H.
  apply (Permutation_in _ (Permutation_sym H)) in Hin. vm_compute in Hin. repeat (destruct Hin as [Hin|Hin]; [discriminate|]). exact Hin.
Qed.
(** A default that needs more than six digits after the point is rounded. *)
Theorem C113_rounding_refuted : exists f ss, f = default_file (VFloat 1 7) /\
  parse (strip (print_file (fun l => l) (fun _ _ => false) false f)) = Some ss /\ ~ Permutation (file_facts (fun _ _ n => n) ss) (desc_file f).
Proof.
  exists (default_file (VFloat 1 7)). eexists. split; [reflexivity|]. split; [vm_compute; reflexivity|]. intros H.
  assert (Hin : In (FDefault (b_ "M.x") (SNum (1 # 128))) (desc_file (default_file (VFloat 1 7)))) by (vm_compute; tauto).
  apply (Permutation_in _ (Permutation_sym H)) in Hin. vm_compute in Hin. repeat (destruct Hin as [Hin|Hin]; [discriminate|]). exact Hin.
Qed.
(** A message named like a statement cannot be the type of a field without label. *)
Theorem C113_keyword_refuted : exists f g, file_ok (fun _ _ n => n) (printed false []) g /\ f = type_file "reserved" /\ g = type_file "Result" /\
  parse (strip (print_file (fun l => l) (fun _ _ => false) false f)) = None.
Proof. exists (type_file "reserved"), (type_file "Result"). split; [apply type_ok|]. repeat split. Qed.
(** A file in an edition prints a syntax statement that names none. *)
Theorem C113_edition_refuted : exists f ss, f = empty_file Editions /\
  parse (strip (print_file (fun l => l) (fun _ _ => false) false f)) = Some ss /\ ~ Permutation (file_facts (fun _ _ n => n) ss) (desc_file f).
Proof.
  exists (empty_file Editions). eexists. split; [reflexivity|]. split; [vm_compute; reflexivity|]. intros H.
  assert (Hin : In (FSyntax Editions) (desc_file (empty_file Editions))) by (vm_compute; tauto).
  apply (Permutation_in _ (Permutation_sym H)) in Hin. vm_compute in Hin. repeat (destruct Hin as [Hin|Hin]; [discriminate|]). exact Hin.
Qed.
(** A range of reserved enum numbers loses its last number: the printer takes the end to be exclusive. *)
Theorem C113_reserved_refuted : exists f ss, f = enum_file [EValue (b_ "ZERO") 0 []] (2, 5)%Z /\
  parse (strip (print_file (fun l => l) (fun _ _ => false) false f)) = Some ss /\
  In (FReserved (OwEnum (b_ "E")) 2 5) (desc_file f) /\ ~ In (FReserved (OwEnum (b_ "E")) 2 5) (file_facts (fun _ _ n => n) ss) /\
  In (FReserved (OwEnum (b_ "E")) 2 4) (file_facts (fun _ _ n => n) ss).
Proof.
  exists (enum_file [EValue (b_ "ZERO") 0 []] (2, 5)%Z). eexists. split; [reflexivity|]. split; [vm_compute; reflexivity|]. split; [vm_compute; tauto|]. split.
  - intros Hin. vm_compute in Hin. repeat (destruct Hin as [Hin|Hin]; [discriminate|]). exact Hin.
  - vm_compute. tauto.
Qed.

(** ** C114: two words, numbers or strings are never printed without a blank between *)
Theorem C114_apart : forall long_sort same_opts force f, apart (print_file long_sort same_opts force f).
Proof. apply file_apart. Qed.
Example C114_case : apart (print_file (fun l => l) (fun _ _ => false) true sample) /\ ~ apart [W (b_ "message"); W (b_ "M")].
Proof. split; [apply C114_apart|]. intros H. inversion H; subst. discriminate. Qed.

(** ** C115: the first value of an enum *)
(** The printer sorts values by number, so the enum of a printed descriptor may have another default. *)
Theorem C115_first_value_refuted : exists f ss body, file_ok (fun _ _ n => n) (printed false (fd_package f)) f /\
  parse (strip (print_file (fun l => l) (fun _ _ => false) false f)) = Some ss /\ In (SEnum (b_ "E") body) ss /\
  (exists e, fd_enums f = [e] /\ en_name e = b_ "E" /\ hd_error (map v_name (en_values e)) = Some (b_ "ZERO")) /\ hd_error (value_names body) = Some (b_ "MINUS").
Proof.
  exists straight. eexists. eexists. split; [apply range_file_ok|]. split; [vm_compute; reflexivity|]. split; [vm_compute; right; left; reflexivity|].
  split; [eexists; repeat split|vm_compute; reflexivity].
Qed.
(** Partial: for the enums of the file whose first value has the least number and that have no more than
    twenty options, values and reservations. *)
Theorem C115_first_value_partial : forall long_sort same_opts force res f e v r,
  (forall l, Permutation (long_sort l) l) -> file_ok res (printed force (fd_package f)) f -> In e (fd_enums f) ->
  en_values e = v :: r -> Forall (fun w => (v_num v <= v_num w)%Z) r ->
  List.length (en_opts e) + List.length (en_values e) + List.length (en_ranges e) + List.length (en_names e) <= 20 ->
  exists ss body, parse (strip (print_file long_sort same_opts force f)) = Some ss /\ In (SEnum (en_name e) body) ss /\
    hd_error (value_names body) = Some (v_name v).
Proof.
  intros long_sort same_opts force res f e v r Hl Hf He Ev Hr Hlen.
  destruct (enum_first long_sort Hl force (fd_package f) (fd_package f) e v r) as (body & E & Hb).
  - now rewrite enum_addrs_length.
  - exact Ev.
  - unfold first_least. now rewrite Ev.
  - exists (ast_file long_sort same_opts force f), body. split; [apply parse_reads; now apply (file_reads long_sort Hl same_opts force res)|].
    split; [|exact Hb]. rewrite <- E. now apply (file_enum long_sort Hl same_opts force res f Hf).
Qed.
Example C115_case : exists ss body, parse (strip (print_file (fun l => l) (fun _ _ => false) false swapped)) = Some ss /\ In (SEnum (b_ "E") body) ss /\
    hd_error (value_names body) = Some (b_ "MINUS").
Proof.
  apply (C115_first_value_partial (fun l => l) (fun _ _ => false) false (fun _ _ n => n) swapped (Enum (b_ "E") [] [EValue (b_ "MINUS") (-1) []; EValue (b_ "ZERO") 0 []] [(2, 2)%Z] []) (EValue (b_ "MINUS") (-1) []) [EValue (b_ "ZERO") 0 []]);
  [easy|apply swapped_ok|now left|easy|repeat constructor; discriminate|cbn; lia].
Qed.

Print Assumptions C113_names_partial.
Print Assumptions C113_declares_partial.
Print Assumptions C113_same_text_partial.
Print Assumptions C113_nan_refuted.
Print Assumptions C113_infinity_refuted.
Print Assumptions C113_rounding_refuted.
Print Assumptions C113_keyword_refuted.
Print Assumptions C113_edition_refuted.
Print Assumptions C113_reserved_refuted.
Print Assumptions C114_apart.
Print Assumptions C115_first_value_refuted.
Print Assumptions C115_first_value_partial.
