(** What the types offered should be, in terms of names as lists of parts. *)
From Coq Require Import Ascii String.
From Verif Require Import Base Strs.
From Verif.Completion Require Import Model Spec.
From Verif.Types Require Import Model.
Open Scope list_scope.

(** What a name written in a scope means, by the language's rules: with a leading dot it is the full name;
    otherwise it is resolved from the inside out. *)
Definition means (declared : list (list bytes)) (scope : list bytes) (text : bytes) (T : list bytes) : Prop :=
  match text with
  | c :: r => if Ascii.eqb c "."%char then split_on "."%char r = T /\ In T declared
              else resolve declared (rev scope) (split_on "."%char text) = Some T
  | [] => False
  end.
(** whatever contains something declared is declared: packages and messages *)
Definition closed (declared : list (list bytes)) : Prop := forall a b, a <> [] -> In (a ++ b) declared -> In a declared.
(** an inner scope than [base] declares something called [h] *)
Definition captured (declared : list (list bytes)) (scope base : list bytes) (h : bytes) : Prop :=
  exists S rest, scope = S ++ rest /\ List.length base < List.length S /\ In (S ++ [h]) declared.

(** a type that can be named in a declaration *)
Definition usable (d : desc) : Prop := d_kind d = KEnum \/ exists r, d_kind d = KMessage false r.
Definition extendable (d : desc) : Prop := d_kind d = KMessage false true.
(** a descriptor of one of the files, which has a package *)
Definition packaged (fs : list file) (f : file) (d : desc) : Prop := In f fs /\ f_pkg f <> [] /\ In d (f_descs f).
Definition begins (n p : bytes) : Prop := exists r, n = p ++ r.
(** the search that is made for what has been typed *)
Definition sought (fs : list file) (partial : bytes) (d : desc) : Prop :=
  exists f, packaged fs f d /\
    ((~ In "."%char partial /\ begins (d_name d) (f_pkg f ++ b_ "." ++ partial)) \/
     (In "."%char partial /\ ~ begins partial (b_ ".") /\ begins (d_name d) partial) \/
     (exists p, partial = b_ "." ++ p /\ begins (d_name d) p /\ begins (f_pkg f) p)).
(** offered: some item is for it *)
Definition offered (items : list titem) (d : desc) : Prop := exists i, In i items /\ t_desc i = d.
(** what has been typed can be continued to a name of the type *)
Definition wanted (declared : list (list bytes)) (scope : list bytes) (partial : bytes) (T : list bytes) : Prop :=
  exists rest, means declared scope (partial ++ rest) T.
