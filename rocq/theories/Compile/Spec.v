(** The per-file status a user would expect, computed from the history alone. *)
From Verif Require Import Base.
From Verif.Compile Require Import Model.

Inductive status := Never | IsLinked (r : rid) | IsPartial (r : rid) | IsUnlinked (r : rid).

Definition ipath (i : item) : path := fst (fst i).
Definition ires (i : item) : rid := snd (fst i).

(** the compiler reports a path at most once, in one of the three groups *)
Definition wf_report (rp : report) : Prop :=
  NoDup (map ipath (r_files rp ++ r_partial rp ++ r_unlinked rp)).

(** what one compilation says about [p] *)
Inductive says (rp : report) (p : path) : status -> Prop :=
| says_linked r g : In (p, r, g) (r_files rp) -> says rp p (IsLinked r)
| says_partial r g : In (p, r, g) (r_partial rp) -> says rp p (IsPartial r)
| says_unlinked r g : In (p, r, g) (r_unlinked rp) -> says rp p (IsUnlinked r).

Definition silent (rp : report) (p : path) : Prop := forall st, ~ says rp p st.

(** [latest h p st]: after history [h] (oldest first) the latest word on [p] is
    [st]: what the latest compilation that mentioned it said, unless the file
    was deleted since. *)
Inductive latest : list op -> path -> status -> Prop :=
| l_init p : latest [] p Never
| l_say h pre rp p st : says rp p st -> latest (h ++ [Compile pre (Some rp)]) p st
| l_silent h pre rp p st : silent rp p -> latest h p st -> latest (h ++ [Compile pre (Some rp)]) p st
| l_failed h pre p st : latest h p st -> latest (h ++ [Compile pre None]) p st
| l_deleted h p : latest (h ++ [Invalidate p false]) p Never
| l_other h p q st : q <> p -> latest h p st -> latest (h ++ [Invalidate q false]) p st
| l_changed h p q st : latest h p st -> latest (h ++ [Invalidate q true]) p st.

(** Well-behaved histories: reports are well-formed, a compilation reports every
    path it started to compile (in particular it does not fail as a whole after
    starting one), and a deleted file was not partially linked or unlinked. *)
Fixpoint well_behaved_from (pre_h h : list op) : Prop :=
  match h with
  | [] => True
  | o :: h' =>
      (match o with
       | Compile pre (Some rp) => wf_report rp /\ forall p, In p pre -> exists st, says rp p st
       | Compile pre None => pre = []
       | Invalidate p false => exists st, latest pre_h p st /\ (st = Never \/ exists r, st = IsLinked r)
       | Invalidate p true => True
       end) /\ well_behaved_from (pre_h ++ [o]) h'
  end.
Definition well_behaved (h : list op) : Prop := well_behaved_from [] h.

Definition wf_history (h : list op) : Prop :=
  forall pre rp, In (Compile pre (Some rp)) h -> wf_report rp.

(** latest pragma table reported for [p] *)
Definition reported_prag (rp : report) (p : path) (g : prag) : Prop :=
  exists r, In (p, r, g) (r_files rp) \/ In (p, r, g) (r_partial rp) \/ In (p, r, g) (r_unlinked rp).
Inductive latest_prag : list op -> path -> option prag -> Prop :=
| lp_init p : latest_prag [] p None
| lp_say h pre rp p g : reported_prag rp p g -> latest_prag (h ++ [Compile pre (Some rp)]) p (Some g)
| lp_silent h pre rp p v : (forall g, ~ reported_prag rp p g) -> latest_prag h p v ->
    latest_prag (h ++ [Compile pre (Some rp)]) p v
| lp_failed h pre p v : latest_prag h p v -> latest_prag (h ++ [Compile pre None]) p v
| lp_inval h p q b v : latest_prag h p v -> latest_prag (h ++ [Invalidate q b]) p v.
