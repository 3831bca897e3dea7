(** Vocabulary for C37, C39 and C64-C68. *)
From Coq Require Import Ascii String NArith.
From Verif Require Import Base Strs Paths.
From Verif.Resolver Require Import Model.
Open Scope list_scope.

(** ** C37 *)
(** documents and import paths correspond one to one *)
Definition inverse (m : maps) : Prop :=
  (forall u p, uri_to_path m u = Some p -> path_to_uri m p = Some u) /\
  (forall p u, ~ In semi p -> path_to_uri m p = Some u -> uri_to_path m u = Some p).

(** the pair an operation is about to record, if any *)
Definition binding (folder : bytes) (m : maps) (o : op) : option (uri * path) :=
  match o with
  | Change u f (LPackage pkg) =>      (* an edit records a path only if it differs from the recorded one *)
      if is_local_module (srcs m u) && negb (beq (canonical pkg f) (match paths m u with Some p => p | None => [] end))
      then Some (u, canonical pkg f) else None
  | Create u f LNoModule => Some (u, trim_prefix f (folder ++ [slash]))
  | Create u f (LPackage pkg) => Some (u, canonical pkg f)
  | Found u p _ => Some (u, p)
  | _ => None
  end.
(** does the operation replace the document's path, as an edit of go_package does? *)
Definition replaces (o : op) : bool := match o with Change _ _ _ => true | _ => false end.
(** the recorded pair agrees with what is already known, and the path is usable *)
Definition harmless (folder : bytes) (m : maps) (o : op) : Prop :=
  match binding folder m o with
  | None => True
  | Some (u, p) =>
      p <> [] /\ ~ In semi p /\
      (uris m p = None \/ uris m p = Some u) /\
      (replaces o = true \/ paths m u = None \/ paths m u = Some p)
  end.
Fixpoint all_harmless (folder : bytes) (m : maps) (ops : list op) : Prop :=
  match ops with
  | [] => True
  | o :: r => harmless folder m o /\ all_harmless folder (step folder m o) r
  end.
(** all pairs recorded in a history, oldest first *)
Fixpoint bindings (folder : bytes) (m : maps) (ops : list op) : list (uri * path) :=
  match ops with
  | [] => []
  | o :: r => match binding folder m o with Some b => [b] | None => [] end ++ bindings folder (step folder m o) r
  end.
(** [b] is the latest pair in [l] satisfying [f] *)
Definition latest {A} (f : A -> bool) (l : list A) : option A := find f (rev l).

(** ** C65 *)
(** the document [u] is what was served *)
Definition serves (m : maps) (u : uri) (o : origin) : Prop :=
  match o with
  | FromFile u' _ => u = u'
  | FromModule u' => u = u'
  | FromRegistry t | FromSynthetic t => synth m u = Some t
  | FromDescriptor _ => is_synthetic u = true
  end.

(** ** C39 *)
Definition blank (c : ascii) : Prop := c = " "%char \/ c = Ascii.ascii_of_nat 9.
Definition blanks (s : bytes) : Prop := Forall blank s.
(** option go_package = "[p][;alias]"; and a rest without double quotes *)
Definition go_package_line (p : bytes) (line : bytes) : Prop :=
  exists w1 w2 w3 alias w4 rest,
    blanks w1 /\ blanks w2 /\ blanks w3 /\ blanks w4 /\
    p <> [] /\ ~ In dq p /\ ~ In semi p /\
    (alias = [] \/ exists a, alias = semi :: a /\ ~ In dq a) /\ ~ In dq rest /\
    line = b_ "option" ++ w1 ++ b_ "go_package" ++ w2 ++ eqc :: w3 ++ dq :: p ++ alias ++ dq :: w4 ++ semi :: rest.
(** a line that has nothing to do with go_package *)
Definition other_line (l : bytes) : Prop := has_prefix l (b_ "option") = false \/ index_sub l (b_ "go_package") = None.

(** ** C68 *)
(** [c] is the file [base] in the directory obtained by laying the directory [target] over the
    directory [source] so that they agree in at least one component; [n] is how far they agree *)
Fixpoint agreement (a b : list bytes) : nat :=
  match a, b with x :: a', y :: b' => if beq x y then S (agreement a' b') else 0 | _, _ => 0 end.
Definition overlay (source target : list bytes) (base : bytes) (c : bytes) (n : nat) : Prop :=
  exists pre rest, source = pre ++ rest /\ n = agreement target rest /\ 0 < n /\ c = abs (pre ++ target ++ [base]).

(** ** C67 *)
(** events for the files of a workspace whose folder is a Go module: directory [abs md], name [rel mn] *)
Definition module_event (md mn : list bytes) (o : op) : Prop :=
  let file f := exists d g, f = abs (md ++ d ++ [g]) /\ Forall normal (d ++ [g]) /\ Forall (fun c => ~ In semi c) (d ++ [g]) in
  let answer f r := r = LOpenError \/ exists text, r = lookup_go_module (Some (abs md, rel mn)) f text in
  match o with
  | Create u f r | Change u f r => u = uri_of_file f /\ file f /\ answer f r
  | Delete u => exists f, u = uri_of_file f /\ file f
  | _ => False
  end.
(** events for the files of a workspace without a Go module, in the folder [abs wd] *)
Definition plain_event (wd : list bytes) (o : op) : Prop :=
  let file f := exists d, f = abs (wd ++ d) /\ d <> [] /\ Forall normal d /\ Forall (fun c => ~ In semi c) d in
  match o with
  | Create u f r | Change u f r => u = uri_of_file f /\ file f /\ (r = LOpenError \/ exists text, r = lookup_go_module None f text)
  | Delete u => exists f, u = uri_of_file f /\ file f
  | _ => False
  end.

(** ** C64 *)
(** the document an answer comes from: a file, the registry's text, or a descriptor made from Go code *)
Definition same_document (a b : origin) : Prop :=
  match a, b with
  | (FromFile u _ | FromModule u), (FromFile v _ | FromModule v) => u = v
  | FromRegistry t, FromRegistry t' => t = t'
  | FromSynthetic t, FromSynthetic t' => t = t'
  | FromDescriptor d, FromDescriptor d' => d = d'
  | _, _ => False
  end.

(** ** C37: is the file there after the events? *)
Definition present (u : uri) (ops : list op) : bool :=
  fold_left (fun b o => match o with
    | Create v _ r => if beq v u then match r with LOpenError | LError => b | _ => true end else b
    | Delete v => if beq v u then false else b
    | _ => b
    end) ops false.

(** ** C64, C65: a sequence of lookups in one environment *)
Definition lookups (e : env) (ps : list path) : maps := fold_left (fun m p => fst (find_file e m p)) ps init.
(** no document is open or on disk for the path *)
Definition no_document (e : env) (m : maps) (p : path) : Prop :=
  uris m p = None \/ exists u, uris m p = Some u /\ (is_synthetic u = true \/ e_read e u = None).
(** the environment: generated Go code never claims a google/ path, and the .proto files of Go modules
    are file: documents that can be read and are at most 1 MiB long *)
Definition alternates_plain (e : env) : Prop := forall q a d, e_module e q = MGenerated (Some a) d -> well_known a = false.
Definition modules_readable (e : env) : Prop := forall q u l, e_module e q = MSource u true l ->
  is_synthetic u = false /\ exists t, e_read e u = Some t /\ large (List.length t) = false.
