From Coq Require Import Ascii String.
From Verif Require Import Base Strs.
From Verif.CodeActions Require Import Model.
Open Scope list_scope.

(** Kinds are paths of dot-separated segments; a kind includes its extensions. *)
Definition includes (o k : bytes) : Prop := exists rest, split_on "."%char k = split_on "."%char o ++ rest.
(** the kinds of actions there are, and one that has to be asked for *)
Definition kinds : list bytes := map b_ ["source.fixAll"; "source.organizeImports"; "quickfix"; "refactor.rewrite"; "refactor.inline"; "refactor.extract"]%string.
Definition only_on_request : bytes := b_ "source.test".

(** the kinds a client asked for *)
Definition wanted (only : list bytes) (k : bytes) : Prop :=
  match only with
  | [] => In k kinds
  | _ => (In k kinds /\ exists o, In o only /\ includes o k) \/ (In k only /\ k = only_on_request)
  end.

(** all edits of the organize-imports actions for one document, in order *)
Definition organize_edits (u : nat) (acts : list action) : list edit :=
  flat_map (fun a => if beq (kind a) organize
                     then flat_map (fun c => if u =? fst c then snd c else []) (chg a) else []) acts.
Definition deletions (es : list edit) : list edit := filter (fun e => match etext e with [] => true | _ => false end) es.
Definition insertions (es : list edit) : list edit := filter (fun e => match etext e with [] => false | _ => true end) es.
Definition all_organize_edits (acts : list action) : list edit :=
  flat_map (fun a => if beq (kind a) organize then flat_map snd (chg a) else []) acts.
(** the documents of the organize-imports actions *)
Definition single_document (u : nat) (acts : list action) : Prop :=
  forall a c, In a acts -> kind a = organize -> In c (chg a) -> fst c = u.
(** [b] is [a] with repeated texts left out *)
Fixpoint first_texts (seen : list bytes) (es : list edit) : list edit :=
  match es with
  | [] => []
  | e :: r => if existsb (beq (etext e)) seen then first_texts seen r else e :: first_texts (etext e :: seen) r
  end.

Fixpoint count (id : nat) (l : list nat) : nat :=
  match l with [] => 0 | x :: r => (if x =? id then 1 else 0) + count id r end.

(** An action is available from being stored until it is resolved or its
    deadline removes it. *)
Fixpoint available_from (id : nat) (es : list qevent) (now : bool) : bool :=
  match es with
  | [] => now
  | QStore i :: r => available_from id r (now || (i =? id))
  | QDelete i :: r => available_from id r (now && negb (i =? id))
  | QResolve (Some i) :: r => available_from id r (now && negb (i =? id))
  | _ :: r => available_from id r now
  end.
Definition available (id : nat) (es : list qevent) : bool := available_from id es false.

(** no deadline passes while its action is still being stored *)
Definition prompt (es : list qevent) : Prop :=
  forall a b id, es = a ++ QExpire id :: b -> In (QStore id) a.
