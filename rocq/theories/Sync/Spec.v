From Verif Require Import Base Strs.
From Verif.Documents Require Import Model.
From Verif.Sync Require Import Model.
Open Scope list_scope.

(** what a client may do: open a document that is not open; change, save and close one that is; changes fit the
    text. Told is about the file on disk. *)
Definition legal (s : state) (e : event) : Prop :=
  match e with
  | Open _ _ => editor s = None
  | Edit c _ => exists t t', editor s = Some t /\ edited c t = Some t'
  | Save _ | Close => editor s <> None
  | Told a _ _ => a = AChange \/ a = ACreate \/ a = ADelete
  | _ => True
  end.
(** every event of a session satisfies [P] in the state it finds *)
Fixpoint along (P : state -> event -> Prop) (s : state) (es : list event) : Prop :=
  match es with
  | [] => True
  | e :: r => P s e /\ match step s e with Some s' => along P s' r | None => True end
  end.
(** what the workspace of the document holds of it *)
Definition held (s : state) (h : holding) : Prop := exists c, route s = Some c /\ ws s c = Some h.
(** the document is in a workspace that knows its file when it is opened, and stays in it while it is open *)
Definition settled (s : state) (e : event) : Prop :=
  match e with
  | Open _ proto => exists h, held s h /\ (proto = true -> h_path h = true)
  | Folders c _ => editor s = None \/ (c = route s /\ exists h, held s h)
  | _ => True
  end.
(** in addition, it is a protobuf document and while it is open its file is not deleted and its module stays; and
    no folder is added again that was there *)
Definition tidy (s : state) (e : event) : Prop :=
  settled s e /\
  match e with
  | Open _ proto => proto = true
  | Edit _ gone | Save gone => gone = false
  | Told a _ gone => editor s = None \/ (a <> ADelete /\ gone = false)
  | _ => True
  end.
