(** What a notification says about the files of a workspace. *)
From Coq Require Import ZArith List Bool.
From Verif Require Import Base.
From Verif.Versions Require Import Model.
From Verif.Documents Require Import Model.
From Verif.Events Require Import Model.
Import ListNotations.

(** the events of a notification, in order: a rename is the old file's end and the new one's beginning *)
Definition events (n : notification) : list (uri * action) :=
  match n with
  | Watched l => map (fun '(u, t) => (u, match t with Created => ACreate | Changed => AChange | Deleted => ADelete | Unknown => AUnknown end)) l
  | DidCreate us => map (fun u => (u, ACreate)) us
  | DidDelete us => map (fun u => (u, ADelete)) us
  | DidRename l => flat_map (fun '(o, n) => [(o, ADelete); (n, ACreate)]) l
  end.
Definition told (m : modification) : uri * action := (m_uri m, m_action m).
(** those of files of a workspace *)
Definition concerns (is_file : uri -> bool) (cache_for : uri -> option cache) (c : cache) (e : uri * action) : bool :=
  (is_file (fst e) && match cache_for (fst e) with Some c' => Nat.eqb c' c | None => false end)%bool.
(** what a workspace is told *)
Definition delivered (c : cache) (g : groups) : list modification := flat_map (fun e => if Nat.eqb (fst e) c then snd e else []) g.
