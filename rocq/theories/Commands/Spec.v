From Coq Require Import Ascii String.
From Verif Require Import Base Strs.
From Verif.Workspaces Require Import Model.
From Verif.Commands Require Import Model.
Open Scope list_scope.

(** the value that counts of the members called [k]: the last *)
Definition member (k : bytes) (o : list (bytes * json)) (v : json) : Prop :=
  exists l r, o = l ++ (k, v) :: r /\ ~ In k (map fst r).
Definition has (k : bytes) (o : list (bytes * json)) : Prop := In k (map fst o).

Definition argument_free : list bytes := [b_ "protols/reindexWorkspaces"; b_ "protols/refreshModules"].
Definition typed : list bytes := [b_ "protols/syntheticFileContents"; b_ "protols/ast"; b_ "protols/goToGeneratedDefinition"].

(** an address that is not of the form the server takes for granted *)
Definition bad_address (o : list (bytes * json)) : Prop :=
  (exists v, member (b_ "uri") o v /\ forall u, v <> JStr u)
  \/ (~ has (b_ "uri") o /\ exists v, member (b_ "uris") o v /\ forall u l, v <> JArr (JStr u :: l))
  \/ (~ has (b_ "uri") o /\ ~ has (b_ "uris") o /\ exists v, member (b_ "workspace") o v
       /\ forall w u n, v = JObj w -> member (b_ "uri") w (JStr u) -> ~ member (b_ "name") w (JStr n)).

(** the messages that end the server *)
Definition deadly (cmd : bytes) (args : list json) : Prop :=
  ~ In cmd argument_free
  /\ (args = [] \/ ~ In cmd typed /\ exists o r, args = JObj o :: r /\ bad_address o).

(** the workspace that a URI belongs to *)
Definition belongs (parse : bytes -> option (bytes * bytes)) (order : list (bytes * cache)) (u : bytes) (c : cache) : Prop :=
  exists frag path, parse u = Some (frag, path) /\ cache_for_uri order u frag path = Served c.

(** the workspace that a message names: that of its "uri", else of the first of its "uris", else its "workspace" *)
Definition addressed (parse : bytes -> option (bytes * bytes)) (order : list (bytes * cache)) (o : list (bytes * json)) (c : cache) : Prop :=
  (exists u, member (b_ "uri") o (JStr u) /\ belongs parse order u c)
  \/ (~ has (b_ "uri") o /\ exists u l, member (b_ "uris") o (JArr (JStr u :: l)) /\ belongs parse order u c)
  \/ (~ has (b_ "uri") o /\ ~ has (b_ "uris") o /\ exists w u n, member (b_ "workspace") o (JObj w) /\
        member (b_ "uri") w (JStr u) /\ member (b_ "name") w (JStr n) /\ cache_for_workspace order (mkFolder u n) = Served c).
(** [k] is the only member of the object that is read as [f] *)
Definition only (f : bytes) (l r : list (bytes * json)) : Prop :=
  forall k, In k (map fst (l ++ r)) -> map lower k <> map lower f.
(** the commands that do something, and the workspace they do it in *)
Definition works (x : outcome) : Prop := x <> Crash /\ forall e, x <> Fail e.
