(** Model of how the descriptor printer takes the values of options apart: pkg/format/protoprint/print.go:1946-2008
    (valueToOptions, valueForOption), 2010-2060 (toUninterpretedOption, uninterpretedToOptions) and the values printOption
    accepts (1765-1793). *)
From Coq Require Import Ascii String ZArith.
From Verif Require Import Base Strs.
Open Scope list_scope.

(** values of fields; messages and other values by what is printed for them *)
Inductive value := VEnum (number : Z) | VOther (text : bytes).
(** a field that is set: one value, a list, or a map, whose keys are in order (sortKeys, see Steady); the entries of maps
    are printed as messages *)
Inductive field := Single (v : value) | Repeated (vs : list value) | Map (entries : list (bytes * value)).
Section Enum.
(** Values().ByNumber: the name of the first value of the enum with this number *)
Variable enum_name : Z -> option bytes.
(** how an entry of a map is printed *)
Variable entry_text : bytes -> value -> bytes.
(** 1994-2008 *)
Definition value_for_option (v : value) : option bytes := match v with VEnum n => enum_name n | VOther t => Some t end.
Fixpoint keep_some {A} (l : list (option A)) : list A := match l with [] => [] | Some x :: r => x :: keep_some r | None :: r => keep_some r end.
(** 1946-1992: the options made of the field [name], each with its name and value *)
Definition value_to_options (name : bytes) (f : field) : list (bytes * bytes) :=
  match f with
  | Single v => match value_for_option v with Some t => [(name, t)] | None => [] end
  | Repeated vs => map (pair name) (keep_some (map value_for_option vs))
  | Map es => map (fun e => (name, entry_text (fst e) (snd e)))
                (filter (fun e => match snd e with VEnum n => match enum_name n with Some _ => true | None => false end | VOther _ => true end) es)
  end.
End Enum.

(** descriptor.proto: UninterpretedOption; the message is taken as it is, or converted by writing and reading it (2010-2024) *)
Record part := mkPart { part_name : bytes; extension : bool }.
Record raw := mkRaw { parts : list part; identifier : option bytes; text : option bytes; double : option bytes; positive : option bytes; negative : option bytes; aggregate : option bytes }.
(** 2030-2039 *)
Fixpoint raw_name (first : bool) (ps : list part) : bytes :=
  match ps with
  | [] => []
  | p :: r => (if first then [] else b_ ".") ++ (if extension p then b_ "(" ++ part_name p ++ b_ ")" else part_name p) ++ raw_name false r
  end.
Section Print.
(** quotedString (2112 ff.) *)
Variable quoted : bytes -> bytes.
(** 2041-2055 and 1768-1793: what is printed for the value, numbers by their decimals; None: printOption panics *)
Definition raw_value (u : raw) : option bytes :=
  match identifier u, text u, double u, positive u, negative u, aggregate u with
  | Some i, _, _, _, _, _ => Some i
  | None, Some s, _, _, _, _ => Some (quoted s)
  | None, None, Some d, _, _, _ => Some d
  | None, None, None, Some n, _, _ => Some n
  | None, None, None, None, Some n, _ => Some n
  | None, None, None, None, None, Some a => Some (b_ "{ " ++ a ++ b_ " }")
  | None, None, None, None, None, None => None
  end.
Definition print_raw (u : raw) : option bytes := match raw_value u with Some v => Some (raw_name true (parts u) ++ b_ " = " ++ v) | None => None end.
End Print.
