(** What a descriptor declares, in the terms of the grammar, and which descriptors are meant. *)
From Coq Require Import Ascii String NArith QArith Qreduction.
From Verif Require Import Base Strs.
From Verif.PrintTree Require Import Model Grammar.
Open Scope list_scope.
Open Scope nat_scope.

(** ** Values *)
Fixpoint mean (v : value) : sval :=
  match v with
  | VInt z => SNum (Qred (z # 1))
  | VFloat m e => SNum (Qred (m # Z.to_pos (2 ^ Z.of_nat e)))
  | VInf n => SIdent (b_ "inf")
  | VNan => SIdent (b_ "nan")
  | VStr s | VBytes s => SStr s
  | VBool b => SIdent (if b then b_ "true" else b_ "false")
  | VEnum n => SIdent n
  | VMsg fs => SMsg (map (fun kv => (fst kv, mean (snd kv))) fs)
  | VList vs => SList (map mean vs)
  end.
Definition opt_facts (ow : owner) (os : opts) : list fact := map (fun g => FOption ow (fst g) (map mean (snd g))) os.

(** ** Elements *)
Definition simple_type_of (k : fkind) : type := match k with KScalar t => TScalar t | KType n => TName n | _ => TScalar [] end.
Definition entry_part (e : msg) (number : Z) : type :=
  match find (fun f => (f_num f =? number)%Z) (m_fields e) with Some f => simple_type_of (f_kind f) | None => TScalar [] end.
Definition type_of (scope : bytes) (nested : list msg) (k : fkind) : type :=
  match k with
  | KGroup i => match nth_error nested i with Some m => TGroup (join scope (m_name m)) | None => TGroup [] end
  | KMap i => match nth_error nested i with Some e => TMap (entry_part e 1) (entry_part e 2) | None => TScalar [] end
  | k => simple_type_of k
  end.
(** the oneof of a field, unless it only stands for the keyword "optional" *)
Definition real_oneof (scope : bytes) (oos : list oneof) (f : field) : option bytes :=
  match f_oneof f with
  | Some o => match nth_error oos o with Some oo => if oo_synth oo then None else Some (join scope (oo_name oo)) | None => None end
  | None => None
  end.
Definition desc_field (scope : bytes) (oos : list oneof) (nested : list msg) (f : field) : list fact :=
  let full := join scope (f_name f) in
  match f_ext f with
  | Some x => [FExtension full x (f_card f) (f_optkw f) (type_of scope nested (f_kind f)) (f_num f)]
  | None => [FField full (real_oneof scope oos f) (f_card f) (f_optkw f) (type_of scope nested (f_kind f)) (f_num f); FJson full (f_json f)]
  end ++
  match f_default f with Some v => [FDefault full (mean v)] | None => [] end ++
  opt_facts (OwField full) (f_opts f).
Definition desc_enum (scope : bytes) (e : enum) : list fact :=
  let full := join scope (en_name e) in
  FEnum full :: opt_facts (OwEnum full) (en_opts e) ++
  flat_map (fun v => FValue full (v_name v) (v_num v) :: opt_facts (OwValue full (v_name v)) (v_opts v)) (en_values e) ++
  map (fun r => FReserved (OwEnum full) (fst r) (snd r)) (en_ranges e) ++ map (FReservedName (OwEnum full)) (en_names e).
Definition desc_method (scope : bytes) (m : method) : list fact :=
  let full := join scope (me_name m) in
  FMethod full (me_cs m) (me_in m) (me_ss m) (me_out m) :: opt_facts (OwMethod full) (me_opts m).
Definition desc_service (scope : bytes) (s : service) : list fact :=
  let full := join scope (se_name s) in
  FService full :: opt_facts (OwService full) (se_opts s) ++ flat_map (desc_method full) (se_methods s).
Definition desc_oneof (scope : bytes) (oo : oneof) : list fact :=
  if oo_synth oo then [] else FOneof (join scope (oo_name oo)) :: opt_facts (OwOneof (join scope (oo_name oo))) (oo_opts oo).
(** the messages that only stand for a map *)
Definition map_refs (fs : list field) : list nat := flat_map (fun f => match f_kind f with KMap i => [i] | _ => [] end) fs.
Definition group_refs (fs : list field) : list nat := flat_map (fun f => match f_kind f with KGroup i => [i] | _ => [] end) fs.
Fixpoint desc_message (scope : bytes) (m : msg) {struct m} : list fact :=
  match m with
  | Msg n _ os fs oos nested ens exts xrs rs ns =>
      let full := join scope n in
      FMessage full :: opt_facts (OwMessage full) os ++
      flat_map (desc_field full oos nested) fs ++ flat_map (desc_oneof full) oos ++
      List.concat (indexed (fun i x => if existsb (Nat.eqb i) (map_refs fs) then [] else x) (map (desc_message full) nested)) ++
      flat_map (desc_enum full) ens ++ flat_map (desc_field full [] nested) exts ++
      flat_map (fun x => FExtRange full (x_start x) (x_end x - 1)%Z :: opt_facts (OwRange full (x_start x) (x_end x - 1)%Z) (x_opts x)) xrs ++
      map (fun r => FReserved (OwMessage full) (fst r) (snd r - 1)%Z) rs ++ map (FReservedName (OwMessage full)) ns
  end.
Definition desc_file (f : fdesc) : list fact :=
  let p := fd_package f in
  [FSyntax (fd_syntax f)] ++
  match p with [] => [] | _ => [FPackage p] end ++ map (fun i => FImport (snd i) (fst i)) (fd_imports f) ++
  opt_facts OwFile (fd_opts f) ++ flat_map (desc_message p) (fd_messages f) ++ flat_map (desc_enum p) (fd_enums f) ++
  flat_map (desc_service p) (fd_services f) ++ flat_map (desc_field p [] (fd_messages f)) (fd_exts f).

(** ** Descriptors *)
Section Valid.
Variable res : use -> bytes -> bytes -> bytes.
(** the texts printed for a name, by use and scope *)
Variable printed : use -> bytes -> bytes -> bytes.
Variable syn : syntax.

(** a name is found again in scope [s'] when it was printed for scope [s] *)
Definition found (u : use) (s s' n : bytes) : Prop := res u s' (printed u s n) = n.
(** a type is found again and cannot be taken for a keyword or a scalar type *)
Definition type_words : list bytes := keywords CMessage ++ [b_ "stream"].
Definition type_found (s s' n : bytes) : Prop :=
  found UType s s' n /\ ~ In (head_word (printed UType s n)) type_words /\ ~ In (printed UType s n) scalars.

(** numbers with at most six binary places; the extensions in messages are found again *)
Inductive value_ok (scope : bytes) : value -> Prop :=
| ok_int z : value_ok scope (VInt z)
| ok_float m e : e <= 6 -> value_ok scope (VFloat m e)
| ok_str s : value_ok scope (VStr s)
| ok_bytes s : value_ok scope (VBytes s)
| ok_bool b : value_ok scope (VBool b)
| ok_enum n : value_ok scope (VEnum n)
| ok_msg fs : (forall k v, In (k, v) fs -> match k with FExt n => found ULiteral scope scope n | _ => True end /\ value_ok scope v) -> value_ok scope (VMsg fs)
| ok_list vs : (forall v, In v vs -> value_ok scope v) -> value_ok scope (VList vs).
Definition opts_ok (u : use) (scope : bytes) (os : opts) : Prop :=
  NoDup (map fst os) /\
  (forall n vs, In (n, vs) os -> vs <> [] /\ (forall v, In v vs -> value_ok scope v) /\ match n with OExt x => found u scope scope x | _ => True end).

Definition kind_ok (scope : bytes) (nested : list msg) (k : fkind) : Prop :=
  match k with
  | KScalar t => In t scalars
  | KType n => type_found scope scope n
  | KGroup i => exists m, nth_error nested i = Some m
  | KMap i =>
      exists e kf vf, nth_error nested i = Some e /\ find (fun f => (f_num f =? 1)%Z) (m_fields e) = Some kf /\
        find (fun f => (f_num f =? 2)%Z) (m_fields e) = Some vf /\
        (exists t, f_kind kf = KScalar t /\ In t scalars) /\
        match f_kind vf with KScalar t => In t scalars | KType n => type_found scope scope n | _ => False end
  end.
(** [real]: the field is in a oneof of the source *)
Definition label_ok (real : bool) (f : field) : Prop :=
  match f_kind f with
  | KMap _ => f_card f = Repeated /\ f_optkw f = false /\ f_oneof f = None /\ f_ext f = None
  | _ =>
      match f_oneof f with
      | Some _ => f_card f = Optional /\ f_optkw f = negb real
      | None => real = false /\ match f_card f with Optional => syn = Proto2 -> f_optkw f = true | _ => f_optkw f = false end
      end
  end.
Definition field_ok (scope : bytes) (oos : list oneof) (nested : list msg) (f : field) : Prop :=
  kind_ok scope nested (f_kind f) /\
  label_ok (match real_oneof scope oos f with Some _ => true | None => false end) f /\
  (forall o, f_oneof f = Some o -> o < List.length oos) /\
  (forall i m, f_kind f = KGroup i -> nth_error nested i = Some m -> f_name f = lower (m_name m)) /\
  opts_ok UOption (join scope (f_name f)) (f_opts f) /\
  ~ In (OPlain (b_ "default")) (map fst (f_opts f)) /\ ~ In (OPlain (b_ "json_name")) (map fst (f_opts f)) /\
  (forall v, f_default f = Some v -> value_ok (join scope (f_name f)) v /\ syn <> Proto3) /\
  f_json f <> [].
Definition exts_ok (scope : bytes) (nested : list msg) (fs : list field) : Prop :=
  Forall (fun f => field_ok scope [] nested f /\ f_oneof f = None /\ (exists x, f_ext f = Some x /\ type_found scope scope x) /\ ~ (exists i, f_kind f = KMap i)) fs.
Definition enum_ok (scope : bytes) (e : enum) : Prop :=
  opts_ok UOption (join scope (en_name e)) (en_opts e) /\
  Forall (fun v => opts_ok UOption (join scope (v_name v)) (v_opts v) /\ v_name v <> b_ "option" /\ v_name v <> b_ "reserved") (en_values e) /\
  Forall (fun r => fst r = snd r) (en_ranges e) /\ NoDup (en_ranges e) /\ NoDup (en_names e).
Definition int32 (z : Z) : Prop := (-2147483648 <= z <= 2147483647)%Z.
Definition range_ok (r : Z * Z) : Prop := int32 (fst r) /\ int32 (snd r) /\ (fst r < snd r)%Z.
Definition set_option : oname * list value := (OPlain (b_ "message_set_wire_format"), [VBool true]).
Fixpoint message_ok (scope : bytes) (m : msg) {struct m} : Prop :=
  match m with
  | Msg n set os fs oos nested ens exts xrs rs ns =>
      let full := join scope n in
      opts_ok UMessageOption full os /\ (set = true <-> In set_option os) /\
      (forall vs, In (OPlain (b_ "message_set_wire_format"), vs) os -> exists b, vs = [VBool b]) /\
      Forall (fun f => field_ok full oos nested f /\ f_ext f = None) fs /\
      (forall o oo, nth_error oos o = Some oo -> exists f, In f fs /\ f_oneof f = Some o) /\
      Forall (fun oo => opts_ok UOption (join full (oo_name oo)) (oo_opts oo)) oos /\
      exts_ok full nested exts /\ NoDup (map_refs fs ++ group_refs fs ++ group_refs exts) /\
      Forall (enum_ok full) ens /\
      Forall (fun x => range_ok (x_start x, x_end x) /\ opts_ok UMessageOption full (x_opts x)) xrs /\ Forall range_ok rs /\
      (fix all (i : nat) (l : list msg) : Prop := match l with [] => True | x :: r => (~ In i (map_refs fs) -> message_ok full x) /\ all (S i) r end) 0 nested
  end.
Definition service_ok (pkg : bytes) (s : service) : Prop :=
  let full := join pkg (se_name s) in
  opts_ok UOption full (se_opts s) /\
  Forall (fun m => type_found pkg full (me_in m) /\ type_found pkg full (me_out m) /\ opts_ok UOption (join full (me_name m)) (me_opts m)) (se_methods s).
End Valid.
(** A valid descriptor, without editions; enums only reserve single numbers *)
Definition file_ok (res printed : use -> bytes -> bytes -> bytes) (f : fdesc) : Prop :=
  let syn := fd_syntax f in let p := fd_package f in
  syn <> Editions /\ NoDup (map fst (fd_imports f)) /\ opts_ok res printed UOption p (fd_opts f) /\
  Forall (message_ok res printed syn p) (fd_messages f) /\ Forall (enum_ok res printed p) (fd_enums f) /\
  Forall (service_ok res printed p) (fd_services f) /\
  exts_ok res printed syn p (fd_messages f) (fd_exts f) /\ NoDup (group_refs (fd_exts f)).

(** ** Blanks: words, numbers and strings do not touch *)
Definition wordy (t : tok) : bool := match t with W _ | TS _ | TI _ | TF _ => true | _ => false end.
Inductive apart : list tok -> Prop :=
| apart_nil : apart []
| apart_one t : apart [t]
| apart_cons t u r : wordy t && wordy u = false -> apart (u :: r) -> apart (t :: u :: r).

(** ** The first value of an enum, its default in proto2 and the one that must be zero in proto3 *)
Definition value_names (body : list stmt) : list bytes := flat_map (fun s => match s with SValue n _ _ => [n] | _ => [] end) body.
Definition first_least (e : enum) : Prop := match en_values e with [] => True | v :: r => Forall (fun w => (v_num v <= v_num w)%Z) r end.
