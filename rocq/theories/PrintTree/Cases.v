(** Concrete files. *)
From Coq Require Import Ascii String NArith QArith Qreduction Permutation.
From Verif Require Import Base Strs.
From Verif.PrintTree Require Import Model Grammar Spec Ast.
Open Scope list_scope.
Open Scope nat_scope.

(** name lookup as in protoc: a leading dot is absolute, otherwise the innermost scope that has the name *)
Definition dots (l : list bytes) : bytes := match l with [] => [] | w :: r => w ++ flat_map (fun x => "."%char :: x) r end.
Fixpoint outer (n : nat) (parts : list bytes) : list bytes := dots (firstn n parts) :: match n with 0 => [] | S n' => outer n' parts end.
Definition lookup (defined : list bytes) (_ : use) (scope n : bytes) : bytes :=
  match n with
  | "."%char :: r => r
  | _ => let parts := split_on "." scope in
         match find (fun c => mem c defined) (map (fun s => join s n) (outer (List.length parts) parts)) with Some c => c | None => n end
  end.

Definition fld (n : string) (num : Z) (c : card) (kwd : bool) (k : fkind) (o : option nat) (x : option bytes) (os : opts) (d : option value) (j : string) : field :=
  Field (b_ n) num c kwd k o x os d (b_ j).
Definition entry : msg :=
  Msg (b_ "TagsEntry") false [(OPlain (b_ "map_entry"), [VBool true])]
    [fld "key" 1 Optional true (KScalar (b_ "string")) None None [] None "key"; fld "value" 2 Optional true (KType (b_ "a.b.M.Kind")) None None [] None "value"]
    [] [] [] [] [] [] [].
Definition grp : msg := Msg (b_ "Part") false [] [fld "z" 3 Required false (KScalar (b_ "bytes")) None None [] (Some (VBytes [ascii_of_N 255; "x"%char])) "z"] [] [] [] [] [] [] [].
Definition kind : enum :=
  Enum (b_ "Kind") [(OPlain (b_ "allow_alias"), [VBool true])]
    [EValue (b_ "UNKNOWN") 0 []; EValue (b_ "LOW") (-2) [(OExt (b_ "a.b.mark"), [VStr (b_ "low")])]; EValue (b_ "NONE") 0 []] [(7%Z, 7%Z); (9%Z, 9%Z)] [b_ "OLD"].
Definition message : msg :=
  Msg (b_ "M") false
    [(OExt (b_ "a.b.info"), [VMsg [(FName (b_ "ratio"), VFloat (-5) 2); (FExt (b_ "a.b.mark"), VList [VInt 3; VInt (-4)])]]); (OPlain (b_ "deprecated"), [VBool true])]
    [fld "id" 4 Optional true (KScalar (b_ "int32")) None None [(OPlain (b_ "deprecated"), [VBool true])] (Some (VInt (-1))) "ident";
     fld "tags" 5 Repeated false (KMap 0) None None [] None "tags";
     fld "part" 6 Repeated false (KGroup 1) None None [] None "part";
     fld "first" 8 Optional false (KScalar (b_ "string")) (Some 0) None [] None "first";
     fld "second_choice" 7 Optional false (KType (b_ "x.Other")) (Some 0) None [] None "secondChoice"]
    [Oneof (b_ "choice") false [(OExt (b_ "a.b.mark"), [VStr (b_ "c"); VStr (b_ "d")])]]
    [entry; grp; Msg (b_ "Empty") true [set_option] [] [] [] [] [] [XRange 4 2147483647 []] [] []]
    [kind]
    [fld "inner" 101 Optional true (KType (b_ "a.b.M")) None (Some (b_ "a.b.M")) [] None "inner"]
    [XRange 100 200 [(OExt (b_ "a.b.mark"), [VStr (b_ "r")])]; XRange 300 536870912 []] [(10%Z, 20%Z); (30%Z, 31%Z)] [b_ "gone"; b_ "lost"].
Definition sample : fdesc :=
  FDesc Proto2 (b_ "a.b") [(b_ "x.proto", IPublic); (b_ "google/protobuf/descriptor.proto", INone)]
    [(OPlain (b_ "go_package"), [VStr (b_ "example.com/a")])]
    [message] [kind]
    [Service (b_ "S") [(OPlain (b_ "deprecated"), [VBool true])]
       [Method (b_ "Get") (b_ "a.b.M") (b_ "x.Other") false true [(OPlain (b_ "idempotency_level"), [VEnum (b_ "IDEMPOTENT")])]; Method (b_ "Put") (b_ "a.b.M") (b_ "a.b.M") true false []]]
    [fld "mark" 50001 Optional true (KScalar (b_ "string")) None (Some (b_ "google.protobuf.MessageOptions")) [] None "mark";
     fld "info" 50002 Optional true (KType (b_ "a.b.M")) None (Some (b_ "google.protobuf.MessageOptions")) [] None "info"].
Definition names : list bytes :=
  map b_ ["a.b.M"; "a.b.M.Kind"; "a.b.Kind"; "a.b.M.Part"; "a.b.M.TagsEntry"; "a.b.mark"; "a.b.info"; "x.Other"; "google.protobuf.MessageOptions"]%string.

Lemma nodup_dec {A} (dec : forall x y : A, {x = y} + {x <> y}) l : nodup dec l = l -> NoDup l.
Proof. intros <-. apply NoDup_nodup. Qed.
Definition zz_dec : forall x y : Z * Z, {x = y} + {x <> y}.
Proof. decide equality; apply Z.eq_dec. Defined.
Ltac nodup := first [apply (nodup_dec oname_dec); vm_compute; reflexivity | apply (nodup_dec Nat.eq_dec); vm_compute; reflexivity
  | apply (nodup_dec (list_eq_dec ascii_dec)); vm_compute; reflexivity | apply (nodup_dec zz_dec); vm_compute; reflexivity].
Ltac not_in := let H := fresh in vm_compute; intros H; repeat (destruct H as [H|H]; [discriminate|]); destruct H.
Ltac value := first [apply ok_int | apply ok_float; lia | apply ok_str | apply ok_bytes | apply ok_bool | apply ok_enum
  | apply ok_list; let H := fresh in intros ? H; repeat (destruct H as [<-|H]; [value|]); destruct H
  | apply ok_msg; let H := fresh in intros ? ? H; repeat (destruct H as [H|H]; [injection H as <- <-; split; [first [exact I | vm_compute; reflexivity]|value]|]); destruct H].
Ltac one := let H := fresh in intros H; repeat (destruct H as [H|H]; [|]).
Ltac opts_ := split; [nodup|let H := fresh in intros ? ? H; repeat (destruct H as [H|H]; [injection H as <- <-; split; [discriminate|split; [let K := fresh in intros ? K; repeat (destruct K as [<-|K]; [value|]); destruct K|first [exact I | vm_compute; reflexivity]]]|]); destruct H].
Ltac scalar := vm_compute; tauto.
Ltac found_ := split; [vm_compute; reflexivity|split; not_in].
Ltac kind_ := unfold kind_ok; cbn -[scalars In]; first [scalar | found_ | eexists; reflexivity
  | do 3 eexists; split; [reflexivity|split; [reflexivity|split; [reflexivity|split; [eexists; split; [reflexivity|scalar]|cbn -[scalars In]; first [scalar|found_]]]]]].
Ltac field_ := split; [kind_|split; [vm_compute; intuition congruence|split; [let H := fresh in vm_compute; intros ? H; first [discriminate | injection H as <-; lia]
  |split; [let H := fresh in let K := fresh in intros ? ? H K; try discriminate H; injection H as <-; injection K as <-; reflexivity|split; [opts_|split; [not_in|split; [not_in|split; [let H := fresh in intros ? H; first [discriminate | injection H as <-; split; [value|discriminate]]|discriminate]]]]]]]].
Ltac fa tac := repeat (apply Forall_cons; [tac|]); apply Forall_nil.
Ltac ext_ := split; [field_|split; [reflexivity|split; [eexists; split; [reflexivity|found_]|let H := fresh in intros (? & H); discriminate]]].
Ltac enum_ := split; [opts_|split; [fa ltac:(split; [opts_|split; discriminate])|split; [fa ltac:(reflexivity)|split; nodup]]].
Ltac msg_ := cbn [message_ok]; cbv zeta; split; [opts_|split; [vm_compute; intuition (try discriminate)|split; [let H := fresh in intros ? H; repeat (destruct H as [H|H]; [first [discriminate | injection H as <-; eexists; reflexivity]|]); destruct H
  |split; [fa ltac:(split; [field_|reflexivity])|split; [|split; [fa ltac:(opts_)|split; [fa ltac:(ext_)|split; [nodup|split; [fa ltac:(enum_)|split; [fa ltac:(split; [repeat split; vm_compute; congruence|opts_])|split; [fa ltac:(repeat split; vm_compute; congruence)|]]]]]]]]]]].

Lemma sample_ok force : file_ok (lookup names) (printed force (b_ "a.b")) sample.
Proof.
  destruct force.
  - split; [discriminate|]. split; [nodup|]. split; [opts_|]. 
    split.
    { repeat (apply Forall_cons; [|]); [|apply Forall_nil].
      msg_.
      * intros [|[|o]] oo H; try discriminate; injection H as <-. exists (fld "first" 8 Optional false (KScalar (b_ "string")) (Some 0) None [] None "first"). split; [vm_compute; tauto|reflexivity].
      * split; [|split; [|split; [|exact I]]]; intros HN.
        + exfalso. apply HN. vm_compute. now left.
        + msg_; [intros [|o] oo H; discriminate|exact I].
        + msg_; [intros [|o] oo H; discriminate|exact I]. }
    split; [fa ltac:(enum_)|]. split.
    { fa ltac:(split; [opts_|fa ltac:(split; [found_|split; [found_|opts_]])]). }
    split; [fa ltac:(ext_)|nodup].
  - split; [discriminate|]. split; [nodup|]. split; [opts_|]. 
    split.
    { repeat (apply Forall_cons; [|]); [|apply Forall_nil].
      msg_.
      * intros [|[|o]] oo H; try discriminate; injection H as <-. exists (fld "first" 8 Optional false (KScalar (b_ "string")) (Some 0) None [] None "first"). split; [vm_compute; tauto|reflexivity].
      * split; [|split; [|split; [|exact I]]]; intros HN.
        + exfalso. apply HN. vm_compute. now left.
        + msg_; [intros [|o] oo H; discriminate|exact I].
        + msg_; [intros [|o] oo H; discriminate|exact I]. }
    split; [fa ltac:(enum_)|]. split.
    { fa ltac:(split; [opts_|fa ltac:(split; [found_|split; [found_|opts_]])]). }
    split; [fa ltac:(ext_)|nodup].
Qed.

(** ** Variations *)
(** a field with a default value *)
Definition default_file (v : value) : fdesc :=
  FDesc Proto2 [] [] [] [Msg (b_ "M") false [] [fld "x" 1 Optional true (KScalar (b_ "double")) None None [] (Some v) "x"] [] [] [] [] [] [] []] [] [] [].
Lemma default_ok res force : file_ok res (printed force []) (default_file (VFloat 3 1)).
Proof.
  split; [discriminate|]. split; [nodup|]. split; [opts_|]. split; [|split; [constructor|split; [constructor|split; [constructor|nodup]]]].
  fa ltac:(msg_; [intros [|o] oo H; discriminate|exact I]).
Qed.
(** a field without label whose type is another message of the file *)
Definition type_file (n : string) : fdesc :=
  FDesc Proto3 [] [] [] [Msg (b_ n) false [] [] [] [] [] [] [] [] []; Msg (b_ "M") false [] [fld "x" 1 Optional false (KType (b_ n)) None None [] None "x"] [] [] [] [] [] [] []] [] [] [].
Lemma type_ok : file_ok (fun _ _ n => n) (printed false []) (type_file "Result").
Proof.
  split; [discriminate|]. split; [nodup|]. split; [opts_|]. split; [|split; [constructor|split; [constructor|split; [constructor|nodup]]]].
  fa ltac:(msg_; [intros [|o] oo H; discriminate|exact I]).
Qed.
Definition empty_file (s : syntax) : fdesc := FDesc s (b_ "p") [] [] [] [] [] [].
Lemma empty_ok res force : file_ok res (printed force (b_ "p")) (empty_file Proto3).
Proof. split; [discriminate|]. split; [nodup|]. split; [opts_|]. repeat (split; [constructor|]). nodup. Qed.
(** an enum with a reserved range, and with values *)
Definition enum_file (values : list evalue) (r : Z * Z) : fdesc := FDesc Proto3 [] [] [] [] [Enum (b_ "E") [] values [r] []] [] [].
Lemma range_file_ok res force : file_ok res (printed force []) (enum_file [EValue (b_ "ZERO") 0 []; EValue (b_ "MINUS") (-1) []] (2, 2)%Z).
Proof. split; [discriminate|]. split; [nodup|]. split; [opts_|]. split; [constructor|]. split; [fa ltac:(enum_)|]. split; [constructor|]. split; [constructor|nodup]. Qed.
Lemma swapped_ok res force : file_ok res (printed force []) (enum_file [EValue (b_ "MINUS") (-1) []; EValue (b_ "ZERO") 0 []] (2, 2)%Z).
Proof. split; [discriminate|]. split; [nodup|]. split; [opts_|]. split; [constructor|]. split; [fa ltac:(enum_)|]. split; [constructor|]. split; [constructor|nodup]. Qed.
