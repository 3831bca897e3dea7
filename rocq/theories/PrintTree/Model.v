(** The descriptor printer, pkg/format/protoprint/print.go and message_literal.go, with the element
    order of pkg/format/sort.go: what is written for a whole file descriptor that carries no source
    information (the descriptors of Go packages, of the global registry and of synthesized files have
    none, so no comments are printed; Print.Model has the comments).
    The output is a list of tokens.  String literals are tokens that carry the string (C40 and C41 are
    about their text), a dotted name is one token, and a blank or line break is the token [B]; where the
    printer has a compact and an expanded layout the blanks are those of the compact one. *)
From Coq Require Import Ascii String NArith.
From Verif Require Import Base Strs.
From Verif.Print Require Model.
Open Scope list_scope.

(** ** Descriptors *)

(** Values of options, print.go:290-302 and the protoreflect values in message literals.  [VFloat m e] is
    m / 2^e; a map is the list of its entries in the order of sortKeys (1736-1763); [FAny] is the key of an
    expanded google.protobuf.Any. *)
Inductive fkey := FName (n : bytes) | FExt (n : bytes) | FAny (host name : bytes).
Inductive value :=
| VInt (z : Z) | VFloat (m : Z) (e : nat) | VInf (negative : bool) | VNan | VStr (s : bytes) | VBytes (s : bytes)
| VBool (b : bool) | VEnum (n : bytes) | VMsg (fs : list (fkey * value)) | VList (vs : list value).
(** Options with their values (1905-1992); a repeated option has several values.
    An extension has its full name.  Options that were not interpreted (2026-2060) and options of unknown fields
    (535-549) are not modelled. *)
Inductive oname := OPlain (n : bytes) | OExt (n : bytes).
Definition opts := list (oname * list value).

Inductive syntax := Proto2 | Proto3 | Editions.
Inductive card := Optional | Required | Repeated.
(** The message of a group or map field is given by its index among the messages of the parent. *)
Inductive fkind := KScalar (t : bytes) | KType (n : bytes) | KGroup (i : nat) | KMap (i : nat).
Record field := Field {
  f_name : bytes; f_num : Z; f_card : card; f_optkw : bool; f_kind : fkind;
  f_oneof : option nat;         (* ContainingOneof, by index *)
  f_ext : option bytes;         (* the extended message *)
  f_opts : opts; f_default : option value; f_json : bytes }.
Record oneof := Oneof { oo_name : bytes; oo_synth : bool; oo_opts : opts }.
Record evalue := EValue { v_name : bytes; v_num : Z; v_opts : opts }.
Record enum := Enum { en_name : bytes; en_opts : opts; en_values : list evalue; en_ranges : list (Z * Z); en_names : list bytes }.
Record xrange := XRange { x_start : Z; x_end : Z; x_opts : opts }.
Inductive msg := Msg (m_name : bytes) (m_set : bool) (m_opts : opts) (m_fields : list field) (m_oneofs : list oneof)
  (m_nested : list msg) (m_enums : list enum) (m_exts : list field) (m_xranges : list xrange)
  (m_ranges : list (Z * Z)) (m_names : list bytes).
Definition m_name (m : msg) : bytes := match m with Msg n _ _ _ _ _ _ _ _ _ _ => n end.
Definition m_fields (m : msg) : list field := match m with Msg _ _ _ fs _ _ _ _ _ _ _ => fs end.
Record method := Method { me_name : bytes; me_in : bytes; me_out : bytes; me_cs : bool; me_ss : bool; me_opts : opts }.
Record service := Service { se_name : bytes; se_opts : opts; se_methods : list method }.
Inductive imod := INone | IPublic | IWeak.
Record fdesc := FDesc {
  fd_syntax : syntax; fd_package : bytes; fd_imports : list (bytes * imod); fd_opts : opts;
  fd_messages : list msg; fd_enums : list enum; fd_services : list service; fd_exts : list field }.

(** full names *)
Definition join (scope n : bytes) : bytes := match scope with [] => n | _ => scope ++ [Print.Model.dot] ++ n end.

(** ** Tokens *)
(** [TF n]: a number with six decimals, n / 10^6 *)
Inductive tok := W (w : bytes) | TS (s : bytes) | TI (n : N) | TF (n : N) | P (c : ascii) | B.
Definition kw (s : string) : tok := W (b_ s).

(** "%d" *)
Definition int_toks (z : Z) : list tok := if (z <? 0)%Z then [P "-"; TI (Z.to_N (- z))] else [TI (Z.to_N z)].
(** "%f": six decimals, halves to even *)
Definition million : Z := 1000000.
Definition round_even (a b : Z) : Z :=
  let q := (a / b)%Z in let r := (a mod b)%Z in
  if (2 * r <? b)%Z then q else if (b <? 2 * r)%Z then (q + 1)%Z else if Z.even q then q else (q + 1)%Z.
Definition float_toks (m : Z) (e : nat) : list tok :=
  (if (m <? 0)%Z then [P "-"] else []) ++ [TF (Z.to_N (round_even (Z.abs m * million) (2 ^ Z.of_nat e)))].

Fixpoint sep {A} (s : list tok) (f : A -> list tok) (l : list A) : list tok :=
  match l with [] => [] | [x] => f x | x :: r => f x ++ s ++ sep s f r end.

(** ** The order of elements *)
(** elementAddr, 2165-2169 with the element's values that sort.go looks at (protoprint/sort.go:36-59) *)
Inductive atag := APackage | AImport | AOption | AField | AMessage | AEnum | AService | AXRange | AExt | ARange | AName | AValue | AMethod.
Record addr := Addr { a_tag : atag; a_index : nat; a_name : bytes; a_num : Z; a_custom : bool }.
Definition atag_eqb (a b : atag) : bool :=
  match a, b with
  | APackage, APackage | AImport, AImport | AOption, AOption | AField, AField | AMessage, AMessage | AEnum, AEnum
  | AService, AService | AXRange, AXRange | AExt, AExt | ARange, ARange | AName, AName | AValue, AValue | AMethod, AMethod => true
  | _, _ => false
  end.
Fixpoint bytes_lt (a b : bytes) : bool :=
  match a, b with
  | _, [] => false
  | [], _ => true
  | x :: r, y :: s => (N_of_ascii x <? N_of_ascii y)%N || (Ascii.eqb x y && bytes_lt r s)
  end.
(** format/sort.go:14-48 SortElements; without source information elementSrcOrder.Less is false (2448-2450) *)
Definition sort_elements (a b : addr) : bool :=
  if atag_eqb (a_tag a) (a_tag b) then
    match a_tag a with
    | AOption => if Bool.eqb (a_custom a) (a_custom b) then false else negb (a_custom a)
    | AField | AExt | AValue => (a_num a <? a_num b)%Z
    | AImport => bytes_lt (a_name a) (a_name b)
    | _ => false
    end
  else
    match a_tag a, a_tag b with
    | APackage, _ => true | _, APackage => false
    | AImport, _ => true | _, AImport => false
    | AOption, _ => true | _, AOption => false
    | _, _ => false
    end.
(** sort.Stable, Go's insertionSort for up to 20 elements (blockSize): every element moves left while it is
    less than its left neighbour.  [seen] is the sorted part, reversed. *)
Fixpoint insert_left (less : addr -> addr -> bool) (x : addr) (seen : list addr) : list addr :=
  match seen with
  | [] => [x]
  | y :: r => if less x y then y :: insert_left less x r else x :: seen
  end.
Definition insertion_sort (less : addr -> addr -> bool) (l : list addr) : list addr :=
  rev (fold_left (fun seen x => insert_left less x seen) l []).

Section Printer.
(** sort.Stable on more than 20 elements *)
Variable long_sort : list addr -> list addr.
Definition sorted (l : list addr) : list addr :=
  if List.length l <=? 20 then insertion_sort sort_elements l else long_sort l.
(** proto.Equal on extension range options *)
Variable same_opts : opts -> opts -> bool.
(** ForceFullyQualifiedNames *)
Variable force : bool.
(** the file's syntax and package *)
Variable syn : syntax.
Variable pkg : bytes.

(** ** Names, 773-788 *)
Definition q_with (required : Z) (scope n : bytes) : bytes :=
  match Print.Model.qualify force pkg scope n required with Some t => t | None => [] end.
Definition q := q_with 0.
Definition q_msg_option := q_with 1.
Definition q_literal := q_with (-1).

(** ** Values *)
(** message_literal.go:146-148, 66-73 *)
Definition print_key (scope : bytes) (k : fkey) : list tok :=
  match k with
  | FName n => [W n]
  | FExt n => [P "["; W (q_literal scope n); P "]"]
  | FAny h n => [P "["; W h; P "/"; W n; P "]"]
  end ++ [P ":"; B].
(** print.go:1765-1793 printOption and message_literal.go, all of it: printValueLiteralToBuffer (160-180),
    message literals (37-91), arrays (218-248) and maps *)
Fixpoint print_value (scope : bytes) (v : value) {struct v} : list tok :=
  match v with
  | VInt z => int_toks z
  | VFloat m e => float_toks m e
  | VInf false => [P "+"; kw "Inf"]
  | VInf true => [P "-"; kw "Inf"]
  | VNan => [kw "NaN"]
  | VStr s | VBytes s => [TS s]
  | VBool b => [if b then kw "true" else kw "false"]
  | VEnum n => [W n]
  | VMsg fs =>
      [P "{"] ++
      (fix go (l : list (fkey * value)) : list tok :=
         match l with
         | [] => []
         | [(k, x)] => print_key scope k ++ print_value scope x
         | (k, x) :: r => print_key scope k ++ print_value scope x ++ [P ","] ++ go r
         end) fs ++ [P "}"]
  | VList vs =>
      [P "["] ++
      (fix go (l : list value) : list tok :=
         match l with
         | [] => []
         | [x] => print_value scope x
         | x :: r => print_value scope x ++ [P ","; B] ++ go r
         end) vs ++ [P "]"]
  end.
(** 1920-1931: option names; message options need a scope (773-778) *)
Definition print_oname (in_message : bool) (scope : bytes) (o : oname) : list tok :=
  match o with
  | OPlain n => [W n]
  | OExt n => [P "("; W (if in_message then q_msg_option scope n else q scope n); P ")"]
  end.
Definition print_option (in_message : bool) (scope : bytes) (ov : oname * value) : list tok :=
  print_oname in_message scope (fst ov) ++ [B; P "="; B] ++ print_value scope (snd ov).
(** the text of an option's name *)
Definition oname_text (in_message : bool) (scope : bytes) (o : oname) : bytes :=
  match o with
  | OPlain n => n
  | OExt n => b_ "(" ++ (if in_message then q_msg_option scope n else q scope n) ++ b_ ")"
  end.
(** elementAddrs.at for options (2265); custom options are those with a parenthesis (protoprint/sort.go:182-184) *)
Definition option_addr (in_message : bool) (scope : bytes) (i : nat) (g : oname * list value) : addr :=
  Addr AOption i (oname_text in_message scope (fst g)) 0 match fst g with OPlain _ => false | OExt _ => true end.
Fixpoint indexed_from {A B} (f : nat -> A -> B) (i : nat) (l : list A) : list B :=
  match l with [] => [] | x :: r => f i x :: indexed_from f (S i) r end.
Definition indexed {A B} (f : nat -> A -> B) (l : list A) : list B := indexed_from f 0 l.
(** 2062-2071 optionsAsElementAddrs: by name, whatever the order of the map (the names are different) *)
Definition by_name (a b : addr) : bool := bytes_lt (a_name a) (a_name b).
Definition option_addrs (in_message : bool) (scope : bytes) (os : opts) : list addr :=
  insertion_sort by_name (indexed (option_addr in_message scope) os).
Definition spread (g : oname * list value) : list (oname * value) := map (fun v => (fst g, v)) (snd g).
(** the options of a group at an address *)
Definition options_at (os : opts) (i : nat) : list (oname * value) :=
  match nth_error os i with Some g => spread g | None => [] end.
(** 1586-1601 printOptionsLong *)
Definition print_long (in_message : bool) (scope : bytes) (l : list (oname * value)) : list tok :=
  flat_map (fun ov => [kw "option"; B] ++ print_option in_message scope ov ++ [P ";"; B]) l.
(** 1618-1712 printOptionsShort *)
Definition print_short (in_message : bool) (scope : bytes) (os : opts) : list tok :=
  match os with
  | [] => []
  | _ => [P "["] ++ sep [P ","; B] (print_option in_message scope) (flat_map (fun a => options_at os (a_index a)) (sorted (option_addrs in_message scope os))) ++ [P "]"]
  end.

(** ** Fields *)
(** internal/util.go:225-241 JsonName (names are ASCII) *)
Definition upper (c : ascii) : ascii :=
  if ((97 <=? N_of_ascii c) && (N_of_ascii c <=? 122))%N then ascii_of_N (N_of_ascii c - 32) else c.
Fixpoint json_from (up : bool) (s : bytes) : bytes :=
  match s with
  | [] => []
  | c :: r => if Ascii.eqb c "_" then json_from true r else (if up then upper c else c) :: json_from false r
  end.
Definition json_name (s : bytes) : bytes := json_from false s.
(** 1153-1176 *)
Definition is_map (f : field) : bool := match f_kind f with KMap _ => true | _ => false end.
Definition emit_label (f : field) : bool :=
  f_optkw f ||
  (negb (is_map f) && match f_oneof f with None => true | _ => false end &&
   negb (match f_card f, syn with Optional, Proto3 => true | _, _ => false end)).
Definition label_toks (f : field) : list tok :=
  match f_card f with
  | Optional => if f_optkw f then [kw "optional"] else []
  | Required => [kw "required"]
  | Repeated => [kw "repeated"]
  end.
(** 823-866 typeString; [nested]: the messages of the parent *)
Definition simple_type (scope : bytes) (k : fkind) : list tok :=
  match k with KScalar t => [W t] | KType n => [W (q scope n)] | _ => [] end.
Definition entry_type (scope : bytes) (e : msg) (number : Z) : list tok :=
  match find (fun f => (f_num f =? number)%Z) (m_fields e) with Some f => simple_type scope (f_kind f) | None => [] end.
Definition type_toks (scope : bytes) (nested : list msg) (k : fkind) : list tok :=
  match k with
  | KGroup i => match nth_error nested i with Some m => [W (m_name m)] | None => [] end
  | KMap i =>
      match nth_error nested i with
      | Some e => [kw "map"; P "<"] ++ entry_type scope e 1 ++ [P ","; B] ++ entry_type scope e 2 ++ [P ">"]
      | None => []
      end
  | _ => simple_type scope k
  end.
(** 1108-1133 *)
Definition field_opts (f : field) : opts :=
  f_opts f ++
  match syn, f_default f with
  | Proto3, _ | _, None => []
  | _, Some v => [(OPlain (b_ "default"), [v])]
  end ++
  match f_ext f with
  | Some _ => []
  | None => if match f_json f with [] => true | _ => false end || beq (f_json f) (json_name (f_name f)) then []
            else [(OPlain (b_ "json_name"), [VStr (f_json f)])]
  end.
(** 1039-1151 printField; [scope]: where types are looked up, [owner]: the full name of the field (1108),
    [bodies]: what printMessageBody writes for the parent's messages *)
Definition print_field (scope : bytes) (nested : list msg) (bodies : list (list tok)) (f : field) : list tok :=
  (if emit_label f then label_toks f ++ [B] else []) ++
  match f_kind f with
  | KGroup i =>
      [kw "group"; B] ++ type_toks scope nested (f_kind f) ++ [B; P "="; B] ++ int_toks (f_num f) ++ [B] ++
      print_short false (join scope (f_name f)) (field_opts f) ++ [P "{"; B] ++ nth i bodies [] ++ [P "}"; B]
  | _ =>
      type_toks scope nested (f_kind f) ++ [B; W (f_name f); B; P "="; B] ++ int_toks (f_num f) ++ [B] ++
      print_short false (join scope (f_name f)) (field_opts f) ++ [P ";"; B]
  end.

(** ** Ranges and reserved names, 1282-1360 *)
Definition range_toks (r : Print.Model.range_text) : list tok :=
  match r with
  | Print.Model.Single a => int_toks a ++ [B]
  | Print.Model.To a b => int_toks a ++ [B; kw "to"; B] ++ int_toks b ++ [B]
  | Print.Model.ToMax a => int_toks a ++ [B; kw "to"; B; kw "max"; B]
  end.
Definition print_ranges (max : Z) (rs : list (Z * Z)) : list tok :=
  [kw "reserved"; B] ++ sep [P ","; B] (fun r => range_toks (Print.Model.print_range max (fst r) (snd r))) rs ++ [P ";"; B].
Definition print_names (ns : list bytes) : list tok :=
  [kw "reserved"; B] ++ sep [P ","; B] (fun n => [TS n; B]) ns ++ [P ";"; B].
(** the options of the last range are printed (1295), with the message as their owner (1606) *)
Definition print_xranges (scope : bytes) (max : Z) (xs : list xrange) : list tok :=
  [kw "extensions"; B] ++ sep [P ","; B] (fun x => range_toks (Print.Model.print_ext_range max (x_start x) (x_end x))) xs ++
  print_short true scope (last (map x_opts xs) []) ++ [P ";"; B].

(** 1006-1018: the addresses after an element that have its type *)
Fixpoint run_of (t : atag) (l : list addr) : list addr :=
  match l with a :: r => if atag_eqb (a_tag a) t then a :: run_of t r else [] | [] => [] end.
Definition pick {A} (l : list A) (as_ : list addr) : list A :=
  flat_map (fun a => match nth_error l (a_index a) with Some x => [x] | None => [] end) as_.
(** 991-1003: extension ranges with equal options *)
Fixpoint xrun_of (xs : list xrange) (os : opts) (l : list addr) : list addr :=
  match l with
  | a :: r =>
      match a_tag a, nth_error xs (a_index a) with
      | AXRange, Some x => if same_opts os (x_opts x) then a :: xrun_of xs os r else []
      | _, _ => []
      end
  | [] => []
  end.

(** ** Enums *)
(** 1457-1473; [scope]: that of the enum, which is also that of its values *)
Definition print_evalue (scope : bytes) (v : evalue) : list tok :=
  [W (v_name v); B; P "="; B] ++ int_toks (v_num v) ++ [B] ++ print_short false (join scope (v_name v)) (v_opts v) ++ [P ";"; B].
(** 1382-1450: the loop; the skipped elements are kept by value *)
Inductive skey := SRange (r : Z * Z) | SName (n : bytes).
Definition skey_eqb (a b : skey) : bool :=
  match a, b with
  | SRange (x, y), SRange (u, v) => (x =? u)%Z && (y =? v)%Z
  | SName x, SName y => beq x y
  | _, _ => false
  end.
Definition skipped (k : skey) (sk : list skey) : bool := existsb (skey_eqb k) sk.
Fixpoint enum_loop (outer scope : bytes) (e : enum) (l : list addr) (sk : list skey) : list tok :=
  match l with
  | [] => []
  | a :: rest =>
      match a_tag a with
      | AOption => print_long false scope (options_at (en_opts e) (a_index a)) ++ enum_loop outer scope e rest sk
      | AValue =>
          match nth_error (en_values e) (a_index a) with Some v => print_evalue outer v | None => [] end ++ enum_loop outer scope e rest sk
      | ARange =>
          match nth_error (en_ranges e) (a_index a) with
          | Some r =>
              if skipped (SRange r) sk then enum_loop outer scope e rest sk
              else let more := pick (en_ranges e) (run_of ARange rest) in
                   print_ranges Print.Model.max_enum (r :: more) ++ enum_loop outer scope e rest (map SRange more ++ sk)
          | None => []
          end
      | AName =>
          match nth_error (en_names e) (a_index a) with
          | Some n =>
              if skipped (SName n) sk then enum_loop outer scope e rest sk
              else let more := pick (en_names e) (run_of AName rest) in
                   print_names (n :: more) ++ enum_loop outer scope e rest (map SName more ++ sk)
          | None => []
          end
      | _ => enum_loop outer scope e rest sk
      end
  end.
Definition plain_addr (t : atag) {A} (i : nat) (_ : A) : addr := Addr t i [] 0 false.
Definition value_addr (i : nat) (v : evalue) : addr := Addr AValue i (v_name v) (v_num v) false.
(** 1384-1394 *)
Definition enum_addrs (scope : bytes) (e : enum) : list addr :=
  option_addrs false scope (en_opts e) ++ indexed value_addr (en_values e) ++ indexed (plain_addr ARange) (en_ranges e) ++ indexed (plain_addr AName) (en_names e).
(** 1362-1455 *)
Definition print_enum (scope : bytes) (e : enum) : list tok :=
  let full := join scope (en_name e) in
  [kw "enum"; B; W (en_name e); B; P "{"; B] ++ enum_loop scope full e (sorted (enum_addrs full e)) [] ++ [P "}"; B].

(** ** Oneofs and extensions *)
Definition field_addr (t : atag) (i : nat) (f : field) : addr := Addr t i (f_name f) (f_num f) false.
Definition in_oneof (o : nat) (f : field) : bool := match f_oneof f with Some p => Nat.eqb p o | None => false end.
(** 1205-1216: the loop over the parent's remaining elements *)
Fixpoint members (fs : list field) (o : nat) (count : nat) (l : list addr) : list addr :=
  match count, l with
  | 0, _ | _, [] => []
  | S c, a :: r =>
      match a_tag a, nth_error fs (a_index a) with
      | AField, Some f => if in_oneof o f then a :: members fs o c r else members fs o (S c) r
      | _, _ => members fs o (S c) r
      end
  end.
Definition count_if {A} (p : A -> bool) (l : list A) : nat := List.length (filter p l).
(** 1182-1242 printOneOf *)
Definition oneof_element (scope : bytes) (full : bytes) (fs : list field) (nested : list msg) (bodies : list (list tok)) (os : opts) (a : addr) : list tok :=
  match a_tag a with
  | AOption => print_long false full (options_at os (a_index a))
  | AField => match nth_error fs (a_index a) with Some f => print_field scope nested bodies f | None => [] end
  | _ => []
  end.
Definition print_oneof (scope : bytes) (fs : list field) (nested : list msg) (bodies : list (list tok)) (o : nat) (oo : oneof) (l : list addr) : list tok :=
  let full := join scope (oo_name oo) in
  [kw "oneof"; B; W (oo_name oo); B; P "{"; B] ++
  flat_map (oneof_element scope full fs nested bodies (oo_opts oo))
    (sorted (option_addrs false full (oo_opts oo) ++ members fs o (count_if (in_oneof o) fs) l)) ++
  [P "}"; B].
(** 717-749 computeExtensions without source information: one block for each extended message *)
Definition extends (x : bytes) (f : field) : bool := match f_ext f with Some y => beq x y | None => false end.
Fixpoint block_of (xs : list field) (x : bytes) (count : nat) (l : list addr) : list addr :=
  match count, l with
  | 0, _ | _, [] => []
  | S c, a :: r =>
      match a_tag a, nth_error xs (a_index a) with
      | AExt, Some f => if extends x f then a :: block_of xs x c r else block_of xs x (S c) r
      | _, _ => block_of xs x (S c) r
      end
  end.
(** 1244-1280 printExtensions *)
Definition print_extend (scope : bytes) (xs : list field) (nested : list msg) (bodies : list (list tok)) (x : bytes) (l : list addr) : list tok :=
  [kw "extend"; B; W (q scope x); B; P "{"; B] ++
  flat_map (print_field scope nested bodies) (pick xs (block_of xs x (count_if (extends x) xs) l)) ++
  [P "}"; B].

(** ** Messages *)
(** skip: the descriptors not to be printed any more *)
Definition key := (atag * nat)%type.
Definition keyed (t : atag) (as_ : list nat) : list key := map (fun i => (t, i)) as_.
Definition key_in (k : key) (sk : list key) : bool := existsb (fun s => atag_eqb (fst k) (fst s) && Nat.eqb (snd k) (snd s)) sk.
Definition ref_of (f : field) : list nat := match f_kind f with KGroup i | KMap i => [i] | _ => [] end.
Fixpoint where_from {A} (p : A -> bool) (i : nat) (l : list A) : list nat :=
  match l with [] => [] | x :: r => (if p x then [i] else []) ++ where_from p (S i) r end.
Definition where_ {A} (p : A -> bool) (l : list A) : list nat := where_from p 0 l.

(** what the loops need of a message or file *)
Record container := Container {
  c_opts : opts; c_set : bool; c_fields : list field; c_oneofs : list oneof; c_nested : list msg; c_bodies : list (list tok);
  c_enums : list enum; c_exts : list field; c_xranges : list xrange; c_ranges : list (Z * Z); c_names : list bytes }.
Definition print_message (bodies : list (list tok)) (i : nat) (m : msg) : list tok :=
  [kw "message"; B; W (m_name m); B; P "{"; B] ++ nth i bodies [] ++ [P "}"; B].
(** 937-1036: the loop of printMessageBody; [sk]: skip, [n]: skipAddrs *)
Fixpoint message_loop (scope : bytes) (c : container) (l : list addr) (sk : list key) (n : nat) : list tok :=
  match l with
  | [] => []
  | a :: rest =>
      match n with
      | S n' => message_loop scope c rest sk n'
      | 0 =>
          if key_in (a_tag a, a_index a) sk then message_loop scope c rest sk 0
          else
            match a_tag a with
            | AOption => print_long true scope (options_at (c_opts c) (a_index a)) ++ message_loop scope c rest sk 0
            | AField =>
                match nth_error (c_fields c) (a_index a) with
                | Some f =>
                    match match f_oneof f with Some o => option_map (pair o) (nth_error (c_oneofs c) o) | None => None end with
                    | Some (o, oo) =>
                        if oo_synth oo then print_field scope (c_nested c) (c_bodies c) f ++ message_loop scope c rest sk 0
                        else print_oneof scope (c_fields c) (c_nested c) (c_bodies c) o oo l ++
                             message_loop scope c rest (keyed AField (where_ (in_oneof o) (c_fields c)) ++ sk) 0
                    | None => print_field scope (c_nested c) (c_bodies c) f ++ message_loop scope c rest sk 0
                    end
                | None => []
                end
            | AExt =>
                match nth_error (c_exts c) (a_index a) with
                | Some f =>
                    let x := match f_ext f with Some x => x | None => [] end in
                    print_extend scope (c_exts c) (c_nested c) (c_bodies c) x l ++
                    message_loop scope c rest (keyed AExt (where_ (extends x) (c_exts c)) ++ sk) 0
                | None => []
                end
            | AMessage =>
                match nth_error (c_nested c) (a_index a) with Some m => print_message (c_bodies c) (a_index a) m | None => [] end ++
                message_loop scope c rest sk 0
            | AEnum =>
                match nth_error (c_enums c) (a_index a) with Some e => print_enum scope e | None => [] end ++
                message_loop scope c rest sk 0
            | AXRange =>
                match nth_error (c_xranges c) (a_index a) with
                | Some x =>
                    let run := xrun_of (c_xranges c) (x_opts x) rest in
                    print_xranges scope (Print.Model.max_tag (c_set c)) (x :: pick (c_xranges c) run) ++
                    message_loop scope c rest sk (List.length run)
                | None => []
                end
            | ARange =>
                match nth_error (c_ranges c) (a_index a) with
                | Some r =>
                    let run := run_of ARange rest in
                    print_ranges (Print.Model.max_tag (c_set c)) (r :: pick (c_ranges c) run) ++ message_loop scope c rest sk (List.length run)
                | None => []
                end
            | AName =>
                match nth_error (c_names c) (a_index a) with
                | Some n =>
                    let run := run_of AName rest in
                    print_names (n :: pick (c_names c) run) ++ message_loop scope c rest sk (List.length run)
                | None => []
                end
            | _ => message_loop scope c rest sk 0
            end
      end
  end.
(** 897-930 *)
Definition message_addrs (scope : bytes) (c : container) : list addr :=
  option_addrs true scope (c_opts c) ++ indexed (plain_addr ARange) (c_ranges c) ++ indexed (plain_addr AName) (c_names c) ++
  indexed (plain_addr AXRange) (c_xranges c) ++ indexed (field_addr AField) (c_fields c) ++
  indexed (fun i m => Addr AMessage i (m_name m) 0 false) (c_nested c) ++ indexed (plain_addr AEnum) (c_enums c) ++
  indexed (field_addr AExt) (c_exts c).
Definition initial_skip (c : container) : list key := keyed AMessage (flat_map ref_of (c_fields c) ++ flat_map (fun f => match f_kind f with KGroup i => [i] | _ => [] end) (c_exts c)).
(** 885-1037 printMessageBody *)
Fixpoint print_body (scope : bytes) (m : msg) {struct m} : list tok :=
  match m with
  | Msg _ set os fs oos nested ens exts xrs rs ns =>
      let c := Container os set fs oos nested (map (fun n => print_body (join scope (m_name n)) n) nested) ens exts xrs rs ns in
      message_loop scope c (sorted (message_addrs scope c)) (initial_skip c) 0
  end.

(** ** Services, 1475-1584 *)
Definition rpc_type (streaming : bool) (n : bytes) : list tok :=
  [P "("] ++ (if streaming then [kw "stream"; B] else []) ++ [W (q pkg n); P ")"; B].
Definition print_method (scope : bytes) (m : method) : list tok :=
  let full := join scope (me_name m) in
  [kw "rpc"; B; W (me_name m)] ++ rpc_type (me_cs m) (me_in m) ++ [kw "returns"; B] ++ rpc_type (me_ss m) (me_out m) ++
  match me_opts m with
  | [] => [P ";"; B]
  | os => [P "{"; B] ++ flat_map (fun a => print_long false full (options_at os (a_index a))) (sorted (option_addrs false full os)) ++ [P "}"; B]
  end.
Definition service_element (full : bytes) (s : service) (a : addr) : list tok :=
  match a_tag a with
  | AOption => print_long false full (options_at (se_opts s) (a_index a))
  | AMethod => match nth_error (se_methods s) (a_index a) with Some m => print_method full m | None => [] end
  | _ => []
  end.
Definition print_service (scope : bytes) (s : service) : list tok :=
  let full := join scope (se_name s) in
  [kw "service"; B; W (se_name s); B; P "{"; B] ++
  flat_map (service_element full s) (sorted (option_addrs false full (se_opts s) ++ indexed (fun i m => Addr AMethod i (me_name m) 0 false) (se_methods s))) ++
  [P "}"; B].

(** ** Files, 552-675 *)
Definition print_syntax : list tok :=
  [kw "syntax"; B; P "="; B; TS (match syn with Proto2 => b_ "proto2" | Proto3 => b_ "proto3" | Editions => b_ "editions" end); P ";"; B].
(** 631-641: the modifier of the first import with the path *)
Definition print_import (is_ : list (bytes * imod)) (p : bytes) : list tok :=
  [kw "import"; B] ++
  match find (fun i => beq (fst i) p) is_ with Some (_, IPublic) => [kw "public"; B] | Some (_, IWeak) => [kw "weak"; B] | _ => [] end ++
  [TS p; P ";"; B].
Fixpoint file_loop (f : fdesc) (bodies : list (list tok)) (l : list addr) (sk : list key) : list tok :=
  match l with
  | [] => []
  | a :: rest =>
      if key_in (a_tag a, a_index a) sk then file_loop f bodies rest sk
      else
        match a_tag a with
        | APackage => [kw "package"; B; W (fd_package f); P ";"; B] ++ file_loop f bodies rest sk
        | AImport =>
            match nth_error (fd_imports f) (a_index a) with Some i => print_import (fd_imports f) (fst i) | None => [] end ++ file_loop f bodies rest sk
        | AOption => print_long false (fd_package f) (options_at (fd_opts f) (a_index a)) ++ file_loop f bodies rest sk
        | AMessage =>
            match nth_error (fd_messages f) (a_index a) with Some m => print_message bodies (a_index a) m | None => [] end ++
            file_loop f bodies rest sk
        | AEnum => match nth_error (fd_enums f) (a_index a) with Some e => print_enum (fd_package f) e | None => [] end ++ file_loop f bodies rest sk
        | AService => match nth_error (fd_services f) (a_index a) with Some s => print_service (fd_package f) s | None => [] end ++ file_loop f bodies rest sk
        | AExt =>
            match nth_error (fd_exts f) (a_index a) with
            | Some x0 =>
                let x := match f_ext x0 with Some x => x | None => [] end in
                print_extend (fd_package f) (fd_exts f) (fd_messages f) bodies x l ++
                file_loop f bodies rest (keyed AExt (where_ (extends x) (fd_exts f)) ++ sk)
            | None => []
            end
        | _ => file_loop f bodies rest sk
        end
  end.
Definition file_addrs (f : fdesc) : list addr :=
  match fd_package f with [] => [] | p => [Addr APackage 0 p 0 false] end ++
  indexed (fun i im => Addr AImport i (fst im) 0 false) (fd_imports f) ++ option_addrs false (fd_package f) (fd_opts f) ++
  indexed (fun i m => Addr AMessage i (m_name m) 0 false) (fd_messages f) ++ indexed (plain_addr AEnum) (fd_enums f) ++
  indexed (plain_addr AService) (fd_services f) ++ indexed (field_addr AExt) (fd_exts f).
Definition file_skip (f : fdesc) : list key := keyed AMessage (flat_map (fun x => match f_kind x with KGroup i => [i] | _ => [] end) (fd_exts f)).
End Printer.

(** printFile of a descriptor: its own syntax and package *)
Definition print_file (long_sort : list addr -> list addr) (same_opts : opts -> opts -> bool) (force : bool) (f : fdesc) : list tok :=
  let syn := fd_syntax f in let pkg := fd_package f in
  let bodies := map (fun m => print_body long_sort same_opts force syn pkg (join pkg (m_name m)) m) (fd_messages f) in
  print_syntax syn ++
  file_loop long_sort force syn pkg f bodies (sorted long_sort (file_addrs force pkg f)) (file_skip f).
