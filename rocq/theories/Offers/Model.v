(** Model of what completion offers for names of options, packages and types that need an import, and of
    what accepting an offer writes, pkg/lsp/completion.go (line numbers without a file).

    A line of text is a list of ASCII characters, so that a column is an offset (C61 is about other
    characters); the reference at the cursor lies on one line, and its node is its columns.  Details, kinds
    and documentation of the items are left out. *)
From Coq Require Import Ascii String.
From Verif Require Import Base Strs.
From Verif.Completion Require Model.
From Verif.Locate Require Import Model.
Open Scope list_scope.

(** ** Messages *)
(** [oneof] is the oneof that the field is a member of *)
Record field := mkField { fname : bytes; ffull : bytes; repeated : bool; oneof : option bytes }.
Record message := mkMessage { fields : list field; ranges : bool; map_entry : bool }.
(** what deepCompleteOptionNames starts from, 888-902: a message, a field with the message that is its type, or something else *)
Inductive prev := PMsg (m : message) | PField (m : option message) | POther.

(** ** Items *)
Record edit := mkEdit { from : nat; upto : nat; text : bytes }.
Inductive target := TField (n : bytes) | TExt (n : bytes).
Record item := mkOffer { label : bytes; goal : target; change : edit; preselect : bool }.

(** a FieldReferenceNode: the columns of its brackets, if it has any, and where its name starts and ends *)
Record ref := mkRef { opens : option nat; closes : option nat; name_from : nat; name_upto : nat }.
Definition is_extension (r : ref) : bool := match opens r with Some _ => true | None => false end.

(** content[i:j] *)
Definition cut (s : bytes) (i j : nat) : bytes := firstn (j - i) (skipn i s).
(** 1517-1535 findPartialNames *)
Definition find_partial (line : bytes) (start stop pos : nat) : bytes * bytes :=
  (if start <? pos then cut line start (Nat.min pos stop) else [],
   if pos <? stop then cut line (Nat.max start pos) stop else []).

(** ** Option names, 875-989 deepCompleteOptionNames *)
Section Names.
(** the extensions of the message, FindExtensionsByMessage, by full name; the package of the file *)
Variable exts : list bytes.
Variable pkg : bytes.
(** full names of the options that are set *)
Variable existing : list bytes.

Definition gogo (partial x : bytes) : bool := has_prefix x (b_ "gogoproto.") && negb (has_prefix partial (b_ "gogo")).
Definition mem (x : bytes) (l : list bytes) : bool := existsb (beq x) l.
(** 918-926 *)
Definition skipped (partial suffix : bytes) (f : field) : bool :=
  negb (has_prefix (fname f) partial)
  || (((match suffix with [] => negb (beq (fname f) partial) | _ => false end) || negb (beq (fname f) (partial ++ suffix))) && (mem (ffull f) existing && negb (repeated f))).
Definition field_item (pos : nat) (partial suffix : bytes) (f : field) : item :=
  mkOffer (fname f) (TField (fname f)) (mkEdit (pos - List.length partial) (pos + List.length suffix) (fname f)) (beq (fname f) (partial ++ suffix)).
(** 953-972: the range grows over a bracket, to the left or to the right *)
Definition over (pos : nat) (bracket : option nat) (e : edit) : edit :=
  match bracket with
  | None => e
  | Some c => if c <? pos then mkEdit (from e - 1) (upto e) (text e) else mkEdit (from e) (upto e + 1) (text e)
  end.
Definition opened (o : option nat) : bytes := match o with Some _ => b_ "(" | None => [] end.
Definition closed (o : option nat) : bytes := match o with Some _ => b_ ")" | None => [] end.
(** 947-986; 1216-1234 newExtensionFieldCompletionItem *)
Definition ext_item (pos : nat) (partial suffix : bytes) (r : option ref) (x : bytes) : item :=
  let n := Completion.Model.relative_full_name x pkg in
  let e := mkEdit (pos - List.length partial) (pos + List.length suffix) n in
  let e := match r with
           | Some r => let e := over pos (closes r) (over pos (opens r) e) in mkEdit (from e) (upto e) (opened (opens r) ++ n ++ closed (closes r))
           | None => mkEdit (from e) (upto e) (b_ "(" ++ n ++ b_ ")")
           end in
  mkOffer (b_ "(" ++ n ++ b_ ")") (TExt n) e false.
Definition complete_names (p : prev) (partial suffix : bytes) (r : option ref) (pos : nat) : list item :=
  let '(msg, with_exts) := match p with
                           | PMsg m => (Some m, true)
                           | PField (Some m) => (Some m, ranges m)
                           | PField None | POther => (None, false)
                           end in
  match msg with
  | None => []
  | Some m =>
      if map_entry m then []
      else
        let plain := negb (match r with Some r => with_exts && is_extension r | None => false end) in
        (if plain then map (field_item pos partial suffix) (filter (fun f => negb (skipped partial suffix f)) (fields m)) else [])
        ++ (if with_exts then map (ext_item pos partial suffix r) (filter (fun x => negb (gogo partial x)) exts) else [])
  end.
(** 537-556 and 557-583: the name at the cursor gives what is typed *)
Definition complete_name (line : bytes) (p : prev) (r : option ref) (pos : nat) : list item :=
  let '(partial, suffix) := match r with Some r => find_partial line (name_from r) (name_upto r) pos | None => ([], []) end in
  complete_names p partial suffix r pos.
End Names.

(** ** Where the name is, 243-294 *)
(** after "option" with no name yet (256-259), in a name (261-294), in the name of a field of a message
    literal with the given fields of a message of the given name (268-280, 284-292) *)
Inductive place := AtKeyword | InName (r : ref) | InLiteral (r : ref) (msg : bytes) (elems : list bytes).
(** [set]: the options set on the element, findExistingOptions, 858-865 *)
Definition existing_at (set : list bytes) (w : place) : list bytes :=
  match w with
  | AtKeyword => set
  | InName _ => []
  | InLiteral _ m elems => map (Completion.Model.append m) elems
  end.
Definition ref_at (w : place) : option ref := match w with AtKeyword => None | InName r | InLiteral r _ _ => Some r end.
Definition offers (exts : list bytes) (pkg : bytes) (set : list bytes) (line : bytes) (m : message) (w : place) (pos : nat) : list item :=
  complete_name exts pkg (existing_at set w) line (PMsg m) (ref_at w) pos.

(** ** Whose options, 836-856 findCompletionScope *)
(** the nodes below the declaration (of the option itself) are passed over; [search] is deepPathSearch *)
Fixpoint scope_loop (search : list node -> outcome desc) (up : list node) : option desc :=
  match up with
  | [] => None
  | x :: above =>
      match x with
      | NMsg _ | NField _ | NEnum _ | NSvc _ => match search (rev up) with Found d => Some d | _ => scope_loop search above end
      | NFile | NRpc _ => Some (Own [])
      | _ => scope_loop search above
      end
  end.
Definition find_scope (search : list node -> outcome desc) (path : list node) : option desc := scope_loop search (rev path).
(** scope.Options().ProtoReflect().Descriptor(): the message of the options of an element (library) *)
Inductive options := FileOptions | MessageOptions | FieldOptions | OneofOptions | EnumOptions | EnumValueOptions | ServiceOptions | MethodOptions.
Definition options_of (d : desc) : options :=
  match kind_of (match d with Own p => p | Other _ p => p end) with
  | None => FileOptions
  | Some KMsg => MessageOptions | Some KField | Some KExt => FieldOptions | Some KOneof => OneofOptions
  | Some KEnum => EnumOptions | Some KVal => EnumValueOptions | Some KSvc => ServiceOptions | Some KMethod => MethodOptions
  end.
(** 256-259, 265-267: an option statement, or a name in one *)
Definition at_option (search : list node -> outcome desc) (options_message : options -> message) (path : list node) : option prev :=
  option_map (fun d => PMsg (options_message (options_of d))) (find_scope search path).
(** 243-245: in brackets without a name, the scope itself and not its options; [msg] and [type]: the message of a descriptor and of a field's type *)
Definition at_brackets (search : list node -> outcome desc) (msg : desc -> message) (type : desc -> option message) (path : list node) : option prev :=
  option_map (fun d => match kind_of (match d with Own p => p | Other _ p => p end) with
                       | Some KMsg => PMsg (msg d)
                       | Some KField | Some KExt => PField (type d)
                       | _ => POther
                       end) (find_scope search path).

(** ** Imports, 1537-1555 maybeResolveImport and 588-595 editAddImport *)
Record source := mkSource { path : bytes; imports : list (bytes * bool); declares : list bytes }.
(** the import that is added for a name, if any; [resolves] is ResolverFromFile(file).FindDescriptorByName *)
Definition import_for (resolves : bytes -> bool) (declaring : source) (n : bytes) : option bytes :=
  if resolves n then None else Some (path declaring).
Definition nl : ascii := ascii_of_nat 10.
Definition import_text (p : bytes) : bytes := nl :: b_ "import """ ++ p ++ b_ """;".
(** accepting it *)
Definition with_import (i : option bytes) (f : source) : source :=
  match i with None => f | Some p => mkSource (path f) (imports f ++ [(p, false)]) (declares f) end.
Definition accept_import (ws : list source) (f : bytes) (i : option bytes) : list source :=
  map (fun s => if beq (path s) f then with_import i s else s) ws.

(** ** Package names, 597-659 completePackageNames *)
(** protoreflect.FullName.IsValid (library) *)
Definition letter (c : ascii) : bool := let k := nat_of_ascii c in ((65 <=? k) && (k <=? 90)) || ((97 <=? k) && (k <=? 122)) || (k =? 95).
Definition digit (c : ascii) : bool := let k := nat_of_ascii c in (48 <=? k) && (k <=? 57).
Definition valid_part (s : bytes) : bool := match s with [] => false | c :: r => letter c && forallb (fun c => letter c || digit c) r end.
Definition valid_name (s : bytes) : bool := forallb valid_part (split_on "."%char s).
Fixpoint insert (x : bytes) (l : list bytes) : list bytes :=
  match l with [] => [x] | y :: r => if Completion.Model.blt y x then y :: insert x r else x :: l end.
(** slices.Sort, slices.Compact (library) *)
Definition sort (l : list bytes) : list bytes := fold_right insert [] l.
Fixpoint compact (l : list bytes) : list bytes :=
  match l with
  | x :: ((y :: _) as r) => if beq x y then compact r else x :: compact r
  | _ => l
  end.
Record pfile := mkPFile { ppath : bytes; ppkg : bytes }.
(** c.results.RangeFilesByPrefix: the files whose path starts with the prefix (library contract) *)
Definition candidates (files : list pfile) (self : bytes) : list bytes :=
  let dir := path_dir self in
  let base := path_base dir in
  (if valid_name base then [base] else [])
  ++ map ppkg (filter (fun f => has_prefix (ppath f) dir && negb (beq (ppath f) self) && beq (path_dir (ppath f)) dir) files).
Definition package_names (files : list pfile) (self partial : bytes) : list bytes :=
  filter (fun n => has_prefix n partial) (compact (sort (candidates files self))).
