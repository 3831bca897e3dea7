(** The grammar of proto source, as far as descriptors need it, and what a source file declares.
    https://protobuf.dev/reference/protobuf/proto2-spec and proto3-spec; the words that cannot begin a type are
    those of protoc's parser.  Nothing here comes from the printer. *)
From Coq Require Import Ascii String NArith QArith Qreduction.
From Verif Require Import Base Strs.
From Verif.PrintTree Require Import Model.
Open Scope list_scope.
Open Scope nat_scope.

Notation "'do' x <- e ; k" := (match e with Some x => k | None => None end) (at level 200, x pattern, e at level 100, k at level 200, right associativity).

(** ** Source files *)
(** a constant: a number, a string, an identifier, a message or a list *)
Inductive sval := SNum (x : Q) | SStr (s : bytes) | SIdent (n : bytes) | SMsg (fs : list (fkey * sval)) | SList (vs : list sval).
Inductive label := LNone | LOptional | LRequired | LRepeated.
Inductive rbound := UOne | UTo (b : Z) | UMax.
Definition soption := (oname * sval)%type.
Inductive stmt :=
| SSyntax (s : bytes) | SPackage (n : bytes) | SImport (m : imod) (p : bytes) | SOption (o : soption)
| SField (l : label) (t n : bytes) (num : Z) (os : list soption)
| SMap (k v n : bytes) (num : Z) (os : list soption)
| SGroup (l : label) (n : bytes) (num : Z) (os : list soption) (body : list stmt)
| SOneof (n : bytes) (body : list stmt) | SMessage (n : bytes) (body : list stmt) | SEnum (n : bytes) (body : list stmt)
| SExtend (n : bytes) (body : list stmt) | SService (n : bytes) (body : list stmt)
| SValue (n : bytes) (num : Z) (os : list soption)
| SExtensions (rs : list (Z * rbound)) (os : list soption) | SReserved (rs : list (Z * rbound)) | SReservedNames (ns : list bytes)
| SRpc (n : bytes) (cs : bool) (i : bytes) (ss : bool) (o : bytes) (body : list stmt).

(** ** Parsing.  Names in the result are as written. *)
Definition is (w : bytes) (s : string) : bool := beq w (b_ s).
Definition eat (c : ascii) (ts : list tok) : option (list tok) :=
  match ts with P d :: r => if Ascii.eqb c d then Some r else None | _ => None end.
Definition next (c : ascii) (ts : list tok) : bool := match ts with P d :: _ => Ascii.eqb c d | _ => false end.
Definition eat_word (s : string) (ts : list tok) : option (list tok) :=
  match ts with W w :: r => if is w s then Some r else None | _ => None end.
Definition word (ts : list tok) : option (bytes * list tok) := match ts with W w :: r => Some (w, r) | _ => None end.
Definition str (ts : list tok) : option (bytes * list tok) := match ts with TS s :: r => Some (s, r) | _ => None end.
(** one or more, separated by commas *)
Fixpoint psep {A} (p : list tok -> option (A * list tok)) (f : nat) (ts : list tok) : option (list A * list tok) :=
  match f with
  | 0 => None
  | S f' =>
      do (x, r) <- p ts;
      match eat "," r with
      | Some r' => do (xs, r2) <- psep p f' r'; Some (x :: xs, r2)
      | None => Some ([x], r)
      end
  end.
(** up to a closing brace or the end *)
Definition at_end (ts : list tok) : bool := match ts with [] => true | _ => next "}" ts end.
Fixpoint pmany {A} (p : list tok -> option (A * list tok)) (f : nat) (ts : list tok) : option (list A * list tok) :=
  match f with
  | 0 => None
  | S f' => if at_end ts then Some ([], ts) else do (x, r) <- p ts; do (xs, r2) <- pmany p f' r; Some (x :: xs, r2)
  end.
Definition pint (ts : list tok) : option (Z * list tok) :=
  match ts with
  | TI n :: r => Some (Z.of_N n, r)
  | _ => do r <- eat "-" ts; match r with TI n :: r' => Some ((- Z.of_N n)%Z, r') | _ => None end
  end.
Definition number (neg : bool) (n : N) (d : positive) : sval := SNum (Qred ((if neg then - Z.of_N n else Z.of_N n)%Z # d)).
Definition pkey (ts : list tok) : option (fkey * list tok) :=
  match eat "[" ts with
  | Some r =>
      do (n, r1) <- word r;
      match eat "/" r1 with
      | Some r2 => do (m, r3) <- word r2; do r4 <- eat "]" r3; Some (FAny n m, r4)
      | None => do r2 <- eat "]" r1; Some (FExt n, r2)
      end
  | None => do (n, r) <- word ts; Some (FName n, r)
  end.
Fixpoint pvalue (f : nat) (ts : list tok) {struct f} : option (sval * list tok) :=
  match f with
  | 0 => None
  | S f' =>
      match ts with
      | TI n :: r => Some (number false n 1, r)
      | TF n :: r => Some (number false n 1000000, r)
      | TS s :: r => Some (SStr s, r)
      | W w :: r => Some (SIdent w, r)
      | P c :: r =>
          if Ascii.eqb c "-" then
            match r with TI n :: r' => Some (number true n 1, r') | TF n :: r' => Some (number true n 1000000, r') | _ => None end
          else if Ascii.eqb c "{" then
            match eat "}" r with
            | Some r' => Some (SMsg [], r')
            | None =>
                do (fs, r2) <- psep (fun ts => do (k, r1) <- pkey ts; do r2 <- eat ":" r1; do (v, r3) <- pvalue f' r2; Some ((k, v), r3)) (List.length r) r;
                do r3 <- eat "}" r2; Some (SMsg fs, r3)
            end
          else if Ascii.eqb c "[" then
            match eat "]" r with
            | Some r' => Some (SList [], r')
            | None => do (vs, r2) <- psep (pvalue f') (List.length r) r; do r3 <- eat "]" r2; Some (SList vs, r3)
            end
          else None
      | _ => None
      end
  end.
Definition poname (ts : list tok) : option (oname * list tok) :=
  match eat "(" ts with
  | Some r => do (n, r1) <- word r; do r2 <- eat ")" r1; Some (OExt n, r2)
  | None => do (n, r) <- word ts; Some (OPlain n, r)
  end.
Definition poption (ts : list tok) : option (soption * list tok) :=
  do (o, r) <- poname ts; do r1 <- eat "=" r; do (v, r2) <- pvalue (List.length r1) r1; Some ((o, v), r2).
(** options in brackets, if there are any *)
Definition popts (ts : list tok) : option (list soption * list tok) :=
  match eat "[" ts with
  | Some r => do (os, r1) <- psep poption (List.length r) r; do r2 <- eat "]" r1; Some (os, r2)
  | None => Some ([], ts)
  end.
Definition prange (ts : list tok) : option ((Z * rbound) * list tok) :=
  do (a, r) <- pint ts;
  match eat_word "to" r with
  | Some r1 => match eat_word "max" r1 with Some r2 => Some ((a, UMax), r2) | None => do (b, r2) <- pint r1; Some ((a, UTo b), r2) end
  | None => Some ((a, UOne), r)
  end.
(** "= number [options]" *)
Definition pnumber (ts : list tok) : option (Z * list soption * list tok) :=
  do r <- eat "=" ts; do (z, r1) <- pint r; do (os, r2) <- popts r1; Some (z, os, r2).

Inductive ctx := CFile | CMessage | CEnum | COneof | CExtend | CService | CRpc.
(** the first part of a dotted name, and the words that begin something else than a field *)
Definition head_word (w : bytes) : bytes := hd [] (split_on "." w).
Definition keywords (c : ctx) : list bytes :=
  match c with
  | CMessage => map b_ ["message"; "enum"; "oneof"; "extend"; "extensions"; "reserved"; "option"; "optional"; "required"; "repeated"; "group"]%string
  | COneof => map b_ ["option"; "optional"; "required"; "repeated"; "group"]%string
  | CExtend => map b_ ["optional"; "required"; "repeated"; "group"]%string
  | _ => []
  end.
Definition scalars : list bytes :=
  map b_ ["double"; "float"; "int32"; "int64"; "uint32"; "uint64"; "sint32"; "sint64"; "fixed32"; "fixed64"; "sfixed32"; "sfixed64"; "bool"; "string"; "bytes"]%string.
Definition mem (w : bytes) (l : list bytes) : bool := existsb (beq w) l.

Definition prpc_type (ts : list tok) : option (bool * bytes * list tok) :=
  do r <- eat "(" ts; do (w, r1) <- word r;
  if is (head_word w) "stream" then
    if is w "stream" then do (t, r2) <- word r1; do r3 <- eat ")" r2; Some (true, t, r3) else None
  else do r2 <- eat ")" r1; Some (false, w, r2).

Fixpoint pstmt (f : nat) (c : ctx) (ts : list tok) {struct f} : option (stmt * list tok) :=
  match f with
  | 0 => None
  | S f' =>
      let block c' ts := do r <- eat "{" ts; do (b, r1) <- pmany (pstmt f' c') (S (List.length r)) r; do r2 <- eat "}" r1; Some (b, r2) in
      let named k c' ts := do (n, r) <- word ts; do (b, r1) <- block c' r; Some (k n b, r1) in
      let option_ ts := do (o, r) <- poption ts; do r1 <- eat ";" r; Some (SOption o, r1) in
      let reserved ts :=
        match ts with
        | TS _ :: _ => do (ns, r) <- psep str (List.length ts) ts; do r1 <- eat ";" r; Some (SReservedNames ns, r1)
        | _ => do (rs, r) <- psep prange (List.length ts) ts; do r1 <- eat ";" r; Some (SReserved rs, r1)
        end in
      let field l ts :=
        do (w, r) <- word ts;
        if is w "group" then
          do (n, r1) <- word r; do (z, os, r2) <- pnumber r1; do (b, r3) <- block CMessage r2; Some (SGroup l n z os b, r3)
        else if is w "map" && next "<" r then
          match l with
          | LNone =>
              do r1 <- eat "<" r; do (k, r2) <- word r1; do r3 <- eat "," r2; do (v, r4) <- word r3; do r5 <- eat ">" r4;
              do (n, r6) <- word r5; do (z, os, r7) <- pnumber r6; do r8 <- eat ";" r7; Some (SMap k v n z os, r8)
          | _ => None
          end
        else if is (head_word w) "group" then None
        else do (n, r1) <- word r; do (z, os, r2) <- pnumber r1; do r3 <- eat ";" r2; Some (SField l w n z os, r3) in
      do (w, r) <- word ts;
      match c with
      | CFile =>
          if is w "syntax" then do r1 <- eat "=" r; do (s, r2) <- str r1; do r3 <- eat ";" r2; Some (SSyntax s, r3)
          else if is w "package" then do (n, r1) <- word r; do r2 <- eat ";" r1; Some (SPackage n, r2)
          else if is w "import" then
            let (m, r1) := match eat_word "public" r with
                           | Some r1 => (IPublic, r1)
                           | None => match eat_word "weak" r with Some r1 => (IWeak, r1) | None => (INone, r) end
                           end in
            do (s, r2) <- str r1; do r3 <- eat ";" r2; Some (SImport m s, r3)
          else if is w "option" then option_ r
          else if is w "message" then named SMessage CMessage r
          else if is w "enum" then named SEnum CEnum r
          else if is w "extend" then named SExtend CExtend r
          else if is w "service" then named SService CService r
          else None
      | CEnum =>
          if is w "option" then option_ r
          else if is w "reserved" then reserved r
          else do (z, os, r1) <- pnumber r; do r2 <- eat ";" r1; Some (SValue w z os, r2)
      | CService =>
          if is w "option" then option_ r
          else if is w "rpc" then
            do (n, r1) <- word r; do (cs, i, r2) <- prpc_type r1; do r3 <- eat_word "returns" r2; do (ss, o, r4) <- prpc_type r3;
            match eat ";" r4 with
            | Some r5 => Some (SRpc n cs i ss o [], r5)
            | None => do (b, r5) <- block CRpc r4; Some (SRpc n cs i ss o b, r5)
            end
          else None
      | CRpc => if is w "option" then option_ r else None
      | _ =>
          let k s := mem (b_ s) (keywords c) && is w s in
          if mem (head_word w) (keywords c) && negb (mem w (keywords c)) then None
          else if k "message"%string then named SMessage CMessage r
          else if k "enum"%string then named SEnum CEnum r
          else if k "oneof"%string then named SOneof COneof r
          else if k "extend"%string then named SExtend CExtend r
          else if k "extensions"%string then
            do (rs, r1) <- psep prange (List.length r) r; do (os, r2) <- popts r1; do r3 <- eat ";" r2; Some (SExtensions rs os, r3)
          else if k "reserved"%string then reserved r
          else if k "option"%string then option_ r
          else if k "optional"%string then field LOptional r
          else if k "required"%string then field LRequired r
          else if k "repeated"%string then field LRepeated r
          else field LNone ts
      end
  end.
(** a whole file, without its blanks *)
Definition is_blank (t : tok) : bool := match t with B => true | _ => false end.
Definition strip (ts : list tok) : list tok := filter (fun t => negb (is_blank t)) ts.
Definition parse (ts : list tok) : option (list stmt) :=
  match pmany (pstmt (List.length ts) CFile) (S (List.length ts)) ts with Some (ss, []) => Some ss | _ => None end.

(** ** What a file declares *)
Inductive type := TScalar (t : bytes) | TName (n : bytes) | TMap (k v : type) | TGroup (n : bytes).
(** the elements that have options, by full name *)
Inductive owner := OwFile | OwMessage (n : bytes) | OwField (n : bytes) | OwOneof (n : bytes) | OwEnum (n : bytes) | OwValue (enum n : bytes)
| OwService (n : bytes) | OwMethod (n : bytes) | OwRange (message : bytes) (lo hi : Z).
Inductive fact :=
| FSyntax (s : syntax) | FPackage (n : bytes) | FImport (m : imod) (p : bytes)
| FMessage (n : bytes) | FEnum (n : bytes) | FService (n : bytes) | FOneof (n : bytes)
| FField (n : bytes) (oneof : option bytes) (c : card) (keyword : bool) (t : type) (num : Z)
| FExtension (n extendee : bytes) (c : card) (keyword : bool) (t : type) (num : Z)
| FJson (n json : bytes) | FDefault (n : bytes) (v : sval)
| FValue (enum n : bytes) (num : Z)
| FMethod (n : bytes) (cs : bool) (i : bytes) (ss : bool) (o : bytes)
| FReserved (o : owner) (lo hi : Z) | FReservedName (o : owner) (n : bytes) | FExtRange (message : bytes) (lo hi : Z)
| FOption (o : owner) (n : oname) (vs : list sval)
| FBad.

(** The JSON name of a field: the parts between underscores, all but the first with a capital *)
Definition capital (s : bytes) : bytes :=
  match s with
  | c :: r => (if ((97 <=? N_of_ascii c) && (N_of_ascii c <=? 122))%N then ascii_of_N (N_of_ascii c - 32) else c) :: r
  | [] => []
  end.
Definition default_json (n : bytes) : bytes :=
  match split_on "_" n with [] => [] | w :: ws => List.concat (w :: map capital ws) end.
Definition lower1 (c : ascii) : ascii := if ((65 <=? N_of_ascii c) && (N_of_ascii c <=? 90))%N then ascii_of_N (N_of_ascii c + 32) else c.
Definition lower (s : bytes) : bytes := map lower1 s.
Definition oname_dec (a b : oname) : {a = b} + {a <> b}.
Proof. decide equality; apply (list_eq_dec ascii_dec). Defined.
Definition oname_eqb (a b : oname) : bool := if oname_dec a b then true else false.

(** where a name is used: as a type, in an option, in an option of a message, in a message value *)
Inductive use := UType | UOption | UMessageOption | ULiteral.

Section Meaning.
(** name resolution: what a name means in a scope *)
Variable res : use -> bytes -> bytes -> bytes.
Variable syn : syntax.

Fixpoint rvalue (scope : bytes) (v : sval) : sval :=
  match v with
  | SMsg fs => SMsg (map (fun kv => (match fst kv with FExt n => FExt (res ULiteral scope n) | k => k end, rvalue scope (snd kv))) fs)
  | SList vs => SList (map (rvalue scope) vs)
  | v => v
  end.
Definition roption (u : use) (scope : bytes) (o : soption) : soption :=
  (match fst o with OExt n => OExt (res u scope n) | n => n end, rvalue scope (snd o)).
(** the options of an element: the values of each name, in order *)
Definition grouped (l : list soption) : list (oname * list sval) :=
  map (fun n => (n, map snd (filter (fun p => oname_eqb (fst p) n) l))) (nodup oname_dec (map fst l)).
Definition option_facts (ow : owner) (u : use) (scope : bytes) (l : list soption) : list fact :=
  map (fun g => FOption ow (fst g) (snd g)) (grouped (map (roption u scope) l)).
Definition body_options (ss : list stmt) : list soption := flat_map (fun s => match s with SOption o => [o] | _ => [] end) ss.

Definition rtype (scope t : bytes) : type := if mem t scalars then TScalar t else TName (res UType scope t).
Definition is_default (o : soption) : bool := oname_eqb (fst o) (OPlain (b_ "default")).
Definition is_json (o : soption) : bool := oname_eqb (fst o) (OPlain (b_ "json_name")).
(** the place of a statement *)
Record place := Place { pl_scope : bytes; pl_oneof : option bytes; pl_extendee : option bytes; pl_max : Z }.
(** what a label, or its absence, means *)
Definition labelled (l : label) (pl : place) : option (card * bool) :=
  match l with
  | LOptional => Some (Optional, true)
  | LRequired => Some (Required, false)
  | LRepeated => Some (Repeated, false)
  | LNone => match pl_oneof pl, syn with Some _, _ => Some (Optional, false) | None, Proto2 => None | None, _ => Some (Optional, false) end
  end.
Definition field_facts (pl : place) (cl : option (card * bool)) (t : type) (n : bytes) (num : Z) (os : list soption) : list fact :=
  let full := join (pl_scope pl) n in
  match cl with
  | None => [FBad]
  | Some (c, k) =>
      [match pl_extendee pl with Some x => FExtension full x c k t num | None => FField full (pl_oneof pl) c k t num end]
  end ++
  match pl_extendee pl with
  | Some _ => []
  | None => [FJson full (match find is_json os with Some (_, SStr s) => s | _ => default_json n end)]
  end ++
  map (fun o => FDefault full (rvalue full (snd o))) (filter is_default os) ++
  option_facts (OwField full) UOption full (filter (fun o => negb (is_default o || is_json o)) os).
Definition range_of (max : Z) (r : Z * rbound) : Z * Z :=
  (fst r, match snd r with UOne => fst r | UTo b => b | UMax => max end).
Definition message_max (body : list stmt) : Z :=
  if existsb (fun o => oname_eqb (fst o) (OPlain (b_ "message_set_wire_format")) && match snd o with SIdent i => is i "true" | _ => false end) (body_options body)
  then 2147483646%Z else 536870911%Z.
Definition enum_max : Z := 2147483647%Z.

Fixpoint facts (pl : place) (ow : owner) (s : stmt) {struct s} : list fact :=
  let scope := pl_scope pl in
  let message n body :=
    let full := join scope n in
    FMessage full :: option_facts (OwMessage full) UMessageOption full (body_options body) ++
    flat_map (facts (Place full None None (message_max body)) (OwMessage full)) body in
  match s with
  | SSyntax v => [if is v "proto2" then FSyntax Proto2 else if is v "proto3" then FSyntax Proto3 else FBad]
  | SPackage n => [FPackage n]
  | SImport m p => [FImport m p]
  | SOption _ => []
  | SField l t n num os => field_facts pl (labelled l pl) (rtype scope t) n num os
  | SMap k v n num os => field_facts pl (Some (Repeated, false)) (TMap (rtype scope k) (rtype scope v)) n num os
  | SGroup l n num os body => field_facts pl (labelled l pl) (TGroup (join scope n)) (lower n) num os ++ message n body
  | SMessage n body => message n body
  | SOneof n body =>
      let full := join scope n in
      FOneof full :: option_facts (OwOneof full) UOption full (body_options body) ++
      flat_map (facts (Place scope (Some full) None (pl_max pl)) (OwOneof full)) body
  | SEnum n body =>
      let full := join scope n in
      FEnum full :: option_facts (OwEnum full) UOption full (body_options body) ++
      flat_map (facts (Place scope None None enum_max) (OwEnum full)) body
  | SExtend x body => flat_map (facts (Place scope None (Some (res UType scope x)) 0%Z) OwFile) body
  | SService n body =>
      let full := join scope n in
      FService full :: option_facts (OwService full) UOption full (body_options body) ++
      flat_map (facts (Place full None None 0%Z) (OwService full)) body
  | SValue n num os =>
      match ow with
      | OwEnum e => FValue e n num :: option_facts (OwValue e n) UOption (join scope n) os
      | _ => [FBad]
      end
  | SExtensions rs os =>
      flat_map (fun r => let (lo, hi) := range_of (pl_max pl) r in FExtRange scope lo hi :: option_facts (OwRange scope lo hi) UMessageOption scope os) rs
  | SReserved rs => map (fun r => let (lo, hi) := range_of (pl_max pl) r in FReserved ow lo hi) rs
  | SReservedNames ns => map (FReservedName ow) ns
  | SRpc n cs i ss o body =>
      let full := join scope n in
      FMethod full cs (res UType scope i) ss (res UType scope o) :: option_facts (OwMethod full) UOption full (body_options body)
  end.
End Meaning.

(** A file: its syntax and package are those it states *)
Definition file_syntax (ss : list stmt) : syntax :=
  match ss with SSyntax v :: _ => if is v "proto3" then Proto3 else Proto2 | _ => Proto2 end.
Definition file_package (ss : list stmt) : bytes := hd [] (flat_map (fun s => match s with SPackage n => [n] | _ => [] end) ss).
Definition file_facts (res : use -> bytes -> bytes -> bytes) (ss : list stmt) : list fact :=
  option_facts res OwFile UOption (file_package ss) (body_options ss) ++
  flat_map (facts res (file_syntax ss) (Place (file_package ss) None None 0%Z) OwFile) ss.
