(** Model of the decode command, pkg/protols/commands/decode.go, and of the fmt
    command, pkg/protols/commands/fmt.go with pkg/format/format.go:40-54
    (FileInPlace). *)
From Coq Require Import Ascii String.
From Verif Require Import Base Strs.
Open Scope list_scope.

(** ** Input *)

(** bytes.TrimSpace. Only the white space of ASCII: the multi-byte spaces of
    UTF-8 are left out. *)
Definition is_space (c : ascii) : bool :=
  let n := nat_of_ascii c in ((n =? 32) || ((9 <=? n) && (n <=? 13)))%bool.
Fixpoint trim_left (s : bytes) : bytes :=
  match s with [] => [] | c :: r => if is_space c then trim_left r else s end.
Definition trim (s : bytes) : bytes := rev (trim_left (rev (trim_left s))).

(** ** encoding/base64 (the standard library) *)

Definition std_digits : bytes := b_ "ABCDEFGHIJKLMNOPQRSTUVWXYZabcdefghijklmnopqrstuvwxyz0123456789+/".
Definition url_digits : bytes := b_ "ABCDEFGHIJKLMNOPQRSTUVWXYZabcdefghijklmnopqrstuvwxyz0123456789-_".
Definition pad_char : ascii := "="%char.

Record codec := mkCodec { digits : bytes; padded : bool }.
Definition std := mkCodec std_digits true.
Definition url := mkCodec url_digits true.
Definition raw_std := mkCodec std_digits false.
Definition raw_url := mkCodec url_digits false.

Fixpoint index_of (c : ascii) (l : bytes) : option nat :=
  match l with
  | [] => None
  | x :: r => if Ascii.eqb x c then Some 0 else option_map S (index_of c r)
  end.
Definition value (k : codec) (c : ascii) : option nat := index_of c (digits k).

Definition byte1 (a b : nat) : ascii := ascii_of_nat (a * 4 + b / 16).
Definition byte2 (b c : nat) : ascii := ascii_of_nat (b mod 16 * 16 + c / 4).
Definition byte3 (c d : nat) : ascii := ascii_of_nat (c mod 4 * 64 + d).
Definition is_pad (k : codec) (c : ascii) : bool := (padded k && Ascii.eqb c pad_char)%bool.

(** Encoding.DecodeString for input without line ends (which it would skip; the
    caller has none), not strict: leftover bits are ignored *)
Fixpoint decode (k : codec) (s : bytes) : option bytes :=
  match s with
  | [] => Some []
  | [_] => None
  | [x; y] =>
      if padded k then None
      else match value k x, value k y with Some a, Some b => Some [byte1 a b] | _, _ => None end
  | [x; y; z] =>
      if padded k then None
      else match value k x, value k y, value k z with
           | Some a, Some b, Some c => Some [byte1 a b; byte2 b c]
           | _, _, _ => None
           end
  | x :: y :: z :: w :: r =>
      match value k x, value k y with
      | Some a, Some b =>
          if is_pad k z then
            if (Ascii.eqb w pad_char && match r with [] => true | _ => false end)%bool then Some [byte1 a b] else None
          else match value k z with
               | None => None
               | Some c =>
                   if is_pad k w then match r with [] => Some [byte1 a b; byte2 b c] | _ => None end
                   else match value k w with
                        | None => None
                        | Some d => option_map (app [byte1 a b; byte2 b c; byte3 c d]) (decode k r)
                        end
               end
      | _, _ => None
      end
  end.

(** ** Reading, decode.go:180-216 *)

(** looksLikeBase64: bytes.Trim by this set leaves nothing *)
Definition base64_char (c : ascii) : bool :=
  match index_of c (std_digits ++ b_ "-_=") with Some _ => true | None => false end.
Definition looks_like_base64 (s : bytes) : bool := forallb base64_char s.

Fixpoint first_decoded (ks : list codec) (s : bytes) : option bytes :=
  match ks with
  | [] => None
  | k :: r => match decode k s with Some d => Some d | None => first_decoded r s end
  end.

(** readMaybeBase64AndTrim; None: "no input" *)
Definition read (input : bytes) : option bytes :=
  let s := trim input in
  match s with
  | [] => None
  | _ =>
      if looks_like_base64 s then
        let ks := if has_suffix s [pad_char] then [std; url] else [std; url; raw_std; raw_url] in
        match first_decoded ks s with Some d => Some d | None => Some s end
      else Some s
  end.

(** ** The message type, decode.go:92-139 *)

Definition dot : ascii := "."%char.
Definition short (n : bytes) : bytes := last (split_on dot n) [].
(** strings.ToLower, for the ASCII characters names have *)
Definition lower (s : bytes) : bytes :=
  map (fun c => let n := nat_of_ascii c in if ((65 <=? n) && (n <=? 90))%bool then ascii_of_nat (n + 32) else c) s.
(** strings.Contains *)
Fixpoint contains (s t : bytes) : bool :=
  (has_prefix s t || match s with [] => false | _ :: r => contains r t end)%bool.

(** the loop of 105-118: a full name, names, partial matches *)
Fixpoint scan (all : list bytes) (t : bytes) (by_name partial : list bytes)
  : option bytes * list bytes * list bytes :=
  match all with
  | [] => (None, by_name, partial)
  | d :: r =>
      if beq d t then (Some d, by_name, partial)
      else if beq (short d) t then scan r t (by_name ++ [d]) partial
      else if contains (lower d) (lower t) then scan r t by_name (partial ++ [d])
      else scan r t by_name partial
  end.

Inductive choice := Use (d : bytes) | Ask (ds : list bytes) | NotFound.
Definition choose (all : list bytes) (t : bytes) : choice :=
  match scan all t [] [] with
  | (Some d, _, _) => Use d
  | (None, [d], _) => Use d
  | (None, (_ :: _ :: _) as ds, _) => Ask ds
  | (None, [], [d]) => Use d
  | (None, [], (_ :: _ :: _) as ds) => Ask ds
  | (None, [], []) => NotFound
  end.

(** messages with those declared in them, by full name *)
Inductive declared := Declared (full : bytes) (inner : list declared).
Definition full_name (m : declared) : bytes := match m with Declared n _ => n end.
(** XGetAllMessages (pkg/lsp/externalapi.go:85-97), for the messages of each result *)
Definition all_messages (files : list (list declared)) : list bytes := flat_map (map full_name) files.

(** What the command prints, 41-71: as wire format, by a type, after asking, or
    an error. *)
Inductive printed := Wire (s : bytes) | Typed (d : bytes) (s : bytes) | Asked (ds : list bytes) | Error.
Definition command (all : list bytes) (t input : bytes) : printed :=
  match t with
  | [] => match read input with Some s => Wire s | None => Error end
  | _ => match choose all t with
         | NotFound => Error
         | Ask ds => Asked ds
         | Use d => match read input with Some s => Typed d s | None => Error end
         end
  end.

(** ** The fmt command *)

(** One goroutine of fmt.go:18-23 running FileInPlace. The write of
    OverwriteFile (pkg/util/gofmt_helpers.go:55) is one step, the truncation
    after it another. Failing calls and the backup file are the subject of the
    Overwrite area and left out. *)
Inductive job_state :=
| Start
| Stated (size : nat)
| HasRead (size : nat) (original : bytes)
| Wrote (size len : nat)
| Done.
Record job := mkJob { j_file : nat; j_state : job_state }.
Definition files := nat -> bytes.

Section Fmt.
  Variable format : bytes -> option bytes.   (* None: the file does not parse *)

  Definition step1 (fs : files) (j : job) : files * job :=
    let c := fs (j_file j) in
    match j_state j with
    | Start => (fs, mkJob (j_file j) (Stated (List.length c)))                (* format.go:41 *)
    | Stated n => (fs, mkJob (j_file j) (HasRead n c))                        (* 45 *)
    | HasRead n o =>
        match format o with
        | None => (fs, mkJob (j_file j) Done)                                 (* 50 *)
        | Some t => (upd fs (j_file j) (t ++ skipn (List.length t) c), mkJob (j_file j) (Wrote n (List.length t)))
        end
    | Wrote n len =>
        (if len <? n then upd fs (j_file j) (firstn len c) else fs, mkJob (j_file j) Done)  (* helpers:56 *)
    | Done => (fs, j)
    end.

  (** the scheduler runs one step of some goroutine *)
  Fixpoint run (schedule : list nat) (fs : files) (jobs : list job) : files * list job :=
    match schedule with
    | [] => (fs, jobs)
    | i :: r =>
        match nth_error jobs i with
        | None => run r fs jobs
        | Some j => let '(fs', j') := step1 fs j in run r fs' (firstn i jobs ++ j' :: skipn (S i) jobs)
        end
    end.
End Fmt.
