(** Executable model of the value processors (/repo/confstore/procs.go). *)
From Verif Require Import Common Bytes Threads StoreModel.
From Coq Require DecimalString.
Local Open Scope string_scope.

(** A byte as a number. *)
Definition byte (c : ascii) : Z := Z.of_N (N_of_ascii c).

(** Go's [len]. *)
Definition strlen (s : string) : Z := Z.of_nat (String.length s).

(** [strconv.Itoa]. *)
Definition itoa (z : Z) : string := DecimalString.NilZero.string_of_int (Z.to_int z).

(** Unsigned wrap to 64 bits. *)
Definition u64 (z : Z) : Z := z mod 2 ^ 64.

(** Loop of [strconv.Atoi]'s fast path (Go standard library): [ch -= '0'; if ch > 9 error;
    n = n*10 + int(ch)], with [ch] a byte, so the subtraction wraps to 8 bits. *)
Fixpoint atoi_loop (n : Z) (s : string) : option Z :=
  match s with
  | String.EmptyString => Some n
  | String.String c s' =>
    let ch := (byte c - 48) mod 256 in
    if 9 <? ch then None else atoi_loop (i64 (n * 10 + ch)) s'
  end.

(** Loop of [strconv.ParseUint] for base 10 and 64 bits (Go standard library).  Letters and
    underscores are errors in base 10, like any other byte. *)
Fixpoint parse_uint_loop (n : Z) (s : string) : option Z :=
  match s with
  | String.EmptyString => Some n
  | String.String c s' =>
    if (48 <=? byte c) && (byte c <=? 57) then
      let d := byte c - 48 in
      if 1844674407370955162 <=? n then None       (* cutoff = MaxUint64/10 + 1 *)
      else
        let n := u64 (n * 10) in
        let n1 := u64 (n + d) in
        if (n1 <? n) || (2 ^ 64 - 1 <? n1) then None else parse_uint_loop n1 s'
    else None
  end.
Definition parse_uint (s : string) : option Z :=
  if s =? "" then None else parse_uint_loop 0 s.

(** A leading sign: whether the number is negative, and the rest. *)
Definition take_sign (s : string) : bool * string :=
  match s with
  | String.String "-" s' => (true, s')
  | String.String "+" s' => (false, s')
  | _ => (false, s)
  end.

(** [strconv.ParseInt] for base 10 and 64 bits (Go standard library). *)
Definition parse_int (s : string) : option Z :=
  if s =? "" then None
  else
    let (neg, rest) := take_sign s in
    match parse_uint rest with
    | None => None
    | Some un =>
      if negb neg && (2 ^ 63 <=? un) then None
      else if neg && (2 ^ 63 <? un) then None
      else Some (if neg then i64 (- i64 un) else i64 un)
    end.

(** [strconv.Atoi] on a 64-bit platform (Go standard library); [None] is an error. *)
Definition atoi (s : string) : option Z :=
  if (0 <? strlen s) && (strlen s <? 19) then
    let (neg, rest) := take_sign s in
    if rest =? "" then None
    else match atoi_loop 0 rest with
         | None => None
         | Some n => Some (if neg then i64 (- n) else n)
         end
  else parse_int s.

(** procs.go:65-105 IntProcessor.  Convert ignores Atoi's error; the value Atoi returns with an error
    is not modelled (0), Convert is only called on validated strings. *)
Definition int_processor (min : Z) (min_include : bool) (max : Z) (max_include : bool) : proc Z :=
  Proc
    (fun value =>
       match atoi value with
       | None => (false, "not int value")
       | Some v =>
         if min_include && (v <? min) then (false, "not >= " ++ itoa min)
         else if negb min_include && (v <=? min) then (false, "not > " ++ itoa min)
         else if max_include && (max <? v) then (false, "not <= " ++ itoa max)
         else if negb max_include && (max <=? v) then (false, "not < " ++ itoa max)
         else (true, "")
       end)
    (fun value => match atoi value with Some v => v | None => 0 end).

(** procs.go:17-19 Int, IntGtZero, IntGtEqZero. *)
Definition int_proc : proc Z := int_processor (- 2 ^ 31) true (2 ^ 31 - 1) true.
Definition int_gt_zero : proc Z := int_processor 0 false (2 ^ 31 - 1) true.
Definition int_gt_eq_zero : proc Z := int_processor 0 true (2 ^ 31 - 1) true.

(** procs.go:31-49 StringProcessor. *)
Definition string_processor (min_length max_length : Z) : proc string :=
  Proc
    (fun value =>
       let ok := (min_length <=? strlen value) && (strlen value <=? max_length) in
       (ok, if ok then "" else "len(value) not >= " ++ itoa min_length ++ " or <= " ++ itoa max_length))
    (fun value => value).

(** procs.go:15 String. *)
Definition string_proc : proc string := string_processor 0 (2 ^ 31 - 1).

(** [strconv.ParseBool] (Go standard library). *)
Definition parse_bool (s : string) : option bool :=
  if existsb (String.eqb s) ["1"; "t"; "T"; "TRUE"; "true"; "True"] then Some true
  else if existsb (String.eqb s) ["0"; "f"; "F"; "FALSE"; "false"; "False"] then Some false
  else None.

(** procs.go:51-63 boolProcessor; ParseBool returns false with its error. *)
Definition bool_proc : proc bool :=
  Proc
    (fun value =>
       if negb (value =? "true") && negb (value =? "false") then (false, "not bool value") else (true, ""))
    (fun value => match parse_bool value with Some b => b | None => false end).

(** procs.go:226-253 EnumProcessor.  The map's key set is modelled by the list it was built from; the
    order of the names in the message (map iteration) is not modelled. *)
Definition enum_processor (enums : list string) : proc string :=
  Proc
    (fun value =>
       let ok := existsb (String.eqb value) enums in
       (ok, if ok then "" else "only allowed value: [" ++ String.concat "," enums ++ "]"))
    (fun value => value).

(** The character class [a-fA-F0-9]. *)
Definition is_hex (c : ascii) : bool :=
  ((97 <=? byte c) && (byte c <=? 102)) || ((65 <=? byte c) && (byte c <=? 70)) ||
  ((48 <=? byte c) && (byte c <=? 57)).

(** Does a string start with [n] hex digits? *)
Fixpoint hex_prefix (n : nat) (s : string) : bool :=
  match n, s with
  | O, _ => true
  | S n', String.String c s' => is_hex c && hex_prefix n' s'
  | S _, String.EmptyString => false
  end.

(** [regexp.MatchString("#[a-fA-F0-9]{6}", s)]: a match at some position (Go standard library; the
    pattern only involves ASCII, so matching runes and matching bytes agree). *)
Fixpoint css_search (s : string) : bool :=
  match s with
  | String.EmptyString => false
  | String.String c s' => (Ascii.eqb c "#" && hex_prefix 6 s') || css_search s'
  end.

(** procs.go:161-180 cssColorHex. *)
Definition css_color_hex : proc string :=
  Proc
    (fun value =>
       if value =? "" then (true, "")
       else if negb (css_search value) then (false, "not css color hex value") else (true, ""))
    (fun value => value).

(** procs.go:107-120, 122-142, 144-159, 182-224: the processors that wrap a parser of the standard
    library or of util/rsa.  [parse] is that parser ([None]: error), [blank] says whether the empty
    string is accepted without calling it and what it converts to. *)
Definition parser_processor {T} (parse : string -> option T) (msg : string -> string)
    (blank : option T) (zero : T) : proc T :=
  Proc
    (fun value =>
       match blank with
       | Some _ => if value =? "" then (true, "") else
           match parse value with Some _ => (true, "") | None => (false, msg value) end
       | None => match parse value with Some _ => (true, "") | None => (false, msg value) end
       end)
    (fun value =>
       match blank with
       | Some null => if value =? "" then null else match parse value with Some v => v | None => zero end
       | None => match parse value with Some v => v | None => zero end
       end).
