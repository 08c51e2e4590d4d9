(** Executable model of time.ParseDuration and Duration.String of Go's package time, which parse and print the
    durations of /repo/conf/flag.go:53, /repo/conf/env.go:52, /repo/confstore/procs.go:107-120 and of the String
    methods in /repo/confs.  A duration is its number of nanoseconds.

    Up to Go 1.17 durations are summed up as int64, from Go 1.18 on as uint64; [lim] is the largest sum that is
    accepted: 2^63 - 1 or 2^63. *)
From Verif Require Import Common Bytes StoreModel ProcsModel ConfsModel JsonModel JsonFloatModel.
From Coq Require Import QArith Qround.
Local Open Scope string_scope.
Local Open Scope list_scope.
Local Open Scope Z_scope.

Definition go1_17 : Z := 2 ^ 63 - 1.
Definition go1_18 : Z := 2 ^ 63.

(** * float64 arithmetic, for numbers that are not negative *)

(** [None] is infinity. *)
Definition fl : Type := option (Z * Z).
Definition fl_val (p : Z * Z) : Q := (inject_Z (fst p) * pow2 (snd p))%Q.
Definition fl_of (z : Z) : fl := round64 (inject_Z z).
Definition fl_mul (a b : fl) : fl :=
  match a, b with Some p, Some q => round64 (fl_val p * fl_val q) | _, _ => None end.
Definition fl_div (a b : fl) : fl :=
  match a, b with
  | Some p, Some q => round64 (fl_val p / fl_val q)
  | Some _, None => Some (0, -1074)
  | None, _ => None
  end.
(** Conversion to an integer; only finite numbers occur. *)
Definition fl_trunc (a : fl) : Z := match a with Some p => Qfloor (fl_val p) | None => 0 end.

(** * time.ParseDuration *)

(** leadingInt *)
Fixpoint leading_int (lim x : Z) (s : string) : option (Z * string) :=
  match s with
  | String.EmptyString => Some (x, s)
  | String.String c s' =>
    if json_digit c then
      if lim / 10 <? x then None
      else let y := x * 10 + (byte c - 48) in if lim <? y then None else leading_int lim y s'
    else Some (x, s)
  end.

(** leadingFraction: the digits read as an integer, the power of ten to divide by, the rest. *)
Fixpoint leading_fraction (lim x : Z) (scale : fl) (overflow : bool) (s : string) : Z * fl * string :=
  match s with
  | String.EmptyString => (x, scale, s)
  | String.String c s' =>
    if json_digit c then
      if overflow then leading_fraction lim x scale true s'
      else if (2 ^ 63 - 1) / 10 <? x then leading_fraction lim x scale true s'
      else let y := x * 10 + (byte c - 48) in
           if lim <? y then leading_fraction lim x scale true s'
           else leading_fraction lim y (fl_mul scale (fl_of 10)) false s'
    else (x, scale, s)
  end.

(** unitMap *)
Definition unit_map : list (string * Z) :=
  [("ns", 1); ("us", 1000); (String.String (char_of 194) (String.String (char_of 181) "s"), 1000);
   (String.String (char_of 206) (String.String (char_of 188) "s"), 1000); ("ms", 1000000); ("s", 1000000000);
   ("m", 60000000000); ("h", 3600000000000)].
Fixpoint lookup_unit (l : list (string * Z)) (u : string) : option Z :=
  match l with
  | [] => None
  | (n, z) :: l' => if (n =? u)%string then Some z else lookup_unit l' u
  end.

Definition digit_or_dot (c : ascii) : bool := json_digit c || Ascii.eqb c ".".
(** The unit: up to the next digit or dot. *)
Fixpoint take_unit (s : string) : string * string :=
  match s with
  | String.EmptyString => ("", "")
  | String.String c s' => if digit_or_dot c then ("", s) else let (u, r) := take_unit s' in (String.String c u, r)
  end.

(** The rest after a dot. *)
Definition after_dot (s : string) : option string :=
  match s with String.String c s' => if Ascii.eqb c "." then Some s' else None | String.EmptyString => None end.

(** What the digits after the dot add. *)
Definition fraction_ns (f : Z) (scale : fl) (unit : Z) : Z :=
  if 0 <? f then fl_trunc (fl_mul (fl_of f) (fl_div (fl_of unit) scale)) else 0.

(** One turn of the loop: the nanoseconds and the rest. *)
Definition parse_part (lim : Z) (s : string) : option (Z * string) :=
  match s with
  | String.EmptyString => None
  | String.String c _ =>
    if digit_or_dot c then
      match leading_int lim 0 s with
      | None => None
      | Some (v, s1) =>
        let pre := negb (Nat.eqb (String.length s) (String.length s1)) in
        let '(f, scale, s2, post) :=
          match after_dot s1 with
          | Some s1' =>
            let '(f, scale, s2) := leading_fraction lim 0 (fl_of 1) false s1' in
            (f, scale, s2, negb (Nat.eqb (String.length s1') (String.length s2)))
          | None => (0, fl_of 1, s1, false)
          end in
        if pre || post then
          let (u, rest) := take_unit s2 in
          match lookup_unit unit_map u with
          | None => None
          | Some unit =>
            if lim / unit <? v then None
            else let n := v * unit + fraction_ns f scale unit in
                 if lim <? n then None else Some (n, rest)
          end
        else None
      end
    else None
  end.

Fixpoint parse_parts (fuel : nat) (lim d : Z) (s : string) : option Z :=
  match fuel with
  | O => None
  | S fuel =>
    if (s =? "")%string then Some d
    else match parse_part lim s with
         | None => None
         | Some (n, rest) =>
           let d' := (d + n) mod 2 ^ 64 in
           if lim <? d' then None else parse_parts fuel lim d' rest
         end
  end.

Definition take_sign (s : string) : bool * string :=
  match s with
  | String.String c s' => if Ascii.eqb c "-" then (true, s') else if Ascii.eqb c "+" then (false, s') else (false, s)
  | String.EmptyString => (false, s)
  end.
Definition parse_duration (lim : Z) (s : string) : option Z :=
  let '(neg, s) := take_sign s in
  if (s =? "0")%string then Some 0
  else if (s =? "")%string then None
  else match parse_parts (S (String.length s)) lim 0 s with
       | None => None
       | Some d => if neg then Some (- d) else if 2 ^ 63 - 1 <? d then None else Some d
       end.

(** confstore/procs.go:107-120 durationProcessor; in case of an error time.ParseDuration returns 0. *)
Definition duration_processor (lim : Z) : proc Z :=
  parser_processor (parse_duration lim) (fun _ => "not duration value") None 0.

(** * Duration.String *)

(** fmtFrac: the last [prec] digits of [v] as a fraction, without zeros at the end, before [acc]; and the other
    digits. *)
Fixpoint fmt_frac (prec : nat) (v : Z) (acc : string) (print : bool) : string * Z :=
  match prec with
  | O => (if print then String.String "." acc else acc, v)
  | S n =>
    let digit := v mod 10 in
    let print := print || negb (digit =? 0) in
    fmt_frac n (v / 10) (if print then String.String (char_of (digit + 48)) acc else acc) print
  end.

Definition micro : string := String.String (char_of 194) (String.String (char_of 181) "s").
Definition show_seconds (u : Z) : string :=
  let (f, u) := fmt_frac 9 u "" false in
  let tail := (itoa (u mod 60) ++ f ++ "s")%string in
  let u := u / 60 in
  if 0 <? u then
    let tail := (itoa (u mod 60) ++ "m" ++ tail)%string in
    let u := u / 60 in
    if 0 <? u then (itoa u ++ "h" ++ tail)%string else tail
  else tail.
Definition show_small (u : Z) : string :=
  if u <? 1000 then (itoa u ++ "ns")%string
  else if u <? 1000000 then let (f, v) := fmt_frac 3 u "" false in (itoa v ++ f ++ micro)%string
  else let (f, v) := fmt_frac 6 u "" false in (itoa v ++ f ++ "ms")%string.
Definition show_duration (d : Z) : string :=
  let u := Z.abs d in
  if u =? 0 then "0s"
  else ((if d <? 0 then "-" else "") ++ (if u <? 1000000000 then show_small u else show_seconds u))%string.
