(** The float64 operations that /repo/ratelimiter/fixedwindow.go:102 uses, on the IEEE 754 binary64
    numbers of the standard library ([SpecFloat], precision 53, exponent bound 1024, round to nearest
    even). *)
From Verif Require Import Common.
From Coq Require Import Floats.SpecFloat.

(** Go: [float64(z)] for an [int64] [z]. *)
Definition f64_of_int (z : Z) : spec_float := binary_normalize 53 1024 z 0 false.

(** Go: [x / y] on float64. *)
Definition f64_div (x y : spec_float) : spec_float := SFdiv 53 1024 x y.

(** Smallest integer not below [m * 2^e]. *)
Definition ceil_scaled (m e : Z) : Z :=
  if 0 <=? e then m * 2 ^ e else - (- m / 2 ^ (- e)).

(** Go: [int64(math.Ceil(x))].  [math.Ceil] is exact, so the composition is the integer ceiling when
    that is an int64.  Otherwise (infinity, NaN, out of range) the Go specification leaves the result
    to the implementation; amd64 gives -2^63. *)
Definition f64_ceil_int64 (x : spec_float) : Z :=
  match x with
  | S754_zero _ => 0
  | S754_finite s m e =>
      let c := ceil_scaled (if s then Zneg m else Zpos m) e in
      if (- 2 ^ 63 <=? c) && (c <? 2 ^ 63) then c else - 2 ^ 63
  | S754_infinity _ | S754_nan => - 2 ^ 63
  end.
