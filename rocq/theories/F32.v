(** F32.v - IEEE single precision feature values.
    The type [float] of the C++ code, in the standard library's [spec_float] format
    (sign, mantissa, exponent; signed zeros, infinities; one NaN). *)
From Coq Require Import SpecFloat.
From Verif Require Import Base.

Definition f32 := spec_float.

Definition fnan : f32 := S754_nan.
Definition finf : f32 := S754_infinity false.
(** numeric_limits<float>::max() = (2^24 - 1) * 2^104 *)
Definition flt_max : f32 := S754_finite false 16777215 104.

(** isnan(v) *)
Definition is_nan (v : f32) : bool := match v with S754_nan => true | _ => false end.

(** C++ [a < b], [a <= b], [a == b] on floats: false if an operand is NaN. *)
Definition fltb (a b : f32) : bool :=
  match SFcompare a b with Some Lt => true | _ => false end.
Definition fleb (a b : f32) : bool :=
  match SFcompare a b with Some Lt | Some Eq => true | _ => false end.
Definition feqb (a b : f32) : bool :=
  match SFcompare a b with Some Eq => true | _ => false end.

(** std::min(a, b) returns b if b < a, otherwise a. *)
Definition fmin (a b : f32) : f32 := if fltb b a then b else a.

(** Small integer constants as floats, for examples: n * 2^0 is not normalised as a 24-bit
    mantissa, so normalise. *)
Definition f32_of_Z (z : Z) : f32 := binary_normalize 24 128 z 0 false.
