(** Stopwatch.v - model of StopWatch::MSecsToFormattedString (src/utils/stopwatch.cc).  Definitions only. *)
From Coq Require Import SpecFloat DecimalString.
From Verif Require Import Base F32 Num Driver.

(** The integer part of a double, towards zero; none for NaN and infinities (stopwatch.cc:38, 42). *)
Definition truncated (x : f64) : option Z :=
  match x with
  | S754_zero _ => Some 0%Z
  | S754_finite s m e =>
      let a := if (0 <=? e)%Z then (Zpos m * 2 ^ e)%Z else (Zpos m / 2 ^ (- e))%Z in
      Some (if s then (- a)%Z else a)
  | _ => None
  end.
(** int(x) for a double; undefined if the integer part is no int (stopwatch.cc:38, 42). *)
Definition to_int (x : f64) : res Z :=
  match truncated x with
  | Some z => if ((- 2147483648 <=? z) && (z <=? 2147483647))%Z then Ret z else Undef
  | None => Undef
  end.
(** Multiplication of two ints, 60 * mins (stopwatch.cc:43) *)
Definition int_mul (a b : Z) : res Z :=
  let p := (a * b)%Z in if ((- 2147483648 <=? p) && (p <=? 2147483647))%Z then Ret p else Undef.

(** a / b to the nearest integer, ties to even: the rounding of "{0:.1f}" (stopwatch.cc:53) *)
Definition nearest (a b : Z) : Z :=
  let q := (a / b)%Z in
  let r := (a mod b)%Z in
  if (2 * r <? b)%Z then q else if (b <? 2 * r)%Z then (q + 1)%Z else if Z.even q then q else (q + 1)%Z.
(** The tenths that "{0:.1f}" shows (cppformat hands the number to snprintf, which rounds the exact value). *)
Definition tenths (x : f64) : Z :=
  match x with
  | S754_finite s m e =>
      let a := if (0 <=? e)%Z then (10 * Zpos m * 2 ^ e)%Z else nearest (10 * Zpos m) (2 ^ (- e)) in
      if s then (- a)%Z else a
  | _ => 0%Z
  end.
(** fmt::format("{0:.1f}", x).  Simplification: x is positive and finite, as it is in the only call (stopwatch.cc:53). *)
Definition one_digit (x : f64) : str :=
  let t := tenths x in dec (t / 10) ++ lit "." ++ dec (t mod 10).

(** An int, or the literal 1000.0, as a double (stopwatch.cc:41-43) *)
Definition of_int (z : Z) : f64 := binary_normalize 53 1024 z 0 false.
(** The literal 0.05 (stopwatch.cc:53) *)
Definition twentieth : f64 := SFdiv 53 1024 (of_int 1) (of_int 20).

(** MSecsToFormattedString (stopwatch.cc:36-55).  Division of ints is towards zero. *)
Definition msecs_string (ms : f64) : res str :=
  if fltb ms (of_int 1000) then let! z := to_int ms in Ret (dec z ++ lit "ms")
  else
    let seconds := SFdiv 53 1024 ms (of_int 1000) in
    let! mins := to_int (SFdiv 53 1024 seconds (of_int 60)) in
    let! whole := int_mul 60 mins in
    let seconds := SFsub 53 1024 seconds (of_int whole) in
    let hrs := Z.quot mins 60 in
    let mins := (mins - hrs * 60)%Z in
    let days := Z.quot hrs 24 in
    let hrs := (hrs - 24 * days)%Z in
    Ret ((if (days =? 0)%Z then [] else dec days ++ lit "d") ++
         (if (hrs =? 0)%Z then [] else dec hrs ++ lit "h") ++
         (if (mins =? 0)%Z then [] else dec mins ++ lit "m") ++
         (if fltb seconds twentieth then [] else one_digit seconds ++ lit "s")).
