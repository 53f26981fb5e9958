(** StopwatchSpec.v - durations written out. *)
From Coq Require Import SpecFloat Reals DecimalString.
From Verif Require Import Base F32 Num.

(** A finite double *)
Definition a_double (x : spec_float) : Prop :=
  valid_binary 53 1024 x = true /\ match x with S754_zero _ | S754_finite _ _ _ => True | _ => False end.
(** A decimal numeral *)
Definition numeral (z : Z) : str := list_ascii_of_string (NilZero.string_of_int (Z.to_int z)).

(** Days, hours, minutes and tenths of a second, without the parts that are 0 *)
Definition part (z : Z) (unit : String.string) : str := if Z.eq_dec z 0 then [] else numeral z ++ lit unit.
Definition duration (d h m t : Z) : str :=
  part d "d" ++ part h "h" ++ part m "m" ++ (if Z.eq_dec t 0 then [] else numeral (t / 10) ++ lit "." ++ numeral (t mod 10) ++ lit "s").
(** In seconds *)
Definition amount (d h m t : Z) : R := (IZR (86400 * d + 3600 * h + 60 * m) + IZR t / 10)%R.
(** The integer part *)
Definition integer_part (x : R) (z : Z) : Prop :=
  (Rabs (IZR z) <= Rabs x < Rabs (IZR z) + 1 /\ 0 <= x * IZR z)%R.
