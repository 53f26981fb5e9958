(** PrintSpec.v - decimal notation. *)
From Coq Require Import SpecFloat Reals.
From Verif Require Import Base F32 Num StopwatchSpec.

Definition decimal_digit (c : ascii) : Prop := In c (lit "0123456789").
(** The number a row of digits stands for *)
Fixpoint decimal (s : str) : Z :=
  match s with [] => 0 | c :: t => ((Z.of_nat (nat_of_ascii c) - 48) * 10 ^ zlen t + decimal t)%Z end.
(** Decimal notation: [-]digits[.digits][e(+|-)digits] *)
Inductive denotes : str -> R -> Prop :=
| Denotes (neg : bool) whole fraction (ex : option (bool * str)) :
    whole <> [] -> Forall decimal_digit (whole ++ fraction) ->
    match ex with Some (_, e) => e <> [] /\ Forall decimal_digit e | None => True end ->
    denotes ((if neg then lit "-" else []) ++ whole ++
             (match fraction with [] => [] | _ => lit "." ++ fraction end) ++
             (match ex with Some (n, e) => lit "e" ++ (if n : bool then lit "-" else lit "+") ++ e | None => [] end))
            ((if neg then -1 else 1) * IZR (decimal (whole ++ fraction)) *
             powerRZ 10 ((match ex with Some (n, e) => (if n : bool then -1 else 1) * decimal e | None => 0 end) - zlen fraction))%R.

(** [d] has at most six significant digits. *)
Definition six_digits (d : R) : Prop := exists m k, (Z.abs m < 1000000)%Z /\ d = (IZR m * powerRZ 10 k)%R.
(** No number of six digits is closer to [x]. *)
Definition nearest_six (x d : R) : Prop := six_digits d /\ forall d', six_digits d' -> (Rabs (d - x) <= Rabs (d' - x))%R.
(** No double is closer to [d] than [y]. *)
Definition nearest_to (d : R) (y : spec_float) : Prop :=
  a_double y /\ forall y', a_double y' -> (Rabs (real_of y - d) <= Rabs (real_of y' - d))%R.
(** The largest double *)
Definition max_double : R := IZR ((2 ^ 53 - 1) * 2 ^ 971).
(** The last of six digits is even. *)
Definition even_six (d : R) : Prop := exists m k, Z.Even m /\ (100000 <= Z.abs m < 1000000)%Z /\ d = (IZR m * powerRZ 10 k)%R.
(** The number of six digits closest to [x]; of two that are equally close, the even one *)
Definition rounded_six (x d : R) : Prop := nearest_six x d /\ (even_six d \/ forall d', nearest_six x d' -> d' = d).
