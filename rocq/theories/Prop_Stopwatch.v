(** Prop_Stopwatch.v - property C76.  Statements only.  Model: Stopwatch.v; vocabulary: StopwatchSpec.v. *)
From Coq Require Import SpecFloat Reals.
From Verif Require Import Base F32 Num Stopwatch StopwatchSpec Stopwatch_proofs.
Local Open Scope R_scope.

(** ** C76 - durations in log messages *)
(** From a second up to 2^31 seconds (68 years): days, hours, minutes and tenths of a second that add up to the duration, up to half of a tenth. *)
Theorem C76_parts ms : a_double ms -> 1000 <= real_of ms <= 2147483699999 ->
  exists d h m t, msecs_string ms = Ret (duration d h m t) /\ (0 <= d)%Z /\ (0 <= h < 24)%Z /\ (0 <= m < 60)%Z /\ (0 <= t <= 600)%Z /\
    Rabs (amount d h m t - real_of ms / 1000) <= / 20 + / 1000000.
Proof. exact (C76_parts_proof ms). Qed.
Print Assumptions C76_parts.

(** Below a second: the whole milliseconds, unless they are no int. *)
Theorem C76_short ms z : a_double ms -> real_of ms < 1000 -> integer_part (real_of ms) z ->
  msecs_string ms = if Z_le_dec (-2147483648) z then Ret (numeral z ++ lit "ms") else Undef.
Proof. exact (C76_short_proof ms z). Qed.
Print Assumptions C76_short.

(** NaN, infinities and longer durations: the behaviour is undefined, because the minutes, or 60 times the minutes, are no int. *)
Theorem C76_undefined ms : match ms with S754_nan | S754_infinity _ => True | _ => a_double ms /\ 2147483700000 <= real_of ms end -> msecs_string ms = Undef.
Proof. exact (C76_undefined_proof ms). Qed.
Print Assumptions C76_undefined.

(** The seconds are not below 60: they are rounded after the minutes were split off. *)
Theorem C76_sixty_refuted : msecs_string (of_int 59960) = Ret (lit "60.0s") /\ msecs_string (of_int 119980) = Ret (lit "1m60.0s").
Proof. vm_compute. split; reflexivity. Qed.
Print Assumptions C76_sixty_refuted.

(** The cases of stopwatch_test.cc, and a duration that is printed as nothing but hours. *)
Example C76_example :
  msecs_string (of_int 123) = Ret (lit "123ms") /\ msecs_string (of_int 1203121) = Ret (lit "20m3.1s") /\
  msecs_string (of_int 6003432) = Ret (lit "1h40m3.4s") /\ msecs_string (of_int 604800021) = Ret (lit "7d") /\
  msecs_string (of_int (-5)) = Ret (lit "-5ms") /\ duration 0 1 40 34 = lit "1h40m3.4s" /\ msecs_string (of_int 2147483700000) = Undef.
Proof. vm_compute. repeat split; reflexivity. Qed.
