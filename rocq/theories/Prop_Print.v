(** Prop_Print.v - property C79.  Statements only.  Model: Print.v; vocabulary: PrintSpec.v, StopwatchSpec.v, PyScoresSpec.v. *)
From Coq Require Import SpecFloat Reals Lra.
From Verif Require Import Base F32 Num Column DataStore Forest Eval EvalSpec Python PythonSpec PyPlot ValueSpec Driver Stopwatch StopwatchSpec PyScores PyScoresSpec
  PyScores_proofs Print PrintSpec Print_proofs.

(** ** C79 - scores in decimal *)
(** The text of a finite double is a decimal number of at most six significant digits, the closest to the double there is (of two, the even one), hence off by at
    most 5 parts in a million. *)
Theorem C79_text x : a_double x ->
  exists d, denotes (print_double x) d /\ rounded_six (real_of x) d /\ (Rabs (d - real_of x) <= 5 / 1000000 * Rabs (real_of x))%R.
Proof. exact (C79_text_proof x). Qed.
Print Assumptions C79_text.
(** A text denotes one number. *)
Theorem C79_unique t a b : denotes t a -> denotes t b -> a = b.
Proof. exact (denotes_one t a b). Qed.
Print Assumptions C79_unique.
(** Printing keeps the order of scores, except that it may make scores equal. *)
Theorem C79_order x y a b : a_double x -> a_double y -> (real_of x <= real_of y)%R -> denotes (print_double x) a -> denotes (print_double y) b -> (a <= b)%R.
Proof. exact (C79_order_proof x y a b). Qed.
Print Assumptions C79_order.
(** A double of at most six significant digits is printed exactly. *)
Theorem C79_exact x : a_double x -> six_digits (real_of x) -> denotes (print_double x) (real_of x).
Proof. exact (C79_exact_proof x). Qed.
Print Assumptions C79_exact.
(** Decimal text is read as the nearest double. *)
Theorem C79_read t r : denotes t r -> (Rabs r <= max_double)%R -> exists y, read_double t = Some y /\ nearest_to r y.
Proof. exact (C79_read_proof t r). Qed.
Print Assumptions C79_read.
(** A score that is printed, read and printed again gives the same text, if its magnitude is at least 10^-307. *)
Theorem C79_round_trip x : a_double x -> (powerRZ 10 (-307) <= Rabs (real_of x))%R ->
  exists y, read_double (print_double x) = Some y /\ a_double y /\ (Rabs (real_of y - real_of x) <= 51 / 10000000 * Rabs (real_of x))%R /\
    print_double y = print_double x.
Proof. exact (round_trip x). Qed.
Print Assumptions C79_round_trip.
(** Every double survives being written and read: zeros, infinities and NaN unchanged, others as above. *)
Theorem C79_survives c_exp c_log (x : IEEE c_exp c_log) : exists y : IEEE c_exp c_log, survives (N := IEEE c_exp c_log) print_double read_double x y /\
  match x with
  | S754_finite _ _ _ =>
      a_double x -> (powerRZ 10 (-307) <= Rabs (real_of x))%R -> a_double y /\ (Rabs (real_of y - real_of x) <= 51 / 10000000 * Rabs (real_of x))%R
  | _ => y = x
  end.
Proof. exact (C79_survives_proof c_exp c_log x). Qed.
Print Assumptions C79_survives.
(** So that C78 holds for doubles and their text, without a hypothesis about them. *)
Theorem C79_checkpoints c_exp c_log beg order threads can_open tmp k cols d (f : forest (IEEE c_exp c_log)) points D :
  (forall l x, In x (order l) <-> In x l) -> 1 <= threads ->
  well_typed k cols -> lossless k (frame_of cols) -> cols <> [] -> Forall (scorable (frame_of cols)) f -> py_add_all beg cols None = py_ret d ->
  StronglySorted Z.lt points -> (forall p, In p points -> (1 <= p <= zlen f)%Z /\ can_open (score_name tmp p) = true) ->
  exists items, iterates (next (N := IEEE c_exp c_log) beg order threads print_double read_double can_open tmp) eq D (GNew f d points) items Stops /\
    Forall2 (fun p it => fst it = p /\
      rows_scored (N := IEEE c_exp c_log) print_double read_double (frame_of cols) k (firstn (Z.to_nat p) f) (snd it)) points items.
Proof. exact (fun O T => print_checkpoints c_exp c_log beg order threads can_open tmp k cols d f points D O T). Qed.
Print Assumptions C79_checkpoints.

(** Examples.  A double from an integer mantissa and a power of two *)
Definition ex_double (m : Z) (e : Z) : f64 := SpecFloat.binary_normalize 53 1024 m e false.
Definition ex_quotient (a b : Z) : f64 := SFdiv 53 1024 (ex_double a 0) (ex_double b 0).
Definition ex_text (x : f64) : String.string := string_of_list_ascii (print_double x).
Example C79_example :
  map ex_text [ex_quotient 1 3; ex_quotient (-2) 3; ex_double 1 0; ex_quotient 5 2; ex_double 1234567 0; ex_double 100000 0; ex_double 999999 0; ex_double 1000000 0;
               ex_quotient 1 10000; ex_quotient 1 100000; ex_quotient 123456789 1000000000; ex_double 0 0; S754_zero true; S754_infinity true; S754_nan] =
  ["0.333333"; "-0.666667"; "1"; "2.5"; "1.23457e+06"; "100000"; "999999"; "1e+06"; "0.0001"; "1e-05"; "0.123457"; "0"; "-0"; "-inf"; "nan"]%string /\
  (* ties go to the even digit, a carry moves the point, and the largest and the smallest double *)
  map ex_text [ex_double 1000005 0; ex_double 1000015 0; ex_quotient 9999996 10; ex_double (2 ^ 53 - 1) 971; ex_double 1 (-1074)] =
  ["1e+06"; "1.00002e+06"; "1e+06"; "1.79769e+308"; "4.94066e-324"]%string /\
  map (fun t => read_double (lit t)) ["0.333333"; "-2.5"; "1e+06"; "1.79769e+308"; "2e+308"; "1e-05"; "-0"; "inf"; "x"; "1.5.2"; ""]%string =
  [Some (ex_quotient 333333 1000000); Some (ex_quotient (-5) 2); Some (ex_double 1000000 0); Some (ex_double (179769 * 10 ^ 303) 0);
   Some (S754_infinity false); Some (ex_quotient 1 100000); Some (S754_zero true); Some (S754_infinity false); None; None; None] /\
  denotes (lit "-1.5e+02") (-150)%R.
Proof.
  split; [vm_compute; reflexivity|]. split; [vm_compute; reflexivity|]. split; [vm_compute; reflexivity|].
  replace (-150)%R with (-1 * IZR (decimal (lit "15")) * powerRZ 10 (1 * decimal (lit "02") - zlen (lit "5")))%R.
  - apply (Denotes true (lit "1") (lit "5") (Some (false, lit "02"))); [discriminate| |split; [discriminate|]]; repeat constructor; cbn; tauto.
  - change (decimal (lit "15")) with 15%Z. change (1 * decimal (lit "02") - zlen (lit "5"))%Z with 1%Z. rewrite powerRZ_1. lra.
Qed.
(** Different scores may get the same text. *)
Example C79_distinct_refuted : exists x y, a_double x /\ a_double y /\ (real_of x < real_of y)%R /\ print_double x = print_double y.
Proof.
  exists (ex_double 1000001 0), (ex_double 1000002 0). split; [split; [vm_compute; reflexivity|exact I]|]. split; [split; [vm_compute; reflexivity|exact I]|].
  split; [exact ex_less|vm_compute; reflexivity].
Qed.
(** Below 10^-307 the text may change when it is read and printed again: doubles are too coarse there. *)
Example C79_tiny_refuted : exists x y, a_double x /\ read_double (print_double x) = Some y /\ ex_text x = "1e-318"%string /\ ex_text y = "9.99999e-319"%string.
Proof. exists (S754_finite false 202403 (-1074)), (S754_finite false 202402 (-1074)). repeat split; vm_compute; reflexivity. Qed.
