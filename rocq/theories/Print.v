(** Print.v - model of how doubles are written into score files (operator<<, src/gbdt_algo/evaluation.cc:47-51) and into the report of feature
    importances (fmt::format of "{1}", src/main.cc:83), both the C format "%g", and of how Python's float() reads them (gbdt/_forest.py:29,
    scripts/bagged.py:118).  Definitions only. *)
From Coq Require Import SpecFloat.
From Verif Require Import Base F32 Num Strings Stopwatch.

(** The number of decimal digits of a natural number; 0 has none. *)
Fixpoint digits_loop (fuel : nat) (z : Z) : Z :=
  match fuel with O => 0 | S k => if (z <=? 0)%Z then 0 else (1 + digits_loop k (z / 10))%Z end.
Definition digits (z : Z) : Z := digits_loop (S (Z.to_nat (Z.log2 z))) z.
(** The exponent of the first digit of a / b *)
Definition exponent10 (a b : Z) : Z := if (b <=? a)%Z then (digits (a / b) - 1)%Z else (- digits ((b - 1) / a))%Z.
(** a / b times 10^k, rounded (the C library rounds the exact value, ties to even) *)
Definition scaled (a b k : Z) : Z := if (0 <=? k)%Z then nearest (a * 10 ^ k) b else nearest a (b * 10 ^ (- k)).
(** Six digits as one number, and the exponent of the first *)
Definition six (a b : Z) : Z * Z :=
  let x := exponent10 a b in
  let d := scaled a b (5 - x) in
  if (d =? 1000000)%Z then (100000%Z, (x + 1)%Z) else (d, x).

Definition digit_char (d : Z) : ascii := ascii_of_nat (48 + Z.to_nat d).
(** The last [k] digits *)
Fixpoint padded (k : nat) (n : Z) : str :=
  match k with O => [] | S k => padded k (n / 10) ++ [digit_char (n mod 10)] end.
Definition is_zero_char (c : ascii) : bool := if ascii_dec c "0"%char then true else false.
Definition without_zeros (s : str) : str := rev (drop_while is_zero_char (rev s)).
(** Digits before and after the point *)
Definition pointed (whole fraction : str) : str :=
  match without_zeros fraction with [] => whole | f => whole ++ lit "." ++ f end.
(** "%g": plain notation for exponents from -4 to 5, otherwise scientific *)
Definition general (d x : Z) : str :=
  if ((-4 <=? x) && (x <? 6))%Z then
    if (0 <=? x)%Z then pointed (firstn (Z.to_nat (x + 1)) (padded 6 d)) (skipn (Z.to_nat (x + 1)) (padded 6 d))
    else pointed (lit "0") (repeat "0"%char (Z.to_nat (- x - 1)) ++ padded 6 d)
  else pointed (firstn 1 (padded 6 d)) (skipn 1 (padded 6 d)) ++ lit "e" ++ (if (x <? 0)%Z then lit "-" else lit "+") ++
       padded (if (Z.abs x <? 100)%Z then 2 else Z.to_nat (digits (Z.abs x))) (Z.abs x).
(** A double.  Simplification: the sign of a NaN is not part of the model; the C library writes "-nan" for some of them. *)
Definition print_double (x : f64) : str :=
  match x with
  | S754_nan => lit "nan"
  | S754_infinity s => (if s then lit "-" else []) ++ lit "inf"
  | S754_zero s => (if s then lit "-" else []) ++ lit "0"
  | S754_finite s m e =>
      let '(d, k) := if (0 <=? e)%Z then six (Zpos m * 2 ^ e) 1 else six (Zpos m) (2 ^ (- e)) in
      (if s then lit "-" else []) ++ general d k
  end.

(** ** float() *)
Definition is_digit (c : ascii) : bool := (48 <=? nat_of_ascii c) && (nat_of_ascii c <=? 57).
Fixpoint take_digits (s : str) : str * str :=
  match s with
  | [] => ([], [])
  | c :: t => if is_digit c then let (d, r) := take_digits t in (c :: d, r) else ([], s)
  end.
Definition number_of (s : str) : Z := fold_left (fun a c => (10 * a + (Z.of_nat (nat_of_ascii c) - 48))%Z) s 0%Z.
(** The double nearest to a number times 10^k.  The mantissas are exact: SFdiv rounds once. *)
Definition nearest_double (neg : bool) (n k : Z) : f64 :=
  match n with
  | Zpos m =>
      if (0 <=? k)%Z then SFdiv 53 1024 (S754_finite neg (Z.to_pos (Zpos m * 10 ^ k)) 0) (S754_finite false 1 0)
      else SFdiv 53 1024 (S754_finite neg m 0) (S754_finite false (Z.to_pos (10 ^ (- k))) 0)
  | _ => S754_zero neg
  end.
(** The digits after a point *)
Definition take_fraction (s : str) : str * str :=
  match s with c :: t => if ascii_dec c "."%char then take_digits t else ([], s) | [] => ([], s) end.
(** The sign, the digits as one number and the power of ten of a decimal number.  Simplification: of the texts that float() accepts, those of the forms
    that "%g" produces; a plus sign, upper case, underscores and "infinity" are left out. *)
Definition read_decimal (neg : bool) (s : str) : option (bool * Z * Z) :=
  let '(whole, s) := take_digits s in
  let '(fraction, s) := take_fraction s in
  let n := number_of (whole ++ fraction) in
  let k := (- zlen fraction)%Z in
  match whole, s with
  | [], _ => None
  | _, [] => Some (neg, n, k)
  | _, c :: sign :: t =>
      if ascii_dec c "e"%char then
        match take_digits t with
        | ((_ :: _) as x, []) =>
            if ascii_dec sign "+"%char then Some (neg, n, (k + number_of x)%Z)
            else if ascii_dec sign "-"%char then Some (neg, n, (k - number_of x)%Z) else None
        | _ => None
        end
      else None
  | _, _ => None
  end.
(** The sign in front *)
Definition signed (s : str) : bool * str :=
  match s with c :: t => if ascii_dec c "-"%char then (true, t) else (false, s) | [] => (false, s) end.
Definition read_double (s : str) : option f64 :=
  let '(neg, s) := signed s in
  if str_eqb s (lit "nan") then Some S754_nan
  else if str_eqb s (lit "inf") then Some (S754_infinity neg)
  else match read_decimal neg s with Some (neg, n, k) => Some (nearest_double neg n k) | None => None end.
