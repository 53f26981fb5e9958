(** Num.v - the arithmetic of C++ double as a parameter, and GradientData (src/loss_func/gradient_data.h).
    Definitions only. *)
From Coq Require Import SpecFloat Reals.
From Verif Require Import Base F32.

(** The operations the code uses on double values. *)
Record Num := mkNum {
  nt :> Type;
  nadd : nt -> nt -> nt;
  nsub : nt -> nt -> nt;
  nmul : nt -> nt -> nt;
  ndiv : nt -> nt -> nt;
  nopp : nt -> nt;
  nabs : nt -> nt;
  nexp : nt -> nt;
  nlog : nt -> nt;
  nltb : nt -> nt -> bool;      (* a < b *)
  nleb : nt -> nt -> bool;      (* a <= b *)
  neqb : nt -> nt -> bool;      (* a == b *)
  nfinite : nt -> bool;         (* neither NaN nor infinite *)
  nZ : Z -> nt;                 (* integer to double *)
  nfloat : f32 -> nt;           (* float to double *)
  nstore : nt -> nt             (* double to float and back to double *)
}.
Arguments nadd {n}. Arguments nsub {n}. Arguments nmul {n}. Arguments ndiv {n}. Arguments nopp {n}.
Arguments nabs {n}. Arguments nexp {n}. Arguments nlog {n}. Arguments nltb {n}. Arguments nleb {n}.
Arguments neqb {n}. Arguments nfinite {n}. Arguments nZ {n}. Arguments nfloat {n}. Arguments nstore {n}.

Definition n0 {N : Num} : N := nZ 0.
Definition n1 {N : Num} : N := nZ 1.
(** std::min, std::max *)
Definition nmin {N : Num} (a b : N) : N := if nltb b a then b else a.
Definition nmax {N : Num} (a b : N) : N := if nltb a b then b else a.

Declare Scope num_scope.
Delimit Scope num_scope with num.
Notation "a + b" := (nadd a b) : num_scope.
Notation "a - b" := (nsub a b) : num_scope.
Notation "a * b" := (nmul a b) : num_scope.
Notation "a / b" := (ndiv a b) : num_scope.
Notation "- a" := (nopp a) : num_scope.
Notation "a <? b" := (nltb a b) : num_scope.
Notation "a <=? b" := (nleb a b) : num_scope.
Notation "a =? b" := (neqb a b) : num_scope.

(** ** IEEE arithmetic *)

Definition f64 := spec_float.
(** Rounding a value to a format (round to nearest even). *)
Definition to_format (prec emax : Z) (v : spec_float) : spec_float :=
  match v with
  | S754_finite s m e => binary_normalize prec emax (cond_Zopp s (Zpos m)) e s
  | _ => v
  end.
Definition to_f32 (v : spec_float) : f32 := to_format 24 128 v.
Definition to_f64 (v : spec_float) : f64 := to_format 53 1024 v.

(** Doubles as the processor computes them.  The C library's exp and log are parameters. *)
Definition IEEE (c_exp c_log : f64 -> f64) : Num := {|
  nt := f64;
  nadd := SFadd 53 1024;
  nsub := SFsub 53 1024;
  nmul := SFmul 53 1024;
  ndiv := SFdiv 53 1024;
  nopp := SFopp;
  nabs := SFabs;
  nexp := c_exp;
  nlog := c_log;
  nltb := fltb;
  nleb := fleb;
  neqb := feqb;
  nfinite := fun v => match v with S754_zero _ | S754_finite _ _ _ => true | _ => false end;
  nZ := fun z => binary_normalize 53 1024 z 0 false;
  nfloat := to_f64;
  nstore := fun v => to_f64 (to_f32 v)
|}.

(** ** Exact arithmetic: real numbers, no rounding. *)

(** The real number a finite float stands for (0 for NaN and infinities). *)
Definition real_of (v : spec_float) : R :=
  match v with
  | S754_finite s m e => (IZR (cond_Zopp s (Zpos m)) * powerRZ 2 e)%R
  | _ => 0%R
  end.

Definition Rltb (a b : R) : bool := if Rlt_dec a b then true else false.
Definition Rleb (a b : R) : bool := if Rle_dec a b then true else false.
Definition Reqb (a b : R) : bool := if Req_EM_T a b then true else false.

Definition Exact : Num := {|
  nt := R;
  nadd := Rplus;
  nsub := Rminus;
  nmul := Rmult;
  ndiv := Rdiv;
  nopp := Ropp;
  nabs := Rabs;
  nexp := exp;
  nlog := ln;
  nltb := Rltb;
  nleb := Rleb;
  neqb := Reqb;
  nfinite := fun _ => true;
  nZ := IZR;
  nfloat := real_of;
  nstore := fun x => x
|}.

(** ** GradientData (gradient_data.h:21-62) *)
Local Open Scope num_scope.

Record grad (N : Num) := mkG { gg : N; gh : N }.
Arguments mkG {N} gg gh. Arguments gg {N} g. Arguments gh {N} g.

Definition gzero {N : Num} : grad N := mkG n0 n0.
Definition gadd {N : Num} (a b : grad N) : grad N := mkG (gg a + gg b) (gh a + gh b).
Definition gsub {N : Num} (a b : grad N) : grad N := mkG (gg a - gg b) (gh a - gh b).
(** operator * (40-42, 60-62): [w] is a float, promoted to double *)
Definition gscale {N : Num} (w : N) (a : grad N) : grad N := mkG (w * gg a) (w * gh a).

(** Energy (45-48), Score (51-54) *)
Definition energy {N : Num} (lambda : N) (a : grad N) : N :=
  let hs := gh a + lambda in if hs =? n0 then n0 else gg a * gg a / hs.
Definition gscore {N : Num} (lambda : N) (a : grad N) : N :=
  let hs := gh a + lambda in if hs =? n0 then n0 else gg a / hs.
