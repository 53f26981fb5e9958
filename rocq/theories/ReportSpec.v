(** ReportSpec.v - vocabulary for progress messages. *)
From Coq Require Import Reals.
From Verif Require Import Base Num Loss LossSpec ConstantSpec StepSpec.
Local Close Scope R_scope.

(** By how many percent [x] is less than [first]; 0 if [first] is 0 *)
Definition percent_less {N : Num} (first x : N) : N :=
  nmul (if neqb first n0 then n0 else ndiv (nsub first x) first) (nZ 100).

(** A round as in StepSpec.v in which [x] is reported: the weighted mean of the losses at the constant from which the last Newton
    step starts. *)
Definition reported_round (l : Exact -> Exact -> point Exact) (wv yv : nat -> R) (k lambda : R) (f f' : list R) (x : R) : Prop :=
  List.length f' = List.length f /\ exists cs a b label s, visited l wv yv f cs /\ ends cs a b /\ newton_tree l wv yv f a lambda label s /\
    (forall i, i < List.length f -> (nth i f' 0 = nth i f 0 + b + k * s i)%R) /\
    (x = constant_loss l wv yv f a / rsum (List.length f) wv)%R.
