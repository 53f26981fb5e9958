(** ConstantSpec.v - vocabulary for the constant of a round of boosting, in exact arithmetic. *)
From Coq Require Import Reals.
From Verif Require Import Base Num Loss LossSpec.
Local Close Scope R_scope.

Section Spec.
Variables (l : Exact -> Exact -> point Exact) (wv yv : nat -> R) (f : list R).
Let n := List.length f.
(** The weighted sum of the losses if [c] is added to all function values, and the sums of gradients and hessians there *)
Definition constant_loss (c : R) : R := rsum n (fun i => wv i * loss_of l (yv i) (nth i f 0 + c))%R.
Definition pull (c : R) : R := rsum n (fun i => wv i * g_of l (yv i) (nth i f 0 + c))%R.
Definition bend (c : R) : R := rsum n (fun i => wv i * h_of l (yv i) (nth i f 0 + c))%R.
(** [cs] are constants that Newton's method visits from 0 in at most ten steps: all steps but the last are longer than
    1/10000; the last is not, unless it is the tenth. *)
Definition visited (cs : list R) : Prop :=
  2 <= List.length cs <= 11 /\ nth_error cs 0 = Some 0%R /\
  forall k a b, nth_error cs k = Some a -> nth_error cs (S k) = Some b ->
    (bend a <> 0 -> b = a + pull a / bend a)%R /\ (bend a = 0 -> b = a)%R /\
    (S (S k) < List.length cs -> (1 / 10000 < Rabs (b - a))%R) /\
    (S (S k) = List.length cs -> List.length cs < 11 -> (Rabs (b - a) <= 1 / 10000)%R).
(** The last step of the way *)
Definition ends (cs : list R) (a b : R) : Prop := exists cs', cs = cs' ++ [a; b].
Definition best_constant (c : R) : Prop := forall c', (constant_loss c <= constant_loss c')%R.
End Spec.

(** The four losses of loss_func_math.cc that look at one row, with the factor between gradients and derivatives (C42) and the
    largest hessian; the targets are -1 and 1 except for mse. *)
Definition known_loss (l : Exact -> Exact -> point Exact) (yv : nat -> R) (n : nat) (factor top : R) : Prop :=
  (l = mse /\ factor = 2 /\ top = 1)%R \/
  ((forall i, i < n -> (yv i = 1 \/ yv i = -1)%R) /\
   ((l = log_loss /\ factor = 1 /\ top = 1 / 4)%R \/ (l = huberized_hinge /\ factor = 1 /\ top = 1)%R \/ (l = squared_hinge /\ factor = 2 /\ top = 1)%R)).

(** The weight of the rows with a target *)
Definition weight_with (wv yv : nat -> R) (n : nat) (t : R) : R := rsum n (fun i => if Req_EM_T (yv i) t then wv i else 0%R).
(** From 0 towards [b], or further *)
Definition between (a x b : R) : Prop := (a <= x <= b \/ b <= x <= a)%R.
