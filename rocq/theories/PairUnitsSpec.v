(** PairUnitsSpec.v - vocabulary for the weights of rows with pairwise losses. *)
From Coq Require Import Reals.
From Verif Require Import Base F32 Column Num Config Score Split Tree Train Loss Pairwise PairSpec TargetsSpec.
Local Close Scope R_scope.

(** The weight of row [i] is multiplied by [s i]. *)
Definition times_each (s : nat -> R) (w w' : float_vector) : Prop :=
  forall i, match w i, w' i with
            | Ret x, Ret x' => real_of x' = (s i * real_of x)%R
            | Undef, Undef | Fatal, Fatal => True
            | _, _ => False
            end.
(** All rows of a group have the same factor. *)
Definition one_factor (n : nat) (col : option strcol) (s : nat -> R) : Prop := forall i j, together n col i j -> s i = s j.

(** The same loss object with other weights *)
Definition reweighted (w : float_vector) (p : @pairwise Exact) : @pairwise Exact := mkPairwise w (pr_y p) (pr_groups p) (pr_slices p) (pr_max p) (pr_prob p).
(** A gradient and a hessian multiplied by [k] *)
Definition both_times (k : R) (d : grad Exact) : grad Exact := mkG (k * gg d : Exact)%R (k * gh d : Exact)%R.
