(** StepSpec.v - vocabulary for a round of boosting with any pointwise loss, in exact arithmetic. *)
From Coq Require Import Reals.
From Verif Require Import Base Num Loss LossSpec ConstantSpec.
Local Close Scope R_scope.

(** The sum of a quantity over rows *)
Definition total (rows : list nat) (g : nat -> R) : R := fold_right Rplus 0%R (map g rows).

Section Spec.
Variables (l : Exact -> Exact -> point Exact) (wv yv : nat -> R).
(** The weighted sum of the losses of function values *)
Definition values_loss (f : list R) : R := rsum (List.length f) (fun i => wv i * loss_of l (yv i) (nth i f 0))%R.
Variables (f : list R) (a lambda : R).
Let n := List.length f.
(** Leaves are named by paths; the rows in the leaf of row [i]. *)
Definition leaf_mates (label : nat -> list bool) (i : nat) : list nat :=
  filter (fun j => if list_eq_dec Bool.bool_dec (label j) (label i) then true else false) (seq 0 n).
Definition leaf_g label i : R := total (leaf_mates label i) (fun j => wv j * g_of l (yv j) (nth j f 0 + a))%R.
Definition leaf_h label i : R := total (leaf_mates label i) (fun j => wv j * h_of l (yv j) (nth j f 0 + a))%R.
Definition leaf_w label i : R := total (leaf_mates label i) wv.
(** [s] are the scores of a tree whose leaves are scored by the gradients and hessians at the constant [a]. *)
Definition newton_tree (label : nat -> list bool) (s : nat -> R) : Prop :=
  forall i, i < n -> ((leaf_h label i + lambda <> 0 -> s i = leaf_g label i / (leaf_h label i + lambda)) /\ (leaf_h label i + lambda = 0 -> s i = 0))%R.
(** The loss when [t] times the scores are added *)
Definition stepped (s : nat -> R) (t : R) : R := rsum n (fun i => wv i * loss_of l (yv i) (nth i f 0 + a + t * s i))%R.
End Spec.
(** From the function values [f] to [f'] in a round with shrinkage [k]: a constant [b], found by Newton steps the last of which
    starts at [a], and a tree scored at [a]. *)
Definition round_of (l : Exact -> Exact -> point Exact) (wv yv : nat -> R) (k lambda : R) (f f' : list R) : Prop :=
  List.length f' = List.length f /\ exists cs a b label s, visited l wv yv f cs /\ ends cs a b /\ newton_tree l wv yv f a lambda label s /\
    forall i, i < List.length f -> (nth i f' 0 = nth i f 0 + b + k * s i)%R.
