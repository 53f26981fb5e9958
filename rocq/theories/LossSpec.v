(** LossSpec.v - vocabulary for the pointwise losses. *)
From Coq Require Import Reals.
From Verif Require Import Base F32 Num Par Subsampling Config Split SplitSpec Loss.
Local Close Scope R_scope.

Section Spec.
Context {N : Num}.

(** A vector of floats that has a value for every row. *)
Definition row_values (v : float_vector) (n : nat) (x : nat -> N) : Prop :=
  forall i, i < n -> exists a, v i = Ret a /\ nfloat a = x i.

Variables (lossf : N -> N -> point N) (wv yv : nat -> N) (f : list N).

(** The loss of a row when [c] is added to all function values, its gradient, and its weighted gradient. *)
Definition row_point (c : N) (i : nat) : point N := lossf (yv i) (nadd (nth i f n0) c).
Definition row_gradients (c : N) : list (grad N) := map (fun i => p_grad (row_point c i)) (seq 0 (List.length f)).
Definition row_weighted (c : N) (i : nat) : grad N := mkG (nmul (wv i) (gg (p_grad (row_point c i)))) (nmul (wv i) (gh (p_grad (row_point c i)))).
Definition sum_loss (c : N) (rows : list nat) : N := fold_left (fun a i => nadd a (nmul (wv i) (p_loss (row_point c i)))) rows n0.
(** What is summed up for one slice, and the sum of these. *)
Definition slice_total (c : N) (rows : list nat) : N * grad N := (sum_loss c rows, sum_of (row_weighted c) rows).
Definition sum_totals (l : list (N * grad N)) : N * grad N := fold_left (fun a b => (nadd (fst a) (fst b), gadd (snd a) (snd b))) l (n0, gzero).

(** Newton's method: the gradient of a slice-wise sum over all rows, and the steps [ds] taken from [c] with at most
    [todo] passes.  Each step is the Newton step where the sum of the earlier ones leads; all but the last are large;
    the last is small unless all passes were used. *)
Definition all_slices (p : @pointwise N) : list (list nat) := map range (pw_slices p).
Definition grad_total (slices : list (list nat)) (c : N) : grad N := total_of (map (sum_of (row_weighted c)) slices).
Definition steps (slices : list (list nat)) (todo : nat) (c : N) (ds : list N) : Prop :=
  1 <= List.length ds <= todo /\
  (forall k d, nth_error ds k = Some d -> d = score_of n0 (grad_total slices (fold_left nadd (firstn k ds) c)) /\
     (S k < List.length ds -> nltb convergence_threshold (nabs d) = true)) /\
  (List.length ds < todo -> nltb convergence_threshold (nabs (last ds n0)) = false).
End Spec.

(** A pointwise loss after Init. *)
Definition inited {N : Num} (w y : float_vector) (threads rows : nat) (p : @pointwise N) : Prop :=
  divide_samples rows (threads * 5) = Ret (pw_slices p) /\ pw_w p = w /\ pw_y p = y.
(** Targets of the binary losses. *)
Definition is_sign {N : Num} (x : f32) : Prop := neqb (nfloat x) (@nZ N 1) = true \/ neqb (nfloat x) (@nZ N (-1)) = true.
Definition one_or_minus_one (x : f32) : Prop := x = f32_one \/ x = f32_of_Z (-1).

(** Sums of reals over rows. *)
Definition rsum (n : nat) (g : nat -> R) : R := fold_right Rplus 0%R (map g (seq 0 n)).

(** Loss, negative gradient and hessian as functions of two reals. *)
Definition loss_of (l : Exact -> Exact -> point Exact) (y f : R) : R := p_loss (N := Exact) (l y f).
Definition g_of (l : Exact -> Exact -> point Exact) (y f : R) : R := gg (p_grad (N := Exact) (l y f)).
Definition h_of (l : Exact -> Exact -> point Exact) (y f : R) : R := gh (p_grad (N := Exact) (l y f)).

(** The weighted squared error of a vector of function values. *)
Definition squared_error (wv yv : nat -> R) (f : list R) : R :=
  rsum (List.length f) (fun i => wv i * (yv i - nth i f 0) * (yv i - nth i f 0))%R.
