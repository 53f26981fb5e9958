(** BaseShiftSpec.v - vocabulary for base forests that a pairwise loss cannot tell apart. *)
From Coq Require Import Reals.
From Verif Require Import Base Column DataStore Num Forest Score Eval EvalSpec Pairwise PairSpec TargetsSpec.
Local Close Scope R_scope.

(** Two forests whose predictions for the rows of a group have the same distances *)
Definition predict_alike (v : view) (col : option strcol) (b b' : forest Exact) : Prop :=
  forall (f f' : list R) i j, predictions (N := Exact) v b f -> predictions (N := Exact) v b' f' -> together (v_rows v) col i j ->
    (nth i f 0 - nth j f 0 = nth i f' 0 - nth j f' 0)%R.
