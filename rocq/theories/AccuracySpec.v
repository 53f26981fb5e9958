(** AccuracySpec.v - vocabulary for the accuracy of predictions. *)
From Coq Require Import SpecFloat Reals.
From Verif Require Import Base F32 Num Forest SplitSpec.
Local Close Scope R_scope.

Section Spec.
Context {c_exp c_log : f64 -> f64}.
Notation N := (IEEE c_exp c_log).

(** A double that is a finite float, and trees whose scores are such (as in a forest file). *)
Definition float_value (s : N) : Prop := exists x : f32, a_float x /\ finite_float x = true /\ s = to_f64 x.
Fixpoint float_scores (t : tree N) : Prop :=
  match t with
  | TNone => True
  | TNode s _ l r => float_value s /\ float_scores l /\ float_scores r
  end.

(** The same without finiteness. *)
Definition a_float_value (s : N) : Prop := exists x : f32, a_float x /\ s = to_f64 x.
Fixpoint all_floats (t : tree N) : Prop :=
  match t with
  | TNone => True
  | TNode s _ l r => a_float_value s /\ all_floats l /\ all_floats r
  end.

(** The exact sum, and the sum of the absolute values. *)
Definition real_sum (ls : list N) : R := fold_right Rplus 0%R (map real_of ls).
Definition abs_sum (ls : list N) : R := fold_right Rplus 0%R (map (fun s => Rabs (real_of s)) ls).
End Spec.
