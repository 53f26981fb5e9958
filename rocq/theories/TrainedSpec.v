(** TrainedSpec.v - vocabulary for saving trained forests. *)
From Coq Require Import SpecFloat Reals.
From Verif Require Import Base F32 Num Forest SplitSpec AccuracySpec SavedSpec.

(** A value of type double: finite (any mantissa and exponent that fit), infinite or not a number *)
Definition any_double (x : spec_float) : Prop := valid_binary 53 1024 x = true.
Definition gives_doubles (f : f64 -> f64) : Prop := forall x, any_double x -> any_double (f x).

(** The two finite floats of largest magnitude *)
Definition largest (x : f32) : Prop := finite_float x = true /\ Rabs (real_of x) = max_float.

Section Spec.
Context {c_exp c_log : f64 -> f64}.
Notation N := (IEEE c_exp c_log).
(** All numbers have the types of their fields (indices of categories aside). *)
Definition typed_split (sp : split N) : Prop := (forall t m, sp_float sp = Some (t, m) -> a_float t) /\ any_double (sp_gain sp).
Fixpoint typed_tree (t : tree N) : Prop :=
  match t with
  | TNone => True
  | TNode s sp l r => a_float_value s /\ (forall x, sp = Some x -> typed_split x) /\ typed_tree l /\ typed_tree r
  end.
(** No score and no threshold is one of the largest floats. *)
Definition moderate_split (sp : split N) : Prop := forall t m, sp_float sp = Some (t, m) -> ~ largest t.
Fixpoint moderate (t : tree N) : Prop :=
  match t with
  | TNone => True
  | TNode s sp l r => (forall x, s = to_f64 x -> ~ largest x) /\ (forall x, sp = Some x -> moderate_split x) /\ moderate l /\ moderate r
  end.
End Spec.
