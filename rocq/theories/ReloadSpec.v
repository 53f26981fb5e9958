(** ReloadSpec.v - two trainings with the same outcome (property C98). *)
From Verif Require Import Base F32 Num Forest Train SavedSpec.

Section Spec.
Context {c_exp c_log : f64 -> f64}.
Notation N := (IEEE c_exp c_log).
(** The same status, the same function values, and forests that differ in the signs of zeros at most *)
Definition same_training (a b : res (trained N)) : Prop :=
  match a, b with
  | Ret x, Ret y => tr_status x = tr_status y /\ tr_f x = tr_f y /\ Forall2 like (tr_forest x) (tr_forest y)
  | Undef, Undef | Fatal, Fatal => True
  | _, _ => False
  end.
(** The same base, up to the signs of zeros *)
Definition same_base (a b : option (forest N)) : Prop :=
  match a, b with Some f, Some g => Forall2 like f g | None, None => True | _, _ => False end.
End Spec.
