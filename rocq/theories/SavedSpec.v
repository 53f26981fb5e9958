(** SavedSpec.v - vocabulary for forests that are saved and loaded. *)
From Coq Require Import SpecFloat Reals.
From Verif Require Import Base F32 Num Forest SplitSpec StopwatchSpec PrintSpec.

(** The same number; zeros may differ in sign. *)
Definition same_number (x y : spec_float) : Prop := x = y \/ exists a b, x = S754_zero a /\ y = S754_zero b.
(** Decimal numbers with at most [k] digits, and those among them that are closest to [x] *)
Definition short_decimal (k : Z) (d : R) : Prop := exists m e, (Z.abs m < 10 ^ k)%Z /\ d = (IZR m * powerRZ 10 e)%R.
Definition nearest_short (k : Z) (x d : R) : Prop := short_decimal k d /\ forall d', short_decimal k d' -> (Rabs (d - x) <= Rabs (d' - x))%R.
(** The largest float *)
Definition max_float : R := IZR ((2 ^ 24 - 1) * 2 ^ 104).

(** [reread] gives the double that the text written for a float (as a double) denotes.  The text of [x] stands for [x]: it denotes a double, not beyond
    the floats, whose conversion gives [x]. *)
Definition reads_back (reread : f64 -> f64) (x : f32) : Prop :=
  a_double (reread (to_f64 x)) /\ (Rabs (real_of (reread (to_f64 x))) <= max_float)%R /\ same_number (to_f32 (reread (to_f64 x))) x.
(** The text has [k] digits, the closest to [x]; what is read is the closest double. *)
Definition writes_digits (k : Z) (reread : f64 -> f64) (x : f64) : Prop := exists d, nearest_short k (real_of x) d /\ nearest_to d (reread x).
(** A writer of floats: nine digits, or any text that reads back; of doubles: seventeen digits, or any text that reads back *)
Definition float_writer (reread : f64 -> f64) : Prop :=
  forall x : f32, a_float x -> finite_float x = true -> (Rabs (real_of x) < max_float)%R -> writes_digits 9 reread (to_f64 x) \/ reads_back reread x.
Definition double_writer (regain : f64 -> f64) : Prop :=
  forall x : f64, a_double x -> writes_digits 17 regain x \/ same_number (regain x) x.

(** A float that is not one of the two largest finite ones *)
Definition writable (x : f32) : Prop := a_float x /\ (finite_float x = true -> (Rabs (real_of x) < max_float)%R).
Section Spec.
Context {c_exp c_log : f64 -> f64}.
Notation N := (IEEE c_exp c_log).
(** Messages that hold what their types allow, without the largest floats *)
Definition writable_split (sp : split N) : Prop :=
  (forall t m, sp_float sp = Some (t, m) -> writable t) /\
  (forall c i, sp_cat sp = Some (c, i) -> Forall (fun z => -2147483648 <= z <= 2147483647)%Z i) /\
  valid_binary 53 1024 (sp_gain sp) = true.
Fixpoint writable_tree (t : tree N) : Prop :=
  match t with
  | TNone => True
  | TNode s sp l r => (exists x, writable x /\ s = to_f64 x) /\ (forall x, sp = Some x -> writable_split x) /\ writable_tree l /\ writable_tree r
  end.

(** The same message, up to the signs of zeros *)
Definition like_float (x y : option (f32 * bool)) : Prop :=
  match x, y with Some (t, m), Some (t', m') => same_number t t' /\ m = m' | None, None => True | _, _ => False end.
Definition like_split (x y : split N) : Prop :=
  sp_feature x = sp_feature y /\ like_float (sp_float x) (sp_float y) /\ sp_cat x = sp_cat y /\ same_number (sp_gain x) (sp_gain y).
Definition like_splits (x y : option (split N)) : Prop :=
  match x, y with Some x, Some y => like_split x y | None, None => True | _, _ => False end.
Inductive like : tree N -> tree N -> Prop :=
| LikeNone : like TNone TNone
| LikeNode (s s' : N) sp sp' l l' r r' : same_number s s' -> like_splits sp sp' -> like l l' -> like r r' -> like (TNode s sp l r) (TNode s' sp' l' r').
(** No number is -0. *)
Definition no_minus_zero_split (sp : split N) : Prop := (forall m, sp_float sp <> Some (S754_zero true, m)) /\ (sp_gain sp : f64) <> S754_zero true.
Fixpoint no_minus_zero (t : tree N) : Prop :=
  match t with
  | TNone => True
  | TNode s sp l r => (s : f64) <> S754_zero true /\ (forall x, sp = Some x -> no_minus_zero_split x) /\ no_minus_zero l /\ no_minus_zero r
  end.
End Spec.
