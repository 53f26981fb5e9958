(** OrderSpec.v - vocabulary: feature values in another unit, or replaced by others in the same order. *)
From Coq Require Import SpecFloat.
From Verif Require Import Base F32 Column ColumnSpec DataStore Num Forest Config Eval SplitSpec Train.

(** Values of two columns, row by row: every two rows compare alike, also with the largest float (it ends the last bucket), and the same are missing. *)
Definition same_order (l : list (f32 * f32)) : Prop :=
  (forall p, In p l -> is_nan (fst p) = is_nan (snd p)) /\
  forall p q, In p ((flt_max, flt_max) :: l) -> In q ((flt_max, flt_max) :: l) -> fltb (fst p) (fst q) = fltb (snd p) (snd q).

(** [y] is [x] times 2^e, both NaN, zero, or of size between 2^-100 and 2^100. *)
Definition times_power (e : Z) (x y : f32) : Prop :=
  match x with
  | S754_nan => y = S754_nan
  | S754_zero s => y = S754_zero s
  | S754_infinity _ => False
  | S754_finite s m k => y = S754_finite s m (k + e) /\ a_float x /\ a_float y /\ (-123 <= k <= 76 /\ -123 <= k + e <= 76)%Z
  end.

(** A column and the one with all its values multiplied by a power of two, both loaded in the same blocks with the same number of buckets. *)
Definition times_power_of_two (c c' : column) : Prop :=
  exists nm nb blocks blocks' b b' e, c = mkCol nm (BodyB b) /\ c' = mkCol nm (BodyB b') /\ limit_ok nb /\ (zlen (concat blocks) < 4294967294)%Z /\
    b_load nb blocks = Ret b /\ b_load nb blocks' = Ret b' /\ Forall2 (Forall2 (times_power e)) blocks blocks'.
(** The same data but that some columns have other units. *)
Definition other_units (v v' : view) : Prop :=
  v_rows v' = v_rows v /\ (forall names, v_order v' names = v_order v names) /\
  forall n, match v_get v n, v_get v' n with
            | Some c, Some c' => c_name c = n /\ (c' = c \/ times_power_of_two c c')
            | None, None => True
            | _, _ => False
            end.

Section Spec.
Context {N : Num}.
(** The same split but for the threshold; the same tree but for thresholds. *)
Definition but_threshold (a b : split N) : Prop :=
  sp_feature b = sp_feature a /\ sp_cat b = sp_cat a /\ sp_gain b = sp_gain a /\ option_map snd (sp_float b) = option_map snd (sp_float a).
Inductive but_thresholds : tree N -> tree N -> Prop :=
| ButNone : but_thresholds TNone TNone
| ButNode s sp sp' l l' r r' :
    match sp, sp' with Some a, Some b => but_threshold a b | None, None => True | _, _ => False end ->
    but_thresholds l l' -> but_thresholds r r' -> but_thresholds (TNode s sp l r) (TNode s sp' l' r').
(** What training leaves behind but for thresholds. *)
Definition same_but_thresholds (r r' : res (trained N)) : Prop :=
  match r, r' with
  | Ret r, Ret r' => tr_status r' = tr_status r /\ Forall2 but_thresholds (tr_forest r) (tr_forest r') /\ tr_f r' = tr_f r
  | Undef, Undef | Fatal, Fatal => True
  | _, _ => False
  end.
End Spec.
