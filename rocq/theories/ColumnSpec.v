(** ColumnSpec.v - vocabulary for stating the column properties.  Independent of the model's
    internals: only lists, counting and float comparison. *)
From Verif Require Import Base F32 Column.

(** Position of the first occurrence of a string. *)
Fixpoint first_pos (s : str) (l : list str) : option nat :=
  match l with
  | [] => None
  | x :: t => if str_eq_dec s x then Some 0 else option_map S (first_pos s t)
  end.

(** A string column after adding blocks one by one and finalizing. *)
Definition string_column_of (blocks : list (list str)) : strcol :=
  str_finalize (fold_left (fun c b => str_add b c) blocks str_init).

(** The dictionary of the data, as a set: the reserved string and all data. *)
Definition fits_32_bits (data : list str) : Prop :=
  (zlen (nodup str_eq_dec (missing_str :: data)) < 4294967296)%Z.

(** How often a value numerically equal to [v] occurs. *)
Definition occurrences (v : f32) (l : list f32) : Z := zlen (filter (feqb v) l).

(** A complete list, without numeric duplicates, of the values that occur at least
    max(1, rows / num_buckets) times. *)
Definition frequent_values (nb : Z) (data hv : list f32) : Prop :=
  let often := Z.max 1 (zlen data / nb) in
  (forall v, In v hv -> In v data /\ is_nan v = false /\ often <= occurrences v data)%Z /\
  ForallOrdPairs (fun a b => feqb a b = false) hv /\
  (forall v, In v data -> is_nan v = false -> (often <= occurrences v data)%Z ->
     exists w, In w hv /\ feqb v w = true).

(** No value above the largest finite float. *)
Definition below_inf (data : list f32) : Prop :=
  forall v, In v data -> is_nan v = false -> fleb v flt_max = true.

(** Bucket budgets for which 100 * num_buckets does not overflow an int. *)
Definition limit_ok (nb : Z) : Prop := (1 <= nb <= 21474836)%Z.
