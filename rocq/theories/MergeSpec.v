(** MergeSpec.v - vocabulary: two data sets of which one counts the rows of the other by weight. *)
From Coq Require Import Reals.
From Verif Require Import Base F32 Column DataStore Num Eval LossSpec.
Local Close Scope R_scope.

Section Spec.
Variables (n : nat) (to : nat -> nat).

(** The same kind of column with the same buckets (dictionary), in which row [to a] has the bucket (category) of row [a] of the first.
    Raw columns may be anything: no split uses them. *)
Definition like (c c' : column) : Prop :=
  c_name c' = c_name c /\ col_status c' = col_status c /\
  match c_body c, c_body c' with
  | BodyB b, BodyB b' =>
      b_max_int b' = b_max_int b /\ (forall k, b_bucket_max b' k = b_bucket_max b k) /\ (forall k, b_bucket_min b' k = b_bucket_min b k) /\
      forall a, a < n -> b_bucket b' (to a) = b_bucket b a
  | BodyS s, BodyS s' =>
      str_max_int s' = str_max_int s /\ (forall k, str_cat_string s' k = str_cat_string s k) /\
      forall a, a < n -> icol_get (s_ints s') (to a) = icol_get (s_ints s) a
  | BodyR _, BodyR _ => True
  | _, _ => False
  end.
End Spec.

(** Every row [a] of the first data set is the row [to a] of the second, with the same columns and, unless its weight is 0, the same target; the weight
    of a row of the second is the sum of the weights of its copies in the first (0 if it has none). *)
Record counted (to : nat -> nat) (v v' : view) (wv yv wv' yv' : nat -> R) : Prop := mkCounted {
  ct_rows : forall a, a < v_rows v -> to a < v_rows v';
  ct_cols : forall name, match v_get v name, v_get v' name with
                         | Some c, Some c' => like (v_rows v) to c c'
                         | None, None => True
                         | _, _ => False
                         end;
  ct_targets : forall a, a < v_rows v -> wv a <> 0%R -> yv' (to a) = yv a;
  ct_weights : forall b, b < v_rows v' -> wv' b = rsum (v_rows v) (fun a => if to a =? b then wv a else 0%R)
}.
