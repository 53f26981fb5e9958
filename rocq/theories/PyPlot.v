(** PyPlot.v - model of Forest.predict (gbdt/_forest.py) on a data store and of gbdt/_partial_dependency_plot.py.  Definitions only. *)
From Coq Require Import SpecFloat.
From Verif Require Import Base F32 Column DataStore Num Forest Score Eval Python.

Section Plot.
Context {N : Num}.
(** [order] lists an unordered_set of names; [threads] is FLAGS_num_threads. *)
Variables (beg : begin_choice) (order : list str -> list str) (threads : nat).

(** Forest.predict (_forest.py:14-16): EvaluateForest on the store in memory *)
Definition store_view (m : store) (rows : nat) : view := mkView (fun n => ds_get n m) rows order.
Definition forest_predict (f : forest N) (d : pystore) : py (list N) :=
  py_predict d (fun m => let! rows := ds_num_rows beg m in evaluate_forest (store_view m rows) threads f).

(** replace_float_feature, replace_string_feature (_partial_dependency_plot.py:24-32) *)
Definition replace_feature (n : str) (t : ctype) (v : value) (d : pystore) : py pystore :=
  let! rows := py_num_rows beg d in
  let! c := py_create n t (repeat v rows) in
  let! (e, d) := py_add beg c (py_erase n d) in
  match e with Some e => py_raise e | None => py_ret d end.

(** scores - base_scores (38, 45).  numpy raises on different lengths, which do not occur. *)
Fixpoint differences (a b : list N) : list N :=
  match a, b with x :: a, y :: b => nsub x y :: differences a b | _, _ => [] end.

(** compute_score_stats_* (34-46), called on the values one after the other (56-57, 81-82).  The result pairs each value with its
    score differences, whose mean and standard deviation are drawn; numpy and matplotlib are not modelled. *)
Fixpoint curve (f : forest N) (n : str) (t : ctype) (base : list N) (xs : list value) (d : pystore) : py (list (value * list N)) :=
  match xs with
  | [] => py_ret []
  | v :: xs =>
      py_bind (replace_feature n t v d) (fun d =>
      py_bind (forest_predict f d) (fun scores =>
      py_bind (curve f n t base xs d) (fun l => py_ret ((v, differences scores base) :: l))))
  end.

(** plot_partial_dependency (1-108).  [sorted] is Python's function; x[0] of an empty list raises IndexError (76). *)
Definition partial_dependency (sorted : list value -> list value) (f : forest N) (n : str) (xs : list value) (x0 : option value)
    (d : pystore) : py (list (value * list N)) :=
  py_bind (py_copy beg d) (fun d =>
    match py_col n d with
    | None => py_raise InvalidArgument
    | Some c =>
        let draw t v xs :=
          py_bind (replace_feature n t v d) (fun d =>
          py_bind (forest_predict f d) (fun base => curve f n t base xs d)) in
        match col_type c with
        | TBucketized => draw TBucketized (match x0 with Some v => v | None => VFloat fnan end) (sorted xs)
        | TString => match x0, xs with
                     | Some v, _ | None, v :: _ => draw TString v xs
                     | None, [] => py_raise OutOfRange
                     end
        | TRaw => py_raise InvalidArgument
        end
    end).
End Plot.
