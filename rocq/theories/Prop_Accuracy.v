(** Prop_Accuracy.v - property C74.  Statements only.  Model: Eval.v, Train.v; vocabulary: AccuracySpec.v, EvalSpec.v. *)
From Coq Require Import SpecFloat Reals.
From Verif Require Import Base F32 Column DataStore Num Forest Config Score ScoreSpec Eval EvalSpec SplitSpec Tree TreeSpec Train AccuracySpec Accuracy_proofs
  Prop_Score Prop_Eval.
Local Close Scope R_scope.

(** ** C74 - the accuracy of predictions *)
(** With doubles, for a forest of T <= 2^31 trees whose scores are finite floats, every prediction is finite and differs from
    the exact sum of the leaf scores by at most T * 2^-52 times the sum of their absolute values. *)
Theorem C74_predictions c_exp c_log v threads (f : forest (IEEE c_exp c_log)) :
  1 <= threads -> reorders v -> loads v f -> forest_fits v f -> Forall float_scores f -> (Z.of_nat (List.length f) <= 2 ^ 31)%Z ->
  exists scores, evaluate_forest v threads f = Ret (SOk, Some scores) /\ List.length scores = v_rows v /\
    forall row ls, row < v_rows v -> leaves v f row ls -> exists x, nth_error scores row = Some x /\ @nfinite (IEEE c_exp c_log) x = true /\
      (Rabs (real_of x - real_sum ls) <= INR (List.length f) * / 2 ^ 52 * abs_sum ls)%R.
Proof. exact (forest_accuracy v threads f). Qed.
Print Assumptions C74_predictions.

(** Training leaves only floats as scores, if the base forest has only floats; so its trees are covered when their scores
    are finite. *)
Theorem C74_trained c_exp c_log v threads top draw pos srt names w y lf (c : config (IEEE c_exp c_log)) base r :
  (forall b, base = Some b -> Forall all_floats b) ->
  train v threads top draw pos srt names w y lf c base = Ret r -> Forall all_floats (tr_forest r).
Proof. exact (train_floats v threads top draw pos srt names w y lf c base r). Qed.
Print Assumptions C74_trained.
Theorem C74_finite c_exp c_log (t : tree (IEEE c_exp c_log)) :
  all_floats t -> (forall p s sp, has_node t p s sp -> @nfinite (IEEE c_exp c_log) s = true) -> float_scores t.
Proof. exact (finite_floats t). Qed.
Print Assumptions C74_finite.

(** 2^60 + 1 - 2^60: the prediction is 0, the exact sum is 1. *)
Definition ex_leaf (z : Z) : tree Ex := TNode (dbl z) None TNone TNone.
Example C74_example :
  evaluate_forest ex_view 2 (map ex_leaf [2 ^ 60; 1; - 2 ^ 60]%Z) = Ret (SOk, Some (map dbl [0; 0; 0; 0; 0; 0]%Z)) /\
  Forall float_scores (map ex_leaf [2 ^ 60; 1; - 2 ^ 60]%Z).
Proof.
  split; [vm_compute; reflexivity|].
  repeat constructor; [exists (fl (2 ^ 60))|exists (fl 1)|exists (fl (- 2 ^ 60))]; repeat split; vm_compute; reflexivity.
Qed.
