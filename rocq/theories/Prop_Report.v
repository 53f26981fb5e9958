(** Prop_Report.v - property C99 (progress messages).  Statements only.
    Vocabulary: ReportSpec.v, StepSpec.v, ConstantSpec.v, LossSpec.v, TrainSpec.v.  Model: Report.v, Loss.v, Train.v. *)
From Coq Require Import SpecFloat Reals.
From Verif Require Import Base F32 Column DataStore Subsampling Num Forest Config Score Eval EvalSpec Split SplitSpec Tree Train TrainSpec Loss LossSpec ConstantSpec
  StepSpec Train_proofs Report ReportSpec Report_proofs TreeSpec Split_proofs Prop_Score Prop_Split Prop_Tree Prop_Train Prop_Loss Prop_Step.
Local Close Scope R_scope.

(** ** C99 - progress messages of a training with a pointwise loss *)
(** With any numbers: the round that prepares a message is the round of the training. *)
Theorem C99_round {N : Num} lossf (p : @pointwise N) f gd : pointwise_round lossf p f gd = let! (c, gd, _) := pointwise_report lossf p f gd in Ret (c, gd).
Proof. exact (report_same lossf p f gd). Qed.
Print Assumptions C99_round.
(** One message for each tree that is added, also if the training stops early. *)
Theorem C99_count {N : Num} v threads top draw pos srt names w y binary (lossf : N -> N -> point N) (c : config N) base r :
  train v threads top draw pos srt names w y (pointwise_loss threads binary lossf) c base = Ret r ->
  exists msgs, train_messages v threads top draw pos srt names w y binary lossf c base = Ret msgs /\
    (tr_status r = SOk -> Z.of_nat (List.length msgs) = cf_num_trees c) /\
    ((tr_forest r = [] /\ msgs = []) \/
     List.length (tr_forest r) = S (List.length (filter has_left (match base with Some b => b | None => [] end)) + List.length msgs)).
Proof. exact (train_counts v threads top draw pos srt names w y binary lossf c base r). Qed.
Print Assumptions C99_count.
(** All percentages refer to the first reported loss, if that is not negative. *)
Theorem C99_percent {N : Num} v threads top draw pos srt names w y binary (lossf : N -> N -> point N) (c : config N) base x0 q0 msgs :
  nltb (@nZ N (-1)) n0 = true -> nltb x0 n0 = false -> train_messages v threads top draw pos srt names w y binary lossf c base = Ret ((x0, q0) :: msgs) ->
  forall x q, In (x, q) ((x0, q0) :: msgs) -> q = percent_less x0 x.
Proof. exact (train_percent v threads top draw pos srt names w y binary lossf c base x0 q0 msgs). Qed.
Print Assumptions C99_percent.
(** In exact arithmetic, all rows sampled: message [i] reports the mean loss of the function values before round [i] plus a
    constant, the last but one that Newton's method visits. *)
Theorem C99_reported l binary v threads top draw pos srt names w y wv yv (c : config Exact) base r :
  training v threads top srt names w (pointwise_loss (N := Exact) threads binary l) -> (forall b, base = Some b -> forest_fits v b) ->
  row_values (N := Exact) w (v_rows v) wv -> row_values (N := Exact) y (v_rows v) yv ->
  (forall i, fltb (draw i) (to_f64 (cf_example_rate c)) = true) ->
  train v threads top draw pos srt names w y (pointwise_loss threads binary l) c base = Ret r -> tr_status r = SOk ->
  exists msgs features ls st0 k trees st fs, train_messages v threads top draw pos srt names w y binary l c base = Ret msgs /\
    load_features (v_get v) (v_order v names) = (SOk, features) /\
    init_scores v threads = Ret st0 /\ init_with_base v threads (match base with Some b => b | None => [] end) n0 [] st0 = Ret (k, trees, st) /\
    values (N := Exact) v threads top draw srt w features c (pointwise_loss threads binary l) (Z.to_nat (cf_num_trees c)) 0 st (repeat gzero (v_rows v)) ls pos fs /\
    nth_error fs 0 = Some (snd st) /\ nth_error fs (Z.to_nat (cf_num_trees c)) = Some (tr_f r) /\ List.length msgs = Z.to_nat (cf_num_trees c) /\
    forall i f f' x q, nth_error fs i = Some f -> nth_error fs (S i) = Some f' -> nth_error msgs i = Some (x, q) ->
      List.length f = v_rows v /\ reported_round l wv yv (real_of (cf_shrinkage c)) (cf_l2_lambda c) f f' x.
Proof. exact (train_reported l binary v threads top draw pos srt names w y wv yv c base r). Qed.
Print Assumptions C99_reported.
(** For mse the reported losses never rise and never fall below the final one; the percentages lie between 0 and 100 and never
    fall. *)
Theorem C99_mse v threads top draw pos srt names w y wv yv (c : config Exact) base r :
  training v threads top srt names w (mse_loss (N := Exact) threads) -> (forall b, base = Some b -> forest_fits v b) ->
  row_values (N := Exact) w (v_rows v) wv -> row_values (N := Exact) y (v_rows v) yv ->
  (forall i, i < v_rows v -> (0 <= wv i)%R) -> (0 < rsum (v_rows v) wv)%R -> (forall i, fltb (draw i) (to_f64 (cf_example_rate c)) = true) ->
  (0 <= real_of (cf_shrinkage c) <= 1)%R -> (0 <= cf_l2_lambda c)%R ->
  train v threads top draw pos srt names w y (mse_loss threads) c base = Ret r -> tr_status r = SOk ->
  exists msgs, train_messages v threads top draw pos srt names w y false mse c base = Ret msgs /\
    (forall i x q, nth_error msgs i = Some (x, q) -> (0 <= squared_error wv yv (tr_f r) / rsum (v_rows v) wv <= x /\ 0 <= q <= 100)%R) /\
    (forall i x q x' q', nth_error msgs i = Some (x, q) -> nth_error msgs (S i) = Some (x', q') -> (x' <= x /\ q <= q')%R).
Proof. exact (train_mse_reported v threads top draw pos srt names w y wv yv c base r). Qed.
Print Assumptions C99_mse.

(** The data of C93: four rows, a feature that tells the first two from the last two, shrinkage 1. *)
Definition ex_messages (w : float_vector) (y : list f32) (binary : bool) (lossf : Ex -> Ex -> point Ex) (trees : Z) (lambda : f64) : res (list (Ex * Ex)) :=
  train_messages (N := Ex) ex_step_view 2 (fun _ => first_top) (fun _ => half) 0 insertion_sort [lit "x"] w (ex_targets y) binary lossf
    (mkConfig trees 2 f32_one (dbl 0) lambda (dbl 0) f32_one f32_one 0 [lit "x"] [] [] [] false [] [] f32_zero false f32_zero false) None.
(** Huberized hinge: the second reported loss is greater than the first, and the percentage is negative. *)
Theorem C99_rising_refuted : exists x0 q0 x1 q1, ex_messages ex_step_w ex_step_y true huberized_hinge 2 (dbl 0) = Ret [(x0, q0); (x1, q1)] /\
  @nltb Ex x0 x1 = true /\ @nltb Ex q1 (dbl (-3)) = true.
Proof. do 4 eexists. split; [vm_compute; reflexivity|]. split; reflexivity. Qed.
Print Assumptions C99_rising_refuted.
(** Without any weight no number is reported. *)
Theorem C99_weightless_refuted : ex_messages (fun _ => Ret f32_zero) ex_step_y true huberized_hinge 2 (dbl 0) = Ret [(S754_nan, S754_nan); (S754_nan, S754_nan)].
Proof. vm_compute. reflexivity. Qed.
Print Assumptions C99_weightless_refuted.
(** With a negative weight the first loss can be negative.  Then every message is compared with itself: the loss changes, the
    percentage stays 0. *)
Theorem C99_negative_refuted : exists x0 x1, ex_messages (fun i => vget (map fl [1; 1; -2; 4]%Z) i) (map fl [0; 4; 9; 2]%Z) false mse 2 (dbl 1) =
    Ret [(x0, S754_zero true); (x1, S754_zero true)] /\ @nltb Ex x1 x0 = true /\ @nltb Ex x0 n0 = true.
Proof. do 2 eexists. split; [vm_compute; reflexivity|]. split; reflexivity. Qed.
Print Assumptions C99_negative_refuted.

(** mse with the targets 0, 2, 4, 6 and l2_lambda 2: the mean is 3 and the loss there 5; then it is 2 and 5/4. *)
Example C99_example : ex_messages ones (map fl [0; 2; 4; 6]%Z) false mse 3 (dbl 2) = Ret [(dbl 5, dbl 0); (dbl 2, dbl 60); (ratio 5 4, dbl 75)] /\
  nltb (@nZ Ex (-1)) n0 = true.
Proof. split; vm_compute; reflexivity. Qed.
