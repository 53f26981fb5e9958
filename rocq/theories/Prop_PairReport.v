(** Prop_PairReport.v - property C101 (progress messages of pairwise losses).  Statements only.
    Vocabulary: PairReportSpec.v, PairStepSpec.v, PairSpec.v, ReportSpec.v, TrainSpec.v.  Model: PairReport.v, Report.v, Pairwise.v, Train.v. *)
From Coq Require Import SpecFloat Reals.
From Verif Require Import Base F32 Column ColumnSpec DataStore Subsampling Num Par Forest Config Score Eval EvalSpec Split SplitSpec Tree Train TrainSpec Loss LossSpec ConstantSpec
  StepSpec Pairwise PairSpec PairStepSpec Report ReportSpec PairReport PairReportSpec PairReport_proofs TreeSpec Split_proofs Prop_Score Prop_Split Prop_Tree Prop_Train Prop_Loss Prop_Pair
  Prop_PairStep.
Local Close Scope R_scope.

(** ** C101 - progress messages of a training with a pairwise loss *)
(** With any numbers: the round that prepares a message is the round of the training. *)
Theorem C101_round {N : Num} srt to_uint pick (c : config N) wr weight lossf p pos f gd :
  pair_round srt to_uint pick c wr weight lossf p pos f gd = let! (x, gd, p, pos, _) := pair_report srt to_uint pick c wr weight lossf p pos f gd in Ret (x, gd, p, pos).
Proof. exact (pair_report_same srt to_uint pick c wr weight lossf p pos f gd). Qed.
Print Assumptions C101_round.
(** One message for each tree that is added, also if the training stops early. *)
Theorem C101_count {N : Num} v threads top draw pos srt names to_uint pick w y wr weight lossf (c : config N) base r :
  train v threads top draw pos srt names w y (pairwise_loss srt threads to_uint pick c wr weight lossf) c base = Ret r ->
  exists msgs, train_pair_messages v threads top draw pos srt names to_uint pick w y wr weight lossf c base = Ret msgs /\
    (tr_status r = SOk -> Z.of_nat (List.length msgs) = cf_num_trees c) /\
    ((tr_forest r = [] /\ msgs = []) \/
     List.length (tr_forest r) = S (List.length (filter has_left (match base with Some b => b | None => [] end)) + List.length msgs)).
Proof. exact (pair_train_counts threads srt to_uint pick c wr weight lossf v top draw pos names w y base r). Qed.
Print Assumptions C101_count.
(** All percentages refer to the first reported loss, if that is not negative. *)
Theorem C101_percent {N : Num} v threads top draw pos srt names to_uint pick w y wr weight lossf (c : config N) base x0 q0 msgs :
  nltb (@nZ N (-1)) n0 = true -> nltb x0 n0 = false ->
  train_pair_messages v threads top draw pos srt names to_uint pick w y wr weight lossf c base = Ret ((x0, q0) :: msgs) ->
  forall x q, In (x, q) ((x0, q0) :: msgs) -> q = percent_less x0 x.
Proof. exact (pair_train_percent threads srt to_uint pick c wr weight lossf v top draw pos names w y base x0 q0 msgs). Qed.
Print Assumptions C101_percent.
(** In exact arithmetic, whatever the schedule of the tasks: when they are done, the sums of the slices give the weighted mean of the
    losses of exactly the pairs whose gradients were added to the rows. *)
Theorem C101_schedules srt threads to_uint pick c wr weight lossf n w y col wv t p pos (f : list R) :
  sorts srt -> 1 <= threads -> nleb (nfloat (cf_pair_rate c)) (@n0 Exact) = false -> proper_groups n col ->
  row_values (N := Exact) w n wv -> comparable y (seq 0 n) t -> picks pick -> pair_kind c wr weight lossf ->
  in_use (N := Exact) srt threads to_uint pick c wr weight lossf n w y col p -> List.length f = n ->
  (forall rows, grouping n col rows -> forall rk, In rk rows -> exists count, samples_of to_uint c n rows t rk = Ret count /\ (num_pairs t rk = 0 -> count = 0)) ->
  exists rows, grouping n col rows /\
   (forall s, ireach wloc_dec (pair_tasks srt to_uint pick c wr weight lossf p f, pair_mem n (List.length (pr_slices p)) pos) s ->
      (forall q, In q (fst s) -> ~ pfail q (snd s)) /\ (all_done (fst s) \/ exists s', istep wloc_dec s s') /\
      (all_done (fst s) -> exists us, sampled srt to_uint c wr weight lossf n y rows wv t p f us /\
         (forall r, r < n -> grad_cell (snd s) r = Some (pushed us r)) /\
         mean_loss (pair_totals (snd s) 0 (List.length (pr_slices p))) = mean_pairs_loss lossf t us f)) /\
   exists us, sampled srt to_uint c wr weight lossf n y rows wv t p f us /\
     forall gd, exists grads p' pos', pair_report (N := Exact) srt to_uint pick c wr weight lossf p pos f gd = Ret (n0, grads, p', pos', mean_pairs_loss lossf t us f) /\
       List.length grads = n /\ forall r, r < n -> nth_error grads r = Some (pushed us r).
Proof. exact (usable_report srt threads to_uint pick c wr weight lossf n w y col wv t p pos f). Qed.
Print Assumptions C101_schedules.
(** Message [i] reports that mean for the function values before round [i] and for the pairs from which the tree of round [i] is
    built.  With weights that are not negative and pairs that have some weight, the loss is not negative and the percentage at most
    100; and without base forest the first loss is 1/2 for auc, ln 2 for pairwise_logloss and lambdamart, and the mean square of the
    differences of targets for gbrank. *)
Theorem C101_reported v threads top draw pos srt names to_uint pick wr weight lossf w y wv t col (c : config Exact) base r :
  training v threads top srt names w (pairwise_loss (N := Exact) srt threads to_uint pick c wr weight lossf) -> (forall b, base = Some b -> forest_fits v b) ->
  row_values (N := Exact) w (v_rows v) wv -> comparable y (seq 0 (v_rows v)) t -> picks pick -> pair_kind c wr weight lossf ->
  group_column c (v_get v) = Ret col -> proper_groups (v_rows v) col ->
  (forall rows, grouping (v_rows v) col rows -> forall rk, In rk rows -> exists count, samples_of to_uint c (v_rows v) rows t rk = Ret count /\ (num_pairs t rk = 0 -> count = 0)%nat) ->
  (forall i, fltb (draw i) (to_f64 (cf_example_rate c)) = true) ->
  train v threads top draw pos srt names w y (pairwise_loss srt threads to_uint pick c wr weight lossf) c base = Ret r -> tr_status r = SOk ->
  exists msgs features p0 st0 k trees st fs, train_pair_messages v threads top draw pos srt names to_uint pick w y wr weight lossf c base = Ret msgs /\
    load_features (v_get v) (v_order v names) = (SOk, features) /\
    init_scores v threads = Ret st0 /\ init_with_base v threads (match base with Some b => b | None => [] end) n0 [] st0 = Ret (k, trees, st) /\
    values (N := Exact) v threads top draw srt w features c (pairwise_loss srt threads to_uint pick c wr weight lossf) (Z.to_nat (cf_num_trees c)) 0 st (repeat gzero (v_rows v)) p0 pos fs /\
    nth_error fs 0 = Some (snd st) /\ nth_error fs (Z.to_nat (cf_num_trees c)) = Some (tr_f r) /\ List.length msgs = Z.to_nat (cf_num_trees c) /\
    forall i f f' x q, nth_error fs i = Some f -> nth_error fs (S i) = Some f' -> nth_error msgs i = Some (x, q) -> List.length f = v_rows v /\
      exists rows p us, grouping (v_rows v) col rows /\ in_use (N := Exact) srt threads to_uint pick c wr weight lossf (v_rows v) w y col p /\
        sampled srt to_uint c wr weight lossf (v_rows v) y rows wv t p f us /\ pair_step wv us (real_of (cf_shrinkage c)) (cf_l2_lambda c) f f' /\
        x = mean_pairs_loss lossf t us f /\
        ((forall i, (i < v_rows v)%nat -> a_float (t i) /\ finite_float (t i) = true /\ (0 <= wv i)%R) -> (0 < pairs_weight us)%R ->
           (0 <= x)%R /\ (forall x0 q0, nth_error msgs 0 = Some (x0, q0) -> (0 <= x0 -> q <= 100)%R) /\
           forall l, level_loss lossf l -> base = None -> i = 0%nat ->
             (x = over us (fun u => exact_weight u * l (real_of (t (pu_pos u)) - real_of (t (pu_neg u)))) / pairs_weight us)%R /\
             forall d, (forall gap, l gap = d) -> x = d).
Proof. exact (pair_train_reported v threads top draw pos srt names to_uint pick wr weight lossf w y wv t col c base r). Qed.
Print Assumptions C101_reported.

(** gbrank with the data of C100 *)
Definition ex_rank_messages (v : view) (trees : Z) (rate : f32) (lambda : f64) (group : str) (y : list Z) (base : option (forest Ex)) : res (list (Ex * Ex)) :=
  let c := mkConfig trees 2 f32_one (dbl 0) lambda (dbl 0) f32_one f32_one 0 [lit "x"] [] [] [] false group [] rate false f32_zero false : config Ex in
  train_pair_messages (N := Ex) v 2 (fun _ => first_top) (fun _ => half) 0 insertion_sort [lit "x"] double_to_uint ex_pick ones (ex_targets (map fl y))
    false (basic_weight false) (fun t d => squared_hinge t d) c base.
(** If the rate is so low that no group gives a pair, the messages contain no numbers. *)
Theorem C101_none_refuted : ex_rank_messages ex_pairs_view 2 (ratio 1 8) (dbl 0) [] [11; 1; 0]%Z None = Ret [(S754_nan, S754_nan); (S754_nan, S754_nan)].
Proof. vm_compute. reflexivity. Qed.
Print Assumptions C101_none_refuted.
(** Without penalty the reported loss can rise: here it doubles. *)
Theorem C101_rising_refuted : exists x0 q0 x1 q1, ex_rank_messages ex_later_view 2 (binary_normalize 24 128 5 (-2) false) (dbl 0) (lit "g") [10; 0; 0; 0; 1]%Z (Some ex_later_base) = Ret [(x0, q0); (x1, q1)] /\
  @nltb Ex x0 x1 = true /\ q1 = dbl (-100).
Proof. do 4 eexists. split; [vm_compute; reflexivity|]. split; reflexivity. Qed.
Print Assumptions C101_rising_refuted.
(** All three pairs, targets 11, 1, 0: the first loss is (100 + 121 + 1) / 3; then it falls, and the percentages rise. *)
Example C101_example : exists x1 q1 x2 q2, ex_rank_messages ex_pairs_view 3 (fl 2) (dbl 0) [] [11; 1; 0]%Z None = Ret [(dbl 74, dbl 0); (x1, q1); (x2, q2)] /\
  @nltb Ex x1 (dbl 74) = true /\ @nltb Ex x2 x1 = true /\ @nltb Ex (dbl 0) q1 = true /\ @nltb Ex q1 q2 = true.
Proof. do 4 eexists. split; [vm_compute; reflexivity|]. repeat split; reflexivity. Qed.
