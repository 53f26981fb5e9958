(** Prop_Targets.v - property C102 (what pairwise losses see of the targets).  Statements only.
    Vocabulary: TargetsSpec.v, PairSpec.v, SplitSpec.v.  Model: Pairwise.v, Train.v. *)
From Coq Require Import SpecFloat Reals.
From Verif Require Import Base F32 Column ColumnSpec DataStore Subsampling Num Par Forest Config Score Eval EvalSpec Split SplitSpec Tree Train TrainSpec Loss Pairwise PairSpec
  TargetsSpec Targets_proofs TreeSpec Split_proofs Prop_Score Prop_Split Prop_Tree Prop_Train Prop_Loss Prop_Pair Prop_PairStep.
Local Close Scope R_scope.

(** ** C102 - pairwise losses and changes of the targets *)
(** With any numbers: with auc or pairwise_logloss and without pair weights by target, targets that have the same order inside every
    group give the same training: status, forest and function values. *)
Theorem C102_order {N : Num} v threads top draw pos srt names to_uint pick w y y' t t' col (c : config N) name lf base :
  sorts srt -> compares_only srt -> group_column c (v_get v) = Ret col -> proper_groups (v_rows v) col ->
  comparable y (seq 0 (v_rows v)) t -> comparable y' (seq 0 (v_rows v)) t' -> ranked_alike (v_rows v) col t t' ->
  In name [lit "auc"; lit "pairwise_logloss"] -> cf_loss_func c = name -> cf_delta_target c = false ->
  create_loss srt threads to_uint pick c = Some lf ->
  train v threads top draw pos srt names w y lf c base = train v threads top draw pos srt names w y' lf c base.
Proof. exact (order_only v threads draw pos srt names pick w y y' t t' col top to_uint c name lf base). Qed.
Print Assumptions C102_order.
(** With all four pairwise losses and all pair weights, in exact arithmetic: the same distances inside every group give the same
    training, for example if a number is added to all targets of a group. *)
Theorem C102_distances v threads top draw pos srt names to_uint pick w y y' t t' col (c : config Exact) wr weight lossf base :
  sorts srt -> compares_only srt -> group_column c (v_get v) = Ret col -> proper_groups (v_rows v) col ->
  comparable y (seq 0 (v_rows v)) t -> comparable y' (seq 0 (v_rows v)) t' ->
  (forall i, i < v_rows v -> a_float (t i) /\ finite_float (t i) = true /\ a_float (t' i) /\ finite_float (t' i) = true) ->
  spaced_alike (v_rows v) col t t' -> pair_kind c wr weight lossf ->
  train v threads top draw pos srt names w y (pairwise_loss srt threads to_uint pick c wr weight lossf) c base =
  train v threads top draw pos srt names w y' (pairwise_loss srt threads to_uint pick c wr weight lossf) c base.
Proof. exact (gaps_only v threads draw pos srt names pick w y y' t t' col top to_uint c wr weight lossf base). Qed.
Print Assumptions C102_distances.
(** The same in doubles, bit for bit, if no target is -0. *)
Theorem C102_doubles c_exp c_log v threads top draw pos srt names to_uint pick w y y' t t' col (c : config (IEEE c_exp c_log)) wr weight lossf base :
  sorts srt -> compares_only srt -> group_column c (v_get v) = Ret col -> proper_groups (v_rows v) col ->
  comparable y (seq 0 (v_rows v)) t -> comparable y' (seq 0 (v_rows v)) t' ->
  (forall i x, i < v_rows v -> In x [t i; t' i] -> a_float x /\ finite_float x = true /\ x <> S754_zero true) ->
  spaced_alike (v_rows v) col t t' -> pair_kind c wr weight lossf ->
  train v threads top draw pos srt names w y (pairwise_loss srt threads to_uint pick c wr weight lossf) c base =
  train v threads top draw pos srt names w y' (pairwise_loss srt threads to_uint pick c wr weight lossf) c base.
Proof. exact (gaps_doubles v threads draw pos srt names pick w y y' t t' col c_exp c_log top to_uint c wr weight lossf base). Qed.
Print Assumptions C102_doubles.
(** Such a sort exists. *)
Theorem C102_sort : sorts insertion_sort /\ compares_only insertion_sort.
Proof. exact (conj insertion_sorts insertion_compares). Qed.
Print Assumptions C102_sort.

(** The data of C100: groups {0, 1} and {2, 3, 4}; two trees *)
Definition ex_seen (name : string) (delta : bool) (y : list Z) : option (forest Ex * list f64) :=
  let c := mkConfig 2 2 f32_one (dbl 0) (dbl 0) (dbl 0) f32_one f32_one 0 [lit "x"] [] [] [] false (lit "g") (lit name) (binary_normalize 24 128 5 (-2) false) delta f32_zero false : config Ex in
  match create_loss (N := Ex) insertion_sort 2 double_to_uint ex_pick c with
  | Some lf => match train ex_later_view 2 (fun _ => first_top) (fun _ => half) 0 insertion_sort [lit "x"] ones (ex_targets (map fl y)) lf c None with
               | Ret r => Some (tr_forest r, tr_f r)
               | _ => None
               end
  | None => None
  end.
Definition ex_values_differ (a b : option (forest Ex * list f64)) : bool :=
  match a, b with Some (_, f), Some (_, g) => negb (forallb (fun x => @neqb Ex (fst x) (snd x)) (combine f g)) | _, _ => false end.
(** The order alone is not enough for gbrank, nor with pair weights by target. *)
Theorem C102_gbrank_refuted : ex_values_differ (ex_seen "gbrank" false [10; 0; 0; 0; 1]%Z) (ex_seen "gbrank" false [1; 0; 7; 7; 9]%Z) = true.
Proof. vm_compute. reflexivity. Qed.
Print Assumptions C102_gbrank_refuted.
Theorem C102_weights_refuted : ex_values_differ (ex_seen "auc" true [10; 0; 0; 0; 1]%Z) (ex_seen "auc" true [1; 0; 7; 7; 9]%Z) = true.
Proof. vm_compute. reflexivity. Qed.
Print Assumptions C102_weights_refuted.
(** And the distances are not enough for mse. *)
Theorem C102_mse_refuted : ex_values_differ (ex_seen "mse" false [10; 0; 0; 0; 1]%Z) (ex_seen "mse" false [12; 2; 7; 7; 8]%Z) = true.
Proof. vm_compute. reflexivity. Qed.
Print Assumptions C102_mse_refuted.
(** Examples: the same order inside the groups, but not between them; and for gbrank the same distances. *)
Definition ex_values_agree (a b : option (forest Ex * list f64)) : bool :=
  match a, b with Some (_, f), Some (_, g) => (List.length f =? List.length g) && forallb (fun x => @neqb Ex (fst x) (snd x)) (combine f g) | _, _ => false end.
Example C102_example : ex_values_agree (ex_seen "auc" false [10; 0; 0; 0; 1]%Z) (ex_seen "auc" false [1; 0; 7; 7; 9]%Z) = true /\
  ex_values_differ (ex_seen "auc" false [10; 0; 0; 0; 1]%Z) (ex_seen "auc" false [0; 1; 7; 7; 9]%Z) = true.
Proof. split; vm_compute; reflexivity. Qed.
Example C102_distances_example : ex_values_agree (ex_seen "gbrank" true [10; 0; 0; 0; 1]%Z) (ex_seen "gbrank" true [12; 2; 7; 7; 8]%Z) = true.
Proof. vm_compute. reflexivity. Qed.
