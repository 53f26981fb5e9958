(** Prop_Range.v - property C88.  Statements only.  Model: Train.v, Loss.v, Eval.v; vocabulary: TrainSpec.v, LossSpec.v, EvalSpec.v. *)
From Coq Require Import SpecFloat Reals.
From Verif Require Import Base F32 Column DataStore Num Forest Config Score ScoreSpec Eval EvalSpec Split SplitSpec Tree TreeSpec Train TrainSpec Loss LossSpec
  Prop_Score Prop_Split Prop_Tree Prop_Train Range_proofs.
Local Close Scope R_scope.

(** ** C88 - the predictions of one tree and the range of the targets *)
(** Trained on [v], evaluated on any store [v'].  Only the targets of rows with positive weight count. *)
Theorem C88_one_tree v threads top draw pos srt names w y wv yv (c : config Exact) r lo hi v' threads' scores :
  training v threads top srt names w (mse_loss (N := Exact) threads) ->
  row_values (N := Exact) w (v_rows v) wv -> row_values (N := Exact) y (v_rows v) yv ->
  (forall i, i < v_rows v -> (0 <= wv i)%R) -> (0 < rsum (v_rows v) wv)%R ->
  (0 <= real_of (cf_shrinkage c) <= 1)%R -> (0 <= cf_l2_lambda c)%R -> cf_num_trees c = 1%Z ->
  (forall i, i < v_rows v -> (0 < wv i)%R -> (lo <= yv i <= hi)%R) ->
  train v threads top draw pos srt names w y (mse_loss threads) c None = Ret r -> tr_status r = SOk ->
  1 <= threads' -> reorders v' -> forest_fits v' (tr_forest r) -> evaluate_forest v' threads' (tr_forest r) = Ret (SOk, Some scores) ->
  let mean := (rsum (v_rows v) (fun i => wv i * yv i) / rsum (v_rows v) wv)%R in
  List.length scores = v_rows v' /\
  forall x, In x scores -> (lo - 1 / 10000 <= x <= hi + 1 / 10000)%R /\ (1 / 10000 < Rabs mean -> lo <= x <= hi)%R.
Proof.
  exact (fun Tr Wv Yv Wp Sw Sh Lam One Rg E Ok => one_tree_range v threads top draw pos srt names w y wv yv c r lo hi Tr Wv Yv Wp Sw Sh Lam One Rg E Ok v' threads' scores).
Qed.
Print Assumptions C88_one_tree.

(** Targets 8 10 4 2 6 and three leaves; evaluated on two rows that were not trained on, x = 100 and x = -100. *)
Definition ex_new_view : view :=
  mkView (fun n => if str_eqb n (lit "x") then Some (mkCol (lit "x") (BodyB (ex_bcol [fl 100; fl (-100)])))
                   else if str_eqb n (lit "s") then Some (mkCol (lit "s") (BodyS (ex_cats ["b"; "z"]%string))) else None) 2 (fun l => l).
Definition ex_predict (y : float_vector) (v : view) (trees leaves : Z) : option (list f64) :=
  match ex_train (mse_loss 2) y (ex_train_cfg trees leaves) None with
  | Ret r => match evaluate_forest v 2 (tr_forest r) with Ret (SOk, s) => s | _ => None end
  | _ => None
  end.
Example C88_example : ex_predict ex_y ex_train_view 1 3 = Some (map dbl [9; 9; 5; 2; 5]%Z) /\ ex_predict ex_y ex_new_view 1 3 = Some (map dbl [2; 9]%Z).
Proof. vm_compute. split; reflexivity. Qed.

(** A mean of at most 0.0001 counts twice: all targets are 2^-14, and the prediction is 2^-13. *)
Theorem C88_stale_refuted : exists y, (forall i x, y i = Ret x -> x = binary_normalize 24 128 1 (-14) false) /\
  ex_predict y ex_train_view 1 3 = Some (repeat (binary_normalize 53 1024 1 (-13) false) 5).
Proof.
  exists (ex_targets (repeat (binary_normalize 24 128 1 (-14) false) 5)). split; [|vm_compute; reflexivity].
  intros i x. unfold ex_targets, vget. do 5 (destruct i as [|i]; [intros H; injection H as <-; reflexivity|]). destruct i; discriminate.
Qed.
Print Assumptions C88_stale_refuted.

(** Two trees: the targets are 0 and 24, a prediction is 32. *)
Theorem C88_two_trees_refuted : exists y scores, (forall i x, y i = Ret x -> fleb (fl 0) x = true /\ fleb x (fl 24) = true) /\
  ex_predict y ex_train_view 2 2 = Some scores /\ nth_error scores 3 = Some (dbl 32).
Proof.
  exists (ex_targets (map fl [0; 24; 0; 24; 24]%Z)). eexists. split; [|split; [vm_compute; reflexivity|reflexivity]].
  intros i x. unfold ex_targets, vget. do 5 (destruct i as [|i]; [intros H; injection H as <-; split; reflexivity|]). destruct i; discriminate.
Qed.
Print Assumptions C88_two_trees_refuted.
