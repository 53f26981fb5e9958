(** Prop_TargetUnits.v - property C105 (units of targets with gbrank).  Statements only.
    Vocabulary: TargetUnitsSpec.v, UnitsSpec.v, PairSpec.v, TargetsSpec.v, LossSpec.v.  Model: Pairwise.v, PairReport.v, Train.v, Tree.v. *)
From Coq Require Import SpecFloat Reals.
From Verif Require Import Base F32 Column ColumnSpec DataStore Subsampling Num Par Forest Config Score Eval EvalSpec Split SplitSpec Tree Train TrainSpec Loss LossSpec Pairwise PairSpec
  PairReport UnitsSpec TargetsSpec TargetUnitsSpec TargetUnits_proofs TreeSpec Split_proofs Prop_Score Prop_Split Prop_Tree Prop_Train Prop_Loss Prop_Pair Prop_PairStep Prop_BaseShift
  Prop_PairUnits.
Local Close Scope R_scope.

(** ** C105 - with gbrank the unit of the targets is the unit of the scores *)
(** In exact arithmetic: gbrank with all targets multiplied by s > 0 - and the scores of the base forest as well - ends the same way and grows the
    same trees, with scores and function values s times and gains a s s times as large.  a is 1, or s when pairs are weighted by differences of
    targets; l2_lambda and min_hessian must be a times and the smallest gain a s s times as large (where the built-in 1/1000000 is no limit). *)
Theorem C105_gbrank s v threads (top : nat -> nat -> list Exact -> nat) draw pos srt names to_uint pick w y y' t t' col (c : config Exact) mg (base : option (forest Exact)) :
  let a := pair_unit (cf_delta_target c) s in
  let c' := config_times a mg c in
  (0 < s)%R -> times s y y' -> finite_targets y (v_rows v) t -> finite_targets y' (v_rows v) t' ->
  sorts srt -> compares_only srt -> group_column c (v_get v) = Ret col -> proper_groups (v_rows v) col ->
  Rmax mg (1 / 1000000) = (a * s * s * Rmax (cf_min_gain c) (1 / 1000000))%R ->
  (forall i step l, top i step (map (Rmult (a * s * s)) l) = top i step l) ->
  train v threads top draw pos srt names w y' (gbrank_loss (N := Exact) srt threads to_uint pick c') c' (option_map (map (tree_times (a * s * s) s)) base) =
  res_map (trained_scaled (a * s * s) s) (train v threads top draw pos srt names w y (gbrank_loss (N := Exact) srt threads to_uint pick c) c base).
Proof. exact (gbrank_train s v threads top draw pos srt names to_uint pick w y y' t t' col c mg base). Qed.
Print Assumptions C105_gbrank.
(** The progress messages have losses s s times as large and the same reductions. *)
Theorem C105_messages s v threads (top : nat -> nat -> list Exact -> nat) draw pos srt names to_uint pick w y y' t t' col (c : config Exact) mg (base : option (forest Exact)) :
  let a := pair_unit (cf_delta_target c) s in
  (0 < s)%R -> times s y y' -> finite_targets y (v_rows v) t -> finite_targets y' (v_rows v) t' ->
  sorts srt -> compares_only srt -> group_column c (v_get v) = Ret col -> proper_groups (v_rows v) col ->
  Rmax mg (1 / 1000000) = (a * s * s * Rmax (cf_min_gain c) (1 / 1000000))%R ->
  (forall i step l, top i step (map (Rmult (a * s * s)) l) = top i step l) ->
  train_pair_messages v threads top draw pos srt names to_uint pick w y' false (basic_weight (cf_delta_target c)) (fun t d => squared_hinge t d) (config_times a mg c)
    (option_map (map (tree_times (a * s * s) s)) base) =
  res_map (map (fun m : Exact * Exact => ((s * s * fst m)%R : Exact, snd m)))
    (train_pair_messages v threads top draw pos srt names to_uint pick w y false (basic_weight (cf_delta_target c)) (fun t d => squared_hinge t d) c base).
Proof. exact (gbrank_messages s v threads top draw pos srt names to_uint pick w y y' t t' col c mg base). Qed.
Print Assumptions C105_messages.

(** The data of C100 and two trees, given targets and limits: leaf scores of the forest, gains, and the messages with their losses *)
Definition ex_ranked_cfg (delta : bool) (min_gain lambda min_hessian : Z) : config Ex :=
  mkConfig 2 2 f32_one (dbl min_gain) (dbl lambda) (dbl min_hessian) f32_one f32_one 0 [lit "x"] [] [] [] false (lit "g") (lit "gbrank")
    (binary_normalize 24 128 5 (-2) false) delta f32_zero false.
Definition ex_ranked (loss : config Ex -> Train.loss Ex) (y : list Z) (c : config Ex) : option (list f64 * list f64) :=
  match train ex_later_view 2 (fun _ => first_top) (fun _ => half) 0 insertion_sort [lit "x"] ones (ex_targets (map fl y)) (loss c) c None with
  | Ret r => Some (flat_map ex_leaf_scores (tr_forest r), flat_map ex_gains (tr_forest r))
  | _ => None
  end.
Definition ex_gbrank := ex_ranked (gbrank_loss (N := Ex) insertion_sort 2 double_to_uint ex_pick).
Definition ex_gbrank_messages (y : list Z) (c : config Ex) : option (list (f64 * f64)) :=
  match train_pair_messages (N := Ex) ex_later_view 2 (fun _ => first_top) (fun _ => half) 0 insertion_sort [lit "x"] double_to_uint ex_pick ones (ex_targets (map fl y)) false
          (basic_weight (cf_delta_target c)) (fun t d => squared_hinge t d) c None with
  | Ret l => Some l
  | _ => None
  end.
(** The first result with scores times s and gains times k is the second, up to rounding. *)
Definition ex_in_units (s k : Z) (r r' : option (list f64 * list f64)) : bool :=
  ex_agree (option_map (fun x => map (@nmul Ex (dbl s)) (fst x)) r) (option_map fst r') && ex_agree (option_map (fun x => map (@nmul Ex (dbl k)) (snd x)) r) (option_map snd r').
Example C105_example :
  option_map (fun x => List.length (fst x)) (ex_gbrank [10; 0; 0; 0; 1]%Z (ex_ranked_cfg false 1 1 1)) = Some 4 /\
  ex_in_units 2 4 (ex_gbrank [10; 0; 0; 0; 1]%Z (ex_ranked_cfg false 1 1 1)) (ex_gbrank [20; 0; 0; 0; 2]%Z (ex_ranked_cfg false 4 1 1)) = true /\
  option_map (fun x => List.length (fst x)) (ex_gbrank [10; 0; 0; 0; 1]%Z (ex_ranked_cfg true 1 1 1)) = Some 5 /\
  ex_in_units 2 8 (ex_gbrank [10; 0; 0; 0; 1]%Z (ex_ranked_cfg true 1 1 1)) (ex_gbrank [20; 0; 0; 0; 2]%Z (ex_ranked_cfg true 8 2 2)) = true.
Proof. split; [|split; [|split]]; vm_compute; reflexivity. Qed.
Example C105_messages_example :
  option_map (map fst) (ex_gbrank_messages [20; 0; 0; 0; 2]%Z (ex_ranked_cfg false 4 1 1)) =
    option_map (map (fun m => @nmul Ex (dbl 4) (fst m))) (ex_gbrank_messages [10; 0; 0; 0; 1]%Z (ex_ranked_cfg false 1 1 1)) /\
  option_map (map snd) (ex_gbrank_messages [20; 0; 0; 0; 2]%Z (ex_ranked_cfg false 4 1 1)) = option_map (map snd) (ex_gbrank_messages [10; 0; 0; 0; 1]%Z (ex_ranked_cfg false 1 1 1)) /\
  option_map (fun l => List.length l) (ex_gbrank_messages [10; 0; 0; 0; 1]%Z (ex_ranked_cfg false 1 1 1)) = Some 2.
Proof. split; [|split]; vm_compute; reflexivity. Qed.
(** When pairs are weighted by differences of targets the l2 penalty must grow with the unit; otherwise it must not. *)
Theorem C105_lambda_refuted :
  ex_in_units 2 8 (ex_gbrank [10; 0; 0; 0; 1]%Z (ex_ranked_cfg true 1 1 1)) (ex_gbrank [20; 0; 0; 0; 2]%Z (ex_ranked_cfg true 8 1 2)) = false /\
  ex_in_units 2 4 (ex_gbrank [10; 0; 0; 0; 1]%Z (ex_ranked_cfg false 1 1 1)) (ex_gbrank [20; 0; 0; 0; 2]%Z (ex_ranked_cfg false 4 2 1)) = false.
Proof. split; vm_compute; reflexivity. Qed.
Print Assumptions C105_lambda_refuted.
(** The scores of auc have no such unit: they stay as they are. *)
Definition ex_auc := ex_ranked (auc_loss (N := Ex) insertion_sort 2 double_to_uint ex_pick).
Theorem C105_auc_refuted :
  ex_in_units 2 4 (ex_auc [10; 0; 0; 0; 1]%Z (ex_ranked_cfg false 0 1 0)) (ex_auc [20; 0; 0; 0; 2]%Z (ex_ranked_cfg false 0 1 0)) = false /\
  ex_in_units 1 1 (ex_auc [10; 0; 0; 0; 1]%Z (ex_ranked_cfg false 0 1 0)) (ex_auc [20; 0; 0; 0; 2]%Z (ex_ranked_cfg false 0 1 0)) = true /\
  option_map (fun x => existsb (fun z => negb (@neqb Ex z (dbl 0))) (fst x)) (ex_auc [10; 0; 0; 0; 1]%Z (ex_ranked_cfg false 0 1 0)) = Some true.
Proof. split; [|split]; vm_compute; reflexivity. Qed.
Print Assumptions C105_auc_refuted.
