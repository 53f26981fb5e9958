(** Prop_OtherUnits.v - property C106 (units of targets with auc, pairwise_logloss and lambdamart).  Statements only.
    Vocabulary: OtherUnitsSpec.v, TargetUnitsSpec.v, UnitsSpec.v, PairSpec.v, TargetsSpec.v.  Model: Pairwise.v, PairReport.v, Train.v, Tree.v. *)
From Coq Require Import SpecFloat Reals.
From Verif Require Import Base F32 Column ColumnSpec DataStore Subsampling Num Par Forest Config Score Eval EvalSpec Split SplitSpec Tree Train TrainSpec Loss LossSpec Pairwise PairSpec
  PairReport UnitsSpec TargetsSpec TargetUnitsSpec OtherUnitsSpec OtherUnits_proofs TreeSpec Split_proofs Prop_Score Prop_Split Prop_Tree Prop_Train Prop_Loss Prop_Pair Prop_PairStep Prop_BaseShift
  Prop_PairUnits Prop_TargetUnits.
Local Close Scope R_scope.

(** ** C106 - with the other pairwise losses targets have no unit, or are weights *)
(** In exact arithmetic: auc, pairwise_logloss and lambdamart with all targets multiplied by s > 0 end the same way, with the same function values
    and the same forest except that all gains are multiplied by a, if l2_lambda, min_hessian and the smallest gain are multiplied by a (where the
    built-in 1/1000000 is no limit).  a is s for lambdamart and when pairs are weighted by differences of targets, and 1 otherwise. *)
Theorem C106_others s a v threads (top : nat -> nat -> list Exact -> nat) draw pos srt names to_uint pick w y y' t t' col (c : config Exact) mg wr weight lossf
    (base : option (forest Exact)) : other_kind c s a wr weight lossf ->
  (0 < s)%R -> times s y y' -> finite_targets y (v_rows v) t -> finite_targets y' (v_rows v) t' ->
  sorts srt -> compares_only srt -> group_column c (v_get v) = Ret col -> proper_groups (v_rows v) col ->
  Rmax mg (1 / 1000000) = (a * Rmax (cf_min_gain c) (1 / 1000000))%R -> (forall i step l, top i step (map (Rmult a) l) = top i step l) ->
  let c' := config_times a mg c in
  train v threads top draw pos srt names w y' (pairwise_loss srt threads to_uint pick c' wr weight lossf) c' (option_map (map (tree_times a 1)) base) =
  res_map (trained_times a) (train v threads top draw pos srt names w y (pairwise_loss srt threads to_uint pick c wr weight lossf) c base).
Proof. exact (others_train s a v threads top draw pos srt names to_uint pick w y y' t t' col c mg wr weight lossf base). Qed.
Print Assumptions C106_others.
(** The progress messages are the same. *)
Theorem C106_messages s a v threads (top : nat -> nat -> list Exact -> nat) draw pos srt names to_uint pick w y y' t t' col (c : config Exact) mg wr weight lossf
    (base : option (forest Exact)) : other_kind c s a wr weight lossf ->
  (0 < s)%R -> times s y y' -> finite_targets y (v_rows v) t -> finite_targets y' (v_rows v) t' ->
  sorts srt -> compares_only srt -> group_column c (v_get v) = Ret col -> proper_groups (v_rows v) col ->
  Rmax mg (1 / 1000000) = (a * Rmax (cf_min_gain c) (1 / 1000000))%R -> (forall i step l, top i step (map (Rmult a) l) = top i step l) ->
  train_pair_messages v threads top draw pos srt names to_uint pick w y' wr weight lossf (config_times a mg c) (option_map (map (tree_times a 1)) base) =
  train_pair_messages v threads top draw pos srt names to_uint pick w y wr weight lossf c base.
Proof. exact (others_messages s a v threads top draw pos srt names to_uint pick w y y' t t' col c mg wr weight lossf base). Qed.
Print Assumptions C106_messages.
(** The losses that the factory makes are of these kinds: the theorems hold for them, with the configuration of each training. *)
Theorem C106_losses srt threads to_uint pick (c : config Exact) s mg :
  let dt := pair_unit (cf_delta_target c) s in
  (exists weight lossf, other_kind c s dt false weight lossf /\ auc_loss srt threads to_uint pick c = pairwise_loss srt threads to_uint pick c false weight lossf /\
     auc_loss srt threads to_uint pick (config_times dt mg c) = pairwise_loss srt threads to_uint pick (config_times dt mg c) false weight lossf) /\
  (exists weight lossf, other_kind c s dt false weight lossf /\ pairwise_logloss_loss srt threads to_uint pick c = pairwise_loss srt threads to_uint pick c false weight lossf /\
     pairwise_logloss_loss srt threads to_uint pick (config_times dt mg c) = pairwise_loss srt threads to_uint pick (config_times dt mg c) false weight lossf) /\
  (exists weight lossf, other_kind c s s true weight lossf /\ lambdamart_loss srt threads to_uint pick c = pairwise_loss srt threads to_uint pick c true weight lossf /\
     lambdamart_loss srt threads to_uint pick (config_times s mg c) = pairwise_loss srt threads to_uint pick (config_times s mg c) true weight lossf).
Proof. exact (others_made srt threads to_uint pick c s mg). Qed.
Print Assumptions C106_losses.

(** The data of C105 with other losses.  Here exp is always 1 and log the identity, as examples only need some functions. *)
Definition Flat : Num := IEEE (fun _ => dbl 1) (fun x => x).
Definition ex_flat_cfg (delta : bool) (min_gain lambda min_hessian : Z) : config Flat :=
  mkConfig 2 2 f32_one (dbl min_gain : Flat) (dbl lambda : Flat) (dbl min_hessian : Flat) f32_one f32_one 0 [lit "x"] [] [] [] false (lit "g") []
    (binary_normalize 24 128 5 (-2) false) delta f32_zero false.
Fixpoint ex_flat_scores (t : tree Flat) : list f64 :=
  match t with TNone => [] | TNode x _ TNone _ => [x] | TNode _ _ l r => ex_flat_scores l ++ ex_flat_scores r end.
Fixpoint ex_flat_gains (t : tree Flat) : list f64 :=
  match t with
  | TNone => []
  | TNode _ None l r => ex_flat_gains l ++ ex_flat_gains r
  | TNode _ (Some sp) l r => sp_gain sp :: ex_flat_gains l ++ ex_flat_gains r
  end.
Definition ex_flat (kind : config Flat -> Train.loss Flat) (y : list Z) (c : config Flat) : option (list f64 * list f64) :=
  match train (N := Flat) ex_later_view 2 (fun _ => first_top) (fun _ => half) 0 insertion_sort [lit "x"] ones (ex_targets (map fl y)) (kind c) c None with
  | Ret r => Some (flat_map ex_flat_scores (tr_forest r), flat_map ex_flat_gains (tr_forest r))
  | _ => None
  end.
Definition ex_flat_auc := ex_flat (auc_loss (N := Flat) insertion_sort 2 double_to_uint ex_pick).
Definition ex_flat_logloss := ex_flat (pairwise_logloss_loss (N := Flat) insertion_sort 2 double_to_uint ex_pick).
Definition ex_flat_lambda := ex_flat (lambdamart_loss (N := Flat) insertion_sort 2 double_to_uint ex_pick).
(** Whether the first result has a split and some score other than 0 *)
Definition ex_grown (r : option (list f64 * list f64)) : bool :=
  match r with Some (scores, gains) => existsb (fun x => negb (@neqb Ex x (dbl 0))) scores && (0 <? List.length gains) | None => false end.
Definition ex_same_unit (k : Z) (r r' : option (list f64 * list f64)) : bool := ex_grown r && ex_in_units 1 k r r'.
Example C106_example :
  ex_same_unit 1 (ex_flat_auc [10; 0; 0; 0; 1]%Z (ex_flat_cfg false 0 1 0)) (ex_flat_auc [20; 0; 0; 0; 2]%Z (ex_flat_cfg false 0 1 0)) = true /\
  ex_same_unit 2 (ex_flat_auc [10; 0; 0; 0; 1]%Z (ex_flat_cfg true 1 1 1)) (ex_flat_auc [20; 0; 0; 0; 2]%Z (ex_flat_cfg true 2 2 2)) = true /\
  ex_same_unit 2 (ex_flat_logloss [10; 0; 0; 0; 1]%Z (ex_flat_cfg true 1 1 1)) (ex_flat_logloss [20; 0; 0; 0; 2]%Z (ex_flat_cfg true 2 2 2)) = true /\
  ex_same_unit 2 (ex_flat_lambda [10; 0; 0; 0; 1]%Z (ex_flat_cfg false 0 1 0)) (ex_flat_lambda [20; 0; 0; 0; 2]%Z (ex_flat_cfg false 0 2 0)) = true.
Proof. split; [|split; [|split]]; vm_compute; reflexivity. Qed.
(** lambdamart needs another l2_lambda in other units even without pair_weight_by_delta_target. *)
Theorem C106_lambdamart_refuted :
  ex_agree (option_map fst (ex_flat_lambda [10; 0; 0; 0; 1]%Z (ex_flat_cfg false 0 1 0))) (option_map fst (ex_flat_lambda [20; 0; 0; 0; 2]%Z (ex_flat_cfg false 0 1 0))) = false.
Proof. vm_compute. reflexivity. Qed.
Print Assumptions C106_lambdamart_refuted.
