(** Prop_PairUnits.v - property C104 (units of weights with pairwise losses).  Statements only.
    Vocabulary: PairUnitsSpec.v, UnitsSpec.v, PairSpec.v, TargetsSpec.v.  Model: Pairwise.v, PairReport.v, Train.v, Tree.v. *)
From Coq Require Import SpecFloat Reals.
From Verif Require Import Base F32 Column ColumnSpec DataStore Subsampling Num Par Forest Config Score Eval EvalSpec Split SplitSpec Tree Train TrainSpec Loss Pairwise PairSpec
  PairReport UnitsSpec TargetsSpec PairUnitsSpec PairUnits_proofs TreeSpec Split_proofs Prop_Score Prop_Split Prop_Tree Prop_Train Prop_Loss Prop_Pair Prop_PairStep Prop_BaseShift.
Local Close Scope R_scope.

(** ** C104 - weights count three times with pairwise losses *)
(** In exact arithmetic: training with all weights multiplied by a > 0, and with l2_lambda, min_hessian and the smallest gain multiplied by
    the third power of a (where the built-in 1/1000000 is no limit), ends the same way, with the same function values and the same forest
    except that all gains are multiplied by the third power of a. *)
Theorem C104_weights a v threads (top : nat -> nat -> list Exact -> nat) draw pos srt names to_uint pick w w' y (c : config Exact) mg wr weight lossf (base : option (forest Exact)) :
  (0 < a)%R -> times a w w' -> Rmax mg (1 / 1000000) = (a * a * a * Rmax (cf_min_gain c) (1 / 1000000))%R ->
  (forall i step l, top i step (map (Rmult (a * a * a)) l) = top i step l) ->
  let c' := config_times (a * a * a) mg c in
  train v threads top draw pos srt names w' y (pairwise_loss srt threads to_uint pick c' wr weight lossf) c' (option_map (map (tree_times (a * a * a) 1)) base) =
  res_map (trained_times (a * a * a)) (train v threads top draw pos srt names w y (pairwise_loss srt threads to_uint pick c wr weight lossf) c base).
Proof.
  exact (fun A W Mg Top => pair_train_times a w w' y c mg srt top draw threads to_uint pick wr weight lossf A W Mg Top v pos names base).
Qed.
Print Assumptions C104_weights.
(** That includes auc, gbrank, pairwise_logloss and lambdamart: they are the same with the other limits. *)
Theorem C104_losses k mg (c : config Exact) wr weight lossf : pair_kind c wr weight lossf -> pair_kind (config_times k mg c) wr weight lossf.
Proof. exact (kinds_same k mg c wr weight lossf). Qed.
Print Assumptions C104_losses.
(** The progress messages are the same. *)
Theorem C104_messages a v threads (top : nat -> nat -> list Exact -> nat) draw pos srt names to_uint pick w w' y (c : config Exact) mg wr weight lossf (base : option (forest Exact)) :
  (0 < a)%R -> times a w w' -> Rmax mg (1 / 1000000) = (a * a * a * Rmax (cf_min_gain c) (1 / 1000000))%R ->
  (forall i step l, top i step (map (Rmult (a * a * a)) l) = top i step l) ->
  train_pair_messages v threads top draw pos srt names to_uint pick w' y wr weight lossf (config_times (a * a * a) mg c) (option_map (map (tree_times (a * a * a) 1)) base) =
  train_pair_messages v threads top draw pos srt names to_uint pick w y wr weight lossf c base.
Proof.
  exact (fun A W Mg Top => pair_train_messages a w w' y c mg srt top draw threads to_uint pick wr weight lossf A W Mg Top v pos names base).
Qed.
Print Assumptions C104_messages.
(** Factors may differ from group to group: with the weights of the rows of every group multiplied by a factor of the group, a round samples the
    same pairs, and for every row the product of weight and gradient, which is all that the tree is grown from, is multiplied by the third
    power of the factor. *)
Theorem C104_groups srt threads to_uint pick (c : config Exact) wr weight lossf n w w' y t col s p pos f gd gd0 x gd1 p1 pos1 : sorts srt -> proper_groups n col ->
  comparable y (seq 0 n) t -> in_use (N := Exact) srt threads to_uint pick c wr weight lossf n w y col p -> one_factor n col s -> times_each s w w' ->
  pair_round srt to_uint pick c wr weight lossf p pos f gd = Ret (x, gd1, p1, pos1) ->
  exists gd2, pair_round srt to_uint pick c wr weight lossf (reweighted w' p) pos f gd0 = Ret (x, gd2, reweighted w' p1, pos1) /\ List.length gd2 = List.length gd1 /\
    forall r, row_grad w' gd2 r = res_map (both_times (s r * s r * s r)) (row_grad w gd1 r).
Proof. exact (groups_cubed srt threads to_uint pick c wr weight lossf n w w' y t col s p pos f gd gd0 x gd1 p1 pos1). Qed.
Print Assumptions C104_groups.

(** The data of C100 with gbrank and two trees, given weights and limits; leaf scores of the forest, and gains *)
Fixpoint ex_gains (t : tree Ex) : list f64 :=
  match t with
  | TNone => []
  | TNode _ None l r => ex_gains l ++ ex_gains r
  | TNode _ (Some sp) l r => sp_gain sp :: ex_gains l ++ ex_gains r
  end.
Definition ex_weighed (equal : bool) (w : list Z) (min_gain lambda min_hessian : Z) : option (list f64 * list f64) :=
  let c := mkConfig 2 2 f32_one (dbl min_gain) (dbl lambda) (dbl min_hessian) f32_one f32_one 0 [lit "x"] [] [] [] false (lit "g") (lit "gbrank")
             (binary_normalize 24 128 5 (-2) false) false f32_zero equal : config Ex in
  match train ex_later_view 2 (fun _ => first_top) (fun _ => half) 0 insertion_sort [lit "x"] (fun i => vget (map fl w) i) (ex_targets (map fl [10; 0; 0; 0; 1]%Z))
          (gbrank_loss (N := Ex) insertion_sort 2 double_to_uint ex_pick c) c None with
  | Ret r => Some (flat_map ex_leaf_scores (tr_forest r), flat_map ex_gains (tr_forest r))
  | _ => None
  end.
Definition ex_same_scores (r r' : option (list f64 * list f64)) : bool := ex_agree (option_map fst r) (option_map fst r').
Example C104_example :
  option_map (fun x => List.length (fst x)) (ex_weighed false [1; 1; 1; 1; 1]%Z 1 1 1) = Some 4 /\
  ex_same_scores (ex_weighed false [1; 1; 1; 1; 1]%Z 1 1 1) (ex_weighed false [2; 2; 2; 2; 2]%Z 8 8 8) = true /\
  ex_agree (option_map (fun x => map (@nmul Ex (dbl 8)) (snd x)) (ex_weighed false [1; 1; 1; 1; 1]%Z 1 1 1)) (option_map snd (ex_weighed false [2; 2; 2; 2; 2]%Z 8 8 8)) = true.
Proof. repeat split; vm_compute; reflexivity. Qed.
(** The factor itself, as with pointwise losses (C81), or its square are not the right factors of the limits. *)
Theorem C104_power_refuted :
  ex_same_scores (ex_weighed false [1; 1; 1; 1; 1]%Z 1 1 1) (ex_weighed false [2; 2; 2; 2; 2]%Z 2 2 2) = false /\
  ex_same_scores (ex_weighed false [1; 1; 1; 1; 1]%Z 1 1 1) (ex_weighed false [2; 2; 2; 2; 2]%Z 4 4 4) = false.
Proof. split; vm_compute; reflexivity. Qed.
Print Assumptions C104_power_refuted.
(** equal_group_weight does not make the weights of groups equal: it only counts pairs.  The first group has weights 1, then 2. *)
Theorem C104_equal_refuted : ex_same_scores (ex_weighed true [1; 1; 1; 1; 1]%Z 1 1 1) (ex_weighed true [2; 2; 1; 1; 1]%Z 1 1 1) = false.
Proof. vm_compute. reflexivity. Qed.
Print Assumptions C104_equal_refuted.
(** The products of weights and gradients in the first round, with weights 1 and with weights 2 in the first group *)
Definition ex_products (w : list Z) : list (f64 * f64) :=
  let c := ex_pairs_cfg (binary_normalize 24 128 5 (-2) false) (dbl 0) (lit "g") in
  let w := (fun i => vget (map fl w) i) : float_vector in
  let col := Some (string_column_of [map lit ["a"; "a"; "b"; "b"; "b"]%string]) in
  let y := ex_targets (map fl [10; 0; 0; 0; 1]%Z) in
  match pair_init (N := Ex) insertion_sort 2 c 5 w y col with
  | Ret (inr p) =>
      match pair_round (N := Ex) insertion_sort double_to_uint ex_pick c false (basic_weight false) (fun t d => squared_hinge t d) p 0 (repeat (dbl 0) 5) [] with
      | Ret (_, gd, _, _) => flat_map (fun r => match row_grad w gd r with Ret d => [(gg d, gh d)] | _ => [] end) (seq 0 5)
      | _ => []
      end
  | _ => []
  end.
Example C104_groups_example :
  ex_products [1; 1; 1; 1; 1]%Z = map (fun x => (dbl (fst x), dbl (snd x))) [(10, 2); (-10, 2); (-1, 2); (-1, 2); (2, 4)]%Z /\
  ex_products [2; 2; 1; 1; 1]%Z = map (fun x => (dbl (fst x), dbl (snd x))) [(80, 16); (-80, 16); (-1, 2); (-1, 2); (2, 4)]%Z.
Proof. split; vm_compute; reflexivity. Qed.
