(** Prop_Train.v - properties C37 to C40 and C58.  Statements only.  Model: Train.v; vocabulary: TrainSpec.v, EvalSpec.v,
    TreeSpec.v. *)
From Coq Require Import SpecFloat Reals.
From Verif Require Import Base F32 Column DataStore Subsampling Num Forest Config Score ScoreSpec Eval EvalSpec Eval_proofs Split SplitSpec
  Split_proofs Tree TreeSpec Tree_proofs Train TrainSpec Train_proofs Loss Prop_Score Prop_Eval Prop_Split Prop_Tree.
Local Close Scope R_scope.

(** ** C37 - the shape of a trained forest *)
Theorem C37_shape (N : Num) (O : ordered N) v threads top draw pos srt names w y (lf : loss N) c base r :
  training v threads top srt names w lf -> train v threads top draw pos srt names w y lf c base = Ret r -> tr_status r = SOk ->
  exists features k bs fs, load_features (v_get v) (v_order v names) = (SOk, features) /\
    tr_forest r = TNode k None TNone TNone :: bs ++ fs /\
    kept (match base with Some b => b | None => [] end) bs /\
    Z.of_nat (List.length fs) = cf_num_trees c /\ Forall (full features) fs /\ Forall tidy (tr_forest r).
Proof. exact (train_shape v threads top draw pos srt names w y lf c base O r). Qed.
Print Assumptions C37_shape.

(** The training returns. *)
Theorem C37_returns (N : Num) (O : ordered N) v threads top draw pos srt names w y (lf : loss N) c base :
  training v threads top srt names w lf -> runs_through (v_rows v) w y lf ->
  (exists g, group_column c (v_get v) = Ret g) -> (forall b, base = Some b -> forest_fits v b) ->
  (forall x : N, neqb x x = true) \/ (forall n col s, In n names -> v_get v n = Some col -> c_body col <> BodyS s) ->
  exists r, train v threads top draw pos srt names w y lf c base = Ret r.
Proof. exact (fun Tr Rt G Fb Sc => train_total O v threads top draw srt names w lf c Tr Sc y pos base Fb G Rt). Qed.
Print Assumptions C37_returns.

(** Two rounds with the mse loss on five rows with a float and a string feature, from a base forest with two constant
    trees and one other. *)
Definition ex_train_view : view :=
  mkView (fun n => if str_eqb n (lit "x") then Some ex_x else if str_eqb n (lit "s") then Some ex_s else None) 5 (fun l => l).
Definition ex_targets (l : list f32) : float_vector := fun i => vget l i.
Definition ex_y : float_vector := ex_targets (map fl [8; 10; 4; 2; 6]%Z).
Definition ex_train_cfg (trees leaves : Z) : config Ex :=
  mkConfig trees leaves f32_one (dbl 0) (dbl 0) (dbl 0) f32_one f32_one 0 [lit "x"] [lit "s"] [] [] false [] [] f32_zero false f32_zero false.
Definition ex_base : forest Ex :=
  [TNode (dbl 1) None TNone TNone;
   TNode (dbl 0) (Some (mkSplit (lit "s") None (Some ([lit "b"], [])) (dbl 7))) (TNode (dbl 1) None TNone TNone) (TNode (dbl (-1)) None TNone TNone);
   TNode (dbl 2) (Some (mkSplit (lit "x") (Some (fl 4, false)) None (dbl 1))) TNone TNone].
Definition ex_train (lf : loss Ex) (y : float_vector) (c : config Ex) (base : option (forest Ex)) : res (trained Ex) :=
  train ex_train_view 2 (fun _ => first_top) (fun _ => half) 0 insertion_sort [lit "x"; lit "s"] ones y lf c base.
Definition show_forest (r : res (trained Ex)) : option (status * list (list (list bool * f64 * option (str * f64))) * list f64) :=
  match r with Ret r => Some (tr_status r, map (fun t => show_tree t []) (tr_forest r), tr_f r) | _ => None end.
(** Which nodes have a split, and which splits name categories or indices. *)
Fixpoint show_splits (t : tree Ex) : list (bool * list (list str * list Z)) :=
  match t with
  | TNone => []
  | TNode _ sp l r =>
      match sp with
      | None => (false, [])
      | Some sp => (true, match sp_cat sp with Some x => [x] | None => [] end)
      end :: show_splits l ++ show_splits r
  end.
Example C37_example :
  match ex_train (mse_loss 2) ex_y (ex_train_cfg 2 3) (Some ex_base) with
  | Ret r => (tr_status r, map show_splits (tr_forest r))
  | _ => (SErr INTERNAL, [])
  end =
  (SOk, [[(false, [])];
         [(true, [([lit "b"], [])]); (false, []); (false, [])];
         [(true, []); (false, []); (true, [([lit "b"], [])]); (false, []); (false, [])];
         [(true, []); (true, []); (false, []); (false, []); (false, [])]]).
Proof. vm_compute. reflexivity. Qed.

(** ** C38 - predictions of the trained forest *)
Theorem C38_predictions v threads top draw pos srt names w y (lf : loss Exact) c base r :
  training v threads top srt names w lf -> (forall b, base = Some b -> base_ok v b) ->
  train v threads top draw pos srt names w y lf c base = Ret r -> tr_status r = SOk ->
  evaluate_forest v threads (tr_forest r) = Ret (SOk, Some (tr_f r)) /\ forest_fits v (tr_forest r) /\ predictions v (tr_forest r) (tr_f r).
Proof. exact (train_predicts v threads top draw pos srt names w y lf c base r). Qed.
Print Assumptions C38_predictions.

Definition ex_compare (y : float_vector) (c : config Ex) (base : option (forest Ex)) : option (list f64 * res (status * option (list f64))) :=
  match ex_train (mse_loss 2) y c base with Ret r => Some (tr_f r, evaluate_forest ex_train_view 3 (tr_forest r)) | _ => None end.
Example C38_example :
  ex_compare (ex_targets (map fl [9; 11; 4; 6; 4]%Z)) (ex_train_cfg 2 2) (Some ex_base) =
    Some (map dbl [9; 11; 4; 6; 4]%Z, Ret (SOk, Some (map dbl [9; 11; 4; 6; 4]%Z))).
Proof. vm_compute. reflexivity. Qed.

(** With float and double the constants are rounded: the trained values and the predictions differ. *)
Theorem C38_rounding_refuted : exists y base f scores a b, ex_compare y (ex_train_cfg 2 3) base = Some (f, Ret (SOk, Some scores)) /\
  nth_error f 0 = Some a /\ nth_error scores 0 = Some b /\ feqb a b = false.
Proof.
  exists ex_y, (Some ex_base). do 4 eexists. split; [vm_compute; reflexivity|]. split; [reflexivity|]. split; [reflexivity|].
  vm_compute. reflexivity.
Qed.
Print Assumptions C38_rounding_refuted.

(** ** C39 - the start from a base forest *)
Theorem C39_base v threads (base : forest Exact) : 1 <= threads -> forest_fits v base ->
  exists k trees st0 st, init_scores v threads = Ret st0 /\ init_with_base v threads base (@n0 Exact) [] st0 = Ret (k, trees, st) /\
    trees = filter has_left base /\
    predictions v base (snd st) /\ predictions v (TNode k None TNone TNone :: trees) (snd st).
Proof. exact (base_predictions v threads base). Qed.
Print Assumptions C39_base.

(** Training starts from there: the first question to the loss is about the base forest's predictions. *)
Theorem C39_training v threads top draw pos srt names w y (lf : loss Exact) c base r : 1 <= threads -> (forall b, base = Some b -> forest_fits v b) ->
  train v threads top draw pos srt names w y lf c base = Ret r -> (tr_status r = SOk \/ tr_forest r <> []) ->
  exists group ls f x gd ls' pos', group_column c (v_get v) = Ret group /\ l_init lf (v_rows v) w y group = Ret (inr ls) /\
    predictions v (match base with Some b => b | None => [] end) f /\
    l_round lf ls pos f (repeat gzero (v_rows v)) = Ret (x, gd, ls', pos').
Proof. exact (first_round v threads top draw pos srt names w y lf c base r). Qed.
Print Assumptions C39_training.
Definition ex_start (base : forest Ex) : option (f64 * nat * list f64 * res (status * option (list f64))) :=
  match init_scores ex_train_view 2 with
  | Ret st0 => match init_with_base ex_train_view 2 base (dbl 0) [] st0 with
               | Ret (k, trees, st) => Some (k, List.length trees, snd st, evaluate_forest ex_train_view 2 (TNode k None TNone TNone :: trees))
               | _ => None
               end
  | _ => None
  end.
Example C39_example :
  ex_start ex_base = Some (dbl 3, 1, map dbl [2; 4; 2; 4; 2]%Z, Ret (SOk, Some (map dbl [2; 4; 2; 4; 2]%Z))) /\
  evaluate_forest ex_train_view 2 ex_base = Ret (SOk, Some (map dbl [2; 4; 2; 4; 2]%Z)) /\
  ex_start [] = Some (dbl 0, 0, map dbl [0; 0; 0; 0; 0]%Z, Ret (SOk, Some (map dbl [0; 0; 0; 0; 0]%Z))).
Proof. vm_compute. repeat split; reflexivity. Qed.

(** ** C40 - shrinkage *)
(** The nodes keep their places and splits (with their gains), the scores are multiplied and rounded to float; *)
Theorem C40_nodes (N : Num) (k : N) (t : tree N) p s' sp : has_node (apply_shrinkage k t) p s' sp <->
  exists s, has_node t p s sp /\ s' = nstore (nmul s k).
Proof. exact (shrink_node k t p s' sp). Qed.
Print Assumptions C40_nodes.
(** rows take the same way; *)
Theorem C40_ways (N : Num) store (k : N) (t : tree N) row p : reaches store (apply_shrinkage k t) row p <-> reaches store t row p.
Proof. exact (shrink_reaches store k t row p). Qed.
Print Assumptions C40_ways.
(** in exact arithmetic a row receives its score times the factor. *)
Theorem C40_rows store (k : Exact) (t : tree Exact) row s' : routes store (apply_shrinkage k t) row s' <-> exists s, routes store t row s /\ s' = (s * k)%R.
Proof.
  exact (conj (exact_shrink_routes_inv store k t row s')
    (fun H => match H with ex_intro _ s (conj R E) => eq_ind_r (fun x => routes store (apply_shrinkage k t) row x) (exact_shrink_routes store k t row s R) E end)).
Qed.
Print Assumptions C40_rows.
Example C40_example :
  evaluate_forest ex_view 2 [ex_tree] = Ret (SOk, Some (map dbl [2; 3; 2; 1; 3; 1]%Z)) /\
  evaluate_forest ex_view 2 [apply_shrinkage (dbl 10) ex_tree] = Ret (SOk, Some (map dbl [20; 30; 20; 10; 30; 10]%Z)) /\
  map snd (show_tree (apply_shrinkage (dbl 10) ex_tree) []) = map snd (show_tree ex_tree []).
Proof. vm_compute. repeat split; reflexivity. Qed.

(** ** C58 - constants that are not finite *)
(** [xs] are the constants the loss reports, round by round.  Either all rounds take place, and all are finite; or the
    last one is not finite, the others are, and the status is INTERNAL. *)
Theorem C58_rounds (N : Num) v threads top draw pos srt names w y (lf : loss N) c base r :
  train v threads top draw pos srt names w y lf c base = Ret r -> (tr_status r = SOk \/ tr_forest r <> []) ->
  exists features group ls st0 k trees st xs, load_features (v_get v) (v_order v names) = (SOk, features) /\
    group_column c (v_get v) = Ret group /\ l_init lf (v_rows v) w y group = Ret (inr ls) /\
    init_scores v threads = Ret st0 /\ init_with_base v threads (match base with Some b => b | None => [] end) n0 [] st0 = Ret (k, trees, st) /\
    reported v threads top draw srt w features c lf (Z.to_nat (cf_num_trees c)) 0 st (repeat gzero (v_rows v)) ls pos xs /\
    ((tr_status r = SOk /\ Z.of_nat (List.length xs) = cf_num_trees c /\ forall x, In x xs -> nfinite x = true) \/
     (tr_status r = SErr INTERNAL /\ exists ys x, xs = ys ++ [x] /\ nfinite x = false /\ (forall y, In y ys -> nfinite y = true) /\
        List.length (tr_forest r) = S (List.length trees + List.length ys))).
Proof. exact (train_trace v threads top draw pos srt names w y lf c base r). Qed.
Print Assumptions C58_rounds.
(** An infinite target; and a loss that reports NaN in its third round: the constant tree and two others remain. *)
Definition ex_nan_loss : loss Ex :=
  mkLoss (N := Ex) nat (fun _ _ _ _ => Ret (inr 0))
    (fun s pos f gd => Ret ((if s =? 2 then S754_nan else dbl 1) : Ex, map (fun _ => dg 1 1) gd, S s, pos)).
Example C58_example :
  option_map (fun r => fst (fst r)) (show_forest (ex_train (mse_loss 2) (ex_targets [fl 1; S754_infinity false; fl 1; fl 1; fl 1]) (ex_train_cfg 2 3) None)) =
    Some (SErr INTERNAL) /\
  option_map (fun r => (fst (fst r), List.length (snd (fst r)))) (show_forest (ex_train ex_nan_loss ex_y (ex_train_cfg 5 3) None)) =
    Some (SErr INTERNAL, 3) /\
  option_map (fun r => (fst (fst r), List.length (snd (fst r)))) (show_forest (ex_train ex_nan_loss ex_y (ex_train_cfg 2 3) None)) =
    Some (SOk, 3).
Proof. vm_compute. repeat split; reflexivity. Qed.
