(** Prop_Step.v - property C93 (a round with any pointwise loss).  Statements only.
    Vocabulary: StepSpec.v, ConstantSpec.v, LossSpec.v, TrainSpec.v.  Model: Loss.v, Train.v, Tree.v. *)
From Coq Require Import SpecFloat Reals.
From Verif Require Import Base F32 Column DataStore Subsampling Num Forest Config Score Eval EvalSpec Split SplitSpec Tree Train TrainSpec Loss LossSpec ConstantSpec
  StepSpec Step_proofs TreeSpec Split_proofs Prop_Score Prop_Split Prop_Tree Prop_Train Prop_Loss.
Local Close Scope R_scope.

(** ** C93 - what a round does to the loss (exact arithmetic, all rows sampled) *)
(** Every round adds to the function value of each row the constant of C92 and the shrunken Newton step of the rows in its leaf. *)
Theorem C93_rounds l binary v threads top draw pos srt names w y wv yv (c : config Exact) base r :
  training v threads top srt names w (pointwise_loss (N := Exact) threads binary l) -> (forall b, base = Some b -> forest_fits v b) ->
  row_values (N := Exact) w (v_rows v) wv -> row_values (N := Exact) y (v_rows v) yv ->
  (forall i, fltb (draw i) (to_f64 (cf_example_rate c)) = true) ->
  train v threads top draw pos srt names w y (pointwise_loss threads binary l) c base = Ret r -> tr_status r = SOk ->
  exists features ls st0 k trees st fs, load_features (v_get v) (v_order v names) = (SOk, features) /\
    init_scores v threads = Ret st0 /\ init_with_base v threads (match base with Some b => b | None => [] end) n0 [] st0 = Ret (k, trees, st) /\
    values (N := Exact) v threads top draw srt w features c (pointwise_loss threads binary l) (Z.to_nat (cf_num_trees c)) 0 st (repeat gzero (v_rows v)) ls pos fs /\
    nth_error fs 0 = Some (snd st) /\ nth_error fs (Z.to_nat (cf_num_trees c)) = Some (tr_f r) /\
    forall i f f', nth_error fs i = Some f -> nth_error fs (S i) = Some f' ->
      List.length f = v_rows v /\ round_of l wv yv (real_of (cf_shrinkage c)) (cf_l2_lambda c) f f'.
Proof. exact (training_rounds l binary v threads top draw pos srt names w y wv yv c base r). Qed.
Print Assumptions C93_rounds.
(** From the function values at which the gradients were taken, a tree points downhill, strictly unless all its scores are 0. *)
Theorem C93_direction l wv yv f a lambda factor top label s : known_loss l yv (List.length f) factor top ->
  (forall i, i < List.length f -> (0 <= wv i)%R) -> newton_tree l wv yv f a lambda label s -> (0 <= lambda)%R ->
  exists d, derivable_pt_lim (stepped l wv yv f a s) 0 d /\ (d <= 0)%R /\ (d = 0%R -> forall i, i < List.length f -> s i = 0%R).
Proof. exact (direction l wv yv f a lambda factor top label s). Qed.
Print Assumptions C93_direction.
(** The shrunken step does not raise the loss if, in every leaf, the shrinkage times the weight times the largest hessian of a row
    is at most twice the regularised hessian; always for mse with a shrinkage of at most 2. *)
Theorem C93_small_step l wv yv f a lambda factor top label s k : known_loss l yv (List.length f) factor top ->
  (forall i, i < List.length f -> (0 <= wv i)%R) -> newton_tree l wv yv f a lambda label s -> (0 <= k)%R ->
  (forall i, i < List.length f -> (k * top * leaf_w wv f label i <= 2 * (leaf_h l wv yv f a label i + lambda))%R) ->
  (stepped l wv yv f a s k <= stepped l wv yv f a s 0)%R.
Proof. exact (fun K W N => small_step l wv yv f a lambda factor top label s K W N k). Qed.
Print Assumptions C93_small_step.
(** If l2_lambda is at least the shrinkage times the weight times the largest hessian, then after a round with fewer than ten
    Newton steps the loss exceeds the loss at the last constant but one at most by a hundred-millionth of the weight (a quarter of
    it for logloss, twice for mse). *)
Theorem C93_bounded l binary v threads top draw pos srt names w y wv yv (c : config Exact) base r factor largest :
  training v threads top srt names w (pointwise_loss (N := Exact) threads binary l) -> (forall b, base = Some b -> forest_fits v b) ->
  row_values (N := Exact) w (v_rows v) wv -> row_values (N := Exact) y (v_rows v) yv ->
  (forall i, fltb (draw i) (to_f64 (cf_example_rate c)) = true) ->
  train v threads top draw pos srt names w y (pointwise_loss threads binary l) c base = Ret r -> tr_status r = SOk ->
  known_loss l yv (v_rows v) factor largest -> (forall i, i < v_rows v -> (0 <= wv i)%R) -> (0 <= real_of (cf_shrinkage c))%R ->
  (real_of (cf_shrinkage c) * largest * rsum (v_rows v) wv <= cf_l2_lambda c)%R ->
  exists features ls st0 k trees st fs, load_features (v_get v) (v_order v names) = (SOk, features) /\
    init_scores v threads = Ret st0 /\ init_with_base v threads (match base with Some b => b | None => [] end) n0 [] st0 = Ret (k, trees, st) /\
    values (N := Exact) v threads top draw srt w features c (pointwise_loss threads binary l) (Z.to_nat (cf_num_trees c)) 0 st (repeat gzero (v_rows v)) ls pos fs /\
    nth_error fs 0 = Some (snd st) /\ nth_error fs (Z.to_nat (cf_num_trees c)) = Some (tr_f r) /\
    forall i f f', nth_error fs i = Some f -> nth_error fs (S i) = Some f' -> exists cs a b, visited l wv yv f cs /\ ends cs a b /\
      (List.length cs < 11 -> (values_loss l wv yv f' <= constant_loss l wv yv f a + factor * largest * rsum (v_rows v) wv / 100000000)%R).
Proof. exact (train_bounded l binary v threads top draw pos srt names w y wv yv c base r factor largest). Qed.
Print Assumptions C93_bounded.
(** The first round of logloss without base forest: compared to the loss before the round. *)
Theorem C93_first_logloss wv yv f f' k lambda : (forall i, nth i f 0 = 0)%R -> (forall i, i < List.length f -> (yv i = 1 \/ yv i = -1)%R) ->
  (forall i, i < List.length f -> (0 <= wv i)%R) -> (0 < weight_with wv yv (List.length f) 1)%R -> (0 < weight_with wv yv (List.length f) (-1))%R ->
  (0 <= k)%R -> (k / 4 * rsum (List.length f) wv <= lambda)%R -> round_of log_loss wv yv k lambda f f' ->
  exists cs, visited log_loss wv yv f cs /\
    (List.length cs < 11 -> (values_loss log_loss wv yv f' <= values_loss log_loss wv yv f + rsum (List.length f) wv / 400000000)%R).
Proof. exact (first_round wv yv f f' k lambda). Qed.
Print Assumptions C93_first_logloss.

(** Without that penalty a round can raise the loss.  Huberized hinge, four rows with the weights 1, 5, 25, 20 and the targets
    1, -1, 1, -1, a feature that tells the first two from the last two, shrinkage 1: the loss is 51/2 before the first round. *)
Definition ex_step_w : float_vector := fun i => vget (map fl [1; 5; 25; 20]%Z) i.
Definition ex_step_y : list f32 := map fl [1; -1; 1; -1]%Z.
Definition ex_step_view : view :=
  mkView (fun n => if str_eqb n (lit "x") then Some (mkCol (lit "x") (BodyB (ex_bcol [fl 1; fl 1; fl 2; fl 2]))) else None) 4 (fun l => l).
Definition ex_step (lambda : f64) : option (list f64 * f64) :=
  match train ex_step_view 2 (fun _ => first_top) (fun _ => half) 0 insertion_sort [lit "x"] ex_step_w (ex_targets ex_step_y) (huberized_loss (N := Ex) 2)
    (mkConfig 1 2 f32_one (dbl 0) lambda (dbl 0) f32_one f32_one 0 [lit "x"] [] [] [] false [] [] f32_zero false f32_zero false) None with
  | Ret r => Some (tr_f r, fold_left (fun a x => @nadd Ex a (@nmul Ex (dbl (fst (fst x))) (p_loss (@huberized_hinge Ex (to_f64 (snd (fst x))) (snd x)))))
               (combine (combine [1; 5; 25; 20]%Z ex_step_y) (tr_f r)) (dbl 0))
  | _ => None
  end.
Theorem C93_raised_refuted : exists f loss, ex_step (dbl 0) = Some (f, loss) /\ @nltb Ex (dbl 26) loss = true.
Proof. eexists _, _. split; vm_compute; reflexivity. Qed.
Print Assumptions C93_raised_refuted.
(** With l2_lambda 51, the weight of all rows, it falls to less than 25. *)
Example C93_example : option_map (fun x => (@nltb Ex (dbl 24) (snd x), @nltb Ex (snd x) (dbl 25))) (ex_step (dbl 51)) = Some (true, true).
Proof. vm_compute. reflexivity. Qed.
