(** Prop_Loss.v - properties C41 to C44 and C61: the pointwise losses.  Statements only.  Model: Loss.v, Train.v;
    vocabulary: LossSpec.v, TrainSpec.v. *)
From Coq Require Import SpecFloat Reals.
From Verif Require Import Base F32 Column DataStore Subsampling Num Par Forest Config Score ScoreSpec Eval EvalSpec Split SplitSpec
  Split_proofs Tree TreeSpec Train TrainSpec Loss LossSpec Pairwise Loss_proofs Binary_proofs Calculus_proofs Mse_proofs Train_proofs
  Prop_Score Prop_Eval Prop_Split Prop_Tree Prop_Train.
Local Close Scope R_scope.

(** ** C41 - the squared error does not grow *)
(** [fs] are the function values before the first round and after each of the rounds. *)
Theorem C41_descent v threads top draw pos srt names w y wv yv (c : config Exact) base r :
  training v threads top srt names w (mse_loss (N := Exact) threads) -> (forall b, base = Some b -> forest_fits v b) ->
  row_values (N := Exact) w (v_rows v) wv -> row_values (N := Exact) y (v_rows v) yv ->
  (forall i, i < v_rows v -> (0 <= wv i)%R) -> (forall i, fltb (draw i) (to_f64 (cf_example_rate c)) = true) ->
  (0 <= real_of (cf_shrinkage c) <= 1)%R -> (0 <= cf_l2_lambda c)%R ->
  train v threads top draw pos srt names w y (mse_loss threads) c base = Ret r -> tr_status r = SOk ->
  exists features ls st0 k trees st fs, load_features (v_get v) (v_order v names) = (SOk, features) /\
    init_scores v threads = Ret st0 /\ init_with_base v threads (match base with Some b => b | None => [] end) n0 [] st0 = Ret (k, trees, st) /\
    values (N := Exact) v threads top draw srt w features c (mse_loss threads) (Z.to_nat (cf_num_trees c)) 0 st (repeat gzero (v_rows v)) ls pos fs /\
    nth_error fs 0 = Some (snd st) /\ nth_error fs (Z.to_nat (cf_num_trees c)) = Some (tr_f r) /\
    forall i a b, nth_error fs i = Some a -> nth_error fs (S i) = Some b -> (squared_error wv yv b <= squared_error wv yv a)%R.
Proof. exact (train_descends v threads top draw pos srt names w y wv yv c base r). Qed.
Print Assumptions C41_descent.
(** Shrinkage 1/2, two leaves, targets 8 10 4 2 6: the error is 220 at first. *)
Definition ex_half_cfg (trees : Z) : config Ex :=
  mkConfig trees 2 (binary_normalize 24 128 1 (-1) false) (dbl 0) (dbl 0) (dbl 0) f32_one f32_one 0 [lit "x"] [lit "s"] [] [] false [] [] f32_zero false f32_zero false.
Definition ex_error (trees : Z) : option f64 :=
  match ex_train (mse_loss 2) ex_y (ex_half_cfg trees) None with
  | Ret r => Some (fold_left (fun a x => let d := @nsub Ex (fst x) (snd x) in @nadd Ex a (@nmul Ex d d))
                    (combine (map dbl [8; 10; 4; 2; 6]%Z) (tr_f r)) (dbl 0))
  | _ => None
  end.
Definition ratio (a b : Z) : f64 := @ndiv Ex (dbl a) (dbl b).
Example C41_example : map ex_error [1; 2; 3]%Z = [Some (ratio 35 2); Some (ratio 95 8); Some (ratio 625 64)].
Proof. vm_compute. reflexivity. Qed.

(** ** C42 - gradients and hessians are derivatives *)
Theorem C42_logloss y f : (y * y = 1)%R ->
  derivable_pt_lim (fun f => loss_of log_loss y f) f (- g_of log_loss y f)%R /\
  derivable_pt_lim (fun f => - g_of log_loss y f)%R f (h_of log_loss y f) /\ (0 < h_of log_loss y f)%R.
Proof. exact (fun Y => conj (log_first y f) (conj (log_second y f Y) (log_positive y f))). Qed.
Print Assumptions C42_logloss.
Theorem C42_huberized_hinge y f :
  derivable_pt_lim (fun f => loss_of huberized_hinge y f) f (- g_of huberized_hinge y f)%R /\
  (y * y = 1 -> y * f <> 0 -> y * f <> 1 -> derivable_pt_lim (fun f => - g_of huberized_hinge y f) f (h_of huberized_hinge y f))%R /\
  (0 <= h_of huberized_hinge y f)%R.
Proof. exact (conj (hinge_first y f) (conj (hinge_second y f) (hinge_positive y f))). Qed.
Print Assumptions C42_huberized_hinge.
(** The gradient and the hessian are half of the derivatives. *)
Theorem C42_mse y f :
  derivable_pt_lim (fun f => loss_of mse y f) f (- (2 * g_of mse y f))%R /\
  derivable_pt_lim (fun f => - (2 * g_of mse y f))%R f (2 * h_of mse y f)%R /\ (0 < h_of mse y f)%R.
Proof. exact (conj (mse_first y f) (conj (mse_second y f) Rlt_0_1)). Qed.
Print Assumptions C42_mse.
Theorem C42_squared_hinge y f :
  derivable_pt_lim (fun f => loss_of squared_hinge y f) f (- (2 * g_of squared_hinge y f))%R /\
  (y <> f -> derivable_pt_lim (fun f => - (2 * g_of squared_hinge y f)) f (2 * h_of squared_hinge y f))%R /\
  (0 <= h_of squared_hinge y f)%R.
Proof. exact (conj (square_first y f) (conj (square_second y f) (square_positive y f))). Qed.
Print Assumptions C42_squared_hinge.
Definition show_point (p : point Ex) : f64 * f64 * f64 := p.
Example C42_example :
  map (fun f => show_point (huberized_hinge (dbl 1) f)) [dbl 2; ratio 1 2; dbl (-1)] =
    [(dbl 0, dbl 0, dbl 0); (ratio 1 8, ratio 1 2, dbl 1); (ratio 3 2, dbl 1, dbl 0)] /\
  map (fun f => show_point (squared_hinge (dbl 1) f)) [dbl 2; dbl (-1)] = [(dbl 0, dbl 0, dbl 0); (dbl 4, dbl 2, dbl 1)] /\
  show_point (mse (dbl 1) (dbl 3)) = (dbl 4, dbl (-2), dbl 1).
Proof. vm_compute. repeat split; reflexivity. Qed.

(** In doubles exp(1000) is infinite: gradient and hessian of a row that is badly off are NaN, whatever else exp and
    log return. *)
Theorem C42_overflow_refuted e l : e (dbl 1000) = S754_infinity false ->
  let p := @log_loss (IEEE e l) (dbl 1) (dbl (-1000)) in gg (p_grad p) = S754_nan /\ gh (p_grad p) = S754_nan.
Proof. exact (log_loss_nan e l). Qed.
Print Assumptions C42_overflow_refuted.

(** ** C43 - the Newton iteration *)
(** [ds] are the steps; [steps] says how they arise. *)
Theorem C43_newton (N : Num) lossf w y (wv yv : nat -> N) threads p f gd :
  1 <= threads -> row_values w (List.length f) wv -> row_values y (List.length f) yv -> inited w y threads (List.length f) p ->
  exists ds, steps lossf wv yv f (all_slices p) 10 n0 ds /\
    pointwise_round lossf p f gd = Ret (fold_left nadd ds n0, row_gradients lossf yv f (fold_left nadd (removelast ds) n0)).
Proof. exact (round_ok lossf w y wv yv threads p f gd). Qed.
Print Assumptions C43_newton.
Theorem C43_init (N : Num) w y (wv : nat -> N) threads rows : 1 <= threads -> row_values w rows wv ->
  exists p : @pointwise N, pointwise_init threads rows w y = Ret p /\ inited w y threads rows p /\ concat (all_slices p) = seq 0 rows /\
    List.length (all_slices p) = threads * 5.
Proof. exact (init_ok w y wv threads rows). Qed.
Print Assumptions C43_init.
Theorem C43_mse wv yv f w y threads p gd : 1 <= threads ->
  row_values (N := Exact) w (List.length f) wv -> row_values (N := Exact) y (List.length f) yv -> inited (N := Exact) w y threads (List.length f) p ->
  rsum (List.length f) wv <> 0%R ->
  let c := (rsum (List.length f) (fun i => wv i * (yv i - nth i f 0)) / rsum (List.length f) wv)%R in
  exists gd', pointwise_round (N := Exact) mse p f gd = Ret (c, gd') /\ List.length gd' = List.length f /\
    forall i, i < List.length f -> nth_error gd' i = Some (mkG (N := Exact) (yv i - nth i f 0 - (if Rlt_dec (1 / 10000) (Rabs c) then c else 0)) 1)%R.
Proof. exact (mse_round_real wv yv f w y threads p gd). Qed.
Print Assumptions C43_mse.
(** Two rows, targets 3 and 5; then one row with a target of 2^-14, where the gradient is not that at the constant. *)
Definition ex_round (y : list f32) (f : list f64) : option (f64 * list (f64 * f64)) :=
  match pointwise_init 2 (List.length f) ones (ex_targets y) with
  | Ret p => match pointwise_round (N := Ex) mse p f [] with
             | Ret (c, gd) => Some (c, map (fun g => (gg g, gh g)) gd)
             | _ => None
             end
  | _ => None
  end.
Example C43_example : ex_round [fl 3; fl 5] [dbl 0; dbl 0] = Some (dbl 4, [(dbl (-1), dbl 1); (dbl 1, dbl 1)]).
Proof. vm_compute. reflexivity. Qed.
Theorem C43_stale_refuted : exists y c g, ex_round [y] [dbl 0] = Some (c, [(g, dbl 1)]) /\ feqb (to_f64 y) c = true /\ feqb g (dbl 0) = false.
Proof. exact (ex_intro _ (binary_normalize 24 128 1 (-14) false) (ex_intro _ (binary_normalize 53 1024 1 (-14) false) (ex_intro _ (binary_normalize 53 1024 1 (-14) false) (conj eq_refl (conj eq_refl eq_refl))))). Qed.
Print Assumptions C43_stale_refuted.

(** ** C44 - targets of the binary losses *)
Theorem C44_init e l srt threads to_uint pick (c : config (IEEE e l)) rows w y wv g :
  cf_loss_func c = lit "logloss" \/ cf_loss_func c = lit "huberized_hinge" -> 1 <= threads -> row_values (N := IEEE e l) w rows wv ->
  (forall i, i < rows -> exists a, y i = Ret a /\ valid_binary 24 128 a = true) ->
  exists lf r, create_loss srt threads to_uint pick c = Some lf /\ l_init lf rows w y g = Ret r /\
    ((exists p, r = inr p) <-> forall i a, i < rows -> y i = Ret a -> one_or_minus_one a) /\
    ((forall p, r <> inr p) -> r = inl INVALID_ARGUMENT).
Proof. exact (binary_by_name e l srt threads to_uint pick c rows w y wv g). Qed.
Print Assumptions C44_init.
Theorem C44_binarized e l srt to_uint pick (c : config (IEEE e l)) get y n r threads rows w wv g :
  cf_loss_func c = lit "logloss" \/ cf_loss_func c = lit "huberized_hinge" -> 1 <= threads -> row_values (N := IEEE e l) w rows wv ->
  targets c get = Ret y -> cf_binarize_target c = true -> get (cf_target_column c) = Some (mkCol n (BodyR r)) -> List.length (r_floats r) = rows ->
  (forall i x, nth_error (r_floats r) i = Some x -> y i = Ret (if fltb f32_zero x then f32_one else f32_of_Z (-1))) /\
  exists lf p, create_loss srt threads to_uint pick c = Some lf /\ l_init lf rows w y g = Ret (inr p).
Proof. exact (binarized_by_name e l srt to_uint pick c get y n r threads rows w wv g). Qed.
Print Assumptions C44_binarized.
Definition ex_init (y : list f32) : option (option code) :=
  match l_init (logloss_loss (N := Ex) 2) (List.length y) ones (ex_targets y) None with
  | Ret (inl e) => Some (Some e)
  | Ret (inr _) => Some None
  | _ => None
  end.
Example C44_example :
  map ex_init [[fl 1; fl (-1); fl 1]; [fl 1; fl 0]; [fl 1; S754_nan]; []] =
  [Some None; Some (Some INVALID_ARGUMENT); Some (Some INVALID_ARGUMENT); Some None].
Proof. vm_compute. reflexivity. Qed.

(** ** C61 - the tasks of a pass do not interfere *)
(** In every state that a schedule of single reads and writes can reach no task is stuck, and when all are done the
    memory holds the gradients of all rows and the totals of all slices; running the tasks in turn gives the same. *)
Theorem C61_schedules (N : Num) lossf w y (wv yv : nat -> N) f c p threads gd : row_values w (List.length f) wv -> row_values y (List.length f) yv ->
  1 <= threads -> inited w y threads (List.length f) p -> List.length gd = List.length f ->
  let tot := map (fun r => slice_total lossf wv yv f c (range r)) (pw_slices p) in
  (forall s, ireach ploc_dec (point_tasks lossf p f c, point_mem gd (repeat (n0, gzero) (List.length (pw_slices p)))) s ->
     (forall q, In q (fst s) -> ~ pfail q (snd s)) /\
     (all_done (fst s) \/ exists s', istep ploc_dec s s') /\
     (all_done (fst s) -> forall l, snd s l = point_mem (row_gradients lossf yv f c) tot l)) /\
  point_pass lossf p f c gd = Ret (row_gradients lossf yv f c, sum_totals tot).
Proof. exact (pass_schedules lossf w y wv yv f c p threads gd). Qed.
Print Assumptions C61_schedules.
(** Training with these losses returns. *)
Theorem C61_training (N : Num) (O : ordered N) v threads top draw pos srt names w y (wv yv : nat -> N) binary lossf c base :
  training v threads top srt names w (pointwise_loss (N := N) threads binary lossf) -> row_values w (v_rows v) wv -> row_values y (v_rows v) yv ->
  (exists g, group_column c (v_get v) = Ret g) -> (forall b, base = Some b -> forest_fits v b) ->
  (forall x : N, neqb x x = true) \/ (forall n col s, In n names -> v_get v n = Some col -> c_body col <> BodyS s) ->
  exists r, train v threads top draw pos srt names w y (pointwise_loss (N := N) threads binary lossf) c base = Ret r.
Proof. exact (fun Tr Wv Yv G Fb Sc => train_total O v threads top draw srt names w _ c Tr Sc y pos base Fb G (pointwise_runs threads binary lossf _ w y wv yv (ts_threads _ _ _ _ _ _ _ Tr) Wv Yv)). Qed.
Print Assumptions C61_training.
(** Four of the ten slices get one row each. *)
Example C61_example :
  match pointwise_init (N := Ex) 2 4 ones (ex_targets (map fl [3; 5; 7; 9]%Z)) with
  | Ret p => match point_pass mse p (map dbl [0; 1; 0; 1]%Z) (dbl 1) (repeat gzero 4) with
             | Ret (gd, (l, t)) => Some (pw_slices p, map (fun g => (gg g, gh g)) gd, (l : f64, gg t, gh t))
             | _ => None
             end
  | _ => None
  end =
  Some ([(0, 1); (1, 2); (2, 3); (3, 4); (4, 4); (4, 4); (4, 4); (4, 4); (4, 4); (4, 4)],
        map (fun z => (dbl z, dbl 1)) [2; 3; 6; 7]%Z, (dbl 98, dbl 18, dbl 4)).
Proof. vm_compute. reflexivity. Qed.
