(** Prop_Units.v - property C81.  Statements only.  Model: Tree.v, Train.v, Loss.v; vocabulary: UnitsSpec.v, TrainSpec.v, LossSpec.v. *)
From Coq Require Import SpecFloat Reals Lra.
From Verif Require Import Base F32 Column DataStore Num Forest Config Score Eval EvalSpec Split SplitSpec Split_proofs Tree TreeSpec
  Train TrainSpec Loss LossSpec UnitsSpec Units_proofs Prop_Score Prop_Split Prop_Tree Prop_Train Prop_Threads Prop_Merge.
Local Close Scope R_scope.

(** ** C81 - units of weights and targets *)
(** In exact arithmetic: with all weights multiplied by a > 0 and all gradients by s > 0, with the L2 penalty and the smallest hessian multiplied by a, and with
    a smallest gain that is a s s as large (where the built-in 1/1000000 is no limit), the same tree grows, with scores s times and gains a s s times as large. *)
Theorem C81_tree (a s : R) w w' (gd : list (grad Exact)) (c : config Exact) mg srt (top : nat -> list Exact -> nat) draw threads features pos : (0 < a)%R -> (0 < s)%R -> times a w w' ->
  Rmax mg (1 / 1000000) = (a * s * s * Rmax (cf_min_gain c) (1 / 1000000))%R ->
  (forall step l, top step (map (Rmult (a * s * s)) l) = top step l) ->
  fit_tree top draw threads srt w' (grads_times s gd) features (config_times a mg c) pos =
  res_map (fun r => (tree_times (a * s * s) s (fst r), snd r)) (fit_tree top draw threads srt w gd features c pos).
Proof. intros A S W Mg Top. exact (fit_times a s A S w w' gd c mg srt W Mg top draw threads features Top pos). Qed.
Print Assumptions C81_tree.

(** Whatever the pointwise loss: training with all weights and these limits multiplied by a > 0 ends the same way, with the same function values and the same
    forest except that all gains are multiplied by a. *)
Theorem C81_weights a v threads (top : nat -> nat -> list Exact -> nat) draw pos srt names w w' y binary (lossf : Exact -> Exact -> point Exact)
    (c : config Exact) mg (base : option (forest Exact)) : (0 < a)%R -> times a w w' ->
  Rmax mg (1 / 1000000) = (a * Rmax (cf_min_gain c) (1 / 1000000))%R -> (forall i step l, top i step (map (Rmult a) l) = top i step l) ->
  train v threads top draw pos srt names w' y (pointwise_loss threads binary lossf) (config_times a mg c) (option_map (map (tree_times a 1)) base) =
  res_map (trained_times a) (train v threads top draw pos srt names w y (pointwise_loss threads binary lossf) c base).
Proof. exact (train_times a v threads top draw pos srt names w w' y binary lossf c mg base). Qed.
Print Assumptions C81_weights.
(** The queue that takes the first node of largest gain does not care about units. *)
Theorem C81_queue k step (l : list Exact) : (0 < k)%R -> first_top (N := Exact) step (map (Rmult k) l) = first_top step l.
Proof. exact (first_top_times k step l). Qed.
Print Assumptions C81_queue.

(** Squared error: adding b to all targets adds b to the constant and to all function values and changes nothing else, if the weighted mean of the targets is 0
    or larger than 1/10000 in size, before and after. *)
Theorem C81_targets v t top draw pos srt names w y y' (wv yv : nat -> Exact) (b : R) (c : config Exact) r :
  training v t top srt names w (mse_loss t) -> row_values w (v_rows v) wv -> row_values y (v_rows v) yv ->
  row_values y' (v_rows v) (fun i => (yv i + b)%R : Exact) -> rsum (v_rows v) wv <> 0%R ->
  (let m := (rsum (v_rows v) (fun i => wv i * yv i) / rsum (v_rows v) wv)%R in
   (m = 0 \/ 1 / 10000 < Rabs m)%R /\ (m + b = 0 \/ 1 / 10000 < Rabs (m + b))%R) ->
  train v t top draw pos srt names w y (mse_loss t) c None = Ret r ->
  exists r', train v t top draw pos srt names w y' (mse_loss t) c None = Ret r' /\
    tr_status r' = tr_status r /\ tr_forest r' = constant_plus b (tr_forest r) /\ tr_f r' = map (fun x : Exact => (x + b)%R : Exact) (tr_f r).
Proof. exact (train_shift v t top draw pos srt names w y y' wv yv b c r). Qed.
Print Assumptions C81_targets.

(** Six rows; then with weights twice as large, and with targets raised by 10. *)
Definition ex_units (xs ws ys : list f32) (c : config Ex) : res (trained Ex) :=
  train (mkView (fun n => if str_eqb n (lit "x") then Some (mkCol (lit "x") (BodyB (ex_bcol xs))) else None) (List.length xs) (fun l => l))
    1 (fun _ => first_top) (fun _ => half) 0 insertion_sort [lit "x"] (ex_targets ws) (ex_targets ys) (mse_loss 1) c None.
Definition ex_units_cfg (min_gain lambda min_hessian : Z) : config Ex :=
  mkConfig 1 2 f32_one (dbl min_gain) (dbl lambda) (dbl min_hessian) f32_one f32_one 0 [lit "x"] [] [] [] false [] [] f32_zero false f32_zero false.
Definition ex_run (ws ys : list Z) (c : config Ex) : res (trained Ex) := ex_units (map fl [1; 2; 3; 4; 5; 6]%Z) (map fl ws) (map fl ys) c.
Definition ex_shape (r : res (trained Ex)) : option (list (list (list bool * f64 * option (str * f64))) * list f64) :=
  match r with Ret r => Some (map (fun t => show_tree t []) (tr_forest r), tr_f r) | _ => None end.
Example C81_example :
  ex_shape (ex_run [1; 1; 1; 1; 1; 1]%Z [0; 0; 0; 0; 6; 6]%Z (ex_units_cfg 1 0 1)) =
    Some ([[([], dbl 2, None)]; [([], dbl 0, Some (lit "x", dbl 48)); ([true], dbl (-2), None); ([false], dbl 4, None)]], map dbl [0; 0; 0; 0; 6; 6]%Z) /\
  ex_shape (ex_run [2; 2; 2; 2; 2; 2]%Z [0; 0; 0; 0; 6; 6]%Z (ex_units_cfg 2 0 2)) =
    Some ([[([], dbl 2, None)]; [([], dbl 0, Some (lit "x", dbl 96)); ([true], dbl (-2), None); ([false], dbl 4, None)]], map dbl [0; 0; 0; 0; 6; 6]%Z) /\
  ex_shape (ex_run [1; 1; 1; 1; 1; 1]%Z [10; 10; 10; 10; 16; 16]%Z (ex_units_cfg 1 0 1)) =
    Some ([[([], dbl 12, None)]; [([], dbl 0, Some (lit "x", dbl 48)); ([true], dbl (-2), None); ([false], dbl 4, None)]], map dbl [10; 10; 10; 10; 16; 16]%Z).
Proof. vm_compute. repeat split; reflexivity. Qed.

(** The limits must be multiplied too: with weights twice as large and the same smallest hessian another split is found. *)
Theorem C81_limits_refuted : exists ws ws' c r r', ws' = map (Z.mul 2) ws /\
  ex_values (ex_run ws [0; 0; 0; 0; 0; 6]%Z c) = Some (SOk, r) /\ ex_values (ex_run ws' [0; 0; 0; 0; 0; 6]%Z c) = Some (SOk, r') /\ r' <> r.
Proof.
  exists [1; 1; 1; 1; 1; 1]%Z, [2; 2; 2; 2; 2; 2]%Z, (ex_units_cfg 0 0 1). do 2 eexists. split; [reflexivity|]. split; [vm_compute; reflexivity|].
  split; [vm_compute; reflexivity|]. discriminate.
Qed.
Print Assumptions C81_limits_refuted.
(** A mean that is not 0 but at most 1/10000 in size is not taken out of the gradients: two rows with target 2^-14, one leaf.  The function values become twice
    the target; after raising the targets by 1 they are the targets. *)
Definition ex_small : f32 := binary_normalize 24 128 1 (-14) false.
Definition ex_one_small : f32 := binary_normalize 24 128 16385 (-14) false.
Theorem C81_small_mean_refuted : exists r r',
  ex_values (ex_units [fl 1; fl 2] [fl 1; fl 1] [ex_small; ex_small] (ex_units_cfg 0 0 0)) = Some (SOk, r) /\
  ex_values (ex_units [fl 1; fl 2] [fl 1; fl 1] [ex_one_small; ex_one_small] (ex_units_cfg 0 0 0)) = Some (SOk, r') /\
  r = repeat (SFmul 53 1024 (dbl 2) (to_f64 ex_small)) 2 /\ r' = repeat (to_f64 ex_one_small) 2.
Proof. do 2 eexists. split; [vm_compute; reflexivity|]. split; [vm_compute; reflexivity|]. split; vm_compute; reflexivity. Qed.
Print Assumptions C81_small_mean_refuted.
(** So targets cannot be given in other units either: six rows, and the same with targets divided by 2^16. *)
Definition ex_small_three : f32 := binary_normalize 24 128 3 (-16) false.
Theorem C81_scale_refuted : exists r r',
  ex_values (ex_units (map fl [1; 2; 3; 4; 5; 6]%Z) (map fl [1; 1; 1; 1; 1; 1]%Z) (map fl [3; 3; 3; 3; 0; 0]%Z) (ex_units_cfg 0 0 0)) = Some (SOk, r) /\
  ex_values (ex_units (map fl [1; 2; 3; 4; 5; 6]%Z) (map fl [1; 1; 1; 1; 1; 1]%Z) [ex_small_three; ex_small_three; ex_small_three; ex_small_three; fl 0; fl 0] (ex_units_cfg 0 0 0)) = Some (SOk, r') /\
  nth_error r 5 = Some (dbl 0) /\ exists x, nth_error r' 5 = Some x /\ fltb (dbl 0) x = true.
Proof.
  do 2 eexists. split; [vm_compute; reflexivity|]. split; [vm_compute; reflexivity|]. split; [vm_compute; reflexivity|].
  eexists. split; vm_compute; reflexivity.
Qed.
Print Assumptions C81_scale_refuted.
