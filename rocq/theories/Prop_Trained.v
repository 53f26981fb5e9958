(** Prop_Trained.v - a trained forest can be saved and loaded (property C95). *)
From Coq Require Import SpecFloat Reals.
From Verif Require Import Base F32 Column DataStore Num Forest Config Score ScoreSpec Eval EvalSpec SplitSpec Tree Train Loss Pairwise AccuracySpec Draw Saved SavedSpec TrainedSpec
  Trained_proofs Prop_Score Prop_Train Prop_Saved.
Local Close Scope R_scope.

(** Whatever the loss, the scores and thresholds of a trained forest are floats, its gains and the function values are doubles, and no tree is missing. *)
Theorem C95_numbers {c_exp c_log : f64 -> f64} v threads top draw pos srt names w y (lf : loss (IEEE c_exp c_log)) c base r srt' threads' to_uint pick :
  gives_doubles c_exp -> gives_doubles c_log -> create_loss srt' threads' to_uint pick c = Some lf -> any_double (cf_l2_lambda c) ->
  (forall b, base = Some b -> Forall typed_tree b) -> train v threads top draw pos srt names w y lf c base = Ret r ->
  Forall typed_tree (tr_forest r) /\ ~ In TNone (tr_forest r) /\ Forall any_double (tr_f r).
Proof. exact (fun De Dl Hl Lc Hb E => trained_typed De Dl v threads top draw pos srt names w y lf c base r srt' threads' to_uint pick Hl Lc Hb E). Qed.
Print Assumptions C95_numbers.

(** So it is loaded as it was, but for the signs of zeros, unless one of its floats is one of the two largest. *)
Theorem C95_loaded {c_exp c_log : f64 -> f64} v threads top draw pos srt names w y (lf : loss (IEEE c_exp c_log)) c base r srt' threads' to_uint pick reread regain meta :
  gives_doubles c_exp -> gives_doubles c_log -> create_loss srt' threads' to_uint pick c = Some lf -> any_double (cf_l2_lambda c) ->
  (forall b, base = Some b -> Forall typed_tree b) -> train v threads top draw pos srt names w y lf c base = Ret r -> tr_status r = SOk ->
  float_writer reread -> double_writer regain -> Forall moderate (tr_forest r) ->
  exists f', forest_of (forest_json reread regain (tr_forest r) meta) = Some (f', meta) /\ Forall2 like (tr_forest r) f' /\ Forall no_minus_zero f'.
Proof. exact (trained_loaded v threads top draw pos srt names w y lf c base r srt' threads' to_uint pick reread regain meta). Qed.
Print Assumptions C95_loaded.
(** and does the same in every store: the same scores, or the same failure. *)
Theorem C95_predictions {c_exp c_log : f64 -> f64} v threads top draw pos srt names w y (lf : loss (IEEE c_exp c_log)) c base r srt' threads' to_uint pick reread regain meta :
  gives_doubles c_exp -> gives_doubles c_log -> create_loss srt' threads' to_uint pick c = Some lf -> any_double (cf_l2_lambda c) ->
  (forall b, base = Some b -> Forall typed_tree b) -> train v threads top draw pos srt names w y lf c base = Ret r -> tr_status r = SOk ->
  float_writer reread -> double_writer regain -> Forall moderate (tr_forest r) ->
  exists f', forest_of (c_exp := c_exp) (c_log := c_log) (forest_json reread regain (tr_forest r) meta) = Some (f', meta) /\
    forall v' n, evaluate_forest v' n f' = evaluate_forest v' n (tr_forest r).
Proof. exact (trained_predicts v threads top draw pos srt names w y lf c base r srt' threads' to_uint pick reread regain meta). Qed.
Print Assumptions C95_predictions.

(** Training on the store of C37, with the decimal texts of the library *)
Definition ex_reload (y : float_vector) := match ex_train (mse_loss 2) y (ex_train_cfg 2 3) None with
  | Ret r => Some (tr_status r, map ex_nodes (tr_forest r), option_map (fun f => map ex_nodes (fst f)) (forest_of (c_exp := fun x => x) (c_log := fun x => x) (forest_json (float_text 9) double_text (tr_forest r) [])))
  | _ => None
  end.
Example C95_example : match ex_reload ex_y with Some (SOk, f, Some f') => f' = f /\ map (@List.length _) f' = [1; 5; 5] | _ => False end.
Proof. vm_compute. split; reflexivity. Qed.
(** A trained forest that cannot be loaded: all targets are the largest float. *)
Theorem C95_largest_refuted : exists y f, ex_reload y = Some (SOk, f, None).
Proof. exists (ex_targets (repeat flt_max 5)). eexists. vm_compute. reflexivity. Qed.
Print Assumptions C95_largest_refuted.
