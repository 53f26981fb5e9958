(** Prop_Names.v - property C89.  Statements only.  Model: Train.v, Eval.v, Config.v, Pairwise.v; vocabulary: NamesSpec.v. *)
From Coq Require Import SpecFloat.
From Verif Require Import Base F32 Column ColumnSpec DataStore Num Forest Config Score Eval Split SplitSpec Tree TreeSpec Tree_proofs Train Loss Pairwise
  NamesSpec Base_proofs Names_proofs Split_proofs Prop_Score Prop_Eval Prop_Split Prop_Tree Prop_Train Prop_Pair Prop_Threads.

(** ** C89 - names do not matter *)
(** Training on the data with new names and strings gives the forest with the new names and strings, the same scores and gains, the same function values and
    the same status.  For every loss and in any arithmetic. *)
Theorem C89_training {N : Num} rho sigma v v' threads top draw pos srt to_uint pick w y (c : config N) base lf :
  renaming rho sigma -> renamed_view rho sigma v v' -> create_loss srt threads to_uint pick c = Some lf ->
  create_loss srt threads to_uint pick (ren_config rho c) = Some lf /\
  train v' threads top draw pos srt (config_features (ren_config rho c)) w y lf (ren_config rho c) (option_map (ren_forest rho sigma) base) =
  ren_result rho sigma (train v threads top draw pos srt (config_features c) w y lf c base).
Proof.
  exact (fun Ren Vw E => conj (eq_trans (create_renamed rho srt threads to_uint pick c) E)
    (eq_trans (f_equal (fun names => train v' threads top draw pos srt names w y lf _ _) (features_renamed rho sigma Ren c))
      (train_renamed rho sigma Ren v v' Vw threads top draw pos srt (config_features c) w y lf c base (created_free sigma srt threads to_uint pick c lf E)))).
Qed.
Print Assumptions C89_training.

(** The weights and the targets come out the same. *)
Theorem C89_inputs {N : Num} rho sigma v v' (c : config N) : renaming rho sigma -> renamed_view rho sigma v v' ->
  sample_weights (ren_config rho c) (v_get v') = sample_weights c (v_get v) /\ targets (ren_config rho c) (v_get v') = targets c (v_get v).
Proof. exact (fun Ren Vw => conj (weights_renamed rho sigma Ren v v' Vw c) (targets_renamed rho sigma Ren v v' Vw c)). Qed.
Print Assumptions C89_inputs.

(** The renamed forest gives the renamed data the same scores, at every checkpoint. *)
Theorem C89_prediction {N : Num} rho sigma v v' threads (f : forest N) : renaming rho sigma -> renamed_view rho sigma v v' ->
  evaluate_forest v' threads (ren_forest rho sigma f) = evaluate_forest v threads f /\
  forall can_write points, evaluate_checkpoints v' threads can_write (ren_forest rho sigma f) points = evaluate_checkpoints v threads can_write f points.
Proof. exact (fun Ren Vw => conj (evaluate_renamed rho sigma Ren v v' Vw threads f) (fun cw pts => checkpoints_renamed rho sigma Ren v v' Vw threads cw f pts)). Qed.
Print Assumptions C89_prediction.

(** The importance of a feature goes with it. *)
Theorem C89_importance {N : Num} rho sigma (f : forest N) out : renaming rho sigma -> feature_importance f out ->
  feature_importance (ren_forest rho sigma f) (map (fun e => (rho (fst e), snd e)) out).
Proof. exact (fun Ren => importance_renamed rho sigma Ren f out). Qed.
Print Assumptions C89_importance.

(** Five rows with the features x, its copy z, and s in two groups, and the same with other names and strings. *)
Definition ex_rho (n : str) : str := match n with [] => [] | _ => lit "my " ++ n end.
Definition ex_sigma (n s : str) : str := if str_eqb s missing_str then s else lit "<" ++ n ++ lit ">" ++ s.
Definition ex_named_view (order : list str -> list str) (rho : str -> str) (sigma : str -> str -> str) : view :=
  mkView (fun n => if str_eqb n (rho (lit "x")) then Some (mkCol (rho (lit "x")) (BodyB (ex_bcol (map fl [1; 2; 3; 4; 5]%Z))))
                   else if str_eqb n (rho (lit "z")) then Some (mkCol (rho (lit "z")) (BodyB (ex_bcol (map fl [1; 2; 3; 4; 5]%Z))))
                   else if str_eqb n (rho (lit "s")) then Some (mkCol (rho (lit "s")) (BodyS (string_column_of (map (map (sigma (lit "s"))) [map lit ["a"; "b"; "a"; "b"; "__missing__"]%string]))))
                   else if str_eqb n (rho (lit "q")) then Some (mkCol (rho (lit "q")) (BodyS (string_column_of (map (map (sigma (lit "q"))) [map lit ["g"; "h"; "g"; "h"; "g"]%string]))))
                   else None) 5 order.
Definition ex_auc_cfg (numbers : list str) : config Ex :=
  mkConfig 2 3 f32_one (dbl 0) (dbl 0) (dbl 0) f32_one f32_one 0 numbers [lit "s"] [] [] false (lit "q") (lit "auc") (fl 4) false f32_zero false.
Definition ex_named_train (v : view) (c : config Ex) : res (trained Ex) :=
  match create_loss (N := Ex) insertion_sort 2 double_to_uint ex_pick c with
  | Some lf => train v 2 (fun _ => first_top) (fun _ => half) 0 insertion_sort (config_features c) ones (ex_targets (map fl [0; 1; 2; 3; 1]%Z)) lf c None
  | None => Fatal
  end.
Fixpoint show_names (t : tree Ex) : list (str * list str) :=
  match t with
  | TNone => []
  | TNode _ sp l r => match sp with Some sp => [(sp_feature sp, match sp_cat sp with Some (names, _) => names | None => [] end)] | None => [] end ++ show_names l ++ show_names r
  end.
Definition ex_names (r : res (trained Ex)) : list (list (str * list str)) := match r with Ret r => map show_names (tr_forest r) | _ => [] end.
Definition same {A} (x : A) : A := x.
Example C89_example :
  ex_names (ex_named_train (ex_named_view same same (fun _ => same)) (ex_auc_cfg [lit "x"])) =
    [[]; [(lit "x", []); (lit "s", [lit "a"])]; [(lit "x", []); (lit "s", [lit "__missing__"])]] /\
  ex_names (ex_named_train (ex_named_view same ex_rho ex_sigma) (ren_config ex_rho (ex_auc_cfg [lit "x"]))) =
    [[]; [(lit "my x", []); (lit "my s", [lit "<s>a"])]; [(lit "my x", []); (lit "my s", [lit "__missing__"])]] /\
  ex_values (ex_named_train (ex_named_view same ex_rho ex_sigma) (ren_config ex_rho (ex_auc_cfg [lit "x"]))) =
  ex_values (ex_named_train (ex_named_view same same (fun _ => same)) (ex_auc_cfg [lit "x"])).
Proof. vm_compute. repeat split; reflexivity. Qed.
Example C89_renaming : renaming ex_rho ex_sigma /\ renamed_view ex_rho ex_sigma (ex_named_view same same (fun _ => same)) (ex_named_view same ex_rho ex_sigma).
Proof.
  assert (Rn : renaming ex_rho ex_sigma).
  { split; [|split; [reflexivity|]].
    - intros [|a a0] [|b b0] E; [reflexivity|discriminate..|]. injection E as E1 E2. congruence.
    - intros n. split; [|reflexivity]. intros a b. unfold ex_sigma. destruct (str_eqb_spec a missing_str) as [->|Na], (str_eqb_spec b missing_str) as [->|Nb]; [reflexivity|discriminate..|].
      intros E. injection E as E. apply app_inv_head in E. injection E as E. exact E. }
  split; [exact Rn|]. split; [reflexivity|]. split; [reflexivity|]. intros n. unfold ex_named_view. cbn [v_get].
  change (same (lit "x")) with (lit "x"). change (same (lit "z")) with (lit "z"). change (same (lit "s")) with (lit "s"). change (same (lit "q")) with (lit "q").
  assert (I : forall m, str_eqb (ex_rho n) (ex_rho m) = str_eqb n m) by (intros m; apply str_eqb_inj, Rn). rewrite !I.
  destruct (str_eqb_spec n (lit "x")) as [->|_]; [apply RenNumbers; discriminate|]. destruct (str_eqb_spec n (lit "z")) as [->|_]; [apply RenNumbers; discriminate|].
  destruct (str_eqb_spec n (lit "s")) as [->|_]; [apply RenStrings|]. destruct (str_eqb_spec n (lit "q")) as [->|_]; [apply RenStrings|]. constructor.
Qed.

(** The names do matter when they change the order in which the set of features is walked through: of two features that split equally well the first wins. *)
Theorem C89_order_refuted : exists order order' : list str -> list str, (forall l, Permutation l (order l)) /\ (forall l, Permutation l (order' l)) /\
  ex_names (ex_named_train (ex_named_view order same (fun _ => same)) (ex_auc_cfg [lit "x"; lit "z"])) =
    [[]; [(lit "z", []); (lit "s", [lit "a"])]; [(lit "z", []); (lit "s", [lit "__missing__"])]] /\
  ex_names (ex_named_train (ex_named_view order' same (fun _ => same)) (ex_auc_cfg [lit "x"; lit "z"])) =
    [[]; [(lit "x", []); (lit "x", [])]; [(lit "x", []); (lit "x", [])]].
Proof. exists same, (@rev str). split; [intros l; apply Permutation_refl|]. split; [apply Permutation_rev|]. vm_compute. split; reflexivity. Qed.
Print Assumptions C89_order_refuted.

(** And when a group gets the string of missing values: the training then reads past the groups. *)
Theorem C89_missing_refuted : exists sigma, (forall n a b, sigma n a = sigma n b -> a = b) /\
  ex_names (ex_named_train (ex_named_view same same (fun _ => same)) (ex_auc_cfg [lit "x"])) <> [] /\
  (let! _ := ex_named_train (ex_named_view same same sigma) (ex_auc_cfg [lit "x"]) in Ret tt) = Undef.
Proof.
  exists (fun n s => if str_eqb s (lit "g") then missing_str else if str_eqb s missing_str then lit "g" else s). split.
  - intros n a b. destruct (str_eqb_spec a (lit "g")), (str_eqb_spec b (lit "g")), (str_eqb_spec a missing_str), (str_eqb_spec b missing_str); congruence.
  - split; vm_compute; [discriminate|reflexivity].
Qed.
Print Assumptions C89_missing_refuted.
