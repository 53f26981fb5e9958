(** Prop_Config.v - properties C50, C52 and C53.  Statements only.  Model: Config.v; vocabulary: ConfigSpec.v. *)
From Coq Require Import SpecFloat Reals.
From Verif Require Import Base F32 Subsampling Num Forest Config ConfigSpec Config_proofs Prop_Score.
Local Close Scope R_scope.

(** ** C50 - the configuration check *)
Theorem C50_check (N : Num) (c : config N) : check_config c = SOk <->
  (0 < cf_num_trees c)%Z /\ (0 < cf_num_leaves c)%Z /\
  fleb (cf_example_rate c) f32_zero = false /\ fltb f32_one (cf_example_rate c) = false /\
  fleb (cf_feature_rate c) f32_zero = false /\ fltb f32_one (cf_feature_rate c) = false.
Proof. exact (check_config_iff c). Qed.
Print Assumptions C50_check.

(** For a number the two comparisons say 0 < rate <= 1; *)
Theorem C50_range r : is_nan r = false ->
  (fleb r f32_zero = false /\ fltb f32_one r = false <-> fltb f32_zero r = true /\ fleb r f32_one = true).
Proof. exact (rate_range r). Qed.
Print Assumptions C50_range.

(** NaN passes them too, and then no row and no feature is sampled. *)
Theorem C50_nan_refuted : exists c : config Ex, check_config c = SOk /\ is_nan (cf_example_rate c) = true /\
  forall draw pos n, fst (uniform_subsample draw pos n (to_f64 (cf_example_rate c))) = [].
Proof.
  exists (mkConfig 1 1 f32_one n0 n0 n0 fnan f32_one 0 [] [] [] [] false [] [] f32_zero false f32_zero false).
  split; [reflexivity|]. split; [reflexivity|]. exact nan_rate_empty.
Qed.
Print Assumptions C50_nan_refuted.

Definition ex_config (trees leaves : Z) (rate : f32) (interval : Z) : config Ex :=
  mkConfig trees leaves f32_one n0 n0 n0 rate f32_one interval [lit "x"] [lit "s"] [] (lit "y") false [] (lit "mse")
    f32_zero false f32_zero false.
Example C50_example :
  check_config (ex_config 10 5 (binary_normalize 24 128 1 (-1) false) 0) = SOk /\
  check_config (ex_config 10 0 f32_one 0) = SErr INVALID_ARGUMENT /\
  check_config (ex_config 10 1 f32_zero 0) = SErr INVALID_ARGUMENT /\
  check_config (ex_config 10 1 (fl 2) 0) = SErr INVALID_ARGUMENT.
Proof. vm_compute. auto. Qed.

(** ** C52 - feature importance *)
Theorem C52_importance (N : Num) (f : forest N) out : feature_importance f out ->
  NoDup (map fst out) /\
  exists top,
    (out <> [] -> exists n, In n (map fst (forest_gains f)) /\ top = total_gain f n /\ hd_error (map fst out) = Some n) /\
    (forall n q, In (n, q) out <-> In n (map fst (forest_gains f)) /\ q = ndiv (total_gain f n) top) /\
    (forall i j a b, i < j -> nth_error out i = Some a -> nth_error out j = Some b ->
       nltb (total_gain f (fst a)) (total_gain f (fst b)) = false).
Proof. exact (importance_ok f out). Qed.
Print Assumptions C52_importance.

(** Exact arithmetic, positive gains *)
Theorem C52_normalised (f : forest Exact) out : feature_importance f out ->
  (forall p, In p (forest_gains f) -> (0 < snd p)%R) ->
  (forall n q, In (n, q) out -> (0 < q <= 1)%R) /\
  (forall n q, nth_error out 0 = Some (n, q) -> q = 1%R) /\
  (forall i j a b, i < j -> nth_error out i = Some a -> nth_error out j = Some b -> (snd b <= snd a)%R).
Proof. exact (importance_exact f out). Qed.
Print Assumptions C52_normalised.

Definition gain_node (n : string) (g : Z) (l r : tree Ex) : tree Ex := TNode n0 (Some (mkSplit (lit n) None None (dbl g))) l r.
Definition ex_leaf : tree Ex := TNode (dbl 1) (Some (mkSplit (lit "unused") None None (dbl 99))) TNone TNone.
Definition ex_gain_forest : forest Ex :=
  [ex_leaf; gain_node "a" 2 (gain_node "b" 3 ex_leaf ex_leaf) (gain_node "a" 4 ex_leaf ex_leaf); gain_node "b" 1 ex_leaf ex_leaf].
Example C52_example :
  importance_map ex_gain_forest = [(lit "a", dbl 6); (lit "b", dbl 4)] /\
  feature_importance ex_gain_forest [(lit "a", dbl 1); (lit "b", ndiv (dbl 4) (dbl 6))].
Proof.
  split; [vm_compute; reflexivity|]. exists [(lit "a", dbl 6); (lit "b", dbl 4)]. split; [|vm_compute; reflexivity].
  split; [replace (importance_map ex_gain_forest) with [(lit "a", dbl 6); (lit "b", dbl 4)] by (vm_compute; reflexivity); reflexivity|].
  intros [|[|i]] [|[|j]] a b L Ea Eb; try (cbn in *; lia); try (destruct i; discriminate); try (destruct j; discriminate).
  injection Ea as <-. injection Eb as <-. vm_compute. reflexivity.
Qed.

(** ** C53 - evaluation points *)
Theorem C53_test_points (N : Num) (c : config N) size : (0 < cf_eval_interval c)%Z ->
  let l := test_points c size in
  (forall p, In p l <-> (0 < p <= size)%Z /\ ((size - p) mod cf_eval_interval c = 0)%Z) /\
  StronglySorted Z.lt l /\
  (forall i a b, nth_error l i = Some a -> nth_error l (S i) = Some b -> (b - a = cf_eval_interval c)%Z) /\
  ((0 < size)%Z -> exists rest, l = rest ++ [size]) /\
  (forall a, nth_error l 0 = Some a -> (a <= cf_eval_interval c)%Z).
Proof. exact (test_points_spec c size). Qed.
Print Assumptions C53_test_points.

Theorem C53_no_interval (N : Num) (c : config N) size : (cf_eval_interval c <= 0)%Z -> test_points c size = [size].
Proof. exact (test_points_default c size). Qed.
Print Assumptions C53_no_interval.

Example C53_example : test_points (ex_config 1 1 f32_one 3) 10 = [1; 4; 7; 10]%Z /\
  test_points (ex_config 1 1 f32_one 4) 8 = [4; 8]%Z /\ test_points (ex_config 1 1 f32_one 0) 8 = [8]%Z.
Proof. vm_compute. auto. Qed.
