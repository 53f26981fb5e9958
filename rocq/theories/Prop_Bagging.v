(** Prop_Bagging.v - property C80.  Statements only.  Model: Bagging.v, Driver.v, Train.v, Flatfiles.v; vocabulary: BaggingSpec.v, FlatSpec.v, LossSpec.v,
    TrainSpec.v. *)
From Coq Require Import SpecFloat Reals.
From Verif Require Import Base F32 Column ColumnSpec DataStore Strings StringsSpec Tsv Flatfiles FlatSpec Num Forest Config Score ScoreSpec Eval EvalSpec Tree
  Train TrainSpec Loss LossSpec Pairwise Driver Bagging BaggingSpec Bagging_proofs Prop_Score Prop_Train Prop_Threads Prop_Merge.
Local Close Scope R_scope.

(** ** C80 - bagging *)
(** Every row belongs to exactly one part, and is left out of exactly the bag of that number. *)
Theorem C80_partition hash bags i : 1 <= bags ->
  exists k, part_of hash bags i k /\ (forall k', part_of hash bags i k' -> k' = k) /\ (forall k', k' < bags -> (in_bag hash bags i k' = false <-> k' = k)).
Proof.
  exact (fun B => match part_exists hash bags i B with
    | ex_intro _ k P => ex_intro _ k (conj P (conj (fun k' => part_unique hash bags i k k' P) (fun k' L =>
        conj (fun E => part_unique hash bags i k k' P (proj1 (out_iff hash bags i k' L) E))
             (fun E => proj2 (out_iff hash bags i k' L) (eq_ind_r (part_of hash bags i) P E)))))
    end).
Qed.
Print Assumptions C80_partition.

(** The file of weights is loaded as a column of floats with the value of "0" for the rows of part [k] and the value of "1" for the others. *)
Theorem C80_weights hash bags rows k fs strtof dirs name one none : found_in fs dirs name (weight_text hash bags rows k) ->
  strtof (lit "1") = (one, 1) -> strtof (lit "0") = (none, 1) ->
  exists c, load_flat fs strtof dirs name = Ret (Some (mkCol name (BodyR c))) /\ r_status c = SOk /\ r_size c = rows /\
    forall i, i < rows -> (part_of hash bags i k -> r_get c i = Ret none) /\ (~ part_of hash bags i k -> k < bags -> r_get c i = Ret one).
Proof. exact (weights_load hash bags rows k fs strtof dirs name one none). Qed.
Print Assumptions C80_weights.

(** The number of weights is the number of rows if no row is blank. *)
Theorem C80_rows header rows : starts_with_hash header -> ~ In nl header ->
  (forall r, In r rows -> ~ In nl r /\ ~ starts_with_hash r /\ ~ white r) -> count_rows (text (header :: rows) []) = List.length rows.
Proof. exact (rows_counted header rows). Qed.
Print Assumptions C80_rows.

(** It is not if a row is: the loader keeps blank rows, the script does not count them. *)
Theorem C80_blank_rows_refuted : exists content fs c, found_in fs [lit "d"] (lit "s") content /\
  load_flat fs (fun _ => (fnan, 0)) [lit "d"] (lit "s") = Ret (Some c) /\ col_size c = Ret 3 /\ count_rows content = 2.
Proof.
  exists (text [lit "# dtype=strings"; lit "a"; []; lit "b"] []),
    (fun f => if str_eqb f (lit "d/s") then Some (text [lit "# dtype=strings"; lit "a"; []; lit "b"] []) else None). eexists.
  split; [exists [], (lit "d"), []; repeat split; intros b []|]. split; [vm_compute; reflexivity|]. split; vm_compute; reflexivity.
Qed.
Print Assumptions C80_blank_rows_refuted.

(** The out of bag score of a row is the score of the one bag that leaves it out; *)
Theorem C80_out_of_bag hash bags (scores : list (list Exact)) i k l x : part_of hash bags i k -> nth_error scores k = Some l -> nth_error l i = Some x ->
  out_of_bag_score hash bags scores i = inr x.
Proof. exact (out_exact hash bags scores i k l x). Qed.
Print Assumptions C80_out_of_bag.

(** with rounding, it is 0 plus that score, divided by 1. *)
Theorem C80_out_of_bag_rounded (N : Num) hash bags (scores : list (list N)) i k l x : part_of hash bags i k -> nth_error scores k = Some l ->
  nth_error l i = Some x -> out_of_bag_score hash bags scores i = inr (ndiv (nadd n0 x) (nZ 1)).
Proof. exact (out_score hash bags scores i k l x). Qed.
Print Assumptions C80_out_of_bag_rounded.

(** The in bag score is the average of the scores of the other bags; *)
Theorem C80_in_bag hash bags (scores : list (list Exact)) i (s : nat -> Exact) k : 2 <= bags -> part_of hash bags i k ->
  (forall k, k < bags -> exists l, nth_error scores k = Some l /\ nth_error l i = Some (s k)) ->
  in_bag_score hash bags scores i = inr ((rsum bags s - s k) / (INR bags - 1))%R.
Proof. exact (in_average hash bags scores i s k). Qed.
Print Assumptions C80_in_bag.

(** with one bag there is none, and the script divides by zero. *)
Theorem C80_one_bag_refuted (N : Num) hash (scores : list (list N)) i : in_bag_score hash 1 scores i = inl ZeroDivisionError.
Proof. exact (in_one hash 1 scores i eq_refl). Qed.
Print Assumptions C80_one_bag_refuted.

(** In exact arithmetic, with a pointwise loss and when all rows and features are sampled: the out of bag score of row [i] does not depend on the target of
    row [i] ([score] computes the scores of a forest, by whatever means). *)
Theorem C80_honest hash bags i v t top draw pos srt names (w : nat -> float_vector) y y' (yv yv' : nat -> Exact) binary
    (lossf : Exact -> Exact -> point Exact) c base (score : forest Exact -> list Exact) (r r' : nat -> trained Exact) : 1 <= bags ->
  (forall k, k < bags -> training v t top srt names (w k) (pointwise_loss t binary lossf)) ->
  (forall k, k < bags -> row_values (w k) (v_rows v) (fun a : nat => (if in_bag hash bags a k then 1 else 0)%R : Exact)) ->
  row_values y (v_rows v) yv -> row_values y' (v_rows v) yv' ->
  (forall a, a < v_rows v -> a <> i -> yv' a = yv a) -> (binary = true -> (yv i = 1%R \/ yv i = (-1)%R) /\ (yv' i = 1%R \/ yv' i = (-1)%R)) ->
  (forall k p, fltb (draw k p) (to_f64 (cf_example_rate c)) = true) -> (forall k p, fltb (draw k p) (to_f64 (cf_feature_rate c)) = true) ->
  (forall b, base = Some b -> forest_fits v b) ->
  (forall k, k < bags -> train v t top (draw k) pos srt names (w k) y (pointwise_loss t binary lossf) c base = Ret (r k)) ->
  (forall k, k < bags -> train v t top (draw k) pos srt names (w k) y' (pointwise_loss t binary lossf) c base = Ret (r' k)) ->
  out_of_bag_score hash bags (map (fun k => score (tr_forest (r k))) (seq 0 bags)) i =
  out_of_bag_score hash bags (map (fun k => score (tr_forest (r' k))) (seq 0 bags)) i.
Proof. exact (out_honest hash bags i v t top draw pos srt names w y y' yv yv' binary lossf c base score r r'). Qed.
Print Assumptions C80_honest.

(** But as it is the script trains no bag: the field it sets belongs to an older version of the configuration.  Either it fails with an exception, or the
    configuration it writes has an unknown field, for which the program dies before it reads any data. *)
Theorem C80_config_refuted (N : Num) fs can_open (parse_config : str -> option (config N)) parse_forest print_forest show flat tsv srt top draw to_uint pick
    importance (print : json -> str) fg config j : bag_config config = inr j -> rejects_unknown config_fields (fun j => parse_config (print j)) ->
  fg_mode fg = lit "train" -> fs (fg_config_file fg) = Some (print j) ->
  main fs can_open parse_config parse_forest print_forest show flat tsv srt top draw to_uint pick importance fg = ([], Dies).
Proof. exact (bag_dies fs can_open parse_config parse_forest print_forest show flat tsv srt top draw to_uint pick importance print fg config j). Qed.
Print Assumptions C80_config_refuted.

(** Six rows in three parts. *)
Definition ex_hash (i : nat) : Z := (7 - 2 * Z.of_nat i)%Z.
Definition ex_bag (ys : list Z) (k : nat) : list f64 :=
  match ex_values (ex_counting 1 [1; 1; 2; 2; 3; 3]%Z (map (fun i => if in_bag ex_hash 3 i k then 1 else 0)%Z (seq 0 6)) ys) with Some (_, f) => f | None => [] end.
Definition ex_bags (ys : list Z) : list (list Ex) := map (ex_bag ys) (seq 0 3).
Example C80_example :
  map (fun i => find (fun k => negb (in_bag ex_hash 3 i k)) (seq 0 3)) (seq 0 6) = map Some [1; 2; 0; 1; 2; 0] /\
  weight_text ex_hash 3 6 1 = text (map lit ["# dtype=raw_floats"; "0"; "1"; "1"; "0"; "1"; "1"]%string) [] /\
  out_of_bag_score ex_hash 3 (ex_bags [9; 9; 0; 0; 3; 3]%Z) 1 = inr (dbl 9) /\ out_of_bag_score ex_hash 3 (ex_bags [9; 99; 0; 0; 3; 3]%Z) 1 = inr (dbl 9) /\
  in_bag_score ex_hash 3 (ex_bags [9; 9; 0; 0; 3; 3]%Z) 1 = inr (dbl 9) /\ in_bag_score ex_hash 3 (ex_bags [9; 99; 0; 0; 3; 3]%Z) 1 <> inr (dbl 9).
Proof. vm_compute. repeat split; try reflexivity. discriminate. Qed.

Definition ex_json (fields : list String.string) : json := JObject (map (fun s => (lit s, JObject [])) fields).
Example C80_config_example :
  bag_config (ex_json ["num_trees"; "target_column"]%string) = inl KeyError /\ bag_config JOther = inl TypeError /\
  bag_config (ex_json ["num_trees"; "data_config"]%string) =
    inr (JObject [(lit "num_trees", JObject []); (lit "data_config", JObject [(lit "sample_weight_column", JOther)])]) /\
  existsb (str_eqb (lit "numTrees")) config_fields = true /\ existsb (str_eqb (lit "lambdamartDcgBase")) config_fields = true.
Proof. vm_compute. repeat split; reflexivity. Qed.
