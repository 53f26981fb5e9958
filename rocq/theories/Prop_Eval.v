(** Prop_Eval.v - properties C27, C28, C51 and C54.  Statements only.  Model: Eval.v; vocabulary: EvalSpec.v. *)
From Coq Require Import SpecFloat.
From Verif Require Import Base F32 Column DataStore Num Forest Score ScoreSpec Eval EvalSpec Eval_proofs Prop_Score.

(** ** C27 - a prediction is the sum of the leaf scores in tree order *)
Theorem C27_evaluate (N : Num) v threads (f : forest N) : 1 <= threads -> reorders v -> loads v f -> forest_fits v f ->
  exists scores, evaluate_forest v threads f = Ret (SOk, Some scores) /\ predictions v f scores.
Proof. exact (evaluate_ok v threads f). Qed.
Print Assumptions C27_evaluate.

(** where every row has exactly one leaf per tree. *)
Theorem C27_leaves (N : Num) v (f : forest N) row : forest_fits v f -> row < v_rows v ->
  (exists ls, leaves v f row ls) /\ forall a b, leaves v f row a -> leaves v f row b -> a = b.
Proof. exact (fun F R => conj (leaves_total v f row F R) (fun a b => leaves_fun v f row a b F)). Qed.
Print Assumptions C27_leaves.

(** If a split names a missing or broken column, nothing is predicted and that column's error is returned. *)
Theorem C27_unusable_column (N : Num) v threads can_write (f : forest N) points : reorders v -> ~ loads v f ->
  exists e t n, In t f /\ named n t /\ column_error v n e /\
    evaluate_forest v threads f = Ret (SErr e, None) /\ evaluate_checkpoints v threads can_write f points = Ret (SErr e, []).
Proof. exact (evaluate_err v threads can_write f points). Qed.
Print Assumptions C27_unusable_column.

(** Evaluating a concatenation continues from the scores of the first forest. *)
Theorem C27_concatenation (N : Num) v threads (f g : forest N) st :
  eval_trees v threads (f ++ g) st = (let! st1 := eval_trees v threads f st in eval_trees v threads g st1).
Proof. exact (eval_app v threads f g st). Qed.
Print Assumptions C27_concatenation.

Definition ex_view : view := mkView ex_store 6 (fun l => rev l).
Definition ex_constant : tree Ex := TNode (dbl 50) None TNone TNone.
Example C27_example :
  evaluate_forest ex_view 2 [ex_constant; ex_tree; ex_tree] = Ret (SOk, Some (map dbl [54; 56; 54; 52; 56; 52]%Z)) /\
  evaluate_forest ex_view 2 [ex_constant; TNode (dbl 1) (Some (mkSplit (lit "y") None None n0)) TNone TNone] =
    Ret (SErr NOT_FOUND, None) /\
  evaluate_forest ex_view 0 [ex_constant] = Undef.
Proof. vm_compute. auto. Qed.

(** ** C28 - the checkpoint files *)
(** [W] are the files of all written checkpoints; writing stops with an error at the first file that can not be
    opened. *)
Theorem C28_checkpoints (N : Num) v threads can_write (f : forest N) points :
  1 <= threads -> reorders v -> loads v f -> forest_fits v f ->
  exists W done rest s,
    (StronglySorted Z.lt (map fst W) /\ (forall p, In p (map fst W) <-> written points (List.length f) p) /\
     (forall p sc, In (p, sc) W -> predictions v (firstn (Z.to_nat p) f) sc)) /\
    W = done ++ rest /\ evaluate_checkpoints v threads can_write f points = Ret (s, done) /\
    (forall p sc, In (p, sc) done -> can_write p = true) /\
    (rest = [] /\ s = SOk \/ exists p sc rest', rest = (p, sc) :: rest' /\ can_write p = false /\ s = SErr ABORTED).
Proof. exact (checkpoints_ok v threads can_write f points). Qed.
Print Assumptions C28_checkpoints.

(** An increasing list of tree counts is written completely. *)
Theorem C28_increasing points T : StronglySorted Z.lt points -> (forall p, In p points -> (1 <= p <= Z.of_nat T)%Z) ->
  forall p, written points T p <-> In p points.
Proof. exact (written_increasing points T). Qed.
Print Assumptions C28_increasing.

(** A checkpoint after a larger one is not written. *)
Theorem C28_unsorted_refuted : exists p q T, (1 <= p <= Z.of_nat T)%Z /\ (1 <= q <= Z.of_nat T)%Z /\ ~ written [q; p] T p.
Proof. exact written_unsorted. Qed.
Print Assumptions C28_unsorted_refuted.

Example C28_example :
  let run := evaluate_checkpoints ex_view 2 (fun p => negb (p =? 4)%Z) [ex_constant; ex_tree; ex_tree; ex_tree] in
  run [2; 1; 3]%Z = Ret (SOk, [(2%Z, map dbl [52; 53; 52; 51; 53; 51]%Z); (3%Z, map dbl [54; 56; 54; 52; 56; 52]%Z)]) /\
  run [1; 4; 7]%Z = Ret (SErr ABORTED, [(1%Z, map dbl [50; 50; 50; 50; 50; 50]%Z)]) /\
  run [0; 1; 3]%Z = Ret (SOk, [(3%Z, map dbl [54; 56; 54; 52; 56; 52]%Z)]).
Proof. vm_compute. auto. Qed.

(** ** C51 - loading features *)
Theorem C51_load_features get names :
  (fst (load_features get names) = SOk <-> forall n, In n names -> exists c, get n = Some c /\ col_status c = SOk) /\
  (fst (load_features get names) = SOk -> map Some (snd (load_features get names)) = map get names) /\
  (fst (load_features get names) <> SOk -> snd (load_features get names) = []).
Proof. exact (load_features_ok get names). Qed.
Print Assumptions C51_load_features.

Theorem C51_error get names e : fst (load_features get names) = SErr e ->
  exists before n after, names = before ++ n :: after /\
    (forall m, In m before -> exists c, get m = Some c /\ col_status c = SOk) /\
    (get n = None /\ e = NOT_FOUND \/ exists c, get n = Some c /\ col_status c = SErr e).
Proof. exact (load_features_err get names e). Qed.
Print Assumptions C51_error.

Example C51_example :
  load_features ex_store [lit "s"; lit "x"] = (SOk, [ex_string_col; ex_float_col]) /\
  fst (load_features ex_store [lit "s"; lit "t"]) = SErr NOT_FOUND.
Proof. vm_compute. auto. Qed.

(** ** C54 - prediction reads only the reported features *)
Theorem C54_features (N : Num) (f : forest N) :
  NoDup (collect_features f) /\ forall x, In x (collect_features f) <-> exists t, In t f /\ named x t.
Proof. exact (conj (collect_features_nodup f) (collect_features_in f)). Qed.
Print Assumptions C54_features.

Theorem C54_same_prediction (N : Num) v1 v2 threads (f : forest N) :
  (forall t, In t f -> nodes_split t) -> v_rows v1 = v_rows v2 ->
  (forall l, Permutation (v_order v1 l) l) -> v_order v1 = v_order v2 ->
  (forall x, In x (collect_features f) -> v_get v1 x = v_get v2 x) ->
  evaluate_forest v1 threads f = evaluate_forest v2 threads f.
Proof. exact (same_evaluation v1 v2 threads f). Qed.
Print Assumptions C54_same_prediction.

(** A node with children but no split reads the column with the empty name, which is not reported. *)
Definition ex_no_split : tree Ex := TNode n0 None (TNode (dbl 1) None TNone TNone) (TNode (dbl 2) None TNone TNone).
Definition ex_view_empty (c : option column) : view := mkView (fun n => if str_eqb n [] then c else None) 2 (fun l => l).
Theorem C54_no_split_refuted : exists v1 v2 (f : forest Ex),
  v_rows v1 = v_rows v2 /\ v_order v1 = v_order v2 /\
  (forall x, In x (collect_features f) -> v_get v1 x = v_get v2 x) /\
  evaluate_forest v1 1 f <> evaluate_forest v2 1 f.
Proof.
  exists (ex_view_empty None), (ex_view_empty (Some (mkCol [] (BodyR (mkR SOk [fl 1; fl 2]))))), [ex_no_split].
  split; [reflexivity|]. split; [reflexivity|]. split; [intros x []|]. vm_compute. discriminate.
Qed.
Print Assumptions C54_no_split_refuted.

Example C54_example :
  collect_features [ex_constant; ex_tree; ex_tree] = [lit "s"; lit "x"] /\ nodes_split ex_tree /\
  evaluate_forest (mkView (fun n => if str_eqb n (lit "q") then None else ex_store n) 6 (fun l => rev l)) 2 [ex_tree] =
  evaluate_forest ex_view 2 [ex_tree].
Proof.
  split; [vm_compute; reflexivity|]. split; [|vm_compute; reflexivity].
  cbn. repeat split; intros P H; solve [discriminate P|discriminate H].
Qed.
