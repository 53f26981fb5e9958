(** Prop_Merge.v - property C77.  Statements only.  Model: Train.v, Loss.v; vocabulary: MergeSpec.v, TrainSpec.v, LossSpec.v, EvalSpec.v. *)
From Coq Require Import SpecFloat Reals Lra.
From Verif Require Import Base F32 Column DataStore Num Forest Config Score ScoreSpec Eval EvalSpec Split SplitSpec Split_proofs Tree TreeSpec
  Train TrainSpec Train_proofs Loss LossSpec MergeSpec Merge_proofs Prop_Score Prop_Eval Prop_Split Prop_Tree Prop_Train Prop_Threads.
Local Close Scope R_scope.

(** ** C77 - rows count by their weight *)
(** In exact arithmetic, when all rows and features are sampled: a training that returns does so too on any data set that counts
    the rows of the first by weight (with any numbers of threads and random numbers), and leaves the same status, the same forest
    and the same function values. *)
Theorem C77_training v v' to t t' top draw pos pos' srt names w y w' y' (wv yv wv' yv' : nat -> Exact) binary
    (lossf : Exact -> Exact -> point Exact) c base r :
  training v t top srt names w (pointwise_loss t binary lossf) -> training v' t' top srt names w' (pointwise_loss t' binary lossf) ->
  v_order v' names = v_order v names ->
  row_values w (v_rows v) wv -> row_values y (v_rows v) yv -> row_values w' (v_rows v') wv' -> row_values y' (v_rows v') yv' ->
  counted to v v' wv yv wv' yv' ->
  (binary = true -> (forall b, b < v_rows v' -> (forall a, a < v_rows v -> to a = b -> yv' b <> yv a) -> yv' b = 1%R \/ yv' b = (-1)%R) /\
                    (forall a, a < v_rows v -> yv' (to a) <> yv a -> yv a = 1%R \/ yv a = (-1)%R)) ->
  (forall p, fltb (draw p) (to_f64 (cf_example_rate c)) = true) -> (forall p, fltb (draw p) (to_f64 (cf_feature_rate c)) = true) ->
  (forall b, base = Some b -> forest_fits v b /\ forest_fits v' b) ->
  train v t top draw pos srt names w y (pointwise_loss t binary lossf) c base = Ret r ->
  exists r', train v' t' top draw pos' srt names w' y' (pointwise_loss t' binary lossf) c base = Ret r' /\
    tr_status r' = tr_status r /\ tr_forest r' = tr_forest r /\
    forall a, a < v_rows v -> nth_error (tr_f r') (to a) = nth_error (tr_f r) a.
Proof. exact (train_counted v v' to t t' top draw pos pos' srt names w y w' y' wv yv wv' yv' binary lossf c base r). Qed.
Print Assumptions C77_training.

(** In particular the order of the rows does not matter. *)
Theorem C77_reordered to v v' (wv yv wv' yv' : nat -> R) : v_rows v' = v_rows v ->
  (forall a, a < v_rows v -> to a < v_rows v) -> (forall a b, a < v_rows v -> b < v_rows v -> to a = to b -> a = b) ->
  (forall name, match v_get v name, v_get v' name with
                | Some c, Some c' => like (v_rows v) to c c'
                | None, None => True
                | _, _ => False
                end) ->
  (forall a, a < v_rows v -> yv' (to a) = yv a /\ wv' (to a) = wv a) -> counted to v v' wv yv wv' yv'.
Proof. exact (reordered_counted to v v' wv yv wv' yv'). Qed.
Print Assumptions C77_reordered.

(** And the targets of rows of weight 0 do not matter. *)
Theorem C77_unweighted v (wv yv yv' : nat -> R) : (forall a, a < v_rows v -> wv a <> 0%R -> yv' a = yv a) -> counted (fun a => a) v v wv yv wv yv'.
Proof. exact (unweighted_counted v wv yv yv'). Qed.
Print Assumptions C77_unweighted.

(** Six rows of weight 1, and four rows that count them: weights 3, 2, 1, and a row of weight 0. *)
Definition ex_rows_of (xs : list Z) : view :=
  mkView (fun n => if str_eqb n (lit "x") then Some (mkCol (lit "x") (BodyB (ex_bcol (map fl xs)))) else None) (List.length xs) (fun l => l).
Definition ex_counting (t : nat) (xs ws ys : list Z) : res (trained Ex) :=
  train (ex_rows_of xs) t (fun _ => first_top) (fun _ => half) 0 insertion_sort [lit "x"] (ex_targets (map fl ws)) (ex_targets (map fl ys)) (mse_loss t)
    (ex_train_cfg 1 2) None.
Definition ex_to (a : nat) : nat := nth a [1; 1; 2; 0; 0; 0] 0.
Example C77_example :
  option_map fst (show_forest (ex_counting 1 [1; 1; 2; 3; 3; 3]%Z [1; 1; 1; 1; 1; 1]%Z [6; 6; 0; 0; 0; 0]%Z)) =
  option_map fst (show_forest (ex_counting 2 [3; 1; 2; 2]%Z [3; 2; 1; 0]%Z [0; 6; 0; 100]%Z)) /\
  ex_values (ex_counting 1 [1; 1; 2; 3; 3; 3]%Z [1; 1; 1; 1; 1; 1]%Z [6; 6; 0; 0; 0; 0]%Z) = Some (SOk, map dbl [6; 6; 0; 0; 0; 0]%Z) /\
  ex_values (ex_counting 2 [3; 1; 2; 2]%Z [3; 2; 1; 0]%Z [0; 6; 0; 100]%Z) = Some (SOk, map dbl [0; 6; 0; 0]%Z).
Proof. vm_compute. repeat split; reflexivity. Qed.
Definition ex_reals (l : list Z) (i : nat) : R := IZR (nth i l 0%Z).
Example C77_counted :
  counted ex_to (ex_rows_of [1; 1; 2; 3; 3; 3]%Z) (ex_rows_of [3; 1; 2; 2]%Z)
    (ex_reals [1; 1; 1; 1; 1; 1]%Z) (ex_reals [6; 6; 0; 0; 0; 0]%Z) (ex_reals [3; 2; 1; 0]%Z) (ex_reals [0; 6; 0; 100]%Z).
Proof.
  assert (L : forall a (P : nat -> Prop), a < 6 -> P 0 -> P 1 -> P 2 -> P 3 -> P 4 -> P 5 -> P a).
  { intros a P La. do 6 (destruct a as [|a]; [auto|]). lia. }
  constructor; cbn [v_rows ex_rows_of List.length].
  - intros a La. pattern a. apply (L a); [exact La|cbn; lia..].
  - intros name. cbn [v_get ex_rows_of]. destruct (str_eqb name (lit "x")); [|exact Logic.I].
    split; [reflexivity|]. split; [vm_compute; reflexivity|]. cbn [c_body].
    split; [vm_compute; reflexivity|]. split; [intros k; unfold b_bucket_max; f_equal; vm_compute; reflexivity|].
    split; [intros k; unfold b_bucket_min; f_equal; vm_compute; reflexivity|].
    intros a La. pattern a. apply (L a); [exact La|vm_compute; reflexivity..].
  - intros a La. pattern a. apply (L a); [exact La|unfold ex_reals, ex_to; cbn; lra..].
  - intros b Lb. do 4 (destruct b as [|b]; [unfold ex_reals, ex_to, rsum; cbn; lra|]). lia.
Qed.

(** With doubles the order does matter: the same twelve rows, the last one moved up, lead to another function value of row 0. *)
Theorem C77_doubles_refuted : exists x y z b f f' p q, let ones := repeat 1%Z 12 in
  ex_values (ex_counting 1 (x ++ z ++ [12%Z]) ones (y ++ [1; 1; b]%Z)) = Some (SOk, f) /\
  ex_values (ex_counting 1 (x ++ [12%Z] ++ z) ones (y ++ [b; 1; 1]%Z)) = Some (SOk, f') /\
  nth_error f 0 = Some p /\ nth_error f' 0 = Some q /\ feqb p q = false.
Proof.
  exists [1; 2; 3; 4; 5; 6; 7; 8; 9]%Z, [0; 0; 0; 0; 0; 0; 0; 0; ex_big]%Z, [10; 11]%Z, (- ex_big)%Z. do 4 eexists. cbv zeta.
  split; [vm_compute; reflexivity|]. split; [vm_compute; reflexivity|]. split; [reflexivity|]. split; [reflexivity|]. vm_compute. reflexivity.
Qed.
Print Assumptions C77_doubles_refuted.
