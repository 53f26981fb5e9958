(** Prop_Threads.v - property C73.  Statements only.  Model: Train.v, Loss.v; vocabulary: TrainSpec.v, LossSpec.v, EvalSpec.v. *)
From Coq Require Import SpecFloat Reals.
From Verif Require Import Base F32 Column DataStore Num Forest Config Score ScoreSpec Eval EvalSpec Split SplitSpec Split_proofs Tree TreeSpec
  Train TrainSpec Train_proofs Loss LossSpec Threads_proofs Prop_Score Prop_Eval Prop_Split Prop_Tree Prop_Train.
Local Close Scope R_scope.

(** ** C73 - the number of threads *)
(** In exact arithmetic a training with [t] threads that returns does so with [t'] threads too, and leaves the same status,
    forest and function values. *)
Theorem C73_training v t t' top draw pos srt names w y (wv yv : nat -> Exact) binary (lossf : Exact -> Exact -> point Exact) c base r :
  training v t top srt names w (pointwise_loss t binary lossf) -> 1 <= t' ->
  row_values w (v_rows v) wv -> row_values y (v_rows v) yv -> (forall b, base = Some b -> forest_fits v b) ->
  train v t top draw pos srt names w y (pointwise_loss t binary lossf) c base = Ret r ->
  train v t' top draw pos srt names w y (pointwise_loss t' binary lossf) c base = Ret r.
Proof. exact (pointwise_threads v t t' top draw pos srt names w y wv yv binary lossf c base r). Qed.
Print Assumptions C73_training.

(** The same training with one and with three threads, on targets whose sums are exact in doubles too. *)
Definition ex_col12 : column := mkCol (lit "x") (BodyB (ex_bcol (map fl [1; 2; 3; 4; 5; 6; 7; 8; 9; 10; 11; 12]%Z))).
Definition ex_view12 : view := mkView (fun n => if str_eqb n (lit "x") then Some ex_col12 else None) 12 (fun l => l).
Definition ex_threads (t : nat) (y : list Z) : res (trained Ex) :=
  train ex_view12 t (fun _ => first_top) (fun _ => half) 0 insertion_sort [lit "x"] ones (ex_targets (map fl y)) (mse_loss t) (ex_train_cfg 1 2) None.
Definition ex_values (r : res (trained Ex)) : option (status * list f64) := match r with Ret r => Some (tr_status r, tr_f r) | _ => None end.
Example C73_example :
  let y := [0; 0; 0; 0; 0; 0; 0; 0; 11; 13; 11; 13]%Z in
  ex_values (ex_threads 1 y) = Some (SOk, map dbl [0; 0; 0; 0; 0; 0; 0; 0; 12; 12; 12; 12]%Z) /\
  show_forest (ex_threads 3 y) = show_forest (ex_threads 1 y).
Proof. vm_compute. split; reflexivity. Qed.

(** With doubles it does matter: on these twelve rows the function value of row 9 becomes positive with one thread and
    negative with two. *)
Definition ex_big : Z := 2 ^ 53.
Theorem C73_doubles_refuted : exists y f f' a b,
  ex_values (ex_threads 1 y) = Some (SOk, f) /\ ex_values (ex_threads 2 y) = Some (SOk, f') /\
  nth_error f 9 = Some a /\ nth_error f' 9 = Some b /\ fltb (dbl 1000000) a = true /\ fltb b (dbl (-1000000)) = true.
Proof.
  exists [0; 0; 0; 0; 0; 0; 0; 0; ex_big; 1; 1; - ex_big]%Z. do 4 eexists.
  split; [vm_compute; reflexivity|]. split; [vm_compute; reflexivity|]. split; [reflexivity|]. split; [reflexivity|].
  split; vm_compute; reflexivity.
Qed.
Print Assumptions C73_doubles_refuted.
