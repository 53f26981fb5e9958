(** Prop_Padded.v - property C86.  Statements only.  Model: Train.v, Tree.v, Split.v, Loss.v; vocabulary: PaddedSpec.v, TrainSpec.v, SplitSpec.v, ColumnSpec.v. *)
From Coq Require Import SpecFloat.
From Verif Require Import Base F32 Column ColumnSpec DataStore Num Forest Config Score ScoreSpec Eval Split SplitSpec Split_proofs Tree TreeSpec
  Train TrainSpec Loss PaddedSpec Padded_proofs Prop_Score Prop_Eval Prop_Split Prop_Tree Prop_Train Prop_Threads.

(** ** C86 - features that add nothing change nothing *)
(** When all rows and features are sampled and the loss uses no random numbers: adding raw columns, columns whose rows do not differ and copies of
    columns in front of them leaves the status, the forest and the function values as they were.  In any ordered arithmetic (doubles: C29). *)
Theorem C86_training {N : Num} (O : ordered N) v threads top draw pos pos' srt names names' w y lf (c : config N) float_features cat_features base r fs fs' :
  training v threads top srt names w lf -> training v threads top srt names' w lf ->
  load_features (v_get v) (v_order v names) = (SOk, fs) -> load_features (v_get v) (v_order v names') = (SOk, fs') -> padded (v_rows v) [] fs fs' ->
  (forall p, fltb (draw p) (to_f64 (cf_example_rate c)) = true) -> (forall p, fltb (draw p) (to_f64 (cf_feature_rate c)) = true) -> unrandom lf ->
  train v threads top draw pos srt names w y lf c base = Ret r ->
  train v threads top draw pos' srt names' w y lf (with_features float_features cat_features c) base = Ret r.
Proof. exact (train_padded O v threads top draw pos pos' srt names names' w y lf c float_features cat_features base r fs fs'). Qed.
Print Assumptions C86_training.

(** The losses that look at one row at a time use no random numbers. *)
Theorem C86_losses {N : Num} threads binary (lossf : N -> N -> point N) : unrandom (pointwise_loss threads binary lossf).
Proof. exact (pointwise_unrandom threads binary lossf). Qed.
Print Assumptions C86_losses.

(** Rows with equal values, and rows that are all missing, do not differ. *)
Theorem C86_equal_values name nb blocks b : limit_ok nb -> (zlen (concat blocks) < 4294967294)%Z -> b_load nb blocks = Ret b -> below_inf (concat blocks) ->
  (forall x y, In x (concat blocks) -> In y (concat blocks) -> (is_nan x = true /\ is_nan y = true) \/ feqb x y = true) ->
  one_valued (List.length (concat blocks)) (mkCol name (BodyB b)).
Proof. exact (equal_one_valued name nb blocks b). Qed.
Print Assumptions C86_equal_values.

(** Five rows with features x and s; then also with a constant, a raw, a missing and a constant text column and copies of x and s. *)
Definition ex_k : column := mkCol (lit "k") (BodyB (ex_bcol (map fl [7; 7; 7; 7; 7]%Z))).
Definition ex_r : column := mkCol (lit "r") (BodyR (r_finalize (r_add (map fl [1; 2; 3; 4; 5]%Z) r_init))).
Definition ex_m : column := mkCol (lit "m") (BodyB (ex_bcol [fnan; fnan; fnan; fnan; fnan])).
Definition ex_t : column := mkCol (lit "t") (BodyS (ex_cats ["u"; "u"; "u"; "u"; "u"]%string)).
Definition ex_x2 : column := mkCol (lit "x2") (c_body ex_x).
Definition ex_s2 : column := mkCol (lit "s2") (c_body ex_s).
(** A constant column with missing rows. *)
Definition ex_p : column := mkCol (lit "p") (BodyB (ex_bcol [fl 7; fl 7; fnan; fl 7; fnan])).
Definition ex_padded_train (draw : nat -> spec_float) (rate : f32) (cols : list column) : res (trained Ex) :=
  train (mkView (fun n => find (fun col => str_eqb n (c_name col)) cols) 5 (fun l => l)) 2 (fun _ => first_top) draw 0 insertion_sort (map c_name cols) ones ex_y
    (mse_loss 2) (mkConfig 3 3 f32_one (dbl 0) (dbl 0) (dbl 0) rate f32_one 0 [] [] [] [] false [] [] f32_zero false f32_zero false) None.
(** The features that each tree uses. *)
Definition ex_used (r : res (trained Ex)) : list (list str) :=
  match r with Ret r => map (fun t => concat (map (fun x => match snd x with Some (n, _) => [n] | None => [] end) (show_tree t []))) (tr_forest r) | _ => [] end.
Example C86_example :
  ex_used (ex_padded_train (fun _ => half) f32_one [ex_x; ex_s]) = [[]; [lit "x"; lit "s"]; [lit "x"; lit "x"]; [lit "x"]] /\
  show_forest (ex_padded_train (fun _ => half) f32_one [ex_k; ex_x; ex_t; ex_r; ex_x2; ex_s; ex_m; ex_s2]) =
  show_forest (ex_padded_train (fun _ => half) f32_one [ex_x; ex_s]).
Proof. vm_compute. split; reflexivity. Qed.
Example C86_padded : padded 5 [] [ex_x; ex_s] [ex_k; ex_x; ex_t; ex_r; ex_x2; ex_s; ex_m; ex_s2].
Proof.
  assert (L : forall i (P : nat -> Prop), i < 5 -> P 0 -> P 1 -> P 2 -> P 3 -> P 4 -> P i).
  { intros i P Li. do 5 (destruct i as [|i]; [auto|]). lia. }
  assert (B : forall nm b, (exists k, map (b_bucket b) (seq 0 5) = repeat (Ret k) 5) -> one_valued 5 (mkCol nm (BodyB b))).
  { intros nm b [k H] i j Hi Hj. cbn [seq map repeat] in H. injection H as H0 H1 H2 H3 H4.
    assert (X : forall i, i < 5 -> b_bucket b i = Ret k) by (intros x Lx; apply (L x); assumption). rewrite !X by assumption. reflexivity. }
  assert (S : forall nm s, (exists k, map (str_row s) (seq 0 5) = repeat (Ret k) 5) -> one_valued 5 (mkCol nm (BodyS s))).
  { intros nm s [k H] i j Hi Hj. cbn [seq map repeat] in H. injection H as H0 H1 H2 H3 H4.
    assert (X : forall i, i < 5 -> str_row s i = Ret k) by (intros x Lx; apply (L x); assumption). rewrite !X by assumption. reflexivity. }
  apply PadOne; [apply B; eexists; vm_compute; reflexivity|]. apply PadKeep. apply PadOne; [apply S; eexists; vm_compute; reflexivity|].
  eapply PadRaw; [reflexivity|]. apply (PadCopy _ _ _ ex_x); [left; reflexivity|reflexivity|]. apply PadKeep.
  apply PadOne; [apply B; eexists; vm_compute; reflexivity|]. apply (PadCopy _ _ _ ex_s); [left; reflexivity|reflexivity|]. apply PadEnd.
Qed.

(** When rows are sampled, an added constant column does change the function values: it uses up random numbers. *)
Definition f32_half : f32 := binary_normalize 24 128 1 (-1) false.
Theorem C86_sampled_refuted : exists draw f f' a b,
  ex_values (ex_padded_train draw f32_half [ex_x]) = Some (SOk, f) /\ ex_values (ex_padded_train draw f32_half [ex_x; ex_k]) = Some (SOk, f') /\
  nth_error f 0 = Some a /\ nth_error f' 0 = Some b /\ feqb a b = false.
Proof.
  exists (fun p => if Nat.even p then dbl 0 else half). do 4 eexists.
  split; [vm_compute; reflexivity|]. split; [vm_compute; reflexivity|]. split; [reflexivity|]. split; [reflexivity|]. vm_compute. reflexivity.
Qed.
Print Assumptions C86_sampled_refuted.

(** A copy in front of its original takes its place in the forest. *)
Theorem C86_copy_in_front_refuted : exists cols col d, In d cols /\ c_body col = c_body d /\
  ex_used (ex_padded_train (fun _ => half) f32_one cols) = [[]; [lit "x"; lit "x"]; [lit "x"]; [lit "x"]] /\
  ex_used (ex_padded_train (fun _ => half) f32_one (col :: cols)) = [[]; [lit "x2"; lit "x2"]; [lit "x2"]; [lit "x2"]].
Proof. exists [ex_x], ex_x2, ex_x. split; [left; reflexivity|]. split; [reflexivity|]. vm_compute. split; reflexivity. Qed.
Print Assumptions C86_copy_in_front_refuted.

(** A column that is constant except for missing rows is used: it tells which rows are missing. *)
Theorem C86_missing_refuted : ex_used (ex_padded_train (fun _ => half) f32_one [ex_k]) = [[]; []; []; []] /\
  ex_used (ex_padded_train (fun _ => half) f32_one [ex_k; ex_p]) = [[]; [lit "p"]; []; []].
Proof. vm_compute. split; reflexivity. Qed.
Print Assumptions C86_missing_refuted.
