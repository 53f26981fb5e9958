(** Prop_Rows.v - property C87.  Statements only.  Model: Column.v, Train.v; vocabulary: RowsSpec.v, ColumnSpec.v, TrainSpec.v. *)
From Coq Require Import SpecFloat Reals Lra.
From Verif Require Import Base F32 Column ColumnSpec DataStore Num Forest Config Score ScoreSpec Eval EvalSpec Split SplitSpec Split_proofs Tree TreeSpec
  Train TrainSpec Train_proofs Loss LossSpec RowsSpec Rows_proofs Prop_Score Prop_Eval Prop_Split Prop_Tree Prop_Train Prop_Threads.
Local Close Scope R_scope.

(** ** C87 - the order of the rows *)
(** Numbers: the same limits, the same least values, and every row in its bucket. *)
Theorem C87_numbers nb n to blocks blocks' b : limit_ok nb -> (zlen (concat blocks) <= 100 * nb)%Z -> plain (concat blocks) -> rearranges n to ->
  moved n to (concat blocks) (concat blocks') -> b_load nb blocks = Ret b ->
  exists b', b_load nb blocks' = Ret b' /\ b_max_int b' = b_max_int b /\
    (forall k, b_bucket_max b' k = b_bucket_max b k) /\ (forall k, b_bucket_min b' k = b_bucket_min b k) /\
    forall a, a < n -> b_bucket b' (to a) = b_bucket b a.
Proof. exact (numbers_moved nb n to blocks blocks' b). Qed.
Print Assumptions C87_numbers.

(** Strings: the dictionary is the list of strings in the order in which they appear; if that is the same, every row has its category. *)
Theorem C87_dictionary blocks : fits_32_bits (concat blocks) -> s_strings (string_column_of blocks) = appearing [missing_str] (concat blocks).
Proof. exact (strings_appearing blocks). Qed.
Print Assumptions C87_dictionary.
Theorem C87_strings n to blocks blocks' : fits_32_bits (concat blocks) -> rearranges n to -> moved n to (concat blocks) (concat blocks') ->
  appearing [missing_str] (concat blocks') = appearing [missing_str] (concat blocks) ->
  str_max_int (string_column_of blocks') = str_max_int (string_column_of blocks) /\
  (forall k, str_cat_string (string_column_of blocks') k = str_cat_string (string_column_of blocks) k) /\
  forall a, a < n -> icol_get (s_ints (string_column_of blocks')) (to a) = icol_get (s_ints (string_column_of blocks)) a.
Proof. exact (strings_moved n to blocks blocks'). Qed.
Print Assumptions C87_strings.

(** In exact arithmetic, when all rows and features are sampled: the same status, the same forest, and for every row its value. *)
Theorem C87_training v v' to t t' top draw pos pos' srt names w y w' y' (wv yv wv' yv' : nat -> Exact) binary
    (lossf : Exact -> Exact -> point Exact) c base r :
  training v t top srt names w (pointwise_loss t binary lossf) -> training v' t' top srt names w' (pointwise_loss t' binary lossf) ->
  v_order v' names = v_order v names -> v_rows v' = v_rows v -> rearranges (v_rows v) to ->
  (forall name, match v_get v name, v_get v' name with
                | Some c, Some c' => rows_moved (v_rows v) to c c'
                | None, None => True
                | _, _ => False
                end) ->
  row_values w (v_rows v) wv -> row_values y (v_rows v) yv -> row_values w' (v_rows v) wv' -> row_values y' (v_rows v) yv' ->
  (forall a, a < v_rows v -> yv' (to a) = yv a /\ wv' (to a) = wv a) ->
  (forall p, fltb (draw p) (to_f64 (cf_example_rate c)) = true) -> (forall p, fltb (draw p) (to_f64 (cf_feature_rate c)) = true) ->
  (forall b, base = Some b -> forest_fits v b /\ forest_fits v' b) ->
  train v t top draw pos srt names w y (pointwise_loss t binary lossf) c base = Ret r ->
  exists r', train v' t' top draw pos' srt names w' y' (pointwise_loss t' binary lossf) c base = Ret r' /\
    tr_status r' = tr_status r /\ tr_forest r' = tr_forest r /\
    forall a, a < v_rows v -> nth_error (tr_f r') (to a) = nth_error (tr_f r) a.
Proof. exact (train_moved v v' to t t' top draw pos pos' srt names w y w' y' wv yv wv' yv' binary lossf c base r). Qed.
Print Assumptions C87_training.

(** Five rows with a number and a text, and the same rows in another order. *)
Definition ex_before : list (f32 * string * Z) := [(fl 4, "u", 8); (fl 2, "u", 10); (fnan, "v", 4); (fl 2, "u", 1); (fl 9, "v", 7)]%string%Z.
Definition ex_moving (a : nat) : nat := nth a [2; 0; 3; 4; 1] 0.
Definition ex_after : list (f32 * string * Z) := [(fl 2, "u", 10); (fl 9, "v", 7); (fl 4, "u", 8); (fnan, "v", 4); (fl 2, "u", 1)]%string%Z.
Definition ex_numbers (rows : list (f32 * string * Z)) : list f32 := map (fun r => fst (fst r)) rows.
Definition ex_texts (rows : list (f32 * string * Z)) : list str := map (fun r => lit (snd (fst r))) rows.
Definition ex_table (rows : list (f32 * string * Z)) : list column :=
  [mkCol (lit "x") (BodyB (ex_bcol (ex_numbers rows))); mkCol (lit "s") (BodyS (string_column_of [ex_texts rows]))].
Definition ex_table_train (minh : Ex) (rows : list (f32 * string * Z)) : res (trained Ex) :=
  let cols := ex_table rows in
  train (mkView (fun n => find (fun col => str_eqb n (c_name col)) cols) (List.length rows) (fun l => l)) 2 (fun _ => first_top) (fun _ => half) 0 insertion_sort
    (map c_name cols) ones (ex_targets (map (fun r => fl (snd r)) rows)) (mse_loss 2)
    (mkConfig 1 3 f32_one (dbl 0) (dbl 0) minh f32_one f32_one 0 [] [] [] [] false [] [] f32_zero false f32_zero false) None.
Definition ex_doubled (r : res (trained Ex)) : option (list f64) := option_map (fun x => map (fun y => SFadd 53 1024 y y) (snd x)) (ex_values r).
Example C87_example :
  ex_doubled (ex_table_train (dbl 0) ex_before) = Some (map dbl [15; 11; 8; 11; 15]%Z) /\
  ex_doubled (ex_table_train (dbl 0) ex_after) = Some (map dbl [11; 15; 15; 8; 11]%Z) /\
  option_map (fun x => snd (fst x)) (show_forest (ex_table_train (dbl 0) ex_after)) = option_map (fun x => snd (fst x)) (show_forest (ex_table_train (dbl 0) ex_before)).
Proof. vm_compute. repeat split; reflexivity. Qed.
Example C87_moved : rearranges 5 ex_moving /\ plain (ex_numbers ex_before) /\ Forall2 (rows_moved 5 ex_moving) (ex_table ex_before) (ex_table ex_after).
Proof.
  assert (L : forall a (P : nat -> Prop), a < 5 -> P 0 -> P 1 -> P 2 -> P 3 -> P 4 -> P a).
  { intros a P La. do 5 (destruct a as [|a]; [auto|]). lia. }
  assert (Pl : plain (ex_numbers ex_before)).
  { intros x y Ix Iy. cbn [ex_numbers ex_before map fst In] in Ix, Iy. repeat destruct Ix as [<-|Ix]; try contradiction;
      repeat destruct Iy as [<-|Iy]; try contradiction; vm_compute; intros E; try reflexivity; discriminate E. }
  split; [split|split; [exact Pl|]].
  - intros a La. pattern a. apply (L a); [exact La|cbn; lia..].
  - intros a b La Lb. pattern a. apply (L a); [exact La|..]; pattern b; (apply (L b); [exact Lb|..]); cbn; intros E; first [reflexivity|discriminate E].
  - repeat constructor; cbn [c_body].
    + exists 100%Z, [ex_numbers ex_before], [ex_numbers ex_after]. split; [unfold limit_ok; lia|]. split; [vm_compute; discriminate|]. split; [exact Pl|].
      split; [|split; vm_compute; reflexivity]. split; [reflexivity|]. split; [reflexivity|]. intros a La. pattern a. apply (L a); [exact La|reflexivity..].
    + exists [ex_texts ex_before], [ex_texts ex_after]. split; [vm_compute; reflexivity|]. split; [|repeat split; vm_compute; reflexivity].
      split; [reflexivity|]. split; [reflexivity|]. intros a La. pattern a. apply (L a); [exact La|reflexivity..].
Qed.

(** If the strings appear in another order, the same rows can lead to other predictions: a and b are alike, c alone is too light, so one of a and b joins it -
    the one that appears first. *)
Definition ex_alike (l : list (string * Z)) : list (f32 * string * Z) := map (fun p => (fnan, fst p, snd p)) l.
Theorem C87_text_refuted : exists rows rows' to, rearranges 5 to /\ moved 5 to rows rows' /\
  ex_values (ex_table_train (dbl 1) rows) = Some (SOk, map dbl [10; 10; 10; 15; 15]%Z) /\
  ex_values (ex_table_train (dbl 1) rows') = Some (SOk, map dbl [10; 10; 15; 15; 10]%Z) /\
  map (fun r => snd (fst r)) rows = ["c"; "a"; "a"; "b"; "b"]%string /\ map (fun r => snd (fst r)) rows' = ["c"; "b"; "a"; "a"; "b"]%string.
Proof.
  exists (ex_alike [("c", 0); ("a", 15); ("a", 15); ("b", 15); ("b", 15)]%string%Z), (ex_alike [("c", 0); ("b", 15); ("a", 15); ("a", 15); ("b", 15)]%string%Z),
    (fun a => nth a [0; 2; 3; 1; 4] 0).
  assert (L : forall a (P : nat -> Prop), a < 5 -> P 0 -> P 1 -> P 2 -> P 3 -> P 4 -> P a).
  { intros a P La. do 5 (destruct a as [|a]; [auto|]). lia. }
  split; [split|].
  - intros a La. pattern a. apply (L a); [exact La|cbn; lia..].
  - intros a b La Lb. pattern a. apply (L a); [exact La|..]; pattern b; (apply (L b); [exact Lb|..]); cbn; intros E; first [reflexivity|discriminate E].
  - split; [|vm_compute; repeat split; reflexivity]. split; [reflexivity|]. split; [reflexivity|]. intros a La. pattern a. apply (L a); [exact La|reflexivity..].
Qed.
Print Assumptions C87_text_refuted.

(** Beyond 100 * num_buckets values the limits come from the first rows only. *)
Theorem C87_large_refuted : exists nb to blocks blocks' b b', limit_ok nb /\ rearranges 801 to /\ plain (concat blocks) /\
  moved 801 to (concat blocks) (concat blocks') /\ map (@List.length f32) blocks' = map (@List.length f32) blocks /\
  b_load nb blocks = Ret b /\ b_load nb blocks' = Ret b' /\ b_max_int b' <> b_max_int b.
Proof.
  exists 5%Z, (fun a => if a <? 501 then a + 300 else a - 501), [repeat (fl 1) 501; repeat (fl 2) 150 ++ repeat (fl 3) 150],
    [repeat (fl 2) 150 ++ repeat (fl 3) 150 ++ repeat (fl 1) 201; repeat (fl 1) 300].
  eexists. eexists. split; [unfold limit_ok; lia|]. split; [|split; [|split; [|split; [reflexivity|split; [vm_compute; reflexivity|split; [vm_compute; reflexivity|vm_compute; discriminate]]]]]].
  - split; [intros a La; destruct (Nat.ltb_spec a 501); lia|]. intros a b La Lb. destruct (Nat.ltb_spec a 501), (Nat.ltb_spec b 501); lia.
  - assert (V : forall x, In x (flt_max :: concat [repeat (fl 1) 501; repeat (fl 2) 150 ++ repeat (fl 3) 150]) -> x = flt_max \/ x = fl 1 \/ x = fl 2 \/ x = fl 3).
    { intros x [<-|I]; [auto|]. cbn [concat] in I. rewrite app_nil_r, !in_app_iff in I. destruct I as [I|[I|I]]; apply repeat_spec in I; auto. }
    intros x y Ix Iy. apply V in Ix, Iy. destruct Ix as [->|[->|[->| ->]]], Iy as [->|[->|[->| ->]]]; vm_compute; intros E; try reflexivity; discriminate E.
  - assert (R : forall (x : f32) k i, nth_error (repeat x k) i = if i <? k then Some x else None) by (clear; intros x k; induction k as [|k IH]; intros [|i]; cbn; auto; apply IH).
    cbn [concat]. rewrite !app_nil_r. split; [rewrite !app_length, !repeat_length; reflexivity|]. split; [rewrite !app_length, !repeat_length; reflexivity|].
    assert (Ap : forall (l1 l2 : list f32) i, nth_error (l1 ++ l2) i = if i <? List.length l1 then nth_error l1 i else nth_error l2 (i - List.length l1)).
    { intros l1 l2 i. destruct (Nat.ltb_spec i (List.length l1)); [apply nth_error_app1|apply nth_error_app2]; lia. }
    intros a La. rewrite !Ap, !app_length, !repeat_length, !R.
    repeat match goal with |- context [?x <? ?y] => destruct (Nat.ltb_spec x y) end; try lia; reflexivity.
Qed.
Print Assumptions C87_large_refuted.

(** There the order even decides between loading and undefined behaviour. *)
Theorem C87_crash_refuted : exists blocks blocks' b, Permutation.Permutation (concat blocks) (concat blocks') /\
  b_load 4 blocks = Ret b /\ b_load 4 blocks' = Undef.
Proof.
  exists [repeat (fl 1) 401; repeat (fl 2) 150 ++ repeat (fl 3) 150], [repeat (fl 2) 150 ++ repeat (fl 3) 150; repeat (fl 1) 101; repeat (fl 1) 300]. eexists.
  split; [|split; vm_compute; reflexivity].
  cbn [concat]. rewrite !app_nil_r, <- repeat_app. change (101 + 300) with 401. apply Permutation.Permutation_app_comm.
Qed.
Print Assumptions C87_crash_refuted.

(** With +0 beside -0 the limits are those of the first. *)
Theorem C87_zeros_refuted : exists b b', b_load 4 [[S754_zero true; S754_zero false]] = Ret b /\ b_load 4 [[S754_zero false; S754_zero true]] = Ret b' /\
  b_bucket_max b 1 = Ret (S754_zero true) /\ b_bucket_max b' 1 = Ret (S754_zero false).
Proof. eexists. eexists. split; [vm_compute; reflexivity|]. split; [vm_compute; reflexivity|]. vm_compute. split; reflexivity. Qed.
Print Assumptions C87_zeros_refuted.
