(** Prop_Column.v - properties C01-C10 (columns).  Statements only; proofs are elsewhere.
    Vocabulary: ColumnSpec.v.  Model: Column.v. *)
From Coq Require Import SpecFloat.
From Verif Require Import Base F32 Column ColumnSpec ColumnStr_proofs ColumnBucket_proofs
  ColumnProps_proofs ColumnCount_proofs.
Local Open Scope Z_scope.

(** ** C01 - string columns give back exactly the strings that were added *)
Theorem C01_string_column_roundtrip blocks : fits_32_bits (concat blocks) ->
  s_status (string_column_of blocks) = SOk /\
  str_size (string_column_of blocks) = Ret (List.length (concat blocks)) /\
  forall i s, nth_error (concat blocks) i = Some s -> str_row (string_column_of blocks) i = Ret s.
Proof. exact (string_column_roundtrip blocks). Qed.
Print Assumptions C01_string_column_roundtrip.

Definition ex_blocks : list (list str) :=
  [[lit "b"; lit "a"; lit "b"]; []; [lit "__missing__"; lit "c"; lit "a"]].
Example C01_example : fits_32_bits (concat ex_blocks) /\
  map (str_row (string_column_of ex_blocks)) (seq 0 6) = map Ret (concat ex_blocks).
Proof. vm_compute. auto. Qed.

(** ** C02 - the dictionary is a bijection in order of first appearance *)
Theorem C02_string_dictionary blocks : fits_32_bits (concat blocks) ->
  let c := string_column_of blocks in
  let data := concat blocks in
  (forall k s, (Z.of_nat k < str_max_int c) -> str_cat_string c k = Ret s ->
               str_cat_index c s = Some (Z.of_nat k)) /\
  (forall k, (Z.of_nat k < str_max_int c) -> exists s, str_cat_string c k = Ret s) /\
  (forall s, (exists k, str_cat_index c s = Some k) <-> s = missing_str \/ In s data) /\
  (forall s k, str_cat_index c s = Some k ->
               0 <= k < str_max_int c /\ str_cat_string c (Z.to_nat k) = Ret s) /\
  (forall s t k l, str_cat_index c s = Some k -> str_cat_index c t = Some l -> k < l ->
     exists p q, first_pos s (missing_str :: data) = Some p /\
                 first_pos t (missing_str :: data) = Some q /\ (p < q)%nat) /\
  (forall i s, nth_error data i = Some s ->
     str_missing c i = Ret (str_eqb s missing_str)).
Proof. exact (string_dictionary blocks). Qed.
Print Assumptions C02_string_dictionary.

Example C02_example : fits_32_bits (concat ex_blocks) /\
  map (str_cat_index (string_column_of ex_blocks)) [lit "__missing__"; lit "b"; lit "a"; lit "c"; lit "d"]
  = [Some 0; Some 1; Some 2; Some 3; None] /\ str_max_int (string_column_of ex_blocks) = 4.
Proof. vm_compute. auto. Qed.

(** ** C03 - finalized columns *)
(** Bucketized: Add and Finalize are refused and change nothing observable. *)
Theorem C03_bucketized_frozen nb blocks c more : limit_ok nb -> zlen (concat blocks) < 4294967294 ->
  b_load nb blocks = Ret c ->
  exists c1 c2, b_add more c = Ret c1 /\ b_finalize c = Ret c2 /\
    b_status c1 = SErr FAILED_PRECONDITION /\ b_status c2 = SErr FAILED_PRECONDITION /\
    b_size c1 = b_size c /\ b_size c2 = b_size c /\
    forall i, b_bucket c1 i = b_bucket c i /\ b_bucket c2 i = b_bucket c i /\
      b_row_min c1 i = b_row_min c i /\ b_row_min c2 i = b_row_min c i /\
      b_row_max c1 i = b_row_max c i /\ b_row_max c2 i = b_row_max c i.
Proof. exact (bucketized_frozen nb blocks c more). Qed.
Print Assumptions C03_bucketized_frozen.

(** String: a second Finalize is refused and changes nothing observable. *)
Theorem C03_string_frozen blocks : fits_32_bits (concat blocks) ->
  let c := string_column_of blocks in let c' := str_finalize c in
  s_status c' = SErr FAILED_PRECONDITION /\ str_size c' = str_size c /\
  (forall i, str_row c' i = str_row c i) /\ (forall s, str_cat_index c' s = str_cat_index c s).
Proof. exact (string_frozen blocks). Qed.
Print Assumptions C03_string_frozen.

(** String: Add after Finalize is accepted (status still OK), adds no row, but changes the
    dictionary, which the column should no longer allow. *)
Theorem C03_string_add_guard_refuted : exists blocks more s,
  let c := string_column_of blocks in
  fits_32_bits (concat blocks) /\
  s_status (str_add more c) = SOk /\ str_size (str_add more c) = str_size c /\
  str_cat_index c s = None /\ str_cat_index (str_add more c) s = Some 2 /\
  str_max_int (str_add more c) = str_max_int c + 1.
Proof. exists [[lit "a"]], [lit "b"], (lit "b"). vm_compute. auto 10. Qed.
Print Assumptions C03_string_add_guard_refuted.

(** Raw float: Add after Finalize is always accepted and appends the rows. *)
Theorem C03_raw_add_guard_refuted data more :
  r_status (r_add more (create_raw data)) = SOk /\
  r_size (r_add more (create_raw data)) = (List.length data + List.length more)%nat.
Proof. exact (raw_add_after_finalize data more). Qed.
Print Assumptions C03_raw_add_guard_refuted.

Definition ex_data : list f32 := map f32_of_Z [20; 10; -34; 20; 10; 70; 80; 2340; 2340; 80] ++ [fnan].
(** All hypotheses of C03-C08 hold for this load. *)
Definition all_below_inf (l : list f32) : bool :=
  forallb (fun v => is_nan v || fleb v flt_max) l.
Lemma all_below_inf_ok l : all_below_inf l = true -> below_inf l.
Proof.
  intros H v I N. unfold all_below_inf in H. rewrite forallb_forall in H. specialize (H v I).
  rewrite N in H. exact H.
Qed.
Example C03_example : limit_ok 3 /\ zlen (concat [ex_data]) < 4294967294 /\
  below_inf (concat [ex_data]) /\
  exists c, b_load 3 [ex_data] = Ret c /\
    map (b_bucket c) (seq 0 11) = map Ret [1; 1; 1; 1; 1; 2; 2; 2; 2; 2; 0] /\
    b_max_int c = 4.
Proof.
  split; [unfold limit_ok; lia|]. split; [reflexivity|].
  split; [apply all_below_inf_ok; reflexivity|].
  eexists. split; [vm_compute; reflexivity|]. vm_compute. auto.
Qed.

(** ** C04 - one row per value; missing iff NaN *)
Theorem C04_bucketized_size_missing nb blocks c : limit_ok nb -> zlen (concat blocks) < 4294967294 ->
  b_load nb blocks = Ret c ->
  b_status c = SOk /\ b_size c = Ret (List.length (concat blocks)) /\
  forall i v, nth_error (concat blocks) i = Some v -> b_missing c i = Ret (is_nan v).
Proof. exact (bucketized_size_missing nb blocks c). Qed.
Print Assumptions C04_bucketized_size_missing.

Example C04_example : exists c, b_load 10 [[f32_of_Z 3; fnan]; [f32_of_Z (-1); finf]] = Ret c /\
  map (b_missing c) (seq 0 4) = map Ret [false; true; false; false].
Proof. eexists. split; [vm_compute; reflexivity|]. vm_compute. auto. Qed.

(** Raw float columns are the plain concatenation of the blocks. *)
Theorem C04_raw_roundtrip blocks :
  let c := r_finalize (fold_left (fun c b => r_add b c) blocks r_init) in
  r_status c = SOk /\ r_size c = List.length (concat blocks) /\
  forall i, r_get c i = match nth_error (concat blocks) i with Some v => Ret v | None => Undef end.
Proof. exact (raw_roundtrip blocks). Qed.
Print Assumptions C04_raw_roundtrip.

(** ** C05 - the bucket contains the value; its lower end is attained *)
Theorem C05_bucket_contains nb blocks c : limit_ok nb -> zlen (concat blocks) < 4294967294 ->
  b_load nb blocks = Ret c -> below_inf (concat blocks) ->
  forall i v, nth_error (concat blocks) i = Some v -> is_nan v = false ->
  exists lo hi, b_row_min c i = Ret lo /\ b_row_max c i = Ret hi /\
    fleb lo v = true /\ fleb v hi = true /\
    exists j w, nth_error (concat blocks) j = Some w /\ is_nan w = false /\
      b_bucket c j = b_bucket c i /\ feqb lo w = true.
Proof. exact (bucketized_contains nb blocks c). Qed.
Print Assumptions C05_bucket_contains.

Example C05_example : exists c, b_load 3 [ex_data] = Ret c /\
  b_row_min c 0 = Ret (f32_of_Z (-34)) /\ b_row_max c 0 = Ret (f32_of_Z 20) /\
  b_row_min c 6 = Ret (f32_of_Z 70) /\ b_row_max c 6 = Ret (f32_of_Z 2340).
Proof. eexists. split; [vm_compute; reflexivity|]. vm_compute. auto 10. Qed.

(** ** C06 - bucket numbers respect numeric order *)
Theorem C06_bucket_order nb blocks c : limit_ok nb -> zlen (concat blocks) < 4294967294 ->
  b_load nb blocks = Ret c -> below_inf (concat blocks) ->
  forall i j a b, nth_error (concat blocks) i = Some a -> nth_error (concat blocks) j = Some b ->
  is_nan a = false -> is_nan b = false ->
  exists p q, b_bucket c i = Ret p /\ b_bucket c j = Ret q /\
    (fleb a b = true -> p <= q) /\
    (p < q -> fltb a b = true /\
       exists hi lo, b_row_max c i = Ret hi /\ b_row_min c j = Ret lo /\ fltb hi lo = true).
Proof. exact (bucketized_ordered nb blocks c). Qed.
Print Assumptions C06_bucket_order.

(** With +infinity in the data a smaller value can get a larger bucket number. *)
Theorem C06_infinity_refuted : exists nb data c i j a b p q,
  limit_ok nb /\ create_bucketized nb data = Ret c /\
  nth_error data i = Some a /\ nth_error data j = Some b /\
  is_nan a = false /\ is_nan b = false /\ fltb a b = true /\
  b_bucket c i = Ret p /\ b_bucket c j = Ret q /\ q < p.
Proof.
  exists 10, [flt_max; finf]. eexists. exists 0%nat, 1%nat, flt_max, finf, 3, 2.
  split; [unfold limit_ok; lia|]. split; [vm_compute; reflexivity|]. vm_compute. auto 10.
Qed.
Print Assumptions C06_infinity_refuted.

(** ** C07 - small columns are stored losslessly *)
Theorem C07_small_columns_lossless nb blocks c : limit_ok nb -> zlen (concat blocks) < 2 * nb ->
  b_load nb blocks = Ret c -> below_inf (concat blocks) ->
  forall i v, nth_error (concat blocks) i = Some v -> is_nan v = false ->
  exists lo hi, b_row_min c i = Ret lo /\ b_row_max c i = Ret hi /\
    feqb lo v = true /\ feqb hi v = true.
Proof. exact (bucketized_lossless nb blocks c). Qed.
Print Assumptions C07_small_columns_lossless.

Example C07_example : zlen (concat [ex_data]) < 2 * 10 /\ exists c, b_load 10 [ex_data] = Ret c /\
  b_row_min c 6 = Ret (f32_of_Z 80) /\ b_row_max c 6 = Ret (f32_of_Z 80).
Proof. split; [reflexivity|]. eexists. split; [vm_compute; reflexivity|]. vm_compute. auto. Qed.

(** With 2 * num_buckets values or more the column can be lossy even though the number of distinct
    values does not exceed the budget. *)
Theorem C07_enough_buckets_refuted : exists nb data dv c i v hi,
  limit_ok nb /\ create_bucketized nb data = Ret c /\
  (forall x, In x data -> In x dv) /\ zlen dv <= nb /\
  nth_error data i = Some v /\ is_nan v = false /\ b_row_max c i = Ret hi /\ feqb hi v = false.
Proof.
  exists 4, (map f32_of_Z [1; 2; 3; 3; 3; 3; 3; 3; 3; 4; 4; 4; 4; 4; 4; 4]), (map f32_of_Z [1; 2; 3; 4]).
  eexists. exists 0%nat, (f32_of_Z 1), (f32_of_Z 2).
  split; [unfold limit_ok; lia|]. split; [vm_compute; reflexivity|].
  split; [intros x; cbn; tauto|]. vm_compute. repeat split; discriminate.
Qed.
Print Assumptions C07_enough_buckets_refuted.

(** ** C08 - the number of buckets *)
Theorem C08_bucket_count nb blocks c : limit_ok nb -> zlen (concat blocks) < 2147483648 ->
  b_load nb blocks = Ret c -> b_max_int c <= 2 * nb + 1.
Proof. exact (bucketized_count nb blocks c). Qed.
Print Assumptions C08_bucket_count.

(** The bound is attained, so the budget is not an upper bound. *)
Theorem C08_budget_refuted : exists nb data c,
  limit_ok nb /\ create_bucketized nb data = Ret c /\ b_max_int c = 2 * nb + 1 /\ nb < b_max_int c.
Proof.
  exists 4, (map f32_of_Z [1; 2; 3; 4; 5; 6; 7]). eexists.
  split; [unfold limit_ok; lia|]. split; [vm_compute; reflexivity|]. vm_compute. auto.
Qed.
Print Assumptions C08_budget_refuted.

(** ** C09 - when building buckets divides by zero *)
Theorem C09_division_by_zero nb data hv : limit_ok nb -> zlen data < 2147483648 ->
  frequent_values nb data hv ->
  create_bucketized nb data = Undef <-> zlen hv = nb - 1.
Proof. exact (bucketized_div_zero nb data hv). Qed.
Print Assumptions C09_division_by_zero.

Theorem C09_default_budget data dv : zlen data <= 59999 ->
  (forall v, In v dv -> In v data /\ is_nan v = false) ->
  ForallOrdPairs (fun a b => feqb a b = false) dv ->
  (forall v, In v data -> is_nan v = false -> exists w, In w dv /\ feqb v w = true) ->
  zlen dv = 29999 -> create_bucketized default_buckets data = Undef.
Proof. exact (default_budget_crash data dv). Qed.
Print Assumptions C09_default_budget.

Example C09_example : frequent_values 3 (map f32_of_Z [7; 8; 7]) (map f32_of_Z [7; 8]) /\
  create_bucketized 3 (map f32_of_Z [7; 8; 7]) = Undef.
Proof.
  split; [|vm_compute; reflexivity]. split; [|split].
  - intros v [<-|[<-|[]]]; vm_compute; intuition discriminate.
  - vm_compute. repeat constructor.
  - intros v [<-|[<-|[<-|[]]]]; vm_compute; eauto.
Qed.

(** ** C10 - block splits *)
Theorem C10_block_split nb blocks blocks' : limit_ok nb -> concat blocks = concat blocks' ->
  zlen (concat blocks) <= 100 * nb -> b_load nb blocks = b_load nb blocks'.
Proof. exact (bucketized_blocks nb blocks blocks'). Qed.
Print Assumptions C10_block_split.

Example C10_example :
  concat [[f32_of_Z 5]; map f32_of_Z [9; 5]; []] = concat [map f32_of_Z [5; 9; 5]] /\
  exists c, b_load 4 [[f32_of_Z 5]; map f32_of_Z [9; 5]; []] = Ret c /\
            b_load 4 [map f32_of_Z [5; 9; 5]] = Ret c /\ b_max_int c = 4.
Proof.
  split; [reflexivity|]. eexists. split; [vm_compute; reflexivity|]. vm_compute. auto.
Qed.

(** Beyond 100 * num_buckets values the limits come from a prefix, and the split matters. *)
Theorem C10_large_refuted : exists nb blocks blocks' c c' i,
  limit_ok nb /\ concat blocks = concat blocks' /\
  b_load nb blocks = Ret c /\ b_load nb blocks' = Ret c' /\ b_bucket c i <> b_bucket c' i.
Proof.
  exists 4, [repeat (f32_of_Z 1) 401; repeat (f32_of_Z 2) 150 ++ repeat (f32_of_Z 3) 150],
    [repeat (f32_of_Z 1) 401 ++ repeat (f32_of_Z 2) 150 ++ repeat (f32_of_Z 3) 150].
  eexists. eexists. exists 600%nat.
  split; [unfold limit_ok; lia|]. split; [reflexivity|]. split; [vm_compute; reflexivity|].
  split; [vm_compute; reflexivity|]. vm_compute. congruence.
Qed.
Print Assumptions C10_large_refuted.
