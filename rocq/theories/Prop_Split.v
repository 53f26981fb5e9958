(** Prop_Split.v - properties C29 to C32.  Statements only.  Model: Split.v; vocabulary: SplitSpec.v, ScoreSpec.v. *)
From Coq Require Import SpecFloat Reals.
From Verif Require Import Base F32 Column ColumnSpec DataStore Num Forest Config Score ScoreSpec Split SplitSpec Split_proofs
  Threshold_proofs Gain_proofs Divide_proofs Search_proofs Category_proofs Prop_Score.
Local Close Scope R_scope.

(** ** C29 - the scan returns the first best admissible cut *)
Theorem C29_split_point (N : Num) (O : ordered N) (c : config N) cells values whole place data :
  Forall2 (fun v d => nth_error cells v = Some d) values data ->
  exists r, find_best_split_point c (mkHist cells values) whole place = Ret r /\
  let cand := candidate c whole data (movable place cells) in
  match r with
  | None => forall i m g, cand i m g -> nltb (gain_floor c) g = false
  | Some p => (0 <= pt_left p)%Z /\ cand (Z.to_nat (pt_left p + 1)) (pt_missing_right p) (pt_gain p) /\
      nltb (gain_floor c) (pt_gain p) = true /\
      (forall i m g, cand i m g -> nltb (pt_gain p) g = false) /\
      (forall i m g, cand i m g -> earlier (i, m) (Z.to_nat (pt_left p + 1), pt_missing_right p) -> neqb g g = true ->
         nltb g (pt_gain p) = true)
  end.
Proof. exact (split_point_spec O c (mkHist cells values) whole place data). Qed.
Print Assumptions C29_split_point.

(** The processor's doubles and the real numbers are such arithmetics. *)
Theorem C29_ieee e l : ordered (IEEE e l).
Proof. exact (ieee_ordered e l). Qed.
Print Assumptions C29_ieee.
Theorem C29_exact : ordered Exact.
Proof. exact exact_ordered. Qed.
Print Assumptions C29_exact.

Definition ex_cfg (min_gain lambda min_hessian : Z) : config Ex :=
  mkConfig 1 4 f32_one (dbl min_gain) (dbl lambda) (dbl min_hessian) f32_one f32_one 0 [lit "x"] [lit "s"] [] [] false [] [] f32_zero
    false f32_zero false.
Definition dg (g h : Z) : grad Ex := mkG (dbl g) (dbl h).
(** cells: missing, then three buckets; the best cut is behind bucket 1 with missing rows on the right *)
Definition ex_hist : histogram (N := Ex) := mkHist [dg 3 1; dg (-8) 4; dg 2 1; dg 3 2] [0; 1; 2; 3].
Definition show_point (r : res (option (split_point (N := Ex)))) : option (option (Z * bool * f64)) :=
  match r with Ret (Some p) => Some (Some (pt_left p, pt_missing_right p, pt_gain p)) | Ret None => Some None | _ => None end.
Example C29_example :
  show_point (find_best_split_point (ex_cfg 0 0 0) ex_hist (dg 0 8) true) = Some (Some (1%Z, true, dbl 32)) /\
  show_point (find_best_split_point (ex_cfg 32 0 0) ex_hist (dg 0 8) true) = Some None.
Proof. vm_compute. split; reflexivity. Qed.

(** A NaN min_gain removes the tolerance: a gain of 1/1048576^2, far below 1e-6, is accepted. *)
Theorem C29_nan_min_gain_refuted : exists (c : config Ex) h whole i m gain,
  is_nan (cf_min_gain c) = true /\ show_point (find_best_split_point c h whole true) = Some (Some (i, m, gain)) /\
  fltb gain (ndiv (dbl 1) (dbl 1000000)) = true.
Proof.
  exists (mkConfig (N := Ex) 1 4 f32_one S754_nan n0 n0 f32_one f32_one 0 [] [] [] [] false [] [] f32_zero false f32_zero false),
    (mkHist [gzero; @mkG Ex (binary_normalize 53 1024 1 (-20) false) (dbl 1);
             @mkG Ex (binary_normalize 53 1024 (-1) (-20) false) (dbl 1)] [1; 2]), (dg 0 2), 0%Z, false, (binary_normalize 53 1024 1 (-39) false).
  split; [reflexivity|]. split; vm_compute; reflexivity.
Qed.
Print Assumptions C29_nan_min_gain_refuted.

(** ** C30 - the recorded gain is the energy reduction of the division made *)
Theorem C30_gain nm b n w gd rows (c : config Exact) rg bk :
  has_rows (mkCol nm (BodyB b)) n -> (forall r, In r rows -> r < n) -> weighted w gd rg rows ->
  (forall r, In r rows -> b_bucket b r = Ret (Z.of_nat (bk r))) -> no_half_zero rg bk rows ->
  forall sp, find_best_float_split b w gd rows c (sum_of rg rows) = Ret (Some sp) ->
  exists kl kr xl xr t mr,
    kl < kr /\ with_data rg bk rows kl /\ with_data rg bk rows kr /\ (forall k, kl < k < kr -> ~ with_data rg bk rows k) /\
    b_bucket_max b (Z.of_nat kl) = Ret xl /\ b_bucket_min b (Z.of_nat kr) = Ret xr /\
    sp_float sp = Some (t, mr) /\ sp_cat sp = None /\
    (if kl =? 0 then exists x, b_bucket_min b 1 = Ret x /\ t = below x else t = middle xl xr) /\
    (gain_floor c < sp_gain sp)%R /\
    (forall p, (forall r, In r rows -> p r = cut_left kr mr (bk r)) ->
       heavy c (sum_of rg (left_rows p rows)) (sum_of rg (right_rows p rows))) /\
    (forall p, (forall r, In r rows -> goes_left (mkCol nm (BodyB b)) sp r (p r)) ->
       divides b (with_data rg bk rows) t kl kr ->
       sp_gain sp = reduction (cf_l2_lambda c) (sum_of rg rows) (sum_of rg (left_rows p rows)) (sum_of rg (right_rows p rows))).
Proof. exact (float_gain nm b n w gd rows c rg bk). Qed.
Print Assumptions C30_gain.

(** No cut of the value range, missing rows on either side, beats the result. *)
Theorem C30_best nm b n w gd rows (c : config Exact) rg bk :
  has_rows (mkCol nm (BodyB b)) n -> (forall r, In r rows -> r < n) -> weighted w gd rg rows ->
  (forall r, In r rows -> b_bucket b r = Ret (Z.of_nat (bk r))) -> no_half_zero rg bk rows ->
  forall res, find_best_float_split b w gd rows c (sum_of rg rows) = Ret res ->
  forall j mr, 1 <= j ->
    let l := sum_of rg (left_rows (fun x => cut_left j mr (bk x)) rows) in
    let r := sum_of rg (right_rows (fun x => cut_left j mr (bk x)) rows) in
    heavy c l r ->
    (reduction (cf_l2_lambda c) (sum_of rg rows) l r <= match res with Some sp => sp_gain sp | None => gain_floor c end)%R.
Proof. exact (float_best nm b n w gd rows c rg bk). Qed.
Print Assumptions C30_best.

(** The same for string columns, without condition on a threshold. *)
Theorem C30_category nm s n w gd rows (c : config Exact) rg bk srt :
  has_rows (mkCol nm (BodyS s)) n -> (forall r, In r rows -> r < n) -> weighted w gd rg rows ->
  (forall r, In r rows -> icol_get (s_ints s) r = Ret (Z.of_nat (bk r))) -> no_half_zero rg bk rows -> sorts srt ->
  forall sp, find_best_string_split srt s w gd rows c (sum_of rg rows) = Ret (Some sp) ->
  exists idx, sp_float sp = None /\ sp_cat sp = Some ([], idx) /\ idx <> [] /\ (gain_floor c < sp_gain sp)%R /\
    forall p, (forall r, In r rows -> goes_left (mkCol nm (BodyS s)) sp r (p r)) ->
      heavy c (sum_of rg (left_rows p rows)) (sum_of rg (right_rows p rows)) /\
      sp_gain sp = reduction (cf_l2_lambda c) (sum_of rg rows) (sum_of rg (left_rows p rows)) (sum_of rg (right_rows p rows)).
Proof. exact (cat_gain nm s n w gd rows c rg bk srt). Qed.
Print Assumptions C30_category.

(** Computed cases, in doubles where everything is exact.  Values 1..4, weights 1. *)
Definition ex_bcol (l : list f32) : bcol := match create_bucketized 100 l with Ret b => b | _ => b_init 0 end.
Definition ones : float_vector := fun _ => Ret f32_one.
Definition ex_rg (gd : list (grad Ex)) (r : nat) : grad Ex := gscale (dbl 1) (nth r gd gzero).
Definition ex_float_search (l : list f32) (gd : list (grad Ex)) (c : config Ex) : res (option (split Ex)) :=
  find_best_float_split (ex_bcol l) ones gd (seq 0 (List.length l)) c (sum_of (ex_rg gd) (seq 0 (List.length l))).
Definition show_split (r : res (option (split Ex))) : option (option (option (f32 * bool) * option (list str * list Z) * f64)) :=
  match r with Ret (Some sp) => Some (Some (sp_float sp, sp_cat sp, sp_gain sp)) | Ret None => Some None | _ => None end.
(** the reduction of the division which the split makes of the rows *)
Definition ex_true_gain (col : column) (n : nat) (gd : list (grad Ex)) (c : config Ex) (sp : split Ex) : f64 :=
  let p r := match go_left col sp r with Ret x => x | _ => false end in
  reduction (cf_l2_lambda c) (sum_of (ex_rg gd) (seq 0 n)) (sum_of (ex_rg gd) (left_rows p (seq 0 n)))
    (sum_of (ex_rg gd) (right_rows p (seq 0 n))).
Definition ex_compare (l : list f32) (gd : list (grad Ex)) (c : config Ex) : option (f64 * f64) :=
  match ex_float_search l gd c with
  | Ret (Some sp) => Some (sp_gain sp, ex_true_gain (mkCol (lit "x") (BodyB (ex_bcol l))) (List.length l) gd c sp)
  | _ => None
  end.
Example C30_example :
  show_split (ex_float_search [fl 1; fnan; fl 4; fl 2] [dg 4 1; dg (-2) 1; dg (-4) 1; dg 2 1] (ex_cfg 0 1 0)) =
    Some (Some (Some (fl 3, true), None, dbl 24)) /\
  ex_compare [fl 1; fnan; fl 4; fl 2] [dg 4 1; dg (-2) 1; dg (-4) 1; dg 2 1] (ex_cfg 0 1 0) = Some (dbl 24, dbl 24).
Proof. vm_compute. split; reflexivity. Qed.

(** Gradients that cancel in a bucket: the bucket is left out of the left side, and the gain is not the real one. *)
Theorem C30_cancelled_refuted : exists l gd c recorded real,
  ex_compare l gd c = Some (recorded, real) /\ fltb real recorded = true.
Proof.
  exists [fl 1; fl 1; fl 2; fl 3], [dg 2 1; dg (-2) 1; dg 2 2; dg (-1) 2], (ex_cfg 0 0 0).
  eexists. eexists. split; vm_compute; reflexivity.
Qed.
Print Assumptions C30_cancelled_refuted.
(** Missing rows whose gradients cancel: they are taken off the left side although they are not in it. *)
Theorem C30_missing_refuted : exists l gd c recorded real,
  show_split (ex_float_search l gd c) = Some (Some (Some (fl 2, true), None, recorded)) /\
  ex_compare l gd c = Some (recorded, real) /\ fltb real recorded = true.
Proof.
  exists [fnan; fnan; fl 1; fl 3], [dg 1 1; dg (-1) 1; dg 6 3; dg (-2) 3], (ex_cfg 0 0 0). eexists. eexists.
  split; [|split]; vm_compute; reflexivity.
Qed.
Print Assumptions C30_missing_refuted.

(** ** C31 - the threshold *)
Theorem C31_between l r : a_float l -> a_float r -> finite_float l = true -> finite_float r = true ->
  fltb l r = true -> finite_float (SFadd 24 128 l r) = true ->
  fleb l (middle l r) = true /\ fleb (middle l r) r = true.
Proof. exact (middle_between l r). Qed.
Print Assumptions C31_between.

(** With room between the limits the left one is strictly below. *)
Theorem C31_strict l m r : a_float l -> a_float m -> a_float r ->
  finite_float l = true -> finite_float m = true -> finite_float r = true ->
  fltb l m = true -> fltb m r = true -> finite_float (SFadd 24 128 l r) = true -> fltb l (middle l r) = true.
Proof. exact (middle_separates l m r). Qed.
Print Assumptions C31_strict.

(** Both on a column: the buckets are divided as the search intended. *)
Theorem C31_divides nb blocks b kl kr xl xr v :
  limit_ok nb -> (zlen (concat blocks) < 4294967294)%Z -> b_load nb blocks = Ret b -> below_inf (concat blocks) ->
  (forall v, In v (concat blocks) -> a_float v) ->
  1 <= kl < kr -> b_bucket_max b (Z.of_nat kl) = Ret xl -> b_bucket_min b (Z.of_nat kr) = Ret xr ->
  finite_float xl = true -> finite_float xr = true -> finite_float (SFadd 24 128 xl xr) = true ->
  a_float v -> finite_float v = true -> fltb xl v = true -> fltb v xr = true ->
  divides b (fun _ => True) (middle xl xr) kl kr.
Proof. exact (fun L Z E I F => middle_divides nb blocks b L Z E I F (fun _ => True) kl kr xl xr v). Qed.
Print Assumptions C31_divides.
(** Only missing rows on the left: always. *)
Theorem C31_missing_divides nb blocks b kr x1 xr :
  limit_ok nb -> (zlen (concat blocks) < 4294967294)%Z -> b_load nb blocks = Ret b -> below_inf (concat blocks) ->
  (forall v, In v (concat blocks) -> a_float v) ->
  1 <= kr -> b_bucket_min b 1 = Ret x1 -> b_bucket_min b (Z.of_nat kr) = Ret xr ->
  divides b (fun _ => True) (below x1) 0 kr.
Proof. exact (fun L Z E I F => below_divides nb blocks b L Z E I F (fun _ => True) kr x1 xr). Qed.
Print Assumptions C31_missing_divides.

(** So the split the search returns makes the division it was recorded for, if a float lies between the two buckets. *)
Theorem C31_search nm nb blocks b w gd rows (c : config Exact) rg bk sp :
  limit_ok nb -> (zlen (concat blocks) < 4294967294)%Z -> b_load nb blocks = Ret b -> below_inf (concat blocks) ->
  (forall v, In v (concat blocks) -> a_float v) ->
  (forall r, In r rows -> r < List.length (concat blocks)) -> weighted w gd rg rows ->
  (forall r, In r rows -> b_bucket b r = Ret (Z.of_nat (bk r))) -> no_half_zero rg bk rows ->
  find_best_float_split b w gd rows c (sum_of rg rows) = Ret (Some sp) ->
  exists kl kr xl xr t mr,
    kl < kr /\ with_data rg bk rows kl /\ with_data rg bk rows kr /\ (forall k, kl < k < kr -> ~ with_data rg bk rows k) /\
    b_bucket_max b (Z.of_nat kl) = Ret xl /\ b_bucket_min b (Z.of_nat kr) = Ret xr /\ sp_float sp = Some (t, mr) /\
    (kl = 0 \/ (finite_float xl = true /\ finite_float xr = true /\ finite_float (SFadd 24 128 xl xr) = true /\
                exists v, a_float v /\ finite_float v = true /\ fltb xl v = true /\ fltb v xr = true) ->
     divides b (fun _ => True) t kl kr /\
     forall p, (forall r, In r rows -> goes_left (mkCol nm (BodyB b)) sp r (p r)) ->
       sp_gain sp = reduction (cf_l2_lambda c) (sum_of rg rows) (sum_of rg (left_rows p rows)) (sum_of rg (right_rows p rows))).
Proof. exact (search_divides nm nb blocks b w gd rows c rg bk sp). Qed.
Print Assumptions C31_search.

Example C31_example : middle (fl 1) (fl 4) = binary_normalize 24 128 5 (-1) false /\ below (fl 1) <> fl 1 /\ fltb (below (fl 1)) (fl 1) = true /\
  (* at 2^20 the step of 1e-3 is lost *) below (fl 1048576) = fl 1048576.
Proof. vm_compute. repeat split; try reflexivity. discriminate. Qed.

Definition next_one : f32 := binary_normalize 24 128 8388609 (-23) false.
(** Neighbouring floats: the threshold is the left limit, and the split sends both rows right. *)
Definition ex_routes (l : list f32) (gd : list (grad Ex)) (c : config Ex) : option (f64 * list (res bool)) :=
  match ex_float_search l gd c with
  | Ret (Some sp) => Some (sp_gain sp, map (go_left (mkCol (lit "x") (BodyB (ex_bcol l))) sp) (seq 0 (List.length l)))
  | _ => None
  end.
Theorem C31_adjacent_refuted : exists l gd c, ex_routes l gd c = Some (dbl 2, [Ret false; Ret false]).
Proof.
  exists [fl 1; next_one], [dg 1 1; dg (-1) 1], (ex_cfg 0 0 0). vm_compute. reflexivity.
Qed.
Print Assumptions C31_adjacent_refuted.
(** Large limits: their float sum is infinite, and the split sends both rows left. *)
Theorem C31_overflow_refuted : exists l gd c, ex_routes l gd c = Some (dbl 2, [Ret true; Ret true]).
Proof.
  exists [binary_normalize 24 128 3 126 false; binary_normalize 24 128 1 127 false], [dg 1 1; dg (-1) 1], (ex_cfg 0 0 0).
  vm_compute. reflexivity.
Qed.
Print Assumptions C31_overflow_refuted.

(** ** C32 - categories in score order *)
Theorem C32_best nm s n w gd rows (c : config Exact) rg bk srt :
  has_rows (mkCol nm (BodyS s)) n -> (forall r, In r rows -> r < n) -> weighted w gd rg rows ->
  (forall r, In r rows -> icol_get (s_ints s) r = Ret (Z.of_nat (bk r))) -> no_half_zero rg bk rows -> sorts srt ->
  (forall r, In r rows -> (0 < gh (sum_of rg (part bk (bk r) rows)))%R) ->
  cf_l2_lambda c = 0%R -> cf_min_hessian c = 0%R ->
  forall P res, find_best_string_split srt s w gd rows c (sum_of rg rows) = Ret res ->
  let left := sum_of rg (left_rows (fun x => P (bk x)) rows) in
  let right := sum_of rg (right_rows (fun x => P (bk x)) rows) in
  heavy c left right ->
  (reduction (cf_l2_lambda c) (sum_of rg rows) left right <= match res with Some sp => sp_gain sp | None => gain_floor c end)%R.
Proof. exact (cat_best nm s n w gd rows c rg bk srt). Qed.
Print Assumptions C32_best.
(** Such sorting functions exist. *)
Theorem C32_sorts : sorts insertion_sort.
Proof. exact insertion_sorts. Qed.
Print Assumptions C32_sorts.

Definition ex_cats (l : list string) : strcol := create_string_column (map lit l).
Definition ex_cat_search (l : list string) (gd : list (grad Ex)) (c : config Ex) : res (option (split Ex)) :=
  find_best_string_split insertion_sort (ex_cats l) ones gd (seq 0 (List.length l)) c (sum_of (ex_rg gd) (seq 0 (List.length l))).
Example C32_example :
  show_split (ex_cat_search ["a"; "b"; "c"; "b"; "d"]%string [dg 5 1; dg (-2) 1; dg 3 1; dg (-3) 1; dg (-3) 2] (ex_cfg 0 0 0)) =
    Some (Some (None, Some ([], [2; 4]%Z), dbl 48)).
Proof. vm_compute. reflexivity. Qed.

Definition ex_other_gain (gd : list (grad Ex)) (c : config Ex) (other : nat -> bool) : f64 :=
  let n := List.length gd in
  reduction (cf_l2_lambda c) (sum_of (ex_rg gd) (seq 0 n)) (sum_of (ex_rg gd) (left_rows other (seq 0 n)))
    (sum_of (ex_rg gd) (right_rows other (seq 0 n))).
Definition ex_beaten (l : list string) (gd : list (grad Ex)) (c : config Ex) (other : nat -> bool) : bool :=
  match show_split (ex_cat_search l gd c) with Some (Some (_, _, recorded)) => fltb recorded (ex_other_gain gd c other) | _ => false end.
(** With an L2 term another division can be better. *)
Theorem C32_lambda_refuted : exists l gd c other, ex_beaten l gd c other = true.
Proof.
  exists ["a"; "b"; "c"]%string, [dg (-1) 1; dg (-9) 1; dg (-6) 16], (ex_cfg 0 8 0), (fun r => r =? 2). vm_compute. reflexivity.
Qed.
Print Assumptions C32_lambda_refuted.
(** So it can when the gradients of a category cancel: that category is never moved left. *)
Theorem C32_cancelled_refuted : exists l gd c other, ex_beaten l gd c other = true /\ feqb (cf_l2_lambda c) (dbl 0) = true.
Proof.
  exists ["a"; "b"; "c"]%string, [dg 1 1; dg 0 1; dg 4 1], (ex_cfg 0 0 0), (fun r => r =? 2). split; vm_compute; reflexivity.
Qed.
Print Assumptions C32_cancelled_refuted.
