(** Gain_proofs.v - the recorded gain of a float split is the reduction of the division it describes. *)
From Coq Require Import SpecFloat Reals Lra.
From Verif Require Import Base Base_proofs F32 F32_proofs Column ColumnSpec ColumnHist_proofs ColumnBucket_proofs
  ColumnProps_proofs DataStore Num Forest Config Par Score ScoreSpec Score_proofs Split SplitSpec Split_proofs Hist_proofs.
Local Close Scope R_scope.

(** ** Facts about a finished column *)
Record bucketized (b : bcol) (n M : nat) : Prop := mkBucketized {
  bz_vec : exists v, icol_vec (b_ints b) = Ret v;
  bz_int : b_max_int b = Z.of_nat M;
  bz_max : List.length (b_maxs b) = M;
  bz_min : List.length (b_mins b) = M;
  bz_two : 2 <= M;
  bz_nan : forall k x, nth_error (b_maxs b) k = Some x -> is_nan x = (k =? 0);
  bz_row : forall r, r < n -> exists k x, b_bucket b r = Ret (Z.of_nat k) /\ k < M /\ b_missing b r = Ret (k =? 0) /\
             nth_error (b_maxs b) k = Some x /\ b_row_max b r = Ret x
}.

Lemma has_rows_bucketized nm b n : has_rows (mkCol nm (BodyB b)) n -> exists M, bucketized b n M.
Proof.
  intros (nb & blocks & L & Zl & E & ->). destruct (b_load_finished nb blocks b L Zl E) as (d0 & m & mid & H).
  exists (List.length (b_maxs b)).
  assert (Zd : (zlen d0 <= zlen (concat blocks))%Z).
  { destruct (fn_prefix _ _ _ _ _ _ H) as [d1 Ed]. rewrite Ed, zlen_app. pose proof (zlen_nonneg d1). lia. }
  assert (Z0 : (zlen d0 < 4294967296)%Z) by lia.
  pose proof (limits_len _ _ _ Z0 (fn_limits _ _ _ _ _ _ H)) as Len.
  destruct (limits_nonnan _ _ _ Z0 (fn_limits _ _ _ _ _ _ H)) as (ms & Em & Hn).
  constructor.
  - eexists. exact (fn_vec _ _ _ _ _ _ H).
  - unfold b_max_int. rewrite u32_small; [reflexivity|]. unfold zlen in *. lia.
  - reflexivity.
  - exact (proj1 (fn_mins _ _ _ _ _ _ H)).
  - rewrite Em. cbn. rewrite app_length. cbn. lia.
  - intros [|k] x Ek; rewrite Em in Ek; cbn in Ek.
    + injection Ek as <-. reflexivity.
    + apply nth_error_In in Ek. rewrite Forall_forall in Hn. exact (Hn _ Ek).
  - intros r R. destruct (nth_error (concat blocks) r) as [v|] eqn:Ev; [|apply nth_error_None in Ev; lia].
    pose proof (fn_get _ _ _ _ _ _ _ _ H Ev) as G.
    destruct (bucketized_size_missing nb blocks b L Zl E) as (_ & _ & Mi). pose proof (Mi r v Ev) as Mv.
    assert (B : (0 <= idx m mid v < zlen (b_maxs b))%Z).
    { destruct (is_nan v) eqn:Nv.
      - rewrite idx_nan by auto. rewrite Em. unfold zlen. cbn [List.length]. lia.
      - pose proof (fn_idx_range _ _ _ _ _ _ v Zl H Nv). lia. }
    exists (Z.to_nat (idx m mid v)).
    destruct (nth_error (b_maxs b) (Z.to_nat (idx m mid v))) as [x|] eqn:Ex.
    2:{ apply nth_error_None in Ex. unfold zlen in B. lia. }
    exists x. rewrite Z2Nat.id by lia. split; [exact G|]. split; [unfold zlen in B; lia|]. split; [|split; [reflexivity|]].
    + unfold b_missing, icol_missing in *. unfold b_bucket in G. rewrite G in *. cbn [bind] in *.
      f_equal. destruct (Nat.eqb_spec (Z.to_nat (idx m mid v)) 0), (Z.eqb_spec (idx m mid v) 0); auto; lia.
    + unfold b_row_max. rewrite G. cbn [bind]. unfold b_bucket_max, vget. rewrite Ex. reflexivity.
Qed.

(** ** Cells, for any integer column *)
Section Cells.
Variables (rg : nat -> grad Exact) (bk : nat -> nat) (rows : list nat) (M : nat).
Notation cellk := (fun k => sum_of rg (part bk k rows)).
Notation with_data := (SplitSpec.with_data rg bk rows).
Definition values : list nat := filter (non_zero (map cellk (seq 0 M))) (seq 0 M).
Definition hist : histogram (N := Exact) := mkHist (map cellk (seq 0 M)) values.

Hypothesis Lt : forall r, In r rows -> bk r < M.
Hypothesis Half : forall k, gg (sum_of rg (part bk k rows)) = 0%R <-> gh (sum_of rg (part bk k rows)) = 0%R.

Lemma cells_hist code w gd : (forall r, In r rows -> code r = Ret (Z.of_nat (bk r))) -> weighted w gd rg rows ->
  compute_histogram code (Z.of_nat M) w gd rows = Ret hist.
Proof.
  intros Hc Wt. unfold compute_histogram. rewrite Nat2Z.id.
  destruct (hist_fold code w gd bk rg M rows) as (h & E & Eh).
  - intros r I. split; [apply Hc, I|apply Lt, I].
  - intros r I. destruct (Wt r I) as (wi & d & E & Ed & ->). unfold row_grad, vget. rewrite E. cbn [bind]. rewrite Ed. reflexivity.
  - rewrite E. cbn [bind]. rewrite Eh. reflexivity.
Qed.

Lemma cell_at k : k < M -> nth_error (map cellk (seq 0 M)) k = Some (cellk k).
Proof.
  clear Lt Half. intros L. rewrite nth_error_map, (nth_error_nth' _ 0) by (rewrite seq_length; lia). cbn. rewrite seq_nth by lia. reflexivity.
Qed.

Lemma non_zero_iff k : k < M -> (non_zero (map cellk (seq 0 M)) k = true <-> with_data k).
Proof.
  clear Lt.
  intros L. unfold non_zero. rewrite (cell_at k L). change (@neqb Exact) with Reqb. unfold SplitSpec.with_data. specialize (Half k).
  change (@n0 Exact) with 0%R.
  rewrite andb_true_iff, !negb_true_iff, !Reqb_false. tauto.
Qed.

Lemma zero_cell k : k < M -> non_zero (map cellk (seq 0 M)) k = false -> cellk k = gzero.
Proof.
  clear Lt.
  intros L E. assert (Nd : ~ with_data k) by (rewrite <- non_zero_iff by exact L; congruence).
  unfold SplitSpec.with_data in Nd. assert (G : gg (cellk k) = 0%R) by (destruct (Req_EM_T (gg (sum_of rg (part bk k rows))) 0); [assumption|contradiction]).
  apply gE; [exact G|]. apply (proj1 (Half k)), G.
Qed.

Lemma values_in k : In k values <-> k < M /\ with_data k.
Proof.
  clear Lt.
  unfold values. rewrite filter_In, in_seq. split.
  - intros [A B]. split; [lia|]. apply non_zero_iff; [lia|exact B].
  - intros [A B]. split; [lia|]. apply non_zero_iff; assumption.
Qed.

Lemma look : Forall2 (fun v d => nth_error (h_data hist) v = Some d) (h_values hist) (map cellk values).
Proof.
  clear Lt.
  cbn [h_data h_values hist]. assert (H : forall k, In k values -> k < M) by (intros k I; apply values_in in I; tauto).
  induction values as [|k l IH]; cbn [map]; constructor.
  - apply cell_at, H. left. reflexivity.
  - apply IH. intros k' I. apply H. right. exact I.
Qed.

(** The sum of the rows a bucket predicate sends left. *)
Lemma side_sum (lb : nat -> bool) : sum_of rg (left_rows (fun r => lb (bk r)) rows) = total_of (map cellk (filter lb values)).
Proof.
  unfold sum_of at 1, left_rows. rewrite (total_buckets bk rg M lb rows Lt).
  unfold values. apply total_drop. intros k I E. apply in_seq in I. apply zero_cell; [lia|exact E].
Qed.

Lemma other_side (p : nat -> bool) : sum_of rg (right_rows p rows) = gsub (sum_of rg rows) (sum_of rg (left_rows p rows)).
Proof.
  unfold sum_of, right_rows, left_rows. rewrite <- (total_split rg p rows). apply gE; cbn; lra.
Qed.

Lemma whole_sum : total_of (map cellk values) = sum_of rg rows.
Proof.
  pose proof (side_sum (fun _ => true)) as X. unfold left_rows in X. rewrite !filter_true in X. symmetry. exact X.
Qed.
End Cells.

Section Gain.
Variables (nm : str) (b : bcol) (n : nat) (w : float_vector) (gd : list (grad Exact)) (rows : list nat)
          (c : config Exact) (rg : nat -> grad Exact) (bk : nat -> nat).
Hypothesis HR : has_rows (mkCol nm (BodyB b)) n.
Hypothesis Rows : forall r, In r rows -> r < n.
Hypothesis Wt : weighted w gd rg rows.
Hypothesis Bk : forall r, In r rows -> b_bucket b r = Ret (Z.of_nat (bk r)).
Hypothesis Half : forall k, gg (sum_of rg (part bk k rows)) = 0%R <-> gh (sum_of rg (part bk k rows)) = 0%R.

Notation cellk := (fun k => sum_of rg (part bk k rows)).
Notation whole := (sum_of rg rows).
Notation with_data := (SplitSpec.with_data rg bk rows).

Section M.
Variable M : nat.
Hypothesis BZ : bucketized b n M.
Notation values := (values rg bk rows M).
Notation hist := (hist rg bk rows M).

Lemma bk_lt r : In r rows -> bk r < M.
Proof.
  intros I. destruct (bz_row _ _ _ BZ r (Rows r I)) as (k & x & E & L & _). rewrite (Bk r I) in E. injection E as E. lia.
Qed.

Lemma hist_ok : compute_histogram (b_bucket b) (b_max_int b) w gd rows = Ret hist.
Proof. rewrite (bz_int _ _ _ BZ). exact (cells_hist rg bk rows M bk_lt (b_bucket b) w gd Bk Wt). Qed.

Lemma prefix_lt j : exists rest, values = filter (fun k => k <? j) values ++ rest.
Proof.
  destruct (Nat.le_gt_cases j M) as [L|L].
  - unfold Gain_proofs.values. rewrite filter_seq_lt by exact L. exists (filter (non_zero (map cellk (seq 0 M))) (seq j (M - j))).
    rewrite <- filter_app. change (seq j (M - j)) with (seq (0 + j) (M - j)). rewrite <- seq_app. do 2 f_equal. lia.
  - exists []. rewrite app_nil_r. unfold Gain_proofs.values. symmetry. apply filter_lt_seq. lia.
Qed.

Lemma first_cut j : 1 <= j -> sum_of rg (left_rows (fun r => cut_left j false (bk r)) rows) =
  first_part (map cellk values) (List.length (filter (fun k => k <? j) values)).
Proof.
  intros J. rewrite (side_sum rg bk rows M bk_lt Half). unfold first_part.
  rewrite (filter_ext (cut_left j false) (fun k => k <? j)).
  2:{ intros k. unfold cut_left. destruct (Nat.eqb_spec k 0) as [->|]; [|reflexivity]. symmetry. apply Nat.ltb_lt. lia. }
  destruct (prefix_lt j) as (rest & E). remember (filter (fun k => k <? j) values) as P eqn:EP. clear EP. rewrite E.
  rewrite map_app, firstn_app, map_length, Nat.sub_diag.
  rewrite <- (map_length cellk), firstn_all. cbn [firstn]. rewrite app_nil_r. reflexivity.
Qed.

Lemma missing_cut j : sum_of rg (left_rows (fun r => cut_left j true (bk r)) rows) =
  gsub (sum_of rg (left_rows (fun r => cut_left j false (bk r)) rows)) (cellk 0).
Proof.
  unfold sum_of at 1 2, left_rows. rewrite !(total_buckets bk rg M _ rows bk_lt).
  pose proof (bz_two _ _ _ BZ). replace (seq 0 M) with (0 :: seq 1 (M - 1)) by (replace M with (S (M - 1)) at 2 by lia; reflexivity).
  cbn [filter]. replace (cut_left j true 0) with false by reflexivity. replace (cut_left j false 0) with true by reflexivity.
  cbn [map]. rewrite total_cons.
  rewrite (filter_ext_in (cut_left j true) (cut_left j false)).
  2:{ intros k I. apply in_seq in I. unfold cut_left. destruct (Nat.eqb_spec k 0); [lia|reflexivity]. }
  apply gE; cbn; change (cell bk rg rows 0) with (cellk 0); lra.
Qed.

Definition mo : option (grad Exact) := missing_of true hist.
Lemma mo_spec : (with_data 0 /\ mo = Some (cellk 0)) \/ (cellk 0 = gzero /\ mo = None).
Proof.
  pose proof (bz_two _ _ _ BZ) as T. unfold mo, missing_of, movable. cbn [h_data hist].
  replace (seq 0 M) with (0 :: seq 1 (M - 1)) by (replace M with (S (M - 1)) at 2 by lia; reflexivity). cbn [map].
  change (@neqb Exact) with Reqb. change (@n0 Exact) with 0%R. specialize (Half 0). unfold SplitSpec.with_data.
  destruct (Reqb (gg (cellk 0)) 0) eqn:E1.
  - right. apply Reqb_iff in E1. assert (E2 : gh (cellk 0) = 0%R) by tauto. split; [apply gE; assumption|].
    apply Reqb_iff in E2. rewrite E2. reflexivity.
  - left. apply Reqb_false in E1. split; [exact E1|]. reflexivity.
Qed.

Notation cand := (candidate c whole (map cellk values) mo).
Notation side j mr := (sum_of rg (left_rows (fun r => cut_left j mr (bk r)) rows)).
Notation lam := (cf_l2_lambda c).

Lemma energy_zero : energy (N := Exact) lam gzero = 0%R.
Proof.
  unfold energy. cbn [gg gh gzero]. destruct (neqb _ _); [reflexivity|]. cbn. unfold Rdiv. ring.
Qed.
Lemma reduction_none : reduction lam whole gzero (gsub whole gzero) = 0%R.
Proof.
  unfold reduction. change (@energy_of Exact) with (@energy Exact). rewrite energy_zero. replace (gsub whole gzero) with whole by (apply gE; cbn; lra). cbn. lra.
Qed.
Lemma reduction_sym l r : reduction lam whole l r = reduction lam whole r l.
Proof. unfold reduction. cbn. lra. Qed.
Lemma heavy_sym l r : heavy c l r -> heavy c r l.
Proof.
  unfold heavy, nmin. change (@nltb Exact) with Rltb. rewrite !Rltb_iff. change (@nltb Exact) with Rltb.
  destruct (Rltb (gh r) (gh l)) eqn:E1, (Rltb (gh l) (gh r)) eqn:E2; try rewrite Rltb_iff in *; try rewrite Rltb_false in *; lra.
Qed.

(** Every cut of the buckets is a candidate or gains nothing. *)
Lemma cut_candidate j mr : 1 <= j -> heavy c (side j mr) (gsub whole (side j mr)) ->
  (exists i m, cand i m (reduction lam whole (side j mr) (gsub whole (side j mr)))) \/
  reduction lam whole (side j mr) (gsub whole (side j mr)) = 0%R.
Proof.
  intros J Hv. set (i := List.length (filter (fun k => k <? j) values)).
  assert (Li : i <= List.length values).
  { destruct (prefix_lt j) as (rest & E). apply (f_equal (@List.length nat)) in E. rewrite app_length in E. subst i. lia. }
  assert (Ef : side j false = first_part (map cellk values) i) by (apply first_cut, J).
  assert (Whole : first_part (map cellk values) (List.length values) = whole).
  { unfold first_part. rewrite <- (map_length cellk), firstn_all. exact (whole_sum rg bk rows M bk_lt Half). }
  assert (Zero : with_data 0 -> exists vs, values = 0 :: vs).
  { intros D. unfold Gain_proofs.values. pose proof (bz_two _ _ _ BZ) as T.
    assert (E : non_zero (map cellk (seq 0 M)) 0 = true) by (apply (non_zero_iff rg bk rows M Half); [lia|exact D]).
    generalize dependent (non_zero (map cellk (seq 0 M))). intros f E.
    replace (seq 0 M) with (0 :: seq 1 (M - 1)) by (replace M with (S (M - 1)) at 2 by lia; reflexivity).
    cbn [filter]. rewrite E. eauto. }
  assert (Plain : mr = false \/ cellk 0 = gzero -> side j mr = first_part (map cellk values) i).
  { intros [->|Z0]; [exact Ef|]. destruct mr; [|exact Ef]. rewrite missing_cut, Z0, Ef. apply gE; cbn; lra. }
  destruct mo_spec as [[D0 Mo]|[Z0 Mo]].
  - destruct mr.
    + rewrite missing_cut, Ef in *. destruct (Zero D0) as (vs & Ev).
      assert (I1 : 1 <= i). { subst i. rewrite Ev. cbn [filter]. destruct (Nat.ltb_spec 0 j); [cbn; lia|lia]. }
      replace (gsub whole (gsub (first_part (map cellk values) i) (cellk 0))) with
        (gadd (rest_part whole (map cellk values) i) (cellk 0)) in * by (unfold rest_part; apply gE; cbn; lra).
      destruct (Nat.eq_dec i (List.length values)) as [Ei|Ni].
      * rewrite Ei, Whole in *. assert (F1 : first_part (map cellk values) 1 = cellk 0).
        { rewrite Ev. unfold first_part. cbn [map firstn]. rewrite total_cons. apply gadd_0_r. }
        destruct (Nat.eq_dec (List.length values) 1) as [E1|N1].
        -- right. assert (C0 : cellk 0 = whole) by (rewrite <- F1, <- E1; exact Whole).
           unfold rest_part. rewrite Whole. rewrite C0. rewrite <- reduction_none. f_equal; apply gE; cbn; lra.
        -- left. exists 1, false. rewrite reduction_sym.
           assert (L1 : 1 <= 1 < List.length (map cellk values)).
           { rewrite map_length. rewrite Ev in *. cbn [List.length] in *. lia. }
           replace (gadd (rest_part whole (map cellk values) (List.length values)) (cellk 0)) with (first_part (map cellk values) 1) in *
             by (unfold rest_part; rewrite Whole, F1; apply gE; cbn; lra).
           replace (gsub whole (cellk 0)) with (rest_part whole (map cellk values) 1) in * by (unfold rest_part; rewrite F1; reflexivity).
           apply CandLeft; [exact L1|]. apply heavy_sym, Hv.
      * left. exists i, true. apply CandRight; [rewrite map_length; lia|exact Mo|exact Hv|].
        intros _. apply Reqb_iff. reflexivity.
    + rewrite Ef in *. destruct (Nat.eq_dec i (List.length values)) as [Ei|Ni].
      * right. rewrite Ei, Whole in *. rewrite reduction_sym. replace (gsub whole whole) with (@gzero Exact) by (apply gE; cbn; lra).
        rewrite <- reduction_none. f_equal. apply gE; cbn; lra.
      * destruct (Nat.eq_dec i 0) as [E0|N0].
        -- right. rewrite E0. apply reduction_none.
        -- left. exists i, false. apply CandLeft; [rewrite map_length; lia|exact Hv].
  - rewrite Plain in * by auto. destruct (Nat.eq_dec i (List.length values)) as [Ei|Ni].
    + right. rewrite Ei, Whole in *. rewrite reduction_sym. replace (gsub whole whole) with (@gzero Exact) by (apply gE; cbn; lra).
      rewrite <- reduction_none. f_equal. apply gE; cbn; lra.
    + destruct (Nat.eq_dec i 0) as [E0|N0].
      * right. rewrite E0. apply reduction_none.
      * left. exists i, false. apply CandLeft; [rewrite map_length; lia|exact Hv].
Qed.
End M.
Notation values := (values rg bk rows).
Notation hist := (hist rg bk rows).

Lemma Rltb_no a x : Rltb a x = false -> (x <= a)%R.
Proof. apply Rltb_false. Qed.
Lemma floor_nonneg : (0 <= gain_floor c)%R.
Proof. apply Rltb_no. exact (floor_zero exact_ordered c). Qed.

(** No cut of the buckets beats the result. *)
Lemma float_best r : find_best_float_split b w gd rows c whole = Ret r ->
  forall j mr, 1 <= j ->
    let l := sum_of rg (left_rows (fun x => cut_left j mr (bk x)) rows) in
    let r' := sum_of rg (right_rows (fun x => cut_left j mr (bk x)) rows) in
    heavy c l r' ->
    (reduction (cf_l2_lambda c) whole l r' <= match r with Some sp => sp_gain sp | None => gain_floor c end)%R.
Proof.
  intros E j mr J l r' Hv. destruct (has_rows_bucketized _ _ _ HR) as (M & BZ).
  unfold find_best_float_split in E. destruct (bz_vec _ _ _ BZ) as (v & Ev). rewrite Ev in E. cbn [bind] in E.
  rewrite (hist_ok M BZ) in E. cbn [bind] in E.
  destruct (split_point_spec exact_ordered c (hist M) whole true _ (look rg bk rows M Half)) as (p & Ep & Sp).
  rewrite Ep in E. cbn [bind] in E. pose proof floor_nonneg as F0.
  subst l r'. rewrite other_side in *. 
  destruct (cut_candidate M BZ j mr J Hv) as [(i & m & C)|Z0].
  - destruct p as [p|].
    + apply bind_ret in E. destruct E as (lv & _ & E). apply bind_ret in E. destruct E as (rv & _ & E).
      apply bind_ret in E. destruct E as (xl & _ & E). apply bind_ret in E. destruct E as (xr & _ & E).
      apply bind_ret in E. destruct E as (t & _ & E). injection E as <-. cbn [sp_gain].
      destruct Sp as (_ & _ & _ & B & _). apply Rltb_no. exact (B _ _ _ C).
    + injection E as <-. apply Rltb_no. exact (Sp _ _ _ C).
  - rewrite Z0. destruct p as [p|].
    + apply bind_ret in E. destruct E as (lv & _ & E). apply bind_ret in E. destruct E as (rv & _ & E).
      apply bind_ret in E. destruct E as (xl & _ & E). apply bind_ret in E. destruct E as (xr & _ & E).
      apply bind_ret in E. destruct E as (t & _ & E). injection E as <-. cbn [sp_gain].
      destruct Sp as (_ & _ & F & _). apply Rltb_iff in F. change (nt Exact) with R in *. lra.
    + injection E as <-. exact F0.
Qed.

Lemma float_gain sp : find_best_float_split b w gd rows c whole = Ret (Some sp) ->
  exists kl kr xl xr t mr,
    kl < kr /\ with_data kl /\ with_data kr /\ (forall k, kl < k < kr -> ~ with_data k) /\
    b_bucket_max b (Z.of_nat kl) = Ret xl /\ b_bucket_min b (Z.of_nat kr) = Ret xr /\
    sp_float sp = Some (t, mr) /\ sp_cat sp = None /\
    (if kl =? 0 then exists x, b_bucket_min b 1 = Ret x /\ t = below x else t = middle xl xr) /\
    (gain_floor c < sp_gain sp)%R /\
    (forall p, (forall r, In r rows -> p r = cut_left kr mr (bk r)) ->
       heavy c (sum_of rg (left_rows p rows)) (sum_of rg (right_rows p rows))) /\
    (forall p, (forall r, In r rows -> goes_left (mkCol nm (BodyB b)) sp r (p r)) ->
       divides b with_data t kl kr ->
       sp_gain sp = reduction (cf_l2_lambda c) whole (sum_of rg (left_rows p rows)) (sum_of rg (right_rows p rows))).
Proof.
  intros E. destruct (has_rows_bucketized _ _ _ HR) as (M & BZ).
  unfold find_best_float_split in E. destruct (bz_vec _ _ _ BZ) as (v & Ev). rewrite Ev in E. cbn [bind] in E.
  rewrite (hist_ok M BZ) in E. cbn [bind] in E.
  destruct (split_point_spec exact_ordered c (hist M) whole true _ (look rg bk rows M Half)) as (p & Ep & Sp).
  rewrite Ep in E. cbn [bind] in E. destruct p as [p|]; [|discriminate].
  destruct Sp as (P0 & C & F & _ & _).
  apply bind_ret in E. destruct E as (kl & El & E). apply bind_ret in E. destruct E as (kr & Er & E).
  apply bind_ret in E. destruct E as (xl & Exl & E). apply bind_ret in E. destruct E as (xr & Exr & E).
  apply bind_ret in E. destruct E as (t & Et & E). injection E as <-. cbn [sp_gain sp_float].
  apply vget_ret in El, Er. cbn [h_values hist] in El, Er.
  set (i := Z.to_nat (pt_left p + 1)) in *.
  assert (Il : Z.to_nat (pt_left p) = i - 1) by (subst i; lia). rewrite Il in El.
  assert (I1 : 1 <= i) by (subst i; lia).
  destruct (filter_seq_firstn _ _ _ _ _ El) as (Pl & Bl & Fl). destruct (filter_seq_firstn _ _ _ _ _ Er) as (Pr & Br & Fr).
  rewrite Nat.sub_0_r in Pl, Pr.
  assert (Sorted : forall a a' k k', a < a' -> nth_error (values M) a = Some k -> nth_error (values M) a' = Some k' -> k < k').
  { intros a a' k k' L Ea Ea'. destruct (filter_seq_firstn _ _ _ _ _ Ea') as (Pa & _ & _). rewrite Nat.sub_0_r in Pa.
    assert (In k (firstn a' (values M))).
    { assert (X : nth_error (firstn a' (values M)) a = Some k).
      { rewrite <- (firstn_skipn a' (values M)) in Ea. rewrite nth_error_app1 in Ea; [exact Ea|].
        rewrite firstn_length. assert (a' < List.length (values M)) by (apply nth_error_Some; congruence). lia. }
      apply nth_error_In in X. exact X. }
    unfold Gain_proofs.values in H at 1. fold (values M) in H. unfold Gain_proofs.values in H. rewrite Pa in H. apply filter_In in H. destruct H as [H _].
    apply in_seq in H. lia. }
  assert (Dl : with_data kl) by (apply (non_zero_iff rg bk rows M Half); [lia|exact Fl]).
  assert (Dr : with_data kr) by (apply (non_zero_iff rg bk rows M Half); [lia|exact Fr]).
  assert (Lt : kl < kr) by (apply (Sorted (i - 1) i); [lia|exact El|exact Er]).
  assert (Gap : forall k, kl < k < kr -> ~ with_data k).
  { intros k K D. assert (I : In k (values M)) by (apply (values_in rg bk rows M Half); split; [lia|exact D]).
    apply In_nth_error in I. destruct I as [a Ea].
    destruct (Nat.lt_trichotomy a i) as [X|[X|X]].
    - destruct (Nat.eq_dec a (i - 1)) as [->|]; [assert (k = kl) by congruence; lia|].
      pose proof (Sorted a (i - 1) _ _ ltac:(lia) Ea El). lia.
    - subst a. assert (k = kr) by congruence. lia.
    - pose proof (Sorted i a _ _ X Er Ea). lia. }
  assert (Cut : i = List.length (filter (fun k => k <? kr) (values M))).
  { unfold Gain_proofs.values. rewrite filter_seq_lt by lia. rewrite <- Pr. rewrite firstn_length.
    assert (i < List.length (values M)) by (apply nth_error_Some; congruence). unfold Gain_proofs.values in H. lia. }
  set (mr := pt_missing_right p) in *.
  set (side := sum_of rg (left_rows (fun x => cut_left kr mr (bk x)) rows)).
  assert (Ef : sum_of rg (left_rows (fun x => cut_left kr false (bk x)) rows) = first_part (map (fun k => sum_of rg (part bk k rows)) (values M)) i).
  { rewrite (first_cut M BZ) by lia. rewrite <- Cut. reflexivity. }
  assert (Key : heavy c side (gsub whole side) /\ pt_gain p = reduction (cf_l2_lambda c) whole side (gsub whole side)).
  { inversion C as [i0 Hi Hv E1 E2 E3|i0 m Hi Hm Hv Hn E1 E2 E3].
    - assert (Es : side = first_part (map (fun k => sum_of rg (part bk k rows)) (values M)) i).
      { subst side. rewrite <- E2. exact Ef. }
      rewrite Es. split; [exact Hv|reflexivity].
    - destruct (mo_spec M BZ) as [[_ Mo]|[_ Mo]]; unfold mo in Mo; rewrite Mo in Hm; [|discriminate]. injection Hm as <-.
      assert (Es : side = gsub (first_part (map (fun k => sum_of rg (part bk k rows)) (values M)) i) (sum_of rg (part bk 0 rows))).
      { subst side. rewrite <- E2, (missing_cut M BZ), Ef. reflexivity. }
      rewrite Es. replace (gsub whole (gsub (first_part (map (fun k => sum_of rg (part bk k rows)) (values M)) i) (sum_of rg (part bk 0 rows)))) with
        (gadd (rest_part whole (map (fun k => sum_of rg (part bk k rows)) (values M)) i) (sum_of rg (part bk 0 rows))) by (unfold rest_part; apply gE; cbn; lra).
      split; [exact Hv|reflexivity]. }
  exists kl, kr, xl, xr, t, mr. repeat (split; [eassumption || reflexivity|]). split; [|split; [|split]].
  - assert (Nx : is_nan xl = (kl =? 0)).
    { unfold b_bucket_max in Exl. rewrite Nat2Z.id in Exl. apply vget_ret in Exl. exact (bz_nan _ _ _ BZ _ _ Exl). }
    rewrite Nx in Et. destruct (kl =? 0).
    + apply bind_ret in Et. destruct Et as (x & Ex & Et). injection Et as <-. eauto.
    + injection Et as <-. reflexivity.
  - apply Rltb_iff in F. exact F.
  - intros q Hq. rewrite other_side. unfold left_rows at 1 2. rewrite (filter_ext_in q (fun x => cut_left kr mr (bk x))) by exact Hq.
    exact (proj1 Key).
  - intros q Hq Dv. rewrite other_side.
    assert (Eq : sum_of rg (left_rows q rows) = side).
    { set (lb := fun k => if k =? 0 then negb mr else match nth_error (b_maxs b) k with Some x => fltb x t | None => false end).
      assert (Eq : left_rows q rows = left_rows (fun r => lb (bk r)) rows).
      { apply filter_ext_in. intros r I. pose proof (Hq r I) as G.
        destruct (bz_row _ _ _ BZ r (Rows r I)) as (k & x & Gb & Lk & Mk & Xk & Rk).
        rewrite (Bk r I) in Gb. injection Gb as Gb. apply Nat2Z.inj in Gb. subst k. unfold lb.
        inversion G; subst; cbn [sp_float] in *.
        - match goal with X : Some _ = Some _ |- _ => injection X as <- <- end.
          match goal with X : b_missing b r = Ret true |- _ => rewrite Mk in X; injection X as X; rewrite X end. reflexivity.
        - match goal with X : Some _ = Some _ |- _ => injection X as <- <- end.
          match goal with X : b_missing b r = Ret false |- _ => rewrite Mk in X; injection X as X; rewrite X end.
          rewrite Xk. congruence. }
      rewrite Eq. subst side. rewrite !(side_sum rg bk rows M (bk_lt M BZ) Half). f_equal. f_equal. apply filter_ext_in. intros k I.
      apply (values_in rg bk rows M Half) in I. destruct I as [Lk Dk]. unfold lb, cut_left. destruct (Nat.eqb_spec k 0) as [|Nk]; [reflexivity|].
      destruct (nth_error (b_maxs b) k) as [x|] eqn:Ex.
      2:{ apply nth_error_None in Ex. rewrite (bz_max _ _ _ BZ) in Ex. lia. }
      destruct (Dv k x ltac:(lia) Dk) as [D1 D2].
      { unfold b_bucket_max. rewrite Nat2Z.id. apply vget_ret. exact Ex. }
      destruct (Nat.ltb_spec k kr).
      - apply D1. destruct (Nat.le_gt_cases k kl); [assumption|]. exfalso. apply (Gap k); [lia|exact Dk].
      - apply D2. assumption. }
    rewrite Eq. exact (proj2 Key).
Qed.
End Gain.
