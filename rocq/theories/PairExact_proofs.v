(** PairExact_proofs.v - the pairwise losses in exact arithmetic (properties C47 and C49). *)
From Coq Require Import Reals Lra Permutation SpecFloat.
From Flocq Require Import Core IEEE754.BinarySingleNaN.
From Verif Require Import Base Base_proofs F32 F32_proofs Num Config Split SplitSpec Loss LossSpec Pairwise PairSpec Calculus_proofs FloatReal_proofs.
Local Open Scope R_scope.

(** ** Sums *)
Lemma rows_sum_ext rows g g' : (forall i, In i rows -> g i = g' i) -> rows_sum rows g = rows_sum rows g'.
Proof.
  unfold rows_sum. induction rows as [|i rows IH]; intros H; cbn; [reflexivity|].
  rewrite (H i (or_introl eq_refl)), IH; [reflexivity|]. intros k I. apply H. right. exact I.
Qed.
Lemma rows_sum_plus rows g g' : rows_sum rows (fun i => g i + g' i) = rows_sum rows g + rows_sum rows g'.
Proof. unfold rows_sum. induction rows as [|i rows IH]; cbn; [lra|]. rewrite IH. lra. Qed.
Lemma rows_sum_one rows k x : NoDup rows -> In k rows -> rows_sum rows (fun i => if (k =? i)%nat then x else 0) = x.
Proof.
  intros ND I. unfold rows_sum. induction ND as [|i rows NI ND IH]; [destruct I|]. cbn. destruct (Nat.eqb_spec k i) as [->|Ne].
  - assert (Z0 : fold_right Rplus 0 (map (fun j => if (i =? j)%nat then x else 0) rows) = 0); [|lra].
    clear - NI. induction rows as [|j rows IH]; cbn; [reflexivity|]. destruct (Nat.eqb_spec i j) as [->|_]; [exfalso; apply NI; left; reflexivity|].
    rewrite IH; [lra|]. intros I. apply NI. right. exact I.
  - destruct I as [->|I]; [congruence|]. rewrite (IH I). lra.
Qed.

Definition inside (rows : list nat) (u : push Exact) : Prop := In (pu_pos u) rows /\ In (pu_neg u) rows /\ pu_pos u <> pu_neg u.

Lemma push_g r (d : grad Exact) (u : push Exact) : pu_pos u <> pu_neg u -> exact_g (push_row r d u) =
  exact_g d + ((if (pu_pos u =? r)%nat then exact_weight u * exact_g (p_grad (pu_point u)) else 0) +
               (if (pu_neg u =? r)%nat then - (exact_weight u * exact_g (p_grad (pu_point u))) else 0)).
Proof.
  intros Ne. unfold push_row, exact_g, exact_weight. destruct (Nat.eqb_spec (pu_pos u) r) as [E1|N1], (Nat.eqb_spec (pu_neg u) r) as [E2|N2].
  - congruence.
  - cbn. lra.
  - cbn. lra.
  - cbn. lra.
Qed.
Lemma push_h r (d : grad Exact) (u : push Exact) : 0 <= exact_weight u -> 0 <= exact_hessian u -> 0 <= exact_h d -> 0 <= exact_h (push_row r d u).
Proof.
  unfold push_row, exact_h, exact_weight, exact_hessian. intros W H D.
  assert (X : 0 <= 2 * pu_weight u * gh (p_grad (pu_point u))) by (apply Rmult_le_pos; [apply Rmult_le_pos; [lra|exact W]|exact H]).
  destruct (pu_pos u =? r)%nat; [|destruct (pu_neg u =? r)%nat]; cbn in *; lra.
Qed.

Lemma pushed_sum rows us : NoDup rows -> Forall (inside rows) us -> rows_sum rows (fun r => exact_g (pushed us r)) = 0.
Proof.
  intros ND F. unfold pushed.
  assert (G : forall d : nat -> grad Exact, rows_sum rows (fun r => exact_g (fold_left (push_row r) us (d r))) = rows_sum rows (fun r => exact_g (d r))).
  { induction F as [|u us (Ip & In' & Ne) F IH]; intros d; [reflexivity|]. cbn [fold_left].
    rewrite (IH (fun r => push_row r (d r) u)).
    rewrite (rows_sum_ext rows _ _ (fun r _ => push_g r (d r) u Ne)).
    rewrite !rows_sum_plus. rewrite !rows_sum_one by assumption. lra. }
  rewrite (G (fun _ => gzero)). clear. unfold rows_sum. induction rows as [|i rows IH]; cbn in *; lra.
Qed.
Lemma pushed_h us r : Forall (fun u => 0 <= exact_weight u /\ 0 <= exact_hessian u) us -> 0 <= exact_h (pushed us r).
Proof.
  intros F. unfold pushed. assert (G : forall d : grad Exact, 0 <= exact_h d -> 0 <= exact_h (fold_left (push_row r) us d)).
  { induction F as [|u us (W & H) F IH]; intros d D; [exact D|]. cbn. apply IH, push_h; assumption. }
  apply G. cbn. lra.
Qed.

Lemma is_push_inside weight lossf y wv t f g factor rk u : Permutation rk (gr_rows g) ->
  is_push (N := Exact) weight lossf y wv t f g factor u -> inside rk u.
Proof.
  intros P (a & b & pw & Ea & Eb & Lt & _). apply nth_error_In in Ea, Eb.
  repeat split; [eapply Permutation_in; [apply Permutation_sym, P|exact Ea]|eapply Permutation_in; [apply Permutation_sym, P|exact Eb]|].
  intros E. rewrite E, fltb_irrefl in Lt. discriminate.
Qed.

Lemma explained_sums srt to_uint c wr weight lossf n y rows wv t p f (at_ : nat -> option (grad Exact)) :
  NoDup (concat rows) -> explained (N := Exact) srt to_uint c wr weight lossf n y rows wv t p f at_ ->
  forall rk, In rk rows -> exists d, (forall r, In r rk -> at_ r = Some (d r)) /\ rows_sum rk (fun r => exact_g (d r)) = 0 /\
    ((forall g u, Permutation rk (gr_rows g) -> is_push (N := Exact) weight lossf y wv t f g (rescale (N := Exact) c rows t rk) u ->
        0 <= exact_weight u /\ 0 <= exact_hessian u) -> forall r, In r rk -> 0 <= exact_h (d r)) /\
    (num_pairs t rk = 0%nat -> forall r, In r rk -> d r = gzero).
Proof.
  intros ND E rk I. destruct (E rk I) as (g0 & g & us & _ & _ & P & _ & Fu & Ru). exists (pushed us).
  assert (NDk : NoDup rk).
  { clear - ND I. induction rows as [|x rows IH]; [destruct I|]. cbn in ND. destruct I as [->|I].
    - clear IH. induction rk as [|q x IH]; [constructor|]. cbn in ND. inversion ND as [|? ? NI ND']; subst. constructor; [|apply IH, ND'].
      intros J. apply NI, in_app_iff. left. exact J.
    - apply IH; [|exact I]. clear - ND. induction x as [|q x IH]; [exact ND|]. cbn in ND. inversion ND; auto. }
  split; [exact Ru|]. split; [|split].
  - apply pushed_sum; [exact NDk|]. rewrite Forall_forall in *. intros u Iu. eapply is_push_inside; [exact P|apply Fu, Iu].
  - intros H r _. apply pushed_h. rewrite Forall_forall in *. intros u Iu. apply (H g u P), Fu, Iu.
  - intros Z0 r _. destruct us as [|u us]; [reflexivity|exfalso]. inversion Fu as [|? ? Hu _]; subst.
    pose proof (is_push_inside _ _ _ _ _ _ _ _ _ _ P Hu) as (Ip & In' & _). destruct Hu as (a & b & pw & _ & _ & Lt & _).
    assert (X : In (pu_pos u, pu_neg u) (better_pairs t rk)) by (unfold better_pairs; apply filter_In; split; [apply in_prod; assumption|exact Lt]).
    unfold num_pairs in Z0. destruct (better_pairs t rk); [destruct X|discriminate].
Qed.

(** ** The discount *)
Lemma discount_real b k : discount (N := Exact) b k = ln b / ln (b + INR k).
Proof. unfold discount. cbn. rewrite INR_IZR_INZ. reflexivity. Qed.
Lemma ln_pos x : 1 < x -> 0 < ln x.
Proof. intros H. rewrite <- ln_1. apply ln_increasing; lra. Qed.
Lemma discount_first b : 1 < b -> discount (N := Exact) b 0 = 1.
Proof. intros H. rewrite discount_real. cbn. rewrite Rplus_0_r. pose proof (ln_pos b H). field. lra. Qed.
Lemma discount_positive b k : 1 < b -> 0 < discount (N := Exact) b k.
Proof.
  intros H. rewrite discount_real. pose proof (pos_INR k). apply Rdiv_lt_0_compat; [apply ln_pos, H|apply ln_pos; lra].
Qed.
Lemma discount_decreasing b j k : 1 < b -> (j < k)%nat -> discount (N := Exact) b k < discount (N := Exact) b j.
Proof.
  intros H L. rewrite !discount_real. pose proof (pos_INR j). apply lt_INR in L. unfold Rdiv. apply Rmult_lt_compat_l; [apply ln_pos, H|].
  apply Rinv_lt_contravar; [apply Rmult_lt_0_compat; apply ln_pos; lra|]. apply ln_increasing; lra.
Qed.
Lemma discount_inj b j k : 1 < b -> discount (N := Exact) b j = discount (N := Exact) b k -> j = k.
Proof.
  intros H E. destruct (Nat.lt_trichotomy j k) as [L|[L|L]]; [|exact L|]; pose proof (discount_decreasing b _ _ H L); lra.
Qed.

(** ** Weights *)
Local Instance P32p : FLX.Prec_gt_0 24 := eq_refl.
Local Instance M32p : Prec_lt_emax 24 128 := eq_refl.
Lemma real_val v : real_of v = SF2R radix2 v.
Proof.
  destruct v as [s|s| |s m e]; try reflexivity. cbn [real_of SF2R]. unfold F2R. cbn [Fnum Fexp]. f_equal.
  rewrite bpow_powerRZ. reflexivity.
Qed.
Lemma float_order a b : a_float a -> a_float b -> finite_float a = true -> finite_float b = true ->
  (fltb a b = true <-> real_of a < real_of b) /\ (feqb a b = true <-> real_of a = real_of b).
Proof.
  intros Va Vb Fa Fb. rewrite !real_val. unfold fltb, feqb, SFltb, SFeqb.
  rewrite (compare_val 24 128 a b Va Vb Fa Fb). destruct (Rcompare_spec (SF2R radix2 a) (SF2R radix2 b)); split; split; intros; try discriminate; try reflexivity; lra.
Qed.

Definition pair_target (y : float_vector) (g : group) (k : nat) (v : f32) : Prop := exists r, nth_error (gr_rows g) k = Some r /\ y r = Ret v.

Lemma target_diff_real y g a b va vb : pair_target y g a va -> pair_target y g b vb ->
  target_diff (N := Exact) y g (a, b) = Ret (real_of va - real_of vb).
Proof.
  intros (i & Ei & Yi) (j & Ej & Yj). unfold target_diff, group_y, vget. cbn [fst snd]. rewrite Ei. cbn [bind]. rewrite Yi. cbn [bind].
  rewrite Ej. cbn [bind]. rewrite Yj. reflexivity.
Qed.
Lemma lambda_weight_real base y g a b va vb ra rb : pair_target y g a va -> pair_target y g b vb ->
  nth_error (gr_ranks g) a = Some ra -> nth_error (gr_ranks g) b = Some rb ->
  lambda_weight (N := Exact) base y g (a, b) = Ret ((real_of va - real_of vb) * Rabs (discount (N := Exact) base ra - discount (N := Exact) base rb)).
Proof.
  intros Ta Tb Ra Rb. unfold lambda_weight. rewrite (target_diff_real y g a b va vb Ta Tb). cbn [bind fst snd]. unfold vget. rewrite Ra, Rb. reflexivity.
Qed.

Lemma lambda_weight_spec (base : R) y g g' a b i j va vb ra rb : 1 < base ->
  nth_error (gr_rows g) a = Some i -> nth_error (gr_rows g) b = Some j -> y i = Ret va -> y j = Ret vb ->
  a_float va -> a_float vb -> finite_float va = true -> finite_float vb = true -> fltb va vb = false ->
  nth_error (gr_ranks g) a = Some ra -> nth_error (gr_ranks g) b = Some rb ->
  gr_rows g' = gr_rows g -> nth_error (gr_ranks g') a = Some rb -> nth_error (gr_ranks g') b = Some ra ->
  exists w : R, lambda_weight (N := Exact) base y g (a, b) = Ret w /\ lambda_weight (N := Exact) base y g' (a, b) = Ret w /\
    0 <= w /\ (w = 0 <-> ra = rb \/ feqb va vb = true) /\
    w = (real_of va - real_of vb) * Rabs (discount (N := Exact) base ra - discount (N := Exact) base rb).
Proof.
  intros B Ea Eb Yi Yj Va Vb Fa Fb Lt Ra Rb Rg Ra' Rb'. eexists. split.
  { apply (lambda_weight_real base y g a b va vb ra rb); [exists i; auto|exists j; auto|exact Ra|exact Rb]. }
  destruct (float_order va vb Va Vb Fa Fb) as [L1 E1].
  assert (D : 0 <= real_of va - real_of vb).
  { destruct (Rlt_dec (real_of va) (real_of vb)) as [H|H]; [apply L1 in H; congruence|lra]. }
  split; [|split; [|split; [|reflexivity]]].
  - rewrite (lambda_weight_real base y g' a b va vb rb ra); [|exists i; rewrite Rg; auto|exists j; rewrite Rg; auto|exact Ra'|exact Rb'].
    f_equal. f_equal. apply Rabs_minus_sym.
  - apply Rmult_le_pos; [exact D|apply Rabs_pos].
  - split.
    + intros H. apply Rmult_integral in H. destruct H as [H|H]; [right; apply E1; lra|left].
      apply (discount_inj base); [exact B|]. destruct (Req_dec (discount (N := Exact) base ra - discount (N := Exact) base rb) 0) as [Z0|Z0]; [lra|].
      apply Rabs_no_R0 in Z0. contradiction.
    + intros [->|H]; [match goal with |- _ * Rabs (?x - ?x) = 0 => replace (x - x) with 0 by lra end; rewrite Rabs_R0; lra|apply E1 in H; rewrite H; lra].
Qed.

Lemma lambda_table_undefined {N : Num} (base : N) : lambda_table base = Undef.
Proof. reflexivity. Qed.
Lemma base_one c_exp c_log : c_log (SpecFloat.binary_normalize 53 1024 1%Z 0%Z false) = S754_zero false -> discount (N := IEEE c_exp c_log) (SpecFloat.binary_normalize 53 1024 1%Z 0%Z false) 0 = S754_nan.
Proof.
  intros H. unfold discount. cbn [nlog nstore nadd nZ ndiv IEEE]. rewrite H.
  replace (to_f64 (to_f32 (SpecFloat.SFadd 53 1024 (SpecFloat.binary_normalize 53 1024 1%Z 0%Z false) (SpecFloat.binary_normalize 53 1024 (Z.of_nat 0) 0%Z false)))) with (SpecFloat.binary_normalize 53 1024 1%Z 0%Z false) by (vm_compute; reflexivity).
  rewrite H. reflexivity.
Qed.
Lemma discount_example : discount (N := Exact) 2 2 = 1 / 2.
Proof.
  change (@eq R (discount (N := Exact) 2 2) (1 / 2)). rewrite discount_real. replace (2 + INR 2) with (2 * 2) by (cbn; lra). rewrite ln_mult by lra.
  pose proof (ln_pos 2 ltac:(lra)). field. lra.
Qed.
