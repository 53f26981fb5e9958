(** Factory_proofs.v - LossFuncFactory (property C70). *)
From Coq Require Import SpecFloat Reals Lra.
From Verif Require Import Base Base_proofs F32 Column Num Par Config Split SplitSpec Tree Train Loss LossSpec Calculus_proofs Pairwise PairSpec
  PairExact_proofs FactorySpec.
Local Open Scope R_scope.

Lemma row_factory srt threads to_uint pick (c : config Exact) name binary form : row_loss name binary form -> cf_loss_func c = lit name ->
  exists lossf, create_loss srt threads to_uint pick c = Some (pointwise_loss threads binary lossf) /\ forall y f, loss_of lossf y f = form y f.
Proof.
  intros L E. unfold create_loss. rewrite E. destruct L; [exists mse|exists log_loss|exists huberized_hinge]; (split; [reflexivity|]); intros y f.
  - change ((y - f) * (y - f) = (y - f) ^ 2). ring.
  - rewrite (proj1 (log_loss_real y f)). unfold logistic. repeat f_equal. ring.
  - rewrite hinge_loss. unfold huber. destruct (Rle_dec 1 (y * f)); [reflexivity|]. destruct (Rle_dec 0 (y * f)); lra.
Qed.

Lemma base_real (c : config Exact) : a_float (cf_dcg_base c) -> finite_float (cf_dcg_base c) = true ->
  dcg_base c = if Rlt_dec 0 (real_of (cf_dcg_base c)) then real_of (cf_dcg_base c) else 2.
Proof.
  intros V F. unfold dcg_base.
  destruct (float_order f32_zero (cf_dcg_base c) ltac:(reflexivity) V ltac:(reflexivity) F) as [H _].
  replace (real_of f32_zero) with 0 in H by (rewrite real_val; cbn; lra).
  destruct (fltb f32_zero (cf_dcg_base c)), (Rlt_dec 0 (real_of (cf_dcg_base c))) as [L|L]; try reflexivity.
  - destruct L. apply H. reflexivity.
  - apply H in L. discriminate.
Qed.

Lemma pair_factory srt threads to_uint pick (c : config Exact) name ranked form : pair_loss name ranked form -> cf_loss_func c = lit name ->
  exists weight lossf, create_loss srt threads to_uint pick c = Some (pairwise_loss srt threads to_uint pick c ranked weight lossf) /\
    pair_kind c ranked weight lossf /\ (forall t d, 0 < t -> loss_of lossf t d = form t d) /\
    forall y g a b i j va vb ra rb, a_float (cf_dcg_base c) -> finite_float (cf_dcg_base c) = true ->
      nth_error (gr_rows g) a = Some i -> nth_error (gr_rows g) b = Some j -> y i = Ret va -> y j = Ret vb ->
      nth_error (gr_ranks g) a = Some ra -> nth_error (gr_ranks g) b = Some rb ->
      weight y g (a, b) = Ret (pair_weight ranked c (real_of va) (real_of vb) ra rb).
Proof.
  intros L E. unfold create_loss. rewrite E.
  assert (Bw : forall y g a b i j va vb, nth_error (gr_rows g) a = Some i -> nth_error (gr_rows g) b = Some j -> y i = Ret va -> y j = Ret vb ->
     basic_weight (N := Exact) (cf_delta_target c) y g (a, b) = Ret (if cf_delta_target c then real_of va - real_of vb else 1)).
  { intros y g a b i j va vb Ga Gb Ya Yb. unfold basic_weight. destruct (cf_delta_target c); [|reflexivity].
    apply (target_diff_real y g a b va vb); [exists i; auto|exists j; auto]. }
  assert (Hb : forall d, loss_of huberized_hinge 1 d = huber d).
  { intros d. rewrite hinge_loss. rewrite !Rmult_1_l. unfold huber. destruct (Rle_dec 1 d); [reflexivity|]. destruct (Rle_dec 0 d); lra. }
  assert (Lg : forall d, loss_of log_loss 1 d = logistic d).
  { intros d. rewrite (proj1 (log_loss_real 1 d)). unfold logistic. repeat f_equal. ring. }
  destruct L.
  - exists (basic_weight (cf_delta_target c)), (fun _ d => huberized_hinge n1 d). split; [reflexivity|]. split; [constructor|]. split; [intros t d _; apply Hb|].
    intros; unfold pair_weight; eapply Bw; eauto.
  - exists (basic_weight (cf_delta_target c)), (fun t d => squared_hinge t d). split; [reflexivity|]. split; [constructor|]. split; [|intros; unfold pair_weight; eapply Bw; eauto].
    intros t d T. change (loss_of squared_hinge t d = Rmax 0 (t - d) ^ 2). rewrite square_loss. unfold Rmax. destruct (Rlt_dec 0 ((t - d) * t)) as [P|P], (Rle_dec 0 (t - d)) as [Q|Q].
    + ring.
    + exfalso. assert ((t - d) * t <= 0) by nra. lra.
    + assert (t - d = 0) by nra. nra.
    + ring.
  - exists (basic_weight (cf_delta_target c)), (fun _ d => log_loss n1 d). split; [reflexivity|]. split; [constructor|]. split; [intros t d _; apply Lg|].
    intros; unfold pair_weight; eapply Bw; eauto.
  - exists (lambda_weight (dcg_base c)), (fun _ d => log_loss n1 d). split; [reflexivity|]. split; [constructor|]. split; [intros t d _; apply Lg|].
    intros y g a b i j va vb ra rb Vb Fb Ga Gb Ya Yb Ra Rb.
    rewrite (lambda_weight_real (dcg_base c) y g a b va vb ra rb); [|exists i; auto|exists j; auto|exact Ra|exact Rb].
    unfold pair_weight, dcg_discount. rewrite !discount_real, (base_real c Vb Fb). reflexivity.
Qed.

Lemma unknown_loss {N : Num} srt threads to_uint pick (c : config N) :
  (forall name binary form, row_loss name binary form -> cf_loss_func c <> lit name) ->
  (forall name ranked form, pair_loss name ranked form -> cf_loss_func c <> lit name) ->
  create_loss srt threads to_uint pick c = None.
Proof.
  intros R P. unfold create_loss. cbn [assoc].
  repeat match goal with |- context [str_eqb (cf_loss_func c) ?x] =>
    destruct (str_eqb_spec (cf_loss_func c) x) as [Q|_];
    [exfalso; first [eapply R; [constructor|exact Q] | eapply P; [constructor|exact Q]]|]
  end. reflexivity.
Qed.
