(** PairStep_proofs.v - a round of boosting with a pairwise loss, in exact arithmetic. *)
From Coq Require Import Reals Lra Sorted Permutation SpecFloat.
From Verif Require Import Base F32 Column ColumnSpec DataStore Num Forest Config Score ScoreSpec Eval EvalSpec Split SplitSpec Tree TreeSpec Train TrainSpec Par Subsampling Loss LossSpec
  Split_proofs Subsampling_proofs Score_proofs Eval_proofs Hist_proofs Sum_proofs Tree_proofs Train_proofs Loss_proofs Mse_proofs Range_proofs Calculus_proofs FloatReal_proofs ConstantSpec Constant_proofs
  StepSpec Step_proofs Pairwise PairSpec Pairwise_proofs PairExact_proofs PairFinal_proofs PairStepSpec.
Local Open Scope R_scope.

(** ** Sums over pairs *)
Lemma over_cons u us q : over (u :: us) q = q u + over us q.
Proof. reflexivity. Qed.
Lemma over_ext us q q' : (forall u, In u us -> q u = q' u) -> over us q = over us q'.
Proof. unfold over. induction us as [|u us IH]; intros H; cbn; [reflexivity|]. rewrite (H u (or_introl eq_refl)), IH; [reflexivity|]. intros z I. apply H. right. exact I. Qed.
Lemma over_le us q q' : (forall u, In u us -> q u <= q' u) -> over us q <= over us q'.
Proof. unfold over. induction us as [|u us IH]; intros H; cbn; [lra|]. apply Rplus_le_compat; [apply H; left; reflexivity|apply IH; intros z I; apply H; right; exact I]. Qed.
Lemma over_plus us q q' : over us (fun u => q u + q' u) = over us q + over us q'.
Proof. unfold over. induction us as [|u us IH]; cbn; [lra|]. rewrite IH. lra. Qed.
Lemma over_mult us k q : over us (fun u => k * q u) = k * over us q.
Proof. unfold over. induction us as [|u us IH]; cbn; [lra|]. rewrite IH. lra. Qed.
Lemma over_pos us q : (forall u, In u us -> 0 <= q u) -> 0 <= over us q.
Proof. intros H. unfold over. induction us as [|u us IH]; cbn; [lra|]. apply Rplus_le_le_0_compat; [apply H; left; reflexivity|apply IH; intros z I; apply H; right; exact I]. Qed.
Lemma lsum_one n k x : (k < n)%nat -> lsum (seq 0 n) (fun i => if (k =? i)%nat then x else 0) = x.
Proof. intros I. apply (rows_sum_one (seq 0 n) k x); [apply seq_NoDup|apply in_seq; lia]. Qed.
Lemma lsum_at n k (q : nat -> R) : (k < n)%nat -> lsum (seq 0 n) (fun i => if (k =? i)%nat then q i else 0) = q k.
Proof.
  intros I. rewrite (lsum_ext _ _ (fun i => if (k =? i)%nat then q k else 0)); [apply lsum_one, I|]. intros i _. destruct (Nat.eqb_spec k i) as [->|]; reflexivity.
Qed.

(** Rows and pairs: sums of what the pairs bring to the rows *)
Definition at_g (r : nat) (u : push Exact) : R :=
  (if (pu_pos u =? r)%nat then exact_weight u * exact_g (p_grad (pu_point u)) else 0) + (if (pu_neg u =? r)%nat then - (exact_weight u * exact_g (p_grad (pu_point u))) else 0).
Definition meets (r : nat) (u : push Exact) : R := if ((pu_pos u =? r) || (pu_neg u =? r))%nat then exact_weight u else 0.
Lemma pushed_over_g us r : Forall (fun u => pu_pos u <> pu_neg u) us -> exact_g (pushed us r) = over us (at_g r).
Proof.
  intros F. unfold pushed. assert (G : forall d : grad Exact, exact_g (fold_left (push_row r) us d) = exact_g d + over us (at_g r)).
  { induction F as [|u us Ne F IH]; intros d; cbn [fold_left]; [unfold over; cbn; lra|]. rewrite IH, (push_g r d u Ne), over_cons. unfold at_g. lra. }
  rewrite G. unfold exact_g, gzero. cbn. lra.
Qed.
Lemma pushed_over_h us r : exact_h (pushed us r) = over us (fun u => 2 * (exact_hessian u * meets r u)).
Proof.
  unfold pushed. assert (G : forall d : grad Exact, exact_h (fold_left (push_row r) us d) = exact_h d + over us (fun u => 2 * (exact_hessian u * meets r u))).
  { induction us as [|u us IH]; intros d; cbn [fold_left]; [unfold over; cbn; lra|]. rewrite IH, over_cons. unfold push_row, meets, exact_h, exact_weight, exact_hessian.
    destruct (pu_pos u =? r)%nat; [|destruct (pu_neg u =? r)%nat]; cbn; lra. }
  rewrite G. unfold exact_h, gzero. cbn. lra.
Qed.
Lemma rows_g n us q : Forall (inside (seq 0 n)) us ->
  lsum (seq 0 n) (fun r => q r * exact_g (pushed us r)) = over us (fun u => exact_weight u * exact_g (p_grad (pu_point u)) * (q (pu_pos u) - q (pu_neg u))).
Proof.
  intros F. rewrite (lsum_ext _ _ (fun r => q r * over us (at_g r))).
  2: { intros r _. rewrite pushed_over_g; [reflexivity|]. eapply Forall_impl; [|exact F]. intros u (_ & _ & N). exact N. }
  induction F as [|u us (Ip & In' & Ne) F IH].
  - rewrite (lsum_ext _ _ (fun r => 0 * q r)); [rewrite lsum_mult; unfold over; cbn; lra|]. intros. unfold over; cbn; lra.
  - rewrite over_cons, <- IH. rewrite (lsum_ext _ _ (fun r => (q r * at_g r u) + q r * over us (at_g r))) by (intros; rewrite over_cons; lra).
    rewrite lsum_plus. f_equal. set (m := exact_weight u * exact_g (p_grad (pu_point u))). apply in_seq in Ip, In'.
    rewrite (lsum_ext _ _ (fun r => (if (pu_pos u =? r)%nat then m * q r else 0) + (if (pu_neg u =? r)%nat then - m * q r else 0))).
    2: { intros r _. unfold at_g. fold m. destruct (pu_pos u =? r)%nat, (pu_neg u =? r)%nat; lra. }
    rewrite lsum_plus, (lsum_at n (pu_pos u) (fun r => m * q r)), (lsum_at n (pu_neg u) (fun r => - m * q r)) by lia. lra.
Qed.
Lemma rows_w n us q : Forall (inside (seq 0 n)) us ->
  lsum (seq 0 n) (fun r => q r * over us (meets r)) = over us (fun u => exact_weight u * (q (pu_pos u) + q (pu_neg u))).
Proof.
  intros F. induction F as [|u us (Ip & In' & Ne) F IH].
  - rewrite (lsum_ext _ _ (fun r => 0 * q r)); [rewrite lsum_mult; unfold over; cbn; lra|]. intros. unfold over; cbn; lra.
  - rewrite over_cons, <- IH. rewrite (lsum_ext _ _ (fun r => (q r * meets r u) + q r * over us (meets r))) by (intros; rewrite over_cons; lra).
    rewrite lsum_plus. f_equal. apply in_seq in Ip, In'.
    rewrite (lsum_ext _ _ (fun r => (if (pu_pos u =? r)%nat then exact_weight u * q r else 0) + (if (pu_neg u =? r)%nat then exact_weight u * q r else 0))).
    2: { intros r _. unfold meets. destruct (Nat.eqb_spec (pu_pos u) r) as [E1|], (Nat.eqb_spec (pu_neg u) r) as [E2|]; cbn; try lra. congruence. }
    rewrite lsum_plus, (lsum_at n (pu_pos u) (fun r => exact_weight u * q r)), (lsum_at n (pu_neg u) (fun r => exact_weight u * q r)) by lia. lra.
Qed.

(** ** One pair: the loss lies below parabolas *)
Lemma pair_below lossf factor top : pair_scale lossf factor top -> forall dt x d, 0 < dt ->
  loss_of lossf dt (x + d) <= loss_of lossf dt x - factor * g_of lossf dt x * d + factor * top / 2 * (d * d).
Proof.
  intros [| |] dt x d Dt.
  - refine (below huberized_hinge (fun _ => 1) 1 1 1 _ 0%nat ltac:(lia) x d). right. split; [auto|auto 10].
  - change (loss_of squared_hinge dt (x + d) <= loss_of squared_hinge dt x - 2 * g_of squared_hinge dt x * d + 2 * 1 / 2 * (d * d)). rewrite !square_loss, square_g.
    destruct (Rlt_dec 0 ((dt - (x + d)) * dt)) as [A|A], (Rlt_dec 0 ((dt - x) * dt)) as [B|B]; try nra.
    + assert (dt - x <= 0) by nra. assert (0 < dt - (x + d)) by nra. nra.
    + pose proof (Rle_0_sqr (dt - x - d)) as S. unfold Rsqr in S. lra.
  - refine (below log_loss (fun _ => 1) 1 1 (1 / 4) _ 0%nat ltac:(lia) x d). right. split; [auto|auto 10].
Qed.
Lemma scale_pos lossf factor top : pair_scale lossf factor top -> 0 < factor /\ 0 < top.
Proof. intros []; lra. Qed.
(** At the difference 0 the hessian is the largest. *)
Lemma scale_zero lossf factor top dt : pair_scale lossf factor top -> 0 < dt -> h_of lossf dt 0 = top.
Proof.
  intros [| |] Dt.
  - change (h_of huberized_hinge 1 0 = 1). rewrite hinge_h. destruct (Rle_dec _ _); [lra|]. destruct (Rle_dec _ _); lra.
  - change (h_of squared_hinge dt 0 = 1). rewrite square_h. destruct (Rlt_dec _ _); [reflexivity|nra].
  - change (h_of log_loss 1 0 = 1 / 4). destruct (log_loss_real 1 0) as (_ & _ & ->). replace (- (1) * 0) with 0 by ring. rewrite exp_0. field.
Qed.
Lemma scale_nonneg lossf factor top dt x : pair_scale lossf factor top -> 0 <= h_of lossf dt x.
Proof. intros []; [apply hinge_positive|apply square_positive|apply Rlt_le, log_positive]. Qed.

(** ** A step *)
Section Step.
Variables (lossf : Exact -> Exact -> point Exact) (t : nat -> f32) (us : list (push Exact)) (f : list R) (lambda factor top w0 : R) (wv : nat -> R) (label : nat -> list bool) (s : nat -> R).
Let n := List.length f.
Let gap (u : push Exact) : R := real_of (t (pu_pos u)) - real_of (t (pu_neg u)).
Hypothesis Scale : pair_scale lossf factor top.
Hypothesis Inside : Forall (inside (seq 0 n)) us.
Hypothesis Wpos : forall u, In u us -> 0 <= exact_weight u.
Hypothesis Gap : forall u, In u us -> 0 < gap u.
Hypothesis Point : forall u, In u us -> pu_point u = lossf (gap u) (nth (pu_pos u) f 0 - nth (pu_neg u) f 0).
Hypothesis Same : forall i, (i < n)%nat -> wv i = w0.
Hypothesis Wp : 0 < w0.
Hypothesis Newton : pair_tree wv us f lambda label s.
Let mates := leaf_mates f label.
Let LG i := pair_leaf_g wv us f label i.
Let LH i := pair_leaf_h wv us f label i.
Let LW i := pair_leaf_w us f label i.

Lemma pair_mate i j : In j (mates i) -> (j < n)%nat /\ label j = label i.
Proof. unfold mates, leaf_mates. rewrite filter_In, in_seq. fold n. destruct (list_eq_dec Bool.bool_dec (label j) (label i)) as [E|]; [|intros [_ X]; discriminate X]. intros [X _]. split; [lia|exact E]. Qed.
Lemma pair_same_leaf i j : label j = label i -> mates j = mates i.
Proof. intros E. unfold mates, leaf_mates. rewrite E. reflexivity. Qed.
Lemma pair_same_score i j : (i < n)%nat -> In j (mates i) -> s j = s i.
Proof.
  intros I J. destruct (pair_mate i j J) as [Jn E]. destruct (Newton i I) as [A B], (Newton j Jn) as [A' B'].
  assert (pair_leaf_h wv us f label j = pair_leaf_h wv us f label i) as Eh by (unfold pair_leaf_h; f_equal; exact (pair_same_leaf i j E)).
  assert (pair_leaf_g wv us f label j = pair_leaf_g wv us f label i) as Eg by (unfold pair_leaf_g; f_equal; exact (pair_same_leaf i j E)).
  rewrite Eh in A', B'. rewrite Eg in A'.
  destruct (Req_EM_T (pair_leaf_h wv us f label i + lambda) 0) as [Z|Z]; [rewrite (B Z), (B' Z); reflexivity|rewrite (A Z), (A' Z); reflexivity].
Qed.
Lemma pair_leaf_G i : (i < n)%nat -> s i * LG i = (LH i + lambda) * (s i * s i).
Proof.
  intros I. destruct (Newton i I) as [A B]. fold (LG i) (LH i) in A, B. destruct (Req_EM_T (LH i + lambda) 0) as [Z|Z]; [rewrite (B Z), Z; ring|].
  rewrite (A Z). field. exact Z.
Qed.
Lemma pair_leaf_H i : LH i = w0 * lsum (mates i) (fun r => over us (fun u => 2 * (exact_hessian u * meets r u))).
Proof.
  unfold LH, pair_leaf_h. rewrite <- lsum_mult. apply lsum_ext. intros r R0. rewrite (Same r (proj1 (pair_mate i r R0))), pushed_over_h. reflexivity.
Qed.
Lemma pair_leaf_W i : LW i = lsum (mates i) (fun r => over us (meets r)).
Proof. reflexivity. Qed.
Lemma hessian_of u : In u us -> exact_hessian u = h_of lossf (gap u) (nth (pu_pos u) f 0 - nth (pu_neg u) f 0).
Proof. intros I. unfold exact_hessian. rewrite (Point u I). reflexivity. Qed.
Lemma meets_pos r u : In u us -> 0 <= meets r u.
Proof. intros I. unfold meets. destruct (_ || _)%bool; [apply Wpos, I|lra]. Qed.
Lemma pair_leaf_h_pos i : 0 <= LH i.
Proof.
  rewrite pair_leaf_H. apply Rmult_le_pos; [lra|]. apply lsum_pos. intros r _. apply over_pos. intros u I.
  apply Rmult_le_pos; [lra|]. apply Rmult_le_pos; [rewrite (hessian_of u I); eapply scale_nonneg; exact Scale|apply meets_pos, I].
Qed.
Lemma pair_leaf_w_all i : LW i <= 2 * pairs_weight us.
Proof.
  assert (lsum (seq 0 n) (fun r => over us (meets r)) = 2 * pairs_weight us) as A.
  { rewrite (lsum_ext _ _ (fun r => 1 * over us (meets r))) by (intros; ring). rewrite (rows_w n us (fun _ => 1) Inside). unfold pairs_weight. rewrite <- over_mult. apply over_ext. intros. ring. }
  rewrite <- A, pair_leaf_W. rewrite (lsum_split (fun j => if list_eq_dec Bool.bool_dec (label j) (label i) then true else false) (seq 0 n)).
  change (mates i) with (filter (fun j => if list_eq_dec Bool.bool_dec (label j) (label i) then true else false) (seq 0 n)).
  assert (0 <= lsum (filter (fun i0 => negb (if list_eq_dec Bool.bool_dec (label i0) (label i) then true else false)) (seq 0 n)) (fun r => over us (meets r))); [|lra].
  apply lsum_pos. intros r _. apply over_pos. intros u I. apply meets_pos, I.
Qed.
(** At the largest hessian, the hessian of a leaf is twice its weight times that. *)
Lemma pair_leaf_steep i : (forall u, In u us -> exact_hessian u = top) -> LH i = 2 * top * w0 * LW i.
Proof.
  intros H. rewrite pair_leaf_H, pair_leaf_W, <- (lsum_mult _ (2 * top * w0)), <- lsum_mult. apply lsum_ext. intros r _.
  rewrite (over_ext us (fun u => 2 * (exact_hessian u * meets r u)) (fun u => 2 * top * meets r u)); [rewrite over_mult; ring|]. intros u I. rewrite (H u I). ring.
Qed.

Lemma pair_small_step k (f' : list R) : (forall i, (i < n)%nat -> nth i f' 0 = nth i f 0 + k * s i) -> 0 <= k ->
  (forall i, (i < n)%nat -> k * top * w0 * LW i <= LH i + lambda) -> pairs_loss lossf t us f' <= pairs_loss lossf t us f.
Proof.
  intros Nx Kp Sm. destruct (scale_pos _ _ _ Scale) as [Fp Tp].
  assert (pairs_loss lossf t us f' <= pairs_loss lossf t us f +
    factor * (- k * over us (fun u => exact_weight u * exact_g (p_grad (pu_point u)) * (s (pu_pos u) - s (pu_neg u))) +
      top * (k * k) * over us (fun u => exact_weight u * (s (pu_pos u) * s (pu_pos u) + s (pu_neg u) * s (pu_neg u))))) as B.
  { unfold pairs_loss. rewrite <- !over_mult, <- over_plus, <- over_mult, <- over_plus. apply over_le. intros u I.
    rewrite Forall_forall in Inside. destruct (Inside u I) as (Ip & In' & _). apply in_seq in Ip, In'. rewrite (Nx (pu_pos u)), (Nx (pu_neg u)) by lia.
    set (x := nth (pu_pos u) f 0 - nth (pu_neg u) f 0). set (sa := s (pu_pos u)). set (sb := s (pu_neg u)).
    replace (nth (pu_pos u) f 0 + k * sa - (nth (pu_neg u) f 0 + k * sb)) with (x + k * (sa - sb)) by (unfold x; ring).
    pose proof (pair_below lossf factor top Scale (gap u) x (k * (sa - sb)) (Gap u I)) as Q.
    assert (exact_g (p_grad (pu_point u)) = g_of lossf (gap u) x) as Eg by (rewrite (Point u I); reflexivity). rewrite Eg.
    fold (gap u). pose proof (Wpos u I) as W.
    assert (k * (sa - sb) * (k * (sa - sb)) <= 2 * (k * k) * (sa * sa + sb * sb)) as S2.
    { assert (0 <= k * k * ((sa + sb) * (sa + sb))) by (apply Rmult_le_pos; apply Rle_0_sqr). nra. }
    assert (factor * top / 2 * (k * (sa - sb) * (k * (sa - sb))) <= factor * top / 2 * (2 * (k * k) * (sa * sa + sb * sb))) as S3.
    { apply Rmult_le_compat_l; [|exact S2]. apply Rmult_le_pos; [apply Rmult_le_pos; lra|lra]. }
    apply Rle_trans with (exact_weight u * (loss_of lossf (gap u) x - factor * g_of lossf (gap u) x * (k * (sa - sb)) + factor * top / 2 * (2 * (k * k) * (sa * sa + sb * sb)))).
    - apply Rmult_le_compat_l; [exact W|lra].
    - right. field. }
  rewrite <- (rows_g n us s Inside), <- (rows_w n us (fun r => s r * s r) Inside) in B.
  assert (lsum (seq 0 n) (fun r => - k * (s r * exact_g (pushed us r)) + top * (k * k) * (s r * s r * over us (meets r))) <= 0) as Q.
  { apply (groups_le (list_eq_dec Bool.bool_dec) label _ n); [rewrite seq_length; lia|]. intros i I. apply in_seq in I. assert (i < n)%nat as In0 by lia.
    change (lsum (mates i) (fun r => - k * (s r * exact_g (pushed us r)) + top * (k * k) * (s r * s r * over us (meets r))) <= 0).
    apply (Rmult_le_reg_l w0); [exact Wp|]. rewrite Rmult_0_r, <- lsum_mult.
    rewrite (lsum_ext _ _ (fun r => (- k * s i) * (wv r * exact_g (pushed us r)) + (w0 * (top * (k * k) * (s i * s i))) * over us (meets r))).
    2: { intros r R0. rewrite (pair_same_score i r In0 R0), (Same r (proj1 (pair_mate i r R0))). ring. }
    rewrite lsum_plus, !lsum_mult. change (lsum (mates i) (fun r => wv r * exact_g (pushed us r))) with (LG i). rewrite <- pair_leaf_W.
    pose proof (pair_leaf_G i In0) as G. pose proof (Sm i In0) as Si. assert (0 <= k * (s i * s i)) as P by (apply Rmult_le_pos; [exact Kp|apply Rle_0_sqr]).
    assert (k * (s i * s i) * (k * top * w0 * LW i) <= k * (s i * s i) * (LH i + lambda)) by (apply Rmult_le_compat_l; assumption). nra. }
  rewrite lsum_plus, !lsum_mult in Q. nra.
Qed.
Lemma pair_penalised k f' : (forall i, (i < n)%nat -> nth i f' 0 = nth i f 0 + k * s i) -> 0 <= k -> 2 * k * top * w0 * pairs_weight us <= lambda ->
  pairs_loss lossf t us f' <= pairs_loss lossf t us f.
Proof.
  intros Nx Kp Sm. destruct (scale_pos _ _ _ Scale) as [Fp Tp]. apply (pair_small_step k f' Nx Kp). intros i I. pose proof (pair_leaf_h_pos i). pose proof (pair_leaf_w_all i).
  assert (k * top * w0 * LW i <= k * top * w0 * (2 * pairs_weight us)); [|lra]. apply Rmult_le_compat_l; [|assumption]. repeat apply Rmult_le_pos; lra.
Qed.
Lemma pair_level k f' : (forall i, (i < n)%nat -> nth i f' 0 = nth i f 0 + k * s i) -> 0 <= k <= 2 -> 0 <= lambda -> (forall u, In u us -> nth (pu_pos u) f 0 = nth (pu_neg u) f 0) ->
  pairs_loss lossf t us f' <= pairs_loss lossf t us f.
Proof.
  intros Nx Kp Lp Ev. destruct (scale_pos _ _ _ Scale) as [Fp Tp]. apply (pair_small_step k f' Nx (proj1 Kp)). intros i I. rewrite pair_leaf_steep.
  - assert (0 <= LW i). { rewrite pair_leaf_W. apply lsum_pos. intros r _. apply over_pos. intros u Iu. apply meets_pos, Iu. }
    assert (k * (top * w0 * LW i) <= 2 * (top * w0 * LW i)); [|lra]. apply Rmult_le_compat_r; [repeat apply Rmult_le_pos; lra|lra].
  - intros u Iu. rewrite (hessian_of u Iu), (Ev u Iu). replace (nth (pu_neg u) f 0 - nth (pu_neg u) f 0) with 0 by ring. eapply scale_zero; [exact Scale|exact (Gap u Iu)].
Qed.
End Step.

(** ** The sampled pairs of all groups *)
Lemma both_imply {A B} (P Q : A -> B -> Prop) l l' : (forall a b, P a b -> Q a b) -> Forall2 P l l' -> Forall2 Q l l'.
Proof. intros H. induction 1; constructor; auto. Qed.
Lemma untouched r (us : list (push Exact)) : forall d, (forall u, In u us -> pu_pos u <> r /\ pu_neg u <> r) -> fold_left (push_row r) us d = d.
Proof.
  induction us as [|u us IH]; intros d H; [reflexivity|]. cbn [fold_left]. destruct (H u (or_introl eq_refl)) as [A B].
  unfold push_row at 2. apply Nat.eqb_neq in A, B. rewrite A, B. apply IH. intros z I. apply H. right. exact I.
Qed.
Lemma pieces_inside rows pieces : Forall2 (fun rk piece => Forall (inside rk) piece) rows pieces -> forall u, In u (concat pieces) -> inside (concat rows) u.
Proof.
  induction 1 as [|rk piece rows pieces F Fs IH]; intros u I; [destruct I|]. cbn in I |- *. apply in_app_iff in I. destruct I as [I|I].
  - rewrite Forall_forall in F. destruct (F u I) as (A & B & C). repeat split; [apply in_app_iff; auto..|exact C].
  - destruct (IH u I) as (A & B & C). repeat split; [apply in_app_iff; auto..|exact C].
Qed.
Lemma pieces_pushed (at_ : nat -> option (grad Exact)) rows pieces : Forall2 (fun rk piece => Forall (inside rk) piece /\ forall r, In r rk -> at_ r = Some (pushed piece r)) rows pieces ->
  NoDup (concat rows) -> forall r, In r (concat rows) -> at_ r = Some (pushed (concat pieces) r).
Proof.
  induction 1 as [|rk piece rows pieces (F & H) Fs IH]; intros ND r I; [destruct I|]. cbn [concat] in *.
  assert (Dx : forall z, In z rk -> ~ In z (concat rows)).
  { intros z Iz Jz. apply in_split in Jz. destruct Jz as (l1 & l2 & E). rewrite E in ND. rewrite app_assoc in ND. apply NoDup_remove_2 in ND. apply ND. rewrite !in_app_iff. auto. }
  assert (ND' : NoDup (concat rows)) by (clear - ND; induction rk as [|x rk IHr]; [exact ND|]; inversion ND; auto).
  unfold pushed. rewrite fold_left_app. apply in_app_iff in I. destruct I as [I|I].
  - rewrite (H r I). unfold pushed. rewrite (untouched r (concat pieces)); [reflexivity|]. intros u Iu.
    assert (Fi : Forall2 (fun rk piece => Forall (inside rk) piece) rows pieces) by (clear - Fs; induction Fs as [|a b l l' (X & _) Fs IHs]; constructor; auto).
    destruct (pieces_inside rows pieces Fi u Iu) as (A & B & _). split; intros X; [rewrite X in A; exact (Dx r I A)|rewrite X in B; exact (Dx r I B)].
  - rewrite (untouched r piece); [exact (IH ND' r I)|]. intros u Iu. rewrite Forall_forall in F. destruct (F u Iu) as (A & B & _). split; intros X; [rewrite X in A; exact (Dx r A I)|rewrite X in B; exact (Dx r B I)].
Qed.
Lemma explained_sampled srt to_uint c wr weight lossf n y col rows wv t p (f : list R) at_ : grouping n col rows ->
  explained (N := Exact) srt to_uint c wr weight lossf n y rows wv t p f at_ ->
  exists us, sampled srt to_uint c wr weight lossf n y rows wv t p f us /\ forall r, (r < n)%nat -> at_ r = Some (pushed us r).
Proof.
  intros G E. destruct (grouping_rows n col rows G) as [ND Lr].
  assert (forall l, incl l rows -> exists pieces, Forall2 (fun rk piece => (exists g0 g, In g0 (pr_groups p) /\ reranked srt wr (f : list Exact) g0 = Ret g /\
    Permutation rk (gr_rows g) /\ samples_of (N := Exact) to_uint c n rows t rk = Ret (List.length piece) /\
    Forall (is_push (N := Exact) weight lossf y wv t f g (rescale (N := Exact) c rows t rk)) piece) /\ forall r, In r rk -> at_ r = Some (pushed piece r)) l pieces) as Ps.
  { induction l as [|rk l IH]; intros Il; [exists []; constructor|]. destruct IH as [pieces IH]; [intros z Iz; apply Il; right; exact Iz|].
    destruct (E rk (Il rk (or_introl eq_refl))) as (g0 & g & us & A1 & A2 & A3 & A4 & A5 & A6). exists (us :: pieces). constructor; [|exact IH]. split; [exists g0, g; auto|exact A6]. }
  destruct (Ps rows (incl_refl _)) as [pieces F]. exists (concat pieces). split.
  - exists pieces. split; [reflexivity|]. eapply both_imply; [|exact F]. intros a b (X & _). exact X.
  - intros r L. apply (pieces_pushed at_ rows pieces); [|exact ND|apply Lr, L]. eapply both_imply; [|exact F]. intros a b ((g0 & g & _ & _ & P & _ & Fp) & X).
    split; [|exact X]. rewrite Forall_forall in *. intros u I. eapply is_push_inside; [exact P|apply Fp, I].
Qed.
Lemma sampled_facts srt to_uint c wr weight lossf n y col rows wv t p (f : list R) us : grouping n col rows -> pair_kind (N := Exact) c wr weight lossf -> comparable y (seq 0 n) t ->
  (forall i, (i < n)%nat -> a_float (t i) /\ finite_float (t i) = true /\ 0 <= wv i) -> sampled srt to_uint c wr weight lossf n y rows wv t p f us ->
  Forall (inside (seq 0 n)) us /\ forall u, In u us -> 0 <= exact_weight u /\ 0 < real_of (t (pu_pos u)) - real_of (t (pu_neg u)) /\
    pu_point u = lossf (real_of (t (pu_pos u)) - real_of (t (pu_neg u))) (nth (pu_pos u) f 0 - nth (pu_neg u) f 0).
Proof.
  intros G K Cy Fin (pieces & -> & F). destruct (grouping_rows n col rows G) as [ND Lr].
  assert (forall u, In u (concat pieces) -> exists rk g, In rk rows /\ Permutation rk (gr_rows g) /\ is_push (N := Exact) weight lossf y wv t f g (rescale (N := Exact) c rows t rk) u) as Src.
  { intros u I. apply in_concat in I. destruct I as (piece & Ip & Iu).
    assert (forall l, Forall2 (fun rk piece => exists g0 g, In g0 (pr_groups p) /\ reranked srt wr (f : list Exact) g0 = Ret g /\
      Permutation rk (gr_rows g) /\ samples_of (N := Exact) to_uint c n rows t rk = Ret (List.length piece) /\
      Forall (is_push (N := Exact) weight lossf y wv t f g (rescale (N := Exact) c rows t rk)) piece) l pieces ->
      exists rk g, In rk l /\ Permutation rk (gr_rows g) /\ is_push (N := Exact) weight lossf y wv t f g (rescale (N := Exact) c rows t rk) u) as Q; [|apply Q, F].
    clear - Ip Iu. induction 1 as [|a b l l' (g0 & g & _ & _ & P & _ & Fp) Fs IH]; [destruct Ip|]. destruct Ip as [->|Ip].
    - rewrite Forall_forall in Fp. exists a, g. split; [left; reflexivity|]. split; [exact P|apply Fp, Iu].
    - destruct (IH Ip) as (rk & g' & I & X). exists rk, g'. split; [right; exact I|exact X]. }
  assert (forall u, In u (concat pieces) -> inside (seq 0 n) u) as Ins.
  { intros u I. destruct (Src u I) as (rk & g & Ir & P & Pu). destruct (is_push_inside _ _ _ _ _ _ _ _ _ _ P Pu) as (A & B & C).
    assert (forall z, In z rk -> In z (seq 0 n)) as Z. { intros z Iz. apply in_seq. assert (z < n)%nat by (apply Lr, in_concat; eauto). lia. }
    repeat split; auto. }
  split; [apply Forall_forall; exact Ins|]. intros u I. destruct (Src u I) as (rk & g & Ir & P & Pu). destruct (Ins u I) as (Ia & Ib & _). apply in_seq in Ia, Ib.
  split; [eapply kind_positive; try eassumption; intros r Jr; apply Lr, Jr|]. destruct Pu as (a & b & pw & _ & _ & Lt & _ & _ & Ep).
  destruct (Fin (pu_pos u) ltac:(lia)) as (Vp & Fp & _), (Fin (pu_neg u) ltac:(lia)) as (Vn & Fn & _). split; [|exact Ep].
  apply (float_order _ _ Vn Vp Fn Fp) in Lt. lra.
Qed.

(** ** One round *)
Section Round.
Variables (v : view) (threads : nat) (top : nat -> list Exact -> nat) (draw : nat -> spec_float)
  (srt : (nat -> nat -> bool) -> list nat -> list nat) (w : float_vector) (wv : nat -> R) (features : list column) (c : config Exact).
Let n := v_rows v.
Hypothesis Th : (1 <= threads)%nat.
Hypothesis Top : tops top.
Hypothesis Srt : sorts srt.
Hypothesis Cols : forall col, In col features -> v_get v (c_name col) = Some col /\ has_rows col n.
Hypothesis Wv : row_values (N := Exact) w n wv.
Hypothesis All : forall i, fltb (draw i) (to_f64 (cf_example_rate c)) = true.

Lemma pair_leaves (f : list R) us (gd : list (grad Exact)) pos t pos' : List.length f = n -> List.length gd = n -> (forall r, (r < n)%nat -> nth_error gd r = Some (pushed us r)) ->
  fit_tree (N := Exact) top draw threads srt w gd features c pos = Ret (t, pos') ->
  tree_fits (v_get v) n t /\
  exists label s, (forall i, (i < n)%nat -> routes (v_get v) t i (s i)) /\ pair_tree wv us f (cf_l2_lambda c) label s.
Proof.
  intros L Lg Gd E. set (rg := fun r => mkG (N := Exact) (wv r * exact_g (pushed us r)) (wv r * exact_h (pushed us r))).
  assert (St : setting (N := Exact) top threads srt w gd features (v_get v) rg).
  { constructor; [exact Top|exact Th|exact Srt|rewrite Lg; exact Cols|]. rewrite Lg. intros r I. apply in_seq in I.
    destruct (Wv r) as (x & Ea & Da); [lia|]. exists x, (pushed us r). split; [exact Ea|].
    split; [apply Gd; lia|unfold rg; rewrite Da; reflexivity]. }
  assert (Leaf := fun t pos' row => set_leaf exact_ordered top draw threads srt w gd features c (v_get v) _ pos St t pos' row).
  split. { eapply full_fits; [exact Cols|]. apply (set_spec exact_ordered _ _ _ _ _ _ _ _ _ _ _ St _ _ E). }
  destruct (list_choice (@nil bool) n (fun i p => exists s sp, (has_leaf t p s sp /\ reaches (v_get v) t i p) /\
    forall p' s' sp', has_leaf t p' s' sp' -> reaches (v_get v) t i p' -> p' = p)) as [label Hl].
  { intros i Li. destruct (Leaf t pos' i E ltac:(lia)) as (p & s & sp & H). exists p, s, sp. exact H. }
  set (sc := fun i => newton_score (pair_leaf_g wv us f label i) (pair_leaf_h wv us f label i) (cf_l2_lambda c)).
  exists label, sc.
  assert (Main : forall i, (i < n)%nat -> exists s sp, has_leaf t (label i) s sp /\ reaches (v_get v) t i (label i) /\ s = sc i).
  { intros i Li. destruct (Hl i Li) as (s & sp & (Hs & Hr) & _). exists s, sp. split; [exact Hs|]. split; [exact Hr|].
    destruct (set_score top draw threads srt w gd features c (v_get v) _ pos t pos' St E _ _ _ (leaf_node _ _ _ _ Hs)) as (rows & D & I & Es).
    cbv zeta in Es. rewrite Es.
    assert (P : Permutation rows (leaf_mates f label i)).
    { apply NoDup_Permutation; [exact D|apply NoDup_filter, seq_NoDup|]. intros j. rewrite I. unfold leaf_mates. rewrite filter_In, in_seq.
      split.
      - intros [A B]. apply (subsample_spec draw pos (List.length gd) (to_f64 (cf_example_rate c))) in A. rewrite Lg in A.
        split; [rewrite L; lia|]. destruct (Hl j ltac:(lia)) as (_ & _ & _ & U). rewrite <- (U _ _ _ Hs B).
        destruct (list_eq_dec Bool.bool_dec (label i) (label i)); [reflexivity|contradiction].
      - intros [A B]. rewrite L in A. destruct (list_eq_dec Bool.bool_dec (label j) (label i)) as [Q|]; [|discriminate]. split.
        + apply (subsample_spec draw pos (List.length gd) (to_f64 (cf_example_rate c))). rewrite Lg. split; [lia|apply All].
        + destruct (Hl j ltac:(lia)) as (_ & _ & (_ & X) & _). rewrite Q in X. exact X. }
    destruct (sum_parts rg rows) as [A B].
    unfold sc, newton_score. rewrite A, B, !(lsum_perm _ _ _ P). reflexivity. }
  split.
  - intros i Li. destruct (Main i Li) as (s & sp & Hs & Hr & <-). eapply leaf_routes; eassumption.
  - intros i Li. unfold sc, newton_score. destruct (Req_EM_T _ _) as [Z|Z]; split; intros X; try contradiction; reflexivity.
Qed.
Lemma pair_one_round st us gd pos t pos' st' : state_ok (N := Exact) v st -> List.length gd = n -> (forall r, (r < n)%nat -> nth_error gd r = Some (pushed us r)) ->
  fit_tree (N := Exact) top draw threads srt w gd features c pos = Ret (t, pos') ->
  add_tree_scores (N := Exact) (v_get v) threads (apply_shrinkage (nfloat (cf_shrinkage c)) t) n0 st = Ret st' ->
  state_ok v st' /\ pair_step wv us (real_of (cf_shrinkage c)) (cf_l2_lambda c) (snd st) (snd st').
Proof.
  intros Ok Lg Gd Ft Ad. destruct Ok as [Pm L]. fold n in L. change (@List.length R (snd st) = n) in L.
  pose (f := (snd st : list R)). change (@List.length R f = n) in L.
  destruct (pair_leaves f us gd pos t pos' L Lg Gd Ft) as (Fits & label & s & Rt & Nt).
  destruct (one_tree (N := Exact) v threads (apply_shrinkage (@nfloat Exact (cf_shrinkage c)) t) n0 st Th (shrink_fits _ _ _ _ Fits) (conj Pm L)) as (st1 & E1 & Ok1 & H1).
  pose proof (eq_trans (eq_sym E1) Ad) as Eq. injection Eq as <-. clear Ad. split; [exact Ok1|]. destruct Ok1 as [_ L1].
  split; [exact (eq_trans L1 (eq_sym L))|]. exists label, s. split; [exact Nt|].
  intros i Li. assert (X : nth_error f i = Some (nth i f 0)) by (apply (@nth_error_nth' R); exact Li).
  assert (i < n)%nat as Ln by (rewrite <- L; exact Li).
  specialize (H1 i _ _ X (exact_shrink_routes _ (real_of (cf_shrinkage c)) _ _ _ (Rt i Ln))). apply nth_error_nth with (d := 0) in H1. eapply eq_trans; [exact H1|]. unfold f. cbn. ring.
Qed.
End Round.

(** ** All rounds *)
Section Rounds.
Variables (v : view) (threads : nat) (top : nat -> nat -> list Exact -> nat) (draw : nat -> spec_float) (srt : (nat -> nat -> bool) -> list nat -> list nat)
  (to_uint : Exact -> res nat) (pick : nat -> nat -> nat * nat) (wr : bool) (weight : float_vector -> group -> nat * nat -> res Exact) (lossf : Exact -> Exact -> point Exact)
  (w y : float_vector) (wv : nat -> R) (t : nat -> f32) (col : option strcol) (features : list column) (c : config Exact).
Let n := v_rows v.
Hypothesis Th : (1 <= threads)%nat.
Hypothesis Top : forall i, tops (top i).
Hypothesis Srt : sorts srt.
Hypothesis Cols : forall col, In col features -> v_get v (c_name col) = Some col /\ has_rows col n.
Hypothesis Wv : row_values (N := Exact) w n wv.
Hypothesis Cy : comparable y (seq 0 n) t.
Hypothesis Pk : picks pick.
Hypothesis K : pair_kind c wr weight lossf.
Hypothesis Rate : nleb (nfloat (cf_pair_rate c)) (@n0 Exact) = false.
Hypothesis Pg : proper_groups n col.
Hypothesis Counts : forall rows, grouping n col rows -> forall rk, In rk rows -> exists count, samples_of to_uint c n rows t rk = Ret count /\ (num_pairs t rk = 0%nat -> count = 0%nat).
Hypothesis All : forall i, fltb (draw i) (to_f64 (cf_example_rate c)) = true.
Let lf := pairwise_loss (N := Exact) srt threads to_uint pick c wr weight lossf.

Lemma pair_rounds todo : forall i k trees st gd p pos r, state_ok (N := Exact) v st -> in_use (N := Exact) srt threads to_uint pick c wr weight lossf n w y col p ->
  rounds (N := Exact) v threads top draw srt w features c lf todo i k trees st gd p pos = Ret r -> tr_status r = SOk ->
  exists fs, values (N := Exact) v threads top draw srt w features c lf todo i st gd p pos fs /\
    nth_error fs 0 = Some (snd st) /\ List.length fs = S todo /\ nth_error fs todo = Some (tr_f r) /\
    forall i f f', nth_error fs i = Some f -> nth_error fs (S i) = Some f' -> List.length f = n /\
      exists rows p us, grouping n col rows /\ in_use (N := Exact) srt threads to_uint pick c wr weight lossf n w y col p /\
        sampled srt to_uint c wr weight lossf n y rows wv t p f us /\ pair_step wv us (real_of (cf_shrinkage c)) (cf_l2_lambda c) f f'.
Proof.
  induction todo as [|todo IH]; intros i k trees st gd p pos r Ok In0 E S0; cbn [rounds] in E.
  - injection E as <-. exists [snd st]. split; [constructor|]. repeat split; try reflexivity; destruct i0; discriminate.
  - destruct (l_round lf p pos (snd st) gd) as [[[[x gd'] ls'] pos']| |] eqn:Rd; [|discriminate..]. cbn [bind] in E.
    destruct (nfinite x) eqn:Fx; [|injection E as <-; discriminate].
    destruct (fit_tree (top i) draw threads srt w gd' features c pos') as [[tr pos2]| |] eqn:Ft; [|discriminate..]. cbn [bind] in E.
    destruct (add_tree_scores (v_get v) threads _ x st) as [st'| |] eqn:Ad; [|discriminate..]. cbn [bind] in E.
    pose proof Ok as [_ Ln]. fold n in Ln.
    destruct (usable_round srt threads to_uint pick c wr weight lossf n w y col wv t p pos (snd st)) as (rows & G & Rw & U); try assumption.
    { intros _. split; [exact exact_ordered|]. intros z _. cbn. unfold Reqb. destruct (Req_EM_T z z); congruence. }
    destruct (U (Counts rows G)) as [_ U2]. destruct (U2 gd) as (grads & p' & pos1 & Er & Lg & Ex0). clear U U2.
    change (pair_round (N := Exact) srt to_uint pick c wr weight lossf p pos (snd st) gd = Ret (x, gd', ls', pos')) in Rd.
    pose proof (eq_trans (eq_sym Er) Rd) as Eq. assert (n0 = x /\ grads = gd' /\ p' = ls' /\ pos1 = pos') as (<- & -> & -> & ->) by (repeat split; congruence). clear Eq.
    destruct (explained_sampled _ _ _ _ _ _ _ _ _ _ _ _ _ _ _ G Ex0) as (us & Sm & Gd).
    destruct (pair_one_round v threads (top i) draw srt w wv features c Th (Top i) Srt Cols Wv All st us gd' pos' tr pos2 st' Ok Lg Gd Ft Ad) as [Ok' Step].
    assert (In1 : in_use (N := Exact) srt threads to_uint pick c wr weight lossf n w y col ls') by (eapply AfterRound; [exact In0|exact Ln|exact Rd]).
    destruct (IH _ _ _ _ _ _ _ _ Ok' In1 E S0) as (fs & V & H0 & Lf & Hl & Es).
    exists (snd st :: fs). split; [eapply ValNext; [exact Rd|exact Fx|exact Ft|exact Ad|exact V]|]. split; [reflexivity|]. split; [exact (f_equal S Lf)|]. split; [exact Hl|].
    intros [|j] a' b' Ha Hb.
    + pose proof (eq_trans (eq_sym H0) Hb) as Eb. injection Eb as <-. injection Ha as <-. split; [exact Ln|]. exists rows, p, us. auto.
    + exact (Es j a' b' Ha Hb).
Qed.
End Rounds.

Section Training.
Variables (v : view) (threads : nat) (top : nat -> nat -> list Exact -> nat) (draw : nat -> spec_float) (pos : nat) (srt : (nat -> nat -> bool) -> list nat -> list nat) (names : list str)
  (to_uint : Exact -> res nat) (pick : nat -> nat -> nat * nat) (wr : bool) (weight : float_vector -> group -> nat * nat -> res Exact) (lossf : Exact -> Exact -> point Exact)
  (w y : float_vector) (wv : nat -> R) (t : nat -> f32) (col : option strcol) (c : config Exact) (base : option (forest Exact)) (r : @trained Exact).
Let n := v_rows v.
Let lf := pairwise_loss (N := Exact) srt threads to_uint pick c wr weight lossf.
Hypothesis Tr : training v threads top srt names w lf.
Hypothesis Bs : forall b, base = Some b -> forest_fits v b.
Hypothesis Wv : row_values (N := Exact) w n wv.
Hypothesis Cy : comparable y (seq 0 n) t.
Hypothesis Pk : picks pick.
Hypothesis K : pair_kind c wr weight lossf.
Hypothesis Gc : group_column c (v_get v) = Ret col.
Hypothesis Pg : proper_groups n col.
Hypothesis Counts : forall rows, grouping n col rows -> forall rk, In rk rows -> exists count, samples_of to_uint c n rows t rk = Ret count /\ (num_pairs t rk = 0%nat -> count = 0%nat).
Hypothesis All : forall i, fltb (draw i) (to_f64 (cf_example_rate c)) = true.
Hypothesis E : train v threads top draw pos srt names w y lf c base = Ret r.
Hypothesis S0 : tr_status r = SOk.

Lemma pair_training : exists features p0 st0 k trees st fs, load_features (v_get v) (v_order v names) = (SOk, features) /\
  init_scores v threads = Ret st0 /\ init_with_base v threads (match base with Some b => b | None => [] end) n0 [] st0 = Ret (k, trees, st) /\
  values (N := Exact) v threads top draw srt w features c lf (Z.to_nat (cf_num_trees c)) 0 st (repeat gzero n) p0 pos fs /\
  nth_error fs 0 = Some (snd st) /\ nth_error fs (Z.to_nat (cf_num_trees c)) = Some (tr_f r) /\
  (base = None -> snd st = repeat (@n0 Exact) n) /\
  forall i f f', nth_error fs i = Some f -> nth_error fs (S i) = Some f' -> List.length f = n /\
    exists rows p us, grouping n col rows /\ in_use (N := Exact) srt threads to_uint pick c wr weight lossf n w y col p /\
      sampled srt to_uint c wr weight lossf n y rows wv t p f us /\ pair_step wv us (real_of (cf_shrinkage c)) (cf_l2_lambda c) f f'.
Proof.
  destruct (train_inv v threads top draw pos srt names w y _ c base r E (or_introl S0)) as (features & group & ls & st0 & k & trees & st & Ck & Lo & Gr & In0 & I0 & B & R0).
  pose proof (ts_threads _ _ _ _ _ _ _ Tr) as Th.
  assert (group = col) as -> by congruence.
  assert (state_ok (N := Exact) v st /\ (base = None -> snd st = repeat (@n0 Exact) n)) as [Ok Z0].
  { destruct (@Eval_proofs.init_ok Exact v threads Th) as (st1 & E1 & Ok1 & St1). rewrite I0 in E1. injection E1 as <-.
    assert (Fb : forest_fits (N := Exact) v (base_list base)) by (destruct base as [b|]; [apply Bs; reflexivity|constructor]).
    destruct (base_holds v threads (base_list base) Th Fb (@n0 Exact) [] st0 (Forall_nil _) Ok1) as (k' & trees' & st' & E' & _ & Ok' & _).
    { rewrite St1. apply start_holds. }
    split; [rewrite B in E'; injection E' as <- <- <-; exact Ok'|]. intros Z. assert (st0 = st) as <- by (unfold base_list in B; rewrite Z in B; cbn in B; congruence). rewrite St1. reflexivity. }
  change (pair_init (N := Exact) srt threads c n w y col = Ret (inr ls)) in In0.
  assert (Rate : nleb (nfloat (cf_pair_rate c)) (@n0 Exact) = false).
  { unfold pair_init in In0. destruct (nleb (nfloat (cf_pair_rate c)) (@n0 Exact)); [discriminate|reflexivity]. }
  destruct (pair_rounds v threads top draw srt to_uint pick wr weight lossf w y wv t col features c Th (ts_tops _ _ _ _ _ _ _ Tr) (ts_sort _ _ _ _ _ _ _ Tr)) with (todo := Z.to_nat (cf_num_trees c)) (i := 0%nat) (k := k) (trees := trees) (st := st) (gd := repeat (@gzero Exact) n) (p := ls) (pos := pos) (r := r) as (fs & V & H0 & _ & Hl & Er); try assumption.
  { intros co I. destruct (loaded_cols v threads top srt names w _ features Tr Lo co I) as (_ & G & _ & Hr). auto. }
  { constructor. exact In0. }
  exists features, ls, st0, k, trees, st, fs. auto 12.
Qed.
End Training.

(** ** The loss of the sampled pairs after a round *)
Lemma pair_round_falls srt to_uint c wr weight lossf n y col rows wv t p f f' us factor top k lambda w0 : List.length f = n ->
  grouping n col rows -> pair_kind (N := Exact) c wr weight lossf -> pair_scale lossf factor top -> comparable y (seq 0 n) t ->
  (forall i, (i < n)%nat -> a_float (t i) /\ finite_float (t i) = true /\ wv i = w0) -> 0 < w0 ->
  sampled srt to_uint c wr weight lossf n y rows wv t p f us -> pair_step wv us k lambda f f' -> 0 <= k ->
  (2 * k * top * w0 * pairs_weight us <= lambda \/ (k <= 2 /\ 0 <= lambda /\ forall u, In u us -> nth (pu_pos u) f 0 = nth (pu_neg u) f 0)) ->
  pairs_loss lossf t us f' <= pairs_loss lossf t us f.
Proof.
  intros Ln G K Sc Cy Fin Wp Sm (_ & label & s & Nt & Nx) Kp Cond. subst n.
  destruct (sampled_facts _ _ _ _ _ _ _ _ _ _ _ _ _ _ _ G K Cy (fun i I => match Fin i I with conj A (conj B C) => conj A (conj B (eq_ind_r (fun z => 0 <= z) (Rlt_le _ _ Wp) C)) end) Sm) as [Ins Facts].
  assert (Wn := fun u I => proj1 (Facts u I)). assert (Gp := fun u I => proj1 (proj2 (Facts u I))). assert (Pt := fun u I => proj2 (proj2 (Facts u I))).
  assert (Same := fun i I => proj2 (proj2 (Fin i I))).
  destruct Cond as [Sml|(K2 & Lp & Ev)].
  - exact (pair_penalised lossf t us f lambda factor top w0 wv label s Sc Ins Wn Gp Pt Same Wp Nt k f' Nx Kp Sml).
  - exact (pair_level lossf t us f lambda factor top w0 wv label s Sc Ins Wn Gp Pt Same Wp Nt k f' Nx (conj Kp K2) Lp Ev).
Qed.
Lemma pair_leaf_falls srt to_uint c wr weight lossf n y col rows wv t p f f' us factor top k lambda w0 label s : List.length f = n ->
  grouping n col rows -> pair_kind (N := Exact) c wr weight lossf -> pair_scale lossf factor top -> comparable y (seq 0 n) t ->
  (forall i, (i < n)%nat -> a_float (t i) /\ finite_float (t i) = true /\ wv i = w0) -> 0 < w0 ->
  sampled srt to_uint c wr weight lossf n y rows wv t p f us -> pair_tree wv us f lambda label s -> (forall i, (i < n)%nat -> nth i f' 0 = nth i f 0 + k * s i) -> 0 <= k ->
  (forall i, (i < n)%nat -> k * top * w0 * pair_leaf_w us f label i <= pair_leaf_h wv us f label i + lambda) ->
  pairs_loss lossf t us f' <= pairs_loss lossf t us f.
Proof.
  intros Ln G K Sc Cy Fin Wp Sm Nt Nx Kp Cond. subst n.
  destruct (sampled_facts _ _ _ _ _ _ _ _ _ _ _ _ _ _ _ G K Cy (fun i I => match Fin i I with conj A (conj B C) => conj A (conj B (eq_ind_r (fun z => 0 <= z) (Rlt_le _ _ Wp) C)) end) Sm) as [Ins Facts].
  assert (Wn := fun u I => proj1 (Facts u I)). assert (Gp := fun u I => proj1 (proj2 (Facts u I))). assert (Pt := fun u I => proj2 (proj2 (Facts u I))).
  assert (Same := fun i I => proj2 (proj2 (Fin i I))).
  exact (pair_small_step lossf t us f lambda factor top w0 wv label s Sc Ins Wn Gp Pt Same Wp Nt k f' Nx Kp Cond).
Qed.
Lemma level_start n (us : list (push Exact)) : forall u, In u us -> nth (pu_pos u) (repeat (@n0 Exact) n) 0 = nth (pu_neg u) (repeat (@n0 Exact) n) 0.
Proof. intros u _. change (@n0 Exact) with 0. rewrite !nth_repeat. reflexivity. Qed.
Lemma pair_train_falls v threads top draw pos srt names to_uint pick wr weight lossf w y wv t col (c : config Exact) base r :
  training v threads top srt names w (pairwise_loss (N := Exact) srt threads to_uint pick c wr weight lossf) -> (forall b, base = Some b -> forest_fits v b) ->
  row_values (N := Exact) w (v_rows v) wv -> comparable y (seq 0 (v_rows v)) t -> picks pick -> pair_kind c wr weight lossf ->
  group_column c (v_get v) = Ret col -> proper_groups (v_rows v) col ->
  (forall rows, grouping (v_rows v) col rows -> forall rk, In rk rows -> exists count, samples_of to_uint c (v_rows v) rows t rk = Ret count /\ (num_pairs t rk = 0 -> count = 0)%nat) ->
  (forall i, fltb (draw i) (to_f64 (cf_example_rate c)) = true) ->
  train v threads top draw pos srt names w y (pairwise_loss srt threads to_uint pick c wr weight lossf) c base = Ret r -> tr_status r = SOk ->
  exists features p0 st0 k trees st fs, load_features (v_get v) (v_order v names) = (SOk, features) /\
    init_scores v threads = Ret st0 /\ init_with_base v threads (match base with Some b => b | None => [] end) n0 [] st0 = Ret (k, trees, st) /\
    values (N := Exact) v threads top draw srt w features c (pairwise_loss srt threads to_uint pick c wr weight lossf) (Z.to_nat (cf_num_trees c)) 0 st (repeat gzero (v_rows v)) p0 pos fs /\
    nth_error fs 0 = Some (snd st) /\ nth_error fs (Z.to_nat (cf_num_trees c)) = Some (tr_f r) /\
    forall i f f', nth_error fs i = Some f -> nth_error fs (S i) = Some f' -> List.length f = v_rows v /\
      exists rows p us, grouping (v_rows v) col rows /\ in_use (N := Exact) srt threads to_uint pick c wr weight lossf (v_rows v) w y col p /\
        sampled srt to_uint c wr weight lossf (v_rows v) y rows wv t p f us /\ pair_step wv us (real_of (cf_shrinkage c)) (cf_l2_lambda c) f f' /\
        forall factor largest w0, pair_scale lossf factor largest ->
          (forall i, (i < v_rows v)%nat -> a_float (t i) /\ finite_float (t i) = true /\ wv i = w0) -> (0 < w0)%R -> (0 <= real_of (cf_shrinkage c))%R ->
          (2 * real_of (cf_shrinkage c) * largest * w0 * pairs_weight us <= cf_l2_lambda c)%R \/
            (base = None /\ i = 0%nat /\ (real_of (cf_shrinkage c) <= 2)%R /\ (0 <= cf_l2_lambda c)%R) ->
          (pairs_loss lossf t us f' <= pairs_loss lossf t us f)%R.
Proof.
  intros Tr Bs Wv Cy Pk K Gc Pg Counts All E S0.
  destruct (pair_training v threads top draw pos srt names to_uint pick wr weight lossf w y wv t col c base r Tr Bs Wv Cy Pk K Gc Pg Counts All E S0) as (features & p0 & st0 & k & trees & st & fs & H1 & H2 & H3 & H4 & H5 & H6 & H7 & H8).
  exists features, p0, st0, k, trees, st, fs. do 6 (split; [assumption|]). intros i f f' A B. destruct (H8 i f f' A B) as (L & rows & p & us & G & U & Sm & St). split; [exact L|].
  exists rows, p, us. do 4 (split; [assumption|]). intros factor largest w0 Sc Fin Wp Kp Cond.
  refine (pair_round_falls srt to_uint c wr weight lossf (v_rows v) y col rows wv t p f f' us factor largest _ _ w0 L G K Sc Cy Fin Wp Sm St Kp _).
  destruct Cond as [Q|(Bn & -> & K2 & Lp)]; [left; exact Q|right]. split; [exact K2|]. split; [exact Lp|].
  assert (f = repeat (@n0 Exact) (v_rows v)) as ->. { pose proof (eq_trans (eq_sym A) H5) as X. injection X as ->. exact (H7 Bn). }
  apply level_start.
Qed.
