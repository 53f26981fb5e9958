(** Constant_proofs.v - the constant of a round. *)
From Coq Require Import Reals Lra Ranalysis.
From Coquelicot Require Import Coquelicot.
From Verif Require Import Base F32 Num Par Subsampling Config Split SplitSpec Split_proofs Loss LossSpec Loss_proofs Calculus_proofs Mse_proofs ConstantSpec.
Local Open Scope R_scope.

(** ** The way *)
Definition partial (ds : list R) (k : nat) : R := fold_left Rplus (firstn k ds) 0.
Lemma partial_S ds k d : nth_error ds k = Some d -> partial ds (S k) = partial ds k + d.
Proof.
  unfold partial. revert k. assert (forall a k, nth_error ds k = Some d -> fold_left Rplus (firstn (S k) ds) a = fold_left Rplus (firstn k ds) a + d) as H.
  { induction ds as [|x ds IH]; intros a [|k] E; cbn in *; try discriminate; [injection E as ->; reflexivity|]. apply IH, E. }
  intros k. apply H.
Qed.
Section Walk.
Variables (l : Exact -> Exact -> point Exact) (wv yv : nat -> R) (f : list R).
Let n := List.length f.
Lemma totals slices c : concat slices = seq 0 n ->
  gg (grad_total (N := Exact) l wv yv f slices c) = pull l wv yv f c /\ gh (grad_total (N := Exact) l wv yv f slices c) = bend l wv yv f c.
Proof.
  intros Cc. unfold grad_total. rewrite slices_total, Cc. destruct (sum_parts (row_weighted (N := Exact) l wv yv f c) (seq 0 n)) as [A B].
  rewrite A, B. unfold pull, bend. rewrite !rsum_lsum. split; apply lsum_ext; intros i _; reflexivity.
Qed.
Lemma walk_steps slices ds : concat slices = seq 0 n -> steps (N := Exact) l wv yv f slices 10 (@n0 Exact) ds ->
  exists cs, visited l wv yv f cs /\ ends cs (fold_left (@nadd Exact) (removelast ds) (@n0 Exact)) (fold_left (@nadd Exact) ds (@n0 Exact)).
Proof.
  intros Cc (Ln & St & Fin). change (nt Exact) with R in *.
  destruct (exists_last (l := ds)) as (ds0 & dl & E); [intros ->; cbn in Ln; lia|]. 
  set (m := List.length ds0). assert (List.length ds = S m) as Lm by (rewrite E, app_length; cbn; lia).
  assert (E1 : partial ds m = fold_left (@nadd Exact) (removelast ds) (@n0 Exact)).
  { unfold partial. rewrite E, removelast_last. rewrite firstn_app, firstn_all2 by (unfold m; lia). unfold m. rewrite Nat.sub_diag. cbn. rewrite app_nil_r. reflexivity. }
  assert (E2 : partial ds (S m) = fold_left (@nadd Exact) ds (@n0 Exact)) by (unfold partial; rewrite firstn_all2 by lia; reflexivity).
  exists (map (partial ds) (seq 0 (S (S m)))). split.
  - split; [rewrite map_length, seq_length; lia|]. split; [reflexivity|].
    intros k a b A B. rewrite map_length, seq_length.
    assert (k < S m)%nat as K.
    { assert (nth_error (map (partial ds) (seq 0 (S (S m)))) (S k) <> None) as X by congruence. apply nth_error_Some in X. rewrite map_length, seq_length in X. lia. }
    assert (forall j, (j < S (S m))%nat -> nth_error (map (partial ds) (seq 0 (S (S m)))) j = Some (partial ds j)) as Nt.
    { intros j J. rewrite nth_error_map, (nth_error_nth' _ 0%nat) by (rewrite seq_length; lia). rewrite seq_nth by lia. reflexivity. }
    rewrite Nt in A, B by lia. assert (a = partial ds k) by congruence. assert (b = partial ds (S k)) by congruence. subst a b. clear A B.
    destruct (nth_error ds k) as [d|] eqn:D; [|apply nth_error_None in D; lia]. rewrite (partial_S ds k d D).
    destruct (St k d D) as [Ed Big]. change (d = score_of (N := Exact) (@n0 Exact) (grad_total (N := Exact) l wv yv f slices (partial ds k))) in Ed.
    destruct (totals slices (partial ds k) Cc) as [Eg Eh].
    unfold score_of, Num.n0 in Ed. cbn in Ed. unfold Reqb in Ed. rewrite Eg, Eh in Ed.
    replace (partial ds k + d - partial ds k) with d by ring.
    split; [|split; [|split]].
    + intros Nb. destruct (Req_EM_T (bend l wv yv f (partial ds k) + 0) 0) as [Z|Z]; [lra|]. rewrite Ed, Rplus_0_r. reflexivity.
    + intros Zb. destruct (Req_EM_T (bend l wv yv f (partial ds k) + 0) 0) as [Z|Z]; lra.
    + intros K2. assert (nltb (convergence_threshold (N := Exact)) (nabs (d : Exact)) = true) as X by (apply Big; lia).
      change (Rltb (1 / 10000) (Rabs d) = true) in X. unfold Rltb in X. destruct (Rlt_dec (1 / 10000) (Rabs d)); [assumption|discriminate].
    + intros K2 K3. assert (last ds 0 = d) as La.
      { assert (k = m) by lia. subst k. rewrite E in D |- *. rewrite nth_error_app2 in D by (unfold m; lia). unfold m in D. rewrite Nat.sub_diag in D. cbn in D. injection D as ->. apply last_last. }
      assert (nltb (convergence_threshold (N := Exact)) (nabs (last ds 0 : Exact)) = false) as X by (apply Fin; lia). rewrite La in X.
      change (Rltb (1 / 10000) (Rabs d) = false) in X. unfold Rltb in X. destruct (Rlt_dec (1 / 10000) (Rabs d)); [discriminate|lra].
  - exists (map (partial ds) (seq 0 m)). replace (S (S m)) with (m + 2)%nat by lia. rewrite seq_app, map_app. apply f_equal. change (map (partial ds) (seq (0 + m) 2)) with [partial ds m; partial ds (S m)]. rewrite E1, E2. reflexivity.
Qed.
Lemma slices_all w y threads p : (1 <= threads)%nat -> row_values (N := Exact) w n wv -> inited (N := Exact) w y threads n p -> concat (all_slices p) = seq 0 n.
Proof.
  intros T Wv In0. destruct (init_ok (N := Exact) w y wv threads n T Wv) as (p' & _ & I' & C' & _). destruct In0 as (D & _). destruct I' as (D' & _).
  unfold all_slices in *. rewrite D in D'. injection D' as ->. exact C'.
Qed.
Lemma walk_ok w y threads p gd : (1 <= threads)%nat -> row_values (N := Exact) w n wv -> row_values (N := Exact) y n yv -> inited (N := Exact) w y threads n p ->
  exists cs a b, visited l wv yv f cs /\ ends cs a b /\ pointwise_round (N := Exact) l p f gd = Ret (b, row_gradients (N := Exact) l yv f a).
Proof.
  intros T Wv Yv In0. destruct (round_ok (N := Exact) l w y wv yv threads p f gd T Wv Yv In0) as (ds & St & ->).
  destruct (walk_steps _ ds (slices_all w y threads p T Wv In0) St) as (cs & V & En). eauto 6.
Qed.
End Walk.

(** ** Convexity *)
Lemma rsum_S n g : rsum (S n) g = rsum n g + g n.
Proof. unfold rsum. rewrite seq_S, map_app, fold_right_app. cbn. rewrite Rplus_0_r. generalize (map g (seq 0 n)). intros L. induction L as [|x L IH]; cbn; [lra|]. rewrite IH. lra. Qed.
Lemma rsum_le n g h : (forall i, (i < n)%nat -> g i <= h i) -> rsum n g <= rsum n h.
Proof. induction n as [|n IH]; intros H; [unfold rsum; cbn; lra|]. rewrite !rsum_S. pose proof (H n ltac:(lia)). pose proof (IH (fun i L => H i ltac:(lia))). lra. Qed.
Lemma rsum_ext n g h : (forall i, (i < n)%nat -> g i = h i) -> rsum n g = rsum n h.
Proof. induction n as [|n IH]; intros H; [reflexivity|]. rewrite !rsum_S, (H n) by lia. rewrite IH; [reflexivity|]. intros; apply H; lia. Qed.
Lemma rsum_lin n a b g h : rsum n (fun i => a * g i + b * h i) = a * rsum n g + b * rsum n h.
Proof. induction n as [|n IH]; [unfold rsum; cbn; lra|]. rewrite !rsum_S, IH. ring. Qed.
Lemma rsum_nonneg n g : (forall i, (i < n)%nat -> 0 <= g i) -> 0 <= rsum n g.
Proof. intros H. replace 0 with (rsum n (fun _ => 0)); [apply rsum_le, H|]. clear H. induction n as [|n IH]; [reflexivity|]. rewrite rsum_S, IH. lra. Qed.
Lemma rsum_zero n g : (forall i, (i < n)%nat -> 0 <= g i) -> rsum n g = 0 -> forall i, (i < n)%nat -> g i = 0.
Proof.
  induction n as [|n IH]; intros H E i L; [lia|]. rewrite rsum_S in E. pose proof (H n ltac:(lia)). pose proof (rsum_nonneg n g (fun i L => H i ltac:(lia))).
  destruct (Nat.eq_dec i n) as [->|Ne]; [lra|]. apply IH; [intros; apply H; lia|lra|lia].
Qed.
Lemma rsum_derive n F c : forall d, (forall i, (i < n)%nat -> derivable_pt_lim (F i) c (d i)) -> derivable_pt_lim (fun x => rsum n (fun i => F i x)) c (rsum n d).
Proof.
  induction n as [|n IH]; intros d H; [unfold rsum; cbn; apply derivable_pt_lim_const|].
  rewrite rsum_S. apply is_derive_Reals. apply (is_derive_ext (fun x => rsum n (fun i => F i x) + F n x)); [intros t; rewrite rsum_S; reflexivity|].
  apply (is_derive_plus (K := R_AbsRing) (V := R_NormedModule)); apply is_derive_Reals; [apply IH; intros; apply H; lia|apply H; lia].
Qed.
(** A function with a monotone derivative lies above its tangents. *)
Lemma tangent F d : (forall x, derivable_pt_lim F x (d x)) -> (forall x y, x <= y -> d x <= d y) -> forall a b, F b + d b * (a - b) <= F a.
Proof.
  intros D M a b. destruct (Rtotal_order a b) as [L|[->|L]]; [|lra|].
  - destruct (MVT_cor2 F d a b L (fun x _ => D x)) as (x & E & X). pose proof (M x b ltac:(lra)). nra.
  - destruct (MVT_cor2 F d b a L (fun x _ => D x)) as (x & E & X). pose proof (M b x ltac:(lra)). nra.
Qed.
Lemma grows F d : (forall x, derivable_pt_lim F x (d x)) -> (forall x, 0 <= d x) -> forall x y, x <= y -> F x <= F y.
Proof.
  intros D M x y [L| ->]; [|lra]. destruct (MVT_cor2 F d x y L (fun z _ => D z)) as (z & E & _). pose proof (M z). nra.
Qed.
(** Facts about a loss at one target *)
Record nice (l : Exact -> Exact -> point Exact) (y factor top : R) : Prop := mkNice {
  ni_first : forall f, derivable_pt_lim (fun f => loss_of l y f) f (- (factor * g_of l y f));
  ni_monotone : forall a b, a <= b -> g_of l y b <= g_of l y a;
  ni_hessian : forall f, 0 <= h_of l y f <= top }.
Lemma nice_known l yv n factor top : known_loss l yv n factor top -> forall i, (i < n)%nat -> nice l (yv i) factor top.
Proof.
  intros [(-> & -> & ->)|[Y [(-> & -> & ->)|[(-> & -> & ->)|(-> & -> & ->)]]]] i I; [generalize (yv i); intros y|specialize (Y i I); revert Y; generalize (yv i); intros y Y..].
  - split; [exact (mse_first y)|intros a b L; change (y - b <= y - a); lra|intros f; change (0 <= 1 <= 1); lra].
  - split.
    + intros f. replace (- (1 * g_of log_loss y f)) with (- g_of log_loss y f) by ring. apply log_first.
    + intros a b L. assert (- g_of log_loss y a <= - g_of log_loss y b); [|lra].
      refine (grows (fun f => - g_of log_loss y f) (h_of log_loss y) _ _ a b L); intros x; [apply log_second; destruct Y as [-> | ->]; ring|apply Rlt_le, log_positive].
    + intros f. split; [apply Rlt_le, log_positive|]. destruct (log_loss_real y f) as (_ & _ & ->). pose proof (exp_pos (- y * f)) as E. set (e := exp (- y * f)) in *.
      apply (Rmult_le_reg_r ((1 + e) * (1 + e))); [nra|]. unfold Rdiv. rewrite Rmult_assoc, Rinv_l by nra. pose proof (Rle_0_sqr (1 - e)) as Sq. unfold Rsqr in Sq. lra.
  - split.
    + intros f. replace (- (1 * g_of huberized_hinge y f)) with (- g_of huberized_hinge y f) by ring. apply hinge_first.
    + intros a b L. rewrite !hinge_g. destruct (Rle_dec 1 (y * b)), (Rle_dec 1 (y * a)), (Rle_dec 0 (y * b)), (Rle_dec 0 (y * a)); destruct Y as [-> | ->]; lra.
    + intros f. rewrite hinge_h. destruct (Rle_dec 1 (y * f)), (Rle_dec 0 (y * f)); lra.
  - split.
    + intros f. apply square_first.
    + intros a b L. rewrite !square_g. destruct (Rlt_dec 0 ((y - b) * y)), (Rlt_dec 0 ((y - a) * y)); destruct Y as [-> | ->]; lra.
    + intros f. rewrite square_h. destruct (Rlt_dec 0 ((y - f) * y)); lra.
Qed.

Section Convex.
Variables (l : Exact -> Exact -> point Exact) (wv yv : nat -> R) (f : list R) (factor top : R).
Let n := List.length f.
Hypothesis Known : known_loss l yv n factor top.
Hypothesis Wpos : forall i, (i < n)%nat -> 0 <= wv i.
Lemma factor_pos : 0 < factor.
Proof. destruct Known as [(_ & -> & _)|[_ [(_ & -> & _)|[(_ & -> & _)|(_ & -> & _)]]]]; lra. Qed.
Lemma total_derivative c : derivable_pt_lim (constant_loss l wv yv f) c (- (factor * pull l wv yv f c)).
Proof.
  unfold constant_loss, pull. fold n. replace (- (factor * rsum n (fun i => wv i * g_of l (yv i) (nth i f 0 + c)))) with (rsum n (fun i => wv i * - (factor * g_of l (yv i) (nth i f 0 + c)))).
  2: { transitivity (- factor * rsum n (fun i => wv i * g_of l (yv i) (nth i f 0 + c)) + 0 * rsum n wv); [|ring]. rewrite <- rsum_lin. apply rsum_ext. intros. ring. }
  apply (rsum_derive n (fun i x => wv i * loss_of l (yv i) (nth i f 0 + x)) c). intros i I. apply is_derive_Reals.
  apply (is_derive_scal (fun x => loss_of l (yv i) (nth i f 0 + x))).
  pose proof (ni_first _ _ _ _ (nice_known l yv n factor top Known i I) (nth i f 0 + c)) as D. apply is_derive_Reals in D.
  replace (- (factor * g_of l (yv i) (nth i f 0 + c))) with (scal 1 (- (factor * g_of l (yv i) (nth i f 0 + c)))) by (unfold scal; cbn; unfold mult; cbn; ring).
  apply (is_derive_comp (fun x => loss_of l (yv i) x) (fun x => nth i f 0 + x)); [exact D|].
  auto_derive; [trivial|ring].
Qed.
Lemma pull_monotone a b : a <= b -> pull l wv yv f b <= pull l wv yv f a.
Proof.
  intros L. unfold pull. fold n. apply rsum_le. intros i I. apply Rmult_le_compat_l; [apply Wpos, I|]. apply (ni_monotone _ _ _ _ (nice_known l yv n factor top Known i I)). lra.
Qed.
Lemma bend_bounds c : 0 <= bend l wv yv f c <= top * rsum n wv.
Proof.
  unfold bend. fold n. split.
  - apply rsum_nonneg. intros i I. apply Rmult_le_pos; [apply Wpos, I|apply (ni_hessian _ _ _ _ (nice_known l yv n factor top Known i I))].
  - replace (top * rsum n wv) with (rsum n (fun i => top * wv i + 0 * wv i)) by (rewrite rsum_lin; ring). apply rsum_le. intros i I.
    pose proof (ni_hessian _ _ _ _ (nice_known l yv n factor top Known i I) (nth i f 0 + c)). pose proof (Wpos i I). nra.
Qed.
Lemma total_tangent a b : constant_loss l wv yv f b - factor * pull l wv yv f b * (a - b) <= constant_loss l wv yv f a.
Proof.
  pose proof (tangent (constant_loss l wv yv f) (fun c => - (factor * pull l wv yv f c)) total_derivative) as T.
  assert (forall x y, x <= y -> - (factor * pull l wv yv f x) <= - (factor * pull l wv yv f y)) as M.
  { intros x y L. pose proof (pull_monotone x y L). pose proof factor_pos. nra. }
  pose proof (T M a b). lra.
Qed.
Lemma best_iff c : best_constant l wv yv f c <-> pull l wv yv f c = 0.
Proof.
  split.
  - intros B. pose proof (total_derivative c) as D. pose proof (deriv_minimum (constant_loss l wv yv f) (c - 1) (c + 1) c (exist _ _ D) ltac:(lra) ltac:(lra) (fun x _ _ => B x)) as E.
    cbn in E. pose proof factor_pos. nra.
  - intros E c'. pose proof (total_tangent c' c). rewrite E in H. lra.
Qed.
(** The steps point downhill. *)
Lemma downhill cs k a b : visited l wv yv f cs -> nth_error cs k = Some a -> nth_error cs (S k) = Some b ->
  0 <= pull l wv yv f a * (b - a) /\ (bend l wv yv f a <> 0 -> (a = b <-> best_constant l wv yv f a)).
Proof.
  intros (_ & _ & V) A B. destruct (V k a b A B) as (S & Z & _). pose proof (bend_bounds a) as [P _].
  destruct (Req_EM_T (bend l wv yv f a) 0) as [E|E].
  - rewrite (Z E). split; [lra|]. intros X. contradiction.
  - rewrite (S E). split.
    + replace (pull l wv yv f a * (a + pull l wv yv f a / bend l wv yv f a - a)) with (pull l wv yv f a * pull l wv yv f a / bend l wv yv f a) by (field; exact E).
      apply Rdiv_le_0_compat; [apply Rle_0_sqr|lra].
    + intros _. rewrite best_iff. split; intros X.
      * assert (pull l wv yv f a / bend l wv yv f a = 0) as Y by lra. apply (f_equal (fun z => z * bend l wv yv f a)) in Y. unfold Rdiv in Y. rewrite Rmult_assoc, Rinv_l in Y by exact E. lra.
      * rewrite X. unfold Rdiv. ring.
Qed.
(** A short last step means a small gradient. *)
Lemma settled cs a b : visited l wv yv f cs -> ends cs a b -> (List.length cs < 11)%nat -> bend l wv yv f a <> 0 ->
  Rabs (pull l wv yv f a) <= top * rsum n wv / 10000 /\
  forall c', constant_loss l wv yv f a <= constant_loss l wv yv f c' + factor * top * rsum n wv / 10000 * Rabs (c' - a).
Proof.
  intros (Ln & _ & V) [cs' E] L Nz.
  assert (List.length cs = List.length cs' + 2)%nat as Lc by (rewrite E, app_length; reflexivity).
  destruct (V (List.length cs') a b) as (S & _ & _ & Sm).
  { rewrite E, nth_error_app2, Nat.sub_diag by lia. reflexivity. } { rewrite E, nth_error_app2 by lia. replace (Datatypes.S (List.length cs') - List.length cs')%nat with 1%nat by lia. reflexivity. }
  specialize (Sm ltac:(lia) L). rewrite (S Nz) in Sm. pose proof (bend_bounds a) as [P Q].
  replace (a + pull l wv yv f a / bend l wv yv f a - a) with (pull l wv yv f a / bend l wv yv f a) in Sm by ring.
  assert (Rabs (pull l wv yv f a) <= top * rsum n wv / 10000) as X.
  { replace (pull l wv yv f a) with (pull l wv yv f a / bend l wv yv f a * bend l wv yv f a) by (field; exact Nz). rewrite Rabs_mult, (Rabs_pos_eq (bend l wv yv f a)) by exact P.
    pose proof (Rabs_pos (pull l wv yv f a / bend l wv yv f a)). nra. }
  split; [exact X|]. intros c'. pose proof (total_tangent c' a) as T. pose proof factor_pos.
  assert (pull l wv yv f a * (c' - a) <= top * rsum n wv / 10000 * Rabs (c' - a)).
  { eapply Rle_trans; [apply Rle_abs|]. rewrite Rabs_mult. apply Rmult_le_compat_r; [apply Rabs_pos|exact X]. }
  nra.
Qed.
End Convex.

(** ** The first round without base forest *)
Section Start.
Variables (wv yv : nat -> R) (f : list R).
Let n := List.length f.
Let P := weight_with wv yv n 1.
Let M := weight_with wv yv n (-1).
Hypothesis Zero : forall i, nth i f 0 = 0.
Hypothesis Signs : forall i, (i < n)%nat -> yv i = 1 \/ yv i = -1.
Hypothesis Wpos : forall i, (i < n)%nat -> 0 <= wv i.
Lemma two_sums t a b : (forall i, (i < n)%nat -> yv i = 1 -> t i = a) -> (forall i, (i < n)%nat -> yv i = -1 -> t i = b) -> rsum n (fun i => wv i * t i) = a * P + b * M.
Proof.
  intros A B. unfold P, M, weight_with. rewrite <- rsum_lin. apply rsum_ext. intros i I.
  destruct (Signs i I) as [E|E]; destruct (Req_EM_T (yv i) 1), (Req_EM_T (yv i) (-1)); try lra; [rewrite (A i I E)|rewrite (B i I E)]; ring.
Qed.
Lemma weights_pos : 0 <= P /\ 0 <= M.
Proof. split; apply rsum_nonneg; intros i I; destruct (Req_EM_T _ _); auto; lra. Qed.
Lemma weights_sum : rsum n wv = P + M.
Proof. transitivity (rsum n (fun i => wv i * 1)); [apply rsum_ext; intros; ring|]. rewrite (two_sums (fun _ => 1) 1 1); auto; ring. Qed.
Lemma exp_flip c : exp c = / exp (- c).
Proof. rewrite exp_Ropp. rewrite Rinv_inv. reflexivity. Qed.
Lemma log_pull c : pull log_loss wv yv f c = (P * exp (- c) - M) / (1 + exp (- c)).
Proof.
  unfold pull. fold n. pose proof (exp_pos (- c)) as E.
  rewrite (two_sums _ (exp (- c) / (1 + exp (- c))) (- (1 / (1 + exp (- c))))); [field; lra| |]; intros i I Y; rewrite Zero, Y; (eapply eq_trans; [apply log_loss_real|]).
  - replace (- (1) * (0 + c)) with (- c) by ring. field. lra.
  - replace (- -1 * (0 + c)) with c by ring. rewrite exp_flip. field. lra.
Qed.
Lemma log_bend c : bend log_loss wv yv f c = (P + M) * exp (- c) / ((1 + exp (- c)) * (1 + exp (- c))).
Proof.
  unfold bend. fold n. pose proof (exp_pos (- c)) as E. set (k := exp (- c) / ((1 + exp (- c)) * (1 + exp (- c)))).
  rewrite (two_sums _ k k); unfold k; [field; lra| |]; intros i I Y; rewrite Zero, Y; (eapply eq_trans; [apply log_loss_real|]).
  - replace (- (1) * (0 + c)) with (- c) by ring. reflexivity.
  - replace (- -1 * (0 + c)) with c by ring. rewrite exp_flip. field. lra.
Qed.
Lemma log_known : known_loss log_loss yv n 1 (1 / 4).
Proof. right. split; [exact Signs|]. left. auto. Qed.

(** 2 (1 - t) / (1 + t) <= - ln t *)
Lemma ln_bound t : 0 < t <= 1 -> 2 * (1 - t) / (1 + t) <= - ln t.
Proof.
  intros [T0 T1]. destruct (Req_dec t 1) as [->|Ne]; [rewrite ln_1; lra|].
  assert (t < 1) as L by lra.
  destruct (MVT_cor2 (fun t => - ln t - 2 * (1 - t) / (1 + t)) (fun t => - / t + 4 / ((1 + t) * (1 + t))) t 1 L) as (x & E & X).
  { intros z Z. apply is_derive_Reals. auto_derive; [lra|]. field. lra. }
  cbv beta in E. rewrite ln_1 in E.
  assert (- / x + 4 / ((1 + x) * (1 + x)) = - ((1 - x) * (1 - x) / (x * ((1 + x) * (1 + x))))) as Q by (field; lra).
  assert (0 <= (1 - x) * (1 - x) / (x * ((1 + x) * (1 + x)))).
  { apply Rdiv_le_0_compat; [apply Rle_0_sqr|]. apply Rmult_lt_0_compat; [lra|]. apply Rmult_lt_0_compat; lra. }
  rewrite Q in E. nra.
Qed.
(** A step towards the root does not go beyond it. *)
Lemma log_step A B c : 0 < B -> B <= A -> 0 <= c -> c <= ln (A / B) ->
  let e := exp (- c) in 0 <= (A * e - B) * (1 + e) / ((A + B) * e) <= ln (A / B) - c.
Proof.
  intros B0 BA C0 CL e. assert (0 < e) as E0 by apply exp_pos. assert (e <= 1) as E1.
  { unfold e. rewrite <- exp_0. destruct (Req_dec c 0) as [->|]; [rewrite Ropp_0; lra|]. left. apply exp_increasing. lra. }
  assert (0 < A / B) as Q by (apply Rdiv_lt_0_compat; lra).
  assert (B <= A * e) as H.
  { assert (exp c <= A / B) as X by (rewrite <- (exp_ln (A / B)) by exact Q; destruct CL as [CL|CL]; [left; apply exp_increasing, CL|rewrite <- CL; lra]).
    assert (exp c * e = 1) as Y by (unfold e; rewrite <- exp_plus, Rplus_opp_r, exp_0; reflexivity).
    apply (Rmult_le_compat_r (B * e)) in X; [|nra]. replace (A / B * (B * e)) with (A * e) in X by (field; lra). replace (exp c * (B * e)) with (B * (exp c * e)) in X by ring. rewrite Y in X. lra. }
  split.
  - apply Rdiv_le_0_compat; [|nra]. apply Rmult_le_pos; lra.
  - set (t := B / (A * e)). assert (0 < t <= 1) as T.
    { unfold t. assert (0 < A * e) by nra. split; [apply Rdiv_lt_0_compat; lra|]. apply (Rmult_le_reg_r (A * e)); [lra|]. unfold Rdiv. rewrite Rmult_assoc, Rinv_l by lra. lra. }
    assert (ln (A / B) - c = - ln t) as ->.
    { unfold t. replace (B / (A * e)) with (/ (A / B * e)) by (field; lra). rewrite ln_Rinv by (apply Rmult_lt_0_compat; lra). rewrite ln_mult by lra. unfold e. rewrite ln_exp. ring. }
    eapply Rle_trans; [|apply ln_bound; exact T].
    replace ((A * e - B) * (1 + e) / ((A + B) * e)) with ((1 - t) * ((1 + e) / (1 + t * e))) by (unfold t; field; repeat split; nra).
    replace (2 * (1 - t) / (1 + t)) with ((1 - t) * (2 / (1 + t))) by (field; lra).
    apply Rmult_le_compat_l; [lra|]. apply (Rmult_le_reg_r ((1 + t * e) * (1 + t))); [nra|].
    replace ((1 + e) / (1 + t * e) * ((1 + t * e) * (1 + t))) with ((1 + e) * (1 + t)) by (field; nra).
    replace (2 / (1 + t) * ((1 + t * e) * (1 + t))) with (2 * (1 + t * e)) by (field; nra). nra.
Qed.
Lemma log_next c : 0 < P + M -> pull log_loss wv yv f c / bend log_loss wv yv f c = (P * exp (- c) - M) * (1 + exp (- c)) / ((P + M) * exp (- c)) /\ bend log_loss wv yv f c <> 0.
Proof.
  intros W. pose proof (exp_pos (- c)). rewrite log_pull, log_bend. split; [field; repeat split; nra|].
  apply Rgt_not_eq. apply Rdiv_lt_0_compat; [nra|]. nra.
Qed.
Lemma log_next' c : 0 < P + M -> pull log_loss wv yv f c / bend log_loss wv yv f c = - ((M * exp c - P) * (1 + exp c) / ((M + P) * exp c)).
Proof.
  intros W. rewrite (proj1 (log_next c W)). rewrite (exp_flip c). pose proof (exp_pos (- c)). field. split; lra.
Qed.
Let L := ln (P / M).
Lemma log_best : 0 < P -> 0 < M -> forall c, best_constant log_loss wv yv f c <-> c = L.
Proof.
  intros P0 M0 c. rewrite (best_iff log_loss wv yv f 1 (1 / 4) log_known Wpos c), log_pull. pose proof (exp_pos (- c)) as E.
  split.
  - intros Z. assert (P * exp (- c) = M) as X.
    { apply (f_equal (fun z => z * (1 + exp (- c)))) in Z. unfold Rdiv in Z. rewrite Rmult_assoc, Rinv_l in Z by lra. lra. }
    unfold L. rewrite <- X. replace (P / (P * exp (- c))) with (exp c) by (rewrite exp_flip; field; lra). symmetry. apply ln_exp.
  - intros ->. unfold L. replace (P * exp (- ln (P / M)) - M) with 0; [unfold Rdiv; ring|].
    rewrite exp_Ropp, exp_ln by (apply Rdiv_lt_0_compat; lra). field. lra.
Qed.
Lemma log_way cs : 0 < P -> 0 < M -> visited log_loss wv yv f cs ->
  forall k a, nth_error cs k = Some a -> between 0 a L /\
    forall b, nth_error cs (S k) = Some b -> between a b L /\ constant_loss log_loss wv yv f b <= constant_loss log_loss wv yv f a.
Proof.
  intros P0 M0 (Ln & F0 & V).
  assert (forall a b, nth_error cs 0 = Some 0 -> between 0 a L -> b = a + pull log_loss wv yv f a / bend log_loss wv yv f a -> between a b L /\ between 0 b L) as One.
  { intros a b _ Ba ->. destruct (Rle_dec 0 L) as [S|S].
    - assert (M <= P) as MP.
      { destruct (Rle_dec M P); [assumption|]. exfalso. assert (L < 0); [|lra]. unfold L. rewrite <- ln_1. apply ln_increasing; [apply Rdiv_lt_0_compat; lra|]. apply (Rmult_lt_reg_r M); [lra|]. unfold Rdiv. rewrite Rmult_assoc, Rinv_l; lra. }
      assert (0 <= a <= L) as Ha by (destruct Ba; lra). destruct (log_step P M a M0 MP ltac:(lra)) as [X Y]; [unfold L in Ha; lra|]. rewrite (proj1 (log_next a ltac:(lra))). unfold L in *. split; left; lra.
    - assert (P <= M) as PM.
      { destruct (Rle_dec P M); [assumption|]. exfalso. apply S. unfold L. rewrite <- ln_1. left. apply ln_increasing; [lra|]. apply (Rmult_lt_reg_r M); [lra|]. unfold Rdiv. rewrite Rmult_assoc, Rinv_l; lra. }
      assert (L = - ln (M / P)) as EL by (unfold L; replace (P / M) with (/ (M / P)) by (field; lra); apply ln_Rinv; apply Rdiv_lt_0_compat; lra).
      assert (L <= a <= 0) as Ha by (destruct Ba; lra). destruct (log_step M P (- a) P0 PM ltac:(lra)) as [X Y]; [lra|]. rewrite Ropp_involutive in X, Y. rewrite (log_next' a ltac:(lra)). split; right; lra. }
  assert (forall k a, nth_error cs k = Some a -> between 0 a L) as All.
  { induction k as [|k IH]; intros a A.
    - rewrite F0 in A. assert (a = 0) by congruence. subst a. unfold between. destruct (Rle_dec 0 L); lra.
    - destruct (nth_error cs k) as [a0|] eqn:A0; [|apply nth_error_None in A0; assert (S k < List.length cs)%nat by (apply nth_error_Some; congruence); lia].
      destruct (V k a0 a A0 A) as (St & _). apply (One a0 a F0 (IH a0 eq_refl)). apply St. apply log_next. lra. }
  intros k a A. split; [eapply All; eauto|]. intros b B. destruct (V k a b A B) as (St & _).
  destruct (One a b F0 (All k a A)) as [X Y]; [apply St, log_next; lra|]. split; [exact X|].
  pose proof (total_tangent log_loss wv yv f 1 (1 / 4) log_known Wpos a b) as T.
  assert (pull log_loss wv yv f L = 0) as Z by (apply (best_iff log_loss wv yv f 1 (1 / 4) log_known Wpos), log_best; auto).
  assert (0 <= pull log_loss wv yv f b * (b - a)); [|nra].
  destruct X as [X|X].
  - pose proof (pull_monotone log_loss wv yv f 1 (1 / 4) log_known Wpos b L ltac:(lra)). nra.
  - pose proof (pull_monotone log_loss wv yv f 1 (1 / 4) log_known Wpos L b ltac:(lra)). nra.
Qed.
(** One class only: ten steps of length between 1 and 2. *)
Lemma log_one_class cs a b : visited log_loss wv yv f cs -> ends cs a b -> (0 < P /\ M = 0 -> List.length cs = 11%nat /\ 10 < b <= 20) /\ (P = 0 /\ 0 < M -> List.length cs = 11%nat /\ -20 <= b < -10).
Proof.
  intros (Ln & F0 & V) [cs' E].
  assert (forall s : R, s = 1 \/ s = -1 -> (s = 1 -> 0 < P /\ M = 0) -> (s = -1 -> P = 0 /\ 0 < M) -> List.length cs = 11%nat /\ 10 < s * b <= 20) as H.
  { intros s Sg Sp Sm.
    assert (forall a b, 0 <= s * a -> b = a + pull log_loss wv yv f a / bend log_loss wv yv f a -> 1 < s * (b - a) <= 2) as One.
    { intros a0 b0 A0 ->. destruct Sg as [-> | ->].
      - destruct (Sp eq_refl) as [P0 M0]. rewrite (proj1 (log_next a0 ltac:(lra))), M0. pose proof (exp_pos (- a0)).
        assert (exp (- a0) <= 1) by (rewrite <- exp_0; destruct (Req_dec a0 0) as [->|]; [rewrite Ropp_0; lra|left; apply exp_increasing; lra]).
        replace (1 * (a0 + (P * exp (- a0) - 0) * (1 + exp (- a0)) / ((P + 0) * exp (- a0)) - a0)) with (1 + exp (- a0)) by (field; lra). lra.
      - destruct (Sm eq_refl) as [P0 M0]. rewrite (log_next' a0 ltac:(lra)), P0. pose proof (exp_pos a0).
        assert (exp a0 <= 1) by (rewrite <- exp_0; destruct (Req_dec a0 0) as [->|]; [lra|left; apply exp_increasing; lra]).
        replace (-1 * (a0 + - ((M * exp a0 - 0) * (1 + exp a0) / ((M + 0) * exp a0)) - a0)) with (1 + exp a0) by (field; lra). lra. }
    assert (0 < P + M) as W by (destruct Sg as [-> | ->]; [destruct (Sp eq_refl)|destruct (Sm eq_refl)]; lra).
    assert (forall k c, nth_error cs k = Some c -> INR k <= s * c <= 2 * INR k /\ ((0 < k)%nat -> INR k < s * c)) as All.
    { induction k as [|k IH]; intros c C.
      - rewrite F0 in C. assert (c = 0) by congruence. subst c. cbn. split; [lra|lia].
      - destruct (nth_error cs k) as [c0|] eqn:C0; [|apply nth_error_None in C0; assert (S k < List.length cs)%nat by (apply nth_error_Some; congruence); lia].
        destruct (V k c0 c C0 C) as (St & _). destruct (IH c0 eq_refl) as [[I1 I2] _]. pose proof (pos_INR k).
        pose proof (One c0 c ltac:(lra) (St (proj2 (log_next c0 W)))). rewrite S_INR. split; [|intros _]; lra. }
    assert (List.length cs = List.length cs' + 2)%nat as Lc by (rewrite E, app_length; reflexivity).
    assert (nth_error cs (List.length cs') = Some a) as Na by (rewrite E, nth_error_app2, Nat.sub_diag by lia; reflexivity).
    assert (nth_error cs (S (List.length cs')) = Some b) as Nb by (rewrite E, nth_error_app2 by lia; replace (S (List.length cs') - List.length cs')%nat with 1%nat by lia; reflexivity).
    assert (List.length cs = 11%nat) as L11.
    { destruct (Nat.eq_dec (List.length cs) 11) as [|Ne]; [assumption|exfalso]. destruct (V _ a b Na Nb) as (St & _ & _ & Sm0). specialize (Sm0 ltac:(lia) ltac:(lia)).
      destruct (All _ a Na) as [[A1 _] _]. pose proof (pos_INR (List.length cs')). pose proof (One a b ltac:(lra) (St (proj2 (log_next a W)))) as X.
      assert (Rabs (b - a) = Rabs (s * (b - a))) as Y by (rewrite Rabs_mult; destruct Sg as [-> | ->]; [rewrite Rabs_R1|replace (-1) with (- (1)) by ring; rewrite Rabs_Ropp, Rabs_R1]; ring). rewrite Y, Rabs_pos_eq in Sm0 by lra. lra. }
    split; [exact L11|]. destruct (All _ b Nb) as [[_ B2] B1]. specialize (B1 ltac:(lia)). replace (S (List.length cs')) with 10%nat in * by lia. cbn in B1, B2. lra. }
  split; intros [A B].
  - destruct (H 1) as [X Y]; [auto|auto|lra|]. split; [exact X|lra].
  - destruct (H (-1)) as [X Y]; [auto|lra|auto|]. split; [exact X|lra].
Qed.

(** The huberized hinge *)
Ltac margins := repeat match goal with |- context [Rle_dec ?a ?b] => destruct (Rle_dec a b) end; lra.
Lemma hinge_known : known_loss huberized_hinge yv n 1 1.
Proof. right. split; [exact Signs|]. right. left. auto. Qed.
Lemma hinge_zero : pull huberized_hinge wv yv f 0 = P - M /\ bend huberized_hinge wv yv f 0 = P + M.
Proof.
  unfold pull, bend. fold n. split.
  - rewrite (two_sums _ 1 (-1)); [ring| |]; intros i I Y; rewrite Zero, Y, hinge_g; margins.
  - rewrite (two_sums _ 1 1); [ring| |]; intros i I Y; rewrite Zero, Y, hinge_h; margins.
Qed.
Lemma hinge_right c : 0 < c < 1 -> pull huberized_hinge wv yv f c = P * (1 - c) - M /\ bend huberized_hinge wv yv f c = P.
Proof.
  intros C. unfold pull, bend. fold n. split.
  - rewrite (two_sums _ (1 - c) (-1)); [ring| |]; intros i I Y; rewrite Zero, Y, hinge_g; margins.
  - rewrite (two_sums _ 1 0); [ring| |]; intros i I Y; rewrite Zero, Y, hinge_h; margins.
Qed.
Lemma hinge_left c : -1 < c < 0 -> pull huberized_hinge wv yv f c = P - M * (1 + c) /\ bend huberized_hinge wv yv f c = M.
Proof.
  intros C. unfold pull, bend. fold n. split.
  - rewrite (two_sums _ 1 (- (1 + c))); [ring| |]; intros i I Y; rewrite Zero, Y, hinge_g; margins.
  - rewrite (two_sums _ 0 1); [ring| |]; intros i I Y; rewrite Zero, Y, hinge_h; margins.
Qed.
Lemma hinge_one_class c : (c = 1 /\ M = 0) \/ (c = -1 /\ P = 0) -> pull huberized_hinge wv yv f c = 0 /\ bend huberized_hinge wv yv f c = 0.
Proof.
  unfold pull, bend. fold n. intros [[-> E]|[-> E]]; split.
  - rewrite (two_sums _ 0 (-1)); [rewrite E; ring| |]; intros i I Y; rewrite Zero, Y, hinge_g; margins.
  - rewrite (two_sums _ 0 0); [ring| |]; intros i I Y; rewrite Zero, Y, hinge_h; margins.
  - rewrite (two_sums _ 1 0); [rewrite E; ring| |]; intros i I Y; rewrite Zero, Y, hinge_g; margins.
  - rewrite (two_sums _ 0 0); [ring| |]; intros i I Y; rewrite Zero, Y, hinge_h; margins.
Qed.
(** A way that reaches a resting point stays there and ends. *)
Lemma rests l cs k x : visited l wv yv f cs -> nth_error cs k = Some x -> pull l wv yv f x = 0 -> forall a b, ends cs a b -> (S k < List.length cs)%nat -> b = x.
Proof.
  intros (Ln & _ & V) X Z a b [cs' E] K.
  destruct (nth_error cs (S k)) as [x'|] eqn:X'; [|apply nth_error_None in X'; lia].
  destruct (V k x x' X X') as (St & St0 & Big & _).
  assert (x' = x) as Same by (destruct (Req_EM_T (bend l wv yv f x) 0) as [B|B]; [exact (St0 B)|rewrite (St B), Z; unfold Rdiv; ring]).
  destruct (Nat.eq_dec (S (S k)) (List.length cs)) as [Le|Le].
  - assert (List.length cs = List.length cs' + 2)%nat as Lc by (rewrite E, app_length; reflexivity).
    rewrite E, nth_error_app2 in X' by lia. replace (S k - List.length cs')%nat with 1%nat in X' by lia. cbn in X'. congruence.
  - exfalso. specialize (Big ltac:(lia)). rewrite Same, Rminus_diag_eq, Rabs_R0 in Big by reflexivity. lra.
Qed.
Lemma hinge_start cs a b : 0 < P + M -> visited huberized_hinge wv yv f cs -> ends cs a b -> let c1 := (P - M) / (P + M) in
  (Rabs c1 <= 1 / 10000 -> b = c1) /\ (1 / 10000 < c1 -> b = 1 - M / P /\ best_constant huberized_hinge wv yv f b) /\
  (c1 < - (1 / 10000) -> b = P / M - 1 /\ best_constant huberized_hinge wv yv f b).
Proof.
  intros W Vis En c1. pose proof Vis as (Ln & F0 & V). pose proof En as [cs' E]. destruct weights_pos as [P0 M0].
  assert (List.length cs = List.length cs' + 2)%nat as Lc by (rewrite E, app_length; reflexivity).
  destruct (nth_error cs 1) as [x1|] eqn:N1; [|apply nth_error_None in N1; lia].
  destruct (V 0%nat 0 x1 F0 N1) as (St & _ & Big & Sm). destruct hinge_zero as [Hp Hb]. rewrite Hp, Hb in St. specialize (St ltac:(lra)). rewrite Rplus_0_l in St. fold c1 in St. subst x1.
  rewrite Rminus_0_r in Big, Sm.
  assert (Rabs c1 <= 1 / 10000 -> b = c1) as Small.
  { intros S1. assert (List.length cs = 2)%nat as L2 by (destruct (Nat.eq_dec (List.length cs) 2); [assumption|]; specialize (Big ltac:(lia)); lra).
    rewrite E, nth_error_app2 in N1 by lia. replace (1 - List.length cs')%nat with 1%nat in N1 by lia. cbn in N1. congruence. }
  assert (1 / 10000 < Rabs c1 -> (2 < List.length cs)%nat) as Long.
  { intros G. destruct (Nat.eq_dec (List.length cs) 2) as [L2|]; [|lia]. exfalso. specialize (Sm ltac:(lia) ltac:(lia)). lra. }
  assert (c1 * (P + M) = P - M) as Ec by (unfold c1; field; lra).
  assert (forall x, pull huberized_hinge wv yv f x = 0 -> (exists k, nth_error cs k = Some x /\ (S k < List.length cs)%nat) \/ nth_error cs 2 = Some x /\ List.length cs = 3%nat -> b = x /\ best_constant huberized_hinge wv yv f b) as Fin.
  { intros x Px H. assert (b = x) as ->; [|split; [reflexivity|apply (best_iff huberized_hinge wv yv f 1 1 hinge_known Wpos), Px]].
    destruct H as [(k & Nk & Lk)|[N2 L3]]; [exact (rests huberized_hinge cs k x Vis Nk Px a b En Lk)|].
    rewrite E, nth_error_app2 in N2 by lia. replace (2 - List.length cs')%nat with 1%nat in N2 by lia. cbn in N2. congruence. }
  split; [exact Small|]. split; intros G.
  - assert (1 / 10000 < Rabs c1) as Ab by (unfold Rabs; destruct (Rcase_abs c1); lra). specialize (Long Ab). assert (M < P) as MP by nra. assert (c1 <= 1) as C1 by nra.
    destruct (Req_dec M 0) as [Z|Nz].
    + assert (c1 = 1) as One by nra. replace (1 - M / P) with 1 by (rewrite Z; field; lra).
      apply Fin; [apply hinge_one_class; auto|]. left. exists 1%nat. rewrite One in N1. auto.
    + assert (c1 < 1) as C2 by nra.
      destruct (nth_error cs 2) as [x2|] eqn:N2; [|apply nth_error_None in N2; lia]. destruct (V 1%nat c1 x2 N1 N2) as (St & _). destruct (hinge_right c1 ltac:(lra)) as [Q1 Q2]. rewrite Q1, Q2 in St. specialize (St ltac:(lra)).
      assert (x2 = 1 - M / P) as X2 by (rewrite St; field; lra). subst x2. rewrite X2 in N2.
      assert (M / P * P = M) as MPP by (field; lra). assert (0 < M / P < 1) as R1 by (split; nra).
      apply Fin; [rewrite (proj1 (hinge_right (1 - M / P) ltac:(lra))); lra|].
      destruct (Nat.eq_dec (List.length cs) 3); [right; split; [f_equal; exact X2|assumption]|left; exists 2%nat; split; [exact N2|lia]].
  - assert (1 / 10000 < Rabs c1) as Ab by (unfold Rabs; destruct (Rcase_abs c1); lra). specialize (Long Ab). assert (P < M) as MP by nra. assert (-1 <= c1) as C1 by nra.
    destruct (Req_dec P 0) as [Z|Nz].
    + assert (c1 = -1) as One by nra. replace (P / M - 1) with (-1) by (rewrite Z; field; lra).
      apply Fin; [apply hinge_one_class; auto|]. left. exists 1%nat. rewrite One in N1. auto.
    + assert (-1 < c1) as C2 by nra.
      destruct (nth_error cs 2) as [x2|] eqn:N2; [|apply nth_error_None in N2; lia]. destruct (V 1%nat c1 x2 N1 N2) as (St & _). destruct (hinge_left c1 ltac:(lra)) as [Q1 Q2]. rewrite Q1, Q2 in St. specialize (St ltac:(lra)).
      assert (x2 = P / M - 1) as X2 by (rewrite St; field; lra). subst x2. rewrite X2 in N2.
      assert (P / M * M = P) as MPP by (field; lra). assert (0 < P / M < 1) as R1 by (split; nra).
      apply Fin; [rewrite (proj1 (hinge_left (P / M - 1) ltac:(lra))); lra|].
      destruct (Nat.eq_dec (List.length cs) 3); [right; split; [f_equal; exact X2|assumption]|left; exists 2%nat; split; [exact N2|lia]].
Qed.
End Start.
Lemma turned d k : 0 < k -> forall x, 0 <= d * x -> - (k * d) * x <= 0.
Proof. intros. nra. Qed.
