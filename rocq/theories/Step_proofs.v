(** Step_proofs.v - a round of boosting with any pointwise loss, in exact arithmetic. *)
From Coq Require Import Reals Lra Sorted Permutation SpecFloat Ranalysis.
From Coquelicot Require Import Coquelicot.
From Verif Require Import Base F32 Column DataStore Num Forest Config Score ScoreSpec Eval EvalSpec Split SplitSpec Tree TreeSpec Train TrainSpec Par Subsampling Loss LossSpec
  Split_proofs Subsampling_proofs Score_proofs Eval_proofs Hist_proofs Sum_proofs Tree_proofs Train_proofs Loss_proofs Mse_proofs Calculus_proofs ConstantSpec Constant_proofs StepSpec.
Local Open Scope R_scope.

Lemma total_lsum rows g : total rows g = lsum rows g.
Proof. reflexivity. Qed.

(** ** One row: the loss lies below parabolas *)
Lemma steepest l yv n factor top : known_loss l yv n factor top -> forall i, (i < n)%nat -> forall a b, a <= b -> g_of l (yv i) a - top * (b - a) <= g_of l (yv i) b.
Proof.
  intros [(-> & -> & ->)|[Y [(-> & -> & ->)|[(-> & -> & ->)|(-> & -> & ->)]]]] i I; [generalize (yv i); intros y|specialize (Y i I); revert Y; generalize (yv i); intros y Y..]; intros a b L.
  - change (y - a - 1 * (b - a) <= y - b). lra.
  - assert (1 / 4 * a + g_of log_loss y a <= 1 / 4 * b + g_of log_loss y b); [|lra].
    refine (grows (fun f => 1 / 4 * f + g_of log_loss y f) (fun f => 1 / 4 - h_of log_loss y f) _ _ a b L); intros x.
    + assert (D : derivable_pt_lim (fun f => - g_of log_loss y f) x (h_of log_loss y x)) by (apply log_second; destruct Y as [-> | ->]; ring).
      apply is_derive_Reals in D. apply is_derive_Reals.
      apply (is_derive_ext (fun f => minus (1 / 4 * f) (- g_of log_loss y f))); [intros t; unfold minus, plus, opp; cbn; ring|].
      apply (is_derive_minus (K := R_AbsRing) (V := R_NormedModule)); [auto_derive; [trivial|ring]|exact D].
    + pose proof (ni_hessian _ _ _ _ (nice_known log_loss (fun _ => y) 1 1 (1 / 4) (or_intror (conj (fun _ _ => Y) (or_introl (conj eq_refl (conj eq_refl eq_refl))))) 0%nat ltac:(lia)) x). lra.
  - rewrite !hinge_g. destruct (Rle_dec 1 (y * b)), (Rle_dec 1 (y * a)), (Rle_dec 0 (y * b)), (Rle_dec 0 (y * a)); destruct Y as [-> | ->]; lra.
  - rewrite !square_g. destruct (Rlt_dec 0 ((y - b) * y)), (Rlt_dec 0 ((y - a) * y)); destruct Y as [-> | ->]; lra.
Qed.
Lemma below l yv n factor top : known_loss l yv n factor top -> forall i, (i < n)%nat -> forall x d,
  loss_of l (yv i) (x + d) <= loss_of l (yv i) x - factor * g_of l (yv i) x * d + factor * top / 2 * (d * d).
Proof.
  intros K i I x d. pose proof (nice_known l yv n factor top K i I) as Ni. pose proof (steepest l yv n factor top K i I) as St.
  assert (0 < factor) as Fp. { destruct K as [(_ & -> & _)|[_ [(_ & -> & _)|[(_ & -> & _)|(_ & -> & _)]]]]; lra. }
  pose proof (tangent (fun x => factor * top / 2 * (x * x) - loss_of l (yv i) x) (fun x => factor * top * x + factor * g_of l (yv i) x)) as T.
  assert (forall x, derivable_pt_lim (fun x => factor * top / 2 * (x * x) - loss_of l (yv i) x) x (factor * top * x + factor * g_of l (yv i) x)) as D.
  { intros z. apply is_derive_Reals. replace (factor * top * z + factor * g_of l (yv i) z) with (minus (factor * top * z) (- (factor * g_of l (yv i) z))) by (unfold minus, plus, opp; cbn; ring).
    apply (is_derive_minus (K := R_AbsRing) (V := R_NormedModule) (fun x => factor * top / 2 * (x * x)) (fun x => loss_of l (yv i) x)); [auto_derive; [trivial|field]|].
    apply is_derive_Reals. exact (ni_first _ _ _ _ Ni z). }
  assert (forall a b, a <= b -> factor * top * a + factor * g_of l (yv i) a <= factor * top * b + factor * g_of l (yv i) b) as M.
  { intros a b L. pose proof (St a b L). nra. }
  pose proof (T D M (x + d) x) as Q. cbv beta in Q. nra.
Qed.

(** ** One leaf *)
Section Tree.
Variables (l : Exact -> Exact -> point Exact) (wv yv : nat -> R) (f : list R) (a lambda factor top : R) (label : nat -> list bool) (s : nat -> R).
Let n := List.length f.
Hypothesis Known : known_loss l yv n factor top.
Hypothesis Wpos : forall i, (i < n)%nat -> 0 <= wv i.
Hypothesis Newton : newton_tree l wv yv f a lambda label s.
Let g i := g_of l (yv i) (nth i f 0 + a).
Let mates := leaf_mates f label.
Let LG := leaf_g l wv yv f a label.
Let LH := leaf_h l wv yv f a label.
Let LW := leaf_w wv f label.
Lemma mate i j : In j (mates i) -> (j < n)%nat /\ label j = label i.
Proof. unfold mates, leaf_mates. rewrite filter_In, in_seq. fold n. destruct (list_eq_dec Bool.bool_dec (label j) (label i)) as [E|]; [|intros [_ X]; discriminate X]. intros [X _]. split; [lia|exact E]. Qed.
Lemma same_leaf i j : label j = label i -> mates j = mates i.
Proof. intros E. unfold mates, leaf_mates. rewrite E. reflexivity. Qed.
Lemma same_score i j : (i < n)%nat -> In j (mates i) -> s j = s i.
Proof.
  intros I J. destruct (mate i j J) as [Jn E]. destruct (Newton i I) as [A B], (Newton j Jn) as [A' B'].
  assert (leaf_h l wv yv f a label j = leaf_h l wv yv f a label i) as Eh by (unfold leaf_h; f_equal; exact (same_leaf i j E)).
  assert (leaf_g l wv yv f a label j = leaf_g l wv yv f a label i) as Eg by (unfold leaf_g; f_equal; exact (same_leaf i j E)).
  rewrite Eh in A', B'. rewrite Eg in A'.
  destruct (Req_EM_T (leaf_h l wv yv f a label i + lambda) 0) as [Z|Z]; [rewrite (B Z), (B' Z); reflexivity|rewrite (A Z), (A' Z); reflexivity].
Qed.
Lemma top_pos : 0 <= top.
Proof. destruct Known as [(_ & _ & ->)|[_ [(_ & _ & ->)|[(_ & _ & ->)|(_ & _ & ->)]]]]; lra. Qed.
Lemma leaf_h_pos i : 0 <= LH i.
Proof.
  unfold LH, leaf_h. apply lsum_pos. intros j J. destruct (mate i j J) as [Jn _].
  apply Rmult_le_pos; [apply Wpos, Jn|apply (ni_hessian _ _ _ _ (nice_known l yv n factor top Known j Jn))].
Qed.
Lemma leaf_w_pos i : 0 <= LW i.
Proof. apply lsum_pos. intros j J. apply Wpos, (proj1 (mate i j J)). Qed.
Lemma leaf_w_all i : LW i <= rsum n wv.
Proof.
  unfold LW, leaf_w, leaf_mates. rewrite rsum_lsum, (lsum_split (fun j => if list_eq_dec Bool.bool_dec (label j) (label i) then true else false) (seq 0 n)). fold n. unfold total.
  change (fold_right Rplus 0 (map wv (filter (fun j => if list_eq_dec Bool.bool_dec (label j) (label i) then true else false) (seq 0 n)))) with (lsum (filter (fun j => if list_eq_dec Bool.bool_dec (label j) (label i) then true else false) (seq 0 n)) wv).
  assert (0 <= lsum (filter (fun i0 => negb (if list_eq_dec Bool.bool_dec (label i0) (label i) then true else false)) (seq 0 n)) wv); [|lra].
  apply lsum_pos. intros j J. apply filter_In in J. destruct J as [J _]. apply in_seq in J. apply Wpos. lia.
Qed.
Lemma leaf_G i : (i < n)%nat -> s i * LG i = (LH i + lambda) * (s i * s i).
Proof.
  intros I. destruct (Newton i I) as [A B]. fold (LG i) (LH i) in A, B. destruct (Req_EM_T (LH i + lambda) 0) as [Z|Z]; [rewrite (B Z), Z; ring|].
  rewrite (A Z). field. exact Z.
Qed.
Lemma by_leaves q : (forall i, (i < n)%nat -> lsum (mates i) q <= 0) -> rsum n q <= 0.
Proof.
  intros H. rewrite rsum_lsum. apply (groups_le (list_eq_dec Bool.bool_dec) label q n); [rewrite seq_length; lia|]. intros i I. apply in_seq in I. apply (H i). lia.
Qed.
(** The weighted gradients along the scores, in a leaf *)
Lemma leaf_along i : (i < n)%nat -> lsum (mates i) (fun j => wv j * g j * s j) = (LH i + lambda) * (s i * s i).
Proof.
  intros I. rewrite <- (leaf_G i I). change (LG i) with (lsum (mates i) (fun j => wv j * g j)). rewrite <- lsum_mult. apply lsum_ext. intros j J. rewrite (same_score i j I J). ring.
Qed.
Definition along : R := rsum n (fun i => wv i * g i * s i).
Lemma along_pos : 0 <= lambda -> 0 <= along /\ (along = 0 -> forall i, (i < n)%nat -> s i = 0).
Proof.
  intros Lp.
  assert (forall i, (i < n)%nat -> 0 <= (LH i + lambda) * (s i * s i)) as Pos.
  { intros i I. apply Rmult_le_pos; [pose proof (leaf_h_pos i); lra|apply Rle_0_sqr]. }
  assert (forall i0, (i0 < n)%nat -> (LH i0 + lambda) * (s i0 * s i0) <= along) as Part.
  { intros i0 I0. set (in0 := fun j => if list_eq_dec Bool.bool_dec (label j) (label i0) then true else false).
    assert (rsum n (fun j => if in0 j then 0 else - (wv j * g j * s j)) <= 0) as Q.
    { apply by_leaves. intros i I. destruct (list_eq_dec Bool.bool_dec (label i) (label i0)) as [E|E].
      - rewrite (lsum_ext _ _ (fun j => 0 * wv j)); [rewrite lsum_mult; lra|]. intros j J. unfold in0. destruct (mate i j J) as [_ E']. rewrite E', E. destruct (list_eq_dec _ _ _); [ring|contradiction].
      - rewrite (lsum_ext _ _ (fun j => -1 * (wv j * g j * s j))); [rewrite lsum_mult, (leaf_along i I); pose proof (Pos i I); lra|].
        intros j J. unfold in0. destruct (mate i j J) as [_ E']. rewrite E'. destruct (list_eq_dec _ _ _); [contradiction|ring]. }
    rewrite <- (leaf_along i0 I0). unfold along. rewrite rsum_lsum. rewrite (lsum_split in0 (seq 0 n)).
    change (mates i0) with (filter in0 (seq 0 n)).
    rewrite rsum_lsum, (lsum_split in0) in Q.
    rewrite (lsum_ext (filter in0 (seq 0 n)) (fun j => if in0 j then 0 else - (wv j * g j * s j)) (fun j => 0 * wv j)) in Q.
    2: { intros j J. apply filter_In in J. destruct J as [_ J]. rewrite J. ring. }
    rewrite (lsum_ext (filter (fun i => negb (in0 i)) (seq 0 n)) (fun j => if in0 j then 0 else - (wv j * g j * s j)) (fun j => -1 * (wv j * g j * s j))) in Q.
    2: { intros j J. apply filter_In in J. destruct J as [_ J]. destruct (in0 j); [discriminate J|ring]. }
    rewrite !lsum_mult in Q. lra. }
  split.
  - destruct (Nat.eq_dec n 0) as [Z|Z]; [unfold along, rsum; rewrite Z; cbn; lra|]. eapply Rle_trans; [apply (Pos 0%nat); lia|apply Part; lia].
  - intros E i I. pose proof (Part i I) as Q. rewrite E in Q. pose proof (Pos i I) as P. destruct (Newton i I) as [A B]. fold (LG i) (LH i) in A, B.
    destruct (Req_EM_T (LH i + lambda) 0) as [Z|Z]; [exact (B Z)|]. assert (s i * s i = 0) as X by nra. destruct (Rmult_integral _ _ X); assumption.
Qed.
Lemma direction : 0 <= lambda -> exists d, derivable_pt_lim (stepped l wv yv f a s) 0 d /\ d <= 0 /\ (d = 0 -> forall i, (i < n)%nat -> s i = 0).
Proof.
  intros Lp. destruct (along_pos Lp) as [P Z]. pose proof (factor_pos l yv f factor top Known) as Fp. exists (- (factor * along)).
  split; [|split; [nra|intros E; apply Z; nra]].
  unfold along. replace (- (factor * rsum n (fun i => wv i * g i * s i))) with (rsum n (fun i => wv i * (s i * - (factor * g i)))).
  2: { transitivity (- factor * rsum n (fun i => wv i * g i * s i) + 0 * rsum n wv); [|ring]. rewrite <- rsum_lin. apply rsum_ext. intros. ring. }
  unfold stepped. fold n. apply (rsum_derive n (fun i t => wv i * loss_of l (yv i) (nth i f 0 + a + t * s i)) 0). intros i I. apply is_derive_Reals.
  apply (is_derive_scal (fun x => loss_of l (yv i) (nth i f 0 + a + x * s i))).
  pose proof (ni_first _ _ _ _ (nice_known l yv n factor top Known i I) (nth i f 0 + a + 0 * s i)) as D. apply is_derive_Reals in D.
  replace (nth i f 0 + a + 0 * s i) with (nth i f 0 + a) in D at 2 by ring. fold (g i) in D.
  change (s i * - (factor * g i)) with (scal (s i) (- (factor * g i))).
  apply (is_derive_comp (fun x => loss_of l (yv i) x) (fun x => nth i f 0 + a + x * s i)); [exact D|]. auto_derive; [trivial|ring].
Qed.
(** A step with [d] added to all rows *)
Lemma step_bound d k : rsum n (fun i => wv i * loss_of l (yv i) (nth i f 0 + a + (d + k * s i))) <=
  constant_loss l wv yv f a - factor * pull l wv yv f a * d - factor * k * along + factor * top / 2 * rsum n (fun i => wv i * ((d + k * s i) * (d + k * s i))).
Proof.
  assert (rsum n (fun i => wv i * loss_of l (yv i) (nth i f 0 + a + (d + k * s i))) <=
    rsum n (fun i => 1 * (1 * (wv i * loss_of l (yv i) (nth i f 0 + a)) + - factor * d * (wv i * g i)) + 1 * (- factor * k * (wv i * g i * s i) + factor * top / 2 * (wv i * ((d + k * s i) * (d + k * s i)))))) as Q.
  { apply rsum_le. intros i I. pose proof (below l yv n factor top Known i I (nth i f 0 + a) (d + k * s i)) as B. pose proof (Wpos i I) as W. unfold g.
    apply (Rmult_le_compat_l _ _ _ W) in B. eapply Rle_trans; [exact B|]. right. ring. }
  rewrite rsum_lin, !rsum_lin in Q. unfold constant_loss, pull, along. fold n. unfold g in Q |- *. lra.
Qed.
Lemma small_step k : 0 <= k -> (forall i, (i < n)%nat -> k * top * LW i <= 2 * (LH i + lambda)) -> stepped l wv yv f a s k <= stepped l wv yv f a s 0.
Proof.
  intros Kp Sm. pose proof (step_bound 0 k) as B. pose proof (factor_pos l yv f factor top Known) as Fp.
  unfold stepped. fold n. rewrite (rsum_ext n (fun i => wv i * loss_of l (yv i) (nth i f 0 + a + k * s i)) (fun i => wv i * loss_of l (yv i) (nth i f 0 + a + (0 + k * s i)))) by (intros; do 2 f_equal; ring).
  rewrite (rsum_ext n (fun i => wv i * loss_of l (yv i) (nth i f 0 + a + 0 * s i)) (fun i => wv i * loss_of l (yv i) (nth i f 0 + a))) by (intros; do 2 f_equal; ring).
  change (rsum n (fun i => wv i * loss_of l (yv i) (nth i f 0 + a))) with (constant_loss l wv yv f a).
  assert (rsum n (fun i => (- factor * k) * (wv i * g i * s i) + (factor * top / 2) * (wv i * ((0 + k * s i) * (0 + k * s i)))) <= 0) as Q.
  { apply by_leaves. intros i I. rewrite lsum_plus, !lsum_mult, (leaf_along i I).
    rewrite (lsum_ext (mates i) (fun j => wv j * ((0 + k * s j) * (0 + k * s j))) (fun j => (k * k * (s i * s i)) * wv j)) by (intros j J; rewrite (same_score i j I J); ring).
    rewrite lsum_mult. change (lsum (mates i) wv) with (LW i). pose proof (Sm i I) as Si.
    assert (0 <= factor * k * (s i * s i)) as P by (apply Rmult_le_pos; [apply Rmult_le_pos; lra|apply Rle_0_sqr]). nra. }
  rewrite rsum_lin in Q. fold along in Q. lra.
Qed.
Lemma settled_step d k : 0 <= k -> k * top * rsum n wv <= lambda -> 0 <= pull l wv yv f a * d -> Rabs d <= 1 / 10000 ->
  rsum n (fun i => wv i * loss_of l (yv i) (nth i f 0 + a + (d + k * s i))) <= constant_loss l wv yv f a + factor * top * rsum n wv / 100000000.
Proof.
  intros Kp Sm Pd Dd. pose proof (step_bound d k) as B. pose proof (factor_pos l yv f factor top Known) as Fp. pose proof top_pos as Tp.
  assert (0 <= rsum n wv) as Wn by (apply rsum_nonneg; exact Wpos).
  assert (d * d <= 1 / 100000000) as D2. { pose proof (Rabs_pos d). replace (d * d) with (Rabs d * Rabs d); [nra|]. pose proof (Rsqr_abs d) as X. unfold Rsqr in X. rewrite <- X. reflexivity. }
  assert (rsum n (fun i => wv i * ((d + k * s i) * (d + k * s i))) <= 2 * (d * d) * rsum n wv + 2 * (k * k) * rsum n (fun i => wv i * (s i * s i))) as E.
  { rewrite <- rsum_lin. apply rsum_le. intros i I. pose proof (Wpos i I). pose proof (Rle_0_sqr (d - k * s i)) as X. unfold Rsqr in X.
    apply Rle_trans with (wv i * (2 * (d * d) + 2 * (k * k) * (s i * s i))); [|right; ring]. apply Rmult_le_compat_l; [assumption|]. nra. }
  assert (rsum n (fun i => (- factor * k) * (wv i * g i * s i) + (factor * top * (k * k)) * (wv i * (s i * s i))) <= 0) as Q.
  { apply by_leaves. intros i I. rewrite lsum_plus, !lsum_mult, (leaf_along i I).
    rewrite (lsum_ext (mates i) (fun j => wv j * (s j * s j)) (fun j => (s i * s i) * wv j)) by (intros j J; rewrite (same_score i j I J); ring).
    rewrite lsum_mult. change (lsum (mates i) wv) with (LW i). pose proof (leaf_w_all i) as Wa. pose proof (leaf_h_pos i) as Hp.
    assert (k * top * LW i <= LH i + lambda) as Si. { assert (k * top * LW i <= k * top * rsum n wv); [apply Rmult_le_compat_l; [apply Rmult_le_pos; lra|exact Wa]|lra]. }
    assert (0 <= factor * k * (s i * s i)) as P by (apply Rmult_le_pos; [apply Rmult_le_pos; lra|apply Rle_0_sqr]). nra. }
  rewrite rsum_lin in Q. fold along in Q.
  assert (0 <= factor * (pull l wv yv f a * d)) by (apply Rmult_le_pos; lra).
  assert (factor * top / 2 * rsum n (fun i => wv i * ((d + k * s i) * (d + k * s i))) <= factor * top / 2 * (2 * (d * d) * rsum n wv + 2 * (k * k) * rsum n (fun i => wv i * (s i * s i)))) as E2.
  { apply Rmult_le_compat_l; [|exact E]. apply Rmult_le_pos; [apply Rmult_le_pos; lra|lra]. }
  assert (factor * top * rsum n wv * (d * d) <= factor * top * rsum n wv * (1 / 100000000)) as E3.
  { apply Rmult_le_compat_l; [|exact D2]. apply Rmult_le_pos; [apply Rmult_le_pos; lra|exact Wn]. }
  lra.
Qed.
End Tree.

(** ** One round *)
Section Round.
Variables (l : Exact -> Exact -> point Exact) (v : view) (threads : nat) (top : nat -> list Exact -> nat) (draw : nat -> spec_float)
  (srt : (nat -> nat -> bool) -> list nat -> list nat) (w y : float_vector) (wv yv : nat -> R) (features : list column) (c : config Exact).
Let n := v_rows v.
Hypothesis Th : (1 <= threads)%nat.
Hypothesis Top : tops top.
Hypothesis Srt : sorts srt.
Hypothesis Cols : forall col, In col features -> v_get v (c_name col) = Some col /\ has_rows col n.
Hypothesis Wv : row_values (N := Exact) w n wv.
Hypothesis Yv : row_values (N := Exact) y n yv.
Hypothesis All : forall i, fltb (draw i) (to_f64 (cf_example_rate c)) = true.

Lemma tree_leaves (f : list R) a pos t pos' : List.length f = n ->
  fit_tree (N := Exact) top draw threads srt w (row_gradients (N := Exact) l yv f a) features c pos = Ret (t, pos') ->
  tree_fits (v_get v) n t /\
  exists label s, (forall i, (i < n)%nat -> routes (v_get v) t i (s i)) /\ newton_tree l wv yv f a (cf_l2_lambda c) label s.
Proof.
  intros L E. set (gd := row_gradients (N := Exact) l yv f a) in *.
  assert (Lg : List.length gd = n) by (unfold gd, row_gradients; rewrite map_length, seq_length; exact L).
  assert (St : setting (N := Exact) top threads srt w gd features (v_get v) (row_weighted (N := Exact) l wv yv f a)).
  { constructor; [exact Top|exact Th|exact Srt|rewrite Lg; exact Cols|]. rewrite Lg. intros r I. apply in_seq in I.
    destruct (Wv r) as (x & Ea & Da); [lia|]. exists x, (p_grad (row_point (N := Exact) l yv f a r)). split; [exact Ea|].
    split; [|unfold row_weighted; rewrite Da; reflexivity]. unfold gd, row_gradients. change (@List.length (nt Exact) f) with (@List.length R f). rewrite L.
    rewrite nth_error_map, (nth_error_nth' _ 0%nat) by (rewrite seq_length; lia). rewrite seq_nth by lia. reflexivity. }
  assert (Leaf := fun t pos' row => set_leaf exact_ordered top draw threads srt w gd features c (v_get v) _ pos St t pos' row).
  split. { eapply full_fits; [exact Cols|]. apply (set_spec exact_ordered _ _ _ _ _ _ _ _ _ _ _ St _ _ E). }
  destruct (list_choice (@nil bool) n (fun i p => exists s sp, (has_leaf t p s sp /\ reaches (v_get v) t i p) /\
    forall p' s' sp', has_leaf t p' s' sp' -> reaches (v_get v) t i p' -> p' = p)) as [label Hl].
  { intros i Li. destruct (Leaf t pos' i E ltac:(lia)) as (p & s & sp & H). exists p, s, sp. exact H. }
  set (sc := fun i => newton_score (leaf_g l wv yv f a label i) (leaf_h l wv yv f a label i) (cf_l2_lambda c)).
  exists label, sc.
  assert (Main : forall i, (i < n)%nat -> exists s sp, has_leaf t (label i) s sp /\ reaches (v_get v) t i (label i) /\ s = sc i).
  { intros i Li. destruct (Hl i Li) as (s & sp & (Hs & Hr) & _). exists s, sp. split; [exact Hs|]. split; [exact Hr|].
    destruct (set_score top draw threads srt w gd features c (v_get v) _ pos t pos' St E _ _ _ (leaf_node _ _ _ _ Hs)) as (rows & D & I & Es).
    cbv zeta in Es. rewrite Es.
    assert (P : Permutation rows (leaf_mates f label i)).
    { apply NoDup_Permutation; [exact D|apply NoDup_filter, seq_NoDup|]. intros j. rewrite I. unfold leaf_mates. change (@List.length R f) with (@List.length (nt Exact) f) in *. rewrite filter_In, in_seq.
      split.
      - intros [A B]. apply (subsample_spec draw pos (List.length gd) (to_f64 (cf_example_rate c))) in A. rewrite Lg in A.
        split; [rewrite L; lia|]. destruct (Hl j ltac:(lia)) as (_ & _ & _ & U). rewrite <- (U _ _ _ Hs B).
        destruct (list_eq_dec Bool.bool_dec (label i) (label i)); [reflexivity|contradiction].
      - intros [A B]. rewrite L in A. destruct (list_eq_dec Bool.bool_dec (label j) (label i)) as [Q|]; [|discriminate]. split.
        + apply (subsample_spec draw pos (List.length gd) (to_f64 (cf_example_rate c))). rewrite Lg. split; [lia|apply All].
        + destruct (Hl j ltac:(lia)) as (_ & _ & (_ & X) & _). rewrite Q in X. exact X. }
    destruct (sum_parts (row_weighted (N := Exact) l wv yv f a) rows) as [A B].
    unfold sc, newton_score. rewrite A, B, !(lsum_perm _ _ _ P). reflexivity. }
  split.
  - intros i Li. destruct (Main i Li) as (s & sp & Hs & Hr & <-). eapply leaf_routes; eassumption.
  - intros i Li. unfold sc, newton_score. destruct (Req_EM_T _ _) as [Z|Z]; split; intros X; try contradiction; reflexivity.
Qed.

Lemma one_round st p gd x gd' pos t pos' st' : state_ok (N := Exact) v st -> inited (N := Exact) w y threads n p ->
  pointwise_round (N := Exact) l p (snd st) gd = Ret (x, gd') ->
  fit_tree (N := Exact) top draw threads srt w gd' features c pos = Ret (t, pos') ->
  add_tree_scores (N := Exact) (v_get v) threads (apply_shrinkage (nfloat (cf_shrinkage c)) t) x st = Ret st' ->
  state_ok v st' /\ exists cs a label s, visited l wv yv (snd st) cs /\ ends cs a x /\ newton_tree l wv yv (snd st) a (cf_l2_lambda c) label s /\
    forall i, (i < n)%nat -> nth i (snd st') 0 = nth i (snd st) 0 + x + real_of (cf_shrinkage c) * s i.
Proof.
  intros Ok In0 Rd Ft Ad. destruct Ok as [Pm L]. fold n in L. change (@List.length R (snd st) = n) in L.
  pose (f := (snd st : list R)). change (@List.length R f = n) in L.
  destruct (walk_ok l wv yv f w y threads p gd Th) as (cs & a & b & V & En & Eq); [rewrite L; assumption..|].
  pose proof (eq_trans (eq_sym Rd) Eq) as E. assert (x = b) by congruence. assert (gd' = row_gradients (N := Exact) l yv f a) by congruence. subst b gd'. clear E Eq.
  destruct (tree_leaves f a pos t pos' L Ft) as (Fits & label & s & Rt & Nt).
  destruct (one_tree (N := Exact) v threads (apply_shrinkage (@nfloat Exact (cf_shrinkage c)) t) x st Th (shrink_fits _ _ _ _ Fits) (conj Pm L)) as (st1 & E1 & Ok1 & H1).
  pose proof (eq_trans (eq_sym E1) Ad) as Eq. injection Eq as <-. clear Ad. split; [exact Ok1|].
  exists cs, a, label, s. split; [exact V|]. split; [exact En|]. split; [exact Nt|].
  intros i Li. assert (X : nth_error f i = Some (nth i f 0)) by (apply (@nth_error_nth' R); rewrite L; exact Li).
  specialize (H1 i _ _ X (exact_shrink_routes _ (real_of (cf_shrinkage c)) _ _ _ (Rt i Li))). apply nth_error_nth with (d := 0) in H1. rewrite H1. unfold f. cbn. ring.
Qed.
End Round.

(** ** All rounds *)
Section Rounds.
Variables (l : Exact -> Exact -> point Exact) (binary : bool) (v : view) (threads : nat) (top : nat -> nat -> list Exact -> nat) (draw : nat -> spec_float)
  (srt : (nat -> nat -> bool) -> list nat -> list nat) (w y : float_vector) (wv yv : nat -> R) (features : list column) (c : config Exact).
Hypothesis Th : (1 <= threads)%nat.
Hypothesis Top : forall i, tops (top i).
Hypothesis Srt : sorts srt.
Hypothesis Cols : forall col, In col features -> v_get v (c_name col) = Some col /\ has_rows col (v_rows v).
Hypothesis Wv : row_values (N := Exact) w (v_rows v) wv.
Hypothesis Yv : row_values (N := Exact) y (v_rows v) yv.
Hypothesis All : forall i, fltb (draw i) (to_f64 (cf_example_rate c)) = true.
Let lf := pointwise_loss (N := Exact) threads binary l.

Lemma all_rounds todo : forall i k trees st gd p pos r, state_ok (N := Exact) v st -> inited (N := Exact) w y threads (v_rows v) p ->
  rounds (N := Exact) v threads top draw srt w features c lf todo i k trees st gd p pos = Ret r -> tr_status r = SOk ->
  exists fs, values (N := Exact) v threads top draw srt w features c lf todo i st gd p pos fs /\
    nth_error fs 0 = Some (snd st) /\ List.length fs = S todo /\ nth_error fs todo = Some (tr_f r) /\
    forall i a b, nth_error fs i = Some a -> nth_error fs (S i) = Some b -> List.length a = v_rows v /\ round_of l wv yv (real_of (cf_shrinkage c)) (cf_l2_lambda c) a b.
Proof.
  induction todo as [|todo IH]; intros i k trees st gd p pos r Ok In0 E S0; cbn [rounds] in E.
  - injection E as <-. exists [snd st]. split; [constructor|]. repeat split; try reflexivity; destruct i0; discriminate.
  - destruct (l_round lf p pos (snd st) gd) as [[[[x gd'] ls'] pos']| |] eqn:Rd; [|discriminate..]. cbn [bind] in E.
    destruct (nfinite x) eqn:Fx; [|injection E as <-; discriminate].
    destruct (fit_tree (top i) draw threads srt w gd' features c pos') as [[t pos2]| |] eqn:Ft; [|discriminate..]. cbn [bind] in E.
    destruct (add_tree_scores (v_get v) threads _ x st) as [st'| |] eqn:Ad; [|discriminate..]. cbn [bind] in E.
    pose proof Rd as Rd0.
    change ((let! (c1, gd1) := pointwise_round (N := Exact) l p (snd st) gd in Ret (c1, gd1, p, pos)) = Ret (x, gd', ls', pos')) in Rd.
    destruct (pointwise_round (N := Exact) l p (snd st) gd) as [[c1 gd1]| |] eqn:Pr; [|discriminate Rd..]. cbn [bind] in Rd.
    assert (c1 = x /\ gd1 = gd' /\ p = ls' /\ pos = pos') as (-> & -> & <- & <-) by (repeat split; congruence). clear Rd.
    destruct (one_round l v threads (top i) draw srt w y wv yv features c Th (Top i) Srt Cols Wv Yv All st p gd x gd' pos t pos2 st' Ok In0 Pr Ft Ad) as [Ok' (cs & a & label & s & H)].
    destruct (IH _ _ _ _ _ _ _ _ Ok' In0 E S0) as (fs & V & H0 & Ln & Hl & Er).
    exists (snd st :: fs). split; [econstructor; eassumption|]. split; [reflexivity|]. split; [exact (f_equal S Ln)|]. split; [exact Hl|].
    intros [|j] a' b' Ha Hb.
    + pose proof (eq_trans (eq_sym H0) Hb) as Eb. injection Eb as <-. injection Ha as <-. destruct Ok as [_ L], Ok' as [_ L']. split; [exact L|].
      split; [exact (eq_trans L' (eq_sym L))|]. exists cs, a, x, label, s. change (@List.length R (snd st)) with (@List.length (nt Exact) (snd st)). rewrite L. exact H.
    + exact (Er j a' b' Ha Hb).
Qed.
End Rounds.

Lemma training_rounds l binary v threads top draw pos srt names w y wv yv (c : config Exact) base r :
  training v threads top srt names w (pointwise_loss (N := Exact) threads binary l) -> (forall b, base = Some b -> forest_fits v b) ->
  row_values (N := Exact) w (v_rows v) wv -> row_values (N := Exact) y (v_rows v) yv ->
  (forall i, fltb (draw i) (to_f64 (cf_example_rate c)) = true) ->
  train v threads top draw pos srt names w y (pointwise_loss threads binary l) c base = Ret r -> tr_status r = SOk ->
  exists features ls st0 k trees st fs, load_features (v_get v) (v_order v names) = (SOk, features) /\
    init_scores v threads = Ret st0 /\ init_with_base v threads (match base with Some b => b | None => [] end) n0 [] st0 = Ret (k, trees, st) /\
    values (N := Exact) v threads top draw srt w features c (pointwise_loss threads binary l) (Z.to_nat (cf_num_trees c)) 0 st (repeat gzero (v_rows v)) ls pos fs /\
    nth_error fs 0 = Some (snd st) /\ nth_error fs (Z.to_nat (cf_num_trees c)) = Some (tr_f r) /\
    forall i a b, nth_error fs i = Some a -> nth_error fs (S i) = Some b -> List.length a = v_rows v /\ round_of l wv yv (real_of (cf_shrinkage c)) (cf_l2_lambda c) a b.
Proof.
  intros Tr Bs Wv Yv All E S0.
  destruct (train_inv v threads top draw pos srt names w y _ c base r E (or_introl S0)) as (features & group & ls & st0 & k & trees & st & Ck & Lo & Gr & In0 & I0 & B & R0).
  pose proof (ts_threads _ _ _ _ _ _ _ Tr) as Th.
  assert (Ok : state_ok (N := Exact) v st).
  { destruct (@Eval_proofs.init_ok Exact v threads Th) as (st1 & E1 & Ok1 & St1). rewrite I0 in E1. injection E1 as <-.
    assert (Fb : forest_fits (N := Exact) v (base_list base)) by (destruct base as [b|]; [apply Bs; reflexivity|constructor]).
    destruct (base_holds v threads (base_list base) Th Fb (@n0 Exact) [] st0 (Forall_nil _) Ok1) as (k' & trees' & st' & E' & _ & Ok' & _).
    { rewrite St1. apply start_holds. }
    rewrite B in E'. injection E' as <- <- <-. exact Ok'. }
  assert (In1 : inited (N := Exact) w y threads (v_rows v) ls).
  { destruct (init_ok (N := Exact) w y wv threads (v_rows v) Th Wv) as (p & E1 & I1 & _).
    change ((let! ok := (if binary then binary_targets (N := Exact) y (seq 0 (v_rows v)) else Ret true) in
       if ok then let! p := pointwise_init threads (v_rows v) w y in Ret (inr p) else Ret (inl INVALID_ARGUMENT)) = Ret (@inr code (@pointwise Exact) ls)) in In0.
    destruct (if binary then binary_targets (N := Exact) y (seq 0 (v_rows v)) else Ret true) as [[|]| |]; [|discriminate In0..]. cbn [bind] in In0.
    rewrite E1 in In0. cbn [bind] in In0. assert (p = ls) as <- by congruence. exact I1. }
  destruct (all_rounds l binary v threads top draw srt w y wv yv features c Th (ts_tops _ _ _ _ _ _ _ Tr) (ts_sort _ _ _ _ _ _ _ Tr)) with (todo := Z.to_nat (cf_num_trees c)) (i := 0%nat) (k := k) (trees := trees) (st := st) (gd := repeat (@gzero Exact) (v_rows v)) (p := ls) (pos := pos) (r := r) as (fs & V & H0 & _ & Hl & Er); try assumption.
  { intros col I. destruct (loaded_cols v threads top srt names w _ features Tr Lo col I) as (_ & G & _ & Hr). auto. }
  exists features, ls, st0, k, trees, st, fs. auto 10.
Qed.

(** ** The loss after a round *)
Lemma round_descends l wv yv f f' factor top k lambda : known_loss l yv (List.length f) factor top -> (forall i, (i < List.length f)%nat -> 0 <= wv i) ->
  0 <= k -> k * top * rsum (List.length f) wv <= lambda -> round_of l wv yv k lambda f f' ->
  exists cs a b, visited l wv yv f cs /\ ends cs a b /\
    ((List.length cs < 11)%nat -> values_loss l wv yv f' <= constant_loss l wv yv f a + factor * top * rsum (List.length f) wv / 100000000).
Proof.
  intros K Wp Kp Sm (L & cs & a & b & label & s & V & En & Nt & Nx). exists cs, a, b. split; [exact V|]. split; [exact En|]. intros Ln.
  pose proof En as [cs' E]. assert (List.length cs = List.length cs' + 2)%nat as Lc by (rewrite E, app_length; reflexivity).
  assert (nth_error cs (List.length cs') = Some a) as A by (rewrite E, nth_error_app2, Nat.sub_diag by lia; reflexivity).
  assert (nth_error cs (S (List.length cs')) = Some b) as B.
  { rewrite E, nth_error_app2 by lia. replace (S (List.length cs') - List.length cs')%nat with 1%nat by lia. reflexivity. }
  pose proof (proj1 (downhill l wv yv f factor top K Wp cs _ a b V A B)) as Dn.
  destruct V as (_ & _ & V). destruct (V _ a b A B) as (_ & _ & _ & Short). specialize (Short ltac:(lia) Ln).
  pose proof (settled_step l wv yv f a lambda factor top label s K Wp Nt (b - a) k Kp Sm Dn Short) as Q.
  unfold values_loss. rewrite L. eapply Rle_trans; [|exact Q]. right. apply rsum_ext. intros i I. rewrite (Nx i I). do 2 f_equal. ring.
Qed.
Lemma train_bounded l binary v threads top draw pos srt names w y wv yv (c : config Exact) base r factor largest :
  training v threads top srt names w (pointwise_loss (N := Exact) threads binary l) -> (forall b, base = Some b -> forest_fits v b) ->
  row_values (N := Exact) w (v_rows v) wv -> row_values (N := Exact) y (v_rows v) yv ->
  (forall i, fltb (draw i) (to_f64 (cf_example_rate c)) = true) ->
  train v threads top draw pos srt names w y (pointwise_loss threads binary l) c base = Ret r -> tr_status r = SOk ->
  known_loss l yv (v_rows v) factor largest -> (forall i, (i < v_rows v)%nat -> 0 <= wv i) -> 0 <= real_of (cf_shrinkage c) ->
  real_of (cf_shrinkage c) * largest * rsum (v_rows v) wv <= cf_l2_lambda c ->
  exists features ls st0 k trees st fs, load_features (v_get v) (v_order v names) = (SOk, features) /\
    init_scores v threads = Ret st0 /\ init_with_base v threads (match base with Some b => b | None => [] end) n0 [] st0 = Ret (k, trees, st) /\
    values (N := Exact) v threads top draw srt w features c (pointwise_loss threads binary l) (Z.to_nat (cf_num_trees c)) 0 st (repeat gzero (v_rows v)) ls pos fs /\
    nth_error fs 0 = Some (snd st) /\ nth_error fs (Z.to_nat (cf_num_trees c)) = Some (tr_f r) /\
    forall i f f', nth_error fs i = Some f -> nth_error fs (S i) = Some f' -> exists cs a b, visited l wv yv f cs /\ ends cs a b /\
      ((List.length cs < 11)%nat -> values_loss l wv yv f' <= constant_loss l wv yv f a + factor * largest * rsum (v_rows v) wv / 100000000).
Proof.
  intros Tr Bs Wv Yv All E S0 K Wp Kp Sm.
  destruct (training_rounds l binary v threads top draw pos srt names w y wv yv c base r Tr Bs Wv Yv All E S0) as (features & ls & st0 & k & trees & st & fs & H1 & H2 & H3 & H4 & H5 & H6 & H7).
  exists features, ls, st0, k, trees, st, fs. do 6 (split; [assumption|]). intros i f f' A B. destruct (H7 i f f' A B) as [L R0]. rewrite <- L in *.
  exact (round_descends l wv yv f f' factor largest _ _ K Wp Kp Sm R0).
Qed.
(** The first round of logloss without base forest *)
Lemma first_round wv yv f f' k lambda : (forall i, nth i f 0 = 0) -> (forall i, (i < List.length f)%nat -> yv i = 1 \/ yv i = -1) -> (forall i, (i < List.length f)%nat -> 0 <= wv i) ->
  0 < weight_with wv yv (List.length f) 1 -> 0 < weight_with wv yv (List.length f) (-1) ->
  0 <= k -> k / 4 * rsum (List.length f) wv <= lambda -> round_of log_loss wv yv k lambda f f' ->
  exists cs, visited log_loss wv yv f cs /\ ((List.length cs < 11)%nat -> values_loss log_loss wv yv f' <= values_loss log_loss wv yv f + rsum (List.length f) wv / 400000000).
Proof.
  intros Z Sg Wp P M Kp Sm R0.
  assert (known_loss log_loss yv (List.length f) 1 (1 / 4)) as K by (right; split; [exact Sg|left; auto]).
  destruct (round_descends log_loss wv yv f f' 1 (1 / 4) k lambda K Wp Kp) as (cs & a & b & V & En & Q); [lra|exact R0|]. exists cs. split; [exact V|]. intros Ln. specialize (Q Ln).
  assert (forall m a, nth_error cs m = Some a -> constant_loss log_loss wv yv f a <= constant_loss log_loss wv yv f 0) as Fall.
  { induction m as [|m IH]; intros c E.
    - destruct V as (_ & V0 & _). assert (c = 0) as -> by congruence. lra.
    - assert (exists c', nth_error cs m = Some c') as [c' E'].
      { destruct (nth_error cs m) as [c'|] eqn:X; [exists c'; reflexivity|]. apply nth_error_None in X. assert (nth_error cs (S m) <> None) as Y by congruence. apply nth_error_Some in Y. lia. }
      destruct (log_way wv yv f Z Sg Wp cs P M V m c' E') as [_ St]. destruct (St c E) as [_ Le]. specialize (IH c' E'). lra. }
  destruct En as [cs' E]. assert (nth_error cs (List.length cs') = Some a) as A by (rewrite E, nth_error_app2, Nat.sub_diag by lia; reflexivity).
  pose proof (Fall _ _ A) as F. assert (constant_loss log_loss wv yv f 0 = values_loss log_loss wv yv f) as E0 by (apply rsum_ext; intros i _; do 2 f_equal; ring). lra.
Qed.
