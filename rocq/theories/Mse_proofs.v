(** Mse_proofs.v - the mse loss in exact arithmetic: the constant, and the descent of the squared error. *)
From Coq Require Import Reals Lra Sorted Permutation SpecFloat.
From Verif Require Import Base F32 Column DataStore Num Forest Config Score ScoreSpec Eval EvalSpec Split SplitSpec Tree TreeSpec Train TrainSpec Par Subsampling Loss LossSpec
  Split_proofs Subsampling_proofs Score_proofs Eval_proofs Hist_proofs Sum_proofs Tree_proofs Train_proofs Loss_proofs.
Local Open Scope R_scope.

(** ** Sums over rows *)
Definition lsum (rows : list nat) (g : nat -> R) : R := fold_right Rplus 0 (map g rows).
Lemma rsum_lsum n g : rsum n g = lsum (seq 0 n) g.
Proof. reflexivity. Qed.
Lemma lsum_ext rows g g' : (forall i, In i rows -> g i = g' i) -> lsum rows g = lsum rows g'.
Proof.
  unfold lsum. induction rows as [|i rows IH]; intros H; cbn; [reflexivity|].
  rewrite (H i (or_introl eq_refl)), IH; [reflexivity|]. intros k I. apply H. right. exact I.
Qed.
Lemma lsum_plus rows g g' : lsum rows (fun i => g i + g' i) = lsum rows g + lsum rows g'.
Proof. unfold lsum. induction rows as [|i rows IH]; cbn; [lra|]. rewrite IH. lra. Qed.
Lemma lsum_mult rows k g : lsum rows (fun i => k * g i) = k * lsum rows g.
Proof. unfold lsum. induction rows as [|i rows IH]; cbn; [lra|]. rewrite IH. lra. Qed.
Lemma lsum_pos rows g : (forall i, In i rows -> 0 <= g i) -> 0 <= lsum rows g.
Proof.
  unfold lsum. induction rows as [|i rows IH]; intros H; cbn; [lra|].
  pose proof (H i (or_introl eq_refl)). assert (0 <= fold_right Rplus 0 (map g rows)) by (apply IH; intros k I; apply H; right; exact I). lra.
Qed.
Lemma lsum_perm a b g : Permutation a b -> lsum a g = lsum b g.
Proof. unfold lsum. induction 1; cbn; lra. Qed.
Lemma lsum_split p rows g : lsum rows g = lsum (filter p rows) g + lsum (filter (fun i => negb (p i)) rows) g.
Proof. unfold lsum. induction rows as [|i rows IH]; cbn; [lra|]. destruct (p i); cbn; lra. Qed.

Lemma filter_le {A} p (l : list A) : (List.length (filter p l) <= List.length l)%nat.
Proof. induction l as [|a l IH]; cbn; [lia|]. destruct (p a); cbn; lia. Qed.

(** Rows grouped by a label: if all groups have a sum of at most 0, so has the whole. *)
Lemma groups_le {L} (dec : forall a b : L, {a = b} + {a <> b}) (label : nat -> L) g : forall n rows, (List.length rows <= n)%nat ->
  (forall i, In i rows -> lsum (filter (fun j => if dec (label j) (label i) then true else false) rows) g <= 0) -> lsum rows g <= 0.
Proof.
  induction n as [|n IH]; intros rows Ln H.
  - destruct rows; [cbn; lra|cbn in Ln; lia].
  - destruct rows as [|i rows]; [cbn; lra|].
    set (p := fun j => if dec (label j) (label i) then true else false).
    rewrite (lsum_split p). pose proof (H i (or_introl eq_refl)) as Hi. fold p in Hi.
    assert (H2 : lsum (filter (fun j => negb (p j)) (i :: rows)) g <= 0); [|lra].
    apply IH.
    + cbn [filter]. unfold p at 1. destruct (dec (label i) (label i)) as [_|C]; [|contradiction]. cbn [negb].
      pose proof (filter_le (fun j => negb (p j)) rows). cbn [List.length] in Ln. lia.
    + intros j J. apply filter_In in J. destruct J as [J Pj]. specialize (H j J).
      replace (filter (fun k => if dec (label k) (label j) then true else false) (filter (fun k => negb (p k)) (i :: rows)))
        with (filter (fun k => if dec (label k) (label j) then true else false) (i :: rows)); [exact H|].
      generalize (i :: rows). clear - Pj. induction l as [|k l IHl]; [reflexivity|]. cbn [filter].
      unfold p in *. destruct (dec (label k) (label j)) as [E|E].
      * rewrite E. destruct (dec (label j) (label i)); [discriminate|]. cbn [negb filter].
        destruct (dec (label k) (label j)); [|contradiction]. rewrite IHl. reflexivity.
      * destruct (dec (label k) (label i)); cbn [negb filter]; [exact IHl|].
        destruct (dec (label k) (label j)); [contradiction|exact IHl].
Qed.

(** ** A leaf *)
Definition newton_score (G H l : R) : R := if Req_EM_T (H + l) 0 then 0 else G / (H + l).
Lemma newton_G G H l s : H + l <> 0 -> s = newton_score G H l -> G = (H + l) * s.
Proof. intros N ->. unfold newton_score. destruct (Req_EM_T (H + l) 0); [contradiction|]. field. exact N. Qed.

Section Leaf.
Variables (rows : list nat) (w u : nat -> R) (k l : R).
Hypothesis W : forall i, In i rows -> 0 <= w i.
Hypothesis K : 0 <= k <= 1.
Hypothesis Lp : 0 <= l.
Let H := lsum rows w.
Let G := lsum rows (fun i => w i * u i).
Let s := newton_score G H l.

Lemma leaf_H : 0 <= H.
Proof. apply lsum_pos, W. Qed.
Lemma leaf_zero : H + l = 0 -> s = 0.
Proof. intros E. unfold s, newton_score. destruct (Req_EM_T (H + l) 0); [reflexivity|contradiction]. Qed.

(** The gradients are the residuals that the leaf score is added to. *)
Lemma leaf_fresh : lsum rows (fun i => w i * ((u i - k * s) * (u i - k * s) - u i * u i)) <= 0.
Proof.
  apply Rle_trans with (k * k * s * s * H - 2 * k * s * G); [right|].
  - transitivity (lsum rows (fun i => k * k * s * s * w i + - (2 * k * s) * (w i * u i))).
    + apply lsum_ext. intros i _. ring.
    + rewrite lsum_plus, !lsum_mult. fold H G. ring.
  - pose proof leaf_H. destruct (Req_EM_T (H + l) 0) as [E|E].
    + rewrite (leaf_zero E). lra.
    + rewrite (newton_G G H l s E eq_refl).
      replace (k * k * s * s * H - 2 * k * s * ((H + l) * s)) with (- (s * s * H * (k * (2 - k))) - 2 * (s * s * l * k)) by ring.
      assert (0 <= s * s) by apply Rle_0_sqr. assert (0 <= k * (2 - k)) by (apply Rmult_le_pos; lra).
      assert (0 <= s * s * H * (k * (2 - k))) by (apply Rmult_le_pos; [apply Rmult_le_pos; lra|lra]).
      assert (0 <= s * s * l * k) by (apply Rmult_le_pos; [apply Rmult_le_pos; lra|lra]). lra.
Qed.
(** The gradients are the residuals before [c] was added. *)
Lemma leaf_stale c : lsum rows (fun i => w i * ((u i - c - k * s) * (u i - c - k * s) - u i * u i + 2 * c * u i - 2 * c * c)) <= 0.
Proof.
  apply Rle_trans with (H * (2 * c * k * s + k * k * s * s - c * c) - 2 * k * s * G); [right|].
  - transitivity (lsum rows (fun i => (2 * c * k * s + k * k * s * s - c * c) * w i + - (2 * k * s) * (w i * u i))).
    + apply lsum_ext. intros i _. ring.
    + rewrite lsum_plus, !lsum_mult. fold H G. ring.
  - pose proof leaf_H. destruct (Req_EM_T (H + l) 0) as [E|E].
    + rewrite (leaf_zero E). assert (0 <= c * c) by apply Rle_0_sqr. assert (0 <= H * (c * c)) by (apply Rmult_le_pos; lra). lra.
    + rewrite (newton_G G H l s E eq_refl).
      replace (H * (2 * c * k * s + k * k * s * s - c * c) - 2 * k * s * ((H + l) * s))
        with (- (H * ((c - k * s) * (c - k * s))) - 2 * (H * (s * s) * (k * (1 - k))) - 2 * (s * s * l * k)) by ring.
      assert (0 <= s * s) by apply Rle_0_sqr. assert (0 <= k * (1 - k)) by (apply Rmult_le_pos; lra).
      assert (0 <= H * ((c - k * s) * (c - k * s))) by (apply Rmult_le_pos; [lra|apply Rle_0_sqr]).
      assert (0 <= H * (s * s) * (k * (1 - k))) by (apply Rmult_le_pos; [apply Rmult_le_pos; lra|lra]).
      assert (0 <= s * s * l * k) by (apply Rmult_le_pos; [apply Rmult_le_pos; lra|lra]). lra.
Qed.
End Leaf.

(** ** The sums of a pass *)
Lemma slices_total (rg : nat -> grad Exact) slices : total_of (map (sum_of rg) slices) = sum_of rg (concat slices).
Proof.
  unfold sum_of at 2. induction slices as [|s l IH]; [reflexivity|].
  cbn [map concat]. rewrite map_app, total_app, total_cons, IH. reflexivity.
Qed.
Lemma sum_parts (rg : nat -> grad Exact) rows : gg (sum_of rg rows) = lsum rows (fun i => gg (rg i)) /\ gh (sum_of rg rows) = lsum rows (fun i => gh (rg i)).
Proof.
  unfold sum_of. induction rows as [|i rows [A B]]; [split; reflexivity|]. cbn [map]. rewrite total_cons. cbn [gg gh gadd].
  split; [eapply eq_trans; [apply (f_equal (Rplus _)), A|]; reflexivity|eapply eq_trans; [apply (f_equal (Rplus _)), B|]; reflexivity].
Qed.

Section Mse.
Variables (wv yv : nat -> R) (f : list R).
Let n := List.length f.
Definition resid (i : nat) : R := yv i - nth i f 0.
Definition mean : R := newton_score (rsum n (fun i => wv i * resid i)) (rsum n wv) 0.

Lemma mse_total slices c : concat slices = seq 0 n ->
  gg (grad_total (N := Exact) mse wv yv f slices c) = rsum n (fun i => wv i * resid i) - rsum n wv * c /\
  gh (grad_total (N := Exact) mse wv yv f slices c) = rsum n wv.
Proof.
  intros Cc. unfold grad_total. rewrite slices_total, Cc. destruct (sum_parts (row_weighted (N := Exact) mse wv yv f c) (seq 0 n)) as [A B].
  rewrite A, B. split; rewrite ?rsum_lsum.
  - transitivity (lsum (seq 0 n) (fun i => wv i * resid i + - c * wv i)).
    + apply lsum_ext. intros i _. unfold row_weighted, row_point, mse, resid. unfold n0, n1. cbn. ring.
    + rewrite lsum_plus, lsum_mult. lra.
  - apply lsum_ext. intros i _. unfold row_weighted, row_point, mse. unfold n0, n1. cbn. lra.
Qed.

Lemma mse_step slices c : concat slices = seq 0 n ->
  gscore (N := Exact) (@n0 Exact) (grad_total (N := Exact) mse wv yv f slices c) =
  newton_score (rsum n (fun i => wv i * resid i) - rsum n wv * c) (rsum n wv) 0.
Proof.
  intros Cc. destruct (mse_total slices c Cc) as [A B]. unfold gscore, newton_score, n0. cbn. unfold Reqb. rewrite A, B.
  destruct (Req_EM_T (rsum n wv + 0) 0); reflexivity.
Qed.

Lemma mean_fix : rsum n (fun i => wv i * resid i) - rsum n wv * mean = 0 \/ rsum n wv = 0.
Proof.
  unfold mean, newton_score. destruct (Req_EM_T (rsum n wv + 0) 0) as [E|E]; [right; lra|left]. field. lra.
Qed.
Lemma second_zero : newton_score (rsum n (fun i => wv i * resid i) - rsum n wv * mean) (rsum n wv) 0 = 0.
Proof.
  destruct mean_fix as [E|E].
  - rewrite E. unfold newton_score. destruct (Req_EM_T _ 0); [reflexivity|]. unfold Rdiv. ring.
  - unfold newton_score. destruct (Req_EM_T _ 0) as [_|Ne]; [reflexivity|]. exfalso. apply Ne. rewrite E. lra.
Qed.

Definition small (x : R) : bool := negb (Rltb (1 / 10000) (Rabs x)).

Lemma mse_steps slices ds : concat slices = seq 0 n -> steps (N := Exact) mse wv yv f slices 10 (@n0 Exact) ds ->
  ds = if small mean then [mean] else [mean; 0].
Proof.
  intros Cc (Ln & St & Fin).
  assert (First : forall d, nth_error ds 0 = Some d -> d = mean).
  { intros d E. destruct (St 0%nat d E) as [-> _]. rewrite (mse_step slices _ Cc). cbn [firstn fold_left]. unfold mean, n0. cbn [nZ Exact]. f_equal. lra. }
  destruct ds as [|d0 ds]; [cbn in Ln; lia|]. specialize (First d0 eq_refl). subst d0.
  pose proof (proj2 (St 0%nat mean eq_refl)) as H0.
  change (nltb convergence_threshold (nabs (mean : Exact))) with (Rltb (1 / 10000) (Rabs mean)) in H0.
  unfold small. destruct ds as [|d1 ds].
  - specialize (Fin ltac:(cbn; lia)). cbn [last] in Fin. change (Rltb (1 / 10000) (Rabs mean) = false) in Fin. rewrite Fin. reflexivity.
  - rewrite (H0 ltac:(cbn; lia)). cbn [negb].
    assert (Z : d1 = 0).
    { destruct (St 1%nat d1 eq_refl) as [-> _]. rewrite (mse_step slices _ Cc). cbn [firstn fold_left].
      change (nadd (@n0 Exact) mean) with (0 + mean). rewrite Rplus_0_l. apply second_zero. }
    subst d1. destruct ds as [|d2 ds]; [reflexivity|exfalso].
    pose proof (proj2 (St 1%nat 0 eq_refl) ltac:(cbn; lia)) as H1.
    change (Rltb (1 / 10000) (Rabs 0) = true) in H1. unfold Rltb in H1. rewrite Rabs_R0 in H1. destruct (Rlt_dec (1 / 10000) 0) as [B|B]; [lra|discriminate].
Qed.

(** The constant is the weighted mean of the residuals; the gradients are the residuals at it, or the old ones. *)
Lemma mse_round w y threads p gd : (1 <= threads)%nat -> row_values (N := Exact) w n wv -> row_values (N := Exact) y n yv ->
  inited (N := Exact) w y threads n p ->
  pointwise_round (N := Exact) mse p f gd = Ret (mean, row_gradients (N := Exact) mse yv f (if small mean then 0 else mean)).
Proof.
  intros T Wv Yv In0. destruct (round_ok (N := Exact) mse w y wv yv threads p f gd T Wv Yv In0) as (ds & St & ->).
  assert (Cc : concat (all_slices p) = seq 0 n).
  { destruct (init_ok (N := Exact) w y wv threads n T Wv) as (p' & _ & I' & C' & _). destruct In0 as (D & _). destruct I' as (D' & _).
    unfold all_slices in *. rewrite D in D'. injection D' as ->. exact C'. }
  rewrite (mse_steps _ ds Cc St). destruct (small mean); cbn [removelast fold_left]; unfold n0; cbn; repeat f_equal; lra.
Qed.

Lemma mse_round_real w y threads p gd : (1 <= threads)%nat -> row_values (N := Exact) w n wv -> row_values (N := Exact) y n yv ->
  inited (N := Exact) w y threads n p -> rsum n wv <> 0 ->
  let c := rsum n (fun i => wv i * (yv i - nth i f 0)) / rsum n wv in
  exists gd', pointwise_round (N := Exact) mse p f gd = Ret (c, gd') /\ List.length gd' = n /\
    forall i, (i < n)%nat -> nth_error gd' i = Some (mkG (N := Exact) (yv i - nth i f 0 - (if Rlt_dec (1 / 10000) (Rabs c) then c else 0)) 1).
Proof.
  intros T Wv Yv In0 W c. assert (M : mean = c).
  { unfold mean, newton_score, c. destruct (Req_EM_T (rsum n wv + 0) 0); [lra|]. rewrite Rplus_0_r. reflexivity. }
  eexists. split; [|split].
  - eapply eq_trans; [exact (mse_round w y threads p gd T Wv Yv In0)|]. rewrite M. reflexivity.
  - unfold row_gradients. rewrite map_length, seq_length. reflexivity.
  - intros i Li. unfold row_gradients. change (@List.length (nt Exact) f) with n. rewrite nth_error_map.
    rewrite (nth_error_nth' _ 0%nat) by (rewrite seq_length; exact Li). rewrite seq_nth by exact Li. cbn [option_map plus]. f_equal.
    unfold small, Rltb, row_point, mse, p_grad, n1. unfold Num.n0; destruct (Rlt_dec (1 / 10000) (Rabs c)); cbn; f_equal; ring.
Qed.
End Mse.

(** ** One round *)
Lemma leaf_routes store (t : tree Exact) p s sp row : has_leaf t p s sp -> reaches store t row p -> routes store t row s.
Proof.
  induction 1 as [s sp|s0 sp0 l r p s sp H IH|s0 sp0 l r p s sp H IH]; intros R0.
  - exact (RouteLeaf store (TNode s sp TNone TNone) row eq_refl).
  - inversion R0 as [|? ? col left q L C G R1]; subst. eapply RouteNode; [exact L|exact C|exact G|]. cbn [t_left]. apply IH. exact R1.
  - inversion R0 as [|? ? col left q L C G R1]; subst. eapply RouteNode; [exact L|exact C|exact G|]. cbn [t_right]. apply IH. exact R1.
Qed.
Lemma leaf_node (t : tree Exact) p s sp : has_leaf t p s sp -> has_node t p s sp.
Proof. induction 1; constructor; assumption. Qed.
Definition path_dec : forall a b : list bool, {a = b} + {a <> b} := list_eq_dec Bool.bool_dec.

Section Round.
Variables (v : view) (threads : nat) (top : nat -> list Exact -> nat) (draw : nat -> spec_float)
  (srt : (nat -> nat -> bool) -> list nat -> list nat) (w y : float_vector) (wv yv : nat -> R) (features : list column) (c : config Exact).
Let n := v_rows v.
Hypothesis Th : (1 <= threads)%nat.
Hypothesis Top : tops top.
Hypothesis Srt : sorts srt.
Hypothesis Cols : forall col, In col features -> v_get v (c_name col) = Some col /\ has_rows col n.
Hypothesis Wv : row_values (N := Exact) w n wv.
Hypothesis Yv : row_values (N := Exact) y n yv.
Hypothesis Wpos : forall i, (i < n)%nat -> 0 <= wv i.
Hypothesis All : forall i, fltb (draw i) (to_f64 (cf_example_rate c)) = true.
Hypothesis Sh : 0 <= real_of (cf_shrinkage c) <= 1.
Hypothesis Lam : 0 <= cf_l2_lambda c.

Lemma round_leaves (f : list R) c0 pos t pos' : List.length f = n ->
  fit_tree (N := Exact) top draw threads srt w (row_gradients (N := Exact) mse yv f c0) features c pos = Ret (t, pos') ->
  tree_fits (v_get v) n t /\
  exists label sc, (forall i, (i < n)%nat -> routes (v_get v) t i (sc (label i))) /\
    forall i, (i < n)%nat -> let rows := filter (fun j => if path_dec (label j) (label i) then true else false) (seq 0 n) in
      sc (label i) = newton_score (lsum rows (fun j => wv j * (resid yv f j - c0))) (lsum rows wv) (cf_l2_lambda c).
Proof.
  intros L E. set (gd := row_gradients (N := Exact) mse yv f c0) in *.
  assert (Lg : List.length gd = n) by (unfold gd, row_gradients; rewrite map_length, seq_length; exact L).
  assert (St : setting (N := Exact) top threads srt w gd features (v_get v) (row_weighted (N := Exact) mse wv yv f c0)).
  { constructor; [exact Top|exact Th|exact Srt|rewrite Lg; exact Cols|]. rewrite Lg. intros r I. apply in_seq in I.
    destruct (Wv r) as (a & Ea & Da); [lia|]. exists a, (p_grad (row_point (N := Exact) mse yv f c0 r)). split; [exact Ea|].
    split; [|unfold row_weighted; rewrite Da; reflexivity]. unfold gd, row_gradients. change (@List.length (nt Exact) f) with (@List.length R f). rewrite L.
    rewrite nth_error_map, (nth_error_nth' _ 0%nat) by (rewrite seq_length; lia). rewrite seq_nth by lia. reflexivity. }
  assert (Leaf := fun t pos' row => set_leaf exact_ordered top draw threads srt w gd features c (v_get v) _ pos St t pos' row).
  split. { eapply full_fits; [exact Cols|]. apply (set_spec exact_ordered _ _ _ _ _ _ _ _ _ _ _ St _ _ E). }
  destruct (list_choice (@nil bool) n (fun i p => exists s sp, (has_leaf t p s sp /\ reaches (v_get v) t i p) /\
    forall p' s' sp', has_leaf t p' s' sp' -> reaches (v_get v) t i p' -> p' = p)) as [label Hl].
  { intros i Li. destruct (Leaf t pos' i E ltac:(lia)) as (p & s & sp & H). exists p, s, sp. exact H. }
  set (G := fun p s => exists sp, has_node t p s sp).
  assert (Fun : forall p s s', G p s -> G p s' -> s = s').
  { intros p s s' [sp A] [sp' B]. clear - A B. revert s' sp' B. induction A as [s sp l r|s0 sp0 l r p s sp A IH|s0 sp0 l r p s sp A IH]; intros s' sp' B; inversion B; subst; eauto. }
  set (rowsof := fun p => filter (fun j => if path_dec (label j) p then true else false) (seq 0 n)).
  exists label, (fun p => newton_score (lsum (rowsof p) (fun j => wv j * (resid yv f j - c0))) (lsum (rowsof p) wv) (cf_l2_lambda c)).
  assert (Main : forall i, (i < n)%nat -> exists s sp, has_leaf t (label i) s sp /\ reaches (v_get v) t i (label i) /\
    s = newton_score (lsum (rowsof (label i)) (fun j => wv j * (resid yv f j - c0))) (lsum (rowsof (label i)) wv) (cf_l2_lambda c)).
  { intros i Li. destruct (Hl i Li) as (s & sp & (Hs & Hr) & _). exists s, sp. split; [exact Hs|]. split; [exact Hr|].
    destruct (set_score top draw threads srt w gd features c (v_get v) _ pos t pos' St E _ _ _ (leaf_node _ _ _ _ Hs)) as (rows & D & I & Es).
    cbv zeta in Es. rewrite Es.
    assert (P : Permutation rows (rowsof (label i))).
    { apply NoDup_Permutation; [exact D|apply NoDup_filter, seq_NoDup|]. intros j. rewrite I. unfold rowsof. rewrite filter_In, in_seq.
      split.
      - intros [A B]. apply (subsample_spec draw pos (List.length gd) (to_f64 (cf_example_rate c))) in A. rewrite Lg in A.
        split; [lia|]. destruct (Hl j ltac:(lia)) as (_ & _ & _ & U). rewrite <- (U _ _ _ Hs B).
        destruct (path_dec (label i) (label i)); [reflexivity|contradiction].
      - intros [A B]. destruct (path_dec (label j) (label i)) as [Q|]; [|discriminate]. split.
        + apply (subsample_spec draw pos (List.length gd) (to_f64 (cf_example_rate c))). rewrite Lg. split; [lia|apply All].
        + destruct (Hl j ltac:(lia)) as (_ & _ & (_ & X) & _). rewrite Q in X. exact X. }
    destruct (sum_parts (row_weighted (N := Exact) mse wv yv f c0) rows) as [A B].
    unfold newton_score. rewrite A, B, !(lsum_perm _ _ _ P).
    replace (lsum (rowsof (label i)) (fun i0 : nat => gh (row_weighted (N := Exact) mse wv yv f c0 i0))) with (lsum (rowsof (label i)) wv)
      by (apply lsum_ext; intros j _; unfold row_weighted, row_point, mse, n1; cbn; ring).
    replace (lsum (rowsof (label i)) (fun i0 : nat => gg (row_weighted (N := Exact) mse wv yv f c0 i0))) with (lsum (rowsof (label i)) (fun j => wv j * (resid yv f j - c0)))
      by (apply lsum_ext; intros j _; unfold row_weighted, row_point, mse, resid, n0, n1; cbn; ring).
    reflexivity. }
  split.
  - intros i Li. destruct (Main i Li) as (s & sp & Hs & Hr & <-). eapply leaf_routes; eassumption.
  - intros i Li. reflexivity.
Qed.

Lemma round_descends st p gd x gd' pos t pos' st' : state_ok (N := Exact) v st -> inited (N := Exact) w y threads n p ->
  pointwise_round (N := Exact) mse p (snd st) gd = Ret (x, gd') ->
  fit_tree (N := Exact) top draw threads srt w gd' features c pos = Ret (t, pos') ->
  add_tree_scores (N := Exact) (v_get v) threads (apply_shrinkage (nfloat (cf_shrinkage c)) t) x st = Ret st' ->
  state_ok v st' /\ squared_error wv yv (snd st') <= squared_error wv yv (snd st).
Proof.
  intros Ok In0 Rd Ft Ad. destruct Ok as [Pm L]. fold n in L.
  change (@List.length R (snd st) = n) in L.
  rewrite (mse_round wv yv (snd st) w y threads p gd Th) in Rd; [|rewrite L; assumption..]. injection Rd as <- <-.
  pose (f := (snd st : list R)). change (@List.length R f = n) in L. change (squared_error wv yv (snd st)) with (squared_error wv yv f). set (m := mean wv yv f) in *. set (c0 := if small m then 0 else m) in *.
  destruct (round_leaves f c0 pos t pos' L Ft) as (Fits & label & sc & Rt & Sc).
  destruct (one_tree (N := Exact) v threads (apply_shrinkage (@nfloat Exact (cf_shrinkage c)) t) m st Th (shrink_fits _ _ _ _ Fits) (conj Pm L)) as (st1 & E1 & Ok1 & H1).
  pose proof (eq_trans (eq_sym E1) Ad) as Eq. injection Eq as <-. clear Ad. split; [exact Ok1|].
  set (k := real_of (cf_shrinkage c)) in *. destruct Ok1 as [_ L1]. change (@List.length R (snd st1) = n) in L1. unfold squared_error. rewrite L1, L. fold n.
  set (s := fun i => sc (label i)).
  assert (New : forall i, (i < n)%nat -> nth i (snd st1) 0 = nth i f 0 + (k * s i + m)).
  { intros i Li. assert (X : nth_error f i = Some (nth i f 0)) by (apply (@nth_error_nth' R); rewrite L; exact Li).
    specialize (H1 i _ _ X (exact_shrink_routes _ k _ _ _ (Rt i Li))). apply nth_error_nth with (d := 0) in H1. rewrite H1. unfold s. cbn. ring. }
  set (u := resid yv f).
  assert (E0 : rsum n (fun i => wv i * (yv i - nth i f 0) * (yv i - nth i f 0)) = lsum (seq 0 n) (fun i => wv i * (u i * u i))).
  { apply lsum_ext. intros i _. unfold u, resid. ring. }
  assert (E2 : rsum n (fun i => wv i * (yv i - nth i (snd st1) 0) * (yv i - nth i (snd st1) 0)) =
    lsum (seq 0 n) (fun i => wv i * ((u i - m - k * s i) * (u i - m - k * s i)))).
  { apply lsum_ext. intros i I. apply in_seq in I. rewrite New by lia. unfold u, resid. ring. }
  rewrite E0. eapply Rle_trans; [apply Req_le; exact E2|]. clear E0 E2.
  set (W := lsum (seq 0 n) wv). set (U := lsum (seq 0 n) (fun i => wv i * u i)).
  assert (Wp : 0 <= W) by (apply lsum_pos; intros i I; apply in_seq in I; apply Wpos; lia).
  assert (Mn : m * W = U \/ m = 0).
  { unfold m, mean, newton_score. rewrite L. fold n. change (rsum n wv) with W. change (rsum n (fun i => wv i * resid yv f i)) with U.
    destruct (Req_EM_T (W + 0) 0) as [Z|Z]; [right; reflexivity|left; field; lra]. }
  assert (Pos : forall i, In i (seq 0 n) -> forall j, In j (filter (fun j => if path_dec (label j) (label i) then true else false) (seq 0 n)) -> 0 <= wv j).
  { intros i _ j J. apply filter_In in J. destruct J as [J _]. apply in_seq in J. apply Wpos. lia. }
  unfold c0 in *. clear c0. destruct (small m) eqn:Sm.
  - (* gradients before the constant *)
    assert (Q : lsum (seq 0 n) (fun i => wv i * ((u i - m - k * s i) * (u i - m - k * s i) - u i * u i + 2 * m * u i - 2 * m * m)) <= 0).
    { apply (groups_le path_dec label _ n); [rewrite seq_length; lia|]. intros i I. pose proof (Pos i I) as Pi. apply in_seq in I.
      set (rows := filter (fun j => if path_dec (label j) (label i) then true else false) (seq 0 n)) in *.
      pose proof (leaf_stale rows wv u k (cf_l2_lambda c) Pi Sh Lam m) as Lf.
      rewrite lsum_ext with (g' := fun j => wv j * ((u j - m - k * newton_score (lsum rows (fun i => wv i * u i)) (lsum rows wv) (cf_l2_lambda c)) *
        (u j - m - k * newton_score (lsum rows (fun i => wv i * u i)) (lsum rows wv) (cf_l2_lambda c)) - u j * u j + 2 * m * u j - 2 * m * m)); [exact Lf|].
      intros j J. apply filter_In in J. destruct J as [J Lj]. destruct (path_dec (label j) (label i)) as [Ej|]; [|discriminate].
      unfold s. rewrite Ej, (Sc i) by lia. cbv zeta. fold rows.
      rewrite (lsum_ext rows (fun j0 => wv j0 * (resid yv f j0 - 0)) (fun j0 => wv j0 * u j0)); [reflexivity|]. intros q _. unfold u. ring. }
    rewrite lsum_ext with (g' := fun i => wv i * ((u i - m - k * s i) * (u i - m - k * s i)) + ((-1) * (wv i * (u i * u i)) + (2 * m * (wv i * u i) + (- (2 * m * m)) * wv i))) in Q by (intros i _; ring).
    rewrite !lsum_plus, !lsum_mult in Q. fold W U in Q. destruct Mn as [Mn|Mn].
    + rewrite <- Mn in Q. lra.
    + rewrite Mn in Q |- *. lra.
  - (* gradients at the constant *)
    assert (Q : lsum (seq 0 n) (fun i => wv i * ((u i - m - k * s i) * (u i - m - k * s i) - (u i - m) * (u i - m))) <= 0).
    { apply (groups_le path_dec label _ n); [rewrite seq_length; lia|]. intros i I. pose proof (Pos i I) as Pi. apply in_seq in I.
      set (rows := filter (fun j => if path_dec (label j) (label i) then true else false) (seq 0 n)) in *.
      pose proof (leaf_fresh rows wv (fun j => u j - m) k (cf_l2_lambda c) Pi Sh Lam) as Lf. cbv beta in Lf.
      rewrite lsum_ext with (g' := fun j => wv j * ((u j - m - k * newton_score (lsum rows (fun i => wv i * (u i - m))) (lsum rows wv) (cf_l2_lambda c)) *
        (u j - m - k * newton_score (lsum rows (fun i => wv i * (u i - m))) (lsum rows wv) (cf_l2_lambda c)) - (u j - m) * (u j - m))); [exact Lf|].
      intros j J. apply filter_In in J. destruct J as [J Lj]. destruct (path_dec (label j) (label i)) as [Ej|]; [|discriminate].
      unfold s. rewrite Ej, (Sc i) by lia. reflexivity. }
    rewrite lsum_ext with (g' := fun i => wv i * ((u i - m - k * s i) * (u i - m - k * s i)) + ((-1) * (wv i * (u i * u i)) + (2 * m * (wv i * u i) + (- (m * m)) * wv i))) in Q by (intros i _; ring).
    rewrite !lsum_plus, !lsum_mult in Q. fold W U in Q. destruct Mn as [Mn|Mn].
    + rewrite <- Mn in Q. assert (0 <= m * m * W) by (apply Rmult_le_pos; [apply Rle_0_sqr|exact Wp]). lra.
    + rewrite Mn in Q |- *. lra.
Qed.
End Round.

(** ** All rounds *)
Definition errors_fall (wv yv : nat -> R) (fs : list (list R)) : Prop :=
  forall i a b, nth_error fs i = Some a -> nth_error fs (S i) = Some b -> squared_error wv yv b <= squared_error wv yv a.

Section Rounds.
Variables (v : view) (threads : nat) (top : nat -> nat -> list Exact -> nat) (draw : nat -> spec_float)
  (srt : (nat -> nat -> bool) -> list nat -> list nat) (w y : float_vector) (wv yv : nat -> R) (features : list column) (c : config Exact).
Hypothesis Th : (1 <= threads)%nat.
Hypothesis Top : forall i, tops (top i).
Hypothesis Srt : sorts srt.
Hypothesis Cols : forall col, In col features -> v_get v (c_name col) = Some col /\ has_rows col (v_rows v).
Hypothesis Wv : row_values (N := Exact) w (v_rows v) wv.
Hypothesis Yv : row_values (N := Exact) y (v_rows v) yv.
Hypothesis Wpos : forall i, (i < v_rows v)%nat -> 0 <= wv i.
Hypothesis All : forall i, fltb (draw i) (to_f64 (cf_example_rate c)) = true.
Hypothesis Sh : 0 <= real_of (cf_shrinkage c) <= 1.
Hypothesis Lam : 0 <= cf_l2_lambda c.

Lemma rounds_descend todo : forall i k trees st gd p pos r, state_ok (N := Exact) v st -> inited (N := Exact) w y threads (v_rows v) p ->
  rounds (N := Exact) v threads top draw srt w features c (mse_loss threads) todo i k trees st gd p pos = Ret r -> tr_status r = SOk ->
  exists fs, values (N := Exact) v threads top draw srt w features c (mse_loss threads) todo i st gd p pos fs /\
    nth_error fs 0 = Some (snd st) /\ List.length fs = S todo /\ nth_error fs todo = Some (tr_f r) /\ errors_fall wv yv fs.
Proof.
  induction todo as [|todo IH]; intros i k trees st gd p pos r Ok In0 E S0; cbn [rounds] in E.
  - injection E as <-. exists [snd st]. split; [constructor|]. repeat split; try reflexivity.
    intros j a b Ha Hb. destruct j; discriminate.
  - destruct (l_round (mse_loss threads) p pos (snd st) gd) as [[[[x gd'] ls'] pos']| |] eqn:Rd; [|discriminate..]. cbn [bind] in E.
    destruct (nfinite x) eqn:Fx; [|injection E as <-; discriminate].
    destruct (fit_tree (top i) draw threads srt w gd' features c pos') as [[t pos2]| |] eqn:Ft; [|discriminate..]. cbn [bind] in E.
    destruct (add_tree_scores (v_get v) threads _ x st) as [st'| |] eqn:Ad; [|discriminate..]. cbn [bind] in E.
    pose proof Rd as Rd0.
    change ((let! (c1, gd1) := pointwise_round (N := Exact) mse p (snd st) gd in Ret (c1, gd1, p, pos)) = Ret (x, gd', ls', pos')) in Rd.
    destruct (pointwise_round (N := Exact) mse p (snd st) gd) as [[c1 gd1]| |] eqn:Pr; [|discriminate Rd..]. cbn [bind] in Rd.
    assert (c1 = x /\ gd1 = gd' /\ p = ls' /\ pos = pos') as (-> & -> & <- & <-) by (repeat split; congruence). clear Rd.
    destruct (round_descends v threads (top i) draw srt w y wv yv features c Th (Top i) Srt Cols Wv Yv Wpos All Sh Lam st p gd x gd' pos t pos2 st' Ok In0 Pr Ft Ad) as [Ok' Le].
    destruct (IH _ _ _ _ _ _ _ _ Ok' In0 E S0) as (fs & V & H0 & Ln & Hl & Er).
    exists (snd st :: fs). split; [econstructor; eassumption|]. split; [reflexivity|]. split; [exact (f_equal S Ln)|]. split; [exact Hl|].
    intros [|j] a b Ha Hb.
    + pose proof (eq_trans (eq_sym H0) Hb) as Eb. injection Eb as <-. injection Ha as <-. exact Le.
    + exact (Er j a b Ha Hb).
Qed.
End Rounds.

Lemma train_descends v threads top draw pos srt names w y wv yv (c : config Exact) base r :
  training v threads top srt names w (mse_loss (N := Exact) threads) -> (forall b, base = Some b -> forest_fits v b) ->
  row_values (N := Exact) w (v_rows v) wv -> row_values (N := Exact) y (v_rows v) yv ->
  (forall i, (i < v_rows v)%nat -> 0 <= wv i) -> (forall i, fltb (draw i) (to_f64 (cf_example_rate c)) = true) ->
  0 <= real_of (cf_shrinkage c) <= 1 -> 0 <= cf_l2_lambda c ->
  train v threads top draw pos srt names w y (mse_loss threads) c base = Ret r -> tr_status r = SOk ->
  exists features ls st0 k trees st fs, load_features (v_get v) (v_order v names) = (SOk, features) /\
    init_scores v threads = Ret st0 /\ init_with_base v threads (match base with Some b => b | None => [] end) n0 [] st0 = Ret (k, trees, st) /\
    values (N := Exact) v threads top draw srt w features c (mse_loss threads) (Z.to_nat (cf_num_trees c)) 0 st (repeat gzero (v_rows v)) ls pos fs /\
    nth_error fs 0 = Some (snd st) /\ nth_error fs (Z.to_nat (cf_num_trees c)) = Some (tr_f r) /\
    forall i a b, nth_error fs i = Some a -> nth_error fs (S i) = Some b -> squared_error wv yv b <= squared_error wv yv a.
Proof.
  intros Tr Bs Wv Yv Wp All Sh Lam E S0.
  destruct (train_inv v threads top draw pos srt names w y _ c base r E (or_introl S0)) as (features & group & ls & st0 & k & trees & st & Ck & Lo & Gr & In0 & I0 & B & R0).
  pose proof (ts_threads _ _ _ _ _ _ _ Tr) as Th.
  assert (Ok : state_ok (N := Exact) v st).
  { destruct (@Eval_proofs.init_ok Exact v threads Th) as (st1 & E1 & Ok1 & St1). rewrite I0 in E1. injection E1 as <-.
    assert (Fb : forest_fits (N := Exact) v (base_list base)) by (destruct base as [b|]; [apply Bs; reflexivity|constructor]).
    destruct (base_holds v threads (base_list base) Th Fb (@n0 Exact) [] st0 (Forall_nil _) Ok1) as (k' & trees' & st' & E' & _ & Ok' & _).
    { rewrite St1. apply start_holds. }
    rewrite B in E'. injection E' as <- <- <-. exact Ok'. }
  assert (In1 : inited (N := Exact) w y threads (v_rows v) ls).
  { destruct (init_ok (N := Exact) w y wv threads (v_rows v) Th Wv) as (p & E1 & I1 & _).
    change ((let! p := pointwise_init threads (v_rows v) w y in Ret (inr p)) = Ret (@inr code (@pointwise Exact) ls)) in In0.
    rewrite E1 in In0. cbn [bind] in In0. assert (p = ls) as <- by congruence. exact I1. }
  destruct (rounds_descend v threads top draw srt w y wv yv features c Th (ts_tops _ _ _ _ _ _ _ Tr) (ts_sort _ _ _ _ _ _ _ Tr)) with (todo := Z.to_nat (cf_num_trees c)) (i := 0%nat) (k := k) (trees := trees) (st := st) (gd := repeat (@gzero Exact) (v_rows v)) (p := ls) (pos := pos) (r := r) as (fs & V & H0 & _ & Hl & Er); try assumption.
  { intros col I. destruct (loaded_cols v threads top srt names w _ features Tr Lo col I) as (_ & G & _ & Hr). auto. }
  exists features, ls, st0, k, trees, st, fs. auto 10.
Qed.
