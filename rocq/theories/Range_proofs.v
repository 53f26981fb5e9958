(** Range_proofs.v - a forest of one tree stays within the range of the targets (mse, exact arithmetic). *)
From Coq Require Import Reals Lra Sorted Permutation SpecFloat.
From Verif Require Import Base F32 Column DataStore Num Forest Config Score ScoreSpec Eval EvalSpec Split SplitSpec Tree TreeSpec Train TrainSpec Par Subsampling Loss LossSpec
  Driver_proofs Split_proofs Subsampling_proofs Score_proofs Eval_proofs Hist_proofs Sum_proofs Tree_proofs Train_proofs Loss_proofs Mse_proofs.
Local Open Scope R_scope.

Lemma lsum_le rows g g' : (forall i, In i rows -> g i <= g' i) -> lsum rows g <= lsum rows g'.
Proof.
  unfold lsum. induction rows as [|i rows IH]; intros H; cbn; [lra|].
  pose proof (H i (or_introl eq_refl)). assert (fold_right Rplus 0 (map g rows) <= fold_right Rplus 0 (map g' rows)) by (apply IH; intros k I; apply H; right; exact I). lra.
Qed.

(** A shrunk Newton step lies between any bounds of the residuals that have 0 between them. *)
Lemma step_between rows (w u : nat -> R) (k l lo hi : R) :
  (forall i, In i rows -> 0 <= w i) -> (forall i, In i rows -> 0 < w i -> lo <= u i <= hi) -> 0 <= k <= 1 -> 0 <= l -> lo <= 0 <= hi ->
  lo <= k * newton_score (lsum rows (fun i => w i * u i)) (lsum rows w) l <= hi.
Proof.
  intros W U K L Z. unfold newton_score. pose proof (lsum_pos rows w W) as H0. set (H := lsum rows w) in *.
  destruct (Req_EM_T (H + l) 0) as [_|Ne]; [rewrite Rmult_0_r; exact Z|].
  assert (A : lo * H <= lsum rows (fun i => w i * u i) <= hi * H).
  { unfold H. rewrite <- !lsum_mult. split; apply lsum_le; intros i I; (destruct (Rle_lt_or_eq_dec 0 (w i) (W i I)) as [P|P]; [|rewrite <- P; lra]);
      specialize (U i I P); rewrite (Rmult_comm (w i)); apply Rmult_le_compat_r; lra. }
  set (G := lsum rows (fun i => w i * u i)) in *. assert (P : 0 < H + l) by lra.
  assert (S1 : G / (H + l) <= hi).
  { apply Rmult_le_reg_r with (H + l); [exact P|]. replace (G / (H + l) * (H + l)) with G by (field; exact Ne).
    assert (0 <= hi * l) by (apply Rmult_le_pos; lra). lra. }
  assert (S2 : lo <= G / (H + l)).
  { apply Rmult_le_reg_r with (H + l); [exact P|]. replace (G / (H + l) * (H + l)) with G by (field; exact Ne).
    assert (0 <= (- lo) * l) by (apply Rmult_le_pos; lra). lra. }
  set (s := G / (H + l)) in *. split.
  - assert (0 <= k * (s - lo)) by (apply Rmult_le_pos; lra). assert (0 <= (1 - k) * (- lo)) by (apply Rmult_le_pos; lra). lra.
  - assert (0 <= k * (hi - s)) by (apply Rmult_le_pos; lra). assert (0 <= (1 - k) * hi) by (apply Rmult_le_pos; lra). lra.
Qed.

(** The weighted mean lies between the targets. *)
Lemma mean_between rows (w u : nat -> R) lo hi : (forall i, In i rows -> 0 <= w i) -> (forall i, In i rows -> 0 < w i -> lo <= u i <= hi) ->
  0 < lsum rows w -> lo <= lsum rows (fun i => w i * u i) / lsum rows w <= hi.
Proof.
  intros W U P. set (H := lsum rows w) in *.
  assert (A : lo * H <= lsum rows (fun i => w i * u i) <= hi * H).
  { unfold H. rewrite <- !lsum_mult. split; apply lsum_le; intros i I; (destruct (Rle_lt_or_eq_dec 0 (w i) (W i I)) as [Q|Q]; [|rewrite <- Q; lra]);
      specialize (U i I Q); rewrite (Rmult_comm (w i)); apply Rmult_le_compat_r; lra. }
  set (G := lsum rows (fun i => w i * u i)) in *.
  split; (apply Rmult_le_reg_r with H; [exact P|]); replace (G / H * H) with G by (field; lra); lra.
Qed.

(** The leaf score of a row is the score of a node. *)
Lemma routes_node {N : Num} features store (t : tree N) row s : full features t -> routes store t row s -> exists p sp, has_node t p s sp.
Proof.
  intros F R0. induction R0 as [t row L|t row c left s L C G R IH].
  - inversion F; subst; exists [], sp || eexists [], _; constructor.
  - inversion F; subst; [discriminate|]. cbn [t_left t_right] in *. destruct left; destruct IH as (p & sp1 & Hn); try assumption; eexists (_ :: p), sp1; constructor; exact Hn.
Qed.
Lemma clear_node {N : Num} (t : tree N) : forall p s sp, has_node (clear_internal t) p s sp -> exists sp', has_node t p s sp'.
Proof.
  induction t as [|s0 sp0 l IHl r IHr]; intros p s sp H; cbn [clear_internal] in H; inversion H; subst.
  - eexists. constructor.
  - match goal with H : has_node (clear_internal l) _ _ _ |- _ => destruct (IHl _ _ _ H) as [sp' X] end. exists sp'. constructor. exact X.
  - match goal with H : has_node (clear_internal r) _ _ _ |- _ => destruct (IHr _ _ _ H) as [sp' X] end. exists sp'. constructor. exact X.
Qed.

Section Range.
Variables (v : view) (threads : nat) (top : nat -> nat -> list Exact -> nat) (draw : nat -> spec_float) (pos : nat)
  (srt : (nat -> nat -> bool) -> list nat -> list nat) (names : list str) (w y : float_vector) (wv yv : nat -> R) (c : config Exact)
  (r : trained Exact) (lo hi : R).
Let n := v_rows v.
Hypothesis Tr : training v threads top srt names w (mse_loss (N := Exact) threads).
Hypothesis Wv : row_values (N := Exact) w n wv.
Hypothesis Yv : row_values (N := Exact) y n yv.
Hypothesis Wpos : forall i, (i < n)%nat -> 0 <= wv i.
Hypothesis Some_w : 0 < rsum n wv.
Hypothesis Sh : 0 <= real_of (cf_shrinkage c) <= 1.
Hypothesis Lam : 0 <= cf_l2_lambda c.
Hypothesis One : cf_num_trees c = 1%Z.
Hypothesis Rg : forall i, (i < n)%nat -> 0 < wv i -> lo <= yv i <= hi.
Hypothesis E : train v threads top draw pos srt names w y (mse_loss threads) c None = Ret r.
Hypothesis Ok : tr_status r = SOk.
Let m := rsum n (fun i => wv i * yv i) / rsum n wv.

Lemma node_score features (f : list R) c0 pos1 t pos2 p s sp : load_features (v_get v) (v_order v names) = (SOk, features) -> List.length f = n ->
  fit_tree (N := Exact) (top 0%nat) draw threads srt w (row_gradients (N := Exact) mse yv f c0) features c pos1 = Ret (t, pos2) ->
  full features t /\ (has_node t p s sp -> exists rows, (forall i, In i rows -> (i < n)%nat) /\
    s = newton_score (lsum rows (fun j => wv j * (yv j - nth j f 0 - c0))) (lsum rows wv) (cf_l2_lambda c)).
Proof.
  intros Lo L Ft. set (gd := row_gradients (N := Exact) mse yv f c0) in *.
  assert (Lg : List.length gd = n) by (unfold gd, row_gradients; rewrite map_length, seq_length; exact L).
  assert (St : setting (N := Exact) (top 0%nat) threads srt w gd features (v_get v) (row_weighted (N := Exact) mse wv yv f c0)).
  { constructor; [apply (ts_tops _ _ _ _ _ _ _ Tr)|apply (ts_threads _ _ _ _ _ _ _ Tr)|apply (ts_sort _ _ _ _ _ _ _ Tr)|rewrite Lg|].
    - intros col I. destruct (loaded_cols v threads top srt names w _ features Tr Lo col I) as (_ & G & _ & Hr). auto.
    - rewrite Lg. intros q I. apply in_seq in I.
      destruct (Wv q) as (a & Ea & Da); [lia|]. exists a, (p_grad (row_point (N := Exact) mse yv f c0 q)). split; [exact Ea|].
      split; [|unfold row_weighted; rewrite Da; reflexivity]. unfold gd, row_gradients. change (@List.length (nt Exact) f) with (@List.length R f). rewrite L.
      rewrite nth_error_map, (nth_error_nth' _ 0%nat) by (rewrite seq_length; lia). rewrite seq_nth by lia. reflexivity. }
  split. { apply (set_spec exact_ordered _ _ _ _ _ _ _ _ _ _ _ St _ _ Ft). }
  intros Nd. destruct (set_score (top 0%nat) draw threads srt w gd features c (v_get v) _ pos1 t pos2 St Ft _ _ _ Nd) as (rows & _ & I & Es).
  cbv zeta in Es. exists rows. split.
  { intros i Ii. apply I in Ii. destruct Ii as [A _]. apply (subsample_spec draw pos1 (List.length gd) (to_f64 (cf_example_rate c))) in A. rewrite Lg in A. lia. }
  rewrite Es. destruct (sum_parts (row_weighted (N := Exact) mse wv yv f c0) rows) as [A B]. unfold newton_score. rewrite A, B.
  replace (lsum rows (fun i0 : nat => gh (row_weighted (N := Exact) mse wv yv f c0 i0))) with (lsum rows wv)
    by (apply lsum_ext; intros j _; unfold row_weighted, row_point, mse, n1; cbn; ring).
  replace (lsum rows (fun i0 : nat => gg (row_weighted (N := Exact) mse wv yv f c0 i0))) with (lsum rows (fun j => wv j * (yv j - nth j f 0 - c0)))
    by (apply lsum_ext; intros j _; unfold row_weighted, row_point, mse, n0, n1; cbn; ring).
  reflexivity.
Qed.

(** The forest: the mean, and a tree whose scores keep the sum with the mean within the range. *)
Lemma one_tree_forest : exists t, tr_forest r = [constant_tree (N := Exact) m; t] /\
  (exists features, full features t) /\
  forall p s sp, has_node t p s sp -> lo - 1 / 10000 <= m + s <= hi + 1 / 10000 /\ (1 / 10000 < Rabs m -> lo <= m + s <= hi).
Proof.
  destruct (train_inv v threads top draw pos srt names w y _ c None r E (or_introl Ok)) as (features & group & ls & st0 & k & trees & st & Ck & Lo & Gr & In0 & I0 & B & R0).
  pose proof (ts_threads _ _ _ _ _ _ _ Tr) as Th. injection B as <- <- <-. rewrite One in R0. change (Z.to_nat 1) with 1%nat in R0. cbn [rounds] in R0.
  destruct (@Eval_proofs.init_ok Exact v threads Th) as (st1 & E1 & Ok1 & St1). rewrite I0 in E1. injection E1 as <-.
  assert (In1 : inited (N := Exact) w y threads n ls).
  { destruct (init_ok (N := Exact) w y wv threads n Th Wv) as (p & E1 & I1 & _).
    change ((let! p := pointwise_init threads n w y in Ret (inr p)) = Ret (@inr code (@pointwise Exact) ls)) in In0.
    rewrite E1 in In0. cbn [bind] in In0. assert (p = ls) as <- by congruence. exact I1. }
  set (f := snd st0 : list R) in *. assert (Lf : List.length f = n) by (apply Ok1).
  destruct (l_round (mse_loss threads) ls pos _ _) as [[[[x gd'] ls'] pos']| |] eqn:Rd; [|discriminate R0..]. cbn [bind] in R0.
  change ((let! (c1, gd1) := pointwise_round (N := Exact) mse ls f (repeat gzero n) in Ret (c1, gd1, ls, pos)) = Ret (x, gd', ls', pos')) in Rd.
  assert (Rd1 := mse_round wv yv f w y threads ls (repeat (@gzero Exact) n) Th).
  rewrite Lf in Rd1. specialize (Rd1 Wv Yv In1).
  destruct (pointwise_round (N := Exact) mse ls f (repeat gzero n)) as [[c1 gd1]| |]; [|discriminate Rd..]. cbn [bind] in Rd.
  assert (c1 = x /\ gd1 = gd' /\ ls = ls' /\ pos = pos') as (-> & -> & <- & <-) by (repeat split; congruence). clear Rd.
  injection Rd1 as -> ->.
  assert (Fz : forall i, nth i f 0 = 0).
  { intros i. unfold f. rewrite St1. destruct (Nat.lt_ge_cases i n) as [Li|Li].
    - apply nth_repeat.
    - apply nth_overflow. cbn [snd]. rewrite repeat_length. exact Li. }
  assert (Me : mean wv yv f = m).
  { unfold mean, newton_score. rewrite Lf. rewrite Rplus_0_r. destruct (Req_EM_T (rsum n wv) 0) as [Z|_]; [lra|]. unfold m. f_equal.
    rewrite !rsum_lsum. apply lsum_ext. intros i _. unfold resid. rewrite Fz. ring. }
  rewrite Me in R0. cbn [nfinite Exact] in R0.
  destruct (fit_tree _ draw threads srt w _ features c pos) as [[t pos2]| |] eqn:Ft; [|discriminate R0..]. cbn [bind] in R0.
  destruct (add_tree_scores _ threads _ _ st0) as [st2| |] eqn:Ad; [|discriminate R0..]. cbn [bind] in R0.
  injection R0 as <-. cbn [tr_forest map]. exists (clear_internal (apply_shrinkage (nfloat (cf_shrinkage c)) t)).
  split.
  { cbn [app map]. f_equal. unfold constant_tree. cbn [clear_internal present]. f_equal. unfold n0. cbn. ring. }
  destruct (node_score features f _ pos t pos2 [] 0 None Lo Lf Ft) as [Fu _].
  split. { exists features. apply full_clear, full_shrink, Fu. }
  assert (Mb : lo <= m <= hi).
  { unfold m. rewrite !rsum_lsum. apply mean_between; [intros i I; apply in_seq in I; apply Wpos; lia|intros i I; apply in_seq in I; apply Rg; lia|].
    rewrite <- rsum_lsum. exact Some_w. }
  intros p s sp Nd. destruct (clear_node _ _ _ _ Nd) as [sp1 Nd1]. apply shrink_node in Nd1. destruct Nd1 as (s0 & Nd0 & ->).
  destruct (node_score features f _ pos t pos2 p s0 sp1 Lo Lf Ft) as [_ Sc]. destruct (Sc Nd0) as (rows & Rn & ->). clear Sc.
  set (k := real_of (cf_shrinkage c)) in *. change (nfloat (cf_shrinkage c)) with k. cbn [nstore nmul Exact]. rewrite (Rmult_comm _ k).
  assert (Wr : forall i, In i rows -> 0 <= wv i) by (intros i I; apply Wpos, Rn, I).
  unfold small. destruct (Rltb (1 / 10000) (Rabs m)) eqn:Sm; cbn [negb].
  - pose proof (step_between rows wv (fun j => yv j - nth j f 0 - m) k (cf_l2_lambda c) (lo - m) (hi - m) Wr) as Q. cbv beta in Q.
    assert (X : forall i, In i rows -> 0 < wv i -> lo - m <= yv i - nth i f 0 - m <= hi - m).
    { intros i I P. rewrite Fz. pose proof (Rg i (Rn i I) P). lra. }
    specialize (Q X Sh Lam ltac:(lra)). split; [lra|intros _; lra].
  - assert (Am : Rabs m <= 1 / 10000) by (unfold Rltb in Sm; destruct (Rlt_dec (1 / 10000) (Rabs m)); [discriminate|lra]).
    split; [|intros; lra].
    pose proof (step_between rows wv (fun j => yv j - nth j f 0 - 0) k (cf_l2_lambda c) (Rmin lo 0) (Rmax hi 0) Wr) as Q. cbv beta in Q.
    assert (X : forall i, In i rows -> 0 < wv i -> Rmin lo 0 <= yv i - nth i f 0 - 0 <= Rmax hi 0).
    { intros i I P. rewrite Fz. pose proof (Rg i (Rn i I) P). pose proof (Rmin_l lo 0). pose proof (Rmax_l hi 0). lra. }
    specialize (Q X Sh Lam (conj (Rmin_r lo 0) (Rmax_r hi 0))).
    pose proof (Rle_abs m). pose proof (Rle_abs (- m)). rewrite Rabs_Ropp in *.
    unfold Rmin, Rmax in Q. destruct (Rle_dec lo 0), (Rle_dec hi 0); lra.
Qed.

Lemma one_tree_range v' threads' scores : (1 <= threads')%nat -> reorders v' -> forest_fits v' (tr_forest r) ->
  evaluate_forest v' threads' (tr_forest r) = Ret (SOk, Some scores) ->
  List.length scores = v_rows v' /\
  forall x, In x scores -> lo - 1 / 10000 <= x <= hi + 1 / 10000 /\ (1 / 10000 < Rabs m -> lo <= x <= hi).
Proof.
  intros Th' Or Fit Ev. assert (Ld : loads v' (tr_forest r)) by exact (Driver_proofs.evaluated_loads _ _ _ _ Or Ev).
  destruct (evaluate_ok v' threads' (tr_forest r) Th' Or Ld Fit) as (sc & Ev' & Ln & Pr). rewrite Ev in Ev'. injection Ev' as <-.
  split; [exact Ln|]. intros x I. destruct one_tree_forest as (t & Ef & (features & Fu) & Bd). rewrite Ef in *.
  apply In_nth_error in I. destruct I as [row Er].
  assert (Lr : (row < v_rows v')%nat) by (rewrite <- Ln; apply nth_error_Some; congruence).
  inversion Fit as [|? ? _ Fit1]; subst. inversion Fit1 as [|? ? Ft _]; subst.
  destruct (routes_total _ _ _ _ Ft Lr) as [s Rt].
  assert (Lv : leaves (N := Exact) v' [constant_tree (N := Exact) m; t] row [m; s]).
  { constructor; [exact (RouteLeaf (N := Exact) (v_get v') (constant_tree (N := Exact) m) row eq_refl)|]. constructor; [exact Rt|constructor]. }
  specialize (Pr row _ Lr Lv). assert (Ex : x = m + s).
  { rewrite Er in Pr. injection Pr as ->. unfold add_all, n0. cbn. ring. }
  rewrite Ex. destruct (routes_node _ _ _ _ _ Fu Rt) as (p & sp & Nd). exact (Bd _ _ _ Nd).
Qed.
End Range.
