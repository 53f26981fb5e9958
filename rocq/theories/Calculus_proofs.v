(** Calculus_proofs.v - gradients and hessians of the losses (for property C42). *)
From Coq Require Import Reals Lra Lia Psatz.
From Coquelicot Require Import Coquelicot.
From Verif Require Import Base Num Loss LossSpec.
Local Open Scope R_scope.

Lemma log_loss_real y f : loss_of log_loss y f = ln (1 + exp (- y * f)) /\
  g_of log_loss y f = y * exp (- y * f) / (1 + exp (- y * f)) /\
  h_of log_loss y f = exp (- y * f) / ((1 + exp (- y * f)) * (1 + exp (- y * f))).
Proof. repeat split; reflexivity. Qed.

Lemma log_first y f : derivable_pt_lim (fun f => loss_of log_loss y f) f (- g_of log_loss y f).
Proof.
  apply is_derive_Reals. apply (is_derive_ext (fun f => ln (1 + exp (- y * f)))); [reflexivity|].
  replace (- g_of log_loss y f) with (- (y * exp (- y * f) / (1 + exp (- y * f)))) by reflexivity.
  pose proof (exp_pos (- y * f)). auto_derive; [lra|]. field. lra.
Qed.
Lemma log_second y f : y * y = 1 -> derivable_pt_lim (fun f => - g_of log_loss y f) f (h_of log_loss y f).
Proof.
  intros Y. apply is_derive_Reals. apply (is_derive_ext (fun f => - (y * exp (- y * f) / (1 + exp (- y * f))))); [reflexivity|].
  replace (h_of log_loss y f) with (exp (- y * f) / ((1 + exp (- y * f)) * (1 + exp (- y * f)))) by reflexivity.
  pose proof (exp_pos (- y * f)). auto_derive; [lra|].
  transitivity (y * y * (exp (- y * f) / ((1 + exp (- y * f)) * (1 + exp (- y * f))))); [field; lra|rewrite Y; ring].
Qed.
Lemma log_positive y f : 0 < h_of log_loss y f.
Proof.
  destruct (log_loss_real y f) as (_ & _ & ->). pose proof (exp_pos (- y * f)).
  apply Rdiv_lt_0_compat; [assumption|]. apply Rmult_lt_0_compat; lra.
Qed.

Lemma mse_first y f : derivable_pt_lim (fun f => loss_of mse y f) f (- (2 * g_of mse y f)).
Proof.
  apply is_derive_Reals. apply (is_derive_ext (fun f => (y - f) * (y - f))); [reflexivity|].
  replace (- (2 * g_of mse y f)) with (- (2 * (y - f))) by reflexivity. auto_derive; [exact I|ring].
Qed.
Lemma mse_second y f : derivable_pt_lim (fun f => - (2 * g_of mse y f)) f (2 * h_of mse y f).
Proof.
  apply is_derive_Reals. apply (is_derive_ext (fun f => - (2 * (y - f)))); [reflexivity|].
  replace (2 * h_of mse y f) with 2 by (change (2 = 2 * 1); ring). auto_derive; [exact I|ring].
Qed.

(** A function with a quadratic remainder. *)
Lemma quadratic F x l M : (forall h, Rabs (F (x + h) - F x - l * h) <= M * (h * h)) -> derivable_pt_lim F x l.
Proof.
  intros H e He. assert (0 <= M).
  { pose proof (H 1). pose proof (Rabs_pos (F (x + 1) - F x - l * 1)). lra. }
  assert (Hd : 0 < e / (M + 1)) by (apply Rdiv_lt_0_compat; lra). exists (mkposreal _ Hd). intros h Nh Lh. cbn in Lh.
  replace ((F (x + h) - F x) / h - l) with ((F (x + h) - F x - l * h) / h) by (field; exact Nh).
  unfold Rdiv. rewrite Rabs_mult, Rabs_inv. pose proof (Rabs_pos_lt h Nh) as Ph. pose proof (H h) as Hh.
  apply (Rmult_lt_reg_r (Rabs h)); [exact Ph|]. rewrite Rmult_assoc, Rinv_l, Rmult_1_r by lra.
  eapply Rle_lt_trans; [exact Hh|]. replace (h * h) with (Rabs h * Rabs h) by (rewrite <- Rabs_mult; apply Rabs_pos_eq; nra).
  rewrite <- Rmult_assoc. apply Rmult_lt_compat_r; [exact Ph|].
  assert (Rabs h * (M + 1) < e) by (apply (Rmult_lt_reg_r (/ (M + 1))); [apply Rinv_0_lt_compat; lra|rewrite Rmult_assoc, Rinv_r, Rmult_1_r by lra; exact Lh]).
  nra.
Qed.

Lemma hinge_real y f : (loss_of huberized_hinge y f, g_of huberized_hinge y f, h_of huberized_hinge y f) =
  if Rle_dec 1 (y * f) then (0, 0, 0)
  else if Rle_dec 0 (y * f) then (1 / 2 * (1 - y * f) * (1 - y * f), (1 - y * f) * y, 1)
  else (1 / 2 - y * f, y, 0).
Proof.
  unfold loss_of, g_of, h_of, huberized_hinge, n1, n0. cbn [nleb Exact nmul]. unfold Rleb. cbn [nZ Exact].
  destruct (Rle_dec 1 (y * f)); [reflexivity|]. destruct (Rle_dec 0 (y * f)); reflexivity.
Qed.
Lemma hinge_loss y f : loss_of huberized_hinge y f =
  if Rle_dec 1 (y * f) then 0 else if Rle_dec 0 (y * f) then 1 / 2 * (1 - y * f) * (1 - y * f) else 1 / 2 - y * f.
Proof. pose proof (hinge_real y f) as H. destruct (Rle_dec 1 (y * f)); [|destruct (Rle_dec 0 (y * f))]; congruence. Qed.
Lemma hinge_g y f : g_of huberized_hinge y f =
  if Rle_dec 1 (y * f) then 0 else if Rle_dec 0 (y * f) then (1 - y * f) * y else y.
Proof. pose proof (hinge_real y f) as H. destruct (Rle_dec 1 (y * f)); [|destruct (Rle_dec 0 (y * f))]; congruence. Qed.
Lemma hinge_h y f : h_of huberized_hinge y f = if Rle_dec 1 (y * f) then 0 else if Rle_dec 0 (y * f) then 1 else 0.
Proof. pose proof (hinge_real y f) as H. destruct (Rle_dec 1 (y * f)); [|destruct (Rle_dec 0 (y * f))]; congruence. Qed.

Lemma hinge_first y f : derivable_pt_lim (fun f => loss_of huberized_hinge y f) f (- g_of huberized_hinge y f).
Proof.
  apply (quadratic _ _ _ (y * y)). intros h. rewrite !hinge_loss, hinge_g.
  replace (y * (f + h)) with (y * f + y * h) by ring. set (e := y * f). 
  assert (E : forall a b, Rabs (a - b - - (match Rle_dec 1 e with left _ => 0 | _ => match Rle_dec 0 e with left _ => (1 - e) * y | _ => y end end) * h) =
     Rabs (a - b + (match Rle_dec 1 e with left _ => 0 | _ => match Rle_dec 0 e with left _ => 1 - e | _ => 1 end end) * (y * h))).
  { intros a b. f_equal. destruct (Rle_dec 1 e); [|destruct (Rle_dec 0 e)]; ring. }
  rewrite E. clear E. replace (y * y * (h * h)) with ((y * h) * (y * h)) by ring. set (d := y * h). clearbody e d.
  apply Rabs_le. destruct (Rle_dec 1 e); [|destruct (Rle_dec 0 e)]; (destruct (Rle_dec 1 (e + d)); [|destruct (Rle_dec 0 (e + d))]); split; nra.
Qed.
Lemma hinge_second y f : y * y = 1 -> y * f <> 0 -> y * f <> 1 ->
  derivable_pt_lim (fun f => - g_of huberized_hinge y f) f (h_of huberized_hinge y f).
Proof.
  intros Y N0 N1. apply is_derive_Reals. rewrite hinge_h.
  assert (C : forall P : R -> Prop, (forall z, Rabs (z - f) < Rmin (Rabs (y * f)) (Rabs (y * f - 1)) -> P z) -> locally f P).
  { intros P H. assert (Hp : 0 < Rmin (Rabs (y * f)) (Rabs (y * f - 1))) by (apply Rmin_pos; apply Rabs_pos_lt; lra).
    exists (mkposreal _ Hp). intros z Hz. apply H. exact Hz. }
  assert (D : forall z, Rabs (z - f) < Rmin (Rabs (y * f)) (Rabs (y * f - 1)) -> Rabs (y * z - y * f) < Rabs (y * f) /\ Rabs (y * z - y * f) < Rabs (y * f - 1)).
  { intros z Hz. replace (y * z - y * f) with (y * (z - f)) by ring. rewrite Rabs_mult.
    assert (Rabs y = 1) as -> by (destruct (Rcase_abs y); [rewrite Rabs_left by lra|rewrite Rabs_right by lra]; nra).
    pose proof (Rmin_l (Rabs (y * f)) (Rabs (y * f - 1))). pose proof (Rmin_r (Rabs (y * f)) (Rabs (y * f - 1))). lra. }
  destruct (Rle_dec 1 (y * f)) as [H1|H1]; [|destruct (Rle_dec 0 (y * f)) as [H0|H0]].
  - apply (is_derive_ext_loc (fun _ => 0)); [|apply (is_derive_const (V := R_NormedModule))].
    apply C. intros z Hz. apply D in Hz. destruct Hz as [Z1 Z2]. rewrite (Rabs_right (y * f - 1)) in Z2 by lra.
    apply Rabs_def2 in Z2. rewrite hinge_g. destruct (Rle_dec 1 (y * z)); lra.
  - apply (is_derive_ext_loc (fun z => - ((1 - y * z) * y))).
    + apply C. intros z Hz. apply D in Hz. destruct Hz as [Z1 Z2]. rewrite (Rabs_left (y * f - 1)) in Z2 by lra.
      rewrite (Rabs_right (y * f)) in Z1 by lra.
      apply Rabs_def2 in Z2. apply Rabs_def2 in Z1. rewrite hinge_g. destruct (Rle_dec 1 (y * z)); [lra|]. destruct (Rle_dec 0 (y * z)); lra.
    + auto_derive; [exact I|]. lra.
  - apply (is_derive_ext_loc (fun _ => - y)); [|apply (is_derive_const (V := R_NormedModule))].
    apply C. intros z Hz. apply D in Hz. destruct Hz as [Z1 Z2]. rewrite (Rabs_left (y * f)) in Z1 by lra.
    apply Rabs_def2 in Z1. rewrite hinge_g. destruct (Rle_dec 1 (y * z)); [lra|]. destruct (Rle_dec 0 (y * z)); lra.
Qed.
Lemma hinge_positive y f : 0 <= h_of huberized_hinge y f.
Proof. rewrite hinge_h. destruct (Rle_dec 1 (y * f)); [|destruct (Rle_dec 0 (y * f))]; lra. Qed.

Lemma square_real y f : (loss_of squared_hinge y f, g_of squared_hinge y f, h_of squared_hinge y f) =
  if Rlt_dec 0 ((y - f) * y) then ((y - f) * (y - f), y - f, 1) else (0, 0, 0).
Proof.
  unfold loss_of, g_of, h_of, squared_hinge, n1, n0. cbn [nltb Exact nmul nsub]. unfold Rltb. cbn [nZ Exact]. destruct (Rlt_dec 0 ((y - f) * y)); reflexivity.
Qed.
Lemma square_loss y f : loss_of squared_hinge y f = if Rlt_dec 0 ((y - f) * y) then (y - f) * (y - f) else 0.
Proof. pose proof (square_real y f) as H. destruct (Rlt_dec 0 ((y - f) * y)); congruence. Qed.
Lemma square_g y f : g_of squared_hinge y f = if Rlt_dec 0 ((y - f) * y) then y - f else 0.
Proof. pose proof (square_real y f) as H. destruct (Rlt_dec 0 ((y - f) * y)); congruence. Qed.
Lemma square_h y f : h_of squared_hinge y f = if Rlt_dec 0 ((y - f) * y) then 1 else 0.
Proof. pose proof (square_real y f) as H. destruct (Rlt_dec 0 ((y - f) * y)); congruence. Qed.

Lemma square_first y f : derivable_pt_lim (fun f => loss_of squared_hinge y f) f (- (2 * g_of squared_hinge y f)).
Proof.
  apply (quadratic _ _ _ 1). intros h. rewrite !square_loss, square_g. replace (y - (f + h)) with (y - f - h) by ring.
  set (e := y - f). clearbody e. apply Rabs_le.
  assert (Sg : forall a, y <> 0 -> 0 <= (y * y) * a -> 0 <= a).
  { intros a Ny Ha. apply (Rmult_le_reg_l (y * y)); [nra|]. lra. }
  destruct (Rlt_dec 0 (e * y)) as [A|A], (Rlt_dec 0 ((e - h) * y)) as [B|B]; [split; nra| | |split; nra].
  - assert (Ny : y <> 0) by (intros ->; lra). assert (0 <= e * (h - e)) by (apply Sg; [exact Ny|]; nra). split; nra.
  - assert (Ny : y <> 0) by (intros ->; lra). assert (0 <= e * (2 * h - e)) by (apply Sg; [exact Ny|]; nra). split; nra.
Qed.
Lemma square_second y f : y <> f -> derivable_pt_lim (fun f => - (2 * g_of squared_hinge y f)) f (2 * h_of squared_hinge y f).
Proof.
  intros Ne. apply is_derive_Reals. rewrite square_h.
  assert (C : forall P : R -> Prop, (forall z, Rabs (z - f) < Rabs (y - f) -> P z) -> locally f P).
  { intros P H. assert (Hp : 0 < Rabs (y - f)) by (apply Rabs_pos_lt; lra).
    exists (mkposreal _ Hp). intros z Hz. apply H. exact Hz. }
  assert (D : forall z, Rabs (z - f) < Rabs (y - f) -> 0 < (y - z) * (y - f)).
  { intros z Hz. destruct (Rcase_abs (y - f)); [rewrite (Rabs_left (y - f)) in Hz by lra|rewrite (Rabs_right (y - f)) in Hz by lra]; apply Rabs_def2 in Hz; nra. }
  assert (E : forall z, Rabs (z - f) < Rabs (y - f) -> 0 < (y - z) * y <-> 0 < (y - f) * y).
  { assert (Q : forall a b, 0 < a * b -> 0 < a * y -> 0 < b * y).
    { intros a b Ab Ay. assert (0 < a * a) by (assert (a <> 0) by (intros ->; lra); nra). apply (Rmult_lt_reg_l (a * a)); [assumption|].
      replace (a * a * (b * y)) with ((a * b) * (a * y)) by ring. rewrite Rmult_0_r. apply Rmult_lt_0_compat; assumption. }
    intros z Hz. apply D in Hz. split; apply Q; [exact Hz|rewrite Rmult_comm; exact Hz]. }
  destruct (Rlt_dec 0 ((y - f) * y)) as [H|H].
  - apply (is_derive_ext_loc (fun z => - (2 * (y - z)))).
    + apply C. intros z Hz. rewrite square_g. destruct (Rlt_dec 0 ((y - z) * y)) as [_|X]; [reflexivity|]. destruct X. apply E; assumption.
    + auto_derive; [exact I|]. lra.
  - apply (is_derive_ext_loc (fun _ => 0)).
    + apply C. intros z Hz. rewrite square_g. destruct (Rlt_dec 0 ((y - z) * y)) as [X|_]; [|lra]. destruct H. apply (E z); assumption.
    + replace (2 * 0) with 0 by lra. apply (is_derive_const (V := R_NormedModule)).
Qed.
Lemma square_positive y f : 0 <= h_of squared_hinge y f.
Proof. rewrite square_h. destruct (Rlt_dec 0 ((y - f) * y)); lra. Qed.
