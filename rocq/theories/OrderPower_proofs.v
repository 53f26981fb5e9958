(** OrderPower_proofs.v - thresholds of columns multiplied by a power of two (property C82). *)
From Coq Require Import SpecFloat Reals Lra Lia ZArith Bool Psatz.
From Flocq Require Import Core IEEE754.BinarySingleNaN.
From Verif Require Import Base F32 F32_proofs Column ColumnSpec DataStore Num Split SplitSpec FloatReal_proofs Threshold_proofs Divide_proofs OrderSpec Order_proofs
  OrderBuckets_proofs.
Local Instance P32 : FLX.Prec_gt_0 24 := eq_refl.
Local Instance M32 : Prec_lt_emax 24 128 := eq_refl.
Local Instance P64 : FLX.Prec_gt_0 53 := eq_refl.
Local Instance M64 : Prec_lt_emax 53 1024 := eq_refl.
Local Instance V32 : Valid_exp fexp32 := fexp_correct 24 128 P32.
Local Instance V64 : Valid_exp fexp64 := fexp_correct 53 1024 P64.
Local Open Scope R_scope.

Lemma add_finite x y : f32valid x = true -> f32valid y = true -> finite x = true -> finite y = true ->
  Rabs (rnd32 (val x + val y)) < bpow radix2 128 -> finite (SFadd 24 128 x y) = true.
Proof.
  intros Vx Vy Fx Fy L. destruct (valid_B2SF 24 128 x Vx) as [X <-]. destruct (valid_B2SF 24 128 y Vy) as [Y <-].
  rewrite (add_equiv 24 128 P32 M32). rewrite !finite_B2SF in *. rewrite !val_B2SF in L.
  pose proof (Bplus_correct 24 128 P32 M32 mode_NE X Y Fx Fy) as H. rewrite Rlt_bool_true in H by exact L. apply H.
Qed.

(** The threshold between two limits, in any order, whose sum stays finite *)
Lemma middle_value x y : f32valid x = true -> f32valid y = true -> finite x = true -> finite y = true ->
  Rabs (rnd32 (val x + val y)) < bpow radix2 128 -> Rabs (rnd32 (rnd32 (val x + val y) / 2)) < bpow radix2 128 ->
  f32valid (middle x y) = true /\ finite (middle x y) = true /\ val (middle x y) = rnd32 (rnd32 (val x + val y) / 2).
Proof.
  intros Vx Vy Fx Fy B1 B2. pose proof (add_finite x y Vx Vy Fx Fy B1) as Fs.
  destruct (add_val 24 128 P32 M32 x y Vx Vy Fx Fy) as [Vs Es]. specialize (Es Fs).
  destruct (to_f64_val _ Vs Fs) as (Vd & Fd & Ed).
  assert (Vt : f64valid d_two = true) by (vm_compute; reflexivity).
  assert (T0 : val d_two <> 0) by (rewrite val_two; lra).
  destruct (div_val 53 1024 P64 M64 _ d_two Vd Vt T0 Fd) as [Vq Hq].
  rewrite val_two, Ed, Es in Hq.
  assert (Gq : rnd64 (rnd32 (val x + val y) / 2) = rnd32 (val x + val y) / 2).
  { apply round_generic; [typeclasses eauto|]. apply format_half. apply generic_format_round; typeclasses eauto. }
  rewrite Gq in Hq.
  destruct Hq as [Fq Eq].
  { assert (bpow radix2 128 <= bpow radix2 1024) by (apply bpow_le; lia).
    unfold Rdiv. rewrite Rabs_mult, (Rabs_pos_eq (/ 2)) by lra. pose proof (Rabs_pos (rnd32 (val x + val y))). lra. }
  unfold middle. destruct (to_f32_val _ Vq Fq) as (Vm & Hm & _). rewrite Eq in Hm. destruct (Hm B2) as [Fm Em]. auto.
Qed.

(** ** Rounding commutes with powers of two away from the smallest numbers *)
Lemma round_power e x : x = 0 \/ bpow radix2 (-126) <= Rabs x /\ bpow radix2 (-126) <= Rabs (x * bpow radix2 e) -> rnd32 (x * bpow radix2 e) = rnd32 x * bpow radix2 e.
Proof.
  intros [->|[A B]]; [rewrite Rmult_0_l, round_0 by typeclasses eauto; ring|].
  assert (X : x <> 0). { intros ->. rewrite Rabs_R0 in A. pose proof (bpow_gt_0 radix2 (-126)). lra. }
  pose proof (mag_ge_bpow radix2 x (-125) A) as M1. pose proof (mag_ge_bpow radix2 (x * bpow radix2 e) (-125) B) as M2.
  rewrite (mag_mult_bpow radix2 x e X) in M2.
  unfold round, scaled_mantissa, cexp. rewrite (mag_mult_bpow radix2 x e X). rewrite !fexp32_FLT. unfold FLT_exp.
  replace (Z.max (mag radix2 x + e - 24) (-149)) with (mag radix2 x + e - 24)%Z by lia.
  replace (Z.max (mag radix2 x - 24) (-149)) with (mag radix2 x - 24)%Z by lia.
  replace (x * bpow radix2 e * bpow radix2 (- (mag radix2 x + e - 24))) with (x * bpow radix2 (- (mag radix2 x - 24))).
  2: { rewrite Rmult_assoc, <- bpow_plus. do 2 f_equal. lia. }
  unfold F2R. cbn [Fnum Fexp]. rewrite Rmult_assoc, <- bpow_plus. do 2 f_equal. lia.
Qed.

(** Multiples of 2^-123 *)
Definition coarse (x : R) : Prop := exists z, x = IZR z * bpow radix2 (-123).
Lemma coarse_add x y : coarse x -> coarse y -> coarse (x + y).
Proof. intros [a ->] [b ->]. exists (a + b)%Z. rewrite plus_IZR. ring. Qed.
Lemma coarse_size x : coarse x -> x = 0 \/ bpow radix2 (-123) <= Rabs x.
Proof.
  intros [z ->]. destruct (Z.eq_dec z 0) as [->|N]; [left; ring|]. right. rewrite Rabs_mult, (Rabs_pos_eq (bpow radix2 (-123))) by apply bpow_ge_0.
  rewrite <- abs_IZR. rewrite <- (Rmult_1_l (bpow radix2 (-123))) at 1. apply Rmult_le_compat_r; [apply bpow_ge_0|]. apply IZR_le. lia.
Qed.
Lemma format_bpow32 e : (-149 <= e <= 127)%Z -> generic_format radix2 fexp32 (bpow radix2 e).
Proof. intros E. apply generic_format_bpow. rewrite fexp32_FLT. unfold FLT_exp. lia. Qed.
Lemma rnd32_abs_ge e x : (-149 <= e <= 127)%Z -> bpow radix2 e <= Rabs x -> bpow radix2 e <= Rabs (rnd32 x).
Proof. intros E L. apply abs_round_ge_generic; [typeclasses eauto|typeclasses eauto|apply format_bpow32; exact E|exact L]. Qed.
Lemma rnd32_abs_le e x : (-149 <= e <= 127)%Z -> Rabs x <= bpow radix2 e -> Rabs (rnd32 x) <= bpow radix2 e.
Proof. intros E L. apply abs_round_le_generic; [typeclasses eauto|typeclasses eauto|apply format_bpow32; exact E|exact L]. Qed.

(** ** The values *)
Section Power.
Variable e : Z.
Notation P := (bpow radix2 e).
Definition number (x : f32) : Prop := f32valid x = true /\ finite x = true /\ coarse (val x) /\ Rabs (val x) <= bpow radix2 100.
Lemma number_finite s m k : a_float (S754_finite s m k) -> (-123 <= k <= 76)%Z -> number (S754_finite s m k).
Proof.
  intros V K. split; [exact V|]. split; [reflexivity|]. split.
  - exists (cond_Zopp s (Z.pos m) * 2 ^ (k + 123))%Z. cbn [SF2R]. unfold F2R. cbn [Fnum Fexp]. rewrite mult_IZR, Rmult_assoc. f_equal.
    change 2%Z with (radix_val radix2). rewrite IZR_Zpower by lia. rewrite <- bpow_plus. f_equal. lia.
  - cbn [SF2R]. rewrite <- F2R_Zabs, abs_cond_Zopp. unfold F2R. cbn [Fnum Fexp Z.abs].
    assert (D : (Z.pos m < 2 ^ 24)%Z).
    { unfold a_float, valid_binary, bounded in V. apply andb_true_iff in V as [V _]. unfold canonical_mantissa in V. apply Zeq_bool_eq in V.
      rewrite fexp32_FLT in V. unfold FLT_exp in V. rewrite Digits.Zpos_digits2_pos in V. 
      apply (Zpower_gt_Zdigits radix2 24 (Z.pos m)). lia. }
    apply Rle_trans with (bpow radix2 24 * bpow radix2 k).
    + apply Rmult_le_compat_r; [apply bpow_ge_0|]. change (bpow radix2 24) with (IZR (2 ^ 24)). apply IZR_le. lia.
    + rewrite <- bpow_plus. apply bpow_le. lia.
Qed.
Lemma number_zero s : number (S754_zero s).
Proof. split; [reflexivity|]. split; [reflexivity|]. split; [exists 0%Z; cbn [SF2R]; ring|]. cbn [SF2R]. rewrite Rabs_R0. apply bpow_ge_0. Qed.
Lemma times_number x y : times_power e x y -> is_nan x = false -> number x /\ number y /\ val y = val x * P.
Proof.
  destruct x as [s|s| |s m k]; cbn [times_power]; try contradiction; try discriminate.
  - intros -> _. split; [apply number_zero|]. split; [apply number_zero|]. cbn [SF2R]. ring.
  - intros (-> & V & V' & K & K') _. split; [apply number_finite; assumption|]. split; [apply number_finite; assumption|].
    cbn [SF2R]. unfold F2R. cbn [Fnum Fexp]. rewrite bpow_plus. ring.
Qed.

Lemma sum_small x y : number x -> number y -> Rabs (rnd32 (val x + val y)) <= bpow radix2 101 /\ Rabs (rnd32 (rnd32 (val x + val y) / 2)) <= bpow radix2 100.
Proof.
  intros (_ & _ & _ & A) (_ & _ & _ & B).
  assert (S : Rabs (rnd32 (val x + val y)) <= bpow radix2 101).
  { apply rnd32_abs_le; [lia|]. eapply Rle_trans; [apply Rabs_triang|]. change 101%Z with (100 + 1)%Z. rewrite bpow_plus. change (bpow radix2 1) with 2. lra. }
  split; [exact S|]. apply rnd32_abs_le; [lia|]. unfold Rdiv. rewrite Rabs_mult, (Rabs_pos_eq (/ 2)) by lra. change 101%Z with (100 + 1)%Z in S. rewrite bpow_plus in S.
  change (bpow radix2 1) with 2 in S. lra.
Qed.
Lemma middle_number x y : number x -> number y -> f32valid (middle x y) = true /\ finite (middle x y) = true /\
  val (middle x y) = rnd32 (rnd32 (val x + val y) / 2) /\ Rabs (val (middle x y)) <= bpow radix2 100.
Proof.
  intros X Y. destruct (sum_small x y X Y) as [A B]. pose proof X as (Vx & Fx & _). pose proof Y as (Vy & Fy & _).
  destruct (middle_value x y Vx Vy Fx Fy) as (V & F & E).
  - eapply Rle_lt_trans; [exact A|]. apply bpow_lt. lia.
  - eapply Rle_lt_trans; [exact B|]. apply bpow_lt. lia.
  - rewrite E at 2. auto.
Qed.
Lemma middle_power x y x' y' : number x -> number y -> number x' -> number y' -> val x' = val x * P -> val y' = val y * P ->
  val (middle x' y') = val (middle x y) * P.
Proof.
  intros X Y X' Y' Ex Ey. destruct (middle_number x y X Y) as (_ & _ & E & _). destruct (middle_number x' y' X' Y') as (_ & _ & E' & _). rewrite E, E', Ex, Ey.
  rewrite <- Rmult_plus_distr_r.
  pose proof (coarse_size _ (coarse_add _ _ (proj1 (proj2 (proj2 X))) (proj1 (proj2 (proj2 Y))))) as C.
  pose proof (coarse_size _ (coarse_add _ _ (proj1 (proj2 (proj2 X'))) (proj1 (proj2 (proj2 Y'))))) as C'.
  rewrite Ex, Ey, <- Rmult_plus_distr_r in C'. set (s := val x + val y) in *.
  destruct C as [C|C].
  { rewrite C, Rmult_0_l, !round_0 by typeclasses eauto. unfold Rdiv. rewrite Rmult_0_l, round_0 by typeclasses eauto. ring. }
  destruct C' as [C'|C'].
  { exfalso. apply Rmult_integral in C'. destruct C' as [C'|C']; [rewrite C', Rabs_R0 in C; pose proof (bpow_gt_0 radix2 (-123)); lra|]. pose proof (bpow_gt_0 radix2 e). lra. }
  assert (L : bpow radix2 (-126) <= bpow radix2 (-123)) by (apply bpow_le; lia).
  assert (R1 : rnd32 (s * P) = rnd32 s * P) by (apply round_power; right; split; lra).
  pose proof (rnd32_abs_ge (-123) s ltac:(lia) C) as D. pose proof (rnd32_abs_ge (-123) (s * P) ltac:(lia) C') as D'. rewrite R1 in D'.
  rewrite R1. replace (rnd32 s * P / 2) with (rnd32 s / 2 * P) by field. apply round_power. right.
  assert (L2 : bpow radix2 (-126) <= bpow radix2 (-123) / 2).
  { change (-123)%Z with (-124 + 1)%Z. rewrite bpow_plus. change (bpow radix2 1) with 2. assert (bpow radix2 (-126) <= bpow radix2 (-124)) by (apply bpow_le; lia). lra. }
  unfold Rdiv. replace (rnd32 s * / 2 * P) with (rnd32 s * P * / 2) by ring. rewrite !(Rabs_mult _ (/ 2)), (Rabs_pos_eq (/ 2)) by lra. lra.
Qed.

(** ** The largest float *)
Lemma max_valid : f32valid flt_max = true /\ finite flt_max = true.
Proof. split; vm_compute; reflexivity. Qed.
Lemma max_val : val flt_max = bpow radix2 128 - bpow radix2 104.
Proof.
  unfold flt_max. cbn [SF2R cond_Zopp]. unfold F2R. cbn [Fnum Fexp]. change 128%Z with (24 + 104)%Z. rewrite bpow_plus.
  change (bpow radix2 24) with (IZR (2 ^ 24)). replace (2 ^ 24)%Z with 16777216%Z by reflexivity. lra.
Qed.
Lemma powers : bpow radix2 128 = 2 * bpow radix2 127 /\ bpow radix2 127 = 2 * bpow radix2 126 /\ 4 * bpow radix2 104 <= bpow radix2 126 /\ 4 * bpow radix2 100 <= bpow radix2 104 /\ 0 < bpow radix2 100.
Proof.
  assert (S : forall k, bpow radix2 (k + 1) = 2 * bpow radix2 k) by (intros k; rewrite bpow_plus; change (bpow radix2 1) with 2; ring).
  pose proof (S 127%Z) as A0. pose proof (S 126%Z) as B0. pose proof (S 104%Z) as A. pose proof (S 105%Z) as B. pose proof (S 100%Z) as C. pose proof (S 101%Z) as D.
  change (127 + 1)%Z with 128%Z in A0. change (126 + 1)%Z with 127%Z in B0. change (104 + 1)%Z with 105%Z in A. change (105 + 1)%Z with 106%Z in B.
  change (100 + 1)%Z with 101%Z in C. change (101 + 1)%Z with 102%Z in D.
  assert (bpow radix2 106 <= bpow radix2 126) by (apply bpow_le; lia). assert (bpow radix2 102 <= bpow radix2 104) by (apply bpow_le; lia).
  pose proof (bpow_gt_0 radix2 100). clear S. repeat split; lra.
Qed.
Lemma sum_max x : Rabs x <= bpow radix2 100 -> bpow radix2 127 <= rnd32 (x + val flt_max) <= val flt_max.
Proof.
  intros X. pose proof powers as (A & B & C & D & E). apply Rabs_le_inv in X.
  assert (G : generic_format radix2 fexp32 (val flt_max)) by (apply (val_format 24 128); apply max_valid). split.
  - rewrite <- (rnd32_id (bpow radix2 127)) by (apply format_bpow32; lia). apply rnd32_le. rewrite max_val. lra.
  - apply (round_N_le_midp radix2 fexp32 (fun x => negb (Z.even x))); [exact G|].
    assert (U : Ulp.succ radix2 fexp32 (val flt_max) = val flt_max + bpow radix2 104).
    { rewrite succ_eq_pos by (rewrite max_val; lra). f_equal. rewrite ulp_neq_0 by (rewrite max_val; lra). f_equal. unfold cexp.
      rewrite (mag_unique_pos radix2 (val flt_max) 128); [reflexivity|]. rewrite max_val. change (128 - 1)%Z with 127%Z. lra. }
    rewrite U. lra.
Qed.
Lemma middle_max x : number x -> (f32valid (middle x flt_max) = true /\ finite (middle x flt_max) = true /\ bpow radix2 126 <= val (middle x flt_max) <= bpow radix2 127) /\
  (f32valid (middle flt_max x) = true /\ finite (middle flt_max x) = true /\ bpow radix2 126 <= val (middle flt_max x) <= bpow radix2 127).
Proof.
  intros (V & F & _ & B). destruct max_valid as [Vm Fm]. pose proof (sum_max (val x) B) as S. pose proof powers as (A1 & A2 & A3 & A4 & A5). pose proof max_val as Em.
  assert (H : bpow radix2 126 <= rnd32 (rnd32 (val x + val flt_max) / 2) <= bpow radix2 127).
  { rewrite <- (rnd32_id (bpow radix2 126)), <- (rnd32_id (bpow radix2 127)) by (apply format_bpow32; lia). split; apply rnd32_le; lra. }
  assert (K1 : Rabs (rnd32 (val x + val flt_max)) < bpow radix2 128) by (apply Rabs_lt; lra).
  assert (K2 : Rabs (rnd32 (rnd32 (val x + val flt_max) / 2)) < bpow radix2 128) by (apply Rabs_lt; lra).
  split.
  - destruct (middle_value x flt_max V Vm F Fm K1 K2) as (Q1 & Q2 & Q3). rewrite Q3. auto.
  - assert (Ec : val x + val flt_max = val flt_max + val x) by ring. rewrite Ec in K1, K2, H.
    destruct (middle_value flt_max x Vm V Fm F K1 K2) as (Q1 & Q2 & Q3). rewrite Q3. auto.
Qed.

(** ** Related values *)
Definition prl (x y : f32) : Prop := times_power e x y \/ (x = flt_max /\ y = flt_max).
Lemma prl_kinds x y : prl x y -> (x = fnan /\ y = fnan) \/ (number x /\ number y /\ val y = val x * P) \/ (x = flt_max /\ y = flt_max).
Proof.
  intros [T|M]; [|auto]. destruct (is_nan x) eqn:En; [|right; left; apply times_number; assumption]. left. destruct x; try discriminate. cbn in T. auto.
Qed.
Lemma bool_iff a b : (a = true <-> b = true) -> a = b.
Proof. destruct a, b; intros H; try reflexivity; [symmetry; apply H; reflexivity|apply H; reflexivity]. Qed.
Lemma fltb_number x y : f32valid x = true -> finite x = true -> f32valid y = true -> finite y = true -> (fltb x y = true <-> val x < val y).
Proof. intros A B C D. apply fltb_val; assumption. Qed.
Lemma scaled_lt a b : a < b <-> a * P < b * P.
Proof. pose proof (bpow_gt_0 radix2 e) as H. split; [intros L; apply Rmult_lt_compat_r; assumption|apply Rmult_lt_reg_r; exact H]. Qed.
Lemma number_below x y : number x -> f32valid y = true -> finite y = true -> bpow radix2 126 <= val y -> fltb x y = true /\ fltb y x = false.
Proof.
  intros (V & F & _ & B) Vy Fy L. pose proof powers as (A1 & A2 & A3 & A4 & A5). apply Rabs_le_inv in B. split; [apply fltb_val; try assumption; lra|].
  destruct (fltb y x) eqn:E; [|reflexivity]. apply fltb_val in E; try assumption. exfalso. lra.
Qed.
Lemma max_big : bpow radix2 126 <= val flt_max.
Proof. rewrite max_val. pose proof powers. lra. Qed.
Lemma prl_lt x x' y y' : prl x x' -> prl y y' -> fltb x y = fltb x' y'.
Proof.
  destruct max_valid as [Vm Fm]. pose proof max_big as Mb.
  intros X Y. destruct (prl_kinds x x' X) as [[-> ->]|[(X1 & X2 & X3)|[-> ->]]].
  - destruct y, y'; reflexivity.
  - destruct (prl_kinds y y' Y) as [[-> ->]|[(Y1 & Y2 & Y3)|[-> ->]]].
    + destruct x, x'; reflexivity.
    + apply bool_iff. destruct X1 as (A1 & A2 & _), X2 as (B1 & B2 & _), Y1 as (C1 & C2 & _), Y2 as (D1 & D2 & _).
      rewrite !fltb_val by assumption. rewrite X3, Y3. apply scaled_lt.
    + rewrite (proj1 (number_below x flt_max X1 Vm Fm Mb)), (proj1 (number_below x' flt_max X2 Vm Fm Mb)). reflexivity.
  - destruct (prl_kinds y y' Y) as [[-> ->]|[(Y1 & Y2 & Y3)|[-> ->]]]; try reflexivity.
    rewrite (proj2 (number_below y flt_max Y1 Vm Fm Mb)), (proj2 (number_below y' flt_max Y2 Vm Fm Mb)). reflexivity.
Qed.
Lemma prl_nan x y : prl x y -> is_nan x = is_nan y.
Proof.
  intros H. destruct (prl_kinds x y H) as [[-> ->]|[((_ & F & _) & (_ & F' & _) & _)|[-> ->]]]; try reflexivity. destruct x, y; try discriminate; reflexivity.
Qed.
Lemma max_max : middle flt_max flt_max = S754_infinity false.
Proof. vm_compute. reflexivity. Qed.
Lemma below_infinity x : number x -> fltb x (S754_infinity false) = true.
Proof. intros (_ & F & _). destruct x as [|[]| |[]]; try discriminate; reflexivity. Qed.
Lemma middle_nan x : middle x fnan = fnan.
Proof. destruct x; reflexivity. Qed.
Lemma fltb_nan_r x : fltb x fnan = false.
Proof. destruct x; reflexivity. Qed.

(** Thresholds route alike *)
Lemma middle_routes x x' y y' z z' : prl x x' -> prl y y' -> prl z z' -> is_nan x = false -> fltb z (middle x y) = fltb z' (middle x' y').
Proof.
  destruct max_valid as [Vm Fm]. pose proof powers as (A1 & A2 & A3 & A4 & A5). pose proof max_val as Em.
  intros X Y Z Nx. destruct (prl_kinds z z' Z) as [[-> ->]|Zk]; [destruct (middle x y), (middle x' y'); reflexivity|].
  destruct (prl_kinds x x' X) as [[-> ->]|[(X1 & X2 & X3)|[-> ->]]]; [discriminate| |].
  - destruct (prl_kinds y y' Y) as [[-> ->]|[(Y1 & Y2 & Y3)|[-> ->]]].
    + rewrite !middle_nan, !fltb_nan_r. reflexivity.
    + destruct (middle_number x y X1 Y1) as (M1 & M2 & M3 & M4). destruct (middle_number x' y' X2 Y2) as (M1' & M2' & M3' & M4').
      destruct Zk as [((Z1 & Z2 & _) & (Z1' & Z2' & _) & Ez)|[-> ->]].
      * apply bool_iff. rewrite !fltb_val by assumption. rewrite Ez, (middle_power x y x' y') by assumption. apply scaled_lt.
      * apply Rabs_le_inv in M4, M4'. destruct (fltb flt_max (middle x y)) eqn:E; [apply fltb_val in E; try assumption; exfalso; lra|].
        destruct (fltb flt_max (middle x' y')) eqn:E'; [apply fltb_val in E'; try assumption; exfalso; lra|reflexivity].
    + destruct (proj1 (middle_max x X1)) as (M1 & M2 & M3). destruct (proj1 (middle_max x' X2)) as (M1' & M2' & M3').
      destruct Zk as [(Z1 & Z2 & _)|[-> ->]].
      * rewrite (proj1 (number_below z _ Z1 M1 M2 (proj1 M3))), (proj1 (number_below z' _ Z2 M1' M2' (proj1 M3'))). reflexivity.
      * destruct (fltb flt_max (middle x flt_max)) eqn:E; [apply fltb_val in E; try assumption; exfalso; lra|].
        destruct (fltb flt_max (middle x' flt_max)) eqn:E'; [apply fltb_val in E'; try assumption; exfalso; lra|reflexivity].
  - destruct (prl_kinds y y' Y) as [[-> ->]|[(Y1 & Y2 & Y3)|[-> ->]]].
    + rewrite !middle_nan, !fltb_nan_r. reflexivity.
    + destruct (proj2 (middle_max y Y1)) as (M1 & M2 & M3). destruct (proj2 (middle_max y' Y2)) as (M1' & M2' & M3').
      destruct Zk as [(Z1 & Z2 & _)|[-> ->]].
      * rewrite (proj1 (number_below z _ Z1 M1 M2 (proj1 M3))), (proj1 (number_below z' _ Z2 M1' M2' (proj1 M3'))). reflexivity.
      * destruct (fltb flt_max (middle flt_max y)) eqn:E; [apply fltb_val in E; try assumption; exfalso; lra|].
        destruct (fltb flt_max (middle flt_max y')) eqn:E'; [apply fltb_val in E'; try assumption; exfalso; lra|reflexivity].
    + rewrite max_max. destruct Zk as [(Z1 & Z2 & _)|[-> ->]]; [rewrite !below_infinity by assumption|]; reflexivity.
Qed.

Lemma times_float x y : times_power e x y -> a_float x /\ a_float y /\ (is_nan x = false -> fleb x flt_max = true /\ fleb y flt_max = true).
Proof.
  intros T. destruct (is_nan x) eqn:En.
  - destruct x; try discriminate. cbn in T. subst y. repeat split; discriminate.
  - destruct (times_number x y T En) as ((V & F & _ & B) & (V' & F' & _ & B') & _). destruct max_valid as [Vm Fm]. pose proof max_big as Mb. pose proof powers as (A1 & A2 & A3 & A4 & A5).
    apply Rabs_le_inv in B, B'. split; [exact V|]. split; [exact V'|]. intros _. split; apply fleb_val; try assumption; lra.
Qed.
Local Close Scope R_scope.

Lemma power_like nb blocks blocks' b b' : limit_ok nb -> (zlen (concat blocks) < 4294967294)%Z -> b_load nb blocks = Ret b -> b_load nb blocks' = Ret b' ->
  Forall2 (Forall2 (times_power e)) blocks blocks' -> blike b b' /\ b_status b' = b_status b.
Proof.
  intros L Zl E E' F.
  assert (F2 : Forall2 (Forall2 prl) blocks blocks').
  { clear -F. induction F as [|l l' bs bs' H F IH]; constructor; [|exact IH]. clear -H. induction H; constructor; [left; assumption|assumption]. }
  pose proof (load_brel prl prl_lt prl_nan (or_introl eq_refl) (or_intror (conj eq_refl eq_refl)) nb blocks blocks' F2) as H. rewrite E, E' in H. cbn in H.
  destruct H as [Hs Hi Hn Hb Hm Hx Hy]. split; [|symmetry; exact Hs].
  assert (Fv : forall v, In v (concat blocks) -> a_float v /\ (is_nan v = false -> fleb v flt_max = true)).
  { clear -F. induction F as [|l l' bs bs' H F IH]; cbn; [contradiction|]. intros v Hv. apply in_app_iff in Hv as [Hv|Hv]; [|exact (IH v Hv)].
    clear -H Hv. induction H as [|x y l l' T H IH]; [contradiction|]. destruct Hv as [<-|Hv]; [|exact (IH Hv)]. destruct (times_float _ _ T) as (A & _ & B). split; [exact A|]. apply B. }
  assert (Fv' : forall v, In v (concat blocks') -> a_float v /\ (is_nan v = false -> fleb v flt_max = true)).
  { clear -F. induction F as [|l l' bs bs' H F IH]; cbn; [contradiction|]. intros v Hv. apply in_app_iff in Hv as [Hv|Hv]; [|exact (IH v Hv)].
    clear -H Hv. induction H as [|x y l l' T H IH]; [contradiction|]. destruct Hv as [<-|Hv]; [|exact (IH Hv)]. destruct (times_float _ _ T) as (_ & A & B). split; [exact A|].
    intros N. apply B. rewrite <- N. apply prl_nan. left. exact T. }
  assert (Zl' : zlen (concat blocks') = zlen (concat blocks)).
  { clear -F. unfold zlen. f_equal. induction F as [|l l' bs bs' H F IH]; cbn; [reflexivity|]. rewrite !app_length, IH, (Forall2_length _ _ _ H). reflexivity. }
  split; [symmetry; exact Hi|]. split; [unfold b_max_int; rewrite (zlen_rel _ _ _ Hx); reflexivity|].
  intros lv rv Lr. unfold cut, b_bucket_max, b_bucket_min. rewrite !Nat2Z.id.
  apply (rrel_bind _ _ _ _ _ _ (vget_rel prl _ _ lv Hx)). intros x x' X. apply (rrel_bind _ _ _ _ _ _ (vget_rel prl _ _ rv Hy)). intros y y' Y.
  assert (Row : forall t t', (forall k z z', 1 <= k -> nth_error (b_maxs b) k = Some z -> nth_error (b_maxs b') k = Some z' -> fltb z t = fltb z' t') ->
    thresholds_like b b' t t').
  { intros t t' K r. unfold b_row_max, b_bucket. rewrite <- Hi. destruct (icol_get (b_ints b) r) as [k| |]; [|reflexivity..]. cbn [bind]. unfold b_bucket_max, vget.
    pose proof (Forall2_nth _ _ _ Hx (Z.to_nat k)) as Hk. destruct (nth_error (b_maxs b) (Z.to_nat k)) as [z|] eqn:Ez, (nth_error (b_maxs b') (Z.to_nat k)) as [z'|] eqn:Ez'; try contradiction; [|reflexivity].
    cbn [bind]. f_equal. destruct (Z.to_nat k) as [|k0] eqn:Ek; [|apply (K (S k0) z z'); [lia|assumption..]].
    destruct (maxs_sorted nb blocks b L Zl E (fun v Hv Nv => proj2 (Fv v Hv) Nv)) as (ms & Em & _). rewrite Em in Ez. injection Ez as <-.
    destruct (prl_kinds _ _ Hk) as [[_ ->]|[((_ & Hf & _) & _)|[Hf _]]]; [destruct t, t'; reflexivity|discriminate..]. }
  rewrite <- (prl_nan x x' X). destruct (is_nan x) eqn:Nx.
  - pose proof (vget_rel prl _ _ (Z.to_nat 1) Hy) as V1. destruct (vget (b_mins b) (Z.to_nat 1)) as [m| |] eqn:Em, (vget (b_mins b') (Z.to_nat 1)) as [m'| |] eqn:Em'; try contradiction; [|exact I..].
    cbn [rrel bind]. apply Row. intros k z z' K Ez Ez'.
    assert (Z1 : fltb z (below m) = false).
    { apply (below_divides nb blocks b L Zl E (fun v Hv Nv => proj2 (Fv v Hv) Nv) (fun v Hv => proj1 (Fv v Hv)) (fun _ => True) 1 m m (le_n 1) Em Em k z K I); [|exact K].
      unfold b_bucket_max, vget. rewrite Nat2Z.id, Ez. reflexivity. }
    assert (Z2 : fltb z' (below m') = false).
    { apply (below_divides nb blocks' b' L ltac:(rewrite Zl'; exact Zl) E' (fun v Hv Nv => proj2 (Fv' v Hv) Nv) (fun v Hv => proj1 (Fv' v Hv)) (fun _ => True) 1 m' m' (le_n 1) Em' Em' k z' K I); [|exact K].
      unfold b_bucket_max, vget. rewrite Nat2Z.id, Ez'. reflexivity. }
    rewrite Z1, Z2. reflexivity.
  - cbn [rrel]. apply Row. intros k z z' K Ez Ez'. apply middle_routes; try assumption. pose proof (Forall2_nth _ _ _ Hx k) as Hk. rewrite Ez, Ez' in Hk. exact Hk.
Qed.
End Power.
