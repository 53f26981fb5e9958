(** Threshold_proofs.v - where the stored threshold of a numeric split lies. *)
From Coq Require Import SpecFloat Reals Lra Lia ZArith Bool Psatz.
From Flocq Require Import Core IEEE754.BinarySingleNaN.
From Verif Require Import Base F32 Num Split FloatReal_proofs.

Local Instance P32 : FLX.Prec_gt_0 24 := eq_refl.
Local Instance M32 : Prec_lt_emax 24 128 := eq_refl.
Local Instance P64 : FLX.Prec_gt_0 53 := eq_refl.
Local Instance M64 : Prec_lt_emax 53 1024 := eq_refl.

Notation val := (SF2R radix2).
Notation f32valid := (valid_binary 24 128).
Notation f64valid := (valid_binary 53 1024).
Notation fexp32 := (SpecFloat.fexp 24 128).
Notation fexp64 := (SpecFloat.fexp 53 1024).
Notation rnd32 := (round radix2 fexp32 (round_mode mode_NE)).
Notation rnd64 := (round radix2 fexp64 (round_mode mode_NE)).
Local Open Scope R_scope.

Lemma fexp32_FLT e : fexp32 e = FLT_exp (-149) 24 e.
Proof. reflexivity. Qed.
Lemma fexp64_FLT e : fexp64 e = FLT_exp (-1074) 53 e.
Proof. reflexivity. Qed.

Local Instance V32 : Valid_exp fexp32 := fexp_correct 24 128 P32.
Local Instance V64 : Valid_exp fexp64 := fexp_correct 53 1024 P64.

Lemma format_32_64 x : generic_format radix2 fexp32 x -> generic_format radix2 fexp64 x.
Proof.
  apply generic_inclusion_mag. intros _. rewrite fexp32_FLT, fexp64_FLT. unfold FLT_exp. lia.
Qed.

Lemma format_half x : generic_format radix2 fexp32 x -> generic_format radix2 fexp64 (x / 2).
Proof.
  intros F. apply (FLT_format_generic radix2 (-149) 24) in F. destruct F as [[m e] E Hm He]. cbn [Fnum Fexp] in *.
  apply (generic_format_FLT radix2 (-1074) 53). exists (Float radix2 m (e - 1)); cbn [Fnum Fexp].
  - rewrite E. unfold F2R. cbn [Fnum Fexp]. unfold Zminus. rewrite bpow_plus. change (bpow radix2 (-(1))) with (/ 2). field.
  - assert (radix2 ^ 24 <= radix2 ^ 53)%Z by (vm_compute; discriminate). lia.
  - lia.
Qed.

Lemma format_double x : generic_format radix2 fexp32 x -> generic_format radix2 fexp32 (2 * x).
Proof.
  intros F. apply (FLT_format_generic radix2 (-149) 24) in F. destruct F as [[m e] E Hm He]. cbn [Fnum Fexp] in *.
  apply (generic_format_FLT radix2 (-149) 24). exists (Float radix2 m (e + 1)); cbn [Fnum Fexp]; [|exact Hm|lia].
  rewrite E. unfold F2R. cbn [Fnum Fexp]. rewrite bpow_plus. change (bpow radix2 1) with 2. ring.
Qed.

Lemma to_f64_val v : f32valid v = true -> finite v = true ->
  f64valid (to_f64 v) = true /\ finite (to_f64 v) = true /\ val (to_f64 v) = val v.
Proof.
  intros V F. destruct v as [s|s| |s m e]; try discriminate; [auto|]. unfold to_f64, to_format.
  destruct (normalize_val 53 1024 P64 M64 (cond_Zopp s (Z.pos m)) e s) as (H1 & H2 & _).
  assert (G : generic_format radix2 fexp64 (val (S754_finite s m e))) by (apply format_32_64, (val_format 24 128); exact V).
  assert (B : Rabs (val (S754_finite s m e)) < bpow radix2 1024).
  { eapply Rlt_trans; [apply (val_bound 24 128 _ V)|]. apply bpow_lt. lia. }
  cbn [SF2R] in G, B |- *. rewrite round_generic in H2; [|typeclasses eauto|exact G]. destruct (H2 B) as [H3 H4]. auto.
Qed.

Lemma to_f32_val v : f64valid v = true -> finite v = true ->
  f32valid (to_f32 v) = true /\
  (Rabs (rnd32 (val v)) < bpow radix2 128 -> finite (to_f32 v) = true /\ val (to_f32 v) = rnd32 (val v)) /\
  (finite (to_f32 v) = false -> bpow radix2 128 <= Rabs (rnd32 (val v)) /\ to_f32 v = S754_infinity (Rlt_bool (val v) 0)).
Proof.
  intros V F. destruct v as [s|s| |s m e]; try discriminate.
  - split; [reflexivity|]. split; [|discriminate]. intros _. split; [reflexivity|]. cbn. rewrite round_0; [reflexivity|typeclasses eauto].
  - unfold to_f32, to_format. exact (normalize_val 24 128 P32 M32 (cond_Zopp s (Z.pos m)) e s).
Qed.

Lemma val_two : val d_two = 2.
Proof. replace d_two with (S754_finite false 4503599627370496 (-51)) by (vm_compute; reflexivity). cbn [SF2R cond_Zopp]. unfold F2R. cbn [Fnum Fexp].
  change (bpow radix2 (-51)) with (/ IZR (2 ^ 51)). replace (2 ^ 51)%Z with 2251799813685248%Z by (vm_compute; reflexivity). lra. Qed.

Lemma fltb_val l r : f32valid l = true -> f32valid r = true -> finite l = true -> finite r = true ->
  fltb l r = true <-> val l < val r.
Proof.
  intros Vl Vr Fl Fr. unfold fltb. rewrite (compare_val 24 128) by assumption.
  destruct (Rcompare_spec (val l) (val r)); split; intros; try discriminate; try lra; reflexivity.
Qed.
Lemma fleb_val l r : f32valid l = true -> f32valid r = true -> finite l = true -> finite r = true ->
  fleb l r = true <-> val l <= val r.
Proof.
  intros Vl Vr Fl Fr. unfold fleb. rewrite (compare_val 24 128) by assumption.
  destruct (Rcompare_spec (val l) (val r)); split; intros; try discriminate; try lra; reflexivity.
Qed.

Lemma rnd32_le x y : x <= y -> rnd32 x <= rnd32 y.
Proof. apply round_le; typeclasses eauto. Qed.
Lemma rnd32_id x : generic_format radix2 fexp32 x -> rnd32 x = x.
Proof. apply round_generic. typeclasses eauto. Qed.

(** The value of the threshold between two finite limits whose sum stays finite. *)
Lemma middle_val l r : f32valid l = true -> f32valid r = true -> finite l = true -> finite r = true ->
  val l <= val r -> finite (SFadd 24 128 l r) = true ->
  f32valid (middle l r) = true /\ finite (middle l r) = true /\
  val (middle l r) = rnd32 (rnd32 (val l + val r) / 2) /\
  val l <= rnd32 (val l + val r) / 2 <= val r.
Proof.
  intros Vl Vr Fl Fr L Fs. destruct (add_val 24 128 P32 M32 l r Vl Vr Fl Fr) as [Vs Es]. specialize (Es Fs).
  pose proof (val_format 24 128 l Vl) as Gl. pose proof (val_format 24 128 r Vr) as Gr.
  assert (Bs : 2 * val l <= rnd32 (val l + val r) <= 2 * val r).
  { rewrite <- (rnd32_id (2 * val l)) by (apply format_double, Gl). rewrite <- (rnd32_id (2 * val r)) by (apply format_double, Gr).
    split; apply rnd32_le; lra. }
  destruct (to_f64_val _ Vs Fs) as (Vd & Fd & Ed).
  assert (Vt : f64valid d_two = true) by (vm_compute; reflexivity).
  assert (T0 : val d_two <> 0) by (rewrite val_two; lra).
  destruct (div_val 53 1024 P64 M64 _ d_two Vd Vt T0 Fd) as [Vq Hq].
  rewrite val_two, Ed, Es in Hq.
  assert (Gq : rnd64 (rnd32 (val l + val r) / 2) = rnd32 (val l + val r) / 2).
  { apply round_generic; [typeclasses eauto|]. apply format_half. apply generic_format_round; typeclasses eauto. }
  rewrite Gq in Hq.
  assert (Bl : Rabs (val l) < bpow radix2 128) by exact (val_bound 24 128 l Vl).
  assert (Br : Rabs (val r) < bpow radix2 128) by exact (val_bound 24 128 r Vr).
  assert (Bq : val l <= rnd32 (val l + val r) / 2 <= val r) by lra.
  assert (X : forall x, val l <= x <= val r -> Rabs x < bpow radix2 128).
  { intros x Hx. apply Rabs_lt. apply Rabs_def2 in Bl. apply Rabs_def2 in Br. lra. }
  destruct Hq as [Fq Eq].
  { eapply Rlt_trans; [apply X; exact Bq|]. apply bpow_lt. lia. }
  unfold middle. destruct (to_f32_val _ Vq Fq) as (Vm & Hm & _). rewrite Eq in Hm. destruct Hm as [Fm Em].
  { apply X. pose proof (rnd32_le _ _ (proj1 Bq)) as A. pose proof (rnd32_le _ _ (proj2 Bq)) as B.
    rewrite (rnd32_id _ Gl) in A. rewrite (rnd32_id _ Gr) in B. split; assumption. }
  auto.
Qed.

Lemma middle_between l r : f32valid l = true -> f32valid r = true -> finite l = true -> finite r = true ->
  fltb l r = true -> finite (SFadd 24 128 l r) = true ->
  fleb l (middle l r) = true /\ fleb (middle l r) r = true.
Proof.
  intros Vl Vr Fl Fr L Fs. apply (fltb_val l r Vl Vr Fl Fr) in L.
  destruct (middle_val l r Vl Vr Fl Fr ltac:(lra) Fs) as (Vm & Fm & Em & Bm).
  rewrite (fleb_val l _ Vl Vm Fl Fm), (fleb_val _ r Vm Vr Fm Fr), Em.
  pose proof (rnd32_id _ (val_format 24 128 l Vl)) as Il. pose proof (rnd32_id _ (val_format 24 128 r Vr)) as Ir.
  pose proof (rnd32_le _ _ (proj1 Bm)) as A. pose proof (rnd32_le _ _ (proj2 Bm)) as B.
  rewrite Il in A. rewrite Ir in B. split; assumption.
Qed.

(** ** When the left limit is below the threshold *)
Lemma rnd32_ge_midpoint u v : generic_format radix2 fexp32 u -> (u + Ulp.pred radix2 fexp32 u) / 2 < v -> u <= rnd32 v.
Proof. intros F L. exact (round_N_ge_midp radix2 fexp32 (fun x => negb (Z.even x)) u v F L). Qed.

Lemma pred_double x : x <> 0 -> (-124 <= mag radix2 x)%Z -> Ulp.pred radix2 fexp32 (2 * x) = 2 * Ulp.pred radix2 fexp32 x.
Proof.
  intros X M. unfold Ulp.pred. replace (- (2 * x)) with (- x * bpow radix2 1) by (change (bpow radix2 1) with 2; ring).
  rewrite (succ_FLT_exact_shift radix2 (-149) 24).
  - change (bpow radix2 1) with 2. change (FLT_exp (-149) 24) with fexp32. ring.
  - lra.
  - rewrite mag_opp. lia.
  - rewrite mag_opp. lia.
Qed.

Lemma format_multiple x : generic_format radix2 fexp32 x -> exists z, x = IZR z * bpow radix2 (-149).
Proof.
  intros F. apply (FLT_format_generic radix2 (-149) 24) in F. destruct F as [[m e] E Hm He]. cbn [Fnum Fexp] in *.
  exists (m * 2 ^ (e + 149))%Z. rewrite E, (F2R_change_exp radix2 (-149) m e He).
  replace (e - -149)%Z with (e + 149)%Z by lia. reflexivity.
Qed.
Lemma multiple_format z : (Z.abs z < 2 ^ 24)%Z -> generic_format radix2 fexp32 (IZR z * bpow radix2 (-149)).
Proof.
  intros B. apply (generic_format_FLT radix2 (-149) 24). exists (Float radix2 z (-149)); cbn [Fnum Fexp]; [reflexivity|exact B|lia].
Qed.

(** If some float lies strictly between the limits, the threshold is above the left one. *)
Lemma middle_separates l m r : f32valid l = true -> f32valid m = true -> f32valid r = true ->
  finite l = true -> finite m = true -> finite r = true ->
  fltb l m = true -> fltb m r = true -> finite (SFadd 24 128 l r) = true -> fltb l (middle l r) = true.
Proof.
  intros Vl Vm Vr Fl Fm Fr Lm Mr Fs. apply (fltb_val l m Vl Vm Fl Fm) in Lm. apply (fltb_val m r Vm Vr Fm Fr) in Mr.
  destruct (middle_val l r Vl Vr Fl Fr ltac:(lra) Fs) as (Vt & Ft & Et & Bt).
  apply (fltb_val l _ Vl Vt Fl Ft). rewrite Et.
  pose proof (val_format 24 128 l Vl) as Gl. pose proof (val_format 24 128 m Vm) as Gm. pose proof (val_format 24 128 r Vr) as Gr.
  set (L := val l) in *. set (M := val m) in *. set (R := val r) in *. clearbody L M R.
  clear - Lm Mr Gl Gm Gr Bt.
  set (u := Ulp.succ radix2 fexp32 L).
  assert (Gu : generic_format radix2 fexp32 u) by (apply generic_format_succ; [typeclasses eauto|exact Gl]).
  assert (Pu : Ulp.pred radix2 fexp32 u = L) by (apply pred_succ; [typeclasses eauto|exact Gl]).
  assert (uM : u <= M) by (apply succ_le_lt; [typeclasses eauto|exact Gl|exact Gm|exact Lm]).
  assert (Lu : L < u).
  { destruct (Req_dec L 0) as [E|E]; [|apply succ_gt_id; exact E].
    unfold u. rewrite E, succ_0. change fexp32 with (FLT_exp (-149) 24). rewrite ulp_FLT_0. apply bpow_gt_0. exact P32. }
  assert (K : 2 * u <= rnd32 (L + R)).
  { destruct (Rlt_le_dec (Rabs u) (bpow radix2 (-125))) as [Sm|Bg].
    - destruct (format_multiple u Gu) as [zu Eu]. destruct (format_multiple L Gl) as [zl El]. destruct (format_multiple R Gr) as [zr Er].
      assert (Pos : 0 < bpow radix2 (-149)) by apply bpow_gt_0.
      assert (Zu : (Z.abs zu < 2 ^ 24)%Z).
      { rewrite Eu, Rabs_mult, (Rabs_pos_eq (bpow radix2 (-149))) in Sm by apply bpow_ge_0.
        change (-125)%Z with (24 + -149)%Z in Sm. rewrite bpow_plus in Sm. apply Rmult_lt_reg_r in Sm; [|exact Pos].
        rewrite <- abs_IZR in Sm. change (bpow radix2 24) with (IZR (2 ^ 24)) in Sm. apply lt_IZR in Sm. exact Sm. }
      assert (Zl : (zu - 1 <= zl)%Z).
      { destruct (Z.le_gt_cases zu (- 2 ^ 24 + 1)) as [C|C].
        - (* zu = -2^24 + 1: zu - 1 = -2^24 *)
          assert (zu = - 2 ^ 24 + 1)%Z by lia. subst zu.
          assert (G : generic_format radix2 fexp32 (IZR (- 2 ^ 24) * bpow radix2 (-149))).
          { replace (IZR (- 2 ^ 24) * bpow radix2 (-149)) with (2 * (IZR (- 2 ^ 23) * bpow radix2 (-149))).
            - apply format_double, multiple_format. vm_compute. reflexivity.
            - rewrite <- Rmult_assoc, <- mult_IZR. reflexivity. }
          assert (X : IZR (- 2 ^ 24) * bpow radix2 (-149) <= L).
          { rewrite <- Pu. apply pred_ge_gt; [typeclasses eauto|exact G|exact Gu|]. rewrite Eu. apply Rmult_lt_compat_r; [exact Pos|].
            apply IZR_lt. lia. }
          rewrite El in X. apply Rmult_le_reg_r in X; [|exact Pos]. apply le_IZR in X. lia.
        - assert (G : generic_format radix2 fexp32 (IZR (zu - 1) * bpow radix2 (-149))) by (apply multiple_format; lia).
          assert (X : IZR (zu - 1) * bpow radix2 (-149) <= L).
          { rewrite <- Pu. apply pred_ge_gt; [typeclasses eauto|exact G|exact Gu|]. rewrite Eu. apply Rmult_lt_compat_r; [exact Pos|].
            apply IZR_lt. lia. }
          rewrite El in X. apply Rmult_le_reg_r in X; [|exact Pos]. apply le_IZR in X. lia. }
      assert (Zr : (zu < zr)%Z).
      { apply lt_IZR. apply (Rmult_lt_reg_r (bpow radix2 (-149))); [exact Pos|]. rewrite <- Eu, <- Er. lra. }
      rewrite <- (rnd32_id (2 * u)) by (apply format_double, Gu). apply rnd32_le.
      rewrite Eu, El, Er, <- Rmult_plus_distr_r, <- plus_IZR, <- Rmult_assoc, <- mult_IZR.
      apply Rmult_le_compat_r; [lra|]. apply IZR_le. lia.
    - apply rnd32_ge_midpoint; [apply format_double, Gu|]. rewrite pred_double, Pu; [lra| |].
      + intros E. rewrite E, Rabs_R0 in Bg. pose proof (bpow_gt_0 radix2 (-125)). lra.
      + apply mag_ge_bpow. exact Bg. }
  apply Rlt_le_trans with (1 := Lu). rewrite <- (rnd32_id u Gu) at 1. apply rnd32_le. lra.
Qed.

(** ** The threshold below every value *)
Lemma below_not_above x y : f32valid x = true -> f32valid y = true -> fleb x y = true -> fltb y (below x) = false.
Proof.
  intros Vx Vy L. destruct (finite x) eqn:Fx.
  2: { destruct x as [s|[]| |s m e]; try discriminate.
       - destruct y as [|[]| |]; reflexivity.
       - destruct y as [|[]| |]; cbn in L |- *; try discriminate; try reflexivity. }
  destruct (to_f64_val x Vx Fx) as (Vd & Fd & Ed).
  assert (Vm : f64valid d_milli = true) by (vm_compute; reflexivity).
  assert (Fm : finite d_milli = true) by (vm_compute; reflexivity).
  assert (Pm : 0 <= val d_milli).
  { replace d_milli with (S754_finite false 4611686018427388 (-62)) by (vm_compute; reflexivity). cbn [SF2R cond_Zopp].
    apply F2R_ge_0. cbn. lia. }
  destruct (sub_val 53 1024 P64 M64 _ d_milli Vd Vm Fd Fm) as (Vs & Es & Fs). rewrite Ed in Es, Fs.
  pose proof (val_bound 24 128 x Vx) as Bx. apply Rabs_def2 in Bx.
  assert (Pm1 : val d_milli <= 1).
  { replace d_milli with (S754_finite false 4611686018427388 (-62)) by (vm_compute; reflexivity). cbn [SF2R cond_Zopp].
    unfold F2R. cbn [Fnum Fexp]. change (bpow radix2 (-62)) with (/ IZR (2 ^ 62)).
    replace (2 ^ 62)%Z with 4611686018427387904%Z by (vm_compute; reflexivity). lra. }
  assert (P2 : forall e, (-1074 <= e <= 1023)%Z -> rnd64 (bpow radix2 e) = bpow radix2 e).
  { intros e He. apply round_generic; [typeclasses eauto|]. apply generic_format_bpow. rewrite fexp64_FLT. unfold FLT_exp. lia. }
  assert (Q1 : rnd64 (val x - val d_milli) <= val x).
  { replace (val x) with (rnd64 (val x)) at 2 by (apply round_generic; [typeclasses eauto|]; apply format_32_64, (val_format 24 128 x Vx)).
    apply round_le; [typeclasses eauto|typeclasses eauto|lra]. }
  assert (Q2 : - bpow radix2 129 <= rnd64 (val x - val d_milli)).
  { replace (- bpow radix2 129) with (rnd64 (- bpow radix2 129)).
    - apply round_le; [typeclasses eauto|typeclasses eauto|]. change 129%Z with (1 + 128)%Z. rewrite bpow_plus.
      change (bpow radix2 1) with 2. assert (1 <= bpow radix2 128) by (change 1 with (bpow radix2 0); apply bpow_le; lia). lra.
    - change (round_mode mode_NE) with ZnearestE. rewrite round_NE_opp. f_equal. apply P2. lia. }
  assert (Fq : finite (SFsub 53 1024 (to_f64 x) d_milli) = true).
  { apply Fs. apply Rabs_def1.
    - apply Rle_lt_trans with (1 := Q1). apply Rlt_trans with (1 := proj1 Bx). apply bpow_lt. lia.
    - apply Rlt_le_trans with (2 := Q2). apply Ropp_lt_contravar. apply bpow_lt. lia. }
  specialize (Es Fq). unfold below. set (q := SFsub 53 1024 (to_f64 x) d_milli) in *.
  destruct (to_f32_val q Vs Fq) as (Vt & Ht & Hi).
  assert (Q3 : rnd32 (val q) <= val x).
  { rewrite <- (rnd32_id (val x)) at 1 by exact (val_format 24 128 x Vx). apply rnd32_le. lra. }
  destruct (finite (to_f32 q)) eqn:Ft.
  - assert (Et : val (to_f32 q) = rnd32 (val q)).
    { apply Ht. destruct q as [s|s| |s m e]; try discriminate.
      - cbn [SF2R]. rewrite round_0; [|typeclasses eauto]. rewrite Rabs_R0. apply bpow_gt_0.
      - destruct (Rlt_le_dec (Rabs (rnd32 (val (S754_finite s m e)))) (bpow radix2 128)) as [Y|Y]; [exact Y|exfalso].
        unfold to_f32, to_format in Ft.
        pose proof (binary_normalize_correct 24 128 P32 M32 mode_NE (cond_Zopp s (Z.pos m)) e s) as H. cbv zeta in H.
        cbn [SF2R] in Y. rewrite Rlt_bool_false in H by exact Y. rewrite (normalize_equiv 24 128 P32 M32), H in Ft.
        destruct (Rlt_bool _ 0); discriminate. }
    destruct (finite y) eqn:Fy.
    + apply (fleb_val x y Vx Vy Fx Fy) in L. destruct (fltb y (to_f32 q)) eqn:X; [|reflexivity].
      apply (fltb_val y _ Vy Vt Fy Ft) in X. lra.
    + assert (Y : y = S754_infinity false).
      { clear - L Fx Fy. destruct y as [s|[]| |s m e]; try discriminate; [|reflexivity|]; destruct x as [[]|[]| |[]]; discriminate. }
      rewrite Y. destruct (to_f32 q) as [|[]| |]; reflexivity.
  - destruct (Hi eq_refl) as [B E]. rewrite E.
    assert (N : val q < 0).
    { destruct (Rlt_le_dec (val q) 0) as [Y|Y]; [exact Y|exfalso].
      assert (0 <= rnd32 (val q)) by (replace 0 with (rnd32 0) by (apply round_0; typeclasses eauto); apply rnd32_le; exact Y).
      rewrite Rabs_pos_eq in B by assumption. lra. }
    rewrite Rlt_bool_true by exact N. destruct y as [|[]| |]; reflexivity.
Qed.
