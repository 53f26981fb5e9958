(** Stopwatch_proofs.v - the text of a duration (for property C76). *)
From Coq Require Import SpecFloat Reals Lra Lia ZArith Bool Psatz.
From Flocq Require Import Core IEEE754.BinarySingleNaN Relative.
From Verif Require Import Base F32 Num Driver FloatReal_proofs Threshold_proofs PairExact_proofs Stopwatch StopwatchSpec.
Local Open Scope R_scope.

Local Instance P64 : FLX.Prec_gt_0 53 := eq_refl.
Local Instance M64 : Prec_lt_emax 53 1024 := eq_refl.
Local Instance V64 : Valid_exp fexp64 := fexp_correct 53 1024 P64.
Notation fin := FloatReal_proofs.finite.

Lemma double_ok x : a_double x <-> f64valid x = true /\ fin x = true.
Proof. unfold a_double. destruct x; cbn; intuition discriminate. Qed.

Lemma rnd64_le x y : x <= y -> rnd64 x <= rnd64 y.
Proof. apply round_le; typeclasses eauto. Qed.
Lemma rnd64_id x : generic_format radix2 fexp64 x -> rnd64 x = x.
Proof. apply round_generic. typeclasses eauto. Qed.
Lemma format_scaled z e : (Z.abs z < 2 ^ 53)%Z -> (-1074 <= e)%Z -> generic_format radix2 fexp64 (IZR z * bpow radix2 e).
Proof.
  intros B E. apply (generic_format_FLT radix2 (-1074) 53). exists (Float radix2 z e); cbn [Fnum Fexp]; [reflexivity|exact B|exact E].
Qed.
Lemma format_int z : (Z.abs z < 2 ^ 53)%Z -> generic_format radix2 fexp64 (IZR z).
Proof. intros B. replace (IZR z) with (IZR z * bpow radix2 0) by (cbn; ring). apply format_scaled; [exact B|lia]. Qed.

Lemma of_int_ok z : (Z.abs z < 2 ^ 53)%Z -> f64valid (of_int z) = true /\ fin (of_int z) = true /\ val (of_int z) = IZR z.
Proof.
  intros B. unfold of_int. destruct (normalize_val 53 1024 P64 M64 z 0 false) as (V & F & _). split; [exact V|].
  assert (F2R (Float radix2 z 0) = IZR z) as E by (unfold F2R; cbn; ring). rewrite E in F. rewrite (rnd64_id _ (format_int z B)) in F.
  apply F. apply Rlt_le_trans with (bpow radix2 53); [|apply bpow_le; lia].
  rewrite <- abs_IZR. change (bpow radix2 53) with (IZR (2 ^ 53)). apply IZR_lt. exact B.
Qed.

Lemma div_ok x z : f64valid x = true -> fin x = true -> (1 <= z < 2 ^ 53)%Z ->
  f64valid (SFdiv 53 1024 x (of_int z)) = true /\ fin (SFdiv 53 1024 x (of_int z)) = true /\ val (SFdiv 53 1024 x (of_int z)) = rnd64 (val x / IZR z).
Proof.
  intros V F Z1. destruct (of_int_ok z) as (Vz & Fz & Ez); [lia|].
  assert (1 <= IZR z) as Pz by (apply IZR_le; lia).
  destruct (div_val 53 1024 P64 M64 x (of_int z) V Vz) as (Vd & D); [rewrite Ez; lra|exact F|]. rewrite Ez in D. split; [exact Vd|]. apply D.
  pose proof (val_bound 53 1024 x V) as B. pose proof (val_format 53 1024 x V) as Fx.
  apply Rle_lt_trans with (Rabs (val x)); [|exact B]. apply (abs_round_le_generic radix2 fexp64); [typeclasses eauto| |].
  - apply generic_format_abs. exact Fx.
  - unfold Rdiv. rewrite Rabs_mult. rewrite <- (Rmult_1_r (Rabs (val x))) at 2. apply Rmult_le_compat_l; [apply Rabs_pos|].
    rewrite Rabs_pos_eq; [|left; apply Rinv_0_lt_compat; lra]. rewrite <- Rinv_1. apply Rinv_le_contravar; lra.
Qed.

(** ** Integer parts *)
Lemma val_neg s m e : val (S754_finite s m e) = (if s then -1 else 1) * (IZR (Zpos m) * bpow radix2 e).
Proof. cbn [SF2R]. unfold F2R. cbn [Fnum Fexp]. destruct s; cbn [cond_Zopp]; [rewrite opp_IZR|]; ring. Qed.
Lemma pw2 k : (0 <= k)%Z -> IZR (2 ^ k) = bpow radix2 k.
Proof. exact (IZR_Zpower radix2 k). Qed.
Lemma bpow_div e : (e < 0)%Z -> bpow radix2 e = / IZR (2 ^ (- e)).
Proof. intros E. replace e with (- (- e))%Z at 1 by ring. rewrite bpow_opp. f_equal. symmetry. apply pw2. lia. Qed.
Lemma magnitude_floor m e : Zfloor (IZR (Zpos m) * bpow radix2 e) = if (0 <=? e)%Z then (Zpos m * 2 ^ e)%Z else (Zpos m / 2 ^ (- e))%Z.
Proof.
  destruct (0 <=? e)%Z eqn:E.
  - apply Z.leb_le in E. rewrite <- pw2 by exact E. rewrite <- mult_IZR. apply Zfloor_IZR.
  - apply Z.leb_gt in E. rewrite bpow_div by exact E. apply Zfloor_div. pose proof (Z.pow_pos_nonneg 2 (- e)). lia.
Qed.
Lemma truncated_ok x : fin x = true -> exists z, truncated x = Some z /\ integer_part (val x) z /\ (0 <= val x -> z = Zfloor (val x)).
Proof.
  destruct x as [s|s| |s m e]; try discriminate; intros _.
  - exists 0%Z. split; [reflexivity|]. cbn. split; [|intros _; symmetry; exact (Zfloor_IZR 0)]. unfold integer_part. rewrite Rabs_R0. lra.
  - unfold truncated. cbv zeta. rewrite <- magnitude_floor. rewrite val_neg. set (a := IZR (Zpos m) * bpow radix2 e).
    assert (0 < a) as Pa by (apply Rmult_lt_0_compat; [apply IZR_lt; lia|apply bpow_gt_0]).
    eexists. split; [reflexivity|]. pose proof (Zfloor_lb a) as L. pose proof (Zfloor_ub a) as U.
    assert (0 <= IZR (Zfloor a)) as Z0 by (apply IZR_le; apply Zfloor_lub; lra).
    unfold integer_part. destruct s.
    + rewrite opp_IZR, Rabs_Ropp, (Rabs_pos_eq (IZR _)) by exact Z0. replace (-1 * a) with (- a) by ring. rewrite Rabs_Ropp, (Rabs_pos_eq a) by lra.
      split; [|lra]. split; [lra|]. nra.
    + rewrite Rmult_1_l, !Rabs_pos_eq by lra. split; [|reflexivity]. split; [lra|nra].
Qed.

(** ** Tenths *)
Lemma nearest_ok a b : (0 < b)%Z -> Rabs (IZR (nearest a b) - IZR a / IZR b) <= / 2.
Proof.
  intros B. assert (0 < IZR b) as Pb by (apply IZR_lt; exact B).
  pose proof (Z.div_mod a b ltac:(lia)) as D. pose proof (Z.mod_pos_bound a b B) as M. set (q := (a / b)%Z) in *. set (r := (a mod b)%Z) in *.
  assert (IZR a / IZR b = IZR q + IZR r / IZR b) as -> by (rewrite D, plus_IZR, mult_IZR; field; lra).
  assert (forall k, (2 * r <= k * b)%Z -> IZR r / IZR b <= IZR k / 2) as Up.
  { intros k K. apply IZR_le in K. rewrite !mult_IZR in K. apply (Rmult_le_reg_r (IZR b)); [exact Pb|]. replace (IZR r / IZR b * IZR b) with (IZR r) by (field; lra). nra. }
  assert (forall k, (k * b <= 2 * r)%Z -> IZR k / 2 <= IZR r / IZR b) as Lo.
  { intros k K. apply IZR_le in K. rewrite !mult_IZR in K. apply (Rmult_le_reg_r (IZR b)); [exact Pb|]. replace (IZR r / IZR b * IZR b) with (IZR r) by (field; lra). nra. }
  pose proof (Up 2%Z ltac:(lia)) as U2. pose proof (Lo 0%Z ltac:(lia)) as L0. apply Rabs_le.
  unfold nearest. fold q r. cbv zeta. destruct (2 * r <? b)%Z eqn:E1; [apply Z.ltb_lt in E1; pose proof (Up 1%Z ltac:(lia)); lra|apply Z.ltb_ge in E1].
  pose proof (Lo 1%Z ltac:(lia)). destruct (b <? 2 * r)%Z eqn:E2; [rewrite plus_IZR; lra|apply Z.ltb_ge in E2]. pose proof (Up 1%Z ltac:(lia)).
  destruct (Z.even q); [lra|rewrite plus_IZR; lra].
Qed.
Lemma tenths_ok x : fin x = true -> Rabs (IZR (tenths x) - 10 * val x) <= / 2.
Proof.
  destruct x as [s|s| |s m e]; try discriminate; intros _.
  - cbn. replace (0 - 10 * 0) with 0 by ring. rewrite Rabs_R0. lra.
  - rewrite val_neg. set (a := IZR (Zpos m) * bpow radix2 e).
    assert (forall n, Rabs (IZR n - 10 * a) <= / 2 -> Rabs (IZR (if s then (- n)%Z else n) - 10 * ((if s then -1 else 1) * a)) <= / 2) as G.
    { intros n H. destruct s; [|rewrite Rmult_1_l; exact H]. rewrite opp_IZR. replace (- IZR n - 10 * (-1 * a)) with (- (IZR n - 10 * a)) by ring.
      rewrite Rabs_Ropp. exact H. }
    unfold tenths. cbv zeta. apply G. unfold a. destruct (0 <=? e)%Z eqn:E.
    + apply Z.leb_le in E. rewrite !mult_IZR. rewrite pw2 by exact E.
      match goal with |- Rabs ?t <= _ => replace t with 0 by ring end. rewrite Rabs_R0. lra.
    + apply Z.leb_gt in E. pose proof (nearest_ok (10 * Zpos m) (2 ^ (- e)) (Z.pow_pos_nonneg 2 (- e) ltac:(lia) ltac:(lia))) as H.
      rewrite bpow_div by exact E. rewrite mult_IZR in H. replace (10 * (IZR (Zpos m) * / IZR (2 ^ (- e)))) with (10 * IZR (Zpos m) / IZR (2 ^ (- e))) by (unfold Rdiv; ring). exact H.
Qed.
Lemma val_twentieth : / 20 < val twentieth < / 20 + / 2 ^ 50.
Proof.
  replace twentieth with (S754_finite false 7205759403792794 (-57)) by (vm_compute; reflexivity). rewrite val_neg, Rmult_1_l.
  rewrite bpow_div by lia. replace (2 ^ (- -57))%Z with 144115188075855872%Z by (vm_compute; reflexivity). lra.
Qed.
Lemma twentieth_ok : f64valid twentieth = true /\ fin twentieth = true.
Proof. split; vm_compute; reflexivity. Qed.

Lemma fltb64_val l r : f64valid l = true -> f64valid r = true -> fin l = true -> fin r = true -> fltb l r = true <-> val l < val r.
Proof.
  intros Vl Vr Fl Fr. unfold fltb, SFltb. rewrite (compare_val 53 1024) by assumption.
  destruct (Rcompare_spec (val l) (val r)); split; intros; try discriminate; try reflexivity; lra.
Qed.

(** ** Rounding *)
Lemma coarse x e : generic_format radix2 fexp64 x -> bpow radix2 (e + 52) <= Rabs x -> exists z, x = IZR z * bpow radix2 e.
Proof.
  intros F B. set (c := cexp radix2 fexp64 x).
  assert (e <= c)%Z as L.
  { pose proof (mag_ge_bpow radix2 x (e + 53)) as M. replace (e + 53 - 1)%Z with (e + 52)%Z in M by ring. specialize (M B).
    unfold c, cexp, fexp64, SpecFloat.fexp. lia. }
  exists (Ztrunc (scaled_mantissa radix2 fexp64 x) * 2 ^ (c - e))%Z. rewrite F at 1. unfold F2R. cbn [Fnum Fexp]. fold c. rewrite mult_IZR.
  rewrite pw2 by lia.
  rewrite Rmult_assoc, <- bpow_plus. replace (c - e + e)%Z with c by ring. reflexivity.
Qed.
Lemma rounded_near x e : (-1000 <= e)%Z -> Rabs x < bpow radix2 e -> Rabs (rnd64 x - x) <= bpow radix2 (e - 54).
Proof.
  intros E B. destruct (Req_dec x 0) as [->|N0]; [rewrite rnd64_id by apply generic_format_0; rewrite Rminus_0_r, Rabs_R0; apply bpow_ge_0|].
  pose proof (error_le_half_ulp radix2 fexp64 (fun z => negb (Z.even z)) x) as H.
  apply Rle_trans with (1 := H). rewrite ulp_neq_0 by exact N0.
  apply Rle_trans with (/ 2 * bpow radix2 (e - 53)).
  - apply Rmult_le_compat_l; [lra|]. apply bpow_le. unfold cexp, fexp64, SpecFloat.fexp, SpecFloat.emin.
    pose proof (mag_le_bpow radix2 x e N0 B). lia.
  - change (/ 2) with (bpow radix2 (-1)). rewrite <- bpow_plus. apply bpow_le. lia.
Qed.

(** ** The parts of a duration *)
Definition MAX := 2147483647%Z.
Lemma to_int_ok x : fin x = true -> 0 <= val x -> to_int x = if (Zfloor (val x) <=? MAX)%Z then Ret (Zfloor (val x)) else Undef.
Proof.
  intros F P. destruct (truncated_ok x F) as (z & T & _ & Z1). specialize (Z1 P). unfold to_int. rewrite T, <- Z1.
  assert (0 <= z)%Z by (rewrite Z1; apply Zfloor_lub; exact P). destruct (Z.leb_spec (-2147483648) z); [reflexivity|lia].
Qed.

Lemma split_minutes k : (0 <= k)%Z -> ((0 <= k mod 60 < 60) /\ (0 <= k / 60 mod 24 < 24) /\ 0 <= k / 60 /\ 0 <= k / 60 / 24 /\
  k - k / 60 * 60 = k mod 60 /\ k / 60 - 24 * (k / 60 / 24) = k / 60 mod 24 /\ 86400 * (k / 60 / 24) + 3600 * (k / 60 mod 24) + 60 * (k mod 60) = 60 * k)%Z.
Proof.
  intros K. pose proof (Z.div_mod k 60 ltac:(lia)) as D1. pose proof (Z.div_mod (k / 60) 24 ltac:(lia)) as D2.
  pose proof (Z.mod_pos_bound k 60 ltac:(lia)) as M1. pose proof (Z.mod_pos_bound (k / 60) 24 ltac:(lia)) as M2.
  pose proof (Z.div_pos k 60 K ltac:(lia)) as P1. pose proof (Z.div_pos (k / 60) 24 P1 ltac:(lia)) as P2. lia.
Qed.

Section Parts.
  Context (ms : f64) (V : f64valid ms = true) (F : fin ms = true) (L : 1000 <= val ms).
  Let s := SFdiv 53 1024 ms (of_int 1000).
  Let q := SFdiv 53 1024 s (of_int 60).
  Let k := Zfloor (val q).

  Lemma s_ok : f64valid s = true /\ fin s = true /\ val s = rnd64 (val ms / 1000).
  Proof. apply div_ok; [exact V|exact F|lia]. Qed.
  Lemma q_ok : f64valid q = true /\ fin q = true /\ val q = rnd64 (val s / 60).
  Proof. destruct s_ok as (Vs & Fs & _). apply div_ok; [exact Vs|exact Fs|lia]. Qed.
  Lemma s_low : 1 <= val s.
  Proof. destruct s_ok as (_ & _ & ->). rewrite <- (rnd64_id 1) by (apply (format_int 1); lia). apply rnd64_le. lra. Qed.
  Lemma q_low : 0 <= val q.
  Proof.
    destruct q_ok as (_ & _ & ->). pose proof s_low. rewrite <- (rnd64_id 0) by apply generic_format_0. apply rnd64_le. lra.
  Qed.
  Lemma k_low : (0 <= k)%Z.
  Proof. apply Zfloor_lub. exact q_low. Qed.
  Lemma k_val : IZR k <= val q < IZR k + 1.
  Proof. split; [apply Zfloor_lb|apply Zfloor_ub]. Qed.
  Lemma s_over : 2147483700000 <= val ms -> (35791395 <= k)%Z.
  Proof.
    intros B. apply Zfloor_lub. destruct q_ok as (_ & _ & ->). rewrite <- (rnd64_id (IZR 35791395)) by (apply format_int; lia). apply rnd64_le.
    enough (2147483700 <= val s) by lra. destruct s_ok as (_ & _ & ->). rewrite <- (rnd64_id 2147483700) by (apply (format_int 2147483700); lia).
    apply rnd64_le. lra.
  Qed.

  Hypothesis (B : val ms <= 2147483699999).
  Lemma s_high : val s <= 2147483700 - / 1024.
  Proof.
    destruct s_ok as (_ & _ & ->). replace (2147483700 - / 1024) with (IZR 2199023308799 * bpow radix2 (-10)) by (rewrite bpow_div by lia; change (2 ^ (- -10))%Z with 1024%Z; lra).
    rewrite <- (rnd64_id (IZR _ * _)) by (apply format_scaled; lia). apply rnd64_le. rewrite bpow_div by lia. change (2 ^ (- -10))%Z with 1024%Z. lra.
  Qed.
  Lemma k_high : (k <= 35791394)%Z.
  Proof.
    enough (k < 35791395)%Z by lia. apply lt_IZR. apply Rle_lt_trans with (val q); [apply k_val|].
    apply Rle_lt_trans with (IZR 2345624862719 * bpow radix2 (-16)).
    - destruct q_ok as (_ & _ & ->). rewrite <- (rnd64_id (IZR _ * _)) by (apply format_scaled; lia). apply rnd64_le. rewrite bpow_div by lia.
      change (2 ^ (- -16))%Z with 65536%Z. pose proof s_high. lra.
    - rewrite bpow_div by lia. change (2 ^ (- -16))%Z with 65536%Z. lra.
  Qed.
  Lemma rest_high : val s < 60 * (IZR k + 1).
  Proof.
    destruct (Rlt_le_dec (val s) (60 * (IZR k + 1))) as [H|H]; [exact H|exfalso].
    pose proof k_val as [_ K]. pose proof k_low. pose proof k_high. apply (Rlt_irrefl (val q)). apply Rlt_le_trans with (1 := K).
    destruct q_ok as (_ & _ & ->). rewrite <- plus_IZR. rewrite <- (rnd64_id (IZR _)) by (apply format_int; lia). apply rnd64_le. rewrite plus_IZR. lra.
  Qed.
  Lemma rest_low : 60 * IZR k - 60 / 2 ^ 27 < val s.
  Proof.
    destruct (Rlt_le_dec (60 * IZR k - 60 / 2 ^ 27) (val s)) as [H|H]; [exact H|exfalso].
    pose proof k_val as [K _]. pose proof k_low. pose proof k_high. apply (Rlt_irrefl (val q)).
    assert (IZR (k * 2 ^ 27 - 1) * bpow radix2 (-27) = IZR k - / 2 ^ 27) as E.
    { rewrite bpow_div by lia. change (2 ^ (- -27))%Z with 134217728%Z. change (2 ^ 27)%Z with 134217728%Z. rewrite minus_IZR, mult_IZR. field. }
    apply Rle_lt_trans with (IZR k - / 2 ^ 27); [|lra].
    rewrite <- E. destruct q_ok as (_ & _ & ->). rewrite <- (rnd64_id (IZR _ * _)) by (apply format_scaled; lia). apply rnd64_le. rewrite E. lra.
  Qed.
  Lemma rest_format : generic_format radix2 fexp64 (val s - IZR (60 * k)).
  Proof.
    destruct s_ok as (Vs & _ & _). pose proof (val_format 53 1024 s Vs) as Fs. pose proof k_low as K0.
    destruct (Z.eq_dec k 0) as [->|N]; [rewrite Rminus_0_r; exact Fs|].
    assert (32 <= val s) as S32. { pose proof rest_low. assert (1 <= IZR k) by (apply IZR_le; lia). lra. }
    destruct (coarse (val s) (-47) Fs) as (z & Z1). { rewrite Rabs_pos_eq by lra. exact S32. }
    pose proof rest_high as H1. pose proof rest_low as H2. rewrite mult_IZR.
    assert (val s - 60 * IZR k = IZR (z - 60 * k * 2 ^ 47) * bpow radix2 (-47)) as E.
    { rewrite Z1. rewrite minus_IZR, !mult_IZR. rewrite pw2 by lia. rewrite Rmult_minus_distr_r, (Rmult_assoc _ (bpow radix2 47)), <- bpow_plus.
      change (bpow radix2 (47 + -47)) with 1. ring. }
    rewrite E. apply format_scaled; [|lia]. apply lt_IZR. rewrite abs_IZR.
    apply (Rmult_lt_reg_r (bpow radix2 (-47))); [apply bpow_gt_0|]. rewrite pw2, <- bpow_plus by lia.
    rewrite <- (Rabs_pos_eq (bpow radix2 (-47))) by apply bpow_ge_0. rewrite <- Rabs_mult, <- E. change (bpow radix2 (53 + -47)) with 64.
    apply Rabs_lt. lra.
  Qed.
  Let r := SFsub 53 1024 s (of_int (60 * k)).
  Lemma r_ok : f64valid r = true /\ fin r = true /\ val r = val s - 60 * IZR k.
  Proof.
    destruct s_ok as (Vs & Fs & _). pose proof k_low. pose proof k_high. destruct (of_int_ok (60 * k)) as (Vk & Fk & Ek); [lia|].
    destruct (sub_val 53 1024 P64 M64 s (of_int (60 * k)) Vs Vk Fs Fk) as (Vr & R1). split; [exact Vr|].
    rewrite Ek in R1. rewrite (rnd64_id _ rest_format) in R1. rewrite <- mult_IZR. destruct R1 as (R1 & R2).
    enough (Rabs (val s - IZR (60 * k)) < bpow radix2 1024) as Lt by (specialize (R2 Lt); split; [exact R2|exact (R1 R2)]).
    pose proof rest_high. pose proof rest_low. apply Rlt_le_trans with (bpow radix2 6); [|apply bpow_le; lia].
    change (bpow radix2 6) with 64. rewrite mult_IZR. apply Rabs_lt. lra.
  Qed.
  Lemma s_near : Rabs (val s - val ms / 1000) <= / 2 ^ 22.
  Proof.
    destruct s_ok as (_ & _ & ->). replace (/ 2 ^ 22) with (bpow radix2 (32 - 54)) by (rewrite bpow_div by lia; change (2 ^ (- (32 - 54)))%Z with 4194304%Z; lra).
    apply rounded_near; [lia|]. change (bpow radix2 32) with 4294967296. rewrite Rabs_pos_eq; lra.
  Qed.

  Lemma parts_ok : exists d h m t, msecs_string ms = Ret (duration d h m t) /\ (0 <= d)%Z /\ (0 <= h < 24)%Z /\ (0 <= m < 60)%Z /\ (0 <= t <= 600)%Z /\
    Rabs (amount d h m t - val ms / 1000) <= / 20 + / 1000000.
  Proof.
    destruct s_ok as (Vs & Fs & _). destruct q_ok as (Vq & Fq & _). destruct r_ok as (Vr & Fr & Er). pose proof k_low as K0. pose proof k_high as K1.
    pose proof rest_high as R1. pose proof rest_low as R0. pose proof (Rabs_le_inv _ _ s_near) as N. pose proof val_twentieth as T20. destruct twentieth_ok as (Vt & Ft).
    set (t := if fltb r twentieth then 0%Z else tenths r).
    assert ((0 <= t <= 600)%Z /\ Rabs (IZR t / 10 - val r) <= / 20 + / 2 ^ 40 /\ (t = 0%Z <-> fltb r twentieth = true)) as (T & D & TZ).
    { unfold t. destruct (fltb r twentieth) eqn:E.
      - apply fltb64_val in E; try assumption. split; [lia|]. split; [|tauto]. rewrite Er in *. apply Rabs_le. lra.
      - assert (val twentieth <= val r) as G.
        { destruct (Rle_lt_dec (val twentieth) (val r)) as [G|G]; [exact G|]. apply fltb64_val in G; try assumption. rewrite G in E. discriminate E. }
        pose proof (Rabs_le_inv _ _ (tenths_ok r Fr)) as H. rewrite Er in *.
        assert (0 < tenths r)%Z as Pos by (apply lt_IZR; lra). assert (tenths r < 601)%Z by (apply lt_IZR; lra).
        split; [lia|]. split; [apply Rabs_le; lra|]. split; [lia|discriminate]. }
    exists (k / 60 / 24)%Z, (k / 60 mod 24)%Z, (k mod 60)%Z, t.
    destruct (split_minutes k K0) as (M1 & M2 & P1 & P2 & Q1 & Q2 & Q3).
    split; [|split; [exact P2|split; [exact M2|split; [exact M1|split; [exact T|]]]]].
    - unfold msecs_string. assert (fltb ms (of_int 1000) = false) as ->.
      { destruct (of_int_ok 1000) as (V1 & F1 & E1); [lia|]. destruct (fltb ms (of_int 1000)) eqn:E; [|reflexivity]. apply fltb64_val in E; try assumption. rewrite E1 in E. lra. }
      cbv zeta. fold s. fold q. rewrite (to_int_ok q Fq q_low). fold k. destruct (Z.leb_spec k MAX) as [_|G]; [cbn [bind]|unfold MAX in G; lia].
      unfold int_mul. destruct (Z.leb_spec (-2147483648) (60 * k)); [|lia]. destruct (Z.leb_spec (60 * k) 2147483647); [|lia]. cbn [andb bind]. fold r.
      rewrite (Z.quot_div_nonneg k 60 K0 eq_refl). rewrite (Z.quot_div_nonneg (k / 60) 24 P1 eq_refl). rewrite Q1, Q2.
      unfold duration, part. f_equal.
      destruct (Z.eqb_spec (k / 60 / 24) 0), (Z.eq_dec (k / 60 / 24) 0); try contradiction;
      destruct (Z.eqb_spec (k / 60 mod 24) 0), (Z.eq_dec (k / 60 mod 24) 0); try contradiction;
      destruct (Z.eqb_spec (k mod 60) 0), (Z.eq_dec (k mod 60) 0); try contradiction; repeat f_equal;
      (unfold t in *; destruct (fltb r twentieth); destruct (Z.eq_dec _ 0) as [E|E];
        [reflexivity|exfalso; apply E; reflexivity|exfalso; apply TZ in E; discriminate E|unfold one_digit, dec, numeral; rewrite <- !app_assoc; reflexivity]).
    - unfold amount. rewrite Q3, mult_IZR.
      apply Rabs_le_inv in D. rewrite Er in D. apply Rabs_le. lra.
  Qed.
End Parts.

Lemma short_ok ms z : a_double ms -> val ms < 1000 -> integer_part (val ms) z -> msecs_string ms = if (-2147483648 <=? z)%Z then Ret (numeral z ++ lit "ms") else Undef.
Proof.
  intros A L I. apply double_ok in A as (V & F). unfold msecs_string. destruct (of_int_ok 1000) as (V1 & F1 & E1); [lia|].
  assert (fltb ms (of_int 1000) = true) as -> by (apply fltb64_val; try assumption; rewrite E1; exact L).
  destruct (truncated_ok ms F) as (y & T & J & _). assert (y = z) as ->.
  { destruct I as ((I1 & I2) & I3), J as ((J1 & J2) & J3). rewrite <- !abs_IZR in *.
    assert (Z.abs y = Z.abs z) as E. { enough (Z.abs y < Z.abs z + 1 /\ Z.abs z < Z.abs y + 1)%Z by lia. split; apply lt_IZR; rewrite plus_IZR; lra. }
    destruct (Z.eq_dec y z) as [Q|Q]; [exact Q|exfalso]. assert (y = - z)%Z as -> by lia. assert (z <> 0)%Z as Nz by lia.
    rewrite opp_IZR in J3. assert (val ms * IZR z = 0) as M by lra. apply Rmult_integral in M as [M|M]; [|apply eq_IZR in M; lia].
    rewrite M, Rabs_R0 in I1. apply le_IZR in I1. lia. }
  unfold to_int. rewrite T. destruct (-2147483648 <=? z)%Z; [|reflexivity].
  assert (z < 1000)%Z. { destruct (Z_lt_le_dec z 0); [lia|]. destruct I as ((I1 & _) & I3). apply lt_IZR. rewrite Rabs_pos_eq in I1 by (apply IZR_le; lia).
    destruct (Rle_lt_dec 0 (val ms)); [rewrite Rabs_pos_eq in I1 by lra; lra|].
    assert (IZR z <= 0) by nra. lra. }
  destruct (Z.leb_spec z 2147483647); [reflexivity|lia].
Qed.

Lemma over_ok ms : f64valid ms = true -> fin ms = true -> 2147483700000 <= val ms -> msecs_string ms = Undef.
Proof.
  intros V F L. unfold msecs_string. destruct (of_int_ok 1000) as (V1 & F1 & E1); [lia|].
  assert (fltb ms (of_int 1000) = false) as ->.
  { destruct (fltb ms (of_int 1000)) eqn:E; [|reflexivity]. apply fltb64_val in E; try assumption. rewrite E1 in E. lra. }
  cbv zeta. destruct (q_ok ms V F) as (Vq & Fq & _). rewrite (to_int_ok _ Fq (q_low ms V F ltac:(lra))). pose proof (s_over ms V F L) as K.
  destruct (_ <=? MAX)%Z; [cbn [bind]|reflexivity]. unfold int_mul. destruct (Z.leb_spec (60 * Zfloor (val (SFdiv 53 1024 (SFdiv 53 1024 ms (of_int 1000)) (of_int 60)))) 2147483647); [lia|].
  rewrite andb_false_r. reflexivity.
Qed.
Lemma not_a_number ms : match ms with S754_nan | S754_infinity _ => True | _ => False end -> msecs_string ms = Undef.
Proof. destruct ms as [s|s| |s m e]; try contradiction; intros _; [destruct s|]; vm_compute; reflexivity. Qed.

Lemma C76_parts_proof ms : a_double ms -> 1000 <= real_of ms <= 2147483699999 ->
  exists d h m t, msecs_string ms = Ret (duration d h m t) /\ (0 <= d)%Z /\ (0 <= h < 24)%Z /\ (0 <= m < 60)%Z /\ (0 <= t <= 600)%Z /\
    Rabs (amount d h m t - real_of ms / 1000) <= / 20 + / 1000000.
Proof. intros A B. rewrite real_val in *. apply double_ok in A as (V & F). exact (parts_ok ms V F (proj1 B) (proj2 B)). Qed.
Lemma C76_short_proof ms z : a_double ms -> real_of ms < 1000 -> integer_part (real_of ms) z ->
  msecs_string ms = if Z_le_dec (-2147483648) z then Ret (numeral z ++ lit "ms") else Undef.
Proof.
  intros A B I. rewrite real_val in *. rewrite (short_ok ms z A B I). destruct (Z.leb_spec (-2147483648) z), (Z_le_dec (-2147483648) z); try reflexivity; lia.
Qed.
Lemma C76_undefined_proof ms : match ms with S754_nan | S754_infinity _ => True | _ => a_double ms /\ 2147483700000 <= real_of ms end -> msecs_string ms = Undef.
Proof.
  assert (a_double ms /\ 2147483700000 <= real_of ms -> msecs_string ms = Undef) as G.
  { intros (A & B). rewrite real_val in B. apply double_ok in A as (V & F). exact (over_ok ms V F B). }
  destruct ms; try exact G; intros _; apply not_a_number; exact I.
Qed.
