(** Accuracy_proofs.v - the rounding error of predictions (for property C74). *)
From Coq Require Import SpecFloat Reals Lra Lia ZArith Bool Psatz.
From Flocq Require Import Core IEEE754.BinarySingleNaN Plus_error Relative.
From Verif Require Import Base F32 Column DataStore Num Forest Score ScoreSpec Score_proofs Eval EvalSpec Eval_proofs SplitSpec FloatReal_proofs Threshold_proofs
  PairExact_proofs Config Tree TreeSpec Train AccuracySpec.
Local Open Scope R_scope.

Local Instance P64 : FLX.Prec_gt_0 53 := eq_refl.
Local Instance M64 : Prec_lt_emax 53 1024 := eq_refl.

Definition uu : R := / 2 ^ 53.
Lemma uu_pos : 0 < uu.
Proof. unfold uu. apply Rinv_0_lt_compat. apply pow_lt. lra. Qed.

Lemma add_rel x y : f64valid x = true -> f64valid y = true -> FloatReal_proofs.finite x = true -> FloatReal_proofs.finite y = true ->
  (Rabs (val x) + Rabs (val y)) * (1 + uu) < bpow radix2 1024 ->
  f64valid (SFadd 53 1024 x y) = true /\ FloatReal_proofs.finite (SFadd 53 1024 x y) = true /\
  Rabs (val (SFadd 53 1024 x y) - (val x + val y)) <= uu * Rabs (val x + val y).
Proof.
  intros Vx Vy Fx Fy B.
  assert (E : exists eps, Rabs eps <= uu /\ rnd64 (val x + val y) = (val x + val y) * (1 + eps)).
  { destruct (FLT_plus_error_N_ex radix2 (-1074) 53 (fun z => negb (Z.even z)) (val x) (val y)) as (eps & He & E).
    - apply (val_format 53 1024), Vx.
    - apply (val_format 53 1024), Vy.
    - exists eps. split; [|exact E]. eapply Rle_trans; [exact He|]. replace (u_ro radix2 53) with uu.
      + pose proof uu_pos as U. apply Rmult_le_reg_r with (1 + uu); [lra|]. unfold Rdiv. rewrite Rmult_assoc, Rinv_l by lra. nra.
      + unfold uu, u_ro. match goal with |- context [bpow radix2 ?z] => change (bpow radix2 z) with (/ IZR 4503599627370496) end. rewrite <- Rinv_mult. f_equal. ring. }
  destruct E as (eps & He & E).
  destruct (valid_B2SF 53 1024 x Vx) as [X EX]. destruct (valid_B2SF 53 1024 y Vy) as [Y EY].
  assert (L : Rabs (rnd64 (val x + val y)) < bpow radix2 1024).
  { rewrite E, Rabs_mult. eapply Rle_lt_trans; [|exact B]. apply Rmult_le_compat; [apply Rabs_pos|apply Rabs_pos|apply Rabs_triang|].
    eapply Rle_trans; [apply Rabs_triang|]. rewrite (Rabs_pos_eq 1) by lra. lra. }
  assert (F : FloatReal_proofs.finite (SFadd 53 1024 x y) = true).
  { subst x y. rewrite finite_B2SF in *. rewrite (add_equiv 53 1024 P64 M64), finite_B2SF. rewrite !val_B2SF in L.
    pose proof (Bplus_correct 53 1024 P64 M64 mode_NE X Y Fx Fy) as H. rewrite Rlt_bool_true in H by exact L. apply H. }
  destruct (add_val 53 1024 P64 M64 x y Vx Vy Fx Fy) as [V H]. split; [exact V|]. split; [exact F|].
  rewrite (H F). match goal with |- Rabs (?r - _) <= _ => change r with (rnd64 (val x + val y)) end. rewrite E. replace ((val x + val y) * (1 + eps) - (val x + val y)) with (eps * (val x + val y)) by ring.
  rewrite Rabs_mult. apply Rmult_le_compat_r; [apply Rabs_pos|exact He].
Qed.

Lemma pow_bound (k : nat) : (1 + uu) ^ k * (1 - INR k * uu) <= 1.
Proof.
  pose proof uu_pos. induction k as [|k IH]; [cbn; lra|]. rewrite S_INR. cbn [pow].
  assert (1 <= (1 + uu) ^ k) by (apply pow_R1_Rle; lra). assert (0 <= INR k) by apply pos_INR.
  replace ((1 + uu) * (1 + uu) ^ k * (1 - (INR k + 1) * uu)) with
    ((1 + uu) ^ k * (1 - INR k * uu) - (1 + uu) ^ k * ((INR k + 1) * uu * uu)) by ring.
  assert (0 <= (1 + uu) ^ k * ((INR k + 1) * uu * uu)) by (repeat apply Rmult_le_pos; lra). lra.
Qed.
Definition most : R := 2 ^ 31.
Lemma most_uu : most * uu <= / 4.
Proof. unfold most, uu. lra. Qed.
Lemma pow_two (k : nat) : INR k <= most -> (1 + uu) ^ k <= 2.
Proof.
  intros L. pose proof (pow_bound k). pose proof uu_pos. pose proof most_uu. assert (INR k * uu <= / 4) by nra.
  assert (1 <= (1 + uu) ^ k) by (apply pow_R1_Rle; lra). nra.
Qed.

Section Sum.
Context {c_exp c_log : f64 -> f64}.
Notation N := (IEEE c_exp c_log).

Lemma add_zero (s : N) : FloatReal_proofs.finite s = true -> f64valid s = true ->
  FloatReal_proofs.finite (@nadd N s (@n0 N)) = true /\ f64valid (@nadd N s (@n0 N)) = true /\ val (@nadd N s (@n0 N)) = val s.
Proof.
  intros F V. change (@nadd N s (@n0 N)) with (SFadd 53 1024 s (S754_zero false)).
  destruct s as [b|b| |b m e]; try discriminate; cbn [SFadd]; [destruct b; auto|auto].
Qed.

Lemma float_value_ok (s : N) : float_value s -> FloatReal_proofs.finite s = true /\ f64valid s = true /\ Rabs (val s) < 2 ^ 128.
Proof.
  intros (x & Ax & Fx & ->). unfold a_float in Ax. destruct (to_f64_val x Ax Fx) as (V & F & E). split; [exact F|]. split; [exact V|].
  rewrite E. pose proof (val_bound 24 128 x Ax) as B. rewrite bpow_powerRZ in B. cbn [radix_val radix2] in B.
  change 128%Z with (Z.of_nat 128) in B. rewrite <- pow_powerRZ in B. exact B.
Qed.

Lemma sum_error (ls : list N) : Forall float_value ls -> forall (x : N) (X A : R) (k : nat),
  FloatReal_proofs.finite x = true -> f64valid x = true -> Rabs X <= A -> A <= INR k * 2 ^ 128 ->
  Rabs (val x - X) <= ((1 + uu) ^ k - 1) * A -> INR (k + List.length ls) <= most ->
  let r := add_all (@n0 N) x ls in
  FloatReal_proofs.finite r = true /\ f64valid r = true /\
  Rabs (val r - (X + real_sum ls)) <= ((1 + uu) ^ (k + List.length ls) - 1) * (A + abs_sum ls).
Proof.
  pose proof uu_pos as U. induction ls as [|s ls IH]; intros Fv x X A k Fx Vx XA AK Er Lk; cbv zeta.
  - cbn [add_all fold_left List.length]. rewrite Nat.add_0_r. unfold real_sum, abs_sum. cbn [map fold_right].
    rewrite !Rplus_0_r. auto.
  - inversion Fv as [|? ? Fs Fl]; subst. destruct (float_value_ok s Fs) as (F1 & V1 & B1).
    destruct (add_zero s F1 V1) as (F2 & V2 & E2).
    assert (Ab : abs_sum (s :: ls) = Rabs (val s) + abs_sum ls) by (unfold abs_sum; cbn [map fold_right]; rewrite real_val; reflexivity).
    assert (Rb : real_sum (s :: ls) = val s + real_sum ls) by (unfold real_sum; cbn [map fold_right]; rewrite real_val; reflexivity).
    rewrite Ab, Rb. cbn [List.length] in Lk |- *. rewrite <- Nat.add_succ_comm in Lk |- *.
    assert (Lk1 : INR (S k) <= most) by (eapply Rle_trans; [|exact Lk]; apply le_INR; lia).
    pose proof (pow_two _ Lk1) as P2. set (p := (1 + uu) ^ k) in *. change ((1 + uu) ^ S k) with ((1 + uu) * p) in P2.
    assert (P1 : 1 <= p) by (apply pow_R1_Rle; lra).
    assert (A0 : 0 <= A) by (eapply Rle_trans; [apply Rabs_pos|exact XA]).
    pose proof (Rabs_pos (val s)) as S0.
    assert (Xb : Rabs (val x) <= p * A).
    { replace (val x) with ((val x - X) + X) by ring. eapply Rle_trans; [apply Rabs_triang|]. lra. }
    assert (Sb : Rabs (val x) + Rabs (val s) <= p * (A + Rabs (val s))) by nra.
    assert (A' : A + Rabs (val s) <= INR (S k) * 2 ^ 128) by (rewrite S_INR; lra).
    destruct (add_rel x (@nadd N s (@n0 N)) Vx V2 Fx F2) as (V3 & F3 & E3).
    { rewrite E2. apply Rle_lt_trans with (2 * (most * 2 ^ 128)).
      - apply Rle_trans with ((1 + uu) * p * (A + Rabs (val s))); [nra|].
        apply Rmult_le_compat; [nra|lra|exact P2|]. eapply Rle_trans; [exact A'|]. apply Rmult_le_compat_r; [|exact Lk1]. apply pow_le. lra.
      - unfold most. change 1024%Z with (160 + 864)%Z. rewrite bpow_plus.
        replace (bpow radix2 160) with (2 * (2 ^ 31 * 2 ^ 128)) by (rewrite bpow_powerRZ; change (2 * (2 ^ 31 * 2 ^ 128) = 2 ^ 160); ring).
        assert (1 < bpow radix2 864) by (change 1 with (bpow radix2 0); apply bpow_lt; lia).
        assert (0 < 2 * (2 ^ 31 * 2 ^ 128)) by lra. nra. }
    rewrite E2 in E3.
    destruct (IH Fl (@nadd N x (@nadd N s (@n0 N))) (X + val s) (A + Rabs (val s)) (S k) F3 V3) as (R1 & R2 & R3).
    + eapply Rle_trans; [apply Rabs_triang|]. lra.
    + exact A'.
    + change ((1 + uu) ^ S k) with ((1 + uu) * p). change (@nadd N x (@nadd N s (@n0 N))) with (SFadd 53 1024 x (@nadd N s (@n0 N))).
      set (z := val (SFadd 53 1024 x (@nadd N s (@n0 N)))) in *.
      replace (z - (X + val s)) with ((z - (val x + val s)) + (val x - X)) by ring. eapply Rle_trans; [apply Rabs_triang|].
      assert (Rabs (val x + val s) <= p * (A + Rabs (val s))) by (eapply Rle_trans; [apply Rabs_triang|exact Sb]). nra.
    + exact Lk.
    + split; [exact R1|]. split; [exact R2|].
      replace (X + (val s + real_sum ls)) with (X + val s + real_sum ls) by ring.
      replace (A + (Rabs (val s) + abs_sum ls)) with (A + Rabs (val s) + abs_sum ls) by ring. exact R3.
Qed.

Lemma abs_sum_pos (ls : list N) : 0 <= abs_sum ls.
Proof. unfold abs_sum. induction ls as [|s ls IH]; cbn [map fold_right]; [lra|]. pose proof (Rabs_pos (real_of s)). lra. Qed.

Lemma sum_accuracy (ls : list N) : Forall float_value ls -> (Z.of_nat (List.length ls) <= 2 ^ 31)%Z ->
  @nfinite N (add_all (@n0 N) (@n0 N) ls) = true /\
  Rabs (real_of (add_all (@n0 N) (@n0 N) ls) - real_sum ls) <= INR (List.length ls) * / 2 ^ 52 * abs_sum ls.
Proof.
  intros Fv L. assert (Lm : INR (List.length ls) <= most).
  { rewrite INR_IZR_INZ. unfold most. apply IZR_le in L. change (2 ^ 31)%Z with 2147483648%Z in L. eapply Rle_trans; [exact L|]. apply Req_le. ring. }
  destruct (sum_error ls Fv (S754_zero false : N) 0 0 0 eq_refl eq_refl) as (F & V & E).
  - rewrite Rabs_R0. lra.
  - cbn. lra.
  - cbn [SF2R pow]. rewrite Rminus_0_r, Rabs_R0. lra.
  - exact Lm.
  - split; [exact F|]. rewrite real_val. cbn [plus] in E. rewrite !Rplus_0_l in E.
    change (@n0 N) with (S754_zero false : N) at 2. eapply Rle_trans; [exact E|]. apply Rmult_le_compat_r; [apply abs_sum_pos|].
    set (k := List.length ls) in *. pose proof (pow_bound k) as B. pose proof (pow_two k Lm) as P. pose proof uu_pos.
    assert (0 <= INR k) by apply pos_INR. replace (/ 2 ^ 52) with (2 * uu) by (unfold uu; field).
    assert (0 <= INR k * uu) by (apply Rmult_le_pos; lra). set (q := (1 + uu) ^ k) in *. set (z := INR k * uu) in *.
    replace (INR k * (2 * uu)) with (2 * z) by (unfold z; ring). nra.
Qed.

(** ** Forests *)
Lemma routes_float store (t : tree N) row s : float_scores t -> routes store t row s -> float_value s.
Proof.
  intros H R0. induction R0 as [t row L|t row c left s L C G R IH].
  - destruct t as [|s sp l r]; [|apply H]. exists (S754_zero false). repeat split; reflexivity.
  - apply IH. destruct t as [|s0 sp l r]; [destruct left; exact H|]. destruct left; apply H.
Qed.
Lemma forest_accuracy v threads (f : forest N) : (1 <= threads)%nat -> reorders v -> loads v f -> forest_fits v f -> Forall float_scores f ->
  (Z.of_nat (List.length f) <= 2 ^ 31)%Z ->
  exists scores, evaluate_forest v threads f = Ret (SOk, Some scores) /\ List.length scores = v_rows v /\
    forall row ls, (row < v_rows v)%nat -> leaves v f row ls -> exists x, nth_error scores row = Some x /\ @nfinite N x = true /\
      Rabs (real_of x - real_sum ls) <= INR (List.length f) * / 2 ^ 52 * abs_sum ls.
Proof.
  intros T Ro Lo Fi Fs L. destruct (evaluate_ok v threads f T Ro Lo Fi) as (scores & E & Ls & P).
  exists scores. split; [exact E|]. split; [exact Ls|]. intros row ls Lt Lv. eexists. split; [apply (P row ls Lt Lv)|].
  assert (Q : List.length f = List.length ls /\ Forall float_value ls).
  { clear - Fs Lv. unfold leaves in Lv. induction Lv as [|t s f ls R0 Lv IH]; [split; [reflexivity|constructor]|].
    inversion Fs as [|? ? F1 F2]; subst. destruct (IH F2) as [A B]. split; [exact (f_equal S A)|]. constructor; [|exact B].
    eapply routes_float; [exact F1|exact R0]. }
  destruct Q as [Q Fv]. rewrite Q in L |- *. exact (sum_accuracy ls Fv L).
Qed.

(** ** Trained forests *)
Lemma store_float (v : N) : a_float_value (nstore v).
Proof.
  exists (to_f32 v). split; [|reflexivity]. unfold a_float, to_f32, to_format. destruct v as [s|s| |s m e]; try reflexivity.
  apply (normalize_val 24 128 eq_refl eq_refl).
Qed.
Lemma zero_float : a_float_value (@n0 N).
Proof. exists (S754_zero false). split; reflexivity. Qed.
Lemma shrink_floats (k : N) (t : tree N) : all_floats (apply_shrinkage k t).
Proof. induction t as [|s sp l IHl r IHr]; [exact I|]. cbn [apply_shrinkage all_floats]. split; [apply store_float|]. auto. Qed.
Lemma clear_floats (t : tree N) : all_floats t -> all_floats (clear_internal t).
Proof. induction t as [|s sp l IHl r IHr]; [trivial|]. cbn [clear_internal all_floats]. intros (A & B & C). auto. Qed.

Lemma base_floats v threads (base : list (tree N)) : Forall all_floats base -> forall k trees st k' trees' st', a_float_value k -> Forall all_floats trees ->
  init_with_base v threads base k trees st = Ret (k', trees', st') -> a_float_value k' /\ Forall all_floats trees'.
Proof.
  induction 1 as [|t base Ft Fb IH]; intros k trees st k' trees' st' Hk Ht E; cbn [init_with_base] in E; [injection E as <- <- <-; auto|].
  destruct (add_tree_scores _ _ _ _ _) as [st1| |]; [|discriminate E..]. cbn [bind] in E. destruct (single_node t).
  - eapply IH; [apply store_float|exact Ht|exact E].
  - eapply IH; [exact Hk| |exact E]. apply Forall_app. split; [exact Ht|]. constructor; [exact Ft|constructor].
Qed.
Lemma rounds_floats v threads top draw srt w features (c : config N) lf todo : forall i k trees st gd ls pos r, a_float_value k -> Forall all_floats trees ->
  rounds v threads top draw srt w features c lf todo i k trees st gd ls pos = Ret r -> Forall all_floats (tr_forest r).
Proof.
  assert (Cs : forall k : N, a_float_value k -> all_floats (c_exp := c_exp) (c_log := c_log) (constant_tree k)) by (intros k H; split; [exact H|split; exact I]).
  induction todo as [|todo IH]; intros i k trees st gd ls pos r Hk Ht E; cbn [rounds] in E.
  - injection E as <-. cbn [tr_forest]. constructor; [exact (Cs k Hk)|]. apply Forall_forall. intros t H. apply in_map_iff in H.
    destruct H as (t0 & <- & H). apply clear_floats. rewrite Forall_forall in Ht. apply Ht, H.
  - destruct (l_round _ _ _ _ _) as [[[[x gd'] ls'] pos']| |]; [|discriminate E..]. cbn [bind] in E.
    destruct (nfinite x); [|injection E as <-; constructor; [apply Cs, Hk|exact Ht]].
    destruct (fit_tree _ _ _ _ _ _ _ _ _) as [[t p2]| |]; [|discriminate E..]. cbn [bind] in E.
    destruct (add_tree_scores _ _ _ _ _) as [st1| |]; [|discriminate E..]. cbn [bind] in E.
    eapply IH; [apply store_float| |exact E]. apply Forall_app. split; [exact Ht|]. constructor; [apply shrink_floats|constructor].
Qed.
Lemma train_floats v threads top draw pos srt names w y lf (c : config N) base r : (forall b, base = Some b -> Forall all_floats b) ->
  train v threads top draw pos srt names w y lf c base = Ret r -> Forall all_floats (tr_forest r).
Proof.
  intros Fb E. unfold train in E. destruct (check_config c); [|injection E as <-; constructor].
  destruct (load_features _ _) as [[|e] features]; [|injection E as <-; constructor].
  destruct (group_column _ _) as [group| |]; [|discriminate E..]. cbn [bind] in E.
  destruct (l_init _ _ _ _ _) as [[e|ls]| |]; [| |discriminate E..]; cbn [bind] in E; [injection E as <-; constructor|].
  destruct (init_scores v threads) as [st0| |]; [|discriminate E..]. cbn [bind] in E.
  destruct (init_with_base _ _ _ _ _ _) as [[[k trees] st]| |] eqn:B; [|discriminate E..]. cbn [bind] in E.
  apply base_floats in B; [|destruct base as [b|]; [apply Fb; reflexivity|constructor]|apply zero_float|constructor].
  eapply rounds_floats; [apply B|apply B|exact E].
Qed.
Lemma finite_floats (t : tree N) : all_floats t -> (forall p s sp, has_node t p s sp -> @nfinite N s = true) -> float_scores t.
Proof.
  induction t as [|s sp l IHl r IHr]; [trivial|]. cbn [all_floats float_scores]. intros (A & B & C) F.
  split; [|split; [apply IHl; [exact B|]|apply IHr; [exact C|]]].
  - destruct A as (x & Ax & ->). exists x. split; [exact Ax|]. split; [|reflexivity]. specialize (F [] _ _ (NodeHere _ _ _ _)).
    destruct x as [b|b| |b m e]; try reflexivity; discriminate F.
  - intros p s0 sp0 H. apply (F (true :: p) s0 sp0). constructor. exact H.
  - intros p s0 sp0 H. apply (F (false :: p) s0 sp0). constructor. exact H.
Qed.
End Sum.
