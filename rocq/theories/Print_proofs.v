(** Print_proofs.v - decimal text of doubles (property C79). *)
From Coq Require Import SpecFloat Reals Lra Lia ZArith Psatz.
From Flocq Require Import Core Relative IEEE754.BinarySingleNaN.
From Verif Require Import Base Base_proofs F32 F32_proofs Num Column DataStore Forest Eval Python PythonSpec PyPlot ValueSpec Driver Strings StringsSpec Strings_proofs FloatReal_proofs Threshold_proofs PairExact_proofs Stopwatch StopwatchSpec Stopwatch_proofs EvalSpec PyScores PyScoresSpec PyScores_proofs Print PrintSpec.
Local Open Scope R_scope.
Local Notation val := (SF2R radix2).
Local Instance P64 : FLX.Prec_gt_0 53 := eq_refl.
Local Instance M64 : Prec_lt_emax 53 1024 := eq_refl.
Local Instance V64 : Valid_exp fexp64 := fexp_correct 53 1024 P64.

Definition radix10 : radix := Build_radix 10 eq_refl.
Local Notation ten k := (bpow radix10 k).

(** ** Counting digits *)
Lemma digits_loop_ok fuel : forall z, (0 <= z < 2 ^ Z.of_nat fuel)%Z -> (0 <= digits_loop fuel z)%Z /\ (z < 10 ^ digits_loop fuel z)%Z /\
  (0 < z -> 1 <= digits_loop fuel z /\ 10 ^ (digits_loop fuel z - 1) <= z)%Z.
Proof.
  induction fuel as [|k IH]; intros z H.
  - change (2 ^ Z.of_nat 0)%Z with 1%Z in H. assert (z = 0%Z) as -> by lia. cbn. split; [lia|]. split; [reflexivity|lia].
  - cbn [digits_loop]. destruct (z <=? 0)%Z eqn:E; [apply Z.leb_le in E; assert (z = 0%Z) as -> by lia; split; [lia|]; split; [reflexivity|lia]|].
    apply Z.leb_gt in E. rewrite Nat2Z.inj_succ, Z.pow_succ_r in H by lia.
    destruct (IH (z / 10)%Z) as (P & U & L).
    { split; [apply Z.div_pos; lia|]. apply Z.div_lt_upper_bound; lia. }
    set (d := digits_loop k (z / 10)) in *. split; [lia|]. split.
    + rewrite Z.pow_add_r by lia. change (10 ^ 1)%Z with 10%Z. pose proof (Z.div_mod z 10). pose proof (Z.mod_pos_bound z 10). nia.
    + intros _. split; [lia|]. replace (1 + d - 1)%Z with d by lia. destruct (Z.eq_dec d 0) as [Z0|Nz].
      * rewrite Z0. change (10 ^ 0)%Z with 1%Z. lia.
      * assert (0 < z / 10)%Z as Q.
        { destruct (Z.lt_ge_cases 0 (z / 10)) as [|G]; [assumption|]. assert (z / 10 = 0)%Z as Q0 by (pose proof (Z.div_pos z 10); lia).
          exfalso. apply Nz. unfold d. rewrite Q0. destruct k; reflexivity. }
        destruct (L Q) as [L1 L2]. replace d with (d - 1 + 1)%Z by lia. rewrite Z.pow_add_r by lia. change (10 ^ 1)%Z with 10%Z.
        pose proof (Z.div_mod z 10). pose proof (Z.mod_pos_bound z 10). lia.
Qed.
Lemma digits_ok z : (0 <= z)%Z -> (0 <= digits z)%Z /\ (z < 10 ^ digits z)%Z /\ (0 < z -> 1 <= digits z /\ 10 ^ (digits z - 1) <= z)%Z.
Proof.
  intros H. apply digits_loop_ok. split; [exact H|]. rewrite Nat2Z.inj_succ, Z2Nat.id by apply Z.log2_nonneg.
  destruct (Z.eq_dec z 0) as [->|N]; [reflexivity|]. apply Z.log2_spec. lia.
Qed.
Lemma pw10 k : (0 <= k)%Z -> IZR (10 ^ k) = ten k.
Proof. intros H. rewrite <- (IZR_Zpower radix10) by exact H. reflexivity. Qed.

Lemma ten5 : ten 5 = 100000.
Proof. rewrite <- pw10 by lia. reflexivity. Qed.
Lemma ten6 : ten 6 = 1000000.
Proof. rewrite <- pw10 by lia. reflexivity. Qed.

(** ** The exponent *)
Lemma div_floor a b : (0 < b)%Z -> IZR (a / b) <= IZR a / IZR b < IZR (a / b + 1).
Proof.
  intros B. assert (0 < IZR b) as Pb by (apply IZR_lt; exact B). pose proof (Z.div_mod a b ltac:(lia)) as D. pose proof (Z.mod_pos_bound a b B) as M.
  split.
  - apply (Rmult_le_reg_r (IZR b)); [exact Pb|]. replace (IZR a / IZR b * IZR b) with (IZR a) by (field; lra). rewrite <- mult_IZR. apply IZR_le. nia.
  - apply (Rmult_lt_reg_r (IZR b)); [exact Pb|]. replace (IZR a / IZR b * IZR b) with (IZR a) by (field; lra). rewrite <- mult_IZR. apply IZR_lt. nia.
Qed.
Lemma exponent_ok a b : (0 < a)%Z -> (0 < b)%Z -> ten (exponent10 a b) <= IZR a / IZR b < ten (exponent10 a b + 1).
Proof.
  intros A B. assert (0 < IZR b) as Pb by (apply IZR_lt; exact B). assert (0 < IZR a) as Pa by (apply IZR_lt; exact A).
  unfold exponent10. destruct (b <=? a)%Z eqn:E.
  - apply Z.leb_le in E. pose proof (div_floor a b B) as [F1 F2]. assert (1 <= a / b)%Z as Q by (apply Z.div_le_lower_bound; lia).
    destruct (digits_ok (a / b)%Z ltac:(lia)) as (P & U & L). destruct (L ltac:(lia)) as [L1 L2]. replace (digits (a / b) - 1 + 1)%Z with (digits (a / b)) by lia.
    rewrite <- !pw10 by lia. split.
    + eapply Rle_trans; [apply IZR_le; exact L2|exact F1].
    + eapply Rlt_le_trans; [exact F2|]. apply IZR_le. lia.
  - apply Z.leb_gt in E. destruct (digits_ok ((b - 1) / a)%Z) as (P & U & L); [apply Z.div_pos; lia|].
    assert (1 <= (b - 1) / a)%Z as Q by (apply Z.div_le_lower_bound; lia). destruct (L ltac:(lia)) as [L1 L2]. set (n := digits ((b - 1) / a)) in *.
    assert (b <= a * 10 ^ n)%Z as K1.
    { assert (b - 1 < a * 10 ^ n)%Z; [|lia]. pose proof (Z.div_mod (b - 1) a ltac:(lia)). pose proof (Z.mod_pos_bound (b - 1) a A). nia. }
    assert (a * 10 ^ (n - 1) < b)%Z as K2.
    { pose proof (Z.div_mod (b - 1) a ltac:(lia)). pose proof (Z.mod_pos_bound (b - 1) a A). nia. }
    replace (- n + 1)%Z with (- (n - 1))%Z by lia. rewrite !bpow_opp, <- !pw10 by lia.
    assert (0 < IZR (10 ^ n)) as T1 by (apply IZR_lt; apply Z.pow_pos_nonneg; lia). assert (0 < IZR (10 ^ (n - 1))) as T2 by (apply IZR_lt; apply Z.pow_pos_nonneg; lia).
    apply IZR_le in K1. rewrite mult_IZR in K1. apply IZR_lt in K2. rewrite mult_IZR in K2. split.
    + apply (Rmult_le_reg_r (IZR b * IZR (10 ^ n))); [nra|]. replace (/ IZR (10 ^ n) * (IZR b * IZR (10 ^ n))) with (IZR b) by (field; lra).
      replace (IZR a / IZR b * (IZR b * IZR (10 ^ n))) with (IZR a * IZR (10 ^ n)) by (field; lra). exact K1.
    + apply (Rmult_lt_reg_r (IZR b * IZR (10 ^ (n - 1)))); [nra|]. replace (/ IZR (10 ^ (n - 1)) * (IZR b * IZR (10 ^ (n - 1)))) with (IZR b) by (field; lra).
      replace (IZR a / IZR b * (IZR b * IZR (10 ^ (n - 1)))) with (IZR a * IZR (10 ^ (n - 1))) by (field; lra). exact K2.
Qed.

(** ** Rounding *)
Lemma nearest_znearest a b : (0 < b)%Z -> nearest a b = ZnearestE (IZR a / IZR b).
Proof.
  intros B. assert (0 < IZR b) as Pb by (apply IZR_lt; exact B). pose proof (Z.div_mod a b ltac:(lia)) as D. pose proof (Z.mod_pos_bound a b B) as M.
  assert (Zfloor (IZR a / IZR b) = a / b)%Z as F by (apply Zfloor_div; lia).
  unfold nearest, Znearest. rewrite F. set (q := (a / b)%Z) in *. set (r := (a mod b)%Z) in *. cbv zeta.
  assert (IZR a / IZR b = IZR q + IZR r / IZR b) as Sum by (rewrite D at 1; rewrite plus_IZR, mult_IZR; field; lra).
  replace (IZR a / IZR b - IZR q) with (IZR r / IZR b) by lra.
  assert (Rcompare (IZR r / IZR b) (/ 2) = Z.compare (2 * r) b) as C.
  { rewrite <- (Rcompare_mult_r (2 * IZR b)) by lra. replace (IZR r / IZR b * (2 * IZR b)) with (2 * IZR r) by (field; lra).
    replace (/ 2 * (2 * IZR b)) with (IZR b) by field. rewrite <- mult_IZR. apply Rcompare_IZR. }
  rewrite C.
  destruct (Z.compare_spec (2 * r) b) as [Eq|Lt|Gt].
  - rewrite (proj2 (Z.ltb_ge (2 * r) b)), (proj2 (Z.ltb_ge b (2 * r))) by lia.
    rewrite Zceil_floor_neq.
    + rewrite F. destruct (Z.even q); reflexivity.
    + rewrite F. intros X. assert (IZR r / IZR b = 0) as Y by lra.
      assert (IZR r = 0) as W by (apply (Rmult_eq_reg_r (/ IZR b)); [rewrite Rmult_0_l; exact Y|apply Rinv_neq_0_compat; lra]). apply eq_IZR in W. lia.
  - rewrite (proj2 (Z.ltb_lt (2 * r) b)) by lia. reflexivity.
  - rewrite (proj2 (Z.ltb_ge (2 * r) b)), (proj2 (Z.ltb_lt b (2 * r))) by lia. rewrite Zceil_floor_neq; [rewrite F; reflexivity|].
    rewrite F. intros X. assert (IZR r / IZR b = 0) as Y by lra.
    assert (IZR r = 0) as W by (apply (Rmult_eq_reg_r (/ IZR b)); [rewrite Rmult_0_l; exact Y|apply Rinv_neq_0_compat; lra]). apply eq_IZR in W. lia.
Qed.
Lemma scaled_ok a b k : (0 < b)%Z -> scaled a b k = ZnearestE (IZR a / IZR b * ten k).
Proof.
  intros B. assert (0 < IZR b) as Pb by (apply IZR_lt; exact B). unfold scaled. destruct (0 <=? k)%Z eqn:E.
  - apply Z.leb_le in E. rewrite nearest_znearest by exact B. f_equal. rewrite mult_IZR, pw10 by exact E. field. lra.
  - apply Z.leb_gt in E. rewrite nearest_znearest by (apply Z.mul_pos_pos; [exact B|apply Z.pow_pos_nonneg; lia]). f_equal.
    rewrite mult_IZR, pw10 by lia. replace (ten k) with (/ ten (- k)) by (rewrite bpow_opp, Rinv_inv; reflexivity). pose proof (bpow_gt_0 radix10 (- k)). field. lra.
Qed.
Local Notation r6 := (round radix10 (FLX_exp 6) ZnearestE).
Lemma six_ok a b : (0 < a)%Z -> (0 < b)%Z -> let '(d, x) := six a b in (100000 <= d < 1000000)%Z /\ r6 (IZR a / IZR b) = IZR d * ten (x - 5).
Proof.
  intros A B. pose proof (exponent_ok a b A B) as [E1 E2]. unfold six. set (x := exponent10 a b) in *. set (v := IZR a / IZR b) in *. cbv zeta.
  assert (mag_val radix10 v (mag radix10 v) = x + 1)%Z as Mg.
  { apply mag_unique. rewrite Rabs_pos_eq by (pose proof (bpow_gt_0 radix10 x); lra). replace (x + 1 - 1)%Z with x by lia. auto. }
  assert (r6 v = IZR (scaled a b (5 - x)) * ten (x - 5)) as R.
  { unfold round, scaled_mantissa, cexp, FLX_exp, F2R. rewrite Mg. cbn [Fnum Fexp]. rewrite scaled_ok by exact B. fold v.
    replace (- (x + 1 - 6))%Z with (5 - x)%Z by lia. replace (x + 1 - 6)%Z with (x - 5)%Z by lia. reflexivity. }
  assert (100000 <= scaled a b (5 - x) <= 1000000)%Z as Bd.
  { rewrite scaled_ok by exact B. fold v.
    assert (100000 <= v * ten (5 - x) <= 1000000) as [V1 V2].
    { replace 100000 with (ten x * ten (5 - x)) by (rewrite <- bpow_plus; replace (x + (5 - x))%Z with 5%Z by lia; apply ten5).
      replace 1000000 with (ten (x + 1) * ten (5 - x)) by (rewrite <- bpow_plus; replace (x + 1 + (5 - x))%Z with 6%Z by lia; apply ten6).
      pose proof (bpow_gt_0 radix10 (5 - x)). split; apply Rmult_le_compat_r; lra. }
    split.
    - rewrite <- (Zrnd_IZR ZnearestE 100000). apply Zrnd_le; [apply valid_rnd_N|exact V1].
    - rewrite <- (Zrnd_IZR ZnearestE 1000000). apply Zrnd_le; [apply valid_rnd_N|exact V2]. }
  set (d := scaled a b (5 - x)) in *. destruct (d =? 1000000)%Z eqn:Q.
  - apply Z.eqb_eq in Q. split; [lia|]. rewrite R, Q. replace (x + 1 - 5)%Z with (1 + (x - 5))%Z by lia. rewrite bpow_plus. cbn [bpow]. change (Z.pow_pos radix10 1) with 10%Z.
    rewrite <- Rmult_assoc. f_equal. lra.
  - apply Z.eqb_neq in Q. split; [lia|exact R].
Qed.

(** ** Numbers of six digits *)
Local Instance P6 : Prec_gt_0 6 := eq_refl.
Lemma six_format d : six_digits d <-> generic_format radix10 (FLX_exp 6) d.
Proof.
  split.
  - intros (m & k & Am & ->). apply generic_format_FLX. exists (Float radix10 m k); [|exact Am]. unfold F2R. cbn [Fnum Fexp]. rewrite bpow_powerRZ. reflexivity.
  - intros G. apply FLX_format_generic in G; [|exact P6]. destruct G as [[m k] -> Am]. exists m, k. split; [exact Am|]. unfold F2R. cbn [Fnum Fexp]. rewrite bpow_powerRZ. reflexivity.
Qed.
Lemma r6_nearest x : nearest_six x (r6 x).
Proof.
  destruct (round_N_pt radix10 (FLX_exp 6) (fun t => negb (Z.even t)) x) as [F N]. split; [apply six_format; exact F|]. intros d' D'. apply N, six_format, D'.
Qed.
Lemma r6_error x : Rabs (r6 x - x) <= 5 / 1000000 * Rabs x.
Proof.
  eapply Rle_trans; [apply (relative_error_N_FLX radix10 6 eq_refl (fun t => negb (Z.even t)))|]. apply Rmult_le_compat_r; [apply Rabs_pos|].
  match goal with |- / 2 * ?b <= _ => replace b with (/ 100000) end; [lra|]. symmetry. pose proof (bpow_opp radix10 5) as B. rewrite ten5 in B. exact B.
Qed.
Lemma r6_le x y : x <= y -> r6 x <= r6 y.
Proof. apply round_le; typeclasses eauto. Qed.
Lemma r6_opp x : r6 (- x) = - r6 x.
Proof. apply round_NE_opp. Qed.
Lemma nearest_six_unique x d : six_digits d -> (forall d', six_digits d' -> d' <> d -> Rabs (d - x) < Rabs (d' - x)) -> r6 x = d.
Proof.
  intros D H. destruct (r6_nearest x) as [D' N]. destruct (Req_dec (r6 x) d) as [E|E]; [exact E|]. pose proof (N d D). pose proof (H _ D' E). lra.
Qed.

(** ** Rows of digits *)
Lemma digit_spec c : decimal_digit c <-> is_digit c = true.
Proof.
  split.
  - intros I. cbn in I. repeat destruct I as [<-|I]; try reflexivity. destruct I.
  - unfold is_digit. intros H. rewrite <- (ascii_nat_embedding c). apply andb_true_iff in H. destruct H as [H1 H2]. apply Nat.leb_le in H1, H2.
    set (n := nat_of_ascii c) in *. clearbody n.
    assert (In n (seq 48 10)) as I by (apply in_seq; lia). cbn in I. unfold decimal_digit.
    repeat destruct I as [<-|I]; try (cbn; tauto).
Qed.
Lemma digit_char_ok z : (0 <= z < 10)%Z -> decimal_digit (digit_char z) /\ Z.of_nat (nat_of_ascii (digit_char z)) = (48 + z)%Z.
Proof.
  intros H. assert (nat_of_ascii (digit_char z) = 48 + Z.to_nat z)%nat as E by (unfold digit_char; apply nat_ascii_embedding; lia). split.
  - apply digit_spec. unfold is_digit. rewrite E. apply andb_true_iff. split; apply Nat.leb_le; lia.
  - rewrite E. lia.
Qed.
Lemma decimal_app s t : decimal (s ++ t) = (decimal s * 10 ^ zlen t + decimal t)%Z.
Proof.
  induction s as [|c s IH]; [reflexivity|]. cbn [app decimal]. rewrite IH. replace (zlen (s ++ t)) with (zlen s + zlen t)%Z by (unfold zlen; rewrite app_length; lia).
  rewrite Z.pow_add_r by (unfold zlen; lia). ring.
Qed.
Lemma decimal_nonneg s : Forall decimal_digit s -> (0 <= decimal s)%Z.
Proof.
  induction 1 as [|c s D F IH]; [reflexivity|]. cbn [decimal]. apply digit_spec in D. unfold is_digit in D. apply andb_true_iff in D. destruct D as [D _]. apply Nat.leb_le in D.
  assert (0 <= 10 ^ zlen s)%Z by (apply Z.pow_nonneg; lia). nia.
Qed.
Lemma number_fold s : forall a, fold_left (fun a c => (10 * a + (Z.of_nat (nat_of_ascii c) - 48))%Z) s a = (a * 10 ^ zlen s + decimal s)%Z.
Proof.
  induction s as [|c s IH]; intros a; [cbn [fold_left decimal]; change (10 ^ zlen (@nil ascii))%Z with 1%Z; lia|]. cbn [fold_left decimal]. rewrite IH. replace (zlen (c :: s)) with (1 + zlen s)%Z by (unfold zlen; cbn [List.length]; lia).
  rewrite Z.pow_add_r by (unfold zlen; lia). ring.
Qed.
Lemma number_decimal s : number_of s = decimal s.
Proof. unfold number_of. rewrite number_fold. lia. Qed.
Lemma padded_ok k : forall n, (0 <= n)%Z -> List.length (padded k n) = k /\ Forall decimal_digit (padded k n) /\ decimal (padded k n) = (n mod 10 ^ Z.of_nat k)%Z.
Proof.
  induction k as [|k IH]; intros n H.
  - cbn. split; [reflexivity|]. split; [constructor|]. rewrite Z.mod_1_r. reflexivity.
  - cbn [padded]. destruct (IH (n / 10)%Z (Z.div_pos n 10 H ltac:(lia))) as (L & D & V). pose proof (Z.mod_pos_bound n 10 ltac:(lia)) as M.
    destruct (digit_char_ok (n mod 10)%Z M) as [C1 C2]. split; [rewrite app_length, L; cbn; lia|]. split; [apply Forall_app; split; [exact D|constructor; [exact C1|constructor]]|].
    rewrite decimal_app, V. cbn [decimal]. rewrite C2. change (zlen [digit_char (n mod 10)]) with 1%Z. change (zlen (@nil ascii)) with 0%Z. change (10 ^ 1)%Z with 10%Z. change (10 ^ 0)%Z with 1%Z.
    rewrite Nat2Z.inj_succ, Z.pow_succ_r by lia. rewrite (Z.rem_mul_r n 10) by (try apply Z.pow_pos_nonneg; lia). lia.
Qed.
Lemma padded_id k n : (0 <= n < 10 ^ Z.of_nat k)%Z -> decimal (padded k n) = n.
Proof. intros H. destruct (padded_ok k n) as (_ & _ & ->); [lia|]. apply Z.mod_small. exact H. Qed.
Lemma drop_zeros s : exists j, s = repeat "0"%char j ++ drop_while is_zero_char s.
Proof.
  induction s as [|c s (j & IH)]; [exists 0%nat; reflexivity|]. cbn [drop_while]. unfold is_zero_char at 1. destruct (ascii_dec c "0"%char) as [->|N].
  - exists (S j). cbn. f_equal. exact IH.
  - exists 0%nat. reflexivity.
Qed.
Lemma rev_repeat {A} (x : A) n : rev (repeat x n) = repeat x n.
Proof. induction n as [|n IH]; [reflexivity|]. cbn. rewrite IH. symmetry. apply repeat_cons. Qed.
Lemma zeros_off s : exists j, s = without_zeros s ++ repeat "0"%char j.
Proof.
  unfold without_zeros. destruct (drop_zeros (rev s)) as [j E]. exists j. apply (f_equal (@rev ascii)) in E. rewrite rev_involutive, rev_app_distr, rev_repeat in E. exact E.
Qed.
Lemma decimal_zeros j : decimal (repeat "0"%char j) = 0%Z.
Proof. induction j as [|j IH]; [reflexivity|]. cbn [repeat decimal]. rewrite IH. reflexivity. Qed.

(** ** The text denotes the rounded number *)
Definition exp_text (ex : option (bool * str)) : str := match ex with Some (n, e) => lit "e" ++ (if n : bool then lit "-" else lit "+") ++ e | None => [] end.
Definition exp_value (ex : option (bool * str)) : Z := match ex with Some (n, e) => ((if n : bool then -1 else 1) * decimal e)%Z | None => 0%Z end.
Definition exp_fine (ex : option (bool * str)) : Prop := match ex with Some (_, e) => e <> [] /\ Forall decimal_digit e | None => True end.
Definition sign_text (neg : bool) : str := if neg then lit "-" else [].
Definition sg (neg : bool) : R := if neg then -1 else 1.
Lemma pointed_denotes neg w f ex : w <> [] -> Forall decimal_digit (w ++ f) -> exp_fine ex ->
  denotes (sign_text neg ++ pointed w f ++ exp_text ex) (sg neg * (IZR (decimal (w ++ f)) * ten (exp_value ex - zlen f))).
Proof.
  intros Nw D X. destruct (zeros_off f) as [j E]. set (f' := without_zeros f) in *.
  assert (Forall decimal_digit (w ++ f')) as D'.
  { rewrite E, app_assoc in D. apply Forall_app in D. apply D. }
  replace (sg neg * (IZR (decimal (w ++ f)) * ten (exp_value ex - zlen f))) with (sg neg * IZR (decimal (w ++ f')) * powerRZ 10 (exp_value ex - zlen f')).
  - replace (sign_text neg ++ pointed w f ++ exp_text ex) with
      (sign_text neg ++ w ++ (match f' with [] => [] | _ => lit "." ++ f' end) ++ exp_text ex).
    + exact (Denotes neg w f' ex Nw D' X).
    + unfold pointed. fold f'. destruct f' as [|c f']; rewrite ?app_nil_r; [reflexivity|]. rewrite <- !app_assoc. reflexivity.
  - rewrite Rmult_assoc. f_equal. change 10 with (IZR radix10). rewrite <- bpow_powerRZ. rewrite E at 1. rewrite app_assoc, (decimal_app (w ++ f')), decimal_zeros, Z.add_0_r.
    rewrite mult_IZR, pw10 by (unfold zlen; lia). rewrite Rmult_assoc, <- bpow_plus. f_equal. f_equal.
    assert (zlen f = zlen f' + zlen (repeat "0"%char j))%Z as El by (rewrite E at 1; unfold zlen; rewrite app_length; lia). lia.
Qed.
Lemma firstn_skipn_pad k d j : (firstn j (padded k d) ++ skipn j (padded k d)) = padded k d.
Proof. apply firstn_skipn. Qed.
Lemma zlen_skipn {A} j (l : list A) : (j <= List.length l)%nat -> zlen (skipn j l) = (zlen l - Z.of_nat j)%Z.
Proof. intros H. unfold zlen. rewrite skipn_length. lia. Qed.
Lemma general_denotes neg d x : (100000 <= d < 1000000)%Z -> denotes (sign_text neg ++ general d x) (sg neg * (IZR d * ten (x - 5))).
Proof.
  intros Hd. destruct (padded_ok 6 d ltac:(lia)) as (L6 & D6 & _). assert (decimal (padded 6 d) = d) as V6 by (apply padded_id; cbn; lia).
  assert (zlen (padded 6 d) = 6)%Z as Z6 by (unfold zlen; rewrite L6; reflexivity).
  unfold general. destruct ((-4 <=? x) && (x <? 6))%Z eqn:E.
  - apply andb_true_iff in E. destruct E as [E1 E2]. apply Z.leb_le in E1. apply Z.ltb_lt in E2. destruct (0 <=? x)%Z eqn:E3.
    + apply Z.leb_le in E3. pose proof (pointed_denotes neg (firstn (Z.to_nat (x + 1)) (padded 6 d)) (skipn (Z.to_nat (x + 1)) (padded 6 d)) None) as P.
      rewrite firstn_skipn, V6, zlen_skipn, Z6 in P by (rewrite L6; lia). cbn [exp_text exp_value exp_fine] in P. rewrite app_nil_r in P.
      replace (0 - (6 - Z.of_nat (Z.to_nat (x + 1))))%Z with (x - 5)%Z in P by lia. apply P; [|exact D6|exact I].
      intros Z. apply (f_equal (@List.length ascii)) in Z. rewrite firstn_length, L6 in Z. cbn in Z. lia.
    + apply Z.leb_gt in E3. pose proof (pointed_denotes neg (lit "0") (repeat "0"%char (Z.to_nat (- x - 1)) ++ padded 6 d) None) as P.
      assert (decimal (lit "0" ++ repeat "0"%char (Z.to_nat (- x - 1)) ++ padded 6 d) = d) as V.
      { rewrite !decimal_app, decimal_zeros, V6. cbn. lia. }
      rewrite V in P. cbn [exp_text exp_value exp_fine] in P. rewrite app_nil_r in P.
      replace (0 - zlen (repeat "0"%char (Z.to_nat (- x - 1)) ++ padded 6 d))%Z with (x - 5)%Z in P by (unfold zlen; rewrite app_length, repeat_length, L6; lia).
      apply P; [discriminate| |exact I]. apply Forall_app. split; [constructor; [cbn; tauto|constructor]|]. apply Forall_app. split; [|exact D6].
      apply Forall_forall. intros c I. apply repeat_spec in I. subst c. cbn. tauto.
  - set (k := if (Z.abs x <? 100)%Z then 2%nat else Z.to_nat (digits (Z.abs x))).
    destruct (digits_ok (Z.abs x) ltac:(lia)) as (P0 & U & Lw).
    assert (Z.abs x < 10 ^ Z.of_nat k)%Z as Bk.
    { unfold k. destruct (Z.abs x <? 100)%Z eqn:C; [apply Z.ltb_lt in C; exact C|]. rewrite Z2Nat.id by exact P0. exact U. }
    assert (k <> 0)%nat as Nk.
    { unfold k. destruct (Z.abs x <? 100)%Z eqn:C; [discriminate|]. apply Z.ltb_ge in C. destruct (Lw ltac:(lia)). lia. }
    destruct (padded_ok k (Z.abs x) ltac:(lia)) as (Lk & Dk & _). pose proof (padded_id k (Z.abs x) ltac:(lia)) as Vk.
    pose proof (pointed_denotes neg (firstn 1 (padded 6 d)) (skipn 1 (padded 6 d)) (Some ((x <? 0)%Z, padded k (Z.abs x)))) as P.
    rewrite firstn_skipn, V6, zlen_skipn, Z6 in P by (rewrite L6; lia). cbn [exp_text exp_value exp_fine] in P. rewrite Vk in P.
    replace ((if (x <? 0)%Z then -1 else 1) * Z.abs x - (6 - Z.of_nat 1))%Z with (x - 5)%Z in P by (destruct (x <? 0)%Z eqn:C; [apply Z.ltb_lt in C|apply Z.ltb_ge in C]; lia).
    apply P; [|exact D6|split; [|exact Dk]].
    + intros Z. apply (f_equal (@List.length ascii)) in Z. rewrite firstn_length, L6 in Z. discriminate Z.
    + intros Z. apply (f_equal (@List.length ascii)) in Z. rewrite Lk in Z. cbn in Z. lia.
Qed.

(** ** Printing a double *)
Definition fraction_of (m : positive) (e : Z) : Z * Z := if (0 <=? e)%Z then ((Zpos m * 2 ^ e)%Z, 1%Z) else (Zpos m, (2 ^ (- e))%Z).
Lemma fraction_ok m e : let '(a, b) := fraction_of m e in (0 < a)%Z /\ (0 < b)%Z /\ IZR a / IZR b = IZR (Zpos m) * bpow radix2 e.
Proof.
  unfold fraction_of. destruct (0 <=? e)%Z eqn:E.
  - apply Z.leb_le in E. split; [apply Z.mul_pos_pos; [lia|apply Z.pow_pos_nonneg; lia]|]. split; [lia|]. rewrite mult_IZR, pw2 by exact E. field.
  - apply Z.leb_gt in E. split; [lia|]. split; [apply Z.pow_pos_nonneg; lia|]. rewrite bpow_div by exact E. reflexivity.
Qed.
Lemma print_finite s m e : print_double (S754_finite s m e) = sign_text s ++ (let '(a, b) := fraction_of m e in let '(d, k) := six a b in general d k).
Proof. unfold print_double, fraction_of, sign_text. destruct (0 <=? e)%Z; [destruct (six (Zpos m * 2 ^ e) 1)|destruct (six (Zpos m) (2 ^ (- e)))]; reflexivity. Qed.
Lemma val_finite s m e : val (S754_finite s m e) = sg s * (IZR (Zpos m) * bpow radix2 e).
Proof. rewrite val_neg. destruct s; reflexivity. Qed.
Lemma r6_sg s x : r6 (sg s * x) = sg s * r6 x.
Proof. destruct s; cbn [sg]; [|rewrite !Rmult_1_l; reflexivity]. replace (-1 * x) with (- x) by ring. rewrite r6_opp. ring. Qed.
Lemma finite_six s m e : exists d k, print_double (S754_finite s m e) = sign_text s ++ general d k /\ (100000 <= d < 1000000)%Z /\
  r6 (val (S754_finite s m e)) = sg s * (IZR d * ten (k - 5)).
Proof.
  rewrite print_finite, val_finite, r6_sg. pose proof (fraction_ok m e) as F. destruct (fraction_of m e) as [a b]. destruct F as (A & B & <-).
  pose proof (six_ok a b A B) as S. destruct (six a b) as [d k]. destruct S as [D ->]. exists d, k. split; [reflexivity|]. split; [exact D|reflexivity].
Qed.
Lemma print_ok x : fin x = true -> denotes (print_double x) (r6 (val x)).
Proof.
  destruct x as [s|s| |s m e]; try discriminate; intros _.
  - cbn [SF2R]. rewrite round_0 by typeclasses eauto.
    assert (sg s * (IZR (decimal (lit "0" ++ [])) * ten (exp_value None - zlen (@nil ascii))) = 0) as Z by (change (decimal (lit "0" ++ [])) with 0%Z; ring).
    rewrite <- Z at 1. apply (pointed_denotes s (lit "0") [] None); [discriminate| |exact I]. constructor; [cbn; tauto|constructor].
  - destruct (finite_six s m e) as (d & k & -> & D & ->). apply general_denotes, D.
Qed.

(** ** Reading *)
Lemma take_all s : forall r, Forall decimal_digit s -> match r with [] => True | c :: _ => is_digit c = false end -> take_digits (s ++ r) = (s, r).
Proof.
  induction s as [|c s IH]; intros r D R.
  - destruct r as [|c r]; [reflexivity|]. cbn. rewrite R. reflexivity.
  - inversion D as [|? ? Dc Ds]; subst. cbn. apply digit_spec in Dc. rewrite Dc, (IH r Ds R). reflexivity.
Qed.
Lemma ascii_same {A} c (x y : A) : (if ascii_dec c c then x else y) = x.
Proof. destruct (ascii_dec c c) as [|N]; [reflexivity|exfalso; apply N; reflexivity]. Qed.
Lemma digit_not c d : is_digit c = true -> is_digit d = false -> c <> d.
Proof. intros C D ->. congruence. Qed.
Lemma exp_read w f ex neg : w <> [] -> Forall decimal_digit (w ++ f) -> exp_fine ex ->
  read_decimal neg (w ++ (match f with [] => [] | _ => lit "." ++ f end) ++ exp_text ex) = Some (neg, decimal (w ++ f), (exp_value ex - zlen f)%Z).
Proof.
  intros Nw D X. apply Forall_app in D. destruct D as [Dw Df]. unfold read_decimal.
  rewrite take_all; [|exact Dw|destruct f as [|c f]; [destruct ex as [[n e]|]; [reflexivity|exact I]|reflexivity]].
  assert (take_fraction (match f with [] => [] | _ => lit "." ++ f end ++ exp_text ex) = (f, exp_text ex)) as E.
  { destruct f as [|c f].
    - cbn [app]. destruct ex as [[n e]|]; [|reflexivity]. reflexivity.
    - transitivity (take_digits ((c :: f) ++ exp_text ex)); [reflexivity|]. apply take_all; [exact Df|]. destruct ex as [[n e]|]; [reflexivity|exact I]. }
  cbv beta iota. rewrite E, number_decimal. destruct w as [|c w]; [congruence|]. destruct ex as [[n e]|]; cbn [exp_text exp_value] in *; [|f_equal; f_equal; lia].
  destruct X as [Ne De].
  assert (take_digits e = (e, [])) as T by (rewrite <- (app_nil_r e) at 1; apply take_all; [exact De|exact I]).
  destruct n; change (lit "e" ++ lit "-" ++ e) with ("e"%char :: "-"%char :: e); change (lit "e" ++ lit "+" ++ e) with ("e"%char :: "+"%char :: e); cbv beta iota; rewrite ascii_same, T;
    (destruct e as [|c' e]; [congruence|]); rewrite number_decimal.
  - destruct (ascii_dec "-"%char "+"%char) as [Q|_]; [discriminate Q|]. rewrite ascii_same.
    replace (-1 * decimal (c' :: e) - zlen f)%Z with (- zlen f - decimal (c' :: e))%Z by (generalize (decimal (c' :: e)); intros; lia). reflexivity.
  - rewrite ascii_same. replace (1 * decimal (c' :: e) - zlen f)%Z with (- zlen f + decimal (c' :: e))%Z by (generalize (decimal (c' :: e)); intros; lia). reflexivity.
Qed.
Lemma lit_first s w r : w <> [] -> Forall decimal_digit w -> is_digit (hd "0"%char s) = false -> str_eqb (w ++ r) s = false.
Proof.
  intros Nw D S. destruct w as [|c w]; [congruence|]. inversion D as [|? ? Dc _]; subst. apply digit_spec in Dc. destruct s as [|c' s]; [discriminate S|].
  destruct (str_eqb ((c :: w) ++ r) (c' :: s)) eqn:E; [|reflexivity]. destruct (str_eqb_spec ((c :: w) ++ r) (c' :: s)) as [Q|]; [|discriminate E]. injection Q as -> _. cbn in S. congruence.
Qed.
Lemma read_parts t r : denotes t r -> exists neg n k, (0 <= n)%Z /\ (let '(neg, s) := signed t in read_decimal neg s) = Some (neg, n, k) /\
  read_double t = Some (nearest_double neg n k) /\ r = sg neg * (IZR n * ten k).
Proof.
  intros [neg w f ex Nw D X]. exists neg, (decimal (w ++ f)), (exp_value ex - zlen f)%Z. split; [apply decimal_nonneg, D|].
  change (match ex with Some (n, e) => lit "e" ++ (if n : bool then lit "-" else lit "+") ++ e | None => [] end) with (exp_text ex).
  change (match ex with Some (n, e) => ((if n : bool then -1 else 1) * decimal e)%Z | None => 0%Z end) with (exp_value ex).
  pose proof (exp_read w f ex neg Nw D X) as E. set (rest := (match f with [] => [] | _ => lit "." ++ f end ++ exp_text ex)) in *.
  apply Forall_app in D. destruct D as [Dw _].
  assert (signed ((if neg then lit "-" else []) ++ w ++ rest) = (neg, w ++ rest)) as S.
  { destruct neg; [reflexivity|]. destruct w as [|c w]; [congruence|]. inversion Dw as [|? ? Dc _]; subst. apply digit_spec in Dc. cbn [app signed].
    destruct (ascii_dec c "-"%char) as [->|_]; [discriminate Dc|reflexivity]. }
  unfold read_double. rewrite S, (lit_first (lit "nan")), (lit_first (lit "inf")), E by (try assumption; reflexivity). split; [reflexivity|]. split; [reflexivity|].
  rewrite bpow_powerRZ. change (IZR radix10) with 10. unfold sg. ring.
Qed.
Lemma denotes_one t r r' : denotes t r -> denotes t r' -> r = r'.
Proof. intros H H'. destruct (read_parts t r H) as (? & ? & ? & _ & E & _ & ->), (read_parts t r' H') as (? & ? & ? & _ & E' & _ & ->). congruence. Qed.

(** ** The nearest double *)
Lemma divided neg p q : let z := SFdiv 53 1024 (S754_finite neg p 0) (S754_finite false q 0) in
  Rabs (rnd64 (sg neg * (IZR (Zpos p) / IZR (Zpos q)))) < bpow radix2 1024 ->
  f64valid z = true /\ fin z = true /\ val z = rnd64 (sg neg * (IZR (Zpos p) / IZR (Zpos q))) /\ sign_SF z = neg.
Proof.
  intros z B. pose proof (Bdiv_correct_aux 53 1024 P64 M64 mode_NE neg p 0 false q 0) as H. cbv zeta in H.
  assert (F2R (Float radix2 (SpecFloat.cond_Zopp neg (Zpos p)) 0) / F2R (Float radix2 (SpecFloat.cond_Zopp false (Zpos q)) 0) = sg neg * (IZR (Zpos p) / IZR (Zpos q))) as E.
  { unfold F2R. cbn [Fnum Fexp bpow SpecFloat.cond_Zopp]. rewrite !Rmult_1_r. destruct neg; cbn [SpecFloat.cond_Zopp sg]; [rewrite opp_IZR|]; field; apply IZR_neq; lia. }
  rewrite E in H. change (round_mode mode_NE) with ZnearestE in H.
  rewrite Rlt_bool_true in H by exact B.
  assert (z = let '(mz, ez, lz) := SpecFloat.SFdiv_core_binary 53 1024 (Zpos p) 0 (Zpos q) 0 in binary_round_aux 53 1024 mode_NE (xorb neg false) mz ez lz) as Z.
  { unfold z, SFdiv. destruct (SpecFloat.SFdiv_core_binary 53 1024 (Zpos p) 0 (Zpos q) 0) as [[mz ez] lz]. apply round_aux_equiv. }
  rewrite <- Z in H. destruct H as (V & X & F & S). rewrite xorb_false_r in S. repeat split; assumption.
Qed.
Lemma nearest_double_ok neg n k : (0 <= n)%Z -> let r := sg neg * (IZR n * ten k) in Rabs (rnd64 r) < bpow radix2 1024 ->
  f64valid (nearest_double neg n k) = true /\ fin (nearest_double neg n k) = true /\ val (nearest_double neg n k) = rnd64 r /\ sign_SF (nearest_double neg n k) = neg.
Proof.
  intros Hn r B. destruct n as [|m|m]; [| |lia].
  - unfold r. rewrite Rmult_0_l, Rmult_0_r, round_0 by typeclasses eauto. repeat split; reflexivity.
  - unfold nearest_double. destruct (0 <=? k)%Z eqn:K.
    + apply Z.leb_le in K. assert (0 < Zpos m * 10 ^ k)%Z as P by (apply Z.mul_pos_pos; [lia|apply Z.pow_pos_nonneg; lia]).
      assert (sg neg * (IZR (Zpos (Z.to_pos (Zpos m * 10 ^ k))) / IZR (Zpos 1)) = r) as E.
      { rewrite Z2Pos.id by exact P. rewrite mult_IZR, pw10 by exact K. unfold r. field. }
      rewrite <- E in *. apply divided, B.
    + apply Z.leb_gt in K. assert (0 < 10 ^ (- k))%Z as P by (apply Z.pow_pos_nonneg; lia).
      assert (sg neg * (IZR (Zpos m) / IZR (Zpos (Z.to_pos (10 ^ (- k))))) = r) as E.
      { rewrite Z2Pos.id by exact P. rewrite pw10 by lia. rewrite bpow_opp. unfold r. field. apply Rgt_not_eq, bpow_gt_0. }
      rewrite <- E in *. apply divided, B.
Qed.
Lemma max_format : generic_format radix2 fexp64 max_double.
Proof. unfold max_double. rewrite mult_IZR, pw2 by lia. apply format_scaled; lia. Qed.
Lemma max_below : max_double < bpow radix2 1024.
Proof. unfold max_double. rewrite <- pw2 by lia. apply IZR_lt. reflexivity. Qed.
Lemma rnd_bounded r : Rabs r <= max_double -> Rabs (rnd64 r) < bpow radix2 1024.
Proof.
  intros H. eapply Rle_lt_trans; [|exact max_below]. apply Rabs_le_inv in H. apply Rabs_le.
  split; [rewrite <- (rnd64_id _ (generic_format_opp _ _ _ max_format))|rewrite <- (rnd64_id _ max_format)]; apply rnd64_le; apply H.
Qed.
Lemma rnd_nearest r y : a_double y -> val y = rnd64 r -> nearest_to r y.
Proof.
  intros D V. split; [exact D|]. intros y' D'. apply double_ok in D'. rewrite !real_val, V.
  destruct (round_N_pt radix2 fexp64 (fun t => negb (Z.even t)) r) as [_ N]. apply N. apply val_format, D'.
Qed.
Lemma read_nearest t r : denotes t r -> Rabs r <= max_double -> exists y, read_double t = Some y /\ nearest_to r y /\ val y = rnd64 r.
Proof.
  intros H B. destruct (read_parts t r H) as (neg & n & k & N & _ & R & ->). exists (nearest_double neg n k). split; [exact R|].
  destruct (nearest_double_ok neg n k N (rnd_bounded _ B)) as (V & F & E & _). split; [|exact E]. apply rnd_nearest; [apply double_ok; split; assumption|exact E].
Qed.
Lemma double_le_max x : f64valid x = true -> fin x = true -> Rabs (val x) <= max_double.
Proof.
  intros V F. destruct (Rle_lt_dec (Rabs (val x)) max_double) as [H|H]; [exact H|exfalso].
  assert (generic_format radix2 fexp64 (Rabs (val x))) as G by (apply generic_format_abs, val_format, V).
  destruct (coarse (Rabs (val x)) 971 G) as [z E].
  { rewrite Rabs_Rabsolu. apply Rlt_le. eapply Rle_lt_trans; [|exact H]. unfold max_double. rewrite <- pw2 by lia. apply IZR_le. vm_compute. discriminate. }
  assert (Rabs (val x) < bpow radix2 1024) as B by exact (val_bound 53 1024 x V).
  rewrite E in H, B. unfold max_double in H. rewrite mult_IZR, pw2 in H by lia. apply Rmult_lt_reg_r in H; [|apply bpow_gt_0]. apply lt_IZR in H.
  replace 1024%Z with (53 + 971)%Z in B by reflexivity. rewrite bpow_plus in B. apply Rmult_lt_reg_r in B; [|apply bpow_gt_0]. rewrite <- pw2 in B by lia. apply lt_IZR in B. lia.
Qed.
Lemma r6_abs x : Rabs (r6 x) = r6 (Rabs x).
Proof. symmetry. apply round_NE_abs. typeclasses eauto. Qed.
Lemma r6_max x : Rabs x <= max_double -> Rabs (r6 x) <= max_double.
Proof.
  intros H. rewrite r6_abs. eapply Rle_trans; [apply r6_le, H|].
  pose proof (six_ok ((2 ^ 53 - 1) * 2 ^ 971) 1 ltac:(reflexivity) ltac:(reflexivity)) as S.
  replace (six ((2 ^ 53 - 1) * 2 ^ 971) 1) with (179769%Z, 308%Z) in S by (vm_compute; reflexivity). destruct S as [_ S].
  unfold Rdiv in S. rewrite Rinv_1, Rmult_1_r in S. unfold max_double. rewrite S. rewrite <- pw10 by lia. rewrite <- mult_IZR. apply IZR_le. vm_compute. discriminate.
Qed.

(** ** Written, read, and written again *)
Lemma six_apart d d' : six_digits d -> six_digits d' -> d <> d' -> Rabs d * (9 / 10000000) <= Rabs (d - d').
Proof.
  assert (forall m k m' k', (Z.abs m < 1000000)%Z -> (k <= k')%Z -> IZR m * ten k <> IZR m' * ten k' -> Rabs (IZR m * ten k) * (1 / 1000000) <= Rabs (IZR m * ten k - IZR m' * ten k')) as A.
  { intros m k m' k' M K N. assert (IZR m' * ten k' = IZR (m' * 10 ^ (k' - k)) * ten k) as Ez.
    { rewrite mult_IZR, pw10, Rmult_assoc, <- bpow_plus by lia. f_equal. f_equal. lia. }
    rewrite Ez in *. set (z := (m' * 10 ^ (k' - k))%Z) in *. clearbody z.
    replace (IZR m * ten k - IZR z * ten k) with (IZR (m - z) * ten k) by (rewrite minus_IZR; ring). rewrite !Rabs_mult, <- !abs_IZR, (Rabs_pos_eq (ten k)) by apply bpow_ge_0.
    assert (1 <= IZR (Z.abs (m - z))). { apply IZR_le. destruct (Z.eq_dec m z) as [->|]; [congruence|lia]. }
    assert (IZR (Z.abs m) <= 1000000) by (apply IZR_le; lia). pose proof (bpow_gt_0 radix10 k). nra. }
  intros (m & k & M & ->) (m' & k' & M' & ->) N. change 10 with (IZR radix10) in *. rewrite <- !bpow_powerRZ in *. destruct (Z.le_gt_cases k k') as [K|K].
  - specialize (A m k m' k' M K N). pose proof (Rabs_pos (IZR m * ten k)). lra.
  - specialize (A m' k' m k M' ltac:(lia) (not_eq_sym N)). rewrite Rabs_minus_sym in A. set (u := IZR m * ten k) in *. set (v := IZR m' * ten k') in *.
    pose proof (Rabs_triang_inv u v). pose proof (Rabs_pos v). pose proof (Rabs_pos (u - v)). lra.
Qed.
Lemma rnd_relative r : powerRZ 10 (-307) <= Rabs r -> Rabs (rnd64 r - r) <= / 2 ^ 53 * Rabs r.
Proof.
  intros H. assert (bpow radix2 (-1074 + 53 - 1) <= Rabs r) as H'.
  { eapply Rle_trans; [|exact H]. change 10 with (IZR radix10). rewrite <- bpow_powerRZ. change (-1074 + 53 - 1)%Z with (- (1022))%Z. change (-307)%Z with (- (307))%Z.
    rewrite !bpow_opp, <- pw10, <- pw2 by lia. apply Rinv_le; [apply IZR_lt; reflexivity|]. apply IZR_le. vm_compute. discriminate. }
  pose proof (relative_error_N_FLT radix2 (-1074) 53 eq_refl (fun t => negb (Z.even t)) r H') as E. eapply Rle_trans; [exact E|]. apply Rmult_le_compat_r; [apply Rabs_pos|].
  change (- (53) + 1)%Z with (- (52))%Z. rewrite bpow_opp, <- pw2 by lia. change (IZR (2 ^ 52)) with (IZR 4503599627370496). lra.
Qed.
Lemma small_six : six_digits (powerRZ 10 (-307)).
Proof. exists 1%Z, (-307)%Z. split; [reflexivity|ring]. Qed.
Lemma r6_id d : six_digits d -> r6 d = d.
Proof. intros D. apply round_generic; [typeclasses eauto|apply six_format, D]. Qed.
Lemma r6_stable x : powerRZ 10 (-307) <= Rabs x -> r6 (rnd64 (r6 x)) = r6 x.
Proof.
  intros H. set (d := r6 x). assert (six_digits d) as D by apply r6_nearest.
  assert (powerRZ 10 (-307) <= Rabs d) as H'. { unfold d. rewrite r6_abs, <- (r6_id _ small_six). apply r6_le, H. }
  assert (0 < Rabs d) as Pd by (eapply Rlt_le_trans; [|exact H']; apply powerRZ_lt; lra).
  apply nearest_six_unique; [exact D|]. intros d' D' N. pose proof (rnd_relative d H') as E. pose proof (six_apart d d' D D' (not_eq_sym N)) as A.
  set (y := rnd64 d) in *. replace (d - d') with ((y - d') - (y - d)) in A by ring. pose proof (Rabs_triang (y - d') (- (y - d))) as T. rewrite Rabs_Ropp in T.
  change (y - d' + - (y - d)) with (y - d' - (y - d)) in T. rewrite (Rabs_minus_sym d y), (Rabs_minus_sym d' y). assert (/ 2 ^ 53 < 1 / 10000000) by lra. nra.
Qed.
Lemma six_same d k d' k' : (100000 <= d < 1000000)%Z -> (100000 <= d' < 1000000)%Z -> IZR d * ten (k - 5) = IZR d' * ten (k' - 5) -> d = d' /\ k = k'.
Proof.
  assert (forall d k d' k', (100000 <= d < 1000000)%Z -> (100000 <= d' < 1000000)%Z -> IZR d * ten (k - 5) = IZR d' * ten (k' - 5) -> (k' <= k)%Z) as A.
  { clear. intros d k d' k' D D' E. destruct (Z.le_gt_cases k' k) as [|G]; [assumption|exfalso]. replace (k' - 5)%Z with (k' - k + (k - 5))%Z in E by lia. rewrite bpow_plus, <- Rmult_assoc, <- (pw10 (k' - k)), <- mult_IZR in E by lia.
    apply Rmult_eq_reg_r in E; [|apply Rgt_not_eq, bpow_gt_0]. apply eq_IZR in E. replace (k' - k)%Z with (1 + (k' - k - 1))%Z in E by lia. rewrite Z.pow_add_r in E by lia.
    pose proof (Z.pow_pos_nonneg 10 (k' - k - 1)). change (10 ^ 1)%Z with 10%Z in E. nia. }
  intros D D' E. pose proof (A _ _ _ _ D D' E). pose proof (A _ _ _ _ D' D (eq_sym E)). assert (k = k') as -> by lia. split; [|reflexivity].
  apply Rmult_eq_reg_r in E; [|apply Rgt_not_eq, bpow_gt_0]. apply eq_IZR, E.
Qed.
Lemma same_text x y : fin x = true -> fin y = true -> sign_SF x = sign_SF y -> r6 (val x) = r6 (val y) -> print_double x = print_double y.
Proof.
  assert (forall s d k, (100000 <= d)%Z -> sg s * (IZR d * ten (k - 5)) <> 0) as NZ.
  { intros s d k D E. apply Rmult_integral in E. destruct E as [E|E]; [destruct s; cbn in E; lra|]. apply Rmult_integral in E. destruct E as [E|E]; [apply eq_IZR in E; lia|]. pose proof (bpow_gt_0 radix10 (k - 5)). lra. }
  intros Fx Fy S E. destruct x as [s|s| |s m e]; try discriminate Fx; destruct y as [s'|s'| |s' m' e']; try discriminate Fy; cbn in S; subst s'.
  - reflexivity.
  - exfalso. destruct (finite_six s m' e') as (d & k & _ & D & E'). rewrite E' in E. cbn [SF2R] in E. rewrite round_0 in E by typeclasses eauto. symmetry in E. exact (NZ s d k (proj1 D) E).
  - exfalso. destruct (finite_six s m e) as (d & k & _ & D & E'). rewrite E' in E. cbn [SF2R] in E. rewrite round_0 in E by typeclasses eauto. exact (NZ s d k (proj1 D) E).
  - destruct (finite_six s m e) as (d & k & -> & D & E1), (finite_six s m' e') as (d' & k' & -> & D' & E2). rewrite E1, E2 in E.
    apply Rmult_eq_reg_l in E; [|destruct s; cbn; lra]. destruct (six_same _ _ _ _ D D' E) as [-> ->]. reflexivity.
Qed.

Local Instance E6 : Exists_NE radix10 (FLX_exp 6).
Proof. apply exists_NE_FLX. right. reflexivity. Qed.
Lemma r6_even x : rounded_six x (r6 x).
Proof.
  split; [apply r6_nearest|]. destruct (Req_dec x 0) as [->|Nx].
  - right. intros d' [D' N']. rewrite round_0 by typeclasses eauto. specialize (N' 0). assert (six_digits 0) as Z by (exists 0%Z, 0%Z; split; [reflexivity|ring]). specialize (N' Z).
    replace (0 - 0) with 0 in N' by ring. rewrite Rabs_R0 in N'. pose proof (Rabs_pos (d' - 0)). destruct (Req_dec d' 0) as [|Q]; [assumption|]. apply Rabs_pos_lt in Q. replace (d' - 0) with d' in * by ring. lra.
  - destruct (round_NE_pt radix10 (FLX_exp 6) x) as [_ [P|P]].
    + left. destruct P as ([m k] & E & C & Ev). exists m, k. cbn [Fnum] in Ev. split; [apply Z.even_spec, Ev|]. rewrite E.
      unfold F2R. cbn [Fnum Fexp]. rewrite bpow_powerRZ. split; [|reflexivity]. unfold canonical, cexp in C. cbn [Fexp] in C. rewrite <- E in C.
      assert (r6 x <> 0) as Nr. { intros Z. apply eq_0_round_0_FLX in Z; [congruence|typeclasses eauto|typeclasses eauto]. }
      change (k = mag radix10 (r6 x) - 6)%Z in C. destruct (mag radix10 (r6 x)) as [g G]. cbn [mag_val] in C. specialize (G Nr). rewrite E in G. unfold F2R in G. cbn [Fnum Fexp] in G.
      rewrite Rabs_mult, (Rabs_pos_eq (ten k)), <- abs_IZR in G by apply bpow_ge_0. subst k. destruct G as [G1 G2].
      replace (g - 1)%Z with (5 + (g - 6))%Z in G1 by lia. replace (ten g) with (ten (6 + (g - 6))) in G2 by (f_equal; lia). rewrite bpow_plus in G1, G2.
      apply Rmult_le_reg_r in G1; [|apply bpow_gt_0]. apply Rmult_lt_reg_r in G2; [|apply bpow_gt_0]. rewrite <- pw10 in G1, G2 by lia. apply le_IZR in G1. apply lt_IZR in G2. change (10 ^ 5)%Z with 100000%Z in G1. change (10 ^ 6)%Z with 1000000%Z in G2. lia.
    + right. intros d' [D' N']. apply P. split; [apply six_format, D'|]. intros g Fg. apply N', six_format, Fg.
Qed.
Lemma text_chars t r c : denotes t r -> In c t -> is_digit c = true \/ In c (lit ".e+-").
Proof.
  intros [neg w f ex _ D X]. apply Forall_app in D. destruct D as [Dw Df]. rewrite Forall_forall in Dw, Df. intros I. rewrite !in_app_iff in I.
  destruct I as [I|[I|[I|I]]].
  - destruct neg; [|destruct I]. right. cbn in I |- *. tauto.
  - left. apply digit_spec, Dw, I.
  - destruct f as [|c' f]; [destruct I|]. apply in_app_iff in I. destruct I as [I|I]; [right; cbn in I |- *; tauto|left; apply digit_spec, Df, I].
  - destruct ex as [[n e]|]; [|destruct I]. destruct X as [_ De]. rewrite Forall_forall in De. rewrite !in_app_iff in I. destruct I as [I|[I|I]].
    + right. cbn in I |- *. tauto.
    + right. destruct n; cbn in I |- *; tauto.
    + left. apply digit_spec, De, I.
Qed.
Lemma not_blank t r c : denotes t r -> In c t -> ~ blank c.
Proof.
  intros D I. destruct (text_chars t r c D I) as [H|H].
  - unfold is_digit in H. apply andb_true_iff in H. destruct H as [H _]. apply Nat.leb_le in H. unfold blank. set (n := nat_of_ascii c) in *. clearbody n. clear - H. cbn. lia.
  - cbn in H. destruct H as [<-|[<-|[<-|[<-|[]]]]]; cbn; intuition discriminate.
Qed.
Lemma text_nonempty t r : denotes t r -> t <> [].
Proof. intros [neg w f ex Nw _ _] E. apply app_eq_nil in E. destruct E as [_ E]. apply app_eq_nil in E. tauto. Qed.

(** ** Theorems *)
Lemma C79_text_proof x : a_double x -> exists d, denotes (print_double x) d /\ rounded_six (real_of x) d /\ Rabs (d - real_of x) <= 5 / 1000000 * Rabs (real_of x).
Proof. intros D. apply double_ok in D. rewrite real_val. exists (r6 (val x)). split; [apply print_ok, D|]. split; [apply r6_even|apply r6_error]. Qed.
Lemma C79_order_proof x y a b : a_double x -> a_double y -> real_of x <= real_of y -> denotes (print_double x) a -> denotes (print_double y) b -> a <= b.
Proof.
  intros Dx Dy H A B. apply double_ok in Dx, Dy. rewrite !real_val in H. rewrite (denotes_one _ _ _ A (print_ok x (proj2 Dx))), (denotes_one _ _ _ B (print_ok y (proj2 Dy))). apply r6_le, H.
Qed.
Lemma C79_exact_proof x : a_double x -> six_digits (real_of x) -> denotes (print_double x) (real_of x).
Proof. intros D S. apply double_ok in D. rewrite real_val in *. rewrite <- (r6_id _ S) at 1. apply print_ok, D. Qed.
Lemma C79_read_proof t r : denotes t r -> Rabs r <= max_double -> exists y, read_double t = Some y /\ nearest_to r y.
Proof. intros D B. destruct (read_nearest t r D B) as (y & R & N & _). exists y. split; assumption. Qed.
Lemma sign_val x : val x < 0 -> sign_SF x = true.
Proof.
  destruct x as [s|s| |s m e]; cbn [SF2R]; intros H; try lra. destruct s; [reflexivity|]. exfalso. pose proof (F2R_gt_0 radix2 (Float radix2 (Zpos m) e) ltac:(reflexivity)) as P. cbn [SpecFloat.cond_Zopp] in H. lra.
Qed.
Lemma sign_val_pos x : 0 < val x -> sign_SF x = false.
Proof.
  destruct x as [s|s| |s m e]; cbn [SF2R]; intros H; try lra. destruct s; [|reflexivity]. exfalso. pose proof (F2R_lt_0 radix2 (Float radix2 (Zneg m) e) ltac:(reflexivity)) as P. cbn [SpecFloat.cond_Zopp Z.opp] in H. lra.
Qed.
Lemma round_trip x : a_double x -> powerRZ 10 (-307) <= Rabs (real_of x) ->
  exists y, read_double (print_double x) = Some y /\ a_double y /\ Rabs (real_of y - real_of x) <= 51 / 10000000 * Rabs (real_of x) /\ print_double y = print_double x.
Proof.
  intros D H. apply double_ok in D. destruct D as [V F]. rewrite real_val in H. pose proof (print_ok x F) as P.
  destruct (read_nearest _ _ P (r6_max _ (double_le_max x V F))) as (y & R & [Dy _] & E). exists y. split; [exact R|]. split; [exact Dy|]. rewrite !real_val, E.
  set (d := r6 (val x)) in *. assert (powerRZ 10 (-307) <= Rabs d) as H'. { unfold d. rewrite r6_abs, <- (r6_id _ small_six). apply r6_le, H. }
  pose proof (rnd_relative d H') as E1. pose proof (r6_error (val x)) as E2. fold d in E2. split.
  - replace (rnd64 d - val x) with ((rnd64 d - d) + (d - val x)) by ring. eapply Rle_trans; [apply Rabs_triang|].
    assert (Rabs d <= Rabs (val x) + Rabs (d - val x)) as T. { replace d with (val x + (d - val x)) at 1 by ring. apply Rabs_triang. }
    pose proof (Rabs_pos (val x)). assert (/ 2 ^ 53 < 1 / 100000000) by lra. pose proof (Rabs_pos d). nra.
  - pose proof (proj1 (double_ok y) Dy) as [Vy Fy]. apply same_text; [exact Fy|exact F| |rewrite E; apply r6_stable, H].
    assert (0 < powerRZ 10 (-307)) as Pp by (apply powerRZ_lt; lra). set (u := val x) in *.
    assert (Rabs (val y - u) < Rabs u) as Near.
    { rewrite E. replace (rnd64 d - u) with ((rnd64 d - d) + (d - u)) by ring. eapply Rle_lt_trans; [apply Rabs_triang|].
      assert (Rabs d <= Rabs u + Rabs (d - u)) as T. { replace d with (u + (d - u)) at 1 by ring. apply Rabs_triang. }
      assert (/ 2 ^ 53 < 1 / 100000000) by lra. pose proof (Rabs_pos d). nra. }
    destruct (Rle_lt_dec 0 u) as [U|U].
    + rewrite (Rabs_pos_eq u U) in *. apply Rabs_lt_inv in Near. rewrite (sign_val_pos x), (sign_val_pos y); [reflexivity|lra|fold u; lra].
    + rewrite (Rabs_left u U) in *. apply Rabs_lt_inv in Near. rewrite (sign_val x), (sign_val y); [reflexivity|lra|fold u; lra].
Qed.
Lemma C79_survives_proof c_exp c_log (x : IEEE c_exp c_log) : exists y : IEEE c_exp c_log, survives (N := IEEE c_exp c_log) print_double read_double x y /\
  match x with
  | S754_finite _ _ _ => a_double x -> powerRZ 10 (-307) <= Rabs (real_of x) -> a_double y /\ Rabs (real_of y - real_of x) <= 51 / 10000000 * Rabs (real_of x)
  | _ => y = x
  end.
Proof.
  change (spec_float) in x.
  destruct (fin x) eqn:F.
  - pose proof (print_ok x F) as P. destruct (read_parts _ _ P) as (neg & n & k & _ & _ & R & _).
    assert (forall y : f64, read_double (print_double x) = Some y -> survives (N := IEEE c_exp c_log) print_double read_double x y) as S.
    { intros y Ry. split; [exact (text_nonempty _ _ P)|]. split; [exact (fun c => not_blank _ _ c P)|exact Ry]. }
    exists (nearest_double neg n k). split; [apply S, R|]. destruct x as [s|s| |s m e]; try discriminate F.
    + destruct s; injection R as <-; reflexivity.
    + intros D H. destruct (round_trip _ D H) as (y & Ry & Dy & E & _). rewrite R in Ry. injection Ry as ->. split; assumption.
  - destruct x as [s|s| |s m e]; try discriminate F.
    + exists (S754_infinity s). split; [|reflexivity]. destruct s; (split; [discriminate|split; [|reflexivity]]); intros c I B; cbn in I, B; repeat destruct I as [<-|I]; repeat destruct B as [B|B]; try discriminate B; try destruct B; destruct I.
    + exists S754_nan. split; [|reflexivity]. (split; [discriminate|split; [|reflexivity]]); intros c I B; cbn in I, B; repeat destruct I as [<-|I]; repeat destruct B as [B|B]; try discriminate B; try destruct B; destruct I.
Qed.
Lemma print_checkpoints c_exp c_log beg order threads can_open tmp k cols d (f : forest (IEEE c_exp c_log)) points D :
  (forall l x, In x (order l) <-> In x l) -> (1 <= threads)%nat ->
  well_typed k cols -> lossless k (frame_of cols) -> cols <> [] -> Forall (scorable (frame_of cols)) f -> py_add_all beg cols None = py_ret d ->
  StronglySorted Z.lt points -> (forall p, In p points -> (1 <= p <= zlen f)%Z /\ can_open (score_name tmp p) = true) ->
  exists items, iterates (next (N := IEEE c_exp c_log) beg order threads print_double read_double can_open tmp) eq D (GNew f d points) items Stops /\
    Forall2 (fun p it => fst it = p /\
      rows_scored (N := IEEE c_exp c_log) print_double read_double (frame_of cols) k (firstn (Z.to_nat p) f) (snd it)) points items.
Proof.
  intros O T W L C S A P Q.
  destruct (increasing_iterate (N := IEEE c_exp c_log) beg order threads print_double read_double can_open tmp O T k cols d f points D W L C S A P Q) as [(items & I) H].
  - intros x. destruct (C79_survives_proof c_exp c_log x) as (y & Y & _). exists y. exact Y.
  - exists items. split; [exact I|]. apply (H eq items Stops); [|exact I]. intros D1 D2 ->. intros p _. reflexivity.
Qed.
Lemma ex_less : real_of (SpecFloat.binary_normalize 53 1024 1000001 0 false) < real_of (SpecFloat.binary_normalize 53 1024 1000002 0 false).
Proof.
  rewrite !real_val. replace (SpecFloat.binary_normalize 53 1024 1000001 0 false) with (S754_finite false 8589943181934592 (-33)) by (vm_compute; reflexivity).
  replace (SpecFloat.binary_normalize 53 1024 1000002 0 false) with (S754_finite false 8589951771869184 (-33)) by (vm_compute; reflexivity).
  rewrite !val_neg. pose proof (bpow_gt_0 radix2 (-33)). nra.
Qed.
