(** JsonWrite_proofs.v - what the library writes is JSON text (property C96). *)
From Coq Require Import SpecFloat Reals Lra Lia ZArith Psatz.
From Flocq Require Import Core Relative IEEE754.BinarySingleNaN.
From Verif Require Import Base Base_proofs F32 F32_proofs Num Strings Forest Driver FloatReal_proofs Threshold_proofs PairExact_proofs Stopwatch StopwatchSpec Stopwatch_proofs Print PrintSpec Print_proofs
  Draw Saved SavedSpec Saved_proofs JsonText JsonSpec.
Local Open Scope R_scope.
Local Notation val := (SF2R radix2).
Local Instance P64 : FLX.Prec_gt_0 53 := eq_refl.
Local Instance M64 : Prec_lt_emax 53 1024 := eq_refl.
Local Instance V64 : Valid_exp fexp64 := fexp_correct 53 1024 P64.
Local Notation ten k := (bpow radix10 k).

(** ** The nearest double depends on the number only *)
Lemma divided_over neg p q : ~ Rabs (rnd64 (sg neg * (IZR (Zpos p) / IZR (Zpos q)))) < bpow radix2 1024 ->
  SFdiv 53 1024 (S754_finite neg p 0) (S754_finite false q 0) = binary_overflow 53 1024 mode_NE neg.
Proof.
  intros B. set (z := SFdiv 53 1024 (S754_finite neg p 0) (S754_finite false q 0)). pose proof (Bdiv_correct_aux 53 1024 P64 M64 mode_NE neg p 0 false q 0) as H. cbv zeta in H.
  assert (F2R (Float radix2 (SpecFloat.cond_Zopp neg (Zpos p)) 0) / F2R (Float radix2 (SpecFloat.cond_Zopp false (Zpos q)) 0) = sg neg * (IZR (Zpos p) / IZR (Zpos q))) as E.
  { unfold F2R. cbn [Fnum Fexp bpow SpecFloat.cond_Zopp]. rewrite !Rmult_1_r. destruct neg; cbn [SpecFloat.cond_Zopp sg]; [rewrite opp_IZR|]; field; apply IZR_neq; lia. }
  rewrite E in H. change (round_mode mode_NE) with ZnearestE in H. rewrite Rlt_bool_false in H by (apply Rnot_lt_le; exact B).
  assert (z = let '(mz, ez, lz) := SpecFloat.SFdiv_core_binary 53 1024 (Zpos p) 0 (Zpos q) 0 in binary_round_aux 53 1024 mode_NE (xorb neg false) mz ez lz) as Z.
  { unfold z, SFdiv. destruct (SpecFloat.SFdiv_core_binary 53 1024 (Zpos p) 0 (Zpos q) 0) as [[mz ez] lz]. apply round_aux_equiv. }
  rewrite <- Z in H. destruct H as (_ & H). rewrite xorb_false_r in H. exact H.
Qed.
Lemma sign_same x z : f64valid x = true -> f64valid z = true -> fin x = true -> fin z = true -> val x = val z -> sign_SF x = sign_SF z -> x = z.
Proof. intros Vx Vz Fx Fz E S. destruct (val_same 53 1024 P64 M64 x z Vx Vz Fx Fz E) as [H|(a & b & -> & ->)]; [exact H|]. cbn in S. subst. reflexivity. Qed.
Lemma divided_same neg p q p' q' : IZR (Zpos p) / IZR (Zpos q) = IZR (Zpos p') / IZR (Zpos q') ->
  SFdiv 53 1024 (S754_finite neg p 0) (S754_finite false q 0) = SFdiv 53 1024 (S754_finite neg p' 0) (S754_finite false q' 0).
Proof.
  intros E. destruct (Rlt_dec (Rabs (rnd64 (sg neg * (IZR (Zpos p) / IZR (Zpos q))))) (bpow radix2 1024)) as [B|B].
  - pose proof (divided neg p q B) as (V & F & X & S). rewrite E in B. pose proof (divided neg p' q' B) as (V' & F' & X' & S'). apply sign_same; try assumption; congruence.
  - rewrite (divided_over neg p q B). rewrite E in B. rewrite (divided_over neg p' q' B). reflexivity.
Qed.
Lemma nearest_quotient neg n k : (0 < n)%Z -> exists p q, nearest_double neg n k = SFdiv 53 1024 (S754_finite neg p 0) (S754_finite false q 0) /\ IZR (Zpos p) / IZR (Zpos q) = IZR n * ten k.
Proof.
  intros P. destruct n as [|m|m]; try lia. unfold nearest_double. destruct (0 <=? k)%Z eqn:K.
  - apply Z.leb_le in K. eexists _, _. split; [reflexivity|]. rewrite Z2Pos.id by (apply Z.mul_pos_pos; [lia|apply Z.pow_pos_nonneg; lia]). rewrite mult_IZR, pw10 by exact K. field.
  - apply Z.leb_gt in K. eexists _, _. split; [reflexivity|]. rewrite Z2Pos.id by (apply Z.pow_pos_nonneg; lia). rewrite pw10, bpow_opp by lia. field. apply Rgt_not_eq, bpow_gt_0.
Qed.
Lemma nearest_same neg n k n' k' : (0 < n)%Z -> (0 < n')%Z -> IZR n * ten k = IZR n' * ten k' -> nearest_double neg n k = nearest_double neg n' k'.
Proof.
  intros P P' E. destruct (nearest_quotient neg n k P) as (p & q & -> & Q), (nearest_quotient neg n' k' P') as (p' & q' & -> & Q'). apply divided_same. congruence.
Qed.

(** ** Texts of numbers *)
Definition plain (w : str) : Prop := exists c t, w = c :: t /\ (c = "0"%char -> t = []).
Lemma exp_json ex : exp_fine ex -> exponent_text (exp_text ex) (exp_value ex).
Proof.
  destruct ex as [[n e]|]; [|intros _; constructor]. intros [Ne De]. pose proof (Exponent "e"%char (Some n) e (or_introl eq_refl) Ne De) as H. cbn [exp_text exp_value].
  replace ((if n then -1 else 1) * decimal e)%Z with (match Some n with Some true => - decimal e | _ => decimal e end)%Z; [exact H|]. destruct n; lia.
Qed.
Lemma pointed_json neg w f ex : plain w -> Forall decimal_digit (w ++ f) -> exp_fine ex -> (0 < decimal (w ++ f))%Z ->
  json_number (sign_text neg ++ pointed w f ++ exp_text ex) (nearest_double neg (decimal (w ++ f)) (exp_value ex - zlen f)).
Proof.
  intros Nw D X P. destruct (zeros_off f) as [j E]. set (f' := without_zeros f) in *.
  assert (Forall decimal_digit (w ++ f')) as D' by (rewrite E, app_assoc in D; apply Forall_app in D; apply D).
  assert (decimal (w ++ f) = decimal (w ++ f') * 10 ^ Z.of_nat j)%Z as Ed.
  { rewrite E, app_assoc, (decimal_app (w ++ f')), decimal_zeros. unfold zlen. rewrite repeat_length. lia. }
  assert (zlen f = zlen f' + Z.of_nat j)%Z as El by (rewrite E at 1; unfold zlen; rewrite app_length, repeat_length; lia).
  assert (0 < decimal (w ++ f'))%Z as P' by (rewrite Ed in P; pose proof (decimal_nonneg _ D'); destruct (Z.eq_dec (decimal (w ++ f')) 0) as [Z0|]; [rewrite Z0 in P; lia|lia]).
  replace (nearest_double neg (decimal (w ++ f)) (exp_value ex - zlen f)) with (nearest_double neg (decimal (w ++ f')) (exp_value ex - zlen f')).
  - replace (sign_text neg ++ pointed w f ++ exp_text ex) with (sign_text neg ++ w ++ (match f' with [] => [] | _ => lit "." ++ f' end) ++ exp_text ex).
    + exact (JsonNumber neg w f' (exp_text ex) (exp_value ex) D' Nw (exp_json ex X)).
    + unfold pointed. fold f'. destruct f' as [|c f']; rewrite ?app_nil_r; [reflexivity|]. rewrite <- !app_assoc. reflexivity.
  - apply nearest_same; [exact P'|exact P|]. rewrite Ed, mult_IZR, pw10, El by lia. rewrite Rmult_assoc, <- bpow_plus. f_equal. f_equal. lia.
Qed.
Lemma padded_cons k n : padded (S k) n = padded k (n / 10) ++ [digit_char (n mod 10)].
Proof. reflexivity. Qed.
Lemma padded_first k : forall n, (10 ^ Z.of_nat k <= n < 10 ^ Z.of_nat (S k))%Z -> exists c t, padded (S k) n = c :: t /\ c <> "0"%char.
Proof.
  induction k as [|k IH]; intros n B.
  - exists (digit_char (n mod 10)), []. split; [reflexivity|]. change (1 <= n < 10)%Z in B. rewrite Z.mod_small by lia. intros E.
    destruct (digit_char_ok n ltac:(lia)) as [_ D]. rewrite E in D. cbn in D. lia.
  - rewrite padded_cons. replace (Z.of_nat (S (S k))) with (1 + Z.of_nat (S k))%Z in B by lia. replace (Z.of_nat (S k)) with (1 + Z.of_nat k)%Z in B by lia. rewrite !Z.pow_add_r in B by lia. change (10 ^ 1)%Z with 10%Z in B.
    destruct (IH (n / 10)%Z) as (c & t & E & Nc).
    + replace (Z.of_nat (S k)) with (1 + Z.of_nat k)%Z by lia. rewrite Z.pow_add_r by lia. change (10 ^ 1)%Z with 10%Z. split; [apply Z.div_le_lower_bound; lia|apply Z.div_lt_upper_bound; lia].
    + rewrite E. eexists c, _. split; [reflexivity|exact Nc].
Qed.
Lemma zlen_padded k d : (0 <= d)%Z -> zlen (padded k d) = Z.of_nat k.
Proof. intros H. unfold zlen. rewrite (proj1 (padded_ok k d H)). reflexivity. Qed.
Lemma general_json neg k d x : (10 ^ Z.of_nat k <= d < 10 ^ Z.of_nat (S k))%Z -> json_number (sign_text neg ++ general_text (S k) d x) (nearest_double neg d (x - Z.of_nat k)).
Proof.
  intros Hd. assert (0 < d)%Z as Pd by (assert (0 < 10 ^ Z.of_nat k)%Z by (apply Z.pow_pos_nonneg; lia); lia). set (K := S k) in *.
  destruct (padded_ok K d ltac:(lia)) as (LK & DK & _). assert (decimal (padded K d) = d) as VK by (apply padded_id; lia). assert (zlen (padded K d) = Z.of_nat K)%Z as ZK by (apply zlen_padded; lia).
  assert (forall j, (0 < j)%nat -> plain (firstn j (padded K d))) as Pl.
  { intros [|j] J; [lia|]. unfold K in *. destruct (padded_first k d Hd) as (c & t & -> & Nc). exists c, (firstn j t). split; [reflexivity|]. contradiction. }
  unfold general_text. destruct ((-4 <=? x) && (x <? Z.of_nat K))%Z eqn:E.
  - apply andb_true_iff in E. destruct E as [E1 E2]. apply Z.leb_le in E1. apply Z.ltb_lt in E2. destruct (0 <=? x)%Z eqn:E3.
    + apply Z.leb_le in E3. pose proof (pointed_json neg (firstn (Z.to_nat (x + 1)) (padded K d)) (skipn (Z.to_nat (x + 1)) (padded K d)) None) as P.
      rewrite firstn_skipn, VK, zlen_skipn, ZK in P by (rewrite LK; lia). cbn [exp_text exp_value exp_fine] in P. rewrite app_nil_r in P.
      replace (0 - (Z.of_nat K - Z.of_nat (Z.to_nat (x + 1))))%Z with (x - Z.of_nat k)%Z in P by (unfold K; lia). apply P; [apply Pl; lia|exact DK|exact I|exact Pd].
    + apply Z.leb_gt in E3. pose proof (pointed_json neg (lit "0") (repeat "0"%char (Z.to_nat (- x - 1)) ++ padded K d) None) as P.
      assert (decimal (lit "0" ++ repeat "0"%char (Z.to_nat (- x - 1)) ++ padded K d) = d) as V by (rewrite !decimal_app, decimal_zeros, VK; cbn; lia).
      rewrite V in P. cbn [exp_text exp_value exp_fine] in P. rewrite app_nil_r in P.
      replace (0 - zlen (repeat "0"%char (Z.to_nat (- x - 1)) ++ padded K d))%Z with (x - Z.of_nat k)%Z in P by (unfold zlen; rewrite app_length, repeat_length, LK; unfold K; lia).
      apply P; [eexists _, []; split; [reflexivity|reflexivity]| |exact I|exact Pd]. apply Forall_app. split; [constructor; [cbn; tauto|constructor]|]. apply Forall_app. split; [|exact DK].
      apply Forall_forall. intros c Ic. apply repeat_spec in Ic. subst c. cbn. tauto.
  - set (j := if (Z.abs x <? 100)%Z then 2%nat else Z.to_nat (digits (Z.abs x))).
    destruct (digits_ok (Z.abs x) ltac:(lia)) as (P0 & U & Lw).
    assert (Z.abs x < 10 ^ Z.of_nat j)%Z as Bk.
    { unfold j. destruct (Z.abs x <? 100)%Z eqn:C; [apply Z.ltb_lt in C; exact C|]. rewrite Z2Nat.id by exact P0. exact U. }
    assert (j <> 0)%nat as Nj.
    { unfold j. destruct (Z.abs x <? 100)%Z eqn:C; [discriminate|]. apply Z.ltb_ge in C. destruct (Lw ltac:(lia)). lia. }
    destruct (padded_ok j (Z.abs x) ltac:(lia)) as (Lk & Dk & _). pose proof (padded_id j (Z.abs x) ltac:(lia)) as Vk.
    pose proof (pointed_json neg (firstn 1 (padded K d)) (skipn 1 (padded K d)) (Some ((x <? 0)%Z, padded j (Z.abs x)))) as P.
    rewrite firstn_skipn, VK, zlen_skipn, ZK in P by (rewrite LK; unfold K; lia). cbn [exp_text exp_value exp_fine] in P. rewrite Vk in P.
    replace ((if (x <? 0)%Z then -1 else 1) * Z.abs x - (Z.of_nat K - Z.of_nat 1))%Z with (x - Z.of_nat k)%Z in P by (unfold K; destruct (x <? 0)%Z eqn:C; [apply Z.ltb_lt in C|apply Z.ltb_ge in C]; lia).
    apply P; [apply Pl; lia|exact DK|split; [|exact Dk]|exact Pd].
    intros Z. apply (f_equal (@List.length ascii)) in Z. rewrite Lk in Z. cbn in Z. lia.
Qed.
Lemma scaled_range k a b : (0 < a)%Z -> (0 < b)%Z -> (1 <= k)%Z -> (10 ^ (k - 1) <= scaled a b (k - 1 - exponent10 a b) <= 10 ^ k)%Z.
Proof.
  intros A B K. pose proof (exponent_ok a b A B) as [E1 E2]. rewrite scaled_ok by exact B. set (x := exponent10 a b) in *. set (v := IZR a / IZR b) in *.
  assert (IZR (10 ^ (k - 1)) <= v * ten (k - 1 - x) <= IZR (10 ^ k)) as [V1 V2].
  { rewrite !pw10 by lia. replace (ten (k - 1)) with (ten x * ten (k - 1 - x)) by (rewrite <- bpow_plus; f_equal; lia). replace (ten k) with (ten (x + 1) * ten (k - 1 - x)) by (rewrite <- bpow_plus; f_equal; lia).
    pose proof (bpow_gt_0 radix10 (k - 1 - x)). split; apply Rmult_le_compat_r; lra. }
  split.
  - rewrite <- (Zrnd_IZR ZnearestE (10 ^ (k - 1))). apply Zrnd_le; [apply valid_rnd_N|exact V1].
  - rewrite <- (Zrnd_IZR ZnearestE (10 ^ k)). apply Zrnd_le; [apply valid_rnd_N|exact V2].
Qed.
Lemma digits_json k x : fin x = true -> json_number (digits_text (S k) x) (digits_read (Z.of_nat (S k)) x).
Proof.
  destruct x as [s|s| |s m e]; try discriminate; intros _.
  - assert (plain (lit "0")) as Pl by (eexists _, []; split; [reflexivity|reflexivity]). assert (Forall decimal_digit (lit "0" ++ [])) as D by (constructor; [cbn; tauto|constructor]).
    exact (JsonNumber s (lit "0") [] [] 0 D Pl NoExponent).
  - assert (digits_read (Z.of_nat (S k)) (S754_finite s m e) = let '(a, b) := fraction_of m e in nearest_double s (scaled a b (Z.of_nat (S k) - 1 - exponent10 a b)) (exponent10 a b - Z.of_nat (S k) + 1)) as ->
      by (unfold digits_read, fraction_of; destruct (0 <=? e)%Z; reflexivity).
    assert (digits_text (S k) (S754_finite s m e) = let '(a, b) := fraction_of m e in let '(d, w) := first_digits (Z.of_nat (S k)) a b in sign_text s ++ general_text (S k) d w) as ->
      by (unfold digits_text, fraction_of; destruct (0 <=? e)%Z; reflexivity).
    pose proof (fraction_ok m e) as F. destruct (fraction_of m e) as [a b]. destruct F as (A & B & _).
    pose proof (scaled_range (Z.of_nat (S k)) a b A B ltac:(lia)) as R. unfold first_digits. set (w := exponent10 a b) in *. set (d := scaled a b (Z.of_nat (S k) - 1 - w)) in *. cbv zeta.
    replace (Z.of_nat (S k) - 1)%Z with (Z.of_nat k) in R by lia. assert (0 < 10 ^ Z.of_nat k)%Z as P by (apply Z.pow_pos_nonneg; lia).
    destruct (d =? 10 ^ Z.of_nat (S k))%Z eqn:Q.
    + apply Z.eqb_eq in Q. replace (Z.of_nat (S k) - 1)%Z with (Z.of_nat k) by lia.
      rewrite (nearest_same s d (w - Z.of_nat (S k) + 1) (10 ^ Z.of_nat k) (w + 1 - Z.of_nat k)); [|lia|exact P|].
      * apply general_json. split; [lia|apply Z.pow_lt_mono_r; lia].
      * rewrite Q, !pw10, <- !bpow_plus by lia. f_equal. lia.
    + apply Z.eqb_neq in Q. replace (w - Z.of_nat (S k) + 1)%Z with (w - Z.of_nat k)%Z by lia. apply general_json. lia.
Qed.
Lemma float_digits_json k x : fin x = true -> json_number (float_digits (S k) x) (float_text (Z.of_nat (S k)) x).
Proof. intros F. unfold float_digits, float_text. destruct (feqb (to_f32 (digits_read 6 x)) (to_f32 x)); [apply (digits_json 5 x F)|apply (digits_json k x F)]. Qed.
Lemma double_digits_json x : fin x = true -> json_number (double_digits x) (double_text x).
Proof. intros F. unfold double_digits, double_text. destruct (feqb (digits_read 15 x) x); [apply (digits_json 14 x F)|apply (digits_json 16 x F)]. Qed.
Lemma int_json z : (Z.abs z < 2 ^ 53)%Z -> json_number (int_text z) (of_int z).
Proof.
  intros B. unfold int_text. set (n := Z.to_nat (Z.max 1 (digits (Z.abs z)))). destruct (digits_ok (Z.abs z) ltac:(lia)) as (D0 & D1 & D2).
  destruct (padded_ok n (Z.abs z) ltac:(lia)) as (Ln & Dn & _).
  assert (Z.abs z < 10 ^ Z.of_nat n)%Z as Bn by (apply Z.lt_le_trans with (1 := D1); apply Z.pow_le_mono_r; unfold n; lia).
  pose proof (padded_id n (Z.abs z) ltac:(lia)) as Vn.
  assert (plain (padded n (Z.abs z))) as Pl.
  { destruct (Z.eq_dec z 0) as [->|Nz]; [exists "0"%char, []; split; [reflexivity|reflexivity]|]. destruct (D2 ltac:(lia)) as [D3 D4]. unfold n in *. rewrite Z.max_r in * by lia.
    destruct (Z.to_nat (digits (Z.abs z))) as [|j] eqn:J; [lia|]. destruct (padded_first j (Z.abs z)) as (c & t & -> & Nc).
    - rewrite <- J, Z2Nat.id by lia. replace (Z.of_nat j) with (digits (Z.abs z) - 1)%Z by lia. lia.
    - exists c, t. split; [reflexivity|contradiction]. }
  assert (Forall decimal_digit (padded n (Z.abs z) ++ [])) as D' by (rewrite app_nil_r; exact Dn).
  pose proof (JsonNumber (z <? 0)%Z (padded n (Z.abs z)) [] [] 0 D' Pl NoExponent) as H. rewrite !app_nil_r, Vn in H. change (0 - zlen (@nil ascii))%Z with 0%Z in H.
  replace (of_int z) with (nearest_double (z <? 0)%Z (Z.abs z) 0); [exact H|]. destruct (of_int_ok z B) as (V & F & E).
  destruct (Z.eq_dec z 0) as [->|Nz]; [reflexivity|].
  assert (sg (z <? 0)%Z * (IZR (Z.abs z) * ten 0) = IZR z) as Ev.
  { cbn [bpow]. rewrite Rmult_1_r. destruct (z <? 0)%Z eqn:C; cbn [sg]; [apply Z.ltb_lt in C; rewrite Z.abs_neq, opp_IZR by lia; ring|apply Z.ltb_ge in C; rewrite Z.abs_eq by lia; ring]. }
  assert (rnd64 (IZR z) = IZR z) as Rz by (apply rnd64_id, format_int, B).
  destruct (nearest_double_ok (z <? 0)%Z (Z.abs z) 0 ltac:(lia)) as (V' & F' & E' & _).
  - rewrite Ev, Rz, <- abs_IZR. apply Rlt_trans with (bpow radix2 53); [rewrite <- (IZR_Zpower radix2) by lia; apply IZR_lt; exact B|apply bpow_lt; lia].
  - rewrite Ev, Rz in E'. destruct (val_same 53 1024 P64 M64 _ _ V' V F' F) as [Q|(a & b & Qa & Qb)]; [congruence|exact Q|]. exfalso. rewrite Qb in E. cbn in E. symmetry in E. apply eq_IZR in E. contradiction.
Qed.

(** ** Strings, lists and objects *)
Local Close Scope R_scope.
Lemma char_spelt c s t : spelt s t -> spelt (c :: s) (written_char c ++ t).
Proof.
  intros H. destruct c as [[] [] [] [] [] [] [] []];
    match goal with |- spelt (?c :: _) _ =>
      first [assert (32 <= nat_of_ascii c)%nat as L by (apply Nat.leb_le; reflexivity); change (written_char c) with [c]; refine (SpeltPlain c s t L _ _ H);
               intros Q; vm_compute in Q; discriminate Q
            |let w := eval vm_compute in (written_char c) in change (written_char c) with w; refine (SpeltShort _ c s t _ H); vm_compute; tauto
            |assert (nat_of_ascii c < 128)%nat as L by (apply Nat.ltb_lt; reflexivity); let w := eval vm_compute in (written_char c) in change (written_char c) with w;
             refine (SpeltHex "0"%char "0"%char _ _ 0 0 (nat_of_ascii c / 16) (nat_of_ascii c mod 16) [c] s t (or_introl eq_refl) (or_introl eq_refl) (or_introl eq_refl) (or_introl eq_refl) _ H);
             exact (OneByte (nat_of_ascii c) L)]
    end.
Qed.
Lemma string_quoted s : quoted s (string_text s).
Proof. exists (concat (map written_char s)). split; [|reflexivity]. induction s as [|c s IH]; [constructor|]. apply char_spelt, IH. Qed.
Lemma string_json s : json_text (JStr s) (string_text s).
Proof. constructor. apply string_quoted. Qed.
Lemma no_blanks : blanks [].
Proof. constructor. Qed.
Lemma list_json l ts : Forall2 json_text l ts -> json_text (JList l) (list_text ts).
Proof.
  intros H. destruct H as [|j t l ts J H]; [exact (TextNoItems [] no_blanks)|]. unfold list_text. constructor. revert j t J. induction H as [|j' t' l ts J' H IH]; intros j t J.
  - rewrite <- (app_nil_r t). exact (LastItem j t [] [] J no_blanks no_blanks).
  - exact (MoreItems j t [] [] (j' :: l) _ J no_blanks no_blanks (IH j' t' J')).
Qed.
Lemma object_json l ts : Forall2 (fun m t => fst m = fst t /\ json_text (snd m) (snd t)) l ts -> json_text (JDict l) (object_text ts).
Proof.
  intros H. destruct H as [|[k j] [k' t] l ts [E J] H]; [exact (TextNoMembers [] no_blanks)|]. unfold object_text. constructor. cbn [fst snd] in *. subst k'. revert k j t J. induction H as [|[k' j'] [k'' t'] l ts [E J'] H IH]; intros k j t J.
  - cbn [map joined fst snd]. rewrite <- (app_nil_r t). exact (LastMember k (string_text k) j t [] [] [] [] (string_quoted k) J no_blanks no_blanks no_blanks no_blanks).
  - cbn [fst snd] in *. subst k''. pose proof (MoreMembers k (string_text k) j t [] [] [] [] ((k', j') :: l) _ (string_quoted k) J no_blanks no_blanks no_blanks no_blanks (IH k' j' t' J')) as M.
    cbn [app] in M. change (joined (lit ",") (map (fun m => string_text (fst m) ++ lit ":" ++ snd m) ((k, t) :: (k', t') :: ts))) with
      ((string_text k ++ lit ":" ++ t) ++ lit "," ++ joined (lit ",") (map (fun m => string_text (fst m) ++ lit ":" ++ snd m) ((k', t') :: ts))).
    rewrite <- !app_assoc. exact M.
Qed.
Lemma number_json digits read x : (fin x = true -> json_number (digits x) (read x)) -> json_text (number read x) (number_text digits x).
Proof. intros H. destruct x as [s|s| |s m e]; cbn [number number_text]; try apply string_json; constructor; apply H; reflexivity. Qed.
Lemma bool_json b : json_text (JBool b) (bool_text b).
Proof. exact (TextBool b). Qed.

Ltac each_field := repeat first [apply Forall2_nil|apply Forall2_cons; [split; [reflexivity|cbn [snd]]|]].
(** ** Messages *)
Section Messages.
Context {c_exp c_log : f64 -> f64} (k : nat).
Notation N := (IEEE c_exp c_log).
Notation reread := (float_text (Z.of_nat (S k))).
Lemma float_json x : json_text (number reread x) (number_text (float_digits (S k)) x).
Proof. apply number_json. apply float_digits_json. Qed.
Lemma double_json x : json_text (number double_text x) (number_text double_digits x).
Proof. apply number_json. apply double_digits_json. Qed.
Lemma float_split_written s : json_text (float_split_json reread s) (float_split_text (S k) s).
Proof. apply object_json. each_field; [apply float_json|apply bool_json]. Qed.
Lemma map_json {A} (f : A -> json) (g : A -> str) l : (forall a, In a l -> json_text (f a) (g a)) -> Forall2 json_text (map f l) (map g l).
Proof. induction l as [|a l IH]; intros H; [constructor|]. constructor; [apply H; left; reflexivity|apply IH; intros b I; apply H; right; exact I]. Qed.
Lemma cat_split_written s : Forall (fun z => -2147483648 <= z <= 2147483647)%Z (snd s) -> json_text (cat_split_json s) (cat_split_text s).
Proof.
  intros H. apply object_json. constructor; [split; [reflexivity|]|constructor; [split; [reflexivity|]|constructor]]; apply list_json, map_json.
  - intros a _. apply string_json.
  - intros z I. rewrite Forall_forall in H. specialize (H z I). constructor. apply int_json. lia.
Qed.
Lemma split_written (s : split N) : writable_split s -> json_text (split_json reread double_text s) (split_text (S k) s).
Proof.
  intros (_ & C & _). apply object_json. constructor; [split; [reflexivity|apply string_json]|]. apply Forall2_app; [|apply Forall2_app].
  - destruct (sp_float s); each_field. apply float_split_written.
  - destruct (sp_cat s) as [[c i]|] eqn:E; each_field. apply cat_split_written. exact (C c i eq_refl).
  - each_field. apply double_json.
Qed.
Lemma tree_written (t : tree N) : writable_tree t -> json_text (tree_json reread double_text t) (tree_text (S k) t).
Proof.
  induction t as [|s sp l IHl r IHr]; intros W.
  - apply object_json. each_field. apply float_json.
  - destruct W as (_ & Ws & Wl & Wr). apply object_json. constructor; [split; [reflexivity|apply float_json]|]. apply Forall2_app; [|apply Forall2_app].
    + destruct sp as [x|]; each_field. apply split_written. exact (Ws x eq_refl).
    + destruct (present l); each_field. apply IHl, Wl.
    + destruct (present r); each_field. apply IHr, Wr.
Qed.
Lemma forest_written (f : forest N) meta : Forall writable_tree f -> json_document (forest_json reread double_text f meta) (forest_text (S k) f meta).
Proof.
  intros W. exists [], (forest_text (S k) f meta), []. split; [constructor|]. split; [|split; [constructor|rewrite app_nil_r; reflexivity]].
  apply object_json. constructor; [split; [reflexivity|]|constructor; [split; [reflexivity|apply string_json]|constructor]]. apply list_json, map_json.
  intros t I. rewrite Forall_forall in W. apply tree_written, W, I.
Qed.
End Messages.
