(** Saved_proofs.v - forests that are saved and loaded (property C94). *)
From Coq Require Import SpecFloat Reals Lra Lia ZArith Psatz FunctionalExtensionality.
From Flocq Require Import Core Relative IEEE754.BinarySingleNaN.
From Verif Require Import Base F32 Num Forest Stopwatch StopwatchSpec Print PrintSpec SplitSpec FloatReal_proofs Threshold_proofs PairExact_proofs Stopwatch_proofs Print_proofs Binary_proofs
  Column DataStore Score ScoreSpec Eval EvalSpec Base_proofs Eval_proofs Draw Saved SavedSpec.
Local Open Scope R_scope.
Local Notation val := (SF2R radix2).
Local Instance P32 : FLX.Prec_gt_0 24 := eq_refl.
Local Instance M32 : Prec_lt_emax 24 128 := eq_refl.
Local Instance P64 : FLX.Prec_gt_0 53 := eq_refl.
Local Instance M64 : Prec_lt_emax 53 1024 := eq_refl.
Local Instance V32 : Valid_exp fexp32 := fexp_correct 24 128 P32.
Local Instance V64 : Valid_exp fexp64 := fexp_correct 53 1024 P64.

(** ** Decimal numbers *)
Lemma short_format k d : (0 < k)%Z -> short_decimal k d <-> generic_format radix10 (FLX_exp k) d.
Proof.
  intros K. split.
  - intros (m & e & Am & ->). apply generic_format_FLX. exists (Float radix10 m e); [|exact Am]. unfold F2R. cbn [Fnum Fexp]. rewrite bpow_powerRZ. reflexivity.
  - intros G. apply FLX_format_generic in G; [|exact K]. destruct G as [[m e] -> Am]. exists m, e. split; [exact Am|]. unfold F2R. cbn [Fnum Fexp]. rewrite bpow_powerRZ. reflexivity.
Qed.
Lemma short_error k x d : (0 < k)%Z -> nearest_short k x d -> Rabs (d - x) <= / 2 * bpow radix10 (1 - k) * Rabs x.
Proof.
  intros K [_ N]. eapply Rle_trans; [apply (N (round radix10 (FLX_exp k) ZnearestE x))|].
  - apply short_format; [exact K|]. apply generic_format_round; [apply FLX_exp_valid; exact K|typeclasses eauto].
  - replace (1 - k)%Z with (- k + 1)%Z by lia. apply (relative_error_N_FLX radix10 k K (fun t => negb (Z.even t))).
Qed.

(** ** The gaps between floats *)
Section Gap.
Context (emin p : Z).
Notation fe := (FLT_exp emin p).
Notation gf := (generic_format radix2 fe).
Lemma multiple x e : gf x -> (e <= cexp radix2 fe x)%Z -> exists n, x = IZR n * bpow radix2 e.
Proof.
  intros G L. exists (Ztrunc (scaled_mantissa radix2 fe x) * 2 ^ (cexp radix2 fe x - e))%Z. rewrite mult_IZR.
  rewrite (IZR_Zpower radix2) by lia. rewrite Rmult_assoc, <- bpow_plus. replace (cexp radix2 fe x - e + e)%Z with (cexp radix2 fe x) by lia. exact G.
Qed.
Lemma scale_below x : bpow radix2 (- p) * Rabs x <= bpow radix2 (cexp radix2 fe x).
Proof.
  destruct (Req_dec x 0) as [->|Nz]; [rewrite Rabs_R0, Rmult_0_r; apply bpow_ge_0|].
  apply Rle_trans with (bpow radix2 (- p) * bpow radix2 (mag radix2 x)).
  - apply Rmult_le_compat_l; [apply bpow_ge_0|]. apply Rlt_le, bpow_mag_gt.
  - rewrite <- bpow_plus. apply bpow_le. unfold cexp, FLT_exp. lia.
Qed.
Lemma apart_by z r e : gf z -> gf r -> z <> r -> (e <= cexp radix2 fe z)%Z -> (e <= cexp radix2 fe r)%Z -> bpow radix2 e <= Rabs (z - r).
Proof.
  intros Gz Gr Ne Lz Lr. destruct (multiple z e Gz Lz) as [m Em]. destruct (multiple r e Gr Lr) as [n En].
  replace (z - r) with (IZR (m - n) * bpow radix2 e) by (rewrite minus_IZR; lra).
  rewrite Rabs_mult, (Rabs_pos_eq (bpow radix2 e)) by apply bpow_ge_0. rewrite <- (Rmult_1_l (bpow radix2 e)) at 1.
  apply Rmult_le_compat_r; [apply bpow_ge_0|]. rewrite <- abs_IZR. apply IZR_le. assert (m <> n) by congruence. lia.
Qed.
Lemma gap z r : gf z -> gf r -> z <> r -> bpow radix2 (- p) * Rmin (Rabs z) (Rabs r) <= Rabs (z - r).
Proof.
  intros Gz Gr Ne. destruct (Z.le_ge_cases (cexp radix2 fe z) (cexp radix2 fe r)) as [L|L].
  - eapply Rle_trans; [|apply (apart_by z r (cexp radix2 fe z)); [assumption..|lia|exact L]]. eapply Rle_trans; [|apply scale_below].
    apply Rmult_le_compat_l; [apply bpow_ge_0|apply Rmin_l].
  - eapply Rle_trans; [|apply (apart_by z r (cexp radix2 fe r)); [assumption..|exact L|lia]]. eapply Rle_trans; [|apply scale_below].
    apply Rmult_le_compat_l; [apply bpow_ge_0|apply Rmin_r].
Qed.
(** A number close enough to a float is no other. *)
Lemma close_same z r q : gf z -> gf r -> Rabs (z - r) <= q * Rabs r -> 0 <= q -> q < bpow radix2 (- p) * (1 - q) -> z = r.
Proof.
  intros Gz Gr C Q0 Q. destruct (Req_dec z r) as [E|Ne]; [exact E|exfalso].
  pose proof (gap z r Gz Gr Ne) as G. pose proof (bpow_gt_0 radix2 (- p)) as B.
  assert (Rabs r - Rabs z <= Rabs (z - r)) as T by (rewrite Rabs_minus_sym; apply Rabs_triang_inv).
  assert (0 < Rabs r) as Pr.
  { destruct (Req_dec r 0) as [->|Nz]; [|apply Rabs_pos_lt, Nz]. exfalso. rewrite Rabs_R0, Rmult_0_r in C. apply Rabs_le_inv in C. lra. }
  assert ((1 - q) * Rabs r <= Rmin (Rabs z) (Rabs r)) as M by (apply Rmin_glb; nra).
  assert (bpow radix2 (- p) * ((1 - q) * Rabs r) <= bpow radix2 (- p) * Rmin (Rabs z) (Rabs r)) as M2 by (apply Rmult_le_compat_l; lra).
  nra.
Qed.
End Gap.

Lemma val_same p emax (H : FLX.Prec_gt_0 p) (L : Prec_lt_emax p emax) x z : valid_binary p emax x = true -> valid_binary p emax z = true -> fin x = true -> fin z = true ->
  val x = val z -> same_number x z.
Proof.
  intros Vx Vz Fx Fz E. destruct (Req_dec (val z) 0) as [Z0|Nz].
  - right. assert (forall y, fin y = true -> val y = 0 -> exists a, y = S754_zero a) as K.
    { intros [a|a| |a m e] F Y; try discriminate; [eauto|]. exfalso. rewrite val_finite in Y. pose proof (bpow_gt_0 radix2 e). assert (0 < IZR (Zpos m)) by (apply IZR_lt; reflexivity).
      destruct a; cbn in Y; nra. }
    destruct (K x Fx) as [a ->]; [congruence|]. destruct (K z Fz Z0) as [b ->]. eauto.
  - left. destruct (valid_B2SF p emax x Vx) as [bx <-]. destruct (valid_B2SF p emax z Vz) as [bz <-].
    rewrite !finite_B2SF in *. rewrite !val_B2SF in *. f_equal. destruct (Req_dec (B2R bx) 0) as [Y|Y]; [congruence|].
    apply B2R_inj; [| |exact E]; [destruct bx|destruct bz]; try reflexivity; try discriminate; cbn in *; lra.
Qed.

(** ** Nine digits of a float, seventeen of a double *)
Lemma float_ok (x : f32) : a_float x -> finite_float x = true -> f32valid x = true /\ fin x = true.
Proof. intros V F. split; [exact V|]. destruct x; try discriminate; reflexivity. Qed.
Lemma ten_8 : bpow radix10 (1 - 9) = / 100000000.
Proof. reflexivity. Qed.
Lemma ten_16 : bpow radix10 (1 - 17) = / 10000000000000000.
Proof. reflexivity. Qed.
Lemma two_24 : bpow radix2 (- (24)) = / 16777216.
Proof. reflexivity. Qed.
Lemma two_53 : bpow radix2 (- (53)) = / 9007199254740992.
Proof. reflexivity. Qed.
Lemma max_float_format : generic_format radix2 fexp32 max_float.
Proof.
  unfold max_float. rewrite mult_IZR. change (IZR (2 ^ 104)) with (bpow radix2 104). apply (generic_format_FLT radix2 (-149) 24).
  exists (Float radix2 (2 ^ 24 - 1) 104); cbn [Fnum Fexp]; [reflexivity|vm_compute; reflexivity|lia].
Qed.
Lemma max_float_below : max_float < bpow radix2 128.
Proof. unfold max_float. change (bpow radix2 128) with (IZR (2 ^ 128)). apply IZR_lt. vm_compute. reflexivity. Qed.

Lemma close_read x d y k : a_float x -> finite_float x = true -> nearest_to d y -> nearest_short k (real_of x) d -> (0 < k)%Z ->
  Rabs (real_of y - real_of x) <= bpow radix10 (1 - k) * Rabs (real_of x).
Proof.
  intros V F [_ N] D K. destruct (float_ok x V F) as [V' F']. destruct (to_f64_val x V' F') as (W & G & E).
  assert (a_double (to_f64 x)) as A by (apply double_ok; split; assumption).
  pose proof (N _ A) as N'. rewrite (real_val (to_f64 x)), E, <- real_val in N'. pose proof (short_error k _ _ K D) as B.
  pose proof (Rabs_triang (real_of y - d) (d - real_of x)) as T. replace (real_of y - d + (d - real_of x)) with (real_of y - real_of x) in T by ring.
  rewrite (Rabs_minus_sym (real_of x) d) in N'. lra.
Qed.
Lemma nine_digits reread x : a_float x -> finite_float x = true -> Rabs (real_of x) < max_float -> writes_digits 9 reread (to_f64 x) -> reads_back reread x.
Proof.
  intros V F M (d & D & N). destruct (float_ok x V F) as [V' F']. destruct (to_f64_val x V' F') as (W & G & E).
  rewrite (real_val (to_f64 x)), E, <- real_val in D. pose proof (close_read x d _ 9 V F N D eq_refl) as C. rewrite ten_8 in C.
  set (y := reread (to_f64 x)) in *. destruct N as [A _]. split; [exact A|]. pose proof (proj1 (double_ok y) A) as [Vy Fy].
  pose proof (val_format 24 128 x V') as Gx. rewrite <- real_val in Gx. pose proof max_float_format as Gm.
  assert (0 < max_float) as Pm by (unfold max_float; apply IZR_lt; vm_compute; reflexivity).
  pose proof (Rabs_triang (real_of y - real_of x) (real_of x)) as T. replace (real_of y - real_of x + real_of x) with (real_of y) in T by ring.
  assert (Rabs (real_of y) <= max_float) as B.
  { assert (generic_format radix2 fexp32 (Rabs (real_of x))) as Ga by (apply generic_format_abs, Gx).
    pose proof (gap (-149) 24 (Rabs (real_of x)) max_float Ga Gm ltac:(lra)) as G'. rewrite Rabs_Rabsolu, (Rabs_pos_eq max_float), two_24 in G' by lra.
    rewrite Rmin_left in G' by lra. rewrite (Rabs_left1 (Rabs (real_of x) - max_float)) in G' by lra. pose proof (Rabs_pos (real_of x)). nra. }
  split; [exact B|]. destruct (to_f32_val y Vy Fy) as (V3 & R3 & _).
  assert (Rabs (rnd32 (val y)) <= max_float) as Br.
  { rewrite real_val in B. apply Rabs_le_inv in B. apply Rabs_le.
    split; [rewrite <- (rnd32_id _ (generic_format_opp _ _ _ Gm))|rewrite <- (rnd32_id _ Gm)]; apply rnd32_le; apply B. }
  destruct (R3 (Rle_lt_trans _ _ _ Br max_float_below)) as [F3 E3].
  apply (val_same 24 128 P32 M32); try assumption. fold y. rewrite E3. rewrite <- (real_val x).
  destruct (round_N_pt radix2 fexp32 (fun t => negb (Z.even t)) (val y)) as [Gr Nr]. specialize (Nr _ Gx).
  apply (close_same (-149) 24 _ _ (2 / 100000000)); [exact Gr|exact Gx| |lra|rewrite two_24; lra].
  rewrite <- real_val in *. pose proof (Rabs_triang (rnd32 (real_of y) - real_of y) (real_of y - real_of x)) as T2.
  replace (rnd32 (real_of y) - real_of y + (real_of y - real_of x)) with (rnd32 (real_of y) - real_of x) in T2 by ring.
  rewrite (Rabs_minus_sym (real_of x)) in Nr. change (round radix2 fexp32 ZnearestE (real_of y)) with (rnd32 (real_of y)) in Nr. lra.
Qed.
Lemma seventeen_digits regain x : a_double x -> writes_digits 17 regain x -> same_number (regain x) x.
Proof.
  intros A (d & D & [Ay N]). set (y := regain x) in *. pose proof (proj1 (double_ok x) A) as [Vx Fx]. pose proof (proj1 (double_ok y) Ay) as [Vy Fy].
  pose proof (N x A) as N'. pose proof (short_error 17 _ _ eq_refl D) as B. rewrite ten_16 in B.
  apply (val_same 53 1024 P64 M64); try assumption.
  apply (close_same (-1074) 53 _ _ (1 / 10000000000000000)); [apply (val_format 53 1024), Vy|apply (val_format 53 1024), Vx| |lra|rewrite two_53; lra].
  rewrite <- !real_val. pose proof (Rabs_triang (real_of y - d) (d - real_of x)) as T. replace (real_of y - d + (d - real_of x)) with (real_of y - real_of x) in T by ring.
  rewrite (Rabs_minus_sym (real_of x) d) in N'. lra.
Qed.

(** ** Values *)
Lemma same_refl x : same_number x x.
Proof. left. reflexivity. Qed.
Lemma same_sym x y : same_number x y -> same_number y x.
Proof. intros [->|(a & b & -> & ->)]; [apply same_refl|right; eauto]. Qed.
Lemma same_trans x y z : same_number x y -> same_number y z -> same_number x z.
Proof. intros [->|(a & b & -> & ->)] H; [exact H|]. destruct H as [<-|(c & d & E & ->)]; right; eauto. Qed.
Lemma plain_same x : same_number x (plain_zero x).
Proof. destruct x; try apply same_refl. right. exists s, false. split; reflexivity. Qed.
Lemma same_to_f64 x y : same_number x y -> same_number (to_f64 x) (to_f64 y).
Proof. intros [->|(a & b & -> & ->)]; [apply same_refl|right; exists a, b; split; reflexivity]. Qed.
Lemma max_val : val (to_f64 flt_max) = max_float.
Proof.
  assert (f32valid flt_max = true) as V by reflexivity. destruct (to_f64_val flt_max V eq_refl) as (_ & _ & ->). unfold flt_max, max_float. cbn [SF2R cond_Zopp]. unfold F2R. cbn [Fnum Fexp].
  rewrite mult_IZR. reflexivity.
Qed.
Lemma beyond_spec y : a_double y -> beyond y = true <-> max_float < Rabs (real_of y).
Proof.
  intros A. pose proof (proj1 (double_ok y) A) as [V F]. destruct (to_f64_val flt_max eq_refl eq_refl) as (Vm & Fm & _).
  destruct y as [s|s| |s m e]; try discriminate.
  - cbn. rewrite Rabs_R0. split; [discriminate|]. intros H. exfalso. apply (Rlt_irrefl 0). eapply Rlt_trans; [|exact H]. unfold max_float. apply IZR_lt. vm_compute. reflexivity.
  - unfold beyond, fltb. assert (f64valid (S754_finite false m e) = true) as V' by exact V. change (SFabs (S754_finite s m e)) with (S754_finite false m e).
    rewrite (compare_val 53 1024 _ _ Vm V' Fm eq_refl), max_val.
    assert (val (S754_finite false m e) = Rabs (real_of (S754_finite s m e))) as ->.
    { rewrite real_val, !val_finite, Rabs_mult, (Rabs_pos_eq (IZR _ * _)).
      - destruct s; cbn; [rewrite Rabs_left1 by lra|rewrite Rabs_pos_eq by lra]; lra.
      - pose proof (bpow_gt_0 radix2 e). assert (0 < IZR (Zpos m)) by (apply IZR_lt; reflexivity). nra. }
    destruct (Rcompare_spec max_float (Rabs (real_of (S754_finite s m e)))); split; intros; try discriminate; try lra; reflexivity.
Qed.
Lemma float_value_read reread x : float_writer reread -> writable x -> exists y, json_float (number reread (to_f64 x)) = Some y /\ same_number x y.
Proof.
  intros W [V M]. destruct (finite_float x) eqn:F.
  - assert (reads_back reread x) as (A & B & S) by (destruct (W x V F (M eq_refl)) as [D|R]; [apply nine_digits; auto|exact R]).
    destruct (float_ok x V F) as [V' F']. destruct (to_f64_val x V' F') as (_ & G & _).
    assert (number reread (to_f64 x) = JNum (reread (to_f64 x))) as -> by (destruct (to_f64 x); try discriminate; reflexivity).
    exists (to_f32 (reread (to_f64 x))). split; [|apply same_sym, S]. unfold json_float, json_double, obind.
    destruct (beyond (reread (to_f64 x))) eqn:Be; [|reflexivity]. apply (beyond_spec _ A) in Be. lra.
  - exists x. split; [|apply same_refl]. destruct x as [| [|] | |]; try discriminate; vm_compute; reflexivity.
Qed.
Lemma double_value_read regain x : double_writer regain -> f64valid x = true -> exists y, json_double (number regain x) = Some y /\ same_number x y.
Proof.
  intros W V. destruct (fin x) eqn:F.
  - assert (a_double x) as A by (apply double_ok; split; assumption). exists (regain x). split; [destruct x; try discriminate; reflexivity|]. apply same_sym.
    destruct (W x A) as [D|R]; [apply seventeen_digits; assumption|exact R].
  - exists x. split; [|apply same_refl]. destruct x as [| [|] | |]; try discriminate; vm_compute; reflexivity.
Qed.
Lemma whole_of x z : fin x = true -> val x = IZR z -> whole x = Some z.
Proof.
  intros F E. destruct x as [s|s| |s m e]; try discriminate.
  - cbn in E. apply eq_IZR in E. subst z. reflexivity.
  - rewrite val_finite in E. unfold whole. destruct (0 <=? e)%Z eqn:Le.
    + apply Z.leb_le in Le. rewrite <- (IZR_Zpower radix2) in E by exact Le. rewrite <- mult_IZR in E. f_equal. apply eq_IZR. rewrite <- E.
      change (Zpower radix2 e) with (2 ^ e)%Z. destruct s; [rewrite opp_IZR|]; cbn [sg]; ring.
    + apply Z.leb_gt in Le. replace e with (- (- e))%Z in E by lia. rewrite bpow_opp, <- (IZR_Zpower radix2) in E by lia. change (Zpower radix2 (- e)) with (2 ^ (- e))%Z in E.
      assert (0 < 2 ^ (- e))%Z as P by (apply Z.pow_pos_nonneg; lia). assert (IZR (2 ^ (- e)) <> 0) as Nz by (apply not_0_IZR; lia).
      set (q := (2 ^ (- e))%Z) in *. assert (Zpos m = (if s then - z else z) * q)%Z as Em.
      { apply eq_IZR. rewrite mult_IZR. apply (Rmult_eq_compat_r (IZR q)) in E. rewrite Rmult_assoc, Rmult_assoc, Rinv_l, Rmult_1_r in E by exact Nz.
        destruct s; cbn [sg] in E; [rewrite opp_IZR|]; lra. }
      rewrite Em. rewrite Z.div_mul by lia. rewrite Z.eqb_refl. f_equal. destruct s; lia.
Qed.
Lemma int_read z : (-2147483648 <= z <= 2147483647)%Z -> json_int (JNum (of_int z)) = Some z.
Proof.
  intros B. destruct (of_int_ok z) as (_ & F & E); [lia|]. unfold json_int. rewrite (whole_of _ _ F E). cbn [obind].
  replace ((-2147483648 <=? z) && (z <=? 2147483647))%Z with true; [reflexivity|]. symmetry. apply andb_true_intro. split; apply Z.leb_le; lia.
Qed.
Lemma elements_map {A B} (convert : json -> option A) (write : B -> json) (q : B -> A -> Prop) l :
  (forall b, In b l -> exists a, convert (write b) = Some a /\ q b a) -> exists r, elements convert (map write l) = Some r /\ Forall2 q l r.
Proof.
  induction l as [|b t IH]; intros H; [exists []; split; [reflexivity|constructor]|].
  destruct (H b (or_introl eq_refl)) as (a & E & Q). destruct IH as (r & Er & Qr); [intros x I; apply H; right; exact I|].
  exists (a :: r). cbn [map elements]. rewrite E. cbn [obind]. rewrite Er. split; [reflexivity|constructor; assumption].
Qed.
Lemma elements_same {A} (convert : json -> option A) (write : A -> json) l : (forall b, In b l -> convert (write b) = Some b) -> elements convert (map write l) = Some l.
Proof.
  induction l as [|b t IH]; intros H; [reflexivity|]. cbn [map elements]. rewrite (H b (or_introl eq_refl)). cbn [obind]. rewrite IH; [reflexivity|]. intros x I. apply H. right. exact I.
Qed.

Lemma plain_zero_not x : plain_zero x <> S754_zero true.
Proof. destruct x; discriminate. Qed.
Lemma to_f64_plain x y : a_float x -> same_number x y -> to_f64 (plain_zero y) <> S754_zero true.
Proof.
  intros V H. destruct y as [s|s| |s m e]; try discriminate. destruct H as [->|(a & b & _ & E)]; [|discriminate E]. cbn [plain_zero]. intros E.
  destruct (to_f64_val (S754_finite s m e) V eq_refl) as (_ & _ & Q). rewrite E in Q. cbn [SF2R] in Q. symmetry in Q. apply eq_0_F2R in Q. destruct s; discriminate Q.
Qed.

(** ** Messages *)
Section Messages.
Context {c_exp c_log : f64 -> f64} (reread regain : f64 -> f64) (W : float_writer reread) (G : double_writer regain).
Notation N := (IEEE c_exp c_log).
Lemma float_split_read t m : writable t -> exists y, float_split_of (float_split_json reread (t, m)) = Some y /\ like_float (Some (t, m)) (Some y) /\ fst y <> S754_zero true.
Proof.
  intros Wt. destruct (float_value_read reread t W Wt) as (y & E & S). exists (plain_zero y, m).
  change (float_split_of (float_split_json reread (t, m))) with
    (opt! t' := (match json_float (number reread (to_f64 t)) with Some a => Some (Some a) | None => None end) in Some (plain_zero (otherwise (S754_zero false) t'), m)).
  rewrite E. split; [reflexivity|]. split; [|apply plain_zero_not]. split; [|reflexivity]. eapply same_trans; [exact S|apply plain_same].
Qed.
Lemma cat_split_read c i : Forall (fun z => -2147483648 <= z <= 2147483647)%Z i -> cat_split_of (cat_split_json (c, i)) = Some (c, i).
Proof.
  intros B. change (cat_split_of (cat_split_json (c, i))) with
    (opt! c' := (match elements json_string (map JStr c) with Some a => Some (Some a) | None => None end) in
     opt! i' := (match elements json_int (map (fun z => JNum (of_int z)) i) with Some a => Some (Some a) | None => None end) in Some (otherwise [] c', otherwise [] i')).
  rewrite elements_same by reflexivity. cbn [obind]. rewrite elements_same; [reflexivity|]. intros z I. apply int_read. rewrite Forall_forall in B. exact (B z I).
Qed.
Lemma split_read (sp : split N) : writable_split sp -> exists y, split_of (split_json reread regain sp) = Some y /\ like_split sp y /\ no_minus_zero_split y.
Proof.
  intros (Wf & Wc & Wg). destruct sp as [feature fs cs gain]. cbn [sp_float sp_cat sp_gain] in *.
  destruct (double_value_read regain gain G Wg) as (g & Eg & Sg).
  assert (exists f, match fs with Some x => (match float_split_of (float_split_json reread x) with Some a => Some (Some a) | None => None end) | None => Some None end = Some f /\ like_float fs f /\ forall m, f <> Some (S754_zero true, m))
    as (f & Ef & Sf & Mf).
  { destruct fs as [[t m]|]; [|exists None; repeat split; discriminate]. destruct (float_split_read t m (Wf _ _ eq_refl)) as (y & E & S & M). exists (Some y). rewrite E. split; [reflexivity|]. split; [exact S|].
    intros m' [= ->]. apply M. reflexivity. }
  assert (match cs with Some x => (match cat_split_of (cat_split_json x) with Some a => Some (Some a) | None => None end) | None => Some None end = Some cs) as Ec.
  { destruct cs as [[c i]|]; [|reflexivity]. rewrite cat_split_read by exact (Wc _ _ eq_refl). reflexivity. }
  exists (mkSplit feature f cs (plain_zero g : N)). split.
  - transitivity (opt! f' := match fs with Some x => (match float_split_of (float_split_json reread x) with Some a => Some (Some a) | None => None end) | None => Some None end in
      opt! c' := match cs with Some x => (match cat_split_of (cat_split_json x) with Some a => Some (Some a) | None => None end) | None => Some None end in
      opt! g' := (match json_double (number regain gain) with Some a => Some (Some a) | None => None end) in
      Some (mkSplit feature f' c' (plain_zero (otherwise (S754_zero false) g') : N))); [destruct fs, cs; reflexivity|].
    rewrite Ef, Ec, Eg. reflexivity.
  - split; [|split; [exact Mf|apply plain_zero_not]]. repeat (split; [reflexivity || exact Sf|]). eapply same_trans; [exact Sg|apply plain_same].
Qed.
Lemma tree_read (t : tree N) : writable_tree t -> t <> TNone -> exists u, tree_of (tree_json reread regain t) = Some u /\ like t u /\ no_minus_zero u.
Proof.
  induction t as [|s sp l IHl r IHr]; [congruence|]. intros ((x & Wx & ->) & Ws & Wl & Wr) _.
  destruct (float_value_read reread x W Wx) as (y & Ey & Sy).
  assert (exists sp', match sp with Some x => (match split_of (split_json reread regain x) with Some a => Some (Some a) | None => None end) | None => Some None end = Some sp' /\ like_splits sp sp' /\ forall x, sp' = Some x -> no_minus_zero_split x)
    as (sp' & Es & Ss & Ms).
  { destruct sp as [x'|]; [|exists None; repeat split; discriminate]. destruct (split_read x' (Ws _ eq_refl)) as (z & E & S & M). exists (Some z). rewrite E. split; [reflexivity|]. split; [exact S|congruence]. }
  assert (forall c, (writable_tree c -> c <> TNone -> exists u, tree_of (tree_json reread regain c) = Some u /\ like c u /\ no_minus_zero u) -> writable_tree c ->
    exists u, (if present c then (match tree_of (c_exp := c_exp) (c_log := c_log) (tree_json reread regain c) with Some a => Some (Some a) | None => None end) else Some None) = Some u /\ like c (otherwise TNone u) /\ no_minus_zero (otherwise TNone u)) as K.
  { intros [|a b c d] H Wc; [exists None; split; [reflexivity|]; split; [constructor|exact I]|]. destruct (H Wc ltac:(discriminate)) as (u & E & S). exists (Some u). cbn [present]. rewrite E. split; [reflexivity|exact S]. }
  destruct (K l IHl Wl) as (l' & El & Sl & Ml). destruct (K r IHr Wr) as (r' & Er & Sr & Mr).
  exists (TNode (to_f64 (plain_zero y) : N) sp' (otherwise TNone l') (otherwise TNone r')). split.
  - transitivity (opt! y' := (match json_float (number reread (to_f64 x)) with Some a => Some (Some a) | None => None end) in
      opt! s' := match sp with Some x => (match split_of (split_json reread regain x) with Some a => Some (Some a) | None => None end) | None => Some None end in
      opt! a := (if present l then (match tree_of (c_exp := c_exp) (c_log := c_log) (tree_json reread regain l) with Some a => Some (Some a) | None => None end) else Some None) in
      opt! b := (if present r then (match tree_of (c_exp := c_exp) (c_log := c_log) (tree_json reread regain r) with Some a => Some (Some a) | None => None end) else Some None) in
      Some (TNode (to_f64 (plain_zero (otherwise (S754_zero false) y')) : N) s' (otherwise TNone a) (otherwise TNone b))); [destruct sp, l, r; reflexivity|].
    rewrite Ey, Es, El, Er. reflexivity.
  - split; [|split; [exact (to_f64_plain x y (proj1 Wx) Sy)|split; [exact Ms|split; assumption]]]. constructor; [|exact Ss|exact Sl|exact Sr]. apply same_to_f64. eapply same_trans; [exact Sy|apply plain_same].
Qed.
Lemma forest_read (f : forest N) meta : Forall writable_tree f -> ~ In TNone f ->
  exists f', forest_of (forest_json reread regain f meta) = Some (f', meta) /\ Forall2 like f f' /\ Forall no_minus_zero f'.
Proof.
  intros Wf Nn. destruct (elements_map tree_of (tree_json reread regain) (fun t u => like t u /\ no_minus_zero u) f) as (f' & E & L).
  { intros t I. apply tree_read; [rewrite Forall_forall in Wf; exact (Wf t I)|congruence]. }
  exists f'. split; [|split; [clear - L; induction L as [|? ? ? ? [? ?] ? ?]; constructor; assumption|clear - L; induction L as [|? ? ? ? [? ?] ? ?]; constructor; assumption]].
  change (forest_of (forest_json reread regain f meta)) with
    (opt! t' := (match elements (tree_of (c_exp := c_exp) (c_log := c_log)) (map (tree_json reread regain) f) with Some a => Some (Some a) | None => None end) in Some (otherwise [] t', meta)).
  rewrite E. reflexivity.
Qed.
End Messages.

(** ** Predictions *)
Section Use.
Context {c_exp c_log : f64 -> f64}.
Notation N := (IEEE c_exp c_log).
Lemma same_add (a b c d : N) : same_number a b -> same_number c d -> same_number (nadd a c) (nadd b d).
Proof.
  intros H1 H2. cbn [nadd IEEE].
  assert (forall x y, same_number (SFadd 53 1024 (S754_zero x) (S754_zero y)) (S754_zero false)) as Z2.
  { intros x y. right. destruct x, y; eexists; eexists; split; reflexivity. }
  destruct H1 as [->|(x & y & -> & ->)], H2 as [->|(z & w & -> & ->)].
  - apply same_refl.
  - destruct b; try apply same_refl; try (eapply same_trans; [apply Z2|apply same_sym, Z2]).
  - destruct d; try apply same_refl; try (eapply same_trans; [apply Z2|apply same_sym, Z2]).
  - eapply same_trans; [apply Z2|apply same_sym, Z2].
Qed.
Lemma same_less x t t' : same_number t t' -> fltb x t = fltb x t'.
Proof. intros [->|(a & b & -> & ->)]; [reflexivity|]. unfold fltb. destruct x as [s|[]| |[] m e]; reflexivity. Qed.
Lemma like_split_refl (x : split N) : like_split x x.
Proof. repeat split; try apply same_refl. destruct (sp_float x) as [[t m]|]; cbn; [split; [apply same_refl|reflexivity]|exact I]. Qed.
Lemma like_the sp sp' : like_splits (c_exp := c_exp) (c_log := c_log) sp sp' -> like_split (the_split sp) (the_split sp').
Proof. destruct sp, sp'; intros H; [exact H|destruct H|destruct H|apply like_split_refl]. Qed.
Lemma same_plus_zero (s s' : N) : same_number s s' -> nadd s n0 = nadd s' n0.
Proof. intros [->|([] & [] & -> & ->)]; reflexivity. Qed.
Lemma like_partition c (sp sp' : split N) start len : like_split sp sp' -> partition c sp start len = partition c sp' start len.
Proof.
  intros (_ & Lf & Lc & _). assert (go_left c sp = go_left c sp') as G.
  { apply functional_extensionality. intros row. unfold go_left. rewrite Lc. destruct (c_body c) as [b|r|s]; [|reflexivity..].
    destruct (sp_float sp) as [[t m]|], (sp_float sp') as [[t' m']|]; try destruct Lf; [|reflexivity]. subst m'. destruct (b_missing b row) as [[|]| |]; [reflexivity| |reflexivity..].
    destruct (b_row_max b row); [|reflexivity..]. cbn [bind]. rewrite (same_less _ t t') by assumption. reflexivity. }
  unfold partition. rewrite G. destruct (c_body c) as [b|r|s] eqn:E; [|reflexivity|]; f_equal; unfold split_check; rewrite E.
  - destruct (sp_float sp) as [[t m]|], (sp_float sp') as [[t' m']|]; try destruct Lf; reflexivity.
  - rewrite Lc. reflexivity.
Qed.
Lemma like_sample_scores store (t u : tree N) : like t u -> forall start len, add_sample_tree_scores store t n0 start len = add_sample_tree_scores store u n0 start len.
Proof.
  induction 1 as [|s s' sp sp' l l' r r' S Sp Hl IHl Hr IHr]; intros start len; [reflexivity|]. cbn [add_sample_tree_scores]. pose proof (like_the _ _ Sp) as L.
  destruct Hl as [|a a' b b' c c' d d' ? ? ? ?]; [rewrite (same_plus_zero s s' S); reflexivity|]. destruct L as [E L]. rewrite <- E. destruct (store _) as [col|]; [|reflexivity].
  rewrite (like_partition col (the_split sp) (the_split sp') start len (conj E L)). f_equal. apply functional_extensionality. intros k. rewrite IHl. f_equal. apply functional_extensionality. intros u. apply IHr.
Qed.
Lemma like_tree_scores store threads (t u : tree N) st : like t u -> add_tree_scores store threads t n0 st = add_tree_scores store threads u n0 st.
Proof.
  intros L. unfold add_tree_scores. destruct st as [samples scores]. destruct (score_slices _ threads) as [slices| |]; [|reflexivity..]. cbn [bind]. f_equal. f_equal. unfold score_tasks. apply map_ext. intros r. apply like_sample_scores, L.
Qed.
Lemma like_collect (t u : tree N) : like t u -> forall acc, collect_tree t acc = collect_tree u acc.
Proof.
  induction 1 as [|s s' sp sp' l l' r r' S Sp Hl IHl Hr IHr]; intros acc; [reflexivity|]. cbn [collect_tree]. rewrite IHl, IHr.
  destruct sp, sp'; [destruct Sp as [E _]; rewrite E; reflexivity|destruct Sp|destruct Sp|reflexivity].
Qed.
Lemma like_features (f g : forest N) : Forall2 like f g -> collect_features f = collect_features g.
Proof. unfold collect_features. generalize (@nil str). intros acc L. revert acc. induction L as [|t u f g K L IH]; intros acc; [reflexivity|]. cbn. rewrite (like_collect t u K). apply IH. Qed.
Lemma like_trees v threads (f g : forest N) : Forall2 like f g -> forall st, eval_trees v threads f st = eval_trees v threads g st.
Proof. unfold eval_trees. induction 1 as [|t u f g K L IH]; intros st; [reflexivity|]. cbn [fold_res]. rewrite (like_tree_scores _ threads t u st K). destruct (add_tree_scores _ _ u _ st); [apply IH|reflexivity..]. Qed.
Lemma like_evaluate v threads (f g : forest N) : Forall2 like f g -> evaluate_forest v threads g = evaluate_forest v threads f.
Proof.
  intros L. unfold evaluate_forest. rewrite (like_features f g L). destruct (load_features _ _) as [[|e] cs]; [|reflexivity]. destruct (init_scores v threads) as [st| |]; [|reflexivity..]. cbn [bind]. rewrite (like_trees v threads f g L st). reflexivity.
Qed.

(** ** Saving again *)
Lemma same_plain x y : same_number x y -> x <> S754_zero true -> y <> S754_zero true -> x = y.
Proof. intros [->|([] & [] & -> & ->)] ? ?; congruence. Qed.
Lemma same_writable x y : same_number x y -> writable x -> writable y.
Proof. intros [->|(a & b & -> & ->)] [V M]; [split; assumption|]. split; [reflexivity|]. intros _. exact (M eq_refl). Qed.
Lemma like_split_writable (x y : split N) : like_split x y -> writable_split x -> writable_split y.
Proof.
  intros (_ & Lf & Lc & Lg) (Wf & Wc & Wg). split; [|split].
  - intros t m E. rewrite E in Lf. destruct (sp_float x) as [[t' m']|]; [|destruct Lf]. destruct Lf as [S _]. exact (same_writable _ _ S (Wf _ _ eq_refl)).
  - intros c i E. apply (Wc c i). congruence.
  - destruct Lg as [<-|(a & b & _ & ->)]; [exact Wg|reflexivity].
Qed.
Lemma like_writable (t u : tree N) : like t u -> writable_tree t -> writable_tree u.
Proof.
  induction 1 as [|s s' sp sp' l l' r r' S Sp Hl IHl Hr IHr]; [auto|]. intros ((x & Wx & E) & Ws & Wl & Wr). split; [|split; [|split; auto]].
  - destruct S as [<-|(a & b & _ & ->)]; [exists x; split; assumption|]. exists (S754_zero b). split; [|reflexivity]. split; [reflexivity|]. intros _. cbn. rewrite Rabs_R0.
    unfold max_float. apply IZR_lt. vm_compute. reflexivity.
  - intros y ->. destruct sp as [z|]; [|destruct Sp]. exact (like_split_writable z y Sp (Ws z eq_refl)).
Qed.
Lemma like_plain_split (x y : split N) : like_split x y -> no_minus_zero_split x -> no_minus_zero_split y -> x = y.
Proof.
  intros (Ef & Lf & Lc & Lg) [A B] [C D]. pose proof (same_plain _ _ Lg B D) as Eg. destruct x as [n f c g], y as [n' f' c' g']. cbn [sp_feature sp_float sp_cat sp_gain] in *. subst.
  f_equal. destruct f as [[t m]|], f' as [[t' m']|]; try destruct Lf; [|reflexivity]. subst m'. f_equal. f_equal. apply same_plain; [assumption| |]; intros ->; [exact (A m eq_refl)|exact (C m eq_refl)].
Qed.
Lemma like_plain (t u : tree N) : like t u -> no_minus_zero t -> no_minus_zero u -> t = u.
Proof.
  induction 1 as [|s s' sp sp' l l' r r' S Sp Hl IHl Hr IHr]; [auto|]. intros (A & B & C & D) (A' & B' & C' & D'). rewrite (IHl C C'), (IHr D D').
  pose proof (same_plain _ _ S A A') as Es. assert (sp = sp') as ->; [|rewrite Es; reflexivity].
  destruct sp as [x|], sp' as [y|]; try destruct Sp; [|reflexivity]. f_equal. apply like_plain_split; [|exact (B x eq_refl)|exact (B' y eq_refl)]. repeat (split; [assumption|]). assumption.
Qed.
Lemma like_not_none (f g : forest N) : Forall2 like f g -> ~ In TNone f -> ~ In TNone g.
Proof. induction 1 as [|t u f g L _ IH]; intros H I; [exact I|]. destruct I as [->|I]; [inversion L; subst; apply H; left; reflexivity|]. apply IH; [intros J; apply H; right; exact J|exact I]. Qed.
Lemma saved_again reread regain (f f' : forest N) meta meta' : float_writer reread -> double_writer regain -> Forall writable_tree f -> ~ In TNone f ->
  forest_of (forest_json reread regain f meta) = Some (f', meta') -> forest_of (forest_json reread regain f' meta') = Some (f', meta').
Proof.
  intros W G Wf Nn E. destruct (forest_read reread regain W G f meta Wf Nn) as (g & Eg & Lg & Mg). rewrite E in Eg. injection Eg as <- <-.
  assert (Forall writable_tree f') as Wf'.
  { clear - Wf Lg. induction Lg as [|t u f g L _ IH]; inversion Wf; subst; constructor; [eapply like_writable; eassumption|auto]. }
  destruct (forest_read reread regain W G f' meta' Wf' (like_not_none f f' Lg Nn)) as (h & Eh & Lh & Mh). rewrite Eh. f_equal. f_equal. symmetry.
  clear - Lh Mg Mh. induction Lh as [|t u f g L _ IH]; [reflexivity|]. inversion Mg; subst. inversion Mh; subst. f_equal; [apply like_plain; assumption|auto].
Qed.
End Use.
Lemma saved_predicts {c_exp c_log : f64 -> f64} reread regain (f : forest (IEEE c_exp c_log)) meta :
  float_writer reread -> double_writer regain -> Forall writable_tree f -> ~ In TNone f ->
  exists f', forest_of (c_exp := c_exp) (c_log := c_log) (forest_json reread regain f meta) = Some (f', meta) /\ forall v threads, evaluate_forest v threads f' = evaluate_forest v threads f.
Proof.
  intros W G Wf Nn. destruct (forest_read reread regain W G f meta Wf Nn) as (f' & E & L & _). exists f'. split; [exact E|]. intros v threads. apply like_evaluate, L.
Qed.

(** ** Eight digits; the largest float *)
Lemma exact_double m e : (0 < m < 2 ^ 53)%Z -> (-1074 <= e <= 971)%Z -> let y := SpecFloat.binary_normalize 53 1024 m e false in a_double y /\ real_of y = IZR m * bpow radix2 e.
Proof.
  intros M E. cbv zeta. destruct (normalize_val 53 1024 P64 M64 m e false) as (V & H & _). change (F2R (Float radix2 m e)) with (IZR m * bpow radix2 e) in H.
  assert (generic_format radix2 fexp64 (IZR m * bpow radix2 e)) as G by (apply format_scaled; lia). rewrite (rnd64_id _ G) in H.
  destruct H as [F Q].
  - rewrite Rabs_pos_eq; [|apply Rmult_le_pos; [apply IZR_le; lia|apply bpow_ge_0]]. apply Rlt_le_trans with (IZR (2 ^ 53) * bpow radix2 e).
    + apply Rmult_lt_compat_r; [apply bpow_gt_0|]. apply IZR_lt. lia.
    + change (IZR (2 ^ 53)) with (bpow radix2 53). rewrite <- bpow_plus. apply bpow_le. lia.
  - split; [apply double_ok; split; assumption|]. rewrite real_val. exact Q.
Qed.
(** Numbers of [k] digits that are large enough are multiples of a power of ten. *)
Lemma short_multiple k d e : (0 < k)%Z -> short_decimal k d -> bpow radix10 (k + e - 1) <= Rabs d -> exists n, d = IZR n * bpow radix10 e.
Proof.
  intros K (m & x & Am & ->) B. rewrite <- (bpow_powerRZ radix10) in *. rewrite Rabs_mult, (Rabs_pos_eq (bpow _ _)) in B by apply bpow_ge_0.
  assert (e <= x)%Z as L.
  { destruct (Z.le_gt_cases e x) as [L|L]; [exact L|exfalso]. rewrite <- abs_IZR in B.
    assert (IZR (Z.abs m) * bpow radix10 x < bpow radix10 k * bpow radix10 x) as U.
    { apply Rmult_lt_compat_r; [apply bpow_gt_0|]. rewrite <- (IZR_Zpower radix10) by lia. apply IZR_lt. exact Am. }
    rewrite <- bpow_plus in U. assert (bpow radix10 (k + x) <= bpow radix10 (k + e - 1)) by (apply bpow_le; lia). lra. }
  exists (m * 10 ^ (x - e))%Z. rewrite mult_IZR, (IZR_Zpower radix10), Rmult_assoc, <- bpow_plus by lia. f_equal. f_equal. lia.
Qed.
Definition ex_float : f32 := S754_finite false 10240021 (-10).
Lemma eight_digits reread : writes_digits 8 reread (to_f64 ex_float) -> ~ reads_back reread ex_float.
Proof.
  intros (d & [Sd Nd] & [Ay Ny]) (_ & _ & S). set (y := reread (to_f64 ex_float)) in *.
  assert (real_of ex_float = 10240021 / 1024) as Vx by (rewrite real_val; unfold ex_float; rewrite val_finite; cbn [sg]; change (bpow radix2 (-10)) with (/ 1024); lra).
  assert (real_of (to_f64 ex_float) = 10240021 / 1024) as Vx' by (rewrite <- Vx, !real_val; apply (to_f64_val ex_float eq_refl eq_refl)).
  rewrite Vx' in Nd. assert (Rabs (d - 10240021 / 1024) <= 4922 / 10000000) as Bd.
  { eapply Rle_trans; [apply (Nd (10000021 / 1000))|].
    - exists 10000021%Z, (-3)%Z. split; [reflexivity|]. change (powerRZ 10 (-3)) with (/ (10 * (10 * (10 * 1)))). lra.
    - rewrite Rabs_pos_eq; lra. }
  apply Rabs_le_inv in Bd. assert (d = 10000021 / 1000) as ->.
  { destruct (short_multiple 8 d (-3) eq_refl Sd) as [n ->].
    - change (bpow radix10 (8 + -3 - 1)) with 10000. rewrite Rabs_pos_eq; lra.
    - change (bpow radix10 (-3)) with (/ 1000) in *. assert (10000020 < n < 10000022)%Z as Bn by (split; apply lt_IZR; lra). assert (n = 10000021%Z) as -> by lia. lra. }
  destruct (exact_double 10485782020 (-20) ltac:(lia) ltac:(lia)) as [Ay0 Ey0]. change (bpow radix2 (-20)) with (/ 1048576) in Ey0.
  specialize (Ny _ Ay0). rewrite Ey0 in Ny. rewrite (Rabs_left1 (10485782020 * / 1048576 - 10000021 / 1000)) in Ny by lra. apply Rabs_le_inv in Ny.
  pose proof (proj1 (double_ok y) Ay) as [Vy Fy]. destruct (to_f32_val y Vy Fy) as (V3 & R3 & _).
  assert (to_f32 y = ex_float) as Ey by (destruct S as [S|(a & b & _ & Z)]; [exact S|discriminate Z]).
  assert (Rabs (rnd32 (val y)) < bpow radix2 128) as B.
  { eapply Rle_lt_trans; [|exact max_float_below]. rewrite <- real_val. assert (Rabs (real_of y) <= max_float) as Bm.
    { rewrite Rabs_pos_eq by lra. apply Rle_trans with 20000; [lra|]. unfold max_float. apply IZR_le. vm_compute. discriminate. }
    apply Rabs_le_inv in Bm. apply Rabs_le. pose proof max_float_format as Gm.
    split; [rewrite <- (rnd32_id _ (generic_format_opp _ _ _ Gm))|rewrite <- (rnd32_id _ Gm)]; apply rnd32_le; apply Bm. }
  destruct (R3 B) as [_ E3]. rewrite Ey, <- !real_val, Vx in E3.
  destruct (round_N_pt radix2 fexp32 (fun t => negb (Z.even t)) (real_of y)) as [_ Nr].
  assert (generic_format radix2 fexp32 (10240022 / 1024)) as G.
  { apply (generic_format_FLT radix2 (-149) 24). exists (Float radix2 10240022 (-10)); [|vm_compute; reflexivity|cbn; lia]. unfold F2R. cbn [Fnum Fexp]. change (bpow radix2 (-10)) with (/ 1024). lra. }
  specialize (Nr _ G). change (round radix2 fexp32 ZnearestE (real_of y)) with (rnd32 (real_of y)) in Nr. rewrite <- E3 in Nr.
  unfold Rabs in Nr. destruct (Rcase_abs (10240021 / 1024 - real_of y)), (Rcase_abs (10240022 / 1024 - real_of y)); lra.
Qed.
Lemma largest_float reread : writes_digits 9 reread (to_f64 flt_max) -> json_float (number reread (to_f64 flt_max)) = None.
Proof.
  intros (d & [Sd Nd] & [Ay Ny]). rewrite real_val, max_val in Nd.
  assert (number reread (to_f64 flt_max) = JNum (reread (to_f64 flt_max))) as -> .
  { destruct (to_f64_val flt_max eq_refl eq_refl) as (_ & G & _). destruct (to_f64 flt_max); try discriminate; reflexivity. }
  unfold json_float, json_double, obind. set (y := reread (to_f64 flt_max)) in *. replace (beyond y) with true; [reflexivity|]. symmetry. apply (beyond_spec y Ay).
  set (u := 1000000000000000000000000000000). assert (max_float = 340282346638528859811704183484516925440) as M by (unfold max_float; f_equal; vm_compute; reflexivity).
  assert (bpow radix10 30 = u) as U30 by (rewrite <- (IZR_Zpower radix10) by lia; unfold u; f_equal; vm_compute; reflexivity).
  assert (Rabs (d - max_float) <= 340282347 * u - max_float) as Bd.
  { rewrite <- (Rabs_pos_eq (340282347 * u - max_float)) by (rewrite M; unfold u; lra). apply Nd. exists 340282347%Z, 30%Z. split; [reflexivity|].
    rewrite <- U30, (bpow_powerRZ radix10). reflexivity. }
  apply Rabs_le_inv in Bd. rewrite M in Bd. assert (d = 340282347 * u) as ->.
  { destruct (short_multiple 9 d 30 eq_refl Sd) as [n ->].
    - rewrite Rabs_pos_eq by (unfold u in Bd; lra). change (9 + 30 - 1)%Z with (8 + 30)%Z. rewrite bpow_plus, U30. change (bpow radix10 8) with 100000000. unfold u in *. lra.
    - rewrite U30 in *. assert (340282346 < n < 340282348)%Z as Bn by (unfold u in Bd; split; apply lt_IZR; lra). assert (n = 340282347%Z) as -> by lia. reflexivity. }
  destruct (exact_double 4294967044 96 ltac:(lia) ltac:(lia)) as [Ay0 Ey0].
  assert (bpow radix2 96 = 79228162514264337593543950336) as B96 by (rewrite <- (IZR_Zpower radix2) by lia; f_equal; vm_compute; reflexivity). rewrite B96 in Ey0.
  specialize (Ny _ Ay0). rewrite Ey0 in Ny. assert (Rabs (4294967044 * 79228162514264337593543950336 - 340282347 * u) < 340282347 * u - max_float) as C.
  { rewrite M. unfold u. unfold Rabs. destruct (Rcase_abs _); lra. }
  assert (0 < real_of y - max_float) as P.
  { pose proof (Rle_lt_trans _ _ _ Ny C) as L. apply Rabs_def2 in L. lra. }
  eapply Rlt_le_trans; [|apply Rle_abs]. lra.
Qed.
(** ** Fields of other names *)
Lemma stray_known names l k v : In (k, v) l -> ~ In k names -> known names l = false.
Proof.
  intros I H. destruct (known names l) eqn:E; [|reflexivity]. exfalso. unfold known in E. rewrite forallb_forall in E. specialize (E _ I). cbn in E.
  apply existsb_exists in E. destruct E as (x & Ix & Q). destruct (str_eqb_spec k x) as [->|]; [exact (H Ix)|discriminate].
Qed.
Lemma elements_in {A} (convert : json -> option A) l j : In j l -> convert j = None -> elements convert l = None.
Proof.
  induction l as [|x t IH]; [intros []|]. intros [->|I] E; cbn [elements]; [rewrite E; reflexivity|]. destruct (convert x); cbn [obind]; [|reflexivity]. rewrite (IH I E). reflexivity.
Qed.

(** ** The library's digits *)
Lemma digits_near k x : (0 < k)%Z -> fin x = true -> exists d, nearest_short k (val x) d /\ d = round radix10 (FLX_exp k) ZnearestE (val x) /\
  (Rabs (rnd64 d) < bpow radix2 1024 -> f64valid x = true -> nearest_to d (digits_read k x)).
Proof.
  intros K F. exists (round radix10 (FLX_exp k) ZnearestE (val x)). split; [|split; [reflexivity|]].
  - assert (Valid_exp (FLX_exp k)) as Ve by (apply FLX_exp_valid; exact K). destruct (round_N_pt radix10 (FLX_exp k) (fun t => negb (Z.even t)) (val x)) as [Ff Nn]. split; [apply short_format; [exact K|exact Ff]|].
    intros d' D'. apply Nn. apply short_format; assumption.
  - intros B V. destruct x as [s|s| |s m e]; try discriminate.
    + cbn [digits_read SF2R]. rewrite round_0 by typeclasses eauto. apply rnd_nearest; [split; [exact V|exact I]|]. cbn. rewrite round_0 by typeclasses eauto. reflexivity.
    + assert (digits_read k (S754_finite s m e) = let '(a, b) := fraction_of m e in nearest_double s (scaled a b (k - 1 - exponent10 a b)) (exponent10 a b - k + 1)) as ->
        by (unfold digits_read, fraction_of; destruct (0 <=? e)%Z; reflexivity).
      rewrite val_finite in *. pose proof (fraction_ok m e) as Fr. destruct (fraction_of m e) as [a b]. destruct Fr as (A & Bb & Q). rewrite <- Q in *.
      pose proof (exponent_ok a b A Bb) as [E1 E2]. set (w := exponent10 a b) in *. set (v := IZR a / IZR b) in *.
      assert (mag_val radix10 v (mag radix10 v) = w + 1)%Z as Mg.
      { apply mag_unique. rewrite Rabs_pos_eq by (pose proof (bpow_gt_0 radix10 w); lra). replace (w + 1 - 1)%Z with w by lia. auto. }
      assert (round radix10 (FLX_exp k) ZnearestE v = IZR (scaled a b (k - 1 - w)) * bpow radix10 (w - k + 1)) as R.
      { unfold round, scaled_mantissa, cexp, FLX_exp, F2R. rewrite Mg. cbn [Fnum Fexp]. rewrite scaled_ok by exact Bb. fold v.
        replace (- (w + 1 - k))%Z with (k - 1 - w)%Z by lia. replace (w + 1 - k)%Z with (w - k + 1)%Z by lia. reflexivity. }
      assert (round radix10 (FLX_exp k) ZnearestE (sg s * v) = sg s * (IZR (scaled a b (k - 1 - w)) * bpow radix10 (w - k + 1))) as Rs.
      { rewrite <- R. destruct s; cbn [sg]; [|rewrite !Rmult_1_l; reflexivity]. replace (-1 * v) with (- v) by ring. rewrite round_NE_opp. ring. }
      rewrite Rs in *. assert (0 <= scaled a b (k - 1 - w))%Z as P.
      { rewrite scaled_ok by exact Bb. fold v. rewrite <- (Zrnd_IZR ZnearestE 0). apply Zrnd_le; [apply valid_rnd_N|]. apply Rmult_le_pos; [|apply bpow_ge_0].
        pose proof (bpow_gt_0 radix10 w). lra. }
      destruct (nearest_double_ok s (scaled a b (k - 1 - w)) (w - k + 1) P B) as (V1 & F1 & E & _). apply rnd_nearest; [apply double_ok; split; assumption|exact E].
Qed.
Lemma small_digits k x d : (0 < k)%Z -> nearest_short k x d -> Rabs x <= bpow radix2 128 -> Rabs (rnd64 d) < bpow radix2 1024.
Proof.
  intros K Nd B. pose proof (short_error k x d K Nd) as E. assert (bpow radix10 (1 - k) <= 1) as B1 by (change 1 with (bpow radix10 0); apply bpow_le; lia).
  apply rnd_bounded. pose proof (Rabs_triang (d - x) x) as T. replace (d - x + x) with d in T by ring. pose proof (bpow_gt_0 radix10 (1 - k)) as B0.
  assert (Rabs d <= 2 * bpow radix2 128) as L by (pose proof (Rabs_pos x); nra). eapply Rle_trans; [exact L|]. unfold max_double.
  change (bpow radix2 128) with (IZR (2 ^ 128)). rewrite <- mult_IZR. apply IZR_le. vm_compute. discriminate.
Qed.
Lemma seventeen_max x d : nearest_short 17 x d -> d = round radix10 (FLX_exp 17) ZnearestE x -> Rabs x <= max_double -> Rabs d <= max_double.
Proof.
  intros _ -> B. set (r := round radix10 (FLX_exp 17) ZnearestE). assert (Valid_exp (FLX_exp 17)) as Ve by (apply FLX_exp_valid; reflexivity).
  set (u := bpow radix10 292). set (D := IZR 17976931348623157 * u).
  assert (IZR (10 ^ 292) = u) as U by (apply pw10; lia).
  assert (D = IZR (17976931348623157 * 10 ^ 292)) as ED by (unfold D; rewrite mult_IZR, U; reflexivity).
  assert (r max_double <= max_double) as T.
  { destruct (round_N_pt radix10 (FLX_exp 17) (fun t => negb (Z.even t)) max_double) as [Fm Nm]. fold ZnearestE in *. change (round radix10 (FLX_exp 17) ZnearestE max_double) with (r max_double) in *.
    assert (generic_format radix10 (FLX_exp 17) D) as GD by (apply short_format; [reflexivity|]; exists 17976931348623157%Z, 292%Z; split; [vm_compute; reflexivity|]; unfold D, u; rewrite bpow_powerRZ; reflexivity).
    pose proof (Nm D GD) as L. destruct (Rle_lt_dec (r max_double) max_double) as [Q|Q]; [exact Q|exfalso].
    assert (D <= max_double) as DM by (rewrite ED; unfold max_double; apply IZR_le; vm_compute; discriminate).
    rewrite Rabs_pos_eq, (Rabs_left1 (D - max_double)) in L by lra.
    apply short_format in Fm; [|reflexivity]. destruct (short_multiple 17 (r max_double) 292 eq_refl Fm) as [n En].
    - apply Rle_trans with max_double; [|rewrite Rabs_pos_eq; [lra|]; apply Rlt_le, Rle_lt_trans with max_double; [unfold max_double; apply IZR_le; vm_compute; discriminate|exact Q]].
      change (17 + 292 - 1)%Z with 308%Z. rewrite <- pw10 by lia. unfold max_double. apply IZR_le. vm_compute. discriminate.
    - fold u in En. rewrite <- U, <- mult_IZR in En. rewrite En in *. rewrite ED in *. unfold max_double in *. rewrite <- !minus_IZR in L.
      assert (- (IZR (17976931348623157 * 10 ^ 292) - IZR ((2 ^ 53 - 1) * 2 ^ 971)) = IZR ((2 ^ 53 - 1) * 2 ^ 971 - 17976931348623157 * 10 ^ 292)) as Q2 by (rewrite minus_IZR; ring).
      rewrite <- minus_IZR in Q2. rewrite Q2 in L. apply le_IZR in L. apply lt_IZR in Q.
      assert (exists c, c = (2 ^ 53 - 1) * 2 ^ 971 - 17976931348623157 * 10 ^ 292 /\ 2 * c < 10 ^ 292 /\ 0 < c)%Z as (c & Ec & C1 & C2) by (eexists; split; [reflexivity|]; split; vm_compute; reflexivity).
      assert (0 < 10 ^ 292)%Z as Pq by (vm_compute; reflexivity). set (q := (10 ^ 292)%Z) in *. set (mx := ((2 ^ 53 - 1) * 2 ^ 971)%Z) in *. clearbody q mx.
      assert (17976931348623157 < n)%Z as Ln by nia. assert (17976931348623158 * q <= n * q)%Z by (apply Z.mul_le_mono_nonneg_r; lia). lia. }
  assert (forall z, z <= max_double -> r z <= max_double) as Up by (intros z Hz; eapply Rle_trans; [|exact T]; apply round_le; [exact Ve|apply valid_rnd_N|exact Hz]).
  apply Rabs_le_inv in B. apply Rabs_le. split; [|apply Up, B]. assert (r (- x) = - r x) as O by apply round_NE_opp. pose proof (Up (- x) ltac:(lra)). lra.
Qed.
Lemma same_feqb x y : f64valid x = true -> f64valid y = true -> fin x = true -> fin y = true -> feqb x y = true -> same_number x y.
Proof.
  intros Vx Vy Fx Fy E. apply (val_same 53 1024 P64 M64); try assumption. unfold feqb in E. rewrite (compare_val 53 1024) in E by assumption.
  destruct (Rcompare_spec (val x) (val y)); try discriminate. assumption.
Qed.
Lemma same_feqb32 x y : f32valid x = true -> f32valid y = true -> fin x = true -> fin y = true -> feqb x y = true -> same_number x y.
Proof.
  intros Vx Vy Fx Fy E. apply (val_same 24 128 P32 M32); try assumption. unfold feqb in E. rewrite (compare_val 24 128) in E by assumption.
  destruct (Rcompare_spec (val x) (val y)); try discriminate. assumption.
Qed.
Lemma back_and_forth x : f32valid x = true -> fin x = true -> same_number (to_f32 (to_f64 x)) x.
Proof.
  intros V F. destruct (to_f64_val x V F) as (V' & F' & E). destruct (to_f32_val _ V' F') as (V3 & R3 & _). rewrite E in R3.
  rewrite (rnd32_id _ (val_format 24 128 x V)) in R3. destruct (R3 (val_bound 24 128 x V)) as [F3 E3]. apply (val_same 24 128 P32 M32); assumption.
Qed.
Lemma over_f32 v : fin v = true -> bpow radix2 128 <= Rabs (rnd32 (val v)) -> fin (to_f32 v) = false.
Proof.
  intros F B. destruct v as [s|s| |s m e]; try discriminate F.
  - exfalso. cbn [SF2R] in B. rewrite round_0 in B by typeclasses eauto. rewrite Rabs_R0 in B. pose proof (bpow_gt_0 radix2 128) as P. exact (Rlt_irrefl _ (Rlt_le_trans _ _ _ P B)).
  - unfold to_f32, to_format. rewrite (normalize_equiv 24 128 P32 M32). rewrite finite_B2SF.
    pose proof (binary_normalize_correct 24 128 P32 M32 mode_NE (cond_Zopp s (Z.pos m)) e s) as H. cbv zeta in H.
    rewrite Rlt_bool_false in H by exact B. destruct (binary_normalize 24 128 P32 M32 mode_NE (cond_Zopp s (Z.pos m)) e s); try discriminate H; reflexivity.
Qed.
Lemma float_text_ok : float_writer (float_text 9).
Proof.
  intros x V F M. destruct (float_ok x V F) as [V' F']. destruct (to_f64_val x V' F') as (W & G & E). assert (Rabs (val (to_f64 x)) <= bpow radix2 128) as Bx by (rewrite E; apply Rlt_le, (val_bound 24 128 x V')).
  unfold float_text, writes_digits, reads_back. rewrite (real_val (to_f64 x)). cbv zeta. destruct (feqb (to_f32 (digits_read 6 (to_f64 x))) (to_f32 (to_f64 x))) eqn:Q.
  - right. destruct (digits_near 6 (to_f64 x) eq_refl G) as (d & Nd & _ & Dn). specialize (Dn (small_digits 6 _ d eq_refl Nd Bx) W). destruct Dn as [A _].
    pose proof (proj1 (double_ok _) A) as [Vy Fy]. set (y := digits_read 6 (to_f64 x)) in *. destruct (to_f32_val y Vy Fy) as (V3 & _ & I3).
    destruct (to_f32_val _ W G) as (V4 & _ & _).
    assert (same_number (to_f32 (to_f64 x)) x) as Sx by (apply back_and_forth; assumption).
    assert (fin (to_f32 (to_f64 x)) = true) as F4 by (destruct Sx as [->|(a & b & -> & _)]; [exact F'|reflexivity]).
    assert (fin (to_f32 y) = true) as F3.
    { destruct (fin (to_f32 y)) eqn:F3; [reflexivity|exfalso]. destruct (I3 eq_refl) as [_ I4]. rewrite I4 in Q. destruct (to_f32 (to_f64 x)); try discriminate F4; destruct (Rlt_bool _ _); discriminate Q. }
    assert (same_number (to_f32 y) x) as S by (eapply same_trans; [apply same_feqb32; eassumption|exact Sx]).
    split; [exact A|]. split; [|exact S]. destruct (Rle_lt_dec (Rabs (real_of y)) max_float) as [L|L]; [exact L|exfalso].
    assert (val (to_f32 y) = val x) as Es by (destruct S as [->|(a & b & -> & ->)]; reflexivity).
    destruct (to_f32_val y Vy Fy) as (_ & R3 & _). rewrite (real_val y) in L.
    assert (max_float <= Rabs (rnd32 (val y))) as Lr.
    { rewrite <- (rnd32_id _ max_float_format). unfold Rabs in L. destruct (Rcase_abs (val y)) as [Ng|Ng].
      - assert (rnd32 (val y) <= - rnd32 max_float) as U by (rewrite <- round_NE_opp; apply rnd32_le; lra). rewrite Rabs_left1; [lra|]. rewrite (rnd32_id _ max_float_format) in U.
        assert (0 < max_float) by (unfold max_float; apply IZR_lt; vm_compute; reflexivity). lra.
      - eapply Rle_trans; [apply rnd32_le, Rlt_le, L|apply Rle_abs]. }
    destruct (Rlt_le_dec (Rabs (rnd32 (val y))) (bpow radix2 128)) as [B|B].
    + destruct (R3 B) as [_ E3]. rewrite <- E3, Es, <- real_val in Lr. lra.
    + pose proof (val_bound 24 128 x V') as Vb. assert (fin (to_f32 y) = false) as Ff; [|congruence].
      exact (over_f32 y Fy B).
  - left. destruct (digits_near 9 (to_f64 x) eq_refl G) as (d & Nd & _ & Dn). exists d. split; [exact Nd|]. exact (Dn (small_digits 9 _ d eq_refl Nd Bx) W).
Qed.
Lemma divided_valid neg p q : f64valid (SFdiv 53 1024 (S754_finite neg p 0) (S754_finite false q 0)) = true.
Proof.
  pose proof (Bdiv_correct_aux 53 1024 P64 M64 mode_NE neg p 0 false q 0) as H. cbv zeta in H. unfold SFdiv.
  destruct (SpecFloat.SFdiv_core_binary 53 1024 (Zpos p) 0 (Zpos q) 0) as [[mz ez] lz]. rewrite round_aux_equiv. apply H.
Qed.
Lemma digits_valid k x : f64valid x = true -> f64valid (digits_read k x) = true.
Proof.
  intros V. destruct x as [s|s| |s m e]; try exact V. unfold digits_read. destruct (if (0 <=? e)%Z then _ else _) as [a b]. cbv zeta. unfold nearest_double.
  destruct (scaled a b (k - 1 - exponent10 a b)); try reflexivity. destruct (0 <=? exponent10 a b - k + 1)%Z; apply divided_valid.
Qed.
Lemma double_text_ok : double_writer double_text.
Proof.
  intros x A. pose proof (proj1 (double_ok x) A) as [V F]. unfold double_text, writes_digits. cbv zeta. destruct (feqb (digits_read 15 x) x) eqn:Q.
  - right. apply same_feqb; [apply digits_valid; exact V|exact V| |exact F|exact Q].
    destruct (digits_read 15 x) as [s|s| |s m e]; try reflexivity; destruct x as [s'|s'| |s' m' e']; try discriminate F; try discriminate Q; destruct s; try discriminate Q; destruct s'; discriminate Q.
  - left. destruct (digits_near 17 x eq_refl F) as (d & Nd & Ed & Dn). rewrite real_val. exists d. split; [exact Nd|]. apply Dn; [|exact V].
    apply rnd_bounded, (seventeen_max (val x) d Nd Ed). apply double_le_max; assumption.
Qed.
Lemma largest_forest {c_exp c_log : f64 -> f64} reread regain meta : writes_digits 9 reread (to_f64 flt_max) ->
  forest_of (c_exp := c_exp) (c_log := c_log) (forest_json reread regain [TNode (to_f64 flt_max : IEEE c_exp c_log) None TNone TNone] meta) = None.
Proof.
  intros W. pose proof (largest_float reread W) as E.
  change (forest_of (c_exp := c_exp) (c_log := c_log) (forest_json reread regain [TNode (to_f64 flt_max : IEEE c_exp c_log) None TNone TNone] meta)) with
    (opt! t := (match elements (tree_of (c_exp := c_exp) (c_log := c_log)) [JDict [(lit "score", number reread (to_f64 flt_max))]] with Some a => Some (Some a) | None => None end) in Some (otherwise [] t, meta)).
  rewrite (elements_in _ [_] (JDict [(lit "score", number reread (to_f64 flt_max))]) (or_introl eq_refl)); [reflexivity|].
  change (tree_of (c_exp := c_exp) (c_log := c_log) (JDict [(lit "score", number reread (to_f64 flt_max))])) with
    (opt! y' := (match json_float (number reread (to_f64 flt_max)) with Some a => Some (Some a) | None => None end) in
      Some (TNode (to_f64 (plain_zero (otherwise (S754_zero false) y')) : IEEE c_exp c_log) None TNone TNone)).
  rewrite E. reflexivity.
Qed.
Lemma stray_fields {c_exp c_log : f64 -> f64} :
  (forall l k v, In (k, v) l -> ~ In k (map lit ["tree"; "metaInfo"; "meta_info"]%string) -> forest_of (c_exp := c_exp) (c_log := c_log) (JDict l) = None) /\
  (forall meta trees l k v, In (JDict l) trees -> In (k, v) l ->
     ~ In k (map lit ["score"; "split"; "leftChild"; "left_child"; "rightChild"; "right_child"]%string) ->
     forest_of (c_exp := c_exp) (c_log := c_log) (JDict [(lit "tree", JList trees); (lit "metaInfo", JStr meta)]) = None) /\
  forest_of (c_exp := c_exp) (c_log := c_log) (JDict []) = Some ([], []).
Proof.
  split; [|split; [|reflexivity]].
  - intros l k v I H. unfold forest_of. change [lit "tree"; lit "metaInfo"; lit "meta_info"] with (map lit ["tree"; "metaInfo"; "meta_info"]%string). rewrite (stray_known _ _ _ _ I H). reflexivity.
  - intros meta trees l k v It I H.
    change (forest_of (c_exp := c_exp) (c_log := c_log) (JDict [(lit "tree", JList trees); (lit "metaInfo", JStr meta)])) with
      (opt! t := (match elements (tree_of (c_exp := c_exp) (c_log := c_log)) trees with Some a => Some (Some a) | None => None end) in Some (otherwise [] t, meta)).
    rewrite (elements_in _ _ _ It); [reflexivity|]. cbn [tree_of].
    change [lit "score"; lit "split"; lit "leftChild"; lit "left_child"; lit "rightChild"; lit "right_child"] with (map lit ["score"; "split"; "leftChild"; "left_child"; "rightChild"; "right_child"]%string).
    rewrite (stray_known _ _ _ _ I H). reflexivity.
Qed.
Lemma writable_small (x : f32) : a_float x -> match x with S754_finite _ m e => (Zpos m < 2 ^ 24)%Z /\ (e <= 0)%Z | _ => True end -> writable x.
Proof.
  intros V H. split; [exact V|]. intros F. assert (0 < max_float) as P by (unfold max_float; apply IZR_lt; vm_compute; reflexivity).
  destruct x as [s|s| |s m e]; try discriminate F; [cbn; rewrite Rabs_R0; exact P|]. destruct H as [Bm E]. rewrite real_val, val_finite, Rabs_mult.
  assert (Rabs (sg s) = 1) as -> by (destruct s; cbn; unfold Rabs; destruct (Rcase_abs _); lra). rewrite Rmult_1_l.
  rewrite Rabs_pos_eq; [|apply Rmult_le_pos; [apply IZR_le; lia|apply bpow_ge_0]].
  assert (bpow radix2 e <= 1) as B by (change 1 with (bpow radix2 0); apply bpow_le; lia).
  apply Rle_lt_trans with (IZR (2 ^ 24)); [|unfold max_float; apply IZR_lt; vm_compute; reflexivity].
  apply IZR_lt in Bm. assert (0 < IZR (Zpos m)) by (apply IZR_lt; reflexivity). nra.
Qed.
Lemma leaf_writable {c_exp c_log : f64 -> f64} (x : f32) : writable x -> writable_tree (TNode (to_f64 x : IEEE c_exp c_log) None TNone TNone).
Proof. intros W. repeat split; try discriminate. exists x. split; [exact W|reflexivity]. Qed.
Lemma fork_writable {c_exp c_log : f64 -> f64} (sp : split (IEEE c_exp c_log)) l r : writable_split sp -> writable_tree l -> writable_tree r ->
  writable_tree (TNode (S754_zero false : IEEE c_exp c_log) (Some sp) l r).
Proof.
  intros Ws Wl Wr. split; [exists (S754_zero false); split; [apply writable_small; [reflexivity|exact I]|reflexivity]|]. split; [|split; assumption]. intros x [= <-]. exact Ws.
Qed.
Lemma split_writable {c_exp c_log : f64 -> f64} n f c (g : IEEE c_exp c_log) : match f with Some (t, _) => writable t | None => True end ->
  match c with Some (_, i) => Forall (fun z => -2147483648 <= z <= 2147483647)%Z i | None => True end -> f64valid g = true -> writable_split (mkSplit n f c g).
Proof. intros A B C. split; [|split; [|exact C]]; cbn [sp_float sp_cat]; [intros t m ->; exact A|intros x i ->; exact B]. Qed.
