(** Binary_proofs.v - the targets of the classification losses (for property C44). *)
From Coq Require Import SpecFloat Reals Lra.
From Flocq Require Import Core IEEE754.BinarySingleNaN.
From Verif Require Import Base Base_proofs F32 Column DataStore Subsampling Num Par Config Train Loss LossSpec Pairwise Loss_proofs
  FloatReal_proofs Threshold_proofs.
Local Close Scope R_scope.


Section Binary.
Context {N : Num}.
Lemma binary_spec y rows : (forall i, In i rows -> exists a, y i = Ret a) ->
  exists b, binary_targets (N := N) y rows = Ret b /\ (b = true <-> forall i a, In i rows -> y i = Ret a -> is_sign (N := N) a).
Proof.
  induction rows as [|i rows IH]; intros H; cbn [binary_targets]; [exists true; split; [reflexivity|split; [intros _ i a []|reflexivity]]|].
  destruct (H i (or_introl eq_refl)) as [a Ea]. rewrite Ea. cbn [bind].
  destruct (IH (fun k I => H k (or_intror I))) as (b & Eb & Sb).
  destruct (neqb (nfloat a) (nZ 1)) eqn:E1, (neqb (nfloat a) (nZ (-1))) eqn:E2; cbn [negb andb];
    try (exists b; split; [exact Eb|]; rewrite Sb; split;
         [intros F k x [<-|I] Ex; [assert (x = a) by congruence; subst x; unfold is_sign; auto|exact (F k x I Ex)]
         |intros F k x I; apply F; right; exact I]).
  exists false. split; [reflexivity|]. split; [discriminate|]. intros F. destruct (F i a (or_introl eq_refl) Ea) as [X|X]; congruence.
Qed.

Lemma binary_init threads lossf rows w y (wv : nat -> N) g : 1 <= threads -> row_values w rows wv -> (forall i, i < rows -> exists a, y i = Ret a) ->
  exists r, l_init (pointwise_loss (N := N) threads true lossf) rows w y g = Ret r /\
    ((exists p, r = inr p) <-> forall i a, i < rows -> y i = Ret a -> is_sign (N := N) a) /\
    ((forall p, r <> inr p) -> r = inl INVALID_ARGUMENT).
Proof.
  intros T Wv Yv. destruct (binary_spec y (seq 0 rows)) as (b & Eb & Sb).
  { intros i I. apply Yv. apply in_seq in I. lia. }
  cbn [l_init pointwise_loss]. rewrite Eb. cbn [bind].
  assert (Sb' : b = true <-> forall i a, i < rows -> y i = Ret a -> is_sign (N := N) a).
  { rewrite Sb. split; intros F i a I; apply F; [apply in_seq; lia|apply in_seq in I; lia]. }
  clear Sb. destruct b.
  - destruct (init_ok w y wv threads rows T Wv) as (p & E & _). rewrite E. cbn [bind].
    eexists. split; [reflexivity|]. split; [|intros H; destruct (H p eq_refl)]. split; [intros _; apply Sb'; reflexivity|eauto].
  - eexists. split; [reflexivity|]. split; [|reflexivity]. split; [intros [p X]; discriminate|].
    intros F. apply Sb' in F. discriminate.
Qed.

(** Targets with binarize_target. *)
Lemma binarized (c : config N) get y : targets c get = Ret y -> cf_binarize_target c = true ->
  exists r, get_raw get (cf_target_column c) = Some r /\
  forall i x, nth_error (r_floats r) i = Some x -> y i = Ret (if fltb f32_zero x then f32_one else f32_of_Z (-1)).
Proof.
  unfold targets. intros E B. destruct (cf_target_column c) eqn:Ec; [discriminate|]. destruct (get_raw get _) as [r|]; [|discriminate].
  exists r. split; [reflexivity|]. intros i x Ex. injection E as <-. unfold vget. rewrite Ex. cbn [bind]. rewrite B. reflexivity.
Qed.
Lemma sign_sign x : is_sign (N := N) f32_one -> is_sign (N := N) (f32_of_Z (-1)) ->
  is_sign (N := N) (if fltb f32_zero x then f32_one else f32_of_Z (-1)).
Proof. destruct (fltb f32_zero x); auto. Qed.
End Binary.

Lemma ieee_sign e l : is_sign (N := IEEE e l) f32_one /\ is_sign (N := IEEE e l) (f32_of_Z (-1)).
Proof. split; [left|right]; vm_compute; reflexivity. Qed.


Local Instance P32b : FLX.Prec_gt_0 24 := eq_refl.
Local Instance M32b : Prec_lt_emax 24 128 := eq_refl.
Lemma val_inj x z : valid_binary 24 128 x = true -> valid_binary 24 128 z = true -> finite x = true -> finite z = true ->
  SF2R radix2 x = SF2R radix2 z -> SF2R radix2 z <> 0%R -> x = z.
Proof.
  intros Vx Vz Fx Fz. destruct (valid_B2SF 24 128 x Vx) as [X <-]. destruct (valid_B2SF 24 128 z Vz) as [Y <-].
  rewrite !finite_B2SF in *. rewrite !val_B2SF. intros E Nz. f_equal. apply B2R_inj; [| |exact E];
    (apply is_finite_strict_B2R; congruence).
Qed.

Lemma ieee_is_sign e l x : valid_binary 24 128 x = true -> is_sign (N := IEEE e l) x <-> one_or_minus_one x.
Proof.
  intros V. split; [|intros [->| ->]; apply ieee_sign]. unfold is_sign, one_or_minus_one.
  destruct (finite x) eqn:Fx.
  2:{ destruct x as [|[|]| |]; try discriminate; intros [H|H]; vm_compute in H; discriminate. }
  destruct (to_f64_val x V Fx) as (V' & F' & E').
  assert (C : forall z, (z = 1 \/ z = -1)%Z -> neqb (nfloat x) (@nZ (IEEE e l) z) = true -> x = f32_of_Z z).
  { intros z Hz H. cbn in H. unfold feqb in H.
    assert (Vz : valid_binary 53 1024 (SpecFloat.binary_normalize 53 1024 z 0 false) = true /\ finite (SpecFloat.binary_normalize 53 1024 z 0 false) = true /\
      SF2R radix2 (SpecFloat.binary_normalize 53 1024 z 0 false) = IZR z /\
      valid_binary 24 128 (f32_of_Z z) = true /\ finite (f32_of_Z z) = true /\ SF2R radix2 (f32_of_Z z) = IZR z).
    { destruct Hz as [-> | ->]; (split; [vm_compute; reflexivity|]); (split; [vm_compute; reflexivity|]);
        (split; [|split; [vm_compute; reflexivity|split; [vm_compute; reflexivity|]]]).
      - replace (SpecFloat.binary_normalize 53 1024 1 0 false) with (S754_finite false 4503599627370496 (-52)) by (vm_compute; reflexivity).
        cbn [SF2R cond_Zopp]. unfold F2R. cbn [Fnum Fexp]. change (bpow radix2 (-52)) with (/ IZR (2 ^ 52))%R.
        replace (2 ^ 52)%Z with 4503599627370496%Z by (vm_compute; reflexivity). lra.
      - replace (f32_of_Z 1) with (S754_finite false 8388608 (-23)) by (vm_compute; reflexivity).
        cbn [SF2R cond_Zopp]. unfold F2R. cbn [Fnum Fexp]. change (bpow radix2 (-23)) with (/ IZR (2 ^ 23))%R.
        replace (2 ^ 23)%Z with 8388608%Z by (vm_compute; reflexivity). lra.
      - replace (SpecFloat.binary_normalize 53 1024 (-1) 0 false) with (S754_finite true 4503599627370496 (-52)) by (vm_compute; reflexivity).
        cbn [SF2R cond_Zopp]. unfold F2R. cbn [Fnum Fexp]. change (bpow radix2 (-52)) with (/ IZR (2 ^ 52))%R.
        replace (2 ^ 52)%Z with 4503599627370496%Z by (vm_compute; reflexivity). cbn [Z.opp]. lra.
      - replace (f32_of_Z (-1)) with (S754_finite true 8388608 (-23)) by (vm_compute; reflexivity).
        cbn [SF2R cond_Zopp]. unfold F2R. cbn [Fnum Fexp]. change (bpow radix2 (-23)) with (/ IZR (2 ^ 23))%R.
        replace (2 ^ 23)%Z with 8388608%Z by (vm_compute; reflexivity). cbn [Z.opp]. lra. }
    destruct Vz as (V1 & F1 & E1 & V2 & F2 & E2).
    rewrite (compare_val 53 1024) in H by assumption. rewrite E', E1 in H.
    destruct (Rcompare_spec (SF2R radix2 x) (IZR z)) as [|Eq|]; [discriminate| |discriminate].
    apply val_inj; try assumption; rewrite E2; [exact Eq|]. destruct Hz as [-> | ->]; lra. }
  intros [H|H]; [left; exact (C 1%Z (or_introl eq_refl) H)|right; exact (C (-1)%Z (or_intror eq_refl) H)].
Qed.

Lemma two_23 : powerRZ 2 (-23) = (/ 8388608)%R.
Proof. unfold powerRZ. f_equal. change (Pos.to_nat 23) with 23. simpl. lra. Qed.
Lemma exact_sign : is_sign (N := Exact) f32_one /\ is_sign (N := Exact) (f32_of_Z (-1)).
Proof.
  split; [left; change (Reqb (real_of f32_one) 1 = true)|right; change (Reqb (real_of (f32_of_Z (-1))) (-1) = true)]; unfold Reqb.
  - replace (real_of f32_one) with 1%R; [destruct (Req_EM_T 1 1); congruence|].
    replace f32_one with (S754_finite false 8388608 (-23)) by (vm_compute; reflexivity). cbn [real_of cond_Zopp]. rewrite two_23. cbn [Z.opp]. lra.
  - replace (real_of (f32_of_Z (-1))) with (-1)%R; [destruct (Req_EM_T (-1) (-1)); congruence|].
    replace (f32_of_Z (-1)) with (S754_finite true 8388608 (-23)) by (vm_compute; reflexivity). cbn [real_of cond_Zopp]. rewrite two_23. cbn [Z.opp]. lra.
Qed.

Lemma binary_init_ieee e l threads lossf rows w y wv g : 1 <= threads -> row_values (N := IEEE e l) w rows wv ->
  (forall i, i < rows -> exists a, y i = Ret a /\ valid_binary 24 128 a = true) ->
  exists r, l_init (pointwise_loss (N := IEEE e l) threads true lossf) rows w y g = Ret r /\
    ((exists p, r = inr p) <-> forall i a, i < rows -> y i = Ret a -> one_or_minus_one a) /\
    ((forall p, r <> inr p) -> r = inl INVALID_ARGUMENT).
Proof.
  intros T Wv Yv. destruct (binary_init (N := IEEE e l) threads lossf rows w y wv g T Wv) as (r & E & I & J).
  { intros i L. destruct (Yv i L) as (a & Ea & _). eauto. }
  exists r. split; [exact E|]. split; [|exact J]. rewrite I. split; intros H i a L Ea.
  - destruct (Yv i L) as (a' & Ea' & V). rewrite Ea in Ea'. injection Ea' as <-. apply (ieee_is_sign e l a V). eapply H; eassumption.
  - destruct (Yv i L) as (a' & Ea' & V). rewrite Ea in Ea'. injection Ea' as <-. apply (ieee_is_sign e l a V). eapply H; eassumption.
Qed.

Lemma binarized_init {N : Num} : is_sign (N := N) f32_one -> is_sign (N := N) (f32_of_Z (-1)) ->
  forall (c : config N) get y r threads lossf rows w wv g, 1 <= threads -> row_values (N := N) w rows wv ->
  targets c get = Ret y -> cf_binarize_target c = true -> get_raw get (cf_target_column c) = Some r -> List.length (r_floats r) = rows ->
  (forall i x, nth_error (r_floats r) i = Some x -> y i = Ret (if fltb f32_zero x then f32_one else f32_of_Z (-1))) /\
  exists p, l_init (pointwise_loss (N := N) threads true lossf) rows w y g = Ret (inr p).
Proof.
  intros S1 S2 c get y r threads lossf rows w wv g T Wv Et B Er L.
  destruct (binarized c get y Et B) as (r' & Er' & H). rewrite Er in Er'. injection Er' as <-. split; [exact H|].
  assert (Y : forall i, i < rows -> exists x, nth_error (r_floats r) i = Some x).
  { intros i Li. destruct (nth_error (r_floats r) i) eqn:E; [eauto|]. apply nth_error_None in E. lia. }
  destruct (binary_init (N := N) threads lossf rows w y wv g T Wv) as (q & E & I & J).
  { intros i Li. destruct (Y i Li) as [x Ex]. rewrite (H i x Ex). eauto. }
  assert (exists p, q = inr p) as [p ->]; [|eauto]. apply I. intros i a Li Ea. destruct (Y i Li) as [x Ex]. rewrite (H i x Ex) in Ea. injection Ea as <-.
  apply sign_sign; assumption.
Qed.

(** ** The losses by name *)
Lemma binary_name e l srt threads to_uint pick (c : config (IEEE e l)) :
  cf_loss_func c = lit "logloss" \/ cf_loss_func c = lit "huberized_hinge" ->
  exists lossf, create_loss srt threads to_uint pick c = Some (pointwise_loss (N := IEEE e l) threads true lossf).
Proof.
  intros [E|E]; unfold create_loss; rewrite E.
  - exists log_loss. reflexivity.
  - exists huberized_hinge. reflexivity.
Qed.
Lemma binary_by_name e l srt threads to_uint pick (c : config (IEEE e l)) rows w y wv g :
  cf_loss_func c = lit "logloss" \/ cf_loss_func c = lit "huberized_hinge" -> 1 <= threads -> row_values (N := IEEE e l) w rows wv ->
  (forall i, i < rows -> exists a, y i = Ret a /\ valid_binary 24 128 a = true) ->
  exists lf r, create_loss srt threads to_uint pick c = Some lf /\ l_init lf rows w y g = Ret r /\
    ((exists p, r = inr p) <-> forall i a, i < rows -> y i = Ret a -> one_or_minus_one a) /\
    ((forall p, r <> inr p) -> r = inl INVALID_ARGUMENT).
Proof.
  intros Nm T Wv Yv. destruct (binary_name e l srt threads to_uint pick c Nm) as [lossf ->].
  destruct (binary_init_ieee e l threads lossf rows w y wv g T Wv Yv) as (r & H). exists (pointwise_loss (N := IEEE e l) threads true lossf), r.
  split; [reflexivity|exact H].
Qed.
Lemma binarized_by_name e l srt to_uint pick (c : config (IEEE e l)) get y n r threads rows w wv g :
  cf_loss_func c = lit "logloss" \/ cf_loss_func c = lit "huberized_hinge" -> 1 <= threads -> row_values (N := IEEE e l) w rows wv ->
  targets c get = Ret y -> cf_binarize_target c = true -> get (cf_target_column c) = Some (mkCol n (BodyR r)) -> List.length (r_floats r) = rows ->
  (forall i x, nth_error (r_floats r) i = Some x -> y i = Ret (if fltb f32_zero x then f32_one else f32_of_Z (-1))) /\
  exists lf p, create_loss srt threads to_uint pick c = Some lf /\ l_init lf rows w y g = Ret (inr p).
Proof.
  intros Nm T Wv Et B G L. destruct (binary_name e l srt threads to_uint pick c Nm) as [lossf ->].
  assert (get_raw get (cf_target_column c) = Some r) as Er by (unfold get_raw; rewrite G; reflexivity).
  destruct (binarized_init (proj1 (ieee_sign e l)) (proj2 (ieee_sign e l)) c get y r threads lossf rows w wv g T Wv Et B Er L) as [H [p E]].
  split; [exact H|]. exists (pointwise_loss (N := IEEE e l) threads true lossf), p. split; [reflexivity|exact E].
Qed.
