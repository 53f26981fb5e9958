(** FloatReal_proofs.v - the floating-point operations as rounded real operations (through the Flocq library). *)
From Coq Require Import SpecFloat Reals Lra Lia ZArith Bool Psatz.
From Flocq Require Import Core IEEE754.BinarySingleNaN.

Section Format.
Variables (prec emax : Z).
Context (Hprec : FLX.Prec_gt_0 prec) (Hmax : Prec_lt_emax prec emax).
Notation bf := (binary_float prec emax).
Notation valid := (valid_binary prec emax).
Notation fexp := (SpecFloat.fexp prec emax).
Notation rnd := (round radix2 fexp (round_mode mode_NE)).
Notation val := (SF2R radix2).

Lemma rne_equiv s m l : SpecFloat.round_nearest_even m l = choice_mode mode_NE s m l.
Proof. destruct l as [|[]]; try reflexivity. simpl. unfold Round.cond_incr. destruct (Z.even m); reflexivity. Qed.

Lemma round_aux_equiv sx mx ex lx :
  SpecFloat.binary_round_aux prec emax sx mx ex lx = binary_round_aux prec emax mode_NE sx mx ex lx.
Proof.
  unfold SpecFloat.binary_round_aux, binary_round_aux. set (mrse' := shr_fexp _ _ _ _ _). destruct mrse' as [mrs' e'].
  simpl. rewrite (rne_equiv sx). reflexivity.
Qed.

Lemma round_equiv s m e : SpecFloat.binary_round prec emax s m e = binary_round prec emax mode_NE s m e.
Proof.
  unfold SpecFloat.binary_round, binary_round, shl_align_fexp. set (mez := shl_align _ _ _). destruct mez as [mz ez].
  apply round_aux_equiv.
Qed.

Lemma normalize_equiv m e szero :
  SpecFloat.binary_normalize prec emax m e szero = B2SF (binary_normalize prec emax Hprec Hmax mode_NE m e szero).
Proof. destruct m as [|p|p]; simpl; [reflexivity| |]; rewrite B2SF_SF2B; apply round_equiv. Qed.

Lemma add_equiv (x y : bf) : SFadd prec emax (B2SF x) (B2SF y) = B2SF (Bplus mode_NE x y).
Proof.
  destruct x as [sx|sx| |sx mx ex Bx], y as [sy|sy| |sy my ey By]; try (simpl; destruct (Bool.eqb sx sy); reflexivity);
    try reflexivity. apply normalize_equiv.
Qed.
Lemma sub_equiv (x y : bf) : SFsub prec emax (B2SF x) (B2SF y) = B2SF (Bminus mode_NE x y).
Proof.
  destruct x as [sx|sx| |sx mx ex Bx], y as [sy|sy| |sy my ey By]; try (simpl; destruct (Bool.eqb sx (negb sy)); reflexivity);
    try reflexivity. simpl. unfold Zminus. rewrite <- cond_Zopp_negb. apply normalize_equiv.
Qed.
Lemma div_equiv (x y : bf) : SFdiv prec emax (B2SF x) (B2SF y) = B2SF (Bdiv mode_NE x y).
Proof.
  destruct x as [sx|sx| |sx mx ex Bx], y as [sy|sy| |sy my ey By]; try reflexivity.
  simpl. rewrite B2SF_SF2B. set (melz := SFdiv_core_binary _ _ _ _ _ _). destruct melz as [[mz ez] lz]. apply round_aux_equiv.
Qed.

Lemma valid_B2SF (v : spec_float) : valid v = true -> exists x : bf, B2SF x = v.
Proof. intros V. exists (SF2B v V). apply B2SF_SF2B. Qed.

Definition finite (v : spec_float) : bool := match v with S754_zero _ | S754_finite _ _ _ => true | _ => false end.
Lemma finite_B2SF (x : bf) : finite (B2SF x) = is_finite x.
Proof. destruct x; reflexivity. Qed.
Lemma val_B2SF (x : bf) : val (B2SF x) = B2R x.
Proof. destruct x; reflexivity. Qed.

(** A finite result is the rounded exact result; an infinite one means that rounding left the range. *)
Lemma add_val x y : valid x = true -> valid y = true -> finite x = true -> finite y = true ->
  valid (SFadd prec emax x y) = true /\
  (finite (SFadd prec emax x y) = true -> val (SFadd prec emax x y) = rnd (val x + val y)).
Proof.
  intros Vx Vy Fx Fy. destruct (valid_B2SF x Vx) as [X <-]. destruct (valid_B2SF y Vy) as [Y <-].
  rewrite add_equiv. split; [apply valid_binary_B2SF|]. rewrite !finite_B2SF in *. rewrite !val_B2SF. intros F.
  pose proof (Bplus_correct prec emax Hprec Hmax mode_NE X Y Fx Fy) as H. destruct (Rlt_bool _ _); [apply H|].
  destruct H as [H _]. rewrite <- finite_B2SF, H in F. destruct (Bsign X); discriminate.
Qed.
Lemma sub_val x y : valid x = true -> valid y = true -> finite x = true -> finite y = true ->
  valid (SFsub prec emax x y) = true /\
  (finite (SFsub prec emax x y) = true -> val (SFsub prec emax x y) = rnd (val x - val y)) /\
  (Rabs (rnd (val x - val y)) < bpow radix2 emax -> finite (SFsub prec emax x y) = true)%R.
Proof.
  intros Vx Vy Fx Fy. destruct (valid_B2SF x Vx) as [X <-]. destruct (valid_B2SF y Vy) as [Y <-].
  rewrite sub_equiv. split; [apply valid_binary_B2SF|]. rewrite !finite_B2SF in *. rewrite !val_B2SF.
  pose proof (Bminus_correct prec emax Hprec Hmax mode_NE X Y Fx Fy) as H.
  destruct (Rlt_bool_spec (Rabs (rnd (B2R X - B2R Y))) (bpow radix2 emax)) as [L|L].
  - split; [intros _; apply H|]. intros _. apply H.
  - split; [|intros; exfalso; lra]. intros F. destruct H as [H _]. rewrite <- finite_B2SF, H in F. destruct (Bsign X); discriminate.
Qed.
Lemma div_val x y : valid x = true -> valid y = true -> val y <> 0%R -> finite x = true ->
  valid (SFdiv prec emax x y) = true /\
  ((Rabs (rnd (val x / val y)) < bpow radix2 emax)%R ->
   finite (SFdiv prec emax x y) = true /\ val (SFdiv prec emax x y) = rnd (val x / val y)).
Proof.
  intros Vx Vy Zy Fx. destruct (valid_B2SF x Vx) as [X <-]. destruct (valid_B2SF y Vy) as [Y <-].
  rewrite div_equiv. split; [apply valid_binary_B2SF|]. rewrite !finite_B2SF in *. rewrite !val_B2SF in *. intros L.
  pose proof (Bdiv_correct prec emax Hprec Hmax mode_NE X Y Zy) as H. rewrite Rlt_bool_true in H by exact L.
  destruct H as (H1 & H2 & _). rewrite H2. auto.
Qed.

Lemma normalize_val m e s : valid (SpecFloat.binary_normalize prec emax m e s) = true /\
  ((Rabs (rnd (F2R (Float radix2 m e))) < bpow radix2 emax)%R ->
   finite (SpecFloat.binary_normalize prec emax m e s) = true /\
   val (SpecFloat.binary_normalize prec emax m e s) = rnd (F2R (Float radix2 m e))) /\
  (finite (SpecFloat.binary_normalize prec emax m e s) = false ->
   (bpow radix2 emax <= Rabs (rnd (F2R (Float radix2 m e))))%R /\
   SpecFloat.binary_normalize prec emax m e s = S754_infinity (Rlt_bool (F2R (Float radix2 m e)) 0)).
Proof.
  rewrite normalize_equiv. split; [apply valid_binary_B2SF|]. rewrite finite_B2SF, val_B2SF.
  pose proof (binary_normalize_correct prec emax Hprec Hmax mode_NE m e s) as H. cbv zeta in H.
  destruct (Rlt_bool_spec (Rabs (rnd (F2R (Float radix2 m e)))) (bpow radix2 emax)) as [L|L].
  - split; [intros _; split; apply H|]. intros F. rewrite (proj1 (proj2 H)) in F. discriminate.
  - split; [intros; exfalso; lra|]. intros _. split; [exact L|]. exact H.
Qed.

(** Comparing finite numbers *)
Lemma compare_val x y : valid x = true -> valid y = true -> finite x = true -> finite y = true ->
  SFcompare x y = Some (Rcompare (val x) (val y)).
Proof.
  intros Vx Vy Fx Fy. destruct (valid_B2SF x Vx) as [X <-]. destruct (valid_B2SF y Vy) as [Y <-].
  rewrite !finite_B2SF in *. rewrite !val_B2SF. exact (Bcompare_correct prec emax X Y Fx Fy).
Qed.

Lemma val_format x : valid x = true -> generic_format radix2 fexp (val x).
Proof. intros V. destruct (valid_B2SF x V) as [X <-]. rewrite val_B2SF. apply generic_format_B2R. Qed.
Lemma val_bound x : valid x = true -> (Rabs (val x) < bpow radix2 emax)%R.
Proof. intros V. destruct (valid_B2SF x V) as [X <-]. rewrite val_B2SF. apply abs_B2R_lt_emax. Qed.
End Format.
