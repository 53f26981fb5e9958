(** Search_proofs.v - the threshold of a returned split, and what it does to the rows. *)
From Coq Require Import SpecFloat Reals.
From Verif Require Import Base Base_proofs F32 Column ColumnSpec DataStore Num Forest Config Score ScoreSpec Split SplitSpec
  Split_proofs Threshold_proofs Gain_proofs Divide_proofs.
Local Close Scope R_scope.

Lemma search_divides nm nb blocks b w gd rows (c : config Exact) rg bk sp :
  limit_ok nb -> (zlen (concat blocks) < 4294967294)%Z -> b_load nb blocks = Ret b -> below_inf (concat blocks) ->
  (forall v, In v (concat blocks) -> a_float v) ->
  (forall r, In r rows -> r < List.length (concat blocks)) -> weighted w gd rg rows ->
  (forall r, In r rows -> b_bucket b r = Ret (Z.of_nat (bk r))) -> no_half_zero rg bk rows ->
  find_best_float_split b w gd rows c (sum_of rg rows) = Ret (Some sp) ->
  exists kl kr xl xr t mr,
    kl < kr /\ with_data rg bk rows kl /\ with_data rg bk rows kr /\ (forall k, kl < k < kr -> ~ with_data rg bk rows k) /\
    b_bucket_max b (Z.of_nat kl) = Ret xl /\ b_bucket_min b (Z.of_nat kr) = Ret xr /\ sp_float sp = Some (t, mr) /\
    (kl = 0 \/ (finite_float xl = true /\ finite_float xr = true /\ finite_float (SFadd 24 128 xl xr) = true /\
                exists v, a_float v /\ finite_float v = true /\ fltb xl v = true /\ fltb v xr = true) ->
     divides b (fun _ => True) t kl kr /\
     forall p, (forall r, In r rows -> goes_left (mkCol nm (BodyB b)) sp r (p r)) ->
       sp_gain sp = reduction (cf_l2_lambda c) (sum_of rg rows) (sum_of rg (left_rows p rows)) (sum_of rg (right_rows p rows))).
Proof.
  intros L Z E I F Rows W Bk Half Find.
  assert (HR : has_rows (mkCol nm (BodyB b)) (List.length (concat blocks))) by (exists nb, blocks; exact (conj L (conj Z (conj E eq_refl)))).
  destruct (float_gain nm b _ w gd rows c rg bk HR Rows W Bk Half sp Find) as
    (kl & kr & xl & xr & t & mr & K & Dl & Dr & Gap & Xl & Xr & Sf & _ & T & _ & _ & G).
  exists kl, kr, xl, xr, t, mr. repeat (split; [assumption|]). intros C.
  assert (D : forall D, divides b D t kl kr).
  { intros D. destruct (Nat.eqb_spec kl 0) as [->|N0].
    - destruct T as (x & X1 & ->). exact (below_divides nb blocks b L Z E I F D kr x xr ltac:(lia) X1 Xr).
    - subst t. destruct C as [->|(F1 & F2 & Fs & v & Vv & Fv & A & B)]; [lia|].
      exact (middle_divides nb blocks b L Z E I F D kl kr xl xr v ltac:(lia) Xl Xr F1 F2 Fs Vv Fv A B). }
  split; [apply D|]. intros p Hp. exact (G p Hp (D _)).
Qed.
