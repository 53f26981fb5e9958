(** Divide_proofs.v - when the chosen threshold divides the buckets as the search intended. *)
From Coq Require Import SpecFloat.
From Verif Require Import Base Base_proofs F32 F32_proofs Column ColumnSpec ColumnHist_proofs ColumnBucket_proofs
  ColumnProps_proofs DataStore Num Split SplitSpec Threshold_proofs.

Section Divide.
Variables (nb : Z) (blocks : list (list f32)) (b : bcol).
Hypothesis L : limit_ok nb.
Hypothesis Zl : (zlen (concat blocks) < 4294967294)%Z.
Hypothesis E : b_load nb blocks = Ret b.
Hypothesis Inf : below_inf (concat blocks).

Lemma maxs_sorted : exists ms, b_maxs b = fnan :: ms ++ [flt_max] /\
  StronglySorted (fun a b => fleb a b = true) (ms ++ [flt_max]) /\ (forall k, In k ms -> In k (concat blocks) /\ is_nan k = false).
Proof.
  destruct (b_load_finished nb blocks b L Zl E) as (d0 & m & mid & H).
  destruct (fn_prefix _ _ _ _ _ _ H) as [d1 Ed].
  assert (HX : (zlen d0 < 4294967296)%Z). { pose proof Zl as Z. rewrite Ed, zlen_app in Z. pose proof (zlen_nonneg d1). lia. }
  destruct (bucket_limits_ret _ _ _ HX (fn_limits _ _ _ _ _ _ H)) as (ms & Em & Hs & Hin & _).
  exists ms. split; [exact Em|]. split.
  - apply weakly_sorted_lims; [exact Hs|]. intros k I. destruct (Hin k I) as [I' N]. apply Inf; [|exact N].
    rewrite Ed. apply in_app_iff. auto.
  - intros k I. destruct (Hin k I) as [I' N]. split; [|exact N]. rewrite Ed. apply in_app_iff. auto.
Qed.

Lemma max_mono k k' x x' : 1 <= k <= k' -> b_bucket_max b (Z.of_nat k) = Ret x -> b_bucket_max b (Z.of_nat k') = Ret x' ->
  fleb x x' = true.
Proof.
  intros K X X'. unfold b_bucket_max in X, X'. rewrite Nat2Z.id in X, X'. apply vget_ret in X, X'.
  destruct maxs_sorted as (ms & Em & Ss & Hn). rewrite Em in X, X'.
  destruct k as [|k]; [lia|]. destruct k' as [|k']; [lia|]. cbn [nth_error] in X, X'.
  destruct (Nat.eq_dec k k') as [->|Ne].
  - assert (x = x') by congruence. subst x'. apply nth_error_In in X. apply in_app_iff in X. destruct X as [X|[<-|[]]]; [|reflexivity].
    apply fleb_refl. apply Hn, X.
  - exact (StronglySorted_nth _ _ Ss k k' x x' ltac:(lia) X X').
Qed.

Lemma min_le_max k x y : 1 <= k -> b_bucket_min b (Z.of_nat k) = Ret x -> b_bucket_max b (Z.of_nat k) = Ret y ->
  fleb x y = true /\ (x = y \/ In x (concat blocks)).
Proof.
  intros K X Y. unfold b_bucket_max, b_bucket_min in X, Y. rewrite Nat2Z.id in X, Y. apply vget_ret in X, Y.
  destruct (b_load_finished nb blocks b L Zl E) as (d0 & m & mid & H).
  rewrite (proj2 (fn_mins _ _ _ _ _ _ H) _ _ Y) in X. injection X as <-. split.
  - refine (proj1 (fold_fmin_le _ _ _ _)).
    + apply Forall_forall. intros v I. apply filter_In in I. destruct I as [_ I]. unfold in_bucket in I.
      apply andb_true_iff in I. destruct I as [I _]. apply negb_true_iff in I. exact I.
    + destruct maxs_sorted as (ms & Em & _ & Hn). rewrite Em in Y. destruct k as [|k]; [lia|]. cbn [nth_error] in Y.
      apply nth_error_In in Y. apply in_app_iff in Y. destruct Y as [Y|[<-|[]]]; [apply Hn, Y|reflexivity].
  - destruct (fold_fmin_in (filter (in_bucket m mid k) (concat blocks)) y) as [->|I]; [auto|].
    apply filter_In in I. tauto.
Qed.

(** The two ends decide. *)
Lemma divides_ends D t kl kr xl y : 1 <= kr -> b_bucket_max b (Z.of_nat kl) = Ret xl -> b_bucket_max b (Z.of_nat kr) = Ret y ->
  (1 <= kl -> fltb xl t = true) -> fltb y t = false -> is_nan t = false -> divides b D t kl kr.
Proof.
  intros Kr Xl Y Hl Hr Nt k x K _ X. split; intros Kk.
  - pose proof (max_mono k kl x xl ltac:(lia) X Xl). specialize (Hl ltac:(lia)). clear - H Hl. ford.
  - pose proof (max_mono kr k y x ltac:(lia) Y X). clear - H Hr Nt. ford.
Qed.

Hypothesis Fl : forall v, In v (concat blocks) -> a_float v.

Lemma max_float k x : b_bucket_max b (Z.of_nat k) = Ret x -> a_float x.
Proof.
  intros X. unfold b_bucket_max in X. rewrite Nat2Z.id in X. apply vget_ret in X.
  destruct maxs_sorted as (ms & Em & _ & Hn). rewrite Em in X. apply nth_error_In in X.
  destruct X as [<-|X]; [reflexivity|]. apply in_app_iff in X. destruct X as [X|[<-|[]]]; [|reflexivity].
  apply Fl, Hn, X.
Qed.
Lemma has_max k x : b_bucket_min b (Z.of_nat k) = Ret x -> exists y, b_bucket_max b (Z.of_nat k) = Ret y.
Proof.
  intros X. unfold b_bucket_max, b_bucket_min in *. apply vget_ret in X.
  destruct (b_load_finished nb blocks b L Zl E) as (d0 & m & mid & H).
  unfold vget. destruct (nth_error (b_maxs b) (Z.to_nat (Z.of_nat k))) eqn:Y; [eauto|].
  apply nth_error_None in Y. rewrite <- (proj1 (fn_mins _ _ _ _ _ _ H)) in Y.
  assert (Z.to_nat (Z.of_nat k) < List.length (b_mins b)) by (apply nth_error_Some; congruence). lia.
Qed.
Lemma min_float k x : 1 <= k -> b_bucket_min b (Z.of_nat k) = Ret x -> a_float x.
Proof.
  intros K X. destruct (has_max k x X) as (y & Y). destruct (min_le_max k x y K X Y) as [_ [->|I]]; [|apply Fl, I].
  exact (max_float _ _ Y).
Qed.

Lemma below_divides D kr x1 xr : 1 <= kr -> b_bucket_min b 1 = Ret x1 -> b_bucket_min b (Z.of_nat kr) = Ret xr ->
  divides b D (below x1) 0 kr.
Proof.
  intros Kr X1 Xr k x K _ X. split; [lia|]. intros Kk.
  change 1%Z with (Z.of_nat 1) in X1. destruct (has_max 1 x1 X1) as (y1 & Y1).
  destruct (min_le_max 1 x1 y1 (le_n 1) X1 Y1) as [A _].
  pose proof (max_mono 1 k y1 x ltac:(lia) Y1 X) as B.
  apply below_not_above.
  - exact (min_float 1 x1 (le_n 1) X1).
  - exact (max_float k x X).
  - clear - A B. ford.
Qed.

Lemma middle_divides D kl kr xl xr v : 1 <= kl < kr -> b_bucket_max b (Z.of_nat kl) = Ret xl -> b_bucket_min b (Z.of_nat kr) = Ret xr ->
  finite_float xl = true -> finite_float xr = true -> finite_float (SFadd 24 128 xl xr) = true ->
  a_float v -> finite_float v = true -> fltb xl v = true -> fltb v xr = true ->
  divides b D (middle xl xr) kl kr.
Proof.
  intros K Xl Xr F1 F2 Fs Vv Fv A B. destruct (has_max kr xr Xr) as (y & Y).
  destruct (min_le_max kr xr y ltac:(lia) Xr Y) as [C _].
  pose proof (max_float _ _ Xl) as Vl. pose proof (min_float kr xr ltac:(lia) Xr) as Vr.
  pose proof (middle_separates xl v xr Vl Vv Vr F1 Fv F2 A B Fs) as Ms.
  destruct (middle_between xl xr Vl Vr F1 F2 ltac:(clear - A B; ford) Fs) as [_ Mr].
  apply (divides_ends D (middle xl xr) kl kr xl y ltac:(lia) Xl Y (fun _ => Ms)).
  - clear - C Mr. ford.
  - clear - Mr. ford.
Qed.
End Divide.
