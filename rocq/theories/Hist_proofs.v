(** Hist_proofs.v - histograms, and the gain recorded by the split search (exact arithmetic). *)
From Coq Require Import SpecFloat Reals Lra Sorting.Permutation.
From Verif Require Import Base Base_proofs F32 F32_proofs Column ColumnSpec ColumnHist_proofs ColumnBucket_proofs
  ColumnProps_proofs DataStore Num Forest Config Par Score ScoreSpec Score_proofs Split SplitSpec Split_proofs.
Local Close Scope R_scope.

(** ** Filters of an interval *)
Lemma filter_seq_firstn f M : forall s i k, nth_error (filter f (seq s M)) i = Some k ->
  firstn i (filter f (seq s M)) = filter f (seq s (k - s)) /\ s <= k < s + M /\ f k = true.
Proof.
  induction M as [|M IH]; intros s i k E; [destruct i; discriminate|].
  cbn [seq filter] in E |- *. destruct (f s) eqn:F.
  - destruct i as [|i]; cbn in E.
    + injection E as <-. rewrite Nat.sub_diag. cbn. repeat split; auto; lia.
    + destruct (IH _ _ _ E) as (A & B & C). cbn [firstn]. rewrite A.
      replace (k - s) with (S (k - S s)) by lia. cbn [seq filter]. rewrite F. repeat split; auto; lia.
  - destruct (IH _ _ _ E) as (A & B & C). rewrite A.
    replace (k - s) with (S (k - S s)) by lia. cbn [seq filter]. rewrite F. repeat split; auto; lia.
Qed.

Lemma filter_lt_seq f k m : forall s, s + k <= m -> filter (fun j => j <? m) (filter f (seq s k)) = filter f (seq s k).
Proof.
  induction k as [|k IH]; intros s L; [reflexivity|]. cbn [seq filter]. destruct (f s).
  - cbn [filter]. destruct (Nat.ltb_spec s m); [|lia]. f_equal. apply IH. lia.
  - apply IH. lia.
Qed.
Lemma filter_ge_seq f k m : forall s, m <= s -> filter (fun j => j <? m) (filter f (seq s k)) = [].
Proof.
  induction k as [|k IH]; intros s L; [reflexivity|]. cbn [seq filter]. destruct (f s).
  - cbn [filter]. destruct (Nat.ltb_spec s m); [lia|]. apply IH. lia.
  - apply IH. lia.
Qed.
Lemma filter_seq_lt f M k : k <= M -> filter (fun j => j <? k) (filter f (seq 0 M)) = filter f (seq 0 k).
Proof.
  intros L. replace M with (k + (M - k)) by lia. rewrite seq_app, filter_app, filter_app. cbn [plus].
  rewrite filter_lt_seq by lia. rewrite filter_ge_seq by lia. apply app_nil_r.
Qed.
Lemma filter_true {A} (l : list A) : filter (fun _ => true) l = l.
Proof. induction l; cbn; congruence. Qed.
Lemma list_nth_ext {A} (l : list A) : forall l', (forall j, nth_error l j = nth_error l' j) -> l = l'.
Proof.
  induction l as [|a l IH]; intros [|b l'] H; [reflexivity| | |].
  - specialize (H 0). discriminate.
  - specialize (H 0). discriminate.
  - pose proof (H 0) as H0. injection H0 as ->. f_equal. apply IH. intros j. exact (H (S j)).
Qed.

(** ** Cells of a histogram, any arithmetic *)
Section Hist.
Context {N : Num}.
Variables (code : nat -> res Z) (w : float_vector) (gd : list (grad N)) (cd : nat -> nat) (rg : nat -> grad N).

Definition cell (samples : list nat) (k : nat) : grad N :=
  total_of (map rg (filter (fun r => cd r =? k) samples)).

Lemma hist_fold M samples : (forall r, In r samples -> code r = Ret (Z.of_nat (cd r)) /\ cd r < M) ->
  (forall r, In r samples -> row_grad w gd r = Ret (rg r)) ->
  exists h, fold_res (hist_row code w gd) samples (repeat gzero M) = Ret h /\ h = map (cell samples) (seq 0 M).
Proof.
  induction samples as [|r l IH] using rev_ind; intros HC HR.
  - eexists. split; [reflexivity|]. clear. generalize 0. induction M as [|M IH]; intros s; [reflexivity|].
    cbn. f_equal. apply IH.
  - destruct IH as (h & E & Eh).
    { intros r0 I. apply HC, in_app_iff; auto. } { intros r0 I. apply HR, in_app_iff; auto. }
    destruct (HC r) as [C L]; [apply in_app_iff; cbn; auto|].
    pose proof (HR r ltac:(apply in_app_iff; cbn; auto)) as G.
    rewrite fold_res_app, E. cbn [bind fold_res]. unfold hist_row. rewrite C. cbn [bind]. rewrite Nat2Z.id.
    assert (Eg : nth_error h (cd r) = Some (cell l (cd r))).
    { rewrite Eh, nth_error_map, (nth_error_nth' _ 0) by (rewrite seq_length; lia). cbn. rewrite seq_nth by lia. reflexivity. }
    unfold vget at 1. rewrite Eg. cbn [bind]. rewrite G. cbn [bind]. unfold vset.
    assert (Lh : List.length h = M) by (rewrite Eh, map_length, seq_length; reflexivity).
    rewrite Lh. destruct (Nat.ltb_spec (cd r) M); [|lia]. cbn [bind]. eexists. split; [reflexivity|].
    apply list_nth_ext. intros i. destruct (Nat.eq_dec i (cd r)) as [->|Ne].
    + rewrite nth_error_set_nth_eq by lia. rewrite nth_error_map, (nth_error_nth' _ 0) by (rewrite seq_length; lia).
      cbn. rewrite seq_nth by lia. cbn. unfold cell. rewrite filter_app. cbn. rewrite Nat.eqb_refl, map_app. cbn.
      rewrite total_snoc. reflexivity.
    + rewrite nth_error_set_nth_ne by auto. rewrite Eh, !nth_error_map.
      destruct (nth_error (seq 0 M) i) as [k|] eqn:Ei; [|reflexivity]. cbn. unfold cell. rewrite filter_app. cbn.
      assert (k = i). { assert (i < M) by (rewrite <- (seq_length M 0); apply nth_error_Some; congruence).
        rewrite (nth_error_nth' _ 0) in Ei by (rewrite seq_length; lia). rewrite seq_nth in Ei by lia. cbn in Ei. congruence. }
      subst. destruct (Nat.eqb_spec (cd r) i); [congruence|]. rewrite app_nil_r. reflexivity.
Qed.
End Hist.

(** ** Exact sums *)
Notation GE := (grad Exact).
Lemma gE (a b : GE) : gg a = gg b -> gh a = gh b -> a = b.
Proof. destruct a, b; cbn; intros -> ->; reflexivity. Qed.
Lemma gadd_comm (a b : GE) : gadd a b = gadd b a.
Proof. apply gE; cbn; lra. Qed.
Lemma gadd_assoc (a b c : GE) : gadd a (gadd b c) = gadd (gadd a b) c.
Proof. apply gE; cbn; lra. Qed.
Lemma gadd_0_l (a : GE) : gadd gzero a = a.
Proof. apply gE; cbn; lra. Qed.
Lemma gadd_0_r (a : GE) : gadd a gzero = a.
Proof. apply gE; cbn; lra. Qed.
Lemma total_cons (a : GE) l : total_of (a :: l) = gadd a (total_of l).
Proof.
  assert (H : forall l (x : GE), fold_left gadd l x = gadd x (fold_left gadd l gzero)).
  { induction l0 as [|y l0 IH]; intros x; cbn [fold_left].
    - rewrite gadd_0_r. reflexivity.
    - rewrite IH, (IH (gadd gzero y)), gadd_0_l, gadd_assoc. reflexivity. }
  unfold total_of. cbn [fold_left]. rewrite H, gadd_0_l. reflexivity.
Qed.
Lemma total_app (l l' : list GE) : total_of (l ++ l') = gadd (total_of l) (total_of l').
Proof.
  induction l as [|a l IH]; cbn [app]; [symmetry; apply gadd_0_l|]. rewrite !total_cons, IH, gadd_assoc. reflexivity.
Qed.
Lemma total_perm (l l' : list GE) : Permutation l l' -> total_of l = total_of l'.
Proof.
  induction 1; [reflexivity| | |congruence].
  - rewrite !total_cons. congruence.
  - rewrite !total_cons, !gadd_assoc, (gadd_comm y x). reflexivity.
Qed.
Lemma total_split {A} (f : A -> GE) p l :
  gadd (total_of (map f (filter p l))) (total_of (map f (filter (fun x => negb (p x)) l))) = total_of (map f l).
Proof.
  induction l as [|a l IH]; [apply gadd_0_l|]. cbn [filter map]. rewrite total_cons, <- IH.
  destruct (p a); cbn [negb map]; rewrite total_cons.
  - symmetry. apply gadd_assoc.
  - rewrite !gadd_assoc, (gadd_comm (f a)). reflexivity.
Qed.
Lemma total_drop (f : nat -> GE) p q l : (forall k, In k l -> q k = false -> f k = gzero) ->
  total_of (map f (filter p l)) = total_of (map f (filter p (filter q l))).
Proof.
  induction l as [|a l IH]; intros H; [reflexivity|]. cbn [filter].
  specialize (IH (fun k I => H k (or_intror I))). destruct (q a) eqn:Q; cbn [filter]; destruct (p a) eqn:P; cbn [map].
  - rewrite !total_cons, IH. reflexivity.
  - exact IH.
  - rewrite total_cons, (H a (or_introl eq_refl) Q), gadd_0_l. exact IH.
  - exact IH.
Qed.

Section Sum.
Variables (cd : nat -> nat) (rg : nat -> GE).

Lemma total_bump (j : nat) (x : GE) (f : nat -> GE) ks : NoDup ks ->
  total_of (map (fun k => if j =? k then gadd x (f k) else f k) ks) =
  if existsb (Nat.eqb j) ks then gadd x (total_of (map f ks)) else total_of (map f ks).
Proof.
  induction 1 as [|k ks N D IH]; [reflexivity|]. cbn [map existsb]. rewrite !total_cons, IH.
  destruct (Nat.eqb_spec j k) as [->|Ne]; cbn [orb].
  - destruct (existsb (Nat.eqb k) ks) eqn:E.
    + apply existsb_exists in E. destruct E as (k' & I & Ek). apply Nat.eqb_eq in Ek. subst. contradiction.
    + symmetry. apply gadd_assoc.
  - destruct (existsb (Nat.eqb j) ks); [|reflexivity]. rewrite !gadd_assoc, (gadd_comm x). reflexivity.
Qed.

Lemma total_buckets M (lb : nat -> bool) samples : (forall r, In r samples -> cd r < M) ->
  total_of (map rg (filter (fun r => lb (cd r)) samples)) = total_of (map (cell cd rg samples) (filter lb (seq 0 M))).
Proof.
  induction samples as [|r l IH]; intros H.
  - cbn [filter map]. symmetry. transitivity (total_of (map (fun _ => @gzero Exact) (filter lb (seq 0 M)))); [reflexivity|].
    induction (filter lb (seq 0 M)) as [|k ks IHk]; [reflexivity|]. cbn [map]. rewrite total_cons, IHk. apply gadd_0_l.
  - transitivity (total_of (map (fun k => if cd r =? k then gadd (rg r) (cell cd rg l k) else cell cd rg l k) (filter lb (seq 0 M)))).
    + rewrite total_bump by (apply NoDup_filter, seq_NoDup). rewrite <- IH by (intros; apply H; cbn; auto).
      cbn [filter]. destruct (lb (cd r)) eqn:L.
      * assert (E : existsb (Nat.eqb (cd r)) (filter lb (seq 0 M)) = true).
        { apply existsb_exists. exists (cd r). split; [|apply Nat.eqb_refl]. apply filter_In. split; [|exact L].
          apply in_seq. specialize (H r (or_introl eq_refl)). lia. }
        rewrite E. cbn [map]. apply total_cons.
      * destruct (existsb (Nat.eqb (cd r)) (filter lb (seq 0 M))) eqn:E; [|reflexivity].
        apply existsb_exists in E. destruct E as (k & I & Ek). apply Nat.eqb_eq in Ek. subst k.
        apply filter_In in I. destruct I. congruence.
    + f_equal. apply map_ext. intros k. unfold cell. cbn [filter]. destruct (cd r =? k); [|reflexivity].
      cbn [map]. symmetry. apply total_cons.
Qed.
End Sum.
