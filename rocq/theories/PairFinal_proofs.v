(** PairFinal_proofs.v - the pairwise losses as used by the trainer (properties C47 to C49 and C62). *)
From Coq Require Import Reals Lra Permutation SpecFloat.
From Flocq Require Import Core.Zaux Core.Raux Core.Defs Core.Float_prop IEEE754.BinarySingleNaN.
From Verif Require Import Base Base_proofs F32 F32_proofs Column ColumnSpec Subsampling Subsampling_proofs Num Par Par_proofs Config Split SplitSpec Split_proofs
  Tree Train Loss LossSpec Score_proofs Sum_proofs Pairwise PairSpec Calculus_proofs FloatReal_proofs Group_proofs GroupCol_proofs Pairwise_proofs PairExact_proofs.
Local Close Scope R_scope.

(** ** Weights *)
Lemma basic_defined {N : Num} delta y t : weight_defined (N := N) (basic_weight delta) y t.
Proof.
  intros g a b i j _ Ea Eb Yi Yj. unfold basic_weight. destruct delta; [|eauto].
  unfold target_diff, group_y, vget. cbn [fst snd]. rewrite Ea. cbn [bind]. rewrite Yi. cbn [bind]. rewrite Eb. cbn [bind]. rewrite Yj. cbn. eauto.
Qed.
Lemma lambda_defined {N : Num} base y t : weight_defined (N := N) (lambda_weight base) y t.
Proof.
  intros g a b i j L Ea Eb Yi Yj. destruct (basic_defined (N := N) true y t g a b i j L Ea Eb Yi Yj) as [d Ed].
  unfold lambda_weight. cbn [basic_weight] in Ed. rewrite Ed. cbn [bind fst snd]. unfold vget.
  assert (A : a < List.length (gr_ranks g)) by (rewrite L; apply nth_error_Some; congruence).
  assert (B : b < List.length (gr_ranks g)) by (rewrite L; apply nth_error_Some; congruence).
  apply nth_error_Some in A, B. destruct (nth_error (gr_ranks g) a); [|congruence]. destruct (nth_error (gr_ranks g) b); [|congruence]. cbn. eauto.
Qed.
Lemma kind_defined {N : Num} (c : config N) wr weight lossf y t : pair_kind c wr weight lossf -> weight_defined weight y t.
Proof. intros []; [apply basic_defined|apply basic_defined|apply basic_defined|apply lambda_defined]. Qed.

Local Open Scope R_scope.
Lemma diff_positive y g a b i j t : nth_error (gr_rows g) a = Some i -> nth_error (gr_rows g) b = Some j -> y i = Ret (t i) -> y j = Ret (t j) ->
  a_float (t i) -> a_float (t j) -> finite_float (t i) = true -> finite_float (t j) = true -> fltb (t j) (t i) = true ->
  exists d, target_diff (N := Exact) y g (a, b) = Ret d /\ 0 < d.
Proof.
  intros Ea Eb Yi Yj Vi Vj Fi Fj L. exists (real_of (t i) - real_of (t j)). split.
  - apply target_diff_real; eexists; split; eauto.
  - apply (float_order _ _ Vj Vi Fj Fi) in L. lra.
Qed.

Lemma kind_positive c wr weight lossf n y rows wv t f rk g u : pair_kind (N := Exact) c wr weight lossf ->
  comparable y (seq 0 n) t -> (forall i, (i < n)%nat -> a_float (t i) /\ finite_float (t i) = true /\ 0 <= wv i) ->
  (forall r, In r (concat rows) -> (r < n)%nat) -> In rk rows -> Permutation rk (gr_rows g) ->
  is_push (N := Exact) weight lossf y wv t f g (rescale (N := Exact) c rows t rk) u ->
  0 <= exact_weight u /\ 0 <= exact_hessian u.
Proof.
  intros K Cy Fin Lr I P H. pose proof (is_push_inside _ _ _ _ _ _ _ _ _ _ P H) as (Ip & In' & _).
  destruct H as (a & b & pw & Ea & Eb & Lt & Ew & Eu & Ep).
  assert (Lp : (pu_pos u < n)%nat) by (apply Lr, in_concat; eauto).
  assert (Ln : (pu_neg u < n)%nat) by (apply Lr, in_concat; eauto).
  destruct (Fin _ Lp) as (Vp & Fp & Wp). destruct (Fin _ Ln) as (Vn & Fn & Wn).
  destruct (Cy (pu_pos u)) as [Yp _]; [apply in_seq; lia|]. destruct (Cy (pu_neg u)) as [Yn _]; [apply in_seq; lia|].
  destruct (diff_positive y g a b _ _ t Ea Eb Yp Yn Vp Vn Fp Fn Lt) as (d & Ed & Dp).
  split.
  - unfold exact_weight. rewrite Eu. cbn [nmul nstore Exact].
    assert (Pw : 0 <= pw).
    { destruct K; unfold basic_weight, lambda_weight in Ew.
      4:{ rewrite Ed in Ew. cbn [bind fst snd] in Ew. apply bind_ret in Ew. destruct Ew as (r1 & _ & Ew). apply bind_ret in Ew. destruct Ew as (r2 & _ & Ew).
          injection Ew as <-. cbn [nmul nabs Exact]. apply Rmult_le_pos; [lra|apply Rabs_pos]. }
      all: destruct (cf_delta_target c); [rewrite Ed in Ew; injection Ew as <-; lra|injection Ew as <-; unfold n1; cbn [nZ Exact]; lra]. }
    assert (Rs : 0 <= rescale (N := Exact) c rows t rk).
    { unfold rescale. destruct (cf_equal_groups c); [|unfold n1; cbn [nZ Exact]; lra]. cbn [ndiv nZ Exact]. unfold Rdiv.
      assert (0 < num_pairs t rk)%nat.
      { assert (X : In (pu_pos u, pu_neg u) (better_pairs t rk)) by (unfold better_pairs; apply filter_In; split; [apply in_prod; assumption|exact Lt]).
        unfold num_pairs. destruct (better_pairs t rk); [destruct X|cbn; lia]. }
      apply Rmult_le_pos; [apply IZR_le; lia|]. apply Rlt_le, Rinv_0_lt_compat, IZR_lt. lia. }
    apply Rmult_le_pos; [|exact Rs]. apply Rmult_le_pos; [|exact Pw]. apply Rmult_le_pos; assumption.
  - unfold exact_hessian. rewrite Ep. destruct K.
    + apply hinge_positive.
    + apply square_positive.
    + apply Rlt_le, log_positive.
    + apply Rlt_le, log_positive.
Qed.
Local Close Scope R_scope.

(** ** A round *)
Lemma usable_round {N : Num} srt threads to_uint pick (c : config N) wr weight lossf n w y col wv t p pos f :
  sorts srt -> 1 <= threads -> nleb (nfloat (cf_pair_rate c)) (@n0 N) = false -> proper_groups n col -> row_values w n wv ->
  comparable y (seq 0 n) t -> picks pick -> pair_kind c wr weight lossf ->
  in_use srt threads to_uint pick c wr weight lossf n w y col p -> List.length f = n ->
  (wr = true -> ordered N /\ forall x, In x f -> neqb x x = true) ->
  exists rows, grouping n col rows /\ rows_by_group n col = Ret rows /\
   ((forall rk, In rk rows -> exists count, samples_of to_uint c n rows t rk = Ret count /\ (num_pairs t rk = 0 -> count = 0)) ->
    (forall s, ireach wloc_dec (pair_tasks srt to_uint pick c wr weight lossf p f, pair_mem n (List.length (pr_slices p)) pos) s ->
       (forall q, In q (fst s) -> ~ pfail q (snd s)) /\ (all_done (fst s) \/ exists s', istep wloc_dec s s') /\
       (all_done (fst s) -> explained srt to_uint c wr weight lossf n y rows wv t p f (grad_cell (snd s)))) /\
    forall gd, exists grads p' pos', pair_round srt to_uint pick c wr weight lossf p pos f gd = Ret (n0, grads, p', pos') /\
       List.length grads = n /\ explained srt to_uint c wr weight lossf n y rows wv t p f (nth_error grads)).
Proof.
  intros Srt Th Rate Pg Wv Yv Pk K U Lf Rr. destruct (grouping_ok n col Pg) as (rows & G & Rw). destruct (grouping_rows n col rows G) as [ND Lr].
  exists rows. split; [exact G|]. split; [exact Rw|]. intros Cn.
  eapply pair_round_ok; try eassumption.
  - eapply in_use_ready; eassumption.
  - eapply kind_defined, K.
Qed.

Lemma init_usable {N : Num} srt threads (c : config N) n w y col t :
  sorts srt -> 1 <= threads -> nleb (nfloat (cf_pair_rate c)) (@n0 N) = false -> proper_groups n col ->
  comparable y (seq 0 n) t -> exists p, pair_init srt threads c n w y col = Ret (inr p).
Proof.
  intros Srt Th Rate Pg Yv. destruct (grouping_ok n col Pg) as (rows & G & Rw). destruct (grouping_rows n col rows G) as [ND Lr].
  destruct (init_ready srt threads (fun _ _ => (0, 0)) c (basic_weight false) n w y col rows t Srt Th Rate Rw Lr Yv) as (p & E & _). eauto.
Qed.

Lemma balanced srt to_uint c wr weight lossf n y col rows wv t p f at_ : grouping n col rows ->
  explained (N := Exact) srt to_uint c wr weight lossf n y rows wv t p f at_ ->
  pair_kind c wr weight lossf -> comparable y (seq 0 n) t ->
  forall rk, In rk rows -> exists d, (forall r, In r rk -> at_ r = Some (d r)) /\ rows_sum rk (fun r => exact_g (d r)) = 0%R /\
    ((forall i, i < n -> a_float (t i) /\ finite_float (t i) = true /\ (0 <= wv i)%R) -> forall r, In r rk -> (0 <= exact_h (d r))%R) /\
    (num_pairs t rk = 0 -> forall r, In r rk -> d r = gzero).
Proof.
  intros G E K Cy rk I. destruct (grouping_rows n col rows G) as [ND Lr].
  destruct (explained_sums _ _ _ _ _ _ _ _ _ _ _ _ _ _ ND E rk I) as (d & D1 & D2 & D3 & D4). exists d. split; [exact D1|]. split; [exact D2|]. split; [|exact D4].
  intros Fin. apply D3. intros g u P H. eapply kind_positive; try eassumption. intros r J. apply Lr, J.
Qed.

(** ** Targets without two different values *)
Lemma ieee_ties c_exp c_log (x : f64) : let N := IEEE c_exp c_log in double_to_uint (@nmul N (@nZ N 0) (@ndiv N (@ndiv N x (@nZ N 0)) (@nZ N 2))) = Undef.
Proof. destruct x as [[]|[]| |[] m e]; reflexivity. Qed.

Lemma rerank_not_fatal {N : Num} srt (f : list N) g : rerank srt f g <> Fatal.
Proof.
  unfold rerank. assert (A : forall l, read_all (vget f) l <> Fatal).
  { induction l as [|i l IH]; cbn; [discriminate|]. unfold vget at 1. destruct (nth_error f i); cbn; [|discriminate]. destruct (read_all (vget f) l); cbn; congruence. }
  destruct (read_all (vget f) (gr_rows g)) eqn:E; cbn; [|discriminate|exfalso; exact (A _ E)].
  destruct (forallb _ _); [|discriminate].
  assert (B : forall (l : list (nat * nat)) r, fold_res (fun ranks x => vset ranks (snd x) (fst x)) l r <> Fatal).
  { clear. induction l as [|x l IH]; intros r; cbn; [discriminate|]. unfold vset at 1. destruct (snd x <? List.length r); cbn; [apply IH|discriminate]. }
  destruct (fold_res _ _ _) eqn:Ef; cbn; try discriminate. exfalso. exact (B _ _ Ef).
Qed.

Lemma list_sum_zero (l : list nat) : (forall x, In x l -> x = 0) -> list_sum l = 0.
Proof. induction l as [|x l IH]; intros H; [reflexivity|]. change (x + list_sum l = 0). rewrite (H x (or_introl eq_refl)), IH; [reflexivity|]. intros z I. apply H. right. exact I. Qed.

Lemma ties_undefined c_exp c_log srt threads pick (c : config (IEEE c_exp c_log)) wr weight lossf n w y col t p pos f gd :
  let N := IEEE c_exp c_log in
  sorts srt -> 1 <= threads -> nleb (nfloat (cf_pair_rate c)) (@n0 N) = false -> proper_groups n col -> 0 < n ->
  comparable y (seq 0 n) t -> (forall i j, i < n -> j < n -> fltb (t i) (t j) = false) ->
  in_use (N := N) srt threads double_to_uint pick c wr weight lossf n w y col p ->
  pair_round (N := N) srt double_to_uint pick c wr weight lossf p pos f gd = Undef.
Proof.
  cbv zeta. intros Srt Th Rate Pg Pos Yv Ties U. destruct (grouping_ok n col Pg) as (rows & G & Rw). destruct (grouping_rows n col rows G) as [ND Lr].
  assert (Rd : ready (N := IEEE c_exp c_log) threads c n w y rows t p) by (eapply in_use_ready; eassumption).
  destruct Rd as (_ & _ & E3 & _ & E5 & F).
  assert (Z0 : forall rk, In rk rows -> num_pairs t rk = 0).
  { intros rk I. unfold num_pairs, better_pairs. replace (filter _ _) with (@nil (nat * nat)); [reflexivity|]. symmetry.
    assert (A : forall x, In x (list_prod rk rk) -> fltb (t (snd x)) (t (fst x)) = false).
    { intros [i j] H. apply in_prod_iff in H. apply Ties; apply Lr, in_concat; exists rk; tauto. }
    induction (list_prod rk rk) as [|x l IH]; [reflexivity|]. cbn. rewrite (A x (or_introl eq_refl)). apply IH. intros z H. apply A. right. exact H. }
  assert (Hd : exists rk rows', rows = rk :: rows').
  { destruct rows as [|rk rows']; [|eauto]. specialize (Lr 0). cbn in Lr. tauto. }
  destruct Hd as (rk & rows' & ->). inversion F as [|? g0 ? gs (Pm & Np & _) F']; subst.
  assert (Sl : exists k sl, pr_slices p = (0, Datatypes.S k) :: sl).
  { match goal with X : _ = pr_groups p |- _ => rewrite <- X in E3 end. cbn [List.length] in E3.
    destruct (divide_spec (Datatypes.S (List.length gs)) (threads * 5)) as (rs & E & L & Vd & Cc & Mo); [lia|].
    assert (Er : Ret rs = Ret (pr_slices p)) by (rewrite <- E; exact E3). injection Er as Er. clear E. rewrite Er in L, Vd, Cc, Mo. unfold divide_samples in E3. apply bind_ret in E3. destruct E3 as (sizes & _ & E3). injection E3 as E3.
    destruct sizes as [|k sizes]; cbn in E3; [rewrite <- E3 in L; cbn in L; lia|].
    destruct k as [|k]; [|eauto]. exfalso.
    assert (Em : forall r, In r (pr_slices p) -> snd r - fst r = 0).
    { intros r I. apply In_nth_error in I. destruct I as [j Ej]. specialize (Mo 0 j (0, 0) r ltac:(lia)). rewrite <- E3 in Mo at 1. specialize (Mo eq_refl Ej). cbn in Mo. lia. }
    assert (X : concat (map (fun r => seq (fst r) (snd r - fst r)) (pr_slices p)) = []).
    { clear - Em. induction (pr_slices p) as [|r l IH]; [reflexivity|]. cbn. rewrite (Em r (or_introl eq_refl)). cbn. apply IH. intros z H. apply Em. right. exact H. }
    rewrite X in Cc. discriminate. }
  destruct Sl as (k & sl & Es).
  assert (Np0 : gr_pairs g0 = 0) by (rewrite Np; apply Z0; left; reflexivity).
  assert (Rn : forall m, run (A := unit) wloc_dec (pair_task (N := IEEE c_exp c_log) srt double_to_uint pick c wr weight lossf p f 0 (range (0, Datatypes.S k))) m = Undef).
  { intros m. unfold range. cbn [fst snd Nat.sub seq pair_task]. unfold pair_group.
    match goal with X : _ = pr_groups p |- _ => rewrite <- X end. cbn [vget nth_error pres pbind].
    destruct (reranked srt wr f g0) as [g| |] eqn:Er.
    - cbn [pres pbind]. assert (Gp : gr_pairs g = 0) by (rewrite (proj1 (proj2 (reranked_keeps _ _ _ _ _ Er))); exact Np0).
      rewrite Gp, E5. unfold probability. rewrite list_sum_zero.
      2:{ intros x I. apply in_map_iff in I. destruct I as (z & <- & I). apply Z0, I. }
      pose proof (ieee_ties c_exp c_log (@nmul (IEEE c_exp c_log) (nfloat (cf_pair_rate c)) (@nZ (IEEE c_exp c_log) (Z.of_nat n)))) as T. cbv zeta in T.
      change (Z.of_nat 0) with 0%Z. match goal with |- context [pres ?x] => replace x with (@Undef nat) by (symmetry; exact T) end. reflexivity.
    - reflexivity.
    - exfalso. unfold reranked in Er. destruct wr; [exact (rerank_not_fatal _ _ _ Er)|discriminate]. }
  unfold pair_round, pair_tasks. rewrite Es. cbn [List.length seq combine map run_tasks fst snd]. rewrite Rn. reflexivity.
Qed.

(** ** Schedules *)
Section Schedules.
Context {L V : Type} (dec : forall a b : L, {a = b} + {a <> b}).
Implicit Types (ps : list (prog L V unit)) (m : mem L V).

Lemma exec_step_istep i (s s' : list (prog L V unit) * mem L V) : exec_step dec i s = Some s' -> istep dec s s'.
Proof.
  destruct s as [ps m]. unfold exec_step. cbn [fst snd]. destruct (nth_error ps i) as [[a| | |l k|l v q]|] eqn:E; try discriminate.
  - destruct (m l) eqn:El; [|discriminate]. intros [= <-]. eapply IStep; [exact E|]. constructor. exact El.
  - destruct (m l) eqn:El; [|discriminate]. intros [= <-]. eapply IStep; [exact E|]. econstructor. exact El.
Qed.
Lemma exec_reach is : forall s s' : list (prog L V unit) * mem L V, exec dec is s = Some s' -> ireach dec s s'.
Proof.
  induction is as [|i is IH]; intros s s' E; cbn in E; [injection E as <-; constructor|].
  destruct (exec_step dec i s) as [s1|] eqn:E1; [|discriminate]. eapply ireach_trans; [|apply IH, E].
  eapply ITrans; [constructor|]. eapply exec_step_istep, E1.
Qed.
Lemma finished_done ps : finished ps = true -> all_done ps.
Proof.
  unfold finished. rewrite forallb_forall. intros H p I. specialize (H p I). destruct p as [[]| | | |]; try discriminate. reflexivity.
Qed.

(** One task that has something to do: its result is that of running it alone. *)
Lemma lonely i ps m s : (forall j p, nth_error ps j = Some p -> j <> i -> p = PRet tt) -> ireach dec (ps, m) s ->
  (forall j p, nth_error (fst s) j = Some p -> j <> i -> p = PRet tt) /\
  match nth_error ps i, nth_error (fst s) i with
  | Some p, Some q => run dec p m = run dec q (snd s)
  | None, None => snd s = m
  | _, _ => False
  end.
Proof.
  intros Only R. remember (ps, m) as s0 eqn:E0. induction R as [s|s1 s2 s3 R IH St]; subst.
  - cbn. split; [exact Only|]. destruct (nth_error ps i); reflexivity.
  - destruct (IH eq_refl) as [O2 M2]. clear IH. inversion St as [qs m1 k p p' m' Ek Sk]; subst. cbn [fst snd] in *.
    destruct (Nat.eq_dec k i) as [->|Ne].
    + split.
      * intros j q Ej Nj. rewrite nth_error_set_nth_ne in Ej by congruence. eauto.
      * rewrite Ek in M2. destruct (nth_error ps i) as [p0|]; [|contradiction].
        rewrite nth_error_set_nth_eq by (apply nth_error_Some; congruence). rewrite M2.
        inversion Sk; subst; cbn; match goal with H : _ = Some _ |- _ => rewrite H end; reflexivity.
    + rewrite (O2 k p Ek Ne) in Sk. inversion Sk.
Qed.
Lemma lonely_same i ps m s1 s2 : (forall j p, nth_error ps j = Some p -> j <> i -> p = PRet tt) -> ireach dec (ps, m) s1 -> ireach dec (ps, m) s2 ->
  all_done (fst s1) -> all_done (fst s2) -> snd s1 = snd s2.
Proof.
  intros O R1 R2 D1 D2. destruct (lonely i ps m s1 O R1) as [_ M1]. destruct (lonely i ps m s2 O R2) as [_ M2].
  destruct (nth_error ps i) as [p|].
  - destruct (nth_error (fst s1) i) as [q1|] eqn:E1; [|contradiction]. destruct (nth_error (fst s2) i) as [q2|] eqn:E2; [|contradiction].
    rewrite (D1 q1 (nth_error_In _ _ E1)) in M1. rewrite (D2 q2 (nth_error_In _ _ E2)) in M2. cbn in M1, M2. congruence.
  - destruct (nth_error (fst s1) i); [contradiction|]. destruct (nth_error (fst s2) i); [contradiction|]. congruence.
Qed.
End Schedules.

Lemma one_group_tasks {N : Num} srt to_uint pick (c : config N) wr weight lossf p f threads : 1 <= threads ->
  List.length (pr_groups p) = 1 -> divide_samples (List.length (pr_groups p)) (threads * 5) = Ret (pr_slices p) ->
  exists i, forall j q, nth_error (pair_tasks srt to_uint pick c wr weight lossf p f) j = Some q -> j <> i -> q = PRet tt.
Proof.
  intros Th L1 D. rewrite L1 in D. unfold divide_samples in D. apply bind_ret in D. destruct D as (sizes & Dh & D). injection D as D.
  assert (G : exists i, forall j r, nth_error (pr_slices p) j = Some r -> j <> i -> range r = []).
  { destruct (divide_spec 1 (threads * 5)) as (rs & E & _ & Vd & _); [lia|]. unfold divide_samples in E. rewrite Dh in E. cbn [bind] in E. injection E as E.
    assert (Es : rs = pr_slices p) by congruence. clear E.
    assert (X : (exists i r, nth_error (pr_slices p) i = Some r /\ fst r <= 0 < snd r) \/ ~ (exists i r, nth_error (pr_slices p) i = Some r /\ fst r <= 0 < snd r)).
    { clear. induction (pr_slices p) as [|r l IH]; [right; intros (i & r & E & _); destruct i; discriminate|].
      destruct (le_lt_dec (fst r) 0) as [A|A], (le_lt_dec (snd r) 0) as [B|B].
      2:{ left. exists 0, r. split; [reflexivity|lia]. }
      all: destruct IH as [(i & q & E & H)|IH]; [left; exists (Datatypes.S i), q; auto|right; intros ([|i] & q & E & H); [cbn in E; injection E as <-; lia|apply IH; eauto]]. }
    assert (Em : forall r, In r (pr_slices p) -> ~ (fst r <= 0 < snd r) -> range r = []).
    { intros r I H. rewrite <- Es in I. apply Vd in I. unfold range. replace (snd r - fst r) with 0 by lia. reflexivity. }
    destruct X as [(i & r & E & H)|X].
    - exists i. intros j q Ej Ne. apply Em; [eapply nth_error_In, Ej|]. intros H'. apply Ne.
      rewrite <- D in E, Ej. exact (ranges_disjoint sizes 0 j i q r 0 Ej E H' H).
    - exists 0. intros j q Ej _. apply Em; [eapply nth_error_In, Ej|]. intros H. apply X. eauto. }
  destruct G as [i G]. exists i. intros j q Ej Ne. unfold pair_tasks in Ej. rewrite nth_error_map in Ej.
  rewrite combine_seq_nth in Ej. destruct (nth_error (pr_slices p) j) as [r|] eqn:Er; [|discriminate]. cbn in Ej. injection Ej as <-.
  rewrite (G j r Er Ne). reflexivity.
Qed.

Lemma one_group_same {N : Num} srt threads to_uint pick (c : config N) wr weight lossf n w y t p pos f s1 s2 :
  sorts srt -> 1 <= threads -> nleb (nfloat (cf_pair_rate c)) (@n0 N) = false -> comparable y (seq 0 n) t ->
  in_use srt threads to_uint pick c wr weight lossf n w y None p ->
  ireach wloc_dec (pair_tasks srt to_uint pick c wr weight lossf p f, pair_mem n (List.length (pr_slices p)) pos) s1 ->
  ireach wloc_dec (pair_tasks srt to_uint pick c wr weight lossf p f, pair_mem n (List.length (pr_slices p)) pos) s2 ->
  all_done (fst s1) -> all_done (fst s2) -> snd s1 = snd s2.
Proof.
  intros Srt Th Rate Yv U. destruct (grouping_ok n None (NoColumn n)) as (rows & G & Rw). destruct (grouping_rows n None rows G) as [ND Lr].
  assert (Rd : ready threads c n w y rows t p) by (eapply in_use_ready; eassumption).
  destruct Rd as (_ & _ & E3 & _ & _ & F).
  assert (L1 : List.length (pr_groups p) = 1).
  { inversion G; subst. inversion F as [|? ? ? ? _ F']; subst. inversion F'; subst. reflexivity. }
  destruct (one_group_tasks srt to_uint pick c wr weight lossf p f threads Th L1 E3) as [i Hi].
  intros R1 R2 D1 D2. eapply (lonely_same wloc_dec i); eassumption.
Qed.

(** ** The number of sampled pairs *)
Section Truncation.
Local Open Scope R_scope.
Lemma whole_part (m : positive) (e : Z) : let z := (match e with Zneg k => Zpos m / 2 ^ Zpos k | _ => Zpos m * 2 ^ e end)%Z in
  (0 <= z)%Z /\ IZR z <= IZR (Zpos m) * bpow radix2 e < IZR z + 1.
Proof.
  destruct e as [|k|k]; cbv zeta.
  - change (2 ^ 0)%Z with 1%Z. rewrite Z.mul_1_r. change (bpow radix2 0) with 1. split; [lia|]. lra.
  - change (bpow radix2 (Zpos k)) with (IZR (Z.pow_pos 2 k)). rewrite mult_IZR. change (2 ^ Zpos k)%Z with (Z.pow_pos 2 k). split; [|lra].
    apply Z.mul_nonneg_nonneg; [lia|]. apply (Z.pow_nonneg 2 (Zpos k)). lia.
  - change (bpow radix2 (Zneg k)) with (/ IZR (Z.pow_pos 2 k)). change (Z.pow_pos 2 k) with (2 ^ Zpos k)%Z.
    assert (P : (0 < 2 ^ Zpos k)%Z) by (apply Z.pow_pos_nonneg; lia). set (d := (2 ^ Zpos k)%Z) in *.
    assert (Pr : 0 < IZR d) by (apply IZR_lt; exact P). split; [apply Z.div_pos; lia|].
    pose proof (Z.div_mod (Zpos m) d ltac:(lia)) as E. pose proof (Z.mod_pos_bound (Zpos m) d P) as B.
    set (q := (Zpos m / d)%Z) in *. set (r := (Zpos m mod d)%Z) in *. rewrite E, plus_IZR, mult_IZR.
    apply (conj (proj1 B)) in B. destruct B as [B1 [_ B2]]. apply IZR_le in B1. apply IZR_lt in B2.
    replace ((IZR d * IZR q + IZR r) * / IZR d) with (IZR q + IZR r / IZR d) by (field; lra).
    assert (0 <= IZR r / IZR d) by (apply Rmult_le_pos; [exact B1|left; apply Rinv_0_lt_compat; exact Pr]).
    assert (IZR r / IZR d < 1) by (apply (Rmult_lt_reg_r (IZR d)); [exact Pr|]; unfold Rdiv; rewrite Rmult_assoc, Rinv_l, Rmult_1_r, Rmult_1_l by lra; exact B2). lra.
Qed.
Lemma truncated (x : f64) :
  (is_finite_SF x = true -> -1 < SF2R radix2 x < IZR 18446744073709551616 ->
     exists n, double_to_uint x = Ret n /\ (0 <= SF2R radix2 x -> INR n <= SF2R radix2 x < INR n + 1) /\ (SF2R radix2 x < 0 -> n = 0%nat)) /\
  (is_finite_SF x = false \/ SF2R radix2 x <= -1 \/ IZR 18446744073709551616 <= SF2R radix2 x -> double_to_uint x = Undef).
Proof.
  destruct x as [s|s| |s m e]; cbn [is_finite_SF SF2R double_to_uint].
  - split; [intros _ _|intros [H|H]; [discriminate|lra]]. exists 0%nat. split; [reflexivity|]. cbn. lra.
  - split; [discriminate|reflexivity].
  - split; [discriminate|reflexivity].
  - pose proof (whole_part m e) as W. cbv zeta in W. set (z := (match e with Zneg k => Zpos m / 2 ^ Zpos k | _ => Zpos m * 2 ^ e end)%Z) in *.
    destruct W as [Z0 [W1 W2]]. unfold F2R. cbn [Fnum Fexp]. destruct s; cbn [cond_Zopp].
    + rewrite opp_IZR. assert (0 < IZR (Zpos m) * bpow radix2 e) by (apply Rmult_lt_0_compat; [apply IZR_lt; lia|apply bpow_gt_0]).
      set (v := IZR (Zpos m) * bpow radix2 e) in *. replace (- IZR (Zpos m) * bpow radix2 e) with (- v) by (unfold v; ring).
      split.
      * intros _ [L _]. assert (z = 0%Z) as ->. { assert (z < 1)%Z; [|lia]. apply lt_IZR. lra. } exists 0%nat. split; [reflexivity|]. split; [lra|reflexivity].
      * intros [H1|[H1|H1]]; [discriminate| |lra]. destruct (Z.eqb_spec z 0) as [Ez|]; [|reflexivity]. rewrite Ez in W2. lra.
    + set (v := IZR (Zpos m) * bpow radix2 e) in *. split.
      * intros _ [_ L]. destruct (Z.ltb_spec z 18446744073709551616) as [Lz|Lz].
        -- exists (Z.to_nat z). split; [reflexivity|]. split; [|intros ?; apply IZR_le in Z0; lra]. intros _. rewrite INR_IZR_INZ, Z2Nat.id by exact Z0. lra.
        -- apply IZR_le in Lz. lra.
      * intros [H1|[H1|H1]]; [discriminate|apply IZR_le in Z0; lra|]. destruct (Z.ltb_spec z 18446744073709551616) as [Lz|Lz]; [|reflexivity].
        assert (z + 1 <= 18446744073709551616)%Z as X by lia. apply IZR_le in X. rewrite plus_IZR in X. lra.
Qed.
End Truncation.
