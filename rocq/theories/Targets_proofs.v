(** Targets_proofs.v - proofs for C102. *)
From Coq Require Import SpecFloat Reals Lra Lia FunctionalExtensionality.
From Flocq Require Import Core IEEE754.BinarySingleNaN.
From Verif Require Import Base F32 F32_proofs Column DataStore Subsampling Num Par Forest Config Score Eval Split SplitSpec Tree Train Loss Pairwise PairSpec TargetsSpec
  TreeSpec Split_proofs Group_proofs Pairwise_proofs FloatReal_proofs Threshold_proofs PairExact_proofs Factory_proofs.
Local Close Scope R_scope.
Local Instance Q64 : FLX.Prec_gt_0 53 := eq_refl.
Local Instance R64 : Prec_lt_emax 53 1024 := eq_refl.

(** In doubles, the difference of two floats is determined by the real difference, if no float is -0. *)
Lemma to_f64_sign x : a_float x -> finite_float x = true -> x <> S754_zero true -> forall X : binary_float 53 1024, B2SF X = to_f64 x -> B2R X = 0%R -> Bsign X = false.
Proof.
  intros A F Z X E R0. destruct (to_f64_val x A F) as (V & Fx & Ev). assert (Rx : SF2R radix2 x = 0%R) by (change (SF2R radix2 x) with (val x); rewrite <- Ev, <- E, val_B2SF; exact R0).
  destruct x as [[|]|s| |s m e]; try discriminate; [congruence| |].
  - cbn in E. destruct X as [s|s| |s m e]; try discriminate. cbn in E. injection E as ->. reflexivity.
  - exfalso. cbn in Rx. apply (eq_0_F2R radix2) in Rx. destruct s; discriminate.
Qed.
Lemma diff_same a b a' b' : (forall x, In x [a; b; a'; b'] -> a_float x /\ finite_float x = true /\ x <> S754_zero true) ->
  (real_of a - real_of b = real_of a' - real_of b')%R -> SFsub 53 1024 (to_f64 a) (to_f64 b) = SFsub 53 1024 (to_f64 a') (to_f64 b').
Proof.
  assert (X : forall a b, (forall x, In x [a; b] -> a_float x /\ finite_float x = true /\ x <> S754_zero true) ->
    exists Z : binary_float 53 1024, B2SF Z = SFsub 53 1024 (to_f64 a) (to_f64 b) /\ is_finite Z = true /\ B2R Z = rnd64 (real_of a - real_of b) /\
      Bsign Z = match Rcompare (real_of a - real_of b) 0 with Lt => true | _ => false end).
  { clear. intros a b H. destruct (H a) as (Aa & Fa & Za); [cbn; auto|]. destruct (H b) as (Ab & Fb & Zb); [cbn; auto|].
    destruct (to_f64_val a Aa Fa) as (Va & F1 & Ea). destruct (to_f64_val b Ab Fb) as (Vb & F2 & Eb).
    destruct (valid_B2SF 53 1024 (to_f64 a) Va) as [X EX]. destruct (valid_B2SF 53 1024 (to_f64 b) Vb) as [Y EY].
    pose proof (val_bound 24 128 a Aa) as B1. pose proof (val_bound 24 128 b Ab) as B2.
    assert (Xr : B2R X = real_of a) by (rewrite <- val_B2SF, EX, Ea, real_val; reflexivity).
    assert (Yr : B2R Y = real_of b) by (rewrite <- val_B2SF, EY, Eb, real_val; reflexivity).
    change (val a) with (SF2R radix2 a) in B1. change (val b) with (SF2R radix2 b) in B2. rewrite <- real_val in B1, B2.
    rewrite <- EX, finite_B2SF in F1. rewrite <- EY, finite_B2SF in F2.
    pose proof (Bminus_correct 53 1024 Q64 R64 mode_NE X Y F1 F2) as M. rewrite Rlt_bool_true in M.
    - destruct M as (Mr & Mf & Ms). exists (Bminus mode_NE X Y). rewrite <- EX, <- EY. split; [symmetry; apply (sub_equiv 53 1024 Q64 R64)|]. split; [exact Mf|].
      rewrite Mr, Ms, Xr, Yr. split; [reflexivity|]. destruct (Rcompare_spec (real_of a - real_of b) 0) as [L|E0|G]; try reflexivity.
      destruct (Req_dec (B2R X) 0) as [X0|X0].
      + rewrite (to_f64_sign a Aa Fa Za X EX X0). reflexivity.
      + assert (XY : B2R X = B2R Y) by lra. assert (S : X = Y) by (apply B2R_inj; [destruct X; try reflexivity; exfalso; apply X0; reflexivity|destruct Y; try reflexivity; exfalso; apply X0; rewrite XY; reflexivity|exact XY]). rewrite S. destruct (Bsign Y); reflexivity.
    - rewrite Xr, Yr. eapply Rle_lt_trans; [apply (abs_round_le_generic radix2 (SpecFloat.fexp 53 1024) _ _ (bpow radix2 130))|].
      + apply generic_format_bpow. vm_compute. discriminate.
      + eapply Rle_trans; [apply Rabs_triang|]. rewrite Rabs_Ropp. rewrite (bpow_plus radix2 2 128 : bpow radix2 130 = _); change (bpow radix2 2) with 4%R.
        pose proof (bpow_gt_0 radix2 128). lra.
      + apply bpow_lt. reflexivity. }
  intros H E. destruct (X a b) as (Z & <- & F & R & S); [intros x I; apply H; cbn in *; intuition|].
  destruct (X a' b') as (Z' & <- & F' & R' & S'); [intros x I; apply H; cbn in *; intuition|]. f_equal.
  rewrite <- E in R', S'. apply B2R_Bsign_inj; congruence.
Qed.

Lemma insert_same less less' x l : (forall i j, In i (x :: l) -> In j (x :: l) -> less i j = less' i j) -> insert less x l = insert less' x l.
Proof.
  induction l as [|z l IH]; intros H; [reflexivity|]. cbn [insert]. rewrite <- !H by (cbn; auto). rewrite IH; [reflexivity|].
  intros i j I J. apply H; cbn in *; intuition.
Qed.
Lemma insertion_compares : compares_only insertion_sort.
Proof.
  intros less less' l H. induction l as [|x l IH]; [reflexivity|]. cbn [insertion_sort fold_right]. fold (insertion_sort less l) (insertion_sort less' l).
  rewrite IH by (intros i j I J; apply H; right; assumption).
  assert (P : forall z, In z (insertion_sort less' l) -> In z l).
  { clear. induction l as [|x l IH]; [intros z []|]. cbn [insertion_sort fold_right]. fold (insertion_sort less' l).
    assert (Q : forall m z, In z (insert less' x m) -> z = x \/ In z m).
    { induction m as [|u m IHm]; cbn [insert]; intros z; [cbn; intuition|]. destruct (less' u x); cbn; [|intuition]. intros [J | J]; [auto|]. apply IHm in J. intuition. }
    intros z J. apply Q in J. destruct J as [-> | J]; [left; reflexivity|right; apply IH, J]. }
  apply insert_same. intros i j [<- | I] [<- | J]; apply H; cbn; auto.
Qed.

Lemma eq_by_order a b a' b' : is_nan a = false -> is_nan b = false -> is_nan a' = false -> is_nan b' = false ->
  fltb a b = fltb a' b' -> fltb b a = fltb b' a' -> feqb a b = feqb a' b'.
Proof.
  assert (X : forall a b, is_nan a = false -> is_nan b = false -> feqb a b = negb (fltb a b) && negb (fltb b a)).
  { clear. intros a b A B. destruct (feqb a b) eqn:E, (fltb a b) eqn:L, (fltb b a) eqn:G; cbn; try reflexivity; exfalso; forder. }
  intros A B A' B' E1 E2. rewrite !X by assumption. rewrite E1, E2. reflexivity.
Qed.

Lemma boundaries_same (t t' : nat -> f32) (ok : nat -> Prop) : (forall i j, ok i -> ok j -> feqb (t i) (t j) = feqb (t' i) (t' j)) ->
  forall is size i last pairs a, ok a -> (forall x, In x is -> ok x) ->
  boundaries size i last pairs (t a) (map t is) = boundaries size i last pairs (t' a) (map t' is).
Proof.
  intros H is. induction is as [|x is IH]; intros size i last pairs a A I; [reflexivity|]. cbn [map boundaries].
  rewrite <- (H a x A (I x (or_introl eq_refl))). rewrite !(IH _ _ _ _ x) by (first [exact (I x (or_introl eq_refl))|intros z J; exact (I z (or_intror J))]).
  destruct (feqb (t a) (t x)); reflexivity.
Qed.

Lemma vget_in {A} (l : list A) i x : vget l i = Ret x -> In x l.
Proof. unfold vget. destruct (nth_error l i) eqn:E; [|discriminate]. intros [= <-]. eapply nth_error_In, E. Qed.

Lemma read_all_same {A} (u v : nat -> res A) l : (forall i, In i l -> u i = v i) -> read_all u l = read_all v l.
Proof. induction l as [|i l IH]; intros H; [reflexivity|]. cbn. rewrite (H i) by (left; reflexivity). rewrite IH by (intros; apply H; right; assumption). reflexivity. Qed.
Lemma read_all_in {A} (u : nat -> res A) l xs : read_all u l = Ret xs -> forall x, In x xs -> exists i, In i l /\ u i = Ret x.
Proof.
  revert xs. induction l as [|i l IH]; intros xs; cbn; [intros [= <-] x []|]. destruct (u i) as [z| |] eqn:E; cbn [bind]; try discriminate.
  destruct (read_all u l) as [zs| |]; cbn [bind]; try discriminate. intros [= <-] x [<- | I]; [exists i; auto|].
  destruct (IH zs eq_refl x I) as (k & K & Ek). exists k; auto.
Qed.

Section Same.
Context {N : Num}.
Variables (srt : (nat -> nat -> bool) -> list nat -> list nat) (threads : nat) (to_uint : N -> res nat)
  (pick : nat -> nat -> nat * nat) (c : config N) (wr : bool)
  (weight : float_vector -> group -> nat * nat -> res N) (lossf : N -> N -> point N)
  (n : nat) (y y' : float_vector) (t t' : nat -> f32) (rows : list (list nat)).
Hypothesis Srt : sorts srt.
Hypothesis Cmp : compares_only srt.
Hypothesis Inside : forall r, In r (concat rows) <-> r < n.
Hypothesis Yv : comparable y (seq 0 n) t.
Hypothesis Yv' : comparable y' (seq 0 n) t'.
Hypothesis Order : forall rk i j, In rk rows -> In i rk -> In j rk -> fltb (t i) (t j) = fltb (t' i) (t' j).
Hypothesis Loss_same : forall rk i j d, In rk rows -> In i rk -> In j rk ->
  lossf (nstore (nsub (nfloat (t i)) (nfloat (t j)))) d = lossf (nstore (nsub (nfloat (t' i)) (nfloat (t' j)))) d.
Definition within (g : group) : Prop := exists rk, In rk rows /\ forall i, In i (gr_rows g) -> In i rk.
Hypothesis Weight_same : forall g p, within g -> weight y g p = weight y' g p.

Lemma member rk i : In rk rows -> In i rk -> y i = Ret (t i) /\ is_nan (t i) = false /\ y' i = Ret (t' i) /\ is_nan (t' i) = false.
Proof.
  intros K I. assert (L : i < n) by (apply Inside, in_concat; eauto). destruct (Yv i) as [A B]; [apply in_seq; lia|]. destruct (Yv' i) as [A' B']; [apply in_seq; lia|]. auto.
Qed.

Lemma group_same rk : In rk rows -> group_new srt y rk = group_new srt y' rk /\ forall g, group_new srt y rk = Ret g -> within g.
Proof.
  intros K. assert (C : comparable y rk t) by (intros i I; destruct (member rk i K I) as (A & B & _); auto).
  assert (C' : comparable y' rk t') by (intros i I; destruct (member rk i K I) as (_ & _ & A & B); auto).
  destruct (group_spec srt y rk t Srt C) as (g & E & P & _). split; [|intros g' E'; rewrite E in E'; injection E' as <-; exists rk; split; [exact K|]; intros i I; eapply Permutation_in; [symmetry; exact P|exact I]].
  assert (V : forall i, In i rk -> value_at y i = t i) by (intros i I; unfold value_at; rewrite (proj1 (C i I)); reflexivity).
  assert (V' : forall i, In i rk -> value_at y' i = t' i) by (intros i I; unfold value_at; rewrite (proj1 (C' i I)); reflexivity).
  assert (Nan : existsb is_nan (map t rk) = false).
  { apply Bool.not_true_iff_false. rewrite existsb_exists. intros (x & I & X). apply in_map_iff in I. destruct I as (i & <- & I). destruct (C i I). congruence. }
  assert (Nan' : existsb is_nan (map t' rk) = false).
  { apply Bool.not_true_iff_false. rewrite existsb_exists. intros (x & I & X). apply in_map_iff in I. destruct I as (i & <- & I). destruct (C' i I). congruence. }
  revert E. unfold group_new. rewrite (read_all_ok y t) by (intros i I; apply C, I). rewrite (read_all_ok y' t') by (intros i I; apply C', I). cbn [bind].
  rewrite Nan, Nan'.
  rewrite <- (Cmp (fun i j => fltb (value_at y j) (value_at y i)) (fun i j => fltb (value_at y' j) (value_at y' i)) rk)
    by (intros i j I J; rewrite !V, !V' by assumption; apply (Order rk); assumption).
  set (l := srt _ rk).
  intros E. assert (Gl : gr_rows g = l).
  { destruct (match map (value_at y) l with [] => _ | _ => _ end) in E. injection E as <-. reflexivity. }
  rewrite Gl in P. assert (Il : forall i, In i l -> In i rk) by (intros i I; eapply Permutation_in; [symmetry; exact P|exact I]).
  clear E Gl g. assert (Ml : map (value_at y) l = map t l) by (apply map_ext_in; intros i I; apply V, Il, I).
  assert (Ml' : map (value_at y') l = map t' l) by (apply map_ext_in; intros i I; apply V', Il, I). rewrite Ml, Ml'.
  destruct l as [|a l']; [reflexivity|]. cbn [map].
  rewrite (boundaries_same t t' (fun i => In i rk)); [reflexivity| |apply Il; left; reflexivity|intros x I; apply Il; right; exact I].
  intros i j I J. apply eq_by_order; try (apply C; assumption); try (apply C'; assumption); apply (Order rk); assumption.
Qed.

(** The object of the other training *)
Definition swap (p : pairwise) : pairwise (N := N) := mkPairwise (pr_w p) y' (pr_groups p) (pr_slices p) (pr_max p) (pr_prob p).
Definition good (p : pairwise (N := N)) : Prop := pr_y p = y /\ forall g, In g (pr_groups p) -> within g.

Lemma init_same w col : rows_by_group n col = Ret rows ->
  pair_init srt threads c n w y' col = (let! r := pair_init srt threads c n w y col in Ret (match r with inl e => inl e | inr p => inr (swap p) end)) /\
  forall p, pair_init srt threads c n w y col = Ret (inr p) -> good p.
Proof.
  intros Rw. unfold pair_init. destruct (nleb (nfloat (cf_pair_rate c)) n0); [split; [reflexivity|discriminate]|]. rewrite Rw. cbn [bind].
  assert (E : read_all (fun i => let! r := vget rows i in group_new srt y' r) (seq 0 (List.length rows)) =
              read_all (fun i => let! r := vget rows i in group_new srt y r) (seq 0 (List.length rows))).
  { apply read_all_same. intros i _. destruct (vget rows i) as [rk| |] eqn:Ek; try reflexivity. cbn [bind]. symmetry. apply group_same. eapply vget_in, Ek. }
  rewrite E. destruct (read_all (fun i => let! r := vget rows i in group_new srt y r) _) as [gs| |] eqn:Eg; cbn [bind]; try (split; [reflexivity|discriminate]).
  destruct (divide_samples _ _) as [sl| |]; cbn [bind]; (split; [reflexivity|]); try discriminate. intros p [= <-]. split; [reflexivity|]. cbn [pr_groups]. intros g I.
  destruct (read_all_in _ _ _ Eg g I) as (i & _ & Ei). destruct (vget rows i) as [rk| |] eqn:Ek; cbn [bind] in Ei; try discriminate.
  apply (proj2 (group_same rk (vget_in _ _ _ Ek))), Ei.
Qed.

Lemma once_same w f j g factor : within g -> pair_once pick weight lossf w y' f j g factor = pair_once pick weight lossf w y f j g factor.
Proof.
  intros (rk & K & I). unfold pair_once. f_equal. apply functional_extensionality. intros [?|?|pos]; try reflexivity.
  destruct (pick pos (gr_pairs g)) as [index pos']. f_equal. destruct (sample_pair g index) as [p| |]; try reflexivity. cbn [pres pbind].
  destruct (vget (gr_rows g) (fst p)) as [a| |] eqn:Ea; try reflexivity. cbn [pres pbind].
  destruct (vget (gr_rows g) (snd p)) as [b| |] eqn:Eb; try reflexivity. cbn [pres pbind].
  destruct (w a); try reflexivity. destruct (w b); try reflexivity. cbn [pres pbind].
  rewrite (Weight_same g p) by (exists rk; auto). destruct (weight y' g p); try reflexivity. cbn [pres pbind].
  apply vget_in, I in Ea. apply vget_in, I in Eb.
  destruct (member rk a K Ea) as (-> & _ & -> & _). destruct (member rk b K Eb) as (-> & _ & -> & _). cbn [pres pbind].
  destruct (vget f a); try reflexivity. destruct (vget f b); try reflexivity. cbn [pres pbind].
  rewrite (Loss_same rk a b _ K Ea Eb). reflexivity.
Qed.

Lemma reranked_within (f : list N) g g' : within g -> reranked srt wr f g = Ret g' -> within g'.
Proof.
  intros W. unfold reranked. destruct wr; [|intros [= <-]; exact W]. unfold rerank. destruct (read_all _ _) as [fs| |]; cbn [bind]; try discriminate.
  destruct (forallb _ fs); try discriminate. destruct (fold_res _ _ _) as [rs| |]; cbn [bind]; try discriminate. intros [= <-]. exact W.
Qed.

Lemma tasks_same p f : good p -> pair_tasks srt to_uint pick c wr weight lossf (swap p) f = pair_tasks srt to_uint pick c wr weight lossf p f.
Proof.
  intros [Ey G]. unfold pair_tasks. cbn [swap pr_slices]. apply map_ext. intros [j sl]. cbn [fst snd]. generalize (range sl). intros gis.
  induction gis as [|gi gis IH]; [reflexivity|]. cbn [pair_task]. rewrite IH. f_equal. unfold pair_group. cbn [swap pr_groups pr_w pr_y pr_max pr_prob].
  destruct (vget (pr_groups p) gi) as [g| |] eqn:Eg; try reflexivity. cbn [pres pbind]. apply vget_in, G in Eg.
  destruct (reranked srt wr f g) as [g'| |] eqn:Er; try reflexivity. cbn [pres pbind]. apply (reranked_within f g g' Eg) in Er.
  destruct (to_uint _) as [k| |]; try reflexivity. cbn [pres pbind]. rewrite Ey.
  induction k as [|k IHk]; [reflexivity|]. cbn [pair_times]. rewrite IHk, once_same by exact Er. reflexivity.
Qed.

Lemma round_same p pos f gd : good p ->
  pair_round srt to_uint pick c wr weight lossf (swap p) pos f gd =
    (let! (x, gd, p, pos) := pair_round srt to_uint pick c wr weight lossf p pos f gd in Ret (x, gd, swap p, pos)) /\
  forall x gd' p' pos', pair_round srt to_uint pick c wr weight lossf p pos f gd = Ret (x, gd', p', pos') -> good p'.
Proof.
  intros G. unfold pair_round. rewrite (tasks_same p f G). cbn [swap pr_slices pr_groups pr_w pr_y pr_max pr_prob].
  destruct (run_tasks _ _ _) as [m| |]; cbn [bind]; try (split; [reflexivity|discriminate]).
  destruct (read_all _ _) as [gs| |] eqn:Eg; cbn [bind]; try (split; [reflexivity|discriminate]).
  destruct (m WGen) as [[?|?|q]|]; cbn [bind]; (split; [reflexivity|]); try discriminate. intros x gd' p' pos' [= _ _ <- _].
  destruct G as [Ey G]. split; [exact Ey|]. cbn [pr_groups]. intros g I. destruct (read_all_in _ _ _ Eg g I) as (i & _ & Ei).
  destruct (vget (pr_groups p) i) as [g0| |] eqn:E0; cbn [bind] in Ei; try discriminate. eapply reranked_within; [apply G, (vget_in _ _ _ E0)|exact Ei].
Qed.

Lemma rounds_same v top draw w features todo : forall i k trees st gd p pos, good p ->
  rounds v threads top draw srt w features c (pairwise_loss srt threads to_uint pick c wr weight lossf) todo i k trees st gd (swap p) pos =
  rounds v threads top draw srt w features c (pairwise_loss srt threads to_uint pick c wr weight lossf) todo i k trees st gd p pos.
Proof.
  induction todo as [|todo IH]; intros i k trees st gd p pos G; [reflexivity|]. cbn [rounds l_round pairwise_loss].
  destruct (round_same p pos (snd st) gd G) as [E K]. rewrite E. destruct (pair_round _ _ _ _ _ _ _ p pos (snd st) gd) as [[[[x gd'] p'] pos']| |]; try reflexivity. cbn [bind].
  destruct (nfinite x); [|reflexivity]. destruct (fit_tree _ _ _ _ _ _ _ _ _) as [[tr pos2]| |]; try reflexivity. cbn [bind].
  destruct (add_tree_scores _ _ _ _ _) as [st'| |]; try reflexivity. cbn [bind]. apply IH. eapply K; reflexivity.
Qed.

Lemma train_same v top draw pos names w base col : v_rows v = n -> group_column c (v_get v) = Ret col -> rows_by_group n col = Ret rows ->
  train v threads top draw pos srt names w y' (pairwise_loss srt threads to_uint pick c wr weight lossf) c base =
  train v threads top draw pos srt names w y (pairwise_loss srt threads to_uint pick c wr weight lossf) c base.
Proof.
  intros En Ec Rw. unfold train. destruct (check_config c); [|reflexivity]. destruct (load_features _ _) as [[|e] features]; [|reflexivity].
  rewrite Ec. cbn [bind l_init pairwise_loss]. rewrite En. destruct (init_same w col Rw) as [E G]. rewrite E.
  destruct (pair_init srt threads c n w y col) as [[e|p]| |]; try reflexivity. cbn [bind].
  destruct (init_scores v threads) as [st| |]; try reflexivity. cbn [bind].
  destruct (init_with_base _ _ _ _ _ _) as [[[k trees] st']| |]; try reflexivity. cbn [bind]. apply rounds_same, G. reflexivity.
Qed.
End Same.

Section Claims.
Variables (v : view) (threads : nat) (draw : nat -> spec_float) (pos : nat) (srt : (nat -> nat -> bool) -> list nat -> list nat) (names : list str)
  (pick : nat -> nat -> nat * nat) (w y y' : float_vector) (t t' : nat -> f32) (col : option strcol).
Lemma order_only {N : Num} top to_uint (c : config N) name lf base :
  sorts srt -> compares_only srt -> group_column c (v_get v) = Ret col -> proper_groups (v_rows v) col ->
  comparable y (seq 0 (v_rows v)) t -> comparable y' (seq 0 (v_rows v)) t' -> ranked_alike (v_rows v) col t t' ->
  In name [lit "auc"; lit "pairwise_logloss"] -> cf_loss_func c = name -> cf_delta_target c = false ->
  create_loss srt threads to_uint pick c = Some lf ->
  train v threads top draw pos srt names w y lf c base = train v threads top draw pos srt names w y' lf c base.
Proof.
  intros Srt Cmp Ec Pg Yv Yv' R Nm Ef Dt Cr. destruct (grouping_ok _ _ Pg) as (rows & G & Rw). destruct (grouping_rows _ _ _ G) as [_ Lr].
  assert (X : exists weight lossf, lf = pairwise_loss srt threads to_uint pick c false weight (fun _ d => lossf d) /\ forall g p, weight y g p = weight y' g p).
  { revert Cr. unfold create_loss. rewrite Ef. exists (basic_weight (cf_delta_target c)).
    destruct Nm as [<- | [<- | []]]; cbn in Cr; injection Cr as <-;
      [exists (huberized_hinge n1)|exists (log_loss n1)]; (split; [reflexivity|]); rewrite Dt; reflexivity. }
  destruct X as (weight & lossf & -> & W). symmetry.
  eapply (train_same srt threads to_uint pick c false weight _ (v_rows v) y y' t t' rows); eauto.
  intros rk i j K I J. apply R. exists rows, rk. auto.
Qed.

Lemma gaps_core {N : Num} top to_uint (c : config N) wr weight lossf base :
  sorts srt -> compares_only srt -> group_column c (v_get v) = Ret col -> proper_groups (v_rows v) col ->
  comparable y (seq 0 (v_rows v)) t -> comparable y' (seq 0 (v_rows v)) t' ->
  (forall i, i < v_rows v -> a_float (t i) /\ finite_float (t i) = true /\ a_float (t' i) /\ finite_float (t' i) = true) ->
  (forall i j, i < v_rows v -> j < v_rows v -> (real_of (t i) - real_of (t j) = real_of (t' i) - real_of (t' j))%R ->
     nsub (n := N) (nfloat (t i)) (nfloat (t j)) = nsub (nfloat (t' i)) (nfloat (t' j))) ->
  spaced_alike (v_rows v) col t t' -> pair_kind c wr weight lossf ->
  train v threads top draw pos srt names w y (pairwise_loss srt threads to_uint pick c wr weight lossf) c base =
  train v threads top draw pos srt names w y' (pairwise_loss srt threads to_uint pick c wr weight lossf) c base.
Proof.
  intros Srt Cmp Ec Pg Yv Yv' Fin Sub R K. destruct (grouping_ok _ _ Pg) as (rows & G & Rw). destruct (grouping_rows _ _ _ G) as [_ Lr].
  assert (Gap : forall rk i j, In rk rows -> In i rk -> In j rk -> (real_of (t i) - real_of (t j) = real_of (t' i) - real_of (t' j))%R)
    by (intros rk i j Ik I J; apply R; exists rows, rk; auto).
  assert (In' : forall rk i, In rk rows -> In i rk -> i < v_rows v) by (intros rk i Ik I; apply Lr, in_concat; eauto).
  assert (Td : forall g p, within rows g -> target_diff (N := N) y g p = target_diff (N := N) y' g p).
  { intros g p (rk & Ik & I). unfold target_diff, group_y. destruct (vget (gr_rows g) (fst p)) as [a| |] eqn:Ea; try reflexivity. cbn [bind].
    apply vget_in, I in Ea. pose proof (In' rk a Ik Ea) as La. destruct (Yv a) as [-> _]; [apply in_seq; lia|]. destruct (Yv' a) as [-> _]; [apply in_seq; lia|]. cbn [bind].
    destruct (vget (gr_rows g) (snd p)) as [b| |] eqn:Eb; try reflexivity. cbn [bind].
    apply vget_in, I in Eb. pose proof (In' rk b Ik Eb) as Lb. destruct (Yv b) as [-> _]; [apply in_seq; lia|]. destruct (Yv' b) as [-> _]; [apply in_seq; lia|]. cbn [bind].
    rewrite (Sub a b La Lb (Gap rk a b Ik Ea Eb)). reflexivity. }
  symmetry. eapply (train_same srt threads to_uint pick c wr weight lossf (v_rows v) y y' t t' rows); eauto.
  - intros rk i j Ik I J. destruct (Fin i (In' _ _ Ik I)) as (A & F & A' & F'). destruct (Fin j (In' _ _ Ik J)) as (B & H & B' & H').
    pose proof (proj1 (float_order _ _ A B F H)) as X. pose proof (proj1 (float_order _ _ A' B' F' H')) as X'. pose proof (Gap rk i j Ik I J) as Z.
    apply Bool.eq_true_iff_eq. rewrite X, X'. lra.
  - intros rk i j d Ik I J. rewrite (Sub i j (In' _ _ Ik I) (In' _ _ Ik J) (Gap rk i j Ik I J)). reflexivity.
  - intros g p Wi. destruct K; try (unfold basic_weight; destruct (cf_delta_target c); [apply Td, Wi|reflexivity]).
    unfold lambda_weight. rewrite (Td g p Wi). reflexivity.
Qed.
Lemma gaps_only top to_uint (c : config Exact) wr weight lossf base :
  sorts srt -> compares_only srt -> group_column c (v_get v) = Ret col -> proper_groups (v_rows v) col ->
  comparable y (seq 0 (v_rows v)) t -> comparable y' (seq 0 (v_rows v)) t' ->
  (forall i, i < v_rows v -> a_float (t i) /\ finite_float (t i) = true /\ a_float (t' i) /\ finite_float (t' i) = true) ->
  spaced_alike (v_rows v) col t t' -> pair_kind c wr weight lossf ->
  train v threads top draw pos srt names w y (pairwise_loss srt threads to_uint pick c wr weight lossf) c base =
  train v threads top draw pos srt names w y' (pairwise_loss srt threads to_uint pick c wr weight lossf) c base.
Proof. intros. apply gaps_core; auto. Qed.
Lemma gaps_doubles c_exp c_log top to_uint (c : config (IEEE c_exp c_log)) wr weight lossf base :
  sorts srt -> compares_only srt -> group_column c (v_get v) = Ret col -> proper_groups (v_rows v) col ->
  comparable y (seq 0 (v_rows v)) t -> comparable y' (seq 0 (v_rows v)) t' ->
  (forall i x, i < v_rows v -> In x [t i; t' i] -> a_float x /\ finite_float x = true /\ x <> S754_zero true) ->
  spaced_alike (v_rows v) col t t' -> pair_kind c wr weight lossf ->
  train v threads top draw pos srt names w y (pairwise_loss srt threads to_uint pick c wr weight lossf) c base =
  train v threads top draw pos srt names w y' (pairwise_loss srt threads to_uint pick c wr weight lossf) c base.
Proof.
  intros Srt Cmp Ec Pg Yv Yv' Fin R K. apply gaps_core; auto.
  - intros i L. destruct (Fin i (t i) L) as (A & F & _); [cbn; auto|]. destruct (Fin i (t' i) L) as (A' & F' & _); [cbn; auto|]. auto.
  - intros i j Li Lj E. apply diff_same; [|exact E]. intros x [<- | [<- | [<- | [<- | []]]]]; first [solve [apply (Fin i); cbn; auto]|solve [apply (Fin j); cbn; auto]].
Qed.
End Claims.
