(** PairUnits_proofs.v - weights in other units with pairwise losses (property C104). *)
From Coq Require Import SpecFloat Reals Lra FunctionalExtensionality.
From Verif Require Import Base Base_proofs F32 Column DataStore Subsampling Num Forest Par Config Score Eval Split Tree Train Loss Pairwise PairSpec Group_proofs Pairwise_proofs TargetsSpec Targets_proofs
  Report PairReport UnitsSpec Units_proofs SplitSpec PairUnitsSpec.
Local Close Scope R_scope.

Section PairUnits.
Variables (a : R) (w w' : float_vector) (y : float_vector) (c : config Exact) (mg : R) (srt : (nat -> nat -> bool) -> list nat -> list nat)
  (top : nat -> nat -> list Exact -> nat) (draw : nat -> spec_float) (threads : nat)
  (to_uint : Exact -> res nat) (pick : nat -> nat -> nat * nat) (wr : bool) (weight : float_vector -> group -> nat * nat -> res Exact) (lossf : Exact -> Exact -> point Exact).
Notation cube := (a * a * a)%R.
Hypotheses (A : (0 < a)%R) (W : times a w w').
Hypothesis Mg : Rmax mg (1 / 1000000) = (cube * Rmax (cf_min_gain c) (1 / 1000000))%R.
Hypothesis Top : forall i step l, top i step (map (Rmult cube) l) = top i step l.
Notation c' := (config_times cube mg c).
Notation tt := (tree_times cube 1).

Lemma cube_pos : (0 < cube)%R.
Proof. apply Rmult_lt_0_compat; [apply Rmult_lt_0_compat; exact A|exact A]. Qed.

(** ** One round *)
Definition gsquare (d : grad Exact) : grad Exact := mkG (a * a * gg d : Exact)%R (a * a * gh d : Exact)%R.
Definition wphi (x : @wval Exact) : @wval Exact :=
  match x with WG d => WG (gsquare d) | WT l k => WT ((a * a * l)%R : Exact) ((a * a * k)%R : Exact) | WS pos => WS pos end.

Lemma add_g_sim i (x : Exact) : psim wphi (add_g i x) (add_g i (a * a * x : Exact)%R).
Proof.
  unfold add_g. constructor. intros [d|l k|pos]; cbn; [|constructor..].
  replace (WG (mkG (N := Exact) (a * a * gg d + a * a * x)%R (a * a * gh d)%R)) with (wphi (WG (mkG (N := Exact) (gg d + x)%R (gh d)))).
  - constructor. constructor.
  - cbn. unfold gsquare. cbn. do 2 f_equal. ring.
Qed.
Lemma sub_g_sim i (x : Exact) : psim wphi (sub_g i x) (sub_g i (a * a * x : Exact)%R).
Proof.
  unfold sub_g. constructor. intros [d|l k|pos]; cbn; [|constructor..].
  replace (WG (mkG (N := Exact) (a * a * gg d - a * a * x)%R (a * a * gh d)%R)) with (wphi (WG (mkG (N := Exact) (gg d - x)%R (gh d)))).
  - constructor. constructor.
  - cbn. unfold gsquare. cbn. do 2 f_equal. ring.
Qed.
Lemma add_h_sim i (x : Exact) : psim wphi (add_h i x) (add_h i (a * a * x : Exact)%R).
Proof.
  unfold add_h. constructor. intros [d|l k|pos]; cbn; [|constructor..].
  replace (WG (mkG (N := Exact) (a * a * gg d)%R (a * a * gh d + a * a * x)%R)) with (wphi (WG (mkG (N := Exact) (gg d) (gh d + x)%R))).
  - constructor. constructor.
  - cbn. unfold gsquare. cbn. do 2 f_equal. ring.
Qed.
Lemma add_total_sim j (l k : Exact) : psim wphi (add_total j l k) (add_total j (a * a * l : Exact)%R (a * a * k : Exact)%R).
Proof.
  unfold add_total. constructor. intros [d|l0 k0|pos]; cbn; [constructor| |constructor].
  replace (WT (N := Exact) (a * a * l0 + a * a * l)%R (a * a * k0 + a * a * k)%R) with (wphi (WT (N := Exact) (l0 + l)%R (k0 + k)%R)).
  - constructor. constructor.
  - cbn. f_equal; ring.
Qed.
Lemma once_sim f j g factor : psim wphi (pair_once pick weight lossf w y f j g factor) (pair_once pick weight lossf w' y f j g factor).
Proof.
  unfold pair_once. constructor. intros [d|l k|pos]; cbn [wphi]; [constructor..|]. destruct (pick pos (gr_pairs g)) as [index pos2].
  apply (SimWrite wphi WGen (WS pos2)). apply pres_sim. intros p. apply pres_sim. intros i. apply pres_sim. intros i2.
  pose proof (W i) as Wi. destruct (w i) as [x| |], (w' i) as [x'| |]; try contradiction; cbn [pres pbind]; [|constructor..].
  pose proof (W i2) as Wj. destruct (w i2) as [z| |], (w' i2) as [z'| |]; try contradiction; cbn [pres pbind]; [|constructor..].
  apply pres_sim. intros pw. cbv zeta. apply pres_sim. intros ya. apply pres_sim. intros yb. apply pres_sim. intros fa. apply pres_sim. intros fb.
  set (data := lossf _ _).
  assert (E : forall q : R, (real_of x' * real_of z' * pw * factor * q = a * a * (real_of x * real_of z * pw * factor * q))%R) by (intros q; rewrite Wi, Wj; ring).
  assert (F : forall q : R, (2 * (real_of x' * real_of z' * pw * factor) * q = a * a * (2 * (real_of x * real_of z * pw * factor) * q))%R) by (intros q; rewrite Wi, Wj; ring).
  assert (G : (real_of x' * real_of z' * pw * factor = a * a * (real_of x * real_of z * pw * factor))%R) by (rewrite Wi, Wj; ring).
  cbn [nmul nstore nfloat Exact nZ] in *. rewrite !E, !F, G.
  apply bind_sim; [apply add_g_sim|intros _]. apply bind_sim; [apply sub_g_sim|intros _]. apply bind_sim; [apply add_h_sim|intros _].
  apply bind_sim; [apply add_h_sim|intros _]. apply add_total_sim.
Qed.
Lemma times_sim f j g factor todo : psim wphi (pair_times pick weight lossf w y f j g factor todo) (pair_times pick weight lossf w' y f j g factor todo).
Proof. induction todo as [|todo IH]; cbn [pair_times]; [constructor|]. apply bind_sim; [apply once_sim|]. intros _. exact IH. Qed.
Definition with_weights (p : @pairwise Exact) : @pairwise Exact := mkPairwise w' (pr_y p) (pr_groups p) (pr_slices p) (pr_max p) (pr_prob p).
Lemma task_sim p f j gis : pr_w p = w -> pr_y p = y ->
  psim wphi (pair_task srt to_uint pick c wr weight lossf p f j gis) (pair_task srt to_uint pick c' wr weight lossf (with_weights p) f j gis).
Proof.
  intros Pw Py. induction gis as [|gi gis IH]; cbn [pair_task]; [constructor|]. apply bind_sim; [|intros _; exact IH].
  unfold pair_group. cbn [with_weights pr_groups pr_w pr_y pr_max pr_prob cf_equal_groups config_times]. rewrite Pw, Py.
  apply pres_sim. intros g. apply pres_sim. intros g2. apply pres_sim. intros n. cbv zeta. apply times_sim.
Qed.
Lemma tasks_run p f m : pr_w p = w -> pr_y p = y ->
  run_tasks wloc_dec (pair_tasks srt to_uint pick c' wr weight lossf (with_weights p) f) (mem_map wphi m) =
  res_map (mem_map wphi) (run_tasks wloc_dec (pair_tasks srt to_uint pick c wr weight lossf p f) m).
Proof.
  intros Pw Py. apply tasks_sim. unfold pair_tasks. cbn [with_weights pr_slices]. apply Forall2_maps. intros u _. apply task_sim; assumption.
Qed.
Lemma mem_start rows slices pos : mem_map wphi (pair_mem rows slices pos) = pair_mem rows slices pos.
Proof.
  apply functional_extensionality. intros [i|j|]; unfold mem_map, pair_mem; [destruct (i <? rows)|destruct (j <? slices)|]; cbn; try reflexivity.
  - unfold gsquare, gzero. do 3 f_equal; cbn; ring.
  - do 2 f_equal; cbn; ring.
Qed.
Lemma grads_read (m : mem wloc (@wval Exact)) n : forall i, pair_grads (mem_map wphi m) i n = map gsquare (pair_grads m i n).
Proof. induction n as [|n IH]; intros i; cbn [pair_grads]; [reflexivity|]. unfold mem_map at 1. destruct (m (WGrad i)) as [[d|l k|pos]|]; cbn; try reflexivity. f_equal. apply IH. Qed.
Lemma totals_read (m : mem wloc (@wval Exact)) n : forall j,
  pair_totals (mem_map wphi m) j n = map (fun x : Exact * Exact => ((a * a * fst x)%R : Exact, (a * a * snd x)%R : Exact)) (pair_totals m j n).
Proof. induction n as [|n IH]; intros j; cbn [pair_totals]; [reflexivity|]. unfold mem_map at 1. destruct (m (WTotal j)) as [[d|l k|pos]|]; cbn; try reflexivity. f_equal. apply IH. Qed.
Lemma sum_squares (l : list R) : forall z : R, fold_left (@nadd Exact) (map (fun x => a * a * x)%R l) (a * a * z)%R = (a * a * fold_left (@nadd Exact) l z)%R.
Proof. induction l as [|x l IH]; intros z; cbn [map fold_left]; [reflexivity|]. rewrite <- IH. f_equal. cbn. ring. Qed.
Lemma mean_squares (l : list (Exact * Exact)) : mean_loss (map (fun x : Exact * Exact => ((a * a * fst x)%R : Exact, (a * a * snd x)%R : Exact)) l) = mean_loss l.
Proof.
  unfold mean_loss. rewrite !map_map. cbn [fst snd].
  pose proof (sum_squares (map fst l) 0) as E. pose proof (sum_squares (map snd l) 0) as F. rewrite map_map in E, F. rewrite Rmult_0_r in E, F.
  assert (K : forall u z : R, (a * a * u / (a * a * z) = u / z)%R).
  { intros u z. destruct (Req_dec z 0) as [Z|Z].
    - rewrite Z. replace (a * a * 0)%R with 0%R by ring. unfold Rdiv. rewrite Rinv_0. ring.
    - field. split; [exact Z|lra]. }
  etransitivity; [|apply K]. exact (f_equal2 Rdiv E F).
Qed.
Definition report_times (x : Exact * list (grad Exact) * @pairwise Exact * nat * Exact) : Exact * list (grad Exact) * @pairwise Exact * nat * Exact :=
  match x with (k, gd, p, pos, loss) => (k, map gsquare gd, with_weights p, pos, loss) end.
Lemma report_square p pos f gd gd' : pr_w p = w -> pr_y p = y ->
  pair_report srt to_uint pick c' wr weight lossf (with_weights p) pos f gd' = res_map report_times (pair_report srt to_uint pick c wr weight lossf p pos f gd).
Proof.
  intros Pw Py. unfold pair_report. cbn [with_weights pr_slices pr_groups pr_y pr_max pr_prob]. rewrite <- (mem_start (List.length f) _ pos) at 1. rewrite (tasks_run p f _ Pw Py).
  destruct (run_tasks wloc_dec (pair_tasks srt to_uint pick c wr weight lossf p f) _) as [m| |]; [|reflexivity..]. cbn [res_map bind].
  destruct (read_all _ (seq 0 (List.length (pr_groups p)))) as [groups| |]; [|reflexivity..]. cbn [bind].
  unfold mem_map at 1. destruct (m WGen) as [[d|l k|pos2]|]; cbn [option_map wphi]; try reflexivity. cbn [res_map report_times].
  rewrite grads_read, totals_read, mean_squares. reflexivity.
Qed.
Definition round_times (x : Exact * list (grad Exact) * @pairwise Exact * nat) : Exact * list (grad Exact) * @pairwise Exact * nat :=
  match x with (k, gd, p, pos) => (k, map gsquare gd, with_weights p, pos) end.
Lemma round_square p pos f gd gd' : pr_w p = w -> pr_y p = y ->
  pair_round srt to_uint pick c' wr weight lossf (with_weights p) pos f gd' = res_map round_times (pair_round srt to_uint pick c wr weight lossf p pos f gd).
Proof.
  intros Pw Py. unfold pair_round. cbn [with_weights pr_slices pr_groups pr_y pr_max pr_prob]. rewrite <- (mem_start (List.length f) _ pos) at 1. rewrite (tasks_run p f _ Pw Py).
  destruct (run_tasks wloc_dec (pair_tasks srt to_uint pick c wr weight lossf p f) _) as [m| |]; [|reflexivity..]. cbn [res_map bind].
  destruct (read_all _ (seq 0 (List.length (pr_groups p)))) as [groups| |]; [|reflexivity..]. cbn [bind].
  unfold mem_map at 1. destruct (m WGen) as [[d|l k|pos2]|]; cbn [option_map wphi]; try reflexivity. cbn [res_map round_times].
  rewrite grads_read. reflexivity.
Qed.
Lemma round_keeps p pos f gd x gd2 p2 pos2 : pair_round srt to_uint pick c wr weight lossf p pos f gd = Ret (x, gd2, p2, pos2) -> pr_w p2 = pr_w p /\ pr_y p2 = pr_y p.
Proof.
  unfold pair_round. destruct (run_tasks _ _ _) as [m| |]; [|discriminate..]. cbn [bind]. destruct (read_all _ _) as [gs| |]; [|discriminate..]. cbn [bind].
  destruct (m WGen) as [[d|l k|q]|]; try discriminate. intros E. injection E as _ _ <- _. split; reflexivity.
Qed.
Lemma report_keeps p pos f gd x gd2 p2 pos2 loss : pair_report srt to_uint pick c wr weight lossf p pos f gd = Ret (x, gd2, p2, pos2, loss) -> pr_w p2 = pr_w p /\ pr_y p2 = pr_y p.
Proof.
  unfold pair_report. destruct (run_tasks _ _ _) as [m| |]; [|discriminate..]. cbn [bind]. destruct (read_all _ _) as [gs| |]; [|discriminate..]. cbn [bind].
  destruct (m WGen) as [[d|l k|q]|]; try discriminate. intros E. injection E as _ _ <- _ _. split; reflexivity.
Qed.

(** ** The tree *)
Lemma row_cube gd r : row_grad w' (map gsquare gd) r = res_map (gtimes cube 1) (row_grad w gd r).
Proof.
  unfold row_grad. pose proof (W r) as Wr. destruct (w r) as [x| |], (w' r) as [x'| |]; try contradiction; try reflexivity. cbn [bind].
  unfold vget. rewrite nth_error_map. destruct (nth_error gd r) as [d|]; [|reflexivity]. cbn [option_map bind res_map].
  f_equal. unfold gscale, gtimes, gsquare. cbn [gg gh nfloat nmul Exact]. rewrite Wr. f_equal; cbn; ring.
Qed.
Lemma fit_cube i gd features pos :
  fit_tree (top i) draw threads srt w' (map gsquare gd) features c' pos = res_map (fun x => (tt (fst x), snd x)) (fit_tree (top i) draw threads srt w gd features c pos).
Proof.
  replace tt with (tree_times (cube * 1 * 1) 1) by (f_equal; ring).
  apply fit_scaled; [exact cube_pos|lra|intros r; apply row_cube|apply map_length| |].
  - rewrite Mg. ring.
  - intros step l. replace (cube * 1 * 1)%R with cube by ring. apply Top.
Qed.

(** ** All rounds *)
Variable v : view.
Lemma constant_same x : tt (constant_tree x) = constant_tree x.
Proof. unfold constant_tree. cbn. f_equal. ring. Qed.
Lemma pair_rounds_times features todo : forall i constant trees st gd gd' p pos, pr_w p = w -> pr_y p = y ->
  rounds v threads top draw srt w' features c' (pairwise_loss srt threads to_uint pick c' wr weight lossf) todo i constant (map tt trees) st gd' (with_weights p) pos =
  res_map (trained_times cube) (rounds v threads top draw srt w features c (pairwise_loss srt threads to_uint pick c wr weight lossf) todo i constant trees st gd p pos).
Proof.
  induction todo as [|todo IH]; intros i constant trees st gd gd' p pos Pw Py; cbn [rounds].
  - unfold trained_times. cbn [res_map tr_status tr_forest tr_f]. do 2 f_equal. cbn [map]. rewrite <- clear_times, constant_same. f_equal. rewrite !map_map. apply map_ext. intros t. apply clear_times.
  - cbn [l_round pairwise_loss]. rewrite (round_square p pos (snd st) gd gd' Pw Py).
    destruct (pair_round srt to_uint pick c wr weight lossf p pos (snd st) gd) as [[[[x gd2] p2] pos2]| |] eqn:Er; [|reflexivity..].
    apply round_keeps in Er. destruct Er as [Kw Ky]. cbn [res_map bind round_times].
    destruct (nfinite x).
    + rewrite fit_cube. destruct (fit_tree (top i) draw threads srt w gd2 features c pos2) as [[t p3]| |]; [|reflexivity..]. cbn [res_map bind fst snd].
      cbn [cf_shrinkage config_times]. rewrite shrink_times, add_scores_times.
      destruct (add_tree_scores (v_get v) threads (apply_shrinkage (nfloat (cf_shrinkage c)) t) x st) as [st2| |]; [|reflexivity..]. cbn [bind].
      rewrite <- (IH _ _ (trees ++ [apply_shrinkage (nfloat (cf_shrinkage c)) t]) _ _ (map gsquare gd2)) by congruence. rewrite map_app. reflexivity.
    + unfold trained_times. cbn [res_map tr_status tr_forest tr_f]. do 2 f_equal. cbn [map]. rewrite constant_same. reflexivity.
Qed.
Lemma pair_messages_times features todo : forall i initial st gd gd' p pos, pr_w p = w -> pr_y p = y ->
  pair_messages v threads top draw srt to_uint pick w' features c' wr weight lossf todo i initial st gd' (with_weights p) pos =
  pair_messages v threads top draw srt to_uint pick w features c wr weight lossf todo i initial st gd p pos.
Proof.
  induction todo as [|todo IH]; intros i initial st gd gd' p pos Pw Py; cbn [pair_messages]; [reflexivity|].
  rewrite (report_square p pos (snd st) gd gd' Pw Py).
  destruct (pair_report srt to_uint pick c wr weight lossf p pos (snd st) gd) as [[[[[x gd2] p2] pos2] loss]| |] eqn:Er; [|reflexivity..].
  apply report_keeps in Er. destruct Er as [Kw Ky]. cbn [res_map bind report_times]. destruct (prepare_progress initial loss) as [initial2 message].
  destruct (nfinite x); [|reflexivity].
  rewrite fit_cube. destruct (fit_tree (top i) draw threads srt w gd2 features c pos2) as [[t p3]| |]; [|reflexivity..]. cbn [res_map bind fst snd].
  cbn [cf_shrinkage config_times]. rewrite shrink_times, add_scores_times.
  destruct (add_tree_scores (v_get v) threads (apply_shrinkage (nfloat (cf_shrinkage c)) t) x st) as [st2| |]; [|reflexivity..]. cbn [bind].
  rewrite (IH _ _ st2 gd2 (map gsquare gd2) p2 p3) by congruence. reflexivity.
Qed.

(** ** Training *)
Lemma init_times n col : pair_init srt threads c' n w' y col =
  res_map (fun x : code + @pairwise Exact => match x with inl e => inl e | inr p => inr (with_weights p) end) (pair_init srt threads c n w y col).
Proof.
  unfold pair_init. cbn [cf_pair_rate config_times]. destruct (nleb _ _); [reflexivity|]. destruct (rows_by_group n col) as [rows| |]; [|reflexivity..]. cbn [bind].
  destruct (read_all _ _) as [groups| |]; [|reflexivity..]. cbn [bind]. cbv zeta. destruct (divide_samples _ _) as [slices| |]; reflexivity.
Qed.
Lemma init_keeps n col p : pair_init srt threads c n w y col = Ret (inr p) -> pr_w p = w /\ pr_y p = y.
Proof.
  unfold pair_init. destruct (nleb _ _); [discriminate|]. destruct (rows_by_group n col) as [rows| |]; [|discriminate..]. cbn [bind].
  destruct (read_all _ _) as [groups| |]; [|discriminate..]. cbn [bind]. cbv zeta. destruct (divide_samples _ _) as [slices| |]; [|discriminate..]. cbn [bind].
  intros E. injection E as <-. split; reflexivity.
Qed.
Lemma based (base : option (forest Exact)) : match option_map (map tt) base with Some b => b | None => [] end = map tt (match base with Some b => b | None => [] end).
Proof. destruct base; reflexivity. Qed.
Lemma pair_train_times pos names (base : option (forest Exact)) :
  train v threads top draw pos srt names w' y (pairwise_loss srt threads to_uint pick c' wr weight lossf) c' (option_map (map tt) base) =
  res_map (trained_times cube) (train v threads top draw pos srt names w y (pairwise_loss srt threads to_uint pick c wr weight lossf) c base).
Proof.
  unfold train. change (check_config c') with (check_config c). destruct (check_config c) as [|e]; [|reflexivity].
  destruct (load_features (v_get v) (v_order v names)) as [[|e] fs]; [|reflexivity].
  change (group_column c' (v_get v)) with (group_column c (v_get v)). destruct (group_column c (v_get v)) as [group| |]; [|reflexivity..]. cbn [bind].
  cbn [l_init pairwise_loss]. rewrite init_times. destruct (pair_init srt threads c (v_rows v) w y group) as [[e|p]| |] eqn:Ei; [reflexivity| |reflexivity..].
  apply init_keeps in Ei. destruct Ei as [Kw Ky]. cbn [res_map bind].
  destruct (init_scores v threads) as [st| |]; [|reflexivity..]. cbn [bind]. rewrite based.
  change (@nil (tree Exact)) with (map tt []) at 1. rewrite (base_times cube threads v _ n0 [] st).
  destruct (init_with_base v threads _ n0 [] st) as [[[k trees] st1]| |]; [|reflexivity..]. cbn [res_map bind fst snd].
  apply pair_rounds_times; assumption.
Qed.
Lemma pair_train_messages pos names (base : option (forest Exact)) :
  train_pair_messages v threads top draw pos srt names to_uint pick w' y wr weight lossf c' (option_map (map tt) base) =
  train_pair_messages v threads top draw pos srt names to_uint pick w y wr weight lossf c base.
Proof.
  unfold train_pair_messages. change (check_config c') with (check_config c). destruct (check_config c) as [|e]; [|reflexivity].
  destruct (load_features (v_get v) (v_order v names)) as [[|e] fs]; [|reflexivity].
  change (group_column c' (v_get v)) with (group_column c (v_get v)). destruct (group_column c (v_get v)) as [group| |]; [|reflexivity..]. cbn [bind].
  rewrite init_times. destruct (pair_init srt threads c (v_rows v) w y group) as [[e|p]| |] eqn:Ei; [reflexivity| |reflexivity..].
  apply init_keeps in Ei. destruct Ei as [Kw Ky]. cbn [res_map bind].
  destruct (init_scores v threads) as [st| |]; [|reflexivity..]. cbn [bind]. rewrite based.
  change (@nil (tree Exact)) with (map tt []) at 1. rewrite (base_times cube threads v _ n0 [] st).
  destruct (init_with_base v threads _ n0 [] st) as [[[k trees] st1]| |]; [|reflexivity..]. cbn [res_map bind fst snd].
  apply pair_messages_times; assumption.
Qed.
End PairUnits.

(** ** Factors that differ from group to group *)
Section Relate.
Context {L V : Type} (dec : forall a b : L, {a = b} + {a <> b}) (rel : L -> V -> V -> Prop).
Definition mem_rel (m m' : mem L V) : Prop :=
  forall l, match m l, m' l with Some v, Some v' => rel l v v' | None, None => True | _, _ => False end.
Inductive prel {A} : prog L V A -> prog L V A -> Prop :=
| RelRet a : prel (PRet a) (PRet a)
| RelUndef : prel PUndef PUndef
| RelFatal : prel PFatal PFatal
| RelRead l k k' : (forall v v', rel l v v' -> prel (k v) (k' v')) -> prel (PRead l k) (PRead l k')
| RelWrite l v v' q q' : rel l v v' -> prel q q' -> prel (PWrite l v q) (PWrite l v' q').
Lemma upd_rel m m' l v v' : mem_rel m m' -> rel l v v' -> mem_rel (upd dec m l v) (upd dec m' l v').
Proof. intros M R x. unfold upd. destruct (dec x l) as [->|_]; [exact R|apply M]. Qed.
Lemma run_rel {A} (p p' : prog L V A) : prel p p' -> forall m m' a m1, mem_rel m m' -> run dec p m = Ret (a, m1) -> exists m1', run dec p' m' = Ret (a, m1') /\ mem_rel m1 m1'.
Proof.
  induction 1 as [a| | |l k k' H IH|l v v' q q' R H IH]; intros m m' b m1 M E; cbn [run] in E |- *; try discriminate E.
  - injection E as <- <-. exists m'. auto.
  - pose proof (M l) as Ml. destruct (m l) as [v|], (m' l) as [v'|]; try contradiction; try discriminate E. exact (IH v v' Ml m m' b m1 M E).
  - pose proof (M l) as Ml. destruct (m l) as [u|], (m' l) as [u'|]; try contradiction; try discriminate E. apply (IH _ _ _ _ (upd_rel m m' l v v' M R) E).
Qed.
Lemma tasks_rel ps ps' : Forall2 prel ps ps' -> forall m m' m1, mem_rel m m' -> run_tasks dec ps m = Ret m1 -> exists m1', run_tasks dec ps' m' = Ret m1' /\ mem_rel m1 m1'.
Proof.
  induction 1 as [|p p' ps ps' H F IH]; intros m m' m1 M E; cbn [run_tasks] in E |- *; [injection E as <-; exists m'; auto|].
  destruct (run dec p m) as [[u m2]| |] eqn:Er; cbn [bind] in E; try discriminate E. destruct (run_rel p p' H m m' u m2 M Er) as (m2' & -> & M2). cbn [bind]. exact (IH m2 m2' m1 M2 E).
Qed.
Lemma bind_rel {A B} (p p' : prog L V A) (k k' : A -> prog L V B) : prel p p' -> (forall a, prel (k a) (k' a)) -> prel (pbind p k) (pbind p' k').
Proof. induction 1; intros K; cbn [pbind]; auto; constructor; auto. Qed.
End Relate.

Section Groups.
Variables (srt : (nat -> nat -> bool) -> list nat -> list nat) (threads : nat) (to_uint : Exact -> res nat)
  (pick : nat -> nat -> nat * nat) (c : config Exact) (wr : bool)
  (weight : float_vector -> group -> nat * nat -> res Exact) (lossf : Exact -> Exact -> point Exact)
  (n : nat) (w w' y : float_vector) (rows : list (list nat)) (s : nat -> R).
Hypothesis W : times_each s w w'.
Hypothesis Same : forall rk i j, In rk rows -> In i rk -> In j rk -> s i = s j.

Definition wrel (l : wloc) (x x' : @wval Exact) : Prop :=
  match l, x, x' with
  | WGrad i, WG d, WG d' => d' = both_times (s i * s i) d
  | WTotal _, WT _ _, WT _ _ => True
  | WGen, WS pos, WS pos' => pos = pos'
  | _, _, _ => False
  end.
Lemma add_g_rel i (x x' : Exact) : x' = (s i * s i * x)%R -> prel wrel (add_g i x) (add_g i x').
Proof.
  intros ->. unfold add_g. constructor. intros [d|l k|pos] [d'|l' k'|pos'] R; try contradiction R. constructor; [|constructor]. cbn in R |- *. rewrite R. unfold both_times. cbn. f_equal. ring.
Qed.
Lemma sub_g_rel i (x x' : Exact) : x' = (s i * s i * x)%R -> prel wrel (sub_g i x) (sub_g i x').
Proof.
  intros ->. unfold sub_g. constructor. intros [d|l k|pos] [d'|l' k'|pos'] R; try contradiction R. constructor; [|constructor]. cbn in R |- *. rewrite R. unfold both_times. cbn. f_equal. ring.
Qed.
Lemma add_h_rel i (x x' : Exact) : x' = (s i * s i * x)%R -> prel wrel (add_h i x) (add_h i x').
Proof.
  intros ->. unfold add_h. constructor. intros [d|l k|pos] [d'|l' k'|pos'] R; try contradiction R. constructor; [|constructor]. cbn in R |- *. rewrite R. unfold both_times. cbn. f_equal. ring.
Qed.
Lemma add_total_rel j (l k l' k' : Exact) : prel wrel (add_total j l k) (add_total j l' k').
Proof. unfold add_total. constructor. intros [d|l0 k0|pos] [d'|l0' k0'|pos'] R; try contradiction R. constructor; [exact I|constructor]. Qed.
Lemma pres_rel {A B} (r : res A) (k k' : A -> prog wloc (@wval Exact) B) : (forall a, r = Ret a -> prel wrel (k a) (k' a)) -> prel wrel (pbind (pres r) k) (pbind (pres r) k').
Proof. intros K. destruct r; cbn; [apply K; reflexivity|constructor..]. Qed.
Lemma once_rel f j g factor : within rows g -> prel wrel (pair_once pick weight lossf w y f j g factor) (pair_once pick weight lossf w' y f j g factor).
Proof.
  intros (rk & K & Sub). unfold pair_once. constructor. intros [d|l k|pos] [d'|l' k'|pos'] R; try contradiction R. cbn in R. subst pos'. destruct (pick pos (gr_pairs g)) as [index pos2].
  constructor; [reflexivity|]. apply pres_rel. intros p _. apply pres_rel. intros i Ei. apply pres_rel. intros i2 Ei2.
  apply vget_in, Sub in Ei. apply vget_in, Sub in Ei2. pose proof (Same rk i i2 K Ei Ei2) as Ss.
  pose proof (W i) as Wi. destruct (w i) as [x| |], (w' i) as [x'| |]; try contradiction; cbn [pres pbind]; [|constructor..].
  pose proof (W i2) as Wj. destruct (w i2) as [z| |], (w' i2) as [z'| |]; try contradiction; cbn [pres pbind]; [|constructor..].
  apply pres_rel. intros pw _. cbv zeta. apply pres_rel. intros ya _. apply pres_rel. intros yb _. apply pres_rel. intros fa _. apply pres_rel. intros fb _.
  set (data := lossf _ _). cbn [nmul nstore nfloat Exact nZ]. rewrite Wi, Wj.
  apply bind_rel; [apply add_g_rel; rewrite <- Ss; cbn; ring|intros _]. apply bind_rel; [apply sub_g_rel; rewrite <- Ss; cbn; ring|intros _].
  apply bind_rel; [apply add_h_rel; rewrite <- Ss; cbn; ring|intros _]. apply bind_rel; [apply add_h_rel; rewrite <- Ss; cbn; ring|intros _]. apply add_total_rel.
Qed.
Lemma task_rel p f j gis : pr_w p = w -> pr_y p = y -> (forall g, In g (pr_groups p) -> within rows g) ->
  prel wrel (pair_task srt to_uint pick c wr weight lossf p f j gis) (pair_task srt to_uint pick c wr weight lossf (reweighted w' p) f j gis).
Proof.
  intros Pw Py G. induction gis as [|gi gis IH]; cbn [pair_task]; [constructor|]. apply bind_rel; [|intros _; exact IH].
  unfold pair_group. cbn [reweighted pr_groups pr_w pr_y pr_max pr_prob]. rewrite Pw, Py.
  apply pres_rel. intros g Eg. apply vget_in, G in Eg. apply pres_rel. intros g2 Er. apply (reranked_within (N := Exact) srt wr rows f g g2 Eg) in Er.
  apply pres_rel. intros k _. cbv zeta. induction k as [|k IHk]; cbn [pair_times]; [constructor|]. apply bind_rel; [apply once_rel; exact Er|intros _; exact IHk].
Qed.
Lemma grads_rel (m m' : mem wloc (@wval Exact)) k : mem_rel wrel m m' -> forall i, List.length (pair_grads m' i k) = List.length (pair_grads m i k) /\
  forall r d, nth_error (pair_grads m i k) r = Some d -> nth_error (pair_grads m' i k) r = Some (both_times (s (i + r) * s (i + r)) d).
Proof.
  intros M. induction k as [|k IH]; intros i; cbn [pair_grads]; [split; [reflexivity|intros [|r] d E; discriminate E]|].
  pose proof (M (WGrad i)) as Mi. destruct (m (WGrad i)) as [[d|l z|pos]|], (m' (WGrad i)) as [[d'|l' z'|pos']|]; try contradiction Mi; try (split; [reflexivity|intros [|r] d0 E; discriminate E]).
  cbn in Mi. destruct (IH (S i)) as [Le Rd]. split; [cbn; congruence|]. intros [|r] d0 E; cbn in E |- *.
  - injection E as <-. rewrite Nat.add_0_r, Mi. reflexivity.
  - rewrite (Rd r d0 E). do 2 f_equal. replace (S i + r) with (i + S r) by lia. reflexivity.
Qed.
Lemma round_groups p pos (f : list Exact) gd gd0 x gd1 p1 pos1 : pr_w p = w -> pr_y p = y -> (forall g, In g (pr_groups p) -> within rows g) ->
  pair_round srt to_uint pick c wr weight lossf p pos f gd = Ret (x, gd1, p1, pos1) ->
  exists gd2, pair_round srt to_uint pick c wr weight lossf (reweighted w' p) pos f gd0 = Ret (x, gd2, reweighted w' p1, pos1) /\ List.length gd2 = List.length gd1 /\
    forall r, row_grad w' gd2 r = res_map (both_times (s r * s r * s r)) (row_grad w gd1 r).
Proof.
  intros Pw Py G. unfold pair_round. cbn [reweighted pr_slices pr_groups pr_y pr_w pr_max pr_prob].
  destruct (run_tasks wloc_dec (pair_tasks srt to_uint pick c wr weight lossf p f) _) as [m| |] eqn:Em; cbn [bind]; try discriminate.
  assert (M0 : mem_rel wrel (pair_mem (N := Exact) (List.length f) (List.length (pr_slices p)) pos) (pair_mem (List.length f) (List.length (pr_slices p)) pos)).
  { intros [i|j|]; unfold pair_mem; [destruct (i <? List.length f)|destruct (j <? List.length (pr_slices p))|]; cbn; auto. unfold both_times, gzero. cbn. f_equal; ring. }
  destruct (tasks_rel wloc_dec wrel (pair_tasks srt to_uint pick c wr weight lossf p f) (pair_tasks srt to_uint pick c wr weight lossf (reweighted w' p) f)) with (2 := M0) (3 := Em) as (m' & Em' & M).
  { unfold pair_tasks. cbn [reweighted pr_slices]. apply Forall2_maps. intros u _. apply task_rel; assumption. }
  rewrite Em'. cbn [bind]. destruct (read_all _ (seq 0 (List.length (pr_groups p)))) as [groups| |]; cbn [bind]; try discriminate.
  pose proof (M WGen) as Mg. destruct (m WGen) as [[d|l k|q]|], (m' WGen) as [[d'|l' k'|q']|]; try contradiction Mg; try discriminate. cbn in Mg. subst q'.
  intros E. injection E as <- <- <- <-. eexists. split; [reflexivity|]. destruct (grads_rel m m' (List.length f) M 0) as [Le Rd]. split; [exact Le|].
  intros r. unfold row_grad. pose proof (W r) as Wr. destruct (w r) as [z| |], (w' r) as [z'| |]; try contradiction; try reflexivity. cbn [bind].
  change (@nt Exact) with R in *. unfold vget. set (g1 := pair_grads m 0 (List.length f)) in *. set (g2 := pair_grads m' 0 (List.length f)) in *. destruct (nth_error g1 r) as [d|] eqn:Ed.
  - rewrite (Rd r d Ed). cbn [bind res_map]. f_equal. unfold gscale, both_times. cbn [gg gh nfloat nmul Exact]. rewrite Wr. cbn. f_equal; ring.
  - assert (Ed2 : nth_error g2 r = None) by (apply nth_error_None in Ed; apply nth_error_None; rewrite Le; exact Ed). rewrite Ed2. reflexivity.
Qed.
End Groups.

Lemma in_use_within srt threads to_uint pick (c : config Exact) wr weight lossf n w y t col rows p : sorts srt -> grouping n col rows -> rows_by_group n col = Ret rows ->
  comparable y (seq 0 n) t -> in_use (N := Exact) srt threads to_uint pick c wr weight lossf n w y col p ->
  pr_w p = w /\ pr_y p = y /\ forall g, In g (pr_groups p) -> within rows g.
Proof.
  intros Srt G Rw Yv. destruct (grouping_rows _ _ _ G) as [_ Lr]. induction 1 as [p Ei|p pos f gd x gd2 p2 pos2 U IH Lf Er].
  - unfold pair_init in Ei. destruct (nleb _ _); [discriminate Ei|]. rewrite Rw in Ei. cbn [bind] in Ei.
    destruct (read_all _ _) as [gs| |] eqn:Eg; [|discriminate Ei..]. cbn [bind] in Ei. cbv zeta in Ei. destruct (divide_samples _ _) as [sl| |]; [|discriminate Ei..]. cbn [bind] in Ei.
    injection Ei as <-. split; [reflexivity|]. split; [reflexivity|]. cbn [pr_groups]. intros g I.
    destruct (read_all_in _ _ _ Eg g I) as (i & _ & Eg2). destruct (vget rows i) as [rk| |] eqn:Ek; cbn [bind] in Eg2; try discriminate.
    assert (Ik : In rk rows) by (apply (vget_in _ _ _ Ek)). assert (C : comparable y rk t).
    { intros j J. apply Yv, in_seq. split; [lia|]. apply Lr, in_concat. eauto. }
    destruct (group_spec srt y rk t Srt C) as (g' & E & P & _). rewrite E in Eg2. injection Eg2 as <-. exists rk. split; [exact Ik|].
    intros j J. eapply Permutation_in; [symmetry; exact P|exact J].
  - destruct IH as (Pw & Py & Wi). unfold pair_round in Er. destruct (run_tasks _ _ _) as [m| |]; [|discriminate Er..]. cbn [bind] in Er.
    destruct (read_all _ _) as [gs| |] eqn:Eg; [|discriminate Er..]. cbn [bind] in Er. destruct (m WGen) as [[d|l k|q]|]; try discriminate Er. injection Er as _ _ <- _.
    split; [exact Pw|]. split; [exact Py|]. cbn [pr_groups]. intros g I. destruct (read_all_in _ _ _ Eg g I) as (i & _ & E0).
    destruct (vget (pr_groups p) i) as [g0| |] eqn:E1; cbn [bind] in E0; try discriminate. eapply reranked_within; [apply Wi, (vget_in _ _ _ E1)|exact E0].
Qed.
Lemma groups_cubed srt threads to_uint pick (c : config Exact) wr weight lossf n w w' y t col s p pos (f : list Exact) gd gd0 x gd1 p1 pos1 : sorts srt -> proper_groups n col ->
  comparable y (seq 0 n) t -> in_use (N := Exact) srt threads to_uint pick c wr weight lossf n w y col p -> one_factor n col s -> times_each s w w' ->
  pair_round srt to_uint pick c wr weight lossf p pos f gd = Ret (x, gd1, p1, pos1) ->
  exists gd2, pair_round srt to_uint pick c wr weight lossf (reweighted w' p) pos f gd0 = Ret (x, gd2, reweighted w' p1, pos1) /\ List.length gd2 = List.length gd1 /\
    forall r, row_grad w' gd2 r = res_map (both_times (s r * s r * s r)) (row_grad w gd1 r).
Proof.
  intros Srt Pg Yv U S W E. destruct (grouping_ok _ _ Pg) as (rows & G & Rw). destruct (in_use_within _ _ _ _ _ _ _ _ _ _ _ _ _ _ _ Srt G Rw Yv U) as (Pw & Py & Wi).
  apply (round_groups srt to_uint pick c wr weight lossf w w' y rows s W) with (4 := Wi) (gd := gd); try assumption.
  intros rk i j K I J. apply S. exists rows, rk. auto.
Qed.
Lemma kinds_same k mg (c : config Exact) wr weight lossf : pair_kind c wr weight lossf -> pair_kind (config_times k mg c) wr weight lossf.
Proof.
  intros [| | |]; [exact (KindAuc (config_times k mg c))|exact (KindGbrank (config_times k mg c))|exact (KindLogloss (config_times k mg c))|exact (KindLambda (config_times k mg c))].
Qed.
