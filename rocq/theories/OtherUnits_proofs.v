(** OtherUnits_proofs.v - targets in other units with auc, pairwise_logloss and lambdamart (property C106). *)
From Coq Require Import SpecFloat Reals Lra FunctionalExtensionality.
From Verif Require Import Base Base_proofs F32 Column DataStore Subsampling Num Forest Par Config Score Eval Split Tree Train Loss LossSpec Pairwise PairSpec Group_proofs Pairwise_proofs TargetsSpec Targets_proofs
  Report PairReport UnitsSpec Units_proofs SplitSpec TargetUnitsSpec TargetUnits_proofs OtherUnitsSpec.
Local Close Scope R_scope.

Section OtherUnits.
Variables (a : R) (w y y' : float_vector) (c : config Exact) (mg : R) (srt : (nat -> nat -> bool) -> list nat -> list nat)
  (top : nat -> nat -> list Exact -> nat) (draw : nat -> spec_float) (threads : nat)
  (to_uint : Exact -> res nat) (pick : nat -> nat -> nat * nat) (wr : bool) (weight : float_vector -> group -> nat * nat -> res Exact) (lossf : Exact -> Exact -> point Exact).
Hypothesis A : (0 < a)%R.
Hypothesis Weight : forall g p, weight y' g p = res_map (fun x : Exact => (a * x)%R : Exact) (weight y g p).
Hypothesis Reads : forall i, match y i, y' i with Ret _, Ret _ | Undef, Undef | Fatal, Fatal => True | _, _ => False end.
Hypothesis Free : forall t t' d, lossf t d = lossf t' d.
Hypothesis Mg : Rmax mg (1 / 1000000) = (a * Rmax (cf_min_gain c) (1 / 1000000))%R.
Hypothesis Top : forall i step l, top i step (map (Rmult a) l) = top i step l.
Notation c' := (config_times a mg c).
Notation tt := (tree_times a 1).

(** ** One round *)
Definition o_gtimes (d : grad Exact) : grad Exact := mkG (a * gg d : Exact)%R (a * gh d : Exact)%R.
Definition o_wphi (x : @wval Exact) : @wval Exact :=
  match x with WG d => WG (o_gtimes d) | WT l k => WT ((a * l)%R : Exact) ((a * k)%R : Exact) | WS pos => WS pos end.

Lemma o_add_g_sim i (x : Exact) : psim o_wphi (add_g i x) (add_g i (a * x : Exact)%R).
Proof.
  unfold add_g. constructor. intros [d|l k|pos]; cbn; [|constructor..].
  replace (WG (mkG (N := Exact) (a * gg d + a * x)%R (a * gh d)%R)) with (o_wphi (WG (mkG (N := Exact) (gg d + x)%R (gh d)))).
  - constructor. constructor.
  - cbn. unfold o_gtimes. cbn. do 2 f_equal. ring.
Qed.
Lemma o_sub_g_sim i (x : Exact) : psim o_wphi (sub_g i x) (sub_g i (a * x : Exact)%R).
Proof.
  unfold sub_g. constructor. intros [d|l k|pos]; cbn; [|constructor..].
  replace (WG (mkG (N := Exact) (a * gg d - a * x)%R (a * gh d)%R)) with (o_wphi (WG (mkG (N := Exact) (gg d - x)%R (gh d)))).
  - constructor. constructor.
  - cbn. unfold o_gtimes. cbn. do 2 f_equal. ring.
Qed.
Lemma o_add_h_sim i (x : Exact) : psim o_wphi (add_h i x) (add_h i (a * x : Exact)%R).
Proof.
  unfold add_h. constructor. intros [d|l k|pos]; cbn; [|constructor..].
  replace (WG (mkG (N := Exact) (a * gg d)%R (a * gh d + a * x)%R)) with (o_wphi (WG (mkG (N := Exact) (gg d) (gh d + x)%R))).
  - constructor. constructor.
  - cbn. unfold o_gtimes. cbn. do 2 f_equal. ring.
Qed.
Lemma o_add_total_sim j (l k : Exact) : psim o_wphi (add_total j l k) (add_total j (a * l : Exact)%R (a * k : Exact)%R).
Proof.
  unfold add_total. constructor. intros [d|l0 k0|pos]; cbn; [constructor| |constructor].
  replace (WT (N := Exact) (a * l0 + a * l)%R (a * k0 + a * k)%R) with (o_wphi (WT (N := Exact) (l0 + l)%R (k0 + k)%R)).
  - constructor. constructor.
  - cbn. f_equal; ring.
Qed.
Lemma once_o f j g factor : psim o_wphi (pair_once pick weight lossf w y f j g factor) (pair_once pick weight lossf w y' f j g factor).
Proof.
  unfold pair_once. constructor. intros [d|l k|pos]; cbn [o_wphi]; [constructor..|]. destruct (pick pos (gr_pairs g)) as [index pos2].
  apply (SimWrite o_wphi WGen (WS pos2)). apply pres_sim. intros p. apply pres_sim. intros i. apply pres_sim. intros i2.
  apply pres_sim. intros wa. apply pres_sim. intros wb. rewrite Weight. destruct (weight y g p) as [pw| |]; cbn [res_map pres pbind]; [|constructor..]. cbv zeta.
  pose proof (Reads i) as Yi. destruct (y i) as [ya| |], (y' i) as [ya'| |]; try contradiction; cbn [pres pbind]; [|constructor..].
  pose proof (Reads i2) as Yj. destruct (y i2) as [yb| |], (y' i2) as [yb'| |]; try contradiction; cbn [pres pbind]; [|constructor..].
  apply pres_sim. intros fa. apply pres_sim. intros fb. rewrite (Free (nstore (nsub (nfloat ya') (nfloat yb'))) (nstore (nsub (nfloat ya) (nfloat yb)))). set (data := lossf _ _).
  set (x := nstore (nmul (nfloat wa) (nfloat wb))) in *.
  assert (E : forall q : R, (x * (a * pw) * factor * q = a * (x * pw * factor * q))%R) by (intros q; ring).
  assert (F : forall q : R, (2 * (x * (a * pw) * factor) * q = a * (2 * (x * pw * factor) * q))%R) by (intros q; ring).
  assert (G : (x * (a * pw) * factor = a * (x * pw * factor))%R) by ring.
  cbn [nmul nZ Exact] in *. rewrite !E, !F, G.
  apply bind_sim; [apply o_add_g_sim|intros _]. apply bind_sim; [apply o_sub_g_sim|intros _]. apply bind_sim; [apply o_add_h_sim|intros _].
  apply bind_sim; [apply o_add_h_sim|intros _]. apply o_add_total_sim.
Qed.
Lemma o_times_sim f j g factor todo : psim o_wphi (pair_times pick weight lossf w y f j g factor todo) (pair_times pick weight lossf w y' f j g factor todo).
Proof. induction todo as [|todo IH]; cbn [pair_times]; [constructor|]. apply bind_sim; [apply once_o|]. intros _. exact IH. Qed.
Lemma o_task_sim p f j gis : pr_w p = w -> pr_y p = y ->
  psim o_wphi (pair_task srt to_uint pick c wr weight lossf p f j gis) (pair_task srt to_uint pick c' wr weight lossf (with_targets y' p) f j gis).
Proof.
  intros Pw Py. induction gis as [|gi gis IH]; cbn [pair_task]; [constructor|]. apply bind_sim; [|intros _; exact IH].
  unfold pair_group. cbn [with_targets pr_groups pr_w pr_y pr_max pr_prob cf_equal_groups config_times]. rewrite Pw, Py.
  apply pres_sim. intros g. apply pres_sim. intros g2. apply pres_sim. intros n. cbv zeta. apply o_times_sim.
Qed.
Lemma o_tasks_run p f m : pr_w p = w -> pr_y p = y ->
  run_tasks wloc_dec (pair_tasks srt to_uint pick c' wr weight lossf (with_targets y' p) f) (mem_map o_wphi m) =
  res_map (mem_map o_wphi) (run_tasks wloc_dec (pair_tasks srt to_uint pick c wr weight lossf p f) m).
Proof.
  intros Pw Py. apply tasks_sim. unfold pair_tasks. cbn [with_targets pr_slices]. apply Forall2_maps. intros u _. apply o_task_sim; assumption.
Qed.
Lemma o_mem_start rows slices pos : mem_map o_wphi (pair_mem rows slices pos) = pair_mem rows slices pos.
Proof.
  apply functional_extensionality. intros [i|j|]; unfold mem_map, pair_mem; [destruct (i <? rows)|destruct (j <? slices)|]; cbn; try reflexivity.
  - unfold o_gtimes, gzero. do 3 f_equal; cbn; ring.
  - do 2 f_equal; cbn; ring.
Qed.
Lemma o_grads_read (m : mem wloc (@wval Exact)) n : forall i, pair_grads (mem_map o_wphi m) i n = map o_gtimes (pair_grads m i n).
Proof. induction n as [|n IH]; intros i; cbn [pair_grads]; [reflexivity|]. unfold mem_map at 1. destruct (m (WGrad i)) as [[d|l k|pos]|]; cbn; try reflexivity. f_equal. apply IH. Qed.
Lemma o_totals_read (m : mem wloc (@wval Exact)) n : forall j,
  pair_totals (mem_map o_wphi m) j n = map (fun x : Exact * Exact => ((a * fst x)%R : Exact, (a * snd x)%R : Exact)) (pair_totals m j n).
Proof. induction n as [|n IH]; intros j; cbn [pair_totals]; [reflexivity|]. unfold mem_map at 1. destruct (m (WTotal j)) as [[d|l k|pos]|]; cbn; try reflexivity. f_equal. apply IH. Qed.
Lemma o_sum_timess (l : list R) : forall z : R, fold_left (@nadd Exact) (map (fun x => a * x)%R l) (a * z)%R = (a * fold_left (@nadd Exact) l z)%R.
Proof. induction l as [|x l IH]; intros z; cbn [map fold_left]; [reflexivity|]. rewrite <- IH. f_equal. cbn. ring. Qed.
Lemma o_mean_timess (l : list (Exact * Exact)) : mean_loss (map (fun x : Exact * Exact => ((a * fst x)%R : Exact, (a * snd x)%R : Exact)) l) = mean_loss l.
Proof.
  unfold mean_loss. rewrite !map_map. cbn [fst snd].
  pose proof (o_sum_timess (map fst l) 0) as E. pose proof (o_sum_timess (map snd l) 0) as F. rewrite map_map in E, F. rewrite Rmult_0_r in E, F.
  assert (K : forall u z : R, (a * u / (a * z) = u / z)%R).
  { intros u z. destruct (Req_dec z 0) as [Z|Z].
    - rewrite Z. replace (a * 0)%R with 0%R by ring. unfold Rdiv. rewrite Rinv_0. ring.
    - field. split; [exact Z|lra]. }
  etransitivity; [|apply K]. exact (f_equal2 Rdiv E F).
Qed.
Definition o_report_result (x : Exact * list (grad Exact) * @pairwise Exact * nat * Exact) : Exact * list (grad Exact) * @pairwise Exact * nat * Exact :=
  match x with (k, gd, p, pos, loss) => (k, map o_gtimes gd, with_targets y' p, pos, loss) end.
Lemma o_report_times p pos f gd gd' : pr_w p = w -> pr_y p = y ->
  pair_report srt to_uint pick c' wr weight lossf (with_targets y' p) pos f gd' = res_map o_report_result (pair_report srt to_uint pick c wr weight lossf p pos f gd).
Proof.
  intros Pw Py. unfold pair_report. cbn [with_targets pr_slices pr_groups pr_w pr_max pr_prob]. rewrite <- (o_mem_start (List.length f) _ pos) at 1. rewrite (o_tasks_run p f _ Pw Py).
  destruct (run_tasks wloc_dec (pair_tasks srt to_uint pick c wr weight lossf p f) _) as [m| |]; [|reflexivity..]. cbn [res_map bind].
  destruct (read_all _ (seq 0 (List.length (pr_groups p)))) as [groups| |]; [|reflexivity..]. cbn [bind].
  unfold mem_map at 1. destruct (m WGen) as [[d|l k|pos2]|]; cbn [option_map o_wphi]; try reflexivity. cbn [res_map o_report_result].
  rewrite o_grads_read, o_totals_read, o_mean_timess. reflexivity.
Qed.
Definition o_round_result (x : Exact * list (grad Exact) * @pairwise Exact * nat) : Exact * list (grad Exact) * @pairwise Exact * nat :=
  match x with (k, gd, p, pos) => (k, map o_gtimes gd, with_targets y' p, pos) end.
Lemma o_round_times p pos f gd gd' : pr_w p = w -> pr_y p = y ->
  pair_round srt to_uint pick c' wr weight lossf (with_targets y' p) pos f gd' = res_map o_round_result (pair_round srt to_uint pick c wr weight lossf p pos f gd).
Proof.
  intros Pw Py. unfold pair_round. cbn [with_targets pr_slices pr_groups pr_w pr_max pr_prob]. rewrite <- (o_mem_start (List.length f) _ pos) at 1. rewrite (o_tasks_run p f _ Pw Py).
  destruct (run_tasks wloc_dec (pair_tasks srt to_uint pick c wr weight lossf p f) _) as [m| |]; [|reflexivity..]. cbn [res_map bind].
  destruct (read_all _ (seq 0 (List.length (pr_groups p)))) as [groups| |]; [|reflexivity..]. cbn [bind].
  unfold mem_map at 1. destruct (m WGen) as [[d|l k|pos2]|]; cbn [option_map o_wphi]; try reflexivity. cbn [res_map o_round_result].
  rewrite o_grads_read. reflexivity.
Qed.
Lemma o_round_keeps p pos f gd x gd2 p2 pos2 : pair_round srt to_uint pick c wr weight lossf p pos f gd = Ret (x, gd2, p2, pos2) -> pr_w p2 = pr_w p /\ pr_y p2 = pr_y p.
Proof.
  unfold pair_round. destruct (run_tasks _ _ _) as [m| |]; [|discriminate..]. cbn [bind]. destruct (read_all _ _) as [gs| |]; [|discriminate..]. cbn [bind].
  destruct (m WGen) as [[d|l k|q]|]; try discriminate. intros E. injection E as _ _ <- _. split; reflexivity.
Qed.
Lemma o_report_keeps p pos f gd x gd2 p2 pos2 loss : pair_report srt to_uint pick c wr weight lossf p pos f gd = Ret (x, gd2, p2, pos2, loss) -> pr_w p2 = pr_w p /\ pr_y p2 = pr_y p.
Proof.
  unfold pair_report. destruct (run_tasks _ _ _) as [m| |]; [|discriminate..]. cbn [bind]. destruct (read_all _ _) as [gs| |]; [|discriminate..]. cbn [bind].
  destruct (m WGen) as [[d|l k|q]|]; try discriminate. intros E. injection E as _ _ <- _ _. split; reflexivity.
Qed.

(** ** The tree *)
Lemma o_row_a gd r : row_grad w (map o_gtimes gd) r = res_map (gtimes a 1) (row_grad w gd r).
Proof.
  unfold row_grad. destruct (w r) as [x| |]; try reflexivity. cbn [bind].
  unfold vget. rewrite nth_error_map. destruct (nth_error gd r) as [d|]; [|reflexivity]. cbn [option_map bind res_map].
  f_equal. unfold gscale, gtimes, o_gtimes. cbn [gg gh nfloat nmul Exact]. f_equal; cbn; ring.
Qed.
Lemma o_fit_a i gd features pos :
  fit_tree (top i) draw threads srt w (map o_gtimes gd) features c' pos = res_map (fun x => (tt (fst x), snd x)) (fit_tree (top i) draw threads srt w gd features c pos).
Proof.
  replace tt with (tree_times (a * 1 * 1) 1) by (f_equal; ring).
  apply fit_scaled; [exact A|lra|intros r; apply o_row_a|apply map_length| |].
  - rewrite Mg. ring.
  - intros step l. replace (a * 1 * 1)%R with a by ring. apply Top.
Qed.

(** ** All rounds *)
Variable v : view.
Lemma o_constant_same x : tt (constant_tree x) = constant_tree x.
Proof. unfold constant_tree. cbn. f_equal. ring. Qed.
Lemma o_pair_rounds_times features todo : forall i constant trees st gd gd' p pos, pr_w p = w -> pr_y p = y ->
  rounds v threads top draw srt w features c' (pairwise_loss srt threads to_uint pick c' wr weight lossf) todo i constant (map tt trees) st gd' (with_targets y' p) pos =
  res_map (trained_times a) (rounds v threads top draw srt w features c (pairwise_loss srt threads to_uint pick c wr weight lossf) todo i constant trees st gd p pos).
Proof.
  induction todo as [|todo IH]; intros i constant trees st gd gd' p pos Pw Py; cbn [rounds].
  - unfold trained_times. cbn [res_map tr_status tr_forest tr_f]. do 2 f_equal. cbn [map]. rewrite <- clear_times, o_constant_same. f_equal. rewrite !map_map. apply map_ext. intros t. apply clear_times.
  - cbn [l_round pairwise_loss]. rewrite (o_round_times p pos (snd st) gd gd' Pw Py).
    destruct (pair_round srt to_uint pick c wr weight lossf p pos (snd st) gd) as [[[[x gd2] p2] pos2]| |] eqn:Er; [|reflexivity..].
    apply o_round_keeps in Er. destruct Er as [Kw Ky]. cbn [res_map bind o_round_result].
    destruct (nfinite x).
    + rewrite o_fit_a. destruct (fit_tree (top i) draw threads srt w gd2 features c pos2) as [[t p3]| |]; [|reflexivity..]. cbn [res_map bind fst snd].
      cbn [cf_shrinkage config_times]. rewrite shrink_times, add_scores_times.
      destruct (add_tree_scores (v_get v) threads (apply_shrinkage (nfloat (cf_shrinkage c)) t) x st) as [st2| |]; [|reflexivity..]. cbn [bind].
      rewrite <- (IH _ _ (trees ++ [apply_shrinkage (nfloat (cf_shrinkage c)) t]) _ _ (map o_gtimes gd2)) by congruence. rewrite map_app. reflexivity.
    + unfold trained_times. cbn [res_map tr_status tr_forest tr_f]. do 2 f_equal. cbn [map]. rewrite o_constant_same. reflexivity.
Qed.
Lemma o_pair_messages_times features todo : forall i initial st gd gd' p pos, pr_w p = w -> pr_y p = y ->
  pair_messages v threads top draw srt to_uint pick w features c' wr weight lossf todo i initial st gd' (with_targets y' p) pos =
  pair_messages v threads top draw srt to_uint pick w features c wr weight lossf todo i initial st gd p pos.
Proof.
  induction todo as [|todo IH]; intros i initial st gd gd' p pos Pw Py; cbn [pair_messages]; [reflexivity|].
  rewrite (o_report_times p pos (snd st) gd gd' Pw Py).
  destruct (pair_report srt to_uint pick c wr weight lossf p pos (snd st) gd) as [[[[[x gd2] p2] pos2] loss]| |] eqn:Er; [|reflexivity..].
  apply o_report_keeps in Er. destruct Er as [Kw Ky]. cbn [res_map bind o_report_result]. destruct (prepare_progress initial loss) as [initial2 message].
  destruct (nfinite x); [|reflexivity].
  rewrite o_fit_a. destruct (fit_tree (top i) draw threads srt w gd2 features c pos2) as [[t p3]| |]; [|reflexivity..]. cbn [res_map bind fst snd].
  cbn [cf_shrinkage config_times]. rewrite shrink_times, add_scores_times.
  destruct (add_tree_scores (v_get v) threads (apply_shrinkage (nfloat (cf_shrinkage c)) t) x st) as [st2| |]; [|reflexivity..]. cbn [bind].
  rewrite (IH _ _ st2 gd2 (map o_gtimes gd2) p2 p3) by congruence. reflexivity.
Qed.

End OtherUnits.

(** ** Training *)
Lemma lambda_scaled (s : R) (base : Exact) y y' : times s y y' -> forall g p, lambda_weight base y' g p = res_map (fun x : Exact => (s * x)%R : Exact) (lambda_weight base y g p).
Proof.
  intros Y g p. unfold lambda_weight. change (target_diff y' g p) with (basic_weight (N := Exact) true y' g p). rewrite (weight_scaled s y y' true Y g p). cbn [basic_weight pair_unit].
  destruct (target_diff y g p) as [d| |]; [|reflexivity..]. cbn [res_map bind]. destruct (vget (gr_ranks g) (fst p)); [|reflexivity..]. cbn [bind].
  destruct (vget (gr_ranks g) (snd p)); [|reflexivity..]. cbn [bind res_map]. f_equal. cbn. ring.
Qed.
Lemma kind_facts c s a wr weight lossf y y' : (0 < s)%R -> times s y y' -> other_kind c s a wr weight lossf ->
  (0 < a)%R /\ (forall g p, weight y' g p = res_map (fun x : Exact => (a * x)%R : Exact) (weight y g p)) /\ (forall t t' d, lossf t d = lossf t' d).
Proof.
  intros Sp Y [(_ & -> & -> & K)|(_ & -> & -> & ->)].
  - split; [unfold pair_unit; destruct (cf_delta_target c); lra|]. split; [apply weight_scaled; exact Y|]. destruct K as [-> | ->]; reflexivity.
  - split; [exact Sp|]. split; [apply lambda_scaled; exact Y|reflexivity].
Qed.
Lemma reads_alike s y y' : times s y y' -> forall i, match y i, y' i with Ret _, Ret _ | Undef, Undef | Fatal, Fatal => True | _, _ => False end.
Proof. intros Y i. pose proof (Y i) as Yi. destruct (y i), (y' i); try contradiction; exact I. Qed.
Lemma based_others (g : tree Exact -> tree Exact) (b : option (forest Exact)) : match option_map (map g) b with Some b => b | None => [] end = map g (match b with Some b => b | None => [] end).
Proof. destruct b; reflexivity. Qed.
Section Others.
Variables (s a : R) (v : view) (threads : nat) (top : nat -> nat -> list Exact -> nat) (draw : nat -> spec_float) (pos : nat) (srt : (nat -> nat -> bool) -> list nat -> list nat)
  (names : list str) (to_uint : Exact -> res nat) (pick : nat -> nat -> nat * nat) (w y y' : float_vector) (t t' : nat -> f32) (col : option strcol) (c : config Exact) (mg : R)
  (wr : bool) (weight : float_vector -> group -> nat * nat -> res Exact) (lossf : Exact -> Exact -> point Exact) (base : option (forest Exact)).
Hypotheses (Kind : other_kind c s a wr weight lossf) (Sp : (0 < s)%R) (Y : times s y y') (F : finite_targets y (v_rows v) t) (F' : finite_targets y' (v_rows v) t').
Hypotheses (Srt : sorts srt) (Cmp : compares_only srt) (Gc : group_column c (v_get v) = Ret col) (Pg : proper_groups (v_rows v) col).
Hypothesis Mg : Rmax mg (1 / 1000000) = (a * Rmax (cf_min_gain c) (1 / 1000000))%R.
Hypothesis Top : forall i step l, top i step (map (Rmult a) l) = top i step l.
Notation c' := (config_times a mg c).
Notation tt := (tree_times a 1).
Lemma others_train :
  train v threads top draw pos srt names w y' (pairwise_loss srt threads to_uint pick c' wr weight lossf) c' (option_map (map tt) base) =
  res_map (trained_times a) (train v threads top draw pos srt names w y (pairwise_loss srt threads to_uint pick c wr weight lossf) c base).
Proof.
  destruct (kind_facts _ _ _ _ _ _ y y' Sp Y Kind) as (Ap & Wt & Free).
  unfold train. change (check_config c') with (check_config c). destruct (check_config c) as [|e]; [|reflexivity].
  destruct (load_features (v_get v) (v_order v names)) as [[|e] fs]; [|reflexivity].
  change (group_column c' (v_get v)) with (group_column c (v_get v)). rewrite Gc. cbn [bind].
  cbn [l_init pairwise_loss]. destruct (init_scaled s a mg srt threads c (v_rows v) w y y' t t' col Sp Y F F' Srt Cmp Pg) as [Is Ik]. rewrite Is.
  destruct (pair_init srt threads c (v_rows v) w y col) as [[e|p]| |]; [reflexivity| |reflexivity..].
  destruct (Ik p eq_refl) as [Kw Ky]. cbn [res_map bind].
  destruct (init_scores v threads) as [st| |]; [|reflexivity..]. cbn [bind]. rewrite based_others.
  change (@nil (tree Exact)) with (map tt []) at 1. rewrite (base_times a threads v _ n0 [] st).
  destruct (init_with_base v threads _ n0 [] st) as [[[k trees] st1]| |]; [|reflexivity..]. cbn [res_map bind fst snd].
  exact (o_pair_rounds_times a w y y' c mg srt top draw threads to_uint pick wr weight lossf Ap Wt (reads_alike s y y' Y) Free Mg Top v fs _ _ k trees st1 _ _ p pos Kw Ky).
Qed.
Lemma others_messages :
  train_pair_messages v threads top draw pos srt names to_uint pick w y' wr weight lossf c' (option_map (map tt) base) =
  train_pair_messages v threads top draw pos srt names to_uint pick w y wr weight lossf c base.
Proof.
  destruct (kind_facts _ _ _ _ _ _ y y' Sp Y Kind) as (Ap & Wt & Free).
  unfold train_pair_messages. change (check_config c') with (check_config c). destruct (check_config c) as [|e]; [|reflexivity].
  destruct (load_features (v_get v) (v_order v names)) as [[|e] fs]; [|reflexivity].
  change (group_column c' (v_get v)) with (group_column c (v_get v)). rewrite Gc. cbn [bind].
  destruct (init_scaled s a mg srt threads c (v_rows v) w y y' t t' col Sp Y F F' Srt Cmp Pg) as [Is Ik]. rewrite Is.
  destruct (pair_init srt threads c (v_rows v) w y col) as [[e|p]| |]; [reflexivity| |reflexivity..].
  destruct (Ik p eq_refl) as [Kw Ky]. cbn [res_map bind].
  destruct (init_scores v threads) as [st| |]; [|reflexivity..]. cbn [bind]. rewrite based_others.
  change (@nil (tree Exact)) with (map tt []) at 1. rewrite (base_times a threads v _ n0 [] st).
  destruct (init_with_base v threads _ n0 [] st) as [[[k trees] st1]| |]; [|reflexivity..]. cbn [res_map bind fst snd].
  exact (o_pair_messages_times a w y y' c mg srt top draw threads to_uint pick wr weight lossf Ap Wt (reads_alike s y y' Y) Free Mg Top v fs _ _ _ st1 _ _ p pos Kw Ky).
Qed.
End Others.
Lemma others_made srt threads to_uint pick (c : config Exact) s mg :
  let dt := pair_unit (cf_delta_target c) s in
  (exists weight lossf, other_kind c s dt false weight lossf /\ auc_loss srt threads to_uint pick c = pairwise_loss srt threads to_uint pick c false weight lossf /\
     auc_loss srt threads to_uint pick (config_times dt mg c) = pairwise_loss srt threads to_uint pick (config_times dt mg c) false weight lossf) /\
  (exists weight lossf, other_kind c s dt false weight lossf /\ pairwise_logloss_loss srt threads to_uint pick c = pairwise_loss srt threads to_uint pick c false weight lossf /\
     pairwise_logloss_loss srt threads to_uint pick (config_times dt mg c) = pairwise_loss srt threads to_uint pick (config_times dt mg c) false weight lossf) /\
  (exists weight lossf, other_kind c s s true weight lossf /\ lambdamart_loss srt threads to_uint pick c = pairwise_loss srt threads to_uint pick c true weight lossf /\
     lambdamart_loss srt threads to_uint pick (config_times s mg c) = pairwise_loss srt threads to_uint pick (config_times s mg c) true weight lossf).
Proof.
  intros dt. split; [|split]; do 2 eexists; (split; [|split; reflexivity]).
  - left. split; [reflexivity|]. split; [reflexivity|]. split; [reflexivity|]. left. reflexivity.
  - left. split; [reflexivity|]. split; [reflexivity|]. split; [reflexivity|]. right. reflexivity.
  - right. split; [reflexivity|]. split; [reflexivity|]. split; reflexivity.
Qed.
