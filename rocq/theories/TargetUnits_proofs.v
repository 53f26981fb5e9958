(** TargetUnits_proofs.v - targets in other units with gbrank (property C105). *)
From Coq Require Import SpecFloat Reals Lra Lia FunctionalExtensionality.
From Verif Require Import Base Base_proofs F32 Column DataStore Subsampling Num Forest Par Config Score Eval Split SplitSpec Tree Train Loss LossSpec Pairwise PairSpec Group_proofs Pairwise_proofs
  PairExact_proofs TargetsSpec Targets_proofs Report PairReport UnitsSpec Units_proofs TargetUnitsSpec.
Local Close Scope R_scope.

Section TargetUnits.
Variables (a s : R) (w : float_vector) (y y' : float_vector) (c : config Exact) (mg : R) (srt : (nat -> nat -> bool) -> list nat -> list nat)
  (top : nat -> nat -> list Exact -> nat) (draw : nat -> spec_float) (threads : nat)
  (to_uint : Exact -> res nat) (pick : nat -> nat -> nat * nat) (weight : float_vector -> group -> nat * nat -> res Exact) (lossf : Exact -> Exact -> point Exact).
Notation k := (a * s * s)%R.
Hypotheses (A : (0 < a)%R) (S : (0 < s)%R) (Y : times s y y').
Hypothesis Mg : Rmax mg (1 / 1000000) = (k * Rmax (cf_min_gain c) (1 / 1000000))%R.
Hypothesis Top : forall i step l, top i step (map (Rmult k) l) = top i step l.
Hypothesis Weight : forall g p, weight y' g p = res_map (fun x : Exact => (a * x)%R : Exact) (weight y g p).
Hypothesis Hom : forall t d : R, p_loss (lossf (s * t)%R (s * d)%R) = (s * s * p_loss (lossf t d))%R /\
  gg (p_grad (lossf (s * t)%R (s * d)%R)) = (s * gg (p_grad (lossf t d)))%R /\ gh (p_grad (lossf (s * t)%R (s * d)%R)) = gh (p_grad (lossf t d)).
Notation c' := (config_times a mg c).
Notation tt := (tree_times k s).
Notation scale := (fun x : Exact => (s * x)%R : Exact).
Notation gt := (gtimes a s).

(** ** One round *)
Definition tphi (x : @wval Exact) : @wval Exact :=
  match x with WG d => WG (gt d) | WT l z => WT ((k * l)%R : Exact) ((a * z)%R : Exact) | WS pos => WS pos end.
Lemma add_g_scaled i (x x' : Exact) : x' = (a * s * x)%R -> psim tphi (add_g i x) (add_g i x').
Proof.
  intros ->. unfold add_g. constructor. intros [d|l z|pos]; cbn; [|constructor..].
  replace (WG (mkG (N := Exact) (a * s * gg d + a * s * x)%R (a * gh d)%R)) with (tphi (WG (mkG (N := Exact) (gg d + x)%R (gh d)))).
  - constructor. constructor.
  - cbn. unfold gtimes. cbn. do 2 f_equal. ring.
Qed.
Lemma sub_g_scaled i (x x' : Exact) : x' = (a * s * x)%R -> psim tphi (sub_g i x) (sub_g i x').
Proof.
  intros ->. unfold sub_g. constructor. intros [d|l z|pos]; cbn; [|constructor..].
  replace (WG (mkG (N := Exact) (a * s * gg d - a * s * x)%R (a * gh d)%R)) with (tphi (WG (mkG (N := Exact) (gg d - x)%R (gh d)))).
  - constructor. constructor.
  - cbn. unfold gtimes. cbn. do 2 f_equal. ring.
Qed.
Lemma add_h_scaled i (x x' : Exact) : x' = (a * x)%R -> psim tphi (add_h i x) (add_h i x').
Proof.
  intros ->. unfold add_h. constructor. intros [d|l z|pos]; cbn; [|constructor..].
  replace (WG (mkG (N := Exact) (a * s * gg d)%R (a * gh d + a * x)%R)) with (tphi (WG (mkG (N := Exact) (gg d) (gh d + x)%R))).
  - constructor. constructor.
  - cbn. unfold gtimes. cbn. do 2 f_equal. ring.
Qed.
Lemma add_total_scaled j (l z l' z' : Exact) : l' = (k * l)%R -> z' = (a * z)%R -> psim tphi (add_total j l z) (add_total j l' z').
Proof.
  intros -> ->. unfold add_total. constructor. intros [d|l0 z0|pos]; cbn; [constructor| |constructor].
  replace (WT (N := Exact) (k * l0 + k * l)%R (a * z0 + a * z)%R) with (tphi (WT (N := Exact) (l0 + l)%R (z0 + z)%R)).
  - constructor. constructor.
  - cbn. f_equal; ring.
Qed.
Lemma once_scaled (f : list Exact) j g factor : psim tphi (pair_once pick weight lossf w y f j g factor) (pair_once pick weight lossf w y' (map scale f) j g factor).
Proof.
  unfold pair_once. constructor. intros [d|l z|pos]; cbn [tphi]; [constructor..|]. destruct (pick pos (gr_pairs g)) as [index pos2].
  apply (SimWrite tphi WGen (WS pos2)). apply pres_sim. intros p. apply pres_sim. intros i. apply pres_sim. intros i2.
  apply pres_sim. intros wa. apply pres_sim. intros wb. rewrite Weight. destruct (weight y g p) as [pw| |]; cbn [res_map pres pbind]; [|constructor..]. cbv zeta.
  pose proof (Y i) as Yi. destruct (y i) as [ya| |], (y' i) as [ya'| |]; try contradiction; cbn [pres pbind]; [|constructor..].
  pose proof (Y i2) as Yj. destruct (y i2) as [yb| |], (y' i2) as [yb'| |]; try contradiction; cbn [pres pbind]; [|constructor..].
  rewrite !vget_map. destruct (vget f i) as [fa| |]; cbn [res_map pres pbind]; [|constructor..]. destruct (vget f i2) as [fb| |]; cbn [res_map pres pbind]; [|constructor..].
  cbn [nmul nsub nstore nfloat Exact nZ]. rewrite Yi, Yj.
  replace (s * real_of ya - s * real_of yb)%R with (s * (real_of ya - real_of yb))%R by ring. replace (s * fa - s * fb)%R with (s * (fa - fb))%R by ring.
  destruct (Hom (real_of ya - real_of yb) (fa - fb)) as (H1 & H2 & H3). rewrite H1, H2, H3.
  apply bind_sim; [apply add_g_scaled; cbn; ring|intros _]. apply bind_sim; [apply sub_g_scaled; cbn; ring|intros _]. apply bind_sim; [apply add_h_scaled; cbn; ring|intros _].
  apply bind_sim; [apply add_h_scaled; cbn; ring|intros _]. apply add_total_scaled; cbn; ring.
Qed.
Definition with_targets (p : @pairwise Exact) : @pairwise Exact := mkPairwise (pr_w p) y' (pr_groups p) (pr_slices p) (pr_max p) (pr_prob p).
Lemma task_scaled p (f : list Exact) j gis : pr_w p = w -> pr_y p = y ->
  psim tphi (pair_task srt to_uint pick c false weight lossf p f j gis) (pair_task srt to_uint pick c' false weight lossf (with_targets p) (map scale f) j gis).
Proof.
  intros Pw Py. induction gis as [|gi gis IH]; cbn [pair_task]; [constructor|]. apply bind_sim; [|intros _; exact IH].
  unfold pair_group. cbn [with_targets pr_groups pr_w pr_y pr_max pr_prob cf_equal_groups config_times reranked]. rewrite Pw, Py.
  apply pres_sim. intros g. apply pres_sim. intros g2. apply pres_sim. intros n. cbv zeta.
  induction n as [|n IHn]; cbn [pair_times]; [constructor|]. apply bind_sim; [apply once_scaled|intros _; exact IHn].
Qed.
Lemma mem_begin rows slices pos : mem_map tphi (pair_mem rows slices pos) = pair_mem rows slices pos.
Proof.
  apply functional_extensionality. intros [i|j|]; unfold mem_map, pair_mem; [destruct (i <? rows)|destruct (j <? slices)|]; cbn; try reflexivity.
  - rewrite gt_zero. reflexivity.
  - do 2 f_equal; cbn; ring.
Qed.
Lemma grads_scaled (m : mem wloc (@wval Exact)) n : forall i, pair_grads (mem_map tphi m) i n = map gt (pair_grads m i n).
Proof. induction n as [|n IH]; intros i; cbn [pair_grads]; [reflexivity|]. unfold mem_map at 1. destruct (m (WGrad i)) as [[d|l z|pos]|]; cbn; try reflexivity. f_equal. apply IH. Qed.
Lemma totals_scaled (m : mem wloc (@wval Exact)) n : forall j,
  pair_totals (mem_map tphi m) j n = map (fun x : Exact * Exact => ((k * fst x)%R : Exact, (a * snd x)%R : Exact)) (pair_totals m j n).
Proof. induction n as [|n IH]; intros j; cbn [pair_totals]; [reflexivity|]. unfold mem_map at 1. destruct (m (WTotal j)) as [[d|l z|pos]|]; cbn; try reflexivity. f_equal. apply IH. Qed.
Lemma sum_scaled (q : R) (l : list R) : forall z : R, fold_left (@nadd Exact) (map (fun x => q * x)%R l) (q * z)%R = (q * fold_left (@nadd Exact) l z)%R.
Proof. induction l as [|x l IH]; intros z; cbn [map fold_left]; [reflexivity|]. rewrite <- IH. f_equal. cbn. ring. Qed.
Lemma mean_scaled (l : list (Exact * Exact)) : mean_loss (map (fun x : Exact * Exact => ((k * fst x)%R : Exact, (a * snd x)%R : Exact)) l) = (s * s * mean_loss l)%R.
Proof.
  unfold mean_loss. rewrite !map_map. cbn [fst snd].
  pose proof (sum_scaled k (map fst l) 0) as E. pose proof (sum_scaled a (map snd l) 0) as F. rewrite map_map in E, F. rewrite Rmult_0_r in E, F.
  assert (K : forall u z : R, (k * u / (a * z) = s * s * (u / z))%R).
  { intros u z. destruct (Req_dec z 0) as [Z|Z].
    - rewrite Z. replace (a * 0)%R with 0%R by ring. unfold Rdiv. rewrite Rinv_0. ring.
    - field. split; [exact Z|lra]. }
  etransitivity; [|apply K]. exact (f_equal2 Rdiv E F).
Qed.
Lemma report_scaled p pos (f : list Exact) gd gd' : pr_w p = w -> pr_y p = y ->
  pair_report srt to_uint pick c' false weight lossf (with_targets p) pos (map scale f) gd' =
  res_map (fun x : Exact * list (grad Exact) * @pairwise Exact * nat * Exact => match x with (x, gd, p, pos, loss) => (x, map gt gd, with_targets p, pos, (s * s * loss)%R : Exact) end)
    (pair_report srt to_uint pick c false weight lossf p pos f gd).
Proof.
  intros Pw Py. unfold pair_report. cbn [with_targets pr_slices pr_groups pr_w pr_max pr_prob]. rewrite map_length. rewrite <- (mem_begin (List.length f) _ pos) at 1.
  rewrite (tasks_sim wloc_dec tphi (pair_tasks srt to_uint pick c false weight lossf p f)).
  2:{ unfold pair_tasks. cbn [with_targets pr_slices]. apply Forall2_maps. intros u _. apply task_scaled; assumption. }
  destruct (run_tasks wloc_dec (pair_tasks srt to_uint pick c false weight lossf p f) _) as [m| |]; [|reflexivity..]. cbn [res_map bind reranked].
  destruct (read_all _ (seq 0 (List.length (pr_groups p)))) as [groups| |]; [|reflexivity..]. cbn [bind].
  unfold mem_map at 1. destruct (m WGen) as [[d|l z|pos2]|]; cbn [option_map tphi]; try reflexivity. cbn [res_map].
  rewrite grads_scaled, totals_scaled, mean_scaled. reflexivity.
Qed.
Lemma round_scaled p pos (f : list Exact) gd gd' : pr_w p = w -> pr_y p = y ->
  pair_round srt to_uint pick c' false weight lossf (with_targets p) pos (map scale f) gd' =
  res_map (fun x : Exact * list (grad Exact) * @pairwise Exact * nat => match x with (x, gd, p, pos) => (x, map gt gd, with_targets p, pos) end)
    (pair_round srt to_uint pick c false weight lossf p pos f gd).
Proof.
  intros Pw Py. unfold pair_round. cbn [with_targets pr_slices pr_groups pr_w pr_max pr_prob]. rewrite map_length. rewrite <- (mem_begin (List.length f) _ pos) at 1.
  rewrite (tasks_sim wloc_dec tphi (pair_tasks srt to_uint pick c false weight lossf p f)).
  2:{ unfold pair_tasks. cbn [with_targets pr_slices]. apply Forall2_maps. intros u _. apply task_scaled; assumption. }
  destruct (run_tasks wloc_dec (pair_tasks srt to_uint pick c false weight lossf p f) _) as [m| |]; [|reflexivity..]. cbn [res_map bind reranked].
  destruct (read_all _ (seq 0 (List.length (pr_groups p)))) as [groups| |]; [|reflexivity..]. cbn [bind].
  unfold mem_map at 1. destruct (m WGen) as [[d|l z|pos2]|]; cbn [option_map tphi]; try reflexivity. cbn [res_map].
  rewrite grads_scaled. reflexivity.
Qed.
Lemma round_kept p pos f gd x gd2 p2 pos2 : pair_round srt to_uint pick c false weight lossf p pos f gd = Ret (x, gd2, p2, pos2) -> x = n0 /\ pr_w p2 = pr_w p /\ pr_y p2 = pr_y p.
Proof.
  unfold pair_round. destruct (run_tasks _ _ _) as [m| |]; [|discriminate..]. cbn [bind]. destruct (read_all _ _) as [gs| |]; [|discriminate..]. cbn [bind].
  destruct (m WGen) as [[d|l z|q]|]; try discriminate. intros E. injection E as <- _ <- _. repeat split; reflexivity.
Qed.
Lemma report_kept p pos f gd x gd2 p2 pos2 loss : pair_report srt to_uint pick c false weight lossf p pos f gd = Ret (x, gd2, p2, pos2, loss) -> x = n0 /\ pr_w p2 = pr_w p /\ pr_y p2 = pr_y p.
Proof.
  unfold pair_report. destruct (run_tasks _ _ _) as [m| |]; [|discriminate..]. cbn [bind]. destruct (read_all _ _) as [gs| |]; [|discriminate..]. cbn [bind].
  destruct (m WGen) as [[d|l z|q]|]; try discriminate. intros E. injection E as <- _ <- _ _. repeat split; reflexivity.
Qed.

(** ** The tree *)
Lemma row_scaled gd r : row_grad w (map gt gd) r = res_map gt (row_grad w gd r).
Proof.
  unfold row_grad. destruct (w r) as [x| |]; try reflexivity. cbn [bind]. unfold vget. rewrite nth_error_map. destruct (nth_error gd r) as [d|]; [|reflexivity].
  cbn [option_map bind res_map]. f_equal. unfold gscale, gtimes. cbn [gg gh nfloat nmul Exact]. f_equal; cbn; ring.
Qed.
Lemma fit_targets i gd features pos :
  fit_tree (top i) draw threads srt w (map gt gd) features c' pos = res_map (fun x => (tt (fst x), snd x)) (fit_tree (top i) draw threads srt w gd features c pos).
Proof. apply fit_scaled; [exact A|exact S|intros r; apply row_scaled|apply map_length|exact Mg|intros step l; apply Top]. Qed.
Lemma shrink_scaled sh t : apply_shrinkage sh (tt t) = tt (apply_shrinkage sh t).
Proof. induction t as [|x sp l IHl r IHr]; cbn [apply_shrinkage tree_times]; [reflexivity|]. rewrite IHl, IHr. f_equal. cbn. ring. Qed.
Lemma present_scaled t : present (tt t) = present t.
Proof. destruct t; reflexivity. Qed.
Lemma clear_scaled t : clear_internal (tt t) = tt (clear_internal t).
Proof.
  induction t as [|x sp l IHl r IHr]; cbn [clear_internal tree_times]; [reflexivity|]. rewrite IHl, IHr, present_scaled. f_equal.
  destruct (present l); [|reflexivity]. destruct sp as [sp|]; [|reflexivity]. cbn [option_map]. f_equal. unfold clear_split. cbn [split_times sp_cat].
  destruct (sp_cat sp) as [[names idx]|]; reflexivity.
Qed.
Lemma constant_scaled (x : Exact) : tt (constant_tree x) = constant_tree (s * x : Exact)%R.
Proof. reflexivity. Qed.

(** ** The scores *)
Definition sphi (x : @sval Exact) : @sval Exact := match x with inl i => inl i | inr x => inr ((s * x)%R : Exact) end.
Lemma get_sample_scaled i : psim sphi (get_sample (N := Exact) i) (get_sample i).
Proof. unfold get_sample. constructor. intros [x|x]; constructor. Qed.
Lemma set_sample_scaled i x : psim sphi (set_sample (N := Exact) i x) (set_sample i x).
Proof. unfold set_sample. apply (SimWrite sphi (inl i) (inl x)). constructor. Qed.
Lemma part_scaled goes start todo : forall i left, psim sphi (part_loop (N := Exact) goes start i todo left) (part_loop goes start i todo left).
Proof.
  induction todo as [|todo IH]; intros i left; cbn [part_loop]; [constructor|]. apply bind_sim; [apply get_sample_scaled|intros r]. apply pres_sim. intros [|]; [|apply IH].
  apply bind_sim; [apply get_sample_scaled|intros u]. apply bind_sim; [apply get_sample_scaled|intros v]. apply bind_sim; [apply set_sample_scaled|intros _].
  apply bind_sim; [apply set_sample_scaled|intros _]. apply IH.
Qed.
Lemma partition_scaled col sp sp' start len : sp_float sp' = sp_float sp -> sp_cat sp' = sp_cat sp -> psim sphi (partition (N := Exact) col sp start len) (partition col sp' start len).
Proof.
  intros F C. unfold partition. assert (K : split_check (N := Exact) col sp' = split_check col sp) by (unfold split_check; rewrite F, C; reflexivity).
  assert (G : go_left (N := Exact) col sp' = go_left col sp) by (unfold go_left; rewrite F, C; reflexivity). rewrite K, G.
  destruct (c_body col); [|constructor|]; apply pres_sim; intros _; apply part_scaled.
Qed.
Lemma leaf_scaled (x x' : Exact) todo : x' = (s * x)%R -> forall start, psim sphi (leaf_loop x start todo) (leaf_loop x' start todo).
Proof.
  intros ->. induction todo as [|todo IH]; intros start; cbn [leaf_loop]; [constructor|]. apply bind_sim; [apply get_sample_scaled|intros i].
  unfold get_score. cbn [pbind]. constructor. intros [u|u]; cbn [sphi pbind]; [constructor|]. unfold set_score. cbn [pbind].
  replace (inr (nadd (s * u : Exact)%R (s * x : Exact)%R)) with (sphi (inr (nadd (u : Exact) x))) by (cbn; f_equal; ring). constructor. apply IH.
Qed.
Lemma scores_scaled store t : forall start len, psim sphi (add_sample_tree_scores (N := Exact) store t n0 start len) (add_sample_tree_scores store (tt t) n0 start len).
Proof.
  induction t as [|x sp l IHl r IHr]; intros start len.
  - cbn [tree_times add_sample_tree_scores]. apply leaf_scaled. cbn. ring.
  - destruct l as [|x1 sp1 l1 r1].
    + cbn [tree_times add_sample_tree_scores]. apply leaf_scaled. cbn. ring.
    + cbn [tree_times add_sample_tree_scores] in *.
      assert (F : sp_feature (the_split (option_map (split_times k) sp)) = sp_feature (the_split sp)) by (destruct sp; reflexivity). rewrite F.
      destruct (store (sp_feature (the_split sp))) as [col|]; [|constructor].
      apply bind_sim; [apply partition_scaled; destruct sp; reflexivity|intros n]. apply bind_sim; [apply IHl|intros _]. apply IHr.
Qed.
Definition state_times (st : list nat * list Exact) : list nat * list Exact := (fst st, map scale (snd st)).
Lemma add_scaled store t st : add_tree_scores store threads (tt t) n0 (state_times st) = res_map state_times (add_tree_scores store threads t n0 st).
Proof.
  unfold add_tree_scores, state_times. destruct st as [samples scores]. cbn [fst snd]. destruct (score_slices (List.length samples) threads) as [slices| |]; [|reflexivity..]. cbn [bind].
  assert (M : score_mem samples (map scale scores) = mem_map sphi (score_mem samples scores)).
  { apply functional_extensionality. intros [i|i]; unfold mem_map, score_mem; [destruct (nth_error samples i); reflexivity|]. rewrite nth_error_map. destruct (nth_error scores i); reflexivity. }
  rewrite M, (tasks_sim sloc_dec sphi (score_tasks store t n0 slices)).
  2:{ unfold score_tasks. apply Forall2_maps. intros u _. apply scores_scaled. }
  destruct (run_tasks sloc_dec (score_tasks store t n0 slices) (score_mem samples scores)) as [m| |]; [|reflexivity..]. cbn [res_map bind fst snd]. rewrite map_length. f_equal. f_equal.
  - generalize 0. generalize (List.length samples). intros n. induction n as [|n IH]; intros i; cbn [read_samples]; [reflexivity|]. unfold mem_map at 1.
    destruct (m (inl i)) as [[u|u]|]; cbn; try reflexivity. f_equal. apply IH.
  - generalize 0. generalize (List.length scores). intros n. induction n as [|n IH]; intros i; cbn [read_scores]; [reflexivity|]. unfold mem_map at 1.
    destruct (m (inr i)) as [[u|u]|]; cbn; try reflexivity. f_equal. apply IH.
Qed.
Lemma base_scaled v base : forall (constant : Exact) trees st,
  init_with_base v threads (map tt base) (s * constant : Exact)%R (map tt trees) (state_times st) =
  res_map (fun x : Exact * list (tree Exact) * (list nat * list Exact) => ((s * fst (fst x))%R : Exact, map tt (snd (fst x)), state_times (snd x))) (init_with_base v threads base constant trees st).
Proof.
  induction base as [|t base IH]; intros constant trees st; cbn [init_with_base map]; [reflexivity|]. rewrite add_scaled.
  destruct (add_tree_scores (v_get v) threads t n0 st) as [st1| |]; [|reflexivity..]. cbn [res_map bind].
  replace (single_node (tt t)) with (single_node t) by (destruct t as [|x sp [|] r]; reflexivity). destruct (single_node t).
  - rewrite <- IH. f_equal. assert (Z : t_score (tt t) = (s * t_score t)%R) by (destruct t; cbn; [ring|reflexivity]). rewrite Z. cbn. ring.
  - rewrite <- (IH constant (trees ++ [t])), map_app. reflexivity.
Qed.

(** ** All rounds *)
Variable v : view.
Notation lf := (pairwise_loss srt threads to_uint pick c false weight lossf).
Notation lf' := (pairwise_loss srt threads to_uint pick c' false weight lossf).
Lemma rounds_scaled features todo : forall i (constant : Exact) trees st gd gd' p pos, pr_w p = w -> pr_y p = y ->
  rounds v threads top draw srt w features c' lf' todo i (s * constant : Exact)%R (map tt trees) (state_times st) gd' (with_targets p) pos =
  res_map (trained_scaled k s) (rounds v threads top draw srt w features c lf todo i constant trees st gd p pos).
Proof.
  induction todo as [|todo IH]; intros i constant trees st gd gd' p pos Pw Py; cbn [rounds].
  - unfold trained_scaled. cbn [res_map tr_status tr_forest tr_f state_times snd]. do 2 f_equal. cbn [map]. rewrite <- clear_scaled, constant_scaled. f_equal. rewrite !map_map. apply map_ext. intros t. apply clear_scaled.
  - cbn [l_round pairwise_loss state_times snd]. rewrite (round_scaled p pos (snd st) gd gd' Pw Py).
    destruct (pair_round srt to_uint pick c false weight lossf p pos (snd st) gd) as [[[[x gd2] p2] pos2]| |] eqn:Er; [|reflexivity..].
    apply round_kept in Er. destruct Er as (-> & Kw & Ky). cbn [res_map bind]. change (nfinite (@n0 Exact)) with true. cbn iota.
    rewrite fit_targets. destruct (fit_tree (top i) draw threads srt w gd2 features c pos2) as [[t p3]| |]; [|reflexivity..]. cbn [res_map bind fst snd].
    cbn [cf_shrinkage config_times]. rewrite shrink_scaled. change (fst st, map scale (snd st)) with (state_times st). rewrite add_scaled.
    destruct (add_tree_scores (v_get v) threads (apply_shrinkage (nfloat (cf_shrinkage c)) t) n0 st) as [st2| |]; [|reflexivity..]. cbn [res_map bind].
    rewrite <- (IH _ _ (trees ++ [apply_shrinkage (nfloat (cf_shrinkage c)) t]) _ _ (map gt gd2)) by congruence. rewrite map_app. f_equal. cbn. ring.
Qed.
Definition alike (initial initial' : R) : Prop := initial' = (s * s * initial)%R \/ (initial < 0 /\ initial' < 0)%R.
Lemma progress_scaled (initial initial' loss : R) : alike initial initial' ->
  let (i2, m) := prepare_progress (N := Exact) initial loss in
  let (i2', m') := prepare_progress (N := Exact) initial' (s * s * loss)%R in alike i2 i2' /\ m' = ((s * s * fst m)%R : Exact, snd m).
Proof.
  intros Al. unfold prepare_progress. cbn [nltb neqb nsub ndiv nmul Exact nZ]. change (@n0 Exact) with 0%R.
  assert (Sq : (0 < s * s)%R) by (apply Rmult_lt_0_compat; exact S).
  assert (E : Rltb initial' 0 = Rltb initial 0).
  { destruct Al as [-> | [L1 L2]].
    - rewrite <- (ltb_times (s * s) initial 0 Sq). f_equal. ring.
    - unfold Rltb. destruct (Rlt_dec initial' 0), (Rlt_dec initial 0); try reflexivity; lra. }
  rewrite E.
  assert (P : forall u : R, ((if Reqb (s * s * u) 0 then 0 else (s * s * u - s * s * loss) / (s * s * u)) = (if Reqb u 0 then 0 else (u - loss) / u))%R).
  { intros u. rewrite (eqb_times (s * s) u Sq). unfold Reqb. destruct (Req_EM_T u 0); [reflexivity|]. field. split; [assumption|lra]. }
  unfold Rltb. destruct (Rlt_dec initial 0) as [L|L]; cbn [fst snd].
  - split; [left; reflexivity|]. rewrite P. reflexivity.
  - destruct Al as [-> | [L1 _]]; [|contradiction]. split; [left; reflexivity|]. rewrite P. reflexivity.
Qed.
Notation message_times := (fun m : Exact * Exact => ((s * s * fst m)%R : Exact, snd m)).
Lemma messages_scaled features todo : forall i (initial initial' : Exact) st gd gd' p pos, pr_w p = w -> pr_y p = y -> alike initial initial' ->
  pair_messages v threads top draw srt to_uint pick w features c' false weight lossf todo i initial' (state_times st) gd' (with_targets p) pos =
  res_map (map message_times) (pair_messages v threads top draw srt to_uint pick w features c false weight lossf todo i initial st gd p pos).
Proof.
  induction todo as [|todo IH]; intros i initial initial' st gd gd' p pos Pw Py Al; cbn [pair_messages]; [reflexivity|].
  cbn [state_times snd]. rewrite (report_scaled p pos (snd st) gd gd' Pw Py).
  destruct (pair_report srt to_uint pick c false weight lossf p pos (snd st) gd) as [[[[[x gd2] p2] pos2] loss]| |] eqn:Er; [|reflexivity..].
  apply report_kept in Er. destruct Er as (-> & Kw & Ky). cbn [res_map bind]. pose proof (progress_scaled initial initial' loss Al) as Pr.
  cbn [bind res_map] in *. destruct (prepare_progress (N := Exact) initial loss) as [i2 m]. destruct (prepare_progress (N := Exact) initial' (s * s * loss)%R) as [i2' m'].
  destruct Pr as [Al2 ->]. change (nfinite (@n0 Exact)) with true. cbn iota.
  rewrite fit_targets. destruct (fit_tree (top i) draw threads srt w gd2 features c pos2) as [[t p3]| |]; [|reflexivity..]. cbn [res_map bind fst snd].
  cbn [cf_shrinkage config_times]. rewrite shrink_scaled. change (fst st, map scale (snd st)) with (state_times st). rewrite add_scaled.
  destruct (add_tree_scores (v_get v) threads (apply_shrinkage (nfloat (cf_shrinkage c)) t) n0 st) as [st2| |]; [|reflexivity..]. cbn [res_map bind].
  rewrite (IH _ i2 i2' st2 gd2 (map gt gd2) p2 p3) by (try congruence; exact Al2).
  destruct (pair_messages v threads top draw srt to_uint pick w features c false weight lossf todo _ i2 st2 gd2 p2 p3) as [rest| |]; reflexivity.
Qed.
End TargetUnits.

(** ** Training with gbrank *)
Lemma order_kept (s : R) y y' n t t' i j : (0 < s)%R -> times s y y' -> finite_targets y n t -> finite_targets y' n t' -> i < n -> j < n -> fltb (t i) (t j) = fltb (t' i) (t' j).
Proof.
  intros Sp Y F F' Li Lj. destruct (F i Li) as (Yi & Vi & Ni), (F j Lj) as (Yj & Vj & Nj), (F' i Li) as (Yi' & Vi' & Ni'), (F' j Lj) as (Yj' & Vj' & Nj').
  pose proof (Y i) as Ri. pose proof (Y j) as Rj. rewrite Yi, Yi' in Ri. rewrite Yj, Yj' in Rj.
  destruct (float_order _ _ Vi Vj Ni Nj) as [O _]. destruct (float_order _ _ Vi' Vj' Ni' Nj') as [O' _]. rewrite Ri, Rj in O'.
  apply Bool.eq_true_iff_eq. rewrite O, O'. split; intros H; [apply Rmult_lt_compat_l; assumption|apply Rmult_lt_reg_l in H; assumption].
Qed.
Lemma finite_comparable y n t : finite_targets y n t -> comparable y (seq 0 n) t.
Proof. intros F i I. apply in_seq in I. destruct (F i) as (Yi & _ & Ni); [lia|]. split; [exact Yi|]. destruct (t i); try discriminate Ni; reflexivity. Qed.
Lemma init_scaled (s a mg : R) srt threads (c : config Exact) n w y y' t t' col : (0 < s)%R -> times s y y' -> finite_targets y n t -> finite_targets y' n t' ->
  sorts srt -> compares_only srt -> proper_groups n col ->
  pair_init srt threads (config_times a mg c) n w y' col =
  res_map (fun x : code + @pairwise Exact => match x with inl e => inl e | inr p => inr (with_targets y' p) end) (pair_init srt threads c n w y col) /\
  forall p, pair_init srt threads c n w y col = Ret (inr p) -> pr_w p = w /\ pr_y p = y.
Proof.
  intros Sp Y F F' Srt Cmp Pg. destruct (grouping_ok _ _ Pg) as (rows & G & Rw). destruct (grouping_rows _ _ _ G) as [_ Lr]. split.
  - change (pair_init srt threads (config_times a mg c) n w y' col) with (pair_init srt threads c n w y' col).
    rewrite (proj1 (init_same (N := Exact) srt threads (fun q _ => (q, q)) c (fun _ _ _ => Undef) (fun _ _ => (n0, n0, n0)) n y y' t t' rows Srt Cmp Lr
      (finite_comparable _ _ _ F) (finite_comparable _ _ _ F')
      (fun rk i j K I J => order_kept s y y' n t t' i j Sp Y F F' (proj1 (Lr i) (proj2 (in_concat _ _) (ex_intro _ rk (conj K I)))) (proj1 (Lr j) (proj2 (in_concat _ _) (ex_intro _ rk (conj K J)))))
      (fun _ _ _ _ _ _ _ => eq_refl) (fun _ _ _ => eq_refl) w col Rw)).
    destruct (pair_init srt threads c n w y col) as [[e|p]| |]; reflexivity.
  - intros p. unfold pair_init. destruct (nleb _ _); [discriminate|]. rewrite Rw. cbn [bind].
    destruct (read_all _ _) as [groups| |]; [|discriminate..]. cbn [bind]. cbv zeta. destruct (divide_samples _ _) as [slices| |]; [|discriminate..]. cbn [bind].
    intros E. injection E as <-. split; reflexivity.
Qed.
Lemma hinge_scaled (s : R) : (0 < s)%R -> forall t d : R,
  p_loss (squared_hinge (N := Exact) (s * t)%R (s * d)%R) = (s * s * p_loss (squared_hinge (N := Exact) t d))%R /\
  gg (p_grad (squared_hinge (N := Exact) (s * t)%R (s * d)%R)) = (s * gg (p_grad (squared_hinge (N := Exact) t d)))%R /\
  gh (p_grad (squared_hinge (N := Exact) (s * t)%R (s * d)%R)) = gh (p_grad (squared_hinge (N := Exact) t d)).
Proof.
  intros Sp t d. assert (Sq : (0 < s * s)%R) by (apply Rmult_lt_0_compat; exact Sp). unfold squared_hinge. cbn [nltb nsub nmul Exact]. change (@n0 Exact) with 0%R.
  replace (Rltb 0 ((s * t - s * d) * (s * t))) with (Rltb 0 ((t - d) * t)) by (rewrite <- (ltb_times (s * s) 0 ((t - d) * t) Sq); f_equal; ring).
  destruct (Rltb 0 ((t - d) * t)); cbn; repeat split; ring.
Qed.
Lemma weight_scaled (s : R) y y' dt : times s y y' -> forall g p,
  basic_weight (N := Exact) dt y' g p = res_map (fun x : Exact => (pair_unit dt s * x)%R : Exact) (basic_weight (N := Exact) dt y g p).
Proof.
  intros Y g p. unfold basic_weight. destruct dt; cbn [pair_unit res_map]; [|f_equal; cbn; ring]. unfold target_diff, group_y.
  destruct (vget (gr_rows g) (fst p)) as [i| |]; try reflexivity. cbn [bind]. pose proof (Y i) as Yi. destruct (y i) as [u| |], (y' i) as [u'| |]; try contradiction; try reflexivity. cbn [bind].
  destruct (vget (gr_rows g) (snd p)) as [j| |]; try reflexivity. cbn [bind]. pose proof (Y j) as Yj. destruct (y j) as [z| |], (y' j) as [z'| |]; try contradiction; try reflexivity. cbn [bind res_map].
  f_equal. cbn. rewrite Yi, Yj. ring.
Qed.
Section Gbrank.
Variables (s : R) (v : view) (threads : nat) (top : nat -> nat -> list Exact -> nat) (draw : nat -> spec_float) (pos : nat) (srt : (nat -> nat -> bool) -> list nat -> list nat)
  (names : list str) (to_uint : Exact -> res nat) (pick : nat -> nat -> nat * nat) (w y y' : float_vector) (t t' : nat -> f32) (col : option strcol) (c : config Exact) (mg : R)
  (base : option (forest Exact)).
Notation a := (pair_unit (cf_delta_target c) s).
Notation k := (a * s * s)%R.
Hypotheses (Sp : (0 < s)%R) (Y : times s y y') (F : finite_targets y (v_rows v) t) (F' : finite_targets y' (v_rows v) t').
Hypotheses (Srt : sorts srt) (Cmp : compares_only srt) (Gc : group_column c (v_get v) = Ret col) (Pg : proper_groups (v_rows v) col).
Hypothesis Mg : Rmax mg (1 / 1000000) = (k * Rmax (cf_min_gain c) (1 / 1000000))%R.
Hypothesis Top : forall i step l, top i step (map (Rmult k) l) = top i step l.
Lemma unit_pos : (0 < a)%R.
Proof. unfold pair_unit. destruct (cf_delta_target c); lra. Qed.
Lemma start_scaled st : init_scores (N := Exact) v threads = Ret st -> state_times s st = st.
Proof.
  unfold init_scores. destruct (score_slices _ _); try discriminate. cbn [bind]. intros E. injection E as <-. unfold state_times. cbn [fst snd]. f_equal.
  generalize (v_rows v). intros n. induction n as [|n IH]; [reflexivity|]. cbn [repeat map]. f_equal; [cbn; ring|exact IH].
Qed.
Lemma base_of (tt : tree Exact -> tree Exact) : match option_map (map tt) base with Some b => b | None => [] end = map tt (match base with Some b => b | None => [] end).
Proof. destruct base; reflexivity. Qed.
Lemma begin_scaled f st : init_scores (N := Exact) v threads = Ret st ->
  init_with_base v threads (map (tree_times k s) f) (n0 : Exact) [] st =
  res_map (fun x : Exact * list (tree Exact) * (list nat * list Exact) => ((s * fst (fst x))%R : Exact, map (tree_times k s) (snd (fst x)), state_times s (snd x))) (init_with_base v threads f (n0 : Exact) [] st).
Proof.
  intros E. rewrite <- (base_scaled a s threads v f n0 [] st), (start_scaled st E). f_equal. cbn. ring.
Qed.
Lemma gbrank_train :
  train v threads top draw pos srt names w y' (gbrank_loss (N := Exact) srt threads to_uint pick (config_times a mg c)) (config_times a mg c) (option_map (map (tree_times k s)) base) =
  res_map (trained_scaled k s) (train v threads top draw pos srt names w y (gbrank_loss (N := Exact) srt threads to_uint pick c) c base).
Proof.
  unfold train. change (check_config (config_times a mg c)) with (check_config c). destruct (check_config c) as [|e]; [|reflexivity].
  destruct (load_features (v_get v) (v_order v names)) as [[|e] fs]; [|reflexivity].
  change (group_column (config_times a mg c) (v_get v)) with (group_column c (v_get v)). rewrite Gc. cbn [bind].
  unfold gbrank_loss. cbn [l_init pairwise_loss]. destruct (init_scaled s a mg srt threads c (v_rows v) w y y' t t' col Sp Y F F' Srt Cmp Pg) as [Is Ik]. rewrite Is.
  destruct (pair_init srt threads c (v_rows v) w y col) as [[e|p]| |]; [reflexivity| |reflexivity..].
  destruct (Ik p eq_refl) as [Kw Ky]. cbn [res_map bind].
  destruct (init_scores v threads) as [st| |] eqn:Est; [|reflexivity..]. cbn [bind]. rewrite base_of, (begin_scaled _ st Est).
  destruct (init_with_base v threads _ n0 [] st) as [[[q trees] st1]| |]; [|reflexivity..]. cbn [res_map bind fst snd].
  (* fail early if the loss is another one *)
  lazymatch goal with |- context [pairwise_loss _ _ _ _ c false (basic_weight (cf_delta_target c)) (fun t d => squared_hinge t d)] => idtac end.
  exact (rounds_scaled a s w y y' c mg srt top draw threads to_uint pick (basic_weight (cf_delta_target c)) (fun t d => squared_hinge t d) unit_pos Sp Y Mg Top
    (weight_scaled s y y' _ Y) (hinge_scaled s Sp) v fs _ _ q trees st1 _ _ p pos Kw Ky).
Qed.
Lemma gbrank_messages :
  train_pair_messages v threads top draw pos srt names to_uint pick w y' false (basic_weight (cf_delta_target c)) (fun t d => squared_hinge t d) (config_times a mg c)
    (option_map (map (tree_times k s)) base) =
  res_map (map (fun m : Exact * Exact => ((s * s * fst m)%R : Exact, snd m)))
    (train_pair_messages v threads top draw pos srt names to_uint pick w y false (basic_weight (cf_delta_target c)) (fun t d => squared_hinge t d) c base).
Proof.
  unfold train_pair_messages. change (check_config (config_times a mg c)) with (check_config c). destruct (check_config c) as [|e]; [|reflexivity].
  destruct (load_features (v_get v) (v_order v names)) as [[|e] fs]; [|reflexivity].
  change (group_column (config_times a mg c) (v_get v)) with (group_column c (v_get v)). rewrite Gc. cbn [bind].
  destruct (init_scaled s a mg srt threads c (v_rows v) w y y' t t' col Sp Y F F' Srt Cmp Pg) as [Is Ik]. rewrite Is.
  destruct (pair_init srt threads c (v_rows v) w y col) as [[e|p]| |]; [reflexivity| |reflexivity..].
  destruct (Ik p eq_refl) as [Kw Ky]. cbn [res_map bind].
  destruct (init_scores v threads) as [st| |] eqn:Est; [|reflexivity..]. cbn [bind]. rewrite base_of, (begin_scaled _ st Est).
  destruct (init_with_base v threads _ n0 [] st) as [[[q trees] st1]| |]; [|reflexivity..]. cbn [res_map bind fst snd].
  apply (messages_scaled a s w y y' c mg srt top draw threads to_uint pick (basic_weight (cf_delta_target c)) (fun t d => squared_hinge t d) unit_pos Sp Y Mg Top
    (weight_scaled s y y' _ Y) (hinge_scaled s Sp) v fs _ _ no_initial no_initial st1 _ _ p pos Kw Ky).
  right. unfold no_initial. cbn. lra.
Qed.
End Gbrank.
