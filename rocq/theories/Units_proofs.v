(** Units_proofs.v - weights in other units, shifted targets (property C81). *)
From Coq Require Import SpecFloat Reals Lra FunctionalExtensionality.
From Verif Require Import Base Base_proofs F32 Column ColumnSpec DataStore Subsampling Subsampling_proofs Num Forest Par Config Score ScoreSpec Score_proofs
  Eval EvalSpec Eval_proofs Split SplitSpec Gain_proofs Category_proofs Tree TreeSpec Sum_proofs Split_proofs Tree_proofs Train TrainSpec Train_proofs
  Loss LossSpec Loss_proofs Mse_proofs UnitsSpec.
Local Close Scope R_scope.

(** ** Programs on related memories *)
Section Sim.
Context {L V : Type} (dec : forall a b : L, {a = b} + {a <> b}) (phi : V -> V).
Definition mem_map (m : mem L V) : mem L V := fun l : L => option_map phi (m l).
Inductive psim {A} : prog L V A -> prog L V A -> Prop :=
| SimRet a : psim (PRet a) (PRet a)
| SimUndef : psim PUndef PUndef
| SimFatal : psim PFatal PFatal
| SimRead l k k' : (forall v, psim (k v) (k' (phi v))) -> psim (PRead l k) (PRead l k')
| SimWrite l v q q' : psim q q' -> psim (PWrite l v q) (PWrite l (phi v) q').
Lemma upd_map m l v : upd dec (mem_map m) l (phi v) = mem_map (upd dec m l v).
Proof. apply functional_extensionality. intros x. unfold mem_map, upd. destruct (dec x l); reflexivity. Qed.
Lemma run_sim {A} (p p' : prog L V A) : psim p p' -> forall m, run dec p' (mem_map m) = res_map (fun x => (fst x, mem_map (snd x))) (run dec p m).
Proof.
  induction 1 as [a| | |l k k' H IH|l v q q' H IH]; intros m; cbn [run]; try reflexivity.
  - unfold mem_map at 1. destruct (m l); [apply IH|reflexivity].
  - unfold mem_map at 1. destruct (m l); [|reflexivity]. cbn [option_map]. rewrite upd_map. apply IH.
Qed.
Lemma tasks_sim ps ps' : Forall2 psim ps ps' -> forall m, run_tasks dec ps' (mem_map m) = res_map mem_map (run_tasks dec ps m).
Proof.
  induction 1 as [|p p' ps ps' H F IH]; intros m; cbn [run_tasks]; [reflexivity|]. rewrite (run_sim p p' H).
  destruct (run dec p m) as [[u m1]| |]; [|reflexivity..]. cbn [res_map bind fst snd]. apply IH.
Qed.
Lemma bind_sim {A B} (p p' : prog L V A) (k k' : A -> prog L V B) : psim p p' -> (forall a, psim (k a) (k' a)) -> psim (pbind p k) (pbind p' k').
Proof. induction 1; intros K; cbn [pbind]; auto; constructor; auto. Qed.
Lemma pres_sim {A B} (r : res A) (k k' : A -> prog L V B) : (forall a, psim (k a) (k' a)) -> psim (pbind (pres r) k) (pbind (pres r) k').
Proof. intros K. destruct r; cbn; [apply K|constructor..]. Qed.
End Sim.
Lemma Forall2_maps {A B C} (R : B -> C -> Prop) (f : A -> B) (g : A -> C) l : (forall a, In a l -> R (f a) (g a)) -> Forall2 R (map f l) (map g l).
Proof. induction l as [|x l IH]; intros H; constructor; [apply H; left; reflexivity|]. apply IH. intros a I. apply H. right. exact I. Qed.

(** ** Numbers *)
Section Scale.
Variables (a s : R).
Hypotheses (A : (0 < a)%R) (S : (0 < s)%R).
Notation k := (a * s * s)%R.
Lemma k_pos : (0 < k)%R.
Proof. apply Rmult_lt_0_compat; [apply Rmult_lt_0_compat; assumption|exact S]. Qed.

Definition gtimes (d : grad Exact) : grad Exact := mkG (a * s * gg d : Exact)%R (a * gh d : Exact)%R.

Lemma gt_zero : gtimes gzero = gzero.
Proof. unfold gtimes, gzero. f_equal; cbn; ring. Qed.
Lemma gt_add x y : gadd (gtimes x) (gtimes y) = gtimes (gadd x y).
Proof. unfold gtimes, gadd. f_equal; cbn; ring. Qed.
Lemma gt_sub x y : gsub (gtimes x) (gtimes y) = gtimes (gsub x y).
Proof. unfold gtimes, gsub. f_equal; cbn; ring. Qed.
Lemma eqb_times (p x : R) : (0 < p)%R -> Reqb (p * x) 0 = Reqb x 0.
Proof.
  intros P. unfold Reqb. destruct (Req_EM_T (p * x) 0) as [E|E], (Req_EM_T x 0) as [F|F]; try reflexivity.
  - apply Rmult_integral in E. lra.
  - exfalso. apply E. rewrite F. ring.
Qed.
Lemma ltb_times (p x y : R) : (0 < p)%R -> Rltb (p * x) (p * y) = Rltb x y.
Proof.
  intros P. unfold Rltb. destruct (Rlt_dec (p * x) (p * y)) as [E|E], (Rlt_dec x y) as [F|F]; try reflexivity; exfalso.
  - apply F. apply Rmult_lt_reg_l in E; assumption.
  - apply E. apply Rmult_lt_compat_l; assumption.
Qed.
Lemma max_times (p x y : R) : (0 < p)%R -> @nmax Exact (p * x)%R (p * y)%R = (p * @nmax Exact x y)%R.
Proof. intros P. unfold nmax. cbn [nltb Exact]. rewrite (ltb_times p x y P). destruct (Rltb x y); reflexivity. Qed.
Lemma min_times (p x y : R) : (0 < p)%R -> @nmin Exact (p * x)%R (p * y)%R = (p * @nmin Exact x y)%R.
Proof. intros P. unfold nmin. cbn [nltb Exact]. rewrite (ltb_times p y x P). destruct (Rltb y x); reflexivity. Qed.

Lemma energy_times (lambda : R) d : energy (N := Exact) (a * lambda)%R (gtimes d) = (k * energy (N := Exact) lambda d)%R.
Proof.
  unfold energy, gtimes. cbn [gg gh nadd nmul ndiv neqb Exact n0 nZ]. replace (a * gh d + a * lambda)%R with (a * (gh d + lambda))%R by ring.
  rewrite eqb_times by exact A. unfold Reqb. destruct (Req_EM_T (gh d + lambda) 0) as [E|E]; [cbn; ring|]. cbn. field. split; [exact E|lra].
Qed.
Lemma score_times (lambda : R) d : gscore (N := Exact) (a * lambda)%R (gtimes d) = (s * gscore (N := Exact) lambda d)%R.
Proof.
  unfold gscore, gtimes. cbn [gg gh nadd nmul ndiv neqb Exact n0 nZ]. replace (a * gh d + a * lambda)%R with (a * (gh d + lambda))%R by ring.
  rewrite eqb_times by exact A. unfold Reqb. destruct (Req_EM_T (gh d + lambda) 0) as [E|E]; [cbn; ring|]. cbn. field. split; [exact E|lra].
Qed.

(** ** Histograms *)
Variables (w w' : float_vector) (gd gd' : list (grad Exact)) (c : config Exact) (mg : R) (srt : (nat -> nat -> bool) -> list nat -> list nat).
Hypothesis Row : forall r, row_grad w' gd' r = res_map gtimes (row_grad w gd r).
Hypothesis Len : List.length gd' = List.length gd.
Hypothesis Mg : Rmax mg (1 / 1000000) = (k * Rmax (cf_min_gain c) (1 / 1000000))%R.
Notation c' := (config_times a mg c).

Notation htimes h := (mkHist (map gtimes (h_data h)) (h_values h)).
Lemma vget_map {X Y} (f : X -> Y) l i : vget (map f l) i = res_map f (vget l i).
Proof. unfold vget. rewrite nth_error_map. destruct (nth_error l i); reflexivity. Qed.
Lemma set_nth_map {X Y} (f : X -> Y) x : forall l i, set_nth i (f x) (map f l) = map f (set_nth i x l).
Proof. induction l as [|y l IH]; intros [|i]; cbn; try reflexivity. f_equal. apply IH. Qed.
Lemma hist_row_times code h r : hist_row code w' gd' (map gtimes h) r = res_map (map gtimes) (hist_row code w gd h r).
Proof.
  unfold hist_row. destruct (code r) as [i| |]; [|reflexivity..]. cbn [bind]. rewrite vget_map. destruct (vget h (Z.to_nat i)) as [x| |]; [|reflexivity..].
  cbn [res_map bind]. rewrite Row. destruct (row_grad w gd r) as [d| |]; [|reflexivity..]. cbn [res_map bind]. unfold vset. rewrite map_length, gt_add.
  destruct (Nat.ltb (Z.to_nat i) (List.length h)); [|reflexivity]. cbn [res_map]. f_equal. apply set_nth_map.
Qed.
Lemma hist_fold_times code rows : forall h, fold_res (hist_row code w' gd') rows (map gtimes h) = res_map (map gtimes) (fold_res (hist_row code w gd) rows h).
Proof.
  induction rows as [|r rows IH]; intros h; cbn [fold_res]; [reflexivity|]. rewrite hist_row_times.
  destruct (hist_row code w gd h r); [|reflexivity..]. cbn [res_map bind]. apply IH.
Qed.
Lemma repeat_zero n : map gtimes (repeat gzero n) = repeat gzero n.
Proof. induction n; cbn; [reflexivity|]. rewrite gt_zero. congruence. Qed.
Lemma non_zero_times h i : non_zero (map gtimes h) i = non_zero h i.
Proof.
  unfold non_zero. rewrite nth_error_map. destruct (nth_error h i) as [d|]; [|reflexivity]. cbn [option_map gtimes gg gh neqb Exact].
  change (@n0 Exact) with 0%R. rewrite !eqb_times; [reflexivity|exact A|apply Rmult_lt_0_compat; assumption].
Qed.
Lemma hist_times code M rows : compute_histogram code M w' gd' rows = res_map (fun h => htimes h) (compute_histogram code M w gd rows).
Proof.
  unfold compute_histogram. rewrite <- (repeat_zero (Z.to_nat M)) at 1. rewrite hist_fold_times.
  destruct (fold_res (hist_row code w gd) rows (repeat gzero (Z.to_nat M))) as [h| |]; [|reflexivity..]. cbn [res_map bind]. do 2 f_equal.
  apply filter_ext. intros i. apply non_zero_times.
Qed.
Lemma missing_times h : has_missing (htimes h) = has_missing h.
Proof.
  unfold has_missing. cbn [h_data]. rewrite vget_map. destruct (vget (h_data h) 0) as [d| |]; [|reflexivity..]. cbn [res_map bind gtimes gg gh neqb Exact].
  change (@n0 Exact) with 0%R. rewrite !eqb_times; [reflexivity|exact A|apply Rmult_lt_0_compat; assumption].
Qed.
Lemma node_score_times h v : node_score (cf_l2_lambda c') (htimes h) v = (s * node_score (cf_l2_lambda c) h v)%R.
Proof.
  unfold node_score. cbn [h_data cf_l2_lambda config_times]. rewrite nth_error_map. destruct (nth_error (h_data h) v) as [d|]; cbn [option_map].
  - apply score_times.
  - cbn. ring.
Qed.
Lemma sort_times h : sort_on_node_score srt (cf_l2_lambda c') (htimes h) = res_map (fun h => htimes h) (sort_on_node_score srt (cf_l2_lambda c) h).
Proof.
  unfold sort_on_node_score.
  assert (F : forall (c0 : Exact) h0 l, forallb (fun v => neqb (node_score c0 h0 v) (node_score c0 h0 v)) l = true).
  { intros c0 h0 l. apply forallb_forall. intros v _. apply Reqb_iff. reflexivity. }
  cbn [h_values]. rewrite !F, !orb_true_r. cbn [res_map]. cbn [h_data h_values]. do 3 f_equal.
  apply functional_extensionality. intros x. apply functional_extensionality. intros y. rewrite !node_score_times. apply (ltb_times s). exact S.
Qed.

(** ** The scan *)
Lemma cut_times total l r : cut_gain c' (gtimes total) (gtimes l) (gtimes r) = option_map (Rmult k) (cut_gain c total l r).
Proof.
  unfold cut_gain. cbn [cf_min_hessian cf_l2_lambda config_times]. rewrite !energy_times. cbn [gtimes gh nltb Exact]. rewrite (min_times a) by exact A.
  rewrite (ltb_times a) by exact A. destruct (Rltb _ _); [|reflexivity]. cbn [option_map nadd nsub Exact]. f_equal. cbn. ring.
Qed.
Definition here_rest (c : config Exact) (h : histogram) (total left right : grad Exact) (pm : bool) (gain : Exact) : res (Exact * bool) :=
  if pm then
    let! m := has_missing h in
    if m then
      let! d := vget (h_data h) 0 in
      match cut_gain c total (gsub left d) (gadd right d) with
      | Some g => if nltb gain g then Ret (g, true) else Ret (gain, false)
      | None => Ret (gain, false)
      end
    else Ret (gain, false)
  else Ret (gain, false).
Lemma rest_times h total l r pm (gain : R) :
  here_rest c' (htimes h) (gtimes total) (gtimes l) (gtimes r) pm (k * gain)%R = res_map (fun x => ((k * fst x)%R : Exact, snd x)) (here_rest c h total l r pm gain).
Proof.
  unfold here_rest. destruct pm; [|reflexivity].
  rewrite missing_times. destruct (has_missing h) as [[]| |]; [|reflexivity..]. cbn [bind h_data]. rewrite vget_map.
  destruct (vget (h_data h) 0) as [d| |]; [|reflexivity..]. cbn [res_map bind]. rewrite gt_sub, gt_add, cut_times.
  destruct (cut_gain c total (gsub l d) (gadd r d)) as [g2|]; [|reflexivity]. cbn [option_map nltb Exact]. rewrite (ltb_times k) by exact k_pos.
  destruct (Rltb gain g2); reflexivity.
Qed.
Lemma here_times h total l pm : best_here c' (htimes h) (gtimes total) (gtimes l) pm = res_map (fun x => ((k * fst x)%R : Exact, snd x)) (best_here c h total l pm).
Proof.
  change (best_here c' (htimes h) (gtimes total) (gtimes l) pm) with
    (here_rest c' (htimes h) (gtimes total) (gtimes l) (gsub (gtimes total) (gtimes l)) pm
      (match cut_gain c' (gtimes total) (gtimes l) (gsub (gtimes total) (gtimes l)) with Some g => g | None => n0 end)).
  change (best_here c h total l pm) with
    (here_rest c h total l (gsub total l) pm (match cut_gain c total l (gsub total l) with Some g => g | None => n0 end)).
  rewrite gt_sub, cut_times, <- rest_times. f_equal. destruct (cut_gain c total l (gsub total l)); cbn; [reflexivity|ring].
Qed.
Definition ptimes (p : @split_point Exact) : split_point := mkPoint (pt_left p) (pt_missing_right p) (k * pt_gain p : Exact)%R.
Lemma limit_times : @nmax Exact (cf_min_gain c') tolerance = (k * @nmax Exact (cf_min_gain c) tolerance)%R.
Proof.
  assert (X : forall x y : R, @nmax Exact x y = Rmax x y).
  { intros x y. unfold nmax, Rmax. cbn [nltb Exact]. unfold Rltb. destruct (Rlt_dec x y), (Rle_dec x y); try reflexivity; lra. }
  rewrite !X. exact Mg.
Qed.
Lemma scan_times h total pm values : forall i l best,
  scan c' (htimes h) (gtimes total) pm values i (gtimes l) (ptimes best) = res_map ptimes (scan c h total pm values i l best).
Proof.
  induction values as [|v values IH]; intros i l best; cbn [scan]; [reflexivity|].
  assert (E : (if (i =? 0)%Z then Ret (ptimes best) else
      let! (gain, mr) := best_here c' (htimes h) (gtimes total) (gtimes l) pm in
      if nltb (nmax (pt_gain (ptimes best)) (nmax (cf_min_gain c') tolerance)) gain then Ret (mkPoint (i - 1) mr gain) else Ret (ptimes best)) =
    res_map ptimes (if (i =? 0)%Z then Ret best else
      let! (gain, mr) := best_here c h total l pm in
      if nltb (nmax (pt_gain best) (nmax (cf_min_gain c) tolerance)) gain then Ret (mkPoint (i - 1) mr gain) else Ret best)).
  { destruct (i =? 0)%Z; [reflexivity|]. rewrite here_times. destruct (best_here c h total l pm) as [[g mr]| |]; [|reflexivity..]. cbn [res_map bind fst snd].
    rewrite limit_times. cbn [ptimes pt_gain]. rewrite (max_times k) by exact k_pos. cbn [nltb Exact]. rewrite (ltb_times k) by exact k_pos.
    destruct (Rltb _ _); reflexivity. }
  rewrite E. clear E. destruct (if (i =? 0)%Z then Ret best else _) as [b| |]; [|reflexivity..]. cbn [res_map bind h_data]. rewrite vget_map.
  destruct (vget (h_data h) v) as [d| |]; [|reflexivity..]. cbn [res_map bind]. rewrite gt_add. apply IH.
Qed.
Lemma point_times h total pm : find_best_split_point c' (htimes h) (gtimes total) pm = res_map (option_map ptimes) (find_best_split_point c h total pm).
Proof.
  unfold find_best_split_point. cbn [h_values].
  assert (E : mkPoint (-1) false (@n0 Exact) = ptimes (mkPoint (-1) false n0)) by (unfold ptimes; cbn; f_equal; ring).
  rewrite E at 1. rewrite <- gt_zero at 1. rewrite scan_times. destruct (scan c h total pm (h_values h) 0 gzero _) as [p| |]; [|reflexivity..].
  cbn [res_map bind ptimes pt_left]. destruct (0 <=? pt_left p)%Z; reflexivity.
Qed.

Lemma float_times b rows total : find_best_float_split b w' gd' rows c' (gtimes total) = res_map (option_map (split_times k)) (find_best_float_split b w gd rows c total).
Proof.
  unfold find_best_float_split. destruct (icol_vec (b_ints b)); [|reflexivity..]. cbn [bind]. rewrite hist_times.
  destruct (compute_histogram _ _ _ _ _) as [h| |]; [|reflexivity..]. cbn [res_map bind]. rewrite point_times.
  destruct (find_best_split_point c h total true) as [[p|]| |]; [|reflexivity..]. cbn [res_map option_map bind h_values ptimes pt_left].
  destruct (vget (h_values h) _) as [lv| |]; [|reflexivity..]. cbn [bind]. destruct (vget (h_values h) _) as [rv| |]; [|reflexivity..]. cbn [bind].
  destruct (b_bucket_max b _) as [x| |]; [|reflexivity..]. cbn [bind]. destruct (b_bucket_min b _) as [y| |]; [|reflexivity..]. cbn [bind].
  destruct (if is_nan x then _ else _) as [th| |]; reflexivity.
Qed.
Lemma string_times st rows total :
  find_best_string_split srt st w' gd' rows c' (gtimes total) = res_map (option_map (split_times k)) (find_best_string_split srt st w gd rows c total).
Proof.
  unfold find_best_string_split. destruct (icol_vec (s_ints st)); [|reflexivity..]. cbn [bind]. rewrite hist_times.
  destruct (compute_histogram _ _ _ _ _) as [h| |]; [|reflexivity..]. cbn [res_map bind]. rewrite sort_times.
  destruct (sort_on_node_score srt (cf_l2_lambda c) h) as [h2| |]; [|reflexivity..]. cbn [res_map bind]. rewrite point_times.
  destruct (find_best_split_point c h2 total false) as [[p|]| |]; reflexivity.
Qed.
Lemma split_search_times col rows total :
  find_best_split srt col w' gd' rows c' (gtimes total) = res_map (option_map (split_times k)) (find_best_split srt col w gd rows c total).
Proof. unfold find_best_split. destruct (c_body col); [apply float_times|reflexivity|apply string_times]. Qed.

(** ** The best feature *)
Lemma default_times : split_times k default_split = default_split.
Proof. unfold split_times, default_split. cbn. f_equal. ring. Qed.
Lemma vec_mem_map {X} (f : X -> X) l : vec_mem (map f l) = mem_map f (vec_mem l).
Proof. apply functional_extensionality. intros i. unfold vec_mem, mem_map. apply nth_error_map. Qed.
Lemma read_vec_map {X} (f : X -> X) (m : mem nat X) todo : forall i, read_vec (mem_map f m) i todo = map f (read_vec m i todo).
Proof.
  induction todo as [|todo IH]; intros i; cbn [read_vec]; [reflexivity|]. unfold mem_map at 1. destruct (m i); [|reflexivity]. cbn [option_map map]. f_equal. apply IH.
Qed.
Lemma best_index_times l : forall i bi b,
  best_index (map (split_times k) l) i bi (split_times k b) = (fst (best_index l i bi b), split_times k (snd (best_index l i bi b))).
Proof.
  induction l as [|sp l IH]; intros i bi b; cbn [best_index map]; [reflexivity|]. cbn [split_times sp_gain nltb Exact]. rewrite (ltb_times k) by exact k_pos.
  destruct (Rltb (sp_gain b) (sp_gain sp)); apply IH.
Qed.
Lemma names_times col sp : with_names col (split_times k sp) = res_map (split_times k) (with_names col sp).
Proof.
  unfold with_names. cbn [split_times sp_cat sp_float sp_gain]. destruct (sp_cat sp) as [[names idx]|]; [|reflexivity].
  destruct (c_body col) as [b|r|st]; [reflexivity..|]. destruct (fold_res _ idx names) as [ns| |]; reflexivity.
Qed.
Lemma feature_times draw pos features rows total :
  find_best_feature draw pos srt features w' gd' rows (gtimes total) c' =
  res_map (fun x => (split_times k (fst (fst x)), snd (fst x), snd x)) (find_best_feature draw pos srt features w gd rows total c).
Proof.
  unfold find_best_feature. cbn [cf_feature_rate config_times].
  destruct (uniform_subsample draw pos (List.length features) (to_f64 (cf_feature_rate c))) as [smp p1].
  assert (R : repeat (@default_split Exact) (List.length smp) = map (split_times k) (repeat default_split (List.length smp))).
  { generalize (List.length smp). intros n. induction n; cbn; [reflexivity|]. rewrite default_times. congruence. }
  rewrite R at 1. rewrite vec_mem_map, (tasks_sim Nat.eq_dec (split_times k) (search_tasks srt features w gd rows c total smp)).
  2:{ unfold search_tasks. apply Forall2_maps. intros [i f] _. cbn [fst snd]. unfold search_task. apply pres_sim. intros col. rewrite split_search_times.
      destruct (find_best_split srt col w gd rows c total) as [[sp|]| |]; cbn; repeat constructor. }
  destruct (run_tasks Nat.eq_dec (search_tasks srt features w gd rows c total smp) _) as [m| |]; [|reflexivity..]. cbn [res_map bind]. rewrite read_vec_map.
  assert (D : split_times k default_split = default_split) by apply default_times.
  destruct (read_vec m 0 (List.length smp)) as [|sp0 l]; [cbn; rewrite D; reflexivity|]. cbn [map]. rewrite best_index_times.
  destruct (best_index l 1 0 sp0) as [bi b]. cbn [fst snd split_times sp_gain nltb Exact]. change (@n0 Exact) with 0%R.
  replace (Rltb 0 (k * sp_gain b)) with (Rltb 0 (sp_gain b)) by (rewrite <- (ltb_times k 0 (sp_gain b)) by exact k_pos; f_equal; ring).
  destruct (Rltb 0 (sp_gain b)); [|cbn; rewrite D; reflexivity].
  destruct (vget smp bi) as [j| |]; [|reflexivity..]. cbn [bind]. destruct (vget features j) as [col| |]; [|reflexivity..]. cbn [bind].
  change (mkSplit (sp_feature b) (sp_float b) (sp_cat b) (k * sp_gain b : Exact)%R) with (split_times k b). rewrite names_times.
  destruct (with_names col b); reflexivity.
Qed.

(** ** Sums *)
Lemma sum_times threads rows : weighted_sum threads w' gd' rows = res_map gtimes (weighted_sum threads w gd rows).
Proof.
  unfold weighted_sum. destruct (divide_slice rows (threads * 5)) as [slices| |]; [|reflexivity..]. cbn [bind].
  rewrite <- (repeat_zero (List.length slices)) at 1. rewrite vec_mem_map, (tasks_sim Nat.eq_dec gtimes (sum_tasks w gd slices)).
  2:{ unfold sum_tasks. apply Forall2_maps. intros [i rs] _. cbn [fst snd]. induction rs as [|r rs IH]; cbn [sum_task]; [constructor|]. rewrite Row.
      destruct (row_grad w gd r) as [d| |]; cbn [res_map pres pbind]; [|constructor..]. constructor. intros x. rewrite gt_add. constructor. exact IH. }
  destruct (run_tasks Nat.eq_dec (sum_tasks w gd slices) _) as [m| |]; [|reflexivity..]. cbn [res_map bind]. rewrite read_vec_map. f_equal.
  rewrite <- gt_zero at 1. generalize (read_vec m 0 (List.length slices)). intros l. generalize (@gzero Exact). induction l as [|d l IH]; intros z; cbn [map fold_left]; [reflexivity|].
  rewrite gt_add. apply IH.
Qed.

(** ** Growing *)
Variables (top : nat -> list Exact -> nat) (draw : nat -> spec_float) (threads : nat) (features : list column).
Hypothesis Top : forall step l, top step (map (Rmult k) l) = top step l.
Notation tt := (tree_times k s).
Lemma node_at_times p : forall t, node_at (tt t) p = tt (node_at t p).
Proof.
  induction p as [|d p IH]; intros t; cbn [node_at]; [reflexivity|].
  assert (E : (if d then t_left (tt t) else t_right (tt t)) = tt (if d then t_left t else t_right t)) by (destruct t, d; reflexivity). rewrite E. apply IH.
Qed.
Lemma split_at_times t p : the_split (t_split (node_at (tt t) p)) = split_times k (the_split (t_split (node_at t p))).
Proof. rewrite node_at_times. destruct (node_at t p) as [|x [sp|] l r]; cbn; try reflexivity; symmetry; apply default_times. Qed.
Lemma children_times l r p : forall t, set_children (tt t) p (tt l) (tt r) = tt (set_children t p l r).
Proof.
  induction p as [|d p IH]; intros [|x sp a0 b0]; cbn; try reflexivity. destruct d; cbn; rewrite IH; reflexivity.
Qed.
Lemma new_times total sp : new_node (cf_l2_lambda c') (gtimes total) (split_times k sp) = tt (new_node (cf_l2_lambda c) total sp).
Proof.
  unfold new_node. cbn [cf_l2_lambda config_times]. rewrite score_times. cbn [split_times sp_gain nltb Exact nstore tree_times]. change (@n0 Exact) with 0%R.
  replace (Rltb 0 (k * sp_gain sp)) with (Rltb 0 (sp_gain sp)) by (rewrite <- (ltb_times k 0 (sp_gain sp)) by exact k_pos; f_equal; ring).
  destruct (Rltb 0 (sp_gain sp)); reflexivity.
Qed.
Lemma partition_times col sp start len : partition col (split_times k sp) start len = partition col sp start len.
Proof. reflexivity. Qed.
Lemma grow_times fuel : forall step pos t q samples,
  grow top draw threads srt w' gd' features c' fuel step pos (tt t) q samples =
  res_map (fun x => (tt (fst x), snd x)) (grow top draw threads srt w gd features c fuel step pos t q samples).
Proof.
  induction fuel as [|fuel IH]; intros step pos t q samples; cbn [grow]; [reflexivity|]. destruct q as [|nd0 q0] eqn:Eq; [reflexivity|]. rewrite <- Eq. clear Eq nd0 q0.
  cbn [cf_num_leaves config_times]. destruct (negb _); [reflexivity|].
  assert (G : map (node_gain (tt t)) q = map (Rmult k) (map (node_gain t) q)).
  { rewrite map_map. apply map_ext. intros nd. unfold node_gain. rewrite split_at_times. reflexivity. }
  rewrite G, Top. destruct (vget q (top step (map (node_gain t) q))) as [nd| |]; [|reflexivity..]. cbn [bind].
  destruct (nd_feature nd) as [col|]; [|reflexivity]. rewrite split_at_times, partition_times.
  destruct (run sloc_dec (partition col (the_split (t_split (node_at t (nd_path nd)))) (nd_start nd) (nd_len nd)) (score_mem samples [])) as [[n m]| |]; [|reflexivity..].
  cbn [bind]. cbv zeta. set (sa := read_samples m 0 (List.length samples)). rewrite !sum_times.
  destruct (weighted_sum threads w gd (slice sa (nd_start nd, nd_start nd + n))) as [lt| |]; [|reflexivity..]. cbn [res_map bind].
  destruct (weighted_sum threads w gd (slice sa (nd_start nd + n, nd_start nd + nd_len nd))) as [rt| |]; [|reflexivity..]. cbn [res_map bind].
  rewrite feature_times. destruct (find_best_feature draw pos srt features w gd (slice sa (nd_start nd, nd_start nd + n)) lt c) as [[[lsp lf] p1]| |]; [|reflexivity..].
  cbn [res_map bind fst snd]. rewrite feature_times.
  destruct (find_best_feature draw p1 srt features w gd (slice sa (nd_start nd + n, nd_start nd + nd_len nd)) rt c) as [[[rsp rf] p2]| |]; [|reflexivity..].
  cbn [res_map bind fst snd]. change (cf_l2_lambda (config_times a mg c)) with (cf_l2_lambda c'). rewrite !new_times, children_times. apply IH.
Qed.
Lemma fit_scaled pos : fit_tree top draw threads srt w' gd' features c' pos = res_map (fun x => (tt (fst x), snd x)) (fit_tree top draw threads srt w gd features c pos).
Proof.
  unfold fit_tree. rewrite Len. cbn [cf_example_rate cf_num_leaves config_times].
  destruct (uniform_subsample draw pos (List.length gd) (to_f64 (cf_example_rate c))) as [smp p1]. rewrite sum_times.
  destruct (weighted_sum threads w gd smp) as [total| |]; [|reflexivity..]. cbn [res_map bind]. rewrite feature_times.
  destruct (find_best_feature draw p1 srt features w gd smp total c) as [[[sp f] p2]| |]; [|reflexivity..]. cbn [res_map bind fst snd].
  change (cf_l2_lambda (config_times a mg c)) with (cf_l2_lambda c'). rewrite new_times. apply grow_times.
Qed.
End Scale.

(** With other weights and gradients in other units *)
Lemma row_times a s w w' gd r : times a w w' -> row_grad w' (grads_times s gd) r = res_map (gtimes a s) (row_grad w gd r).
Proof.
  intros W. unfold row_grad. specialize (W r). destruct (w r) as [x| |], (w' r) as [x'| |]; try contradiction; try reflexivity. cbn [bind].
  unfold vget, grads_times. rewrite nth_error_map. destruct (nth_error gd r) as [d|]; [|reflexivity]. cbn [option_map bind res_map].
  f_equal. unfold gscale, gtimes. cbn [gg gh nfloat nmul Exact]. rewrite W. f_equal; cbn; ring.
Qed.
Lemma fit_times a s (A : (0 < a)%R) (S : (0 < s)%R) w w' gd (c : config Exact) mg srt (W : times a w w') (Mg : Rmax mg (1 / 1000000) = (a * s * s * Rmax (cf_min_gain c) (1 / 1000000))%R)
    (top : nat -> list Exact -> nat) draw threads features (Top : forall step l, top step (map (Rmult (a * s * s)) l) = top step l) pos :
  fit_tree top draw threads srt w' (grads_times s gd) features (config_times a mg c) pos =
  res_map (fun x => (tree_times (a * s * s) s (fst x), snd x)) (fit_tree top draw threads srt w gd features c pos).
Proof.
  apply fit_scaled; [exact A|exact S|intros r; apply row_times; exact W|apply map_length|exact Mg|exact Top].
Qed.

(** ** Training with other weights *)
Section Weights.
Variables (a : R) (w w' : float_vector) (c : config Exact) (mg : R) (srt : (nat -> nat -> bool) -> list nat -> list nat)
  (top : nat -> nat -> list Exact -> nat) (draw : nat -> spec_float) (threads : nat).
Hypotheses (A : (0 < a)%R) (W : times a w w').
Hypothesis Mg : Rmax mg (1 / 1000000) = (a * Rmax (cf_min_gain c) (1 / 1000000))%R.
Hypothesis Top : forall i step l, top i step (map (Rmult a) l) = top i step l.
Notation c' := (config_times a mg c).
Notation tt := (tree_times a 1).

Lemma grads_one gd : grads_times 1 gd = gd.
Proof. unfold grads_times. rewrite <- (map_id gd) at 2. apply map_ext. intros [x y]. f_equal. cbn. ring. Qed.
Lemma fit_weights i gd features pos :
  fit_tree (top i) draw threads srt w' gd features c' pos = res_map (fun x => (tt (fst x), snd x)) (fit_tree (top i) draw threads srt w gd features c pos).
Proof.
  rewrite <- (grads_one gd) at 1. replace tt with (tree_times (a * 1 * 1) 1) by (f_equal; ring).
  apply fit_times; [exact A|lra|exact W| |].
  - rewrite Mg. ring.
  - intros step l. replace (a * 1 * 1)%R with a by ring. apply Top.
Qed.

Lemma present_times t : present (tt t) = present t.
Proof. destruct t; reflexivity. Qed.
Lemma shrink_times sh t : apply_shrinkage sh (tt t) = tt (apply_shrinkage sh t).
Proof. induction t as [|x sp l IHl r IHr]; cbn [apply_shrinkage tree_times]; [reflexivity|]. rewrite IHl, IHr. f_equal. cbn. ring. Qed.
Lemma clear_times t : clear_internal (tt t) = tt (clear_internal t).
Proof.
  induction t as [|x sp l IHl r IHr]; cbn [clear_internal tree_times]; [reflexivity|]. rewrite IHl, IHr, present_times. f_equal.
  destruct (present l); [|reflexivity]. destruct sp as [sp|]; [|reflexivity]. cbn [option_map]. f_equal. unfold clear_split. cbn [split_times sp_cat].
  destruct (sp_cat sp) as [[names idx]|]; reflexivity.
Qed.
Lemma scores_times store t : forall k start len, add_sample_tree_scores store (tt t) k start len = add_sample_tree_scores store t k start len.
Proof.
  induction t as [|x sp l IHl r IHr]; intros k start len; [reflexivity|].
  assert (X : (1 * x + k)%R = (x + k)%R) by ring.
  destruct l as [|y sq l1 l2].
  - cbn [tree_times add_sample_tree_scores]. change (leaf_loop (N := Exact) (1 * x + k)%R start len = leaf_loop (N := Exact) (x + k)%R start len). rewrite X. reflexivity.
  - assert (E : forall (sp0 : option (split Exact)), add_sample_tree_scores store (TNode x sp0 (TNode y sq l1 l2) r) k start len =
      match store (sp_feature (the_split sp0)) with
      | None => PFatal
      | Some c0 => do! n := partition c0 (the_split sp0) start len in
                   do! _ := add_sample_tree_scores store (TNode y sq l1 l2) k start n in add_sample_tree_scores store r k (start + n) (len - n)
      end) by reflexivity. rewrite E. clear E.
    assert (E : add_sample_tree_scores store (tt (TNode x sp (TNode y sq l1 l2) r)) k start len =
      match store (sp_feature (the_split (option_map (split_times a) sp))) with
      | None => PFatal
      | Some c0 => do! n := partition c0 (the_split (option_map (split_times a) sp)) start len in
                   do! _ := add_sample_tree_scores store (tt (TNode y sq l1 l2)) k start n in add_sample_tree_scores store (tt r) k (start + n) (len - n)
      end) by reflexivity. rewrite E. clear E.
    assert (F : sp_feature (the_split (option_map (split_times a) sp)) = sp_feature (the_split sp)) by (destruct sp; reflexivity). rewrite F.
    destruct (store (sp_feature (the_split sp))) as [c0|]; [|reflexivity].
    assert (P : partition c0 (the_split (option_map (split_times a) sp)) start len = partition c0 (the_split sp) start len) by (destruct sp; reflexivity). rewrite P.
    f_equal. apply functional_extensionality. intros n. rewrite IHl. f_equal. apply functional_extensionality. intros u. apply IHr.
Qed.
Lemma add_scores_times store t x st : add_tree_scores store threads (tt t) x st = add_tree_scores store threads t x st.
Proof.
  unfold add_tree_scores. destruct st as [samples scores]. destruct (score_slices (List.length samples) threads) as [slices| |]; [|reflexivity..]. cbn [bind].
  replace (score_tasks store (tt t) x slices) with (score_tasks store t x slices); [reflexivity|]. unfold score_tasks. apply map_ext. intros r. symmetry. apply scores_times.
Qed.
Lemma base_times v base : forall constant trees st,
  init_with_base v threads (map tt base) constant (map tt trees) st =
  res_map (fun x => (fst (fst x), map tt (snd (fst x)), snd x)) (init_with_base v threads base constant trees st).
Proof.
  induction base as [|t base IH]; intros constant trees st; cbn [init_with_base map]; [reflexivity|]. rewrite add_scores_times.
  destruct (add_tree_scores (v_get v) threads t n0 st) as [st1| |]; [|reflexivity..]. cbn [bind].
  replace (single_node (tt t)) with (single_node t) by (destruct t as [|x sp [|] r]; reflexivity). destruct (single_node t).
  - assert (Z : t_score (tt t) = t_score t) by (destruct t; [reflexivity|apply Rmult_1_l]). rewrite Z. apply IH.
  - rewrite <- (IH constant (trees ++ [t])), map_app. reflexivity.
Qed.

(** *** Pointwise losses *)
Variables (lossf : Exact -> Exact -> point Exact) (y : float_vector).
Notation gt := (gtimes a 1).
Definition pphi (x : @pval Exact) : @pval Exact := match x with inl d => inl d | inr (l, g) => inr ((a * l)%R : Exact, gt g) end.
Definition ptimes_state (p : @pointwise Exact) : pointwise := mkPointwise w' (pw_y p) (a * pw_weight_sum p : Exact)%R (pw_slices p).
Lemma point_row_sim f x j i : psim pphi (point_row lossf w y f x j i) (point_row lossf w' y f x j i).
Proof.
  unfold point_row. apply pres_sim. intros fi. apply pres_sim. intros yi. cbv zeta. specialize (W i). destruct (w i) as [wi| |], (w' i) as [wi'| |]; try contradiction; cbn; [|constructor..].
  apply (SimWrite pphi (inl i) (inl (p_grad (lossf (real_of yi) (fi + x)%R)))). constructor. intros [d|[l g]]; [constructor|]. constructor. intros [d|d]; [|destruct d; constructor].
  cbn. match goal with |- psim _ (PWrite _ (inr (?u, ?v)) _) (PWrite _ (inr (?u', ?v')) _) =>
    replace (u', v') with ((a * u)%R, gt v) end.
  - apply (SimWrite pphi (inr j) (inr (_, _))). constructor.
  - f_equal; [rewrite W; ring|]. unfold gtimes, gadd, gscale. f_equal; cbn; rewrite W; ring.
Qed.
Lemma point_task_sim f x j rows : psim pphi (point_task lossf w y f x j rows) (point_task lossf w' y f x j rows).
Proof. induction rows as [|i rows IH]; cbn [point_task]; [constructor|]. apply bind_sim; [apply point_row_sim|]. intros _. exact IH. Qed.
Lemma pass_times p f x gd : pw_w p = w -> pw_y p = y ->
  point_pass lossf (ptimes_state p) f x gd = res_map (fun r => (fst r, ((a * fst (snd r))%R : Exact, gt (snd (snd r))))) (point_pass lossf p f x gd).
Proof.
  intros Pw Py. unfold point_pass. cbn [ptimes_state pw_slices]. set (z := repeat (@n0 Exact, @gzero Exact) (List.length (pw_slices p))).
  assert (M : point_mem gd z = mem_map pphi (point_mem gd z)).
  { apply functional_extensionality. intros [i|j]; unfold mem_map, point_mem.
    - destruct (nth_error gd i); reflexivity.
    - destruct (nth_error z j) as [u|] eqn:E; [|reflexivity]. apply nth_error_In in E. apply repeat_spec in E. subst u. cbn [option_map pphi]. rewrite gt_zero.
      do 3 f_equal. cbn. ring. }
  rewrite M at 1. rewrite (tasks_sim ploc_dec pphi (point_tasks lossf p f x)).
  2:{ unfold point_tasks. cbn [ptimes_state pw_slices pw_w pw_y]. rewrite Pw, Py. apply Forall2_maps. intros u _. apply point_task_sim. }
  destruct (run_tasks ploc_dec (point_tasks lossf p f x) (point_mem gd z)) as [m| |]; [|reflexivity..]. cbn [res_map bind fst snd]. f_equal. f_equal.
  - generalize 0. generalize (List.length gd). intros n. induction n as [|n IH]; intros s0; cbn [read_grads]; [reflexivity|]. unfold mem_map at 1.
    destruct (m (inl s0)) as [[d|[l g]]|]; cbn; try reflexivity. f_equal. apply IH.
  - assert (E : forall n s0, read_totals (mem_map pphi m) s0 n = map (fun u => ((a * fst u)%R : Exact, gt (snd u))) (read_totals m s0 n)).
    { induction n as [|n IH]; intros s0; cbn [read_totals]; [reflexivity|]. unfold mem_map at 1. destruct (m (inr s0)) as [[d|[l g]]|]; cbn; try reflexivity. f_equal. apply IH. }
    rewrite E. generalize (read_totals m 0 (List.length (pw_slices p))). intros l.
    assert (F : forall (u : Exact) (g : grad Exact),
      fold_left (fun a0 b : Exact * grad Exact => (nadd (fst a0) (fst b), gadd (snd a0) (snd b))) (map (fun u => ((a * fst u)%R : Exact, gt (snd u))) l) ((a * u)%R : Exact, gt g) =
      (let r := fold_left (fun a0 b : Exact * grad Exact => (nadd (fst a0) (fst b), gadd (snd a0) (snd b))) l (u, g) in ((a * fst r)%R : Exact, gt (snd r)))).
    { induction l as [|d l IH]; intros u g; cbn [map fold_left]; [reflexivity|]. cbn [fst snd]. rewrite gt_add. rewrite <- IH. do 2 f_equal. cbn. ring. }
    rewrite <- F. rewrite gt_zero. do 2 f_equal. cbn. ring.
Qed.
Lemma newton_times p f todo : pw_w p = w -> pw_y p = y -> forall x gd, newton lossf (ptimes_state p) f todo x gd = newton lossf p f todo x gd.
Proof.
  intros Pw Py. induction todo as [|todo IH]; intros x gd; cbn [newton]; [reflexivity|]. rewrite (pass_times p f x gd Pw Py).
  destruct (point_pass lossf p f x gd) as [[gd2 [l g]]| |]; [|reflexivity..]. cbn [res_map bind fst snd].
  assert (E : gscore (@n0 Exact) (gt g) = gscore n0 g).
  { replace (@n0 Exact) with ((a * 0)%R : Exact) at 1 by (cbn; ring). rewrite (score_times a 1 A). cbn. ring. }
  rewrite E. destruct (_ && _); [apply IH|reflexivity].
Qed.
Variables (v : view) (features : list column) (binary : bool).
Lemma rounds_times todo : forall i constant trees st gd p pos, pw_w p = w -> pw_y p = y ->
  rounds v threads top draw srt w' features c' (pointwise_loss threads binary lossf) todo i constant (map tt trees) st gd (ptimes_state p) pos =
  res_map (trained_times a) (rounds v threads top draw srt w features c (pointwise_loss threads binary lossf) todo i constant trees st gd p pos).
Proof.
  assert (K : forall constant, tt (constant_tree constant) = constant_tree constant) by (intros x; unfold constant_tree; cbn; f_equal; ring).
  induction todo as [|todo IH]; intros i constant trees st gd p pos Pw Py; cbn [rounds].
  - unfold trained_times. cbn [res_map tr_status tr_forest tr_f]. do 2 f_equal. cbn [map]. rewrite <- clear_times, K. f_equal. rewrite !map_map. apply map_ext. intros t. apply clear_times.
  - cbn [l_round pointwise_loss]. unfold pointwise_round. rewrite (newton_times p _ _ Pw Py).
    destruct (newton lossf p (snd st) max_iterations n0 (resize gd (List.length (snd st)))) as [[x gd2]| |]; [|reflexivity..]. cbn [bind].
    destruct (nfinite x).
    + rewrite fit_weights. destruct (fit_tree (top i) draw threads srt w gd2 features c pos) as [[t p2]| |]; [|reflexivity..]. cbn [res_map bind fst snd].
      cbn [cf_shrinkage config_times]. rewrite shrink_times, add_scores_times.
      destruct (add_tree_scores (v_get v) threads (apply_shrinkage (nfloat (cf_shrinkage c)) t) x st) as [st2| |]; [|reflexivity..]. cbn [bind].
      rewrite <- (IH _ _ (trees ++ [apply_shrinkage (nfloat (cf_shrinkage c)) t])) by assumption. rewrite map_app. reflexivity.
    + unfold trained_times. cbn [res_map tr_status tr_forest tr_f]. do 2 f_equal. cbn [map]. rewrite K. reflexivity.
Qed.
End Weights.

Lemma train_times a v threads (top : nat -> nat -> list Exact -> nat) draw pos srt names w w' y binary lossf (c : config Exact) mg (base : option (forest Exact)) : (0 < a)%R -> times a w w' ->
  Rmax mg (1 / 1000000) = (a * Rmax (cf_min_gain c) (1 / 1000000))%R -> (forall i step l, top i step (map (Rmult a) l) = top i step l) ->
  train v threads top draw pos srt names w' y (pointwise_loss threads binary lossf) (config_times a mg c) (option_map (map (tree_times a 1)) base) =
  res_map (trained_times a) (train v threads top draw pos srt names w y (pointwise_loss threads binary lossf) c base).
Proof.
  intros A W Mg Top. unfold train. change (check_config (config_times a mg c)) with (check_config c). destruct (check_config c) as [|e]; [|reflexivity].
  destruct (load_features (v_get v) (v_order v names)) as [[|e] features]; [|reflexivity].
  change (group_column (config_times a mg c) (v_get v)) with (group_column c (v_get v)). destruct (group_column c (v_get v)) as [group| |]; [|reflexivity..]. cbn [bind].
  cbn [l_init pointwise_loss]. destruct (if binary then _ else _) as [ok| |]; [|reflexivity..]. cbn [bind]. destruct ok; [|reflexivity].
  assert (I : pointwise_init threads (v_rows v) w' y = res_map (ptimes_state a w') (pointwise_init threads (v_rows v) w y)).
  { unfold pointwise_init.
    assert (F : forall l (s s' : Exact), s' = (a * s)%R -> fold_res (fun s i => let! x := w' i in Ret (nadd s (nfloat x))) l s' =
      res_map (fun x => ((a * x)%R : Exact)) (fold_res (fun s i => let! x := w i in Ret (nadd s (nfloat x))) l s)).
    { induction l as [|i l IH]; intros s s' E; cbn [fold_res]; [rewrite E; reflexivity|]. specialize (W i).
      destruct (w i) as [x| |], (w' i) as [x'| |]; try contradiction; try reflexivity. cbn [bind]. apply IH. cbn. rewrite E, W. ring. }
    rewrite (F _ n0 n0) by (cbn; ring). destruct (fold_res _ _ _) as [s| |]; [|reflexivity..]. cbn [res_map bind].
    destruct (divide_samples (v_rows v) (threads * 5)); reflexivity. }
  rewrite I. destruct (pointwise_init threads (v_rows v) w y) as [p| |] eqn:Ep; [|reflexivity..]. cbn [res_map bind].
  destruct (init_scores v threads) as [st| |]; [|reflexivity..]. cbn [bind].
  assert (Pw : pw_w p = w /\ pw_y p = y).
  { unfold pointwise_init in Ep. destruct (fold_res _ _ _); [|discriminate Ep..]. cbn [bind] in Ep. destruct (divide_samples _ _); [|discriminate Ep..].
    cbn [bind] in Ep. injection Ep as <-. auto. }
  assert (G : forall bs, (let! (constant, trees, st) := init_with_base v threads (map (tree_times a 1) bs) n0 [] st in
      rounds v threads top draw srt w' features (config_times a mg c) (pointwise_loss threads binary lossf) (Z.to_nat (cf_num_trees c)) 0 constant trees st
        (repeat gzero (v_rows v)) (ptimes_state a w' p) pos) =
    res_map (trained_times a) (let! (constant, trees, st) := init_with_base v threads bs n0 [] st in
      rounds v threads top draw srt w features c (pointwise_loss threads binary lossf) (Z.to_nat (cf_num_trees c)) 0 constant trees st
        (repeat gzero (v_rows v)) p pos)).
  { intros bs. change (@nil (tree Exact)) with (map (tree_times a 1) []) at 1. rewrite (base_times a threads v bs n0 [] st).
    destruct (init_with_base v threads bs n0 [] st) as [[[k trees] st1]| |]; [|reflexivity..]. cbn [res_map bind fst snd].
    apply (rounds_times a w w' c mg srt top draw threads A W Mg Top lossf y); apply Pw. }
  destruct base as [bs|]; [exact (G bs)|exact (G [])].
Qed.

(** ** Shifted targets *)
Lemma mse_round_of (f : list Exact) n (wv yv : nat -> Exact) w y threads p gd : List.length f = n -> 1 <= threads -> row_values w n wv -> row_values y n yv ->
  inited w y threads n p -> rsum n wv <> 0%R ->
  let c := (rsum n (fun i => wv i * (yv i - nth i f 0)) / rsum n wv)%R in
  exists gd', pointwise_round mse p f gd = Ret ((c : Exact), gd') /\ List.length gd' = n /\
    forall i, i < n -> nth_error gd' i = Some (mkG (N := Exact) (yv i - nth i f 0 - (if Rlt_dec (1 / 10000) (Rabs c) then c else 0))%R (1%R : Exact)).
Proof. intros <-. exact (mse_round_real wv yv f w y threads p gd). Qed.
Lemma rsum_ext m (f g : nat -> R) : (forall i, i < m -> f i = g i) -> rsum m f = rsum m g.
Proof. intros H. unfold rsum. f_equal. apply map_ext_in. intros i I. apply in_seq in I. apply H. lia. Qed.
Section Shift.
Variables (v : view) (t : nat) (top : nat -> nat -> list Exact -> nat) (draw : nat -> spec_float) (srt : (nat -> nat -> bool) -> list nat -> list nat)
  (names : list str) (w y y' : float_vector) (wv yv : nat -> Exact) (b : R) (c : config Exact) (features : list column).
Hypotheses (Tr : training v t top srt names w (mse_loss t)) (Lo : load_features (v_get v) (v_order v names) = (SOk, features)).
Notation n := (v_rows v).
Hypotheses (Wv : row_values w n wv) (Yv : row_values y n yv) (Yv' : row_values y' n (fun i => (yv i + b)%R : Exact)) (W : rsum n wv <> 0%R).
Notation plus d := (map (fun x : Exact => (x + d)%R : Exact)).

Lemma add_shift tr x d e st st2 s1 : tree_fits (v_get v) n tr -> state_ok v st -> state_ok v st2 -> snd st2 = plus d (snd st) ->
  add_tree_scores (v_get v) t tr x st = Ret s1 ->
  exists s2, add_tree_scores (v_get v) t tr (x + e)%R st2 = Ret s2 /\ state_ok v s1 /\ state_ok v s2 /\ snd s2 = plus (d + e)%R (snd s1).
Proof using Tr.
  intros F O1 O2 E A. pose proof (ts_threads _ _ _ _ _ _ _ Tr) as Th.
  destruct (one_tree v t tr x st Th F O1) as (s1' & A1 & K1 & H1). rewrite A in A1. injection A1 as <-.
  destruct (one_tree v t tr (x + e)%R st2 Th F O2) as (s2 & A2 & K2 & H2). exists s2. split; [exact A2|]. split; [exact K1|]. split; [exact K2|].
  apply nth_ext with (d := 0%R) (d' := 0%R). 1:{ rewrite map_length. rewrite (proj2 K1), (proj2 K2). reflexivity. }
  intros i Li. rewrite (proj2 K2) in Li. destruct (routes_total _ _ _ _ F Li) as [s R0].
  assert (L1 : i < List.length (snd st)) by (rewrite (proj2 O1); exact Li).
  destruct (nth_error (snd st) i) as [z|] eqn:Z; [|apply nth_error_None in Z; exact (False_ind _ (Nat.lt_irrefl _ (Nat.lt_le_trans _ _ _ L1 Z)))].
  assert (Z2 : nth_error (snd st2) i = Some ((z + d)%R : Exact)) by (rewrite E, nth_error_map, Z; reflexivity).
  pose proof (H1 i z s Z R0) as X1. pose proof (H2 i _ s Z2 R0) as X2.
  assert (X3 : nth_error (plus (d + e)%R (snd s1)) i = Some ((nadd z (nadd s x) + (d + e))%R : Exact)) by (rewrite nth_error_map, X1; reflexivity).
  etransitivity; [exact (nth_error_nth _ _ 0%R X2)|]. symmetry. etransitivity; [exact (nth_error_nth _ _ 0%R X3)|]. cbn. ring.
Qed.

(** The rounds after the first. *)
Lemma rounds_shift todo : forall i k trees st st2 gd gd2 ls ls2 pos r, state_ok v st -> state_ok v st2 -> snd st2 = plus b (snd st) ->
  inited w y t n ls -> inited w y' t n ls2 ->
  rounds v t top draw srt w features c (mse_loss t) todo i k trees st gd ls pos = Ret r ->
  exists r2, rounds v t top draw srt w features c (mse_loss t) todo i (k + b)%R trees st2 gd2 ls2 pos = Ret r2 /\
    tr_status r2 = tr_status r /\ tr_forest r2 = constant_plus b (tr_forest r) /\ tr_f r2 = plus b (tr_f r).
Proof.
  induction todo as [|todo IH]; intros i k trees st st2 gd gd2 ls ls2 pos r O1 O2 E I1 I2 R0; cbn [rounds] in R0 |- *.
  - injection R0 as <-. eexists. split; [reflexivity|]. cbn. auto.
  - change (l_round (mse_loss t) ls pos (snd st) gd) with (let! (x, g) := pointwise_round mse ls (snd st) gd in Ret (x, g, ls, pos)) in R0.
    change (l_round (mse_loss t) ls2 pos (snd st2) gd2) with (let! (x, g) := pointwise_round mse ls2 (snd st2) gd2 in Ret (x, g, ls2, pos)).
    pose proof (ts_threads _ _ _ _ _ _ _ Tr) as Th. destruct O1 as [P1 L1], O2 as [P2 L2].
    pose proof (mse_round_of (snd st) n wv yv w y t ls gd L1 Th Wv Yv I1 W) as F1. cbv zeta in F1. destruct F1 as (g & G & Lg & Hg). rewrite G in R0. cbn [bind] in R0.
    pose proof (mse_round_of (snd st2) n wv (fun i => (yv i + b)%R) w y' t ls2 gd2 L2 Th Wv Yv' I2 W) as F2. cbv zeta in F2. destruct F2 as (g2 & G2 & Lg2 & Hg2).
    assert (N0 : forall j, j < n -> nth j (snd st2) 0%R = (nth j (snd st) 0 + b)%R).
    { intros j Lj. rewrite E. rewrite nth_indep with (d' := (0 + b)%R) by (rewrite map_length, L1; exact Lj).
      exact (map_nth (fun x : R => (x + b)%R) (snd st) 0%R j). }
    assert (C : rsum n (fun j => wv j * (yv j + b - nth j (snd st2) 0))%R = rsum n (fun j => wv j * (yv j - nth j (snd st) 0))%R).
    { apply rsum_ext. intros j Lj. rewrite N0 by exact Lj. change (@nt Exact) with R in *. ring. }
    rewrite C in G2, Hg2. set (m := (rsum n (fun j => wv j * (yv j - nth j (snd st) 0)) / rsum n wv)%R) in *.
    assert (Eg : g2 = g).
    { apply nth_ext with (d := gzero) (d' := gzero); [congruence|]. intros j Lj. rewrite Lg2 in Lj.
      rewrite (nth_error_nth _ _ gzero (Hg j Lj)), (nth_error_nth _ _ gzero (Hg2 j Lj)). f_equal. rewrite N0 by exact Lj. change (@nt Exact) with R in *. ring. }
    subst g2. rewrite G2. cbn [bind]. change (nfinite (m : Exact)) with true in R0. change (nfinite (m : Exact)) with true. cbn iota in R0 |- *.
    destruct (fit_tree (top i) draw t srt w g features c pos) as [[tr p2]| |] eqn:Ft; [|discriminate R0..]. cbn [bind] in R0 |- *.
    assert (Fi : tree_fits (v_get v) n (apply_shrinkage (nfloat (cf_shrinkage c)) tr)).
    { eapply fitted_fits; [exact exact_ordered|exact Tr|exact Lo|]. exists i, g, pos, p2. split; [exact Lg|exact Ft]. }
    destruct (add_tree_scores (v_get v) t (apply_shrinkage (nfloat (cf_shrinkage c)) tr) m st) as [s1| |] eqn:A; [|discriminate R0..]. cbn [bind] in R0.
    destruct (add_shift _ m b 0%R st st2 s1 Fi (conj P1 L1) (conj P2 L2) E A) as (s2 & A2 & K1 & K2 & E2). rewrite Rplus_0_r in A2, E2.
    rewrite A2. cbn [bind].
    destruct (IH (S i) _ _ s1 s2 g g ls ls2 p2 r K1 K2 E2 I1 I2 R0) as (r2 & R2 & S2).
    exists r2. split; [|exact S2]. rewrite <- R2. f_equal. cbn. ring.
Qed.
End Shift.

Theorem train_shift v t top draw pos srt names w y y' (wv yv : nat -> Exact) (b : R) (c : config Exact) r :
  training v t top srt names w (mse_loss t) -> row_values w (v_rows v) wv -> row_values y (v_rows v) yv ->
  row_values y' (v_rows v) (fun i => (yv i + b)%R : Exact) -> rsum (v_rows v) wv <> 0%R ->
  (let m := (rsum (v_rows v) (fun i => wv i * yv i) / rsum (v_rows v) wv)%R in
   (m = 0 \/ 1 / 10000 < Rabs m)%R /\ (m + b = 0 \/ 1 / 10000 < Rabs (m + b))%R) ->
  train v t top draw pos srt names w y (mse_loss t) c None = Ret r ->
  exists r', train v t top draw pos srt names w y' (mse_loss t) c None = Ret r' /\
    tr_status r' = tr_status r /\ tr_forest r' = constant_plus b (tr_forest r) /\ tr_f r' = map (fun x : Exact => (x + b)%R : Exact) (tr_f r).
Proof.
  intros Tr Wv Yv Yv' W M E. unfold train in *. destruct (check_config c) as [|e] eqn:Cc; [|injection E as <-; eexists; split; [reflexivity|]; cbn; auto].
  destruct (load_features (v_get v) (v_order v names)) as [[|e] features] eqn:Lo; [|injection E as <-; eexists; split; [reflexivity|]; cbn; auto].
  destruct (group_column c (v_get v)) as [group| |]; [|discriminate E..]. cbn [bind] in E |- *. pose proof (ts_threads _ _ _ _ _ _ _ Tr) as Th.
  change (l_init (mse_loss t)) with (fun n w y (_ : option strcol) => let! p := pointwise_init (N := Exact) t n w y in @Ret (code + pointwise) (inr p)) in *. cbv beta in *.
  destruct (Loss_proofs.init_ok w y wv t (v_rows v) Th Wv) as (p & Ep & Ip & _).
  destruct (Loss_proofs.init_ok w y' wv t (v_rows v) Th Wv) as (p' & Ep' & Ip' & _).
  rewrite Ep in E. rewrite Ep'. cbn [bind] in E |- *.
  destruct (Eval_proofs.init_ok (N := Exact) v t Th) as (st0 & Es & Ok & Q). rewrite Es in E |- *. cbn [bind init_with_base] in E |- *.
  assert (Hn : exists todo, Z.to_nat (cf_num_trees c) = S todo).
  { unfold check_config in Cc. destruct (Z.leb_spec (cf_num_trees c) 0); [discriminate|]. exists (Z.to_nat (cf_num_trees c) - 1). lia. }
  destruct Hn as [todo Et]. rewrite Et in E |- *. cbn [rounds] in E |- *.
  change (l_round (mse_loss t) p pos (snd st0) (repeat gzero (v_rows v))) with (let! (x, g) := pointwise_round mse p (snd st0) (repeat gzero (v_rows v)) in Ret (x, g, p, pos)) in E.
  change (l_round (mse_loss t) p' pos (snd st0) (repeat gzero (v_rows v))) with (let! (x, g) := pointwise_round mse p' (snd st0) (repeat gzero (v_rows v)) in Ret (x, g, p', pos)).
  destruct Ok as [P1 L1].
  pose proof (mse_round_of (snd st0) (v_rows v) wv yv w y t p (repeat gzero (v_rows v)) L1 Th Wv Yv Ip W) as F1. cbv zeta in F1. destruct F1 as (g & G & Lg & Hg).
  pose proof (mse_round_of (snd st0) (v_rows v) wv (fun i => (yv i + b)%R) w y' t p' (repeat gzero (v_rows v)) L1 Th Wv Yv' Ip' W) as F2. cbv zeta in F2. destruct F2 as (g2 & G2 & Lg2 & Hg2).
  assert (N0 : forall j, nth j (snd st0) 0%R = 0%R) by (intros j; rewrite Q; apply nth_repeat).
  assert (C : rsum (v_rows v) (fun j => wv j * (yv j - nth j (snd st0) 0))%R = rsum (v_rows v) (fun j => wv j * yv j)%R).
  { apply rsum_ext. intros j Lj. rewrite N0. change (@nt Exact) with R in *. ring. }
  assert (C2 : (rsum (v_rows v) (fun j => wv j * (yv j + b - nth j (snd st0) 0)) / rsum (v_rows v) wv)%R =
    (rsum (v_rows v) (fun j => wv j * yv j) / rsum (v_rows v) wv + b)%R).
  { assert (D : rsum (v_rows v) (fun j => wv j * (yv j + b - nth j (snd st0) 0))%R = (rsum (v_rows v) (fun j => wv j * yv j) + b * rsum (v_rows v) wv)%R).
    { transitivity (rsum (v_rows v) (fun j => wv j * yv j + b * wv j)%R); [apply rsum_ext; intros j Lj; rewrite N0; change (@nt Exact) with R in *; ring|].
      unfold rsum. generalize (seq 0 (v_rows v)). intros l. induction l as [|j l IH]; cbn [map fold_right]; [ring|]. rewrite IH. ring. }
    rewrite D. field. exact W. }
  rewrite C in G, Hg. rewrite C2 in G2, Hg2. cbv zeta in M.
  set (m := (rsum (v_rows v) (fun j => wv j * yv j) / rsum (v_rows v) wv)%R) in *. destruct M as [M M2].
  assert (Eg : g2 = g).
  { apply nth_ext with (d := gzero) (d' := gzero); [congruence|]. intros j Lj. rewrite Lg2 in Lj.
    rewrite (nth_error_nth _ _ gzero (Hg j Lj)), (nth_error_nth _ _ gzero (Hg2 j Lj)). f_equal. rewrite N0. change (@nt Exact) with R in *.
    assert (T : forall z : R, (z = 0 \/ 1 / 10000 < Rabs z)%R -> (if Rlt_dec (1 / 10000) (Rabs z) then z else 0%R) = z).
    { intros z H. destruct (Rlt_dec (1 / 10000) (Rabs z)) as [L|L]; [reflexivity|]. destruct H as [->|H]; [reflexivity|]. exfalso. exact (L H). }
    rewrite (T m M), (T (m + b)%R M2). ring. }
  subst g2. rewrite G in E. rewrite G2. cbn [bind] in E |- *. change (nfinite (m : Exact)) with true in E. change (nfinite ((m + b)%R : Exact)) with true. cbn iota in E |- *.
  destruct (fit_tree (top 0) draw t srt w g features c pos) as [[tr p2]| |] eqn:Ft; [|discriminate E..]. cbn [bind] in E |- *.
  assert (Fi : tree_fits (v_get v) (v_rows v) (apply_shrinkage (nfloat (cf_shrinkage c)) tr)).
  { eapply fitted_fits; [exact exact_ordered|exact Tr|exact Lo|]. exists 0, g, pos, p2. split; [exact Lg|exact Ft]. }
  destruct (add_tree_scores (v_get v) t (apply_shrinkage (nfloat (cf_shrinkage c)) tr) m st0) as [s1| |] eqn:A; [|discriminate E..]. cbn [bind] in E.
  destruct (add_shift v t top srt names w Tr _ m 0%R b st0 st0 s1 Fi (conj P1 L1) (conj P1 L1)) as (s2 & A2 & K1 & K2 & E2).
  { rewrite <- (map_id (snd st0)) at 1. apply map_ext. intros z. rewrite Rplus_0_r. reflexivity. }
  { exact A. }
  rewrite Rplus_0_l in E2. rewrite A2. cbn [bind].
  destruct (rounds_shift v t top draw srt names w y y' wv yv b c features Tr Lo Wv Yv Yv' W todo 1 _ _ s1 s2 g g p p' p2 r K1 K2 E2 Ip Ip' E) as (r2 & R2 & S2).
  exists r2. split; [|exact S2]. rewrite <- R2. f_equal. cbn. ring.
Qed.

Lemma first_top_times k step (l : list Exact) : (0 < k)%R -> first_top (N := Exact) step (map (Rmult k) l) = first_top step l.
Proof.
  intros K. destruct l as [|g l]; [reflexivity|]. cbn [first_top map].
  assert (F : forall (l : list Exact) (g : Exact) i j, first_max (N := Exact) (map (Rmult k) l) i j (k * g)%R = first_max l i j g).
  { clear g l. induction l as [|x l IH]; intros g i j; cbn [first_max map]; [reflexivity|]. cbn [nltb Exact]. rewrite (ltb_times k) by exact K. destruct (Rltb g x); apply IH. }
  apply F.
Qed.
