(** Report_proofs.v - progress messages. *)
From Coq Require Import Reals Lra Sorted Permutation SpecFloat.
From Verif Require Import Base F32 Column DataStore Num Forest Config Score ScoreSpec Eval EvalSpec Split SplitSpec Tree TreeSpec Train TrainSpec Par Subsampling Loss LossSpec
  Split_proofs Subsampling_proofs Score_proofs Eval_proofs Hist_proofs Sum_proofs Tree_proofs Train_proofs Loss_proofs Mse_proofs ConstantSpec Constant_proofs StepSpec Step_proofs Report ReportSpec.

(** ** Any numbers *)
Section Any.
Context {N : Num}.
Lemma newton_same lossf (p : @pointwise N) f todo : forall c gd x, newton lossf p f todo c gd = let! (c, gd, _) := newton_loss lossf p f todo c gd x in Ret (c, gd).
Proof.
  induction todo as [|todo IH]; intros c gd x; [reflexivity|]. cbn [newton newton_loss]. destruct (point_pass lossf p f c gd) as [[gd' total]| |]; [|reflexivity..]. cbn [bind].
  destruct (nltb convergence_threshold (nabs (gscore n0 (snd total))) && (0 <? todo)); [apply IH|reflexivity].
Qed.
Lemma report_same lossf (p : @pointwise N) f gd : pointwise_round lossf p f gd = let! (c, gd, _) := pointwise_report lossf p f gd in Ret (c, gd).
Proof.
  unfold pointwise_round, pointwise_report. rewrite (newton_same lossf p f _ _ _ n0). destruct (newton_loss lossf p f max_iterations n0 _ n0) as [[[c g] x]| |]; reflexivity.
Qed.

Section Rounds.
Variables (v : view) (threads : nat) (top : nat -> nat -> list N -> nat) (draw : nat -> spec_float)
  (srt : (nat -> nat -> bool) -> list nat -> list nat) (w : float_vector) (features : list column) (c : config N) (binary : bool) (lossf : N -> N -> point N).

Lemma messages_rounds todo : forall i initial k trees st gd (p : @pointwise N) pos r,
  rounds v threads top draw srt w features c (pointwise_loss threads binary lossf) todo i k trees st gd p pos = Ret r ->
  exists msgs, messages v threads top draw srt w features c lossf todo i initial st gd p pos = Ret msgs /\
    List.length (tr_forest r) = S (List.length trees + List.length msgs) /\ (tr_status r = SOk -> List.length msgs = todo).
Proof.
  induction todo as [|todo IH]; intros i initial k trees st gd p pos r E; cbn [rounds] in E; cbn [messages].
  - injection E as <-. exists []. split; [reflexivity|]. split; [|reflexivity]. cbn. rewrite map_length. lia.
  - change (l_round (pointwise_loss threads binary lossf) p pos (snd st) gd) with (let! (c1, gd1) := pointwise_round lossf p (snd st) gd in Ret (c1, gd1, p, pos)) in E.
    rewrite report_same in E. destruct (pointwise_report lossf p (snd st) gd) as [[[x gd'] loss]| |]; [|discriminate E..]. cbn [bind] in E |- *.
    unfold prepare_progress at 1. destruct (nfinite x).
    + destruct (fit_tree (top i) draw threads srt w gd' features c pos) as [[t pos']| |]; [|discriminate E..]. cbn [bind] in E |- *.
      destruct (add_tree_scores (v_get v) threads _ x st) as [st'| |]; [|discriminate E..]. cbn [bind] in E |- *.
      destruct (IH (S i) (if nltb initial n0 then loss else initial) _ _ _ _ _ _ _ E) as (msgs & Em & Ln & Al). rewrite Em. cbn [bind]. eexists. split; [reflexivity|]. split.
      * rewrite Ln, app_length. cbn. lia.
      * intros S0. cbn. rewrite (Al S0). reflexivity.
    + injection E as <-. exists []. split; [reflexivity|]. split; [cbn; lia|discriminate].
Qed.

(** After the first message *)
Lemma later_percent todo : forall i initial st gd (p : @pointwise N) pos msgs, nltb initial n0 = false ->
  messages v threads top draw srt w features c lossf todo i initial st gd p pos = Ret msgs -> forall x q, In (x, q) msgs -> q = percent_less initial x.
Proof.
  induction todo as [|todo IH]; intros i initial st gd p pos msgs Np E x q I; cbn [messages] in E; [injection E as <-; destruct I|].
  destruct (pointwise_report lossf p (snd st) gd) as [[[x' gd'] loss]| |]; [|discriminate E..]. cbn [bind] in E.
  unfold prepare_progress at 1 in E. rewrite Np in E. destruct (nfinite x'); [|injection E as <-; destruct I].
  destruct (fit_tree (top i) draw threads srt w gd' features c pos) as [[t pos']| |]; [|discriminate E..]. cbn [bind] in E.
  destruct (add_tree_scores (v_get v) threads _ x' st) as [st'| |]; [|discriminate E..]. cbn [bind] in E.
  destruct (messages v threads top draw srt w features c lossf todo (S i) initial st' gd' p pos') as [rest| |] eqn:Em; [|discriminate E..]. cbn [bind] in E. injection E as <-.
  destruct I as [Eq|I].
  - injection Eq as <- <-. reflexivity.
  - exact (IH _ _ _ _ _ _ _ Np Em x q I).
Qed.
Lemma first_percent todo i initial st gd (p : @pointwise N) pos x0 q0 msgs : nltb initial n0 = true -> nltb x0 n0 = false ->
  messages v threads top draw srt w features c lossf todo i initial st gd p pos = Ret ((x0, q0) :: msgs) -> forall x q, In (x, q) ((x0, q0) :: msgs) -> q = percent_less x0 x.
Proof.
  intros Ng Np E x q I. destruct todo as [|todo]; [discriminate E|]. cbn [messages] in E.
  destruct (pointwise_report lossf p (snd st) gd) as [[[x' gd'] loss]| |]; [|discriminate E..]. cbn [bind] in E.
  unfold prepare_progress at 1 in E. rewrite Ng in E. destruct (nfinite x'); [|discriminate E].
  destruct (fit_tree (top i) draw threads srt w gd' features c pos) as [[t pos']| |]; [|discriminate E..]. cbn [bind] in E.
  destruct (add_tree_scores (v_get v) threads _ x' st) as [st'| |]; [|discriminate E..]. cbn [bind] in E.
  destruct (messages v threads top draw srt w features c lossf todo (S i) loss st' gd' p pos') as [rest| |] eqn:Em; [|discriminate E..]. cbn [bind] in E. injection E as <- <- <-.
  destruct I as [Eq|I].
  - injection Eq as <- <-. reflexivity.
  - exact (later_percent _ _ _ _ _ _ _ _ Np Em x q I).
Qed.
End Rounds.

(** From [train] to [rounds] and [messages] *)
Lemma messages_inv v threads top draw pos srt names w y binary (lossf : N -> N -> point N) (c : config N) base r :
  train v threads top draw pos srt names w y (pointwise_loss threads binary lossf) c base = Ret r ->
  (tr_forest r = [] /\ tr_status r <> SOk /\ train_messages v threads top draw pos srt names w y binary lossf c base = Ret []) \/
  exists features group p st0 k trees st, check_config c = SOk /\ load_features (v_get v) (v_order v names) = (SOk, features) /\
    group_column c (v_get v) = Ret group /\ l_init (pointwise_loss threads binary lossf) (v_rows v) w y group = Ret (inr p) /\
    init_scores v threads = Ret st0 /\ init_with_base v threads (base_list base) n0 [] st0 = Ret (k, trees, st) /\
    rounds v threads top draw srt w features c (pointwise_loss threads binary lossf) (Z.to_nat (cf_num_trees c)) 0 k trees st (repeat gzero (v_rows v)) p pos = Ret r /\
    train_messages v threads top draw pos srt names w y binary lossf c base =
      messages v threads top draw srt w features c lossf (Z.to_nat (cf_num_trees c)) 0 no_initial st (repeat gzero (v_rows v)) p pos.
Proof.
  unfold train, train_messages. intros E. destruct (check_config c) eqn:Ck; [|left; injection E as <-; repeat split; discriminate].
  destruct (load_features (v_get v) (v_order v names)) as [[|e] features] eqn:Lo; [|left; injection E as <-; repeat split; discriminate].
  destruct (group_column c (v_get v)) as [group| |] eqn:Gr; [|discriminate..]. cbn [bind] in E |- *.
  destruct (l_init (pointwise_loss threads binary lossf) (v_rows v) w y group) as [[e|p]| |] eqn:In0; cbn [bind] in E |- *; [left; injection E as <-; repeat split; discriminate| |discriminate..].
  right. destruct (init_scores v threads) as [st0| |] eqn:I0; [|discriminate..]. cbn [bind] in E |- *.
  fold (base_list base) in E |- *. destruct (init_with_base v threads (base_list base) n0 [] st0) as [[[k trees] st]| |] eqn:B; [|discriminate..]. cbn [bind] in E |- *.
  exists features, group, p, st0, k, trees, st. auto 10.
Qed.
Lemma train_counts v threads top draw pos srt names w y binary (lossf : N -> N -> point N) (c : config N) base r :
  train v threads top draw pos srt names w y (pointwise_loss threads binary lossf) c base = Ret r ->
  exists msgs, train_messages v threads top draw pos srt names w y binary lossf c base = Ret msgs /\
    (tr_status r = SOk -> Z.of_nat (List.length msgs) = cf_num_trees c) /\
    ((tr_forest r = [] /\ msgs = []) \/ List.length (tr_forest r) = S (List.length (filter has_left (base_list base)) + List.length msgs)).
Proof.
  intros E. destruct (messages_inv _ _ _ _ _ _ _ _ _ _ _ _ _ _ E) as [(F & S0 & Em)|(features & group & p & st0 & k & trees & st & Ck & _ & _ & _ & _ & B & R0 & Em)].
  - exists []. split; [exact Em|]. split; [contradiction|]. left. auto.
  - rewrite Em. destruct (messages_rounds v threads top draw srt w features c binary lossf _ _ no_initial _ _ _ _ _ _ _ R0) as (msgs & -> & Ln & Al).
    exists msgs. split; [reflexivity|]. rewrite (base_trees v threads (base_list base) _ _ _ _ _ _ B) in Ln. split; [|right; exact Ln].
    intros S0. rewrite (Al S0), Z2Nat.id; [reflexivity|]. unfold check_config in Ck. destruct (Z.leb_spec (cf_num_trees c) 0); [discriminate|lia].
Qed.
Lemma train_percent v threads top draw pos srt names w y binary (lossf : N -> N -> point N) (c : config N) base x0 q0 msgs :
  nltb (@nZ N (-1)) n0 = true -> nltb x0 n0 = false -> train_messages v threads top draw pos srt names w y binary lossf c base = Ret ((x0, q0) :: msgs) ->
  forall x q, In (x, q) ((x0, q0) :: msgs) -> q = percent_less x0 x.
Proof.
  unfold train_messages. intros Ng Np E. destruct (check_config c); [|discriminate].
  destruct (load_features (v_get v) (v_order v names)) as [[|e] features]; [|discriminate].
  destruct (group_column c (v_get v)) as [group| |]; [|discriminate..]. cbn [bind] in E.
  destruct (l_init (pointwise_loss threads binary lossf) (v_rows v) w y group) as [[e|p]| |]; cbn [bind] in E; [discriminate| |discriminate..].
  destruct (init_scores v threads) as [st0| |]; [|discriminate..]. cbn [bind] in E.
  destruct (init_with_base v threads _ n0 [] st0) as [[[k trees] st]| |]; [|discriminate..]. cbn [bind] in E.
  exact (first_percent _ _ _ _ _ _ _ _ _ _ _ _ _ _ _ _ _ _ _ Ng Np E).
Qed.
End Any.

(** ** The loss of the last pass *)
Section Pass.
Context {N : Num}.
Variables (lossf : N -> N -> point N) (w y : float_vector) (wv yv : nat -> N).
Definition pass_loss (f : list N) (slices : list (nat * nat)) (c : N) : N := fst (sum_totals (map (fun r => slice_total lossf wv yv f c (range r)) slices)).
Lemma newton_loss_ok (p : @pointwise N) groups (f : list N) : row_values w (List.length f) wv -> row_values y (List.length f) yv ->
  0 < groups -> divide_samples (List.length f) groups = Ret (pw_slices p) -> pw_w p = w -> pw_y p = y ->
  forall todo c gd last, List.length gd = List.length f ->
  exists ds, steps lossf wv yv f (all_slices p) (S todo) c ds /\
    newton_loss lossf p f (S todo) c gd last = Ret (fold_left nadd ds c, row_gradients lossf yv f (fold_left nadd (removelast ds) c), pass_loss f (pw_slices p) (fold_left nadd (removelast ds) c)).
Proof.
  intros Wv Yv G Hd Ew Ey. induction todo as [|todo IH]; intros c gd z Lg.
  - destruct (pass_ok lossf w y wv yv f c Wv Yv p groups gd G Hd Ew Ey Lg) as [_ E]. cbn [newton_loss]. rewrite E. cbn [bind].
    rewrite andb_false_r. fold (pass_loss f (pw_slices p) c). rewrite sum_totals_snd, map_map. cbn [slice_total snd].
    set (d := gscore n0 _). exists [d]. split; [|reflexivity]. split; [cbn; lia|]. split; [|cbn; lia].
    intros [|[|k]] d0 E0; try discriminate. cbn in E0. injection E0 as <-. split; [|cbn; lia].
    unfold d, grad_total, all_slices. cbn [firstn fold_left]. rewrite map_map. reflexivity.
  - destruct (pass_ok lossf w y wv yv f c Wv Yv p groups gd G Hd Ew Ey Lg) as [_ E]. remember (S todo) as todo' eqn:Et. cbn [newton_loss]. rewrite E. cbn [bind].
    fold (pass_loss f (pw_slices p) c). rewrite sum_totals_snd, map_map. cbn [slice_total snd].
    assert ((0 <? todo')%nat = true) as -> by (subst; reflexivity). rewrite andb_true_r.
    set (d := gscore n0 _). destruct (nltb convergence_threshold (nabs d)) eqn:Big.
    + destruct (IH (nadd c d) (row_gradients lossf yv f c) (pass_loss f (pw_slices p) c)) as (ds & (L & St & En) & En').
      { unfold row_gradients. rewrite map_length, seq_length. reflexivity. }
      exists (d :: ds). split; [|]. 2:{ rewrite En'. cbn [fold_left]. assert (removelast (d :: ds) = d :: removelast ds) as -> by (destruct ds; [cbn in L; lia|reflexivity]). reflexivity. }
      split; [cbn; lia|]. split.
      * intros [|k] d0 E0; cbn in E0.
        -- injection E0 as <-. split; [|intros _; exact Big]. unfold d, grad_total, all_slices. cbn [firstn fold_left]. rewrite map_map. reflexivity.
        -- destruct (St k d0 E0) as [A B]. split; [cbn [firstn fold_left]; exact A|]. cbn. intros H. apply B. lia.
      * cbn [List.length]. intros H. replace (last (d :: ds) n0) with (last ds n0) by (destruct ds; [cbn in L; lia|reflexivity]). apply En. lia.
    + exists [d]. split; [|reflexivity]. split; [cbn; lia|]. split; [|intros _; exact Big].
      intros [|[|k]] d0 E0; try discriminate. cbn in E0. injection E0 as <-. split; [|cbn; lia].
      unfold d, grad_total, all_slices. cbn [firstn fold_left]. rewrite map_map. reflexivity.
Qed.
End Pass.

(** ** Exact arithmetic *)
Local Open Scope R_scope.
Lemma sum_loss_lsum l wv yv (f : list R) c rows : sum_loss (N := Exact) l wv yv f c rows = lsum rows (fun i => wv i * loss_of l (yv i) (nth i f 0 + c)).
Proof.
  unfold sum_loss, lsum. assert (forall x, fold_left (fun a i => @nadd Exact a (@nmul Exact (wv i) (p_loss (row_point (N := Exact) l yv f c i)))) rows x = x + fold_right Rplus 0 (map (fun i => wv i * loss_of l (yv i) (nth i f 0 + c)) rows)) as H.
  { induction rows as [|i rows IH]; intros x; cbn [fold_left map fold_right]; [lra|]. rewrite IH. change (x + wv i * loss_of l (yv i) (nth i f 0 + c) + fold_right Rplus 0 (map (fun i => wv i * loss_of l (yv i) (nth i f 0 + c)) rows) = x + (wv i * loss_of l (yv i) (nth i f 0 + c) + fold_right Rplus 0 (map (fun i => wv i * loss_of l (yv i) (nth i f 0 + c)) rows))). ring. }
  rewrite H. unfold n0. cbn. apply Rplus_0_l.
Qed.
Lemma lsum_app a b g : lsum (a ++ b) g = lsum a g + lsum b g.
Proof. unfold lsum. rewrite map_app, fold_right_app. induction a as [|x a IH]; cbn; [lra|]. rewrite IH. lra. Qed.
Lemma pass_loss_all l wv yv (f : list R) slices c : concat (map range slices) = seq 0 (List.length f) -> pass_loss (N := Exact) l wv yv f slices c = constant_loss l wv yv f c.
Proof.
  intros Cc. unfold constant_loss. rewrite rsum_lsum, <- Cc. clear Cc. unfold pass_loss, sum_totals.
  assert (forall x, fst (fold_left (fun a b => (@nadd Exact (fst a) (fst b), gadd (N := Exact) (snd a) (snd b))) (map (fun r => slice_total (N := Exact) l wv yv f c (range r)) slices) x) =
    fst x + lsum (concat (map range slices)) (fun i => wv i * loss_of l (yv i) (nth i f 0 + c))) as H.
  { induction slices as [|r slices IH]; intros x; cbn [map concat fold_left]; [unfold lsum; cbn; lra|]. rewrite IH, lsum_app. cbn [fst slice_total]. rewrite sum_loss_lsum. cbn. ring. }
  rewrite H. unfold n0. cbn. apply Rplus_0_l.
Qed.
Lemma weight_total w y wv threads n p : row_values (N := Exact) w n wv -> pointwise_init (N := Exact) threads n w y = Ret p -> pw_weight_sum p = rsum n wv.
Proof.
  intros Wv E. unfold pointwise_init in E.
  assert (forall rows x, (forall i, In i rows -> (i < n)%nat) -> fold_res (fun s i => let! x := w i in Ret (@nadd Exact s (nfloat x))) rows x = Ret (x + lsum rows wv)) as H.
  { induction rows as [|i rows IH]; intros x I; cbn [fold_res]; [unfold lsum; cbn; rewrite Rplus_0_r; reflexivity|].
    destruct (Wv i (I i (or_introl eq_refl))) as (a & -> & Ea). cbn [bind]. rewrite IH by (intros k K; apply I; right; exact K). rewrite Ea. f_equal. unfold lsum. cbn. ring. }
  rewrite H in E by (intros i I; apply in_seq in I; lia). cbn [bind] in E. destruct (divide_samples n (threads * 5)); [|discriminate..]. cbn [bind] in E. injection E as <-.
  cbn. unfold n0. cbn. rewrite rsum_lsum. apply Rplus_0_l.
Qed.
Lemma report_walk l wv yv (f : list R) w y threads p gd : (1 <= threads)%nat -> row_values (N := Exact) w (List.length f) wv -> row_values (N := Exact) y (List.length f) yv -> inited (N := Exact) w y threads (List.length f) p ->
  exists cs a b, visited l wv yv f cs /\ ends cs a b /\ pointwise_report (N := Exact) l p f gd = Ret (b, row_gradients (N := Exact) l yv f a, constant_loss l wv yv f a / pw_weight_sum p).
Proof.
  intros T Wv Yv In0. pose proof (slices_all wv f w y threads p T Wv In0) as Cc.
  destruct In0 as (Hd & Ew & Ey). unfold pointwise_report, max_iterations.
  destruct (newton_loss_ok (N := Exact) l w y wv yv p (threads * 5) f Wv Yv ltac:(lia) Hd Ew Ey 9 (@n0 Exact) (resize gd (@List.length (nt Exact) f)) (@n0 Exact)) as (ds & St & ->); [apply resize_length|].
  destruct (walk_steps l wv yv f _ ds Cc St) as (cs & V & En). exists cs, (fold_left (@nadd Exact) (removelast ds) (@n0 Exact)), (fold_left (@nadd Exact) ds (@n0 Exact)). split; [exact V|]. split; [exact En|].
  cbn [bind]. pose proof (pass_loss_all l wv yv f (pw_slices p) (fold_left (@nadd Exact) (removelast ds) (@n0 Exact)) Cc) as Pl. do 2 f_equal. rewrite <- Pl. reflexivity.
Qed.

(** ** All rounds *)
Section Rounds.
Variables (l : Exact -> Exact -> point Exact) (binary : bool) (v : view) (threads : nat) (top : nat -> nat -> list Exact -> nat) (draw : nat -> spec_float)
  (srt : (nat -> nat -> bool) -> list nat -> list nat) (w y : float_vector) (wv yv : nat -> R) (features : list column) (c : config Exact).
Hypothesis Th : (1 <= threads)%nat.
Hypothesis Top : forall i, tops (top i).
Hypothesis Srt : sorts srt.
Hypothesis Cols : forall col, In col features -> v_get v (c_name col) = Some col /\ has_rows col (v_rows v).
Hypothesis Wv : row_values (N := Exact) w (v_rows v) wv.
Hypothesis Yv : row_values (N := Exact) y (v_rows v) yv.
Hypothesis All : forall i, fltb (draw i) (to_f64 (cf_example_rate c)) = true.
Let lf := pointwise_loss (N := Exact) threads binary l.

Lemma reported_rounds todo : forall i k trees st gd p pos r initial msgs, state_ok (N := Exact) v st -> inited (N := Exact) w y threads (v_rows v) p -> pw_weight_sum p = rsum (v_rows v) wv ->
  rounds (N := Exact) v threads top draw srt w features c lf todo i k trees st gd p pos = Ret r -> tr_status r = SOk ->
  messages (N := Exact) v threads top draw srt w features c l todo i initial st gd p pos = Ret msgs ->
  exists fs, values (N := Exact) v threads top draw srt w features c lf todo i st gd p pos fs /\
    nth_error fs 0 = Some (snd st) /\ nth_error fs todo = Some (tr_f r) /\
    forall j f f' x q, nth_error fs j = Some f -> nth_error fs (S j) = Some f' -> nth_error msgs j = Some (x, q) ->
      List.length f = v_rows v /\ reported_round l wv yv (real_of (cf_shrinkage c)) (cf_l2_lambda c) f f' x.
Proof.
  induction todo as [|todo IH]; intros i k trees st gd p pos r initial msgs Ok In0 Ws E S0 Em; cbn [rounds] in E; cbn [messages] in Em.
  - injection E as <-. exists [snd st]. split; [constructor|]. split; [reflexivity|]. split; [reflexivity|]. intros [|j]; discriminate.
  - destruct (l_round lf p pos (snd st) gd) as [[[[x gd'] ls'] pos']| |] eqn:Rd; [|discriminate..]. cbn [bind] in E.
    destruct (nfinite x) eqn:Fx; [|injection E as <-; discriminate].
    destruct (fit_tree (top i) draw threads srt w gd' features c pos') as [[t pos2]| |] eqn:Ft; [|discriminate..]. cbn [bind] in E.
    destruct (add_tree_scores (v_get v) threads _ x st) as [st'| |] eqn:Ad; [|discriminate..]. cbn [bind] in E.
    pose proof Rd as Rd0.
    change ((let! (c1, gd1) := pointwise_round (N := Exact) l p (snd st) gd in Ret (c1, gd1, p, pos)) = Ret (x, gd', ls', pos')) in Rd. rewrite report_same in Rd.
    destruct Ok as [Pm L]. change (@List.length R (snd st) = v_rows v) in L. pose (f := (snd st : list R)).
    destruct (report_walk l wv yv f w y threads p gd Th) as (cs & a & b & V & En & Eq); [unfold f; rewrite L; assumption..|].
    change (pointwise_report l p (snd st) gd) with (pointwise_report (N := Exact) l p f gd) in Rd, Em. rewrite Eq in Rd, Em. cbn [bind] in Rd, Em.
    assert (b = x /\ row_gradients (N := Exact) l yv f a = gd' /\ p = ls' /\ pos = pos') as (-> & Eg & <- & <-) by (repeat split; congruence). clear Rd Eq.
    rewrite Fx, Eg in Em. destruct (prepare_progress initial (constant_loss l wv yv f a / pw_weight_sum p)) as [initial' message] eqn:Pp.
    rewrite Ft in Em. cbn [bind] in Em. rewrite Ad in Em. cbn [bind] in Em.
    destruct (messages v threads top draw srt w features c l todo (S i) initial' st' gd' p pos2) as [rest| |] eqn:Er; [|discriminate Em..]. cbn [bind] in Em. injection Em as <-.
    rewrite <- Eg in Ft. destruct (tree_leaves l v threads (top i) draw srt w wv yv features c Th (Top i) Srt Cols Wv All f a pos t pos2 L Ft) as (Fits & label & s & Rt & Nt).
    destruct (one_tree (N := Exact) v threads (apply_shrinkage (@nfloat Exact (cf_shrinkage c)) t) x st Th (shrink_fits _ _ _ _ Fits) (conj Pm L)) as (st1 & E1 & Ok1 & H1).
    pose proof (eq_trans (eq_sym E1) Ad) as Eq. injection Eq as <-.
    destruct (IH _ _ _ _ _ _ _ _ _ _ Ok1 In0 Ws E S0 Er) as (fs & Vs & H0 & Hl & Hr).
    exists (snd st :: fs). split; [rewrite Eg in Ft; econstructor; eassumption|]. split; [reflexivity|]. split; [exact Hl|].
    intros [|j] f1 f2 x1 q1 Ha Hb Hm.
    + pose proof (eq_trans (eq_sym H0) Hb) as Eb. injection Eb as <-. injection Ha as <-. injection Hm as ->. split; [exact L|]. destruct Ok1 as [_ L']. change (@List.length R (snd st1) = v_rows v) in L'.
      split; [exact (eq_trans L' (eq_sym L))|]. exists cs, a, x, label, s. split; [exact V|]. split; [exact En|]. split; [exact Nt|]. split.
      * intros k0 Li. assert (X : nth_error f k0 = Some (nth k0 f 0)) by (apply (@nth_error_nth' R); exact Li). assert (k0 < v_rows v)%nat as Li1 by (rewrite <- L; exact Li). clear Li. rename Li1 into Li.
        specialize (H1 k0 _ _ X (exact_shrink_routes _ (real_of (cf_shrinkage c)) _ _ _ (Rt k0 Li))). apply nth_error_nth with (d := 0) in H1. eapply eq_trans; [exact H1|]. unfold f. cbn. ring.
      * unfold prepare_progress in Pp. assert (x1 = constant_loss l wv yv f a / pw_weight_sum p) as -> by congruence. rewrite Ws, <- L. reflexivity.
    + exact (Hr j f1 f2 x1 q1 Ha Hb Hm).
Qed.
End Rounds.

Lemma train_reported l binary v threads top draw pos srt names w y wv yv (c : config Exact) base r :
  training v threads top srt names w (pointwise_loss (N := Exact) threads binary l) -> (forall b, base = Some b -> forest_fits v b) ->
  row_values (N := Exact) w (v_rows v) wv -> row_values (N := Exact) y (v_rows v) yv ->
  (forall i, fltb (draw i) (to_f64 (cf_example_rate c)) = true) ->
  train v threads top draw pos srt names w y (pointwise_loss threads binary l) c base = Ret r -> tr_status r = SOk ->
  exists msgs features ls st0 k trees st fs, train_messages v threads top draw pos srt names w y binary l c base = Ret msgs /\
    load_features (v_get v) (v_order v names) = (SOk, features) /\
    init_scores v threads = Ret st0 /\ init_with_base v threads (match base with Some b => b | None => [] end) n0 [] st0 = Ret (k, trees, st) /\
    values (N := Exact) v threads top draw srt w features c (pointwise_loss threads binary l) (Z.to_nat (cf_num_trees c)) 0 st (repeat gzero (v_rows v)) ls pos fs /\
    nth_error fs 0 = Some (snd st) /\ nth_error fs (Z.to_nat (cf_num_trees c)) = Some (tr_f r) /\ List.length msgs = Z.to_nat (cf_num_trees c) /\
    forall i f f' x q, nth_error fs i = Some f -> nth_error fs (S i) = Some f' -> nth_error msgs i = Some (x, q) ->
      List.length f = v_rows v /\ reported_round l wv yv (real_of (cf_shrinkage c)) (cf_l2_lambda c) f f' x.
Proof.
  intros Tr Bs Wv Yv All E S0.
  destruct (messages_inv _ _ _ _ _ _ _ _ _ _ _ _ _ _ E) as [(F & S1 & Em)|(features & group & ls & st0 & k & trees & st & Ck & Lo & Gr & In0 & I0 & B & R0 & Em)]; [contradiction|].
  pose proof (ts_threads _ _ _ _ _ _ _ Tr) as Th.
  assert (Ok : state_ok (N := Exact) v st).
  { destruct (@Eval_proofs.init_ok Exact v threads Th) as (st1 & E1 & Ok1 & St1). rewrite I0 in E1. injection E1 as <-.
    assert (Fb : forest_fits (N := Exact) v (base_list base)) by (destruct base as [b|]; [apply Bs; reflexivity|constructor]).
    destruct (base_holds v threads (base_list base) Th Fb (@n0 Exact) [] st0 (Forall_nil _) Ok1) as (k' & trees' & st' & E' & _ & Ok' & _).
    { rewrite St1. apply start_holds. }
    rewrite B in E'. injection E' as <- <- <-. exact Ok'. }
  assert (In1 : inited (N := Exact) w y threads (v_rows v) ls /\ pw_weight_sum ls = rsum (v_rows v) wv).
  { destruct (init_ok (N := Exact) w y wv threads (v_rows v) Th Wv) as (p & E1 & I1 & _).
    change ((let! ok := (if binary then binary_targets (N := Exact) y (seq 0 (v_rows v)) else Ret true) in
       if ok then let! p := pointwise_init threads (v_rows v) w y in Ret (inr p) else Ret (inl INVALID_ARGUMENT)) = Ret (@inr code (@pointwise Exact) ls)) in In0.
    destruct (if binary then binary_targets (N := Exact) y (seq 0 (v_rows v)) else Ret true) as [[|]| |]; [|discriminate In0..]. cbn [bind] in In0.
    rewrite E1 in In0. cbn [bind] in In0. assert (p = ls) as <- by congruence. split; [exact I1|]. exact (weight_total w y wv threads _ p Wv E1). }
  destruct In1 as [In1 Ws]. destruct (messages_rounds v threads top draw srt w features c binary l _ _ no_initial _ _ _ _ _ _ _ R0) as (msgs & Em' & _ & Ln).
  destruct (reported_rounds l binary v threads top draw srt w y wv yv features c Th (ts_tops _ _ _ _ _ _ _ Tr) (ts_sort _ _ _ _ _ _ _ Tr)) with (todo := Z.to_nat (cf_num_trees c)) (i := 0%nat) (k := k) (trees := trees) (st := st) (gd := repeat (@gzero Exact) (v_rows v)) (p := ls) (pos := pos) (r := r) (initial := @no_initial Exact) (msgs := msgs) as (fs & V & H0 & Hl & Er); try assumption.
  { intros col I. destruct (loaded_cols v threads top srt names w _ features Tr Lo col I) as (_ & G & _ & Hr). auto. }
  exists msgs, features, ls, st0, k, trees, st, fs. split; [rewrite Em; exact Em'|]. auto 10.
Qed.

(** ** Squared error *)
Section Squares.
Variables (wv yv : nat -> R) (f : list R).
Let n := List.length f.
Let u := resid yv f.
Let W := rsum n wv.
Let U := rsum n (fun i => wv i * u i).
Hypothesis Wp : forall i, (i < n)%nat -> 0 <= wv i.

Lemma mse_pull a : pull mse wv yv f a = U - a * W.
Proof.
  unfold pull, U, W. fold n. rewrite (rsum_ext n _ (fun i => 1 * (wv i * u i) + - a * wv i)); [rewrite rsum_lin; ring|].
  intros i _. unfold g_of, mse, p_grad, u, resid. cbn. ring.
Qed.
Lemma mse_bend a : bend mse wv yv f a = W.
Proof. unfold bend, W. fold n. apply rsum_ext. intros i _. unfold h_of, mse, p_grad, n1. cbn. ring. Qed.
Lemma mse_constant a : constant_loss mse wv yv f a = rsum n (fun i => wv i * ((u i - a) * (u i - a))).
Proof. unfold constant_loss. fold n. apply rsum_ext. intros i _. unfold loss_of, mse, p_loss, u, resid. cbn. ring. Qed.
Lemma mse_parabola a : constant_loss mse wv yv f a = constant_loss mse wv yv f 0 - 2 * a * U + a * a * W.
Proof.
  rewrite !mse_constant. unfold U, W. rewrite (rsum_ext n _ (fun i => 1 * (wv i * ((u i - 0) * (u i - 0))) + 1 * (- (2 * a) * (wv i * u i) + (a * a) * wv i))) by (intros i _; ring).
  rewrite !rsum_lin. ring.
Qed.
Lemma mse_constant_pos a : 0 <= constant_loss mse wv yv f a.
Proof. rewrite mse_constant. apply rsum_nonneg. intros i I. apply Rmult_le_pos; [apply Wp; exact I|apply Rle_0_sqr]. Qed.

(** The way of Newton's method *)
Lemma mse_way cs a b : visited mse wv yv f cs -> ends cs a b -> (b * W = U \/ b = 0) /\ (a = 0 \/ a = b).
Proof.
  intros (Ln & F0 & St) [cs' E].
  destruct (Req_dec W 0) as [Z|Z].
  - (* no weight: all constants are 0 *)
    assert (forall k x, nth_error cs k = Some x -> x = 0) as All0.
    { induction k as [|k IH]; intros x X; [congruence|]. destruct (nth_error cs k) as [c|] eqn:C.
      - destruct (St k c x C X) as (_ & B0 & _). rewrite (B0 (eq_trans (mse_bend c) Z)). apply IH. reflexivity.
      - apply nth_error_None in C. assert (nth_error cs (S k) <> None) as Y by congruence. apply nth_error_Some in Y. lia. }
    assert (a = 0 /\ b = 0) as [-> ->]; [|auto]. split.
    + apply (All0 (List.length cs')). rewrite E, nth_error_app2, Nat.sub_diag by lia. reflexivity.
    + apply (All0 (S (List.length cs'))). rewrite E, nth_error_app2 by lia. replace (S (List.length cs') - List.length cs')%nat with 1%nat by lia. reflexivity.
  - assert (forall k c x, nth_error cs k = Some c -> nth_error cs (S k) = Some x -> x = U / W) as Next.
    { intros k c x C X. destruct (St k c x C X) as (B0 & _). rewrite (B0 ltac:(rewrite mse_bend; exact Z)), mse_pull, mse_bend. field. exact Z. }
    assert (A : nth_error cs (List.length cs') = Some a) by (rewrite E, nth_error_app2, Nat.sub_diag by lia; reflexivity).
    assert (B : nth_error cs (S (List.length cs')) = Some b).
    { rewrite E, nth_error_app2 by lia. replace (S (List.length cs') - List.length cs')%nat with 1%nat by lia. reflexivity. }
    pose proof (Next _ _ _ A B) as Eb. split; [left; rewrite Eb; field; exact Z|].
    destruct (List.length cs') as [|m] eqn:Lc; [left; congruence|right].
    destruct (nth_error cs m) as [c|] eqn:C; [rewrite Eb; exact (Next _ _ _ C A)|]. apply nth_error_None in C. assert (nth_error cs (S m) <> None) as Y by congruence. apply nth_error_Some in Y. lia.
Qed.

Lemma mse_less cs a b : visited mse wv yv f cs -> ends cs a b -> constant_loss mse wv yv f a <= constant_loss mse wv yv f 0.
Proof.
  intros V En. destruct (mse_way cs a b V En) as [Hb [-> | ->]]; [lra|]. rewrite (mse_parabola b).
  assert (0 <= b * b * W) by (apply Rmult_le_pos; [apply Rle_0_sqr|apply rsum_nonneg, Wp]). destruct Hb as [<- | ->]; lra.
Qed.

Variables (f' : list R) (k lambda : R).
Hypothesis K : 0 <= k <= 1.
Hypothesis Lam : 0 <= lambda.
Lemma mse_tree cs a b label s : visited mse wv yv f cs -> ends cs a b -> newton_tree mse wv yv f a lambda label s ->
  rsum n (fun i => wv i * ((u i - b - k * s i) * (u i - b - k * s i))) <= constant_loss mse wv yv f a.
Proof.
  intros V En Nt. destruct (mse_way cs a b V En) as [Hb Ha].
  assert (Sc : forall i, (i < n)%nat -> let rows := filter (fun j => if path_dec (label j) (label i) then true else false) (seq 0 n) in
      s i = newton_score (lsum rows (fun j => wv j * (u j - a))) (lsum rows wv) lambda).
  { intros i Li rows. destruct (Nt i Li) as [A B]. unfold newton_score.
    assert (leaf_h mse wv yv f a label i = lsum rows wv) as Eh by (apply lsum_ext; intros j _; unfold h_of, mse, p_grad, n1; cbn; ring).
    assert (leaf_g mse wv yv f a label i = lsum rows (fun j => wv j * (u j - a))) as Eg by (apply lsum_ext; intros j _; unfold g_of, mse, p_grad, u, resid; cbn; ring).
    rewrite Eh, Eg in *. destruct (Req_EM_T (lsum rows wv + lambda) 0) as [Z|Z]; [exact (B Z)|exact (A Z)]. }
  assert (Pos : forall i j, In j (filter (fun j => if path_dec (label j) (label i) then true else false) (seq 0 n)) -> 0 <= wv j).
  { intros i j J. apply filter_In in J. destruct J as [J _]. apply in_seq in J. apply Wp. fold n. lia. }
  assert (Same : forall i j, In j (filter (fun j => if path_dec (label j) (label i) then true else false) (seq 0 n)) -> (i < n)%nat -> s j = s i).
  { intros i j J Li. apply filter_In in J. destruct J as [J Lj]. apply in_seq in J. destruct (path_dec (label j) (label i)) as [Ej|]; [|discriminate]. rewrite (Sc j), (Sc i), Ej by lia. reflexivity. }
  rewrite mse_constant, !rsum_lsum. destruct Ha as [-> | ->].
  - assert (Q : lsum (seq 0 n) (fun i => wv i * ((u i - b - k * s i) * (u i - b - k * s i) - u i * u i + 2 * b * u i - 2 * b * b)) <= 0).
    { apply (groups_le path_dec label _ n); [rewrite seq_length; lia|]. intros i I. pose proof (Pos i) as Pi. apply in_seq in I.
      pose proof (Sc i ltac:(lia)) as Si. pose proof (fun j J => Same i j J ltac:(lia)) as Sm. cbv zeta in Si.
      set (rows := filter (fun j => if path_dec (label j) (label i) then true else false) (seq 0 n)) in *.
      pose proof (leaf_stale rows wv u k lambda Pi K Lam b) as Lf. cbv zeta in Lf.
      rewrite (lsum_ext rows (fun j => wv j * (u j - 0)) (fun j => wv j * u j)) in Si by (intros; ring). rewrite <- Si in Lf.
      eapply Rle_trans; [|exact Lf]. right. apply lsum_ext. intros j J. rewrite (Sm j J). reflexivity. }
    rewrite lsum_ext with (g' := fun i => wv i * ((u i - b - k * s i) * (u i - b - k * s i)) + ((-1) * (wv i * (u i * u i)) + (2 * b * (wv i * u i) + (- (2 * b * b)) * wv i))) in Q by (intros i _; ring).
    rewrite !lsum_plus, !lsum_mult, <- !rsum_lsum in Q. fold W U in Q. rewrite <- !rsum_lsum.
    rewrite (rsum_ext n (fun i => wv i * ((u i - 0) * (u i - 0))) (fun i => wv i * (u i * u i))) by (intros i _; ring).
    destruct Hb as [Hb|Hb].
    + rewrite <- Hb in Q. lra.
    + rewrite Hb in Q |- *. lra.
  - assert (Q : lsum (seq 0 n) (fun i => wv i * ((u i - b - k * s i) * (u i - b - k * s i) - (u i - b) * (u i - b))) <= 0).
    { apply (groups_le path_dec label _ n); [rewrite seq_length; lia|]. intros i I. pose proof (Pos i) as Pi. apply in_seq in I.
      pose proof (Sc i ltac:(lia)) as Si. pose proof (fun j J => Same i j J ltac:(lia)) as Sm. cbv zeta in Si.
      set (rows := filter (fun j => if path_dec (label j) (label i) then true else false) (seq 0 n)) in *.
      pose proof (leaf_fresh rows wv (fun j => u j - b) k lambda Pi K Lam) as Lf. cbv beta zeta in Lf. rewrite <- Si in Lf.
      eapply Rle_trans; [|exact Lf]. right. apply lsum_ext. intros j J. rewrite (Sm j J). reflexivity. }
    rewrite lsum_ext with (g' := fun i => wv i * ((u i - b - k * s i) * (u i - b - k * s i)) + (-1) * (wv i * ((u i - b) * (u i - b)))) in Q by (intros i _; ring).
    rewrite lsum_plus, lsum_mult in Q. lra.
Qed.
Lemma mse_reported x : reported_round mse wv yv k lambda f f' x -> 0 < W -> squared_error wv yv f' <= x * W /\ 0 <= x /\ x * W <= squared_error wv yv f.
Proof.
  intros (L & cs & a & b & label & s & V & En & Nt & Nx & Ex) Pw. fold n W in Ex, L.
  assert (x * W = constant_loss mse wv yv f a) as Xw by (rewrite Ex; field; lra). rewrite Xw. split; [|split].
  - eapply Rle_trans; [|exact (mse_tree cs a b label s V En Nt)]. right. unfold squared_error. rewrite L. apply rsum_ext. intros i Li. rewrite (Nx i Li). unfold u, resid. ring.
  - rewrite Ex. apply Rmult_le_pos; [apply mse_constant_pos|left; apply Rinv_0_lt_compat; exact Pw].
  - eapply Rle_trans; [exact (mse_less cs a b V En)|]. right. rewrite mse_constant. unfold squared_error. fold n. apply rsum_ext. intros i _. unfold u, resid. ring.
Qed.
End Squares.

Lemma percent_real (first x : R) : percent_less (N := Exact) first x = if Req_EM_T first 0 then 0 else 100 * ((first - x) / first).
Proof. unfold percent_less, n0. cbn. unfold Reqb. destruct (Req_EM_T first 0); ring. Qed.

Lemma train_mse_reported v threads top draw pos srt names w y wv yv (c : config Exact) base r :
  training v threads top srt names w (mse_loss (N := Exact) threads) -> (forall b, base = Some b -> forest_fits v b) ->
  row_values (N := Exact) w (v_rows v) wv -> row_values (N := Exact) y (v_rows v) yv ->
  (forall i, (i < v_rows v)%nat -> 0 <= wv i) -> 0 < rsum (v_rows v) wv -> (forall i, fltb (draw i) (to_f64 (cf_example_rate c)) = true) ->
  0 <= real_of (cf_shrinkage c) <= 1 -> 0 <= cf_l2_lambda c ->
  train v threads top draw pos srt names w y (mse_loss threads) c base = Ret r -> tr_status r = SOk ->
  exists msgs, train_messages v threads top draw pos srt names w y false mse c base = Ret msgs /\
    (forall i x q, nth_error msgs i = Some (x, q) -> 0 <= squared_error wv yv (tr_f r) / rsum (v_rows v) wv <= x /\ 0 <= q <= 100) /\
    (forall i x q x' q', nth_error msgs i = Some (x, q) -> nth_error msgs (S i) = Some (x', q') -> x' <= x /\ q <= q').
Proof.
  intros Tr Bs Wv Yv Wp Ws All Sh Lam E S0.
  destruct (train_reported mse false v threads top draw pos srt names w y wv yv c base r Tr Bs Wv Yv All E S0) as (msgs & features & ls & st0 & k & trees & st & fs & Em & _ & _ & _ & Vs & F0 & Fl & Ln & Rr).
  exists msgs. split; [exact Em|]. set (m := Z.to_nat (cf_num_trees c)) in *. set (W := rsum (v_rows v) wv) in *.
  assert (Lf : List.length fs = S m).
  { clear - Vs. change (@List.length (list R) fs = S m). induction Vs as [|? ? ? ? ? ? ? ? ? ? ? ? ? ? ? ? ? ? ? IHV]; [reflexivity|]. cbn. rewrite IHV. reflexivity. }
  assert (Step : forall i x q, nth_error msgs i = Some (x, q) -> exists f f', nth_error fs i = Some f /\ nth_error fs (S i) = Some f' /\ squared_error wv yv f' <= x * W /\ 0 <= x /\ x * W <= squared_error wv yv f).
  { intros i x q X. assert (i < m)%nat as Li by (rewrite <- Ln; apply nth_error_Some; congruence).
    destruct (nth_error fs i) as [f|] eqn:F; [|apply nth_error_None in F; lia]. destruct (nth_error fs (S i)) as [f'|] eqn:F'; [|apply nth_error_None in F'; lia].
    exists f, f'. split; [reflexivity|]. split; [reflexivity|]. destruct (Rr i f f' x q F F' X) as [L Rd]. change (@List.length R f = v_rows v) in L.
    pose proof (mse_reported wv yv f ltac:(rewrite L; exact Wp) f' _ _ Sh Lam x Rd) as H. rewrite L in H. exact (H Ws). }
  assert (Down : forall i x q x' q', nth_error msgs i = Some (x, q) -> nth_error msgs (S i) = Some (x', q') -> x' <= x).
  { intros i x q x' q' A B. destruct (Step i x q A) as (f & f' & _ & F' & H1 & _). destruct (Step (S i) x' q' B) as (g & g' & G & _ & _ & _ & H2).
    assert (g = f') as -> by congruence. apply (Rmult_le_reg_r W); [exact Ws|lra]. }
  assert (Least : forall j i x q, (i + S j = m)%nat -> nth_error msgs i = Some (x, q) -> squared_error wv yv (tr_f r) <= x * W).
  { induction j as [|j IH]; intros i x q Ei X.
    - destruct (Step i x q X) as (f & f' & _ & F' & H1 & _). replace (S i) with m in F' by lia. assert (f' = tr_f r) as <- by congruence. exact H1.
    - destruct (nth_error msgs (S i)) as [[x' q']|] eqn:X'; [|apply nth_error_None in X'; lia]. pose proof (Down i x q x' q' X X'). pose proof (IH (S i) x' q' ltac:(lia) X').
      assert (x' * W <= x * W) by (apply Rmult_le_compat_r; lra). lra. }
  assert (Sq : 0 <= squared_error wv yv (tr_f r)).
  { assert (List.length (tr_f r) = v_rows v) as L.
    { pose proof Ln as Lm. assert (msgs <> [] \/ msgs = []) as [Ne|Ne] by (destruct msgs; [right; reflexivity|left; discriminate]).
      - destruct m as [|m']; [destruct msgs; [contradiction|discriminate Lm]|]. destruct (nth_error msgs m') as [[x q]|] eqn:X; [|apply nth_error_None in X; lia].
        destruct (Step m' x q X) as (f & f' & F & F' & _). destruct (Rr m' f f' x q F F' X) as [L [L' _]]. assert (f' = tr_f r) as <- by congruence. exact (eq_trans L' L).
      - exfalso. rewrite Ne in Lm. unfold mse_loss in E. destruct (messages_inv _ _ _ _ _ _ _ _ _ _ _ _ _ _ E) as [(_ & S1 & _)|(? & ? & ? & ? & ? & ? & ? & Ck & _)]; [contradiction|].
        unfold check_config in Ck. unfold m in Lm. cbn in Lm. destruct (Z.leb_spec (cf_num_trees c) 0); [discriminate|lia]. }
    unfold squared_error. change (@List.length (nt Exact) (tr_f r) = v_rows v) in L. change (@List.length R (tr_f r)) with (@List.length (nt Exact) (tr_f r)). rewrite L. apply rsum_nonneg. intros i I. rewrite Rmult_assoc. apply Rmult_le_pos; [apply Wp; exact I|apply Rle_0_sqr]. }
  assert (First : forall x0 q0, nth_error msgs 0 = Some (x0, q0) -> forall i x q, nth_error msgs i = Some (x, q) -> 0 <= x <= x0 /\ q = if Req_EM_T x0 0 then 0 else 100 * ((x0 - x) / x0)).
  { intros x0 q0 X0 i x q X. destruct msgs as [|[x1 q1] msgs]; [discriminate X0|]. injection X0 as -> ->.
    destruct (Step 0%nat x0 q0 eq_refl) as (_ & _ & _ & _ & _ & P0 & _). split; [split|].
    - destruct (Step i x q X) as (_ & _ & _ & _ & _ & P & _). exact P.
    - revert x q X. induction i as [|i IH]; intros x q X; [injection X as <- <-; lra|].
      destruct (nth_error ((x0, q0) :: msgs) i) as [[x1 q1]|] eqn:X1; [|apply nth_error_None in X1; assert (nth_error ((x0, q0) :: msgs) (S i) <> None) as Y by congruence; apply nth_error_Some in Y; lia].
      pose proof (IH _ _ eq_refl). pose proof (Down _ _ _ _ _ X1 X). lra.
    - rewrite <- percent_real. refine (train_percent (N := Exact) v threads top draw pos srt names w y false mse c base x0 q0 msgs _ _ Em x q (nth_error_In _ _ X)).
      + unfold n0. cbn. unfold Rltb. destruct (Rlt_dec (-1) 0); [reflexivity|lra].
      + unfold n0. cbn. unfold Rltb. destruct (Rlt_dec x0 0); [lra|reflexivity]. }
  assert (Some0 : forall i x q, nth_error msgs i = Some (x, q) -> exists x0 q0, nth_error msgs 0 = Some (x0, q0)) by (intros i x q X; destruct msgs as [|[x0 q0] msgs]; [destruct i; discriminate X|exists x0, q0; reflexivity]).
  split.
  - intros i x q X. assert (i < m)%nat as Li by (rewrite <- Ln; apply nth_error_Some; congruence). split; [split|].
    + apply Rmult_le_pos; [exact Sq|left; apply Rinv_0_lt_compat; exact Ws].
    + apply (Rmult_le_reg_r W); [exact Ws|]. unfold Rdiv. rewrite Rmult_assoc, Rinv_l, Rmult_1_r by lra. apply (Least (m - S i)%nat i x q); [lia|exact X].
    + destruct (Some0 i x q X) as (x0 & q0 & X0). destruct (First x0 q0 X0 i x q X) as [B ->]. destruct (Req_EM_T x0 0) as [Z|Z]; [lra|].
      assert (0 < x0) by lra. assert ((x0 - x) / x0 = 1 - x / x0) as -> by (field; lra). assert (0 <= x / x0) by (apply Rmult_le_pos; [lra|left; apply Rinv_0_lt_compat; lra]).
      assert (x / x0 <= 1) by (apply (Rmult_le_reg_r x0); [lra|]; unfold Rdiv; rewrite Rmult_assoc, Rinv_l by lra; lra). lra.
  - intros i x q x' q' X X'. pose proof (Down i x q x' q' X X') as D. split; [exact D|]. destruct (Some0 i x q X) as (x0 & q0 & X0).
    destruct (First x0 q0 X0 i x q X) as [B ->]. destruct (First x0 q0 X0 (S i) x' q' X') as [B' ->]. destruct (Req_EM_T x0 0) as [Z|Z]; [lra|].
    apply Rmult_le_compat_l; [lra|]. apply Rmult_le_compat_r; [left; apply Rinv_0_lt_compat; lra|lra].
Qed.
