(** PairReport_proofs.v - progress messages of pairwise losses. *)
From Coq Require Import Reals Lra Sorted Permutation SpecFloat.
From Verif Require Import Base F32 Column ColumnSpec DataStore Num Forest Config Score ScoreSpec Eval EvalSpec Split SplitSpec Tree TreeSpec Train TrainSpec Par Subsampling Loss LossSpec
  Split_proofs Subsampling_proofs Score_proofs Eval_proofs Hist_proofs Sum_proofs Tree_proofs Train_proofs Loss_proofs Mse_proofs Base_proofs GroupCol_proofs Group_proofs Range_proofs Calculus_proofs FloatReal_proofs ConstantSpec Constant_proofs
  StepSpec Step_proofs Pairwise PairSpec Pairwise_proofs PairExact_proofs PairFinal_proofs PairStepSpec PairStep_proofs Report ReportSpec Report_proofs PairReport PairReportSpec.

(** ** Any numbers *)
Section Any.
Context {N : Num}.
Variables (threads : nat) (srt : (nat -> nat -> bool) -> list nat -> list nat) (to_uint : N -> res nat) (pick : nat -> nat -> nat * nat)
  (c : config N) (wr : bool) (weight : float_vector -> group -> nat * nat -> res N) (lossf : N -> N -> point N).
Notation report := (pair_report srt to_uint pick c wr weight lossf).
Notation round := (pair_round srt to_uint pick c wr weight lossf).
Lemma pair_report_same p pos f gd : round p pos f gd = let! (x, gd, p, pos, _) := report p pos f gd in Ret (x, gd, p, pos).
Proof.
  unfold pair_round, pair_report. destruct (run_tasks wloc_dec _ _) as [m| |]; [|reflexivity..]. cbn [bind].
  destruct (read_all _ _) as [gs| |]; [|reflexivity..]. cbn [bind]. destruct (m WGen) as [[]|]; reflexivity.
Qed.

Section Rounds.
Variables (v : view) (top : nat -> nat -> list N -> nat) (draw : nat -> spec_float) (w : float_vector) (features : list column).
Notation lf := (pairwise_loss srt threads to_uint pick c wr weight lossf).
Notation msgs_of := (pair_messages v threads top draw srt to_uint pick w features c wr weight lossf).

Lemma pair_messages_rounds todo : forall i initial k trees st gd (p : @pairwise N) pos r,
  rounds v threads top draw srt w features c lf todo i k trees st gd p pos = Ret r ->
  exists msgs, msgs_of todo i initial st gd p pos = Ret msgs /\
    List.length (tr_forest r) = S (List.length trees + List.length msgs) /\ (tr_status r = SOk -> List.length msgs = todo).
Proof.
  induction todo as [|todo IH]; intros i initial k trees st gd p pos r E; cbn [rounds] in E; cbn [pair_messages].
  - injection E as <-. exists []. split; [reflexivity|]. split; [|reflexivity]. cbn. rewrite map_length. lia.
  - change (l_round lf p pos (snd st) gd) with (round p pos (snd st) gd) in E.
    rewrite pair_report_same in E. destruct (report p pos (snd st) gd) as [[[[[x gd'] p'] pos1] loss]| |]; [|discriminate E..]. cbn [bind] in E |- *.
    unfold prepare_progress at 1. destruct (nfinite x).
    + destruct (fit_tree (top i) draw threads srt w gd' features c pos1) as [[t pos']| |]; [|discriminate E..]. cbn [bind] in E |- *.
      destruct (add_tree_scores (v_get v) threads _ x st) as [st'| |]; [|discriminate E..]. cbn [bind] in E |- *.
      destruct (IH (S i) (if nltb initial n0 then loss else initial) _ _ _ _ _ _ _ E) as (msgs & Em & Ln & Al). rewrite Em. cbn [bind]. eexists. split; [reflexivity|]. split.
      * rewrite Ln, app_length. cbn. lia.
      * intros S0. cbn. rewrite (Al S0). reflexivity.
    + injection E as <-. exists []. split; [reflexivity|]. split; [cbn; lia|discriminate].
Qed.

Lemma pair_later_percent todo : forall i initial st gd (p : @pairwise N) pos msgs, nltb initial n0 = false ->
  msgs_of todo i initial st gd p pos = Ret msgs -> forall x q, In (x, q) msgs -> q = percent_less initial x.
Proof.
  induction todo as [|todo IH]; intros i initial st gd p pos msgs Np E x q I; cbn [pair_messages] in E; [injection E as <-; destruct I|].
  destruct (report p pos (snd st) gd) as [[[[[x' gd'] p'] pos1] loss]| |]; [|discriminate E..]. cbn [bind] in E.
  unfold prepare_progress at 1 in E. rewrite Np in E. destruct (nfinite x'); [|injection E as <-; destruct I].
  destruct (fit_tree (top i) draw threads srt w gd' features c pos1) as [[t pos']| |]; [|discriminate E..]. cbn [bind] in E.
  destruct (add_tree_scores (v_get v) threads _ x' st) as [st'| |]; [|discriminate E..]. cbn [bind] in E.
  destruct (msgs_of todo (S i) initial st' gd' p' pos') as [rest| |] eqn:Em; [|discriminate E..]. cbn [bind] in E. injection E as <-.
  destruct I as [Eq|I].
  - injection Eq as <- <-. reflexivity.
  - exact (IH _ _ _ _ _ _ _ Np Em x q I).
Qed.
Lemma pair_first_percent todo i initial st gd (p : @pairwise N) pos x0 q0 msgs : nltb initial n0 = true -> nltb x0 n0 = false ->
  msgs_of todo i initial st gd p pos = Ret ((x0, q0) :: msgs) -> forall x q, In (x, q) ((x0, q0) :: msgs) -> q = percent_less x0 x.
Proof.
  intros Ng Np E x q I. destruct todo as [|todo]; [discriminate E|]. cbn [pair_messages] in E.
  destruct (report p pos (snd st) gd) as [[[[[x' gd'] p'] pos1] loss]| |]; [|discriminate E..]. cbn [bind] in E.
  unfold prepare_progress at 1 in E. rewrite Ng in E. destruct (nfinite x'); [|discriminate E].
  destruct (fit_tree (top i) draw threads srt w gd' features c pos1) as [[t pos']| |]; [|discriminate E..]. cbn [bind] in E.
  destruct (add_tree_scores (v_get v) threads _ x' st) as [st'| |]; [|discriminate E..]. cbn [bind] in E.
  destruct (msgs_of todo (S i) loss st' gd' p' pos') as [rest| |] eqn:Em; [|discriminate E..]. cbn [bind] in E. injection E as <- <- <-.
  destruct I as [Eq|I].
  - injection Eq as <- <-. reflexivity.
  - exact (pair_later_percent _ _ _ _ _ _ _ _ Np Em x q I).
Qed.
End Rounds.

Lemma pair_messages_inv v top draw pos names w y base r :
  train v threads top draw pos srt names w y (pairwise_loss srt threads to_uint pick c wr weight lossf) c base = Ret r ->
  (tr_forest r = [] /\ tr_status r <> SOk /\ train_pair_messages v threads top draw pos srt names to_uint pick w y wr weight lossf c base = Ret []) \/
  exists features group p st0 k trees st, check_config c = SOk /\ load_features (v_get v) (v_order v names) = (SOk, features) /\
    group_column c (v_get v) = Ret group /\ pair_init srt threads c (v_rows v) w y group = Ret (inr p) /\
    init_scores v threads = Ret st0 /\ init_with_base v threads (base_list base) n0 [] st0 = Ret (k, trees, st) /\
    rounds v threads top draw srt w features c (pairwise_loss srt threads to_uint pick c wr weight lossf) (Z.to_nat (cf_num_trees c)) 0 k trees st (repeat gzero (v_rows v)) p pos = Ret r /\
    train_pair_messages v threads top draw pos srt names to_uint pick w y wr weight lossf c base =
      pair_messages v threads top draw srt to_uint pick w features c wr weight lossf (Z.to_nat (cf_num_trees c)) 0 no_initial st (repeat gzero (v_rows v)) p pos.
Proof.
  unfold train, train_pair_messages. intros E. destruct (check_config c) eqn:Ck; [|left; injection E as <-; repeat split; discriminate].
  destruct (load_features (v_get v) (v_order v names)) as [[|e] features] eqn:Lo; [|left; injection E as <-; repeat split; discriminate].
  destruct (group_column c (v_get v)) as [group| |] eqn:Gr; [|discriminate..]. cbn [bind l_init pairwise_loss] in E |- *.
  destruct (pair_init srt threads c (v_rows v) w y group) as [[e|p]| |] eqn:In0; cbn [bind] in E |- *; [left; injection E as <-; repeat split; discriminate| |discriminate..].
  right. destruct (init_scores v threads) as [st0| |] eqn:I0; [|discriminate..]. cbn [bind] in E |- *.
  fold (base_list base) in E |- *. destruct (init_with_base v threads (base_list base) n0 [] st0) as [[[k trees] st]| |] eqn:B; [|discriminate..]. cbn [bind] in E |- *.
  exists features, group, p, st0, k, trees, st. auto 10.
Qed.
Lemma pair_train_counts v top draw pos names w y base r :
  train v threads top draw pos srt names w y (pairwise_loss srt threads to_uint pick c wr weight lossf) c base = Ret r ->
  exists msgs, train_pair_messages v threads top draw pos srt names to_uint pick w y wr weight lossf c base = Ret msgs /\
    (tr_status r = SOk -> Z.of_nat (List.length msgs) = cf_num_trees c) /\
    ((tr_forest r = [] /\ msgs = []) \/ List.length (tr_forest r) = S (List.length (filter has_left (base_list base)) + List.length msgs)).
Proof.
  intros E. destruct (pair_messages_inv _ _ _ _ _ _ _ _ _ E) as [(F & S0 & Em)|(features & group & p & st0 & k & trees & st & Ck & _ & _ & _ & _ & B & R0 & Em)].
  - exists []. split; [exact Em|]. split; [contradiction|]. left. auto.
  - rewrite Em. destruct (pair_messages_rounds v top draw w features _ _ no_initial _ _ _ _ _ _ _ R0) as (msgs & -> & Ln & Al).
    exists msgs. split; [reflexivity|]. rewrite (base_trees v threads (base_list base) _ _ _ _ _ _ B) in Ln. split; [|right; exact Ln].
    intros S0. rewrite (Al S0), Z2Nat.id; [reflexivity|]. unfold check_config in Ck. destruct (Z.leb_spec (cf_num_trees c) 0); [discriminate|lia].
Qed.
Lemma pair_train_percent v top draw pos names w y base x0 q0 msgs :
  nltb (@nZ N (-1)) n0 = true -> nltb x0 n0 = false -> train_pair_messages v threads top draw pos srt names to_uint pick w y wr weight lossf c base = Ret ((x0, q0) :: msgs) ->
  forall x q, In (x, q) ((x0, q0) :: msgs) -> q = percent_less x0 x.
Proof.
  unfold train_pair_messages. intros Ng Np E. destruct (check_config c); [|discriminate].
  destruct (load_features (v_get v) (v_order v names)) as [[|e] features]; [|discriminate].
  destruct (group_column c (v_get v)) as [group| |]; [|discriminate..]. cbn [bind] in E.
  destruct (pair_init srt threads c (v_rows v) w y group) as [[e|p]| |]; cbn [bind] in E; [discriminate| |discriminate..].
  destruct (init_scores v threads) as [st0| |]; [|discriminate..]. cbn [bind] in E.
  destruct (init_with_base v threads _ n0 [] st0) as [[[k trees] st]| |]; [|discriminate..]. cbn [bind] in E.
  exact (pair_first_percent _ _ _ _ _ _ _ _ _ _ _ _ _ _ _ Ng Np E).
Qed.

(** The sums of the slices *)
Lemma totals_read (m : mem wloc (@wval N)) (F : nat * nat -> N * N) slices : forall j,
  (forall i sl, nth_error slices i = Some sl -> total_cell m (j + i) = Some (F sl)) -> pair_totals m j (List.length slices) = map F slices.
Proof.
  induction slices as [|sl slices IH]; intros j H; [reflexivity|]. cbn [List.length pair_totals map].
  pose proof (H 0 sl eq_refl) as H0. rewrite Nat.add_0_r in H0. unfold total_cell in H0. destruct (m (WTotal j)) as [[]|]; try discriminate. injection H0 as <-. f_equal.
  apply IH. intros i s E. specialize (H (S i) s E). rewrite Nat.add_succ_r in H. exact H.
Qed.
End Any.

(** ** Exact sums *)
Local Open Scope R_scope.
Definition pair_cost (u : push Exact) : R := exact_weight u * p_loss (N := Exact) (pu_point u).
Lemma over_app us vs q : over (us ++ vs) q = over us q + over vs q.
Proof. induction us as [|u us IH]; [unfold over; cbn; lra|]. cbn [app]. rewrite !over_cons, IH. lra. Qed.
Lemma total_over us : forall x : Exact * Exact, fold_left (push_total (N := Exact)) us x = (fst x + over us pair_cost, snd x + over us exact_weight).
Proof.
  induction us as [|u us IH]; intros [a b]; [unfold over; cbn; f_equal; lra|]. cbn [fold_left]. eapply eq_trans; [apply IH|].
  rewrite !over_cons. unfold push_total, pair_cost, exact_weight. cbn. f_equal; lra.
Qed.
Lemma sum_over (q : push Exact -> R) (S : nat * nat -> list (push Exact)) (slices : list (nat * nat)) : forall a : R,
  fold_left (@nadd Exact) (map (fun sl => 0 + over (S sl) q) slices) a = a + over (flat_map S slices) q.
Proof.
  induction slices as [|sl slices IH]; intros a; [unfold over; cbn; lra|]. cbn [map fold_left flat_map]. eapply eq_trans; [apply IH|]. rewrite over_app. cbn. lra.
Qed.
Lemma flat_seq {A} (l : list (list A)) : forall pre, flat_map (fun k => nth k (pre ++ l) []) (seq (List.length pre) (List.length l)) = concat l.
Proof.
  induction l as [|x l IH]; intros pre; [reflexivity|]. cbn [List.length seq flat_map concat]. rewrite app_nth2, Nat.sub_diag by (apply le_n). cbn [nth]. f_equal.
  specialize (IH (pre ++ [x])). rewrite app_length in IH. cbn [List.length] in IH. rewrite Nat.add_1_r, <- app_assoc in IH. exact IH.
Qed.
Lemma flat_flat {A B C} (g : B -> list C) (h : A -> list B) l : flat_map (fun a => flat_map g (h a)) l = flat_map g (concat (map h l)).
Proof. induction l as [|a l IH]; [reflexivity|]. cbn. rewrite IH, flat_map_app. reflexivity. Qed.
Lemma counted_mean slices pieces m : concat (map (fun r => seq (fst r) (snd r - fst r)) slices) = seq 0 (List.length pieces) ->
  counted (N := Exact) slices pieces (total_cell m) ->
  mean_loss (N := Exact) (pair_totals m 0 (List.length slices)) = over (concat pieces) pair_cost / pairs_weight (concat pieces).
Proof.
  intros Cv Ct. set (S := fun sl : nat * nat => flat_map (fun k => nth k pieces []) (seq (fst sl) (snd sl - fst sl))).
  rewrite (totals_read m (fun sl => fold_left (push_total (N := Exact)) (S sl) (n0, n0)) slices 0%nat) by exact Ct.
  assert (Fl : flat_map S slices = concat pieces) by (unfold S; rewrite flat_flat, Cv; exact (flat_seq pieces [])).
  unfold mean_loss. rewrite !map_map.
  rewrite (map_ext (fun x => fst (fold_left (push_total (N := Exact)) (S x) (n0, n0))) (fun sl => 0 + over (S sl) pair_cost)) by (intros sl; rewrite total_over; reflexivity).
  rewrite (map_ext (fun x => snd (fold_left (push_total (N := Exact)) (S x) (n0, n0))) (fun sl => 0 + over (S sl) exact_weight)) by (intros sl; rewrite total_over; reflexivity).
  rewrite !sum_over, Fl. cbn. unfold pairs_weight. rewrite !Rplus_0_l. reflexivity.
Qed.

Section Usable.
Variables (srt : (nat -> nat -> bool) -> list nat -> list nat) (threads : nat) (to_uint : Exact -> res nat) (pick : nat -> nat -> nat * nat) (c : config Exact) (wr : bool)
  (weight : float_vector -> group -> nat * nat -> res Exact) (lossf : Exact -> Exact -> point Exact) (n : nat) (w y : float_vector) (col : option strcol) (wv : nat -> R) (t : nat -> f32).

Lemma drawn_sampled rows p (f : list R) pieces : drawn (N := Exact) srt to_uint c wr weight lossf n y rows wv t p f pieces ->
  sampled srt to_uint c wr weight lossf n y rows wv t p f (concat pieces) /\ over (concat pieces) pair_cost = pairs_loss lossf t (concat pieces) f.
Proof.
  intros D. split; [exists pieces; split; [reflexivity|exact D]|]. apply over_ext. intros u I. apply in_concat in I. destruct I as (piece & Ip & Iu).
  apply In_nth_error in Ip. destruct Ip as [k Ek]. destruct (Forall2_nth_error _ _ _ D _ _ Ek) as (rk & _ & g0 & g & _ & _ & _ & _ & Fp).
  rewrite Forall_forall in Fp. destruct (Fp u Iu) as (a & b & pw & _ & _ & _ & _ & _ & Ep). unfold pair_cost. rewrite Ep. reflexivity.
Qed.
Lemma brought_rows rows p (f : list R) pieces at_ : grouping n col rows -> drawn (N := Exact) srt to_uint c wr weight lossf n y rows wv t p f pieces -> brought rows pieces at_ ->
  forall r, (r < n)%nat -> at_ r = Some (pushed (concat pieces) r).
Proof.
  intros G D B r L. destruct (grouping_rows n col rows G) as [ND Lr]. apply (pieces_pushed at_ rows pieces); [|exact ND|apply Lr, L].
  assert (In2 : Forall2 (fun rk piece => Forall (inside rk) piece) rows pieces).
  { eapply both_imply; [|exact D]. intros a b (g0 & g & _ & _ & P & _ & Fp). rewrite Forall_forall in *. intros u I. eapply is_push_inside; [exact P|apply Fp, I]. }
  clear - In2 B. unfold brought in B. induction In2 as [|rk piece rows pieces H In2 IH]; [constructor|]. inversion B; subst. constructor; [split; assumption|auto].
Qed.

Lemma usable_report p pos (f : list R) : sorts srt -> (1 <= threads)%nat -> nleb (nfloat (cf_pair_rate c)) (@n0 Exact) = false -> proper_groups n col ->
  row_values (N := Exact) w n wv -> comparable y (seq 0 n) t -> picks pick -> pair_kind c wr weight lossf ->
  in_use (N := Exact) srt threads to_uint pick c wr weight lossf n w y col p -> List.length f = n ->
  (forall rows, grouping n col rows -> forall rk, In rk rows -> exists count, samples_of to_uint c n rows t rk = Ret count /\ (num_pairs t rk = 0%nat -> count = 0%nat)) ->
  exists rows, grouping n col rows /\
   (forall s, ireach wloc_dec (pair_tasks srt to_uint pick c wr weight lossf p f, pair_mem n (List.length (pr_slices p)) pos) s ->
      (forall q, In q (fst s) -> ~ pfail q (snd s)) /\ (all_done (fst s) \/ exists s', istep wloc_dec s s') /\
      (all_done (fst s) -> exists us, sampled srt to_uint c wr weight lossf n y rows wv t p f us /\
         (forall r, (r < n)%nat -> grad_cell (snd s) r = Some (pushed us r)) /\
         mean_loss (pair_totals (snd s) 0 (List.length (pr_slices p))) = mean_pairs_loss lossf t us f)) /\
   exists us, sampled srt to_uint c wr weight lossf n y rows wv t p f us /\
     forall gd, exists grads p' pos', pair_report (N := Exact) srt to_uint pick c wr weight lossf p pos f gd = Ret (n0, grads, p', pos', mean_pairs_loss lossf t us f) /\
       List.length grads = n /\ forall r, (r < n)%nat -> nth_error grads r = Some (pushed us r).
Proof.
  intros Srt Th Rate Pg Wv Cy Pk K U Lf Counts. destruct (grouping_ok n col Pg) as (rows & G & Rw). destruct (grouping_rows n col rows G) as [ND Lr].
  exists rows. split; [exact G|].
  assert (Rd : ready threads c n w y rows t p) by (eapply in_use_ready; eassumption).
  assert (Rr : wr = true -> ordered Exact /\ forall x, In x (f : list Exact) -> neqb x x = true).
  { intros _. split; [exact exact_ordered|]. intros z _. cbn. unfold Reqb. destruct (Req_EM_T z z); congruence. }
  destruct (pair_round_all (N := Exact) srt threads to_uint pick c wr weight lossf n w y rows wv t Srt Th Rate ND Lr Wv Cy p pos f Rd Lf Pk (kind_defined _ _ _ _ _ _ K) Rr (Counts rows G))
    as (Sch & m' & pieces & Er & Dr & Ct & Rnd).
  assert (Mean : forall ps m, drawn (N := Exact) srt to_uint c wr weight lossf n y rows wv t p f ps -> counted (N := Exact) (pr_slices p) ps (total_cell m) ->
    mean_loss (pair_totals m 0 (List.length (pr_slices p))) = mean_pairs_loss lossf t (concat ps) f).
  { intros ps m D C. destruct Rd as (_ & _ & Ds & _ & _ & F). destruct (divide_spec (List.length (pr_groups p)) (threads * 5)) as (sl & Es & _ & _ & Cv & _); [lia|].
    assert (sl = pr_slices p) as -> by congruence. rewrite <- (Forall2_len _ _ _ F), (Forall2_len _ _ _ D) in Cv.
    rewrite (counted_mean _ _ _ Cv C), (proj2 (drawn_sampled rows p f ps D)). reflexivity. }
  split.
  - intros s R. destruct (Sch s R) as (D1 & D2 & D3). split; [exact D1|]. split; [exact D2|]. intros A. destruct (D3 A) as (ps & X1 & X2 & X3).
    exists (concat ps). split; [apply drawn_sampled, X1|]. split; [exact (brought_rows rows p f ps _ G X1 X2)|]. exact (Mean ps _ X1 X3).
  - exists (concat pieces). split; [apply drawn_sampled, Dr|]. intros gd. destruct (Rnd gd) as (grads & p' & pos' & E & L & B). exists grads, p', pos'.
    split; [|split; [exact L|exact (brought_rows rows p f pieces _ G Dr B)]].
    pose proof (Lf : @List.length (nt Exact) f = n) as Lf'. unfold pair_round in E. unfold pair_report. rewrite Lf', Er in E |- *. cbn [bind] in E |- *.
    destruct (read_all _ _) as [gs| |]; [|discriminate E..]. cbn [bind] in E |- *. destruct (m' WGen) as [[]|]; try discriminate E.
    rewrite (Mean pieces m' Dr Ct). injection E as <- <- <-. reflexivity.
Qed.
End Usable.

(** ** All rounds *)
Section Rounds.
Variables (v : view) (threads : nat) (top : nat -> nat -> list Exact -> nat) (draw : nat -> spec_float) (srt : (nat -> nat -> bool) -> list nat -> list nat)
  (to_uint : Exact -> res nat) (pick : nat -> nat -> nat * nat) (wr : bool) (weight : float_vector -> group -> nat * nat -> res Exact) (lossf : Exact -> Exact -> point Exact)
  (w y : float_vector) (wv : nat -> R) (t : nat -> f32) (col : option strcol) (features : list column) (c : config Exact).
Let n := v_rows v.
Hypothesis Th : (1 <= threads)%nat.
Hypothesis Top : forall i, tops (top i).
Hypothesis Srt : sorts srt.
Hypothesis Cols : forall col, In col features -> v_get v (c_name col) = Some col /\ has_rows col n.
Hypothesis Wv : row_values (N := Exact) w n wv.
Hypothesis Cy : comparable y (seq 0 n) t.
Hypothesis Pk : picks pick.
Hypothesis K : pair_kind c wr weight lossf.
Hypothesis Rate : nleb (nfloat (cf_pair_rate c)) (@n0 Exact) = false.
Hypothesis Pg : proper_groups n col.
Hypothesis Counts : forall rows, grouping n col rows -> forall rk, In rk rows -> exists count, samples_of to_uint c n rows t rk = Ret count /\ (num_pairs t rk = 0%nat -> count = 0%nat).
Hypothesis All : forall i, fltb (draw i) (to_f64 (cf_example_rate c)) = true.
Let lf := pairwise_loss (N := Exact) srt threads to_uint pick c wr weight lossf.

Lemma pair_reported todo : forall i initial k trees st gd p pos r, state_ok (N := Exact) v st -> in_use (N := Exact) srt threads to_uint pick c wr weight lossf n w y col p ->
  rounds (N := Exact) v threads top draw srt w features c lf todo i k trees st gd p pos = Ret r -> tr_status r = SOk ->
  exists msgs fs, pair_messages (N := Exact) v threads top draw srt to_uint pick w features c wr weight lossf todo i initial st gd p pos = Ret msgs /\
    values (N := Exact) v threads top draw srt w features c lf todo i st gd p pos fs /\
    nth_error fs 0 = Some (snd st) /\ List.length fs = S todo /\ nth_error fs todo = Some (tr_f r) /\ List.length msgs = todo /\
    forall i f f' x q, nth_error fs i = Some f -> nth_error fs (S i) = Some f' -> nth_error msgs i = Some (x, q) -> List.length f = n /\
      exists rows p us, grouping n col rows /\ in_use (N := Exact) srt threads to_uint pick c wr weight lossf n w y col p /\
        sampled srt to_uint c wr weight lossf n y rows wv t p f us /\ pair_step wv us (real_of (cf_shrinkage c)) (cf_l2_lambda c) f f' /\ x = mean_pairs_loss lossf t us f.
Proof.
  induction todo as [|todo IH]; intros i initial k trees st gd p pos r Ok In0 E S0; cbn [rounds] in E; cbn [pair_messages].
  - injection E as <-. exists [], [snd st]. split; [reflexivity|]. split; [constructor|]. repeat split; try reflexivity; destruct i0; discriminate.
  - destruct (l_round lf p pos (snd st) gd) as [[[[x gd'] ls'] pos']| |] eqn:Rd; [|discriminate..]. cbn [bind] in E.
    destruct (nfinite x) eqn:Fx; [|injection E as <-; discriminate].
    destruct (fit_tree (top i) draw threads srt w gd' features c pos') as [[tr pos2]| |] eqn:Ft; [|discriminate..]. cbn [bind] in E.
    destruct (add_tree_scores (v_get v) threads _ x st) as [st'| |] eqn:Ad; [|discriminate..]. cbn [bind] in E.
    pose proof Ok as [_ Ln]. fold n in Ln.
    destruct (usable_report srt threads to_uint pick c wr weight lossf n w y col wv t p pos (snd st)) as (rows & G & _ & us & Sm & U2); try assumption.
    destruct (U2 gd) as (grads & p' & pos1 & Er & Lg & Gd). clear U2.
    change (pair_round (N := Exact) srt to_uint pick c wr weight lossf p pos (snd st) gd = Ret (x, gd', ls', pos')) in Rd.
    pose proof Rd as Rd2. rewrite pair_report_same, Er in Rd2. cbn [bind] in Rd2.
    assert (n0 = x /\ grads = gd' /\ p' = ls' /\ pos1 = pos') as (<- & -> & -> & ->) by (repeat split; congruence). clear Rd2.
    destruct (pair_one_round v threads (top i) draw srt w wv features c Th (Top i) Srt Cols Wv All st us gd' pos' tr pos2 st' Ok Lg Gd Ft Ad) as [Ok' Step].
    assert (In1 : in_use (N := Exact) srt threads to_uint pick c wr weight lossf n w y col ls') by (eapply AfterRound; [exact In0|exact Ln|exact Rd]).
    rewrite Er. cbn [bind]. unfold prepare_progress at 1. cbv iota beta. rewrite Fx, Ft. cbn [bind]. rewrite Ad. cbn [bind].
    destruct (IH (S i) (if nltb initial n0 then mean_pairs_loss lossf t us (snd st) else initial) _ _ _ _ _ _ _ Ok' In1 E S0) as (msgs & fs & Em & V & H0 & Lf & Hl & Lm & Es). rewrite Em. cbn [bind].
    eexists _, (snd st :: fs). split; [reflexivity|]. split; [eapply ValNext; [exact Rd|exact Fx|exact Ft|exact Ad|exact V]|]. split; [reflexivity|]. split; [exact (f_equal S Lf)|].
    split; [exact Hl|]. split; [exact (f_equal S Lm)|].
    intros [|j] a' b' x q Ha Hb Hm.
    + pose proof (eq_trans (eq_sym H0) Hb) as Eb. injection Eb as <-. injection Ha as <-. injection Hm as <- <-. split; [exact Ln|]. exists rows, p, us. auto 6.
    + exact (Es j a' b' x q Ha Hb Hm).
Qed.
End Rounds.

(** ** Values *)
Lemma level_value lossf l gap : level_loss lossf l -> 0 < gap -> loss_of lossf gap 0 = l gap.
Proof.
  intros [| |] Gp.
  - change (loss_of huberized_hinge 1 0 = 1 / 2). rewrite hinge_loss. destruct (Rle_dec _ _); [lra|]. destruct (Rle_dec _ _); lra.
  - change (loss_of squared_hinge gap 0 = gap * gap). rewrite square_loss. destruct (Rlt_dec _ _); [ring|nra].
  - change (loss_of log_loss 1 0 = ln 2). destruct (log_loss_real 1 0) as (-> & _). replace (- (1) * 0) with 0 by ring. rewrite exp_0. replace (1 + 1) with 2 by ring. reflexivity.
Qed.
Lemma level_mean lossf l t us (f : list R) : level_loss lossf l ->
  (forall u, In u us -> 0 < real_of (t (pu_pos u)) - real_of (t (pu_neg u)) /\ nth (pu_pos u) f 0 = nth (pu_neg u) f 0) ->
  mean_pairs_loss lossf t us f = over us (fun u => exact_weight u * l (real_of (t (pu_pos u)) - real_of (t (pu_neg u)))) / pairs_weight us.
Proof.
  intros Lv H. unfold mean_pairs_loss, pairs_loss. f_equal. apply over_ext. intros u I. destruct (H u I) as [Gp Ev]. rewrite Ev, (Rminus_diag_eq (nth (pu_neg u) f 0) _ eq_refl).
  rewrite (level_value _ _ _ Lv Gp). reflexivity.
Qed.
Lemma pair_loss_nonneg {wr weight lossf} (c : config Exact) gap d : pair_kind c wr weight lossf -> 0 <= loss_of lossf gap d.
Proof.
  assert (0 <= loss_of log_loss 1 d) as Lg.
  { destruct (log_loss_real 1 d) as (-> & _). rewrite <- ln_1. pose proof (exp_pos (- (1) * d)). apply Rlt_le, ln_increasing; lra. }
  intros []; [| |exact Lg|exact Lg].
  - change (0 <= loss_of huberized_hinge 1 d). rewrite hinge_loss. destruct (Rle_dec _ _); [lra|]. destruct (Rle_dec _ _); nra.
  - change (0 <= loss_of squared_hinge gap d). rewrite square_loss. destruct (Rlt_dec _ _); nra.
Qed.
Lemma at_most_hundred (x0 x : R) : 0 <= x0 -> 0 <= x -> percent_less (N := Exact) x0 x <= 100.
Proof.
  intros H0 H. unfold percent_less. cbn. unfold Reqb. destruct (Req_EM_T x0 0) as [E|E]; [lra|].
  assert ((x0 - x) / x0 <= 1); [|lra]. apply Rmult_le_reg_r with x0; [lra|]. unfold Rdiv. rewrite Rmult_assoc, Rinv_l by exact E. lra.
Qed.

Lemma pair_train_reported v threads top draw pos srt names to_uint pick wr weight lossf w y wv t col (c : config Exact) base r :
  training v threads top srt names w (pairwise_loss (N := Exact) srt threads to_uint pick c wr weight lossf) -> (forall b, base = Some b -> forest_fits v b) ->
  row_values (N := Exact) w (v_rows v) wv -> comparable y (seq 0 (v_rows v)) t -> picks pick -> pair_kind c wr weight lossf ->
  group_column c (v_get v) = Ret col -> proper_groups (v_rows v) col ->
  (forall rows, grouping (v_rows v) col rows -> forall rk, In rk rows -> exists count, samples_of to_uint c (v_rows v) rows t rk = Ret count /\ (num_pairs t rk = 0 -> count = 0)%nat) ->
  (forall i, fltb (draw i) (to_f64 (cf_example_rate c)) = true) ->
  train v threads top draw pos srt names w y (pairwise_loss srt threads to_uint pick c wr weight lossf) c base = Ret r -> tr_status r = SOk ->
  exists msgs features p0 st0 k trees st fs, train_pair_messages v threads top draw pos srt names to_uint pick w y wr weight lossf c base = Ret msgs /\
    load_features (v_get v) (v_order v names) = (SOk, features) /\
    init_scores v threads = Ret st0 /\ init_with_base v threads (match base with Some b => b | None => [] end) n0 [] st0 = Ret (k, trees, st) /\
    values (N := Exact) v threads top draw srt w features c (pairwise_loss srt threads to_uint pick c wr weight lossf) (Z.to_nat (cf_num_trees c)) 0 st (repeat gzero (v_rows v)) p0 pos fs /\
    nth_error fs 0 = Some (snd st) /\ nth_error fs (Z.to_nat (cf_num_trees c)) = Some (tr_f r) /\ List.length msgs = Z.to_nat (cf_num_trees c) /\
    forall i f f' x q, nth_error fs i = Some f -> nth_error fs (S i) = Some f' -> nth_error msgs i = Some (x, q) -> List.length f = v_rows v /\
      exists rows p us, grouping (v_rows v) col rows /\ in_use (N := Exact) srt threads to_uint pick c wr weight lossf (v_rows v) w y col p /\
        sampled srt to_uint c wr weight lossf (v_rows v) y rows wv t p f us /\ pair_step wv us (real_of (cf_shrinkage c)) (cf_l2_lambda c) f f' /\
        x = mean_pairs_loss lossf t us f /\
        ((forall i, (i < v_rows v)%nat -> a_float (t i) /\ finite_float (t i) = true /\ (0 <= wv i)%R) -> (0 < pairs_weight us)%R ->
           (0 <= x)%R /\ (forall x0 q0, nth_error msgs 0 = Some (x0, q0) -> (0 <= x0 -> q <= 100)%R) /\
           forall l, level_loss lossf l -> base = None -> i = 0%nat ->
             (x = over us (fun u => exact_weight u * l (real_of (t (pu_pos u)) - real_of (t (pu_neg u)))) / pairs_weight us)%R /\
             forall d, (forall gap, l gap = d) -> x = d).
Proof.
  intros Tr Bs Wv Cy Pk K Gc Pg Counts All E S0. set (n := v_rows v) in *. pose proof (ts_threads _ _ _ _ _ _ _ Tr) as Th.
  destruct (pair_messages_inv threads srt to_uint pick c wr weight lossf v top draw pos names w y base r E) as [(_ & X & _)|(features & group & p0 & st0 & k & trees & st & Ck & Lo & Gr & In0 & I0 & B & R0 & Em)]; [contradiction|].
  assert (group = col) as -> by congruence.
  assert (state_ok (N := Exact) v st /\ (base = None -> snd st = repeat (@n0 Exact) n)) as [Ok Z0].
  { destruct (@Eval_proofs.init_ok Exact v threads Th) as (st1 & E1 & Ok1 & St1). rewrite I0 in E1. injection E1 as <-.
    assert (Fb : forest_fits (N := Exact) v (base_list base)) by (destruct base as [b|]; [apply Bs; reflexivity|constructor]).
    destruct (base_holds v threads (base_list base) Th Fb (@n0 Exact) [] st0 (Forall_nil _) Ok1) as (k' & trees' & st' & E' & _ & Ok' & _).
    { rewrite St1. apply start_holds. }
    split; [rewrite B in E'; injection E' as <- <- <-; exact Ok'|]. intros Z. assert (st0 = st) as <- by (unfold base_list in B; rewrite Z in B; cbn in B; congruence). rewrite St1. reflexivity. }
  assert (Rate : nleb (nfloat (cf_pair_rate c)) (@n0 Exact) = false).
  { unfold pair_init in In0. destruct (nleb (nfloat (cf_pair_rate c)) (@n0 Exact)); [discriminate|reflexivity]. }
  assert (Cols : forall co, In co features -> v_get v (c_name co) = Some co /\ has_rows co (v_rows v)).
  { intros co I. destruct (loaded_cols v threads top srt names w _ features Tr Lo co I) as (_ & G & _ & Hr). auto. }
  assert (Us : in_use (N := Exact) srt threads to_uint pick c wr weight lossf (v_rows v) w y col p0) by (constructor; exact In0).
  destruct (pair_reported v threads top draw srt to_uint pick wr weight lossf w y wv t col features c Th (ts_tops _ _ _ _ _ _ _ Tr) (ts_sort _ _ _ _ _ _ _ Tr) Cols Wv Cy Pk K Rate Pg Counts All
    (Z.to_nat (cf_num_trees c)) 0%nat no_initial k trees st (repeat (@gzero Exact) n) p0 pos r Ok Us R0 S0) as (msgs & fs & Em2 & V & H0 & _ & Hl & Lm & Es).
  exists msgs, features, p0, st0, k, trees, st, fs. split; [rewrite Em; exact Em2|]. do 7 (split; [assumption|]).
  assert (Nonneg : forall (f : list R) us, (forall u, In u us -> 0 <= exact_weight u) -> 0 < pairs_weight us -> 0 <= mean_pairs_loss lossf t us f).
  { intros f us Wp Sp. unfold mean_pairs_loss. apply Rmult_le_pos; [|apply Rlt_le, Rinv_0_lt_compat, Sp]. apply over_pos. intros u I.
    apply Rmult_le_pos; [apply Wp, I|]. eapply pair_loss_nonneg, K. }
  intros i f f' x q A A' Hm. destruct (Es i f f' x q A A' Hm) as (L & rows & p & us & G & U & Sm & St & Ex). split; [exact L|].
  exists rows, p, us. do 5 (split; [assumption|]). intros Fin Sp.
  destruct (sampled_facts srt to_uint c wr weight lossf n y col rows wv t p f us G K Cy Fin Sm) as (_ & Fu).
  assert (Xp : 0 <= x) by (rewrite Ex; apply Nonneg; [intros u I; apply Fu, I|exact Sp]). split; [exact Xp|]. split.
  - intros x0 q0 H00 P0. destruct msgs as [|[x1 q1] msgs]; [discriminate H00|]. cbn in H00. injection H00 as -> ->.
    rewrite (pair_train_percent threads srt to_uint pick c wr weight lossf v top draw pos names w y base x0 q0 msgs) with (x := x) (q := q).
    + apply at_most_hundred; assumption.
    + cbn. unfold Rltb. destruct (Rlt_dec _ _) as [|Q]; [reflexivity|]. exfalso. apply Q. lra.
    + cbn. unfold Rltb. destruct (Rlt_dec _ _); [lra|reflexivity].
    + rewrite Em. exact Em2.
    + eapply nth_error_In, Hm.
  - intros l Lv Bn Ei.
    assert (x = over us (fun u => exact_weight u * l (real_of (t (pu_pos u)) - real_of (t (pu_neg u)))) / pairs_weight us) as Hx.
    { rewrite Ex. apply level_mean; [exact Lv|]. intros u I. split; [apply Fu, I|].
      assert (f = repeat (@n0 Exact) n) as ->. { rewrite Ei in A. pose proof (eq_trans (eq_sym A) H0) as X. injection X as ->. exact (Z0 Bn). }
      apply (level_start n us u I). }
    split; [exact Hx|]. intros d Cd. rewrite Hx. rewrite (over_ext us _ (fun u => d * exact_weight u)) by (intros u _; rewrite Cd; ring). rewrite over_mult. fold (pairs_weight us).
    unfold Rdiv. rewrite Rmult_assoc, Rinv_r by lra. apply Rmult_1_r.
Qed.
