(** BaseShift_proofs.v - proofs for C103. *)
From Coq Require Import SpecFloat Reals Lra Lia FunctionalExtensionality.
From Verif Require Import Base F32 Column DataStore Subsampling Num Par Forest Config Score ScoreSpec Score_proofs Eval EvalSpec Eval_proofs Split SplitSpec Tree Train TrainSpec Train_proofs Loss
  Pairwise PairSpec TargetsSpec BaseShiftSpec UnitsSpec Split_proofs Units_proofs Group_proofs Pairwise_proofs Targets_proofs Driver_proofs.
Local Close Scope R_scope.

Section Aligned.
Variables (srt : (nat -> nat -> bool) -> list nat -> list nat) (threads : nat) (to_uint : Exact -> res nat)
  (pick : nat -> nat -> nat * nat) (c : config Exact) (wr : bool)
  (weight : float_vector -> group -> nat * nat -> res Exact) (lossf : Exact -> Exact -> point Exact)
  (n : nat) (y : float_vector) (t : nat -> f32) (rows : list (list nat)).
Hypothesis Srt : sorts srt.
Hypothesis Cmp : compares_only srt.
Hypothesis Inside : forall r, In r (concat rows) <-> r < n.
Hypothesis Yv : comparable y (seq 0 n) t.

Definition aligned (f f' : list R) : Prop := forall rk i j, In rk rows -> In i rk -> In j rk -> (nth i f 0 - nth j f 0 = nth i f' 0 - nth j f' 0)%R.

Lemma vget_nth (f : list R) i : i < List.length f -> vget f i = Ret (nth i f 0%R).
Proof. clear. intros L. unfold vget. destruct (nth_error f i) eqn:E; [rewrite (nth_error_nth _ _ 0%R E); reflexivity|apply nth_error_None in E; lia]. Qed.

Lemma once_aligned w f f' j g factor : List.length f = n -> List.length f' = n -> aligned f f' -> within rows g ->
  pair_once (N := Exact) pick weight lossf w y f j g factor = pair_once (N := Exact) pick weight lossf w y f' j g factor.
Proof.
  intros L L' Al (rk & K & I). unfold pair_once. f_equal. apply functional_extensionality. intros [?|?|pos]; try reflexivity.
  destruct (pick pos (gr_pairs g)) as [index pos']. f_equal. destruct (sample_pair g index) as [p| |]; try reflexivity. cbn [pres pbind].
  destruct (vget (gr_rows g) (fst p)) as [a| |] eqn:Ea; try reflexivity. cbn [pres pbind].
  destruct (vget (gr_rows g) (snd p)) as [b| |] eqn:Eb; try reflexivity. cbn [pres pbind].
  destruct (w a); try reflexivity. destruct (w b); try reflexivity. cbn [pres pbind].
  destruct (weight y g p); try reflexivity. cbn [pres pbind]. destruct (y a); try reflexivity. destruct (y b); try reflexivity. cbn [pres pbind].
  apply vget_in, I in Ea. apply vget_in, I in Eb. pose proof (Al rk a b K Ea Eb) as D.
  assert (La : a < n) by (apply Inside, in_concat; eauto). assert (Lb : b < n) by (apply Inside, in_concat; eauto).
  assert (Fa : @vget (nt Exact) f a = Ret (nth a f 0%R)) by (apply vget_nth; rewrite L; exact La).
  assert (Fb : @vget (nt Exact) f b = Ret (nth b f 0%R)) by (apply vget_nth; rewrite L; exact Lb).
  assert (Fa' : @vget (nt Exact) f' a = Ret (nth a f' 0%R)) by (apply vget_nth; rewrite L'; exact La).
  assert (Fb' : @vget (nt Exact) f' b = Ret (nth b f' 0%R)) by (apply vget_nth; rewrite L'; exact Lb).
  rewrite Fa, Fb, Fa', Fb'. cbn [pres pbind]. change (@nsub Exact) with Rminus. rewrite D. reflexivity.
Qed.

Lemma reranked_aligned f f' g : List.length f = n -> List.length f' = n -> aligned f f' -> within rows g ->
  reranked (N := Exact) srt wr f g = reranked (N := Exact) srt wr f' g.
Proof.
  intros L L' Al (rk & K & I). unfold reranked. destruct wr; [|reflexivity]. unfold rerank.
  assert (Ln : forall i, In i (gr_rows g) -> i < n) by (intros i J; apply Inside, in_concat; eauto).
  assert (R1 : @read_all (nt Exact) (@vget (nt Exact) f) (gr_rows g) = Ret (map (fun i => nth i f 0%R) (gr_rows g))).
  { apply (read_all_ok (A := R)). intros i J. apply vget_nth. rewrite L. apply Ln, J. }
  assert (R2 : @read_all (nt Exact) (@vget (nt Exact) f') (gr_rows g) = Ret (map (fun i => nth i f' 0%R) (gr_rows g))).
  { apply (read_all_ok (A := R)). intros i J. apply vget_nth. rewrite L'. apply Ln, J. }
  rewrite R1, R2. cbn [bind].
  assert (T : forall l : list R, @forallb (nt Exact) (fun x => neqb x x) l = true).
  { intros l. apply forallb_forall. intros x _. cbn. unfold Reqb. destruct (Req_EM_T x x); [reflexivity|congruence]. }
  rewrite !T.
  rewrite (Cmp (fun i j => nltb (score_at (N := Exact) f (gr_rows g) j) (score_at (N := Exact) f (gr_rows g) i))
               (fun i j => nltb (score_at (N := Exact) f' (gr_rows g) j) (score_at (N := Exact) f' (gr_rows g) i))); [reflexivity|].
  intros i j A B. apply in_seq in A, B. unfold score_at.
  assert (Ga : In (nth i (gr_rows g) 0) rk) by (apply I, nth_In; lia). assert (Gb : In (nth j (gr_rows g) 0) rk) by (apply I, nth_In; lia).
  pose proof (Al rk _ _ K Ga Gb) as D. change (@n0 Exact) with 0%R. cbn [nltb Exact]. unfold Rltb.
  destruct (Rlt_dec _ _) as [X|X], (Rlt_dec _ _) as [Z|Z]; try reflexivity; exfalso; change (@nt Exact) with R in *; lra.
Qed.

Lemma round_aligned p pos f f' gd gd' : List.length f = n -> List.length f' = n -> aligned f f' -> good (N := Exact) y rows p ->
  pair_round (N := Exact) srt to_uint pick c wr weight lossf p pos f gd = pair_round (N := Exact) srt to_uint pick c wr weight lossf p pos f' gd'.
Proof.
  intros L L' Al [Ey G].
  assert (E : pair_tasks (N := Exact) srt to_uint pick c wr weight lossf p f = pair_tasks (N := Exact) srt to_uint pick c wr weight lossf p f').
  { unfold pair_tasks. apply map_ext. intros [j sl]. cbn [fst snd]. generalize (range sl). intros gis.
    induction gis as [|gi gis IH]; [reflexivity|]. cbn [pair_task]. rewrite IH. f_equal. unfold pair_group.
    destruct (vget (pr_groups p) gi) as [g| |] eqn:Eg; try reflexivity. cbn [pres pbind]. apply vget_in, G in Eg.
    rewrite (reranked_aligned f f' g L L' Al Eg).
    destruct (reranked (N := Exact) srt wr f' g) as [g'| |] eqn:Er; try reflexivity. cbn [pres pbind]. apply (reranked_within (N := Exact) srt wr rows f' g g' Eg) in Er.
    destruct (to_uint _) as [k| |]; try reflexivity. cbn [pres pbind]. rewrite Ey.
    induction k as [|k IHk]; [reflexivity|]. cbn [pair_times]. rewrite IHk, (once_aligned _ f f') by assumption. reflexivity. }
  unfold pair_round. rewrite E.
  assert (Lf : @List.length (nt Exact) f = @List.length (nt Exact) f') by (exact (eq_trans L (eq_sym L'))). rewrite Lf.
  destruct (run_tasks _ _ _) as [m| |]; cbn [bind]; try reflexivity.
  assert (Rd : read_all (fun i => let! g := vget (pr_groups p) i in reranked (N := Exact) srt wr f g) (seq 0 (List.length (pr_groups p))) =
               read_all (fun i => let! g := vget (pr_groups p) i in reranked (N := Exact) srt wr f' g) (seq 0 (List.length (pr_groups p)))).
  { apply read_all_same. intros i _. destruct (vget (pr_groups p) i) as [g| |] eqn:Eg; try reflexivity. cbn [bind]. apply reranked_aligned; auto. apply G, (vget_in _ _ _ Eg). }
  rewrite Rd. reflexivity.
Qed.

Section Rounds.
Variables (v : view) (top : nat -> nat -> list Exact -> nat) (draw : nat -> spec_float) (names : list str) (w : float_vector) (features : list column).
Hypothesis Rows : v_rows v = n.
Notation lf := (pairwise_loss (N := Exact) srt threads to_uint pick c wr weight lossf).
Hypothesis Tr : training v threads top srt names w lf.
Hypothesis Lo : load_features (v_get v) (v_order v names) = (SOk, features).
Notation shrink := (apply_shrinkage (N := Exact) (nfloat (cf_shrinkage c))).

Lemma add_aligned tr st st2 s1 : tree_fits (v_get v) n tr -> state_ok v st -> state_ok v st2 ->
  add_tree_scores (v_get v) threads tr (@n0 Exact) st = Ret s1 ->
  exists s2, add_tree_scores (v_get v) threads tr (@n0 Exact) st2 = Ret s2 /\ state_ok v s1 /\ state_ok v s2 /\
    forall i, i < n -> (nth i (snd s1) 0 - nth i (snd st) 0 = nth i (snd s2) 0 - nth i (snd st2) 0)%R.
Proof.
  intros F O1 O2 A. pose proof (ts_threads _ _ _ _ _ _ _ Tr) as Th. rewrite <- Rows in F.
  destruct (one_tree (N := Exact) v threads tr n0 st Th F O1) as (s1' & A1 & K1 & H1). rewrite A in A1. injection A1 as <-.
  destruct (one_tree (N := Exact) v threads tr n0 st2 Th F O2) as (s2 & A2 & K2 & H2). exists s2. split; [exact A2|]. split; [exact K1|]. split; [exact K2|].
  intros i Li. rewrite <- Rows in Li. destruct (routes_total _ _ _ _ F Li) as [s R0].
  assert (Z1 : nth_error (snd st) i = Some (nth i (snd st) (0%R : Exact))) by (apply nth_error_nth'; rewrite (proj2 O1); exact Li).
  assert (Z2 : nth_error (snd st2) i = Some (nth i (snd st2) (0%R : Exact))) by (apply nth_error_nth'; rewrite (proj2 O2); exact Li).
  pose proof (nth_error_nth _ _ 0%R (H1 i _ s Z1 R0)) as X1. pose proof (nth_error_nth _ _ 0%R (H2 i _ s Z2 R0)) as X2.
  cbn [nadd Exact] in X1, X2. change (@nt Exact) with R in *. rewrite X1, X2. lra.
Qed.

Lemma rounds_aligned todo : forall i k k' trees trees' (st st2 : list nat * list Exact) gd gd2 p pos r, state_ok v st -> state_ok v st2 ->
  aligned (snd st) (snd st2) -> List.length gd = n -> good (N := Exact) y rows p ->
  rounds v threads top draw srt w features c lf todo i k trees st gd p pos = Ret r ->
  exists r2 new, rounds v threads top draw srt w features c lf todo i k' trees' st2 gd2 p pos = Ret r2 /\ tr_status r = SOk /\ tr_status r2 = SOk /\
    tr_forest r = map clear_internal (constant_tree k :: trees) ++ new /\ tr_forest r2 = map clear_internal (constant_tree k' :: trees') ++ new /\ List.length new = todo /\ List.length (tr_f r) = n /\ List.length (tr_f r2) = n /\
    forall j, j < n -> (nth j (tr_f r) 0 - nth j (snd st) 0 = nth j (tr_f r2) 0 - nth j (snd st2) 0)%R.
Proof.
  induction todo as [|todo IH]; intros i k k' trees trees' st st2 gd gd2 p pos r O1 O2 Al Lg G R0; cbn [rounds] in R0 |- *.
  - injection R0 as <-. eexists _, []. split; [reflexivity|]. cbn [tr_status tr_forest tr_f]. rewrite !app_nil_r. rewrite <- Rows. repeat (split; [reflexivity|]). split; [exact (proj2 O1)|]. split; [exact (proj2 O2)|]. intros; change (@nt Exact) with R in *; lra.
  - cbn [l_round pairwise_loss] in R0 |- *.
    assert (L1 : List.length (snd st) = n) by (rewrite <- Rows; apply O1). assert (L2 : List.length (snd st2) = n) by (rewrite <- Rows; apply O2).
    rewrite <- (round_aligned p pos (snd st) (snd st2) gd gd2 L1 L2 Al G).
    pose proof (proj2 (round_same (N := Exact) srt to_uint pick c wr weight lossf n y y t t rows Inside Yv Yv (fun _ _ _ _ _ _ => eq_refl) (fun _ _ _ _ _ _ _ => eq_refl)
      (fun _ _ _ => eq_refl) p pos (snd st) gd G)) as Gd.
    destruct (pair_round (N := Exact) srt to_uint pick c wr weight lossf p pos (snd st) gd) as [[[[x gd'] p'] pos']| |] eqn:Rd; [|discriminate R0..]. cbn [bind] in R0 |- *.
    specialize (Gd _ _ _ _ eq_refl).
    assert (Lg' : List.length gd' = n).
    { rewrite <- Rows. eapply (ts_loss _ _ _ _ _ _ _ Tr p pos (snd st) gd); [rewrite Rows; exact L1|rewrite Rows; exact Lg|exact Rd]. }
    assert (X0 : x = n0).
    { revert Rd. unfold pair_round. destruct (run_tasks _ _ _) as [m| |]; cbn [bind]; try discriminate. destruct (read_all _ _) as [gs| |]; cbn [bind]; try discriminate.
      destruct (m WGen) as [[?|?|q]|]; try discriminate. intros [= <- _ _ _]. reflexivity. }
    subst x. change (nfinite (@n0 Exact)) with true in *. cbn iota in R0 |- *.
    destruct (fit_tree (top i) draw threads srt w gd' features c pos') as [[tr p2]| |] eqn:Ft; [|discriminate R0..]. cbn [bind] in R0 |- *.
    assert (Fi : tree_fits (v_get v) n (shrink tr)).
    { rewrite <- Rows. eapply fitted_fits; [exact exact_ordered|exact Tr|exact Lo|]. exists i, gd', pos', p2. split; [rewrite Rows; exact Lg'|exact Ft]. }
    destruct (add_tree_scores (v_get v) threads (shrink tr) n0 st) as [s1| |] eqn:A; [|discriminate R0..]. cbn [bind] in R0.
    destruct (add_aligned _ st st2 s1 Fi O1 O2 A) as (s2 & A2 & K1 & K2 & Df). rewrite A2. cbn [bind].
    assert (Al' : aligned (snd s1) (snd s2)).
    { intros rk a b K Ia Ib. pose proof (Al rk a b K Ia Ib) as D. pose proof (Df a (proj1 (Inside a) (proj2 (in_concat _ _) (ex_intro _ rk (conj K Ia))))) as Da.
      pose proof (Df b (proj1 (Inside b) (proj2 (in_concat _ _) (ex_intro _ rk (conj K Ib))))) as Db. change (@nt Exact) with R in *. lra. }
    destruct (IH (S i) _ (nstore (nadd k' n0)) _ (trees' ++ [shrink tr]) s1 s2 gd' gd' p' p2 r K1 K2 Al' Lg' Gd R0) as (r2 & new & R2 & S1 & S2 & F1 & F2 & Ln & M1 & M2 & D2).
    assert (Kz : forall z : Exact, nstore (nadd z n0) = z) by (intros z; cbn; change (@n0 Exact) with 0%R; apply Rplus_0_r).
    exists r2, (clear_internal (shrink tr) :: new). split; [exact R2|]. split; [exact S1|]. split; [exact S2|].
    rewrite F1, F2. rewrite !Kz. cbn [map]. rewrite !map_app. cbn [map app]. rewrite <- !app_assoc. split; [reflexivity|]. split; [reflexivity|]. split; [cbn; congruence|]. split; [exact M1|]. split; [exact M2|].
    intros j Lj. pose proof (D2 j Lj) as D3. pose proof (Df j Lj) as D4. change (@nt Exact) with R in *. lra.
Qed.
End Rounds.
End Aligned.

Section Claims.
Variables (v : view) (threads : nat) (top : nat -> nat -> list Exact -> nat) (draw : nat -> spec_float) (pos : nat) (srt : (nat -> nat -> bool) -> list nat -> list nat)
  (names : list str) (to_uint : Exact -> res nat) (pick : nat -> nat -> nat * nat) (w y : float_vector) (t : nat -> f32) (col : option strcol) (c : config Exact)
  (wr : bool) (weight : float_vector -> group -> nat * nat -> res Exact) (lossf : Exact -> Exact -> point Exact).
Notation lf := (pairwise_loss (N := Exact) srt threads to_uint pick c wr weight lossf).
Notation the := (fun base : option (forest Exact) => match base with Some b => b | None => [] end).

Lemma base_core base base' r : training v threads top srt names w lf -> compares_only srt ->
  group_column c (v_get v) = Ret col -> proper_groups (v_rows v) col -> comparable y (seq 0 (v_rows v)) t ->
  forest_fits v (the base) -> forest_fits v (the base') -> predict_alike v col (the base) (the base') ->
  train v threads top draw pos srt names w y lf c base = Ret r ->
  exists r', train v threads top draw pos srt names w y lf c base' = Ret r' /\ tr_status r' = tr_status r /\
    ((tr_status r <> SOk /\ r' = r) \/
     (tr_status r = SOk /\ exists k k' trees trees' st0 st st' new, init_scores (N := Exact) v threads = Ret st0 /\
       init_with_base v threads (the base) n0 [] st0 = Ret (k, trees, st) /\ init_with_base v threads (the base') n0 [] st0 = Ret (k', trees', st') /\
       trees = filter has_left (the base) /\ trees' = filter has_left (the base') /\
       predictions v (the base) (snd st) /\ predictions v (the base') (snd st') /\
       tr_forest r = map clear_internal (constant_tree k :: trees) ++ new /\ tr_forest r' = map clear_internal (constant_tree k' :: trees') ++ new /\
       Z.of_nat (List.length new) = cf_num_trees c /\ List.length (tr_f r) = v_rows v /\ List.length (tr_f r') = v_rows v /\
       forall j, j < v_rows v -> (nth j (tr_f r) 0 - nth j (snd st) 0 = nth j (tr_f r') 0 - nth j (snd st') 0)%R)).
Proof.
  intros Tr Cmp Ec Pg Yv Fb Fb' Al. pose proof (ts_threads _ _ _ _ _ _ _ Tr) as Th. pose proof (ts_sort _ _ _ _ _ _ _ Tr) as Srt.
  destruct (grouping_ok _ _ Pg) as (rows & G & Rw). destruct (grouping_rows _ _ _ G) as [_ Lr].
  unfold train. destruct (check_config c) as [|e] eqn:Cc; [|intros [= <-]; eexists; split; [reflexivity|]; split; [reflexivity|]; left; split; [discriminate|reflexivity]].
  destruct (load_features (v_get v) (v_order v names)) as [[|e] features] eqn:Lo; [|intros [= <-]; eexists; split; [reflexivity|]; split; [reflexivity|]; left; split; [discriminate|reflexivity]].
  rewrite Ec. cbn [bind l_init pairwise_loss].
  pose proof (proj2 (init_same (N := Exact) srt threads pick c weight lossf (v_rows v) y y t t rows Srt Cmp Lr Yv Yv (fun _ _ _ _ _ _ => eq_refl) (fun _ _ _ _ _ _ _ => eq_refl)
      (fun _ _ _ => eq_refl) w col Rw)) as Gd.
  destruct (pair_init (N := Exact) srt threads c (v_rows v) w y col) as [[e|p]| |] eqn:Ei; cbn [bind]; try discriminate.
  { intros [= <-]; eexists; split; [reflexivity|]; split; [reflexivity|]; left; split; [discriminate|reflexivity]. }
  specialize (Gd p eq_refl).
  destruct (base_predictions v threads (the base) Th Fb) as (k & trees & st0 & st & E0 & E1 & T1 & P1 & _).
  destruct (base_predictions v threads (the base') Th Fb') as (k' & trees' & st0' & st' & E0' & E1' & T1' & P1' & _).
  rewrite E0 in E0'. injection E0' as <-. rewrite E0. cbn [bind].
  destruct (Eval_proofs.init_ok (N := Exact) v threads Th) as (s0 & Es & Ok & _). rewrite E0 in Es. injection Es as <-.
  destruct (base_total v threads top srt names w lf Tr (the base) Fb (@n0 Exact) [] st0 Ok) as (? & ? & ? & Ex & O1). rewrite E1 in Ex. injection Ex as <- <- <-.
  destruct (base_total v threads top srt names w lf Tr (the base') Fb' (@n0 Exact) [] st0 Ok) as (? & ? & ? & Ex & O1'). rewrite E1' in Ex. injection Ex as <- <- <-.
  pose proof E1 as E2. pose proof E1' as E2'. cbn beta in E2, E2'. unfold forest in *. rewrite E2, E2'. cbn [bind]. intros R0.
  assert (A : aligned rows (snd st) (snd st')).
  { intros rk i j K I J. apply (Al _ _ i j P1 P1'). exists rows, rk. auto. }
  assert (Lg : List.length (repeat (@gzero Exact) (v_rows v)) = v_rows v) by apply repeat_length.
  destruct (rounds_aligned srt threads to_uint pick c wr weight lossf (v_rows v) y t rows Cmp Lr Yv v top draw names w features eq_refl Tr Lo _ 0 k k' trees trees' st st'
    (repeat gzero (v_rows v)) (repeat gzero (v_rows v)) p pos r O1 O1' A Lg Gd R0) as (r2 & new & R2 & S1 & S2 & F1 & F2 & Ln & M1 & M2 & Df).
  exists r2. split; [exact R2|]. split; [congruence|]. right. split; [exact S1|]. exists k, k', trees, trees', st0, st, st', new.
  split; [first [exact E0|reflexivity]|]. split; [first [exact E1|reflexivity]|]. split; [first [exact E1'|reflexivity]|]. split; [exact T1|]. split; [exact T1'|]. split; [exact P1|]. split; [exact P1'|]. split; [exact F1|]. split; [exact F2|]. split; [rewrite Ln; unfold check_config in Cc; destruct (Z.leb_spec (cf_num_trees c) 0); [discriminate|]; lia|].
  split; [exact M1|]. split; [exact M2|]. exact Df.
Qed.

Lemma base_gaps base base' r : training v threads top srt names w lf -> compares_only srt ->
  group_column c (v_get v) = Ret col -> proper_groups (v_rows v) col -> comparable y (seq 0 (v_rows v)) t ->
  forest_fits v (the base) -> forest_fits v (the base') -> predict_alike v col (the base) (the base') ->
  train v threads top draw pos srt names w y lf c base = Ret r ->
  exists r', train v threads top draw pos srt names w y lf c base' = Ret r' /\ tr_status r' = tr_status r /\
    (tr_status r <> SOk -> r' = r) /\
    (tr_status r = SOk -> exists k k' ts ts' new, tr_forest r = TNode k None TNone TNone :: ts ++ new /\ tr_forest r' = TNode k' None TNone TNone :: ts' ++ new /\
       kept (the base) ts /\ kept (the base') ts' /\ Z.of_nat (List.length new) = cf_num_trees c /\
       forall f f' j, predictions v (the base) f -> predictions v (the base') f' -> j < v_rows v ->
         (nth j (tr_f r) 0 - nth j f 0 = nth j (tr_f r') 0 - nth j f' 0)%R).
Proof.
  intros Tr Cmp Ec Pg Yv Fb Fb' Al E. destruct (base_core base base' r Tr Cmp Ec Pg Yv Fb Fb' Al E) as (r' & E' & S & [[Ns ->]|(Sk & X)]).
  - exists r. split; [exact E'|]. split; [reflexivity|]. split; [reflexivity|]. intros; contradiction.
  - destruct X as (k & k' & trees & trees' & st0 & st & st' & new & _ & _ & _ & -> & -> & P & P' & F & F' & Ln & _ & _ & D).
    exists r'. split; [exact E'|]. split; [exact S|]. split; [intros; contradiction|]. intros _.
    exists k, k', (map clear_internal (filter has_left (the base))), (map clear_internal (filter has_left (the base'))), new.
    split; [exact F|]. split; [exact F'|]. split; [apply clear_kept|]. split; [apply clear_kept|]. split; [exact Ln|].
    intros f f' j Pf Pf' Lj. rewrite (predictions_fun v _ f _ Fb Pf P), (predictions_fun v _ f' _ Fb' Pf' P'). exact (D j Lj).
Qed.

Lemma base_constant_shift (base : forest Exact) : forall k k' trees st st2 k1 k2 t1 t2 s1 s2,
  init_with_base v threads base k trees st = Ret (k1, t1, s1) -> init_with_base v threads base k' trees st2 = Ret (k2, t2, s2) -> (k2 - k1 = k' - k)%R.
Proof.
  clear. induction base as [|a base IH]; intros k k' trees st st2 k1 k2 t1 t2 s1 s2; cbn [init_with_base].
  - intros [= <- _ _] [= <- _ _]. reflexivity.
  - destruct (add_tree_scores _ _ _ _ st) as [u| |]; cbn [bind]; try discriminate. destruct (add_tree_scores _ _ _ _ st2) as [u2| |]; cbn [bind]; try discriminate.
    destruct (single_node a); intros E1 E2; [|exact (IH _ _ _ _ _ _ _ _ _ _ _ E1 E2)]. rewrite (IH _ _ _ _ _ _ _ _ _ _ _ E1 E2).
    cbn [nstore nadd Exact]. change (@nt Exact) with R in *. lra.
Qed.

Lemma predictions_constant (b : forest Exact) s (f f' : list R) i : forest_fits v b -> predictions (N := Exact) v b f ->
  predictions (N := Exact) v (constant_tree s :: b) f' -> i < v_rows v -> (nth i f' 0 = nth i f 0 + s)%R.
Proof.
  clear. intros Fb [_ P] [_ P'] Li. destruct (leaves_total v b i Fb Li) as [ls L].
  assert (L' : leaves v (constant_tree s :: b) i (s :: ls)) by (constructor; [apply (RouteLeaf (N := Exact) _ (constant_tree s)); reflexivity|exact L]).
  pose proof (nth_error_nth _ _ 0%R (P i ls Li L)) as X. pose proof (nth_error_nth _ _ 0%R (P' i _ Li L')) as X'.
  change (@n0 Exact) with 0%R in X, X'. rewrite add_all_sum in X, X'. unfold Rsum in X, X'. cbn [fold_right] in X'. change (@nt Exact) with R in *. rewrite X, X'. lra.
Qed.

Lemma base_constant base s r : training v threads top srt names w lf -> compares_only srt ->
  group_column c (v_get v) = Ret col -> proper_groups (v_rows v) col -> comparable y (seq 0 (v_rows v)) t -> forest_fits v (the base) ->
  train v threads top draw pos srt names w y lf c base = Ret r ->
  exists r', train v threads top draw pos srt names w y lf c (Some (constant_tree s :: the base)) = Ret r' /\
    tr_status r' = tr_status r /\ tr_forest r' = constant_plus s (tr_forest r) /\ tr_f r' = map (fun x : Exact => (x + s)%R : Exact) (tr_f r).
Proof.
  intros Tr Cmp Ec Pg Yv Fb E. pose proof (ts_threads _ _ _ _ _ _ _ Tr) as Th.
  assert (Fb' : forest_fits v (the (Some (constant_tree s :: the base)))) by (constructor; [exact I|exact Fb]).
  assert (Al : predict_alike v col (the base) (the (Some (constant_tree s :: the base)))).
  { intros f f' i j P P' (rows & rk & G & K & Ii & Ij). destruct (grouping_rows _ _ _ G) as [_ Lr].
    assert (Li : i < v_rows v) by (apply Lr, in_concat; eauto). assert (Lj : j < v_rows v) by (apply Lr, in_concat; eauto).
    rewrite (predictions_constant (the base) s f f' i Fb P P' Li), (predictions_constant (the base) s f f' j Fb P P' Lj). lra. }
  destruct (base_core base (Some (constant_tree s :: the base)) r Tr Cmp Ec Pg Yv Fb Fb' Al E) as (r' & E' & S & X). exists r'. split; [exact E'|]. split; [exact S|].
  destruct X as [[Ns ->]|(Sk & k & k' & trees & trees' & st0 & st & st' & new & E0 & E1 & E2 & -> & -> & P & P' & F & F' & Ln & M1 & M2 & D)].
  - assert (Z : tr_forest r = [] /\ tr_f r = []).
    { revert E Ns. unfold train. destruct (check_config c) as [|e]; [|intros [= <-]; auto]. destruct (load_features _ _) as [[|e] features]; [|intros [= <-]; auto].
      rewrite Ec. cbn [bind]. destruct (l_init lf (v_rows v) w y col) as [[e|p]| |]; cbn [bind]; try discriminate; [intros [= <-]; auto|].
      destruct (init_scores v threads) as [st0| |]; cbn [bind]; try discriminate. destruct (init_with_base _ _ _ _ _ _) as [[[k trees] st]| |]; cbn [bind]; try discriminate.
      intros R0 Ns. exfalso. apply Ns. revert R0. generalize (Z.to_nat (cf_num_trees c)), 0, k, trees, st, (repeat (@gzero Exact) (v_rows v)), p, pos. clear.
      intros todo. induction todo as [|todo IH]; intros i k trees st gd p pos; cbn [rounds]; [intros [= <-]; reflexivity|]. cbn [l_round pairwise_loss]. unfold pair_round.
      destruct (run_tasks _ _ _) as [m| |]; cbn [bind]; try discriminate. destruct (read_all _ _) as [gs| |]; cbn [bind]; try discriminate.
      destruct (m WGen) as [[?|?|q]|]; cbn [bind]; try discriminate. change (nfinite (@n0 Exact)) with true. cbn iota.
      destruct (fit_tree _ _ _ _ _ _ _ _ _) as [[tr p2]| |]; cbn [bind]; try discriminate. destruct (add_tree_scores _ _ _ _ _) as [s1| |]; cbn [bind]; try discriminate. apply IH. }
    destruct Z as [-> ->]. split; reflexivity.
  - split.
    + assert (K : (k' = k + s)%R).
      { cbn [init_with_base] in E2. destruct (add_tree_scores _ _ _ _ st0) as [u| |]; cbn [bind] in E2; try discriminate. unfold single_node in E2. cbn [has_left constant_tree negb present t_left] in E2.
        pose proof (base_constant_shift _ _ _ _ _ _ _ _ _ _ _ _ E1 E2) as Q. cbn [nstore nadd Exact t_score constant_tree] in Q. change (@n0 Exact) with 0%R in Q. change (@nt Exact) with R in *. lra. }
      rewrite F, F', K. reflexivity.
    + apply nth_ext with (d := 0%R) (d' := 0%R); [rewrite map_length; congruence|]. intros j Lj. rewrite M2 in Lj.
      rewrite nth_indep with (d' := (0 + s)%R) (l := map _ _) by (rewrite map_length, M1; exact Lj).
      eapply eq_trans; [|symmetry; exact (map_nth (fun x : R => (x + s)%R) (tr_f r) 0%R j)].
      pose proof (D j Lj) as Q. pose proof (predictions_constant (the base) s _ _ j Fb P P' Lj) as Q2. change (@nt Exact) with R in *. lra.
Qed.
End Claims.
