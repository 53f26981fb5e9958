(** Total_proofs.v - the split search always returns. *)
From Coq Require Import SpecFloat.
From Verif Require Import Base Base_proofs F32 Column ColumnSpec DataStore Subsampling Subsampling_proofs Num Forest Par Config Score
  ScoreSpec Score_proofs Split SplitSpec Split_proofs Hist_proofs Gain_proofs Category_proofs Tree TreeSpec Feature_proofs.

Section Total.
Context {N : Num}.
Variable O : ordered N.
Variables (w : float_vector) (gd : list (grad N)) (rg : nat -> grad N) (rows : list nat) (c : config N) (total : grad N).
Hypothesis Wt : weighted w gd rg rows.

Lemma hist_total code M : (forall r, In r rows -> exists k, code r = Ret (Z.of_nat k) /\ k < M) ->
  exists h, compute_histogram code (Z.of_nat M) w gd rows = Ret h /\ List.length (h_data h) = M /\ forall v, In v (h_values h) -> v < M.
Proof.
  intros Hc. set (cd r := match code r with Ret k => Z.to_nat k | _ => 0 end).
  unfold compute_histogram. rewrite Nat2Z.id. destruct (hist_fold code w gd cd rg M rows) as (h & E & Eh).
  - intros r I. destruct (Hc r I) as (k & Ek & Lk). unfold cd. rewrite Ek, Nat2Z.id. auto.
  - intros r I. destruct (Wt r I) as (wi & d & E & Ed & ->). unfold row_grad, vget. rewrite E. cbn [bind]. rewrite Ed. reflexivity.
  - rewrite E. cbn [bind]. eexists. split; [reflexivity|]. cbn [h_data h_values]. split.
    + rewrite Eh, map_length, seq_length. reflexivity.
    + intros v I. apply filter_In in I. destruct I as [I _]. apply in_seq in I. lia.
Qed.

Lemma point_total h place : (forall v, In v (h_values h) -> v < List.length (h_data h)) ->
  exists p, find_best_split_point c h total place = Ret p.
Proof.
  intros H. destruct (split_point_spec O c h total place (map (fun v => nth v (h_data h) gzero) (h_values h))) as (r & E & _); [|eauto].
  induction (h_values h) as [|v l IH]; cbn [map]; constructor.
  - apply nth_error_nth'. apply H. left. reflexivity.
  - apply IH. intros x I. apply H. right. exact I.
Qed.

Lemma float_total nm b n : has_rows (mkCol nm (BodyB b)) n -> (forall r, In r rows -> r < n) ->
  exists r, find_best_float_split b w gd rows c total = Ret r.
Proof.
  intros Hr Lt. destruct (has_rows_bucketized nm b n Hr) as [M B]. unfold find_best_float_split.
  destruct (bz_vec _ _ _ B) as [v ->]. cbn [bind]. rewrite (bz_int _ _ _ B).
  destruct (hist_total (b_bucket b) M) as (h & -> & Lh & Vh).
  { intros r I. destruct (bz_row _ _ _ B r (Lt r I)) as (k & x & Ek & Lk & _). eauto. }
  cbn [bind]. destruct (point_total h true) as [p Ep]; [intros x I; rewrite Lh; auto|]. rewrite Ep. cbn [bind].
  destruct p as [p|]; [|eauto]. destruct (point_pos O _ _ _ _ _ Ep) as (_ & L0 & L1). unfold vget.
  assert (X : forall i, i < List.length (h_values h) -> exists x, nth_error (h_values h) i = Some x /\ x < M).
  { intros i Li. destruct (nth_error (h_values h) i) as [x|] eqn:Ex; [|apply nth_error_None in Ex; lia]. exists x. split; [reflexivity|].
    apply Vh. eapply nth_error_In. exact Ex. }
  destruct (X (Z.to_nat (pt_left p))) as (lv & -> & Ll); [lia|]. destruct (X (Z.to_nat (pt_left p + 1))) as (rv & -> & Lr); [lia|].
  cbn [bind]. unfold b_bucket_max, b_bucket_min, vget. rewrite !Nat2Z.id.
  assert (Get : forall (l : list f32) i, i < List.length l -> exists x, nth_error l i = Some x).
  { intros l i Li. destruct (nth_error l i) as [x|] eqn:Ex; [eauto|]. apply nth_error_None in Ex. lia. }
  destruct (Get (b_maxs b) lv) as [xl ->]; [rewrite (bz_max _ _ _ B); exact Ll|].
  destruct (Get (b_mins b) rv) as [xr ->]; [rewrite (bz_min _ _ _ B); exact Lr|]. cbn [bind].
  destruct (is_nan xl); [|cbn [bind]; eauto].
  destruct (Get (b_mins b) (Z.to_nat 1)) as [x1 ->]; [rewrite (bz_min _ _ _ B); pose proof (bz_two _ _ _ B); cbn; lia|]. cbn [bind]. eauto.
Qed.

Lemma string_total srt nm s n : sorts srt -> (forall x : N, neqb x x = true) -> has_rows (mkCol nm (BodyS s)) n ->
  (forall r, In r rows -> r < n) -> exists r, find_best_string_split srt s w gd rows c total = Ret r.
Proof.
  intros Srt Nums Hr Lt. destruct (string_facts nm s n Hr) as ((v & Ev) & Mx & G). unfold find_best_string_split. rewrite Ev. cbn [bind].
  replace (str_max_int s) with (Z.of_nat (Z.to_nat (str_max_int s))) by lia.
  destruct (hist_total (icol_get (s_ints s)) (Z.to_nat (str_max_int s))) as (h & -> & Lh & Vh).
  { intros r I. destruct (G r (Lt r I)) as (k & Ek & Lk). exists (Z.to_nat k). rewrite Z2Nat.id by lia. split; [exact Ek|lia]. }
  cbn [bind]. unfold sort_on_node_score.
  assert (Fb : forallb (fun v0 => neqb (node_score (cf_l2_lambda c) h v0) (node_score (cf_l2_lambda c) h v0)) (h_values h) = true).
  { apply forallb_forall. intros x _. apply Nums. }
  rewrite Fb, orb_true_r. cbn [bind].
  set (less := fun a b => nltb (node_score (cf_l2_lambda c) h a) (node_score (cf_l2_lambda c) h b)).
  assert (Q : Permutation (h_values h) (srt less (h_values h))).
  { apply Srt. unfold less. split; [|split].
    - intros x _. apply (ord_irrefl O).
    - intros x y z _ _ _. apply (ord_trans O).
    - intros x y z Ia Ib Id H. apply (ord_between O); [exact H|apply Nums]. }
  destruct (point_total (mkHist (h_data h) (srt less (h_values h))) false) as [p Ep].
  { cbn. intros x I. rewrite Lh. apply Vh. eapply Permutation_in; [apply Permutation_sym, Q|exact I]. }
  rewrite Ep. cbn [bind]. destruct p; eauto.
Qed.

Lemma search_total srt col n : sorts srt -> (forall x : N, neqb x x = true) \/ (forall s, c_body col <> BodyS s) -> has_rows col n ->
  (forall r, In r rows -> r < n) -> exists r, find_best_split srt col w gd rows c total = Ret r.
Proof.
  intros Srt Q Hr Lt. destruct col as [nm body]. unfold find_best_split. cbn [c_body] in *. destruct body as [b|r|s]; [eapply float_total; eassumption|eauto|].
  destruct Q as [Q|Q]; [|exfalso; exact (Q s eq_refl)]. eapply string_total; eassumption.
Qed.

Lemma find_total srt draw pos features n : sorts srt ->
  (forall x : N, neqb x x = true) \/ (forall col s, In col features -> c_body col <> BodyS s) ->
  (forall col, In col features -> has_rows col n) -> (forall r, In r rows -> r < n) ->
  exists sp f, find_best_feature draw pos srt features w gd rows total c = Ret (sp, f, (pos + List.length features)).
Proof.
  intros Srt Q Hr Lt.
  assert (R : exists results, Forall2 (fun k r => exists col, nth_error features k = Some col /\ find_best_split srt col w gd rows c total = Ret r)
            (fst (uniform_subsample draw pos (List.length features) (to_f64 (cf_feature_rate c)))) results).
  { assert (In1 : forall k, In k (fst (uniform_subsample draw pos (List.length features) (to_f64 (cf_feature_rate c)))) -> k < List.length features).
    { intros k I. apply (subsample_spec draw pos (List.length features) (to_f64 (cf_feature_rate c))) in I. tauto. }
    induction (fst (uniform_subsample draw pos (List.length features) (to_f64 (cf_feature_rate c)))) as [|k l IH]; [exists []; constructor|].
    destruct IH as [rs F]; [intros k' I; apply In1; right; exact I|].
    destruct (nth_error features k) as [col|] eqn:Ek; [|apply nth_error_None in Ek; specialize (In1 k (or_introl eq_refl)); lia].
    pose proof (nth_error_In _ _ Ek) as Ic.
    destruct (search_total srt col n Srt) as [r Er]; [destruct Q as [Q|Q]; [left; exact Q|right; intros s; apply Q, Ic]|apply Hr, Ic|exact Lt|].
    exists (r :: rs). constructor; [eauto|exact F]. }
  destruct R as [results R].
  destruct (find_spec O draw pos srt features w gd rows total c n Srt Hr results R) as (sp & f & E & _). eauto.
Qed.
End Total.
