(** Padded_proofs.v - features that add nothing change nothing (for property C86). *)
From Coq Require Import SpecFloat Sorting.Permutation.
From Verif Require Import Base Base_proofs F32 F32_proofs Column ColumnSpec ColumnStr_proofs ColumnProps_proofs DataStore Subsampling Subsampling_proofs Num Forest Par
  Par_proofs Config Score ScoreSpec Score_proofs Eval Eval_proofs Typed_proofs Split SplitSpec Split_proofs Hist_proofs Gain_proofs Category_proofs Tree TreeSpec Sum_proofs
  Feature_proofs Total_proofs Tree_proofs Train TrainSpec Train_proofs Loss PaddedSpec.

(** ** Rows of one value *)
Lemma string_codes nm s n : has_rows (mkCol nm (BodyS s)) n -> one_valued n (mkCol nm (BodyS s)) -> exists k, forall r, r < n -> icol_get (s_ints s) r = Ret k.
Proof.
  intros H One. destruct n as [|n]; [exists 0%Z; intros r; lia|].
  destruct (string_facts _ _ _ H) as (_ & _ & G). destruct (G 0) as (k0 & E0 & L0); [lia|]. exists k0. intros r Lr.
  destruct (G r Lr) as (k & E & L). unfold one_valued in One. cbn [c_body] in One. specialize (One r 0 Lr ltac:(lia)).
  destruct H as (blocks & F & -> & _). destruct (string_dictionary blocks F) as (D1 & D2 & _).
  unfold str_row in One. rewrite E, E0 in One. cbn [bind] in One.
  change (vget (s_strings (string_column_of blocks)) (Z.to_nat k)) with (str_cat_string (string_column_of blocks) (Z.to_nat k)) in One.
  change (vget (s_strings (string_column_of blocks)) (Z.to_nat k0)) with (str_cat_string (string_column_of blocks) (Z.to_nat k0)) in One.
  destruct (D2 (Z.to_nat k)) as [t Et]; [rewrite Z2Nat.id by lia; lia|].
  pose proof (D1 (Z.to_nat k) t ltac:(rewrite Z2Nat.id by lia; lia) Et) as X.
  rewrite Et in One. symmetry in One.
  pose proof (D1 (Z.to_nat k0) t ltac:(rewrite Z2Nat.id by lia; lia) One) as X0. rewrite X in X0. injection X0 as X0.
  rewrite E. f_equal. lia.
Qed.

Lemma equal_one_valued nm nb blocks b : limit_ok nb -> (zlen (concat blocks) < 4294967294)%Z -> b_load nb blocks = Ret b -> below_inf (concat blocks) ->
  (forall x y, In x (concat blocks) -> In y (concat blocks) -> (is_nan x = true /\ is_nan y = true) \/ feqb x y = true) ->
  one_valued (List.length (concat blocks)) (mkCol nm (BodyB b)).
Proof.
  intros Nb Z E Inf H. cbn [one_valued c_body]. unfold one_valued. cbn [c_body]. intros i j Li Lj.
  destruct (nth_error (concat blocks) i) as [x|] eqn:Ei; [|apply nth_error_None in Ei; lia].
  destruct (nth_error (concat blocks) j) as [y|] eqn:Ej; [|apply nth_error_None in Ej; lia].
  destruct (bucketized_size_missing nb blocks b Nb Z E) as (_ & _ & Ms).
  destruct (H x y (nth_error_In _ _ Ei) (nth_error_In _ _ Ej)) as [[Nx Ny]|Q].
  - pose proof (Ms i x Ei) as Mi. pose proof (Ms j y Ej) as Mj. rewrite Nx in Mi. rewrite Ny in Mj. unfold b_missing, icol_missing in Mi, Mj. unfold b_bucket.
    destruct (icol_get (b_ints b) i) as [p| |]; [|discriminate..]. destruct (icol_get (b_ints b) j) as [q| |]; [|discriminate..]. cbn [bind] in Mi, Mj.
    injection Mi as Mi. injection Mj as Mj. f_equal. lia.
  - assert (Nx : is_nan x = false /\ is_nan y = false /\ fleb x y = true /\ fleb y x = true).
    { clear -Q. repeat split; forder. }
    destruct Nx as (Nx & Ny & L1 & L2). destruct (bucketized_ordered nb blocks b Nb Z E Inf i j x y Ei Ej Nx Ny) as (p & q & Ep & Eq & P & _).
    destruct (bucketized_ordered nb blocks b Nb Z E Inf j i y x Ej Ei Ny Nx) as (q' & p' & Eq' & Ep' & P' & _).
    rewrite Eq in Eq'. injection Eq' as <-. specialize (P L1). specialize (P' L2). rewrite Ep in Ep'. injection Ep' as <-. rewrite Ep, Eq. f_equal. lia.
Qed.

Section Padded.
Context {N : Num}.
Variable O : ordered N.

(** ** The search in a column of one value *)
Lemma zero_self : neqb (@n0 N) n0 = true.
Proof. exact (ord_zero O). Qed.
Lemma few_values (f : nat -> bool) k M : (forall j, j <> k -> f j = false) -> forall s, List.length (filter f (seq s M)) <= 1.
Proof.
  intros H. induction M as [|M IH]; intros s; [cbn; lia|]. cbn [seq filter]. destruct (f s) eqn:E; [|apply IH].
  assert (s = k) by (destruct (Nat.eq_dec s k); [assumption|rewrite H in E by assumption; discriminate]). subst s.
  assert (X : filter f (seq (S k) M) = []).
  { assert (L : forall x, In x (seq (S k) M) -> f x = false) by (intros x I; apply in_seq in I; apply H; lia).
    induction (seq (S k) M) as [|x l IHl]; [reflexivity|]. cbn [filter]. rewrite (L x (or_introl eq_refl)). apply IHl. intros y I. apply L. right. exact I. }
  rewrite X. cbn. lia.
Qed.

Lemma none_or_some {A} (l : list A) : l = [] \/ exists a, In a l.
Proof. destruct l as [|a l]; [left; reflexivity|right; exists a; left; reflexivity]. Qed.

Section Search.
Variables (w : float_vector) (gd : list (grad N)) (rg : nat -> grad N) (rows : list nat) (c : config N) (total : grad N).
Hypothesis Wt : weighted w gd rg rows.

Lemma one_hist code k M : (forall r, In r rows -> code r = Ret (Z.of_nat k)) -> k < M ->
  exists h, compute_histogram code (Z.of_nat M) w gd rows = Ret h /\ List.length (h_data h) = M /\ List.length (h_values h) <= 1 /\
    forall v, In v (h_values h) -> v < M.
Proof.
  intros Hc Lk. unfold compute_histogram. rewrite Nat2Z.id. destruct (hist_fold code w gd (fun _ => k) rg M rows) as (h & E & Eh).
  - intros r I. split; [apply Hc, I|exact Lk].
  - intros r I. destruct (Wt r I) as (wi & d & E & Ed & ->). unfold row_grad, vget. rewrite E. cbn [bind]. rewrite Ed. reflexivity.
  - rewrite E. cbn [bind]. eexists. split; [reflexivity|]. cbn [h_data h_values].
    split; [rewrite Eh, map_length, seq_length; reflexivity|]. split.
    + apply (few_values _ k). intros j Nj. unfold non_zero. destruct (nth_error h j) as [d|] eqn:Ej; [|reflexivity].
      rewrite Eh, nth_error_map in Ej. destruct (nth_error (seq 0 M) j) as [j'|] eqn:Es; [|discriminate]. cbn in Ej. injection Ej as <-.
      assert (Lj : j < M) by (rewrite <- (seq_length M 0); apply nth_error_Some; congruence).
      assert (j' = j) by (rewrite (nth_error_nth' _ 0), seq_nth in Es by (rewrite ?seq_length; lia); injection Es as <-; reflexivity). subst j'.
      unfold cell. assert (X : filter (fun _ : nat => k =? j) rows = []).
      { destruct (Nat.eqb_spec k j) as [->|_]; [congruence|]. clear. induction rows as [|r l IH]; [reflexivity|exact IH]. }
      rewrite X. unfold total_of. cbn [map fold_left gzero gg gh]. rewrite zero_self. reflexivity.
    + intros v I. apply filter_In in I. destruct I as [I _]. apply in_seq in I. lia.
Qed.

Lemma one_point h place : List.length (h_values h) <= 1 -> (forall v, In v (h_values h) -> v < List.length (h_data h)) ->
  find_best_split_point c h total place = Ret None.
Proof.
  intros L H. unfold find_best_split_point. destruct (h_values h) as [|v [|v' l]]; [reflexivity| |cbn in L; lia].
  cbn [scan Z.eqb bind]. unfold vget. destruct (nth_error (h_data h) v) as [d|] eqn:E; [reflexivity|].
  apply nth_error_None in E. specialize (H v (or_introl eq_refl)). lia.
Qed.

Lemma one_search srt col n : sorts srt -> has_rows col n -> one_valued n col -> (forall r, In r rows -> r < n) ->
  find_best_split srt col w gd rows c total = Ret None.
Proof.
  intros Srt Hr One Lt. destruct col as [nm body]. unfold find_best_split. cbn [c_body] in *. destruct body as [b|r|s]; [|reflexivity|].
  - destruct (has_rows_bucketized nm b n Hr) as [M B]. unfold find_best_float_split.
    destruct (bz_vec _ _ _ B) as [v ->]. cbn [bind]. rewrite (bz_int _ _ _ B).
    destruct n as [|n].
    { destruct (one_hist (b_bucket b) 0 M) as (h & Eh & Lh & Lv & Vh); [intros r I; specialize (Lt r I); lia|pose proof (bz_two _ _ _ B); lia|].
      rewrite Eh. cbn [bind]. rewrite one_point; [reflexivity|exact Lv|rewrite Lh; exact Vh]. }
    destruct (bz_row _ _ _ B 0) as (k & x & Ek & Lk & _); [lia|].
    destruct (one_hist (b_bucket b) k M) as (h & Eh & Lh & Lv & Vh).
    { intros r I. rewrite <- Ek. apply One; [apply Lt, I|lia]. } { exact Lk. }
    rewrite Eh. cbn [bind]. rewrite one_point; [reflexivity|exact Lv|rewrite Lh; exact Vh].
  - destruct (string_facts nm s n Hr) as ((v & Ev) & Mx & G). unfold find_best_string_split. rewrite Ev. cbn [bind].
    replace (str_max_int s) with (Z.of_nat (Z.to_nat (str_max_int s))) by lia.
    destruct (string_codes nm s n Hr One) as [z Hz].
    assert (Hist : exists h, compute_histogram (icol_get (s_ints s)) (Z.of_nat (Z.to_nat (str_max_int s))) w gd rows = Ret h /\
      List.length (h_data h) = Z.to_nat (str_max_int s) /\ List.length (h_values h) <= 1 /\ forall v, In v (h_values h) -> v < Z.to_nat (str_max_int s)).
    { destruct (none_or_some rows) as [Er|[r0 I0]].
      - rewrite Er. unfold compute_histogram. cbn [fold_res bind]. eexists. split; [reflexivity|]. cbn [h_data h_values].
        rewrite repeat_length, Nat2Z.id. split; [reflexivity|]. split.
        + apply (few_values _ 0). intros j _. unfold non_zero. destruct (nth_error _ j) as [d|] eqn:Ej; [|reflexivity].
          apply nth_error_In, repeat_spec in Ej. subst d. cbn [gzero gg gh]. rewrite zero_self. reflexivity.
        + intros x I. apply filter_In in I. destruct I as [I _]. apply in_seq in I. lia.
      - destruct (G r0 (Lt r0 I0)) as (k & Ek & Lk). rewrite (Hz r0 (Lt r0 I0)) in Ek. injection Ek as ->.
        apply (one_hist _ (Z.to_nat k)); [|lia]. intros r I. rewrite Z2Nat.id by lia. apply Hz, Lt, I. }
    destruct Hist as (h & -> & Lh & Lv & Vh). cbn [bind]. unfold sort_on_node_score.
    apply Nat.leb_le in Lv. rewrite Lv. cbn [orb bind].
    set (less := fun a b => nltb (node_score (cf_l2_lambda c) h a) (node_score (cf_l2_lambda c) h b)).
    assert (Q : Permutation (h_values h) (srt less (h_values h))).
    { apply Srt. apply Nat.leb_le in Lv. unfold less. split; [|split].
      - intros x _. apply (ord_irrefl O).
      - intros x y z0 _ _ _. apply (ord_trans O).
      - intros x y z0 Ia Ib _ H. destruct (h_values h) as [|v1 [|v2 vs]]; [destruct Ia| |cbn in Lv; lia].
        destruct Ia as [<-|[]], Ib as [<-|[]]. rewrite (ord_irrefl O) in H. discriminate. }
    apply Nat.leb_le in Lv. rewrite one_point; [reflexivity| |]; cbn [h_values h_data].
    + rewrite <- (Permutation_length Q). exact Lv.
    + intros x I. rewrite Lh. apply Vh. eapply Permutation_in; [apply Permutation_sym, Q|exact I].
Qed.
End Search.

(** ** A sum that returns has read its rows *)
Lemma sum_task_rows w (gd : list (grad N)) i rows : forall m r, run Nat.eq_dec (sum_task w gd i rows) m = Ret r ->
  forall row, In row rows -> exists d, row_grad w gd row = Ret d.
Proof.
  induction rows as [|r rows IH]; intros m x E row I; [destruct I|]. cbn [sum_task] in E.
  destruct (row_grad w gd r) as [d| |] eqn:Ed; cbn [pres pbind] in E; [|discriminate..].
  destruct I as [<-|I]; [eauto|]. cbn [run] in E. destruct (m i); [|discriminate]. eapply IH; [exact E|exact I].
Qed.
Lemma sum_rows w (gd : list (grad N)) threads rows total : 1 <= threads -> weighted_sum threads w gd rows = Ret total ->
  forall row, In row rows -> exists d, row_grad w gd row = Ret d.
Proof.
  intros T E. unfold weighted_sum in E. destruct (divide_slice_spec rows (threads * 5)) as (slices & Es & _ & Cc & _); [lia|].
  rewrite Es in E. cbn [bind] in E. rewrite <- Cc.
  destruct (run_tasks _ _ _) as [m| |] eqn:R in E; [|discriminate..]. clear E Es Cc.
  unfold sum_tasks in R. revert R. generalize (vec_mem (repeat (@gzero N) (List.length slices))). generalize 0.
  induction slices as [|s l IH]; intros i m0 R row I; [destruct I|]. cbn [List.length seq combine map run_tasks fst snd] in R.
  destruct (run Nat.eq_dec (sum_task w gd i s) m0) as [[[] m1]| |] eqn:R1; [|discriminate..]. cbn [bind] in R.
  cbn [concat] in I. apply in_app_iff in I. destruct I as [I|I]; [eapply sum_task_rows; eassumption|eapply IH; eassumption].
Qed.
Definition read_grad (w : float_vector) (gd : list (grad N)) (r : nat) : grad N := match row_grad w gd r with Ret d => d | _ => gzero end.
Lemma sum_weighted w (gd : list (grad N)) threads rows total : 1 <= threads -> weighted_sum threads w gd rows = Ret total ->
  weighted w gd (read_grad w gd) rows /\ forall r, In r rows -> r < List.length gd.
Proof.
  intros T E.
  assert (X : forall r, In r rows -> exists wi d, w r = Ret wi /\ nth_error gd r = Some d /\ read_grad w gd r = gscale (nfloat wi) d).
  { intros r I. destruct (sum_rows w gd threads rows total T E r I) as [d Ed]. unfold read_grad. rewrite Ed. unfold row_grad, vget in Ed.
    destruct (w r) as [wi| |]; [|discriminate..]. cbn [bind] in Ed. destruct (nth_error gd r) as [d0|]; [|discriminate]. cbn [bind] in Ed. injection Ed as <-. eauto. }
  split; [exact X|]. intros r I. destruct (X r I) as (_ & d & _ & Ed & _). apply nth_error_Some. congruence.
Qed.

(** ** The best feature *)
Lemma named_same col (sp a b : split N) : named col sp a -> named col sp b -> a = b.
Proof.
  intros (F1 & F2 & F3 & F4) (G1 & G2 & G3 & G4). destruct a as [a1 a2 a3 a4], b as [b1 b2 b3 b4]. cbn [sp_feature sp_float sp_gain sp_cat] in *.
  assert (a3 = b3); [|congruence]. destruct (sp_cat sp) as [[nm idx]|]; [|congruence].
  destruct F4 as (s & names & B & -> & Fa), G4 as (s' & names' & B' & -> & Fb). rewrite B in B'. injection B' as <-.
  do 2 f_equal. clear -Fa Fb. revert names' Fb. induction Fa as [|k x idx names [_ Hx] Fa IH]; intros names' Fb; inversion Fb as [|? y ? ? [_ Hy] Fb']; subst; [reflexivity|].
  rewrite Hx in Hy. injection Hy as <-. f_equal. apply IH, Fb'.
Qed.

Section At.
Variables (f : column -> option (split N)) (n : nat).
Hypothesis Raw : forall c r, c_body c = BodyR r -> f c = None.
Hypothesis Body : forall c d, c_body c = c_body d -> f c = f d.

Lemma padded_in fs : forall seen fs', padded n seen fs fs' -> (forall c, In c fs' -> one_valued n c -> f c = None) ->
  forall c, In c fs' -> f c = None \/ exists d, f c = f d /\ (In d seen \/ In d fs).
Proof.
  intros seen fs' P. induction P as [seen|seen c fs fs' P IH|seen c r fs fs' B P IH|seen c fs fs' One P IH|seen c d fs fs' Id B P IH]; intros H x I;
    [destruct I|..]; (destruct I as [<-|I]; [|specialize (IH (fun y J => H y (or_intror J)) x I)]); try exact IH.
  - right. exists c. split; [reflexivity|]. right. left. reflexivity.
  - destruct IH as [E|(d & E & [[<-|I2]|I2])]; [left; exact E|right; exists c; split; [exact E|]; right; left; reflexivity|right; exists d; split; [exact E|]..].
    + left. exact I2.
    + right. right. exact I2.
  - left. eapply Raw, B.
  - left. apply H; [left; reflexivity|exact One].
  - right. exists d. split; [apply Body, B|]. left. exact Id.
Qed.

Lemma padded_at fs : forall seen fs', padded n seen fs fs' -> (forall c, In c fs' -> one_valued n c -> f c = None) ->
  forall i col, nth_error fs i = Some col -> exists i', nth_error fs' i' = Some col /\
    forall j' col', nth_error fs' j' = Some col' -> f col' = None \/
      exists d, f col' = f d /\ (In d seen \/ exists j, nth_error fs j = Some d /\ (j' < i' -> j < i)).
Proof.
  intros seen fs' P. induction P as [seen|seen c fs fs' P IH|seen c r fs fs' B P IH|seen c fs fs' One P IH|seen c d fs fs' Id B P IH]; intros H i col E.
  - destruct i; discriminate.
  - destruct i as [|i].
    + exists 0. split; [exact E|]. intros [|j'] x X.
      * cbn in X. injection X as <-. right. exists c. split; [reflexivity|]. right. exists 0. split; [reflexivity|lia].
      * cbn in X. apply nth_error_In in X. destruct (padded_in _ _ _ P (fun y J => H y (or_intror J)) x X) as [F|(d & F & [[<-|I]|I])];
          [left; exact F|right; exists c; split; [exact F|]; right; exists 0; split; [reflexivity|lia]|right; exists d; split; [exact F|]..].
        -- left. exact I.
        -- right. apply In_nth_error in I. destruct I as [j J]. exists (S j). split; [exact J|lia].
    + destruct (IH (fun y J => H y (or_intror J)) i col E) as (i' & E' & K). exists (S i'). split; [exact E'|]. intros [|j'] x X.
      * cbn in X. injection X as <-. right. exists c. split; [reflexivity|]. right. exists 0. split; [reflexivity|lia].
      * cbn in X. destruct (K j' x X) as [F|(d & F & [[<-|I]|(j & J & L)])];
          [left; exact F|right; exists c; split; [exact F|]; right; exists 0; split; [reflexivity|lia]|right; exists d; split; [exact F|]..].
        -- left. exact I.
        -- right. exists (S j). split; [exact J|lia].
  - destruct (IH (fun y J => H y (or_intror J)) i col E) as (i' & E' & K). exists (S i'). split; [exact E'|]. intros [|j'] x X.
    + cbn in X. injection X as <-. left. eapply Raw, B.
    + cbn in X. destruct (K j' x X) as [F|(d & F & [I|(j & J & L)])]; [left; exact F|right; exists d; split; [exact F|]..].
      * left. exact I.
      * right. exists j. split; [exact J|lia].
  - destruct (IH (fun y J => H y (or_intror J)) i col E) as (i' & E' & K). exists (S i'). split; [exact E'|]. intros [|j'] x X.
    + cbn in X. injection X as <-. left. apply H; [left; reflexivity|exact One].
    + cbn in X. destruct (K j' x X) as [F|(d & F & [I|(j & J & L)])]; [left; exact F|right; exists d; split; [exact F|]..].
      * left. exact I.
      * right. exists j. split; [exact J|lia].
  - destruct (IH (fun y J => H y (or_intror J)) i col E) as (i' & E' & K). exists (S i'). split; [exact E'|]. intros [|j'] x X.
    + cbn in X. injection X as <-. right. exists d. split; [apply Body, B|]. left. exact Id.
    + cbn in X. destruct (K j' x X) as [F|(d' & F & [I|(j & J & L)])]; [left; exact F|right; exists d'; split; [exact F|]..].
      * left. exact I.
      * right. exists j. split; [exact J|lia].
Qed.
End At.

Lemma first_best_once (rs : list (option (split N))) i j a b : first_best rs i a -> first_best rs j b -> i = j.
Proof.
  intros (Ei & _ & Mi & Fi) (Ej & _ & Mj & Fj). destruct (Nat.lt_trichotomy i j) as [L|[E|L]]; [|exact E|].
  - pose proof (Fj i _ Ei L) as X. pose proof (Mi j _ Ej) as Y. destruct (eq_true_false_abs _ X Y).
  - pose proof (Fi j _ Ej L) as X. pose proof (Mj i _ Ei) as Y. destruct (eq_true_false_abs _ X Y).
Qed.

Lemma Forall2_map {A B} (R : A -> B -> Prop) (g : A -> B) l : (forall a, In a l -> R a (g a)) -> Forall2 R l (map g l).
Proof. intros H. induction l as [|a l IH]; constructor; [apply H; left; reflexivity|]. apply IH. intros x I. apply H. right. exact I. Qed.
Lemma nth_map {A B} (g : A -> B) (l : list A) i a : nth_error l i = Some a -> nth_error (map g l) i = Some (g a).
Proof. intros E. rewrite nth_error_map, E. reflexivity. Qed.
Lemma nth_seq n i : i < n -> nth_error (seq 0 n) i = Some i.
Proof. intros L. rewrite (nth_error_nth' _ 0) by (rewrite seq_length; exact L). rewrite seq_nth by exact L. reflexivity. Qed.

Section Best.
Variables (draw : nat -> spec_float) (srt : (nat -> nat -> bool) -> list nat -> list nat) (w : float_vector) (gd : list (grad N)) (c : config N) (n threads : nat)
  (fs fs' : list column).
Hypothesis Thr : 1 <= threads.
Hypothesis Srt : sorts srt.
Hypothesis Rows : forall col, In col fs -> has_rows col n.
Hypothesis Rows' : forall col, In col fs' -> has_rows col n.
Hypothesis Len : List.length gd = n.
Hypothesis Pad : padded n [] fs fs'.
Hypothesis All : forall p, fltb (draw p) (to_f64 (cf_feature_rate c)) = true.

Lemma best_padded rows total pos pos0 sp f p : weighted_sum threads w gd rows = Ret total ->
  find_best_feature draw pos srt fs w gd rows total c = Ret (sp, f, p) ->
  find_best_feature draw pos0 srt fs' w gd rows total c = Ret (sp, f, pos0 + List.length fs').
Proof.
  intros Sum E. destruct (sum_weighted w gd threads rows total Thr Sum) as [Wt Lt]. rewrite Len in Lt.
  set (g := fun col => match find_best_split srt col w gd rows c total with Ret r => r | _ => None end).
  assert (Smp : forall ps m, fst (uniform_subsample draw ps m (to_f64 (cf_feature_rate c))) = seq 0 m)
    by (intros ps m; apply subsample_all; intros k _; apply All).
  destruct (search_results draw srt w gd fs c rows total pos sp f p E) as [rs0 R0]. rewrite Smp in R0.
  assert (Def : forall col, In col fs -> find_best_split srt col w gd rows c total = Ret (g col)).
  { intros col I. apply In_nth_error in I. destruct I as [k Ek].
    assert (Lk : k < List.length fs) by (apply nth_error_Some; congruence).
    destruct (Forall2_nth_error_l _ _ _ R0 _ _ (nth_seq _ _ Lk)) as (r & _ & col' & Ec & Ef). rewrite Ek in Ec. injection Ec as <-.
    unfold g. rewrite Ef. reflexivity. }
  assert (One : forall col, In col fs' -> one_valued n col -> find_best_split srt col w gd rows c total = Ret None).
  { intros col I O1. apply (one_search w gd (read_grad w gd) rows c total Wt srt col n Srt (Rows' col I) O1 Lt). }
  assert (Body : forall a b, c_body a = c_body b -> find_best_split srt a w gd rows c total = find_best_split srt b w gd rows c total)
    by (intros a b B; unfold find_best_split; rewrite B; reflexivity).
  assert (Def' : forall col, In col fs' -> find_best_split srt col w gd rows c total = Ret (g col)).
  { assert (X : forall seen l l', padded n seen l l' -> (forall x, In x seen \/ In x l -> find_best_split srt x w gd rows c total = Ret (g x)) ->
      (forall x, In x l' -> one_valued n x -> find_best_split srt x w gd rows c total = Ret None) -> forall x, In x l' -> find_best_split srt x w gd rows c total = Ret (g x)).
    { clear -Body. induction 1 as [seen|seen c0 l l' P IH|seen c0 r l l' B P IH|seen c0 l l' O1 P IH|seen c0 d l l' Id B P IH]; intros D O2 x I; [destruct I|..].
      - destruct I as [<-|I]; [apply D; right; left; reflexivity|]. apply IH; [|intros y J; apply O2; right; exact J|exact I].
        intros y [[<-|J]|J]; apply D; cbn; auto.
      - destruct I as [<-|I]; [unfold g, find_best_split; rewrite B; reflexivity|]. apply IH; [exact D|intros y J; apply O2; right; exact J|exact I].
      - destruct I as [<-|I]; [unfold g; rewrite (O2 c0 (or_introl eq_refl) O1); reflexivity|]. apply IH; [exact D|intros y J; apply O2; right; exact J|exact I].
      - destruct I as [<-|I]; [unfold g; rewrite (Body c0 d B), (D d (or_introl Id)); reflexivity|]. apply IH; [exact D|intros y J; apply O2; right; exact J|exact I]. }
    apply (X [] fs fs' Pad); [intros x [[]|I]; apply Def, I|exact One]. }
  assert (R : forall ps l, (forall col, In col l -> find_best_split srt col w gd rows c total = Ret (g col)) ->
    Forall2 (fun k r => exists col, nth_error l k = Some col /\ find_best_split srt col w gd rows c total = Ret r)
      (fst (uniform_subsample draw ps (List.length l) (to_f64 (cf_feature_rate c)))) (map g l)).
  { intros ps l D. rewrite Smp. clear -D. assert (G : forall pre, Forall2 (fun k r => exists col, nth_error (pre ++ l) k = Some col /\ find_best_split srt col w gd rows c total = Ret r)
      (seq (List.length pre) (List.length l)) (map g l)); [|exact (G [])].
    induction l as [|a l IH]; intros pre; cbn [List.length seq map]; constructor.
    - exists a. rewrite nth_error_app2, Nat.sub_diag by lia. split; [reflexivity|]. apply D. left. reflexivity.
    - specialize (IH (fun x I => D x (or_intror I)) (pre ++ [a])). rewrite app_length, Nat.add_1_r, <- app_assoc in IH. exact IH. }
  destruct (find_spec O draw pos srt fs w gd rows total c n Srt Rows (map g fs) (R pos fs Def)) as (sp1 & f1 & E1 & S1).
  rewrite E in E1. injection E1 as <- <- ->.
  destruct (find_spec O draw pos0 srt fs' w gd rows total c n Srt Rows' (map g fs') (R pos0 fs' Def')) as (sp2 & f2 & E2 & S2). rewrite E2.
  assert (Gb : forall a b, c_body a = c_body b -> g a = g b) by (intros a b B; unfold g; rewrite (Body a b B); reflexivity).
  assert (Gr : forall a r, c_body a = BodyR r -> g a = None) by (intros a r B; unfold g, find_best_split; rewrite B; reflexivity).
  assert (Go : forall a, In a fs' -> one_valued n a -> g a = None) by (intros a I O1; unfold g; rewrite (One a I O1); reflexivity).
  destruct f as [col|].
  - destruct S1 as (i & k & sp0 & FB & Ek & Ec & Ef & Nm & _).
    assert (k = i).
    { rewrite Smp in Ek. assert (i < List.length fs) by (rewrite <- (seq_length (List.length fs) 0); apply nth_error_Some; congruence).
      rewrite nth_seq in Ek by assumption. injection Ek as <-. reflexivity. } subst k.
    assert (Gc : g col = Some sp0) by (unfold g; rewrite Ef; reflexivity).
    destruct (padded_at g n Gr Gb _ _ _ Pad Go i col Ec) as (i' & Ec' & K).
    assert (FB' : first_best (map g fs') i' sp0).
    { destruct FB as (F1 & F2 & F3 & F4). split; [rewrite (nth_map g _ _ _ Ec'), Gc; reflexivity|]. split; [exact F2|]. split.
      - intros j r Ej. rewrite nth_error_map in Ej. destruct (nth_error fs' j) as [x|] eqn:Ex; [|discriminate]. cbn in Ej. injection Ej as <-.
        destruct (K j x Ex) as [->|(d & -> & [[]|(j0 & Ed & _)])]; [|exact (F3 j0 _ (nth_map g _ _ _ Ed))].
        cbn. apply (lt_asym O). exact F2.
      - intros j r Ej Lj. rewrite nth_error_map in Ej. destruct (nth_error fs' j) as [x|] eqn:Ex; [|discriminate]. cbn in Ej. injection Ej as <-.
        destruct (K j x Ex) as [->|(d & -> & [[]|(j0 & Ed & L0)])]; [exact F2|exact (F4 j0 _ (nth_map g _ _ _ Ed) (L0 Lj))]. }
    destruct f2 as [col2|].
    + destruct S2 as (i2 & k2 & sp3 & FB2 & Ek2 & Ec2 & Ef2 & Nm2 & _). pose proof (first_best_once _ _ _ _ _ FB' FB2). subst i2.
      assert (k2 = i').
      { rewrite Smp in Ek2. assert (i' < List.length fs') by (apply nth_error_Some; congruence). rewrite nth_seq in Ek2 by assumption. injection Ek2 as <-. reflexivity. }
      subst k2. rewrite Ec' in Ec2. injection Ec2 as <-. rewrite Ef in Ef2. injection Ef2 as <-.
      rewrite (named_same _ _ _ _ Nm Nm2). reflexivity.
    + exfalso. destruct S2 as [_ S2]. destruct FB' as (F1 & _). apply nth_error_In in F1. specialize (S2 _ F1). discriminate.
  - destruct S1 as [-> S1]. destruct f2 as [col2|]; [|destruct S2 as [-> _]; reflexivity].
    exfalso. destruct S2 as (i2 & k2 & sp3 & (F1 & _) & _). rewrite nth_error_map in F1. destruct (nth_error fs' i2) as [x|] eqn:Ex; [|discriminate].
    cbn in F1. injection F1 as F1. apply nth_error_In in Ex. destruct (padded_in g n Gr Gb _ _ _ Pad Go x Ex) as [F|(d & F & [[]|I])]; [congruence|].
    specialize (S1 (g d) (in_map g _ _ I)). congruence.
Qed.

Hypothesis AllR : forall p, fltb (draw p) (to_f64 (cf_example_rate c)) = true.

Lemma grow_padded top fuel : forall step pos pos0 t q samples r p,
  grow top draw threads srt w gd fs c fuel step pos t q samples = Ret (r, p) ->
  exists p', grow top draw threads srt w gd fs' c fuel step pos0 t q samples = Ret (r, p').
Proof.
  induction fuel as [|fuel IH]; intros step pos pos0 t q samples r p E; cbn [grow] in E |- *; [injection E as <- <-; eauto|].
  destruct q as [|nd0 q0]; [injection E as <- <-; eauto|]. set (q := nd0 :: q0) in *. clearbody q.
  destruct (negb _); [injection E as <- <-; eauto|]. destruct (vget q _) as [nd| |]; [|discriminate E..]. cbn [bind] in E |- *.
  destruct (nd_feature nd) as [col|]; [|injection E as <- <-; eauto].
  destruct (run sloc_dec _ _) as [[k m]| |]; [|discriminate E..]. cbn [bind] in E |- *. cbv zeta in *.
  match type of E with bind (weighted_sum _ _ _ ?l) _ = _ => destruct (weighted_sum threads w gd l) as [lt| |] eqn:El; [|discriminate E..] end. cbn [bind] in E |- *.
  match type of E with bind (weighted_sum _ _ _ ?l) _ = _ => destruct (weighted_sum threads w gd l) as [rt| |] eqn:Er; [|discriminate E..] end. cbn [bind] in E |- *.
  match type of E with bind ?x _ = _ => destruct x as [[[lsp lf] p1]| |] eqn:Bl; [|discriminate E..] end. cbn [bind] in E.
  match type of E with bind ?x _ = _ => destruct x as [[[rsp rf] p2]| |] eqn:Br; [|discriminate E..] end. cbn [bind] in E.
  rewrite (best_padded _ _ _ pos0 _ _ _ El Bl). cbn [bind]. rewrite (best_padded _ _ _ (pos0 + List.length fs') _ _ _ Er Br). cbn [bind].
  eapply IH. exact E.
Qed.

Lemma fit_padded top pos pos0 r p : fit_tree top draw threads srt w gd fs c pos = Ret (r, p) ->
  exists p', fit_tree top draw threads srt w gd fs' c pos0 = Ret (r, p').
Proof.
  unfold fit_tree. destruct (uniform_subsample draw pos _ _) as [sa q1] eqn:U. destruct (uniform_subsample draw pos0 _ _) as [sb q1'] eqn:U'.
  assert (Es : sa = seq 0 (List.length gd)) by (change sa with (fst (sa, q1)); rewrite <- U; apply subsample_all; intros k _; apply AllR).
  assert (Es' : sb = seq 0 (List.length gd)) by (change sb with (fst (sb, q1')); rewrite <- U'; apply subsample_all; intros k _; apply AllR).
  rewrite Es, Es'. clear U U' Es Es' sa sb. intros E.
  destruct (weighted_sum threads w gd (seq 0 (List.length gd))) as [total| |] eqn:Et; [|discriminate E..]. cbn [bind] in E |- *.
  match type of E with bind ?x _ = _ => destruct x as [[[sp f] p1]| |] eqn:B; [|discriminate E..] end. cbn [bind] in E.
  rewrite (best_padded _ _ _ q1' _ _ _ Et B). cbn [bind]. eapply grow_padded. exact E.
Qed.
End Best.

(** ** The training *)
Section Train.
Variables (v : view) (threads : nat) (top : nat -> nat -> list N -> nat) (draw : nat -> spec_float)
  (srt : (nat -> nat -> bool) -> list nat -> list nat) (names names' : list str) (w : float_vector) (lf : loss N)
  (fs fs' : list column) (c : config N).
Hypothesis Tr : training v threads top srt names w lf.
Hypothesis Tr' : training v threads top srt names' w lf.
Hypothesis Lo : load_features (v_get v) (v_order v names) = (SOk, fs).
Hypothesis Lo' : load_features (v_get v) (v_order v names') = (SOk, fs').
Hypothesis Pad : padded (v_rows v) [] fs fs'.
Hypothesis All : forall p, fltb (draw p) (to_f64 (cf_feature_rate c)) = true.
Hypothesis AllR : forall p, fltb (draw p) (to_f64 (cf_example_rate c)) = true.
Hypothesis Un : unrandom lf.

Lemma rounds_padded todo : forall i k trees st gd ls pos pos0 r, List.length gd = v_rows v -> List.length (snd st) = v_rows v ->
  rounds v threads top draw srt w fs c lf todo i k trees st gd ls pos = Ret r ->
  rounds v threads top draw srt w fs' c lf todo i k trees st gd ls pos0 = Ret r.
Proof.
  induction todo as [|todo IH]; intros i k trees st gd ls pos pos0 r L Lf E; cbn [rounds] in E |- *; [exact E|].
  destruct (l_round lf ls pos (snd st) gd) as [[[[x gd'] ls'] pos']| |] eqn:R; [|discriminate..]. cbn [bind] in E.
  pose proof (ts_loss _ _ _ _ _ _ _ Tr _ _ _ _ _ _ _ _ Lf L R) as L'. destruct (Un _ _ pos0 _ _ _ _ _ _ R) as [p0 R0]. rewrite R0. cbn [bind].
  destruct (nfinite x); [|exact E].
  destruct (fit_tree (top i) draw threads srt w gd' fs c pos') as [[t p2]| |] eqn:Ft; [|discriminate..]. cbn [bind] in E.
  destruct (fit_padded draw srt w gd' c (v_rows v) threads fs fs' (ts_threads _ _ _ _ _ _ _ Tr) (ts_sort _ _ _ _ _ _ _ Tr)
    (fun col I => proj2 (proj2 (proj2 (loaded_cols v threads top srt names w lf fs Tr Lo col I))))
    (fun col I => proj2 (proj2 (proj2 (loaded_cols v threads top srt names' w lf fs' Tr' Lo' col I)))) L' Pad All AllR (top i) pos' p0 t p2 Ft) as [p3 Ft'].
  rewrite Ft'. cbn [bind].
  destruct (add_tree_scores _ _ _ x st) as [st'| |] eqn:A; [|discriminate..]. cbn [bind] in E |- *.
  pose proof (proj2 (scores_length _ _ _ _ _ _ A)) as Lf'. rewrite Lf in Lf'. exact (IH _ _ _ _ _ _ _ _ _ L' Lf' E).
Qed.
End Train.

(** ** The lists of features in the configuration are not read *)
Section Lists.
Variables (c c' : config N).
Hypotheses (C1 : cf_num_leaves c' = cf_num_leaves c) (C2 : cf_shrinkage c' = cf_shrinkage c) (C3 : cf_min_gain c' = cf_min_gain c)
  (C4 : cf_l2_lambda c' = cf_l2_lambda c) (C5 : cf_min_hessian c' = cf_min_hessian c) (C6 : cf_example_rate c' = cf_example_rate c)
  (C7 : cf_feature_rate c' = cf_feature_rate c).

Lemma scan_lists h total place values : forall i left best, scan c' h total place values i left best = scan c h total place values i left best.
Proof.
  induction values as [|v l IH]; intros i left best; [reflexivity|]. cbn [scan].
  assert (B : best_here c' h total left place = best_here c h total left place) by (unfold best_here, cut_gain; rewrite C4, C5; reflexivity).
  rewrite B, C3.
  destruct (if (i =? 0)%Z then _ else _) as [b| |]; [|reflexivity..]. cbn [bind]. destruct (vget (h_data h) v) as [d| |]; [|reflexivity..]. cbn [bind]. apply IH.
Qed.
Lemma split_lists srt col w gd rows total : find_best_split srt col w gd rows c' total = find_best_split srt col w gd rows c total.
Proof.
  assert (P : forall h place, find_best_split_point c' h total place = find_best_split_point c h total place)
    by (intros h place; unfold find_best_split_point; rewrite scan_lists; reflexivity).
  unfold find_best_split, find_best_float_split, find_best_string_split. destruct (c_body col) as [b|r|s]; [|reflexivity|].
  - destruct (icol_vec (b_ints b)); [|reflexivity..]. cbn [bind]. destruct (compute_histogram _ _ _ _ _); [|reflexivity..]. cbn [bind]. rewrite P. reflexivity.
  - destruct (icol_vec (s_ints s)); [|reflexivity..]. cbn [bind]. destruct (compute_histogram _ _ _ _ _); [|reflexivity..]. cbn [bind].
    rewrite C4. destruct (sort_on_node_score _ _ _); [|reflexivity..]. cbn [bind]. rewrite P. reflexivity.
Qed.
Lemma best_lists draw pos srt fs w gd rows total : find_best_feature draw pos srt fs w gd rows total c' = find_best_feature draw pos srt fs w gd rows total c.
Proof.
  unfold find_best_feature. rewrite C7. destruct (uniform_subsample _ _ _ _) as [smp p].
  assert (T : search_tasks srt fs w gd rows c' total smp = search_tasks srt fs w gd rows c total smp).
  { unfold search_tasks. apply map_ext. intros [i k]. unfold search_task. cbn [fst snd]. destruct (vget fs k); cbn [pres pbind]; [rewrite split_lists; reflexivity|reflexivity..]. }
  rewrite T. reflexivity.
Qed.
Lemma grow_lists top draw threads srt w gd fs fuel : forall step pos t q samples,
  grow top draw threads srt w gd fs c' fuel step pos t q samples = grow top draw threads srt w gd fs c fuel step pos t q samples.
Proof.
  induction fuel as [|fuel IH]; intros step pos t q samples; [reflexivity|]. cbn [grow]. rewrite C1, C4.
  destruct q as [|nd0 q0]; [reflexivity|]. set (q := nd0 :: q0). clearbody q.
  destruct (negb _); [reflexivity|]. destruct (vget q _) as [nd| |]; [|reflexivity..]. cbn [bind]. destruct (nd_feature nd) as [col|]; [|reflexivity].
  destruct (run sloc_dec _ _) as [[k m]| |]; [|reflexivity..]. cbn [bind]. cbv zeta.
  destruct (weighted_sum _ _ _ _) as [lt| |]; [|reflexivity..]. cbn [bind]. destruct (weighted_sum _ _ _ _) as [rt| |]; [|reflexivity..]. cbn [bind].
  rewrite best_lists. destruct (find_best_feature draw pos _ _ _ _ _ _ _) as [[[lsp lf] p1]| |]; [|reflexivity..]. cbn [bind].
  rewrite best_lists. destruct (find_best_feature draw p1 _ _ _ _ _ _ _) as [[[rsp rf] p2]| |]; [|reflexivity..]. cbn [bind]. apply IH.
Qed.
Lemma fit_lists top draw threads srt w gd fs pos : fit_tree top draw threads srt w gd fs c' pos = fit_tree top draw threads srt w gd fs c pos.
Proof.
  unfold fit_tree. rewrite C1, C4, C6. destruct (uniform_subsample _ _ _ _) as [smp p].
  destruct (weighted_sum _ _ _ _) as [t| |]; [|reflexivity..]. cbn [bind]. rewrite best_lists.
  destruct (find_best_feature _ _ _ _ _ _ _ _ _) as [[[sp f] p1]| |]; [|reflexivity..]. cbn [bind]. apply grow_lists.
Qed.
Lemma rounds_lists v threads top draw srt w fs lf todo : forall i k trees st gd ls pos,
  rounds v threads top draw srt w fs c' lf todo i k trees st gd ls pos = rounds v threads top draw srt w fs c lf todo i k trees st gd ls pos.
Proof.
  induction todo as [|todo IH]; intros i k trees st gd ls pos; [reflexivity|]. cbn [rounds]. rewrite C2.
  destruct (l_round lf ls pos (snd st) gd) as [[[[x g] s1] p1]| |]; [|reflexivity..]. cbn [bind]. destruct (nfinite x); [|reflexivity]. rewrite fit_lists.
  destruct (fit_tree _ _ _ _ _ _ _ _ _) as [[t p2]| |]; [|reflexivity..]. cbn [bind]. destruct (add_tree_scores _ _ _ _ _) as [s2| |]; [|reflexivity..]. cbn [bind]. apply IH.
Qed.
End Lists.

Theorem train_padded v threads top draw pos pos' srt names names' w y lf (c : config N) ff cfs base r fs fs' :
  training v threads top srt names w lf -> training v threads top srt names' w lf ->
  load_features (v_get v) (v_order v names) = (SOk, fs) -> load_features (v_get v) (v_order v names') = (SOk, fs') -> padded (v_rows v) [] fs fs' ->
  (forall p, fltb (draw p) (to_f64 (cf_example_rate c)) = true) -> (forall p, fltb (draw p) (to_f64 (cf_feature_rate c)) = true) -> unrandom lf ->
  train v threads top draw pos srt names w y lf c base = Ret r ->
  train v threads top draw pos' srt names' w y lf (with_features ff cfs c) base = Ret r.
Proof.
  intros Tr Tr' Lo Lo' Pad AllR All Un E. unfold train in *. rewrite Lo in E. rewrite Lo'.
  change (check_config (with_features ff cfs c)) with (check_config c). destruct (check_config c); [|exact E].
  change (group_column (with_features ff cfs c) (v_get v)) with (group_column c (v_get v)).
  destruct (group_column c (v_get v)) as [group| |]; [|discriminate E..]. cbn [bind] in E |- *.
  destruct (l_init lf (v_rows v) w y group) as [[e|ls]| |]; [exact E| |discriminate E..]. cbn [bind] in E |- *.
  destruct (Eval_proofs.init_ok (N := N) v threads (ts_threads _ _ _ _ _ _ _ Tr)) as (st0 & Es & Ok & Q). rewrite Es in E |- *. cbn [bind] in E |- *.
  destruct (init_with_base v threads _ n0 [] st0) as [[[k trees] st]| |] eqn:B; [|discriminate E..]. cbn [bind] in E |- *.
  assert (Lf : List.length (snd st) = v_rows v) by (rewrite (base_length _ _ _ _ _ _ _ _ _ B); apply Ok).
  rewrite (rounds_lists c (with_features ff cfs c) eq_refl eq_refl eq_refl eq_refl eq_refl eq_refl eq_refl).
  change (cf_num_trees (with_features ff cfs c)) with (cf_num_trees c).
  exact (rounds_padded v threads top draw srt names names' w lf fs fs' c Tr Tr' Lo Lo' Pad All AllR Un _ _ _ _ _ _ _ _ _ _ (repeat_length _ _) Lf E).
Qed.
End Padded.

Lemma pointwise_unrandom {N : Num} t binary (lossf : N -> N -> point N) : unrandom (pointwise_loss t binary lossf).
Proof.
  intros s pos pos' f gd x gd' s' p E. cbn [l_round pointwise_loss] in *.
  match type of E with bind ?r _ = _ => destruct r as [[a b]| |]; [|discriminate E..] end. cbn [bind] in *. injection E as <- <- <- <-. eauto.
Qed.
