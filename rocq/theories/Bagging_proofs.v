(** Bagging_proofs.v - bagging (property C80). *)
From Coq Require Import SpecFloat Reals Lra.
From Verif Require Import Base Base_proofs F32 Column ColumnSpec DataStore Strings StringsSpec Strings_proofs Tsv Flatfiles FlatSpec Flat_proofs Num Forest
  Config Score ScoreSpec Eval EvalSpec Tree Train TrainSpec Loss LossSpec Pairwise MergeSpec Merge_proofs Driver Driver_proofs Bagging BaggingSpec.
Local Close Scope R_scope.

Section Bags.
Variables (hash : nat -> Z) (bags : nat).
Notation in_bag := (in_bag hash bags).
Notation out_of_bag := (out_of_bag hash bags).

Lemma out_iff i k : k < bags -> (in_bag i k = false <-> part_of hash bags i k).
Proof.
  intros L. unfold Bagging.in_bag, part_of. rewrite negb_false_iff, Z.eqb_eq. split.
  - intros E. split; [exact L|]. exists (hash i / Z.of_nat bags)%Z. rewrite <- E, (Z.mul_comm _ (Z.of_nat bags)). apply Z.div_mod. lia.
  - intros (_ & q & E). rewrite E, Z.add_comm, Z.mod_add by lia. apply Z.mod_small. lia.
Qed.
Lemma part_unique i k k' : part_of hash bags i k -> part_of hash bags i k' -> k' = k.
Proof.
  intros P P'. pose proof (proj2 (out_iff i k (proj1 P)) P) as A. pose proof (proj2 (out_iff i k' (proj1 P')) P') as B.
  unfold Bagging.in_bag in A, B. rewrite negb_false_iff, Z.eqb_eq in A, B. lia.
Qed.
Lemma part_exists i : 1 <= bags -> exists k, part_of hash bags i k.
Proof.
  intros L. exists (Z.to_nat (hash i mod Z.of_nat bags)). assert (B := Z.mod_pos_bound (hash i) (Z.of_nat bags) ltac:(lia)).
  apply out_iff; [lia|]. unfold Bagging.in_bag. rewrite negb_false_iff, Z.eqb_eq, Z2Nat.id by lia. reflexivity.
Qed.

(** ** The weights *)
Section Weights.
Variables (rows k : nat).
Let body := map (fun i => if in_bag i k then lit "1" else lit "0") (seq 0 rows).
Lemma body_in l : In l body -> l = lit "1" \/ l = lit "0".
Proof. intros I. apply in_map_iff in I. destruct I as (i & <- & _). destruct (in_bag i k); auto. Qed.
Lemma body_nth i : i < rows -> nth_error body i = Some (if in_bag i k then lit "1" else lit "0").
Proof.
  intros L. unfold body. apply (map_nth_error (fun j => if in_bag j k then lit "1" else lit "0") i).
  rewrite (nth_error_nth' _ 0) by (rewrite seq_length; exact L). rewrite seq_nth by exact L. reflexivity.
Qed.
Lemma weights_load fs strtof dirs name one none : found_in fs dirs name (weight_text hash bags rows k) ->
  strtof (lit "1") = (one, 1) -> strtof (lit "0") = (none, 1) ->
  exists c, load_flat fs strtof dirs name = Ret (Some (mkCol name (BodyR c))) /\ r_status c = SOk /\ r_size c = rows /\
    forall i, i < rows -> (part_of hash bags i k -> r_get c i = Ret none) /\ (~ part_of hash bags i k -> k < bags -> r_get c i = Ret one).
Proof.
  intros F S1 S0.
  assert (St : forall l, l = lit "# dtype=raw_floats" \/ l = lit "1" \/ l = lit "0" -> stripped l l).
  { intros l D. apply stripped_refl. intros s' E. destruct D as [->|[->| ->]]; apply (f_equal (@rev ascii)) in E; rewrite rev_app_distr in E; discriminate. }
  destruct (load_raw fs strtof dirs name (lit "# dtype=raw_floats" :: body) [] (lit "# dtype=raw_floats" :: body) [] body) as (c & L & Sc & Z & G).
  - unfold text. rewrite app_nil_r. exact F.
  - intros l [<-|[<-|I]]; [intros []|cbn; intuition discriminate|]. destruct (body_in l I) as [->| ->]; cbn; intuition discriminate.
  - constructor; [apply St; auto|]. assert (A : forall l, In l body -> stripped l l) by (intros l I; apply St; right; apply body_in, I).
    clear -A. induction body as [|x t IH]; constructor; [apply A; left; reflexivity|]. apply IH. intros l I. apply A. right. exact I.
  - apply stripped_refl. intros [|]; discriminate.
  - exists (false :: map (fun _ => true) body). cbv zeta. rewrite app_nil_r. split.
    + constructor; [split; [intros _; exists (tl (lit "# dtype=raw_floats")); reflexivity|reflexivity]|].
      assert (A : forall l, In l body -> ~ starts_with_hash l) by (intros l I (t & E); destruct (body_in l I) as [->| ->]; discriminate).
      clear -A. induction body as [|x t IH]; cbn; constructor.
      * split; [discriminate|]. intros H. destruct (A x (or_introl eq_refl) H).
      * apply IH. intros l I. apply A. right. exact I.
    + cbn. clear. induction body; cbn; congruence.
  - reflexivity.
  - exists c. split; [exact L|]. split; [exact Sc|]. split; [rewrite Z; unfold body; rewrite map_length, seq_length; reflexivity|].
    assert (N1 : number strtof (lit "1") = Some one).
    { unfold number. change (hd [] (cut Ascii.zero (lit "1"))) with (lit "1"). rewrite S1. reflexivity. }
    assert (N0 : number strtof (lit "0") = Some none).
    { unfold number. change (hd [] (cut Ascii.zero (lit "0"))) with (lit "0"). rewrite S0. reflexivity. }
    intros i Li. pose proof (G i _ (body_nth i Li)) as Gi. split.
    + intros P. rewrite (proj2 (out_iff i k (proj1 P)) P), N0 in Gi. exact Gi.
    + intros Np Lk. destruct (in_bag i k) eqn:E; [|destruct (Np (proj1 (out_iff i k Lk) E))]. rewrite N1 in Gi. exact Gi.
Qed.
End Weights.

(** ** The scores *)
Section Scores.
Context {N : Num}.
Lemma pick_out (scores : list (list N)) i k l x : part_of hash bags i k -> nth_error scores k = Some l -> nth_error l i = Some x ->
  pick_scores (out_of_bag i) scores i (seq 0 bags) = inr [x].
Proof.
  intros P E1 E2.
  assert (G : forall m a, a + m <= bags -> pick_scores (out_of_bag i) scores i (seq a m) = inr (if (a <=? k) && (k <? a + m) then [x] else [])).
  { induction m as [|m IH]; intros a La; cbn [seq pick_scores].
    - destruct (Nat.leb_spec a k), (Nat.ltb_spec k (a + 0)); try reflexivity. lia.
    - specialize (IH (S a) ltac:(lia)). unfold Bagging.out_of_bag at 1. destruct (in_bag i a) eqn:E; cbn [negb].
      + rewrite IH. f_equal. assert (Nk : a <> k). { intros ->. rewrite (proj2 (out_iff i k (proj1 P)) P) in E. discriminate. }
        destruct (Nat.leb_spec (S a) k), (Nat.leb_spec a k), (Nat.ltb_spec k (S a + m)), (Nat.ltb_spec k (a + S m)); cbn; reflexivity || lia.
      + assert (a = k). { apply (part_unique i k a P), out_iff; [lia|exact E]. } subst a. rewrite E1, E2, IH.
        destruct (Nat.leb_spec (S k) k), (Nat.leb_spec k k), (Nat.ltb_spec k (k + S m)); cbn; reflexivity || lia. }
  rewrite (G bags 0 (le_n _)). destruct P as (Lk & _). destruct (Nat.ltb_spec k (0 + bags)); [reflexivity|lia].
Qed.
Lemma out_score (scores : list (list N)) i k l x : part_of hash bags i k -> nth_error scores k = Some l -> nth_error l i = Some x ->
  out_of_bag_score hash bags scores i = inr (ndiv (nadd n0 x) (nZ 1)).
Proof. intros P E1 E2. unfold out_of_bag_score. rewrite (pick_out scores i k l x P E1 E2). reflexivity. Qed.

Lemma pick_in (scores : list (list N)) i (s : nat -> N) : (forall k, k < bags -> exists l, nth_error scores k = Some l /\ nth_error l i = Some (s k)) ->
  forall m a, a + m <= bags -> pick_scores (in_bag i) scores i (seq a m) = inr (map s (filter (in_bag i) (seq a m))).
Proof.
  intros H. induction m as [|m IH]; intros a La; [reflexivity|]. cbn [seq pick_scores filter]. rewrite (IH (S a)) by lia.
  destruct (in_bag i a); [|reflexivity]. destruct (H a ltac:(lia)) as (l & -> & ->). reflexivity.
Qed.
Lemma filter_in_length i k : part_of hash bags i k -> List.length (filter (in_bag i) (seq 0 bags)) = bags - 1.
Proof.
  intros P.
  assert (G : forall m a, a + m <= bags -> List.length (filter (in_bag i) (seq a m)) = if (a <=? k) && (k <? a + m) then m - 1 else m).
  { induction m as [|m IH]; intros a La; cbn [seq filter].
    - destruct ((a <=? k) && (k <? a + 0)); reflexivity.
    - specialize (IH (S a) ltac:(lia)). destruct (in_bag i a) eqn:E; cbn [List.length].
      + rewrite IH. assert (Nk : a <> k). { intros ->. rewrite (proj2 (out_iff i k (proj1 P)) P) in E. discriminate. }
        destruct (Nat.leb_spec (S a) k), (Nat.leb_spec a k), (Nat.ltb_spec k (S a + m)), (Nat.ltb_spec k (a + S m)); cbn; lia.
      + assert (a = k). { apply (part_unique i k a P), out_iff; [lia|exact E]. } subst a. rewrite IH.
        destruct (Nat.leb_spec (S k) k), (Nat.leb_spec k k), (Nat.ltb_spec k (k + S m)); cbn; lia. }
  rewrite (G bags 0 (le_n _)). destruct P as (Lk & _). destruct (Nat.ltb_spec k (0 + bags)); [reflexivity|lia].
Qed.
Lemma in_one (scores : list (list N)) i : bags = 1 -> in_bag_score hash bags scores i = inl ZeroDivisionError.
Proof.
  intros B. destruct (part_exists i ltac:(lia)) as (k & P). pose proof (proj2 (out_iff i k (proj1 P)) P) as E. destruct P as (L & _).
  unfold in_bag_score. rewrite B at 2. cbn [seq pick_scores]. assert (k = 0) by lia. subst k. rewrite E. reflexivity.
Qed.
Lemma average_in (scores : list (list N)) i (s : nat -> N) k : 2 <= bags -> part_of hash bags i k ->
  (forall k, k < bags -> exists l, nth_error scores k = Some l /\ nth_error l i = Some (s k)) ->
  in_bag_score hash bags scores i = inr (ndiv (fold_left nadd (map s (filter (in_bag i) (seq 0 bags))) n0) (nZ (Z.of_nat bags - 1))).
Proof.
  intros B P H. unfold in_bag_score. rewrite (pick_in scores i s H bags 0 (le_n _)).
  assert (Len : List.length (map s (filter (in_bag i) (seq 0 bags))) = bags - 1) by (rewrite map_length; apply filter_in_length with k, P).
  unfold average, zlen. rewrite Len. replace (Z.of_nat (bags - 1)) with (Z.of_nat bags - 1)%Z by lia.
  destruct (map s (filter (in_bag i) (seq 0 bags))); [cbn in Len; lia|reflexivity].
Qed.
End Scores.
End Bags.

(** ** Exact averages *)
Lemma fold_plus l : forall a : R, fold_left Rplus l a = (a + fold_right Rplus 0 l)%R.
Proof. induction l as [|x l IH]; intros a; cbn; [lra|]. rewrite IH. lra. Qed.
Lemma in_sum hash bags i k (s : nat -> R) : part_of hash bags i k ->
  fold_right Rplus 0%R (map s (filter (in_bag hash bags i) (seq 0 bags))) = (rsum bags s - s k)%R.
Proof.
  intros P. unfold rsum.
  assert (G : forall m a, a + m <= bags -> fold_right Rplus 0%R (map s (filter (in_bag hash bags i) (seq a m))) =
      (fold_right Rplus 0 (map s (seq a m)) - (if (a <=? k) && (k <? a + m) then s k else 0))%R).
  { induction m as [|m IH]; intros a La; cbn [seq filter map fold_right].
    - destruct (Nat.leb_spec a k), (Nat.ltb_spec k (a + 0)); cbn; lra || lia.
    - specialize (IH (S a) ltac:(lia)). destruct (in_bag hash bags i a) eqn:E; cbn [map fold_right]; rewrite IH.
      + assert (Nk : a <> k). { intros ->. rewrite (proj2 (out_iff hash bags i k (proj1 P)) P) in E. discriminate. }
        destruct (Nat.leb_spec (S a) k), (Nat.leb_spec a k), (Nat.ltb_spec k (S a + m)), (Nat.ltb_spec k (a + S m)); cbn; lra || lia.
      + assert (a = k). { apply (part_unique hash bags i k a P), out_iff; [lia|exact E]. } subst a.
        destruct (Nat.leb_spec (S k) k), (Nat.leb_spec k k), (Nat.ltb_spec k (k + S m)); cbn; lra || lia. }
  rewrite (G bags 0 (le_n _)). destruct P as (Lk & _). destruct (Nat.ltb_spec k (0 + bags)); [reflexivity|lia].
Qed.
Lemma in_average hash bags (scores : list (list Exact)) i (s : nat -> Exact) k : 2 <= bags -> part_of hash bags i k ->
  (forall k, k < bags -> exists l, nth_error scores k = Some l /\ nth_error l i = Some (s k)) ->
  in_bag_score hash bags scores i = inr ((rsum bags s - s k) / (INR bags - 1))%R.
Proof.
  intros B P H. rewrite (average_in hash bags scores i s k B P H). f_equal.
  change (@ndiv Exact) with Rdiv. change (@nadd Exact) with Rplus. change (@n0 Exact) with 0%R. change (@nZ Exact) with IZR.
  assert (Q : fold_left Rplus (@map nat R s (filter (in_bag hash bags i) (seq 0 bags))) 0%R = (rsum bags s - s k)%R).
  { rewrite fold_plus, (in_sum hash bags i k s P). apply Rplus_0_l. }
  change (fold_left Rplus (@map nat R s (filter (in_bag hash bags i) (seq 0 bags))) 0 / IZR (Z.of_nat bags - 1) = (rsum bags s - s k) / (INR bags - 1))%R.
  rewrite Q, minus_IZR, <- INR_IZR_INZ. reflexivity.
Qed.
Lemma out_exact hash bags (scores : list (list Exact)) i k l x : part_of hash bags i k -> nth_error scores k = Some l -> nth_error l i = Some x ->
  out_of_bag_score hash bags scores i = inr x.
Proof.
  intros P E1 E2. rewrite (out_score hash bags scores i k l x P E1 E2). f_equal.
  change (@ndiv Exact) with Rdiv. change (@nadd Exact) with Rplus. change (@n0 Exact) with 0%R. change (@nZ Exact) with IZR. lra.
Qed.

(** ** Out of bag scores do not depend on the target of the row *)
Lemma pick_same {N : Num} hash bags (a b : list (list N)) i k : part_of hash bags i k -> nth_error a k = nth_error b k ->
  out_of_bag_score hash bags a i = out_of_bag_score hash bags b i.
Proof.
  intros P E. unfold out_of_bag_score. f_equal.
  assert (G : forall m s, s + m <= bags -> pick_scores (out_of_bag hash bags i) a i (seq s m) = pick_scores (out_of_bag hash bags i) b i (seq s m)).
  { induction m as [|m IH]; intros s Ls; [reflexivity|]. cbn [seq pick_scores]. rewrite (IH (S s)) by lia.
    destruct (out_of_bag hash bags i s) eqn:O; [|reflexivity].
    assert (s = k). { apply (part_unique hash bags i k s P), out_iff; [lia|]. unfold out_of_bag in O. apply negb_true_iff in O. exact O. }
    subst s. rewrite E. reflexivity. }
  apply G. lia.
Qed.
Lemma out_honest hash bags i v t top draw pos srt names (w : nat -> float_vector) y y' (yv yv' : nat -> Exact) binary
    (lossf : Exact -> Exact -> point Exact) c base (score : forest Exact -> list Exact) (r r' : nat -> trained Exact) : 1 <= bags ->
  (forall k, k < bags -> training v t top srt names (w k) (pointwise_loss t binary lossf)) ->
  (forall k, k < bags -> row_values (w k) (v_rows v) (fun a : nat => (if in_bag hash bags a k then 1 else 0)%R : Exact)) ->
  row_values y (v_rows v) yv -> row_values y' (v_rows v) yv' ->
  (forall a, a < v_rows v -> a <> i -> yv' a = yv a) -> (binary = true -> (yv i = 1%R \/ yv i = (-1)%R) /\ (yv' i = 1%R \/ yv' i = (-1)%R)) ->
  (forall k p, fltb (draw k p) (to_f64 (cf_example_rate c)) = true) -> (forall k p, fltb (draw k p) (to_f64 (cf_feature_rate c)) = true) ->
  (forall b, base = Some b -> forest_fits v b) ->
  (forall k, k < bags -> train v t top (draw k) pos srt names (w k) y (pointwise_loss t binary lossf) c base = Ret (r k)) ->
  (forall k, k < bags -> train v t top (draw k) pos srt names (w k) y' (pointwise_loss t binary lossf) c base = Ret (r' k)) ->
  out_of_bag_score hash bags (map (fun k => score (tr_forest (r k))) (seq 0 bags)) i =
  out_of_bag_score hash bags (map (fun k => score (tr_forest (r' k))) (seq 0 bags)) i.
Proof.
  intros B Tr Rw Ry Ry' Same Bin De Df Fb E E'. destruct (part_exists hash bags i B) as (k & P). pose proof (proj1 P) as L.
  apply (pick_same hash bags _ _ i k P).
  assert (H : forall (g : nat -> list Exact), nth_error (map g (seq 0 bags)) k = Some (g k)).
  { intros g. apply map_nth_error. rewrite (nth_error_nth' _ 0) by (rewrite seq_length; exact L). rewrite seq_nth by exact L. reflexivity. }
  rewrite !H. do 2 f_equal.
  destruct (train_counted v v (fun a => a) t t top (draw k) pos pos srt names (w k) y (w k) y'
      (fun a : nat => (if in_bag hash bags a k then 1 else 0)%R : Exact) yv (fun a : nat => (if in_bag hash bags a k then 1 else 0)%R : Exact) yv'
      binary lossf c base (r k)) as (q & Q & _ & F & _); auto.
  - apply unweighted_counted. intros a La Nw. apply (Same a La). intros ->. apply Nw. rewrite (proj2 (out_iff hash bags i k L) P). reflexivity.
  - intros Eb. destruct (Bin Eb) as (A & A'). split.
    + intros b Lb D. destruct (Nat.eq_dec b i) as [->|Nb]; [exact A'|]. destruct (D b Lb eq_refl (Same b Lb Nb)).
    + intros a La D. destruct (Nat.eq_dec a i) as [->|Na]; [exact A|]. destruct (D (Same a La Na)).
  - rewrite (E' k L) in Q. injection Q as ->. symmetry. exact F.
Qed.

(** ** The number of rows *)
Lemma space_blank c : is_space c = true <-> blank c.
Proof.
  unfold is_space, blank. cbn [In]. rewrite orb_true_iff, andb_true_iff, !Nat.leb_le, Nat.eqb_eq. lia.
Qed.
Lemma trim_white s : trim s = [] -> white s.
Proof.
  intros T. destruct (trim_spec s) as (pre & post & E & F & G & _). rewrite T in E. cbn in E. intros c I. rewrite E in I. apply in_app_iff in I.
  apply space_blank. destruct I as [I|I]; [exact (proj1 (forallb_forall _ _) F c I)|exact (proj1 (forallb_forall _ _) G c I)].
Qed.
Lemma lines_of ls : (forall l, In l ls -> ~ In nl l) -> forall rest, py_lines [] (concat (map (fun l => l ++ [nl]) ls) ++ rest) = ls ++ py_lines [] rest.
Proof.
  assert (G : forall l, ~ In nl l -> forall cur rest, py_lines cur (l ++ nl :: rest) = (rev cur ++ l) :: py_lines [] rest).
  { induction l as [|c l IH]; intros Nl cur rest; cbn [app py_lines].
    - destruct (ascii_dec nl nl) as [_|F]; [|destruct (F eq_refl)]. rewrite app_nil_r. reflexivity.
    - destruct (ascii_dec c nl) as [->|_]; [destruct (Nl (or_introl eq_refl))|]. rewrite IH by (intros I; apply Nl; right; exact I).
      cbn [rev]. rewrite <- app_assoc. reflexivity. }
  induction ls as [|l ls IH]; intros Nl rest; [reflexivity|]. cbn [map concat app]. rewrite <- !app_assoc. cbn [app].
  rewrite G by (apply Nl; left; reflexivity). cbn [rev app]. f_equal. apply IH. intros m I. apply Nl. right. exact I.
Qed.
Lemma rows_counted header rows : starts_with_hash header -> ~ In nl header ->
  (forall r, In r rows -> ~ In nl r /\ ~ starts_with_hash r /\ ~ white r) ->
  count_rows (text (header :: rows) []) = List.length rows.
Proof.
  intros (h & ->) Nh H. unfold count_rows, text. rewrite lines_of; [|intros l [<-|I]; [exact Nh|apply H, I]].
  cbn [py_lines]. rewrite app_nil_r. cbn [filter counts]. destruct (ascii_dec "#"%char "#"%char) as [_|F]; [|destruct (F eq_refl)].
  clear Nh. induction rows as [|r rows IH]; [reflexivity|]. cbn [filter].
  assert (C : counts r = true).
  { destruct (H r (or_introl eq_refl)) as (_ & Nr & Nw). unfold counts. destruct r as [|c r]; [destruct Nw; intros x []|].
    destruct (ascii_dec c "#"%char) as [->|_]; [destruct Nr; exists r; reflexivity|]. destruct (trim (c :: r)) eqn:T; [|reflexivity].
    destruct (Nw (trim_white _ T)). }
  rewrite C. cbn [List.length]. f_equal. apply IH. intros x I. apply H. right. exact I.
Qed.

(** ** The configuration *)
Lemma put_in n v fields : In (n, v) (put_field n v fields).
Proof.
  induction fields as [|(m, x) t IH]; cbn; [left; reflexivity|]. destruct (str_eqb m n); [left; reflexivity|right; exact IH].
Qed.
Lemma bag_config_fields config j : bag_config config = inr j -> exists fields v, j = JObject fields /\ In (lit "data_config", v) fields.
Proof.
  destruct config as [fields|]; [|discriminate]. cbn [bag_config]. destruct (assoc (lit "data_config") fields) as [[inner|]|]; try discriminate.
  injection 1 as <-. do 2 eexists. split; [reflexivity|]. apply put_in.
Qed.
Lemma not_known : ~ In (lit "data_config") config_fields.
Proof.
  intros I. assert (E : existsb (str_eqb (lit "data_config")) config_fields = true).
  { apply existsb_exists. eexists. split; [exact I|]. apply str_eqb_refl. }
  revert E. vm_compute. discriminate.
Qed.
Lemma bag_dies {N : Num} fs can_open (parse_config : str -> option (config N)) parse_forest print_forest show flat tsv srt top draw to_uint pick importance
    (print : json -> str) fg config j : bag_config config = inr j -> rejects_unknown config_fields (fun j => parse_config (print j)) ->
  fg_mode fg = lit "train" -> fs (fg_config_file fg) = Some (print j) ->
  main fs can_open parse_config parse_forest print_forest show flat tsv srt top draw to_uint pick importance fg = ([], Dies).
Proof.
  intros Ej R M F. rewrite main_is_train by exact M. unfold main_train, check, read_or_die, dies.
  destruct (given (fg_config_file fg)); [|reflexivity]. destruct (given (fg_output_dir fg)); [|reflexivity].
  rewrite F. destruct (bag_config_fields config j Ej) as (fields & v & -> & I).
  pose proof (R fields (lit "data_config") v I not_known) as P. cbv beta in P. destruct (print (JObject fields)); [reflexivity|]. rewrite P. reflexivity.
Qed.
