(** Merge_proofs.v - in exact arithmetic rows count by their weight (for property C77). *)
From Coq Require Import SpecFloat Reals Lra.
From Verif Require Import Base Base_proofs F32 Column ColumnSpec DataStore Subsampling Subsampling_proofs Num Forest Par Par_proofs Config
  Score ScoreSpec Score_proofs Eval EvalSpec Eval_proofs Split SplitSpec Hist_proofs Gain_proofs Category_proofs Tree TreeSpec Sum_proofs
  Split_proofs Total_proofs Tree_proofs Train TrainSpec Train_proofs Loss LossSpec Loss_proofs Threads_proofs MergeSpec.
Local Close Scope R_scope.

Lemma Forall2_at {A B} (R : A -> B -> Prop) l l' : Forall2 R l l' -> forall i a, nth_error l i = Some a -> exists b, nth_error l' i = Some b /\ R a b.
Proof.
  induction 1 as [|a b l l' H F IH]; intros [|i] x E; cbn in E |- *; try discriminate; [|apply IH, E].
  injection E as <-. eauto.
Qed.

Lemma Forall2_and {A B} (R : A -> B -> Prop) (P : A -> Prop) (Q : B -> Prop) l l' : Forall2 R l l' -> (forall a, In a l -> P a) -> (forall b, In b l' -> Q b) ->
  Forall2 (fun a b => R a b /\ P a /\ Q b) l l'.
Proof. induction 1 as [|a b l l' H F IH]; intros Ha Hb; constructor; [cbn in *; auto|]. apply IH; cbn in *; auto. Qed.

(** ** Sums over covering sets of rows *)
Section Cover.
Variables (n n' : nat) (to : nat -> nat) (rg rg' : nat -> grad Exact).
Hypothesis To : forall a, a < n -> to a < n'.
Hypothesis Rg : forall b, b < n' -> cell to rg (seq 0 n) b = rg' b.

Definition covers (rows rows' : list nat) : Prop :=
  NoDup rows /\ NoDup rows' /\ (forall r, In r rows -> r < n) /\ (forall r, In r rows' -> r < n') /\
  forall a, a < n -> (In a rows <-> In (to a) rows').

Lemma covers_all : covers (seq 0 n) (seq 0 n').
Proof. clear Rg rg rg'.
  split; [apply seq_NoDup|]. split; [apply seq_NoDup|]. split; [intros r I; apply in_seq in I; lia|]. split; [intros r I; apply in_seq in I; lia|].
  intros a L. rewrite !in_seq. pose proof (To a L). lia.
Qed.

Lemma covers_sum rows rows' : covers rows rows' -> sum_of rg rows = sum_of rg' rows'.
Proof.
  intros (D & D' & L & L' & C). set (lb := fun b => if in_dec Nat.eq_dec b rows' then true else false).
  assert (Lb : forall b, lb b = true <-> In b rows') by (intros b; unfold lb; destruct (in_dec Nat.eq_dec b rows'); intuition discriminate).
  unfold sum_of. rewrite (total_perm (map rg rows) (map rg (filter (fun r => lb (to r)) (seq 0 n)))).
  2:{ apply Permutation_map, NoDup_Permutation; [exact D|apply NoDup_filter, seq_NoDup|]. intros a. rewrite filter_In, in_seq, Lb. split.
      - intros I. pose proof (L a I). split; [lia|]. apply C; assumption.
      - intros [I J]. apply C; [lia|exact J]. }
  rewrite (total_buckets to rg n' lb (seq 0 n)) by (intros r I; apply in_seq in I; apply To; lia).
  rewrite (map_ext_in _ rg').
  2:{ intros b I. apply filter_In in I. destruct I as [I _]. apply in_seq in I. apply Rg. lia. }
  apply total_perm, Permutation_map, NoDup_Permutation; [apply NoDup_filter, seq_NoDup|exact D'|]. intros b. rewrite filter_In, in_seq, Lb.
  split; [tauto|]. intros I. pose proof (L' b I). split; [lia|exact I].
Qed.

Lemma covers_part bk bk' k rows rows' : (forall a, a < n -> bk' (to a) = bk a) -> covers rows rows' ->
  covers (filter (fun r => bk r =? k) rows) (filter (fun r => bk' r =? k) rows').
Proof.
  intros B (D & D' & L & L' & C). split; [apply NoDup_filter, D|]. split; [apply NoDup_filter, D'|].
  split; [intros r I; apply filter_In in I; apply L; tauto|]. split; [intros r I; apply filter_In in I; apply L'; tauto|].
  intros a La. rewrite !filter_In, (B a La), (C a La). reflexivity.
Qed.

(** ** Histograms *)
Section Hist.
Variables (w w' : float_vector) (gd gd' : list (grad Exact)).
Hypothesis Wt : forall rows, (forall r, In r rows -> r < n) -> weighted w gd rg rows.
Hypothesis Wt' : forall rows, (forall r, In r rows -> r < n') -> weighted w' gd' rg' rows.

Lemma weighted_row {N : Num} w0 (gd0 : list (grad N)) rg0 rows : weighted w0 gd0 rg0 rows -> forall r, In r rows -> row_grad w0 gd0 r = Ret (rg0 r).
Proof. intros W r I. destruct (W r I) as (wi & d & E & Ed & ->). unfold row_grad, vget. rewrite E. cbn [bind]. rewrite Ed. reflexivity. Qed.

Lemma hist_covers code code' M rows rows' : (forall r, r < n -> exists k, code r = Ret (Z.of_nat k) /\ k < M) ->
  (forall r, r < n' -> exists k, code' r = Ret (Z.of_nat k) /\ k < M) -> (forall a, a < n -> code' (to a) = code a) -> covers rows rows' ->
  compute_histogram code' (Z.of_nat M) w' gd' rows' = compute_histogram code (Z.of_nat M) w gd rows.
Proof.
  intros Hc Hc' Eq C. set (cd (co : nat -> res Z) r := match co r with Ret k => Z.to_nat k | _ => 0 end).
  pose proof C as (_ & _ & L & L' & _). unfold compute_histogram. rewrite Nat2Z.id.
  destruct (hist_fold code w gd (cd code) rg M rows) as (h & E & Eh).
  - intros r I. destruct (Hc r (L r I)) as (k & Ek & Lk). unfold cd. rewrite Ek, Nat2Z.id. auto.
  - apply weighted_row, Wt, L.
  - destruct (hist_fold code' w' gd' (cd code') rg' M rows') as (h' & E' & Eh').
    + intros r I. destruct (Hc' r (L' r I)) as (k & Ek & Lk). unfold cd. rewrite Ek, Nat2Z.id. auto.
    + apply weighted_row, Wt', L'.
    + rewrite E, E'. cbn [bind]. assert (X : h' = h); [|rewrite X; reflexivity]. rewrite Eh, Eh'. apply map_ext. intros k. unfold cell. symmetry.
      apply covers_sum, covers_part; [|exact C]. intros a La. unfold cd. rewrite Eq by exact La. reflexivity.
Qed.

(** ** The split search *)
Variables (srt : (nat -> nat -> bool) -> list nat -> list nat) (c : config Exact).

Lemma float_covers nm nm' b b' rows rows' total : like n to (mkCol nm (BodyB b)) (mkCol nm' (BodyB b')) -> has_rows (mkCol nm (BodyB b)) n ->
  has_rows (mkCol nm' (BodyB b')) n' -> covers rows rows' ->
  find_best_float_split b' w' gd' rows' c total = find_best_float_split b w gd rows c total.
Proof.
  intros (_ & _ & Em & Ex & En & Eb) H H' C. destruct (has_rows_bucketized _ _ _ H) as [M B]. destruct (has_rows_bucketized _ _ _ H') as [M' B'].
  assert (M' = M). { rewrite (bz_int _ _ _ B), (bz_int _ _ _ B') in Em. lia. } subst M'.
  unfold find_best_float_split. destruct (bz_vec _ _ _ B) as [x ->]. destruct (bz_vec _ _ _ B') as [x' ->]. cbn [bind].
  rewrite (bz_int _ _ _ B), (bz_int _ _ _ B'), (hist_covers (b_bucket b) (b_bucket b') M rows rows').
  - destruct (compute_histogram _ _ _ _ _) as [h| |]; [|reflexivity..]. cbn [bind]. destruct (find_best_split_point c h total true) as [[p|]| |]; [|reflexivity..].
    cbn [bind]. destruct (vget (h_values h) _) as [lv| |]; [|reflexivity..]. cbn [bind]. destruct (vget (h_values h) _) as [rv| |]; [|reflexivity..]. cbn [bind].
    rewrite Ex, !En. reflexivity.
  - intros r L. destruct (bz_row _ _ _ B r L) as (k & y & Ek & Lk & _). eauto.
  - intros r L. destruct (bz_row _ _ _ B' r L) as (k & y & Ek & Lk & _). eauto.
  - exact Eb.
  - exact C.
Qed.

Lemma string_covers nm nm' s s' rows rows' total : like n to (mkCol nm (BodyS s)) (mkCol nm' (BodyS s')) -> has_rows (mkCol nm (BodyS s)) n ->
  has_rows (mkCol nm' (BodyS s')) n' -> covers rows rows' ->
  find_best_string_split srt s' w' gd' rows' c total = find_best_string_split srt s w gd rows c total.
Proof.
  intros (_ & _ & Em & _ & Eb) H H' C. destruct (string_facts _ _ _ H) as ((x & Ex) & Mx & G). destruct (string_facts _ _ _ H') as ((x' & Ex') & _ & G').
  unfold find_best_string_split. rewrite Ex, Ex'. cbn [bind]. rewrite Em in *. replace (str_max_int s) with (Z.of_nat (Z.to_nat (str_max_int s))) by lia.
  rewrite (hist_covers (icol_get (s_ints s)) (icol_get (s_ints s')) (Z.to_nat (str_max_int s)) rows rows'); [reflexivity| | |exact Eb|exact C].
  - intros r L. destruct (G r L) as (k & Ek & Lk). exists (Z.to_nat k). rewrite Z2Nat.id by lia. split; [exact Ek|lia].
  - intros r L. destruct (G' r L) as (k & Ek & Lk). exists (Z.to_nat k). rewrite Z2Nat.id by lia. split; [exact Ek|lia].
Qed.

Lemma search_covers col col' rows rows' total : like n to col col' -> has_rows col n -> has_rows col' n' -> covers rows rows' ->
  find_best_split srt col' w' gd' rows' c total = find_best_split srt col w gd rows c total.
Proof.
  intros K H H' C. destruct col as [nm body], col' as [nm' body']. unfold find_best_split. cbn [c_body].
  destruct body as [b|r|s], body' as [b'|r'|s']; try (destruct K as (_ & _ & []); fail); [|reflexivity|].
  - eapply float_covers; eassumption.
  - eapply string_covers; eassumption.
Qed.

Definition olike (f f' : option column) : Prop :=
  match f, f' with None, None => True | Some a, Some b => like n to a b | _, _ => False end.

Lemma names_like col col' (sp : split Exact) : like n to col col' -> with_names col' sp = with_names col sp.
Proof.
  intros (En & _ & K). unfold with_names. rewrite En. destruct (sp_cat sp) as [[names idx]|]; [|reflexivity].
  destruct (c_body col) as [b|r|s], (c_body col') as [b'|r'|s']; try contradiction; [reflexivity..|]. destruct K as (_ & Es & _).
  assert (X : forall l acc, fold_res (fun acc k => let! n0 := str_cat_string s' (Z.to_nat (u32 k)) in Ret (acc ++ [n0])) l acc
    = fold_res (fun acc k => let! n0 := str_cat_string s (Z.to_nat (u32 k)) in Ret (acc ++ [n0])) l acc).
  { induction l as [|k l IH]; intros acc; [reflexivity|]. cbn [fold_res]. rewrite Es.
    destruct (str_cat_string s (Z.to_nat (u32 k))); cbn [bind]; [apply IH|reflexivity..]. }
  rewrite X. reflexivity.
Qed.

Variables (features features' : list column) (draw : nat -> spec_float).
Hypothesis Fl : Forall2 (fun a b => like n to a b /\ has_rows a n /\ has_rows b n') features features'.
Hypothesis All : forall p, fltb (draw p) (to_f64 (cf_feature_rate c)) = true.

Lemma feature_covers rows rows' total pos pos0 sp f pos1 : covers rows rows' ->
  find_best_feature draw pos srt features w gd rows total c = Ret (sp, f, pos1) ->
  exists f', olike f f' /\
  find_best_feature draw pos0 srt features' w' gd' rows' total c = Ret (sp, f', (pos0 + List.length features')).
Proof.
  intros C. unfold find_best_feature.
  destruct (uniform_subsample draw pos _ _) as [smp p1] eqn:U. destruct (uniform_subsample draw pos0 (List.length features') _) as [smp' p1'] eqn:U'.
  assert (Es : smp = seq 0 (List.length features)).
  { change smp with (fst (smp, p1)). rewrite <- U. apply subsample_all. intros k _. apply All. }
  assert (Es' : smp' = seq 0 (List.length features')).
  { change smp' with (fst (smp', p1')). rewrite <- U'. apply subsample_all. intros k _. apply All. }
  assert (Ep : p1' = pos0 + List.length features').
  { change p1' with (snd (smp', p1')). rewrite <- U'. apply (subsample_spec draw pos0 (List.length features') (to_f64 (cf_feature_rate c))). }
  assert (Lf : List.length features' = List.length features) by (symmetry; eapply Forall2_len; exact Fl).
  rewrite Lf in Es'. rewrite Es' in *. rewrite Es in *. clear U U' Es Es' smp smp'. rewrite seq_length.
  assert (Ts : search_tasks srt features' w' gd' rows' c total (seq 0 (List.length features)) = search_tasks srt features w gd rows c total (seq 0 (List.length features))).
  { unfold search_tasks. apply map_ext. intros [i k]. cbn [fst snd]. unfold search_task.
    unfold vget. destruct (nth_error features k) as [col|] eqn:E.
    - destruct (Forall2_at _ _ _ Fl _ _ E) as (col' & -> & K & H & H'). cbn [pres pbind].
      rewrite (search_covers col col' rows rows' total K H H' C). reflexivity.
    - assert (X : nth_error features' k = None) by (apply nth_error_None; rewrite Lf; apply nth_error_None, E). rewrite X. reflexivity. }
  rewrite Ts. destruct (run_tasks _ _ _) as [m| |]; [|discriminate..]. cbn [bind].
  destruct (read_vec m 0 (List.length features)) as [|sp0 l].
  - intros E. injection E as <- <- <-. exists None. split; [exact Logic.I|]. rewrite <- Ep. reflexivity.
  - destruct (best_index l 1 0 sp0) as [bi best]. destruct (nltb n0 (sp_gain best)).
    + unfold vget. destruct (nth_error (seq 0 (List.length features)) bi) as [k|]; [|discriminate]. cbn [bind].
      destruct (nth_error features k) as [col|] eqn:E; [|discriminate]. cbn [bind].
      destruct (Forall2_at _ _ _ Fl _ _ E) as (col' & -> & K & _). cbn [bind]. rewrite (names_like col col' best K).
      destruct (with_names col best) as [b| |]; [|discriminate..]. cbn [bind]. intros X. injection X as <- <- <-.
      exists (Some col'). split; [exact K|]. rewrite <- Ep. reflexivity.
    + intros E. injection E as <- <- <-. exists None. split; [exact Logic.I|]. rewrite <- Ep. reflexivity.
Qed.
End Hist.
End Cover.

(** ** Rows take the same way *)
Section Way.
Variables (n : nat) (to : nat -> nat) (store store' : str -> option column).
Hypothesis Cols : forall name, match store name, store' name with
                               | Some c, Some c' => like n to c c'
                               | None, None => True
                               | _, _ => False
                               end.

Lemma goes_like c c' (sp : split Exact) a d : like n to c c' -> a < n -> (goes_left c sp a d <-> goes_left c' sp (to a) d).
Proof.
  intros K L. destruct c as [nm body], c' as [nm' body']. destruct K as (_ & _ & K). cbn [c_body] in K.
  destruct body as [b|r|s], body' as [b'|r'|s']; try contradiction.
  - destruct K as (_ & Ex & _ & Eb). specialize (Eb a L).
    assert (Em : b_missing b' (to a) = b_missing b a) by (unfold b_missing, icol_missing; unfold b_bucket in Eb; rewrite Eb; reflexivity).
    assert (Er : b_row_max b' (to a) = b_row_max b a).
    { unfold b_row_max. rewrite Eb. destruct (b_bucket b a); [|reflexivity..]. cbn [bind]. apply Ex. }
    split; intros G; inversion G; subst; (econstructor; [eassumption|congruence|..]; try congruence).
  - split; intros G; inversion G; subst; constructor.
  - destruct K as (_ & Es & Ei). specialize (Ei a L).
    assert (Er : str_row s' (to a) = str_row s a).
    { unfold str_row. rewrite Ei. destruct (icol_get (s_ints s) a) as [k| |]; [|reflexivity..]. cbn [bind]. apply Es. }
    split; intros G; inversion G; subst.
    + eapply GoName; [eassumption|rewrite Er; eassumption|assumption].
    + eapply GoIndex; [eassumption|rewrite Ei; eassumption|assumption].
    + eapply GoName; [eassumption|rewrite <- Er; eassumption|assumption].
    + eapply GoIndex; [eassumption|rewrite <- Ei; eassumption|assumption].
Qed.

Lemma store_like name c : store name = Some c -> exists c', store' name = Some c' /\ like n to c c'.
Proof. intros E. specialize (Cols name). rewrite E in Cols. destruct (store' name) as [c'|]; [eauto|contradiction]. Qed.
Lemma store_like' name c' : store' name = Some c' -> exists c, store name = Some c /\ like n to c c'.
Proof. intros E. specialize (Cols name). rewrite E in Cols. destruct (store name) as [c|]; [eauto|contradiction]. Qed.

Lemma decision_like name (sp : split Exact) a d : a < n ->
  ((exists c, store name = Some c /\ goes_left c sp a d) <-> exists c, store' name = Some c /\ goes_left c sp (to a) d).
Proof.
  intros L. split; intros (c & E & G).
  - destruct (store_like _ _ E) as (c' & E' & K). exists c'. split; [exact E'|]. apply (goes_like c c' sp a d K L), G.
  - destruct (store_like' _ _ E) as (c0 & E' & K). exists c0. split; [exact E'|]. apply (goes_like c0 c sp a d K L), G.
Qed.

Lemma reaches_like (t : tree Exact) a p : a < n -> (reaches store t a p <-> reaches store' t (to a) p).
Proof.
  intros L. revert t. induction p as [|d p IH]; intros t; [split; constructor|].
  split; intros R; inversion R as [|? ? c left p' Hl Es G R']; subst.
  - destruct (proj1 (decision_like _ _ _ d L) (ex_intro _ c (conj Es G))) as (c' & Es' & G'). eapply ReachNext; [exact Hl|exact Es'|exact G'|]. apply IH, R'.
  - destruct (proj2 (decision_like _ _ _ d L) (ex_intro _ c (conj Es G))) as (c' & Es' & G'). eapply ReachNext; [exact Hl|exact Es'|exact G'|]. apply IH, R'.
Qed.

Lemma routes_like (t : tree Exact) a s : a < n -> routes store t a s -> routes store' t (to a) s.
Proof.
  intros L R. remember a as row eqn:Er. induction R as [t row H|t row c left s Hl Es G R IH]; subst row.
  - apply RouteLeaf, H.
  - destruct (proj1 (decision_like _ _ _ left L) (ex_intro _ c (conj Es G))) as (c' & Es' & G'). eapply RouteNode; [exact Hl|exact Es'|exact G'|]. exact (IH eq_refl L).
Qed.
End Way.

(** ** Growing a tree *)
Section Grow.
Variables (n n' : nat) (to : nat -> nat) (rg rg' : nat -> grad Exact) (w w' : float_vector) (gd gd' : list (grad Exact))
  (srt : (nat -> nat -> bool) -> list nat -> list nat) (c : config Exact) (features features' : list column) (draw : nat -> spec_float)
  (top : nat -> list Exact -> nat) (t0 t0' : nat) (store store' : str -> option column).
Hypothesis To : forall a, a < n -> to a < n'.
Hypothesis Rg : forall b, b < n' -> cell to rg (seq 0 n) b = rg' b.
Hypothesis Wt : forall rows, (forall r, In r rows -> r < n) -> weighted w gd rg rows.
Hypothesis Wt' : forall rows, (forall r, In r rows -> r < n') -> weighted w' gd' rg' rows.
Hypothesis Fl : Forall2 (fun a b => like n to a b /\ has_rows a n /\ has_rows b n') features features'.
Hypothesis All : forall p, fltb (draw p) (to_f64 (cf_feature_rate c)) = true.
Hypothesis AllR : forall p, fltb (draw p) (to_f64 (cf_example_rate c)) = true.
Hypothesis Cols : forall name, match store name, store' name with
                               | Some c, Some c' => like n to c c'
                               | None, None => True
                               | _, _ => False
                               end.
Hypothesis Top : tops top.
Hypothesis Thr : 1 <= t0.
Hypothesis Thr' : 1 <= t0'.
Hypothesis Srt : sorts srt.
Hypothesis Fc : forall col, In col features -> store (c_name col) = Some col /\ has_rows col n.
Hypothesis Fc' : forall col, In col features' -> store' (c_name col) = Some col /\ has_rows col n'.

Notation cov := (covers n n' to).
Notation smp k := (NoDup (seq 0 k) /\ forall r, In r (seq 0 k) -> r < k).
Lemma smp_all k : smp k.
Proof. split; [apply seq_NoDup|]. intros r I. apply in_seq in I. lia. Qed.

Notation invA := (inv draw t0 srt w gd features c store (seq 0 n)).
Notation invB := (inv draw t0' srt w' gd' features' c store' (seq 0 n')).
Definition qlike (q q' : list node_data) : Prop :=
  Forall2 (fun a b => nd_path b = nd_path a /\ olike n to (nd_feature a) (nd_feature b)) q q'.

Lemma sum_covers rows rows' total : cov rows rows' -> weighted_sum t0 w gd rows = Ret total -> weighted_sum t0' w' gd' rows' = Ret total.
Proof.
  intros C. pose proof C as (_ & _ & L & L' & _). rewrite (sum_exact w gd rg t0 rows Thr (Wt rows L)), (sum_exact w' gd' rg' t0' rows' Thr' (Wt' rows' L')).
  rewrite (covers_sum n n' to rg rg' To Rg rows rows' C). exact (fun E => E).
Qed.

Lemma best_total rows' total pos : (forall r, In r rows' -> r < n') -> exists r, find_best_feature draw pos srt features' w' gd' rows' total c = Ret r.
Proof.
  intros L. destruct (find_total exact_ordered w' gd' rg' rows' c total (Wt' rows' L) srt draw pos features' n' Srt) as (sp & f & E).
  - left. intros x. apply Reqb_iff. reflexivity.
  - intros col I. apply Fc', I.
  - exact L.
  - eauto.
Qed.

Lemma leaf_covers (t : tree Exact) kl kr kl' kr' p s sp (rows rows' : list nat) d : full features t -> full features' t -> has_leaf t p s sp ->
  rows_of store (seq 0 n) (set_children t p kl kr) (p ++ [d]) rows -> rows_of store' (seq 0 n') (set_children t p kl' kr') (p ++ [d]) rows' ->
  (exists a b c0 d0, kl = TNode a b TNone TNone /\ kr = TNode c0 d0 TNone TNone) ->
  (exists a b c0 d0, kl' = TNode a b TNone TNone /\ kr' = TNode c0 d0 TNone TNone) -> cov rows rows'.
Proof.
  intros F F' Lf [D I] [D' I'] (a1 & a2 & a3 & a4 & -> & ->) (b1 & b2 & b3 & b4 & -> & ->).
  split; [exact D|]. split; [exact D'|]. split; [intros r X; apply I in X; apply smp_all; tauto|]. split; [intros r X; apply I' in X; apply smp_all; tauto|].
  intros a La. rewrite I, I', (expand_new _ _ _ _ store features t p s sp F Lf a d), (expand_new _ _ _ _ store' features' t p s sp F' Lf (to a) d).
  rewrite (reaches_like n to store store' Cols t a p La), (decision_like n to store store' Cols _ (the_split sp) a d La), !in_seq. pose proof (To a La). intuition lia.
Qed.

Lemma remove_like q q' : qlike q q' -> forall i, qlike (remove_nth i q) (remove_nth i q').
Proof.
  unfold remove_nth. induction 1 as [|a b q q' H F IH]; intros i; [destruct i; constructor|].
  destruct i as [|i]; cbn [firstn skipn app]; [exact F|]. constructor; [exact H|]. apply IH.
Qed.

Lemma slice_len {A} (l : list A) a b k : slice l (a + k, a + b) = slice l (a + k, a + k + (b - k)).
Proof. unfold slice. cbn [fst snd]. f_equal. lia. Qed.

Lemma grow_like fuel : forall step pos pos0 t q q' samples samples' r p1, invA t q samples -> invB t q' samples' -> qlike q q' ->
  grow top draw t0 srt w gd features c fuel step pos t q samples = Ret (r, p1) ->
  exists p2, grow top draw t0' srt w' gd' features' c fuel step pos0 t q' samples' = Ret (r, p2).
Proof.
  induction fuel as [|fuel IH]; intros step pos pos0 t q q' samples samples' r p1 I I' Q E; cbn [grow] in E |- *.
  - injection E as <- <-. eauto.
  - assert (Ln : List.length q' = List.length q) by (symmetry; eapply Forall2_len; exact Q).
    assert (Gn : map (node_gain t) q' = map (node_gain t) q).
    { clear -Q. induction Q as [|a b q q' [Hp _] F IH]; [reflexivity|]. cbn [map]. f_equal; [|exact IH]. unfold node_gain. rewrite Hp. reflexivity. }
    destruct q as [|nd0 q0] eqn:Eq.
    { destruct q'; [|discriminate Ln]. injection E as <- <-. eauto. }
    destruct q' as [|nd0' q0'] eqn:Eq'; [discriminate Ln|]. rewrite <- Eq in *. rewrite <- Eq' in *. clear nd0 q0 Eq nd0' q0' Eq'.
    rewrite Ln. destruct (negb _); [injection E as <- <-; eauto|]. rewrite Gn.
    unfold vget in E |- *. destruct (nth_error q (top step (map (node_gain t) q))) as [nd|] eqn:End; [|discriminate E]. cbn [bind] in E.
    destruct (Forall2_at _ _ _ Q _ _ End) as (nd' & End' & Pt & Of). rewrite End'. cbn [bind].
    destruct (nd_feature nd) as [col|] eqn:Fe, (nd_feature nd') as [col'|] eqn:Fe'; try contradiction; [|injection E as <- <-; eauto].
    assert (End2 : nth_error q' (top step (map (node_gain t) q')) = Some nd') by (rewrite Gn; exact End').
    destruct (step_inv exact_ordered draw t0 srt w gd features c store n rg (seq 0 n) Thr Srt Fc Wt (smp_all n) t q samples _ nd col I End Fe
      (max_ok top draw t0 srt w gd features c store (seq 0 n) Top t q samples step nd I End)) as (k & m & Run & LtL & LtR & Nx).
    destruct (step_inv exact_ordered draw t0' srt w' gd' features' c store' n' rg' (seq 0 n') Thr' Srt Fc' Wt' (smp_all n') t q' samples' _ nd' col' I' End' Fe'
      (max_ok top draw t0' srt w' gd' features' c store' (seq 0 n') Top t q' samples' step nd' I' End2)) as (k' & m' & Run' & LtL' & LtR' & Nx').
    rewrite Run in E. rewrite Run'. cbn [bind] in E |- *. cbv zeta in *.
    set (sa := read_samples m 0 (List.length samples)) in *. set (sb := read_samples m' 0 (List.length samples')) in *.
    destruct (weighted_sum t0 w gd (slice sa (nd_start nd, nd_start nd + k))) as [lt| |] eqn:El in E; [|discriminate E..]. cbn [bind] in E.
    destruct (weighted_sum t0 w gd (slice sa (nd_start nd + k, nd_start nd + nd_len nd))) as [rt| |] eqn:Er in E; [|discriminate E..]. cbn [bind] in E.
    destruct (find_best_feature draw pos srt features w gd (slice sa (nd_start nd, nd_start nd + k)) lt c) as [[[lsp lf] p3]| |] eqn:Bl in E; [|discriminate E..]. cbn [bind] in E.
    destruct (find_best_feature draw p3 srt features w gd (slice sa (nd_start nd + k, nd_start nd + nd_len nd)) rt c) as [[[rsp rf] p4]| |] eqn:Br in E; [|discriminate E..]. cbn [bind] in E.
    pose proof (Nx _ _ _ _ _ _ _ _ _ El Er Bl Br) as I2.
    (* what the other side computes, before it is known to be the same *)
    assert (Cv : cov (slice sa (nd_start nd, nd_start nd + k)) (slice sb (nd_start nd', nd_start nd' + k')) /\
                 cov (slice sa (nd_start nd + k, nd_start nd + nd_len nd)) (slice sb (nd_start nd' + k', nd_start nd' + nd_len nd'))).
    { rewrite (sum_exact w' gd' rg' t0' _ Thr' (Wt' _ LtL')) in Nx'. rewrite (sum_exact w' gd' rg' t0' _ Thr' (Wt' _ LtR')) in Nx'.
      set (lt' := sum_of rg' (slice sb (nd_start nd', nd_start nd' + k'))) in *. set (rt' := sum_of rg' (slice sb (nd_start nd' + k', nd_start nd' + nd_len nd'))) in *.
      destruct (best_total _ lt' pos0 LtL') as [[[lsp' lf'] p3'] Bl']. destruct (best_total _ rt' p3' LtR') as [[[rsp' rf'] p4'] Br'].
      pose proof (Nx' _ _ _ _ _ _ _ _ _ eq_refl eq_refl Bl' Br') as I2'. clear Nx Nx'. rewrite Pt in I2'.
      pose proof (nth_error_In _ _ End) as Iq.
      destruct (proj1 (i_leaf _ _ _ _ _ _ _ _ _ _ _ _ I (nd_path nd)) (in_map _ _ _ Iq)) as (s & sp & Lf).
      pose proof (i_full _ _ _ _ _ _ _ _ _ _ _ _ I) as Fu. pose proof (i_full _ _ _ _ _ _ _ _ _ _ _ _ I') as Fu'.
      split.
      - refine (leaf_covers t _ _ _ _ (nd_path nd) s sp _ _ true Fu Fu' Lf _ _ _ _).
        + refine (proj1 (proj2 (i_entry _ _ _ _ _ _ _ _ _ _ _ _ I2 (mkNode (nd_path nd ++ [true]) lf (nd_start nd) k) _))). apply in_or_app. right. left. reflexivity.
        + refine (proj1 (proj2 (i_entry _ _ _ _ _ _ _ _ _ _ _ _ I2' (mkNode (nd_path nd ++ [true]) lf' (nd_start nd') k') _))). apply in_or_app. right. left. reflexivity.
        + unfold new_node. eauto 10.
        + unfold new_node. eauto 10.
      - rewrite (slice_len sa), (slice_len sb).
        refine (leaf_covers t _ _ _ _ (nd_path nd) s sp _ _ false Fu Fu' Lf _ _ _ _).
        + refine (proj1 (proj2 (i_entry _ _ _ _ _ _ _ _ _ _ _ _ I2 (mkNode (nd_path nd ++ [false]) rf (nd_start nd + k) (nd_len nd - k)) _))). apply in_or_app. right. right. left. reflexivity.
        + refine (proj1 (proj2 (i_entry _ _ _ _ _ _ _ _ _ _ _ _ I2' (mkNode (nd_path nd ++ [false]) rf' (nd_start nd' + k') (nd_len nd' - k')) _))). apply in_or_app. right. right. left. reflexivity.
        + unfold new_node. eauto 10.
        + unfold new_node. eauto 10. }
    destruct Cv as [Cl Cr]. pose proof (sum_covers _ _ _ Cl El) as El'. pose proof (sum_covers _ _ _ Cr Er) as Er'.
    rewrite El'. cbn [bind]. rewrite Er'. cbn [bind].
    destruct (feature_covers n n' to rg rg' To Rg w w' gd gd' Wt Wt' srt c features features' draw Fl All _ _ _ _ pos0 _ _ _ Cl Bl) as (lf' & Ol & Bl').
    destruct (feature_covers n n' to rg rg' To Rg w w' gd gd' Wt Wt' srt c features features' draw Fl All _ _ _ _ (pos0 + List.length features') _ _ _ Cr Br) as (rf' & Or & Br').
    rewrite Bl'. cbn [bind]. rewrite Br'. cbn [bind].
    pose proof (Nx' _ _ _ _ _ _ _ _ _ El' Er' Bl' Br') as I2'. rewrite Pt in I2' |- *.
    refine (IH _ _ _ _ _ _ _ _ _ _ I2 I2' _ E). apply Forall2_app; [apply remove_like, Q|]. repeat constructor; assumption.
Qed.

Lemma fit_like pos pos0 r p1 : List.length gd = n -> List.length gd' = n' ->
  fit_tree top draw t0 srt w gd features c pos = Ret (r, p1) -> exists p2, fit_tree top draw t0' srt w' gd' features' c pos0 = Ret (r, p2).
Proof.
  intros Lg Lg'. unfold fit_tree. rewrite Lg, Lg'.
  destruct (uniform_subsample draw pos _ _) as [sa q1] eqn:U. destruct (uniform_subsample draw pos0 _ _) as [sb q1'] eqn:U'.
  assert (Es : sa = seq 0 n). { change sa with (fst (sa, q1)). rewrite <- U. apply subsample_all. intros k _. apply AllR. }
  assert (Es' : sb = seq 0 n'). { change sb with (fst (sb, q1')). rewrite <- U'. apply subsample_all. intros k _. apply AllR. }
  rewrite Es, Es'. clear U U' Es Es' sa sb. intros E.
  destruct (weighted_sum t0 w gd (seq 0 n)) as [total| |] eqn:Et; [|discriminate E..]. cbn [bind] in E.
  pose proof (sum_covers _ _ _ (covers_all n n' to To) Et) as Et'. rewrite Et'. cbn [bind].
  destruct (find_best_feature draw q1 srt features w gd (seq 0 n) total c) as [[[sp f] q2]| |] eqn:Ef; [|discriminate E..]. cbn [bind] in E.
  destruct (feature_covers n n' to rg rg' To Rg w w' gd gd' Wt Wt' srt c features features' draw Fl All _ _ _ _ q1' _ _ _ (covers_all n n' to To) Ef) as (f' & Of & Ef').
  rewrite Ef'. cbn [bind]. refine (grow_like _ _ _ _ _ _ _ _ _ _ _ _ _ _ E).
  - eapply (start_inv exact_ordered draw t0 srt w gd features c store n rg (seq 0 n) Thr Srt Fc Wt (smp_all n)); eassumption.
  - eapply (start_inv exact_ordered draw t0' srt w' gd' features' c store' n' rg' (seq 0 n') Thr' Srt Fc' Wt' (smp_all n')); eassumption.
  - repeat constructor. exact Of.
Qed.
End Grow.

(** ** Function values *)
Section Values.
Variables (v v' : view) (to : nat -> nat) (t t' : nat).
Hypothesis To : forall a, a < v_rows v -> to a < v_rows v'.
Hypothesis Cols : forall name, match v_get v name, v_get v' name with
                               | Some c, Some c' => like (v_rows v) to c c'
                               | None, None => True
                               | _, _ => False
                               end.
Hypotheses (T : 1 <= t) (T' : 1 <= t').

Definition vlike {A} (f f' : list A) : Prop := forall a, a < v_rows v -> nth_error f' (to a) = nth_error f a.

Lemma add_like (tr : tree Exact) x st st2 st' : tree_fits (v_get v) (v_rows v) tr -> tree_fits (v_get v') (v_rows v') tr ->
  state_ok v st -> state_ok v' st2 -> vlike (snd st) (snd st2) -> add_tree_scores (v_get v) t tr x st = Ret st' ->
  state_ok v st' /\ exists st2', add_tree_scores (v_get v') t' tr x st2 = Ret st2' /\ state_ok v' st2' /\ vlike (snd st') (snd st2').
Proof.
  intros F F' Ok Ok2 V E. destruct (one_tree v t tr x st T F Ok) as (s1 & E1 & Ok1 & H1). rewrite E in E1. injection E1 as <-.
  split; [exact Ok1|]. destruct (one_tree v' t' tr x st2 T' F' Ok2) as (s2 & E2 & Ok2' & H2).
  exists s2. split; [exact E2|]. split; [exact Ok2'|]. intros a La.
  destruct (routes_total _ _ _ _ F La) as [s R0]. pose proof (routes_like (v_rows v) to _ _ Cols tr a s La R0) as R1.
  assert (X : nth_error (snd st) a = Some (nth a (snd st) n0)) by (apply nth_error_nth'; rewrite (proj2 Ok); exact La).
  rewrite (H1 a _ s X R0). apply (H2 (to a) _ s); [rewrite (V a La); exact X|exact R1].
Qed.

Lemma base_like (base : list (tree Exact)) : forest_fits v base -> forest_fits v' base -> forall k trees st st2 k' trees' st',
  state_ok v st -> state_ok v' st2 -> vlike (snd st) (snd st2) -> init_with_base v t base k trees st = Ret (k', trees', st') ->
  state_ok v st' /\ exists st2', init_with_base v' t' base k trees st2 = Ret (k', trees', st2') /\ state_ok v' st2' /\ vlike (snd st') (snd st2').
Proof.
  induction base as [|b base IH]; intros Fb Fb2 k trees st st2 k' trees' st' Ok Ok2 V E; cbn [init_with_base] in E |- *.
  - injection E as <- <- <-. split; [exact Ok|]. exists st2. auto.
  - inversion Fb as [|? ? Ft Fb']; subst. inversion Fb2 as [|? ? Ft2 Fb2']; subst.
    destruct (add_tree_scores (v_get v) t b n0 st) as [s1| |] eqn:A; [|discriminate E..]. cbn [bind] in E.
    destruct (add_like b n0 st st2 s1 Ft Ft2 Ok Ok2 V A) as (Ok1 & s2 & A2 & Ok2' & V'). rewrite A2. cbn [bind].
    destruct (single_node b); exact (IH Fb' Fb2' _ _ s1 s2 _ _ _ Ok1 Ok2' V' E).
Qed.
End Values.

(** ** Weights *)
Lemma cell_weight n to (wv : nat -> R) (x : R) (g : nat -> grad Exact) (g0 : grad Exact) b :
  x = rsum n (fun a => if to a =? b then wv a else 0%R) -> (forall a, a < n -> wv a <> 0%R -> to a = b -> g a = g0) ->
  cell to (fun a => gscale (N := Exact) (wv a) (g a)) (seq 0 n) b = gscale (N := Exact) x g0.
Proof.
  intros -> H. unfold cell, rsum.
  assert (L : forall a, In a (seq 0 n) -> a < n) by (intros a I; apply in_seq in I; lia). revert L. generalize (seq 0 n).
  induction l as [|a l IH]; intros L.
  - cbn. apply gE; cbn; ring.
  - cbn [filter map fold_right]. specialize (IH (fun k I => L k (or_intror I))). destruct (Nat.eqb_spec (to a) b) as [E|E].
    + cbn [map]. rewrite total_cons, IH. destruct (Req_dec (wv a) 0%R) as [Z|Z]; [rewrite Z|rewrite (H a (L a (or_introl eq_refl)) Z E)]; apply gE; cbn; ring.
    + rewrite IH. f_equal. change (@fold_right R R Rplus 0 (map (fun a0 => if to a0 =? b then wv a0 else 0) l) = 0 + @fold_right R R Rplus 0 (map (fun a0 => if to a0 =? b then wv a0 else 0) l))%R. ring.
Qed.

(** ** Losses *)
Section Loss.
Variables (v v' : view) (to : nat -> nat) (w y w' y' : float_vector) (wv yv wv' yv' : nat -> Exact).
Hypothesis Ct : counted to v v' wv yv wv' yv'.
Hypotheses (Wv : row_values w (v_rows v) wv) (Yv : row_values y (v_rows v) yv).
Hypotheses (Wv' : row_values w' (v_rows v') wv') (Yv' : row_values y' (v_rows v') yv').
Variable lossf : Exact -> Exact -> point Exact.
Notation vl := (vlike v to).

Definition wlike {A} (g g' : list A) : Prop := forall a, a < v_rows v -> wv a <> 0%R -> nth_error g' (to a) = nth_error g a.
Lemma vlike_nth (f f' : list Exact) a : vl f f' -> a < v_rows v -> nth (to a) f' n0 = nth a f n0.
Proof.
  intros V L. specialize (V a L). destruct (nth_error f a) as [x|] eqn:E.
  - rewrite (nth_error_nth _ _ _ E), (nth_error_nth _ _ _ V). reflexivity.
  - apply nth_error_None in E. apply nth_error_None in V. rewrite !nth_overflow by assumption. reflexivity.
Qed.

Lemma gradients_like f f' c : vl f f' -> List.length f = v_rows v -> List.length f' = v_rows v' ->
  wlike (row_gradients lossf yv f c) (row_gradients lossf yv' f' c).
Proof.
  intros V L L' a La Nz. pose proof (ct_rows _ _ _ _ _ _ _ Ct a La) as Lt. unfold row_gradients. rewrite !nth_error_map, L, L'.
  rewrite (nth_error_nth' (seq 0 (v_rows v)) 0), (nth_error_nth' (seq 0 (v_rows v')) 0) by (rewrite seq_length; assumption).
  rewrite !seq_nth by assumption. cbn [option_map]. do 2 f_equal. unfold row_point. cbn [Nat.add].
  rewrite (ct_targets _ _ _ _ _ _ _ Ct a La Nz), (vlike_nth f f' a V La). reflexivity.
Qed.

Lemma pass_like f f' c : vl f f' -> sum_of (row_weighted lossf wv yv f c) (seq 0 (v_rows v)) = sum_of (row_weighted lossf wv' yv' f' c) (seq 0 (v_rows v')).
Proof.
  intros V. apply (covers_sum (v_rows v) (v_rows v') to); [apply Ct| |apply covers_all, Ct].
  intros b Lb. unfold row_weighted. apply (cell_weight (v_rows v) to wv (wv' b) (fun a => p_grad (row_point lossf yv f c a)) _ b (ct_weights _ _ _ _ _ _ _ Ct b Lb)).
  intros a La Nz <-. unfold row_point. rewrite (ct_targets _ _ _ _ _ _ _ Ct a La Nz), (vlike_nth f f' a V La). reflexivity.
Qed.

Lemma newton_like t t' (f f' : list Exact) (p p' : pointwise) : 1 <= t -> 1 <= t' -> inited w y t (v_rows v) p -> inited w' y' t' (v_rows v') p' ->
  vl f f' -> List.length f = v_rows v -> List.length f' = v_rows v' ->
  forall todo c gd gd2 x g, List.length gd = v_rows v -> List.length gd2 = v_rows v' -> newton lossf p f (S todo) c gd = Ret (x, g) ->
  exists g', newton lossf p' f' (S todo) c gd2 = Ret (x, g') /\ List.length g = v_rows v /\ List.length g' = v_rows v' /\ wlike g g'.
Proof.
  intros T T' (Hd & Ew & Ey) (Hd' & Ew' & Ey') V L L'. induction todo as [|todo IH]; intros c gd gd2 x g Lg Lg2 E.
  all: rewrite <- L in Wv, Yv, Hd; rewrite <- L' in Wv', Yv', Hd'.
  all: cbn [newton] in E |- *; destruct (newton_sum lossf w y wv yv f p (t * 5) Wv Yv ltac:(lia) Hd Ew Ey c gd ltac:(lia)) as [l El]; rewrite El in E;
    destruct (newton_sum lossf w' y' wv' yv' f' p' (t' * 5) Wv' Yv' ltac:(lia) Hd' Ew' Ey' c gd2 ltac:(lia)) as [l' El']; rewrite El';
    cbn [bind snd] in E |- *; rewrite L in E; rewrite L'; rewrite (pass_like f f' c V) in E.
  - rewrite andb_false_r in E |- *. injection E as <- <-. eexists. split; [reflexivity|].
    split; [unfold row_gradients; rewrite map_length, seq_length; exact L|]. split; [unfold row_gradients; rewrite map_length, seq_length; exact L'|].
    apply gradients_like; assumption.
  - destruct (_ && _).
    + rewrite L in Wv, Yv, Hd; rewrite L' in Wv', Yv', Hd'. refine (IH _ _ _ _ _ _ _ E).
      * unfold row_gradients. rewrite map_length, seq_length. exact L.
      * unfold row_gradients. rewrite map_length, seq_length. exact L'.
    + injection E as <- <-. eexists. split; [reflexivity|].
      split; [unfold row_gradients; rewrite map_length, seq_length; exact L|]. split; [unfold row_gradients; rewrite map_length, seq_length; exact L'|].
      apply gradients_like; assumption.
Qed.

Definition sgn (x : Exact) : bool := neqb x (@nZ Exact 1) || neqb x (@nZ Exact (-1)).
Lemma binary_ok n0 y0 (yv0 : nat -> Exact) : row_values y0 n0 yv0 -> forall l, (forall i, In i l -> i < n0) ->
  binary_targets (N := Exact) y0 l = Ret (forallb (fun i => sgn (yv0 i)) l).
Proof.
  intros Y. induction l as [|i l IH]; intros H; [reflexivity|]. cbn [binary_targets forallb]. destruct (Y i (H i (or_introl eq_refl))) as (a & -> & Ea).
  cbn [bind]. rewrite Ea. unfold sgn at 1. rewrite IH by (intros k I; apply H; right; exact I).
  destruct (neqb (yv0 i) (@nZ Exact 1)), (neqb (yv0 i) (@nZ Exact (-1))); reflexivity.
Qed.

Lemma sgn_ok x : x = 1%R \/ x = (-1)%R -> sgn x = true.
Proof. unfold sgn. intros [->| ->]; apply orb_true_iff; [left|right]; apply Reqb_iff; reflexivity. Qed.
Lemma binary_like : (forall b, b < v_rows v' -> (forall a, a < v_rows v -> to a = b -> yv' b <> yv a) -> yv' b = 1%R \/ yv' b = (-1)%R) ->
  (forall a, a < v_rows v -> yv' (to a) <> yv a -> yv a = 1%R \/ yv a = (-1)%R) ->
  binary_targets (N := Exact) y' (seq 0 (v_rows v')) = binary_targets (N := Exact) y (seq 0 (v_rows v)).
Proof.
  intros H H'. rewrite (binary_ok (v_rows v) y yv Yv), (binary_ok (v_rows v') y' yv' Yv') by (intros i I; apply in_seq in I; lia). f_equal.
  apply Bool.eq_iff_eq_true. rewrite !forallb_forall. split; intros F i I; apply in_seq in I.
  - destruct (Req_dec (yv' (to i)) (yv i)) as [E|E]; [|apply sgn_ok, H'; [lia|exact E]].
    rewrite <- E. apply F, in_seq. pose proof (ct_rows _ _ _ _ _ _ _ Ct i ltac:(lia)). lia.
  - destruct (in_dec (fun p q => match Nat.eq_dec (fst p) (fst q), Req_EM_T (snd p) (snd q) with left e1, left e2 => left (injective_projections p q e1 e2) | right e, _ => right (fun H => e (f_equal fst H)) | _, right e => right (fun H => e (f_equal snd H)) end)
      (i, yv' i) (map (fun a => (to a, yv a)) (seq 0 (v_rows v)))) as [J|J].
    + apply in_map_iff in J. destruct J as (a & E & J). apply in_seq in J. injection E as _ <-. apply F, in_seq. lia.
    + apply sgn_ok, H; [lia|]. intros a La E Q. apply J. apply in_map_iff. exists a. split; [rewrite E, Q; reflexivity|]. apply in_seq. lia.
Qed.
End Loss.

(** ** Training *)
Lemma load_like n to (get get' : str -> option column) : (forall name, match get name, get' name with
                               | Some c, Some c' => like n to c c'
                               | None, None => True
                               | _, _ => False
                               end) -> forall l, fst (load_features get' l) = fst (load_features get l) /\
  Forall2 (like n to) (snd (load_features get l)) (snd (load_features get' l)).
Proof.
  intros C. induction l as [|x l [IH1 IH2]]; cbn [load_features]; [split; [reflexivity|constructor]|].
  specialize (C x). destruct (get x) as [c|], (get' x) as [c'|]; try contradiction; [|split; [reflexivity|constructor]].
  rewrite (proj1 (proj2 C)). destruct (col_status c); [|split; [reflexivity|constructor]].
  destruct (load_features get l) as [s cs], (load_features get' l) as [s' cs']. cbn [fst snd] in *. subst s'.
  destruct s; cbn [fst snd]; split; try reflexivity; constructor; assumption.
Qed.

Section Train.
Variables (v v' : view) (to : nat -> nat) (t t' : nat) (top : nat -> nat -> list Exact -> nat) (draw : nat -> spec_float)
  (srt : (nat -> nat -> bool) -> list nat -> list nat) (names : list str) (w y w' y' : float_vector) (wv yv wv' yv' : nat -> Exact)
  (binary : bool) (lossf : Exact -> Exact -> point Exact) (c : config Exact).
Notation lf := (pointwise_loss t binary lossf).
Notation lf' := (pointwise_loss t' binary lossf).
Hypothesis Ct : counted to v v' wv yv wv' yv'.
Hypotheses (Wv : row_values w (v_rows v) wv) (Yv : row_values y (v_rows v) yv).
Hypotheses (Wv' : row_values w' (v_rows v') wv') (Yv' : row_values y' (v_rows v') yv').
Hypothesis Tr : training v t top srt names w lf.
Hypothesis Tr' : training v' t' top srt names w' lf'.
Hypothesis All : forall p, fltb (draw p) (to_f64 (cf_feature_rate c)) = true.
Hypothesis AllR : forall p, fltb (draw p) (to_f64 (cf_example_rate c)) = true.
Variables (features features' : list column).
Hypothesis Lo : load_features (v_get v) (v_order v names) = (SOk, features).
Hypothesis Lo' : load_features (v_get v') (v_order v' names) = (SOk, features').
Hypothesis Fl : Forall2 (like (v_rows v) to) features features'.
Notation vl := (vlike v to).
Notation wl := (wlike v to wv).

Definition row_grads (wv0 : nat -> Exact) (gd : list (grad Exact)) (r : nat) : grad Exact := gscale (wv0 r) (nth r gd gzero).
Lemma grads_weighted n0 w0 (wv0 : nat -> Exact) gd : row_values w0 n0 wv0 -> List.length gd = n0 -> forall rows, (forall r, In r rows -> r < n0) ->
  weighted w0 gd (row_grads wv0 gd) rows.
Proof.
  intros W L rows H r I. specialize (H r I). destruct (W r H) as (a & Ea & Na). exists a, (nth r gd gzero). split; [exact Ea|].
  split; [apply nth_error_nth'; lia|]. unfold row_grads. rewrite Na. reflexivity.
Qed.
Lemma grads_cell gd gd' : List.length gd = v_rows v -> wl gd gd' -> forall b, b < v_rows v' ->
  cell to (row_grads wv gd) (seq 0 (v_rows v)) b = row_grads wv' gd' b.
Proof.
  intros L V b Lb. apply (cell_weight (v_rows v) to wv (wv' b) (fun r => nth r gd gzero) _ b (ct_weights _ _ _ _ _ _ _ Ct b Lb)).
  intros a La Nz <-. pose proof (V a La Nz) as X. rewrite (nth_error_nth' gd gzero) in X by lia. symmetry. apply nth_error_nth, X.
Qed.

Lemma round_like i gd gd' pos pos0 r p1 : List.length gd = v_rows v -> List.length gd' = v_rows v' -> wl gd gd' ->
  fit_tree (top i) draw t srt w gd features c pos = Ret (r, p1) -> exists p2, fit_tree (top i) draw t' srt w' gd' features' c pos0 = Ret (r, p2).
Proof.
  intros L L' V E.
  assert (Fa : forall col, In col features -> v_get v (c_name col) = Some col /\ has_rows col (v_rows v)).
  { intros col I. destruct (loaded_cols v t top srt names w lf features Tr Lo col I) as (_ & G & _ & H). auto. }
  assert (Fb : forall col, In col features' -> v_get v' (c_name col) = Some col /\ has_rows col (v_rows v')).
  { intros col I. destruct (loaded_cols v' t' top srt names w' lf' features' Tr' Lo' col I) as (_ & G & _ & H). auto. }
  refine (fit_like (v_rows v) (v_rows v') to (row_grads wv gd) (row_grads wv' gd') w w' gd gd' srt c features features' draw (top i) t t' (v_get v) (v_get v')
    (ct_rows _ _ _ _ _ _ _ Ct) (grads_cell gd gd' L V) (grads_weighted _ _ _ _ Wv L) (grads_weighted _ _ _ _ Wv' L') _ All AllR
    (ct_cols _ _ _ _ _ _ _ Ct) (ts_tops _ _ _ _ _ _ _ Tr i) (ts_threads _ _ _ _ _ _ _ Tr) (ts_threads _ _ _ _ _ _ _ Tr') (ts_sort _ _ _ _ _ _ _ Tr) Fa Fb pos pos0 r p1 L L' E).
  apply Forall2_and; [exact Fl|intros col I; apply Fa, I|intros col I; apply Fb, I].
Qed.

Lemma rounds_like todo : forall i k trees st st2 gd gd2 ls ls2 pos pos0 r, List.length gd = v_rows v -> List.length gd2 = v_rows v' ->
  @state_ok Exact v st -> state_ok v' st2 -> vl (snd st) (snd st2) -> inited w y t (v_rows v) ls -> inited w' y' t' (v_rows v') ls2 ->
  rounds v t top draw srt w features c lf todo i k trees st gd ls pos = Ret r ->
  exists r', rounds v' t' top draw srt w' features' c lf' todo i k trees st2 gd2 ls2 pos0 = Ret r' /\
    tr_status r' = tr_status r /\ tr_forest r' = tr_forest r /\ vl (tr_f r) (tr_f r').
Proof.
  induction todo as [|todo IH]; intros i k trees st st2 gd gd2 ls ls2 pos pos0 r L L2 Ok Ok2 V I I2 E; cbn [rounds] in E |- *.
  - injection E as <-. eexists. split; [reflexivity|]. cbn. auto.
  - change (l_round lf ls pos (snd st) gd) with (let! (x, g) := pointwise_round lossf ls (snd st) gd in Ret (x, g, ls, pos)) in E.
    change (l_round lf' ls2 pos0 (snd st2) gd2) with (let! (x, g) := pointwise_round lossf ls2 (snd st2) gd2 in Ret (x, g, ls2, pos0)).
    destruct (pointwise_round lossf ls (snd st) gd) as [[x g]| |] eqn:P; [|discriminate E..]. cbn [bind] in E.
    unfold pointwise_round in P. change max_iterations with (S 9) in P.
    destruct (newton_like v v' to w y w' y' wv yv wv' yv' Ct Wv Yv Wv' Yv' lossf t t' (snd st) (snd st2) ls ls2 (ts_threads _ _ _ _ _ _ _ Tr)
      (ts_threads _ _ _ _ _ _ _ Tr') I I2 V (proj2 Ok) (proj2 Ok2) 9 n0 _ (resize gd2 (List.length (snd st2))) x g
      ltac:(rewrite resize_length; apply Ok) ltac:(rewrite resize_length; apply Ok2) P) as (g' & P' & Lg & Lg' & Vg).
    unfold pointwise_round. change max_iterations with (S 9). rewrite P'. cbn [bind].
    destruct (nfinite x); [|injection E as <-; eexists; split; [reflexivity|]; cbn; auto].
    destruct (fit_tree (top i) draw t srt w g features c pos) as [[tr p2]| |] eqn:Ft; [|discriminate E..]. cbn [bind] in E.
    destruct (round_like i g g' pos pos0 tr p2 Lg Lg' Vg Ft) as [p2' Ft']. rewrite Ft'. cbn [bind].
    destruct (add_tree_scores (v_get v) t (apply_shrinkage (nfloat (cf_shrinkage c)) tr) x st) as [st'| |] eqn:A; [|discriminate E..]. cbn [bind] in E.
    assert (Fi : tree_fits (v_get v) (v_rows v) (apply_shrinkage (nfloat (cf_shrinkage c)) tr)).
    { eapply fitted_fits; [exact exact_ordered|exact Tr|exact Lo|]. exists i, g, pos, p2. split; [exact Lg|exact Ft]. }
    assert (Fi' : tree_fits (v_get v') (v_rows v') (apply_shrinkage (nfloat (cf_shrinkage c)) tr)).
    { eapply fitted_fits; [exact exact_ordered|exact Tr'|exact Lo'|]. exists i, g', pos0, p2'. split; [exact Lg'|exact Ft']. }
    destruct (add_like v v' to t t' (ct_cols _ _ _ _ _ _ _ Ct) (ts_threads _ _ _ _ _ _ _ Tr) (ts_threads _ _ _ _ _ _ _ Tr')
      _ x st st2 st' Fi Fi' Ok Ok2 V A) as (Ok1 & s2 & A2 & Ok2' & V').
    rewrite A2. cbn [bind]. exact (IH _ _ _ st' s2 _ _ _ _ _ _ _ Lg Lg' Ok1 Ok2' V' I I2 E).
Qed.
End Train.

Theorem train_counted v v' to t t' top draw pos pos' srt names w y w' y' (wv yv wv' yv' : nat -> Exact) binary (lossf : Exact -> Exact -> point Exact) c base r :
  training v t top srt names w (pointwise_loss t binary lossf) -> training v' t' top srt names w' (pointwise_loss t' binary lossf) ->
  v_order v' names = v_order v names ->
  row_values w (v_rows v) wv -> row_values y (v_rows v) yv -> row_values w' (v_rows v') wv' -> row_values y' (v_rows v') yv' ->
  counted to v v' wv yv wv' yv' ->
  (binary = true -> (forall b, b < v_rows v' -> (forall a, a < v_rows v -> to a = b -> yv' b <> yv a) -> yv' b = 1%R \/ yv' b = (-1)%R) /\
                    (forall a, a < v_rows v -> yv' (to a) <> yv a -> yv a = 1%R \/ yv a = (-1)%R)) ->
  (forall p, fltb (draw p) (to_f64 (cf_example_rate c)) = true) -> (forall p, fltb (draw p) (to_f64 (cf_feature_rate c)) = true) ->
  (forall b, base = Some b -> forest_fits v b /\ forest_fits v' b) ->
  train v t top draw pos srt names w y (pointwise_loss t binary lossf) c base = Ret r ->
  exists r', train v' t' top draw pos' srt names w' y' (pointwise_loss t' binary lossf) c base = Ret r' /\
    tr_status r' = tr_status r /\ tr_forest r' = tr_forest r /\
    forall a, a < v_rows v -> nth_error (tr_f r') (to a) = nth_error (tr_f r) a.
Proof.
  intros Tr Tr' Or Wv Yv Wv' Yv' Ct Bin AllR All Fb E.
  unfold train in *. destruct (check_config c) as [|e]; [|injection E as <-; eexists; split; [reflexivity|]; cbn; split; [reflexivity|]; split; [reflexivity|]; intros a _; destruct a, (to _); reflexivity].
  assert (Nil : forall a, nth_error (@nil Exact) (to a) = nth_error (@nil Exact) a) by (intros a; destruct a, (to _); reflexivity).
  destruct (load_like _ _ _ _ (ct_cols _ _ _ _ _ _ _ Ct) (v_order v names)) as [Ls Lc]. rewrite Or.
  destruct (load_features (v_get v) (v_order v names)) as [s features] eqn:Lo. destruct (load_features (v_get v') (v_order v names)) as [s' features'] eqn:Lo'.
  cbn [fst snd] in Ls, Lc. subst s'. destruct s as [|e]; [|injection E as <-; eexists; split; [reflexivity|]; cbn; auto].
  assert (Gr : forall group, group_column c (v_get v) = Ret group -> exists group', group_column c (v_get v') = Ret group').
  { intros group. unfold group_column. destruct (cf_group_column c) as [|a l]; [eauto|]. pose proof (ct_cols _ _ _ _ _ _ _ Ct (a :: l)) as K.
    destruct (v_get v (a :: l)) as [col|], (v_get v' (a :: l)) as [col'|]; try contradiction; [|discriminate].
    destruct K as (_ & _ & K). destruct (c_body col), (c_body col'); try contradiction; try discriminate; eauto. }
  destruct (group_column c (v_get v)) as [group| |]; [|discriminate E..]. destruct (Gr group eq_refl) as [group' ->]. cbn [bind] in E |- *.
  cbn [l_init pointwise_loss] in E |- *.
  assert (Bt : (if binary then binary_targets (N := Exact) y' (seq 0 (v_rows v')) else Ret true) = (if binary then binary_targets (N := Exact) y (seq 0 (v_rows v)) else Ret true)).
  { destruct binary; [|reflexivity]. eapply binary_like; [exact Ct|exact Yv|exact Yv'|apply Bin; reflexivity..]. }
  rewrite Bt. destruct (if binary then _ else _) as [b| |]; [|discriminate E..]. cbn [bind] in E |- *.
  destruct b; [|cbn [bind] in E |- *; injection E as <-; eexists; split; [reflexivity|]; cbn; auto].
  destruct (Loss_proofs.init_ok w y wv t (v_rows v) (ts_threads _ _ _ _ _ _ _ Tr) Wv) as (p & Ep & Ip & _).
  destruct (Loss_proofs.init_ok w' y' wv' t' (v_rows v') (ts_threads _ _ _ _ _ _ _ Tr') Wv') as (p' & Ep' & Ip' & _).
  rewrite Ep in E. rewrite Ep'. cbn [bind] in E |- *.
  destruct (Eval_proofs.init_ok (N := Exact) v t (ts_threads _ _ _ _ _ _ _ Tr)) as (st0 & Es & Ok & Q). rewrite Es in E. cbn [bind] in E.
  destruct (Eval_proofs.init_ok (N := Exact) v' t' (ts_threads _ _ _ _ _ _ _ Tr')) as (st2 & Es2 & Ok2 & Q2). rewrite Es2. cbn [bind].
  destruct (init_with_base v t _ n0 [] st0) as [[[k trees] st]| |] eqn:B; [|discriminate E..]. cbn [bind] in E.
  assert (Fb' : forest_fits v (match base with Some b => b | None => [] end) /\ forest_fits v' (match base with Some b => b | None => [] end))
    by (destruct base as [b|]; [apply Fb; reflexivity|split; constructor]).
  assert (V : vlike v to (snd st0) (snd st2)).
  { rewrite Q, Q2. cbn [snd]. intros a La. pose proof (ct_rows _ _ _ _ _ _ _ Ct a La). rewrite !nth_error_repeat by assumption. reflexivity. }
  destruct (base_like v v' to t t' (ct_cols _ _ _ _ _ _ _ Ct) (ts_threads _ _ _ _ _ _ _ Tr) (ts_threads _ _ _ _ _ _ _ Tr')
    _ (proj1 Fb') (proj2 Fb') _ _ st0 st2 _ _ _ Ok Ok2 V B) as (Ok1 & s2 & B2 & Ok2' & V').
  match goal with |- exists r', bind ?m _ = _ /\ _ => assert (M : m = Ret (k, trees, s2)) by exact B2; rewrite M end. cbn [bind].
  rewrite <- Or in Lo'.
  exact (rounds_like v v' to t t' top draw srt names w y w' y' wv yv wv' yv' binary lossf c Ct Wv Yv Wv' Yv' Tr Tr' All AllR features features' Lo Lo' Lc
    _ _ _ _ _ _ _ _ _ _ _ _ _ (repeat_length _ _) (repeat_length _ _) Ok1 Ok2' V' Ip Ip' E).
Qed.

(** ** Reordered rows *)
Lemma rsum_one n (f : nat -> R) b : b < n -> (forall a, a < n -> a <> b -> f a = 0%R) -> rsum n f = f b.
Proof.
  unfold rsum. intros L H. assert (X : forall s k, (forall a, s <= a < s + k -> a <> b -> f a = 0%R) ->
    fold_right Rplus 0%R (map f (seq s k)) = if (s <=? b) && (b <? s + k) then f b else 0%R).
  { intros s k. revert s. induction k as [|k IH]; intros s Hs.
    - cbn [seq map fold_right]. destruct (Nat.leb_spec s b), (Nat.ltb_spec b (s + 0)); cbn [andb]; auto; lia.
    - cbn [seq map fold_right]. rewrite IH by (intros a La; apply Hs; lia).
      destruct (Nat.eq_dec s b) as [->|Ne].
      + destruct (Nat.leb_spec (S b) b); [lia|]. destruct (Nat.leb_spec b b), (Nat.ltb_spec b (b + S k)); try lia. cbn [andb]. ring.
      + rewrite (Hs s) by lia. destruct (Nat.leb_spec (S s) b), (Nat.leb_spec s b), (Nat.ltb_spec b (S s + k)), (Nat.ltb_spec b (s + S k)); try lia; cbn [andb]; ring. }
  rewrite X by (intros a La; apply H; lia). destruct (Nat.leb_spec 0 b), (Nat.ltb_spec b (0 + n)); try lia. reflexivity.
Qed.
Lemma reordered_counted to v v' (wv yv wv' yv' : nat -> R) : v_rows v' = v_rows v ->
  (forall a, a < v_rows v -> to a < v_rows v) -> (forall a b, a < v_rows v -> b < v_rows v -> to a = to b -> a = b) ->
  (forall name, match v_get v name, v_get v' name with
                | Some c, Some c' => like (v_rows v) to c c'
                | None, None => True
                | _, _ => False
                end) ->
  (forall a, a < v_rows v -> yv' (to a) = yv a /\ wv' (to a) = wv a) -> counted to v v' wv yv wv' yv'.
Proof.
  intros En To Inj C H. constructor; [rewrite En; exact To|exact C|intros a La _; apply H, La|]. intros b Lb. rewrite En in Lb.
  assert (P : exists a, a < v_rows v /\ to a = b).
  { assert (I : incl (seq 0 (v_rows v)) (map to (seq 0 (v_rows v)))).
    { apply NoDup_length_incl; [|rewrite map_length; reflexivity|].
      - assert (D : forall s k, s + k <= v_rows v -> NoDup (map to (seq s k))).
        { intros s k. revert s. induction k as [|k IH]; intros s L; [constructor|]. cbn [seq map]. constructor; [|apply IH; lia].
          intros X. apply in_map_iff in X. destruct X as (a & E & X). apply in_seq in X. apply Inj in E; lia. }
        apply D. lia.
      - intros x X. apply in_map_iff in X. destruct X as (a & <- & X). apply in_seq in X. apply in_seq. pose proof (To a ltac:(lia)). lia. }
    destruct (proj1 (in_map_iff _ _ _) (I b ltac:(apply in_seq; lia))) as (a & E & X). apply in_seq in X. exists a. split; [lia|exact E]. }
  destruct P as (a & La & <-). rewrite (proj2 (H a La)), (rsum_one (v_rows v) _ a La).
  - rewrite Nat.eqb_refl. reflexivity.
  - intros a' La' Ne. destruct (Nat.eqb_spec (to a') (to a)) as [E|E]; [|reflexivity]. apply Inj in E; [congruence|exact La'|exact La].
Qed.

(** ** Rows of weight 0 *)
Lemma like_self n c : like n (fun a => a) c c.
Proof. split; [reflexivity|]. split; [reflexivity|]. destruct (c_body c); auto. Qed.
Lemma unweighted_counted v (wv yv yv' : nat -> R) : (forall a, a < v_rows v -> wv a <> 0%R -> yv' a = yv a) -> counted (fun a => a) v v wv yv wv yv'.
Proof.
  intros H. constructor; [auto| |exact H|].
  - intros name. destruct (v_get v name); [apply like_self|exact Logic.I].
  - intros b Lb. rewrite (rsum_one (v_rows v) _ b Lb); [rewrite Nat.eqb_refl; reflexivity|]. intros a La Ne. destruct (Nat.eqb_spec a b); [congruence|reflexivity].
Qed.
