(** Category_proofs.v - splits of string columns (exact arithmetic). *)
From Coq Require Import SpecFloat Reals Lra Sorting.Permutation.
From Verif Require Import Base Base_proofs F32 F32_proofs Column ColumnSpec ColumnStr_proofs DataStore Num Forest Config Par Score
  ScoreSpec Score_proofs Split SplitSpec Split_proofs Hist_proofs Gain_proofs.
Local Close Scope R_scope.

Lemma string_facts nm s n : has_rows (mkCol nm (BodyS s)) n ->
  (exists v, icol_vec (s_ints s) = Ret v) /\ (0 <= str_max_int s < 4294967296)%Z /\
  forall r, r < n -> exists k, icol_get (s_ints s) r = Ret k /\ (0 <= k < str_max_int s)%Z.
Proof.
  intros (blocks & F & -> & ->). split; [destruct (string_vec blocks F) as (v & V & _); eauto|]. split.
  - unfold str_max_int. unfold u32. apply Z.mod_pos_bound. lia.
  - intros r R. destruct (nth_error (concat blocks) r) as [x|] eqn:E; [|apply nth_error_None in E; lia].
    destruct (string_code blocks r x F E) as (k & G & I). exists k. split; [exact G|].
    destruct (string_dictionary blocks F) as (_ & _ & _ & D & _). exact (proj1 (D x k I)).
Qed.

Lemma u32_s32 z : (0 <= z < 4294967296)%Z -> u32 (s32 z) = z.
Proof.
  intros H. unfold s32, u32. destruct (Z.ltb_spec z 2147483648).
  - apply Z.mod_small. lia.
  - replace (z - 4294967296)%Z with (z + (-1) * 4294967296)%Z by lia. rewrite Z.mod_add by lia. apply Z.mod_small. lia.
Qed.

Lemma filter_perm {A} (f : A -> bool) l l' : Permutation l l' -> Permutation (filter f l) (filter f l').
Proof.
  induction 1; cbn.
  - constructor.
  - destruct (f x); [constructor|]; assumption.
  - destruct (f x), (f y); auto using Permutation_refl, perm_swap.
  - eauto using perm_trans.
Qed.

Lemma filter_prefix_app (P Q : list nat) : NoDup (P ++ Q) -> filter (fun k => existsb (Nat.eqb k) P) (P ++ Q) = P.
Proof.
  intros D. rewrite filter_app.
  assert (A : forall l, (forall k, In k l -> In k P) -> filter (fun k => existsb (Nat.eqb k) P) l = l).
  { induction l as [|k l IH]; intros H; [reflexivity|]. cbn [filter].
    assert (E : existsb (Nat.eqb k) P = true).
    { apply existsb_exists. exists k. split; [apply H; left; reflexivity|apply Nat.eqb_refl]. }
    rewrite E. f_equal. apply IH. intros k' I. apply H. right. exact I. }
  assert (B : forall l, (forall k, In k l -> ~ In k P) -> filter (fun k => existsb (Nat.eqb k) P) l = []).
  { induction l as [|k l IH]; intros H; [reflexivity|]. cbn [filter].
    destruct (existsb (Nat.eqb k) P) eqn:E.
    - apply existsb_exists in E. destruct E as (k' & I & Ek). apply Nat.eqb_eq in Ek. subst k'.
      destruct (H k (or_introl eq_refl) I).
    - apply IH. intros k' I. apply H. right. exact I. }
  rewrite A by auto. rewrite B; [apply app_nil_r|]. intros k I J. clear A B.
  induction P as [|x l IH]; [destruct J|]. cbn [app] in D. inversion D as [|? ? N D']; subst. destruct J as [->|J].
  - apply N, in_app_iff. auto.
  - exact (IH D' J).
Qed.
Lemma filter_prefix (vs : list nat) i : NoDup vs -> filter (fun k => existsb (Nat.eqb k) (firstn i vs)) vs = firstn i vs.
Proof.
  intros D. rewrite <- (firstn_skipn i vs) in D. pose proof (filter_prefix_app _ _ D) as X. rewrite firstn_skipn in X. exact X.
Qed.

Section Cat.
Variables (nm : str) (s : strcol) (n : nat) (w : float_vector) (gd : list (grad Exact)) (rows : list nat)
          (c : config Exact) (rg : nat -> grad Exact) (bk : nat -> nat)
          (srt : (nat -> nat -> bool) -> list nat -> list nat).
Hypothesis HR : has_rows (mkCol nm (BodyS s)) n.
Hypothesis Rows : forall r, In r rows -> r < n.
Hypothesis Wt : weighted w gd rg rows.
Hypothesis Bk : forall r, In r rows -> icol_get (s_ints s) r = Ret (Z.of_nat (bk r)).
Hypothesis Half : forall k, gg (sum_of rg (part bk k rows)) = 0%R <-> gh (sum_of rg (part bk k rows)) = 0%R.
Hypothesis Srt : sorts srt.

Notation cellk := (fun k => sum_of rg (part bk k rows)).
Notation whole := (sum_of rg rows).
Notation lam := (cf_l2_lambda c).
Let M := Z.to_nat (str_max_int s).
Notation values := (values rg bk rows M).
Let score (k : nat) : R := gscore (N := Exact) lam (cellk k).
Let vs : list nat := srt (fun a b => Rltb (node_score lam (hist rg bk rows M) a) (node_score lam (hist rg bk rows M) b)) values.
Let sorted_hist : histogram (N := Exact) := mkHist (map cellk (seq 0 M)) vs.

Lemma cat_lt r : In r rows -> bk r < M.
Proof.
  intros I. destruct (string_facts _ _ _ HR) as (_ & Bd & Rk). destruct (Rk r (Rows r I)) as (k & E & B).
  rewrite (Bk r I) in E. injection E as E. unfold M. lia.
Qed.

Lemma cat_max : str_max_int s = Z.of_nat M.
Proof. destruct (string_facts _ _ _ HR) as (_ & Bd & _). unfold M. lia. Qed.

Lemma vs_sorted : std_sorted (fun a b => Rltb (node_score lam (hist rg bk rows M) a) (node_score lam (hist rg bk rows M) b)) values vs.
Proof.
  apply Srt. split; [|split].
  - intros a _. apply Rltb_false. lra.
  - intros a b d _ _ _. rewrite !Rltb_iff. lra.
  - intros a b d _ _ _. rewrite !Rltb_iff. lra.
Qed.

Lemma vs_perm : Permutation values vs.
Proof. exact (proj1 vs_sorted). Qed.
Lemma vs_nodup : NoDup vs.
Proof. eapply Permutation_NoDup; [exact vs_perm|]. apply NoDup_filter, seq_NoDup. Qed.
Lemma vs_in k : In k vs <-> k < M /\ with_data rg bk rows k.
Proof.
  rewrite <- (values_in rg bk rows M Half). split; intros I.
  - eapply Permutation_in; [apply Permutation_sym, vs_perm|exact I].
  - eapply Permutation_in; [apply vs_perm|exact I].
Qed.
Lemma node_score_at k : In k vs -> node_score lam (hist rg bk rows M) k = score k.
Proof. intros I. apply vs_in in I. unfold node_score. cbn [h_data hist]. rewrite (cell_at rg bk rows M k) by tauto. reflexivity. Qed.
Lemma score_mono i j a b : i < j -> nth_error vs i = Some a -> nth_error vs j = Some b -> (score a <= score b)%R.
Proof.
  intros L Ea Eb. pose proof (proj2 vs_sorted i j a b L Ea Eb) as X. cbn beta in X. apply Rltb_false in X.
  rewrite !node_score_at in X by (eapply nth_error_In; eassumption). exact X.
Qed.

Lemma cat_look : Forall2 (fun v d => nth_error (h_data sorted_hist) v = Some d) (h_values sorted_hist) (map cellk vs).
Proof.
  cbn [h_data h_values sorted_hist]. assert (H : forall k, In k vs -> k < M) by (intros k I; apply vs_in in I; tauto).
  clear -H. induction vs as [|k l IH]; cbn [map]; constructor.
  - apply cell_at, H. left. reflexivity.
  - apply IH. intros k' I. apply H. right. exact I.
Qed.

Lemma cat_side (P : nat -> bool) : sum_of rg (left_rows (fun r => P (bk r)) rows) = total_of (map cellk (filter P vs)).
Proof.
  rewrite (side_sum rg bk rows M cat_lt Half). apply total_perm, Permutation_map, filter_perm, vs_perm.
Qed.
Lemma cat_first i : sum_of rg (left_rows (fun r => existsb (Nat.eqb (bk r)) (firstn i vs)) rows) = first_part (map cellk vs) i.
Proof.
  rewrite (cat_side (fun k => existsb (Nat.eqb k) (firstn i vs))). rewrite filter_prefix by apply vs_nodup.
  unfold first_part. rewrite firstn_map. reflexivity.
Qed.

Lemma cat_search : exists p, find_best_split_point c sorted_hist whole false = Ret p /\
  find_best_string_split srt s w gd rows c whole =
    match p with
    | None => Ret None
    | Some p =>
        let size := Z.of_nat (List.length vs) in
        let k := Z.to_nat (pt_left p + 1) in
        let chosen := if (pt_left p + 1 <=? size - pt_left p - 1)%Z then firstn k vs else skipn k vs in
        Ret (Some (mkSplit [] None (Some ([], map (fun v => s32 (Z.of_nat v)) chosen)) (pt_gain p)))
    end.
Proof.
  destruct (split_point_spec exact_ordered c sorted_hist whole false _ cat_look) as (p & Ep & _).
  exists p. split; [exact Ep|]. unfold find_best_string_split.
  destruct (string_facts _ _ _ HR) as ((v & Ev) & _ & _). rewrite Ev. cbn [bind].
  rewrite cat_max, (cells_hist rg bk rows M cat_lt (icol_get (s_ints s)) w gd Bk Wt). cbn [bind].
  unfold sort_on_node_score.
  assert (F : forallb (fun v => (node_score lam (hist rg bk rows M) v =? node_score lam (hist rg bk rows M) v)%num)
                (h_values (hist rg bk rows M)) = true).
  { apply forallb_forall. intros k _. apply Reqb_iff. reflexivity. }
  rewrite F, orb_true_r. cbn [bind]. 
  change (mkHist (h_data (hist rg bk rows M)) (srt (fun a b => (node_score lam (hist rg bk rows M) a <? node_score lam (hist rg bk rows M) b)%num)
           (h_values (hist rg bk rows M)))) with sorted_hist.
  rewrite Ep. cbn [bind]. destruct p; reflexivity.
Qed.

Lemma cat_gain sp : find_best_string_split srt s w gd rows c whole = Ret (Some sp) ->
  exists idx, sp_float sp = None /\ sp_cat sp = Some ([], idx) /\ idx <> [] /\
    (gain_floor c < sp_gain sp)%R /\
    forall p, (forall r, In r rows -> goes_left (mkCol nm (BodyS s)) sp r (p r)) ->
      heavy c (sum_of rg (left_rows p rows)) (sum_of rg (right_rows p rows)) /\
      sp_gain sp = reduction lam whole (sum_of rg (left_rows p rows)) (sum_of rg (right_rows p rows)).
Proof.
  intros E. destruct cat_search as (p & Ep & Es). rewrite Es in E. clear Es.
  destruct (split_point_spec exact_ordered c sorted_hist whole false _ cat_look) as (p' & Ep' & Sp).
  assert (p' = p) by congruence. subst p'. destruct p as [p|]; [|discriminate]. cbv zeta in E.
  destruct Sp as (P0 & C & F & _ & _). 
  set (i := Z.to_nat (pt_left p + 1)) in *.
  assert (HC : 1 <= i < List.length vs /\ heavy c (first_part (map cellk vs) i) (rest_part whole (map cellk vs) i) /\
               pt_gain p = reduction lam whole (first_part (map cellk vs) i) (rest_part whole (map cellk vs) i)).
  { inversion C as [i0 Hi Hv E1 E2 E3|i0 m Hi Hm Hv Hn E1 E2 E3].
    - rewrite map_length in Hi. split; [exact Hi|]. split; [exact Hv|reflexivity].
    - discriminate. }
  destruct HC as (I & Hv & Eg).
  set (chosen := if (pt_left p + 1 <=? Z.of_nat (List.length vs) - pt_left p - 1)%Z then firstn i vs else skipn i vs) in *.
  injection E as <-. cbn [sp_float sp_cat sp_gain].
  assert (Ln : chosen <> []).
  { unfold chosen. destruct (_ <=? _)%Z; intros X; apply (f_equal (@List.length nat)) in X; cbn in X.
    - rewrite firstn_length in X. lia.
    - rewrite skipn_length in X. lia. }
  assert (Incl : forall k, In k chosen -> In k vs).
  { intros k J. rewrite <- (firstn_skipn i vs). apply in_app_iff. unfold chosen in J. destruct (_ <=? _)%Z; auto. }
  eexists. split; [reflexivity|]. split; [reflexivity|]. split; [destruct chosen; [congruence|discriminate]|].
  split; [apply Rltb_iff in F; exact F|]. intros q Hq.
  assert (Eq : left_rows q rows = left_rows (fun r => existsb (Nat.eqb (bk r)) chosen) rows).
  { apply filter_ext_in. intros r J. pose proof (Hq r J) as G. inversion G; subst; cbn [sp_cat] in *.
    - match goal with X : Some _ = Some _ |- _ => injection X as <- X end. destruct chosen; [congruence|discriminate].
    - match goal with X : Some _ = Some _ |- _ => injection X as <- X; rewrite <- X in * end.
      match goal with X : icol_get _ _ = Ret _ |- _ => rewrite (Bk r J) in X; injection X as <- end.
      assert (Q : In (Z.of_nat (bk r)) (map u32 (map (fun v => s32 (Z.of_nat v)) chosen)) <-> In (bk r) chosen).
      { rewrite map_map. rewrite in_map_iff. split.
        - intros (k & Ek & J'). rewrite u32_s32 in Ek; [apply Nat2Z.inj in Ek; subst; exact J'|].
          apply Incl, vs_in in J'. destruct (string_facts _ _ _ HR) as (_ & Bd & _). unfold M in J'. lia.
        - intros J'. exists (bk r). split; [|exact J']. apply u32_s32.
          pose proof (cat_lt r J). destruct (string_facts _ _ _ HR) as (_ & Bd & _). unfold M in *. lia. }
      match goal with X : q r = true <-> _ |- _ => rewrite Q in X; rename X into W end.
      destruct (existsb (Nat.eqb (bk r)) chosen) eqn:Ex.
      + apply W. apply existsb_exists in Ex. destruct Ex as (k & J' & Ek). apply Nat.eqb_eq in Ek. subst k. exact J'.
      + destruct (q r) eqn:Qr; [|reflexivity]. exfalso. assert (J' : In (bk r) chosen) by (apply W; reflexivity).
        assert (X : existsb (Nat.eqb (bk r)) chosen = true) by (apply existsb_exists; exists (bk r); split; [exact J'|apply Nat.eqb_refl]).
        congruence. }
  rewrite other_side. rewrite Eq.
  assert (Wh : total_of (map cellk vs) = whole).
  { rewrite <- (whole_sum rg bk rows M cat_lt Half). apply total_perm, Permutation_map, Permutation_sym, vs_perm. }
  assert (Cs : sum_of rg (left_rows (fun r => existsb (Nat.eqb (bk r)) chosen) rows) = total_of (map cellk chosen)).
  { rewrite (cat_side (fun k => existsb (Nat.eqb k) chosen)). apply total_perm, Permutation_map.
    apply NoDup_Permutation.
    - apply NoDup_filter, vs_nodup.
    - pose proof vs_nodup as D. rewrite <- (firstn_skipn i vs) in D. unfold chosen. destruct (_ <=? _)%Z.
      + clear - D. induction (firstn i vs) as [|x l IH]; [constructor|]. cbn in D. inversion D; subst. constructor; [|auto].
        intros J. apply H1, in_app_iff. auto.
      + clear - D. induction (firstn i vs) as [|x l IH]; [exact D|]. cbn in D. inversion D; subst. auto.
    - intros k. rewrite filter_In, existsb_exists. split.
      + intros [_ (k' & J & Ek)]. apply Nat.eqb_eq in Ek. subst. exact J.
      + intros J. split; [apply Incl, J|]. exists k. split; [exact J|apply Nat.eqb_refl]. }
  rewrite Cs. unfold chosen. destruct (_ <=? _)%Z.
  - rewrite <- firstn_map. split; [exact Hv|exact Eg].
  - assert (Sp : total_of (map cellk (skipn i vs)) = rest_part whole (map cellk vs) i).
    { unfold rest_part, first_part. rewrite <- Wh. rewrite <- (firstn_skipn i vs) at 2.
      rewrite map_app, total_app, firstn_map. apply gE; cbn; lra. }
    rewrite Sp. replace (gsub whole (rest_part whole (map cellk vs) i)) with (first_part (map cellk vs) i)
      by (unfold rest_part; apply gE; cbn; lra).
    split; [apply heavy_sym, Hv|]. rewrite reduction_sym. exact Eg.
Qed.

(** ** No division is better when there is no regularisation *)
Definition lin (a : R) (d : grad Exact) : R := (2 * a * gg d - a * a * gh d)%R.
Lemma lin_zero a : lin a gzero = 0%R.
Proof. unfold lin. cbn. lra. Qed.
Lemma lin_total (a : R) {A} (f : A -> grad Exact) l : lin a (total_of (map f l)) = fold_right (fun k x => (lin a (f k) + x)%R) 0%R l.
Proof.
  induction l as [|k l IH]; [cbn; unfold lin; cbn; lra|]. cbn [map fold_right]. rewrite total_cons, <- IH. unfold lin. cbn. lra.
Qed.
Lemma lin_energy a (d : grad Exact) : (0 < gh d)%R -> (lin a d <= energy (N := Exact) 0%R d)%R.
Proof.
  intros H. unfold energy. change (@neqb Exact) with Reqb. cbn [nadd Exact n0 nZ]. rewrite Rplus_0_r.
  destruct (Reqb (gh d) 0) eqn:E; [apply Reqb_iff in E; change (nt Exact) with R in *; lra|].
  change (@ndiv Exact) with Rdiv. change (@nmul Exact) with Rmult. unfold lin. change (nt Exact) with R in *.
  set (g := gg d : R) in *. set (h := gh d : R) in *.
  replace (g * g / h)%R with (2 * a * g - a * a * h + (g - a * h) * (g - a * h) / h)%R by (field; lra).
  assert (0 <= (g - a * h) * (g - a * h) / h)%R; [|lra].
  apply Rmult_le_pos; [apply Rle_0_sqr|]. apply Rlt_le, Rinv_0_lt_compat, H.
Qed.
Lemma lin_best (d : grad Exact) : (0 < gh d)%R -> lin (gg d / gh d) d = energy (N := Exact) 0%R d.
Proof.
  intros H. unfold energy. change (@neqb Exact) with Reqb. cbn [nadd Exact n0 nZ]. rewrite Rplus_0_r.
  destruct (Reqb (gh d) 0) eqn:E; [apply Reqb_iff in E; change (nt Exact) with R in *; lra|].
  change (@ndiv Exact) with Rdiv. change (@nmul Exact) with Rmult. unfold lin. change (nt Exact) with R in *.
  field. lra.
Qed.

Hypothesis Pos : forall r, In r rows -> (0 < gh (sum_of rg (part bk (bk r) rows)))%R.
Hypothesis L0 : lam = 0%R.
Hypothesis H0 : cf_min_hessian c = 0%R.

Lemma vs_pos k : In k vs -> (0 < gh (cellk k))%R.
Proof.
  intros I. apply vs_in in I. destruct I as [_ D]. destruct (part bk k rows) as [|r l] eqn:E.
  - unfold with_data in D. rewrite E in D. exfalso. apply D. reflexivity.
  - assert (I : In r (part bk k rows)) by (rewrite E; left; reflexivity). apply filter_In in I. destruct I as [I K].
    apply Nat.eqb_eq in K. subst k. rewrite <- E. apply Pos, I.
Qed.

Lemma total_pos l : (forall k, In k l -> In k vs) -> l <> [] -> (0 < gh (total_of (map cellk l)))%R.
Proof.
  intros H Ne. assert (G : forall l, (forall k, In k l -> In k vs) -> (0 <= gh (total_of (map cellk l)))%R).
  { clear l H Ne. induction l as [|k l IH]; intros H; [cbn; lra|]. cbn [map]. rewrite total_cons. cbn [gh gadd].
    pose proof (vs_pos k (H k (or_introl eq_refl))). specialize (IH (fun k' I => H k' (or_intror I))).
    change (@nadd Exact) with Rplus. lra. }
  destruct l as [|k l]; [congruence|]. cbn [map]. rewrite total_cons. cbn [gh gadd].
  pose proof (vs_pos k (H k (or_introl eq_refl))). specialize (G l (fun k' I => H k' (or_intror I))).
  change (@nadd Exact) with Rplus. lra.
Qed.

Lemma down_prefix (m : R) : forall l, (forall i j a b, i < j -> nth_error l i = Some a -> nth_error l j = Some b -> (score a <= score b)%R) ->
  filter (fun k => Rleb (score k) m) l = firstn (List.length (filter (fun k => Rleb (score k) m) l)) l.
Proof.
  induction l as [|k l IH]; intros H; [reflexivity|]. cbn [filter]. destruct (Rleb (score k) m) eqn:E.
  - cbn [List.length firstn]. f_equal. apply IH. intros i j a b L Ea Eb. exact (H (S i) (S j) a b ltac:(lia) Ea Eb).
  - assert (X : filter (fun k => Rleb (score k) m) l = []).
    { destruct (filter (fun k => Rleb (score k) m) l) as [|x t] eqn:F; [reflexivity|]. exfalso.
      assert (I : In x (filter (fun k => Rleb (score k) m) l)) by (rewrite F; left; reflexivity).
      apply filter_In in I. destruct I as [I X]. apply In_nth_error in I. destruct I as [j Ej].
      pose proof (H 0 (S j) k x ltac:(lia) eq_refl Ej) as Y. apply Rleb_iff in X.
      assert (Z : Rleb (score k) m = true) by (apply Rleb_iff; lra). congruence. }
    rewrite X. reflexivity.
Qed.

Notation E d := (energy (N := Exact) 0%R d).
Notation Tot P := (total_of (map cellk (filter P vs))).

Lemma reassign (P : nat -> bool) (a b : R) : (a <= b)%R ->
  (lin a (Tot P) + lin b (Tot (fun k => negb (P k))) <=
   lin a (Tot (fun k => Rleb (score k) ((a + b) / 2))) + lin b (Tot (fun k => negb (Rleb (score k) ((a + b) / 2)))))%R.
Proof.
  intros AB. rewrite !lin_total. pose proof vs_pos as V. induction vs as [|k l IH]; [cbn; lra|].
  specialize (IH (fun k' I => V k' (or_intror I))). specialize (V k (or_introl eq_refl)).
  set (m := ((a + b) / 2)%R) in *. cbn [filter].
  assert (Q : if Rleb (score k) m then (lin b (cellk k) <= lin a (cellk k))%R else (lin a (cellk k) <= lin b (cellk k))%R).
  { assert (Sc : score k = (gg (cellk k) / gh (cellk k))%R).
    { unfold score, gscore. rewrite L0. change (@neqb Exact) with Reqb. cbn [nadd Exact n0 nZ]. rewrite Rplus_0_r.
      destruct (Reqb (gh (cellk k)) 0) eqn:Ez; [apply Reqb_iff in Ez; change (nt Exact) with R in *; lra|reflexivity]. }
    unfold lin. change (nt Exact) with R in *. set (g := gg (cellk k) : R) in *. set (h := gh (cellk k) : R) in *.
    assert (Gs : g = (score k * h)%R) by (rewrite Sc; field; lra). rewrite Gs. unfold m in *.
    destruct (Rleb (score k) ((a + b) / 2)) eqn:Em.
    - apply Rleb_iff in Em. assert (0 <= (b - a) * ((a + b) - 2 * score k) * h)%R; [|lra].
      apply Rmult_le_pos; [apply Rmult_le_pos; lra|lra].
    - assert (Em' : ((a + b) / 2 < score k)%R).
      { destruct (Rlt_dec ((a + b) / 2) (score k)); [assumption|]. exfalso.
        assert (Rleb (score k) ((a + b) / 2) = true) by (apply Rleb_iff; lra). congruence. }
      assert (0 <= (b - a) * (2 * score k - (a + b)) * h)%R; [|lra].
      apply Rmult_le_pos; [apply Rmult_le_pos; lra|lra]. }
  destruct (P k), (Rleb (score k) m); cbn [negb fold_right]; lra.
Qed.

Lemma cat_best_le (P : nat -> bool) r : find_best_string_split srt s w gd rows c whole = Ret r ->
  (0 < gh (Tot P))%R -> (0 < gh (Tot (fun k => negb (P k))))%R ->
  (gg (Tot P) / gh (Tot P) <= gg (Tot (fun k => negb (P k))) / gh (Tot (fun k => negb (P k))))%R ->
  (E (Tot P) + E (Tot (fun k => negb (P k))) - E whole <= match r with Some sp => sp_gain sp | None => gain_floor c end)%R.
Proof.
  intros Er HA HB AB. destruct cat_search as (p & Ep & Es). rewrite Es in Er. clear Es.
  destruct (split_point_spec exact_ordered c sorted_hist whole false _ cat_look) as (p' & Ep' & Sp).
  assert (p' = p) by congruence. subst p'.
  set (bound := match r with Some sp => sp_gain sp | None => gain_floor c end : R).
  change (E (Tot P) + E (Tot (fun k => negb (P k))) - E whole <= bound)%R.
  assert (Bd : (0 <= bound)%R /\ forall i m g, candidate c whole (map cellk vs) (missing_of false sorted_hist) i m g -> (g <= bound)%R).
  { pose proof (floor_nonneg c) as F0. destruct p as [p|].
    - cbv zeta in Er. injection Er as <-. unfold bound. cbn [sp_gain]. destruct Sp as (_ & _ & F & B & _).
      apply Rltb_iff in F. split; [change (nt Exact) with R in *; lra|]. intros i m g C. apply Rltb_false. exact (B _ _ _ C).
    - injection Er as <-. unfold bound. split; [exact F0|]. intros i m g C. apply Rltb_false. exact (Sp _ _ _ C). }
  destruct Bd as [B0 Bd]. clearbody bound. clear Sp Er.
  set (A := Tot P) in *. set (B := Tot (fun k => negb (P k))) in *.
  set (a := (gg A / gh A)%R) in *. set (b := (gg B / gh B)%R) in *.
  pose proof (reassign P a b AB) as Re. fold A B in Re.
  rewrite <- (lin_best A HA), <- (lin_best B HB). fold a b.
  set (m := ((a + b) / 2)%R) in *. set (A' := Tot (fun k => Rleb (score k) m)) in *. set (B' := Tot (fun k => negb (Rleb (score k) m))) in *.
  assert (Wh : gadd A' B' = whole).
  { unfold A', B'. rewrite total_split. rewrite <- (whole_sum rg bk rows M cat_lt Half).
    apply total_perm, Permutation_map, Permutation_sym, vs_perm. }
  assert (Wp : (0 < gh whole)%R).
  { assert (X : gadd A B = whole).
    { unfold A, B. rewrite total_split. rewrite <- (whole_sum rg bk rows M cat_lt Half).
      apply total_perm, Permutation_map, Permutation_sym, vs_perm. }
    rewrite <- X. cbn [gh gadd]. change (@nadd Exact) with Rplus. lra. }
  set (i := List.length (filter (fun k => Rleb (score k) m) vs)).
  assert (Pre : filter (fun k => Rleb (score k) m) vs = firstn i vs) by (apply down_prefix, score_mono).
  assert (Li : i <= List.length vs).
  { apply (f_equal (@List.length nat)) in Pre. rewrite firstn_length in Pre. fold i in Pre. lia. }
  assert (EA : A' = first_part (map cellk vs) i) by (unfold A', first_part; rewrite Pre, firstn_map; reflexivity).
  assert (EB : B' = rest_part whole (map cellk vs) i) by (unfold rest_part; rewrite <- EA, <- Wh; apply gE; cbn; lra).
  destruct (Nat.eq_dec i 0) as [I0|I0].
  { assert (Az : A' = gzero) by (rewrite EA, I0; reflexivity). rewrite Az in *. rewrite gadd_0_l in Wh. rewrite Wh in *.
    pose proof (lin_energy b whole Wp). pose proof (lin_zero a). lra. }
  destruct (Nat.eq_dec i (List.length vs)) as [I1|I1].
  { assert (Bz : B' = gzero).
    { assert (X : A' = whole). { rewrite EA, I1. unfold first_part. rewrite <- (map_length cellk), firstn_all.
        rewrite <- (whole_sum rg bk rows M cat_lt Half). apply total_perm, Permutation_map, Permutation_sym, vs_perm. }
      rewrite EB. unfold rest_part. rewrite <- EA, X. apply gE; cbn; lra. }
    rewrite Bz in *. rewrite gadd_0_r in Wh. rewrite Wh in *.
    pose proof (lin_energy a whole Wp). pose proof (lin_zero b). lra. }
  assert (PA : (0 < gh A')%R).
  { unfold A'. apply total_pos; [intros k I; apply filter_In in I; tauto|]. intros X. apply I0. unfold i. rewrite X. reflexivity. }
  assert (PB : (0 < gh B')%R).
  { unfold B'. apply total_pos; [intros k I; apply filter_In in I; tauto|]. intros X. apply I1. unfold i.
    assert (G : forall l, filter (fun k => negb (Rleb (score k) m)) l = [] -> filter (fun k => Rleb (score k) m) l = l).
    { induction l as [|k l IHl]; [reflexivity|]. cbn [filter]. destruct (Rleb (score k) m); cbn [negb]; [|discriminate].
      intros Y. f_equal. apply IHl, Y. }
    rewrite (G vs X). reflexivity. }
  pose proof (lin_energy a A' PA). pose proof (lin_energy b B' PB).
  assert (C : candidate c whole (map cellk vs) (missing_of false sorted_hist) i false (reduction lam whole A' B')).
  { rewrite EA, EB. apply CandLeft; [rewrite map_length; lia|]. rewrite <- EA, <- EB. unfold heavy. rewrite H0.
    change (@nltb Exact) with Rltb. unfold nmin. apply Rltb_iff. destruct (nltb _ _); assumption. }
  apply Bd in C. unfold reduction in C. change (@energy_of Exact) with (@energy Exact) in C. rewrite L0 in C. change (@nsub Exact) with Rminus in C. change (@nadd Exact) with Rplus in C.
  lra.
Qed.

Lemma cat_best (P : nat -> bool) r : find_best_string_split srt s w gd rows c whole = Ret r ->
  let left := sum_of rg (left_rows (fun x => P (bk x)) rows) in
  let right := sum_of rg (right_rows (fun x => P (bk x)) rows) in
  heavy c left right ->
  (reduction lam whole left right <= match r with Some sp => sp_gain sp | None => gain_floor c end)%R.
Proof.
  intros Er left right Hv.
  assert (El : left = Tot P) by apply cat_side.
  assert (Er' : right = Tot (fun k => negb (P k))).
  { unfold right, right_rows. exact (cat_side (fun k => negb (P k))). }
  unfold heavy in Hv. rewrite H0 in Hv. change (@nltb Exact) with Rltb in Hv. apply Rltb_iff in Hv. unfold nmin in Hv.
  change (@nltb Exact) with Rltb in Hv.
  assert (HP : (0 < gh left)%R /\ (0 < gh right)%R).
  { destruct (Rltb (gh right) (gh left)) eqn:X.
    - apply Rltb_iff in X. change (nt Exact) with R in *. lra.
    - apply Rltb_false in X. change (nt Exact) with R in *. lra. }
  destruct HP as [HA HB]. unfold reduction. change (@energy_of Exact) with (@energy Exact). rewrite L0. change (@nsub Exact) with Rminus. change (@nadd Exact) with Rplus.
  rewrite El, Er' in *. destruct (Rle_dec (gg (Tot P) / gh (Tot P)) (gg (Tot (fun k => negb (P k))) / gh (Tot (fun k => negb (P k))))) as [L|L].
  - exact (cat_best_le P r Er HA HB L).
  - assert (Nn : filter (fun k => negb (negb (P k))) vs = filter P vs) by (apply filter_ext; intros k; apply negb_involutive).
    pose proof (cat_best_le (fun k => negb (P k)) r Er HB) as X. cbv beta in X. rewrite Nn in X.
    specialize (X HA ltac:(lra)). lra.
Qed.
End Cat.
