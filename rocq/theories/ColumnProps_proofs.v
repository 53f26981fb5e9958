(** ColumnProps_proofs.v - the bucketized column properties derived from the invariant. *)
From Coq Require Import SpecFloat.
From Verif Require Import Base Base_proofs F32 F32_proofs Column ColumnSpec ColumnHist_proofs
  ColumnBucket_proofs.
Local Open Scope Z_scope.

Lemma fn_get nb c data0 data m max_id i v : finished nb c data0 data m max_id ->
  nth_error data i = Some v -> b_bucket c i = Ret (idx m max_id v).
Proof.
  intros H E. unfold b_bucket, icol_get. rewrite (fn_vec _ _ _ _ _ _ H). cbn.
  apply vget_ret. rewrite nth_error_map, E. auto.
Qed.

Lemma idx_nan m max_id v : is_nan v = true -> idx m max_id v = 0.
Proof. intros E. unfold idx. rewrite E. auto. Qed.

Lemma fn_idx_range nb c data0 data m max_id v : zlen data < 4294967294 ->
  finished nb c data0 data m max_id -> is_nan v = false ->
  1 <= idx m max_id v < zlen (b_maxs c).
Proof.
  intros Hl H Hv. pose proof (fn_map _ _ _ _ _ _ H) as Em. pose proof (fn_last _ _ _ _ _ _ H) as El.
  subst m. eapply idx_range; eauto.
  - destruct (fn_prefix _ _ _ _ _ _ H) as [d1 E]. rewrite E, zlen_app in Hl.
    pose proof (zlen_nonneg d1).
    assert (zlen data0 < 4294967296) by lia. eassumption.
  - eapply fn_limits; eauto.
Qed.

Lemma bucketized_size_missing nb blocks c : limit_ok nb -> zlen (concat blocks) < 4294967294 ->
  b_load nb blocks = Ret c ->
  b_status c = SOk /\ b_size c = Ret (List.length (concat blocks)) /\
  forall i v, nth_error (concat blocks) i = Some v -> b_missing c i = Ret (is_nan v).
Proof.
  intros Hnb Hl E. destruct (b_load_finished nb blocks c Hnb Hl E) as (d0 & m & mid & H).
  split; [eapply fn_status; eauto|]. split.
  - unfold b_size, icol_size. rewrite (fn_vec _ _ _ _ _ _ H). cbn. rewrite map_length. auto.
  - intros i v Ei. pose proof (fn_get _ _ _ _ _ _ _ _ H Ei) as G.
    unfold b_bucket in G. unfold b_missing, icol_missing. rewrite G. cbn. f_equal.
    destruct (is_nan v) eqn:Ev.
    + rewrite idx_nan; auto.
    + pose proof (fn_idx_range _ _ _ _ _ _ v Hl H Ev). lia.
Qed.

(** *** values below +infinity *)
Lemma fold_fmin_le l : forall x, Forall (fun v => is_nan v = false) l -> is_nan x = false ->
  fleb (fold_left fmin l x) x = true /\ (forall v, In v l -> fleb (fold_left fmin l x) v = true).
Proof.
  induction l as [|a l IH]; cbn; intros x Hn Hx.
  - split; [apply fleb_refl; auto|tauto].
  - inversion Hn; subst.
    assert (Hm : is_nan (fmin x a) = false) by ford.
    destruct (IH (fmin x a) H2 Hm) as [A B]. split.
    + ford.
    + intros v [<-|I]; auto. ford.
Qed.

Lemma fold_fmin_in l : forall x, fold_left fmin l x = x \/ In (fold_left fmin l x) l.
Proof.
  induction l as [|a l IH]; cbn; intros x; auto.
  destruct (IH (fmin x a)) as [E|I]; auto.
  rewrite E. unfold fmin. destruct (fltb a x); auto.
Qed.

Lemma fold_fmin_gt l y : forall x, fltb y x = true -> (forall v, In v l -> fltb y v = true) ->
  fltb y (fold_left fmin l x) = true.
Proof.
  induction l as [|a l IH]; cbn; intros x Hx Hl; auto.
  apply IH; auto. unfold fmin. destruct (fltb a x); auto.
Qed.

Record map_facts (m : list (f32 * Z)) (maxs : list f32) : Prop := mkMF {
  mf_sorted : StronglySorted flt (keys m);
  mf_nan : Forall (fun k => is_nan k = false) (keys m);
  mf_at : forall k i, In (k, i) m -> exists k0, 1 <= i /\ nth_error maxs (Z.to_nat i) = Some k0 /\ feqb k k0 = true;
  mf_mono : forall k i k' i', In (k, i) m -> In (k', i') m -> fltb k k' = true -> i < i';
  mf_top : exists k, In k (keys m) /\ feqb flt_max k = true
}.

Lemma weakly_sorted_lims ms : StronglySorted flt ms ->
  (forall k, In k ms -> fleb k flt_max = true) ->
  StronglySorted (fun a b => fleb a b = true) (ms ++ [flt_max]).
Proof.
  induction 1; cbn; intros Hm.
  - repeat constructor.
  - constructor; auto. apply Forall_app. split.
    + eapply Forall_impl; [|eassumption]. intros b Hb. apply fltb_fleb; auto.
    + repeat constructor. apply Hm; auto.
Qed.

Lemma StronglySorted_nth {A} (R : A -> A -> Prop) l : StronglySorted R l ->
  forall i j a b, (i < j)%nat -> nth_error l i = Some a -> nth_error l j = Some b -> R a b.
Proof.
  induction 1; intros i j x y Hij Ei Ej.
  - destruct i; discriminate.
  - destruct j as [|j]; [lia|]. cbn in Ej. destruct i as [|i]; cbn in Ei.
    + injection Ei as <-. rewrite Forall_forall in H0. apply H0. eapply nth_error_In; eauto.
    + apply (IHStronglySorted i j); auto. lia.
Qed.

Lemma fn_map_facts nb c data0 data m max_id : zlen data < 4294967294 ->
  finished nb c data0 data m max_id -> below_inf data -> map_facts m (b_maxs c).
Proof.
  intros Hl H Hinf.
  destruct (fn_prefix _ _ _ _ _ _ H) as [d1 Ed].
  assert (HX : zlen data0 < 4294967296).
  { rewrite Ed, zlen_app in Hl. pose proof (zlen_nonneg d1). lia. }
  destruct (bucket_limits_ret _ _ _ HX (fn_limits _ _ _ _ _ _ H)) as (ms & Em & Hs & Hin & _).
  rewrite (fn_map _ _ _ _ _ _ H), Em. cbn [tl].
  assert (Hle : forall k, In k ms -> fleb k flt_max = true).
  { intros k I. destruct (Hin k I) as [I' N]. apply Hinf; auto. rewrite Ed. apply in_app_iff; auto. }
  assert (Hn : Forall (fun k => is_nan k = false) (ms ++ [flt_max])).
  { apply Forall_app. split; [apply Forall_forall; intros; apply Hin; auto|repeat constructor]. }
  pose proof (weakly_sorted_lims ms Hs Hle) as Hw.
  destruct (build_map_spec _ Hn) as (Hks & Hkn & Hi & Hp).
  constructor; auto.
  - intros k i I. destruct (Hi k i I) as (j & k0 & -> & Ej & Ek & _).
    exists k0. split; [lia|]. split; auto.
    replace (Z.to_nat (1 + Z.of_nat j)) with (S j) by lia. auto.
  - intros k i k' i' I I' L.
    destruct (Hi k i I) as (j & k0 & -> & Ej & Ek & _).
    destruct (Hi k' i' I') as (j' & k0' & -> & Ej' & Ek' & _).
    destruct (Nat.lt_trichotomy j j') as [?|[?|Hlt]]; [lia| |].
    + subst j'. assert (k0 = k0') by congruence. subst. ford.
    + pose proof (StronglySorted_nth _ _ Hw _ _ _ _ Hlt Ej' Ej). cbn in H0. ford.
  - apply Hp. apply in_app_iff. cbn. auto.
Qed.

(** The entry of the bucket map that a value falls into. *)
Lemma idx_entry m maxs max_id v : map_facts m maxs -> is_nan v = false -> fleb v flt_max = true ->
  exists k, In (k, idx m max_id v) m /\ fleb v k = true /\
    forall k' i', In (k', i') m -> fltb k' k = true -> fltb k' v = true.
Proof.
  intros M Hv Hle. unfold idx. rewrite Hv.
  destruct (lower_bound v m) as [i|] eqn:E.
  - apply lower_bound_some; eauto using mf_nan, mf_sorted.
  - destruct (mf_top _ _ M) as (k & I & Ek). apply in_keys in I. destruct I as [i I].
    pose proof (lower_bound_none _ _ E _ _ I). ford.
Qed.

Lemma idx_mono m maxs max_id a b : map_facts m maxs ->
  fleb a b = true -> fleb b flt_max = true -> idx m max_id a <= idx m max_id b.
Proof.
  intros M Hab Hb.
  assert (Na : is_nan a = false) by ford. assert (Nb : is_nan b = false) by ford.
  destruct (idx_entry m maxs max_id a M Na ltac:(ford)) as (ka & Ia & La & Aa).
  destruct (idx_entry m maxs max_id b M Nb Hb) as (kb & Ib & Lb & Ab).
  destruct (Z.le_gt_cases (idx m max_id a) (idx m max_id b)) as [|Hgt]; auto. exfalso.
  assert (fltb kb ka = true).
  { destruct (fltb_total kb ka) as [|[E|L]]; auto; try ford.
    - destruct (sorted_keys_unique m kb _ ka _ (mf_sorted _ _ M) Ib Ia E). lia.
    - pose proof (mf_mono _ _ M _ _ _ _ Ia Ib L). lia. }
  pose proof (Aa _ _ Ib H). ford.
Qed.

Lemma idx_lt m maxs max_id a b ka : map_facts m maxs ->
  fleb a flt_max = true -> fleb b flt_max = true ->
  idx m max_id a < idx m max_id b -> In (ka, idx m max_id a) m -> fltb ka b = true.
Proof.
  intros M Ha Hb Hlt Ia.
  assert (Na : is_nan a = false) by ford. assert (Nb : is_nan b = false) by ford.
  destruct (idx_entry m maxs max_id b M Nb Hb) as (kb & Ib & Lb & Ab).
  apply (Ab _ _ Ia).
  assert (Nka : is_nan ka = false).
  { pose proof (mf_nan _ _ M) as F. rewrite Forall_forall in F. apply F, in_keys. eauto. }
  destruct (fltb_total ka kb) as [|[E|L]]; auto; try ford.
  - destruct (sorted_keys_unique m ka _ kb _ (mf_sorted _ _ M) Ia Ib E). lia.
  - pose proof (mf_mono _ _ M _ _ _ _ Ib Ia L). lia.
Qed.

Lemma fn_row_max nb c data0 data m max_id i v k0 : finished nb c data0 data m max_id ->
  nth_error data i = Some v -> nth_error (b_maxs c) (Z.to_nat (idx m max_id v)) = Some k0 ->
  b_row_max c i = Ret k0.
Proof.
  intros H E Ek. unfold b_row_max. rewrite (fn_get _ _ _ _ _ _ _ _ H E). cbn.
  apply vget_ret. auto.
Qed.

Lemma fn_row_min nb c data0 data m max_id i v k0 : finished nb c data0 data m max_id ->
  nth_error data i = Some v -> nth_error (b_maxs c) (Z.to_nat (idx m max_id v)) = Some k0 ->
  b_row_min c i =
  Ret (fold_left fmin (filter (in_bucket m max_id (Z.to_nat (idx m max_id v))) data) k0).
Proof.
  intros H E Ek. unfold b_row_min. rewrite (fn_get _ _ _ _ _ _ _ _ H E). cbn.
  apply vget_ret. destruct (fn_mins _ _ _ _ _ _ H) as [_ S]. apply S. auto.
Qed.

Lemma in_bucket_true m max_id b v : in_bucket m max_id b v = true <->
  is_nan v = false /\ idx m max_id v = Z.of_nat b.
Proof.
  unfold in_bucket. rewrite andb_true_iff, negb_true_iff, Z.eqb_eq. tauto.
Qed.

(** All facts about one row. *)
Lemma fn_row nb c data0 data m max_id i v : zlen data < 4294967294 ->
  finished nb c data0 data m max_id -> below_inf data ->
  nth_error data i = Some v -> is_nan v = false ->
  exists k hi lo,
    b_bucket c i = Ret (idx m max_id v) /\ 1 <= idx m max_id v /\
    In (k, idx m max_id v) m /\
    (forall k' i', In (k', i') m -> fltb k' k = true -> fltb k' v = true) /\ feqb k hi = true /\
    b_row_max c i = Ret hi /\ b_row_min c i = Ret lo /\
    fleb lo v = true /\ fleb v hi = true /\
    (exists j w, nth_error data j = Some w /\ b_bucket c j = b_bucket c i /\ feqb lo w = true /\ is_nan w = false) /\
    (forall y, fltb y hi = true ->
       (forall w, In w data -> is_nan w = false -> idx m max_id w = idx m max_id v -> fltb y w = true) ->
       fltb y lo = true).
Proof.
  intros Hl H Hinf E Nv. pose proof (fn_map_facts _ _ _ _ _ _ Hl H Hinf) as M.
  assert (Iv : In v data) by (eapply nth_error_In; eauto).
  pose proof (Hinf v Iv Nv) as Hle.
  destruct (idx_entry m (b_maxs c) max_id v M Nv Hle) as (k & Ik & Lk & Ak).
  destruct (mf_at _ _ M _ _ Ik) as (hi & Hpos & Ehi & Fk).
  set (lo := fold_left fmin (filter (in_bucket m max_id (Z.to_nat (idx m max_id v))) data) hi).
  exists k, hi, lo.
  assert (Hlo : lo = fold_left fmin (filter (in_bucket m max_id (Z.to_nat (idx m max_id v))) data) hi) by reflexivity.
  clearbody lo.
  assert (Hbk : forall w, in_bucket m max_id (Z.to_nat (idx m max_id v)) w = true <->
                is_nan w = false /\ idx m max_id w = idx m max_id v).
  { intros w. rewrite in_bucket_true, Z2Nat.id by lia. tauto. }
  assert (Nhi : is_nan hi = false) by (clear - Fk; ford).
  assert (Hnn : Forall (fun v => is_nan v = false) (filter (in_bucket m max_id (Z.to_nat (idx m max_id v))) data)).
  { apply Forall_forall. intros w I. apply filter_In in I. apply Hbk. tauto. }
  destruct (fold_fmin_le _ hi Hnn Nhi) as [F1 F2]. rewrite <- Hlo in F1, F2.
  assert (Hlov : fleb lo v = true).
  { apply F2. apply filter_In. split; auto. apply Hbk. auto. }
  split; [eapply fn_get; eauto|]. split; [auto|]. split; [auto|]. split; [auto|]. split; [auto|].
  split; [eapply fn_row_max; eauto|]. split; [rewrite Hlo; eapply fn_row_min; eauto|].
  split; [auto|]. split; [clear - Lk Fk; ford|]. split.
  - destruct (fold_fmin_in (filter (in_bucket m max_id (Z.to_nat (idx m max_id v))) data) hi) as [E0|I0];
      rewrite <- Hlo in *.
    + (* lower end is the upper limit itself *)
      destruct (feqb lo v) eqn:Elv.
      * exists i, v. auto.
      * assert (Hin : In hi data).
        { assert (HX : zlen data0 < 4294967296).
          { destruct (fn_prefix _ _ _ _ _ _ H) as [d1 Ed].
            rewrite Ed, zlen_app in Hl. pose proof (zlen_nonneg d1). lia. }
          destruct (bucket_limits_ret _ _ _ HX (fn_limits _ _ _ _ _ _ H)) as (ms & Em & _ & Hin & _).
          rewrite Em in Ehi. destruct (Z.to_nat (idx m max_id v)) eqn:Ez; [lia|]. cbn in Ehi.
          apply nth_error_In, in_app_iff in Ehi. destruct Ehi as [I|[<-|[]]].
          - destruct (fn_prefix _ _ _ _ _ _ H) as [d1 ->]. apply in_app_iff. left. apply Hin; auto.
          - exfalso. clear - E0 Elv Hlov Hle. subst lo. ford. }
        apply In_nth_error in Hin. destruct Hin as [j Ej].
        exists j, hi. split; auto. rewrite (fn_get _ _ _ _ _ _ _ _ H Ej), (fn_get _ _ _ _ _ _ _ _ H E).
        cut (idx m max_id hi = idx m max_id v).
        { intros ->. split; auto. split; auto. rewrite E0. apply feqb_refl; auto. }
        destruct (idx_entry m (b_maxs c) max_id hi M Nhi) as (k1 & I1 & L1 & A1).
        { apply Hinf; auto. eapply nth_error_In; eauto. }
        assert (feqb k1 k = true).
        { destruct (fltb k k1) eqn:L.
          - pose proof (A1 _ _ Ik L) as C1. clear - C1 Fk. ford.
          - clear - L L1 Fk. ford. }
        destruct (sorted_keys_unique m k1 _ k _ (mf_sorted _ _ M) I1 Ik H0). auto.
    + apply filter_In in I0. destruct I0 as [I0 I1]. apply Hbk in I1.
      apply In_nth_error in I0. destruct I0 as [j Ej]. exists j, lo.
      rewrite (fn_get _ _ _ _ _ _ _ _ H Ej), (fn_get _ _ _ _ _ _ _ _ H E).
      split; auto. split; [f_equal; tauto|]. split; [apply feqb_refl|]; tauto.
  - intros y Hy Hw. rewrite Hlo. apply fold_fmin_gt; auto.
    intros w I. apply filter_In in I. destruct I as [I B]. apply Hbk in B. apply Hw; tauto.
Qed.

Lemma bucketized_contains nb blocks c : limit_ok nb -> zlen (concat blocks) < 4294967294 ->
  b_load nb blocks = Ret c -> below_inf (concat blocks) ->
  forall i v, nth_error (concat blocks) i = Some v -> is_nan v = false ->
  exists lo hi, b_row_min c i = Ret lo /\ b_row_max c i = Ret hi /\
    fleb lo v = true /\ fleb v hi = true /\
    exists j w, nth_error (concat blocks) j = Some w /\ is_nan w = false /\
      b_bucket c j = b_bucket c i /\ feqb lo w = true.
Proof.
  intros Hnb Hl E Hinf i v Ei Nv.
  destruct (b_load_finished nb blocks c Hnb Hl E) as (d0 & m & mid & H).
  destruct (fn_row _ _ _ _ _ _ i v Hl H Hinf Ei Nv) as
    (k & hi & lo & B & P & Ik & Ak & Fk & Rmax & Rmin & L1 & L2 & (j & w & Ej & Bj & Fl & Nw) & _).
  exists lo, hi. split; auto. split; auto. split; auto. split; auto. exists j, w. auto.
Qed.

Lemma bucketized_ordered nb blocks c : limit_ok nb -> zlen (concat blocks) < 4294967294 ->
  b_load nb blocks = Ret c -> below_inf (concat blocks) ->
  forall i j a b, nth_error (concat blocks) i = Some a -> nth_error (concat blocks) j = Some b ->
  is_nan a = false -> is_nan b = false ->
  exists p q, b_bucket c i = Ret p /\ b_bucket c j = Ret q /\
    (fleb a b = true -> p <= q) /\
    (p < q -> fltb a b = true /\
       exists hi lo, b_row_max c i = Ret hi /\ b_row_min c j = Ret lo /\ fltb hi lo = true).
Proof.
  intros Hnb Hl E Hinf i j a b Ei Ej Na Nb.
  destruct (b_load_finished nb blocks c Hnb Hl E) as (d0 & m & mid & H).
  pose proof (fn_map_facts _ _ _ _ _ _ Hl H Hinf) as M.
  destruct (fn_row _ _ _ _ _ _ i a Hl H Hinf Ei Na) as
    (ka & hia & loa & Ba & Pa & Ika & Aka & Fka & Rmaxa & Rmina & La1 & La2 & _ & _).
  destruct (fn_row _ _ _ _ _ _ j b Hl H Hinf Ej Nb) as
    (kb & hib & lob & Bb & Pb & Ikb & Akb & Fkb & Rmaxb & Rminb & Lb1 & Lb2 & _ & Gb).
  assert (Ha : fleb a flt_max = true) by (apply Hinf; auto; eapply nth_error_In; eauto).
  assert (Hb : fleb b flt_max = true) by (apply Hinf; auto; eapply nth_error_In; eauto).
  exists (idx m mid a), (idx m mid b). split; auto. split; auto. split.
  - intros L. eapply idx_mono; eauto.
  - intros L. pose proof (idx_lt m (b_maxs c) mid a b ka M Ha Hb L Ika) as Lt.
    split; [clear - La2 Fka Lt; ford|]. exists hia, lob. split; auto. split; auto. apply Gb.
    + clear - Fka Lt Lb2. ford.
    + intros w Iw Nw Ew. assert (Hw : fleb w flt_max = true) by (apply Hinf; auto).
      assert (L' : idx m mid a < idx m mid w) by (rewrite Ew; exact L).
      pose proof (idx_lt m (b_maxs c) mid a w ka M Ha Hw L' Ika) as Lw. clear - Lw Fka. ford.
Qed.

(** *** losslessness *)
Lemma capacity_one n nb : 0 <= n < 2 * nb -> 1 <= nb <= 21474836 -> bucket_capacity n nb = 1.
Proof.
  intros Hn Hnb. unfold bucket_capacity. rewrite u64_small by lia.
  assert (0 <= n / nb <= 1).
  { split; [apply Z.div_pos; lia|]. apply Z.lt_succ_r. apply Z.div_lt_upper_bound; lia. }
  rewrite u32_small; lia.
Qed.

Lemma bucketized_lossless nb blocks c : limit_ok nb -> zlen (concat blocks) < 2 * nb ->
  b_load nb blocks = Ret c -> below_inf (concat blocks) ->
  forall i v, nth_error (concat blocks) i = Some v -> is_nan v = false ->
  exists lo hi, b_row_min c i = Ret lo /\ b_row_max c i = Ret hi /\
    feqb lo v = true /\ feqb hi v = true.
Proof.
  intros Hnb Hlen E Hinf i v Ei Nv. pose proof Hnb as [Hnb1 Hnb2].
  assert (Hl : zlen (concat blocks) < 4294967294) by lia.
  destruct (b_load_finished nb blocks c Hnb Hl E) as (d0 & m & mid & H).
  pose proof (fn_map_facts _ _ _ _ _ _ Hl H Hinf) as M.
  assert (Hd0 : d0 = concat blocks).
  { destruct (fn_which _ _ _ _ _ _ H) as [[? ?]|Hbig]; auto.
    destruct (fn_prefix _ _ _ _ _ _ H) as [d1 Ed]. rewrite Ed, zlen_app in Hlen.
    pose proof (zlen_nonneg d1). lia. }
  subst d0.
  assert (HX : zlen (concat blocks) < 4294967296) by lia.
  destruct (bucket_limits_ret _ _ _ HX (fn_limits _ _ _ _ _ _ H)) as (ms & Em & _ & Hmem & _ & Hheavy & _).
  (* every value is numerically equal to the upper limit of its bucket *)
  assert (Hmax : forall j w, nth_error (concat blocks) j = Some w -> is_nan w = false ->
     exists hi lo, b_row_max c j = Ret hi /\ b_row_min c j = Ret lo /\ feqb hi w = true /\ 
     exists j' w', nth_error (concat blocks) j' = Some w' /\ is_nan w' = false /\
                   b_bucket c j' = b_bucket c j /\ feqb lo w' = true).
  { intros j w Ej Nw.
    destruct (fn_row _ _ _ _ _ _ j w Hl H Hinf Ej Nw) as
      (k & hi & lo & B & P & Ik & Ak & Fk & Rmax & Rmin & L1 & L2 & (j' & w' & Ej' & Bj' & Fl & Nw') & _).
    exists hi, lo. split; auto. split; auto. split; [|exists j', w'; auto].
    assert (Iw : In w (concat blocks)) by (eapply nth_error_In; eauto).
    destruct (Hheavy w Iw Nw) as (k1 & Ik1 & Fk1).
    { rewrite capacity_one by (pose proof (zlen_nonneg (concat blocks)); lia).
      unfold occurrences. assert (In w (filter (feqb w) (concat blocks))).
      { apply filter_In. split; auto. apply feqb_refl; auto. }
      destruct (filter (feqb w) (concat blocks)); [destruct H0|].
      unfold zlen. cbn [List.length]. lia. }
    (* k1 has an entry in the map, so the lower bound of w is numerically w *)
    assert (Hn : Forall (fun k => is_nan k = false) (ms ++ [flt_max])).
    { apply Forall_app. split; [|repeat constructor].
      apply Forall_forall. intros x Ix. apply Hmem; auto. }
    destruct (build_map_spec _ Hn) as (_ & _ & _ & Hp).
    destruct (Hp k1) as (k2 & Ik2 & Fk2); [apply in_app_iff; auto|].
    apply in_keys in Ik2. destruct Ik2 as [i2 Ik2].
    assert (Im : In (k2, i2) m) by (rewrite (fn_map _ _ _ _ _ _ H), Em; exact Ik2).
    destruct (fltb k2 k) eqn:L.
    + pose proof (Ak _ _ Im L) as C1. clear - C1 Fk1 Fk2. ford.
    + clear - L L2 Fk Fk1 Fk2. ford. }
  destruct (Hmax i v Ei Nv) as (hi & lo & Rmax & Rmin & F & j & w & Ej & Nw & Bj & Fl).
  exists lo, hi. split; auto. split; auto. split; [|exact F].
  destruct (Hmax j w Ej Nw) as (hi' & lo' & Rmax' & _ & F' & _).
  assert (hi' = hi).
  { unfold b_row_max in Rmax, Rmax'. rewrite Bj in Rmax'. congruence. }
  subst hi'. clear - F F' Fl. ford.
Qed.
