(** ColumnCount_proofs.v - number of buckets, division by zero, block splits, state guards. *)
From Coq Require Import SpecFloat.
From Verif Require Import Base Base_proofs F32 F32_proofs Column ColumnSpec ColumnHist_proofs
  ColumnBucket_proofs ColumnProps_proofs ColumnStr_proofs.
Local Open Scope Z_scope.

Lemma sumc_nonneg h : (forall k n, In (k, n) h -> 0 <= n) -> 0 <= sumc h.
Proof.
  induction h as [|[k n] h IH]; cbn; intros H; [lia|].
  assert (0 <= n) by (apply (H k n); auto).
  assert (0 <= sumc h) by (apply IH; intros; apply (H k0 n0); auto). lia.
Qed.

Lemma sumc_ge cap h : (forall k n, In (k, n) h -> cap <= n) -> cap * zlen h <= sumc h.
Proof.
  induction h as [|[k n] h IH]; intros H.
  - unfold zlen; cbn. lia.
  - rewrite zlen_cons. cbn [sumc]. assert (cap <= n) by (apply (H k n); left; auto).
    assert (cap * zlen h <= sumc h) by (apply IH; intros; apply (H k0 n0); right; auto). lia.
Qed.

Lemma div_le_self a d : 0 <= a -> 1 <= d -> 0 <= a / d <= a.
Proof.
  intros Ha Hd. split; [apply Z.div_pos; lia|]. apply Z.div_le_upper_bound; nia.
Qed.

Lemma light_bound lo d B : 0 <= lo -> 1 <= d -> 0 <= B ->
  Z.max 1 (lo / d) * (B - 1) + 1 <= lo -> B <= 2 * d.
Proof.
  intros Hlo Hd HB Hb. pose proof (Z.mul_succ_div_gt lo d ltac:(lia)) as Hq.
  pose proof (div_le_self lo d Hlo Hd) as Hq2.
  set (q := lo / d) in *. clearbody q.
  destruct (Z.eq_dec q 0) as [E|N].
  - subst q. rewrite Z.max_l in Hb by lia. lia.
  - rewrite Z.max_r in Hb by lia.
    destruct (Z.le_gt_cases B (2 * d)); auto. nia.
Qed.

(** The number of limits between the missing bucket and the final one. *)
Lemma limits_count nb raw maxs : limit_ok nb -> zlen raw < 2147483648 ->
  bucket_limits nb raw = Ret maxs -> zlen maxs <= 2 * nb + 1.
Proof.
  intros [Hnb1 Hnb2] Hl E. assert (HX : zlen raw < 4294967296) by lia.
  destruct (bucket_limits_ret _ _ _ HX E) as
    (ms & -> & _ & _ & _ & _ & bs & lcap & Hms & Hd & Hlc & Hbs).
  rewrite zlen_cons, zlen_app. change (zlen [flt_max]) with 1. rewrite Hms. clear E Hms ms.
  pose proof (zlen_nonneg raw) as Hn0.
  destruct (histogram_inv raw) as (_ & _ & Hc & _ & Hsum).
  unfold heavy_count in *.
  assert (Ecap : bucket_capacity (zlen raw) nb = Z.max 1 (zlen raw / nb)).
  { unfold bucket_capacity. rewrite (u64_small nb) by lia.
    pose proof (div_le_self (zlen raw) nb Hn0 Hnb1).
    rewrite u32_small; lia. }
  set (cap := bucket_capacity (zlen raw) nb) in *.
  set (hv := filter (heavyb cap) (histogram raw)) in *.
  set (lt := filter (fun p => negb (heavyb cap p)) (histogram raw)) in *.
  assert (Hsplit : sumc (histogram raw) = sumc hv + sumc lt).
  { symmetry. apply (sumc_filter (heavyb cap)). intros k n I. destruct (Hc k n I). lia. }
  assert (Hlt0 : 0 <= sumc lt).
  { apply sumc_nonneg. intros k n I. apply filter_In in I. destruct (Hc k n (proj1 I)). lia. }
  assert (Hhv : cap * zlen hv <= sumc hv).
  { apply sumc_ge. intros k n I. apply filter_In in I. destruct I as [_ I].
    unfold heavyb in I. cbn in I. lia. }
  set (n := zlen raw) in *. set (H := zlen hv) in *. set (B := zlen bs) in *.
  assert (H0 : 0 <= H) by apply zlen_nonneg.
  assert (B0 : 0 <= B) by apply zlen_nonneg.
  assert (Hbs' : B = 0 \/ lcap * (B - 1) + 1 <= sumc lt).
  { destruct Hbs as [Eb|Hbs]; [left; subst B; rewrite Eb; reflexivity|auto]. }
  clear Hbs Hc.
  assert (Hcap1 : 1 <= cap) by lia.
  assert (Hcapn : n < (cap + 1) * nb).
  { pose proof (Z.mul_succ_div_gt n nb ltac:(lia)). nia. }
  set (lo := n - sumc hv) in *.
  assert (Hlo : sumc lt <= lo /\ 0 <= lo <= n - cap * H) by (subst lo; lia).
  rewrite (u64_small nb) in * by lia. rewrite (int32_small lo) in Hlc by nia. rewrite (u64_small lo) in Hlc by nia.
  assert (HHn : H <= n) by nia.
  destruct (Z.le_gt_cases (H + 1) nb) as [Hle|Hgt].
  - (* budget not exhausted *)
    rewrite u64_small in Hlc, Hd by lia.
    set (d := nb - (1 + H)) in *. assert (Hd1 : 1 <= d) by lia.
    pose proof (div_le_self lo d ltac:(lia) Hd1) as Hq.
    rewrite u32_small in Hlc by lia.
    destruct Hbs' as [->|Hb]; [lia|].
    assert (HB2 : B <= 2 * d).
    { apply (light_bound lo); try rewrite <- Hlc; lia. }
    lia.
  - (* more frequent values than buckets: the divisor wraps around *)
    assert (Hw : u64 (nb - (1 + H)) = nb - (1 + H) + 18446744073709551616).
    { unfold u64. symmetry. apply Z.mod_unique with (q := -1); lia. }
    rewrite Hw in Hlc. rewrite Z.div_small in Hlc by lia.
    change (Z.max 1 0) with 1 in Hlc. rewrite u32_small in Hlc by lia. subst lcap.
    assert (Hne : H <> nb - 1) by lia.
    assert (HB : B <= lo) by lia.
    assert (H + B < 2 * nb).
    { destruct (Z.eq_dec cap 1) as [E1|N1].
      - rewrite E1 in *. lia.
      - assert (H + B <= n - (cap - 1) * H) by lia.
        assert ((cap - 1) * nb <= (cap - 1) * H) by (apply Z.mul_le_mono_nonneg_l; lia).
        lia. }
    lia.
Qed.

Lemma bucketized_count nb blocks c : limit_ok nb -> zlen (concat blocks) < 2147483648 ->
  b_load nb blocks = Ret c -> b_max_int c <= 2 * nb + 1.
Proof.
  intros Hnb Hl E.
  assert (Hl' : zlen (concat blocks) < 4294967294) by lia.
  destruct (b_load_finished nb blocks c Hnb Hl' E) as (d0 & m & mid & H).
  unfold b_max_int.
  assert (zlen (b_maxs c) <= 2 * nb + 1).
  { apply (limits_count nb d0); auto; [|exact (fn_limits _ _ _ _ _ _ H)].
    destruct (fn_prefix _ _ _ _ _ _ H) as [d1 Ed]. rewrite Ed, zlen_app in Hl.
    pose proof (zlen_nonneg d1). lia. }
  pose proof (zlen_nonneg (b_maxs c)). destruct Hnb. rewrite ?u32_small; lia.
Qed.

(** *** division by zero *)
Lemma create_outcome nb raw : limit_ok nb -> zlen raw < 4294967294 ->
  create_bucketized nb raw = Undef <-> bucket_limits nb raw = Undef.
Proof.
  intros Hnb Hl. pose proof Hnb as [Hnb1 Hnb2].
  unfold create_bucketized, b_add, b_init.
  cbn [is_ok b_status b_ints i_final icol_init b_nb b_buffer b_map b_maxs b_mins].
  change (zlen (@nil f32) =? 0) with true. cbn iota.
  replace ((100 * nb <? -2147483648) || (2147483647 <? 100 * nb)) with false by lia.
  rewrite u64_small by lia. cbn [app].
  destruct (build_spec nb raw Hl) as [F1 F2].
  destruct (Z.ltb_spec (100 * nb) (zlen raw)).
  - destruct (bucket_limits nb raw) eqn:El.
    + destruct (F2 _ eq_refl) as (c3 & max_id & F3 & Hb & Hb'). rewrite F3. cbn [bind].
      unfold b_finalize. rewrite (bt_status _ _ _ _ Hb), (bt_final _ _ _ _ Hb).
      rewrite (built_maxs_nonempty _ _ _ _ Hl Hb). cbn [is_ok bind].
      rewrite (bt_status _ _ _ _ Hb). cbn. split; discriminate.
    + rewrite F1. cbn. tauto.
    + rewrite F1. cbn. split; discriminate.
  - cbn [bind]. unfold b_finalize. cbn [is_ok b_status b_ints i_final icol_init b_maxs].
    change (zlen (@nil f32) =? 0) with true. cbn iota.
    destruct (bucket_limits nb raw) eqn:El.
    + destruct (F2 _ eq_refl) as (c3 & max_id & F3 & Hb & Hb'). rewrite F3. cbn [bind].
      rewrite (bt_status _ _ _ _ Hb). cbn. split; discriminate.
    + rewrite F1. cbn. tauto.
    + rewrite F1. cbn. split; discriminate.
Qed.

Lemma pigeon (l1 : list f32) : forall l2,
  ForallOrdPairs (fun a b => feqb a b = false) l1 ->
  (forall a, In a l1 -> is_nan a = false /\ exists b, In b l2 /\ feqb a b = true) ->
  (List.length l1 <= List.length l2)%nat.
Proof.
  induction l1 as [|a l1 IH]; cbn; intros l2 Hp Hm; [lia|].
  inversion Hp as [|? ? Ha Hp']; subst.
  destruct (Hm a (or_introl eq_refl)) as (_ & b & Ib & Eb).
  apply in_split in Ib. destruct Ib as (x & y & ->).
  assert (List.length l1 <= List.length (x ++ y))%nat.
  { apply IH; auto. intros a' Ia'. destruct (Hm a' (or_intror Ia')) as (Na & b' & Ib' & Eb').
    split; auto. exists b'. split; auto.
    apply in_app_iff in Ib'. cbn in Ib'. rewrite in_app_iff.
    destruct Ib' as [|[<-|]]; auto.
    rewrite Forall_forall in Ha. pose proof (Ha a' Ia'). clear - Eb Eb' H. ford. }
  rewrite app_length in *. cbn. lia.
Qed.

Lemma frequent_count nb data hv : limit_ok nb -> zlen data < 4294967296 ->
  frequent_values nb data hv -> heavy_count nb data = zlen hv.
Proof.
  intros [Hnb1 Hnb2] Hl (H1 & H2 & H3).
  assert (Ecap : bucket_capacity (zlen data) nb = Z.max 1 (zlen data / nb)).
  { unfold bucket_capacity. rewrite (u64_small nb) by lia. pose proof (zlen_nonneg data).
    pose proof (div_le_self (zlen data) nb ltac:(lia) Hnb1).
    rewrite u32_small; lia. }
  unfold heavy_count. rewrite Ecap. set (cap := Z.max 1 (zlen data / nb)) in *.
  destruct (histogram_inv data) as (Hs & Hn & Hc & Hall & _).
  set (fk := filter (heavyb cap) (histogram data)).
  assert (Hsf : StronglySorted flt (keys fk)) by (apply keys_filter_sorted; auto).
  rewrite <- zlen_keys. unfold zlen. f_equal. apply Nat.le_antisymm; apply pigeon.
  - apply sorted_apart in Hsf. clear - Hsf. induction Hsf; constructor; auto.
    eapply Forall_impl; [|eassumption]. intros b [L|L]; clear - L; ford.
  - intros a Ia. apply in_keys in Ia. destruct Ia as [n In_]. apply filter_In in In_.
    destruct In_ as [In_ Hh]. destruct (Hc a n In_) as (En & _ & Ia).
    assert (Na : is_nan a = false).
    { rewrite Forall_forall in Hn. apply Hn, in_keys. eauto. }
    split; auto. apply H3; auto. unfold heavyb in Hh. cbn in Hh. lia.
  - auto.
  - intros a Ia. destruct (H1 a Ia) as (Id & Na & Ho). split; auto.
    destruct (Hall a Id Na) as (k & Ik & Ek). exists k. split; auto.
    apply in_keys in Ik. destruct Ik as [n Ik]. apply in_keys. exists n. apply filter_In.
    split; auto. destruct (Hc k n Ik) as (En & _). unfold heavyb. cbn.
    rewrite (occurrences_feqb _ _ _ Ek) in Ho. apply Z.leb_le. lia.
Qed.

Lemma bucketized_div_zero nb data hv : limit_ok nb -> zlen data < 2147483648 ->
  frequent_values nb data hv ->
  create_bucketized nb data = Undef <-> zlen hv = nb - 1.
Proof.
  intros Hnb Hl Hf. pose proof Hnb as [Hnb1 Hnb2].
  assert (Hl1 : zlen data < 4294967294) by lia.
  assert (Hl2 : zlen data < 4294967296) by lia.
  rewrite (create_outcome nb data Hnb Hl1), (bucket_limits_undef nb data Hl2).
  rewrite (frequent_count nb data hv Hnb Hl2 Hf).
  rewrite (u64_small nb) by lia.
  assert (Hlen : zlen hv <= zlen data).
  { destruct Hf as (H1 & H2 & _). unfold zlen. apply inj_le. apply pigeon; auto.
    intros a Ia. destruct (H1 a Ia) as (Id & Na & _). split; auto. exists a. split; auto.
    apply feqb_refl; auto. }
  pose proof (zlen_nonneg hv).
  split.
  - intros [?|Hu]; [lia|]. unfold u64 in Hu. apply Z.mod_divide in Hu; [|lia].
    destruct Hu as [q Hq]. assert (q = 0) by lia. lia.
  - intros ->. right. replace (nb - (1 + (nb - 1))) with 0 by lia. reflexivity.
Qed.

(** *** blocks *)
Lemma buffer_add nb data b : limit_ok nb -> zlen (data ++ b) <= 100 * nb ->
  b_add b (mkB SOk icol_init nb data [] [] []) = Ret (mkB SOk icol_init nb (data ++ b) [] [] []).
Proof.
  intros [Hnb1 Hnb2] Hl. unfold b_add.
  cbn [is_ok b_status b_ints i_final icol_init b_nb b_buffer b_map b_maxs b_mins].
  change (zlen (@nil f32) =? 0) with true. cbn iota.
  replace ((100 * nb <? -2147483648) || (2147483647 <? 100 * nb)) with false by lia.
  rewrite u64_small by lia.
  replace (100 * nb <? zlen (data ++ b)) with false by lia. auto.
Qed.

Lemma buffer_blocks nb blocks : forall data, limit_ok nb -> zlen (data ++ concat blocks) <= 100 * nb ->
  fold_res (fun c raw => b_add raw c) blocks (mkB SOk icol_init nb data [] [] []) =
  Ret (mkB SOk icol_init nb (data ++ concat blocks) [] [] []).
Proof.
  induction blocks as [|b blocks IH]; intros data Hnb Hl.
  - cbn. rewrite app_nil_r. auto.
  - cbn [fold_res concat] in *. rewrite app_assoc in *.
    rewrite buffer_add; auto.
    { cbn [bind]. apply IH; auto. }
    rewrite zlen_app in Hl. pose proof (zlen_nonneg (concat blocks)). lia.
Qed.

Lemma bucketized_blocks nb blocks blocks' : limit_ok nb -> concat blocks = concat blocks' ->
  zlen (concat blocks) <= 100 * nb -> b_load nb blocks = b_load nb blocks'.
Proof.
  intros Hnb E Hl. unfold b_load, b_init. 
  rewrite (buffer_blocks nb blocks [] Hnb Hl).
  rewrite (buffer_blocks nb blocks' [] Hnb); [cbn; rewrite E; auto|].
  cbn. rewrite <- E. auto.
Qed.

(** *** guards *)
Lemma bucketized_frozen nb blocks c raw : limit_ok nb -> zlen (concat blocks) < 4294967294 ->
  b_load nb blocks = Ret c ->
  exists c1 c2, b_add raw c = Ret c1 /\ b_finalize c = Ret c2 /\
    b_status c1 = SErr FAILED_PRECONDITION /\ b_status c2 = SErr FAILED_PRECONDITION /\
    b_size c1 = b_size c /\ b_size c2 = b_size c /\
    forall i, b_bucket c1 i = b_bucket c i /\ b_bucket c2 i = b_bucket c i /\
      b_row_min c1 i = b_row_min c i /\ b_row_min c2 i = b_row_min c i /\
      b_row_max c1 i = b_row_max c i /\ b_row_max c2 i = b_row_max c i.
Proof.
  intros Hnb Hl E. destruct (b_load_finished nb blocks c Hnb Hl E) as (d0 & m & mid & H).
  unfold b_add, b_finalize. rewrite (fn_status _ _ _ _ _ _ H), (fn_final _ _ _ _ _ _ H). cbn [is_ok].
  eexists. eexists. split; [reflexivity|]. split; [reflexivity|].
  split; auto. split; auto. split; auto. split; auto. intros i. auto 10.
Qed.

Lemma default_budget_crash data dv : zlen data <= 59999 ->
  (forall v, In v dv -> In v data /\ is_nan v = false) ->
  ForallOrdPairs (fun a b => feqb a b = false) dv ->
  (forall v, In v data -> is_nan v = false -> exists w, In w dv /\ feqb v w = true) ->
  zlen dv = 29999 -> create_bucketized default_buckets data = Undef.
Proof.
  intros Hl H1 H2 H3 H4.
  assert (Hlim : limit_ok default_buckets) by (unfold limit_ok, default_buckets; lia).
  assert (Hl' : zlen data < 2147483648) by lia.
  apply (bucketized_div_zero default_buckets data dv Hlim Hl'); [|unfold default_buckets; lia].
  assert (Eone : Z.max 1 (zlen data / default_buckets) = 1).
  { assert (zlen data / default_buckets < 2).
    { apply Z.div_lt_upper_bound; unfold default_buckets; lia. }
    lia. }
  unfold frequent_values. rewrite Eone. split; [|split]; auto.
  intros v Iv. destruct (H1 v Iv) as [Id Nv]. split; auto. split; auto.
  unfold occurrences. assert (In v (filter (feqb v) data)).
  { apply filter_In. split; auto. apply feqb_refl; auto. }
  destruct (filter (feqb v) data); [destruct H|]. rewrite zlen_cons.
  pose proof (zlen_nonneg l). lia.
Qed.

Lemma string_frozen blocks : fits_32_bits (concat blocks) ->
  let c := string_column_of blocks in let c' := str_finalize c in
  s_status c' = SErr FAILED_PRECONDITION /\ str_size c' = str_size c /\
  (forall i, str_row c' i = str_row c i) /\ (forall s, str_cat_index c' s = str_cat_index c s).
Proof.
  intros F c c'. subst c'.
  assert (Hst : s_status c = SOk) by (apply string_column_roundtrip; auto).
  assert (Hf : i_final (s_ints c) = true).
  { revert Hst. subst c. unfold string_column_of, str_finalize.
    destruct (is_ok (s_status _)) eqn:E1.
    - destruct (i_final (s_ints _)) eqn:E2; cbn; [discriminate|auto].
    - intros E. rewrite E in E1. discriminate. }
  unfold str_finalize. rewrite Hst, Hf. cbn. auto.
Qed.

Lemma raw_add_after_finalize data more :
  r_status (r_add more (create_raw data)) = SOk /\
  r_size (r_add more (create_raw data)) = (List.length data + List.length more)%nat.
Proof. split; auto. unfold r_size. cbn. rewrite app_length. auto. Qed.

Lemma raw_roundtrip blocks :
  let c := r_finalize (fold_left (fun c b => r_add b c) blocks r_init) in
  r_status c = SOk /\ r_size c = List.length (concat blocks) /\
  forall i, r_get c i = match nth_error (concat blocks) i with Some v => Ret v | None => Undef end.
Proof.
  assert (H : forall blocks d, fold_left (fun c b => r_add b c) blocks (mkR SOk d) = mkR SOk (d ++ concat blocks)).
  { clear. induction blocks as [|b l IH]; intros d; cbn; [rewrite app_nil_r; auto|].
    rewrite IH, app_assoc. auto. }
  unfold r_init, r_finalize. rewrite H. cbn. auto.
Qed.
