(** Python_proofs.v - proofs about the Python binding. *)
From Coq Require Import SpecFloat.
From Verif Require Import Base Base_proofs F32 F32_proofs Column ColumnSpec ColumnStr_proofs ColumnHist_proofs
  ColumnBucket_proofs ColumnProps_proofs ColumnCount_proofs DataStore DataStoreSpec DataStore_proofs Python PythonSpec.

(** ** Access to rows *)
Lemma holds_size c vals : holds c vals -> col_size c = Ret (List.length vals).
Proof. unfold holds, col_size. destruct (c_body c); intros [H _]; congruence. Qed.
Lemma holds_row c vals i v : holds c vals -> nth_error vals i = Some v -> col_row c i = Ret v.
Proof.
  unfold holds, col_row. destruct (c_body c); intros [_ H] E; destruct (H i v E) as (x & -> & ->); reflexivity.
Qed.

Lemma u32_range i : (0 <= u32 i < 4294967296)%Z.
Proof. unfold u32. apply Z.mod_pos_bound. lia. Qed.

Lemma get_exact c vals i : holds c vals ->
  py_get c i = match nth_error vals (Z.to_nat (u32 i)) with Some v => py_ret v | None => py_raise OutOfRange end.
Proof.
  intros H. unfold py_get. rewrite (holds_size c vals H). cbn [bind]. pose proof (u32_range i).
  destruct (Z.leb_spec (Z.of_nat (List.length vals)) (u32 i)) as [L|L].
  - cbn. destruct (nth_error vals _) as [v|] eqn:E; [|reflexivity].
    assert (nth_error vals (Z.to_nat (u32 i)) <> None) as X by congruence. apply nth_error_Some in X. lia.
  - destruct (nth_error vals _) as [v|] eqn:E.
    + rewrite (holds_row c vals _ v H E). reflexivity.
    + apply nth_error_None in E. lia.
Qed.

Lemma u32_int i : int32 i -> u32 i = if (0 <=? i)%Z then i else (i + 4294967296)%Z.
Proof.
  unfold int32, u32. intros H. destruct (Z.leb_spec 0 i).
  - apply Z.mod_small. lia.
  - rewrite <- (Z.mod_small (i + 4294967296) 4294967296) by lia.
    replace (i + 4294967296)%Z with (i + 1 * 4294967296)%Z by ring. rewrite Z_mod_plus_full. reflexivity.
Qed.

Lemma get_checked c vals i : holds c vals -> (zlen vals <= 2147483648)%Z -> int32 i ->
  py_get c i = if (0 <=? i)%Z then match nth_error vals (Z.to_nat i) with Some v => py_ret v | None => py_raise OutOfRange end
               else py_raise OutOfRange.
Proof.
  intros H L I. rewrite (get_exact c vals i H), (u32_int i I). destruct (Z.leb_spec 0 i) as [P|P]; [reflexivity|].
  destruct (nth_error vals _) as [v|] eqn:E; [|reflexivity].
  assert (nth_error vals (Z.to_nat (i + 4294967296)) <> None) as X by congruence. apply nth_error_Some in X.
  unfold zlen, int32 in *. lia.
Qed.

(** ** Iteration *)
Lemma iter_from c vals : holds c vals -> (zlen vals < 2147483648)%Z -> forall k,
  py_iter c (Z.of_nat (List.length vals - k)) (skipn (List.length vals - k) vals).
Proof.
  intros H L. unfold zlen in L. induction k as [|k IH].
  - rewrite Nat.sub_0_r, skipn_all. apply PyStop. rewrite (get_checked c vals); [|assumption|unfold zlen; lia|unfold int32; lia].
    destruct (Z.leb_spec 0 (Z.of_nat (List.length vals))); [|lia]. rewrite Nat2Z.id.
    destruct (nth_error vals (List.length vals)) eqn:E; [|reflexivity].
    assert (nth_error vals (List.length vals) <> None) as X by congruence. apply nth_error_Some in X. lia.
  - destruct (le_lt_dec (List.length vals) k) as [K|K].
    + replace (List.length vals - S k) with (List.length vals - k) by lia. exact IH.
    + remember (List.length vals - S k) as j eqn:J. replace (List.length vals - k) with (S j) in IH by lia.
      destruct (nth_error vals j) as [v|] eqn:E; [|apply nth_error_None in E; lia].
      assert (skipn j vals = v :: skipn (S j) vals) as ->.
      { clear - E. revert vals E. induction j as [|j IH]; intros [|x l] E; cbn in *; try discriminate.
        - injection E as ->. reflexivity.
        - rewrite (IH l E). reflexivity. }
      apply PyNext.
      * rewrite (get_checked c vals); [|assumption|unfold zlen; lia|unfold int32; lia].
        destruct (Z.leb_spec 0 (Z.of_nat j)); [|lia]. rewrite Nat2Z.id, E. reflexivity.
      * replace (Z.of_nat j + 1)%Z with (Z.of_nat (S j)) by lia. exact IH.
Qed.
Lemma iter_det c : forall i l, py_iter c i l -> forall l', py_iter c i l' -> l = l'.
Proof.
  intros i l H. induction H as [i E|i v l E _ IH]; intros l' H'; inversion H'; subst; try (unfold py_ret, py_raise in *; congruence).
  f_equal; [unfold py_ret in *; congruence|]. apply IH. assumption.
Qed.
Lemma iter_list c vals l : holds c vals -> (zlen vals < 2147483648)%Z -> py_iter c 0 l <-> l = vals.
Proof.
  intros H L. pose proof (iter_from c vals H L (List.length vals)) as X. rewrite Nat.sub_diag in X. cbn [skipn] in X.
  split; [|intros ->; exact X]. intros Y. eapply iter_det; eassumption.
Qed.

(** ** Creating columns *)
Lemma vget_some {A} (l : list A) i a : nth_error l i = Some a -> vget l i = Ret a.
Proof. intros H. apply vget_ret. exact H. Qed.

Lemma floats_map l : map (fun v => match v with VFloat x => x | VString _ => fnan end) (map VFloat l) = l.
Proof. rewrite map_map. apply map_id. Qed.
Lemma strings_map l : map (fun v => match v with VString x => x | VFloat _ => [] end) (map VString l) = l.
Proof. rewrite map_map. apply map_id. Qed.

Lemma limit_default : limit_ok default_buckets.
Proof. unfold limit_ok, default_buckets. lia. Qed.

Lemma create_load nb raw : create_bucketized nb raw = b_load nb [raw].
Proof. unfold create_bucketized, b_load. cbn [fold_res]. destruct (b_add raw (b_init nb)); reflexivity. Qed.

Lemma create_cases nb raw : limit_ok nb -> (zlen raw < 4294967294)%Z ->
  create_bucketized nb raw = Undef \/ exists b, create_bucketized nb raw = Ret b.
Proof.
  intros Hnb Hl. destruct (create_bucketized nb raw) as [b| |] eqn:E; [right; eauto|left; reflexivity|]. exfalso.
  revert E. pose proof Hnb as [Hnb1 Hnb2]. unfold create_bucketized, b_add, b_init.
  cbn [is_ok b_status b_ints i_final icol_init b_nb b_buffer b_map b_maxs b_mins].
  change (zlen (@nil f32) =? 0)%Z with true. cbn iota.
  replace ((100 * nb <? -2147483648) || (2147483647 <? 100 * nb))%Z with false by lia.
  rewrite u64_small by lia. cbn [app].
  destruct (build_spec nb raw Hl) as [F1 F2].
  assert (bucket_limits nb raw <> Fatal) as NF.
  { unfold bucket_limits. destruct (u64 nb =? 0)%Z; [discriminate|].
    destruct (take_heavy _ _ _ _) as [[? ?] ?]. destruct (_ =? 0)%Z; discriminate. }
  destruct (Z.ltb_spec (100 * nb) (zlen raw)).
  - destruct (bucket_limits nb raw) eqn:El; [|rewrite F1; discriminate|congruence].
    destruct (F2 _ eq_refl) as (c3 & max_id & F3 & Hb & Hb'). rewrite F3. cbn [bind].
    unfold b_finalize. rewrite (bt_status _ _ _ _ Hb), (bt_final _ _ _ _ Hb).
    rewrite (built_maxs_nonempty _ _ _ _ Hl Hb). cbn [is_ok bind]. rewrite (bt_status _ _ _ _ Hb). discriminate.
  - cbn [bind]. unfold b_finalize. cbn [is_ok b_status b_ints i_final icol_init b_maxs].
    change (zlen (@nil f32) =? 0)%Z with true. cbn iota.
    destruct (bucket_limits nb raw) eqn:El; [|rewrite F1; discriminate|congruence].
    destruct (F2 _ eq_refl) as (c3 & max_id & F3 & Hb & Hb'). rewrite F3. cbn [bind].
    rewrite (bt_status _ _ _ _ Hb). discriminate.
Qed.

(** Every row of a bucketized column has a lower end; NaN for a missing value. *)
Lemma rows_loaded nb blocks b : limit_ok nb -> (zlen (concat blocks) < 4294967294)%Z -> b_load nb blocks = Ret b ->
  forall i v, nth_error (concat blocks) i = Some v -> exists x, b_row_min b i = Ret x /\ (is_nan v = true -> is_nan x = true).
Proof.
  intros Hnb Hl E i v Ei. destruct (b_load_finished nb blocks b Hnb Hl E) as (d0 & m & mid & H).
  set (raw := concat blocks) in *.
  assert (HX : (zlen d0 < 4294967296)%Z).
  { destruct (fn_prefix _ _ _ _ _ _ H) as [d1 Ed]. rewrite Ed, zlen_app in Hl. pose proof (zlen_nonneg d1). lia. }
  destruct (bucket_limits_ret _ _ _ HX (fn_limits _ _ _ _ _ _ H)) as (ms & Em & _).
  destruct (is_nan v) eqn:Nv.
  - exists (fold_left fmin (filter (in_bucket m mid 0) raw) fnan). split.
    + erewrite fn_row_min; [|eassumption|eassumption|].
      2:{ rewrite (idx_nan m mid v Nv), Em. reflexivity. }
      rewrite (idx_nan m mid v Nv). reflexivity.
    + intros _. replace (filter (in_bucket m mid 0) raw) with (@nil f32); [reflexivity|].
      symmetry. destruct (filter (in_bucket m mid 0) raw) as [|w l] eqn:F; [reflexivity|].
      assert (In w (filter (in_bucket m mid 0) raw)) as I by (rewrite F; left; reflexivity).
      apply filter_In in I. destruct I as [_ I]. apply in_bucket_true in I. destruct I as [Nw I].
      pose proof (fn_idx_range _ _ _ _ _ _ w Hl H Nw). cbn in I. lia.
  - pose proof (fn_idx_range _ _ _ _ _ _ v Hl H Nv) as R.
    destruct (nth_error (b_maxs b) (Z.to_nat (idx m mid v))) as [k0|] eqn:K.
    + eexists. split; [eapply fn_row_min; eassumption|discriminate].
    + apply nth_error_None in K. unfold zlen in R. lia.
Qed.
Lemma rows_defined nb raw b : limit_ok nb -> (zlen raw < 4294967294)%Z -> create_bucketized nb raw = Ret b ->
  forall i v, nth_error raw i = Some v -> exists x, b_row_min b i = Ret x /\ (is_nan v = true -> is_nan x = true).
Proof.
  intros Hnb Hl E. rewrite create_load in E. assert (concat [raw] = raw) as C by (cbn; apply app_nil_r).
  pose proof (rows_loaded nb [raw] b Hnb) as R. rewrite C in R. exact (R Hl E).
Qed.

Lemma list_of_rows (P : nat -> value -> Prop) n : (forall i, i < n -> exists v, P i v) ->
  exists l, List.length l = n /\ forall i v, nth_error l i = Some v -> P i v.
Proof.
  induction n as [|n IH]; intros H.
  - exists []. split; [reflexivity|]. intros [|i] v; discriminate.
  - destruct IH as (l & L & Hl); [intros i I; apply H; lia|]. destruct (H n) as [v Hv]; [lia|].
    exists (l ++ [v]). split; [rewrite app_length; cbn; lia|]. intros i w E.
    destruct (Nat.lt_ge_cases i n) as [I|I].
    + rewrite nth_error_app1 in E by lia. auto.
    + rewrite nth_error_app2 in E by lia. rewrite L in E.
      destruct (i - n) as [|j] eqn:J; cbn in E; [|destruct j; discriminate]. injection E as <-.
      replace i with n by lia. exact Hv.
Qed.

Lemma forall2_nth {A B} (P : A -> B -> Prop) l : forall l', List.length l = List.length l' ->
  (forall i a b, nth_error l i = Some a -> nth_error l' i = Some b -> P a b) -> Forall2 P l l'.
Proof.
  induction l as [|a l IH]; intros [|b l'] L H; try discriminate; constructor.
  - exact (H 0 a b eq_refl eq_refl).
  - apply IH; [cbn in L; lia|]. intros i. exact (H (S i)).
Qed.

Lemma create_holds n t vals c : typed_for t vals -> (zlen vals < 4294967294)%Z -> py_create n t vals = Ret c ->
  c_name c = n /\ col_type c = t /\ exists shown, holds c shown /\ List.length shown = List.length vals /\
    (t <> TBucketized \/ ((zlen vals < 60000)%Z /\ below_inf (floats_of vals)) -> same_values t vals shown).
Proof.
  intros T L E. destruct t; cbn in T; unfold py_create in E.
  - rewrite T in E. rewrite floats_map in E. set (fs := floats_of vals) in *. clearbody fs.
    destruct (create_bucketized default_buckets fs) as [b| |] eqn:B; [|discriminate..]. cbn [bind] in E. injection E as <-.
    assert (zlen fs = zlen vals) as LF by (rewrite T; unfold zlen; rewrite map_length; reflexivity).
    pose proof (rows_defined default_buckets fs b limit_default ltac:(lia) B) as RD.
    pose proof B as B'. rewrite create_load in B'. assert (concat [fs] = fs) as C by (cbn; apply app_nil_r).
    destruct (bucketized_size_missing default_buckets [fs] b limit_default ltac:(rewrite C; lia) B') as (_ & Sz & _).
    rewrite C in Sz.
    split; [reflexivity|]. split; [reflexivity|].
    destruct (list_of_rows (fun i v => exists x, v = VFloat x /\ b_row_min b i = Ret x) (List.length fs)) as (shown & SL & Sh).
    { intros i I. destruct (nth_error fs i) as [v|] eqn:Ei; [|apply nth_error_None in Ei; lia].
      destruct (RD i v Ei) as (x & X & _). eauto. }
    assert (List.length vals = List.length fs) as LV by (rewrite T, map_length; reflexivity).
    exists shown. split.
    { cbn. rewrite SL. split; [exact Sz|exact Sh]. }
    split; [lia|]. intros [N|[L6 BI]]; [congruence|]. cbn. apply forall2_nth; [lia|].
    intros i a w Ea Ew. destruct (Sh i w Ew) as (x & -> & X).
    rewrite T, nth_error_map in Ea. destruct (nth_error fs i) as [v|] eqn:Ei; [|discriminate]. injection Ea as <-. cbn.
    destruct (is_nan v) eqn:Nv.
    + right. destruct (RD i v Ei) as (x' & X' & Nx). assert (x' = x) as -> by congruence. auto.
    + left. destruct (bucketized_lossless default_buckets [fs] b limit_default) with (i := i) (v := v) as (lo & hi & Lo & _ & Fl & _);
        try (rewrite C; assumption); try assumption.
      { rewrite C. unfold default_buckets. lia. }
      assert (lo = x) as -> by congruence. ford.
  - rewrite T in E. rewrite floats_map in E. set (fs := floats_of vals) in *. clearbody fs. injection E as <-.
    split; [reflexivity|]. split; [reflexivity|]. exists vals. split; [|split; [reflexivity|intros _; reflexivity]].
    cbn. rewrite T, map_length. split; [reflexivity|]. intros i v Ev. rewrite nth_error_map in Ev.
    destruct (nth_error fs i) as [x|] eqn:X; [|discriminate]. injection Ev as <-. exists x. split; [reflexivity|].
    unfold r_get, create_raw, r_finalize, r_add, r_init. cbn. apply vget_some. exact X.
  - rewrite T in E. rewrite strings_map in E. set (ss := strings_of vals) in *. clearbody ss. injection E as <-.
    assert (zlen ss = zlen vals) as LF by (rewrite T; unfold zlen; rewrite map_length; reflexivity).
    split; [reflexivity|]. split; [reflexivity|]. exists vals. split; [|split; [reflexivity|intros _; reflexivity]].
    assert (fits_32_bits (concat [ss])) as F.
    { unfold fits_32_bits. cbn [concat]. rewrite app_nil_r.
      assert (List.length (nodup str_eq_dec (missing_str :: ss)) <= List.length (missing_str :: ss)) as X.
      { apply NoDup_incl_length; [apply NoDup_nodup|]. intros x I. apply nodup_In in I. exact I. }
      cbn [List.length] in X. unfold zlen in *. lia. }
    destruct (string_column_roundtrip [ss] F) as (_ & Sz & Rw).
    assert (concat [ss] = ss) as C by (cbn; apply app_nil_r). rewrite C in Sz, Rw.
    cbn. rewrite T, map_length. split; [exact Sz|]. intros i v Ev. rewrite nth_error_map in Ev.
    destruct (nth_error ss i) as [x|] eqn:X; [|discriminate]. injection Ev as <-. exists x. split; [reflexivity|].
    apply Rw. exact X.
Qed.

(** ** Buckets *)
Lemma buckets_from b : List.length (b_mins b) = List.length (b_maxs b) -> forall todo i, i + todo = List.length (b_maxs b) ->
  exists l, py_buckets_from b i todo = Ret l /\ List.length l = todo /\
  forall k lo hi, nth_error l k = Some (lo, hi) ->
    b_bucket_min b (Z.of_nat (i + k)) = Ret lo /\ b_bucket_max b (Z.of_nat (i + k)) = Ret hi.
Proof.
  intros LM. induction todo as [|todo IH]; intros i L.
  - exists []. split; [reflexivity|]. split; [reflexivity|]. intros [|k] lo hi; discriminate.
  - destruct (IH (S i)) as (l & E & EL & H); [lia|]. cbn [py_buckets_from].
    destruct (nth_error (b_mins b) i) as [lo|] eqn:Lo; [|apply nth_error_None in Lo; lia].
    destruct (nth_error (b_maxs b) i) as [hi|] eqn:Hi; [|apply nth_error_None in Hi; lia].
    assert (b_bucket_min b (Z.of_nat i) = Ret lo) as Elo by (unfold b_bucket_min; rewrite Nat2Z.id; apply vget_some; exact Lo).
    assert (b_bucket_max b (Z.of_nat i) = Ret hi) as Ehi by (unfold b_bucket_max; rewrite Nat2Z.id; apply vget_some; exact Hi).
    rewrite Elo, Ehi. cbn [bind]. rewrite E. cbn [bind]. exists ((lo, hi) :: l). split; [reflexivity|]. split; [cbn; lia|].
    intros [|k] lo' hi' X; cbn in X.
    + injection X as <- <-. rewrite Nat.add_0_r. auto.
    + specialize (H k lo' hi' X). replace (i + S k) with (S i + k) by lia. exact H.
Qed.

Lemma buckets_ok nb raw b : limit_ok nb -> (zlen raw < 2147483648)%Z -> create_bucketized nb raw = Ret b ->
  exists l, py_buckets b = py_ret l /\ Z.of_nat (List.length l) = b_max_int b /\
  forall k lo hi, nth_error l k = Some (lo, hi) -> b_bucket_min b (Z.of_nat k) = Ret lo /\ b_bucket_max b (Z.of_nat k) = Ret hi.
Proof.
  intros Hnb Hl E. rewrite create_load in E. assert (concat [raw] = raw) as C by (cbn; apply app_nil_r).
  assert (zlen (concat [raw]) < 4294967294)%Z as Hl' by (rewrite C; lia).
  destruct (b_load_finished nb [raw] b Hnb Hl' E) as (d0 & m & mid & H). rewrite C in H.
  destruct (fn_mins _ _ _ _ _ _ H) as [LM _].
  assert (zlen (b_maxs b) <= 2 * nb + 1)%Z as LC.
  { apply (limits_count nb d0); [exact Hnb| |exact (fn_limits _ _ _ _ _ _ H)].
    destruct (fn_prefix _ _ _ _ _ _ H) as [d1 Ed]. rewrite Ed, zlen_app in Hl. pose proof (zlen_nonneg d1). lia. }
  pose proof (zlen_nonneg (b_maxs b)). destruct Hnb.
  assert (b_max_int b = zlen (b_maxs b)) as MI by (unfold b_max_int; apply u32_small; lia).
  destruct (buckets_from b LM (List.length (b_maxs b)) 0 eq_refl) as (l & El & EL & X).
  exists l. unfold py_buckets. rewrite MI. unfold zlen. rewrite Nat2Z.id, El. split; [reflexivity|]. split; [lia|exact X].
Qed.
