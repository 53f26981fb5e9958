(** ColumnBucket_proofs.v - bucketized columns: invariant of Add / Finalize. *)
From Coq Require Import SpecFloat.
From Verif Require Import Base Base_proofs F32 F32_proofs Column ColumnSpec ColumnHist_proofs.
Local Open Scope Z_scope.

(** *** map_set and build_map *)
Lemma map_set_keys k i m a : In a (keys (map_set k i m)) -> In a (keys m) \/ a = k.
Proof.
  induction m as [|[k' i'] m IH]; cbn.
  - intros [<-|[]]; auto.
  - destruct (fltb k k'); [|destruct (fltb k' k)]; cbn; intuition.
Qed.

Lemma map_set_sorted k i m : is_nan k = false -> Forall (fun k => is_nan k = false) (keys m) ->
  StronglySorted flt (keys m) -> StronglySorted flt (keys (map_set k i m)).
Proof.
  intros Hk. induction m as [|[k' i'] m IH]; cbn; intros Hn Hs.
  - repeat constructor.
  - apply StronglySorted_inv in Hs. destruct Hs as [Hs Hall].
    inversion Hn as [|? ? Hk' Hn']; subst.
    destruct (fltb k k') eqn:E1; [|destruct (fltb k' k) eqn:E2]; cbn.
    + constructor; [constructor; auto|]. constructor; auto.
      eapply Forall_impl; [|exact Hall]. intros a Ha. unfold flt in *. eapply fltb_trans; eauto.
    + constructor; auto. apply Forall_forall. intros a Ha.
      apply map_set_keys in Ha. destruct Ha as [Ha| ->]; auto.
      rewrite Forall_forall in Hall. apply Hall; auto.
    + constructor; auto.
Qed.

Lemma map_set_in k i m a b : is_nan k = false -> Forall (fun k => is_nan k = false) (keys m) ->
  StronglySorted flt (keys m) ->
  In (a, b) (map_set k i m) -> (In (a, b) m /\ feqb a k = false) \/ (feqb a k = true /\ b = i).
Proof.
  intros Hk. induction m as [|[k' i'] m IH]; intros Hn Hs.
  - cbn. intros [[= <- <-]|[]]. right. split; auto. apply feqb_refl; auto.
  - pose proof (fun a b => sorted_keys_lt k' i' m a b Hs) as Hlt.
    cbn in Hs |- *. apply StronglySorted_inv in Hs. destruct Hs as [Hs Hall].
    inversion Hn as [|? ? Hk' Hn']; subst.
    destruct (fltb k k') eqn:E1; [|destruct (fltb k' k) eqn:E2]; cbn.
    + intros [[= <- <-]|[[= <- <-]|I]].
      * right. split; auto. apply feqb_refl; auto.
      * left. split; auto. forder.
      * left. split; auto. specialize (Hlt _ _ I). forder.
    + intros [[= <- <-]|I].
      * left. split; auto. forder.
      * destruct (IH Hn' Hs I) as [[? ?]|?]; auto.
    + intros [[= <- <-]|I].
      * right. split; auto. forder.
      * left. split; auto. specialize (Hlt _ _ I). forder.
Qed.

Lemma map_set_has k i m : is_nan k = false -> Forall (fun k => is_nan k = false) (keys m) ->
  exists a, In (a, i) (map_set k i m) /\ feqb k a = true.
Proof.
  intros Hk. induction m as [|[k' i'] m IH]; intros Hn; cbn.
  - exists k. split; auto. apply feqb_refl; auto.
  - inversion Hn as [|? ? Hk' Hn']; subst.
    destruct (fltb k k') eqn:E1; [|destruct (fltb k' k) eqn:E2]; cbn.
    + exists k. split; auto. apply feqb_refl; auto.
    + destruct (IH Hn') as (a & I & E). eauto.
    + exists k'. split; auto. forder.
Qed.

Lemma map_set_keep k i m a : In a (keys m) -> exists b, In (a, b) (map_set k i m).
Proof.
  induction m as [|[k' i'] m IH]; cbn; [tauto|].
  destruct (fltb k k') eqn:E1; [|destruct (fltb k' k) eqn:E2]; cbn.
  - intros [<-|I]; eauto. apply in_keys in I. destruct I; eauto.
  - intros [<-|I]; eauto. destruct (IH I) as [b ?]; eauto.
  - intros [<-|I]; eauto. apply in_keys in I. destruct I; eauto.
Qed.

Definition map_inv (m : list (f32 * Z)) (pre : list f32) : Prop :=
  StronglySorted flt (keys m) /\
  Forall (fun k => is_nan k = false) (keys m) /\
  (forall k i, In (k, i) m -> exists j k0, i = 1 + Z.of_nat j /\ nth_error pre j = Some k0 /\
     feqb k k0 = true /\ forall j' k', (j < j')%nat -> nth_error pre j' = Some k' -> feqb k k' = false) /\
  (forall k0, In k0 pre -> exists k, In k (keys m) /\ feqb k0 k = true).

Lemma build_map_inv maxs : forall m pre,
  Forall (fun k => is_nan k = false) maxs -> map_inv m pre ->
  map_inv (build_map maxs (1 + zlen pre) m) (pre ++ maxs).
Proof.
  induction maxs as [|k maxs IH]; intros m pre Hn H; cbn.
  - rewrite app_nil_r. auto.
  - inversion Hn as [|? ? Hk Hn']; subst.
    replace (pre ++ k :: maxs) with ((pre ++ [k]) ++ maxs) by (rewrite <- app_assoc; auto).
    replace (1 + zlen pre + 1) with (1 + zlen (pre ++ [k]))
      by (unfold zlen; rewrite app_length; cbn [List.length]; lia).
    apply IH; auto. destruct H as (Hs & Hm & Hi & Hp).
    split; [apply map_set_sorted; auto|]. split; [|split].
    + apply Forall_forall. intros a I. apply map_set_keys in I.
      rewrite Forall_forall in Hm. destruct I as [I| ->]; auto.
    + intros a b I. apply map_set_in in I; auto. destruct I as [[I E]|[E ->]].
      * destruct (Hi a b I) as (j & k0 & Eb & Ej & Ek & Hlast).
        exists j, k0. split; [auto|].
        assert (Hj : (j < List.length pre)%nat) by (apply nth_error_Some; congruence).
        split; [rewrite nth_error_app1; auto|]. split; auto.
        intros j' k' Hj' E'. rewrite nth_error_snoc in E'.
        destruct (Nat.ltb_spec j' (List.length pre)); eauto.
        destruct (Nat.eqb_spec j' (List.length pre)); [|discriminate].
        injection E' as <-. auto.
      * exists (List.length pre), k. split; [reflexivity|].
        split; [rewrite nth_error_snoc, Nat.ltb_irrefl, Nat.eqb_refl; auto|]. split; auto.
        intros j' k' Hj' E'. rewrite nth_error_snoc in E'.
        destruct (Nat.ltb_spec j' (List.length pre)); [lia|].
        destruct (Nat.eqb_spec j' (List.length pre)); [lia|discriminate].
    + intros k0 I. apply in_app_iff in I. destruct I as [I|[<-|[]]].
      * destruct (Hp k0 I) as (a & Ia & Ea). exists a. split; auto.
        apply in_keys. apply map_set_keep; auto.
      * destruct (map_set_has k (1 + zlen pre) m Hk Hm) as (a & Ia & Ea).
        exists a. split; auto. apply in_keys. eauto.
Qed.

Lemma build_map_spec lims : Forall (fun k => is_nan k = false) lims ->
  map_inv (build_map lims 1 []) lims.
Proof.
  intros H. apply (build_map_inv lims [] [] H).
  split; [constructor|]. split; [constructor|]. split; [intros ? ? []|intros ? []].
Qed.

(** *** lower_bound *)
Lemma lower_bound_some v m i : is_nan v = false -> Forall (fun k => is_nan k = false) (keys m) ->
  StronglySorted flt (keys m) -> lower_bound v m = Some i ->
  exists k, In (k, i) m /\ fleb v k = true /\
    forall k' i', In (k', i') m -> fltb k' k = true -> fltb k' v = true.
Proof.
  intros Hv. induction m as [|[k n] m IH]; intros Hn Hs; cbn; [discriminate|].
  pose proof (fun a b => sorted_keys_lt k n m a b Hs) as Hlt.
  cbn in Hs. apply StronglySorted_inv in Hs. destruct Hs as [Hs Hall].
  inversion Hn as [|? ? Hk Hn']; subst.
  destruct (fltb k v) eqn:E.
  - intros L. destruct (IH Hn' Hs L) as (k1 & I1 & L1 & A). exists k1. split; auto. split; auto.
    intros k' i' [[= <- <-]|I]; eauto.
  - intros [= <-]. exists k. split; auto. split; [forder|].
    intros k' i' [[= <- <-]|I] L.
    + forder.
    + specialize (Hlt _ _ I). forder.
Qed.

Lemma lower_bound_none v m : lower_bound v m = None ->
  forall k i, In (k, i) m -> fltb k v = true.
Proof.
  induction m as [|[k n] m IH]; cbn; [tauto|].
  destruct (fltb k v) eqn:E; [|discriminate]. intros L k' i' [[= <- <-]|I]; eauto.
Qed.

Lemma last_id_in m : m <> [] -> exists k i, last_id m = Ret i /\ In (k, i) m.
Proof.
  induction m as [|[k n] m IH]; [congruence|]. intros _.
  destruct m as [|p m].
  - exists k, n. cbn. auto.
  - destruct IH as (k' & i & E & I); [discriminate|]. exists k', i. split; auto. right; auto.
Qed.

(** *** the bucket of a value *)
Definition idx (m : list (f32 * Z)) (max_id : Z) (v : f32) : Z :=
  if is_nan v then 0 else match lower_bound v m with Some i => i | None => max_id end.

Definition in_bucket (m : list (f32 * Z)) (max_id : Z) (b : nat) (v : f32) : bool :=
  negb (is_nan v) && (idx m max_id v =? Z.of_nat b).

Definition mins_spec m max_id (raw : list f32) (mins mins' : list f32) : Prop :=
  List.length mins' = List.length mins /\
  forall b x, nth_error mins b = Some x ->
    nth_error mins' b = Some (fold_left fmin (filter (in_bucket m max_id b) raw) x).

Lemma add_fold cast m max_id raw : forall col mins,
  (forall v, is_nan v = false -> 0 <= idx m max_id v < zlen mins) ->
  exists mins', fold_res (bucket_step cast m max_id) raw (col, mins) =
    Ret (col ++ map (fun v => if is_nan v then 0 else cast (idx m max_id v)) raw, mins') /\
    mins_spec m max_id raw mins mins'.
Proof.
  induction raw as [|v raw IH]; intros col mins Hid.
  - exists mins. cbn. rewrite app_nil_r. split; [auto|]. split; auto.
  - cbn [fold_res]. unfold bucket_step at 1. unfold bind at 1.
    destruct (is_nan v) eqn:Ev.
    + destruct (IH (col ++ [0]) mins Hid) as (mins' & E & L & S).
      exists mins'. rewrite E. cbn. rewrite Ev, <- app_assoc. split; auto. split; auto.
      intros b x Hb. cbn. unfold in_bucket at 1. rewrite Ev. cbn. auto.
    + pose proof (Hid v Ev) as B. unfold idx in B. rewrite Ev in B.
      set (id := match lower_bound v m with Some i => i | None => max_id end) in *.
      assert (Hid' : idx m max_id v = id) by (unfold idx; rewrite Ev; auto).
      assert (Hlt : (Z.to_nat id < List.length mins)%nat) by (unfold zlen in B; lia).
      destruct (nth_error mins (Z.to_nat id)) as [old|] eqn:Eo;
        [|apply nth_error_None in Eo; lia].
      unfold vget. rewrite Eo. cbn [bind]. unfold vset.
      rewrite (proj2 (Nat.ltb_lt _ _) Hlt). cbn [bind].
      destruct (IH (col ++ [cast id]) (set_nth (Z.to_nat id) (fmin old v) mins)) as (mins' & E & L & S).
      { intros w Hw. unfold zlen. rewrite set_nth_length. apply Hid; auto. }
      exists mins'. rewrite E. cbn [map]. rewrite Ev, Hid', <- app_assoc. split; auto.
      split; [rewrite L; apply set_nth_length|].
      intros b x Hb. cbn [filter]. unfold in_bucket at 1. rewrite Ev, Hid'. cbn [negb andb].
      destruct (Z.eqb_spec id (Z.of_nat b)) as [Eb|Eb].
      * cbn [fold_left]. apply S. rewrite Eb, Nat2Z.id in *.
        rewrite nth_error_set_nth_eq by auto. congruence.
      * apply S. rewrite nth_error_set_nth_ne; auto. lia.
Qed.

(** *** the invariant once buckets exist *)
Record built (c : bcol) (data0 data : list f32) (max_id : Z) : Prop := mkBuilt {
  bt_status : b_status c = SOk;
  bt_final : i_final (b_ints c) = false;
  bt_limits : bucket_limits (b_nb c) data0 = Ret (b_maxs c);
  bt_map : b_map c = build_map (tl (b_maxs c)) 1 [];
  bt_last : last_id (b_map c) = Ret max_id;
  bt_buffer : b_buffer c = [];
  bt_col : exists l8 l16 l32,
      b_ints c = mkIcol false None l8 l16 l32 /\
      (let v := map (idx (b_map c) max_id) data in
       (b_max_int c <= 256 /\ l8 = v /\ l16 = [] /\ l32 = []) \/
       (256 < b_max_int c <= 65536 /\ l8 = [] /\ l16 = v /\ l32 = []) \/
       (65536 < b_max_int c /\ l8 = [] /\ l16 = [] /\ l32 = v));
  bt_mins : mins_spec (b_map c) max_id data (b_maxs c) (b_mins c)
}.

Lemma limits_nonnan nb raw maxs : zlen raw < 4294967296 -> bucket_limits nb raw = Ret maxs ->
  exists ms, maxs = fnan :: ms ++ [flt_max] /\
             Forall (fun k => is_nan k = false) (ms ++ [flt_max]).
Proof.
  intros Hl H. destruct (bucket_limits_ret _ _ _ Hl H) as (ms & -> & _ & Hin & _).
  exists ms. split; auto. apply Forall_app. split.
  - apply Forall_forall. intros k I. apply Hin; auto.
  - repeat constructor.
Qed.

Lemma idx_range nb raw maxs max_id v : zlen raw < 4294967296 ->
  bucket_limits nb raw = Ret maxs ->
  last_id (build_map (tl maxs) 1 []) = Ret max_id ->
  is_nan v = false ->
  1 <= idx (build_map (tl maxs) 1 []) max_id v < zlen maxs.
Proof.
  intros Hl H Hlast Hv. destruct (limits_nonnan _ _ _ Hl H) as (ms & -> & Hn). cbn [tl] in *.
  destruct (build_map_spec _ Hn) as (Hs & Hk & Hi & Hp).
  assert (Hr : forall k i, In (k, i) (build_map (ms ++ [flt_max]) 1 []) ->
               1 <= i < zlen (fnan :: ms ++ [flt_max])).
  { intros k i I. destruct (Hi k i I) as (j & k0 & -> & Ej & _).
    assert (Hj : (j < List.length (ms ++ [flt_max]))%nat) by (apply nth_error_Some; congruence).
    unfold zlen. cbn [List.length]. lia. }
  unfold idx. rewrite Hv. destruct (lower_bound v _) as [i|] eqn:E.
  - destruct (lower_bound_some _ _ _ Hv Hk Hs E) as (k & I & _). eauto.
  - destruct (last_id_in (build_map (ms ++ [flt_max]) 1 [])) as (k & i & E' & I).
    + intros E0. destruct (Hp flt_max) as (k & I & _); [apply in_app_iff; cbn; auto|].
      rewrite E0 in I. destruct I.
    + rewrite E' in Hlast. injection Hlast as <-. eauto.
Qed.

Lemma last_id_build nb raw maxs : zlen raw < 4294967296 -> bucket_limits nb raw = Ret maxs ->
  exists max_id, last_id (build_map (tl maxs) 1 []) = Ret max_id.
Proof.
  intros Hl H. destruct (limits_nonnan _ _ _ Hl H) as (ms & -> & Hn). cbn [tl].
  destruct (build_map_spec _ Hn) as (Hs & Hk & Hi & Hp).
  destruct (last_id_in (build_map (ms ++ [flt_max]) 1 [])) as (k & i & E' & I); eauto.
  intros E0. destruct (Hp flt_max) as (k & I & _); [apply in_app_iff; cbn; auto|].
  rewrite E0 in I. destruct I.
Qed.

(** the number of limits *)
Lemma limits_len nb raw maxs : zlen raw < 4294967296 -> bucket_limits nb raw = Ret maxs ->
  zlen maxs <= zlen raw + 2.
Proof.
  intros Hl H. destruct (bucket_limits_ret _ _ _ Hl H) as (ms & -> & Hs & Hin & _).
  assert (List.length ms <= List.length raw)%nat.
  { apply NoDup_incl_length.
    - clear - Hs. induction Hs; constructor; auto. intros I.
      rewrite Forall_forall in H. specialize (H _ I). unfold flt in H.
      rewrite fltb_irrefl in H. discriminate.
    - intros k I. apply Hin; auto. }
  unfold zlen. cbn [List.length]. rewrite app_length. cbn [List.length]. lia.
Qed.

Lemma map_cast_idx cast m max_id raw B :
  (forall v, is_nan v = false -> 0 <= idx m max_id v < B) ->
  (forall z, 0 <= z < B -> cast z = z) ->
  map (fun v => if is_nan v then 0 else cast (idx m max_id v)) raw = map (idx m max_id) raw.
Proof.
  intros H1 H2. apply map_ext. intros v. destruct (is_nan v) eqn:E.
  - unfold idx. rewrite E. auto.
  - apply H2, H1; auto.
Qed.

Lemma mins_spec_trans m max_id r1 r2 a b c :
  mins_spec m max_id r1 a b -> mins_spec m max_id r2 b c -> mins_spec m max_id (r1 ++ r2) a c.
Proof.
  intros [L1 S1] [L2 S2]. split; [congruence|].
  intros i x E. rewrite filter_app, fold_left_app. auto.
Qed.

(** add_bucketized on a column whose buckets exist *)
Lemma add_bucketized_spec c max_id raw l8 l16 l32 :
  b_ints c = mkIcol false None l8 l16 l32 ->
  last_id (b_map c) = Ret max_id ->
  (forall v, is_nan v = false -> 0 <= idx (b_map c) max_id v < zlen (b_maxs c)) ->
  zlen (b_maxs c) < 4294967296 ->
  List.length (b_mins c) = List.length (b_maxs c) ->
  let v := map (idx (b_map c) max_id) raw in
  exists mins' l8' l16' l32',
    add_bucketized raw c =
      Ret (mkB SOk (mkIcol false None l8' l16' l32') (b_nb c) (b_buffer c) (b_map c) (b_maxs c) mins') /\
    mins_spec (b_map c) max_id raw (b_mins c) mins' /\
    ((b_max_int c <= 256 /\ l8' = l8 ++ v /\ l16' = l16 /\ l32' = l32) \/
     (256 < b_max_int c <= 65536 /\ l8' = l8 /\ l16' = l16 ++ v /\ l32' = l32) \/
     (65536 < b_max_int c /\ l8' = l8 /\ l16' = l16 /\ l32' = l32 ++ v)).
Proof.
  intros Hi Hlast Hid Hlen Hml v.
  assert (Hmi : b_max_int c = zlen (b_maxs c)).
  { unfold b_max_int. apply u32_small. split; auto. apply zlen_nonneg. }
  assert (Hid' : forall w, is_nan w = false -> 0 <= idx (b_map c) max_id w < zlen (b_mins c)).
  { intros w Hw. unfold zlen. rewrite Hml. apply Hid; auto. }
  unfold add_bucketized, add_helper. rewrite Hi, Hlast, Hmi. cbn [bind i8 i16 i32 i_final i_view].
  unfold kMaxUInt8, kMaxUInt16.
  destruct (Z.leb_spec (zlen (b_maxs c)) 256).
  - destruct (add_fold u8 (b_map c) max_id raw l8 (b_mins c) Hid') as (mins' & E & S).
    rewrite E. cbn [bind].
    rewrite (map_cast_idx u8 (b_map c) max_id raw (zlen (b_maxs c))) by
      (auto; intros; unfold u8; apply Z.mod_small; lia).
    exists mins', (l8 ++ v), l16, l32. split; [reflexivity|]. split; auto.
  - destruct (Z.leb_spec (zlen (b_maxs c)) 65536).
    + destruct (add_fold u16 (b_map c) max_id raw l16 (b_mins c) Hid') as (mins' & E & S).
      rewrite E. cbn [bind].
      rewrite (map_cast_idx u16 (b_map c) max_id raw (zlen (b_maxs c))) by
        (auto; intros; unfold u16; apply Z.mod_small; lia).
      exists mins', l8, (l16 ++ v), l32. split; [reflexivity|]. split; auto. right; left. auto.
    + destruct (add_fold u32 (b_map c) max_id raw l32 (b_mins c) Hid') as (mins' & E & S).
      rewrite E. cbn [bind].
      rewrite (map_cast_idx u32 (b_map c) max_id raw (zlen (b_maxs c))) by
        (auto; intros; apply u32_small; lia).
      exists mins', l8, l16, (l32 ++ v). split; [reflexivity|]. split; [auto|]. right; right; auto.
Qed.

Lemma built_add c data0 data max_id raw :
  zlen data0 < 4294967294 -> built c data0 data max_id ->
  exists c', add_bucketized raw c = Ret c' /\ built c' data0 (data ++ raw) max_id /\ b_nb c' = b_nb c.
Proof.
  intros Hl [Hst Hf Hlim Hmap Hlast Hbuf (l8 & l16 & l32 & Hi & Hcol) [Hml Hmins]].
  assert (HX : zlen data0 < 4294967296) by lia.
  assert (Hlen : zlen (b_maxs c) < 4294967296).
  { pose proof (limits_len _ _ _ HX Hlim). lia. }
  destruct (add_bucketized_spec c max_id raw l8 l16 l32 Hi Hlast) as
    (mins' & l8' & l16' & l32' & E & S & C); auto.
  { intros v Hv. rewrite Hmap. rewrite Hmap in Hlast.
    pose proof (idx_range _ _ _ _ v HX Hlim Hlast Hv). lia. }
  eexists. split; [exact E|]. split; [|reflexivity].
  constructor; cbn [b_status b_ints b_nb b_buffer b_map b_maxs b_mins i_final]; auto.
  - exists l8', l16', l32'. split; auto. unfold b_max_int in *. cbn [b_maxs]. cbn in Hcol |- *.
    rewrite map_app.
    destruct Hcol as [(H & -> & -> & ->)|[(H & -> & -> & ->)|(H & -> & -> & ->)]];
      destruct C as [(H' & -> & -> & ->)|[(H' & -> & -> & ->)|(H' & -> & -> & ->)]]; try lia;
      rewrite ?app_nil_l; intuition.
  - eapply mins_spec_trans; [split; eassumption|auto].
Qed.

(** *** before buckets exist *)
Record raw_state (c : bcol) (nb : Z) (data : list f32) : Prop := mkRaw {
  rw_eq : c = mkB SOk icol_init nb data [] [] []
}.

Lemma build_spec nb data : zlen data < 4294967294 ->
  build_buckets (mkB SOk icol_init nb data [] [] []) =
    match bucket_limits nb data with
    | Ret _ => build_buckets (mkB SOk icol_init nb data [] [] [])
    | Undef => Undef
    | Fatal => Fatal
    end /\
  (forall maxs, bucket_limits nb data = Ret maxs ->
   exists c max_id, build_buckets (mkB SOk icol_init nb data [] [] []) = Ret c /\
     built c data data max_id /\ b_nb c = nb).
Proof.
  intros Hl. split.
  { unfold build_buckets. cbn. destruct (bucket_limits nb data); auto. }
  intros maxs Hlim.
  assert (HX : zlen data < 4294967296) by lia.
  destruct (last_id_build _ _ _ HX Hlim) as [max_id Hlast].
  assert (Hlen : zlen maxs < 4294967296).
  { pose proof (limits_len _ _ _ HX Hlim). lia. }
  unfold build_buckets. cbn [is_ok b_status b_ints i_final icol_init b_nb b_buffer b_map].
  rewrite Hlim. cbn [bind].
  destruct (add_bucketized_spec
    (mkB SOk (mkIcol false None [] [] []) nb data (build_map (tl maxs) 1 []) maxs maxs)
    max_id data [] [] [] eq_refl Hlast) as
    (mins' & l8' & l16' & l32' & E & S & C); auto.
  { intros v Hv. cbn [b_map b_maxs].
    pose proof (idx_range _ _ _ _ v HX Hlim Hlast Hv). lia. }
  fold icol_init in E. unfold icol_init in *. rewrite E. cbn [bind b_status b_ints b_nb b_buffer b_map b_maxs b_mins].
  eexists. exists max_id. split; [reflexivity|]. split; [|reflexivity].
  constructor; cbn [b_status b_ints b_nb b_buffer b_map b_maxs b_mins i_final]; auto.
  exists l8', l16', l32'. split; auto.
Qed.

(** State after some Adds: either everything is still in the buffer, or buckets were built from a
    prefix of the data. *)
Definition load_inv (nb : Z) (c : bcol) (data : list f32) : Prop :=
  (c = mkB SOk icol_init nb data [] [] [] /\ zlen data <= 100 * nb) \/
  (exists data0 data1 max_id, data = data0 ++ data1 /\ 100 * nb < zlen data0 /\
      built c data0 data max_id /\ b_nb c = nb).

Lemma built_maxs_nonempty c data0 data max_id : zlen data0 < 4294967294 ->
  built c data0 data max_id -> zlen (b_maxs c) =? 0 = false.
Proof.
  intros Hl H. assert (HX : zlen data0 < 4294967296) by lia.
  destruct (limits_nonnan _ _ _ HX (bt_limits _ _ _ _ H)) as (ms & E & _).
  rewrite E. unfold zlen. cbn [List.length]. lia.
Qed.

Lemma b_add_inv nb c data raw c' : limit_ok nb -> zlen (data ++ raw) < 4294967294 ->
  load_inv nb c data -> b_add raw c = Ret c' -> load_inv nb c' (data ++ raw).
Proof.
  intros [Hnb1 Hnb2] Hl [[-> Hsz]|(data0 & data1 & max_id & -> & Hsz & Hb & Hnb)] E.
  - unfold b_add in E. cbn [is_ok b_status b_ints i_final icol_init b_nb b_buffer b_map b_maxs b_mins] in E.
    change (zlen (@nil f32) =? 0) with true in E. cbn iota in E.
    replace ((100 * nb <? -2147483648) || (2147483647 <? 100 * nb)) with false in E by lia.
    rewrite u64_small in E by lia.
    destruct (Z.ltb_spec (100 * nb) (zlen (data ++ raw))).
    + right. destruct (build_spec nb (data ++ raw) Hl) as [E1 E2].
      destruct (bucket_limits nb (data ++ raw)) eqn:El.
      * destruct (E2 _ eq_refl) as (c1 & max_id & E3 & Hb & Hnb).
        rewrite E3 in E. injection E as <-.
        exists (data ++ raw), [], max_id. rewrite app_nil_r. auto.
      * rewrite E1 in E. discriminate.
      * rewrite E1 in E. discriminate.
    + injection E as <-. left. auto.
  - assert (Hl0 : zlen data0 < 4294967294).
    { rewrite !zlen_app in Hl. pose proof (zlen_nonneg data1). pose proof (zlen_nonneg raw). lia. }
    unfold b_add in E. rewrite (bt_status _ _ _ _ Hb), (bt_final _ _ _ _ Hb) in E.
    rewrite (built_maxs_nonempty _ _ _ _ Hl0 Hb) in E. cbn [is_ok] in E.
    destruct (built_add _ _ _ _ raw Hl0 Hb) as (c1 & E1 & Hb1 & Hnb1').
    rewrite E1 in E. injection E as <-.
    right. exists data0, (data1 ++ raw), max_id. rewrite app_assoc. split; auto. split; auto.
    split; auto. congruence.
Qed.

Lemma b_blocks_inv nb blocks : forall c data c', limit_ok nb ->
  zlen (data ++ concat blocks) < 4294967294 ->
  load_inv nb c data -> fold_res (fun c raw => b_add raw c) blocks c = Ret c' ->
  load_inv nb c' (data ++ concat blocks).
Proof.
  induction blocks as [|raw blocks IH]; cbn; intros c data c' Hnb Hl H E.
  - injection E as <-. rewrite app_nil_r. auto.
  - apply bind_ret in E. destruct E as (c1 & E1 & E2). rewrite app_assoc in *.
    eapply IH; eauto. eapply b_add_inv; eauto.
    rewrite !zlen_app in *. pose proof (zlen_nonneg (concat blocks)). lia.
Qed.

(** The finished column: everything the properties need. *)
Record finished (nb : Z) (c : bcol) (data0 data : list f32) (m : list (f32 * Z)) (max_id : Z) : Prop :=
  mkFinished {
  fn_status : b_status c = SOk;
  fn_final : i_final (b_ints c) = true;
  fn_prefix : exists data1, data = data0 ++ data1;
  fn_which : (data0 = data /\ zlen data <= 100 * nb) \/ 100 * nb < zlen data0;
  fn_limits : bucket_limits nb data0 = Ret (b_maxs c);
  fn_map : m = build_map (tl (b_maxs c)) 1 [];
  fn_last : last_id m = Ret max_id;
  fn_vec : icol_vec (b_ints c) = Ret (map (idx m max_id) data);
  fn_mins : mins_spec m max_id data (b_maxs c) (b_mins c)
}.

Lemma built_finish nb c data0 data1 max_id :
  built c data0 (data0 ++ data1) max_id -> b_nb c = nb ->
  ((data1 = [] /\ zlen data0 <= 100 * nb) \/ 100 * nb < zlen data0) ->
  exists c', (if is_ok (b_status c) then
        Ret (mkB (b_status c) (icol_finalize (b_ints c)) (b_nb c) (b_buffer c) []
                 (b_maxs c) (b_mins c))
      else Ret c) = Ret c' /\ finished nb c' data0 (data0 ++ data1) (b_map c) max_id.
Proof.
  intros H Hnb Hw. destruct H as [Hst Hf Hlim Hmap Hlast Hbuf (l8 & l16 & l32 & Hi & Hcol) Hmins].
  rewrite Hst. cbn [is_ok]. eexists. split; [reflexivity|].
  constructor; cbn [b_status b_ints b_nb b_buffer b_map b_maxs b_mins]; auto.
  - eauto.
  - destruct Hw as [[-> Hw]|Hw]; auto. rewrite app_nil_r. auto.
  - subst nb. auto.
  - rewrite Hi. unfold icol_finalize, icol_vec. cbn [i_view i8 i16 i32].
    set (v := map (idx (b_map c) max_id) (data0 ++ data1)) in *.
    cbn in Hcol.
    destruct Hcol as [(H & -> & -> & ->)|[(H & -> & -> & ->)|(H & -> & -> & ->)]];
      destruct v; cbn; auto.
Qed.

Lemma b_load_finished nb blocks c : limit_ok nb -> zlen (concat blocks) < 4294967294 ->
  b_load nb blocks = Ret c ->
  exists data0 m max_id, finished nb c data0 (concat blocks) m max_id.
Proof.
  intros Hnb Hl E. unfold b_load in E. apply bind_ret in E. destruct E as (c1 & E1 & E2).
  assert (load_inv nb c1 (concat blocks)) as H.
  { apply (b_blocks_inv nb blocks (b_init nb) [] c1 Hnb Hl); auto. left. split; auto.
    unfold zlen; cbn [List.length]. destruct Hnb. lia. }
  unfold b_finalize in E2.
  destruct H as [[-> Hsz]|(data0 & data1 & max_id & E & Hsz & Hb & Hb')].
  - cbn [is_ok b_status b_ints i_final icol_init b_maxs] in E2.
    change (zlen (@nil f32) =? 0) with true in E2. cbn iota in E2.
    apply bind_ret in E2. destruct E2 as (c2 & E2 & E3).
    destruct (build_spec nb (concat blocks) Hl) as [F1 F2].
    destruct (bucket_limits nb (concat blocks)) eqn:El;
      try (rewrite F1 in E2; discriminate).
    destruct (F2 _ eq_refl) as (c3 & max_id & F3 & Hb & Hb').
    rewrite F3 in E2. injection E2 as <-.
    destruct (built_finish nb c3 (concat blocks) [] max_id) as (c' & G1 & G2); auto.
    { rewrite app_nil_r; auto. }
    rewrite G1 in E3. injection E3 as <-. rewrite app_nil_r in G2. eauto.
  - rewrite (bt_status _ _ _ _ Hb), (bt_final _ _ _ _ Hb) in E2. cbn [is_ok] in E2.
    rewrite (built_maxs_nonempty c1 data0 (concat blocks) max_id) in E2; auto.
    2:{ rewrite E, zlen_app in Hl. pose proof (zlen_nonneg data1). lia. }
    cbn [bind] in E2. rewrite E in Hb.
    destruct (built_finish nb c1 data0 data1 max_id) as (c' & G1 & G2); auto.
    rewrite G1 in E2. injection E2 as <-. rewrite <- E in G2. eauto.
Qed.
