(** ColumnHist_proofs.v - histograms, binning and bucket limits. *)
From Coq Require Import SpecFloat.
From Verif Require Import Base Base_proofs F32 F32_proofs Column ColumnSpec.
Local Open Scope Z_scope.

Definition flt (a b : f32) : Prop := fltb a b = true.
Definition keys (h : list (f32 * Z)) : list f32 := map fst h.
Fixpoint sumc (h : list (f32 * Z)) : Z :=
  match h with [] => 0 | (_, n) :: t => n + sumc t end.

(** *** occurrences *)
Lemma occurrences_snoc v l x :
  occurrences v (l ++ [x]) = occurrences v l + (if feqb v x then 1 else 0).
Proof.
  unfold occurrences. rewrite filter_app, zlen_app. cbn. destruct (feqb v x); unfold zlen; cbn; lia.
Qed.
Lemma occurrences_nonneg v l : 0 <= occurrences v l.
Proof. apply zlen_nonneg. Qed.
Lemma occurrences_feqb v w l : feqb v w = true -> occurrences v l = occurrences w l.
Proof.
  intros E. unfold occurrences. f_equal. apply filter_ext. intros x.
  destruct (feqb v x) eqn:A, (feqb w x) eqn:B; auto; forder.
Qed.

(** *** hist_add *)
Lemma hist_add_keys v h k : In k (keys (hist_add v h)) -> In k (keys h) \/ k = v.
Proof.
  induction h as [|[k' n'] h IH]; cbn.
  - intros [<-|[]]; auto.
  - destruct (fltb v k'); [|destruct (fltb k' v)]; cbn; intuition.
Qed.

Lemma hist_add_sorted v h : is_nan v = false -> Forall (fun k => is_nan k = false) (keys h) ->
  StronglySorted flt (keys h) -> StronglySorted flt (keys (hist_add v h)).
Proof.
  intros Hv. induction h as [|[k n] h IH]; cbn; intros Hn Hs.
  - repeat constructor.
  - apply StronglySorted_inv in Hs. destruct Hs as [Hs Hall].
    inversion Hn as [|? ? Hk Hn']; subst.
    destruct (fltb v k) eqn:E1; [|destruct (fltb k v) eqn:E2]; cbn.
    + constructor; [constructor; auto|]. constructor; auto.
      eapply Forall_impl; [|exact Hall]. intros a Ha. unfold flt in *. eapply fltb_trans; eauto.
    + constructor; auto. apply Forall_forall. intros a Ha.
      apply hist_add_keys in Ha. destruct Ha as [Ha| ->]; auto.
      rewrite Forall_forall in Hall. apply Hall; auto.
    + constructor; auto.
Qed.

Lemma sorted_keys_lt k n h k' n' : StronglySorted flt (keys ((k, n) :: h)) ->
  In (k', n') h -> fltb k k' = true.
Proof.
  cbn. intros Hs I. apply StronglySorted_inv in Hs. destruct Hs as [_ Hall].
  rewrite Forall_forall in Hall. apply Hall. change k' with (fst (k', n')). apply in_map; auto.
Qed.

Lemma hist_add_in v h k n : is_nan v = false -> Forall (fun k => is_nan k = false) (keys h) ->
  StronglySorted flt (keys h) ->
  In (k, n) (hist_add v h) ->
  (In (k, n) h /\ feqb k v = false) \/ (feqb k v = true /\ In (k, n - 1) h) \/
  (k = v /\ n = 1 /\ forall k', In k' (keys h) -> feqb k' v = false).
Proof.
  intros Hv. induction h as [|[k0 n0] h IH]; intros Hn Hs.
  - cbn. intros [[= <- <-]|[]]. right; right. repeat split; tauto.
  - pose proof (fun k' n' => sorted_keys_lt k0 n0 h k' n' Hs) as Hlt.
    cbn in Hs |- *. apply StronglySorted_inv in Hs. destruct Hs as [Hs Hall].
    inversion Hn as [|? ? Hk Hn']; subst.
    destruct (fltb v k0) eqn:E1; [|destruct (fltb k0 v) eqn:E2]; cbn.
    + intros [[= <- <-]|[[= <- <-]|I]].
      * right; right. repeat split. intros k' [<-|I'].
        -- forder.
        -- rewrite Forall_forall in Hall. specialize (Hall _ I'). unfold flt in Hall. forder.
      * left. split; auto. forder.
      * left. split; auto. specialize (Hlt _ _ I). forder.
    + intros [[= <- <-]|I].
      * left. split; auto. forder.
      * destruct (IH Hn' Hs I) as [[I1 E]|[[E I1]|(-> & -> & H)]]; auto.
        right; right. repeat split. intros k' [<-|I']; auto. forder.
    + intros [[= <- <-]|I].
      * right; left. split; [forder|]. left. f_equal. lia.
      * left. split; auto. specialize (Hlt _ _ I). forder.
Qed.

Lemma hist_add_keep v h k n : is_nan v = false -> Forall (fun k => is_nan k = false) (keys h) ->
  StronglySorted flt (keys h) -> In (k, n) h ->
  In (k, n + (if feqb k v then 1 else 0)) (hist_add v h).
Proof.
  intros Hv. induction h as [|[k0 n0] h IH]; intros Hn Hs; [intros []|].
  pose proof (fun k' n' => sorted_keys_lt k0 n0 h k' n' Hs) as Hlt.
  cbn in Hs |- *. apply StronglySorted_inv in Hs. destruct Hs as [Hs Hall].
  inversion Hn as [|? ? Hk Hn']; subst.
  destruct (fltb v k0) eqn:E1; [|destruct (fltb k0 v) eqn:E2]; cbn.
  - intros I. assert (E : feqb k v = false).
    { destruct I as [[= <- <-]|I]; [forder|]. specialize (Hlt _ _ I). forder. }
    rewrite E, Z.add_0_r. auto.
  - intros [[= <- <-]|I]; auto.
    assert (E : feqb k0 v = false) by forder. rewrite E, Z.add_0_r. auto.
  - intros [[= <- <-]|I].
    + assert (E : feqb k0 v = true) by forder. rewrite E. auto.
    + assert (E : feqb k v = false) by (specialize (Hlt _ _ I); forder).
      rewrite E, Z.add_0_r. auto.
Qed.

Lemma hist_add_has v h : is_nan v = false -> Forall (fun k => is_nan k = false) (keys h) ->
  exists k, In k (keys (hist_add v h)) /\ feqb v k = true.
Proof.
  intros Hv. induction h as [|[k0 n0] h IH]; intros Hn; cbn.
  - exists v. split; auto. apply feqb_refl; auto.
  - inversion Hn as [|? ? Hk Hn']; subst.
    destruct (fltb v k0) eqn:E1; [|destruct (fltb k0 v) eqn:E2]; cbn.
    + exists v. split; auto. apply feqb_refl; auto.
    + destruct (IH Hn') as (k & I & E). exists k. auto.
    + exists k0. split; auto. forder.
Qed.

Lemma hist_add_sumc v h : sumc (hist_add v h) = sumc h + 1.
Proof.
  induction h as [|[k0 n0] h IH]; cbn -[Z.add]; auto.
  destruct (fltb v k0); [|destruct (fltb k0 v)]; cbn -[Z.add]; lia.
Qed.

(** *** histogram *)
Definition hist_inv (h : list (f32 * Z)) (vs : list f32) : Prop :=
  StronglySorted flt (keys h) /\
  Forall (fun k => is_nan k = false) (keys h) /\
  (forall k n, In (k, n) h -> n = occurrences k vs /\ 1 <= n /\ In k vs) /\
  (forall v, In v vs -> is_nan v = false -> exists k, In k (keys h) /\ feqb v k = true) /\
  sumc h <= zlen vs.

Lemma occ_nan v x : is_nan x = true -> feqb v x = false.
Proof. intros. forder. Qed.

Lemma histogram_inv vs : hist_inv (histogram vs) vs.
Proof.
  induction vs as [|v vs IH] using rev_ind.
  - cbn. split; [constructor|]. split; [constructor|]. split; [intros ? ? []|]. split; [intros ? []|].
    unfold zlen; cbn; lia.
  - unfold histogram in *. rewrite fold_left_app. cbn [fold_left].
    set (h := fold_left _ vs []) in *.
    destruct IH as (Hs & Hn & Hc & Hall & Hsum). clearbody h.
    destruct (is_nan v) eqn:Ev.
    + split; [exact Hs|]. split; [exact Hn|]. split; [|split].
      * intros k n I. destruct (Hc k n I) as (E & P & I').
        rewrite occurrences_snoc, occ_nan, Z.add_0_r by auto. rewrite in_app_iff. auto.
      * intros w I Hw. apply in_app_iff in I. destruct I as [I|[<-|[]]]; auto. congruence.
      * unfold zlen in *; rewrite app_length; cbn [List.length]; lia.
    + split; [apply hist_add_sorted; auto|]. split.
      { apply Forall_forall. intros k I. apply hist_add_keys in I.
        rewrite Forall_forall in Hn. destruct I as [I| ->]; auto. }
      split; [|split].
      * intros k n I. rewrite occurrences_snoc, in_app_iff.
        destruct (hist_add_in v h k n Ev Hn Hs I) as [[I1 E]|[[E I1]|(-> & -> & H)]].
        -- destruct (Hc k n I1) as (E' & P & I'). rewrite E. repeat split; auto; lia.
        -- destruct (Hc k _ I1) as (E' & P & I'). rewrite E. repeat split; auto; lia.
        -- rewrite (feqb_refl v Ev). split; [|split; [lia|right; cbn; auto]].
           assert (occurrences v vs = 0); [|lia].
           unfold occurrences. destruct (filter (feqb v) vs) eqn:F; auto.
           assert (In f (filter (feqb v) vs)) as I0 by (rewrite F; cbn; auto).
           apply filter_In in I0. destruct I0 as [I0 I1].
           destruct (Hall f I0) as (k & Ik & Ek); [forder|].
           specialize (H k Ik). forder.
      * intros w I Hw. apply in_app_iff in I. destruct I as [I|[<-|[]]].
        -- destruct (Hall w I Hw) as (k & Ik & Ek). exists k. split; auto.
           unfold keys in Ik |- *. apply in_map_iff in Ik. destruct Ik as ([k' n'] & <- & Ik).
           apply in_map_iff. exists (k', n' + (if feqb k' v then 1 else 0)). split; auto.
           apply hist_add_keep; auto.
        -- apply hist_add_has; auto.
      * unfold zlen in *; rewrite hist_add_sumc, app_length; cbn [List.length]; lia.
Qed.

(** *** take_heavy *)
Definition heavyb (cap : Z) (p : f32 * Z) : bool := cap <=? snd p.

Lemma take_heavy_spec cap h : forall maxs lo,
  take_heavy cap h maxs lo =
  (maxs ++ keys (filter (heavyb cap) h),
   lo - sumc (filter (heavyb cap) h),
   filter (fun p => negb (heavyb cap p)) h).
Proof.
  induction h as [|[k n] h IH]; intros maxs lo; cbn.
  - rewrite app_nil_r, Z.sub_0_r. auto.
  - assert (Eh : heavyb cap (k, n) = (cap <=? n)) by reflexivity. rewrite Eh.
    destruct (cap <=? n) eqn:E; cbn [negb].
    + rewrite IH. cbn. rewrite <- app_assoc. cbn. f_equal. f_equal. lia.
    + rewrite IH. auto.
Qed.

Lemma sumc_filter f h : (forall k n, In (k, n) h -> 0 <= n) ->
  sumc (filter f h) + sumc (filter (fun p => negb (f p)) h) = sumc h /\ 0 <= sumc (filter f h).
Proof.
  induction h as [|[k n] h IH]; cbn; intros P; [lia|].
  destruct IH as [A B]. { intros; eapply P; eauto. }
  specialize (P k n (or_introl eq_refl)).
  destruct (f (k, n)); cbn; lia.
Qed.

(** *** uniform_binning *)
Lemma StronglySorted_filter {A} (R : A -> A -> Prop) f l :
  StronglySorted R l -> StronglySorted R (filter f l).
Proof.
  induction 1; cbn; [constructor|].
  destruct (f a); auto. constructor; auto.
  rewrite Forall_forall in *. intros x I. apply filter_In in I. apply H0. tauto.
Qed.

Lemma keys_filter_sorted f h :
  StronglySorted flt (keys h) -> StronglySorted flt (keys (filter f h)).
Proof.
  unfold keys. induction h as [|[k n] h IH]; cbn; [constructor|].
  intros Hs. apply StronglySorted_inv in Hs. destruct Hs as [Hs Hall].
  destruct (f (k, n)); cbn; auto. constructor; auto.
  rewrite Forall_forall in *. intros x I. apply Hall.
  apply in_map_iff in I. destruct I as (p & <- & I). apply filter_In in I.
  apply in_map. tauto.
Qed.

Lemma uniform_binning_spec h : forall cap running upper bks,
  0 <= cap -> 0 <= running ->
  (forall k n, In (k, n) h -> 1 <= n) ->
  StronglySorted flt (keys h) ->
  Forall (fun k => is_nan k = false) (keys h) ->
  (0 < running -> is_nan upper = false /\ Forall (flt upper) (keys h)) ->
  exists bs, uniform_binning h cap running upper bks = bks ++ bs /\
    StronglySorted flt bs /\
    (forall b, In b bs -> In b (keys h) \/ (0 < running /\ b = upper)) /\
    (forall k, In k (keys h) -> exists b, In b bs /\ fleb k b = true) /\
    (0 < running -> exists b, In b bs /\ fleb upper b = true) /\
    (bs = [] \/ cap * (zlen bs - 1) + 1 <= running + sumc h).
Proof.
  induction h as [|[k n] h IH]; intros cap running upper bks Hcap Hr Hpos Hs Hn Hu.
  - cbn. destruct (Z.ltb_spec 0 running).
    + exists [upper]. destruct (Hu H) as [Hu1 _].
      split; [auto|]. split; [repeat constructor|]. split; [intros b [<-|[]]; auto|].
      split; [intros ? []|]. split; [|right; unfold zlen; cbn [List.length sumc]; lia].
      intros _. exists upper. split; [cbn; auto|]. apply fleb_refl; auto.
    + exists []. rewrite app_nil_r. split; [auto|]. split; [constructor|].
      split; [intros ? []|]. split; [intros ? []|]. split; [lia|auto].
  - pose proof Hs as Hs0. cbn in Hs. apply StronglySorted_inv in Hs. destruct Hs as [Hs Hall].
    inversion Hn as [|? ? Hk Hn']; subst.
    assert (Hpos' : forall k0 n0, In (k0, n0) h -> 1 <= n0) by (intros; eapply Hpos; right; eauto).
    pose proof (Hpos k n (or_introl eq_refl)) as Pn.
    cbn. destruct (Z.leb_spec cap (running + n)).
    + destruct (IH cap 0 k (bks ++ [k]) Hcap ltac:(lia) Hpos' Hs Hn' ltac:(lia))
        as (bs & E & B1 & B2 & B3 & B4 & B5).
      exists (k :: bs). rewrite E, <- app_assoc. split; [auto|]. split; [|split; [|split; [|split]]].
      * constructor; auto. apply Forall_forall. intros b Ib.
        destruct (B2 b Ib) as [I|[? ?]]; [|lia]. rewrite Forall_forall in Hall. auto.
      * intros b [<-|Ib]; [cbn; auto|]. destruct (B2 b Ib) as [I|[? ?]]; [|lia]. cbn; auto.
      * intros k0 [<-|I0].
        -- exists k. split; [cbn; auto|]. apply fleb_refl; auto.
        -- destruct (B3 k0 I0) as (b & Ib & Eb). exists b. split; [cbn; auto|auto].
      * intros R. destruct (Hu R) as [Hu1 Hu2]. exists k. split; [cbn; auto|].
        cbn in Hu2. inversion Hu2; subst. apply fltb_fleb; auto.
      * right. destruct B5 as [-> |B5]; rewrite zlen_cons.
        -- unfold zlen; cbn [List.length]. pose proof (sumc_filter (fun _ => false) h) as [A B].
           { intros; specialize (Hpos' _ _ H0); lia. }
           assert (0 <= sumc h).
           { clear - Hpos'. induction h as [|[a b] h IHh]; cbn; [lia|].
             specialize (Hpos' a b (or_introl eq_refl)) as P.
             assert (0 <= sumc h) by (apply IHh; intros; eapply Hpos'; right; eauto). lia. }
           lia.
        -- lia.
    + destruct (IH cap (running + n) k bks Hcap ltac:(lia) Hpos' Hs Hn')
        as (bs & E & B1 & B2 & B3 & B4 & B5).
      { intros _. split; auto. }
      exists bs. split; [exact E|]. split; [exact B1|]. split; [|split; [|split]].
      * intros b Ib. destruct (B2 b Ib) as [I|[? ->]]; cbn; auto.
      * intros k0 [<-|I0]; auto. destruct (B4 ltac:(lia)) as (b & Ib & Eb). eauto.
      * intros R. destruct (Hu R) as [Hu1 Hu2]. destruct (B4 ltac:(lia)) as (b & Ib & Eb).
        exists b. split; auto. cbn in Hu2. inversion Hu2; subst. unfold flt in *. forder.
      * destruct B5 as [B5|B5]; [auto|right; lia].
Qed.

(** *** sort_f *)
Lemma insert_f_perm v l : Permutation (insert_f v l) (v :: l).
Proof.
  induction l; cbn; auto. destruct (fltb v a); auto.
  rewrite IHl. apply perm_swap.
Qed.
Lemma sort_f_perm l : Permutation (sort_f l) l.
Proof. induction l; cbn; auto. rewrite insert_f_perm. auto. Qed.

Definition apart (a b : f32) : Prop := fltb a b = true \/ fltb b a = true.

Lemma insert_f_sorted v l : Forall (apart v) l -> StronglySorted flt l ->
  StronglySorted flt (insert_f v l).
Proof.
  induction l; cbn; intros Hd Hs; [repeat constructor|].
  pose proof Hs as Hs0.
  apply StronglySorted_inv in Hs. destruct Hs as [Hs Hall].
  inversion Hd; subst.
  destruct (fltb v a) eqn:E.
  - constructor; auto. constructor; auto.
    eapply Forall_impl; [|exact Hall]. intros x Hx. unfold flt in *. eapply fltb_trans; eauto.
  - constructor; auto. apply Forall_forall. intros x I.
    apply (Permutation_in _ (insert_f_perm v l)) in I. destruct I as [<-|I].
    + unfold apart, flt in *. destruct H1; congruence.
    + rewrite Forall_forall in Hall; auto.
Qed.

Lemma sort_f_sorted l : ForallOrdPairs apart l -> StronglySorted flt (sort_f l).
Proof.
  induction 1; cbn; [constructor|].
  apply insert_f_sorted; auto. rewrite Forall_forall in *. intros x I.
  apply (Permutation_in _ (sort_f_perm l)) in I. auto.
Qed.

Lemma sorted_apart l : StronglySorted flt l -> ForallOrdPairs apart l.
Proof.
  induction 1; constructor; auto. eapply Forall_impl; [|eassumption].
  intros x Hx. left. auto.
Qed.

Lemma FOP_app {A} (R : A -> A -> Prop) l1 l2 :
  ForallOrdPairs R l1 -> ForallOrdPairs R l2 ->
  (forall a b, In a l1 -> In b l2 -> R a b) -> ForallOrdPairs R (l1 ++ l2).
Proof.
  induction 1; cbn; auto. intros H2 Hc. constructor.
  - apply Forall_app. split; auto. apply Forall_forall. intros; apply Hc; cbn; auto.
  - apply IHForallOrdPairs; [auto|]. intros; apply Hc; [right|]; auto.
Qed.

(** *** bucket limits *)
Lemma in_keys k h : In k (keys h) <-> exists n, In (k, n) h.
Proof.
  unfold keys. rewrite in_map_iff. split.
  - intros ([k' n] & <- & I). eauto.
  - intros (n & I). exists (k, n). auto.
Qed.

Lemma sorted_keys_unique h k n k' n' : StronglySorted flt (keys h) ->
  In (k, n) h -> In (k', n') h -> feqb k k' = true -> k = k' /\ n = n'.
Proof.
  induction h as [|[a b] h IH]; cbn; [tauto|].
  intros Hs. pose proof (fun k' n' => sorted_keys_lt a b h k' n' Hs) as Hlt.
  apply StronglySorted_inv in Hs. destruct Hs as [Hs _].
  intros [[= <- <-]|I] [[= <- <-]|I'] E; auto.
  - exfalso. specialize (Hlt _ _ I'). forder.
  - exfalso. specialize (Hlt _ _ I). forder.
Qed.

Lemma sorted_keys_apart h k n k' n' : StronglySorted flt (keys h) ->
  Forall (fun k => is_nan k = false) (keys h) ->
  In (k, n) h -> In (k', n') h -> n <> n' -> apart k k'.
Proof.
  intros Hs Hn I I' Hne. unfold apart.
  rewrite Forall_forall in Hn.
  assert (is_nan k = false) by (apply Hn, in_keys; eauto).
  assert (is_nan k' = false) by (apply Hn, in_keys; eauto).
  destruct (fltb_total k k') as [|[E|]]; auto.
  destruct (sorted_keys_unique h k n k' n' Hs I I' E). congruence.
Qed.

(** The number of frequent values in the sense of the code. *)
Definition heavy_count (nb : Z) (raw : list f32) : Z :=
  zlen (filter (heavyb (bucket_capacity (zlen raw) nb)) (histogram raw)).

Lemma bucket_capacity_pos n nb : 0 <= n < 4294967296 -> 1 <= bucket_capacity n nb.
Proof.
  intros Hn. unfold bucket_capacity, u32.
  assert (0 <= u64 nb) by (apply Z.mod_pos_bound; lia).
  assert (0 <= n / u64 nb <= n).
  { destruct (Z.eq_dec (u64 nb) 0) as [E|E].
    - rewrite E, Zdiv_0_r. lia.
    - split; [apply Z.div_pos; lia|]. apply Z.div_le_upper_bound; nia. }
  rewrite Z.mod_small; lia.
Qed.

Lemma zlen_keys h : zlen (keys h) = zlen h.
Proof. unfold zlen, keys. rewrite map_length. auto. Qed.

Lemma u64_small z : 0 <= z < 18446744073709551616 -> u64 z = z.
Proof. intros. apply Z.mod_small; lia. Qed.
Lemma u32_small z : 0 <= z < 4294967296 -> u32 z = z.
Proof. intros. apply Z.mod_small; lia. Qed.
Lemma int32_small z : 0 <= z < 2147483648 -> int32 z = z.
Proof. intros. unfold int32. rewrite u32_small by lia. destruct (Z.ltb_spec z 2147483648); lia. Qed.

(** Shape of the result of [bucket_limits]. *)
Lemma bucket_limits_ret nb raw maxs : zlen raw < 4294967296 ->
  bucket_limits nb raw = Ret maxs ->
  exists ms, maxs = fnan :: ms ++ [flt_max] /\
    StronglySorted flt ms /\
    (forall k, In k ms -> In k raw /\ is_nan k = false) /\
    (forall v, In v raw -> is_nan v = false -> exists k, In k ms /\ fleb v k = true) /\
    (forall v, In v raw -> is_nan v = false ->
       bucket_capacity (zlen raw) nb <= occurrences v raw -> exists k, In k ms /\ feqb v k = true) /\
    exists bs lcap,
      zlen ms = heavy_count nb raw + zlen bs /\
      u64 (u64 nb - (1 + heavy_count nb raw)) <> 0 /\
      lcap = u32 (Z.max 1 (u64 (int32 (zlen raw - sumc (filter (heavyb (bucket_capacity (zlen raw) nb)) (histogram raw))))
                           / u64 (u64 nb - (1 + heavy_count nb raw)))) /\
      (bs = @nil f32 \/ lcap * (zlen bs - 1) + 1 <=
         sumc (filter (fun p => negb (heavyb (bucket_capacity (zlen raw) nb) p)) (histogram raw))).
Proof.
  intros Hlen. unfold bucket_limits.
  destruct (u64 nb =? 0) eqn:Enb; [discriminate|].
  rewrite take_heavy_spec.
  set (cap := bucket_capacity (zlen raw) nb).
  destruct (histogram_inv raw) as (Hs & Hn & Hc & Hall & Hsum).
  unfold heavy_count. fold cap.
  set (h := histogram raw) in *. clearbody h.
  rewrite zlen_app, zlen_keys, zlen_cons, zlen_nil, Z.add_0_r.
  set (hv := filter (heavyb cap) h). set (lt := filter (fun p => negb (heavyb cap p)) h).
  set (dv := u64 (u64 nb - (1 + zlen hv))).
  destruct (dv =? 0) eqn:Edv; [discriminate|].
  set (lcap := u32 (Z.max 1 (u64 (int32 (zlen raw - sumc hv)) / dv))).
  assert (Hcount : forall k n, In (k, n) h -> 1 <= n) by (intros k n I; destruct (Hc k n I); tauto).
  destruct (sumc_filter (heavyb cap) h) as [Hsplit Hpos].
  { intros k n I. specialize (Hcount k n I). lia. }
  fold hv in Hsplit, Hpos. fold lt in Hsplit.
  assert (Hlt0 : 0 <= sumc lt).
  { destruct (sumc_filter (fun p => negb (heavyb cap p)) h) as [_ B]; auto.
    intros k n I. specialize (Hcount k n I). lia. }
  assert (Hlcap : 0 <= lcap) by (subst lcap; apply Z.mod_pos_bound; lia).
  destruct (uniform_binning_spec lt lcap 0 fnan ([fnan] ++ keys hv)) as
    (bs & E & B1 & B2 & B3 & B4 & B5); auto; try lia.
  { intros k n I. apply filter_In in I. eapply Hcount; apply I. }
  { apply keys_filter_sorted; auto. }
  { apply Forall_forall. intros k I. rewrite Forall_forall in Hn. apply Hn.
    apply in_keys in I. destruct I as [n I]. apply filter_In in I. apply in_keys. exists n; tauto. }
  rewrite E. cbn [app]. intros [= <-].
  assert (Hbs : forall b, In b bs -> exists n, In (b, n) h /\ n < cap).
  { intros b I. destruct (B2 b I) as [I'|[? ?]]; [|lia].
    apply in_keys in I'. destruct I' as [n I']. apply filter_In in I'. exists n.
    unfold heavyb in I'. cbn in I'. split; [tauto|lia]. }
  assert (Hhv : forall b, In b (keys hv) -> exists n, In (b, n) h /\ cap <= n).
  { intros b I. apply in_keys in I. destruct I as [n I]. apply filter_In in I. exists n.
    unfold heavyb in I. cbn in I. split; [tauto|lia]. }
  exists (sort_f (keys hv ++ bs)).
  assert (Hin : forall k, In k (sort_f (keys hv ++ bs)) <-> In k (keys hv) \/ In k bs).
  { intros k. rewrite <- in_app_iff. split; apply Permutation_in.
    - apply sort_f_perm.
    - apply Permutation_sym, sort_f_perm. }
  split; [reflexivity|]. split; [|split; [|split; [|split]]].
  - apply sort_f_sorted. apply FOP_app.
    + apply sorted_apart, keys_filter_sorted; auto.
    + apply sorted_apart; auto.
    + intros a b Ia Ib. destruct (Hhv _ Ia) as (n1 & I1 & L1), (Hbs _ Ib) as (n2 & I2 & L2).
      eapply (sorted_keys_apart h a n1 b n2); eauto. lia.
  - intros k I. apply Hin in I.
    assert (exists n, In (k, n) h) as [n In'].
    { destruct I as [I|I]; [destruct (Hhv _ I) as (n & ? & ?)|destruct (Hbs _ I) as (n & ? & ?)]; eauto. }
    split; [apply (Hc k n In')|]. rewrite Forall_forall in Hn. apply Hn, in_keys. eauto.
  - intros v Iv Hv. destruct (Hall v Iv Hv) as (k & Ik & Ek).
    apply in_keys in Ik. destruct Ik as [n Ik].
    destruct (heavyb cap (k, n)) eqn:Eh.
    + exists k. split; [|forder]. apply Hin. left. apply in_keys. exists n.
      apply filter_In. auto.
    + destruct (B3 k) as (b & Ib & Eb).
      { apply in_keys. exists n. apply filter_In. rewrite Eh. auto. }
      exists b. split; [apply Hin; auto|]. forder.
  - intros v Iv Hv Hocc. destruct (Hall v Iv Hv) as (k & Ik & Ek).
    apply in_keys in Ik. destruct Ik as [n Ik].
    exists k. split; auto. apply Hin. left. apply in_keys. exists n.
    apply filter_In. split; auto. unfold heavyb. cbn.
    destruct (Hc k n Ik) as (-> & _). rewrite <- (occurrences_feqb v k) by auto. lia.
  - exists bs, lcap. split; [|split; [|split]]; auto.
    + unfold zlen at 1. rewrite (Permutation_length (sort_f_perm _)), app_length.
      rewrite Nat2Z.inj_add. fold (zlen bs) (zlen (keys hv)). rewrite zlen_keys. auto.
    + fold dv. lia.
Qed.

Lemma bucket_limits_undef nb raw : zlen raw < 4294967296 ->
  bucket_limits nb raw = Undef <->
  u64 nb = 0 \/ u64 (u64 nb - (1 + heavy_count nb raw)) = 0.
Proof.
  intros Hlen. unfold bucket_limits.
  destruct (u64 nb =? 0) eqn:Enb; [split; auto; lia|].
  rewrite take_heavy_spec. unfold heavy_count.
  rewrite zlen_app, zlen_keys, zlen_cons, zlen_nil, Z.add_0_r.
  set (hv := filter _ _). set (dv := u64 (u64 nb - (1 + zlen hv))).
  destruct (dv =? 0) eqn:Edv; split; intros H; try discriminate; auto.
  - right. lia.
  - destruct H; lia.
Qed.

Lemma bucket_limits_not_fatal nb raw : bucket_limits nb raw <> Fatal.
Proof.
  unfold bucket_limits.
  destruct (u64 nb =? 0); [discriminate|].
  rewrite take_heavy_spec. destruct (_ =? 0); discriminate.
Qed.
