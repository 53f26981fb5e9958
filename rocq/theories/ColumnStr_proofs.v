(** ColumnStr_proofs.v - string columns. *)
From Verif Require Import Base Base_proofs F32 Column ColumnSpec.
Local Open Scope Z_scope.

Definition str_inv (c : strcol) (data : list str) : Prop :=
  s_status c = SOk /\ i_final (s_ints c) = false /\ i_view (s_ints c) = None /\
  i8 (s_ints c) = [] /\ i16 (s_ints c) = [] /\
  NoDup (s_strings c) /\
  (forall s, In s (s_strings c) <-> s = missing_str \/ In s data) /\
  nth_error (s_strings c) 0 = Some missing_str /\
  (forall s k, assoc s (s_index c) = Some k <->
               0 <= k /\ nth_error (s_strings c) (Z.to_nat k) = Some s) /\
  Forall2 (fun k s => assoc s (s_index c) = Some k) (i32 (s_ints c)) data /\
  (forall s t i j, nth_error (s_strings c) i = Some s -> nth_error (s_strings c) j = Some t ->
     (i < j)%nat ->
     exists p q, first_pos s (missing_str :: data) = Some p /\
                 first_pos t (missing_str :: data) = Some q /\ (p < q)%nat).

Lemma first_pos_app s l1 l2 :
  first_pos s (l1 ++ l2) =
  match first_pos s l1 with
  | Some p => Some p
  | None => option_map (plus (List.length l1)) (first_pos s l2)
  end.
Proof.
  induction l1; cbn.
  - destruct (first_pos s l2); auto.
  - destruct (str_eq_dec s a); auto. rewrite IHl1.
    destruct (first_pos s l1); cbn; auto. destruct (first_pos s l2); auto.
Qed.

Lemma first_pos_in s l : In s l -> exists p, first_pos s l = Some p /\ (p < List.length l)%nat.
Proof.
  induction l; cbn; [tauto|]. intros H. destruct (str_eq_dec s a).
  - exists 0%nat. split; auto. lia.
  - destruct IHl as (p & E & L). { destruct H; auto; congruence. }
    rewrite E. exists (S p). split; auto. lia.
Qed.

Lemma first_pos_notin s l : ~ In s l -> first_pos s l = None.
Proof.
  induction l; cbn; auto. intros H. destruct (str_eq_dec s a).
  - subst; tauto.
  - rewrite IHl; auto.
Qed.

Local Arguments first_pos : simpl never.
Local Arguments missing_str : simpl never.

Lemma str_init_inv : str_inv str_init [].
Proof.
  unfold str_inv; cbn -[missing_str].
  repeat match goal with |- _ /\ _ => split end; auto.
  - constructor; auto. constructor.
  - intros s; split; intros [H|H]; auto; tauto.
  - intros s k. destruct (str_eqb_spec s missing_str); split.
    + intros [= <-]. subst. cbn -[missing_str]. split; auto. lia.
    + intros [H1 H2]. destruct (Z.to_nat k) eqn:E; cbn -[missing_str] in H2.
      * f_equal. lia.
      * destruct n; discriminate.
    + discriminate.
    + intros [H1 H2]. destruct (Z.to_nat k) eqn:E; cbn -[missing_str] in H2.
      * congruence.
      * destruct n0; discriminate.
  - intros s t [|[|i]] [|[|j]]; cbn -[missing_str]; intros; try discriminate; lia.
Qed.

Lemma assoc_cons {B} s s' (b : B) m :
  assoc s ((s', b) :: m) = if str_eqb s s' then Some b else assoc s m.
Proof. reflexivity. Qed.

Lemma str_add1_inv c data s :
  str_inv c data -> zlen (s_strings c) < 4294967296 ->
  str_inv (str_add1 c s) (data ++ [s]).
Proof.
  intros (Hst & Hf & Hv & H8 & H16 & Hnd & Hin & H0 & Hidx & Hcol & Hord) Hlen.
  unfold str_add1.
  destruct (assoc s (s_index c)) as [k|] eqn:Ea.
  - (* seen *)
    assert (Hs : In s (s_strings c)).
    { apply Hidx in Ea. destruct Ea as [_ E]. eapply nth_error_In; eauto. }
    unfold str_inv; cbn -[missing_str].
    repeat match goal with |- _ /\ _ => split end; auto.
    + intros t. rewrite Hin, in_app_iff. cbn. apply Hin in Hs.
      split; [tauto|]. intros [?|[?|[?|[]]]]; auto. subst. tauto.
    + apply Forall2_app; auto.
    + intros a b i j E1 E2 Hij.
      destruct (Hord a b i j E1 E2 Hij) as (p & q & P & Q & L).
      exists p, q. repeat split; auto.
      * change (missing_str :: data ++ [s]) with ((missing_str :: data) ++ [s]).
        rewrite first_pos_app, P. auto.
      * change (missing_str :: data ++ [s]) with ((missing_str :: data) ++ [s]).
        rewrite first_pos_app, Q. auto.
  - (* new *)
    assert (Hns : ~ In s (s_strings c)).
    { intros H. apply In_nth_error in H. destruct H as [n E].
      assert (assoc s (s_index c) = Some (Z.of_nat n)).
      { apply Hidx. rewrite Nat2Z.id. split; auto. lia. }
      congruence. }
    assert (Hk : u32 (zlen (s_strings c)) = zlen (s_strings c)).
    { unfold u32. apply Z.mod_small. split; auto. apply zlen_nonneg. }
    unfold str_inv; cbn -[assoc nth_error]. rewrite Hk.
    repeat match goal with |- _ /\ _ => split end; auto.
    + apply NoDup_snoc; auto.
    + intros t. rewrite !in_app_iff, Hin. cbn. tauto.
    + rewrite nth_error_app1; auto. apply nth_error_Some. congruence.
    + intros t k. rewrite assoc_cons, nth_error_snoc.
      assert (HL : zlen (s_strings c) = Z.of_nat (List.length (s_strings c))) by reflexivity.
      destruct (str_eqb_spec t s).
      * subst t. split.
        -- intros [= <-]. rewrite HL, Nat2Z.id, Nat.ltb_irrefl, Nat.eqb_refl. split; auto; lia.
        -- intros [Hk0 E]. destruct (Nat.ltb_spec (Z.to_nat k) (List.length (s_strings c))).
           ++ exfalso. apply Hns. eapply nth_error_In; eauto.
           ++ destruct (Nat.eqb_spec (Z.to_nat k) (List.length (s_strings c))); [|discriminate].
              f_equal. lia.
      * rewrite Hidx. split; intros [Hk0 E]; split; auto.
        -- destruct (Nat.ltb_spec (Z.to_nat k) (List.length (s_strings c))); auto.
           apply nth_error_None in H. congruence.
        -- destruct (Nat.ltb_spec (Z.to_nat k) (List.length (s_strings c))); auto.
           destruct (Nat.eqb_spec (Z.to_nat k) (List.length (s_strings c))); congruence.
    + apply Forall2_app.
      * eapply Forall2_weaken; [|exact Hcol]. intros k t E. rewrite assoc_cons.
        destruct (str_eqb_spec t s); auto. subst. congruence.
      * constructor; [|constructor]. rewrite assoc_cons, str_eqb_refl. auto.
    + intros a b i j E1 E2 Hij.
      change (missing_str :: data ++ [s]) with ((missing_str :: data) ++ [s]).
      rewrite nth_error_snoc in E1, E2.
      destruct (Nat.ltb_spec j (List.length (s_strings c))).
      * destruct (Nat.ltb_spec i (List.length (s_strings c))); [|lia].
        destruct (Hord a b i j E1 E2 Hij) as (p & q & P & Q & L).
        exists p, q. rewrite !first_pos_app, P, Q. auto.
      * destruct (Nat.eqb_spec j (List.length (s_strings c))); [|discriminate].
        injection E2 as <-.
        destruct (Nat.ltb_spec i (List.length (s_strings c))); [|lia].
        assert (Ia : In a (missing_str :: data)).
        { apply nth_error_In in E1. apply Hin in E1. cbn -[missing_str]. intuition. }
        assert (Is : ~ In s (missing_str :: data)).
        { intros I. apply Hns, Hin. cbn -[missing_str] in I. intuition. }
        destruct (first_pos_in _ _ Ia) as (p & P & L).
        exists p, (List.length (missing_str :: data)).
        rewrite !first_pos_app, P, (first_pos_notin _ _ Is).
        unfold first_pos. destruct (str_eq_dec s s); [|congruence].
        cbn [option_map]. rewrite Nat.add_0_r. auto.
Qed.

Lemma str_inv_size c data : str_inv c data ->
  zlen (s_strings c) = zlen (nodup str_eq_dec (missing_str :: data)).
Proof.
  intros (_ & _ & _ & _ & _ & Hnd & Hin & _). unfold zlen. f_equal.
  apply Permutation_length, NoDup_Permutation; auto.
  - apply NoDup_nodup.
  - intros x. rewrite Hin, nodup_In. cbn -[missing_str]. intuition.
Qed.

Lemma fits_app d1 d2 : fits_32_bits (d1 ++ d2) -> fits_32_bits d1.
Proof.
  unfold fits_32_bits, zlen. intros H.
  assert (List.length (nodup str_eq_dec (missing_str :: d1)) <=
          List.length (nodup str_eq_dec (missing_str :: d1 ++ d2)))%nat; [|lia].
  apply NoDup_incl_length; [apply NoDup_nodup|].
  intros x. rewrite !nodup_In. change (missing_str :: d1 ++ d2) with ((missing_str :: d1) ++ d2).
  rewrite in_app_iff. tauto.
Qed.

Lemma str_fold_inv raw : forall c data,
  str_inv c data -> fits_32_bits (data ++ raw) ->
  str_inv (fold_left str_add1 raw c) (data ++ raw).
Proof.
  induction raw as [|s raw IH]; intros c data H F; cbn.
  - rewrite app_nil_r. auto.
  - replace (data ++ s :: raw) with ((data ++ [s]) ++ raw) in * by (rewrite <- app_assoc; auto).
    apply IH; auto. apply str_add1_inv; auto.
    rewrite (str_inv_size _ _ H). apply (fits_app data ([s] ++ raw)).
    rewrite app_assoc; auto.
Qed.

Lemma str_add_inv c data raw :
  str_inv c data -> fits_32_bits (data ++ raw) -> str_inv (str_add raw c) (data ++ raw).
Proof.
  intros H F. unfold str_add. destruct H as [Hs H]. rewrite Hs. cbn [is_ok].
  apply str_fold_inv; auto. split; auto.
Qed.

Lemma str_blocks_inv blocks : forall c data,
  str_inv c data -> fits_32_bits (data ++ concat blocks) ->
  str_inv (fold_left (fun c b => str_add b c) blocks c) (data ++ concat blocks).
Proof.
  induction blocks as [|b blocks IH]; intros c data H F; cbn.
  - rewrite app_nil_r; auto.
  - cbn in F. rewrite app_assoc in *. apply IH; auto. apply str_add_inv; auto.
    eapply fits_app; eauto.
Qed.

(** What remains true after Finalize. *)
Lemma str_finalize_view c data : str_inv c data -> zlen (s_strings c) < 4294967296 ->
  icol_vec (s_ints (str_finalize c)) = Ret (i32 (s_ints c)) /\
  s_strings (str_finalize c) = s_strings c /\ s_index (str_finalize c) = s_index c /\
  s_status (str_finalize c) = SOk.
Proof.
  intros (Hst & Hf & Hv & H8 & H16 & Hnd & Hin & H0 & Hidx & Hcol & Hord) Hlen.
  assert (Hb : forall k, In k (i32 (s_ints c)) -> 0 <= k < zlen (s_strings c)).
  { intros k Ik. apply In_nth_error in Ik. destruct Ik as [i Ei].
    destruct (Forall2_nth_error_l _ _ _ Hcol _ _ Ei) as (s & _ & Ea).
    apply Hidx in Ea. destruct Ea as [K0 E]. assert (E' : nth_error (s_strings c) (Z.to_nat k) <> None) by congruence.
    apply nth_error_Some in E'. unfold zlen. lia. }
  assert (Hmi : str_max_int c = zlen (s_strings c)).
  { unfold str_max_int, u32. apply Z.mod_small. split; auto. apply zlen_nonneg. }
  unfold str_finalize. rewrite Hst, Hf, Hmi. cbn [is_ok].
  unfold kMaxUInt8, kMaxUInt16.
  destruct (Z.leb_spec (zlen (s_strings c)) 256).
  - assert (E : map u8 (i32 (s_ints c)) = i32 (s_ints c)).
    { rewrite <- (map_id (i32 (s_ints c))) at 2. apply map_ext_in. intros k Ik.
      unfold u8. apply Z.mod_small. specialize (Hb k Ik). lia. }
    rewrite E. cbn. rewrite H16. unfold icol_vec; cbn.
    destruct (i32 (s_ints c)); cbn; auto.
  - destruct (Z.leb_spec (zlen (s_strings c)) 65536).
    + assert (E : map u16 (i32 (s_ints c)) = i32 (s_ints c)).
      { rewrite <- (map_id (i32 (s_ints c))) at 2. apply map_ext_in. intros k Ik.
        unfold u16. apply Z.mod_small. specialize (Hb k Ik). lia. }
      rewrite E, H8. unfold icol_vec; cbn.
      destruct (i32 (s_ints c)); cbn; auto.
    + unfold icol_vec; cbn. rewrite H8, H16. cbn. auto.
Qed.

Lemma string_column_of_inv blocks : fits_32_bits (concat blocks) ->
  exists c0, str_inv c0 (concat blocks) /\ zlen (s_strings c0) < 4294967296 /\
             string_column_of blocks = str_finalize c0.
Proof.
  intros F. exists (fold_left (fun c b => str_add b c) blocks str_init).
  pose proof (str_blocks_inv blocks str_init [] str_init_inv F) as H. cbn in H.
  split; [exact H|]. split; [|reflexivity]. rewrite (str_inv_size _ _ H). exact F.
Qed.

Lemma string_column_roundtrip blocks : fits_32_bits (concat blocks) ->
  s_status (string_column_of blocks) = SOk /\
  str_size (string_column_of blocks) = Ret (List.length (concat blocks)) /\
  forall i s, nth_error (concat blocks) i = Some s -> str_row (string_column_of blocks) i = Ret s.
Proof.
  intros F. destruct (string_column_of_inv _ F) as (c & H & L & ->).
  destruct (str_finalize_view _ _ H L) as (V & S1 & S2 & S3).
  pose proof H as (Hst & Hf & Hv & H8 & H16 & Hnd & Hin & H0 & Hidx & Hcol & Hord).
  split; [exact S3|]. split.
  - unfold str_size, icol_size. rewrite V. cbn. f_equal. eapply Forall2_len; eauto.
  - intros i s E. unfold str_row, icol_get. rewrite V, S1. cbn.
    destruct (Forall2_nth_error _ _ _ Hcol _ _ E) as (k & K & A).
    unfold vget at 1. rewrite K. cbn. apply vget_ret. apply Hidx in A. tauto.
Qed.

Lemma string_dictionary blocks : fits_32_bits (concat blocks) ->
  let c := string_column_of blocks in
  let data := concat blocks in
  (forall k s, (Z.of_nat k < str_max_int c) -> str_cat_string c k = Ret s ->
               str_cat_index c s = Some (Z.of_nat k)) /\
  (forall k, (Z.of_nat k < str_max_int c) -> exists s, str_cat_string c k = Ret s) /\
  (forall s, (exists k, str_cat_index c s = Some k) <-> s = missing_str \/ In s data) /\
  (forall s k, str_cat_index c s = Some k ->
               0 <= k < str_max_int c /\ str_cat_string c (Z.to_nat k) = Ret s) /\
  (forall s t k l, str_cat_index c s = Some k -> str_cat_index c t = Some l -> k < l ->
     exists p q, first_pos s (missing_str :: data) = Some p /\
                 first_pos t (missing_str :: data) = Some q /\ (p < q)%nat) /\
  (forall i s, nth_error data i = Some s ->
     str_missing c i = Ret (str_eqb s missing_str)).
Proof.
  intros F c data. subst c data. destruct (string_column_of_inv _ F) as (c & H & L & ->).
  destruct (str_finalize_view _ _ H L) as (V & S1 & S2 & S3).
  pose proof H as (Hst & Hf & Hv & H8 & H16 & Hnd & Hin & H0 & Hidx & Hcol & Hord).
  unfold str_cat_string, str_cat_index, str_max_int. rewrite S1, S2.
  assert (Hmi : u32 (zlen (s_strings c)) = zlen (s_strings c)).
  { unfold u32. apply Z.mod_small. split; auto. apply zlen_nonneg. }
  rewrite Hmi.
  repeat match goal with |- _ /\ _ => split end.
  - intros k s _ E. apply vget_ret in E. apply Hidx. rewrite Nat2Z.id. split; auto. lia.
  - intros k K. destruct (nth_error (s_strings c) k) as [l|] eqn:E.
    + exists l. apply vget_ret; auto.
    + apply nth_error_None in E. unfold zlen in K. lia.
  - intros s. rewrite <- Hin. split.
    + intros [k E]. apply Hidx in E. eapply nth_error_In, E.
    + intros I. apply In_nth_error in I. destruct I as [n E].
      exists (Z.of_nat n). apply Hidx. rewrite Nat2Z.id. split; auto; lia.
  - intros s k E. apply Hidx in E. destruct E as [K E]. split.
    + assert (E' : nth_error (s_strings c) (Z.to_nat k) <> None) by congruence.
      apply nth_error_Some in E'. unfold zlen. lia.
    + apply vget_ret; auto.
  - intros s t k l Es Et Hkl. apply Hidx in Es, Et. destruct Es as [K Es], Et as [Kl Et].
    eapply Hord; eauto. lia.
  - intros i s E. unfold str_missing, icol_missing, icol_get. rewrite V. cbn.
    destruct (Forall2_nth_error _ _ _ Hcol _ _ E) as (k & K & A).
    unfold vget. rewrite K. cbn. f_equal.
    apply Hidx in A. destruct A as [K0 A].
    destruct (Z.eqb_spec k 0).
    + subst k. change (Z.to_nat 0) with 0%nat in A. rewrite H0 in A. injection A as <-. symmetry. apply str_eqb_refl.
    + symmetry. destruct (str_eqb_spec s missing_str); auto. subst s. exfalso.
      assert (Z.to_nat k = 0%nat); [|lia].
      eapply (NoDup_nth_error (s_strings c)); eauto.
      * apply nth_error_Some. congruence.
      * congruence.
Qed.
