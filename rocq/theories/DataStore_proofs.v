From Verif Require Import Base Base_proofs F32 Column DataStore DataStoreSpec.

Definition keyed (m : store) : Prop :=
  NoDup (map fst m) /\ (forall n c, In (n, c) m -> n = c_name c).

Definition sized (m : store) : Prop := forall n c, In (n, c) m -> exists k, col_size c = Ret k.

Lemma assoc_in {B} k (m : list (str * B)) b : assoc k m = Some b -> In (k, b) m.
Proof.
  induction m as [|[k' b'] m IH]; cbn; [discriminate|].
  destruct (str_eqb_spec k k') as [->|N]; [intros [= ->]; auto|auto].
Qed.

Lemma assoc_none {B} k (m : list (str * B)) : assoc k m = None <-> ~ In k (map fst m).
Proof.
  induction m as [|[k' b'] m IH]; cbn; [tauto|].
  destruct (str_eqb_spec k k') as [->|N]; [intuition discriminate|rewrite IH; intuition].
Qed.

Lemma in_assoc {B} k (m : list (str * B)) b : NoDup (map fst m) -> In (k, b) m -> assoc k m = Some b.
Proof.
  induction m as [|[k' b'] m IH]; cbn; [tauto|].
  intros N [E|I]; inversion N; subst.
  - injection E as -> ->. destruct (str_eqb_spec k k); congruence.
  - destruct (str_eqb_spec k k') as [->|Ne]; auto.
    exfalso. apply H1. apply (in_map fst) in I. auto.
Qed.

Lemma remove_assoc n m k : assoc k (ds_remove n m) = if str_eqb k n then None else assoc k m.
Proof.
  unfold ds_remove. induction m as [|[k' b'] m IH]; cbn.
  - destruct (str_eqb k n); auto.
  - destruct (str_eqb_spec n k') as [->|N]; cbn; rewrite IH.
    + destruct (str_eqb_spec k k'); auto.
    + destruct (str_eqb_spec k k') as [->|N'].
      * destruct (str_eqb_spec k' n); congruence.
      * auto.
Qed.

Lemma remove_keyed n m : keyed m -> keyed (ds_remove n m).
Proof.
  intros [N I]. split.
  - unfold ds_remove. induction m as [|[k b] m IH]; cbn; auto.
    cbn in N. inversion N; subst. destruct (str_eqb n k); cbn.
    + apply IH; auto. intros; apply I; right; auto.
    + constructor; [|apply IH; auto; intros; apply I; right; auto].
      intros X. apply H1. clear - X. apply in_map_iff in X. destruct X as ([a b'] & E & X).
      apply filter_In in X. apply in_map_iff. exists (a, b'). tauto.
  - intros k c H. apply filter_In in H. apply I. tauto.
Qed.

Lemma num_rows_sized beg m : sized m -> exists n, ds_num_rows beg m = Ret n.
Proof.
  intros S. unfold ds_num_rows. destruct (nth_error m _) as [[k c]|] eqn:E; eauto.
  apply nth_error_In in E. eauto.
Qed.

Lemma num_rows_in beg m : m <> [] ->
  exists n c, In (n, c) m /\ ds_num_rows beg m = col_size c.
Proof.
  intros N. unfold ds_num_rows. destruct (nth_error m _) as [[k c]|] eqn:E.
  - apply nth_error_In in E. eauto.
  - apply nth_error_None in E. destruct m; [congruence|].
    pose proof (Nat.mod_upper_bound (beg (p :: m)) (List.length (p :: m))). cbn in *. lia.
Qed.

(** What one Add does. *)
Lemma add_cases beg c m : sized m -> (exists k, col_size c = Ret k) ->
  exists n k, ds_num_rows beg m = Ret n /\ col_size c = Ret k /\
  ds_add beg c m =
    Ret (match assoc (c_name c) m with
         | Some _ => (SErr ALREADY_EXISTS, m)
         | None => if (0 <? n) && negb (n =? k) then (SErr OUT_OF_RANGE, m)
                   else (SOk, (c_name c, c) :: m)
         end).
Proof.
  intros S [k Ek]. destruct (num_rows_sized beg m S) as [n En]. exists n, k. split; auto. split; auto.
  unfold ds_add. destruct (assoc (c_name c) m); auto. rewrite En, Ek. cbn [bind].
  destruct (0 <? n); cbn; auto. destruct (n =? k); auto.
Qed.

Definition run_inv (h : list (ds_op * ds_out)) (m : store) : Prop :=
  keyed m /\ sized m /\ forall n, assoc n m = live n h.

Lemma step_inv beg o h m : run_inv h m ->
  (forall c, o = OpAdd c -> exists k, col_size c = Ret k) ->
  exists r m', ds_step beg m o = Ret (r, m') /\ run_inv ((o, r) :: h) m'.
Proof.
  intros (K & S & L) Hs. destruct o as [c|n|n].
  - destruct (Hs c eq_refl) as [k Ek].
    destruct (add_cases beg c m S (ex_intro _ k Ek)) as (r & k' & En & Ek' & E).
    cbn [ds_step]. rewrite E. cbn [bind].
    destruct (assoc (c_name c) m) eqn:A.
    { eexists. eexists. split; [reflexivity|]. split; auto. }
    destruct ((0 <? r) && negb (r =? k')) eqn:B.
    { eexists. eexists. split; [reflexivity|]. split; auto. }
    eexists. eexists. split; [reflexivity|]. split; [|split].
    + destruct K as [K1 K2]. split; cbn.
      * constructor; auto. apply assoc_none. auto.
      * intros n c' [[= <- <-]|I]; auto.
    + intros n c' [[= <- <-]|I]; eauto.
    + intros n. cbn. rewrite L. auto.
  - cbn. eexists. eexists. split; [reflexivity|]. split; [apply remove_keyed; auto|]. split.
    + intros k c I. apply filter_In in I. eapply S. apply I.
    + intros k. cbn. rewrite remove_assoc, L. auto.
  - cbn. eexists. eexists. split; [reflexivity|]. split; auto.
Qed.

Lemma run_ok beg ops : forall h m, run_inv h m -> all_sized ops ->
  exists h' m', ds_run beg ops h m = Ret (h', m') /\ run_inv h' m'.
Proof.
  induction ops as [|o ops IH]; intros h m I A; cbn.
  - eauto.
  - destruct (step_inv beg o h m I) as (r & m' & E & I').
    { intros c ->. apply A. cbn. auto. }
    rewrite E. cbn. apply IH; auto. intros c H. apply A. cbn. auto.
Qed.

Lemma empty_inv : run_inv [] empty_store.
Proof. split; [split; [constructor|intros ? ? []]|]. split; [intros ? ? []|auto]. Qed.

(** C11 *)
Lemma store_is_map beg ops : all_sized ops ->
  exists h m, ds_run beg ops [] empty_store = Ret (h, m) /\
  (forall n, ds_get n m = live n h) /\
  (forall n c, ds_get n m = Some c -> c_name c = n) /\
  ds_num_cols m = List.length (nodup str_eq_dec (map c_name (stored_columns m))) /\
  (forall c k, col_size c = Ret k ->
   exists rows, ds_num_rows beg m = Ret rows /\
   exists s m', ds_add beg c m = Ret (s, m') /\
    (s = SErr ALREADY_EXISTS <-> live (c_name c) h <> None) /\
    (s = SErr OUT_OF_RANGE <-> live (c_name c) h = None /\ 0 < rows /\ rows <> k) /\
    (s = SOk \/ s = SErr ALREADY_EXISTS \/ s = SErr OUT_OF_RANGE) /\
    (s <> SOk -> m' = m)).
Proof.
  intros A. destruct (run_ok beg ops [] _ empty_inv A) as (h & m & E & K & S & L).
  exists h, m. split; auto. split; auto. split.
  { intros n c G. symmetry. apply (proj2 K). apply assoc_in; auto. }
  split.
  { unfold ds_num_cols, stored_columns.
    assert (Em : map c_name (map snd m) = map fst m).
    { rewrite map_map. apply map_ext_in. intros [n c] I. cbn. symmetry. apply (proj2 K n c I). }
    rewrite Em, nodup_fixed_point by apply K. rewrite map_length. auto. }
  intros c k Ek. destruct (add_cases beg c m S (ex_intro _ k Ek)) as (rows & k' & En & Ek' & Ea).
  exists rows. split; auto. assert (k' = k) by congruence. subst k'.
  rewrite <- L. destruct (assoc (c_name c) m) eqn:G.
  - eexists. eexists. split; [exact Ea|].
    split; [split; congruence|]. split; [split; [discriminate|intros (? & _); discriminate]|].
    auto.
  - destruct ((0 <? rows) && negb (rows =? k)) eqn:B; eexists; eexists; (split; [exact Ea|]);
      (split; [split; congruence|]).
    + split; [split; auto; intros _; split; auto; lia|]. auto.
    + split; [split; [discriminate|intros (_ & H1 & H2); lia]|]. split; auto. congruence.
Qed.

(** C12 *)
Lemma rectangular_inv beg ops : forall h m h' m' r, ds_run beg ops h m = Ret (h', m') ->
  all_nonempty ops ->
  run_inv h m -> (forall n c, In (n, c) m -> col_size c = Ret (S r)) ->
  exists r', forall n c, In (n, c) m' -> col_size c = Ret (S r').
Proof.
  induction ops as [|o ops IH]; intros h m h' m' r E A I R; cbn in E.
  - injection E as <- <-. eauto.
  - apply bind_ret in E. destruct E as ([out m1] & E1 & E2).
    assert (A' : all_nonempty ops) by (intros c H; apply A; cbn; auto).
    destruct (step_inv beg o h m I) as (out' & m1' & E1' & I').
    { intros c ->. destruct (A c) as [k Ek]; cbn; eauto. }
    rewrite E1 in E1'. injection E1' as <- <-.
    assert (Hr : exists r1, forall n c, In (n, c) m1 -> col_size c = Ret (S r1)).
    { destruct o as [c|n|n]; cbn in E1.
      - destruct (A c) as [k Ek]; cbn; auto.
        destruct I as (K & S & L).
        destruct (add_cases beg c m S (ex_intro _ _ Ek)) as (rows & k' & En & Ek' & Ea).
        rewrite Ea in E1. cbn [bind] in E1.
        destruct (assoc (c_name c) m) eqn:G; [injection E1 as <- <-; eauto|].
        destruct ((0 <? rows) && negb (rows =? k')) eqn:B; injection E1 as <- <-; [eauto|].
        destruct m as [|p m].
        + exists k. intros n c' [[= <- <-]|[]]. auto.
        + destruct (num_rows_in beg (p :: m)) as (n0 & c0 & I0 & E0); [congruence|].
          rewrite En, (R _ _ I0) in E0. injection E0 as ->.
          exists r. intros n c' [[= <- <-]|H]; [|eauto].
          rewrite Ek'. f_equal. lia.
      - injection E1 as <- <-. exists r. intros k c H. apply filter_In in H. eapply R, H.
      - injection E1 as <- <-. eauto. }
    destruct Hr as [r1 R1]. eapply IH; eauto.
Qed.

Lemma rectangular beg ops h m : all_nonempty ops ->
  ds_run beg ops [] empty_store = Ret (h, m) ->
  exists rows, ds_num_rows beg m = Ret rows /\
  forall c, In c (stored_columns m) -> col_size c = Ret rows.
Proof.
  intros A E.
  assert (A' : all_sized ops) by (intros c H; destruct (A c H); eauto).
  destruct (run_ok beg ops [] _ empty_inv A') as (h' & m' & E' & K & S & L).
  rewrite E in E'. injection E' as <- <-.
  destruct (rectangular_inv beg ops [] empty_store h m 0 E A empty_inv) as [r R]; [intros ? ? []|].
  destruct m as [|p m].
  - exists 0. split; [|intros c []]. unfold ds_num_rows.
    rewrite (proj2 (nth_error_None _ _)); [auto|cbn; lia].
  - destruct (num_rows_in beg (p :: m)) as (n0 & c0 & I0 & E0); [congruence|].
    exists (Datatypes.S r). rewrite E0, (R _ _ I0). split; auto. intros c H.
    unfold stored_columns in H. apply in_map_iff in H. destruct H as ([n c'] & <- & H). eauto.
Qed.

(** C13 *)
Lemma typed_getters t n m c : ds_get_typed t n m = Some c <-> ds_get n m = Some c /\ col_type c = t.
Proof.
  unfold ds_get_typed. destruct (ds_get n m) as [c'|]; [|split; [discriminate|intros [? ?]; discriminate]].
  destruct (ctype_eqb (col_type c') t) eqn:E.
  - split; [intros [= ->]|intros [[= ->] _]; auto]. split; auto.
    destruct (col_type c), t; cbn in E; congruence.
  - split; [discriminate|]. intros [[= ->] H]. rewrite H in E. destruct t; discriminate.
Qed.

Lemma typed_listings m :
  Permutation (ds_list_typed TBucketized m ++ ds_list_typed TRaw m ++ ds_list_typed TString m)
              (stored_columns m) /\
  forall t c, In c (ds_list_typed t m) -> col_type c = t.
Proof.
  split.
  - unfold ds_list_typed, stored_columns. induction m as [|[n c] m IH]; cbn; auto.
    destruct (col_type c); cbn; auto.
    + rewrite <- Permutation_middle. constructor. auto.
    + rewrite !app_assoc. rewrite <- Permutation_middle. constructor. rewrite <- app_assoc. auto.
  - intros t c H. unfold ds_list_typed in H. apply in_map_iff in H.
    destruct H as ([n c'] & <- & H). apply filter_In in H. destruct H as [_ H]. cbn in *.
    destruct (col_type c'), t; cbn in H; congruence.
Qed.
