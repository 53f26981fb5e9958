(** Rows_proofs.v - the order of the rows (property C87). *)
From Coq Require Import SpecFloat Permutation Sorting.Sorted FinFun.
From Verif Require Import Base Base_proofs F32 F32_proofs Column ColumnSpec ColumnStr_proofs ColumnHist_proofs ColumnBucket_proofs ColumnProps_proofs ColumnCount_proofs Hist_proofs DataStore Num Forest
  Config Score ScoreSpec Eval EvalSpec Split SplitSpec Tree TreeSpec Train TrainSpec Loss LossSpec MergeSpec Merge_proofs RowsSpec.
From Verif Require Import Column.
Local Close Scope R_scope.

(** ** Lists *)
Lemma moved_permutation {A} n to (l l' : list A) : rearranges n to -> moved n to l l' -> Permutation l l'.
Proof.
  intros [R1 R2] (L & L' & M). apply Permutation_sym. apply Permutation_nth_error_bis. exists (fun a => if a <? n then to a else a). split; [|split].
  - intros a b. destruct (Nat.ltb_spec a n) as [La|La], (Nat.ltb_spec b n) as [Lb|Lb]; intros E; auto; [specialize (R1 a La)|specialize (R1 b Lb)]; lia.
  - intros a La. rewrite L' in La. destruct (Nat.ltb_spec a n); [|lia]. rewrite L'. apply R1. assumption.
  - intros a. destruct (Nat.ltb_spec a n) as [La|La]; [symmetry; apply M, La|].
    rewrite (proj2 (nth_error_None l a)), (proj2 (nth_error_None l' a)) by lia. reflexivity.
Qed.
Lemma plain_permutation l l' : Permutation l l' -> plain l -> plain l'.
Proof. intros P H x y Ix Iy. apply H; (eapply Permutation_in; [apply Permutation_sym, perm_skip, P|]); assumption. Qed.
Lemma zlen_permutation {A} (l l' : list A) : Permutation l l' -> zlen l' = zlen l.
Proof. intros P. unfold zlen. rewrite (Permutation_length P). reflexivity. Qed.
Lemma filter_permutation {A} (p : A -> bool) l l' : Permutation l l' -> Permutation (filter p l) (filter p l').
Proof.
  intros P. induction P as [|x l l' P IH|x y l|l l' l'' P IH P' IH']; cbn [filter].
  - constructor.
  - destruct (p x); [apply perm_skip|]; exact IH.
  - destruct (p x), (p y); try apply Permutation_refl. apply perm_swap.
  - eapply perm_trans; eassumption.
Qed.

(** ** The histogram does not depend on the order *)
Lemma sorted_unique (h h' : list (f32 * Z)) : StronglySorted flt (keys h) -> StronglySorted flt (keys h') -> (forall p, In p h <-> In p h') -> h = h'.
Proof.
  revert h'. induction h as [|[k n] h IH]; intros [|[k' n'] h'] S S' E.
  - reflexivity.
  - destruct (proj2 (E (k', n')) (or_introl eq_refl)).
  - destruct (proj1 (E (k, n)) (or_introl eq_refl)).
  - cbn [keys map fst] in S, S'. apply StronglySorted_inv in S, S'. destruct S as [S F], S' as [S' F']. rewrite Forall_forall in F, F'.
    assert (In_keys : forall (p : f32 * Z) l, In p l -> In (fst p) (keys l)) by (intros p l I; apply in_map; exact I).
    assert (Hd : (k, n) = (k', n')).
    { destruct (proj1 (E (k, n)) (or_introl eq_refl)) as [X|X]; [congruence|]. destruct (proj2 (E (k', n')) (or_introl eq_refl)) as [Y|Y]; [congruence|].
      apply In_keys in X, Y. cbn [fst] in X, Y. apply F in Y. apply F' in X. unfold flt in *. exfalso. clear -X Y. forder. }
    injection Hd as <- <-. f_equal. apply IH; [exact S|exact S'|]. intros [p q]. split; intros I.
    + destruct (proj1 (E (p, q)) (or_intror I)) as [X|X]; [|exact X]. apply In_keys in I. injection X as -> ->. cbn [fst] in I. apply F in I. unfold flt in I. clear -I. exfalso. forder.
    + destruct (proj2 (E (p, q)) (or_intror I)) as [X|X]; [|exact X]. apply In_keys in I. injection X as -> ->. cbn [fst] in I. apply F' in I. unfold flt in I. clear -I. exfalso. forder.
Qed.
Lemma occurrences_permutation k l l' : Permutation l l' -> occurrences k l' = occurrences k l.
Proof. intros P. unfold occurrences. apply zlen_permutation, filter_permutation, P. Qed.
Lemma histogram_in l k n : plain l -> In (k, n) (histogram l) <-> In k l /\ is_nan k = false /\ n = occurrences k l.
Proof.
  intros Pl. destruct (histogram_inv l) as (S & Nn & C & All & _). split.
  - intros I. destruct (C k n I) as (E & _ & I'). split; [exact I'|]. split; [|exact E]. rewrite Forall_forall in Nn. apply Nn. change k with (fst (k, n)). apply in_map, I.
  - intros (I & Nk & ->). destruct (All k I Nk) as (k' & Ik & Q). apply in_map_iff in Ik. destruct Ik as ([k0 n0] & E0 & Ik). cbn [fst] in E0. subst k0.
    destruct (C k' n0 Ik) as (E & _ & I'). assert (k = k') as <- by (apply Pl; [right; exact I|right; exact I'|exact Q]). rewrite <- E. exact Ik.
Qed.
Lemma histogram_permutation l l' : Permutation l l' -> plain l -> histogram l' = histogram l.
Proof.
  intros P Pl. pose proof (plain_permutation l l' P Pl) as Pl'. symmetry. apply sorted_unique; [apply histogram_inv|apply histogram_inv|].
  intros [k n]. rewrite !histogram_in by assumption. rewrite (occurrences_permutation k l l' P). split; intros (I & H); (split; [|exact H]);
    [eapply Permutation_in; [exact P|exact I]|eapply Permutation_in; [apply Permutation_sym, P|exact I]].
Qed.
Lemma limits_permutation nb l l' : Permutation l l' -> plain l -> bucket_limits nb l' = bucket_limits nb l.
Proof. intros P Pl. unfold bucket_limits. rewrite (histogram_permutation l l' P Pl), (zlen_permutation l l' P). reflexivity. Qed.

(** ** The smallest values *)
Lemma fmin_permutation l l' : Permutation l l' -> forall x, (forall a b, In a (x :: l) -> In b (x :: l) -> feqb a b = true -> a = b) ->
  (forall a, In a (x :: l) -> is_nan a = false) -> fold_left fmin l' x = fold_left fmin l x.
Proof.
  intros P. induction P as [|v l l' P IH|u v l|l l' l'' P IH P' IH']; intros x Q Nn.
  - reflexivity.
  - cbn [fold_left]. assert (Inc : forall a, In a (fmin x v :: l) -> In a (x :: v :: l)).
    { intros a [<-|I]; [|right; right; exact I]. unfold fmin. destruct (fltb v x); [right; left; reflexivity|left; reflexivity]. }
    apply IH; intros; [apply Q; auto|apply Nn; auto].
  - cbn [fold_left]. f_equal. assert (Nx : is_nan x = false) by (apply Nn; left; reflexivity).
    assert (Nu : is_nan u = false) by (apply Nn; right; right; left; reflexivity). assert (Nv : is_nan v = false) by (apply Nn; right; left; reflexivity).
    assert (Euv : feqb u v = true -> u = v) by (apply Q; [right; right; left; reflexivity|right; left; reflexivity]).
    unfold fmin. destruct (fltb u x) eqn:E1, (fltb v x) eqn:E2; rewrite ?E1, ?E2.
    + destruct (fltb u v) eqn:E3, (fltb v u) eqn:E4; try reflexivity.
      * exfalso. clear -E3 E4. forder.
      * apply Euv. clear -E3 E4 Nu Nv. forder.
    + destruct (fltb v u) eqn:E4; [exfalso; clear -E1 E2 E4 Nx Nu Nv; forder|reflexivity].
    + destruct (fltb u v) eqn:E4; [exfalso; clear -E1 E2 E4 Nx Nu Nv; forder|reflexivity].
    + reflexivity.
  - rewrite IH'; [apply IH; assumption| |].
    + intros a b Ia Ib. apply Q; (eapply Permutation_in; [apply perm_skip, Permutation_sym, P|]); assumption.
    + intros a Ia. apply Nn. eapply Permutation_in; [apply perm_skip, Permutation_sym, P|exact Ia].
Qed.

(** ** Bucketized columns *)
Section Buckets.
Local Open Scope Z_scope.
Lemma small_whole nb blocks b : limit_ok nb -> zlen (concat blocks) <= 100 * nb -> b_load nb blocks = Ret b ->
  exists m max_id, finished nb b (concat blocks) (concat blocks) m max_id.
Proof.
  intros Nb Z E. destruct (b_load_finished nb blocks b Nb ltac:(destruct Nb; lia) E) as (d0 & m & id & F). exists m, id.
  assert (d0 = concat blocks) as ->; [|exact F]. destruct (fn_which _ _ _ _ _ _ F) as [[X _]|X]; [exact X|].
  destruct (fn_prefix _ _ _ _ _ _ F) as [d1 W]. rewrite W in Z. unfold zlen in *. rewrite app_length in Z. lia.
Qed.
Lemma moved_bucket nb blocks blocks' b b' : limit_ok nb -> zlen (concat blocks) <= 100 * nb -> plain (concat blocks) -> Permutation (concat blocks) (concat blocks') ->
  b_load nb blocks = Ret b -> b_load nb blocks' = Ret b' ->
  b_status b' = b_status b /\ b_maxs b' = b_maxs b /\ b_mins b' = b_mins b /\
  forall i j x, nth_error (concat blocks) i = Some x -> nth_error (concat blocks') j = Some x -> b_bucket b' j = b_bucket b i.
Proof.
  intros Nb Z Pl P E E'. assert (Z' : zlen (concat blocks') <= 100 * nb) by (rewrite (zlen_permutation _ _ P); exact Z).
  destruct (small_whole nb blocks b Nb Z E) as (m & id & F). destruct (small_whole nb blocks' b' Nb Z' E') as (m' & id' & F').
  assert (Mx : b_maxs b' = b_maxs b).
  { pose proof (fn_limits _ _ _ _ _ _ F) as L. pose proof (fn_limits _ _ _ _ _ _ F') as L'. rewrite (limits_permutation nb _ _ P Pl) in L'. congruence. }
  assert (m' = m) as -> by (rewrite (fn_map _ _ _ _ _ _ F), (fn_map _ _ _ _ _ _ F'), Mx; reflexivity).
  assert (id' = id) as -> by (pose proof (fn_last _ _ _ _ _ _ F); pose proof (fn_last _ _ _ _ _ _ F'); congruence).
  split; [rewrite (fn_status _ _ _ _ _ _ F), (fn_status _ _ _ _ _ _ F'); reflexivity|]. split; [exact Mx|]. split.
  - destruct (fn_mins _ _ _ _ _ _ F) as [L1 M1]. destruct (fn_mins _ _ _ _ _ _ F') as [L2 M2]. rewrite Mx in L2, M2.
    apply (Hist_proofs.list_nth_ext (b_mins b')). intros k. destruct (nth_error (b_maxs b) k) as [x|] eqn:Ex.
    2:{ rewrite (proj2 (nth_error_None _ k)), (proj2 (nth_error_None _ k)); [reflexivity| |]; apply nth_error_None in Ex; lia. }
    rewrite (M1 k x Ex), (M2 k x Ex). f_equal. set (l := filter (in_bucket m id k) (concat blocks)).
    assert (Hl : zlen (concat blocks) < 4294967296) by (destruct Nb; lia).
    destruct (bucket_limits_ret nb _ _ Hl (fn_limits _ _ _ _ _ _ F)) as (ms & Em & _ & Hin & _).
    assert (In_l : forall a, In a l -> In a (concat blocks) /\ is_nan a = false /\ idx m id a = Z.of_nat k).
    { intros a I. apply filter_In in I. destruct I as [I B]. unfold in_bucket in B. apply andb_true_iff in B. destruct B as [B1 B2].
      apply negb_true_iff in B1. apply Z.eqb_eq in B2. auto. }
    destruct k as [|k].
    + assert (l = []) as El.
      { assert (X : forall a, ~ In a l); [|clear - X; destruct l as [|a l0]; [reflexivity|exfalso; apply (X a); left; reflexivity]].
        intros a Ia0. destruct (In_l a Ia0) as (_ & Na & Ia).
        pose proof (idx_range nb _ _ id a Hl (fn_limits _ _ _ _ _ _ F)) as R. rewrite <- (fn_map _ _ _ _ _ _ F) in R. specialize (R (fn_last _ _ _ _ _ _ F) Na). lia. }
      pose proof (filter_permutation (in_bucket m id 0) _ _ P) as Pf. fold l in Pf. rewrite El in Pf. apply Permutation_nil in Pf. rewrite El, Pf. reflexivity.
    + assert (Ix : In x (flt_max :: concat blocks) /\ is_nan x = false).
      { rewrite Em in Ex. cbn [nth_error] in Ex. apply nth_error_In in Ex. apply in_app_iff in Ex. destruct Ex as [I|[<-|[]]].
        - destruct (Hin x I) as [I1 I2]. split; [right; exact I1|exact I2].
        - split; [left; reflexivity|apply flt_max_nan]. }
      apply fmin_permutation.
      * apply filter_permutation, P.
      * intros a c Ia Ic. apply Pl; [destruct Ia as [<-|Ia]|destruct Ic as [<-|Ic]]; try apply Ix; right; apply In_l; assumption.
      * intros a [<-|Ia]; [apply Ix|apply In_l, Ia].
  - intros i j x Ei Ej. unfold b_bucket, icol_get. rewrite (fn_vec _ _ _ _ _ _ F), (fn_vec _ _ _ _ _ _ F'). cbn [bind]. unfold vget.
    rewrite !nth_error_map, Ei, Ej. reflexivity.
Qed.
Lemma load_small nb l : limit_ok nb -> zlen l <= 100 * nb -> (exists b, b_load nb [l] = Ret b) <-> exists maxs, bucket_limits nb l = Ret maxs.
Proof.
  intros Nb Z. unfold b_load. cbn [fold_res bind]. unfold b_add, b_init. cbn [is_ok b_status b_ints i_final icol_init b_maxs b_buffer b_nb b_map b_mins].
  change (zlen (@nil f32) =? 0) with true. cbn iota. cbn [app]. replace ((100 * nb <? -2147483648) || (2147483647 <? 100 * nb)) with false by (destruct Nb; lia).
  assert (u64 (100 * nb) = 100 * nb) as -> by (unfold u64; apply Z.mod_small; destruct Nb; lia). replace (100 * nb <? zlen l) with false by lia.
  cbn [bind]. unfold b_finalize. cbn [is_ok b_status b_ints i_final icol_init b_maxs]. change (zlen (@nil f32) =? 0) with true. cbn iota.
  destruct (build_spec nb l ltac:(destruct Nb; lia)) as [F1 F2]. split.
  - intros [b E]. destruct (bucket_limits nb l) as [maxs| |] eqn:El; [eauto|rewrite F1 in E; discriminate E..].
  - intros [maxs El]. destruct (F2 maxs El) as (c & id & -> & Hb & _). cbn [bind]. rewrite (bt_status _ _ _ _ Hb). cbn [is_ok]. eauto.
Qed.
Lemma moved_loads nb blocks blocks' b : limit_ok nb -> zlen (concat blocks) <= 100 * nb -> plain (concat blocks) -> Permutation (concat blocks) (concat blocks') ->
  b_load nb blocks = Ret b -> exists b', b_load nb blocks' = Ret b'.
Proof.
  intros Nb Z Pl P E. assert (Z' : zlen (concat blocks') <= 100 * nb) by (rewrite (zlen_permutation _ _ P); exact Z).
  rewrite (bucketized_blocks nb blocks' [concat blocks'] Nb) by (cbn [concat]; rewrite ?app_nil_r; auto). apply load_small; [exact Nb|exact Z'|].
  rewrite (limits_permutation nb _ _ P Pl). apply load_small; [exact Nb|exact Z|]. exists b. rewrite <- E. apply bucketized_blocks; [exact Nb| |];
    cbn [concat]; rewrite app_nil_r; [reflexivity|exact Z].
Qed.
End Buckets.

(** ** String columns *)
Section Strings.
Local Open Scope Z_scope.
Lemma appearing_app l1 : forall seen l2, appearing seen (l1 ++ l2) = appearing (appearing seen l1) l2.
Proof. induction l1 as [|s l1 IH]; intros seen l2; cbn [app appearing]; auto. Qed.
Lemma fold_strings raw : forall c data, str_inv c data -> fits_32_bits (data ++ raw) -> s_strings (fold_left str_add1 raw c) = appearing (s_strings c) raw.
Proof.
  induction raw as [|s raw IH]; intros c data H F; [reflexivity|]. cbn [fold_left appearing].
  assert (L : zlen (s_strings c) < 4294967296).
  { rewrite (str_inv_size _ _ H). apply (fits_app data (s :: raw)). exact F. }
  rewrite (IH _ (data ++ [s]) (str_add1_inv _ _ s H L)) by (rewrite <- app_assoc; exact F). f_equal.
  pose proof H as (_ & _ & _ & _ & _ & _ & _ & _ & Hidx & _). unfold str_add1. destruct (assoc s (s_index c)) as [k|] eqn:Ea; cbn [s_strings].
  - destruct (in_dec str_eq_dec s (s_strings c)) as [|N]; [reflexivity|]. exfalso. apply N. apply Hidx in Ea. eapply nth_error_In, Ea.
  - destruct (in_dec str_eq_dec s (s_strings c)) as [I|]; [|reflexivity]. apply In_nth_error in I. destruct I as [k Ek].
    assert (X : assoc s (s_index c) = Some (Z.of_nat k)) by (apply Hidx; rewrite Nat2Z.id; split; [lia|exact Ek]). congruence.
Qed.
Lemma blocks_strings blocks : forall c data, str_inv c data -> fits_32_bits (data ++ concat blocks) ->
  s_strings (fold_left (fun c b => str_add b c) blocks c) = appearing (s_strings c) (concat blocks).
Proof.
  induction blocks as [|b blocks IH]; intros c data H F; [reflexivity|]. cbn [fold_left concat] in *. rewrite app_assoc in F.
  rewrite (IH _ (data ++ b) (str_add_inv _ _ _ H (fits_app _ _ F)) F), appearing_app. f_equal. unfold str_add. destruct H as [Hs H]. rewrite Hs. cbn [is_ok].
  apply (fold_strings b c data); [split; auto|eapply fits_app; eauto].
Qed.
Lemma strings_appearing blocks : fits_32_bits (concat blocks) -> s_strings (string_column_of blocks) = appearing [missing_str] (concat blocks).
Proof.
  intros F. pose proof (str_blocks_inv blocks str_init [] str_init_inv F) as H. cbn [app] in H.
  assert (L : zlen (s_strings (fold_left (fun c b => str_add b c) blocks str_init)) < 4294967296) by (rewrite (str_inv_size _ _ H); exact F).
  destruct (str_finalize_view _ _ H L) as (_ & S1 & _). unfold string_column_of. rewrite S1. apply (blocks_strings blocks str_init []); [apply str_init_inv|exact F].
Qed.
Lemma fits_permutation l l' : Permutation l l' -> fits_32_bits l -> fits_32_bits l'.
Proof.
  intros P F. unfold fits_32_bits, zlen in *. assert (List.length (nodup str_eq_dec (missing_str :: l')) <= List.length (nodup str_eq_dec (missing_str :: l)))%nat; [|lia].
  apply NoDup_incl_length; [apply NoDup_nodup|]. intros x. rewrite !nodup_In. intros [I|I]; [left; exact I|right; eapply Permutation_in; [apply Permutation_sym, P|exact I]].
Qed.
Lemma moved_string blocks blocks' : fits_32_bits (concat blocks) -> Permutation (concat blocks) (concat blocks') ->
  appearing [missing_str] (concat blocks') = appearing [missing_str] (concat blocks) ->
  s_status (string_column_of blocks') = s_status (string_column_of blocks) /\
  s_strings (string_column_of blocks') = s_strings (string_column_of blocks) /\
  forall i j s, nth_error (concat blocks) i = Some s -> nth_error (concat blocks') j = Some s ->
    icol_get (s_ints (string_column_of blocks')) j = icol_get (s_ints (string_column_of blocks)) i.
Proof.
  intros F P A. pose proof (fits_permutation _ _ P F) as F'.
  assert (St : s_strings (string_column_of blocks') = s_strings (string_column_of blocks)) by (rewrite !strings_appearing; auto).
  split; [rewrite (proj1 (string_column_roundtrip _ F)), (proj1 (string_column_roundtrip _ F')); reflexivity|]. split; [exact St|].
  destruct (string_column_of_inv _ F) as (c & H & L & E). destruct (string_column_of_inv _ F') as (c' & H' & L' & E'). rewrite E, E' in *.
  destruct (str_finalize_view _ _ H L) as (V & S1 & _). destruct (str_finalize_view _ _ H' L') as (V' & S1' & _). rewrite S1, S1' in St.
  pose proof H as (_ & _ & _ & _ & _ & Hnd & _ & _ & Hidx & Hcol & _). pose proof H' as (_ & _ & _ & _ & _ & Hnd' & _ & _ & Hidx' & Hcol' & _).
  intros i j s Ei Ej. unfold icol_get. rewrite V, V'. cbn [bind]. unfold vget.
  destruct (Forall2_nth_error _ _ _ Hcol _ _ Ei) as (k & K & Ak). destruct (Forall2_nth_error _ _ _ Hcol' _ _ Ej) as (k' & K' & Ak'). rewrite K, K'. f_equal.
  apply Hidx in Ak. apply Hidx' in Ak'. destruct Ak as [P1 Q1], Ak' as [P2 Q2]. rewrite St in Q2.
  assert (Z.to_nat k' = Z.to_nat k); [|lia]. eapply NoDup_nth_error; [exact Hnd|apply nth_error_Some; congruence|congruence].
Qed.
End Strings.

(** ** Columns and trainings *)
Lemma numbers_moved nb n to blocks blocks' b : limit_ok nb -> (zlen (concat blocks) <= 100 * nb)%Z -> plain (concat blocks) -> rearranges n to ->
  moved n to (concat blocks) (concat blocks') -> b_load nb blocks = Ret b ->
  exists b', b_load nb blocks' = Ret b' /\ b_max_int b' = b_max_int b /\
    (forall k, b_bucket_max b' k = b_bucket_max b k) /\ (forall k, b_bucket_min b' k = b_bucket_min b k) /\
    forall a, a < n -> b_bucket b' (to a) = b_bucket b a.
Proof.
  intros Nb Z Pl R M E. pose proof (moved_permutation _ _ _ _ R M) as P. destruct (moved_loads nb blocks blocks' b Nb Z Pl P E) as [b' E']. exists b'. split; [exact E'|].
  destruct (moved_bucket nb blocks blocks' b b' Nb Z Pl P E E') as (St & Mx & Mn & Bk).
  unfold b_max_int, b_bucket_max, b_bucket_min. rewrite Mx, Mn. split; [reflexivity|]. split; [reflexivity|]. split; [reflexivity|].
  intros a La. destruct M as (L & L' & M). destruct (nth_error (concat blocks) a) as [x|] eqn:Ex; [|apply nth_error_None in Ex; lia].
  apply (Bk a (to a) x Ex). rewrite M by exact La. exact Ex.
Qed.
Lemma strings_moved n to blocks blocks' : fits_32_bits (concat blocks) -> rearranges n to -> moved n to (concat blocks) (concat blocks') ->
  appearing [missing_str] (concat blocks') = appearing [missing_str] (concat blocks) ->
  str_max_int (string_column_of blocks') = str_max_int (string_column_of blocks) /\
  (forall k, str_cat_string (string_column_of blocks') k = str_cat_string (string_column_of blocks) k) /\
  forall a, a < n -> icol_get (s_ints (string_column_of blocks')) (to a) = icol_get (s_ints (string_column_of blocks)) a.
Proof.
  intros F R M A. destruct (moved_string blocks blocks' F (moved_permutation _ _ _ _ R M) A) as (St & Ss & Id).
  unfold str_max_int, str_cat_string. rewrite Ss. split; [reflexivity|]. split; [reflexivity|].
  intros a La. destruct M as (L & L' & M). destruct (nth_error (concat blocks) a) as [x|] eqn:Ex; [|apply nth_error_None in Ex; lia].
  apply (Id a (to a) x Ex). rewrite M by exact La. exact Ex.
Qed.
Lemma rows_moved_like n to c c' : rearranges n to -> rows_moved n to c c' -> like n to c c'.
Proof.
  intros R [Nm H]. split; [exact Nm|]. unfold col_status. destruct (c_body c) as [b|r|s], (c_body c') as [b'|r'|s']; try contradiction.
  - destruct H as (nb & blocks & blocks' & Nb & Z & Pl & M & E & E').
    destruct (moved_bucket nb blocks blocks' b b' Nb Z Pl (moved_permutation _ _ _ _ R M) E E') as (St & Mx & Mn & Bk).
    split; [exact St|]. unfold b_max_int, b_bucket_max, b_bucket_min. rewrite Mx, Mn. split; [reflexivity|]. split; [reflexivity|]. split; [reflexivity|].
    intros a La. destruct M as (L & L' & M). destruct (nth_error (concat blocks) a) as [x|] eqn:Ex; [|apply nth_error_None in Ex; lia].
    apply (Bk a (to a) x Ex). rewrite M by exact La. exact Ex.
  - split; [apply H|exact Logic.I].
  - destruct H as (blocks & blocks' & F & M & -> & -> & A). destruct (moved_string blocks blocks' F (moved_permutation _ _ _ _ R M) A) as (St & Ss & Id).
    split; [exact St|]. unfold str_max_int, str_cat_string. rewrite Ss. split; [reflexivity|]. split; [reflexivity|].
    intros a La. destruct M as (L & L' & M). destruct (nth_error (concat blocks) a) as [x|] eqn:Ex; [|apply nth_error_None in Ex; lia].
    apply (Id a (to a) x Ex). rewrite M by exact La. exact Ex.
Qed.
Lemma rearranges_onto n to b : rearranges n to -> b < n -> exists a, a < n /\ to a = b.
Proof.
  intros [To Inj] Lb. assert (I : incl (seq 0 n) (map to (seq 0 n))).
  { apply NoDup_length_incl; [|rewrite map_length; reflexivity|].
    - assert (D : forall s k, s + k <= n -> NoDup (map to (seq s k))).
      { intros s k. revert s. induction k as [|k IH]; intros s L; [constructor|]. cbn [seq map]. constructor; [|apply IH; lia].
        intros X. apply in_map_iff in X. destruct X as (a & E & X). apply in_seq in X. apply Inj in E; lia. }
      apply D. lia.
    - intros x X. apply in_map_iff in X. destruct X as (a & <- & X). apply in_seq in X. apply in_seq. pose proof (To a ltac:(lia)). lia. }
  destruct (proj1 (in_map_iff _ _ _) (I b ltac:(apply in_seq; lia))) as (a & E & X). apply in_seq in X. exists a. split; [lia|exact E].
Qed.
Lemma train_moved v v' to t t' top draw pos pos' srt names w y w' y' (wv yv wv' yv' : nat -> Exact) binary
    (lossf : Exact -> Exact -> point Exact) c base r :
  training v t top srt names w (pointwise_loss t binary lossf) -> training v' t' top srt names w' (pointwise_loss t' binary lossf) ->
  v_order v' names = v_order v names -> v_rows v' = v_rows v -> rearranges (v_rows v) to ->
  (forall name, match v_get v name, v_get v' name with
                | Some c, Some c' => rows_moved (v_rows v) to c c'
                | None, None => True
                | _, _ => False
                end) ->
  row_values w (v_rows v) wv -> row_values y (v_rows v) yv -> row_values w' (v_rows v) wv' -> row_values y' (v_rows v) yv' ->
  (forall a, a < v_rows v -> yv' (to a) = yv a /\ wv' (to a) = wv a) ->
  (forall p, fltb (draw p) (to_f64 (cf_example_rate c)) = true) -> (forall p, fltb (draw p) (to_f64 (cf_feature_rate c)) = true) ->
  (forall b, base = Some b -> forest_fits v b /\ forest_fits v' b) ->
  train v t top draw pos srt names w y (pointwise_loss t binary lossf) c base = Ret r ->
  exists r', train v' t' top draw pos' srt names w' y' (pointwise_loss t' binary lossf) c base = Ret r' /\
    tr_status r' = tr_status r /\ tr_forest r' = tr_forest r /\
    forall a, a < v_rows v -> nth_error (tr_f r') (to a) = nth_error (tr_f r) a.
Proof.
  intros Tr Tr' Or En R C Wv Yv Wv' Yv' H D1 D2 Fb E.
  apply (train_counted v v' to t t' top draw pos pos' srt names w y w' y' wv yv wv' yv' binary lossf c base r); auto; rewrite ?En; auto.
  - apply reordered_counted; auto; [apply R|apply R|]. intros name. specialize (C name). destruct (v_get v name), (v_get v' name); auto. apply rows_moved_like; auto.
  - intros _. split.
    + intros b Lb X. destruct (rearranges_onto _ _ b R Lb) as (a & La & Ea). exfalso. apply (X a La Ea). rewrite <- Ea. apply H, La.
    + intros a La X. exfalso. apply X, H, La.
Qed.
