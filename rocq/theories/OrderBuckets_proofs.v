(** OrderBuckets_proofs.v - bucketizing looks only at the order of the values (property C82). *)
From Coq Require Import SpecFloat.
From Verif Require Import Base Base_proofs F32 F32_proofs Column ColumnSpec DataStore OrderSpec Order_proofs.
Local Open Scope Z_scope.

Section Rel.
Variable R : f32 -> f32 -> Prop.
Hypothesis Rlt : forall x x' y y', R x x' -> R y y' -> fltb x y = fltb x' y'.
Hypothesis Rnan : forall x x', R x x' -> is_nan x = is_nan x'.
Hypothesis Rmissing : R fnan fnan.
Hypothesis Rmax : R flt_max flt_max.

Notation Rs := (Forall2 R).
Definition krel (a b : f32 * Z) : Prop := R (fst a) (fst b) /\ snd a = snd b.
Notation Ks := (Forall2 krel).

Lemma zlen_rel {A B} (Q : A -> B -> Prop) l l' : Forall2 Q l l' -> zlen l = zlen l'.
Proof. intros F. unfold zlen. rewrite (Forall2_length _ _ _ F). reflexivity. Qed.
Lemma krel_pair x x' n : R x x' -> krel (x, n) (x', n).
Proof. intros H. split; [exact H|reflexivity]. Qed.

Lemma hist_add_rel v v' h h' : R v v' -> Ks h h' -> Ks (hist_add v h) (hist_add v' h').
Proof using Rlt.
  intros V F. induction F as [|[k n] [k' n'] h h' [K E] F IH]; cbn [hist_add]; [repeat constructor; exact V|]. cbn in K, E. subst n'.
  rewrite <- (Rlt v v' k k' V K), <- (Rlt k k' v v' K V). destruct (fltb v k).
  - constructor; [apply krel_pair; exact V|]. constructor; [apply krel_pair; exact K|exact F].
  - destruct (fltb k v); constructor; try (apply krel_pair; exact K); assumption.
Qed.
Lemma histogram_rel l l' : Rs l l' -> Ks (histogram l) (histogram l').
Proof using Rlt Rnan.
  unfold histogram. intros F. assert (G : Ks [] []) by constructor. revert G. generalize (@nil (f32 * Z)) at 1 3. generalize (@nil (f32 * Z)).
  induction F as [|v v' l l' V F IH]; intros h' h G; cbn [fold_left]; [exact G|]. apply IH. rewrite <- (Rnan v v' V).
  destruct (is_nan v); [exact G|]. apply hist_add_rel; assumption.
Qed.
Lemma take_heavy_rel cap h h' : Ks h h' -> forall m m' lo, Rs m m' ->
  let r := take_heavy cap h m lo in let r' := take_heavy cap h' m' lo in Rs (fst (fst r)) (fst (fst r')) /\ snd (fst r) = snd (fst r') /\ Ks (snd r) (snd r').
Proof.
  intros F. cbn zeta. induction F as [|[k n] [k' n'] h h' [K E] F IH]; intros m m' lo M; cbn [take_heavy]; [cbn; auto|]. cbn in K, E. subst n'.
  destruct (cap <=? n).
  - apply IH. apply Forall2_app; [exact M|]. constructor; [exact K|constructor].
  - specialize (IH m m' lo M). destruct (take_heavy cap h m lo) as [[a b] d], (take_heavy cap h' m' lo) as [[a' b'] d']. cbn in IH |- *.
    destruct IH as (A & B & D). split; [exact A|]. split; [exact B|]. constructor; [apply krel_pair; exact K|exact D].
Qed.
Lemma binning_rel cap h h' : Ks h h' -> forall run u u' m m', R u u' -> Rs m m' -> Rs (uniform_binning h cap run u m) (uniform_binning h' cap run u' m').
Proof.
  intros F. induction F as [|[k n] [k' n'] h h' [K E] F IH]; intros run u u' m m' U M; cbn [uniform_binning].
  - destruct (0 <? run); [|exact M]. apply Forall2_app; [exact M|]. constructor; [exact U|constructor].
  - cbn in K, E. subst n'. destruct (cap <=? run + n); apply IH; try assumption. apply Forall2_app; [exact M|]. constructor; [exact K|constructor].
Qed.
Lemma insert_rel v v' l l' : R v v' -> Rs l l' -> Rs (insert_f v l) (insert_f v' l').
Proof using Rlt.
  intros V F. induction F as [|x x' l l' X F IH]; cbn [insert_f]; [repeat constructor; exact V|]. rewrite <- (Rlt v v' x x' V X).
  destruct (fltb v x); repeat constructor; assumption.
Qed.
Lemma sort_rel l l' : Rs l l' -> Rs (sort_f l) (sort_f l').
Proof using Rlt. unfold sort_f. induction 1 as [|x x' l l' X F IH]; cbn [fold_right]; [constructor|]. apply insert_rel; assumption. Qed.
Lemma map_set_rel k k' i m m' : R k k' -> Ks m m' -> Ks (map_set k i m) (map_set k' i m').
Proof using Rlt.
  intros V F. induction F as [|[x n] [x' n'] h h' [K E] F IH]; cbn [map_set]; [repeat constructor; exact V|]. cbn in K, E. subst n'.
  rewrite <- (Rlt k k' x x' V K), <- (Rlt x x' k k' K V). destruct (fltb k x).
  - constructor; [apply krel_pair; exact V|]. constructor; [apply krel_pair; exact K|exact F].
  - destruct (fltb x k); constructor; try (apply krel_pair; exact K); assumption.
Qed.
Lemma build_map_rel l l' : Rs l l' -> forall i m m', Ks m m' -> Ks (build_map l i m) (build_map l' i m').
Proof using Rlt. induction 1 as [|k k' l l' K F IH]; intros i m m' M; cbn [build_map]; [exact M|]. apply IH, map_set_rel; assumption. Qed.
Lemma lower_bound_rel v v' m m' : R v v' -> Ks m m' -> lower_bound v m = lower_bound v' m'.
Proof using Rlt.
  intros V F. induction F as [|[x n] [x' n'] h h' [K E] F IH]; cbn [lower_bound]; [reflexivity|]. cbn in K, E. subst n'.
  rewrite <- (Rlt x x' v v' K V). destruct (fltb x v); [exact IH|reflexivity].
Qed.
Lemma last_id_rel m m' : Ks m m' -> last_id m = last_id m'.
Proof.
  induction 1 as [|[x n] [x' n'] h h' [K E] F IH]; cbn [last_id]; [reflexivity|]. cbn in E. subst n'. destruct F; [reflexivity|exact IH].
Qed.
Lemma fmin_rel x x' y y' : R x x' -> R y y' -> R (fmin x y) (fmin x' y').
Proof using Rlt. intros X Y. unfold fmin. rewrite <- (Rlt y y' x x' Y X). destruct (fltb y x); assumption. Qed.
Lemma vget_rel {A B} (Q : A -> B -> Prop) l l' i : Forall2 Q l l' -> rrel Q (vget l i) (vget l' i).
Proof. intros F. unfold vget. pose proof (Forall2_nth _ _ _ F i) as H. destruct (nth_error l i), (nth_error l' i); cbn; try contradiction; auto. Qed.
Lemma vset_rel {A B} (Q : A -> B -> Prop) l l' i x y : Forall2 Q l l' -> Q x y -> rrel (Forall2 Q) (vset l i x) (vset l' i y).
Proof.
  intros F X. unfold vset. rewrite (Forall2_length _ _ _ F). destruct (Nat.ltb i (List.length l')); [|exact I]. cbn [rrel]. revert i.
  induction F as [|a b l l' H F IH]; intros [|i]; cbn [set_nth]; try constructor; try assumption. apply IH.
Qed.
Definition strel (a b : list Z * list f32) : Prop := fst a = fst b /\ Rs (snd a) (snd b).
Lemma step_rel cast m m' id st st' v v' : Ks m m' -> strel st st' -> R v v' -> rrel strel (bucket_step cast m id st v) (bucket_step cast m' id st' v').
Proof using Rlt Rnan.
  intros M [E S] V. destruct st as [col mins], st' as [col' mins']. cbn in E, S. subst col'. unfold bucket_step. rewrite <- (Rnan v v' V).
  destruct (is_nan v); [split; [reflexivity|exact S]|]. rewrite <- (lower_bound_rel v v' m m' V M).
  apply (rrel_bind _ _ _ _ _ _ (vget_rel _ _ _ _ S)). intros o o' O. apply (rrel_bind _ _ _ _ _ _ (vset_rel _ _ _ _ _ _ S (fmin_rel _ _ _ _ O V))).
  intros a b H. split; [reflexivity|exact H].
Qed.
Lemma fold_rel {A B C D} (Q : A -> B -> Prop) (P : C -> D -> Prop) f f' l l' : Forall2 P l l' -> (forall a b x y, Q a b -> P x y -> rrel Q (f a x) (f' b y)) ->
  forall a b, Q a b -> rrel Q (fold_res f l a) (fold_res f' l' b).
Proof.
  intros F H. induction F as [|x y l l' X F IH]; intros a b AB; cbn [fold_res]; [exact AB|]. apply (rrel_bind _ _ _ _ _ _ (H a b x y AB X)). exact IH.
Qed.
Lemma helper_rel cast l l' m m' col mins mins' : Rs l l' -> Ks m m' -> Rs mins mins' -> rrel strel (add_helper cast l m col mins) (add_helper cast l' m' col mins').
Proof using Rlt Rnan.
  intros L M S. unfold add_helper. rewrite <- (last_id_rel m m' M). apply rrel_same. intros id _. apply (fold_rel strel R _ _ l l' L); [|split; [reflexivity|exact S]].
  intros a b x y AB X. apply step_rel; assumption.
Qed.

Record brel (b b' : bcol) : Prop := mkBrel {
  br_status : b_status b = b_status b'; br_ints : b_ints b = b_ints b'; br_nb : b_nb b = b_nb b'; br_buffer : Rs (b_buffer b) (b_buffer b');
  br_map : Ks (b_map b) (b_map b'); br_maxs : Rs (b_maxs b) (b_maxs b'); br_mins : Rs (b_mins b) (b_mins b') }.
Lemma max_int_rel b b' : brel b b' -> b_max_int b = b_max_int b'.
Proof. intros H. unfold b_max_int. rewrite (zlen_rel _ _ _ (br_maxs _ _ H)). reflexivity. Qed.
Lemma add_bucketized_rel l l' b b' : Rs l l' -> brel b b' -> rrel brel (add_bucketized l b) (add_bucketized l' b').
Proof using Rlt Rnan.
  intros L H. unfold add_bucketized. rewrite <- (max_int_rel b b' H), <- (br_ints _ _ H), <- (br_nb _ _ H).
  destruct (b_max_int b <=? kMaxUInt8); [|destruct (b_max_int b <=? kMaxUInt16)];
    (apply (rrel_bind _ _ _ _ _ _ (helper_rel _ _ _ _ _ _ _ _ L (br_map _ _ H) (br_mins _ _ H))); intros [col mins] [col' mins'] [E S]; cbn in E, S; subst col';
     constructor; cbn; try reflexivity; try exact S; apply H).
Qed.
Lemma limits_rel nb l l' : Rs l l' -> rrel Rs (bucket_limits nb l) (bucket_limits nb l').
Proof using Rlt Rnan Rmissing Rmax.
  intros L. unfold bucket_limits. rewrite <- (zlen_rel _ _ _ L). destruct (u64 nb =? 0); [exact I|].
  pose proof (take_heavy_rel (bucket_capacity (zlen l) nb) _ _ (histogram_rel l l' L) [fnan] [fnan] (zlen l) (Forall2_cons _ _ Rmissing (Forall2_nil _))) as T. cbn zeta in T.
  destruct (take_heavy (bucket_capacity (zlen l) nb) (histogram l) [fnan] (zlen l)) as [[m lo] h], (take_heavy (bucket_capacity (zlen l) nb) (histogram l') [fnan] (zlen l)) as [[m' lo'] h'].
  cbn [fst snd] in T. destruct T as (M & E & H). subst lo'. rewrite <- (zlen_rel _ _ _ M). destruct (u64 (u64 nb - zlen m) =? 0); [exact I|]. cbn [rrel].
  apply Forall2_app; [|constructor; [exact Rmax|constructor]].
  assert (B : Rs (uniform_binning h (u32 (Z.max 1 (u64 (int32 lo) / u64 (u64 nb - zlen m)))) 0 fnan m) (uniform_binning h' (u32 (Z.max 1 (u64 (int32 lo) / u64 (u64 nb - zlen m)))) 0 fnan m'))
    by (apply binning_rel; assumption).
  destruct B as [|a a' t t' A B]; [constructor|]. constructor; [exact A|apply sort_rel; exact B].
Qed.
Lemma build_rel b b' : brel b b' -> rrel brel (build_buckets b) (build_buckets b').
Proof using Rlt Rnan Rmissing Rmax.
  intros H. unfold build_buckets. rewrite <- (br_status _ _ H), <- (br_ints _ _ H), <- (br_nb _ _ H). destruct (is_ok (b_status b)); [|exact H].
  destruct (i_final (b_ints b)); [constructor; cbn; try reflexivity; apply H|].
  apply (rrel_bind _ _ _ _ _ _ (limits_rel _ _ _ (br_buffer _ _ H))). intros m m' M.
  assert (C : brel (mkB (b_status b) (b_ints b) (b_nb b) (b_buffer b) (build_map (tl m) 1 (b_map b)) m m)
                   (mkB (b_status b) (b_ints b) (b_nb b) (b_buffer b') (build_map (tl m') 1 (b_map b')) m' m')).
  { constructor; cbn; try reflexivity; try exact M; [apply H|]. apply build_map_rel; [|apply H]. destruct M; [constructor|assumption]. }
  apply (rrel_bind _ _ _ _ _ _ (add_bucketized_rel _ _ _ _ (br_buffer _ _ H) C)). intros d d' D. constructor; cbn; try apply D. constructor.
Qed.
Lemma b_add_rel l l' b b' : Rs l l' -> brel b b' -> rrel brel (b_add l b) (b_add l' b').
Proof using Rlt Rnan Rmissing Rmax.
  intros L H. unfold b_add. rewrite <- (br_status _ _ H), <- (br_ints _ _ H), <- (br_nb _ _ H). destruct (is_ok (b_status b)); [|exact H].
  destruct (i_final (b_ints b)); [constructor; cbn; try reflexivity; apply H|]. rewrite <- (zlen_rel _ _ _ (br_maxs _ _ H)).
  destruct (zlen (b_maxs b) =? 0); [|apply add_bucketized_rel; assumption].
  assert (B : Rs (b_buffer b ++ l) (b_buffer b' ++ l')) by (apply Forall2_app; [apply H|exact L]). rewrite <- (zlen_rel _ _ _ B).
  destruct ((100 * b_nb b <? -2147483648) || (2147483647 <? 100 * b_nb b)); [exact I|].
  assert (C : brel (mkB (b_status b) (b_ints b) (b_nb b) (b_buffer b ++ l) (b_map b) (b_maxs b) (b_mins b))
                   (mkB (b_status b) (b_ints b) (b_nb b) (b_buffer b' ++ l') (b_map b') (b_maxs b') (b_mins b'))) by (constructor; cbn; try reflexivity; try exact B; apply H).
  destruct (u64 (100 * b_nb b) <? zlen (b_buffer b ++ l)); [apply build_rel; exact C|exact C].
Qed.
Lemma finalize_rel b b' : brel b b' -> rrel brel (b_finalize b) (b_finalize b').
Proof using Rlt Rnan Rmissing Rmax.
  intros H. unfold b_finalize. rewrite <- (br_status _ _ H), <- (br_ints _ _ H), <- (br_nb _ _ H). destruct (is_ok (b_status b)); [|exact H].
  destruct (i_final (b_ints b)); [constructor; cbn; try reflexivity; apply H|]. rewrite <- (zlen_rel _ _ _ (br_maxs _ _ H)).
  assert (C : rrel brel (if zlen (b_maxs b) =? 0 then build_buckets b else Ret b) (if zlen (b_maxs b) =? 0 then build_buckets b' else Ret b')).
  { destruct (zlen (b_maxs b) =? 0); [apply build_rel; exact H|exact H]. }
  apply (rrel_bind _ _ _ _ _ _ C). intros d d' D. rewrite <- (br_status _ _ D), <- (br_ints _ _ D), <- (br_nb _ _ D). destruct (is_ok (b_status d)); [|exact D].
  constructor; cbn; try reflexivity; try apply D. constructor.
Qed.
Lemma load_brel nb blocks blocks' : Forall2 Rs blocks blocks' -> rrel brel (b_load nb blocks) (b_load nb blocks').
Proof using Rlt Rnan Rmissing Rmax.
  intros F. unfold b_load.
  assert (I0 : brel (b_init nb) (b_init nb)) by (constructor; cbn; try reflexivity; constructor).
  apply (rrel_bind brel brel); [|intros a b; apply finalize_rel].
  apply (fold_rel brel Rs _ _ blocks blocks' F); [|exact I0]. intros a b x y AB X. apply b_add_rel; assumption.
Qed.
End Rel.

(** From lists of pairs to the relation *)
Lemma same_order_load nb (blocks : list (list (f32 * f32))) : same_order (concat blocks) ->
  rrel (brel (fun x y => In (x, y) ((fnan, fnan) :: (flt_max, flt_max) :: concat blocks))) (b_load nb (map (map fst) blocks)) (b_load nb (map (map snd) blocks)).
Proof.
  intros [Sn So]. assert (Nf : forall x, fltb fnan x = false) by (intros []; reflexivity). assert (Nf' : forall x, fltb x fnan = false) by (intros [? |?| |? ? ?]; reflexivity).
  apply load_brel.
  - intros x x' y y' [[= <- <-]|X] [[= <- <-]|Y]; rewrite ?Nf, ?Nf'; try reflexivity. exact (So (x, x') (y, y') X Y).
  - intros x x' [[= <- <-]|[[= <- <-]|X]]; try reflexivity. exact (Sn (x, x') X).
  - left. reflexivity.
  - right. left. reflexivity.
  - assert (K : forall p, In p (concat blocks) -> In (fst p, snd p) ((fnan, fnan) :: (flt_max, flt_max) :: concat blocks)) by (intros [x y] H; right; right; exact H).
    revert K. clear Sn So Nf Nf'. generalize ((fnan, fnan) :: (flt_max, flt_max) :: concat blocks). intros all K.
    induction blocks as [|b l IH]; cbn [map]; constructor.
    + assert (K1 : forall p, In p b -> In (fst p, snd p) all) by (intros p Hp; apply K; cbn; apply in_app_iff; left; exact Hp).
      clear -K1. induction b as [|p b IH]; cbn [map]; constructor; [apply K1; left; reflexivity|]. apply IH. intros q Hq. apply K1. right. exact Hq.
    + apply IH. intros p Hp. apply K. cbn. apply in_app_iff. right. exact Hp.
Qed.
