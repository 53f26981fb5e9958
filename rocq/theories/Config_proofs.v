(** Config_proofs.v - properties C50, C52, C53. *)
From Coq Require Import SpecFloat Reals Lra.
From Verif Require Import Base F32 Column DataStore Subsampling Num Forest Eval Config ConfigSpec
  Base_proofs F32_proofs Subsampling_proofs Eval_proofs.
Local Close Scope R_scope.

(** ** CheckConfig *)
Lemma check_config_iff {N : Num} (c : config N) : check_config c = SOk <->
  (0 < cf_num_trees c)%Z /\ (0 < cf_num_leaves c)%Z /\
  fleb (cf_example_rate c) f32_zero = false /\ fltb f32_one (cf_example_rate c) = false /\
  fleb (cf_feature_rate c) f32_zero = false /\ fltb f32_one (cf_feature_rate c) = false.
Proof.
  unfold check_config. destruct (Z.leb_spec (cf_num_trees c) 0); [split; [discriminate|lia]|].
  destruct (Z.leb_spec (cf_num_leaves c) 0); [split; [discriminate|lia]|].
  destruct (fleb (cf_example_rate c) f32_zero); cbn [orb]; [split; [discriminate|intuition discriminate]|].
  destruct (fltb f32_one (cf_example_rate c)); [split; [discriminate|intuition discriminate]|].
  destruct (fleb (cf_feature_rate c) f32_zero); cbn [orb]; [split; [discriminate|intuition discriminate]|].
  destruct (fltb f32_one (cf_feature_rate c)); [split; [discriminate|intuition discriminate]|].
  intuition.
Qed.

(** ** GetTestPoints *)
Lemma points_loop_spec interval : (0 < interval)%Z -> forall fuel point acc, (point <= Z.of_nat fuel)%Z ->
  forall k, (0 <= k)%Z ->
  exists front, points_loop fuel interval point acc = front ++ acc /\
    (forall p, In p front <-> (0 < p <= point)%Z /\ ((point - p) mod interval = 0)%Z) /\
    StronglySorted Z.lt front /\
    (forall i a b, nth_error front i = Some a -> nth_error front (S i) = Some b -> (b - a = interval)%Z) /\
    ((0 < point)%Z -> exists rest, front = rest ++ [point]) /\
    (forall a, nth_error front 0 = Some a -> (a <= interval)%Z).
Proof.
  intros I fuel. induction fuel as [|fuel IH]; intros point acc L k Hk; cbn [points_loop].
  - exists []. split; [reflexivity|]. split; [intros p; cbn; lia|]. split; [constructor|].
    split; [intros i a b E; destruct i; discriminate|]. split; [lia|discriminate].
  - destruct (Z.ltb_spec 0 point) as [P|P].
    + destruct (IH (point - interval)%Z (point :: acc) ltac:(lia) k Hk) as (front & E & In1 & So & St & La & Fi).
      exists (front ++ [point]). split; [rewrite E, <- app_assoc; reflexivity|].
      split; [|split; [|split; [|split]]].
      * intros p. rewrite in_app_iff, In1. cbn [In]. split.
        -- intros [[R M]|[<-|[]]].
           ++ split; [lia|]. replace (point - p)%Z with ((point - interval - p) + 1 * interval)%Z by lia.
              rewrite Z.mod_add by lia. exact M.
           ++ split; [lia|]. rewrite Z.sub_diag. apply Z.mod_0_l. lia.
        -- intros [R M]. destruct (Z.eq_dec p point) as [->|Ne]; [auto|]. left.
           assert (Q : (point - p = interval * ((point - p) / interval))%Z) by (apply Z_div_exact_full_2; [lia|exact M]).
           assert ((0 < (point - p) / interval)%Z) by nia.
           split; [nia|]. replace (point - interval - p)%Z with ((point - p) + (-1) * interval)%Z by lia.
           rewrite Z.mod_add by lia. exact M.
      * assert (Bd : forall p, In p front -> (p < point)%Z) by (intros p X; apply In1 in X; lia).
        clear - So Bd. induction So as [|a l So IH F]; cbn [app]; [repeat constructor|].
        constructor; [apply IH; intros p X; apply Bd; right; exact X|].
        apply Forall_app. split; [exact F|]. repeat constructor. apply Bd. left. reflexivity.
      * intros i a b Ea Eb. destruct (Nat.lt_ge_cases (S i) (List.length front)) as [Li|Li].
        -- rewrite nth_error_app1 in Ea, Eb by lia. exact (St i a b Ea Eb).
        -- rewrite nth_error_app2 in Eb by lia. destruct (S i - List.length front) as [|d] eqn:D; [|destruct d; discriminate].
           cbn in Eb. injection Eb as <-. rewrite nth_error_app1 in Ea by lia.
           destruct (Z.lt_ge_cases 0 (point - interval)) as [Q|Q].
           ++ destruct (La Q) as [rest Er]. subst front. rewrite app_length in Li, D. cbn [List.length] in Li, D.
              rewrite nth_error_app2 in Ea by lia. replace (i - List.length rest) with 0 in Ea by lia. injection Ea as <-. lia.
           ++ exfalso. assert (X : In a front) by (eapply nth_error_In; exact Ea). apply In1 in X. lia.
      * intros _. exists front. reflexivity.
      * intros a Ea. destruct front as [|f0 front].
        -- cbn in Ea. injection Ea as <-. destruct (Z.lt_ge_cases 0 (point - interval)) as [Q|Q]; [|lia].
           destruct (La Q) as [rest Er]. destruct rest; discriminate.
        -- cbn in Ea. apply Fi. exact Ea.
    + exists []. split; [reflexivity|]. split; [intros p; cbn; lia|]. split; [constructor|].
      split; [intros i a b E; destruct i; discriminate|]. split; [lia|discriminate].
Qed.

Lemma test_points_spec {N : Num} (c : config N) size : (0 < cf_eval_interval c)%Z ->
  let l := test_points c size in
  (forall p, In p l <-> (0 < p <= size)%Z /\ ((size - p) mod cf_eval_interval c = 0)%Z) /\
  StronglySorted Z.lt l /\
  (forall i a b, nth_error l i = Some a -> nth_error l (S i) = Some b -> (b - a = cf_eval_interval c)%Z) /\
  ((0 < size)%Z -> exists rest, l = rest ++ [size]) /\
  (forall a, nth_error l 0 = Some a -> (a <= cf_eval_interval c)%Z).
Proof.
  intros I. cbn zeta. unfold test_points. rewrite (proj2 (Z.ltb_lt _ _) I).
  destruct (points_loop_spec _ I (Z.to_nat size) size [] ltac:(lia) 0%Z ltac:(lia)) as (front & E & R).
  rewrite E, app_nil_r. exact R.
Qed.
Lemma test_points_default {N : Num} (c : config N) size : (cf_eval_interval c <= 0)%Z -> test_points c size = [size].
Proof. intros I. unfold test_points. rewrite (proj2 (Z.ltb_ge _ _) I). reflexivity. Qed.

(** ** Feature importance *)
Section Imp.
Context {N : Num}.

Definition madd (m : list (str * N)) (p : str * N) : list (str * N) := map_add (fst p) (snd p) m.

Lemma importance_tree_gains (t : tree N) : forall m, importance_tree t m = fold_left madd (node_gains t) m.
Proof.
  induction t as [|s sp l IHl r IHr]; intros m; [reflexivity|]. cbn [importance_tree node_gains].
  destruct l as [|ls lsp ll lr]; [reflexivity|]. cbn [present]. cbn [fold_left]. rewrite fold_left_app, <- IHl, <- IHr. reflexivity.
Qed.
Lemma importance_map_gains (f : forest N) : importance_map f = fold_left madd (forest_gains f) [].
Proof.
  unfold importance_map, forest_gains. generalize (@nil (str * N)). induction f as [|t f IH]; intros m; [reflexivity|].
  cbn [fold_left flat_map]. rewrite IH, fold_left_app, importance_tree_gains. reflexivity.
Qed.

Definition keys_ok (m : list (str * N)) (gs : list (str * N)) : Prop :=
  NoDup (map fst m) /\ forall n x, In (n, x) m <-> In n (map fst gs) /\ x = fold_left nadd (map snd (filter (fun p => str_eqb n (fst p)) gs)) n0.

Lemma map_add_spec k (v : N) (m : list (str * N)) : NoDup (map fst m) ->
  NoDup (map fst (map_add k v m)) /\ (forall n, In n (map fst (map_add k v m)) <-> n = k \/ In n (map fst m)) /\
  (forall n x, In (n, x) (map_add k v m) <->
     (n <> k /\ In (n, x) m) \/ (n = k /\ ((exists y, In (k, y) m /\ x = nadd y v) \/ (~ In k (map fst m) /\ x = nadd n0 v)))).
Proof.
  induction m as [|[k' y] m IH]; cbn [map_add map fst]; intros ND.
  - split; [repeat constructor; auto|]. split; [cbn; intuition congruence|].
    intros n x. cbn. split.
    + intros [E|[]]. injection E as <- <-. right. split; [reflexivity|]. right. auto.
    + intros [[_ []]|[-> [(y & [] & _)|[_ ->]]]]. left. reflexivity.
  - apply NoDup_cons_iff in ND. destruct ND as [Nk ND]. destruct (str_eqb_spec k k') as [<-|Ne].
    + cbn [map fst]. split; [constructor; assumption|]. split; [cbn; intuition congruence|].
      intros n x. cbn [In]. split.
      * intros [E|I].
        -- injection E as <- <-. right. split; [reflexivity|]. left. exists y. auto.
        -- left. split; [|auto]. intros ->. apply Nk. apply (in_map fst) in I. exact I.
      * intros [[Nn [E|I]]|[-> [(z & [E|I] & ->)|[Q _]]]].
        -- injection E as <- _. congruence.
        -- auto.
        -- injection E as ->. auto.
        -- exfalso. apply Nk. apply (in_map fst) in I. exact I.
        -- exfalso. apply Q. left. reflexivity.
    + destruct (IH ND) as (I1 & I2 & I3). cbn [map fst]. split; [|split].
      * constructor; [|exact I1]. rewrite I2. intros [->|I]; [congruence|contradiction].
      * intros n. cbn [In]. rewrite I2. tauto.
      * intros n x. cbn [In]. rewrite I3. split.
        -- intros [E|[[A B]|[-> [(z & Z & ->)|[Q ->]]]]].
           ++ injection E as <- <-. left. split; [congruence|auto].
           ++ auto.
           ++ right. split; [reflexivity|]. left. eauto.
           ++ right. split; [reflexivity|]. right. split; [|reflexivity]. intros [->|X]; [congruence|contradiction].
        -- intros [[A [E|B]]|[-> [(z & [E|Z] & ->)|[Q ->]]]].
           ++ auto.
           ++ auto.
           ++ injection E as -> _. congruence.
           ++ right. right. split; [reflexivity|]. left. eauto.
           ++ right. right. split; [reflexivity|]. right. split; [|reflexivity]. intros X. apply Q. right. exact X.
Qed.

Lemma filter_none {A} (g : A -> bool) l : (forall p, In p l -> g p = false) -> filter g l = [].
Proof.
  induction l as [|a l IH]; intros H; [reflexivity|]. cbn. rewrite (H a) by (left; reflexivity).
  apply IH. intros p I. apply H. right. exact I.
Qed.

Lemma fold_madd (gs : list (str * N)) : forall m done, keys_ok m done -> keys_ok (fold_left madd gs m) (done ++ gs).
Proof.
  induction gs as [|[k v] gs IH]; intros m done K; [rewrite app_nil_r; exact K|].
  cbn [fold_left]. replace (done ++ (k, v) :: gs) with ((done ++ [(k, v)]) ++ gs) by (rewrite <- app_assoc; reflexivity).
  apply IH. destruct K as [ND K]. destruct (map_add_spec k v m ND) as (S1 & S2 & S3).
  split; [exact S1|]. intros n x. unfold madd. cbn [fst snd]. rewrite S3. rewrite map_app, filter_app, map_app, fold_left_app. cbn [map fst].
  rewrite in_app_iff. cbn [In filter fst]. destruct (str_eqb_spec n k) as [->|Ne].
  - cbn [map fold_left snd]. split.
    + intros [[X _]|[_ [(y & I & ->)|[Q ->]]]]; [congruence| |].
      * apply K in I. destruct I as [I ->]. auto.
      * split; [auto|]. rewrite filter_none; [reflexivity|]. intros p I. destruct (str_eqb_spec k (fst p)) as [E|]; [|reflexivity].
        exfalso. apply Q. apply (in_map fst) in I. rewrite <- E in I.
        exact (in_map fst m (k, _) (proj2 (K k _) (conj I eq_refl))).
    + intros [_ ->]. right. split; [reflexivity|].
      destruct (in_dec str_eq_dec k (map fst done)) as [I|NI].
      * left. eexists. split; [apply K; split; [exact I|reflexivity]|reflexivity].
      * right. split.
        -- intros I. apply in_map_iff in I. destruct I as ([k' x'] & E & I). cbn in E. subst k'. apply K in I. tauto.
        -- rewrite filter_none; [reflexivity|]. intros p I. destruct (str_eqb_spec k (fst p)) as [E|]; [|reflexivity].
           exfalso. apply NI. rewrite E. apply in_map, I.
  - cbn [map fold_left]. split.
    + intros [[_ I]|[X _]]; [|congruence]. apply K in I. tauto.
    + intros [[I|[X|[]]] ->]; [|congruence]. left. split; [exact Ne|]. apply K. auto.
Qed.

Lemma importance_map_spec (f : forest N) :
  NoDup (map fst (importance_map f)) /\
  forall n x, In (n, x) (importance_map f) <-> In n (map fst (forest_gains f)) /\ x = total_gain f n.
Proof.
  rewrite importance_map_gains. apply (fold_madd (forest_gains f) [] []).
  split; [constructor|]. intros n x. cbn. tauto.
Qed.

Lemma importance_ok (f : forest N) out : feature_importance f out ->
  NoDup (map fst out) /\
  exists top, (out <> [] -> exists n, In n (map fst (forest_gains f)) /\ top = total_gain f n /\ hd_error (map fst out) = Some n) /\
    (forall n q, In (n, q) out <-> In n (map fst (forest_gains f)) /\ q = ndiv (total_gain f n) top) /\
    (forall i j a b, i < j -> nth_error out i = Some a -> nth_error out j = Some b ->
       nltb (total_gain f (fst a)) (total_gain f (fst b)) = false).
Proof.
  intros (sorted & (P & So) & ->). destruct (importance_map_spec f) as [ND K].
  assert (NDs : NoDup (map fst sorted)) by (eapply Permutation_NoDup; [apply Permutation_map, P|exact ND]).
  assert (Ks : forall n x, In (n, x) sorted <-> In n (map fst (forest_gains f)) /\ x = total_gain f n).
  { intros n x. rewrite <- K. split; apply Permutation_in; [symmetry|]; exact P. }
  destruct sorted as [|[n1 top] sorted]; [|set (srt := (n1, top) :: sorted) in *].
  - split; [constructor|]. exists n0. split; [congruence|]. split; [|intros i j a b _ E; destruct i; discriminate].
    intros n q. cbn. split; [tauto|]. intros [I _]. pose proof (proj2 (Ks n _) (conj I eq_refl)) as X. destruct X.
  - rewrite map_map. cbn [fst]. split; [exact NDs|]. exists top. split; [|split].
    + intros _. exists n1. destruct (proj1 (Ks n1 top)) as [A B]; [left; reflexivity|]. auto.
    + intros n q. rewrite in_map_iff. split.
      * intros ([n' x] & E & I). cbn in E. injection E as <- <-. apply Ks in I. destruct I as [I ->]. auto.
      * intros [I ->]. exists (n, total_gain f n). split; [reflexivity|]. apply Ks. auto.
    + intros i j a b L Ea Eb. rewrite nth_error_map in Ea, Eb.
      destruct (nth_error srt i) as [[na xa]|] eqn:Ia; [|discriminate]. destruct (nth_error srt j) as [[nb xb]|] eqn:Ib; [|discriminate].
      cbn in Ea, Eb. injection Ea as <-. injection Eb as <-. cbn [fst].
      pose proof (So i j _ _ L Ia Ib) as X. cbn [snd] in X.
      apply nth_error_In, Ks in Ia. apply nth_error_In, Ks in Ib. destruct Ia as [_ ->], Ib as [_ ->]. exact X.
Qed.
End Imp.

(** In exact arithmetic: between the totals' ratio, and 1 for the top. *)
Lemma importance_exact (f : forest Exact) out : feature_importance f out ->
  (forall p, In p (forest_gains f) -> (0 < snd p)%R) ->
  (forall n q, In (n, q) out -> (0 < q <= 1)%R) /\
  (forall n q, nth_error out 0 = Some (n, q) -> q = 1%R) /\
  (forall i j a b, i < j -> nth_error out i = Some a -> nth_error out j = Some b -> (snd b <= snd a)%R).
Proof.
  intros F Pos. destruct (importance_ok f out F) as (ND & top & T & K & So).
  assert (Tp : forall n, In n (map fst (forest_gains f)) -> (0 < total_gain f n)%R).
  { intros n I. unfold total_gain.
    set (l := map snd (filter (fun p => str_eqb n (fst p)) (forest_gains f))).
    assert (L : l <> []).
    { apply in_map_iff in I. destruct I as (p & E & I). intros Z.
      assert (X : In (snd p) l); [|rewrite Z in X; destruct X].
      apply in_map. apply filter_In. split; [exact I|]. rewrite E. apply str_eqb_refl. }
    assert (Q : forall x, In x l -> (0 < x)%R).
    { intros x X. apply in_map_iff in X. destruct X as (p & <- & X). apply filter_In in X. apply Pos, X. }
    change (0 < fold_left Rplus l 0)%R. clearbody l. assert (G : forall acc, (0 <= acc)%R -> (0 < fold_left Rplus l acc)%R).
    { destruct l as [|x l]; [congruence|]. clear L. revert x Q. induction l as [|y l IH]; intros x Q acc A; cbn [fold_left].
      - pose proof (Q x (or_introl eq_refl)). lra.
      - pose proof (Q x (or_introl eq_refl)). apply IH; [|lra]. intros z Z. apply Q. right. exact Z. }
    apply G. lra. }
  destruct out as [|[n1 q1] out].
  { split; [intros n q []|]. split; [discriminate|]. intros i j a b _ E. destruct i; discriminate. }
  destruct T as (n & I1 & -> & Hd); [discriminate|]. cbn in Hd. injection Hd as <-.
  pose proof (Tp n1 I1) as P1.
  assert (Le : forall n q, In (n, q) ((n1, q1) :: out) -> (total_gain f n <= total_gain f n1)%R).
  { intros n q [E|I]; [injection E as <- <-; lra|]. apply In_nth_error in I. destruct I as [j J].
    pose proof (So 0 (S j) (n1, q1) (n, q) ltac:(lia) eq_refl J) as X. cbn [fst nltb Exact] in X.
    unfold Rltb in X. destruct (Rlt_dec _ _); [discriminate|]. lra. }
  split; [|split].
  - intros n q I. pose proof (Le n q I) as L. apply K in I. destruct I as [I ->]. pose proof (Tp n I). cbn [ndiv Exact].
    split; [apply Rdiv_lt_0_compat; assumption|]. apply Rmult_le_reg_r with (r := total_gain f n1); [assumption|].
    unfold Rdiv. rewrite Rmult_assoc, Rinv_l by lra. lra.
  - intros n q E. cbn in E. injection E as <- <-. destruct (proj1 (K n1 q1)) as [_ ->]; [left; reflexivity|].
    cbn [ndiv Exact]. unfold Rdiv. apply Rinv_r. lra.
  - intros i j [na qa] [nb qb] L Ea Eb. pose proof (So i j _ _ L Ea Eb) as X. cbn [fst snd nltb Exact] in *.
    unfold Rltb in X. destruct (Rlt_dec _ _) as [|Nl]; [discriminate|].
    apply nth_error_In, K in Ea. apply nth_error_In, K in Eb. destruct Ea as [_ ->], Eb as [_ ->]. cbn [ndiv Exact].
    unfold Rdiv. apply Rmult_le_compat_r; [left; apply Rinv_0_lt_compat, P1|]. lra.
Qed.

(** ** Rates *)
Lemma rate_range r : is_nan r = false ->
  (fleb r f32_zero = false /\ fltb f32_one r = false <-> fltb f32_zero r = true /\ fleb r f32_one = true).
Proof.
  intros H. assert (Z : is_nan f32_zero = false) by reflexivity. assert (O : is_nan f32_one = false) by reflexivity.
  generalize dependent f32_zero. generalize dependent f32_one. intros o O z Z. forder.
Qed.

Lemma nan_rate_empty draw pos n : fst (uniform_subsample draw pos n (to_f64 fnan)) = [].
Proof.
  destruct (subsample_spec draw pos n (to_f64 fnan)) as (_ & I & _).
  destruct (fst (uniform_subsample draw pos n (to_f64 fnan))) as [|k l] eqn:E; [reflexivity|].
  destruct (proj1 (I k) (or_introl eq_refl)) as [_ X]. cbn in X. destruct (draw (pos + k)); discriminate.
Qed.
