(** Options_proofs.v - reading configurations (property C97). *)
From Coq Require Import SpecFloat Reals Lia Lra ZArith.
From Verif Require Import Base Base_proofs F32 Column DataStore Num Strings Tsv Flatfiles Forest Config Score Eval Tree Train Loss Pairwise Driver DriverSpec Driver_proofs Stopwatch Print PrintSpec Print_proofs SplitSpec StopwatchSpec AccuracySpec
  Draw Saved SavedSpec TrainedSpec Saved_proofs Trained_proofs JsonText JsonSpec JsonText_proofs JsonSound_proofs Options OptionsSpec Loaded_proofs.
Local Close Scope R_scope.

(** ** Names *)
Lemma lit_same a b : lit a = lit b -> a = b.
Proof. intros H. rewrite <- (string_of_list_ascii_of_string a), <- (string_of_list_ascii_of_string b). unfold lit in H. rewrite H. reflexivity. Qed.
Lemma both_camel : both_names = map (fun n => (lit n, camel_case false (lit n))) option_names.
Proof. vm_compute. reflexivity. Qed.
Lemma lit_names : map fst both_names = map lit option_names.
Proof. vm_compute. reflexivity. Qed.
Lemma spells_iff name k : In name option_names -> spells (lit name) k <-> In k (spellings name).
Proof.
  intros I. unfold spells, spellings. rewrite lit_names, both_camel. split.
  - intros [H|[-> _]]; [|left; reflexivity]. apply in_map_iff in H. destruct H as (n & E & _). injection E as E <-. apply lit_same in E. subst n. right. left. reflexivity.
  - intros [<-|[<-|[]]]; [right; split; [reflexivity|apply in_map, I]|left; apply in_map_iff; exists name; auto].
Qed.
Lemma spells_name name k : spells name k -> exists n, In n option_names /\ name = lit n.
Proof.
  unfold spells. rewrite lit_names, both_camel. intros [H|[_ H]]; apply in_map_iff in H; [destruct H as (n & E & I); injection E as <- _|destruct H as (n & <- & I)]; exists n; auto.
Qed.
Lemma existsb_in k names : existsb (str_eqb k) names = true <-> In k names.
Proof.
  rewrite existsb_exists. split; [intros (x & I & E); destruct (str_eqb_spec k x) as [<-|]; [exact I|discriminate]|intros I; exists k; split; [exact I|apply str_eqb_refl]].
Qed.
Lemma known_iff l : known (concat (map spellings option_names)) l = true <-> forall k v, In (k, v) l -> exists name, spells name k.
Proof.
  unfold known. rewrite forallb_forall. split.
  - intros H k v I. specialize (H _ I). cbn [fst] in H. apply existsb_in, in_concat in H. destruct H as (ks & Hk & Ik). apply in_map_iff in Hk. destruct Hk as (n & <- & In'). exists (lit n). apply spells_iff; assumption.
  - intros H [k v] I. cbn [fst]. apply existsb_in, in_concat. destruct (H k v I) as (name & S). destruct (spells_name name k S) as (n & In' & ->). exists (spellings n). split; [apply in_map, In'|apply spells_iff; assumption].
Qed.

(** ** Values *)
Lemma option_iff {A} (convert : json -> option A) means d l name a : In name option_names -> named_once l -> (forall j a, In j (map snd l) -> convert j = Some a <-> means j a) ->
  option_value convert d name l = Some a <-> chosen means d l name a.
Proof.
  intros I. unfold option_value, chosen. induction l as [|[k v] l IH]; intros O C.
  - cbn [field obind otherwise]. split; [intros H; injection H as <-; right; split; [intros ? ? []|reflexivity]|]. intros [(? & ? & [] & _)|[_ ->]]. reflexivity.
  - cbn [field]. destruct (existsb (str_eqb k) (spellings name)) eqn:E.
    + apply existsb_in, spells_iff in E; [|exact I]. split.
      * intros H. destruct (convert v) as [b|] eqn:V; [|discriminate]. injection H as <-. left. exists k, v. split; [left; reflexivity|]. split; [exact E|]. apply C; [left; reflexivity|exact V].
      * intros [(k' & v' & [H|H] & S & M)|[H _]]; [| |destruct (H k v (or_introl eq_refl) E)].
        -- injection H as <- <-. apply C in M; [|left; reflexivity]. rewrite M. reflexivity.
        -- destruct (O [] l k v k' v' (lit name) eq_refl H E S).
    + assert (~ spells (lit name) k) as Nk by (intros S; apply spells_iff, existsb_in in S; [congruence|exact I]).
      assert (named_once l) as O' by (intros l1 l2 k1 v1 k2 v2 n -> H; apply (O ((k, v) :: l1) l2 k1 v1 k2 v2 n eq_refl); right; exact H).
      rewrite (IH O') by (intros j b Hj; apply C; right; exact Hj). split.
      * intros [(k' & v' & H & R)|[H ->]]; [left; exists k', v'; split; [right; exact H|exact R]|right; split; [|reflexivity]]. intros k' v' [H'|H']; [injection H' as <- <-; exact Nk|exact (H k' v' H')].
      * intros [(k' & v' & [H|H] & S & M)|[H ->]]; [injection H as <- <-; contradiction|left; exists k', v'; auto|right; split; [|reflexivity]]. intros k' v' H'. apply (H k' v'). right. exact H'.
Qed.
Lemma power_neg e : (e < 0)%Z -> (powerRZ 2 e * IZR (2 ^ (- e)) = 1)%R.
Proof.
  intros H. destruct e as [|p|p]; try lia. cbn [powerRZ Z.opp]. rewrite <- (positive_nat_Z p), <- pow_IZR. apply Rinv_l, pow_nonzero. lra.
Qed.
Lemma power_pos e : (0 <= e)%Z -> powerRZ 2 e = IZR (2 ^ e).
Proof. intros H. destruct e as [|p|p]; [reflexivity| |lia]. cbn [powerRZ]. rewrite <- (positive_nat_Z p), <- pow_IZR. reflexivity. Qed.
Lemma whole_iff x z : whole x = Some z <-> finite_float x = true /\ real_of x = IZR z.
Proof.
  destruct x as [s|s| |s m e]; cbn [whole finite_float real_of].
  - split; [intros H; injection H as <-; auto|]. intros [_ H]. apply eq_IZR in H. subst z. reflexivity.
  - split; [discriminate|intros [H _]; discriminate].
  - split; [discriminate|intros [H _]; discriminate].
  - destruct (Z.leb_spec 0 e) as [L|L].
    + rewrite power_pos, <- mult_IZR by exact L. set (q := (2 ^ e)%Z). split; [intros H; injection H as <-; split; [reflexivity|f_equal; destruct s; cbn [cond_Zopp]; lia]|].
      intros [_ H]. apply eq_IZR in H. f_equal. destruct s; cbn [cond_Zopp] in H; lia.
    + assert (0 < 2 ^ (- e))%Z as Q by (apply Z.pow_pos_nonneg; lia). pose proof (power_neg e L) as P. set (q := (2 ^ (- e))%Z) in *.
      assert (forall y, (IZR (cond_Zopp s (Zpos m)) * powerRZ 2 e = IZR y)%R <-> cond_Zopp s (Zpos m) = (y * q)%Z) as K.
      { intros y. split; intros H.
        - apply eq_IZR. rewrite mult_IZR, <- H, Rmult_assoc, P, Rmult_1_r. reflexivity.
        - rewrite H, mult_IZR, Rmult_assoc, (Rmult_comm (IZR q)), P, Rmult_1_r. reflexivity. }
      rewrite K. destruct (Z.eqb_spec (Zpos m / q * q) (Zpos m)) as [D|D]; split.
      * intros H. injection H as <-. split; [reflexivity|]. destruct s; cbn [cond_Zopp]; lia.
      * intros [_ H]. f_equal. destruct s; cbn [cond_Zopp] in H; [apply Z.opp_inj; rewrite Z.opp_involutive|]; apply (Z.mul_cancel_r _ _ q); lia.
      * discriminate.
      * intros [_ H]. exfalso. apply D. assert (exists y, Zpos m = y * q)%Z as (y & Y) by (destruct s; cbn [cond_Zopp] in H; [exists (- z)%Z; lia|exists z; exact H]).
        rewrite Y, Z.div_mul by lia. reflexivity.
Qed.
Lemma int_means j z : json_int j = Some z <-> means_int j z.
Proof.
  unfold means_int. destruct j as [|x| | |]; cbn [json_int]; try (split; [discriminate|intros (? & H & _); discriminate]). split.
  - destruct (whole x) as [z'|] eqn:W; [|discriminate]. cbn [obind]. destruct ((-2147483648 <=? z') && (z' <=? 2147483647))%Z eqn:B; [|discriminate]. intros H. injection H as <-. apply whole_iff in W. destruct W as [W1 W2]. exists x. split; [reflexivity|]. split; [exact W1|]. split; [exact W2|lia].
  - intros (x' & E & F & R & B). injection E as <-. rewrite (proj2 (whole_iff x z) (conj F R)). cbn [obind]. destruct ((-2147483648 <=? z) && (z <=? 2147483647))%Z eqn:B'; [reflexivity|lia].
Qed.
Lemma bool_means j b : json_bool j = Some b <-> means_bool j b.
Proof. unfold means_bool. destruct j; cbn; split; intros H; try discriminate; injection H as <-; reflexivity. Qed.
Lemma text_means j s : json_string j = Some s <-> means_text j s.
Proof. unfold means_text. destruct j; cbn; split; intros H; try discriminate; injection H as <-; reflexivity. Qed.
Lemma elements_strings l : forall r, elements json_string l = Some r <-> l = map JStr r.
Proof.
  induction l as [|j l IH]; intros r; cbn [elements].
  - split; [intros H; injection H as <-; reflexivity|destruct r; [reflexivity|discriminate]].
  - destruct j; cbn [json_string obind]; try (split; [discriminate|destruct r; discriminate]). destruct (elements json_string l) as [t|]; cbn [obind].
    + split; [intros H; injection H as <-; cbn [map]; f_equal; apply IH; reflexivity|]. destruct r as [|s' r]; [discriminate|]. cbn [map]. intros H. injection H as -> H. apply IH in H. injection H as ->. reflexivity.
    + split; [discriminate|]. destruct r as [|s' r]; [discriminate|]. cbn [map]. intros H. injection H as -> H. apply IH in H. discriminate.
Qed.
Lemma texts_means j l : json_list json_string j = Some l <-> means_texts j l.
Proof.
  unfold means_texts. destruct j as [| | |js|]; cbn [json_list]; try (split; discriminate). rewrite elements_strings. split; [intros ->; reflexivity|intros H; injection H as <-; reflexivity].
Qed.
Lemma double_means j x : zero_free json_double j = Some x <-> means_double j x.
Proof.
  split.
  - unfold zero_free. destruct j as [|y|s| |]; cbn [json_double obind]; try discriminate.
    + intros H. injection H as <-. destruct y; cbn [plain_zero]; constructor; discriminate.
    + destruct (str_eqb_spec s (lit "NaN")) as [->|_]; [intros H; injection H as <-; constructor|]. destruct (str_eqb_spec s (lit "Infinity")) as [->|_]; [intros H; injection H as <-; constructor|].
      destruct (str_eqb_spec s (lit "-Infinity")) as [->|_]; [intros H; injection H as <-; constructor|discriminate].
  - intros [s|y Ny| | |]; try reflexivity. cbn. destruct y; try reflexivity. destruct (Ny s eq_refl).
Qed.
Lemma float_means j y : doubles j -> zero_free json_float j = Some y <-> means_float j y.
Proof.
  intros D. unfold means_float. assert (forall x, plain_zero (to_f32 (plain_zero x)) = plain_zero (to_f32 x)) as Z by (intros [s|s| |s m e]; reflexivity).
  assert (forall x, json_double j = Some x -> beyond x = false <-> (finite_float (plain_zero x) = true -> (Rabs (real_of (plain_zero x)) <= max_float)%R)) as B.
  { intros x J. pose proof (double_in j x D J) as V. destruct x as [s|s| |s m e]; cbn [plain_zero]; try (split; [intros _ H; discriminate H|reflexivity]).
    - split; [intros _ _; cbn [real_of]; rewrite Rabs_R0; unfold max_float; apply IZR_le; lia|reflexivity].
    - pose proof (beyond_spec (S754_finite s m e) (conj V I)) as K. destruct (beyond (S754_finite s m e)).
      + split; [discriminate|]. intros H. specialize (H eq_refl). apply proj1 in K. specialize (K eq_refl). lra.
      + split; [|reflexivity]. intros _ _. apply Rnot_lt_le. intros H. apply K in H. discriminate. }
  split.
  - unfold zero_free, json_float. destruct (json_double j) as [x|] eqn:J; [|discriminate]. cbn [obind]. destruct (beyond x) eqn:Be; [discriminate|]. cbn [obind]. intros H. injection H as <-.
    exists (plain_zero x). split; [apply double_means; unfold zero_free; rewrite J; reflexivity|]. split; [apply (B x eq_refl), Be|]. rewrite <- Z. destruct (to_f32 (plain_zero x)) as [s|s| |s m e]; cbn [plain_zero]; split; try discriminate; [right; eauto|left; reflexivity..].
  - intros (x & M & F & S & Ny). apply double_means in M. unfold zero_free in M. destruct (json_double j) as [x'|] eqn:J; [|discriminate]. injection M as <-. unfold zero_free, json_float. rewrite J. cbn [obind].
    rewrite (proj2 (B x' eq_refl) F). cbn [obind]. f_equal. rewrite <- Z. destruct S as [<-|(a & b & -> & ->)].
    + destruct (to_f32 (plain_zero x')) as [[]|s| |s m e]; try reflexivity. destruct (Ny eq_refl).
    + cbn [plain_zero]. destruct b; [destruct (Ny eq_refl)|reflexivity].
Qed.
Lemma in_names name : existsb (String.eqb name) option_names = true -> In name option_names.
Proof. intros H. apply existsb_exists in H. destruct H as (n & I & E). apply String.eqb_eq in E. subst n. exact I. Qed.
Section Config.
Context {c_exp c_log : f64 -> f64}.
Notation N := (IEEE c_exp c_log).
Lemma obind_some {A B} (m : option A) (k : A -> option B) b : obind m k = Some b <-> exists a, m = Some a /\ k a = Some b.
Proof. destruct m as [a|]; cbn [obind]; split; [intros H; exists a; auto|intros (a' & E & H); injection E as <-; exact H|discriminate|intros (a' & E & _); discriminate]. Qed.
Lemma config_iff l (c : config N) mf ms : Forall (fun m => doubles (snd m)) l -> named_once l -> config_of (JDict l) = Some (c, (mf, ms)) <-> configures l c mf ms.
Proof.
  intros D O. assert (forall j, In j (map snd l) -> doubles j) as D' by (intros j H; apply in_map_iff in H; destruct H as ([k v] & <- & H); rewrite Forall_forall in D; exact (D _ H)).
  cbn [config_of]. unfold configures. rewrite <- known_iff. destruct (known _ l); [|split; [discriminate|intros [H _]; discriminate]].
  assert (forall name a, In name option_names -> option_value json_int 0%Z name l = Some a <-> chosen means_int 0%Z l name a) as Ki by (intros; apply option_iff; [assumption..|intros; apply int_means]).
  assert (forall name a, In name option_names -> option_value (zero_free json_float) (S754_zero false) name l = Some a <-> chosen means_float zero l name a) as Kf by (intros; apply option_iff; [assumption..|intros; apply float_means; auto]).
  assert (forall name a, In name option_names -> option_value (zero_free json_double) (S754_zero false) name l = Some a <-> chosen means_double zero l name a) as Kd by (intros; apply option_iff; [assumption..|intros; apply double_means]).
  assert (forall name a, In name option_names -> option_value json_bool false name l = Some a <-> chosen means_bool false l name a) as Kb by (intros; apply option_iff; [assumption..|intros; apply bool_means]).
  assert (forall name a, In name option_names -> option_value json_string [] name l = Some a <-> chosen means_text [] l name a) as Kt by (intros; apply option_iff; [assumption..|intros; apply text_means]).
  assert (forall name a, In name option_names -> option_value (json_list json_string) [] name l = Some a <-> chosen means_texts [] l name a) as Kl by (intros; apply option_iff; [assumption..|intros; apply texts_means]).
  clear D D' O. split.
  - intros H. repeat (apply obind_some in H; destruct H as (? & ? & H)). injection H as <- <- <-. split; [reflexivity|].
    cbn [cf_num_trees cf_num_leaves cf_shrinkage cf_min_gain cf_l2_lambda cf_min_hessian cf_example_rate cf_feature_rate cf_eval_interval cf_float_features cf_cat_features cf_weight_column
      cf_target_column cf_binarize_target cf_group_column cf_loss_func cf_pair_rate cf_delta_target cf_dcg_base cf_equal_groups].
    repeat apply conj; first [apply Ki|apply Kf|apply Kd|apply Kb|apply Kt|apply Kl]; first [assumption|apply in_names; reflexivity].
  - intros (_ & H1 & H2 & H3 & H4 & H5 & H6 & H7 & H8 & H9 & H10 & H11 & H12 & H13 & H14 & H15 & H16 & H17 & H18 & H19 & H20 & H21 & H22).
    apply Ki in H1, H2, H9; try (apply in_names; reflexivity). apply Kf in H3, H7, H8, H11, H13; try (apply in_names; reflexivity). apply Kd in H4, H5, H6; try (apply in_names; reflexivity).
    apply Kt in H10, H17, H18, H20; try (apply in_names; reflexivity). apply Kb in H12, H14, H19; try (apply in_names; reflexivity). apply Kl in H15, H16, H21, H22; try (apply in_names; reflexivity).
    rewrite H1, H2, H3, H4, H5, H6, H7, H8, H9, H10, H11, H12, H13, H14, H15, H16, H17, H18, H19, H20, H21, H22. cbn [obind]. destruct c. reflexivity.
Qed.
Lemma read_config_iff text l (c : config N) mf ms : json_document (JDict l) text -> named_once l -> read_config text = Some (c, (mf, ms)) <-> configures l c mf ms.
Proof.
  intros J O. unfold read_config. rewrite (document_read _ _ J). cbn [obind]. apply config_iff; [|exact O]. apply document_read, read_doubles in J. inversion J. assumption.
Qed.
End Config.

(** ** Options that are left out *)
Lemma chosen_default {A} (means : json -> A -> Prop) d l name a : chosen means d l name a -> (forall k v, In (k, v) l -> ~ spells (lit name) k) -> a = d.
Proof. intros [(k & v & I & S & _)|[_ E]] H; [destruct (H k v I S)|exact E]. Qed.
Section Missing.
Context {c_exp c_log : f64 -> f64}.
Notation N := (IEEE c_exp c_log).
Lemma missing_refused l (c : config N) mf ms name : configures l c mf ms -> (forall k v, In (k, v) l -> ~ spells (lit name) k) ->
  In name ["num_trees"; "num_leaves"; "example_sampling_rate"; "feature_sampling_rate"]%string -> check_config c = SErr INVALID_ARGUMENT.
Proof.
  intros (_ & H1 & H2 & _ & _ & _ & _ & H7 & H8 & _) M I. unfold check_config. cbn [In] in I.
  destruct (cf_num_trees c <=? 0)%Z eqn:E1; [reflexivity|]. destruct (cf_num_leaves c <=? 0)%Z eqn:E2; [reflexivity|].
  destruct (fleb (cf_example_rate c) f32_zero || fltb f32_one (cf_example_rate c)) eqn:E3; [reflexivity|].
  destruct I as [<-|[<-|[<-|[<-|[]]]]].
  - rewrite (chosen_default _ _ _ _ _ H1 M) in E1. discriminate.
  - rewrite (chosen_default _ _ _ _ _ H2 M) in E2. discriminate.
  - rewrite (chosen_default _ _ _ _ _ H7 M) in E3. discriminate.
  - rewrite (chosen_default _ _ _ _ _ H8 M). reflexivity.
Qed.
Lemma times_zero (x : f64) : exists y, SFmul 53 1024 x (S754_zero false) = y /\ ((exists b, y = S754_zero b) \/ y = S754_nan).
Proof. destruct x as [[]|[]| |[] m e]; eexists; split; try reflexivity; cbn; eauto. Qed.
Lemma shrunk_nothing (t : tree N) : adds_nothing (apply_shrinkage (nfloat (S754_zero false : f32) : N) t).
Proof.
  induction t as [|s sp l IHl r IHr]; [exact I|]. cbn [apply_shrinkage adds_nothing]. split; [|auto]. destruct (times_zero s) as (y & E & H).
  change (nstore (nmul s (nfloat (S754_zero false : f32))) : f64) with (to_f64 (to_f32 (SFmul 53 1024 s (S754_zero false)))). rewrite E. destruct H as [(b & ->)| ->]; [left; exists b|right]; reflexivity.
Qed.
Lemma cleared_nothing (t : tree N) : adds_nothing t -> adds_nothing (clear_internal t).
Proof. induction t as [|s sp l IHl r IHr]; [trivial|]. cbn [clear_internal adds_nothing]. intros (A & B & C). auto. Qed.
Lemma rounds_nothing v threads top draw srt w features (c : config N) lf r : cf_shrinkage c = S754_zero false -> forall todo i k trees st gd ls pos, Forall adds_nothing trees ->
  rounds v threads top draw srt w features c lf todo i k trees st gd ls pos = Ret r -> Forall adds_nothing (tl (tr_forest r)).
Proof.
  intros Z. induction todo as [|todo IH]; intros i k trees st gd ls pos F; cbn [rounds].
  - intros [= <-]. cbn [tr_forest map tl]. apply Forall_map. revert F. apply Forall_impl. intros t. apply cleared_nothing.
  - destruct (l_round lf ls pos (snd st) gd) as [[[[x gd'] ls'] pos']| |]; try discriminate. cbn [bind]. destruct (nfinite x); [|intros [= <-]; exact F].
    destruct (fit_tree _ _ _ _ _ _ _ _ _) as [[t pos'']| |]; try discriminate. cbn [bind]. destruct (add_tree_scores _ _ _ _ _) as [st'| |]; try discriminate. cbn [bind].
    apply IH. apply Forall_app. split; [exact F|]. constructor; [|constructor]. rewrite Z. apply shrunk_nothing.
Qed.
Lemma missing_shrinkage l (c : config N) mf ms v threads top draw pos srt names w y lf r : configures l c mf ms -> (forall k v, In (k, v) l -> ~ spells (lit "shrinkage") k) ->
  train v threads top draw pos srt names w y lf c None = Ret r -> Forall adds_nothing (tl (tr_forest r)).
Proof.
  intros (_ & _ & _ & H3 & _) M. pose proof (chosen_default _ _ _ _ _ H3 M) as Z. unfold train. destruct (check_config c); [|intros [= <-]; constructor].
  destruct (load_features _ _) as [[|e] features]; [|intros [= <-]; constructor]. destruct (group_column _ _) as [g| |]; try discriminate. cbn [bind]. destruct (l_init _ _ _ _ _) as [[e|ls]| |]; try discriminate; cbn [bind]; [intros [= <-]; constructor|].
  destruct (init_scores v threads) as [st| |]; try discriminate. cbn [bind init_with_base]. apply (rounds_nothing _ _ _ _ _ _ _ _ _ _ Z). constructor.
Qed.
End Missing.

(** ** The package's options *)
Lemma assign_in k v l k' v' : NoDup (map fst l) -> In (k', v') (assign k v l) <-> (k' = k /\ v' = v) \/ (k' <> k /\ In (k', v') l).
Proof.
  induction l as [|[a b] l IH]; cbn [assign map fst]; intros D.
  - cbn [In]. split; [intros [H|[]]; injection H as <- <-; auto|intros [[-> ->]|[_ []]]; auto].
  - inversion D as [|? ? Na D']; subst. destruct (str_eqb_spec k a) as [<-|N].
    + cbn [In]. split.
      * intros [H|H]; [injection H as <- <-; auto|right; split; [|auto]]. intros ->. apply Na, in_map_iff. exists (k, v'). auto.
      * intros [[-> ->]|[Nk [H|H]]]; [auto|injection H as <- <-; congruence|auto].
    + cbn [In]. rewrite (IH D'). split; [intros [H|[H|[H1 H2]]]; [injection H as <- <-; auto|auto|auto]|intros [H|[H1 [H|H]]]; auto].
Qed.
Lemma assign_keys k v l k' : In k' (map fst (assign k v l)) <-> k' = k \/ In k' (map fst l).
Proof.
  induction l as [|[a b] l IH]; cbn [assign map fst In]; [intuition|]. destruct (str_eqb_spec k a) as [<-|N]; cbn [map fst In]; [intuition|]. rewrite IH. tauto.
Qed.
Lemma assign_nodup k v l : NoDup (map fst l) -> NoDup (map fst (assign k v l)).
Proof.
  induction l as [|[a b] l IH]; cbn [assign map fst]; intros D; [constructor; [intros []|constructor]|]. inversion D as [|? ? Na D']; subst. destruct (str_eqb_spec k a) as [<-|N]; cbn [map fst]; [exact D|].
  constructor; [|apply IH, D']. rewrite assign_keys. intros [->|H]; [congruence|contradiction].
Qed.
Lemma has_key k (l : list (str * json)) : existsb (fun kv => str_eqb k (fst kv)) l = true <-> In k (map fst l).
Proof.
  rewrite existsb_exists, in_map_iff. split; [intros ([a b] & I & E); cbn [fst] in E; destruct (str_eqb_spec k a) as [<-|]; [exists (k, b); auto|discriminate]|intros ([a b] & <- & I); exists (a, b); split; [exact I|apply str_eqb_refl]].
Qed.
Lemma assign_new_in k v l k' v' : In (k', v') (assign_new k v l) <-> In (k', v') l \/ (k' = k /\ v' = v /\ ~ In k (map fst l)).
Proof.
  unfold assign_new. destruct (existsb _ l) eqn:E.
  - apply has_key in E. tauto.
  - assert (~ In k (map fst l)) as Nk by (intros H; apply has_key in H; congruence). rewrite in_app_iff. cbn [In]. split; [intros [H|[H|[]]]; [auto|injection H as <- <-; auto]|intros [H|(-> & -> & _)]; auto].
Qed.
Lemma assign_new_keys k v l k' : In k' (map fst (assign_new k v l)) <-> k' = k \/ In k' (map fst l).
Proof.
  unfold assign_new. destruct (existsb _ l) eqn:E; [apply has_key in E; split; [auto|intros [->|H]; auto]|]. rewrite map_app, in_app_iff. cbn [map fst In]. intuition.
Qed.
Lemma assign_new_nodup k v l : NoDup (map fst l) -> NoDup (map fst (assign_new k v l)).
Proof.
  intros D. unfold assign_new. destruct (existsb _ l) eqn:E; [exact D|]. assert (~ In k (map fst l)) as Nk by (intros H; apply has_key in H; congruence). rewrite map_app. cbn [map fst].
  apply (Permutation.Permutation_NoDup (Permutation.Permutation_cons_append (map fst l) k)). constructor; assumption.
Qed.
Lemma package_in floats cats l : NoDup (map fst l) -> NoDup (map fst (package_options floats cats l)) /\
  forall k v, In (k, v) (package_options floats cats l) <->
    (k = lit "float_feature" /\ v = JList (map JStr floats)) \/ (k = lit "categorical_feature" /\ v = JList (map JStr cats)) \/
    (k <> lit "float_feature" /\ k <> lit "categorical_feature" /\ In (k, v) l) \/
    (In k [lit "example_sampling_rate"; lit "feature_sampling_rate"] /\ ~ In k (map fst l) /\ v = JNum (of_int 1)).
Proof.
  intros D. unfold package_options.
  assert (lit "float_feature" <> lit "categorical_feature") as N1 by discriminate. assert (lit "float_feature" <> lit "example_sampling_rate") as N2 by discriminate. assert (lit "float_feature" <> lit "feature_sampling_rate") as N3 by discriminate.
  assert (lit "categorical_feature" <> lit "example_sampling_rate") as N4 by discriminate. assert (lit "categorical_feature" <> lit "feature_sampling_rate") as N5 by discriminate. assert (lit "example_sampling_rate" <> lit "feature_sampling_rate") as N6 by discriminate.
  set (F := lit "float_feature") in *. set (C := lit "categorical_feature") in *. set (E := lit "example_sampling_rate") in *. set (X := lit "feature_sampling_rate") in *.
  set (one := JNum (of_int 1)). set (vf := JList (map JStr floats)). set (vc := JList (map JStr cats)).
  split; [apply assign_new_nodup, assign_new_nodup, assign_nodup, assign_nodup, D|]. intros k v.
  rewrite !assign_new_in, (assign_in C vc) by (apply assign_nodup, D). rewrite (assign_in F vf) by exact D. rewrite assign_new_keys, !assign_keys. cbn [In].
  destruct (list_eq_dec ascii_dec k F) as [->|K1]; [intuition congruence|]. destruct (list_eq_dec ascii_dec k C) as [->|K2]; [intuition congruence|].
  destruct (list_eq_dec ascii_dec k E) as [->|K3]; [intuition congruence|]. destruct (list_eq_dec ascii_dec k X) as [->|K4]; intuition congruence.
Qed.
Lemma assign_twice k v v' l : assign k v (assign k v' l) = assign k v l.
Proof. induction l as [|[a b] l IH]; cbn [assign]; [rewrite str_eqb_refl; reflexivity|]. destruct (str_eqb k a) eqn:E; cbn [assign]; [rewrite str_eqb_refl; reflexivity|]. rewrite E, IH. reflexivity. Qed.
Lemma assign_swap k v k' v' l : k <> k' -> In k (map fst l) -> assign k v (assign k' v' l) = assign k' v' (assign k v l).
Proof.
  intros N. assert (str_eqb k k' = false) as E by (destruct (str_eqb_spec k k'); [contradiction|reflexivity]). assert (str_eqb k' k = false) as E' by (destruct (str_eqb_spec k' k); [congruence|reflexivity]).
  induction l as [|[a b] l IH]; cbn [assign map fst In]; [intros []|]. intros I. destruct (str_eqb_spec k a) as [->|A].
  - rewrite E'. cbn [assign]. rewrite str_eqb_refl, E'. reflexivity.
  - destruct I as [->|I]; [congruence|]. assert (str_eqb k a = false) as Ea by (destruct (str_eqb_spec k a); [contradiction|reflexivity]). destruct (str_eqb_spec k' a) as [->|A'].
    + cbn [assign]. rewrite E, str_eqb_refl. reflexivity.
    + cbn [assign]. rewrite Ea. destruct (str_eqb_spec k' a); [contradiction|]. rewrite (IH I). reflexivity.
Qed.
Lemma assign_app k v l t : In k (map fst l) -> assign k v (l ++ t) = assign k v l ++ t.
Proof. induction l as [|[a b] l IH]; cbn [map fst In app assign]; [intros []|]. intros I. destruct (str_eqb_spec k a) as [<-|A]; [reflexivity|]. destruct I as [->|I]; [congruence|]. rewrite (IH I). reflexivity. Qed.
Lemma assign_assign_new k v k' v' l : k <> k' -> In k (map fst l) -> assign k v (assign_new k' v' l) = assign_new k' v' (assign k v l).
Proof.
  intros N I. unfold assign_new. assert (existsb (fun kv => str_eqb k' (fst kv)) (assign k v l) = existsb (fun kv => str_eqb k' (fst kv)) l) as ->.
  { apply Bool.eq_true_iff_eq. rewrite !has_key, assign_keys. intuition congruence. }
  destruct (existsb _ l); [reflexivity|apply assign_app, I].
Qed.
Lemma assign_new_present k v l : In k (map fst l) -> assign_new k v l = l.
Proof. intros I. unfold assign_new. apply has_key in I. rewrite I. reflexivity. Qed.
Lemma package_again floats cats floats' cats' l : package_options floats cats (package_options floats' cats' l) = package_options floats cats l.
Proof.
  unfold package_options.
  assert (lit "float_feature" <> lit "categorical_feature") as N1 by discriminate. assert (lit "float_feature" <> lit "example_sampling_rate") as N2 by discriminate. assert (lit "float_feature" <> lit "feature_sampling_rate") as N3 by discriminate.
  assert (lit "categorical_feature" <> lit "example_sampling_rate") as N4 by discriminate. assert (lit "categorical_feature" <> lit "feature_sampling_rate") as N5 by discriminate.
  set (F := lit "float_feature") in *. set (C := lit "categorical_feature") in *. set (E := lit "example_sampling_rate") in *. set (X := lit "feature_sampling_rate") in *.
  rewrite (assign_assign_new F) by (try exact N3; rewrite assign_new_keys, !assign_keys; tauto). rewrite (assign_assign_new F) by (try exact N2; rewrite !assign_keys; tauto).
  rewrite (assign_swap F) by (try exact N1; rewrite !assign_keys; tauto). rewrite assign_twice.
  rewrite (assign_assign_new C) by (try exact N5; rewrite assign_new_keys, !assign_keys; tauto). rewrite (assign_assign_new C) by (try exact N4; rewrite !assign_keys; tauto). rewrite assign_twice.
  rewrite (assign_new_present E) by (rewrite !assign_new_keys; tauto). apply assign_new_present. rewrite !assign_new_keys. tauto.
Qed.

(** ** The command line *)
Section Files.
Context {c_exp c_log : f64 -> f64}.
Notation N := (IEEE c_exp c_log).
Context (fs : files_t) (can_open : str -> bool) (parse_forest : str -> option (forest N)) (print_forest : forest N -> option str) (show : N -> str) (flat : list str -> source) (tsv : list str -> config N -> source)
  (srt : (nat -> nat -> bool) -> list nat -> list nat) (top : nat -> nat -> list N -> nat) (draw : Z -> nat -> spec_float) (to_uint : N -> res nat) (pick : Z -> nat -> nat -> nat * nat)
  (importance : forest N -> list (str * N)).
Lemma missing_dies fg l text name ws : fg_mode fg = lit "train" -> fs (fg_config_file fg) = Some text -> json_document (JDict l) text -> named_once l ->
  (forall k v, In (k, v) l -> ~ spells (lit name) k) -> In name ["num_trees"; "num_leaves"; "example_sampling_rate"; "feature_sampling_rate"]%string ->
  main fs can_open text_config parse_forest print_forest show flat tsv srt top draw to_uint pick importance fg <> (ws, Exits).
Proof.
  intros M F J O Mi I E. apply main_train_exits in E; [|exact M]. destruct E as (c & src & base & lf & w & y & r & tx & (_ & text' & F' & _ & C) & _ & _ & _ & _ & _ & _ & T & S & _).
  assert (text' = text) as -> by congruence. unfold text_config in C. destruct (read_config text) as [[c' [mf ms]]|] eqn:R; [|discriminate]. injection C as ->.
  apply (read_config_iff text l c mf ms J O) in R. unfold train in T. rewrite (missing_refused l c mf ms name R Mi I) in T. injection T as <-. discriminate S.
Qed.
Lemma read_object text (r : config N * (list str * list str)) : read_config text = Some r -> exists l, json_document (JDict l) text.
Proof. unfold read_config. destruct (parse_json text) as [j|] eqn:E; [|discriminate]. destruct j as [| | | |l]; try discriminate. intros _. exists l. apply read_document, E. Qed.
End Files.
Lemma twice_named : exists l, NoDup (map fst l) /\ named_once l /\ forall floats cats, ~ named_once (package_options floats cats l).
Proof.
  exists [(lit "exampleSamplingRate", JNum (of_int 1))]. split; [repeat constructor; intros []|]. split.
  - intros l1 l2 k v k' v' name E I. destruct l1 as [|a [|b l1]]; [|discriminate|discriminate]. injection E as <- <- <-. destruct I.
  - intros floats cats O.
    refine (O [] _ (lit "exampleSamplingRate") (JNum (of_int 1)) (lit "example_sampling_rate") (JNum (of_int 1)) (lit "example_sampling_rate") eq_refl _ _ _).
    + cbn [app]. cbn. auto 10.
    + apply spells_iff; [apply in_names; reflexivity|]. right. left. reflexivity.
    + apply spells_iff; [apply in_names; reflexivity|]. left. reflexivity.
Qed.
