(** Trained_proofs.v - trained forests can be saved and loaded (property C95). *)
From Coq Require Import SpecFloat Reals Lra Lia ZArith.
From Flocq Require Import Core IEEE754.BinarySingleNaN.
From Verif Require Import Base F32 Column DataStore Num Forest Config Score ScoreSpec Eval EvalSpec SplitSpec Tree Train TrainSpec Loss Pairwise AccuracySpec StopwatchSpec Draw Saved SavedSpec TrainedSpec
  FloatReal_proofs Threshold_proofs PairExact_proofs Stopwatch_proofs Print_proofs Binary_proofs Accuracy_proofs Saved_proofs Train_proofs Doubles_proofs Base_proofs.
Local Open Scope R_scope.
Local Notation val := (SF2R radix2).
Local Instance P32 : FLX.Prec_gt_0 24 := eq_refl.
Local Instance M32 : Prec_lt_emax 24 128 := eq_refl.
Local Instance P64 : FLX.Prec_gt_0 53 := eq_refl.
Local Instance M64 : Prec_lt_emax 53 1024 := eq_refl.

Lemma add_double x y : any_double x -> any_double y -> any_double (SFadd 53 1024 x y).
Proof. unfold any_double. intros Vx Vy. destruct (valid_B2SF 53 1024 x Vx) as [X <-]. destruct (valid_B2SF 53 1024 y Vy) as [Y <-]. rewrite (add_equiv 53 1024 P64 M64). apply valid_binary_B2SF. Qed.
Lemma sub_double x y : any_double x -> any_double y -> any_double (SFsub 53 1024 x y).
Proof. unfold any_double. intros Vx Vy. destruct (valid_B2SF 53 1024 x Vx) as [X <-]. destruct (valid_B2SF 53 1024 y Vy) as [Y <-]. rewrite (sub_equiv 53 1024 P64 M64). apply valid_binary_B2SF. Qed.
Lemma div_double x y : any_double x -> any_double y -> any_double (SFdiv 53 1024 x y).
Proof. unfold any_double. intros Vx Vy. destruct (valid_B2SF 53 1024 x Vx) as [X <-]. destruct (valid_B2SF 53 1024 y Vy) as [Y <-]. rewrite (div_equiv 53 1024 P64 M64). apply valid_binary_B2SF. Qed.
Lemma mul_equiv (x y : binary_float 53 1024) : SFmul 53 1024 (B2SF x) (B2SF y) = B2SF (Bmult mode_NE x y).
Proof. destruct x as [sx|sx| |sx mx ex Bx], y as [sy|sy| |sy my ey By]; try reflexivity. simpl. rewrite B2SF_SF2B. apply round_aux_equiv. Qed.
Lemma mul_double x y : any_double x -> any_double y -> any_double (SFmul 53 1024 x y).
Proof. unfold any_double. intros Vx Vy. destruct (valid_B2SF 53 1024 x Vx) as [X <-]. destruct (valid_B2SF 53 1024 y Vy) as [Y <-]. rewrite mul_equiv. apply valid_binary_B2SF. Qed.
Lemma format_double x : any_double (to_f64 x).
Proof. unfold any_double, to_f64, to_format. destruct x as [s|s| |s m e]; try reflexivity. apply (normalize_val 53 1024 P64 M64). Qed.
Lemma format_float x : a_float (to_f32 x).
Proof. unfold a_float, to_f32, to_format. destruct x as [s|s| |s m e]; try reflexivity. apply (normalize_val 24 128 P32 M32). Qed.

Section Trained.
Context {c_exp c_log : f64 -> f64} (De : gives_doubles c_exp) (Dl : gives_doubles c_log).
Notation N := (IEEE c_exp c_log).
Lemma doubles_closed : closed (N := N) any_double a_float.
Proof.
  split.
  - exact add_double.
  - exact sub_double.
  - exact mul_double.
  - exact div_double.
  - intros [s|s| |s m e] H; exact H || reflexivity.
  - intros [s|s| |s m e] H; exact H || reflexivity.
  - exact De.
  - exact Dl.
  - intros z. apply (normalize_val 53 1024 P64 M64).
  - exact format_double.
  - intros x. apply format_double.
  - exact format_float.
Qed.
Lemma typed_in (t : tree N) : typed_tree t -> TV (N := N) any_double a_float t.
Proof.
  induction t as [|s sp l IHl r IHr]; [trivial|]. intros ((x & _ & ->) & B & D & E). split; [apply format_double|]. split; [|split; auto].
  intros y Ey. destruct (B y Ey) as [B1 B2]. split; [exact B2|exact B1].
Qed.
Lemma in_typed (t : tree N) : all_floats t -> TV (N := N) any_double a_float t -> typed_tree t.
Proof.
  induction t as [|s sp l IHl r IHr]; [trivial|]. intros (A & A1 & A2) (_ & B & D & E). split; [exact A|]. split; [|split; auto].
  intros y Ey. destruct (B y Ey) as [B1 B2]. split; [exact B2|exact B1].
Qed.
Lemma typed_floats (t : tree N) : typed_tree t -> all_floats t.
Proof. induction t as [|s sp l IHl r IHr]; [trivial|]. intros (A & _ & D & E). split; [exact A|auto]. Qed.

Section Run.
Context (v : view) (threads : nat) (top : nat -> nat -> list N -> nat) (draw : nat -> spec_float) (pos : nat) (srt : (nat -> nat -> bool) -> list nat -> list nat) (names : list str)
  (w y : float_vector) (lf : loss N) (c : config N) (base : option (forest N)) (r : trained N).
Context (srt' : (nat -> nat -> bool) -> list nat -> list nat) (threads' : nat) (to_uint : N -> res nat) (pick : nat -> nat -> nat * nat).
Context (Hl : create_loss srt' threads' to_uint pick c = Some lf) (Lc : any_double (cf_l2_lambda c)) (Hb : forall b, base = Some b -> Forall typed_tree b)
  (E : train v threads top draw pos srt names w y lf c base = Ret r).
Lemma trained_typed : Forall typed_tree (tr_forest r) /\ ~ In TNone (tr_forest r) /\ Forall any_double (tr_f r).
Proof.
  assert (Forall all_floats (tr_forest r)) as Ff.
  { refine (train_floats v threads top draw pos srt names w y lf c base r _ E). intros b Eb. eapply Forall_impl; [|exact (Hb b Eb)]. exact typed_floats. }
  destruct (train_in (N := N) any_double a_float doubles_closed v threads top draw srt w c Lc lf pos names y base r) as [A B].
  - exact (created_in (N := N) any_double a_float doubles_closed srt' threads' to_uint pick c (v_rows v) w y lf Hl).
  - intros b Eb. eapply Forall_impl; [|exact (Hb b Eb)]. exact typed_in.
  - exact E.
  - unfold good_trees in A. rewrite Forall_forall in A, Ff. split; [|split; [|exact B]].
    + apply Forall_forall. intros t I. apply in_typed; [exact (Ff t I)|apply A; exact I].
    + intros I. apply (proj2 (A _ I)). reflexivity.
Qed.
Lemma rounds_cleared features todo : forall i k trees st gd ls pos, rounds v threads top draw srt w features c lf todo i k trees st gd ls pos = Ret r -> tr_status r = SOk -> Forall tidy (tr_forest r).
Proof.
  induction todo as [|todo IH]; cbn [rounds]; intros i k trees st gd ls p.
  - intros [= <-] _. cbn [tr_forest]. constructor; [exact (clear_tidy (constant_tree k))|]. apply Forall_map, Forall_forall. intros t _. apply clear_tidy.
  - destruct (l_round _ _ _ _ _) as [[[[x gd'] ls'] pos']| |]; try discriminate. cbn [bind]. destruct (nfinite x); [|intros [= <-]; discriminate].
    destruct (fit_tree _ _ _ _ _ _ _ _ _) as [[t p2]| |]; try discriminate. cbn [bind]. destruct (add_tree_scores _ _ _ _ _) as [st1| |]; try discriminate. cbn [bind]. apply IH.
Qed.
Lemma trained_tidy : tr_status r = SOk -> Forall tidy (tr_forest r).
Proof.
  intros S. pose proof E as E'. unfold train in E'. destruct (check_config c); [|injection E' as <-; discriminate].
  destruct (load_features _ _) as [[|e] features]; [|injection E' as <-; discriminate].
  destruct (group_column _ _) as [group| |]; [|discriminate E'..]. cbn [bind] in E'.
  destruct (l_init _ _ _ _ _) as [[e|ls]| |]; [| |discriminate E'..]; cbn [bind] in E'; [injection E' as <-; discriminate|].
  destruct (init_scores v threads) as [st0| |]; [|discriminate E'..]. cbn [bind] in E'.
  destruct (init_with_base _ _ _ _ _ _) as [[[k trees] st]| |]; [|discriminate E'..]. cbn [bind] in E'. exact (rounds_cleared _ _ _ _ _ _ _ _ _ E' S).
Qed.
End Run.

Lemma moderate_float x : a_float x -> ~ largest x -> writable x.
Proof.
  intros A L. split; [exact A|]. intros F. destruct (Rle_lt_or_eq_dec (Rabs (real_of x)) max_float) as [H|H]; [|exact H|destruct L; split; assumption].
  destruct (float_ok x A F) as [V Fx]. rewrite real_val. destruct x as [s|s| |s m e]; try discriminate Fx; [cbn; rewrite Rabs_R0; unfold max_float; apply IZR_le; vm_compute; discriminate|].
  rewrite val_finite, Rabs_mult. replace (Rabs (sg s)) with 1 by (destruct s; cbn; unfold Rabs; destruct (Rcase_abs _); lra). rewrite Rmult_1_l.
  rewrite Rabs_pos_eq by (apply Rmult_le_pos; [apply IZR_le; lia|apply bpow_ge_0]).
  apply (bounded_le_emax_minus_prec 24 128 P32) in V. refine (Rle_trans _ _ _ V (Req_le _ _ _)).
  unfold max_float. rewrite <- !(IZR_Zpower radix2) by lia. rewrite <- minus_IZR. f_equal.
Qed.
Lemma typed_writable (t : tree N) : typed_tree t -> moderate t -> tidy t -> writable_tree t.
Proof.
  induction t as [|s sp l IHl r IHr]; [trivial|]. intros ((x & Ax & ->) & B & D & E) (M1 & M2 & M3 & M4) (T1 & T2 & T3).
  split; [exists x; split; [apply moderate_float; [exact Ax|apply M1; reflexivity]|reflexivity]|]. split; [|split; auto].
  intros y ->. destruct (B y eq_refl) as [B1 B2]. destruct T1 as [_ T1]. split; [|split; [|exact B2]].
  - intros t m Et. apply moderate_float; [exact (B1 t m Et)|exact (M2 y eq_refl t m Et)].
  - intros n i Ei. rewrite (T1 n i Ei). constructor.
Qed.
End Trained.
Section Loaded.
Context {c_exp c_log : f64 -> f64}.
Notation N := (IEEE c_exp c_log).
Context (v : view) (threads : nat) (top : nat -> nat -> list N -> nat) (draw : nat -> spec_float) (pos : nat) (srt : (nat -> nat -> bool) -> list nat -> list nat) (names : list str)
  (w y : float_vector) (lf : loss N) (c : config N) (base : option (forest N)) (r : trained N)
  (srt' : (nat -> nat -> bool) -> list nat -> list nat) (threads' : nat) (to_uint : N -> res nat) (pick : nat -> nat -> nat * nat) (reread regain : f64 -> f64) (meta : str).
Lemma trained_writable : gives_doubles c_exp -> gives_doubles c_log -> create_loss srt' threads' to_uint pick c = Some lf -> any_double (cf_l2_lambda c) ->
  (forall b, base = Some b -> Forall typed_tree b) -> train v threads top draw pos srt names w y lf c base = Ret r -> tr_status r = SOk -> Forall moderate (tr_forest r) ->
  Forall writable_tree (tr_forest r) /\ ~ In TNone (tr_forest r).
Proof.
  intros De Dl Hl Lc Hb E S M. destruct (trained_typed De Dl v threads top draw pos srt names w y lf c base r srt' threads' to_uint pick Hl Lc Hb E) as (A & B & _).
  split; [|exact B]. pose proof (trained_tidy v threads top draw pos srt names w y lf c base r E S) as D. rewrite Forall_forall in *. intros t I. apply typed_writable; auto.
Qed.
Lemma trained_loaded : gives_doubles c_exp -> gives_doubles c_log -> create_loss srt' threads' to_uint pick c = Some lf -> any_double (cf_l2_lambda c) ->
  (forall b, base = Some b -> Forall typed_tree b) -> train v threads top draw pos srt names w y lf c base = Ret r -> tr_status r = SOk ->
  float_writer reread -> double_writer regain -> Forall moderate (tr_forest r) ->
  exists f', forest_of (forest_json reread regain (tr_forest r) meta) = Some (f', meta) /\ Forall2 like (tr_forest r) f' /\ Forall no_minus_zero f'.
Proof.
  intros De Dl Hl Lc Hb E S Wf Wd M. destruct (trained_writable De Dl Hl Lc Hb E S M) as [A B]. exact (forest_read reread regain Wf Wd (tr_forest r) meta A B).
Qed.
Lemma trained_predicts : gives_doubles c_exp -> gives_doubles c_log -> create_loss srt' threads' to_uint pick c = Some lf -> any_double (cf_l2_lambda c) ->
  (forall b, base = Some b -> Forall typed_tree b) -> train v threads top draw pos srt names w y lf c base = Ret r -> tr_status r = SOk ->
  float_writer reread -> double_writer regain -> Forall moderate (tr_forest r) ->
  exists f', forest_of (c_exp := c_exp) (c_log := c_log) (forest_json reread regain (tr_forest r) meta) = Some (f', meta) /\
    forall v' n, evaluate_forest v' n f' = evaluate_forest v' n (tr_forest r).
Proof.
  intros De Dl Hl Lc Hb E S Wf Wd M. destruct (trained_writable De Dl Hl Lc Hb E S M) as [A B]. exact (saved_predicts reread regain (tr_forest r) meta Wf Wd A B).
Qed.
End Loaded.
