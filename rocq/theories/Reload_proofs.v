(** Reload_proofs.v - what a loaded forest does (property C98). *)
From Coq Require Import SpecFloat Reals Lra Lia ZArith FunctionalExtensionality.
From Flocq Require Import Core IEEE754.BinarySingleNaN Plus_error.
From Verif Require Import Base F32 Strings Num Forest Column DataStore Tsv Flatfiles Config Score Eval Tree Train Driver DriverSpec JsonText Options Saved SavedSpec Loss Pairwise TrainedSpec ReloadSpec
  FloatReal_proofs Base_proofs Saved_proofs Trained_proofs Driver_proofs Loaded_proofs.
Local Instance P64 : FLX.Prec_gt_0 53 := eq_refl.
Local Instance M64 : Prec_lt_emax 53 1024 := eq_refl.

(** ** Sums of gains *)
Lemma plus_not_minus_zero x y : valid_binary 53 1024 x = true -> valid_binary 53 1024 y = true -> x <> S754_zero true -> SFadd 53 1024 x y <> S754_zero true.
Proof.
  intros Vx Vy Nx E. destruct x as [[]|[]| |s m e]; try congruence.
  - destruct y as [[]| | |[] ? ?]; discriminate.
  - destruct y as [|[]| |]; discriminate.
  - destruct y as [|[]| |]; discriminate.
  - destruct y; discriminate.
  - destruct y as [|[]| |s' m' e']; try discriminate.
    destruct (valid_B2SF 53 1024 _ Vx) as [X Ex]. destruct (valid_B2SF 53 1024 _ Vy) as [Y Ey]. rewrite <- Ex, <- Ey, (add_equiv 53 1024 P64 M64) in E.
    assert (is_finite X = true) as Fx by (destruct X; try discriminate Ex; reflexivity). assert (is_finite Y = true) as Fy by (destruct Y; try discriminate Ey; reflexivity).
    pose proof (Bplus_correct 53 1024 P64 M64 mode_NE X Y Fx Fy) as H. destruct (Rlt_bool _ _).
    2: { destruct H as [H _]. rewrite E in H. destruct (Bsign X); discriminate. }
    destruct H as (R & _ & S). assert (B2R (Bplus mode_NE X Y) = 0%R) as Z by (destruct (Bplus mode_NE X Y); try discriminate E; reflexivity).
    assert (Bsign (Bplus mode_NE X Y) = true) as B by (destruct (Bplus mode_NE X Y) as [[]| | |]; try discriminate E; reflexivity).
    rewrite Z in R. symmetry in R. apply (round_plus_eq_0 radix2 _ _ _ _ (generic_format_B2R 53 1024 X) (generic_format_B2R 53 1024 Y)) in R. rewrite R, Rcompare_Eq, B in S by reflexivity.
    symmetry in S. apply andb_prop in S. destruct S as [Sx Sy].
    destruct X as [|?| |sx mx ex Bx]; try discriminate Ex. destruct Y as [|?| |sy my ey By]; try discriminate Ey. cbn in Sx, Sy. subst sx sy.
    cbn [B2R] in R. pose proof (F2R_lt_0 radix2 (Float radix2 (Z.neg mx) ex) (Pos2Z.neg_is_neg mx)). pose proof (F2R_lt_0 radix2 (Float radix2 (Z.neg my) ey) (Pos2Z.neg_is_neg my)).
    cbn [cond_Zopp Z.opp] in R. lra.
Qed.

Lemma zero_writable b : writable (S754_zero b).
Proof. split; [reflexivity|]. intros _. cbn. rewrite Rabs_R0. unfold max_float. apply IZR_lt. vm_compute. reflexivity. Qed.
Section Use.
Context {c_exp c_log : f64 -> f64}.
Notation N := (IEEE c_exp c_log).
(** ** Importance *)
Definition proper (m : list (str * N)) : Prop := Forall (fun e => any_double (snd e) /\ (snd e : f64) <> S754_zero true) m.
Lemma map_add_like k (v w : N) m : any_double v -> proper m -> same_number v w -> map_add k v m = map_add k w m /\ proper (map_add k v m).
Proof.
  intros V P S. induction m as [|[k' x] m IH]; cbn [map_add].
  - split.
    + f_equal. f_equal. cbn. destruct S as [->|([] & [] & -> & ->)]; reflexivity.
    + constructor; [|constructor]. cbn [snd]. split; [exact (add_double (S754_zero false) v eq_refl V)|]. apply (plus_not_minus_zero (S754_zero false) v eq_refl V). discriminate.
  - inversion P as [|? ? [Vx Nx] Pm]; subst. destruct (IH Pm) as [E Q]. destruct (str_eqb k k').
    + split.
      * f_equal. f_equal. cbn [snd] in Nx. destruct S as [->|(a & b & -> & ->)]; [reflexivity|]. cbn. destruct x as [[]| | |]; try reflexivity; [congruence|]. destruct a, b; reflexivity.
      * constructor; [|exact Pm]. cbn [snd]. split; [exact (add_double x v Vx V)|exact (plus_not_minus_zero x v Vx V Nx)].
    + split; [rewrite E; reflexivity|]. constructor; [split; assumption|exact Q].
Qed.
Lemma importance_tree_like (t u : tree N) : like t u -> writable_tree t -> forall m, proper m -> importance_tree t m = importance_tree u m /\ proper (importance_tree t m).
Proof.
  induction 1 as [|s s' sp sp' l l' r r' S Sp Hl IHl Hr IHr]; intros W m P; [split; [reflexivity|exact P]|]. destruct W as (_ & Ws & Wl & Wr). cbn [importance_tree].
  assert (present l = present l') as <- by (destruct Hl; reflexivity). destruct (present l); [|split; [reflexivity|exact P]].
  destruct (like_the _ _ Sp) as (En & _ & _ & Eg). rewrite <- En.
  assert (any_double (sp_gain (the_split sp))) as V by (destruct sp as [x|]; [apply (Ws x eq_refl)|reflexivity]).
  destruct (map_add_like (sp_feature (the_split sp)) _ _ m V P Eg) as [E Q]. rewrite <- E. destruct (IHl Wl _ Q) as [E1 Q1]. rewrite <- E1. apply (IHr Wr _ Q1).
Qed.
Lemma importance_like (f g : forest N) : Forall2 like f g -> Forall writable_tree f -> importance_map f = importance_map g.
Proof.
  intros L W. unfold importance_map. assert (proper []) as P by constructor. revert W P. generalize (@nil (str * N)). induction L as [|t u f g K L IH]; intros m W P; [reflexivity|].
  inversion W; subst. cbn [fold_left]. destruct (importance_tree_like t u K ltac:(assumption) m P) as [E Q]. rewrite <- E. apply IH; assumption.
Qed.
Lemma feature_importance_like (f g : forest N) out : Forall2 like f g -> Forall writable_tree f -> feature_importance f out <-> feature_importance g out.
Proof. intros L W. unfold feature_importance. rewrite (importance_like f g L W). reflexivity. Qed.

(** ** Checkpoints *)
Lemma like_checkpoint_loop v threads can (f g : forest N) : Forall2 like f g -> forall i points st, checkpoint_loop v threads can f i points st = checkpoint_loop v threads can g i points st.
Proof.
  induction 1 as [|t u f g K L IH]; intros i points st; [reflexivity|]. cbn [checkpoint_loop]. destruct points as [|p points]; [reflexivity|].
  rewrite (like_tree_scores _ threads t u st K). destruct (add_tree_scores _ _ u _ st) as [st'| |]; [|reflexivity..]. cbn [bind]. destruct (i + 1 =? p)%Z; [destruct (can p); [|reflexivity]|]; rewrite IH; reflexivity.
Qed.
Lemma like_checkpoints v threads can (f g : forest N) points : Forall2 like f g -> evaluate_checkpoints v threads can f points = evaluate_checkpoints v threads can g points.
Proof.
  intros L. unfold evaluate_checkpoints. rewrite (like_features f g L). destruct (load_features _ _) as [[|e] cs]; [|reflexivity]. destruct (init_scores v threads) as [st| |]; [|reflexivity..]. apply like_checkpoint_loop, L.
Qed.

(** ** Training *)
Lemma same_store (x y : N) : same_number x y -> same_number (nstore x) (nstore y).
Proof. intros [->|(a & b & -> & ->)]; [apply same_refl|]. right. exists a, b. split; reflexivity. Qed.
Lemma like_refl (t : tree N) : like t t.
Proof. induction t as [|s sp l IHl r IHr]; constructor; try assumption; [apply same_refl|]. destruct sp; [apply like_split_refl|exact I]. Qed.
Lemma like_single (t u : tree N) : like t u -> single_node t = single_node u.
Proof. intros [|s s' sp sp' l l' r r' S Sp L R]; [reflexivity|]. destruct L; reflexivity. Qed.
Lemma like_score (t u : tree N) : like t u -> same_number (t_score t) (t_score u).
Proof. intros []; [apply same_refl|assumption]. Qed.
Lemma like_clear (t u : tree N) : like t u -> like (clear_internal t) (clear_internal u).
Proof.
  induction 1 as [|s s' sp sp' l l' r r' S Sp Hl IHl Hr IHr]; [constructor|]. cbn [clear_internal]. constructor; [exact S| |exact IHl|exact IHr].
  assert (present l = present l') as <- by (destruct Hl; reflexivity). destruct (present l); [|exact I]. destruct sp as [x|], sp' as [y|]; try destruct Sp; [|exact I].
  cbn [option_map like_splits]. unfold clear_split. destruct H0 as (Lf & Lc & Lg). rewrite <- Lc. destruct (sp_cat x) as [[n i]|] eqn:E; repeat split; cbn [sp_feature sp_float sp_cat sp_gain]; auto; congruence.
Qed.
Lemma like_init v threads (f g : forest N) : Forall2 like f g -> forall c c' trees trees' st, same_number c c' -> Forall2 like trees trees' ->
  match init_with_base v threads f c trees st, init_with_base v threads g c' trees' st with
  | Ret (a, x, s), Ret (b, y, s') => same_number a b /\ Forall2 like x y /\ s = s'
  | Undef, Undef | Fatal, Fatal => True
  | _, _ => False
  end.
Proof.
  induction 1 as [|t u f g K L IH]; intros c c' trees trees' st Sc Tr; cbn [init_with_base]; [auto|]. rewrite (like_tree_scores _ threads t u st K).
  destruct (add_tree_scores _ _ u _ st) as [st'| |]; [|exact I..]. cbn [bind]. rewrite (like_single t u K). destruct (single_node u); apply IH; auto.
  - apply same_store, same_add; [exact Sc|exact (like_score t u K)].
  - apply Forall2_app; [exact Tr|]. constructor; [exact K|constructor].
Qed.
Lemma like_constant (c c' : N) trees trees' : same_number c c' -> Forall2 like trees trees' -> Forall2 like (constant_tree c :: trees) (constant_tree c' :: trees').
Proof. intros S L. constructor; [|exact L]. constructor; [exact S|exact I|constructor|constructor]. Qed.
Lemma like_rounds v threads top draw srt w features c (lf : loss N) todo : forall i k k' trees trees' st gd ls pos, same_number k k' -> Forall2 like trees trees' ->
  same_training (rounds v threads top draw srt w features c lf todo i k trees st gd ls pos) (rounds v threads top draw srt w features c lf todo i k' trees' st gd ls pos).
Proof.
  induction todo as [|todo IH]; intros i k k' trees trees' st gd ls pos Sk Tr; cbn [rounds].
  - cbn [same_training tr_status tr_f tr_forest]. split; [reflexivity|]. split; [reflexivity|]. pose proof (like_constant k k' trees trees' Sk Tr) as L. clear - L. induction L as [|t u f g K L IH]; constructor; [apply like_clear, K|exact IH].
  - destruct (l_round lf ls pos (snd st) gd) as [[[[x gd'] ls'] pos']| |]; [|exact I..]. cbn [bind]. destruct (nfinite x).
    + destruct (fit_tree _ _ _ _ _ _ _ _ _) as [[t pos'']| |]; [|exact I..]. cbn [bind]. destruct (add_tree_scores _ _ _ _ _) as [st'| |]; [|exact I..]. cbn [bind]. apply IH.
      * apply same_store, same_add; [exact Sk|apply same_refl].
      * apply Forall2_app; [exact Tr|]. constructor; [apply like_refl|constructor].
    + cbn [same_training tr_status tr_f tr_forest]. split; [reflexivity|]. split; [reflexivity|]. apply like_constant; assumption.
Qed.
Lemma like_train v threads top draw pos srt names w y (lf : loss N) c base base' : same_base base base' ->
  same_training (train v threads top draw pos srt names w y lf c base) (train v threads top draw pos srt names w y lf c base').
Proof.
  intros B. unfold train. destruct (check_config c) as [|e]; [|cbn; repeat split; constructor]. destruct (load_features _ _) as [[|e] features]; [|cbn; repeat split; constructor].
  destruct (group_column c (v_get v)) as [g| |]; [|exact I..]. cbn [bind]. destruct (l_init lf _ w y g) as [[e|ls]| |]; [cbn; repeat split; constructor| |exact I..]. cbn [bind].
  destruct (init_scores v threads) as [st| |]; [|exact I..]. cbn [bind].
  assert (Forall2 like (match base with Some b => b | None => [] end) (match base' with Some b => b | None => [] end)) as L by (destruct base, base'; [exact B|destruct B|destruct B|constructor]).
  pose proof (like_init v threads _ _ L (n0 : N) (n0 : N) [] [] st (same_refl _) (Forall2_nil _)) as H.
  destruct (init_with_base v threads _ n0 [] st) as [[[k trees] st1]| |], (init_with_base v threads _ n0 [] st) as [[[k' trees'] st1']| |]; try destruct H; try exact I.
  destruct H0 as [Tr <-]. cbn [bind]. apply like_rounds; assumption.
Qed.
End Use.

(** ** The program *)
Section Program.
Context {c_exp c_log : f64 -> f64}.
Notation N := (IEEE c_exp c_log).
Context (fs : files_t) (can_open : str -> bool) (parse_config : str -> option (config N)) (meta : forest N -> str) (show : N -> str) (flat : list str -> source) (tsv : list str -> config N -> source)
  (srt : (nat -> nat -> bool) -> list nat -> list nat) (top : nat -> nat -> list N -> nat) (draw : Z -> nat -> spec_float) (to_uint : N -> res nat) (pick : Z -> nat -> nat -> nat * nat)
  (importance : forest N -> list (str * N)).
Notation main parse_forest := (main fs can_open parse_config parse_forest (forest_file meta) show flat tsv srt top draw to_uint pick importance).
Lemma loaded_from text (g : forest N) : text_forest text = Some g -> text <> [].
Proof. intros H ->. unfold text_forest, read_forest in H. assert (parse_json [] = None) as E by (vm_compute; reflexivity). rewrite E in H. discriminate. Qed.
Lemma read_model file text (f g : forest N) k k' : fs file = Some text -> text_forest text = Some g -> k g = k' f ->
  load_forest fs text_forest file k = load_forest fs (fun _ => Some f) file k'.
Proof. intros T G E. unfold load_forest, read_or_die. rewrite T. pose proof (loaded_from text g G) as Nt. destruct text as [|b text]; [destruct Nt; reflexivity|]. rewrite G. exact E. Qed.
Lemma like_length (f g : forest N) : Forall2 like f g -> List.length f = List.length g.
Proof. induction 1; cbn; congruence. Qed.
Lemma test_like fg text (f g : forest N) : fg_mode fg = lit "test" -> fs (fg_testing_model_file fg) = Some text -> text_forest text = Some g -> Forall2 like f g ->
  main text_forest fg = main (fun _ => Some f) fg.
Proof.
  intros M T G L. rewrite !main_is_test by exact M. unfold main_test. do 3 f_equal. f_equal. apply functional_extensionality. intros ct. f_equal. apply functional_extensionality. intros c.
  apply (read_model _ text f g); [exact T|exact G|]. f_equal. apply functional_extensionality. intros src.
  rewrite <- (like_features f g L). unfold zlen. rewrite <- (like_length f g L), <- (like_checkpoints _ _ _ f g _ L). reflexivity.
Qed.
Definition same_run (a b : run) : Prop := map fst (fst a) = map fst (fst b) /\ snd a = snd b.
Lemma run_refl a : same_run a a.
Proof. split; reflexivity. Qed.
Lemma run_lift {A} (x : res A) k k' : (forall a, same_run (k a) (k' a)) -> same_run (lift x k) (lift x k').
Proof. intros H. destruct x; [apply H|apply run_refl..]. Qed.
Lemma run_check b k k' : same_run k k' -> same_run (check b k) (check b k').
Proof. intros H. destruct b; [exact H|apply run_refl]. Qed.
Lemma run_need {A} (o : option A) k k' : (forall a, same_run (k a) (k' a)) -> same_run (need o k) (need o k').
Proof. intros H. destruct o; [apply H|apply run_refl]. Qed.
Lemma run_read file k k' : (forall a, same_run (k a) (k' a)) -> same_run (read_or_die fs file k) (read_or_die fs file k').
Proof. intros H. unfold read_or_die. destruct (fs file) as [[|]|]; [apply run_refl|apply H|apply run_refl]. Qed.
Lemma run_source fg c k k' : (forall a, same_run (k a) (k' a)) -> same_run (load_source flat tsv fg c k) (load_source flat tsv fg c k').
Proof.
  intros H. unfold load_source. destruct (given (fg_flatfiles_dirs fg)); [apply run_lift; intros; apply run_check, H|]. destruct (given (fg_tsvs fg)); [apply run_lift; intros; apply run_check, H|apply run_refl].
Qed.
Lemma run_write file a b k k' : same_run k k' -> same_run (write_file can_open file a k) (write_file can_open file b k').
Proof. intros [H1 H2]. unfold write_file. destruct (can_open file); [|apply run_refl]. split; cbn [fst snd map]; [rewrite H1; reflexivity|exact H2]. Qed.
Lemma train_like fg text (f g : forest N) : fg_mode fg = lit "train" -> fs (fg_base_model_file fg) = Some text -> text_forest text = Some g -> Forall2 like f g ->
  same_run (main text_forest fg) (main (fun _ => Some f) fg).
Proof.
  intros M T G L. rewrite !main_is_train by exact M. unfold main_train. do 2 apply run_check. apply run_read. intros ct. apply run_need. intros c. apply run_source. intros src.
  unfold load_base. assert (forall b b', same_base b' b -> same_run
    (need (create_loss srt (fg_num_threads fg) to_uint (pick (fg_seed fg)) c) (fun lf => lift (sample_weights c (src_get src)) (fun w => lift (targets c (src_get src)) (fun y =>
      lift (train (source_view src (asked_for_training c)) (fg_num_threads fg) top (draw (fg_seed fg)) 0 srt (config_features c) w y lf c b)
      (fun r => check (ok (tr_status r)) (need (forest_file meta (tr_forest r)) (fun text => let name := fg_output_dir fg ++ lit "/" ++ fg_output_model_name fg in
        write_file can_open (name ++ lit ".json") text (write_file can_open (name ++ lit ".fimps") (importance_text show (importance (tr_forest r))) ([], Exits)))))))))
    (need (create_loss srt (fg_num_threads fg) to_uint (pick (fg_seed fg)) c) (fun lf => lift (sample_weights c (src_get src)) (fun w => lift (targets c (src_get src)) (fun y =>
      lift (train (source_view src (asked_for_training c)) (fg_num_threads fg) top (draw (fg_seed fg)) 0 srt (config_features c) w y lf c b')
      (fun r => check (ok (tr_status r)) (need (forest_file meta (tr_forest r)) (fun text => let name := fg_output_dir fg ++ lit "/" ++ fg_output_model_name fg in
        write_file can_open (name ++ lit ".json") text (write_file can_open (name ++ lit ".fimps") (importance_text show (importance (tr_forest r))) ([], Exits)))))))))) as K.
  { intros b b' B. apply run_need. intros lf. apply run_lift. intros w. apply run_lift. intros y.
    pose proof (like_train (source_view src (asked_for_training c)) (fg_num_threads fg) top (draw (fg_seed fg)) 0 srt (config_features c) w y lf c b' b B) as H.
    destruct (train _ _ _ _ _ _ _ _ _ _ _ b') as [r'| |], (train _ _ _ _ _ _ _ _ _ _ _ b) as [r| |]; try destruct H; try apply run_refl. cbn [lift]. rewrite H. apply run_check. cbn [need forest_file]. cbv zeta. apply run_write, run_write, run_refl. }
  destruct (given (fg_base_model_file fg)); [|apply K; exact I].
  unfold load_forest, read_or_die. rewrite T. pose proof (loaded_from text g G) as Nt. destruct text as [|b text]; [destruct Nt; reflexivity|]. rewrite G. cbn [need]. apply K. exact L.
Qed.
End Program.

Lemma program_tested {c_exp c_log : f64 -> f64} fs can_open meta show flat tsv srt top draw to_uint pick importance fg ws : gives_doubles c_exp -> gives_doubles c_log -> fg_mode fg = lit "train" ->
  main (N := IEEE c_exp c_log) fs can_open text_config text_forest (forest_file meta) show flat tsv srt top draw to_uint pick importance fg = (ws, Exits) ->
  exists c src base lf w y r text, configured fs text_config fg c /\ data_of flat tsv fg c src /\ base_given fs text_forest fg base /\
    create_loss srt (fg_num_threads fg) to_uint (pick (fg_seed fg)) c = Some lf /\ sample_weights c (src_get src) = Ret w /\ targets c (src_get src) = Ret y /\
    train (source_view src (asked_for_training c)) (fg_num_threads fg) top (draw (fg_seed fg)) 0 srt (config_features c) w y lf c base = Ret r /\ tr_status r = SOk /\
    hd_error ws = Some (out_file fg ".json", text) /\
    (Forall moderate (tr_forest r) -> forall fs' can_open' meta' show' flat' tsv' srt' top' draw' to_uint' pick' importance' fg',
      let main parse := main fs' can_open' text_config parse (forest_file meta') show' flat' tsv' srt' top' draw' to_uint' pick' importance' fg' in
      (fg_mode fg' = lit "test" -> fs' (fg_testing_model_file fg') = Some text -> main text_forest = main (fun _ => Some (tr_forest r))) /\
      (fg_mode fg' = lit "train" -> fs' (fg_base_model_file fg') = Some text ->
        map fst (fst (main text_forest)) = map fst (fst (main (fun _ => Some (tr_forest r)))) /\ snd (main text_forest) = snd (main (fun _ => Some (tr_forest r))))).
Proof.
  intros De Dl M E. destruct (files_train fs can_open meta show flat tsv srt top draw to_uint pick importance fg ws De Dl M E) as (c & src & base & lf & w & y & r & text & H1 & H2 & H3 & H4 & H5 & H6 & H7 & H8 & H9 & H10).
  exists c, src, base, lf, w, y, r, text. do 9 (split; [assumption|]). intros Mo fs' can_open' meta' show' flat' tsv' srt' top' draw' to_uint' pick' importance' fg'. destruct (H10 Mo) as (f' & R & L & _). cbv zeta. split; intros M' T.
  - exact (test_like fs' can_open' text_config meta' show' flat' tsv' srt' top' draw' to_uint' pick' importance' fg' text (tr_forest r) f' M' T R L).
  - exact (train_like fs' can_open' text_config meta' show' flat' tsv' srt' top' draw' to_uint' pick' importance' fg' text (tr_forest r) f' M' T R L).
Qed.
