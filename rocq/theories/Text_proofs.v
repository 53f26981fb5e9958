(** Text_proofs.v - from TSV files and flat files to score files. *)
From Coq Require Import SpecFloat.
From Verif Require Import Base Base_proofs F32 F32_proofs Column ColumnSpec ColumnStr_proofs ColumnProps_proofs DataStore DataStoreSpec Strings StringsSpec StringsText_proofs
  Tsv TsvSpec TsvLoad_proofs TsvProps_proofs Flatfiles FlatSpec Flat_proofs Num Forest Config Score ScoreSpec Score_proofs Eval EvalSpec Eval_proofs
  Python PythonSpec Python_proofs PyTrain_proofs ValueSpec Value_proofs Tree Train Loss Pairwise Driver DriverSpec Driver_proofs TsvSource TextSpec.

(** ** TSV *)
Lemma lines_unique fs files : forall header a b, lines_of fs header files a -> lines_of fs header files b -> a = b.
Proof.
  induction files as [|f files IH]; intros h [|l ls] [|l' ls'] H H'; cbn in *; try tauto.
  destruct H as [(c1 & E1 & ->) H2], H' as [(c2 & E2 & ->) H2']. rewrite E1 in E2. injection E2 as <-. f_equal. exact (IH _ _ _ H2 H2').
Qed.
(** A loaded store holds the columns of the configuration and nothing else. *)
Lemma load_names fs strtof files first more c s0 t : files = first :: more -> names_present fs first c -> NoDup (all_names c) ->
  load_start fs files c = Ret s0 -> lreach fs strtof files s0 (Done SOk t) ->
  (forall n id, In (n, id) (t_map t) -> exists k, role_of c n k) /\ (all_names c <> [] -> t_map t <> []).
Proof.
  intros Ef P N E0 R. destruct (setup_ok fs first c P N) as (headers & t0 & fp & sp & Es & I & _).
  pose proof (setup_wf _ _ _ I) as W. destruct I as (I1 & I2 & I3 & I4 & I5).
  assert (s0 = Running (map (fun _ => None) files) 0 t0) as ->.
  { subst files. unfold load_start in E0. rewrite Es in E0. cbn [bind] in E0. injection E0 as <-. auto. }
  destruct (linv_reach fs strtof files t0 W _ _ (linv_start fs strtof files t0 W) R) as (bl & hp & _ & -> & _). cbn [with_heap t_map]. split.
  - intros n id H. apply I3 in H. destruct H as [k H]. exists k. apply role_in. eapply nth_error_In. exact H.
  - intros Ne Z. rewrite <- role_names in Ne. destruct (roles c) as [|[k n] l] eqn:Er; [apply Ne; reflexivity|].
    assert (In (n, 0) (t_map t0)) as H by (apply I3; exists k; reflexivity). rewrite Z in H. destruct H.
Qed.

Lemma float_rows strtof i lines blocks : Forall2 (float_cells strtof i) lines blocks ->
  Forall2 (fun line v => exists x, cell line i = Some x /\ float_value strtof x = Some v) (concat lines) (concat blocks).
Proof. induction 1 as [|l b ls bs H F IH]; cbn; [constructor|]. apply Forall2_app; assumption. Qed.
Lemma string_rows i lines blocks : Forall2 (string_cells i) lines blocks -> Forall2 (fun line x => cell line i = Some x) (concat lines) (concat blocks).
Proof. induction 1 as [|l b ls bs H F IH]; cbn; [constructor|]. apply Forall2_app; assumption. Qed.
Lemma same_rows {A B} (P Q : A -> B -> Prop) : (forall a b c, P a b -> Q a c -> b = c) ->
  forall l m m', Forall2 P l m -> Forall2 Q l m' -> m = m'.
Proof.
  intros H l m m' F. revert m'. induction F as [|a b l m X F IH]; intros m' G; inversion G; subst; [reflexivity|].
  f_equal; [eapply H; eassumption|apply IH; assumption].
Qed.
Lemma rows_length {A B} (P : A -> B -> Prop) l m : Forall2 P l m -> List.length m = List.length l.
Proof. induction 1; cbn; congruence. Qed.

Lemma short_fits l : (zlen l < 60000)%Z -> fits_32_bits l.
Proof.
  intros L. unfold fits_32_bits.
  assert (List.length (nodup str_eq_dec (missing_str :: l)) <= List.length (missing_str :: l)) as X.
  { apply NoDup_incl_length; [apply NoDup_nodup|]. intros x I. apply nodup_In in I. exact I. }
  cbn [List.length] in X. unfold zlen in *. lia.
Qed.
Lemma strings_show n blocks vals : vals = map (fun x => VString x) (concat blocks) -> (zlen vals < 60000)%Z ->
  col_shows TString vals (mkCol n (BodyS (string_column_of blocks))).
Proof.
  intros T L. assert (List.length vals = List.length (concat blocks)) as LV by (rewrite T, map_length; reflexivity).
  assert (fits_32_bits (concat blocks)) as F by (apply short_fits; unfold zlen in *; lia).
  destruct (string_column_roundtrip blocks F) as (St & Sz & Rw).
  split; [exact St|]. split; [exists blocks; rewrite LV; auto|]. split; [cbn; rewrite LV; exact Sz|]. split; [reflexivity|]. cbn [c_body].
  intros i v Ev. rewrite T, nth_error_map in Ev. destruct (nth_error (concat blocks) i) as [x|] eqn:Ei; [|discriminate]. injection Ev as <-.
  exists x. split; [reflexivity|]. apply Rw. exact Ei.
Qed.
Lemma raws_show n fl vals : vals = map (fun x => VFloat x) fl -> col_shows TRaw vals (mkCol n (BodyR (mkR SOk fl))).
Proof.
  intros T. assert (List.length vals = List.length fl) as LV by (rewrite T, map_length; reflexivity).
  split; [reflexivity|]. split; [exact LV|]. split; [cbn; rewrite LV; reflexivity|]. split; [reflexivity|]. cbn [c_body].
  intros i v Ev. rewrite T, nth_error_map in Ev. destruct (nth_error fl i) as [x|] eqn:Ei; [|discriminate]. injection Ev as <-.
  exists x. split; [reflexivity|]. unfold r_get. cbn. apply vget_some. exact Ei.
Qed.

(** The columns of a loaded store show the cells. *)
Lemma held_shows strtof role i lines b n vals : column_holds strtof role i lines b -> Forall2 (value_at strtof (type_for role) i) (concat lines) vals ->
  (zlen vals < 60000)%Z -> (role = KB -> below_inf (floats_of vals)) -> col_shows (type_for role) vals (mkCol n b).
Proof.
  intros H V L B. destruct role, b as [b|b|b]; cbn in H; try tauto; destruct H as (blocks & F & E).
  - apply float_rows in F. assert (vals = map (fun x => VFloat x) (concat blocks)) as T.
    { clear - F V. revert vals V. induction F as [|l v ls vs (x & C & W) F IH]; intros vals V; inversion V as [|l' v' ls' vs' (x' & C' & w & W' & ->) V']; subst; [reflexivity|].
      cbn. f_equal; [congruence|exact (IH _ V')]. }
    assert (floats_of vals = concat blocks) as Fl.
    { rewrite T. clear. induction (concat blocks) as [|x l IH]; [reflexivity|]. unfold floats_of in *. cbn. f_equal. exact IH. }
    apply (load_shows n blocks b vals T L); [rewrite <- Fl; exact (B eq_refl)|exact E].
  - apply float_rows in F. subst b. apply raws_show.
    clear - F V. revert vals V. induction F as [|l v ls vs (x & C & W) F IH]; intros vals V; inversion V as [|l' v' ls' vs' (x' & C' & w & W' & ->) V']; subst; [reflexivity|].
    cbn. f_equal; [congruence|exact (IH _ V')].
  - apply string_rows in F. subst b. apply strings_show; [|exact L].
    clear - F V. revert vals V. induction F as [|l v ls vs C F IH]; intros vals V; inversion V as [|l' v' ls' vs' (x' & C' & ->) V']; subst; [reflexivity|].
    cbn. f_equal; [congruence|exact (IH _ V')].
Qed.
Lemma held_size strtof role i lines b n : column_holds strtof role i lines b -> (zlen (concat lines) < 60000)%Z ->
  col_size (mkCol n b) = Ret (List.length (concat lines)).
Proof.
  intros H L. destruct role, b as [b|b|b]; cbn in H; try tauto; destruct H as (blocks & F & E).
  - apply float_rows, rows_length in F. assert (zlen (concat blocks) < 4294967294)%Z as LF by (unfold zlen in *; lia).
    rewrite <- F. cbn. apply (bucketized_size_missing default_buckets blocks b limit_default LF E).
  - apply float_rows, rows_length in F. subst b. rewrite <- F. reflexivity.
  - apply string_rows, rows_length in F. subst b. rewrite <- F. cbn.
    apply (string_column_roundtrip blocks). apply short_fits. unfold zlen in *. lia.
Qed.

Lemma tsv_gives fs strtof files first more c s0 t k fr begin order s : files = first :: more -> names_present fs first c -> NoDup (all_names c) -> all_names c <> [] ->
  load_start fs files c = Ret s0 -> lreach fs strtof files s0 (Done SOk t) -> tsv_table fs strtof files c k fr -> lossless k fr ->
  let src := tsv_source begin order s t in gives (src_get src) k fr /\ forall asked, src_rows src asked = k.
Proof.
  intros Ef P N Ne E0 R (lines & Hl & Hk & Tb) [Lk Ls] src.
  destruct (load_result fs strtof files first more c Ef P N) as (s0' & E0' & H). rewrite E0 in E0'. injection E0' as <-.
  destruct (H _ R I) as (lines' & Hl' & Hc). pose proof (lines_unique _ _ _ _ _ Hl Hl') as <-. split.
  - intros n ty vals F. destruct (Tb n ty vals F) as (role & i & -> & Hr & Hp & V). destruct (Ls n _ vals F) as (Ty & L & B). split; [exact L|].
    destruct (Hc n role Hr) as (i' & b & Hp' & G & Hb). exists (mkCol n b). split; [exact G|].
    assert (i' = i) as ->.
    { subst files. cbn [hd] in Hp. destruct Hp as (c1 & l1 & r1 & F1 & T1 & (x1 & C1 & X1) & M1), Hp' as (c2 & l2 & r2 & F2 & T2 & (x2 & C2 & X2) & M2).
      rewrite F1 in F2. injection F2 as <-. rewrite T1 in T2. injection T2 as <- <-.
      pose proof (M1 _ _ C2 X2). pose proof (M2 _ _ C1 X1). lia. }
    apply (held_shows strtof role i lines b n vals Hb V); [unfold zlen; lia|]. intros ->. exact (proj1 (B eq_refl)).
  - intros asked. cbn. destruct (load_names fs strtof files first more c s0 t Ef P N E0 R) as [Nm Em]. specialize (Em Ne).
    unfold tsv_rows. destruct (nth_error (t_map t) (begin t mod List.length (t_map t))) as [[n id]|] eqn:En.
    2:{ apply nth_error_None in En. assert (List.length (t_map t) <> 0) as Z by (destruct (t_map t); [congruence|discriminate]).
        pose proof (Nat.mod_upper_bound (begin t) _ Z). lia. }
    apply nth_error_In in En. destruct (Nm n id En) as [role Hr]. destruct (Hc n role Hr) as (i & b & _ & G & Hb). rewrite G.
    rewrite (held_size strtof role i lines b n Hb); [exact Hk|unfold zlen; lia].
Qed.

(** ** Flat files *)
Lemma flat_create fs strtof dirs n t rows : flat_file fs dirs n (dtype_line t) rows ->
  load_flat fs strtof dirs n = (let! c := py_create n t (map (flat_value strtof t) rows) in Ret (Some c)).
Proof.
  intros (ls & final & ls' & final' & Fo & Nl & S1 & S2 & Ro & Hd). destruct (ls' ++ [final']) as [|first rest] eqn:E; [discriminate|].
  cbn in Hd. injection Hd as ->. rewrite (load_eq fs strtof dirs n ls final ls' final' rows Fo Nl S1 S2 Ro _ _ E).
  destruct t; unfold py_create; cbn [dtype_line].
  - change (str_eqb (lit "# dtype=bucketized_floats") (lit "# dtype=strings")) with false.
    change (str_eqb (lit "# dtype=bucketized_floats") (lit "# dtype=raw_floats")) with false.
    change (str_eqb (lit "# dtype=bucketized_floats") (lit "# dtype=bucketized_floats")) with true. cbv iota.
    assert (map (flat_value strtof TBucketized) rows = map (fun x => VFloat x) (map (flat_float strtof) rows)) as ->.
    { rewrite map_map. apply map_ext. intros s. unfold flat_float, flat_value. rewrite string_cast_number. reflexivity. }
    rewrite floats_map. destruct (create_bucketized default_buckets (map (flat_float strtof) rows)); reflexivity.
  - change (str_eqb (lit "# dtype=raw_floats") (lit "# dtype=strings")) with false.
    change (str_eqb (lit "# dtype=raw_floats") (lit "# dtype=raw_floats")) with true. cbv iota.
    assert (map (flat_value strtof TRaw) rows = map (fun x => VFloat x) (map (flat_float strtof) rows)) as ->.
    { rewrite map_map. apply map_ext. intros s. unfold flat_float, flat_value. rewrite string_cast_number. reflexivity. }
    rewrite floats_map. reflexivity.
  - change (str_eqb (lit "# dtype=strings") (lit "# dtype=strings")) with true. cbv iota.
    change (map (flat_value strtof TString) rows) with (map (fun x => VString x) rows). rewrite strings_map. reflexivity.
Qed.
Lemma flat_gives fs strtof dirs order k fr : flat_table fs strtof dirs fr -> lossless k fr -> gives (src_get (flat_source fs strtof order dirs)) k fr.
Proof.
  intros Tb [Lk Ls] n t vals F. destruct (Tb n t vals F) as (rows & Fl & E). destruct (Ls n t vals F) as (Ty & L & B). split; [exact L|].
  destruct (create_shows n t vals Ty) as (c & C & Nm & Sh); [unfold zlen; lia|exact B|].
  exists c. split; [|exact Sh]. cbn. rewrite (flat_create fs strtof dirs n t rows Fl), <- E, C. reflexivity.
Qed.
Lemma flat_rows fs strtof dirs order k fr asked : flat_table fs strtof dirs fr -> lossless k fr -> asked <> [] ->
  (forall n, In n asked -> exists x, fr n = Some x) -> src_rows (flat_source fs strtof order dirs) asked = k.
Proof.
  intros Tb Ls Ne As. destruct asked as [|n asked]; [congruence|]. destruct (As n (or_introl eq_refl)) as [[t vals] F].
  destruct (flat_gives fs strtof dirs order k fr Tb Ls n t vals F) as (L & c & G & _ & _ & Sz & _). cbn in G |- *. rewrite G. cbn. rewrite Sz. exact L.
Qed.

(** ** The program *)
Section Program.
Context {N : Num}.
Variables (fs : files_t) (can_open : str -> bool)
  (parse_config : str -> option (config N)) (parse_forest : str -> option (forest N))
  (print_forest : forest N -> option str) (show : N -> str)
  (flat : list str -> source) (tsv : list str -> config N -> source)
  (srt : (nat -> nat -> bool) -> list nat -> list nat) (top : nat -> nat -> list N -> nat)
  (draw : Z -> nat -> spec_float) (to_uint : N -> res nat) (pick : Z -> nat -> nat -> nat * nat)
  (importance : forest N -> list (str * N)).
Local Notation main := (main fs can_open parse_config parse_forest print_forest show flat tsv srt top draw to_uint pick importance).

Lemma test_scores fg c src (f : forest N) k fr : fg_mode fg = lit "test" ->
  configured fs parse_config fg c -> fg_output_dir fg <> [] -> fg_testing_model_file fg <> [] ->
  model_in fs parse_forest (fg_testing_model_file fg) f -> data_of flat tsv fg c src ->
  1 <= fg_num_threads fg -> (forall l x, In x (src_order src l) <-> In x l) -> f <> [] ->
  gives (src_get src) k fr -> src_rows src (collect_features f) = k -> lossless k fr -> Forall (scorable fr) f ->
  (forall p, reported_at c (zlen f) p -> can_open (score_name (fg_output_dir fg) p) = true) ->
  exists W,
    main fg = (map (fun x => (score_name (fg_output_dir fg) (fst x), separated (snd x))) W, Exits) /\
    StronglySorted Z.lt (map fst W) /\ (forall p, In p (map fst W) <-> reported_at c (zlen f) p) /\
    (forall p lines, In (p, lines) W -> score_lines fr k (firstn (Z.to_nat p) f) show lines).
Proof.
  intros M Cf Od Tm Mf D Th Or Ne G Rw Ls Sc Op.
  destruct (test_writes fs can_open parse_config parse_forest print_forest show flat tsv srt top draw to_uint pick importance fg c src f) as (W & E & SS & In1 & Pr);
    try assumption.
  - intros t n I Nm. rewrite Forall_forall in Sc. destruct (scorable_named fr t n (Sc t I) Nm) as [[ty vs] F].
    destruct (G n ty vs F) as (_ & col & Gc & C). exists col. split; [exact Gc|apply C].
  - apply Forall_forall. intros t I. cbn. rewrite Rw. apply (gives_fits _ k fr t G). rewrite Forall_forall in Sc. exact (Sc t I).
  - exists (map (fun x => (fst x, map show (snd x))) W). rewrite !map_map. split; [rewrite E; reflexivity|]. split; [exact SS|]. split; [exact In1|].
    intros p lines I. apply in_map_iff in I. destruct I as ([p' sc] & X & I). cbn in X. injection X as <- <-. destruct (Pr p' sc I) as [L P].
    cbn in L. rewrite Rw in L. exists sc. split; [reflexivity|]. split; [exact L|]. intros row s R.
    assert (Forall (scorable fr) (firstn (Z.to_nat p') f)) as Sc'.
    { apply Forall_forall. intros t It. rewrite Forall_forall in Sc. apply Sc. rewrite <- (firstn_skipn (Z.to_nat p') f). apply in_or_app. left. exact It. }
    assert (forall x, score_of fr (firstn (Z.to_nat p') f) row x -> nth_error sc row = Some x) as Q.
    { intros x (ls & Hl & ->). apply P; [cbn; rewrite Rw; exact R|]. unfold leaves. cbn. clear - Hl G.
      induction Hl as [|t s' f' ls' X Hl IH]; constructor; [exact (gives_routes _ _ _ _ _ _ G X)|exact IH]. }
    split; [|exact (Q s)]. intros Es. destruct (score_total (fg_num_threads fg) Th k fr _ row (lossless_typed k fr Ls) Sc' R) as [x X]. pose proof (Q x X) as Y. congruence.
Qed.

Lemma tsv_test strtof begin order fg c more_floats more_strings first more s0 t (f : forest N) k fr :
  fg_mode fg = lit "test" -> configured fs parse_config fg c -> fg_output_dir fg <> [] -> fg_testing_model_file fg <> [] ->
  model_in fs parse_forest (fg_testing_model_file fg) f -> 1 <= fg_num_threads fg -> (forall l x, In x (order l) <-> In x l) -> f <> [] ->
  (forall p, reported_at c (zlen f) p -> can_open (score_name (fg_output_dir fg) p) = true) ->
  fg_flatfiles_dirs fg = [] -> fg_tsvs fg <> [] -> cut ","%char (fg_tsvs fg) = first :: more ->
  let cc := columns_of more_floats more_strings c in
  names_present fs first cc -> NoDup (all_names cc) -> all_names cc <> [] ->
  load_start fs (first :: more) cc = Ret s0 -> lreach fs strtof (first :: more) s0 (Done SOk t) ->
  tsv (first :: more) c = tsv_source begin order SOk t ->
  tsv_table fs strtof (first :: more) cc k fr -> lossless k fr -> Forall (scorable fr) f ->
  exists W,
    main fg = (map (fun x => (score_name (fg_output_dir fg) (fst x), separated (snd x))) W, Exits) /\
    StronglySorted Z.lt (map fst W) /\ (forall p, In p (map fst W) <-> reported_at c (zlen f) p) /\
    (forall p lines, In (p, lines) W -> score_lines fr k (firstn (Z.to_nat p) f) show lines).
Proof.
  intros M Cf Od Tm Mf Th Or Ne Op Fd Ft Cu cc P Nd Nn E0 R Ts Tb Ls Sc.
  destruct (tsv_gives fs strtof _ first more cc s0 t k fr begin order SOk eq_refl P Nd Nn E0 R Tb Ls) as [G Rw].
  apply (test_scores fg c (tsv_source begin order SOk t) f k fr); try assumption.
  - split; [reflexivity|]. right. rewrite Cu. auto.
  - apply Rw.
Qed.
End Program.

Lemma flat_test {N : Num} (fs : files_t) strtof order can_open (parse_config : str -> option (config N)) parse_forest print_forest show tsv srt top
    draw to_uint pick importance fg c (f : forest N) k fr :
  fg_mode fg = lit "test" -> configured fs parse_config fg c -> fg_output_dir fg <> [] -> fg_testing_model_file fg <> [] ->
  model_in fs parse_forest (fg_testing_model_file fg) f -> 1 <= fg_num_threads fg -> (forall l x, In x (order l) <-> In x l) ->
  (forall p, reported_at c (zlen f) p -> can_open (score_name (fg_output_dir fg) p) = true) ->
  fg_flatfiles_dirs fg <> [] -> (exists t n, In t f /\ named n t) ->
  flat_table fs strtof (cut ","%char (fg_flatfiles_dirs fg)) fr -> lossless k fr -> Forall (scorable fr) f ->
  exists W,
    main fs can_open parse_config parse_forest print_forest show (flat_source fs strtof order) tsv srt top draw to_uint pick importance fg =
      (map (fun x => (score_name (fg_output_dir fg) (fst x), separated (snd x))) W, Exits) /\
    StronglySorted Z.lt (map fst W) /\ (forall p, In p (map fst W) <-> reported_at c (zlen f) p) /\
    (forall p lines, In (p, lines) W -> score_lines fr k (firstn (Z.to_nat p) f) show lines).
Proof.
  intros M Cf Od Tm Mf Th Or Op Fd (t & n & It & Nm) Tb Ls Sc.
  apply (test_scores fs can_open parse_config parse_forest print_forest show (flat_source fs strtof order) tsv srt top draw to_uint pick importance fg c
           (flat_source fs strtof order (cut ","%char (fg_flatfiles_dirs fg))) f k fr); try assumption.
  - split; [reflexivity|]. left. auto.
  - intros ->. destruct It.
  - apply flat_gives; assumption.
  - apply (flat_rows fs strtof _ order k fr); try assumption.
    + intros Z. assert (In n (collect_features f)) as I by (apply collect_features_in; eauto). rewrite Z in I. destruct I.
    + intros n' I. apply collect_features_in in I. destruct I as (t' & It' & Nm'). rewrite Forall_forall in Sc. exact (scorable_named fr t' n' (Sc t' It') Nm').
Qed.

Lemma columns_roles {N : Num} more_floats more_strings (c : config N) n role : role_of (columns_of more_floats more_strings c) n role <->
  role = KB /\ In n (cf_float_features c) \/
  role = KR /\ (In n more_floats \/ n <> [] /\ (n = cf_target_column c \/ n = cf_weight_column c)) \/
  role = KS /\ (In n (cf_cat_features c) \/ n <> [] /\ n = cf_group_column c \/ In n more_strings).
Proof. destruct role; cbn; intuition discriminate. Qed.

(** ** TSV files that were not loaded *)
Lemma not_loaded {N : Num} fs can_open (parse_config : str -> option (config N)) parse_forest print_forest show flat tsv srt top draw to_uint pick importance
    begin order fg : fg_flatfiles_dirs fg = [] ->
  (forall c, exists e t, tsv (cut ","%char (fg_tsvs fg)) c = tsv_source begin order (SErr e) t) ->
  main fs can_open parse_config parse_forest print_forest show flat tsv srt top draw to_uint pick importance fg = ([], Dies).
Proof.
  intros Fd H.
  assert (L : forall c k, load_source flat tsv fg c k = dies).
  { intros c k. unfold load_source. rewrite Fd. cbn [given]. destruct (fg_tsvs fg) as [|x l] eqn:T; [reflexivity|]. cbn [given].
    change (lit ",") with [","%char]. rewrite (split_cut ","%char (x :: l)). cbn [lift]. destruct (H c) as (e & t & ->). reflexivity. }
  assert (C : forall b k, k = dies -> check b k = dies) by (intros [] k E; [exact E|reflexivity]).
  assert (R : forall file k, (forall x, k x = dies) -> read_or_die fs file k = dies).
  { intros file k E. unfold read_or_die. destruct (fs file) as [[|x l]|]; [reflexivity|apply E|reflexivity]. }
  assert (D : forall A (o : option A) k, (forall x, k x = dies) -> need o k = dies) by (intros A [x|] k E; [apply E|reflexivity]).
  change ([], Dies) with dies. unfold main. destruct (str_eqb (fg_mode fg) (lit "train")).
  - unfold main_train. do 2 apply C. apply R. intros text. apply D. intros c. apply L.
  - destruct (str_eqb (fg_mode fg) (lit "test")); [|reflexivity]. unfold main_test. do 3 apply C. apply R. intros text. apply D. intros c.
    unfold load_forest. apply R. intros text2. apply D. intros f. apply L.
Qed.
