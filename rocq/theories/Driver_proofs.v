(** Driver_proofs.v - the command line program (properties C67 to C69). *)
From Coq Require Import SpecFloat DecimalString DecimalFacts DecimalZ Reals Lra.
From Verif Require Import Base Base_proofs F32 Column DataStore Strings StringsSpec Strings_proofs StringsText_proofs Tsv Flatfiles Num Forest
  Config ConfigSpec Config_proofs Score ScoreSpec Eval EvalSpec Eval_proofs Tree Train TrainSpec Train_proofs Loss Pairwise Driver DriverSpec.
Local Close Scope R_scope.

(** ** Numbers and lines *)
Lemma to_int_pos z : Z.to_int z <> Decimal.Pos Decimal.Nil.
Proof. intros E. pose proof (DecimalZ.of_to z) as O. rewrite E in O. cbn in O. subst z. discriminate. Qed.
Lemma to_int_neg z : Z.to_int z <> Decimal.Neg Decimal.Nil.
Proof. intros E. pose proof (DecimalZ.of_to z) as O. rewrite E in O. cbn in O. subst z. discriminate. Qed.
Lemma dec_inj a b : dec a = dec b -> a = b.
Proof.
  intros E. unfold dec in E. apply (f_equal string_of_list_ascii) in E. rewrite !string_of_list_ascii_of_string in E.
  apply (f_equal NilZero.int_of_string) in E.
  rewrite !NilZero.isi in E by (apply to_int_pos || apply to_int_neg).
  rewrite <- (DecimalZ.of_to a), <- (DecimalZ.of_to b). congruence.
Qed.
Lemma score_name_inj dir a b : score_name dir a = score_name dir b -> a = b.
Proof.
  unfold score_name. intros E. apply app_inv_head in E. apply app_inv_head in E. apply app_inv_tail in E. apply dec_inj, E.
Qed.

Lemma join_separated ws : join ws [nl] = separated ws.
Proof. destruct ws as [|w ws]; [reflexivity|]. rewrite join_cons. reflexivity. Qed.

Lemma config_features_in {N : Num} (c : config N) x : In x (config_features c) <-> In x (cf_float_features c) \/ In x (cf_cat_features c).
Proof.
  unfold config_features.
  assert (G : forall l acc, In x (fold_left (fun acc s => set_insert s acc) l acc) <-> In x l \/ In x acc).
  { induction l as [|a l IH]; intros acc; cbn; [tauto|]. rewrite IH, set_insert_in. intuition congruence. }
  rewrite G, in_app_iff. cbn. tauto.
Qed.
Lemma config_features_nodup {N : Num} (c : config N) : NoDup (config_features c).
Proof.
  unfold config_features.
  assert (G : forall l acc, NoDup acc -> NoDup (fold_left (fun acc s => set_insert s acc) l acc)).
  { induction l as [|a l IH]; intros acc D; cbn; [exact D|]. apply IH, set_insert_nodup, D. }
  apply G. constructor.
Qed.

(** ** Running to the end *)
Lemma check_exits b k ws : check b k = (ws, Exits) <-> b = true /\ k = (ws, Exits).
Proof. destruct b; cbn; [tauto|]. split; [discriminate|]. intros [E _]. discriminate. Qed.
Lemma need_exits {A} (o : option A) k ws : need o k = (ws, Exits) <-> exists a, o = Some a /\ k a = (ws, Exits).
Proof.
  destruct o as [a|]; cbn; split; try discriminate.
  - intros E. exists a. tauto.
  - intros (b & E & K). injection E as <-. exact K.
  - intros (b & E & _). discriminate.
Qed.
Lemma lift_exits {A} (r : res A) k ws : lift r k = (ws, Exits) <-> exists a, r = Ret a /\ k a = (ws, Exits).
Proof.
  destruct r as [a| |]; cbn; split; try discriminate.
  - intros E. exists a. tauto.
  - intros (b & E & K). injection E as <-. exact K.
  - intros (b & E & _). discriminate.
  - intros (b & E & _). discriminate.
Qed.
Lemma given_iff s : given s = true <-> s <> [].
Proof. destruct s; cbn; split; congruence. Qed.
Lemma ok_iff s : ok s = true <-> s = SOk.
Proof. destruct s; cbn; split; congruence. Qed.
Lemma read_exits fs file k ws : read_or_die fs file k = (ws, Exits) <-> exists text, fs file = Some text /\ text <> [] /\ k text = (ws, Exits).
Proof.
  unfold read_or_die. destruct (fs file) as [[|a text]|]; split; try discriminate.
  - intros (t & E & Ne & _). congruence.
  - intros K. exists (a :: text). split; [reflexivity|]. split; [discriminate|exact K].
  - intros (t & E & _ & K). injection E as <-. exact K.
  - intros (t & E & _). discriminate.
Qed.
Lemma write_exits can_open file text k ws : write_file can_open file text k = (ws, Exits) <->
  can_open file = true /\ exists ws', ws = (file, text) :: ws' /\ k = (ws', Exits).
Proof.
  unfold write_file. destruct (can_open file); split; try discriminate.
  - destruct k as [ws' e]. cbn. intros E. injection E as <- ->. split; [reflexivity|]. exists ws'. tauto.
  - intros (_ & ws' & -> & ->). reflexivity.
  - intros (E & _). discriminate.
Qed.

Section Driver.
Context {N : Num}.
Variables (fs : files_t) (can_open : str -> bool)
  (parse_config : str -> option (config N)) (parse_forest : str -> option (forest N))
  (print_forest : forest N -> option str) (show : N -> str)
  (flat : list str -> source) (tsv : list str -> config N -> source)
  (srt : (nat -> nat -> bool) -> list nat -> list nat) (top : nat -> nat -> list N -> nat)
  (draw : Z -> nat -> spec_float) (to_uint : N -> res nat) (pick : Z -> nat -> nat -> nat * nat)
  (importance : forest N -> list (str * N)).
Notation main_train := (main_train fs can_open parse_config parse_forest print_forest show flat tsv srt top draw to_uint pick importance).
Notation main_test := (main_test fs can_open parse_config parse_forest show flat tsv).
Notation main := (main fs can_open parse_config parse_forest print_forest show flat tsv srt top draw to_uint pick importance).
Notation configured := (configured fs parse_config).
Notation model_in := (model_in fs parse_forest).
Notation base_given := (base_given fs parse_forest).
Notation data_of := (data_of flat tsv).

Lemma main_is_train fg : fg_mode fg = lit "train" -> main fg = main_train fg.
Proof. intros E. unfold Driver.main. rewrite E. reflexivity. Qed.
Lemma main_is_test fg : fg_mode fg = lit "test" -> main fg = main_test fg.
Proof. intros E. unfold Driver.main. rewrite E. reflexivity. Qed.
Lemma main_is_neither fg : fg_mode fg <> lit "train" -> fg_mode fg <> lit "test" -> main fg = ([], Dies).
Proof.
  intros A B. unfold Driver.main. destruct (str_eqb_spec (fg_mode fg) (lit "train")); [contradiction|].
  destruct (str_eqb_spec (fg_mode fg) (lit "test")); [contradiction|]. reflexivity.
Qed.

Lemma load_source_exits fg c k ws : load_source flat tsv fg c k = (ws, Exits) <-> exists src, data_of fg c src /\ k src = (ws, Exits).
Proof.
  unfold load_source, DriverSpec.data_of. destruct (fg_flatfiles_dirs fg) as [|a d] eqn:D; cbn [given].
  - destruct (fg_tsvs fg) as [|b t] eqn:T; cbn [given].
    + split; [discriminate|]. intros (src & (_ & [(E & _)|(_ & E & _)]) & _); congruence.
    + rewrite lift_exits. change (lit ",") with [","%char]. rewrite split_cut. split.
      * intros (files & E & K). injection E as <-. apply check_exits in K. destruct K as [S0 K]. apply ok_iff in S0.
        eexists. split; [|exact K]. split; [exact S0|]. right. split; [reflexivity|]. split; [discriminate|reflexivity].
      * intros (src & (S0 & [(E & _)|(_ & _ & ->)]) & K); [congruence|]. eexists. split; [reflexivity|].
        apply check_exits. split; [apply ok_iff, S0|exact K].
  - rewrite lift_exits. change (lit ",") with [","%char]. rewrite split_cut. split.
    * intros (files & E & K). injection E as <-. apply check_exits in K. destruct K as [S0 K]. apply ok_iff in S0.
      eexists. split; [|exact K]. split; [exact S0|]. left. split; [discriminate|reflexivity].
    * intros (src & (S0 & [(_ & ->)|(E & _)]) & K); [|congruence]. eexists. split; [reflexivity|].
      apply check_exits. split; [apply ok_iff, S0|exact K].
Qed.

Lemma load_forest_exits file k ws : load_forest fs parse_forest file k = (ws, Exits) <-> exists f, model_in file f /\ k f = (ws, Exits).
Proof.
  unfold load_forest, DriverSpec.model_in. rewrite read_exits. split.
  - intros (text & E & Ne & K). apply need_exits in K. destruct K as (f & P & K). exists f. split; [exists text; tauto|exact K].
  - intros (f & (text & E & Ne & P) & K). exists text. split; [exact E|]. split; [exact Ne|]. apply need_exits. exists f. tauto.
Qed.
Lemma base_exits fg k ws :
  load_base fs parse_forest fg k = (ws, Exits) <->
  exists base, base_given fg base /\ k base = (ws, Exits).
Proof.
  unfold load_base. destruct (given (fg_base_model_file fg)) eqn:G.
  - rewrite load_forest_exits. apply given_iff in G. split.
    + intros (f & M & K). exists (Some f). split; [split; assumption|exact K].
    + intros ([b|] & B & K); [|contradiction]. destruct B as [_ M]. exists b. tauto.
  - assert (E : fg_base_model_file fg = []) by (destruct (fg_base_model_file fg); [reflexivity|discriminate]). split.
    + intros K. exists None. split; [exact E|exact K].
    + intros ([b|] & B & K); [|exact K]. destruct B as [Ne _]. contradiction.
Qed.
Lemma config_exits fg k ws :
  (fg_config_file fg <> [] /\ read_or_die fs (fg_config_file fg) (fun t => need (parse_config t) k) = (ws, Exits)) <->
  exists c, configured fg c /\ k c = (ws, Exits).
Proof.
  rewrite read_exits. unfold DriverSpec.configured. split.
  - intros (Ne & text & E & Nt & K). apply need_exits in K. destruct K as (c & P & K). exists c. split; [|exact K].
    split; [exact Ne|]. exists text. tauto.
  - intros (c & (Ne & text & E & Nt & P) & K). split; [exact Ne|]. exists text. split; [exact E|]. split; [exact Nt|].
    apply need_exits. exists c. tauto.
Qed.

Lemma importance_separated imps : importance_text show imps = separated (report show imps).
Proof. unfold importance_text, report. rewrite join_separated. reflexivity. Qed.

Lemma main_train_exits fg ws : fg_mode fg = lit "train" ->
  (main fg = (ws, Exits) <->
   exists c src base lf w y r text,
     configured fg c /\ fg_output_dir fg <> [] /\ data_of fg c src /\ base_given fg base /\
     create_loss srt (fg_num_threads fg) to_uint (pick (fg_seed fg)) c = Some lf /\
     sample_weights c (src_get src) = Ret w /\ targets c (src_get src) = Ret y /\
     train (source_view src (asked_for_training c)) (fg_num_threads fg) top (draw (fg_seed fg)) 0 srt (config_features c) w y lf c base = Ret r /\
     tr_status r = SOk /\ print_forest (tr_forest r) = Some text /\
     can_open (out_file fg ".json") = true /\ can_open (out_file fg ".fimps") = true /\
     ws = [(out_file fg ".json", text); (out_file fg ".fimps", separated (report show (importance (tr_forest r))))]).
Proof.
  intros M. rewrite (main_is_train fg M). unfold Driver.main_train. rewrite !check_exits, !given_iff. split.
  - intros (Nc & Nd & K). destruct (proj1 (config_exits fg _ ws) (conj Nc K)) as (c & Cf & K1).
    apply load_source_exits in K1. destruct K1 as (src & D & K2). apply base_exits in K2. destruct K2 as (base & B & K3).
    apply need_exits in K3. destruct K3 as (lf & L & K4). apply lift_exits in K4. destruct K4 as (w & W & K5).
    apply lift_exits in K5. destruct K5 as (y & Y & K6). apply lift_exits in K6. destruct K6 as (r & R & K7).
    apply check_exits in K7. destruct K7 as (S0 & K8). apply ok_iff in S0. apply need_exits in K8. destruct K8 as (text & P & K9).
    apply write_exits in K9. destruct K9 as (O1 & ws1 & -> & K10). apply write_exits in K10. destruct K10 as (O2 & ws2 & -> & K11).
    injection K11 as <-. rewrite importance_separated. unfold out_file. rewrite <- !app_assoc in *.
    exists c, src, base, lf, w, y, r, text. tauto.
  - intros (c & src & base & lf & w & y & r & text & Cf & Nd & D & B & L & W & Y & R & S0 & P & O1 & O2 & ->).
    split; [apply Cf|]. split; [exact Nd|]. apply config_exits. exists c. split; [exact Cf|].
    apply load_source_exits. exists src. split; [exact D|]. apply base_exits. exists base. split; [exact B|].
    apply need_exits. exists lf. split; [exact L|]. apply lift_exits. exists w. split; [exact W|]. apply lift_exits. exists y.
    split; [exact Y|]. apply lift_exits. exists r. split; [exact R|]. apply check_exits. split; [apply ok_iff, S0|].
    apply need_exits. exists text. split; [exact P|]. unfold out_file in *. rewrite !importance_separated, <- !app_assoc in *.
    apply write_exits. split; [exact O1|]. eexists. split; [reflexivity|]. apply write_exits. split; [exact O2|].
    eexists. split; reflexivity.
Qed.

(** When training does not reach the end, nothing was written, or the model only. *)
Lemma main_train_fails fg ws e : fg_mode fg = lit "train" -> main fg = (ws, e) -> e <> Exits ->
  ws = [] \/ exists text, ws = [(out_file fg ".json", text)] /\ e = Dies /\ can_open (out_file fg ".fimps") = false.
Proof.
  intros M E Ne. rewrite (main_is_train fg M) in E. unfold Driver.main_train, load_source, load_base, load_forest in E.
  unfold check, need, lift, read_or_die, dies in E.
  repeat match type of E with
  | context [match write_file _ _ _ _ with _ => _ end] => fail 1
  | (if ?b then _ else _) = _ => destruct b
  | match ?x with _ => _ end = _ => destruct x
  end;
  try (injection E as <- <-; left; reflexivity);
  unfold write_file in E; unfold out_file; rewrite <- !app_assoc in *;
  (destruct (can_open (fg_output_dir fg ++ lit "/" ++ fg_output_model_name fg ++ lit ".json"));
   [destruct (can_open (fg_output_dir fg ++ lit "/" ++ fg_output_model_name fg ++ lit ".fimps")) eqn:O; cbn in E; injection E as <- <-;
    [congruence|right; eexists; repeat split]
   |injection E as <- <-; left; reflexivity]).
Qed.

(** ** Testing *)
Lemma main_test_exits fg ws : fg_mode fg = lit "test" ->
  (main fg = (ws, Exits) <->
   exists c src f W,
     configured fg c /\ fg_output_dir fg <> [] /\ fg_testing_model_file fg <> [] /\ model_in (fg_testing_model_file fg) f /\ data_of fg c src /\
     evaluate_checkpoints (source_view src (collect_features f)) (fg_num_threads fg)
       (fun p => can_open (score_name (fg_output_dir fg) p)) f (test_points c (zlen f)) = Ret (SOk, W) /\
     ws = map (fun x => (score_name (fg_output_dir fg) (fst x), separated (map show (snd x)))) W).
Proof.
  intros M. rewrite (main_is_test fg M). unfold Driver.main_test. rewrite !check_exits, !given_iff.
  assert (Tx : forall sc, score_text show sc = separated (map show sc)) by (intros sc; apply join_separated). split.
  - intros (Nc & Nm & Nd & K). destruct (proj1 (config_exits fg _ ws) (conj Nc K)) as (c & Cf & K1).
    apply load_forest_exits in K1. destruct K1 as (f & Mf & K2). apply load_source_exits in K2. destruct K2 as (src & D & K3).
    apply lift_exits in K3. destruct K3 as ([s W] & E & K4). cbn [fst snd] in K4.
    destruct s as [|e]; cbn [ok] in K4; [|discriminate]. injection K4 as <-.
    exists c, src, f, W. do 6 (split; [assumption|]). apply map_ext. intros x. rewrite Tx. reflexivity.
  - intros (c & src & f & W & Cf & Nd & Nm & Mf & D & E & ->).
    split; [apply Cf|]. split; [exact Nm|]. split; [exact Nd|]. apply config_exits. exists c. split; [exact Cf|].
    apply load_forest_exits. exists f. split; [exact Mf|]. apply load_source_exits. exists src. split; [exact D|].
    apply lift_exits. eexists. split; [exact E|]. cbn [fst snd ok]. f_equal. apply map_ext. intros x. rewrite Tx. reflexivity.
Qed.

Lemma points_reported (c : config N) (f : forest N) : f <> [] ->
  StronglySorted Z.lt (test_points c (zlen f)) /\ (forall p, In p (test_points c (zlen f)) -> (1 <= p <= zlen f)%Z) /\
  forall p, In p (test_points c (zlen f)) <-> reported_at c (zlen f) p.
Proof.
  intros Ne. assert (L : (0 < zlen f)%Z) by (unfold zlen; destruct f; [congruence|cbn; lia]). unfold reported_at.
  destruct (Z.ltb_spec 0 (cf_eval_interval c)) as [I|I].
  - destruct (test_points_spec c (zlen f) I) as (P & S & _). split; [exact S|]. split; [|exact P].
    intros p Ip. apply P in Ip. lia.
  - rewrite (test_points_default c _ I). split; [repeat constructor|]. split; intros p; cbn.
    + intros [<-|[]]. lia.
    + split; [intros [<-|[]]; reflexivity|intros ->; left; reflexivity].
Qed.

Lemma test_writes fg c src (f : forest N) : fg_mode fg = lit "test" ->
  configured fg c -> fg_output_dir fg <> [] -> fg_testing_model_file fg <> [] -> model_in (fg_testing_model_file fg) f -> data_of fg c src ->
  let v := source_view src (collect_features f) in
  1 <= fg_num_threads fg -> reorders v -> loads v f -> forest_fits v f -> f <> [] ->
  (forall p, reported_at c (zlen f) p -> can_open (score_name (fg_output_dir fg) p) = true) ->
  exists W,
    main fg = (map (fun x => (score_name (fg_output_dir fg) (fst x), separated (map show (snd x)))) W, Exits) /\
    StronglySorted Z.lt (map fst W) /\ (forall p, In p (map fst W) <-> reported_at c (zlen f) p) /\
    (forall p sc, In (p, sc) W -> predictions v (firstn (Z.to_nat p) f) sc).
Proof.
  intros M Cf Nd Nm Mf D v Th Or Lo Fit Ne Op.
  destruct (points_reported c f Ne) as (Ss & Rg & Rp).
  destruct (checkpoints_ok v (fg_num_threads fg) (fun p => can_open (score_name (fg_output_dir fg) p)) f (test_points c (zlen f)) Th Or Lo Fit)
    as (W & done & rest & s & (SW & IW & PW) & EW & E & _ & R).
  assert (IW' : forall p, In p (map fst W) <-> reported_at c (zlen f) p).
  { intros p. rewrite IW, written_increasing, Rp; [reflexivity|exact Ss|exact Rg]. }
  destruct R as [[-> ->]|(p & sc & rest' & -> & Cn & _)].
  - rewrite app_nil_r in EW. subst done. exists W. split; [|tauto]. apply main_test_exits; [exact M|].
    exists c, src, f, W. tauto.
  - exfalso. assert (I : In p (map fst W)) by (rewrite EW, map_app; apply in_elt). apply IW' in I. rewrite (Op p I) in Cn. discriminate.
Qed.
End Driver.

Lemma evaluated_loads {N : Num} v threads (f : forest N) sc : reorders v -> evaluate_forest v threads f = Ret (SOk, sc) -> loads v f.
Proof.
  intros Or E. apply (loads_collected v f Or). unfold evaluate_forest in E.
  pose proof (load_features_ok (v_get v) (v_order v (collect_features f))) as [[H1 _] _].
  destruct (load_features _ _) as [[|e] cs]; [apply H1; reflexivity|discriminate].
Qed.
Lemma predictions_fun {N : Num} v (f : forest N) a b : forest_fits v f -> predictions v f a -> predictions v f b -> a = b.
Proof.
  intros Fit [La Pa] [Lb Pb]. apply Hist_proofs.list_nth_ext. intros i. destruct (Nat.lt_ge_cases i (v_rows v)) as [Lt|Ge].
  - destruct (leaves_total v f i Fit Lt) as [ls Hl]. rewrite (Pa i ls Lt Hl), (Pb i ls Lt Hl). reflexivity.
  - rewrite (proj2 (nth_error_None a i)), (proj2 (nth_error_None b i)) by lia. reflexivity.
Qed.

Lemma train_then_test (fs' : files_t) can_open' (parse_config : str -> option (config Exact)) parse_forest print_forest show flat tsv srt top
    draw to_uint pick importance fg fg' c src base lf w y r text :
  train (source_view src (asked_for_training c)) (fg_num_threads fg) top (draw (fg_seed fg)) 0 srt (config_features c) w y lf c base = Ret r ->
  tr_status r = SOk ->
  training (source_view src (asked_for_training c)) (fg_num_threads fg) top srt (config_features c) w lf ->
  (forall b, base = Some b -> base_ok (source_view src (asked_for_training c)) b) ->
  fg_mode fg' = lit "test" -> configured fs' parse_config fg' c -> data_of flat tsv fg' c src ->
  fg_output_dir fg' <> [] -> fg_testing_model_file fg' = out_file fg ".json" ->
  fs' (out_file fg ".json") = Some text -> text <> [] -> parse_forest text = Some (tr_forest r) ->
  src_rows src (collect_features (tr_forest r)) = src_rows src (asked_for_training c) -> 1 <= fg_num_threads fg' ->
  (forall p, reported_at c (zlen (tr_forest r)) p -> can_open' (score_name (fg_output_dir fg') p) = true) ->
  exists others,
    main (N := Exact) fs' can_open' parse_config parse_forest print_forest show flat tsv srt top draw to_uint pick importance fg' =
      (others ++ [(score_name (fg_output_dir fg') (zlen (tr_forest r)), separated (map show (tr_f r)))], Exits).
Proof.
  intros E S0 Tr Bo M Cf' D' Nd Tm Fm Nt Pf Rw Th Op.
  destruct (train_predicts _ _ _ _ _ _ _ _ _ _ _ _ _ Tr Bo E S0) as (Ev & Fit & Pr).
  set (v := source_view src (asked_for_training c)) in *. set (f := tr_forest r) in *.
  assert (Vv : source_view src (collect_features f) = v) by (unfold v, source_view; rewrite Rw; reflexivity).
  assert (Or : reorders v) by (exact (ts_order _ _ _ _ _ _ _ Tr)).
  pose proof (evaluated_loads v _ f _ Or Ev) as Lo.
  assert (Ne : f <> []).
  { unfold f. destruct (train_inv v (fg_num_threads fg) top (draw (fg_seed fg)) 0 srt (config_features c) w y lf c base r E (or_introl S0))
      as (? & ? & ? & st0 & k & trees & st & _ & _ & _ & _ & _ & _ & R0).
    assert (G : forall todo i k trees st gd ls pos, rounds v (fg_num_threads fg) top (draw (fg_seed fg)) srt w x c lf todo i k trees st gd ls pos = Ret r -> tr_forest r <> []).
    { clear. induction todo as [|todo IH]; intros i k trees st gd ls pos R; cbn [rounds] in R; [injection R as <-; discriminate|].
      apply bind_ret in R. destruct R as ([[[x0 gd'] ls'] pos'] & _ & R). destruct (nfinite x0); [|injection R as <-; discriminate].
      apply bind_ret in R. destruct R as ([t pos2] & _ & R). apply bind_ret in R. destruct R as (st' & _ & R). apply IH in R. exact R. }
    exact (G _ _ _ _ _ _ _ _ R0). }
  destruct (test_writes fs' can_open' parse_config parse_forest print_forest show flat tsv srt top draw to_uint pick importance fg' c src f M Cf' Nd)
    as (W & Em & SW & IW & PW).
  - rewrite Tm. unfold out_file. destruct (fg_output_dir fg); discriminate.
  - rewrite Tm. exists text. tauto.
  - exact D'.
  - exact Th.
  - rewrite Vv. exact Or.
  - rewrite Vv. exact Lo.
  - rewrite Vv. exact Fit.
  - exact Ne.
  - exact Op.
  - rewrite Vv in PW. assert (L : (0 < zlen f)%Z) by (unfold zlen; destruct f; [congruence|cbn; lia]).
    assert (Rt : reported_at c (zlen f) (zlen f)).
    { unfold reported_at. destruct (Z.ltb_spec 0 (cf_eval_interval c)); [|reflexivity]. split; [lia|]. rewrite Z.sub_diag. apply Z.mod_0_l. lia. }
    assert (Mx : forall p, reported_at c (zlen f) p -> (p <= zlen f)%Z).
    { intros p. unfold reported_at. destruct (0 <? cf_eval_interval c)%Z; lia. }
    assert (Lst : exists W' sc, W = W' ++ [(zlen f, sc)]).
    { assert (I : In (zlen f) (map fst W)) by (apply IW, Rt). apply in_map_iff in I. destruct I as ([p sc] & Ep & I). cbn in Ep. subst p.
      apply in_split in I. destruct I as (W1 & W2 & ->). destruct W2 as [|[q sq] W2]; [eauto|]. exfalso.
      rewrite map_app in SW. cbn in SW.
      assert (Lt : (zlen f < q)%Z).
      { clear - SW. induction W1 as [|z W1 IH]; cbn in SW; inversion SW as [|? ? S' F]; subst; [inversion F; assumption|apply IH, S']. }
      assert (In q (map fst (W1 ++ (zlen f, sc) :: (q, sq) :: W2))).
      { rewrite map_app. apply in_or_app. right. right. left. reflexivity. }
      apply IW, Mx in H. lia. }
    destruct Lst as (W' & sc & ->). rewrite Em, map_app. cbn [map fst snd]. eexists. f_equal. f_equal. repeat f_equal.
    assert (P : predictions v (firstn (Z.to_nat (zlen f)) f) sc) by (apply PW, in_elt).
    unfold zlen in P. rewrite Nat2Z.id, firstn_all in P. symmetry. exact (eq_sym (predictions_fun v f _ _ Fit P Pr)).
Qed.

(** Forests that are only constants, tested on flat files. *)
Lemma constant_test {N : Num} (fs : files_t) strtof order can_open (parse_config : str -> option (config N)) parse_forest print_forest show tsv srt top
    draw to_uint pick importance fg c (f : forest N) :
  fg_mode fg = lit "test" -> configured fs parse_config fg c -> fg_output_dir fg <> [] -> fg_testing_model_file fg <> [] ->
  model_in fs parse_forest (fg_testing_model_file fg) f -> fg_flatfiles_dirs fg <> [] -> 1 <= fg_num_threads fg ->
  (forall l x, In x (order l) <-> In x l) -> f <> [] -> (forall t, In t f -> exists s, t = TNode s None TNone TNone) ->
  (forall p, can_open (score_name (fg_output_dir fg) p) = true) ->
  exists points, (forall p, In p points <-> reported_at c (zlen f) p) /\
    main fs can_open parse_config parse_forest print_forest show (flat_source fs strtof order) tsv srt top draw to_uint pick importance fg =
      (map (fun p => (score_name (fg_output_dir fg) p, [])) points, Exits).
Proof.
  intros M Cf Nd Nm Mf Nf Th Or Ne Ct Op.
  assert (Nn : forall t n, In t f -> ~ named n t).
  { intros t n I Hn. destruct (Ct t I) as [s ->]. inversion Hn; match goal with H : named _ TNone |- _ => inversion H end. }
  assert (Cn : collect_features f = []).
  { destruct (collect_features f) as [|x l] eqn:E; [reflexivity|]. exfalso.
    destruct (proj1 (collect_features_in f x)) as (t & I & Hn); [rewrite E; left; reflexivity|]. exact (Nn t x I Hn). }
  destruct (test_writes fs can_open parse_config parse_forest print_forest show (flat_source fs strtof order) tsv srt top draw to_uint pick importance fg c
    (flat_source fs strtof order (cut ","%char (fg_flatfiles_dirs fg))) f M Cf Nd Nm Mf) as (W & E & _ & IW & PW).
  - split; [reflexivity|]. left. split; [exact Nf|reflexivity].
  - exact Th.
  - exact Or.
  - intros t n I Hn. destruct (Nn t n I Hn).
  - apply Forall_forall. intros t I. destruct (Ct t I) as [s ->]. exact Logic.I.
  - exact Ne.
  - intros p _. apply Op.
  - exists (map fst W). split; [exact IW|]. rewrite E. f_equal. rewrite map_map. apply map_ext_in. intros [p sc] I. cbn [fst snd].
    destruct (PW p sc I) as [L _]. rewrite Cn in L. cbn in L. destruct sc; [reflexivity|discriminate].
Qed.

(** ** The columns that training reads *)
Lemma get_raw_none get n : (forall l, ~ raw_values get n l) -> get_raw get n = None.
Proof.
  intros H. unfold get_raw. destruct (get n) as [col|] eqn:E; [|reflexivity]. destruct (c_body col) as [b|r|s] eqn:B; try reflexivity.
  destruct (H (r_floats r)). exists col, r. auto.
Qed.
Lemma vget_nth {A} (l : list A) i x : nth_error l i = Some x -> vget l i = Ret x.
Proof. unfold vget. intros ->. reflexivity. Qed.
Lemma weights_read {N : Num} (c : config N) get :
  (cf_weight_column c = [] -> exists w, sample_weights c get = Ret w /\ forall i, w i = Ret (f32_of_Z 1)) /\
  (forall l, cf_weight_column c <> [] -> raw_values get (cf_weight_column c) l ->
     exists w, sample_weights c get = Ret w /\ forall i x, nth_error l i = Some x -> w i = Ret x) /\
  (cf_weight_column c <> [] -> (forall l, ~ raw_values get (cf_weight_column c) l) -> sample_weights c get = Fatal).
Proof.
  unfold sample_weights. split; [|split].
  - intros ->. eexists. split; [reflexivity|]. intros i. reflexivity.
  - intros l NE (col & r & G & B & <-). destruct (cf_weight_column c) as [|a t]; [congruence|]. unfold get_raw. rewrite G, B.
    eexists. split; [reflexivity|]. intros i x X. apply vget_nth. exact X.
  - intros NE H. destruct (cf_weight_column c) as [|a t]; [congruence|]. rewrite (get_raw_none _ _ H). reflexivity.
Qed.
Lemma targets_read {N : Num} (c : config N) get :
  (forall l, cf_target_column c <> [] -> raw_values get (cf_target_column c) l ->
     exists y, targets c get = Ret y /\ forall i x, nth_error l i = Some x ->
       y i = Ret (if cf_binarize_target c then f32_of_Z (if fltb f32_zero x then 1 else -1) else x)) /\
  (cf_target_column c = [] \/ (forall l, ~ raw_values get (cf_target_column c) l) -> targets c get = Fatal).
Proof.
  unfold targets. split.
  - intros l NE (col & r & G & B & <-). destruct (cf_target_column c) as [|a t]; [congruence|]. unfold get_raw. rewrite G, B.
    eexists. split; [reflexivity|]. intros i x X. cbv beta. rewrite (vget_nth _ _ _ X). cbn [bind].
    destruct (cf_binarize_target c); [destruct (fltb f32_zero x)|]; reflexivity.
  - intros [->|H]; [reflexivity|]. destruct (cf_target_column c) as [|a t]; [reflexivity|]. rewrite (get_raw_none _ _ H). reflexivity.
Qed.
Lemma group_read {N : Num} (c : config N) get :
  (cf_group_column c = [] -> group_column c get = Ret None) /\
  (forall s, cf_group_column c <> [] -> text_column get (cf_group_column c) s -> group_column c get = Ret (Some s)) /\
  (cf_group_column c <> [] -> (forall s, ~ text_column get (cf_group_column c) s) -> group_column c get = Fatal).
Proof.
  unfold group_column. split; [intros ->; reflexivity|]. split.
  - intros s NE (col & G & B). destruct (cf_group_column c) as [|a t]; [congruence|]. rewrite G, B. reflexivity.
  - intros NE H. destruct (cf_group_column c) as [|a t]; [congruence|]. destruct (get (a :: t)) as [col|] eqn:G; [|reflexivity].
    destruct (c_body col) as [b|r|s] eqn:B; try reflexivity. destruct (H s). exists col. auto.
Qed.
