(** Loaded_proofs.v - the messages that are read from text, and the files of the command line program (property C96). *)
From Coq Require Import SpecFloat Reals Lia ZArith.
From Verif Require Import Base Base_proofs F32 Column DataStore Num Strings Tsv Flatfiles Forest Config Score Eval EvalSpec ScoreSpec Tree Train Loss Pairwise Driver DriverSpec Driver_proofs Stopwatch Print PrintSpec Print_proofs SplitSpec
  AccuracySpec Draw Saved SavedSpec TrainedSpec Saved_proofs SpellingSpec Spelling_proofs Trained_proofs JsonText JsonSpec JsonText_proofs JsonSound_proofs JsonWrite_proofs Options.
Local Close Scope R_scope.

(** All numbers are doubles. *)
Inductive doubles : json -> Prop :=
| DoublesBool b : doubles (JBool b)
| DoublesNum x : any_double x -> doubles (JNum x)
| DoublesStr s : doubles (JStr s)
| DoublesList l : Forall doubles l -> doubles (JList l)
| DoublesDict l : Forall (fun m => doubles (snd m)) l -> doubles (JDict l).
Lemma nearest_valid neg n k : any_double (nearest_double neg n k).
Proof. unfold nearest_double. destruct n; try reflexivity. destruct (0 <=? k)%Z; apply divided_valid. Qed.
Lemma text_doubles : (forall j t, json_text j t -> doubles j) /\ (forall l t, items_text l t -> Forall doubles l) /\ (forall l t, members_text l t -> Forall (fun m => doubles (snd m)) l).
Proof.
  apply json_text_all; intros; try (constructor; auto; fail).
  - constructor. destruct j. apply nearest_valid.
Qed.
Lemma read_doubles s j : parse_json s = Some j -> doubles j.
Proof. intros H. apply read_document in H. destruct H as (a & t & b & _ & T & _). apply (proj1 text_doubles j t T). Qed.

Lemma field_in {A} (convert : json -> option A) names l a : field convert names l = Some (Some a) -> exists k v, In (k, v) l /\ In k names /\ convert v = Some a.
Proof.
  induction l as [|[k v] l IH]; cbn [field]; [discriminate|]. destruct (existsb (str_eqb k) names) eqn:E.
  - destruct (convert v) as [b|] eqn:C; [|discriminate]. intros H. injection H as <-. apply existsb_exists in E. destruct E as (k' & I & E). destruct (str_eqb_spec k k') as [<-|]; [|discriminate E]. exists k, v. split; [left; reflexivity|auto].
  - intros H. destruct (IH H) as (k' & v' & I & R). exists k', v'. split; [right; exact I|exact R].
Qed.
Lemma field_doubles {A} (convert : json -> option A) names l x (P : A -> Prop) d : Forall (fun m => doubles (snd m)) l -> field convert names l = Some x ->
  (forall j a, doubles j -> convert j = Some a -> P a) -> P d -> P (otherwise d x).
Proof.
  intros D H C Pd. destruct x as [a|]; [|exact Pd]. apply field_in in H. destruct H as (k & v & I & _ & E). cbn [otherwise]. rewrite Forall_forall in D. exact (C v a (D (k, v) I) E).
Qed.
Lemma double_in j x : doubles j -> json_double j = Some x -> any_double x.
Proof.
  destruct j; cbn [json_double]; try discriminate; intros D H; [injection H as <-; inversion D; assumption|].
  repeat match type of H with (if ?b then _ else _) = _ => destruct b end; try discriminate; injection H as <-; reflexivity.
Qed.
Lemma float_in j x : json_float j = Some x -> a_float x.
Proof. unfold json_float. destruct (json_double j) as [y|]; [|discriminate]. cbn [obind]. destruct (beyond y); [discriminate|]. intros H. injection H as <-. apply format_float. Qed.
Lemma plain_float x : a_float x -> a_float (plain_zero x).
Proof. destruct x; auto. Qed.
Lemma plain_double x : any_double x -> any_double (plain_zero x).
Proof. destruct x; auto. Qed.

Section Messages.
Context {c_exp c_log : f64 -> f64}.
Notation N := (IEEE c_exp c_log).
Ltac step H := match type of H with obind ?m _ = _ => let E := fresh "E" in destruct m eqn:E; [|discriminate H]; cbn [obind] in H end.
Lemma float_split_in j x : doubles j -> float_split_of j = Some x -> a_float (fst x).
Proof.
  intros D H. destruct j as [| | | |l]; try discriminate H. cbn [float_split_of] in H. destruct (known _ l); [|discriminate]. step H. step H. injection H as <-. cbn [fst]. apply plain_float.
  inversion D as [| | | |? F]; subst. apply (field_doubles json_float _ l o a_float _ F E); [|reflexivity]. intros j a _. apply float_in.
Qed.
Lemma split_in j (x : split N) : doubles j -> split_of j = Some x -> typed_split x.
Proof.
  intros D H. destruct j as [| | | |l]; try discriminate H. cbn [split_of] in H. destruct (known _ l); [|discriminate]. do 4 step H. injection H as <-. inversion D as [| | | |? F]; subst. split; cbn [sp_float sp_gain].
  - intros t m ->. apply field_in in E0. destruct E0 as (k & v & I & _ & C). rewrite Forall_forall in F. apply (float_split_in v (t, m) (F (k, v) I) C).
  - apply plain_double. apply (field_doubles json_double _ l o2 any_double _ F E2); [|reflexivity]. intros j a. apply double_in.
Qed.
Lemma tree_in : forall j (t : tree N), doubles j -> tree_of j = Some t -> typed_tree t.
Proof.
  induction j as [b|x|s|l _|l IH] using json_nested; intros t D H; try discriminate H. cbn [tree_of] in H. destruct (known _ l); [|discriminate]. do 4 step H. injection H as <-. inversion D as [| | | |? F]; subst.
  assert (forall names x, field tree_of names l = Some x -> typed_tree (c_exp := c_exp) (c_log := c_log) (otherwise TNone x)) as K.
  { intros names x Hx. destruct x as [t|]; [|exact I]. apply field_in in Hx. destruct Hx as (k & v & I & _ & C). rewrite Forall_forall in F, IH. apply (IH (k, v) I t (F (k, v) I) C). }
  cbn [typed_tree]. split; [|split; [|split; eapply K; eassumption]].
  - eexists. split; [|reflexivity]. apply plain_float, (field_doubles json_float _ l o a_float _ F E); [|reflexivity]. intros j a _. apply float_in.
  - intros x ->. apply field_in in E0. destruct E0 as (k & v & I & _ & C). rewrite Forall_forall in F. apply (split_in v x (F (k, v) I) C).
Qed.
Lemma elements_in {A} (convert : json -> option A) l : forall r a, elements convert l = Some r -> In a r -> exists j, In j l /\ convert j = Some a.
Proof.
  induction l as [|j l IH]; intros r a H I; cbn [elements] in H; [injection H as <-; destruct I|]. step H. step H. injection H as <-. destruct I as [<-|I]; [exists j; split; [left; reflexivity|exact E]|].
  destruct (IH _ a eq_refl I) as (j' & I' & C). exists j'. split; [right; exact I'|exact C].
Qed.
Lemma forest_in j (f : forest N) m : doubles j -> forest_of j = Some (f, m) -> Forall typed_tree f /\ ~ In TNone f.
Proof.
  intros D H. destruct j as [| | | |l]; try discriminate H. cbn [forest_of] in H. destruct (known _ l); [|discriminate]. step H. step H. injection H as <- <-. inversion D as [| | | |? F]; subst.
  destruct o as [ts|]; [|split; [constructor|intros []]]. apply field_in in E. destruct E as (k & v & I & _ & C). rewrite Forall_forall in F. specialize (F (k, v) I). destruct v as [| | |js|]; try discriminate C. cbn [json_list] in C. inversion F as [| | |? G|]; subst.
  cbn [otherwise]. split.
  - apply Forall_forall. intros t It. destruct (elements_in tree_of js ts t C It) as (j & Ij & Cj). rewrite Forall_forall in G. exact (tree_in j t (G j Ij) Cj).
  - intros It. destruct (elements_in tree_of js ts TNone C It) as (j & Ij & Cj). destruct j as [| | | |l']; try discriminate Cj. cbn [tree_of] in Cj. destruct (known _ l'); [|discriminate]. do 4 step Cj. discriminate Cj.
Qed.
Lemma read_typed text (f : forest N) m : read_forest text = Some (f, m) -> Forall typed_tree f /\ ~ In TNone f.
Proof. unfold read_forest. destruct (parse_json text) as [j|] eqn:E; [|discriminate]. apply forest_in, (read_doubles text), E. Qed.

Lemma document_loaded reread regain (f : forest N) meta s : float_writer reread -> double_writer regain -> Forall writable_tree f -> ~ In TNone f ->
  json_document (forest_json reread regain f meta) s -> exists f', read_forest s = Some (f', meta) /\ Forall2 like f f' /\ Forall no_minus_zero f'.
Proof. intros Wf Wd W T D. destruct (forest_read reread regain Wf Wd f meta W T) as (f' & E & R). exists f'. split; [|exact R]. unfold read_forest. rewrite (document_read _ _ D). exact E. Qed.
Lemma text_loaded (f : forest N) meta : Forall writable_tree f -> ~ In TNone f -> exists f', read_forest (forest_text 9 f meta) = Some (f', meta) /\ Forall2 like f f' /\ Forall no_minus_zero f'.
Proof. intros W T. apply (document_loaded (float_text 9) double_text f meta); [exact float_text_ok|exact double_text_ok|exact W|exact T|]. apply (forest_written 8), W. Qed.
Lemma text_spelling j j' s s' (r : forest N * str) : respelled j j' -> json_document j s -> json_document j' s' -> read_forest s = Some r -> read_forest s' = Some r.
Proof. intros R D D'. unfold read_forest. rewrite (document_read _ _ D), (document_read _ _ D'). apply (respelled_kept j j' r R). Qed.

Lemma option_in {A} (convert : json -> option A) d name l a (P : A -> Prop) : Forall (fun m => doubles (snd m)) l -> option_value convert d name l = Some a ->
  (forall j a, doubles j -> convert j = Some a -> P a) -> P d -> P a.
Proof.
  intros D H C Pd. unfold option_value in H. step H. injection H as <-. exact (field_doubles convert _ l o P d D E C Pd).
Qed.
Lemma zero_free_double j x : doubles j -> zero_free json_double j = Some x -> any_double x.
Proof. intros D H. unfold zero_free in H. step H. injection H as <-. apply plain_double, (double_in j); assumption. Qed.
Lemma config_in j (c : config N) more : doubles j -> config_of j = Some (c, more) -> any_double (cf_l2_lambda c).
Proof.
  intros D H. destruct j as [| | | |l]; try discriminate H. cbn [config_of] in H. destruct (known _ l); [|discriminate]. do 22 step H. injection H as <- _. cbn [cf_l2_lambda]. inversion D as [| | | |? F]; subst.
  apply (option_in (zero_free json_double) (S754_zero false) "l2_lambda" l s1 any_double F E3); [exact zero_free_double|reflexivity].
Qed.
End Messages.

(** ** Files *)
Section Files.
Context {c_exp c_log : f64 -> f64}.
Notation N := (IEEE c_exp c_log).
Context (fs : files_t) (can_open : str -> bool) (meta : forest N -> str) (show : N -> str) (flat : list str -> source) (tsv : list str -> config N -> source)
  (srt : (nat -> nat -> bool) -> list nat -> list nat) (top : nat -> nat -> list N -> nat) (draw : Z -> nat -> spec_float) (to_uint : N -> res nat) (pick : Z -> nat -> nat -> nat * nat)
  (importance : forest N -> list (str * N)).
Notation main := (main fs can_open text_config text_forest (forest_file meta) show flat tsv srt top draw to_uint pick importance).
Lemma files_train fg ws : gives_doubles c_exp -> gives_doubles c_log -> fg_mode fg = lit "train" -> main fg = (ws, Exits) ->
  exists c src base lf w y r text, configured fs text_config fg c /\ data_of flat tsv fg c src /\ base_given fs text_forest fg base /\
    create_loss srt (fg_num_threads fg) to_uint (pick (fg_seed fg)) c = Some lf /\ sample_weights c (src_get src) = Ret w /\ targets c (src_get src) = Ret y /\
    train (source_view src (asked_for_training c)) (fg_num_threads fg) top (draw (fg_seed fg)) 0 srt (config_features c) w y lf c base = Ret r /\ tr_status r = SOk /\
    hd_error ws = Some (out_file fg ".json", text) /\
    (Forall moderate (tr_forest r) -> exists f', text_forest text = Some f' /\ Forall2 like (tr_forest r) f' /\ Forall no_minus_zero f').
Proof.
  intros De Dl M E. apply main_train_exits in E; [|exact M]. destruct E as (c & src & base & lf & w & y & r & text & Cf & _ & D & B & L & W & Y & T & S & P & _ & _ & ->).
  exists c, src, base, lf, w, y, r, text. do 8 (split; [assumption|]). split; [reflexivity|]. intros Mo. injection P as <-.
  assert (any_double (cf_l2_lambda c)) as Lc.
  { destruct Cf as (_ & ct & _ & _ & Ct). unfold text_config, read_config in Ct. destruct (parse_json ct) as [j|] eqn:J; [|discriminate]. cbn [obind] in Ct. destruct (config_of j) as [[c' more]|] eqn:C; [|discriminate].
    injection Ct as <-. exact (config_in j c' more (read_doubles ct j J) C). }
  assert (forall b, base = Some b -> Forall typed_tree b) as Hb.
  { intros b ->. destruct B as (_ & bt & _ & _ & Bt). unfold text_forest in Bt. destruct (read_forest bt) as [[b' m]|] eqn:R; [|discriminate]. injection Bt as <-. apply (read_typed bt b' m R). }
  destruct (trained_writable _ _ _ _ _ _ _ _ _ lf c base r srt (fg_num_threads fg) to_uint (pick (fg_seed fg)) De Dl L Lc Hb T S Mo) as [A1 A2].
  destruct (text_loaded (tr_forest r) (meta (tr_forest r)) A1 A2) as (f' & F & R). exists f'. unfold text_forest. rewrite F. auto.
Qed.
End Files.
