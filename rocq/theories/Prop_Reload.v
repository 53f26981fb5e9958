(** Prop_Reload.v - what a loaded forest does (property C98).  Vocabulary: SavedSpec.v, ReloadSpec.v, DriverSpec.v. *)
From Coq Require Import SpecFloat Reals.
From Verif Require Import Base F32 Column DataStore Strings Tsv Flatfiles Num Forest Config Score Eval SplitSpec Tree Train Loss Pairwise Driver DriverSpec AccuracySpec Draw Saved SavedSpec TrainedSpec ReloadSpec
  Saved_proofs JsonText Options Reload_proofs Prop_Score Prop_Tree Prop_Train Prop_Draw Prop_Saved.
Local Close Scope R_scope.

(** Forests that differ only in the signs of zeros, as a saved and a loaded one do, give the same scores: bit by bit, at every checkpoint, on every store and for every number of threads, or fail alike. *)
Theorem C98_scores {c_exp c_log : f64 -> f64} v threads can_write (f g : forest (IEEE c_exp c_log)) points : Forall2 like f g ->
  evaluate_forest v threads g = evaluate_forest v threads f /\ evaluate_checkpoints v threads can_write g points = evaluate_checkpoints v threads can_write f points.
Proof. exact (fun L => conj (like_evaluate v threads f g L) (eq_sym (like_checkpoints v threads can_write f g points L))). Qed.
Print Assumptions C98_scores.

(** They have the same feature importance. *)
Theorem C98_importance {c_exp c_log : f64 -> f64} (f g : forest (IEEE c_exp c_log)) out : Forall2 like f g -> Forall writable_tree f -> feature_importance f out <-> feature_importance g out.
Proof. exact (feature_importance_like f g out). Qed.
Print Assumptions C98_importance.

(** Training that starts from one of them goes on as from the other. *)
Theorem C98_training {c_exp c_log : f64 -> f64} v threads top draw pos srt names w y (lf : loss (IEEE c_exp c_log)) c base base' : same_base base base' ->
  same_training (train v threads top draw pos srt names w y lf c base) (train v threads top draw pos srt names w y lf c base').
Proof. exact (like_train v threads top draw pos srt names w y lf c base base'). Qed.
Print Assumptions C98_training.

(** The command line program: a later run that gets the model file does what it would do with the trained forest itself.  Testing writes the same files; training from that base ends alike and writes files
    of the same names. *)
Theorem C98_program {c_exp c_log : f64 -> f64} fs can_open meta show flat tsv srt top draw to_uint pick importance fg ws : gives_doubles c_exp -> gives_doubles c_log -> fg_mode fg = lit "train" ->
  main (N := IEEE c_exp c_log) fs can_open text_config text_forest (forest_file meta) show flat tsv srt top draw to_uint pick importance fg = (ws, Exits) ->
  exists c src base lf w y r text, configured fs text_config fg c /\ data_of flat tsv fg c src /\ base_given fs text_forest fg base /\
    create_loss srt (fg_num_threads fg) to_uint (pick (fg_seed fg)) c = Some lf /\ sample_weights c (src_get src) = Ret w /\ targets c (src_get src) = Ret y /\
    train (source_view src (asked_for_training c)) (fg_num_threads fg) top (draw (fg_seed fg)) 0 srt (config_features c) w y lf c base = Ret r /\ tr_status r = SOk /\
    hd_error ws = Some (out_file fg ".json", text) /\
    (Forall moderate (tr_forest r) -> forall fs' can_open' meta' show' flat' tsv' srt' top' draw' to_uint' pick' importance' fg',
      let main parse := main fs' can_open' text_config parse (forest_file meta') show' flat' tsv' srt' top' draw' to_uint' pick' importance' fg' in
      (fg_mode fg' = lit "test" -> fs' (fg_testing_model_file fg') = Some text -> main text_forest = main (fun _ => Some (tr_forest r))) /\
      (fg_mode fg' = lit "train" -> fs' (fg_base_model_file fg') = Some text ->
        map fst (fst (main text_forest)) = map fst (fst (main (fun _ => Some (tr_forest r)))) /\ snd (main text_forest) = snd (main (fun _ => Some (tr_forest r))))).
Proof. exact (program_tested fs can_open meta show flat tsv srt top draw to_uint pick importance fg ws). Qed.
Print Assumptions C98_program.

(** A forest with zeros of both signs, and what its text is read as *)
Definition ex_minus : forest Ex :=
  [ex_leaf_of (S754_zero true); TNode (dbl 0) (Some (mkSplit (lit "x") (Some (fl 4, false)) None (S754_zero true : Ex))) (ex_leaf_of (S754_zero true)) (ex_leaf_of (dbl 1));
   TNode (dbl 0) (Some (mkSplit (lit "x") (Some (S754_zero true, true)) None (dbl 2))) (ex_leaf_of (dbl 5)) (ex_leaf_of (dbl 2))].
Definition ex_plus : forest Ex := match text_forest (forest_text 9 ex_minus []) with Some f => f | None => [] end.
Definition ex_continued (base : forest Ex) := match ex_train (mse_loss 2) ex_y (ex_train_cfg 2 3) (Some base) with Ret r => Some (tr_status r, map (@List.length _) (map ex_nodes (tr_forest r)), tr_f r : list f64) | _ => None end.
Example C98_example :
  map (fun t : tree Ex => (t_score t : f64)) ex_minus = [S754_zero true; dbl 0; dbl 0] /\ map (fun t : tree Ex => (t_score t : f64)) ex_plus = [S754_zero false; dbl 0; dbl 0] /\
  evaluate_forest ex_train_view 2 ex_plus = evaluate_forest ex_train_view 2 ex_minus /\
  match evaluate_forest ex_train_view 2 ex_minus with Ret (SOk, Some l) => (l : list f64) = map dbl [2; 2; 2; 3; 3]%Z | _ => False end /\
  importance_map ex_plus = importance_map ex_minus /\ ex_continued ex_plus = ex_continued ex_minus /\
  option_map (fun x => snd (fst x)) (ex_continued ex_plus) = Some [1; 3; 3; 5; 5].
Proof. vm_compute. repeat split; reflexivity. Qed.
(** The texts are not the same: a second save writes other zeros than the first. *)
Theorem C98_text_refuted : exists (f f' : forest Ex), Forall writable_tree f /\ text_forest (forest_text 9 f []) = Some f' /\ forest_text 9 f' [] <> forest_text 9 f [].
Proof.
  exists [ex_leaf_of (S754_zero true)], [ex_leaf_of (S754_zero false)]. split; [|split; [reflexivity|vm_compute; discriminate]].
  constructor; [|constructor]. split; [|repeat split; discriminate]. exists (S754_zero true). split; [apply zero_writable|reflexivity].
Qed.
Print Assumptions C98_text_refuted.
