(** Prop_Text.v - property C75.  Statements only.  Model: Tsv.v, Flatfiles.v, Driver.v, TsvSource.v; vocabulary: TextSpec.v, ValueSpec.v. *)
From Coq Require Import SpecFloat.
From Verif Require Import Base Base_proofs F32 Column ColumnSpec DataStore Strings StringsSpec Tsv TsvSpec Flatfiles FlatSpec Num Forest Config Eval EvalSpec Python PythonSpec
  ValueSpec Tree Train Loss Pairwise Driver DriverSpec TsvSource TextSpec Text_proofs Split_proofs TreeSpec Prop_Score Prop_Tsv Prop_Value Prop_Tree Prop_Driver.

(** ** C75 - from text files to score files *)
(** TSV files named by the flag were loaded, by some schedule of the threads, with success.  [fr] is a table of columns read off the text: the cell of
    each data line under the title of the column.  Then the lines of the score files are what the values of the table and the trees of the model
    say, one line for each data line. *)
Theorem C75_tsv (N : Num) fs can_open (parse_config : str -> option (config N)) parse_forest print_forest show flat tsv srt top draw to_uint pick importance
    strtof begin order fg c more_floats more_strings first more s0 t (f : forest N) k fr :
  fg_mode fg = lit "test" -> configured fs parse_config fg c -> fg_output_dir fg <> [] -> fg_testing_model_file fg <> [] ->
  model_in fs parse_forest (fg_testing_model_file fg) f -> 1 <= fg_num_threads fg -> (forall l x, In x (order l) <-> In x l) -> f <> [] ->
  (forall p, reported_at c (zlen f) p -> can_open (score_name (fg_output_dir fg) p) = true) ->
  fg_flatfiles_dirs fg = [] -> fg_tsvs fg <> [] -> cut ","%char (fg_tsvs fg) = first :: more ->
  let cc := columns_of more_floats more_strings c in
  names_present fs first cc -> NoDup (all_names cc) -> all_names cc <> [] ->
  load_start fs (first :: more) cc = Ret s0 -> lreach fs strtof (first :: more) s0 (Done SOk t) ->
  tsv (first :: more) c = tsv_source begin order SOk t ->
  tsv_table fs strtof (first :: more) cc k fr -> lossless k fr -> Forall (scorable fr) f ->
  exists W,
    main fs can_open parse_config parse_forest print_forest show flat tsv srt top draw to_uint pick importance fg =
      (map (fun x => (score_name (fg_output_dir fg) (fst x), separated (snd x))) W, Exits) /\
    StronglySorted Z.lt (map fst W) /\ (forall p, In p (map fst W) <-> reported_at c (zlen f) p) /\
    (forall p lines, In (p, lines) W -> score_lines fr k (firstn (Z.to_nat p) f) show lines).
Proof.
  exact (tsv_test fs can_open parse_config parse_forest print_forest show flat tsv srt top draw to_uint pick importance strtof begin order fg c
           more_floats more_strings first more s0 t f k fr).
Qed.
Print Assumptions C75_tsv.

(** TSV files that were not loaded: the program stops without writing files, whatever the mode. *)
Theorem C75_not_loaded (N : Num) fs can_open (parse_config : str -> option (config N)) parse_forest print_forest show flat tsv srt top draw to_uint pick importance
    begin order fg : fg_flatfiles_dirs fg = [] ->
  (forall c, exists e t, tsv (cut ","%char (fg_tsvs fg)) c = tsv_source begin order (SErr e) t) ->
  main fs can_open parse_config parse_forest print_forest show flat tsv srt top draw to_uint pick importance fg = ([], Dies).
Proof. exact (not_loaded fs can_open parse_config parse_forest print_forest show flat tsv srt top draw to_uint pick importance begin order fg). Qed.
Print Assumptions C75_not_loaded.

(** The columns that are read, and their types, by the fields of the configuration. *)
Theorem C75_columns (N : Num) more_floats more_strings (c : config N) n role : role_of (columns_of more_floats more_strings c) n role <->
  role = KB /\ In n (cf_float_features c) \/
  role = KR /\ (In n more_floats \/ n <> [] /\ (n = cf_target_column c \/ n = cf_weight_column c)) \/
  role = KS /\ (In n (cf_cat_features c) \/ n <> [] /\ n = cf_group_column c \/ In n more_strings).
Proof. exact (columns_roles more_floats more_strings c n role). Qed.
Print Assumptions C75_columns.

(** The same for flat files, if the forest has a split (without one see C69). *)
Theorem C75_flat (N : Num) (fs : files_t) strtof order can_open (parse_config : str -> option (config N)) parse_forest print_forest show tsv srt top
    draw to_uint pick importance fg c (f : forest N) k fr :
  fg_mode fg = lit "test" -> configured fs parse_config fg c -> fg_output_dir fg <> [] -> fg_testing_model_file fg <> [] ->
  model_in fs parse_forest (fg_testing_model_file fg) f -> 1 <= fg_num_threads fg -> (forall l x, In x (order l) <-> In x l) ->
  (forall p, reported_at c (zlen f) p -> can_open (score_name (fg_output_dir fg) p) = true) ->
  fg_flatfiles_dirs fg <> [] -> (exists t n, In t f /\ EvalSpec.named n t) ->
  flat_table fs strtof (cut ","%char (fg_flatfiles_dirs fg)) fr -> lossless k fr -> Forall (scorable fr) f ->
  exists W,
    main fs can_open parse_config parse_forest print_forest show (flat_source fs strtof order) tsv srt top draw to_uint pick importance fg =
      (map (fun x => (score_name (fg_output_dir fg) (fst x), separated (snd x))) W, Exits) /\
    StronglySorted Z.lt (map fst W) /\ (forall p, In p (map fst W) <-> reported_at c (zlen f) p) /\
    (forall p lines, In (p, lines) W -> score_lines fr k (firstn (Z.to_nat p) f) show lines).
Proof.
  exact (flat_test fs strtof order can_open parse_config parse_forest print_forest show tsv srt top draw to_uint pick importance fg c f k fr).
Qed.
Print Assumptions C75_flat.

(** Two TSV files, the first with a header; and the same table in flat files. *)
Definition ex_text_cfg : config Ex :=
  mkConfig 2 2 f32_one (dbl 0) (dbl 0) (dbl 0) f32_one f32_one 1 [lit "x"] [lit "s"] [] (lit "y") false [] (lit "mse") f32_zero false f32_zero false.
Definition ex_text_disk (n : str) : option str :=
  assoc n [(lit "cfg", lit "{}"); (lit "model", lit "model");
           (lit "a.tsv", join [tabbed ["y"; " x "; "s"]; tabbed ["1"; "5"; "a"]; []; tabbed ["3"; "?"; "b"]]%string [nl]);
           (lit "b.tsv", join [tabbed ["5"; "2"; "d"]; []]%string [nl]);
           (lit "data/x", join (map lit ["# dtype=bucketized_floats"; "5"; "?"; "2"]%string) [nl]);
           (lit "data/s", join (map lit ["# dtype=strings"; "a"; "b"; "d"]%string) [nl])].
Definition ex_text_cc : columns_config := columns_of [] [] ex_text_cfg.
Definition ex_text_files : list str := [lit "a.tsv"; lit "b.tsv"].
(** The store after loading *)
Definition ex_text_store : tsv :=
  let run tasks t := match fold_res run_task (map tasks (t_handles t)) (t_heap t) with Ret h => with_heap t h | _ => t end in
  let block f hdr t := match read_tsv ex_text_disk digit_strtof f (t_fidx t) (t_sidx t) hdr with Ret (POk (fl, sl)) => run (add_task fl sl) t | _ => t end in
  match setup_columns ex_text_disk (lit "a.tsv") ex_text_cc with
  | Ret (POk t) => run fin_task (block (lit "b.tsv") false (block (lit "a.tsv") true t))
  | _ => tsv_init
  end.
Definition ex_text_table : frame := frame_of
  [(lit "x", TBucketized, map (fun x => VFloat x) [num 5; fnan; num 2]); (lit "s", TString, map (fun s => VString (lit s)) ["a"; "b"; "d"]%string)].
Definition ex_text_main (flat tsv : String.string) : run :=
  main ex_text_disk (fun _ => true) (fun text => if str_eqb text (lit "{}") then Some ex_text_cfg else None)
    (fun text => if str_eqb text (lit "model") then Some [ex_tree; ex_tree] else None) ex_print ex_show
    (flat_source ex_text_disk digit_strtof (fun l => l)) (fun files _ => tsv_source (fun _ => 1) (fun l => l) SOk ex_text_store)
    insertion_sort (fun _ => first_top) (fun _ _ => half) double_to_uint (fun _ _ n => (n, n)) (fun f => [])
    (mkFlags (lit "test") (lit "cfg") (lit flat) (lit tsv) (lit "model") [] (lit "out") (lit "forest") 1 2).
Example C75_example :
  (exists s0, load_start ex_text_disk ex_text_files ex_text_cc = Ret s0 /\ lreach ex_text_disk digit_strtof ex_text_files s0 (Done SOk ex_text_store)) /\
  tsv_table ex_text_disk digit_strtof ex_text_files ex_text_cc 3 ex_text_table /\ scorable ex_text_table ex_tree /\
  ex_text_main "" "a.tsv,b.tsv" =
    ([(lit "out/forest.1.score", separated (map lit ["3"; "1"; "1"]%string)); (lit "out/forest.2.score", separated (map lit ["6"; "2"; "2"]%string))], Exits) /\
  ex_text_main "data" "" = ex_text_main "" "a.tsv,b.tsv".
Proof.
  split; [|split; [|split; [|split]]].
  - eexists. split; [vm_compute; reflexivity|].
    eapply LStep; [eapply LStep; [eapply LStep; [eapply LStep; [eapply LStep; [apply LRefl|]|]|]|]|].
    + eapply (StWorker _ _ _ 1); vm_compute; reflexivity.
    + eapply (StWorker _ _ _ 0); vm_compute; reflexivity.
    + eapply (StAdd _ _ _ _ _ _ _ SOk); [vm_compute; reflexivity|apply Permutation_refl| |];
        vm_compute; reflexivity.
    + eapply (StAdd _ _ _ _ _ _ _ SOk); [vm_compute; reflexivity|apply Permutation_refl| |];
        vm_compute; reflexivity.
    + eapply (StEnd _ _ _ _ _ SOk); [vm_compute; reflexivity|apply Permutation_refl| |];
        vm_compute; reflexivity.
  - exists [[tabbed ["1"; "5"; "a"]; tabbed ["3"; "?"; "b"]]; [tabbed ["5"; "2"; "d"]]]%string. split; [|split].
    + split; [|split; [|exact I]].
      * eexists. split; [vm_compute; reflexivity|vm_compute; reflexivity].
      * eexists. split; [vm_compute; reflexivity|vm_compute; reflexivity].
    + reflexivity.
    + intros n t vals F. unfold ex_text_table, frame_of, first_listed in F. cbn [find fst] in F.
      destruct (str_eqb_spec n (lit "x")) as [->|_]; [|destruct (str_eqb_spec n (lit "s")) as [->|_]; [|discriminate F]]; injection F as <- <-.
      * exists KB, 1. split; [reflexivity|]. split; [left; reflexivity|]. split.
        { eapply TsvProps_proofs.header_position_map; vm_compute; reflexivity. }
        repeat constructor; eexists; (split; [vm_compute; reflexivity|]); eexists; split; vm_compute; reflexivity.
      * exists KS, 2. split; [reflexivity|]. split; [left; left; reflexivity|]. split.
        { eapply TsvProps_proofs.header_position_map; vm_compute; reflexivity. }
        repeat constructor; eexists; (split; [vm_compute; reflexivity|]); reflexivity.
  - cbn. repeat split; try discriminate; intros ? E; try discriminate; injection E as <-.
    + exists TBucketized. eexists. split; [vm_compute; reflexivity|discriminate].
    + exists TString. eexists. split; [vm_compute; reflexivity|]. intros _. eexists. reflexivity.
  - vm_compute. reflexivity.
  - vm_compute. reflexivity.
Qed.
