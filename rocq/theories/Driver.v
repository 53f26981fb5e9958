(** Driver.v - model of src/main.cc: the command line program, with ReadFileToStringOrDie, WriteStringToFile
    (src/utils/utils.cc), LoadForestOrDie (src/gbdt_algo/utils.cc) and WriteScoreFile (src/gbdt_algo/evaluation.cc).
    Definitions only. *)
From Coq Require Import SpecFloat DecimalString.
From Verif Require Import Base F32 Column DataStore Strings Tsv Flatfiles Num Forest Config Score Eval Tree Train Loss Pairwise.

(** The flags (src/flags.cc) that main.cc reads, and num_threads. *)
Record flags := mkFlags {
  fg_mode : str;
  fg_config_file : str;
  fg_flatfiles_dirs : str;
  fg_tsvs : str;
  fg_testing_model_file : str;
  fg_base_model_file : str;
  fg_output_dir : str;
  fg_output_model_name : str;
  fg_seed : Z;
  fg_num_threads : nat
}.

(** A data store: its status, GetColumn, num_rows() after GetColumn was called for the given names, and the iteration order
    of its unordered_sets. *)
Record source := mkSource {
  src_status : status;
  src_get : str -> option column;
  src_rows : list str -> nat;
  src_order : list str -> list str
}.
Definition source_view (s : source) (asked : list str) : view := mkView (src_get s) (src_rows s asked) (src_order s).

(** FlatfilesDataStore (flatfiles_data_store.cc:29-31): always OK; a column is loaded when it is asked for, and num_rows
    (data_store.cc:67-69) is the size of some loaded column, or 0 before the first.
    Simplifications: all files have the same number of rows (see C12), and columns whose bucketizing divides by zero (C09) do
    not occur. *)
Definition flat_source (fs : files_t) (strtof : strtof_t) (order : list str -> list str) (dirs : list str) : source :=
  let get n := match load_flat fs strtof dirs n with Ret c => c | _ => None end in
  mkSource SOk get
    (fun asked => match flat_map (fun n => match get n with Some c => [c] | None => [] end) asked with
                  | [] => 0
                  | c :: _ => match col_size c with Ret n => n | _ => 0 end
                  end)
    order.

(** How the program ends: return from main, LOG(FATAL) or CHECK, undefined behaviour; with the files written, in order. *)
Inductive ending := Exits | Dies | Wild.
Definition run := (list (str * str) * ending)%type.
Definition dies : run := ([], Dies).
Definition lift {A} (r : res A) (k : A -> run) : run :=
  match r with Ret a => k a | Fatal => dies | Undef => ([], Wild) end.
Definition need {A} (o : option A) (k : A -> run) : run := match o with Some a => k a | None => dies end.
Definition check (b : bool) (k : run) : run := if b then k else dies.
Definition given (s : str) : bool := match s with [] => false | _ => true end.
Definition ok (s : status) : bool := match s with SOk => true | SErr _ => false end.

(** fmt::format of an int *)
Definition dec (z : Z) : str := list_ascii_of_string (NilZero.string_of_int (Z.to_int z)).

Section Driver.
Context {N : Num}.
(** The surroundings: contents of the files that can be read; which files can be opened for writing; the JSON library
    (src/utils/json_utils.cc) and number formatting; the two kinds of data stores; sorting, priority queues and random
    numbers. *)
Variables (fs : files_t) (can_open : str -> bool)
  (parse_config : str -> option (config N)) (parse_forest : str -> option (forest N))
  (print_forest : forest N -> option str) (show : N -> str)
  (flat : list str -> source) (tsv : list str -> config N -> source)
  (srt : (nat -> nat -> bool) -> list nat -> list nat) (top : nat -> nat -> list N -> nat)
  (draw : Z -> nat -> spec_float) (to_uint : N -> res nat) (pick : Z -> nat -> nat -> nat * nat)
  (importance : forest N -> list (str * N)).

(** ReadFileToStringOrDie (utils.cc:27-42): tellg() is -1 if the file can not be opened, 0 if it is empty. *)
Definition read_or_die (file : str) (k : str -> run) : run :=
  match fs file with None | Some [] => dies | Some text => k text end.

(** WriteStringToFile (utils.cc:44-49), then go on.  Simplification: writing to an open file succeeds. *)
Definition write_file (file text : str) (k : run) : run :=
  if can_open file then ((file, text) :: fst k, snd k) else dies.

(** LoadForestOrDie (gbdt_algo/utils.cc:195-202) *)
Definition load_forest (file : str) (k : forest N -> run) : run :=
  read_or_die file (fun text => need (parse_forest text) k).

(** The base forest, if there is one (main.cc:125-129) *)
Definition load_base (fg : flags) (k : option (forest N) -> run) : run :=
  if given (fg_base_model_file fg) then load_forest (fg_base_model_file fg) (fun b => k (Some b)) else k None.

(** LoadDataStoreOrDie (main.cc:87-103) *)
Definition load_source (fg : flags) (c : config N) (k : source -> run) : run :=
  let checked s := check (ok (src_status s)) (k s) in
  if given (fg_flatfiles_dirs fg) then lift (Strings.split (fg_flatfiles_dirs fg) (lit ",")) (fun dirs => checked (flat dirs))
  else if given (fg_tsvs fg) then lift (Strings.split (fg_tsvs fg) (lit ",")) (fun files => checked (tsv files c))
  else dies.

(** FeatureImportanceFormatted (main.cc:79-85) *)
Definition importance_text (imps : list (str * N)) : str :=
  join (map (fun p => fst p ++ [tab] ++ show (snd p)) imps) [nl].

(** The columns that are asked for before TrainGBDT looks at num_rows(). *)
Definition asked_for_training (c : config N) : list str :=
  (if given (cf_weight_column c) then [cf_weight_column c] else []) ++ [cf_target_column c] ++ config_features c.

(** Train (main.cc:105-158).  The order in which the arguments of TrainGBDT are evaluated is not fixed by the language;
    it makes no difference here. *)
Definition main_train (fg : flags) : run :=
  check (given (fg_config_file fg)) (
  check (given (fg_output_dir fg)) (
  read_or_die (fg_config_file fg) (fun config_text =>
  need (parse_config config_text) (fun c =>
  load_source fg c (fun src =>
  load_base fg (fun base =>
  need (create_loss srt (fg_num_threads fg) to_uint (pick (fg_seed fg)) c) (fun lf =>
  lift (sample_weights c (src_get src)) (fun w =>
  lift (targets c (src_get src)) (fun y =>
  lift (train (source_view src (asked_for_training c)) (fg_num_threads fg) top (draw (fg_seed fg)) 0 srt (config_features c) w y lf c base)
  (fun r =>
  check (ok (tr_status r)) (
  need (print_forest (tr_forest r)) (fun text =>
  let name := fg_output_dir fg ++ lit "/" ++ fg_output_model_name fg in
  write_file (name ++ lit ".json") text (
  write_file (name ++ lit ".fimps") (importance_text (importance (tr_forest r)))
  ([], Exits)))))))))))))).

(** Name and text of a score file (evaluation.cc:74, 40-55) *)
Definition score_name (dir : str) (p : Z) : str := dir ++ lit "/forest." ++ dec p ++ lit ".score".
Definition score_text (scores : list N) : str := join (map show scores) [nl].

(** Test (main.cc:160-194) *)
Definition main_test (fg : flags) : run :=
  check (given (fg_config_file fg)) (
  check (given (fg_testing_model_file fg)) (
  check (given (fg_output_dir fg)) (
  read_or_die (fg_config_file fg) (fun config_text =>
  need (parse_config config_text) (fun c =>
  load_forest (fg_testing_model_file fg) (fun f =>
  load_source fg c (fun src =>
  lift (evaluate_checkpoints (source_view src (collect_features f)) (fg_num_threads fg)
          (fun p => can_open (score_name (fg_output_dir fg) p)) f (test_points c (zlen f)))
  (fun r =>
  (map (fun x => (score_name (fg_output_dir fg) (fst x), score_text (snd x))) (snd r),
   if ok (fst r) then Exits else Dies))))))))).

(** main (main.cc:63-77) *)
Definition main (fg : flags) : run :=
  if str_eqb (fg_mode fg) (lit "train") then main_train fg
  else if str_eqb (fg_mode fg) (lit "test") then main_test fg
  else dies.
End Driver.
