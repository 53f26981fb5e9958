(** DriverSpec.v - vocabulary for the command line program. *)
From Coq Require Import SpecFloat.
From Verif Require Import Base F32 Column DataStore Strings StringsSpec Tsv Num Forest Config Score ScoreSpec Eval EvalSpec Tree Train TrainSpec
  Loss Pairwise Driver.

Section Spec.
Context {N : Num}.
Variables (fs : files_t) (parse_config : str -> option (config N)) (parse_forest : str -> option (forest N))
  (flat : list str -> source) (tsv : list str -> config N -> source).

(** The configuration that the flag names. *)
Definition configured (fg : flags) (c : config N) : Prop :=
  fg_config_file fg <> [] /\ exists text, fs (fg_config_file fg) = Some text /\ text <> [] /\ parse_config text = Some c.
(** The forest in a model file. *)
Definition model_in (file : str) (f : forest N) : Prop :=
  exists text, fs file = Some text /\ text <> [] /\ parse_forest text = Some f.
(** The base forest: none, or the one in the given file. *)
Definition base_given (fg : flags) (base : option (forest N)) : Prop :=
  match base with
  | None => fg_base_model_file fg = []
  | Some b => fg_base_model_file fg <> [] /\ model_in (fg_base_model_file fg) b
  end.
(** The data: flat file directories if given, otherwise TSV files; both separated by commas. *)
Definition data_of (fg : flags) (c : config N) (src : source) : Prop :=
  src_status src = SOk /\
  ((fg_flatfiles_dirs fg <> [] /\ src = flat (cut ","%char (fg_flatfiles_dirs fg))) \/
   (fg_flatfiles_dirs fg = [] /\ fg_tsvs fg <> [] /\ src = tsv (cut ","%char (fg_tsvs fg)) c)).

(** Lines, separated (not ended) by newlines. *)
Definition separated (lines : list str) : str :=
  match lines with [] => [] | l :: t => l ++ concat (map (cons newline) t) end.

(** The files written by training, and the lines of the importance report. *)
Definition out_file (fg : flags) (suffix : String.string) : str :=
  fg_output_dir fg ++ lit "/" ++ fg_output_model_name fg ++ lit suffix.
Definition report (show : N -> str) (imps : list (str * N)) : list str := map (fun p => fst p ++ tabulator :: show (snd p)) imps.

(** The tree counts at which scores are reported. *)
Definition reported_at (c : config N) (size p : Z) : Prop :=
  if (0 <? cf_eval_interval c)%Z then (0 < p <= size)%Z /\ ((size - p) mod cf_eval_interval c = 0)%Z else p = size.
End Spec.

(** The values of a column of raw floats, and a text column. *)
Definition raw_values (get : str -> option column) (n : str) (l : list f32) : Prop :=
  exists col r, get n = Some col /\ c_body col = BodyR r /\ r_floats r = l.
Definition text_column (get : str -> option column) (n : str) (s : strcol) : Prop :=
  exists col, get n = Some col /\ c_body col = BodyS s.
