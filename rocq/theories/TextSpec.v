(** TextSpec.v - the tables that TSV files and flat files stand for. *)
From Coq Require Import SpecFloat.
From Verif Require Import Base F32 Column ColumnSpec DataStore Strings StringsSpec Tsv TsvSpec FlatSpec Num Forest Python PythonSpec ValueSpec.

(** The type of a column by its role in the configuration *)
Definition type_for (k : kind) : ctype := match k with KB => TBucketized | KR => TRaw | KS => TString end.
(** The value a line of a TSV file has in the column at position [i] *)
Definition value_at (strtof : strtof_t) (t : ctype) (i : nat) (line : str) (v : value) : Prop :=
  exists x, cell line i = Some x /\
    match t with TString => v = VString x | _ => exists w, float_value strtof x = Some w /\ v = VFloat w end.
(** The table [fr] is part of the [k] data lines of the files. *)
Definition tsv_table (fs : files_t) (strtof : strtof_t) (files : list str) (c : columns_config) (k : nat) (fr : frame) : Prop :=
  exists lines, lines_of fs true files lines /\ List.length (concat lines) = k /\
  forall n t vals, fr n = Some (t, vals) ->
    exists role i, t = type_for role /\ role_of c n role /\ header_position fs (hd [] files) n i /\
      Forall2 (value_at strtof t i) (concat lines) vals.

(** The rows of a flat file and its first line *)
Definition flat_file (fs : files_t) (dirs : list str) (n first : str) (rows : list str) : Prop :=
  exists ls final ls' final', found_in fs dirs n (text ls final) /\ (forall l, In l (final :: ls) -> ~ In newline l) /\
    Forall2 stripped ls ls' /\ stripped final final' /\ rows_of ls' final' rows /\ hd_error (ls' ++ [final']) = Some first.
Definition dtype_line (t : ctype) : str :=
  match t with TBucketized => lit "# dtype=bucketized_floats" | TRaw => lit "# dtype=raw_floats" | TString => lit "# dtype=strings" end.
(** The value a row of a flat file stands for: what is no number is missing. *)
Definition flat_value (strtof : strtof_t) (t : ctype) (row : str) : value :=
  match t with TString => VString row | _ => VFloat (match number strtof row with Some v => v | None => fnan end) end.
(** The table [fr] is part of the flat files. *)
Definition flat_table (fs : files_t) (strtof : strtof_t) (dirs : list str) (fr : frame) : Prop :=
  forall n t vals, fr n = Some (t, vals) ->
    exists rows, flat_file fs dirs n (dtype_line t) rows /\ vals = map (flat_value strtof t) rows.

(** The lines of a score file: the scores of the rows of the table, in order *)
Definition score_lines {N : Num} (fr : frame) (k : nat) (f : forest N) (show : N -> str) (lines : list str) : Prop :=
  exists scores, lines = map show scores /\ List.length scores = k /\
    forall row s, row < k -> nth_error scores row = Some s <-> score_of fr f row s.
