(** TsvSpec.v - vocabulary for the TSV properties: data lines, cells, cell values. *)
From Verif Require Import Base F32 Column DataStore Strings StringsSpec Tsv.

Definition nonempty (l : str) : bool := match l with [] => false | _ => true end.

(** The non-empty lines of a file (line ends stripped), without the header line if there is one. *)
Definition data_lines (skip_header : bool) (content : str) : list str :=
  filter nonempty (if skip_header then tl (text_lines content) else text_lines content).

(** The i-th tab-separated cell of a line; an empty line has no cells. *)
Definition cell (line : str) (i : nat) : option str :=
  match line with [] => None | _ => nth_error (cut tabulator line) i end.

(** The number a cell stands for: what strtof reads if it reads all of it, else NaN for one of the
    seven missing tokens, else nothing. *)
Definition float_value (strtof : strtof_t) (x : str) : option f32 :=
  match number strtof x with
  | Some v => Some v
  | None =>
      if in_dec str_eq_dec x [lit "NAN"; lit "nan"; lit "NaN"; lit "?"; lit "_"; lit "-"; lit "*"]
      then Some fnan else None
  end.

Definition line_ok (strtof : strtof_t) (fidx sidx : list nat) (line : str) : Prop :=
  (forall i, In i sidx -> exists x, cell line i = Some x) /\
  (forall i, In i fidx -> exists x v, cell line i = Some x /\ float_value strtof x = Some v).

(** The values of one column of a file. *)
Definition string_cells (i : nat) (lines : list str) (col : list str) : Prop :=
  Forall2 (fun line x => cell line i = Some x) lines col.
Definition float_cells (strtof : strtof_t) (i : nat) (lines : list str) (col : list f32) : Prop :=
  Forall2 (fun line v => exists x, cell line i = Some x /\ float_value strtof x = Some v) lines col.

(** The data lines of each file: only the first file has a header. *)
Fixpoint lines_of (fs : files_t) (header : bool) (files : list str) (lines : list (list str)) : Prop :=
  match files, lines with
  | [], [] => True
  | f :: fs', l :: ls =>
      (exists content, fs f = Some content /\ l = data_lines header content) /\ lines_of fs false fs' ls
  | _, _ => False
  end.

(** The position of a name in the header line: the last column whose trimmed title is the name. *)
Definition header_position (fs : files_t) (file : str) (n : str) (i : nat) : Prop :=
  exists content line rest, fs file = Some content /\ text_lines content = line :: rest /\
    (exists x, cell line i = Some x /\ trimmed x n) /\
    (forall j x, cell line j = Some x -> trimmed x n -> j <= i).

(** The file can be opened and has a first line. *)
Definition has_header (fs : files_t) (file : str) : Prop :=
  exists content line rest, fs file = Some content /\ text_lines content = line :: rest.

(** Names in the configuration, with their roles. *)
Definition role_of (c : columns_config) (n : str) (k : kind) : Prop :=
  match k with
  | KB => In n (cc_float_feature c)
  | KR => In n (cc_additional_float c) \/ n <> [] /\ (n = cc_target c \/ n = cc_weight c)
  | KS => In n (cc_categorical c) \/ n <> [] /\ n = cc_group c \/ In n (cc_additional_string c)
  end.
Definition given (n : str) : list str := if nonempty n then [n] else [].
(** Float features, additional floats, target, weight; then categorical features, group, additional strings. *)
Definition float_column_names (c : columns_config) : list str :=
  cc_float_feature c ++ cc_additional_float c ++ given (cc_target c) ++ given (cc_weight c).
Definition string_column_names (c : columns_config) : list str :=
  cc_categorical c ++ given (cc_group c) ++ cc_additional_string c.
Definition all_names (c : columns_config) : list str := float_column_names c ++ string_column_names c.

(** Every name of the configuration is a column title of the first file. *)
Definition names_present (fs : files_t) (first : str) (c : columns_config) : Prop :=
  has_header fs first /\ forall n, In n (all_names c) -> exists i, header_position fs first n i.
(** The positions of the float columns and of the string columns, in the order of the configuration. *)
Definition float_positions (fs : files_t) (first : str) (c : columns_config) (fp : list nat) : Prop :=
  Forall2 (header_position fs first) (float_column_names c) fp.
Definition string_positions (fs : files_t) (first : str) (c : columns_config) (sp : list nat) : Prop :=
  Forall2 (header_position fs first) (string_column_names c) sp.

(** The data one column must hold: one block of cells per file. *)
Definition column_holds (strtof : strtof_t) (k : kind) (i : nat) (lines : list (list str)) (b : body) : Prop :=
  match k, b with
  | KB, BodyB c => exists blocks, Forall2 (float_cells strtof i) lines blocks /\ b_load default_buckets blocks = Ret c
  | KR, BodyR c => exists blocks, Forall2 (float_cells strtof i) lines blocks /\ c = mkR SOk (concat blocks)
  | KS, BodyS c => exists blocks, Forall2 (string_cells i) lines blocks /\
      c = str_finalize (fold_left (fun c b => str_add b c) blocks str_init)
  | _, _ => False
  end.

(** Building a bucketized column from the first [m] files divides by zero (see property C09). *)
Definition bucketizing_fails (fs : files_t) (strtof : strtof_t) (files : list str) (i : nat) : Prop :=
  exists m lines blocks, m <= List.length files /\ lines_of fs true (firstn m files) lines /\
    Forall2 (float_cells strtof i) lines blocks /\ forall c, b_load default_buckets blocks <> Ret c.
