(** PyTsvSpec.v - vocabulary for loading TSV files from Python. *)
From Coq Require Import SpecFloat.
From Verif Require Import Base F32 Column ColumnSpec DataStore Strings StringsSpec Tsv TsvSpec TextSpec Python PythonSpec.

(** The three lists of names of load_tsv *)
Record request := mkRequest { rq_buckets : list str; rq_raws : list str; rq_strings : list str }.
Definition asked (q : request) (n : str) (t : ctype) : Prop :=
  match t with TBucketized => In n (rq_buckets q) | TRaw => In n (rq_raws q) | TString => In n (rq_strings q) end.
Definition asked_names (q : request) : list str := rq_buckets q ++ rq_raws q ++ rq_strings q.
(** Distinct names, all of them titles of the first file *)
Definition sensible (fs : files_t) (first : str) (q : request) : Prop :=
  has_header fs first /\ NoDup (asked_names q) /\ forall n, In n (asked_names q) -> exists i, header_position fs first n i.

(** The store holds the data lines: one column per name, of the type asked for, with the cells under the title. *)
Definition text_held (fs : files_t) (strtof : strtof_t) (first : str) (q : request) (lines : list str) (d : pystore) : Prop :=
  (forall n t, asked q n t -> exists i cells c, header_position fs first n i /\
     Forall2 (value_at strtof t i) lines cells /\ py_col n d = Some c /\ made n t cells c) /\
  (forall n, ~ In n (asked_names q) -> py_col n d = None).

(** A file all of whose data lines can be read, and the exception for the first line that can not. *)
Definition readable (fs : files_t) (strtof : strtof_t) (fp sp : list nat) (header : bool) (f : str) : Prop :=
  exists content, fs f = Some content /\ forall l, In l (data_lines header content) -> line_ok strtof fp sp l.
Definition unreadable (fs : files_t) (strtof : strtof_t) (fp sp : list nat) (header : bool) (f : str) (e : exc) : Prop :=
  (fs f = None /\ e = IosFailure) \/
  exists content pre line post, fs f = Some content /\ data_lines header content = pre ++ line :: post /\
    (forall l, In l pre -> line_ok strtof fp sp l) /\
    ((e = OutOfRange /\ exists i, In i (sp ++ fp) /\ cell line i = None) \/
     (e = InvalidArgument /\ exists i x, In i fp /\ cell line i = Some x /\ float_value strtof x = None)).
Definition first_unreadable (fs : files_t) (strtof : strtof_t) (tsvs : list str) (first : str) (q : request) (e : exc) : Prop :=
  exists fp sp m f, Forall2 (header_position fs first) (rq_buckets q ++ rq_raws q) fp /\
    Forall2 (header_position fs first) (rq_strings q) sp /\
    nth_error tsvs m = Some f /\ unreadable fs strtof fp sp (m =? 0) f e /\
    forall i g, i < m -> nth_error tsvs i = Some g -> readable fs strtof fp sp (i =? 0) g.

(** The dict for pandas holds the data lines. *)
Definition frame_held (fs : files_t) (strtof : strtof_t) (first : str) (q : request) (lines : list str)
    (l : list (str * list value)) : Prop :=
  NoDup (map fst l) /\ (forall n, In n (map fst l) <-> In n (asked_names q)) /\
  forall n t vals, In (n, vals) l -> asked q n t -> exists i cells, header_position fs first n i /\
    Forall2 (value_at strtof t i) lines cells /\ List.length vals = List.length lines /\
    (t <> TBucketized \/ ((zlen cells < 60000)%Z /\ below_inf (floats_of cells)) -> same_values t cells vals).
