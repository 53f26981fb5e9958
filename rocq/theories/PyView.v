(** PyView.v - model of the parts of gbdt/_data_store.py and src/python/{column_py,datastore_py}.cc that show data: indexing
    and repr.  Definitions only. *)
From Coq Require Import SpecFloat.
From Verif Require Import Base F32 Column DataStore Strings Driver Python.

(** ** DataStore.__getitem__ (_data_store.py:23-30).  The key is an int, a tuple of two ints, a list of ints or a name.
    Simplification: ints fit a C++ int; other keys (TypeError) are left out. *)
Inductive key := AtRow (i : Z) | FromTo (a b : Z) | AtRows (l : list Z) | Named (n : str).
(** range(a, b) *)
Definition py_range (a b : Z) : list Z := map (fun k => (a + Z.of_nat k)%Z) (seq 0 (Z.to_nat (b - a))).
(** A new data store or a column; _get_col (11-21) raises ValueError for a missing name. *)
Definition py_item (beg : begin_choice) (d : pystore) (k : key) : py (pystore + column) :=
  match k with
  | AtRow i => py_bind (py_slice beg d [i]) (fun d => py_ret (inl d))
  | FromTo a b => py_bind (py_slice beg d (py_range a b)) (fun d => py_ret (inl d))
  | AtRows l => py_bind (py_slice beg d l) (fun d => py_ret (inl d))
  | Named n => match py_col n d with Some c => py_ret (inr c) | None => py_raise InvalidArgument end
  end.

(** ** Description of the columns (column_py.cc:49-57, 74-83, 109-118).  [show] is cppformat's text of a float. *)
(** NUM_ELEMENTS_TO_DISPLAY (31) *)
Definition shown_rows : nat := 10.
Definition quotation_mark : ascii := ascii_of_nat 34.
Definition value_text (show : f32 -> str) (v : value) : str :=
  match v with VString s => quotation_mark :: s ++ [quotation_mark] | VFloat x => show x end.
Definition class_text (t : ctype) : str :=
  match t with TString => lit "StringColumn" | TRaw => lit "FloatColumn" | TBucketized => lit "BucketizedFloatColumn" end.
Definition column_repr (show : f32 -> str) (c : column) : py str :=
  let! size := col_size c in
  let n := Nat.min size shown_rows in
  py_bind (py_values c (map Z.of_nat (seq 0 n))) (fun vals =>
    py_ret (class_text (col_type c) ++ lit "([" ++ join (map (value_text show) vals) (lit ",") ++
            (if (n <? size)%nat then lit " ..." else []) ++ lit "])")).

(** ** Description of the store (data_store.cc:147-154, datastore_py.h:33-35) *)
Definition store_repr (beg : begin_choice) (d : pystore) : res str :=
  match d with
  | None => Ret (lit "Empty data store.")
  | Some m =>
      let count t := dec (Z.of_nat (List.length (ds_list_typed t m))) in
      let! rows := ds_num_rows beg m in
      Ret (lit "DataStore with " ++ count TBucketized ++ lit " bucketized float, " ++ count TRaw ++ lit " raw float and " ++
           count TString ++ lit " string columns, each with " ++ dec (Z.of_nat rows) ++ lit " rows.")
  end.
