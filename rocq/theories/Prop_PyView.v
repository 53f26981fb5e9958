(** Prop_PyView.v - property C91 (indexing and repr of data stores in Python).  Statements only.
    Vocabulary: PyViewSpec.v, PythonSpec.v.  Model: PyView.v, Python.v. *)
From Coq Require Import SpecFloat.
From Verif Require Import Base F32 Column ColumnSpec DataStore Strings Driver Python PythonSpec PyView PyViewSpec PyView_proofs Prop_Python.
Local Open Scope Z_scope.

(** ** C91 - looking at a data store *)
(** ds[a, b] has the rows from a up to b, if they are rows and fewer than 29999: same names and types, and the selected values
    (up to the sign of zero in bucketized columns, whose values are at most the largest finite float or NaN). *)
Theorem C91_rows beg m rows vals a b : table m rows vals -> Z.of_nat rows <= 2147483648 -> tame m vals ->
  0 <= a -> b <= Z.of_nat rows -> b - a < 29999 ->
  exists d, py_item beg (Some m) (FromTo a b) = py_ret (inl d) /\ viewed (rows_between (Z.to_nat a) (Z.to_nat b)) vals m d.
Proof. exact (item_range beg m rows vals a b). Qed.
Print Assumptions C91_rows.
(** ds[i] has the one row i. *)
Theorem C91_row beg m rows vals i : table m rows vals -> Z.of_nat rows <= 2147483648 -> tame m vals -> 0 <= i < Z.of_nat rows ->
  exists d, py_item beg (Some m) (AtRow i) = py_ret (inl d) /\ viewed (rows_between (Z.to_nat i) (Z.to_nat i + 1)) vals m d.
Proof. exact (item_row beg m rows vals i). Qed.
Print Assumptions C91_row.
(** If a is not below b the columns are empty, wherever a and b are. *)
Theorem C91_no_rows beg m rows vals a b : table m rows vals -> Z.of_nat rows <= 2147483648 -> b <= a ->
  exists d, py_item beg (Some m) (FromTo a b) = py_ret (inl d) /\ viewed (fun _ => []) vals m d.
Proof. exact (item_empty beg m rows vals a b). Qed.
Print Assumptions C91_no_rows.
(** Any other row raises IndexError: rows do not count from the end, and ranges are not cut short. *)
Theorem C91_out_of_range beg m rows vals k l : table m rows vals -> Z.of_nat rows <= 2147483648 -> m <> [] ->
  match k with AtRow i => l = [i] | FromTo a b => l = py_range a b | AtRows l' => l = l' | Named _ => False end ->
  Forall int32 l -> ~ Forall (fun i => 0 <= i < Z.of_nat rows) l -> py_item beg (Some m) k = py_raise OutOfRange.
Proof. exact (item_out beg m rows vals k l). Qed.
Print Assumptions C91_out_of_range.
Theorem C91_range a b i : In i (py_range a b) <-> a <= i < b.
Proof. exact (range_in a b i). Qed.
Print Assumptions C91_range.
(** ds[name] is the listed column of that name; ValueError if there is none. *)
Theorem C91_named beg m rows vals n c : table m rows vals ->
  py_item beg (Some m) (Named n) = py_ret (inr c) <-> In c (py_cols (Some m)) /\ c_name c = n.
Proof. exact (item_named beg m rows vals n c). Qed.
Print Assumptions C91_named.
Theorem C91_unnamed beg m rows vals n : table m rows vals ->
  py_item beg (Some m) (Named n) = py_raise InvalidArgument <-> ~ In n (map c_name (py_cols (Some m))).
Proof. exact (item_unnamed beg m rows vals n). Qed.
Print Assumptions C91_unnamed.

(** The repr of a column shows its type, the first ten values and whether there are more. *)
Theorem C91_column_text show c vals : holds c vals -> zlen vals < 2147483648 ->
  column_repr show c = py_ret (column_text show (col_type c) vals).
Proof. exact (repr_shown show c vals). Qed.
Print Assumptions C91_column_text.
(** It can be read back if the texts of the values are plain. *)
Theorem C91_column_readable show c c' vals vals' t : holds c vals -> holds c' vals' -> zlen vals < 2147483648 -> zlen vals' < 2147483648 ->
  (forall v, In v (firstn 10 vals ++ firstn 10 vals') -> plain show v) -> column_repr show c = py_ret t -> column_repr show c' = py_ret t ->
  col_type c = col_type c' /\ Forall2 (looks_alike show) (firstn 10 vals) (firstn 10 vals') /\
  (10 < List.length vals <-> 10 < List.length vals')%nat.
Proof. exact (repr_readable show c c' vals vals' t). Qed.
Print Assumptions C91_column_readable.
(** Strings with quotation marks are not escaped: columns of one and of two rows show the same text. *)
Theorem C91_quotes_refuted show : exists a b t,
  col_size a = Ret 1%nat /\ col_size b = Ret 2%nat /\ column_repr show a = py_ret t /\ column_repr show b = py_ret t.
Proof.
  exists (mkCol (lit "s") (BodyS (create_string_column [lit "a"",""b"]))), (mkCol (lit "s") (BodyS (create_string_column [lit "a"; lit "b"]))).
  eexists. vm_compute. auto.
Qed.
Print Assumptions C91_quotes_refuted.

(** The repr of a store tells the number of columns of each type and the number of rows. *)
Theorem C91_store_text beg m rows vals : table m rows vals -> m <> [] ->
  exists b r s, has_columns (Some m) TBucketized b /\ has_columns (Some m) TRaw r /\ has_columns (Some m) TString s /\
  store_repr beg (Some m) = Ret (lit "DataStore with " ++ dec (Z.of_nat b) ++ lit " bucketized float, " ++ dec (Z.of_nat r) ++
    lit " raw float and " ++ dec (Z.of_nat s) ++ lit " string columns, each with " ++ dec (Z.of_nat rows) ++ lit " rows.").
Proof. exact (store_text beg m rows vals). Qed.
Print Assumptions C91_store_text.
Theorem C91_store_readable beg beg' m m' rows rows' vals vals' t : table m rows vals -> table m' rows' vals' -> m <> [] -> m' <> [] ->
  store_repr beg (Some m) = Ret t -> store_repr beg' (Some m') = Ret t ->
  rows = rows' /\ forall ty k, has_columns (Some m) ty k <-> has_columns (Some m') ty k.
Proof. exact (store_readable beg beg' m m' rows rows' vals vals' t). Qed.
Print Assumptions C91_store_readable.
Theorem C91_empty_text beg d : store_repr beg d = Ret (lit "Empty data store.") <-> d = None.
Proof. exact (empty_text beg d). Qed.
Print Assumptions C91_empty_text.

(** A store of three rows (C57), and a column of eleven. *)
Definition ex_show (x : f32) : str :=
  if is_nan x then lit "nan" else match find (fun k => feqb x (f32_of_Z k)) [3; -1; 7] with Some k => dec k | None => lit "?" end.
Definition ex_view (k : key) : option (py (list str)) :=
  let beg := fun _ => 0%nat in
  match py_item beg (Some ex_pystore) k with
  | Ret (inr (inl (Some m))) =>
      match store_repr beg (Some m), map (column_repr ex_show) (py_cols (Some m)) with
      | Ret t, [Ret (inr c); Ret (inr c')] => Some (py_ret [t; c; c'])
      | _, _ => None
      end
  | Ret (inl e) => Some (py_raise e)
  | _ => None
  end.
Example C91_example :
  column_repr ex_show (mkCol (lit "x") (BodyR (create_raw (map f32_of_Z (repeat 7 11))))) = py_ret (lit "FloatColumn([7,7,7,7,7,7,7,7,7,7 ...])") /\
  column_repr ex_show (mkCol (lit "x") (BodyR (create_raw (map f32_of_Z (repeat 7 10))))) = py_ret (lit "FloatColumn([7,7,7,7,7,7,7,7,7,7])") /\
  ex_view (FromTo 1 3) = Some (py_ret [lit "DataStore with 0 bucketized float, 1 raw float and 1 string columns, each with 2 rows.";
    lit "StringColumn([""a"",""b""])"; lit "FloatColumn([nan,-1])"]) /\
  ex_view (AtRow 0) = Some (py_ret [lit "DataStore with 0 bucketized float, 1 raw float and 1 string columns, each with 1 rows.";
    lit "StringColumn([""b""])"; lit "FloatColumn([3])"]) /\
  ex_view (FromTo 1 4) = Some (py_raise OutOfRange) /\ ex_view (AtRow (-1)) = Some (py_raise OutOfRange) /\
  ex_view (Named (lit "t")) = Some (py_raise InvalidArgument).
Proof. vm_compute. auto 10. Qed.
