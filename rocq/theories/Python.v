(** Python.v - model of src/python/{gbdt_py_base,column_py,datastore_py,train_gbdt_py}.{h,cc} and gbdt/_data_store.py.
    Definitions only.  Simplifications: strings are valid UTF-8 and Python lists have elements of the declared type, so
    that pybind11's conversions succeed; Python's floats are floats here (they come from and go to C++ floats). *)
From Coq Require Import SpecFloat.
From Verif Require Import Base F32 Column DataStore Num Forest Eval Config Tree Train Loss.

(** The exceptions of ThrowException: std::invalid_argument (ValueError), std::out_of_range (IndexError),
    std::ios::failure and std::logic_error (RuntimeError). *)
Inductive exc := InvalidArgument | OutOfRange | IosFailure | LogicError.
(** ThrowException (gbdt_py_base.cc:6-21): [None] means that it returns. *)
Definition throws (s : status) : option exc :=
  match s with
  | SErr INVALID_ARGUMENT => Some InvalidArgument
  | SErr OUT_OF_RANGE => Some OutOfRange
  | SErr NOT_FOUND => Some IosFailure
  | SErr FAILED_PRECONDITION => Some LogicError
  | SErr INTERNAL => Some LogicError
  | _ => None
  end.
(** A call: undefined, an exception or a value. *)
Definition py (A : Type) := res (exc + A).
Definition py_ret {A} (a : A) : py A := Ret (inr a).
Definition py_raise {A} (e : exc) : py A := Ret (inl e).
Definition py_lift {A} (r : res A) : py A := let! a := r in Ret (inr a).
Definition py_bind {A B} (r : py A) (k : A -> py B) : py B := let! x := r in match x with inl e => Ret (inl e) | inr a => k a end.
(** if (...) ThrowException(s); k *)
Definition py_throw {A} (s : status) (k : py A) : py A := match throws s with Some e => py_raise e | None => k end.

(** ** Columns *)
Inductive value := VString (s : str) | VFloat (v : f32).
(** get of the three classes (column_py.cc:42-47, 67-72, 93-98).  [i] is an int; the comparison with the uint size and the
    parameters of the accessors convert it to uint. *)
Definition col_row (c : column) (i : nat) : res value :=
  match c_body c with
  | BodyS s => let! x := str_row s i in Ret (VString x)
  | BodyR r => let! x := r_get r i in Ret (VFloat x)
  | BodyB b => let! x := b_row_min b i in Ret (VFloat x)
  end.
Definition py_get (c : column) (i : Z) : py value :=
  let! n := col_size c in
  match (if (Z.of_nat n <=? u32 i)%Z then throws (SErr OUT_OF_RANGE) else None) with
  | Some e => py_raise e
  | None => py_lift (col_row c (Z.to_nat (u32 i)))
  end.
(** GetBuckets (100-107) *)
Fixpoint py_buckets_from (b : bcol) (i : nat) (todo : nat) : res (list (f32 * f32)) :=
  match todo with
  | O => Ret []
  | S todo =>
      let! lo := b_bucket_min b (Z.of_nat i) in
      let! hi := b_bucket_max b (Z.of_nat i) in
      let! l := py_buckets_from b (S i) todo in Ret ((lo, hi) :: l)
  end.
Definition py_buckets (b : bcol) : py (list (f32 * f32)) := py_lift (py_buckets_from b 0 (Z.to_nat (b_max_int b))).

(** ** DataStorePy (datastore_py.{h,cc}): [None] is the null pointer. *)
Definition pystore := option store.
Definition py_num_rows (beg : begin_choice) (d : pystore) : res nat :=
  match d with Some m => ds_num_rows beg m | None => Ret 0 end.
(** The three Add functions (84-109) *)
Definition py_add (beg : begin_choice) (c : column) (d : pystore) : res (option exc * pystore) :=
  let m := match d with Some m => m | None => empty_store end in
  let! (s, m) := ds_add beg c m in Ret (throws s, Some m).
Definition py_create (n : str) (t : ctype) (vals : list value) : res column :=
  let floats := map (fun v => match v with VFloat x => x | VString _ => fnan end) vals in
  let strings := map (fun v => match v with VString x => x | VFloat _ => [] end) vals in
  match t with
  | TString => Ret (mkCol n (BodyS (create_string_column strings)))
  | TRaw => Ret (mkCol n (BodyR (create_raw floats)))
  | TBucketized => let! b := create_bucketized default_buckets floats in Ret (mkCol n (BodyB b))
  end.
Definition py_erase (n : str) (d : pystore) : pystore := option_map (ds_remove n) d.
(** AllColumnNames (144-156): bucketized, string, raw columns *)
Definition py_cols (d : pystore) : list column :=
  match d with
  | None => []
  | Some m => ds_list_typed TBucketized m ++ ds_list_typed TString m ++ ds_list_typed TRaw m
  end.
(** Get*Column (59-78) and GetColumnType (162-183) as _get_col uses them (_data_store.py:11-22) *)
Definition py_col (n : str) (d : pystore) : option column := match d with Some m => ds_get n m | None => None end.

(** ** slice and copy (_data_store.py:82-94) *)
Fixpoint py_values (c : column) (index : list Z) : py (list value) :=
  match index with
  | [] => py_ret []
  | i :: index => py_bind (py_get c i) (fun v => py_bind (py_values c index) (fun l => py_ret (v :: l)))
  end.
Fixpoint slice_cols (beg : begin_choice) (cols : list column) (index : list Z) (d : pystore) : py pystore :=
  match cols with
  | [] => py_ret d
  | c :: cols =>
      py_bind (py_values c index) (fun vals =>
        let! c' := py_create (c_name c) (col_type c) vals in
        let! (e, d) := py_add beg c' d in
        match e with Some e => py_raise e | None => slice_cols beg cols index d end)
  end.
Definition py_slice (beg : begin_choice) (d : pystore) (index : list Z) : py pystore := slice_cols beg (py_cols d) index None.
Definition py_copy (beg : begin_choice) (d : pystore) : py pystore :=
  let! n := py_num_rows beg d in py_slice beg d (map Z.of_nat (seq 0 n)).

(** ** DataLoader.from_dict (_data_store.py:125-139): the columns of three dicts, added one after the other *)
Fixpoint py_add_all (beg : begin_choice) (cols : list (str * ctype * list value)) (d : pystore) : py pystore :=
  match cols with
  | [] => py_ret d
  | (n, t, vals) :: cols =>
      let! c := py_create n t vals in
      let! (e, d) := py_add beg c d in
      match e with Some e => py_raise e | None => py_add_all beg cols d end
  end.

(** ** Column objects in Python hold a pointer into the store (column_py.h:28, 40, 53; datastore_py.cc:59-78) *)
(** [o_cols] = the columns of the store with their addresses, [o_next] = the next address. *)
Record owner := mkOwner { o_cols : list (nat * column); o_next : nat }.
Inductive hop := HAdd (c : column) | HErase (n : str) | HClear | HGet (n : str) | HUse (handle : nat) (i : Z).
Inductive hout := HExc (e : exc) | HUnit | HHandle (a : nat) | HValue (v : value).
Definition owner_store (o : owner) : store := map (fun p => (c_name (snd p), snd p)) (o_cols o).
Definition handle_of (n : str) (o : owner) : option nat := option_map fst (find (fun p => str_eqb n (c_name (snd p))) (o_cols o)).
Definition hstep (beg : begin_choice) (o : owner) (x : hop) : res (hout * owner) :=
  match x with
  | HAdd c =>
      let! (s, _) := ds_add beg c (owner_store o) in
      match s with
      | SOk => Ret (HUnit, mkOwner ((o_next o, c) :: o_cols o) (S (o_next o)))
      | _ => Ret (match throws s with Some e => HExc e | None => HUnit end, o)
      end
  | HErase n => Ret (HUnit, mkOwner (filter (fun p => negb (str_eqb n (c_name (snd p)))) (o_cols o)) (o_next o))
  | HClear => Ret (HUnit, mkOwner [] (o_next o))
  | HGet n => Ret (match handle_of n o with Some a => HHandle a | None => HExc IosFailure end, o)
  | HUse a i =>
      match find (fun p => fst p =? a) (o_cols o) with
      | None => Undef                                    (* the column has been deleted *)
      | Some (_, c) => let! r := py_get c i in Ret (match r with inl e => HExc e | inr v => HValue v end, o)
      end
  end.
Fixpoint hrun (beg : begin_choice) (o : owner) (ops : list hop) : res (list hout * owner) :=
  match ops with
  | [] => Ret ([], o)
  | x :: ops => let! (r, o) := hstep beg o x in let! (rs, o) := hrun beg o ops in Ret (r :: rs, o)
  end.

(** ** Training *)
Section Train.
Context {N : Num}.
(** data_store->data_store()->GetRawFloatColumn (78): undefined on the null pointer *)
Definition raw_target (d : pystore) (n : str) : res (option rcol) :=
  match d with
  | None => Undef
  | Some m => Ret (match ds_get n m with Some c => match c_body c with BodyR r => Some r | _ => None end | None => None end)
  end.
(** TrainPy (train_gbdt_py.cc:42-118), called with a data store object that is not null (54).  [parsed] is the result of
    JsonUtils::FromJson, [loss_of] is LossFuncFactory::CreateLossFunc and [fit] is TrainGBDT after Reseed for the data
    store, features, weights, targets, loss and configuration. *)
Definition py_train (beg : begin_choice) (d : pystore) (y w : list f32) (parsed : status * config N)
    (loss_of : config N -> option (loss N))
    (fit : store -> list str -> float_vector -> float_vector -> loss N -> config N -> res (trained N)) : py (forest N) :=
  py_throw (fst parsed) (
  let c := snd parsed in
  let! rows := py_num_rows beg d in
  if negb (List.length y =? 0) && negb (rows =? List.length y) then py_raise InvalidArgument
  else if negb (List.length w =? 0) && negb (rows =? List.length w) then py_raise InvalidArgument
  else
    let w_hat : float_vector := if List.length w =? 0 then (fun _ => Ret f32_one) else (fun i => vget w i) in
    py_bind (if List.length y =? 0 then
               if List.length (cf_target_column c) =? 0 then py_raise InvalidArgument
               else let! t := raw_target d (cf_target_column c) in
                    match t with None => py_raise InvalidArgument | Some r => py_ret ((fun i => r_get r i) : float_vector) end
             else py_ret ((fun i => vget y i) : float_vector))
      (fun y_hat =>
        match loss_of c with
        | None => py_raise IosFailure
        | Some lf =>
            let features := nodup str_eq_dec (cf_cat_features c ++ cf_float_features c) in
            if List.length features =? 0 then py_raise InvalidArgument
            else match d with
                 | None => Undef
                 | Some m =>
                     let! t := fit m features w_hat y_hat lf c in
                     py_throw (tr_status t) (py_ret (tr_forest t))
                 end
        end)).

Definition with_features (floats cats : list str) (c : config N) : config N :=
  mkConfig (cf_num_trees c) (cf_num_leaves c) (cf_shrinkage c) (cf_min_gain c) (cf_l2_lambda c) (cf_min_hessian c)
    (cf_example_rate c) (cf_feature_rate c) (cf_eval_interval c) floats cats (cf_weight_column c) (cf_target_column c)
    (cf_binarize_target c) (cf_group_column c) (cf_loss_func c) (cf_pair_rate c) (cf_delta_target c) (cf_dcg_base c)
    (cf_equal_groups c).
Definition mem (n : str) (l : list str) : bool := existsb (str_eqb n) l.
Definition names_typed (t : ctype) (d : pystore) : list str :=
  match d with None => [] | Some m => map c_name (ds_list_typed t m) end.
(** train (gbdt/_gbdt.py:4-49).  [features] is the argument of that name; [conf] is the configuration with the default
    sampling rates filled in, [parse] what json.dumps and FromJson make of it. *)
Definition train_wrapper (beg : begin_choice) (d : pystore) (features : list str) (y w : list f32) (conf : config N)
    (parse : config N -> status * config N) (loss_of : config N -> option (loss N))
    (fit : store -> list str -> float_vector -> float_vector -> loss N -> config N -> res (trained N)) : py (forest N) :=
  let floats := filter (fun n => mem n features) (names_typed TBucketized d) in
  let cats := filter (fun n => mem n features) (names_typed TString d) in
  if forallb (fun n => mem n (floats ++ cats)) features
  then py_train beg d y w (parse (with_features floats cats conf)) loss_of fit
  else py_raise InvalidArgument.
End Train.

(** ** DataLoader.from_df (_data_store.py:142-170) *)
(** A data frame: its columns with whether the dtype is numeric.  [overrides] is the dict type_overrides. *)
Definition raw_override (overrides : list (str * str)) (n : str) : bool :=
  match assoc n overrides with Some t => str_eqb t (lit "float") || str_eqb t (lit "raw_float") | None => false end.
Definition string_override (overrides : list (str * str)) (n : str) : bool :=
  match assoc n overrides with Some t => str_eqb t (lit "string") | None => false end.
Definition df_numeric (overrides : list (str * str)) (df : list (str * bool * list value)) : list (str * ctype * list value) :=
  flat_map (fun p => match p with (n, numeric, vals) =>
    if negb numeric then []
    else if raw_override overrides n then [(n, TRaw, vals)]
    else if negb (string_override overrides n) then [(n, TBucketized, vals)] else [] end) df.
Definition df_other (df : list (str * bool * list value)) : list (str * ctype * list value) :=
  flat_map (fun p => match p with (n, numeric, vals) => if numeric : bool then [] else [(n, TString, vals)] end) df.
Definition py_from_df (beg : begin_choice) (overrides : list (str * str)) (df : list (str * bool * list value)) : py pystore :=
  py_add_all beg (df_numeric overrides df ++ df_other df) None.
(** ** Iteration over a column by the protocol for classes with __getitem__ only: indices 0, 1, ... up to IndexError *)
Inductive py_iter (c : column) : Z -> list value -> Prop :=
| PyStop i : py_get c i = py_raise OutOfRange -> py_iter c i []
| PyNext i v l : py_get c i = py_ret v -> py_iter c (i + 1) l -> py_iter c i (v :: l).

(** ** ForestPy (forest_py.cc:39-65) *)
Section Forest.
Context {N : Num}.
Definition py_predict (d : pystore) (eval : store -> res (status * option (list N))) : py (list N) :=
  match d with
  | None => py_raise IosFailure
  | Some m => let! (s, scores) := eval m in py_throw s (py_ret (match scores with Some l => l | None => [] end))
  end.
(** PredictAndOutput does not look at the pointer; [write] is EvaluateForest with its files. *)
Definition py_predict_and_output {A} (d : pystore) (write : store -> res (status * A)) : py A :=
  match d with
  | None => Undef
  | Some m => let! (s, a) := write m in py_throw s (py_ret a)
  end.
End Forest.
