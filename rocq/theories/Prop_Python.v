(** Prop_Python.v - properties C55-C57 and C63-C66 (Python binding).  Statements only.
    Vocabulary: PythonSpec.v.  Model: Python.v. *)
From Coq Require Import SpecFloat.
From Verif Require Import Base F32 Column ColumnSpec DataStore DataStoreSpec Num Forest Eval Config Split SplitSpec Split_proofs Tree TreeSpec Tree_proofs Train Loss Python PythonSpec
  Python_proofs Slice_proofs PyTrain_proofs Prop_Score Prop_Split Prop_Tree Prop_Train.
Local Open Scope Z_scope.

(** ** C55 - access to the rows of a column *)
(** Index [i] gives row [i] for 0 <= i < size; every other int raises IndexError, as long as the column has at most 2^31
    rows. *)
Theorem C55_bounds_checked c vals i : holds c vals -> zlen vals <= 2147483648 -> int32 i ->
  py_get c i = if 0 <=? i then match nth_error vals (Z.to_nat i) with Some v => py_ret v | None => py_raise OutOfRange end
               else py_raise OutOfRange.
Proof. exact (get_checked c vals i). Qed.
Print Assumptions C55_bounds_checked.

(** In a longer column a negative index is row i + 2^32 (if there is one). *)
Theorem C55_huge_column_refuted c vals v : holds c vals -> nth_error vals (Z.to_nat 4294967295) = Some v ->
  py_get c (-1) = py_ret v.
Proof. intros H E. rewrite (get_exact c vals (-1) H). exact (f_equal (fun x => match x with Some v => py_ret v | None => py_raise OutOfRange end) E). Qed.
Print Assumptions C55_huge_column_refuted.

(** list(column) is the list of the values. *)
Theorem C55_iteration c vals l : holds c vals -> zlen vals < 2147483648 -> (py_iter c 0 l <-> l = vals).
Proof. exact (iter_list c vals l). Qed.
Print Assumptions C55_iteration.

(** Columns made from lists hold them (bucketized columns up to the sign of zero, if small and without infinity). *)
Theorem C55_created n t vals : typed_for t vals -> zlen vals < 2147483648 ->
  (t = TBucketized -> bucketizable (floats_of vals)) ->
  exists c, py_create n t vals = Ret c /\ made n t vals c /\ col_size c = Ret (List.length vals).
Proof. exact (create_made n t vals). Qed.
Print Assumptions C55_created.

(** buckets() lists the ends of all buckets. *)
Theorem C55_buckets nb raw b : limit_ok nb -> zlen raw < 2147483648 -> create_bucketized nb raw = Ret b ->
  exists l, py_buckets b = py_ret l /\ Z.of_nat (List.length l) = b_max_int b /\
  forall k lo hi, nth_error l k = Some (lo, hi) -> b_bucket_min b (Z.of_nat k) = Ret lo /\ b_bucket_max b (Z.of_nat k) = Ret hi.
Proof. exact (buckets_ok nb raw b). Qed.
Print Assumptions C55_buckets.

Definition ex_strings : list value := [VString (lit "b"); VString (lit "a"); VString (lit "b")].
Definition ex_floats : list value := [VFloat (f32_of_Z 3); VFloat fnan; VFloat (f32_of_Z (-1))].
Definition ex_string_column : column := mkCol (lit "s") (BodyS (create_string_column [lit "b"; lit "a"; lit "b"])).
Definition ex_raw_column : column := mkCol (lit "r") (BodyR (create_raw [f32_of_Z 3; fnan; f32_of_Z (-1)])).
Example C55_example : holds ex_string_column ex_strings /\
  map (py_get ex_string_column) [0; 1; 2] = map py_ret ex_strings /\
  map (py_get ex_string_column) [-1; 3; 2147483647; -2147483648] = repeat (py_raise OutOfRange) 4 /\
  (exists c, py_create (lit "x") TBucketized ex_floats = Ret c /\ holds c ex_floats /\
     map (py_get c) [0; 1; 2] = map py_ret ex_floats /\ py_get c (-1) = py_raise OutOfRange).
Proof.
  split.
  { split; [reflexivity|]. intros [|[|[|[|i]]]] v E; try discriminate; injection E as <-; eexists; split; reflexivity. }
  split; [vm_compute; reflexivity|]. split; [vm_compute; reflexivity|]. eexists. split; [vm_compute; reflexivity|]. split.
  { split; [reflexivity|]. intros [|[|[|[|i]]]] v E; try discriminate; injection E as <-; eexists; split; reflexivity. }
  split; vm_compute; reflexivity.
Qed.

(** ** C56 - which errors of the store reach Python *)
Theorem C56_silent s : throws s = None <-> s = SOk \/ s = SErr ALREADY_EXISTS \/ s = SErr ABORTED.
Proof. exact (throws_none s). Qed.
Print Assumptions C56_silent.

(** Adding a column raises IndexError exactly for a new name and a wrong length; it raises nothing and leaves the old column
    in place if the name exists. *)
Theorem C56_add beg c d rows k : py_num_rows beg d = Ret rows -> col_size c = Ret k ->
  exists e d', py_add beg c d = Ret (e, d') /\ (e = None \/ e = Some OutOfRange) /\
  (e = Some OutOfRange <-> py_col (c_name c) d = None /\ (0 < rows)%nat /\ rows <> k) /\
  (forall n, py_col n d' = if str_eqb n (c_name c) then
      match py_col n d with Some c0 => Some c0 | None => match e with None => Some c | Some _ => None end end
      else py_col n d).
Proof. exact (add_spec beg c d rows k). Qed.
Print Assumptions C56_add.

Example C56_example :
  let beg := fun _ => 0%nat in
  let other := mkCol (lit "r") (BodyR (create_raw (map f32_of_Z [7; 8; 9]))) in
  let short := mkCol (lit "t") (BodyR (create_raw [f32_of_Z 7])) in
  py_add beg ex_raw_column None = Ret (None, Some [(lit "r", ex_raw_column)]) /\
  py_add beg other (Some [(lit "r", ex_raw_column)]) = Ret (None, Some [(lit "r", ex_raw_column)]) /\
  py_add beg short (Some [(lit "r", ex_raw_column)]) = Ret (Some OutOfRange, Some [(lit "r", ex_raw_column)]).
Proof. vm_compute. auto. Qed.

(** ** C57 - slices *)
(** For valid indices, fewer than 60000 of them, slice succeeds: same names and types, and the selected values - exactly for
    string and raw columns, up to the sign of zero for bucketized ones. *)
Theorem C57_slice beg m rows vals index : table m rows vals -> Z.of_nat rows <= 2147483648 -> zlen index < 60000 ->
  Forall (fun i => 0 <= i < Z.of_nat rows) index ->
  (forall n c sel, ds_get n m = Some c -> col_type c = TBucketized -> picks (vals n) index sel ->
     below_inf (floats_of sel) /\ bucketizable (floats_of sel)) ->
  exists d, py_slice beg (Some m) index = py_ret d /\ sliced vals m index d.
Proof. exact (slice_ok beg m rows vals index). Qed.
Print Assumptions C57_slice.

(** Slices of any length that succeed are right in the string and raw columns. *)
Theorem C57_any_length beg m rows vals index d : table m rows vals -> Z.of_nat rows <= 2147483648 ->
  zlen index < 4294967294 -> Forall (fun i => 0 <= i < Z.of_nat rows) index ->
  py_slice beg (Some m) index = py_ret d ->
  (forall n, py_col n d = None <-> ds_get n m = None) /\
  forall n c, ds_get n m = Some c -> exists c', py_col n d = Some c' /\ col_type c' = col_type c /\
    col_size c' = Ret (List.length index) /\
    (col_type c <> TBucketized -> exists sel, picks (vals n) index sel /\ holds c' sel).
Proof. exact (slice_any beg m rows vals index d). Qed.
Print Assumptions C57_any_length.

(** An index that is not a row raises IndexError. *)
Theorem C57_out_of_range beg m rows vals index : table m rows vals -> Z.of_nat rows <= 2147483648 -> m <> [] ->
  Forall int32 index -> ~ Forall (fun i => 0 <= i < Z.of_nat rows) index ->
  py_slice beg (Some m) index = py_raise OutOfRange.
Proof. exact (slice_out beg m rows vals index). Qed.
Print Assumptions C57_out_of_range.

Theorem C57_copy beg m rows vals : table m rows vals -> m <> [] -> Z.of_nat rows < 60000 ->
  (forall n c, ds_get n m = Some c -> col_type c = TBucketized ->
     below_inf (floats_of (vals n)) /\ bucketizable (floats_of (vals n))) ->
  exists d, py_copy beg (Some m) = py_ret d /\
  forall n, match ds_get n m, py_col n d with
            | Some c, Some c' => col_type c' = col_type c /\
                exists shown, holds c' shown /\ same_values (col_type c) (vals n) shown
            | None, None => True
            | _, _ => False
            end.
Proof. exact (copy_ok beg m rows vals). Qed.
Print Assumptions C57_copy.

Definition ex_pystore : store := [(lit "s", ex_string_column); (lit "r", ex_raw_column)].
Definition ex_cells (n : str) : list value := if str_eqb n (lit "s") then ex_strings else ex_floats.
Example C57_example : table ex_pystore 3 ex_cells /\
  (exists m, py_slice (fun _ => 0%nat) (Some ex_pystore) [2; 0; 2; 1] = py_ret (Some m) /\
     (exists c, ds_get (lit "s") m = Some c /\
        map (py_get c) [0; 1; 2; 3; 4] = [py_ret (VString (lit "b")); py_ret (VString (lit "b")); py_ret (VString (lit "b"));
                                          py_ret (VString (lit "a")); py_raise OutOfRange]) /\
     (exists c, ds_get (lit "r") m = Some c /\
        map (py_get c) [0; 1; 2; 3] = map (fun v => py_ret (VFloat v)) [f32_of_Z (-1); f32_of_Z 3; f32_of_Z (-1); fnan])) /\
  py_slice (fun _ => 0%nat) (Some ex_pystore) [0; 3] = py_raise OutOfRange.
Proof.
  split.
  { split; [repeat constructor; cbn; intuition discriminate|].
    intros n c. unfold ds_get, ex_pystore. cbn [assoc].
    destruct (str_eqb n (lit "s")) eqn:E.
    - intros [= <-]. unfold str_eqb in E. destruct (str_eq_dec n (lit "s")) as [->|]; [|discriminate]. split; [reflexivity|]. split; [|reflexivity].
      split; [reflexivity|]. intros [|[|[|[|i]]]] v F; try discriminate; injection F as <-; eexists; split; reflexivity.
    - destruct (str_eqb n (lit "r")) eqn:E2; [|discriminate]. intros [= <-].
      unfold str_eqb in E2. destruct (str_eq_dec n (lit "r")) as [->|]; [|discriminate]. split; [reflexivity|]. split; [|reflexivity].
      split; [reflexivity|]. intros [|[|[|[|i]]]] v F; try discriminate; injection F as <-; eexists; split; reflexivity. }
  split; [|vm_compute; reflexivity]. eexists. split; [vm_compute; reflexivity|]. split; (eexists; split; [vm_compute; reflexivity|]); vm_compute; reflexivity.
Qed.

(** ** C63 - column objects hold pointers into the store *)
(** A column object obtained for a name can be used as long as the name is not erased and the store not cleared (or
    destroyed); every later use is undefined, even if a column of that name is added again. *)
Theorem C63_handles beg before outs o n a : hrun beg (mkOwner [] 0) before = Ret (outs, o) ->
  hstep beg o (HGet n) = Ret (HHandle a, o) ->
  exists c, In (a, c) (o_cols o) /\ c_name c = n /\
  forall later outs' o', hrun beg o later = Ret (outs', o') -> forall i,
    ((forall x, In x later -> ~ deletes n x) ->
       hstep beg o' (HUse a i) = let! r := py_get c i in Ret (match r with inl e => HExc e | inr v => HValue v end, o')) /\
    ((exists x, In x later /\ deletes n x) -> hstep beg o' (HUse a i) = Undef).
Proof. exact (handles beg before outs o n a). Qed.
Print Assumptions C63_handles.

Example C63_example :
  let run ops := let! (r, _) := hrun (fun _ => 0%nat) (mkOwner [] 0) ops in Ret r in
  run [HAdd ex_string_column; HAdd ex_raw_column; HGet (lit "s"); HErase (lit "r"); HUse 0 1] =
    Ret [HUnit; HUnit; HHandle 0; HUnit; HValue (VString (lit "a"))] /\
  run [HAdd ex_string_column; HGet (lit "s"); HErase (lit "s"); HAdd ex_string_column; HGet (lit "s")] =
    Ret [HUnit; HHandle 0; HUnit; HUnit; HHandle 1] /\
  run [HAdd ex_string_column; HGet (lit "s"); HErase (lit "s"); HAdd ex_string_column; HUse 0 1] = Undef.
Proof. vm_compute. auto. Qed.

(** ** C64 - loading dictionaries and data frames *)
(** from_dict: the first column listed under a name is kept, later ones are dropped without an error. *)
Theorem C64_from_dict beg k cols : Z.of_nat k < 2147483648 -> well_typed k cols ->
  exists d, py_add_all beg cols None = py_ret d /\
  forall n, match first_listed n cols with
            | Some (t, vals) => exists c, py_col n d = Some c /\ made n t vals c
            | None => py_col n d = None
            end.
Proof. exact (from_dict_ok beg k cols). Qed.
Print Assumptions C64_from_dict.

(** A column of another length under a new name raises IndexError. *)
Theorem C64_length beg k pre n t vals post : Z.of_nat k < 2147483648 -> well_typed k pre -> pre <> [] -> (0 < k)%nat ->
  typed_for t vals -> zlen vals < 2147483648 -> (t = TBucketized -> bucketizable (floats_of vals)) -> List.length vals <> k ->
  (forall t' vals', ~ In (n, t', vals') pre) -> py_add_all beg (pre ++ (n, t, vals) :: post) None = py_raise OutOfRange.
Proof. exact (from_dict_length beg k pre n t vals post). Qed.
Print Assumptions C64_length.

(** from_df: every column gets its documented type, unless a numeric column is to be a string or another one a float. *)
Theorem C64_from_df beg overrides df k : Z.of_nat k < 2147483648 -> NoDup (map (fun p => fst (fst p)) df) ->
  (forall n (numeric : bool) vals, In (n, numeric, vals) df -> List.length vals = k /\
     typed_for (if numeric then TBucketized else TString) vals /\ (numeric = true -> bucketizable (floats_of vals))) ->
  exists d, py_from_df beg overrides df = py_ret d /\
  (forall n, ~ In n (map (fun p => fst (fst p)) df) -> py_col n d = None) /\
  forall n (numeric : bool) vals, In (n, numeric, vals) df ->
    (if numeric then documented_type overrides n numeric <> TString else documented_type overrides n numeric = TString) ->
    exists c, py_col n d = Some c /\ made n (documented_type overrides n numeric) vals c.
Proof. exact (frame_documented beg overrides df k). Qed.
Print Assumptions C64_from_df.

(** A numeric column declared as string is not loaded at all; a column that is not numeric is always a string column. *)
Theorem C64_override_refuted beg overrides df k : Z.of_nat k < 2147483648 -> NoDup (map (fun p => fst (fst p)) df) ->
  (forall n (numeric : bool) vals, In (n, numeric, vals) df -> List.length vals = k /\
     typed_for (if numeric then TBucketized else TString) vals /\ (numeric = true -> bucketizable (floats_of vals))) ->
  exists d, py_from_df beg overrides df = py_ret d /\
  (forall n vals, In (n, true, vals) df -> assoc n overrides = Some (lit "string") -> py_col n d = None) /\
  (forall n vals, In (n, false, vals) df -> exists c, py_col n d = Some c /\ col_type c = TString).
Proof. exact (frame_dropped beg overrides df k). Qed.
Print Assumptions C64_override_refuted.

Definition ex_frame : list (str * bool * list value) :=
  [(lit "zip", true, ex_floats); (lit "y", true, ex_floats); (lit "city", false, ex_strings)].
Example C64_example :
  (exists m, py_from_df (fun _ => 0%nat) [(lit "zip", lit "string"); (lit "y", lit "float")] ex_frame = py_ret (Some m) /\
     option_map col_type (ds_get (lit "y") m) = Some TRaw /\ option_map col_type (ds_get (lit "city") m) = Some TString /\
     ds_get (lit "zip") m = None) /\
  documented_type [(lit "zip", lit "string"); (lit "y", lit "float")] (lit "zip") true = TString /\
  (exists m, py_add_all (fun _ => 0%nat) [(lit "a", TRaw, ex_floats); (lit "a", TString, ex_strings)] None = py_ret (Some m) /\
     option_map col_type (ds_get (lit "a") m) = Some TRaw).
Proof.
  split; [eexists; split; [vm_compute; reflexivity|vm_compute; auto]|]. split; [reflexivity|].
  eexists. split; vm_compute; reflexivity.
Qed.

(** ** C65 - TrainPy checks its arguments *)
(** A forest is returned only by a training on the given store with a known loss, the set of the configured features, and
    weights and targets that are defined in every row: those given as lists, otherwise ones and the target column. *)
Theorem C65_trains {N : Num} beg (loss_of : config N -> option (loss N)) fit d rows y w c f : py_num_rows beg d = Ret rows ->
  (forall n col, py_col n d = Some col -> col_size col = Ret rows) ->
  py_train beg d y w (SOk, c) loss_of fit = py_ret f ->
  exists m lf names wh yh t, d = Some m /\ loss_of c = Some lf /\ fit m names wh yh lf c = Ret t /\
    throws (tr_status t) = None /\ f = tr_forest t /\
    names <> [] /\ NoDup names /\ (forall n, In n names <-> In n (cf_float_features c) \/ In n (cf_cat_features c)) /\
    (forall i, (i < rows)%nat -> exists a b, wh i = Ret a /\ yh i = Ret b) /\
    (if (List.length w =? 0)%nat then forall i, wh i = Ret f32_one else List.length w = rows /\ forall i, wh i = vget w i) /\
    (if (List.length y =? 0)%nat
     then exists col r, ds_get (cf_target_column c) m = Some col /\ c_body col = BodyR r /\ forall i, yh i = r_get r i
     else List.length y = rows /\ forall i, yh i = vget y i).
Proof. exact (train_calls beg loss_of fit d rows y w c f). Qed.
Print Assumptions C65_trains.

(** Wrong lengths, no target and a target that is not a raw column raise ValueError whatever training would do. *)
Theorem C65_rejects {N : Num} beg (loss_of : config N -> option (loss N)) fit d rows y w c : py_num_rows beg d = Ret rows ->
  (y <> [] /\ List.length y <> rows) \/ (w <> [] /\ List.length w <> rows) \/ (y = [] /\ cf_target_column c = []) \/
  (exists m, d = Some m /\ y = [] /\ forall col r, ds_get (cf_target_column c) m = Some col -> c_body col <> BodyR r) ->
  py_train beg d y w (SOk, c) loss_of fit = py_raise InvalidArgument.
Proof. exact (train_rejects beg loss_of fit d rows y w c). Qed.
Print Assumptions C65_rejects.

(** A store that was never filled: training without targets and weights but with a target column is undefined, and so is
    predict_and_output; predict raises. *)
Theorem C65_unfilled_refuted {N : Num} beg (loss_of : config N -> option (loss N)) fit y w c :
  py_train beg None y w (SOk, c) loss_of fit =
    match y, w, cf_target_column c with [], [], _ :: _ => Undef | _, _, _ => py_raise InvalidArgument end /\
  (forall A (write : store -> res (status * A)), py_predict_and_output None write = Undef) /\
  (forall eval, py_predict (N := N) None eval = py_raise IosFailure).
Proof. exact (conj (train_null beg loss_of fit y w c) (conj (fun A write => eq_refl) (fun eval => eq_refl))). Qed.
Print Assumptions C65_unfilled_refuted.

(** Training on the columns x, s and y of a store; [ex_fit] is TrainGBDT. *)
Definition ex_yes : column := mkCol (lit "y") (BodyR (create_raw (map fl [8; 10; 4; 2; 6]))).
Definition ex_full : store := [(lit "y", ex_yes); (lit "s", ex_s); (lit "x", ex_x)].
Definition ex_fit (m : store) (names : list str) (wh yh : float_vector) (lf : loss Ex) (c : config Ex) : res (trained Ex) :=
  train (mkView (fun n => ds_get n m) 5 (fun l => l)) 2 (fun _ => first_top) (fun _ => half) 0 insertion_sort names wh yh lf c None.
Definition ex_target_cfg (target : str) : config Ex :=
  mkConfig 1 3 f32_one (dbl 0) (dbl 0) (dbl 0) f32_one f32_one 0 [lit "x"] [lit "s"] [] target false [] [] f32_zero false f32_zero false.
Definition ex_py_train (d : pystore) (y w : list f32) (target : str) (lf : option (loss Ex)) :=
  let! r := py_train (fun _ => 0%nat) d y w (SOk, ex_target_cfg target) (fun _ => lf) ex_fit in
  Ret (match r with inl e => inl e | inr f => inr (map (fun t => show_tree t []) f) end).
Example C65_example :
  let mse := Some (mse_loss (N := Ex) 2) in
  (exists f, ex_py_train (Some ex_full) [] [] (lit "y") mse = py_ret f /\ List.length f = 2%nat /\
     ex_py_train (Some ex_full) (map fl [8; 10; 4; 2; 6]) (map fl [1; 1; 1; 1; 1]) [] mse = py_ret f) /\
  ex_py_train (Some ex_full) (map fl [8; 10]) [] [] mse = py_raise InvalidArgument /\
  ex_py_train (Some ex_full) [] (map fl [1]) (lit "y") mse = py_raise InvalidArgument /\
  ex_py_train (Some ex_full) [] [] (lit "s") mse = py_raise InvalidArgument /\
  ex_py_train (Some ex_full) [] [] (lit "y") None = py_raise IosFailure /\
  ex_py_train None [] [] (lit "y") mse = Undef.
Proof.
  cbv zeta. split; [eexists; split; [vm_compute; reflexivity|split; [reflexivity|vm_compute; reflexivity]]|].
  vm_compute. auto 10.
Qed.

(** ** C66 - the training function of the package *)
(** A feature that is not a bucketized or string column of the store raises ValueError. *)
Theorem C66_missing_feature {N : Num} beg loss_of fit m features y w (conf : config N) parse : NoDup (map fst m) ->
  (forall n c, ds_get n m = Some c -> c_name c = n) ->
  (exists n, In n features /\ forall c, ds_get n m = Some c -> col_type c = TRaw) ->
  train_wrapper beg (Some m) features y w conf parse loss_of fit = py_raise InvalidArgument.
Proof. exact (wrapper_missing beg loss_of fit m features y w conf parse). Qed.
Print Assumptions C66_missing_feature.

(** If a forest is returned, training ran on exactly the requested features, at least one, and all of them loaded. *)
Theorem C66_features {N : Num} beg m rows features y w (conf : config N) loss_of fit f :
  NoDup (map fst m) -> (forall n c, ds_get n m = Some c -> c_name c = n /\ col_size c = Ret rows /\ col_status c = SOk) ->
  py_num_rows beg (Some m) = Ret rows ->
  train_wrapper beg (Some m) features y w conf (fun c => (SOk, c)) loss_of fit = py_ret f ->
  exists names wh yh lf c t, fit m names wh yh lf c = Ret t /\ f = tr_forest t /\ features <> [] /\
    (forall n, In n names <-> In n features) /\
    forall order, (forall n, In n (order names) <-> In n names) -> fst (load_features (fun n => ds_get n m) (order names)) = SOk.
Proof. exact (wrapper_loads beg m rows features y w conf loss_of fit f). Qed.
Print Assumptions C66_features.

Example C66_example :
  let run features := let! r := train_wrapper (fun _ => 0%nat) (Some ex_full) features [] [] (ex_target_cfg (lit "y")) (fun c => (SOk, c))
      (fun _ => Some (mse_loss (N := Ex) 2)) ex_fit in Ret (match r with inl e => inl e | inr f => inr (List.length f) end) in
  run [lit "s"; lit "x"; lit "s"] = py_ret 2%nat /\
  run [lit "s"; lit "y"] = py_raise InvalidArgument /\ run [lit "s"; lit "z"] = py_raise InvalidArgument /\
  run [] = py_raise InvalidArgument.
Proof. vm_compute. auto. Qed.
