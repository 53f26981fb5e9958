(** Prop_Value.v - properties C71 and C72.  Statements only.  Model: Python.v, PyPlot.v; vocabulary: PythonSpec.v, ValueSpec.v. *)
From Coq Require Import SpecFloat.
From Verif Require Import Base Base_proofs F32 Column ColumnSpec DataStore DataStoreSpec Num Forest Eval EvalSpec Python PythonSpec PyPlot ValueSpec
  Value_proofs Prop_Score.

(** ** C71 - predictions follow from the values of the table *)
(** A table of fewer than 60000 rows is made a data store and a forest is applied to it.  The score of a row is what one gets by comparing its
    values with the thresholds and category lists of the splits: buckets, internal category numbers, threads and hash orders do not show. *)
Theorem C71_predict (N : Num) beg order threads k cols d (f : forest N) :
  (forall l x, In x (order l) <-> In x l) -> 1 <= threads ->
  well_typed k cols -> lossless k (frame_of cols) -> cols <> [] -> Forall (scorable (frame_of cols)) f ->
  py_add_all beg cols None = py_ret d ->
  exists scores, forest_predict beg order threads f d = py_ret scores /\ List.length scores = k /\
    forall row s, row < k -> nth_error scores row = Some s <-> score_of (frame_of cols) f row s.
Proof. exact (fun O T => predict_values beg order threads O T k cols d f). Qed.
Print Assumptions C71_predict.

(** A forest that names a column which the table does not have raises. *)
Theorem C71_unknown_column (N : Num) beg order threads k cols d (f : forest N) n t :
  (forall l x, In x (order l) <-> In x l) ->
  well_typed k cols -> lossless k (frame_of cols) -> cols <> [] ->
  py_add_all beg cols None = py_ret d -> In t f -> named n t -> frame_of cols n = None ->
  forest_predict beg order threads f d = py_raise IosFailure.
Proof. exact (fun O => predict_unknown beg order threads O k cols d f n t). Qed.
Print Assumptions C71_unknown_column.

(** Other rows and columns do not matter: rows with the same values in the columns of the first table get the same score. *)
Theorem C71_same_row (N : Num) fr fr' i j (f : forest N) s :
  (forall n t vals, fr n = Some (t, vals) -> exists vals', fr' n = Some (t, vals') /\ nth_error vals' j = nth_error vals i) ->
  score_of fr f i s -> score_of fr' f j s.
Proof. exact (score_same fr fr' i j f s). Qed.
Print Assumptions C71_same_row.

(** A short list can be bucketized. *)
Theorem C71_short l : (zlen l < 29999)%Z -> bucketizable l.
Proof. exact (short_bucketizable l). Qed.
Print Assumptions C71_short.

Definition ex_table : list (str * ctype * list value) :=
  [(lit "x", TBucketized, map (fun z => VFloat z) [fl 1; fl 5; fnan; fl 2]); (lit "s", TString, map (fun s => VString (lit s)) ["a"; "b"; "b"; "d"]%string);
   (lit "y", TRaw, map (fun z => VFloat z) [fl 7; fl 7; fl 7; fl 7])].
Example C71_example :
  well_typed 4 ex_table /\ lossless 4 (frame_of ex_table) /\ scorable (frame_of ex_table) ex_tree /\
  py_bind (py_add_all (fun _ => 1) ex_table None) (forest_predict (fun _ => 2) (fun l => rev l) 3 [ex_tree; ex_tree]) = py_ret (map dbl [4; 6; 2; 2]%Z) /\
  score_of (frame_of ex_table) [ex_tree; ex_tree] 2 (dbl 2).
Proof.
  assert (well_typed 4 ex_table) as W.
  { intros n t vals [E|[E|[E|[]]]]; injection E as <- <- <-; repeat split; try discriminate. intros _. apply C71_short. vm_compute. reflexivity. }
  split; [exact W|]. split; [split; [lia|]|].
  { intros n t vals F. assert (In (n, t, vals) ex_table) as I.
    { unfold frame_of, first_listed, ex_table in F. cbn [find fst] in F.
      destruct (str_eqb_spec n (lit "x")) as [->|_]; [injection F as <- <-; left; reflexivity|].
      destruct (str_eqb_spec n (lit "s")) as [->|_]; [injection F as <- <-; right; left; reflexivity|].
      destruct (str_eqb_spec n (lit "y")) as [->|_]; [injection F as <- <-; right; right; left; reflexivity|].
      discriminate F. }
    destruct (W n t vals I) as (T & L & B). split; [exact T|]. split; [exact L|]. intros Z. split; [|exact (B Z)].
    destruct I as [E|[E|[E|[]]]]; injection E as <- <- <-; try discriminate. intros v J. cbn in J.
    repeat destruct J as [<-|J]; try destruct J; vm_compute; congruence. }
  split; [|split; [vm_compute; reflexivity|]].
  - cbn. repeat split; try discriminate; intros ? E; try discriminate; injection E as <-.
    + exists TBucketized. eexists. split; [vm_compute; reflexivity|discriminate].
    + exists TString. eexists. split; [vm_compute; reflexivity|]. intros _. eexists. reflexivity.
  - exists [dbl 1; dbl 1]. split; [|vm_compute; reflexivity].
    assert (leaf_of (frame_of ex_table) 2 ex_tree (dbl 1)) as L.
    { eapply (LeafBelow _ _ _ _ _ _ TBucketized _ (VFloat fnan) true); [reflexivity..| |].
      - apply (DecMissing fnan ex_split (fl 4) false); reflexivity.
      - eapply (LeafBelow _ _ _ _ _ _ TString _ (VString (lit "b")) true); [reflexivity..| |].
        + eapply DecName; [reflexivity|]. split; [intros _; left; reflexivity|reflexivity].
        + apply (LeafHere _ _ (TNode (dbl 1) None TNone TNone)). reflexivity. }
    constructor; [exact L|]. constructor; [exact L|constructor].
Qed.

(** ** C72 - partial dependency *)
(** Each value is paired with the differences of the scores of the table with that value in the column from those with the starting value. *)
Theorem C72_partial_dependency (N : Num) beg order threads k cols d n t vals sorted (f : forest N) xs x0 v0 :
  (forall l x, In x (order l) <-> In x l) -> 1 <= threads ->
  well_typed k cols -> lossless k (frame_of cols) -> Forall (scorable (frame_of cols)) f ->
  frame_of cols n = Some (t, vals) -> t <> TRaw -> Forall (settable t) xs ->
  start_value t x0 xs = Some v0 -> settable t v0 -> Permutation (sorted xs) xs -> py_add_all beg cols None = py_ret d ->
  exists ls, partial_dependency beg order threads sorted f n xs x0 d = py_ret ls /\
    Forall2 (effect (frame_of cols) n k f v0) (match t with TBucketized => sorted xs | _ => xs end) ls.
Proof. exact (fun O T => partial_values beg order threads O T k cols d n t vals sorted f xs x0 v0). Qed.
Print Assumptions C72_partial_dependency.

(** An unknown column and one of raw floats raise ValueError; a string column needs a value to start from. *)
Theorem C72_errors (N : Num) beg order threads k cols d n sorted (f : forest N) xs x0 :
  well_typed k cols -> lossless k (frame_of cols) -> cols <> [] -> py_add_all beg cols None = py_ret d ->
  match frame_of cols n with
  | None | Some (TRaw, _) => partial_dependency beg order threads sorted f n xs x0 d = py_raise InvalidArgument
  | Some (t, _) => start_value t x0 xs = None -> partial_dependency beg order threads sorted f n xs x0 d = py_raise OutOfRange
  end.
Proof. exact (partial_raises beg order threads k cols d n sorted f xs x0). Qed.
Print Assumptions C72_errors.

Example C72_example :
  let plot n xs x0 := py_bind (py_add_all (fun _ => 1) ex_table None) (partial_dependency (fun _ => 2) (fun l => rev l) 3 (@rev value) [ex_tree; ex_tree] n xs x0) in
  let x z := VFloat (fl z) in
  let s a := VString a in
  plot (lit "x") [x 3; x 9]%Z None = py_ret [(x 9, map dbl [2; 4; 4; 4]); (x 3, map dbl [0; 0; 0; 0])]%Z /\
  plot (lit "x") [x 3; x 9]%Z (Some (x 9%Z)) = py_ret [(x 9, map dbl [0; 0; 0; 0]); (x 3, map dbl [-2; -4; -4; -4])]%Z /\
  plot (lit "s") [s (lit "a"); s (lit "zz"); s (lit "b")] None = py_ret [(s (lit "a"), map dbl [0; 0; 0; 0])%Z; (s (lit "zz"), map dbl [-2; 0; -2; -2])%Z; (s (lit "b"), map dbl [-2; 0; -2; -2])%Z] /\
  plot (lit "s") [] None = py_raise OutOfRange /\ plot (lit "y") [x 3%Z] None = py_raise InvalidArgument /\
  plot (lit "z") [x 3%Z] None = py_raise InvalidArgument.
Proof. vm_compute. repeat split; reflexivity. Qed.
