(** Prop_Score.v - properties C24 to C26.  Statements only.  Model: Score.v, Par.v; vocabulary: ScoreSpec.v. *)
From Coq Require Import SpecFloat.
From Verif Require Import Base F32 Column ColumnSpec DataStore Num Forest Par Score ScoreSpec Score_proofs Eval_proofs Par_proofs.

(** ** C24 - Partition splits a slice in two *)
(** [bf] is the decision of the split.  The rows that go left come first, in their old order; the others follow in
    some order; nothing outside the slice changes. *)
Theorem C24_partition (N : Num) c (sp : split N) n start l (m : mem sloc sval) : has_rows c n -> fits_kind c sp ->
  (forall r, In r l -> r < n) -> seg m start l ->
  exists bf right m', (forall r, In r l -> goes_left c sp r (bf r)) /\
    run sloc_dec (partition c sp start (List.length l)) m = Ret (List.length (filter bf l), m') /\
    seg m' start (filter bf l ++ right) /\ Permutation right (filter (fun r => negb (bf r)) l) /\
    (forall x, ~ in_seg start (List.length l) x -> m' x = m x).
Proof. exact (partition_spec c sp n start l m). Qed.
Print Assumptions C24_partition.

(** Every row goes one way. *)
Theorem C24_decision (N : Num) c (sp : split N) n row : has_rows c n -> fits_kind c sp -> row < n ->
  (exists left, goes_left c sp row left) /\
  forall a b, goes_left c sp row a -> goes_left c sp row b -> a = b.
Proof.
  exact (fun H K R => conj (goes_left_total c sp n row H K R) (fun a b => goes_left_fun c sp n row a b H)).
Qed.
Print Assumptions C24_decision.

(** A split of the wrong kind fails a CHECK. *)
Theorem C24_wrong_kind (N : Num) c (sp : split N) start len (m : mem sloc sval) : ~ fits_kind c sp ->
  run sloc_dec (partition c sp start len) m = Fatal.
Proof. exact (partition_wrong_kind c sp start len m). Qed.
Print Assumptions C24_wrong_kind.

Definition Ex : Num := IEEE (fun x => x) (fun x => x).
Definition fl (z : Z) : f32 := binary_normalize 24 128 z 0 false.
Definition dbl (z : Z) : Ex := binary_normalize 53 1024 z 0 false.
Definition ex_floats : list f32 := [fl 1; fl 5; fnan; fl 2; fl 7; fl 1].
Definition ex_float_col : column :=
  match create_bucketized 100 ex_floats with Ret b => mkCol (lit "x") (BodyB b) | _ => mkCol [] (BodyR r_init) end.
Definition ex_string_col : column := mkCol (lit "s") (BodyS (create_string_column (map lit ["a"; "b"; "c"; "b"; "a"; "d"]%string))).
Definition ex_split : split Ex := mkSplit (lit "x") (Some (fl 4, false)) None n0.
Definition ex_cat_split : split Ex := mkSplit (lit "s") None (Some ([lit "b"; lit "zz"; lit "d"], [])) n0.

Definition ex_after {A} (r : res (A * mem sloc (@sval Ex))) : option (A * list nat) :=
  match r with Ret (k, m) => Some (k, read_samples m 0 6) | _ => None end.
Example C24_example :
  ex_after (run sloc_dec (partition ex_float_col ex_split 1 4) (score_mem [0; 1; 2; 3; 4; 5] [])) =
    Some (2, [0; 2; 3; 1; 4; 5]) /\
  ex_after (run sloc_dec (partition ex_string_col ex_cat_split 0 6) (score_mem [5; 4; 3; 2; 1; 0] [])) =
    Some (3, [5; 3; 1; 2; 4; 0]).
Proof. vm_compute. auto. Qed.

(** ** C25 - dropping the internal indices *)
Theorem C25_cleared_indices (N : Num) n blocks (sp sp' : split N) names idx row left : fits_32_bits (concat blocks) ->
  let c := string_column_of blocks in
  sp_cat sp = Some (names, idx) -> sp_cat sp' = Some (names, []) ->
  Forall2 (fun k s => u32 k < str_max_int c /\ str_cat_string c (Z.to_nat (u32 k)) = Ret s)%Z idx names ->
  (row < List.length (concat blocks)) ->
  goes_left (mkCol n (BodyS c)) sp row left -> goes_left (mkCol n (BodyS c)) sp' row left.
Proof. exact (cleared_goes_left n blocks sp sp' names idx row left). Qed.
Print Assumptions C25_cleared_indices.

Definition ex_idx_split : split Ex := mkSplit (lit "s") None (Some ([lit "b"; lit "d"], [2; 4]%Z)) n0.
Definition ex_name_split : split Ex := mkSplit (lit "s") None (Some ([lit "b"; lit "d"], [])) n0.
Example C25_example :
  map (go_left ex_string_col ex_idx_split) (seq 0 6) = map Ret [false; true; false; true; false; true] /\
  map (go_left ex_string_col ex_name_split) (seq 0 6) = map Ret [false; true; false; true; false; true].
Proof. vm_compute. auto. Qed.

(** ** C26 - each row gets its leaf's score once *)
(** Each row is routed to one leaf. *)
Theorem C26_routing (N : Num) store n (t : tree N) row : tree_fits store n t -> row < n -> exists! s, routes store t row s.
Proof. exact (routes_unique store n t row). Qed.
Print Assumptions C26_routing.

(** Whatever permutation of the samples earlier calls left behind, and however the workers interleave: no worker
    fails, none gets stuck, and the final vectors are the same. *)
Theorem C26_add_tree_scores (N : Num) store n threads (t : tree N) constant samples (scores : list N) :
  tree_fits store n t -> 1 <= threads -> Permutation samples (seq 0 n) -> List.length scores = n ->
  exists slices samples' scores',
    score_slices (List.length samples) threads = Ret slices /\
    Permutation samples' (seq 0 n) /\ List.length scores' = n /\
    (forall row x s, nth_error scores row = Some x -> routes store t row s ->
       nth_error scores' row = Some (nadd x (nadd s constant))) /\
    (forall s, ireach sloc_dec (score_tasks store t constant slices, score_mem samples scores) s ->
       (forall p, In p (fst s) -> ~ pfail p (snd s)) /\
       (all_done (fst s) \/ exists s', istep sloc_dec s s') /\
       (all_done (fst s) -> forall x, snd s x = score_mem samples' scores' x)) /\
    add_tree_scores store threads t constant (samples, scores) = Ret (samples', scores').
Proof. exact (scoring_all store n threads t constant samples scores). Qed.
Print Assumptions C26_add_tree_scores.

(** Every interleaving comes to an end. *)
Theorem C26_terminates (N : Num) (s : list (prog sloc (@sval N) unit) * mem sloc sval) :
  Acc (fun b a => istep sloc_dec a b) s.
Proof. exact (istep_wf sloc_dec s). Qed.
Print Assumptions C26_terminates.

Definition ex_store (n : str) : option column :=
  if str_eqb n (lit "x") then Some ex_float_col else if str_eqb n (lit "s") then Some ex_string_col else None.
Definition ex_tree : tree Ex :=
  TNode (dbl 9) (Some ex_split)
    (TNode (dbl 8) (Some ex_cat_split) (TNode (dbl 1) None TNone TNone) (TNode (dbl 2) None TNone TNone))
    (TNode (dbl 3) None TNone TNone).
Example C26_example :
  add_tree_scores ex_store 1 ex_tree (dbl 100) ([3; 1; 5; 0; 4; 2], map dbl [10; 20; 30; 40; 50; 60]%Z) =
    Ret ([3; 1; 5; 0; 4; 2], map dbl [112; 123; 132; 141; 153; 161]%Z) /\
  add_tree_scores ex_store 0 ex_tree (dbl 100) ([3; 1; 5; 0; 4; 2], map dbl [10; 20; 30; 40; 50; 60]%Z) = Undef.
Proof. vm_compute. auto. Qed.
