(** Prop_Flatfiles.v - properties C18 and C19.  Statements only.  Model: Flatfiles.v, vocabulary: FlatSpec.v. *)
From Verif Require Import Base F32 Column ColumnSpec DataStore Strings StringsSpec Tsv Flatfiles FlatSpec Flat_proofs FlatConc_proofs.

(** ** C18 - one row per line *)
Theorem C18_strings fs strtof dirs name ls final ls' final' rows :
  found_in fs dirs name (text ls final) -> (forall l, In l (final :: ls) -> ~ In nl l) ->
  Forall2 stripped ls ls' -> stripped final final' -> rows_of ls' final' rows ->
  hd_error (ls' ++ [final']) = Some (lit "# dtype=strings") -> fits_32_bits rows ->
  exists c, load_flat fs strtof dirs name = Ret (Some (mkCol name (BodyS c))) /\
    s_status c = SOk /\ str_size c = Ret (List.length rows) /\
    forall i s, nth_error rows i = Some s -> str_row c i = Ret s.
Proof. exact (load_strings fs strtof dirs name ls final ls' final' rows). Qed.
Print Assumptions C18_strings.

Theorem C18_raw_floats fs strtof dirs name ls final ls' final' rows :
  found_in fs dirs name (text ls final) -> (forall l, In l (final :: ls) -> ~ In nl l) ->
  Forall2 stripped ls ls' -> stripped final final' -> rows_of ls' final' rows ->
  hd_error (ls' ++ [final']) = Some (lit "# dtype=raw_floats") ->
  exists c, load_flat fs strtof dirs name = Ret (Some (mkCol name (BodyR c))) /\
    r_status c = SOk /\ r_size c = List.length rows /\
    forall i s, nth_error rows i = Some s ->
      r_get c i = Ret (match number strtof s with Some v => v | None => fnan end).
Proof. exact (load_raw fs strtof dirs name ls final ls' final' rows). Qed.
Print Assumptions C18_raw_floats.

(** The bucketized column is the one built from these values (its properties are C04-C10). *)
Theorem C18_bucketized fs strtof dirs name ls final ls' final' rows :
  found_in fs dirs name (text ls final) -> (forall l, In l (final :: ls) -> ~ In nl l) ->
  Forall2 stripped ls ls' -> stripped final final' -> rows_of ls' final' rows ->
  hd_error (ls' ++ [final']) = Some (lit "# dtype=bucketized_floats") ->
  load_flat fs strtof dirs name =
    (let! c := create_bucketized default_buckets
                 (map (fun s => match number strtof s with Some v => v | None => fnan end) rows) in
     Ret (Some (mkCol name (BodyB c)))).
Proof. exact (load_bucketized fs strtof dirs name ls final ls' final' rows). Qed.
Print Assumptions C18_bucketized.

(** Any other first line, or no file, and nothing is loaded. *)
Theorem C18_unknown_type fs strtof dirs name ls final ls' final' rows first :
  found_in fs dirs name (text ls final) -> (forall l, In l (final :: ls) -> ~ In nl l) ->
  Forall2 stripped ls ls' -> stripped final final' -> rows_of ls' final' rows ->
  hd_error (ls' ++ [final']) = Some first ->
  first <> lit "# dtype=strings" -> first <> lit "# dtype=raw_floats" -> first <> lit "# dtype=bucketized_floats" ->
  load_flat fs strtof dirs name = Ret None.
Proof.
  exact (fun a b c d e => load_unknown fs strtof dirs name ls final ls' final' rows a b c d e first).
Qed.
Print Assumptions C18_unknown_type.

Theorem C18_no_file fs strtof dirs name : (forall d, In d dirs -> fs (d ++ "/"%char :: name) = None) ->
  load_flat fs strtof dirs name = Ret None.
Proof. exact (load_missing fs strtof dirs name). Qed.
Print Assumptions C18_no_file.

Theorem C18_roundtrip fs strtof dirs name rows :
  found_in fs dirs name (text (lit "# dtype=strings" :: rows) []) ->
  (forall r, In r rows -> ~ In nl r /\ ~ starts_with_hash r /\ (forall p, r <> p ++ [cr])) ->
  fits_32_bits rows ->
  exists c, load_flat fs strtof dirs name = Ret (Some (mkCol name (BodyS c))) /\
    str_size c = Ret (List.length rows) /\
    forall i s, nth_error rows i = Some s -> str_row c i = Ret s.
Proof. exact (load_roundtrip fs strtof dirs name rows). Qed.
Print Assumptions C18_roundtrip.

Definition ex_flat : str := text [lit "# dtype=strings"; lit "b" ++ [cr]; lit "#c"; []; lit "b"] (lit "a").
Definition ex_fs : files_t := fun f => if str_eqb f (lit "d2/x") then Some ex_flat else None.
Example C18_example : rows_of [lit "# dtype=strings"; lit "b"; lit "#c"; []; lit "b"] (lit "a")
    [lit "b"; []; lit "b"; lit "a"] /\
  exists c, load_flat ex_fs (fun _ => (fnan, 0)) [lit "d1"; lit "d2"] (lit "x") = Ret (Some (mkCol (lit "x") (BodyS c))) /\
    map (str_row c) (seq 0 4) = map Ret [lit "b"; []; lit "b"; lit "a"].
Proof.
  split.
  - exists [false; true; false; true; true; true]. cbn. split; [|reflexivity].
    repeat constructor; try discriminate; intros H; try (eexists; reflexivity);
      destruct H as [t H]; discriminate.
  - eexists. split; [vm_compute; reflexivity|]. vm_compute. reflexivity.
Qed.

(** ** C19 - concurrent GetColumn *)
(** Threads asking for different names: every returned pointer refers to a live column with the content of the
    file, and all calls for a name return the same pointer. *)
Theorem C19_distinct_names load names s : disjoint_names names -> freach load (finit names) s ->
  (forall t n id, In t (f_threads s) -> In (n, Some id) (ft_results t) ->
     exists c, nth_error (f_heap s) id = Some (Some c) /\ load n = Some c) /\
  (forall t t' n id id', In t (f_threads s) -> In t' (f_threads s) ->
     In (n, Some id) (ft_results t) -> In (n, Some id') (ft_results t') -> id = id').
Proof. exact (concurrent_safe load names s). Qed.
Print Assumptions C19_distinct_names.

(** and no call gets stuck. *)
Theorem C19_progress load names s i t : disjoint_names names ->
  (forall n c, load n = Some c -> exists k, col_size c = Ret k) ->
  freach load (finit names) s -> nth_error (f_threads s) i = Some t ->
  (ft_pc t <> FIdle \/ ft_todo t <> []) -> exists s', fstep load s s'.
Proof. exact (concurrent_progress load names s i t). Qed.
Print Assumptions C19_progress.

Definition ex_col (n : str) : column := mkCol n (BodyS (create_string_column [lit "v"; lit "w"])).
Definition ex_load (n : str) : option column := Some (ex_col n).

(** Two threads asking for the same name: thread 0 has its pointer, thread 1 then destroys the column. *)
Theorem C19_same_name_refuted : exists s t n id,
  freach ex_load (finit [[lit "x"]; [lit "x"]]) s /\ In t (f_threads s) /\
  In (n, Some id) (ft_results t) /\ nth_error (f_heap s) id = Some None.
Proof.
  eexists. exists (mkFT [] FIdle [(lit "x", Some 0)]), (lit "x"), 0. split.
  - eapply FStep; [eapply FStep; [eapply FStep; [eapply FStep; [eapply FStep; [eapply FStep; [eapply FStep; [apply FRefl|]|]|]|]|]|]|].
    + eapply (FCheckMiss _ _ 0); reflexivity.
    + eapply (FCheckMiss _ _ 1); reflexivity.
    + eapply (FRead _ _ 0); reflexivity.
    + eapply (FRead _ _ 1); reflexivity.
    + eapply (FPut _ _ 0); [reflexivity|]. left. reflexivity.
    + eapply (FGet _ _ 0); reflexivity.
    + eapply (FPut _ _ 1); [reflexivity|]. right.
      exists (lit "x"), 0, (ex_col (lit "x")), 2, 2. cbn. auto 10.
  - cbn. auto.
Qed.
Print Assumptions C19_same_name_refuted.

Example C19_example : disjoint_names [[lit "x"; lit "x"]; [lit "y"]] /\ exists s,
  freach ex_load (finit [[lit "x"; lit "x"]; [lit "y"]]) s /\
  map ft_results (f_threads s) = [[(lit "x", Some 0); (lit "x", Some 0)]; []].
Proof.
  split.
  - intros [|[|i]] [|[|j]] a b n A B I J; cbn in A, B; try reflexivity;
      try (destruct i; discriminate); try (destruct j; discriminate);
      injection A as <-; injection B as <-; cbn in I, J; intuition (subst; discriminate).
  - eexists. split.
    + eapply FStep; [eapply FStep; [eapply FStep; [eapply FStep; [eapply FStep; [eapply FStep; [apply FRefl|]|]|]|]|]|].
      * eapply (FCheckMiss _ _ 0); reflexivity.
      * eapply (FRead _ _ 0); reflexivity.
      * eapply (FPut _ _ 0); [reflexivity|]. left. reflexivity.
      * eapply (FGet _ _ 0); reflexivity.
      * eapply (FCheckHit _ _ 0); reflexivity.
      * eapply (FGet _ _ 0); reflexivity.
    + reflexivity.
Qed.
