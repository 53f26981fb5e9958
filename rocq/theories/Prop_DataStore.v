(** Prop_DataStore.v - properties C11-C13 (data store).  Statements only.
    Vocabulary: DataStoreSpec.v.  Model: DataStore.v. *)
From Verif Require Import Base F32 Column DataStore DataStoreSpec DataStore_proofs.

(** ** C11 - the data store is a finite map from names to columns *)
(** For every sequence of calls (columns finalized) and every choice of begin(): the run does not
    fail, GetColumn agrees with the history, and the outcome of one more Add is as stated. *)
Theorem C11_store_is_map beg ops : all_sized ops ->
  exists h m, ds_run beg ops [] empty_store = Ret (h, m) /\
  (forall n, ds_get n m = live n h) /\
  (forall n c, ds_get n m = Some c -> c_name c = n) /\
  ds_num_cols m = List.length (nodup str_eq_dec (map c_name (stored_columns m))) /\
  (forall c k, col_size c = Ret k ->
   exists rows, ds_num_rows beg m = Ret rows /\
   exists s m', ds_add beg c m = Ret (s, m') /\
    (s = SErr ALREADY_EXISTS <-> live (c_name c) h <> None) /\
    (s = SErr OUT_OF_RANGE <-> live (c_name c) h = None /\ 0 < rows /\ rows <> k) /\
    (s = SOk \/ s = SErr ALREADY_EXISTS \/ s = SErr OUT_OF_RANGE) /\
    (s <> SOk -> m' = m)).
Proof. exact (store_is_map beg ops). Qed.
Print Assumptions C11_store_is_map.

Definition raw_col (n : string) (v : list Z) : column :=
  mkCol (lit n) (BodyR (create_raw (map f32_of_Z v))).
Definition ex_ops : list ds_op :=
  [OpAdd (raw_col "a" [1; 2]%Z); OpAdd (raw_col "b" [3]%Z); OpAdd (raw_col "a" [4; 5]%Z);
   OpRemove (lit "a"); OpAdd (raw_col "b" [3]%Z); OpGet (lit "b"); OpGet (lit "a")].

Example C11_example : all_sized ex_ops /\
  exists h m, ds_run (fun _ => 0) ex_ops [] empty_store = Ret (h, m) /\
    rev (map snd h) = [OutStatus SOk; OutStatus (SErr OUT_OF_RANGE); OutStatus (SErr ALREADY_EXISTS);
                       OutNone; OutStatus SOk; OutCol (Some (raw_col "b" [3]%Z)); OutCol None].
Proof.
  split.
  - intros c H. cbn in H. repeat (destruct H as [[= <-]|H]; [eexists; reflexivity|]).
    repeat (destruct H as [H|H]; try discriminate; try (injection H as <-; eexists; reflexivity)).
    destruct H.
  - eexists. eexists. split; reflexivity.
Qed.

(** ** C12 - all columns have the same number of rows *)
Theorem C12_rectangular beg ops h m : all_nonempty ops ->
  ds_run beg ops [] empty_store = Ret (h, m) ->
  exists rows, ds_num_rows beg m = Ret rows /\
  forall c, In c (stored_columns m) -> col_size c = Ret rows.
Proof. exact (rectangular beg ops h m). Qed.
Print Assumptions C12_rectangular.

Example C12_example : all_nonempty ex_ops /\
  exists h m, ds_run (fun _ => 0) ex_ops [] empty_store = Ret (h, m) /\ ds_num_cols m = 1.
Proof.
  split.
  - intros c H. cbn in H.
    repeat (destruct H as [H|H]; try discriminate; try (injection H as <-; eexists; reflexivity)).
    destruct H.
  - eexists. eexists. split; reflexivity.
Qed.

(** With an empty column first, columns of different positive lengths can be stored together. *)
Theorem C12_empty_column_refuted : exists beg ops h m c d,
  all_sized ops /\ ds_run beg ops [] empty_store = Ret (h, m) /\
  (forall o r, In (o, r) h -> r = OutStatus SOk) /\
  ds_get (lit "b") m = Some c /\ ds_get (lit "c") m = Some d /\
  col_size c = Ret 1 /\ col_size d = Ret 2.
Proof.
  exists (fun m => List.length m - 1),
    [OpAdd (raw_col "a" []); OpAdd (raw_col "b" [1%Z]); OpAdd (raw_col "c" [2; 3]%Z)].
  eexists. eexists. eexists. eexists. split.
  { intros c H. cbn in H.
    repeat (destruct H as [H|H]; try discriminate; try (injection H as <-; eexists; reflexivity)).
    destruct H. }
  split; [reflexivity|]. split.
  { intros o r H. cbn in H.
    repeat (destruct H as [H|H]; try discriminate; try (injection H as <- <-; reflexivity)).
    destruct H. }
  repeat split; reflexivity.
Qed.
Print Assumptions C12_empty_column_refuted.

(** ** C13 - typed access *)
Theorem C13_typed_getters t n m c :
  ds_get_typed t n m = Some c <-> ds_get n m = Some c /\ col_type c = t.
Proof. exact (typed_getters t n m c). Qed.
Print Assumptions C13_typed_getters.

Theorem C13_typed_listings m :
  Permutation (ds_list_typed TBucketized m ++ ds_list_typed TRaw m ++ ds_list_typed TString m)
              (stored_columns m) /\
  forall t c, In c (ds_list_typed t m) -> col_type c = t.
Proof. exact (typed_listings m). Qed.
Print Assumptions C13_typed_listings.

Example C13_example :
  let s := mkCol (lit "s") (BodyS (create_string_column [lit "x"])) in
  let m := [(lit "s", s); (lit "r", raw_col "r" [7%Z])] in
  ds_get_typed TString (lit "s") m = Some s /\ ds_get_typed TRaw (lit "s") m = None /\
  ds_list_typed TString m = [s].
Proof. cbn. auto. Qed.
