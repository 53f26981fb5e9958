(** PyTsv.v - model of DataStorePy::LoadTSV (src/python/datastore_py.cc:37-57), DataLoader.from_tsvs and DataStore.to_df
    (gbdt/_data_store.py).  Definitions only. *)
From Coq Require Import SpecFloat.
From Verif Require Import Base F32 Column DataStore Strings Tsv Python.

(** The configuration LoadTSV fills (datastore_py.cc:41-50): the other fields keep their defaults, which are empty. *)
Definition py_tsv_config (buckets raws strings : list str) : columns_config := mkCC buckets raws [] [] [] [] strings.

(** column_map_ of a TSVDataStore: the column objects that are still alive, under their names. *)
Definition tsv_store (t : tsv) : store :=
  flat_map (fun p => match nth_error (t_heap t) (snd p) with Some (Some c) => [(fst p, c)] | _ => [] end) (t_map t).

(** The rest of LoadTSV (datastore_py.cc:51-56) once the constructor of TSVDataStore is done: an exception or none, and the
    pointer data_store_.  Where ThrowException returns, the store is not replaced. *)
Definition py_after_load (s : lstate) (d : pystore) : res (option exc * pystore) :=
  match s with
  | Done SOk t => Ret (None, Some (tsv_store t))
  | Done s _ => Ret (throws s, d)
  | _ => Undef
  end.
(** LoadTSV on the store [d]: the outcomes of all complete runs of the constructor. *)
Definition py_load (fs : files_t) (strtof : strtof_t) (tsvs buckets raws strings : list str) (d : pystore)
    (out : res (option exc * pystore)) : Prop :=
  match load_start fs tsvs (py_tsv_config buckets raws strings) with
  | Ret s0 => exists s, lreach fs strtof tsvs s0 s /\ lfinal s /\ out = py_after_load s d
  | _ => out = Undef
  end.
(** from_tsvs (_data_store.py:108-122): a new object, load_tsv, and the object if nothing is raised. *)
Definition py_from_tsvs (fs : files_t) (strtof : strtof_t) (tsvs buckets raws strings : list str) (out : py pystore) : Prop :=
  exists r, py_load fs strtof tsvs buckets raws strings None r /\
    out = let! (e, d) := r in match e with Some e => py_raise e | None => py_ret d end.

(** The dict to_df gives to pandas (_data_store.py:96-102), with items() (78-80): the names in the order of cols(), each with
    list(column). *)
Definition py_frame (d : pystore) (l : list (str * list value)) : Prop :=
  Forall2 (fun c kv => fst kv = c_name c /\ py_iter c 0 (snd kv)) (py_cols d) l.
