(** TsvSource.v - a loaded TSV store as the command line program sees it (src/main.cc:97-101,
    src/data_store/tsv_data_store.cc).  Definitions only. *)
From Coq Require Import SpecFloat.
From Verif Require Import Base F32 Column DataStore Strings Tsv Num Config Driver.

(** The columns the configuration names (tsv_data_store.cc:149-211).  The fields additional_float_column and
    additional_string_column (src/proto/config.proto) have no other use; they are given beside the configuration. *)
Definition columns_of {N : Num} (more_floats more_strings : list str) (c : config N) : columns_config :=
  mkCC (cf_float_features c) more_floats (cf_target_column c) (cf_weight_column c) (cf_cat_features c) (cf_group_column c) more_strings.

(** num_rows (data_store.cc:67-69): the size of the column begin() points to, any column of the map; 0 if there is none. *)
Definition tsv_rows (begin : tsv -> nat) (t : tsv) : nat :=
  match nth_error (t_map t) (begin t mod List.length (t_map t)) with
  | None => 0
  | Some (n, _) => match tsv_get n t with
                   | Some c => match col_size c with Ret k => k | _ => 0 end
                   | None => 0
                   end
  end.

(** TSVDataStore once LoadTSVs is done (tsv_data_store.cc:53-57) *)
Definition tsv_source (begin : tsv -> nat) (order : list str -> list str) (s : status) (t : tsv) : source :=
  mkSource s (fun n => tsv_get n t) (fun _ => tsv_rows begin t) order.
