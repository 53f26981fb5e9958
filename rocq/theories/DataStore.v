(** DataStore.v - model of src/data_store/data_store.{h,cc}.  Definitions only. *)
From Verif Require Import Base F32 Column.

(** Column (column.h:30-63): a name and one of the three concrete classes. *)
Inductive body := BodyB (b : bcol) | BodyR (r : rcol) | BodyS (s : strcol).
Record column := mkCol { c_name : str; c_body : body }.

Inductive ctype := TBucketized | TRaw | TString.
(** Column::type (column.h:52, 148, 189, 125) *)
Definition col_type (c : column) : ctype :=
  match c_body c with BodyB _ => TBucketized | BodyR _ => TRaw | BodyS _ => TString end.
Definition ctype_eqb (a b : ctype) : bool :=
  match a, b with
  | TBucketized, TBucketized | TRaw, TRaw | TString, TString => true
  | _, _ => false
  end.
(** Column::size (column.h:44, column.cc:135-137, column.h:185).  Undefined before Finalize for the
    two integerized classes.  Simplification: the narrowing to uint is dropped (< 2^32 rows). *)
Definition col_size (c : column) : res nat :=
  match c_body c with
  | BodyB b => b_size b | BodyR r => Ret (r_size r) | BodyS s => str_size s
  end.

(** column_map_: an unordered_map without duplicate keys.  Its iteration order is unspecified;
    functions below take [beg], an arbitrary choice of the element [begin()] refers to. *)
Definition store := list (str * column).
Definition empty_store : store := [].

(** GetColumn (data_store.cc:119-122) *)
Definition ds_get (n : str) (m : store) : option column := assoc n m.

(** begin(): any function choosing an element of a non-empty map. *)
Definition begin_choice := store -> nat.

(** num_rows (data_store.cc:67-69).  An index outside the map can not be chosen: the choice is taken
    modulo the size. *)
Definition ds_num_rows (beg : begin_choice) (m : store) : res nat :=
  match nth_error m (beg m mod List.length m) with
  | None => Ret 0
  | Some (_, c) => col_size c
  end.

(** num_cols (data_store.cc:71-73) *)
Definition ds_num_cols (m : store) : nat := List.length m.

(** Add (data_store.cc:124-137).  The column is moved from only on success. *)
Definition ds_add (beg : begin_choice) (c : column) (m : store) : res (status * store) :=
  match assoc (c_name c) m with
  | Some _ => Ret (SErr ALREADY_EXISTS, m)
  | None =>
      let! n := ds_num_rows beg m in
      if 0 <? n then
        let! k := col_size c in
        if n =? k then Ret (SOk, (c_name c, c) :: m) else Ret (SErr OUT_OF_RANGE, m)
      else Ret (SOk, (c_name c, c) :: m)
  end.

(** RemoveColumnIfExists (data_store.cc:139-144) *)
Definition ds_remove (n : str) (m : store) : store :=
  filter (fun p => negb (str_eqb n (fst p))) m.

(** Typed getters (data_store.cc:28-65) *)
Definition ds_get_typed (t : ctype) (n : str) (m : store) : option column :=
  match ds_get n m with
  | None => None
  | Some c => if ctype_eqb (col_type c) t then Some c else None
  end.

(** Typed listings (data_store.cc:86-117).  The order of the list stands for the unspecified iteration
    order of the unordered_map. *)
Definition ds_list_typed (t : ctype) (m : store) : list column :=
  map snd (filter (fun p => ctype_eqb (col_type (snd p)) t) m).

(** Operations and their visible results. *)
Inductive ds_op := OpAdd (c : column) | OpRemove (n : str) | OpGet (n : str).
Inductive ds_out := OutStatus (s : status) | OutNone | OutCol (c : option column).

Definition ds_step (beg : begin_choice) (m : store) (o : ds_op) : res (ds_out * store) :=
  match o with
  | OpAdd c => let! (s, m') := ds_add beg c m in Ret (OutStatus s, m')
  | OpRemove n => Ret (OutNone, ds_remove n m)
  | OpGet n => Ret (OutCol (ds_get n m), m)
  end.

(** A run: the history of operations with their results (latest first), and the store. *)
Fixpoint ds_run (beg : begin_choice) (ops : list ds_op) (h : list (ds_op * ds_out)) (m : store)
  : res (list (ds_op * ds_out) * store) :=
  match ops with
  | [] => Ret (h, m)
  | o :: t => let! (r, m') := ds_step beg m o in ds_run beg t ((o, r) :: h) m'
  end.
