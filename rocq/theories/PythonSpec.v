(** PythonSpec.v - vocabulary for the properties of the Python binding. *)
From Coq Require Import SpecFloat.
From Verif Require Import Base F32 Column ColumnSpec DataStore Python.

(** A column object holds a list of values: strings, floats, or the lower ends of the buckets of the rows. *)
Definition holds (c : column) (vals : list value) : Prop :=
  match c_body c with
  | BodyS s => str_size s = Ret (List.length vals) /\
      forall i v, nth_error vals i = Some v -> exists x, v = VString x /\ str_row s i = Ret x
  | BodyR r => r_size r = List.length vals /\
      forall i v, nth_error vals i = Some v -> exists x, v = VFloat x /\ r_get r i = Ret x
  | BodyB b => b_size b = Ret (List.length vals) /\
      forall i v, nth_error vals i = Some v -> exists x, v = VFloat x /\ b_row_min b i = Ret x
  end.

(** A 32-bit int *)
Definition int32 (i : Z) : Prop := (-2147483648 <= i < 2147483648)%Z.

(** A store whose columns all hold [rows] values. *)
Definition table (m : store) (rows : nat) (vals : str -> list value) : Prop :=
  NoDup (map fst m) /\
  forall n c, ds_get n m = Some c -> c_name c = n /\ holds c (vals n) /\ List.length (vals n) = rows.

(** The values at given positions *)
Definition picks (vals : list value) (index : list Z) (sel : list value) : Prop :=
  Forall2 (fun i v => (0 <= i)%Z /\ nth_error vals (Z.to_nat i) = Some v) index sel.

(** Equality of values up to the sign of zero and the representation of NaN *)
Definition alike (a b : value) : Prop :=
  match a, b with
  | VFloat x, VFloat y => feqb x y = true \/ (is_nan x = true /\ is_nan y = true)
  | VString s, VString t => s = t
  | _, _ => False
  end.
Definition same_values (t : ctype) (a b : list value) : Prop :=
  match t with TBucketized => Forall2 alike a b | _ => a = b end.

Definition floats_of (vals : list value) : list f32 :=
  flat_map (fun v => match v with VFloat x => [x] | VString _ => [] end) vals.
Definition strings_of (vals : list value) : list str :=
  flat_map (fun v => match v with VString x => [x] | VFloat _ => [] end) vals.
(** Values of the kind a column of the type has *)
Definition typed_for (t : ctype) (vals : list value) : Prop :=
  match t with
  | TString => vals = map VString (strings_of vals)
  | _ => vals = map VFloat (floats_of vals)
  end.
(** Floats that can be bucketized with the default number of buckets (see C09) *)
Definition bucketizable (l : list f32) : Prop :=
  forall hv, frequent_values default_buckets l hv -> zlen hv <> 29999%Z.

(** Two stores have the same columns, with the values of the rows [index] in the second *)
Definition sliced (vals : str -> list value) (m : store) (index : list Z) (d : pystore) : Prop :=
  forall n, match ds_get n m, py_col n d with
            | Some c, Some c' => col_type c' = col_type c /\ c_name c' = n /\
                exists sel shown, picks (vals n) index sel /\ holds c' shown /\ same_values (col_type c) sel shown
            | None, None => True
            | _, _ => False
            end.

(** Operations on a data store that may delete the column [n] *)
Definition deletes (n : str) (x : hop) : Prop := x = HErase n \/ x = HClear.

(** The column made of a list of values *)
Definition made (n : str) (t : ctype) (vals : list value) (c : column) : Prop :=
  c_name c = n /\ col_type c = t /\ exists shown, holds c shown /\ List.length shown = List.length vals /\
    (t <> TBucketized \/ ((zlen vals < 60000)%Z /\ below_inf (floats_of vals)) -> same_values t vals shown).
(** Columns that can be made, all of length [k] *)
Definition well_typed (k : nat) (cols : list (str * ctype * list value)) : Prop :=
  forall n t vals, In (n, t, vals) cols -> typed_for t vals /\ List.length vals = k /\
    (t = TBucketized -> bucketizable (floats_of vals)).
(** The first entry of a list under a name *)
Definition first_listed {A} (n : str) (cols : list (str * A * list value)) : option (A * list value) :=
  match find (fun p => str_eqb n (fst (fst p))) cols with Some (_, t, vals) => Some (t, vals) | None => None end.

(** The type of a data frame column according to the documentation of from_df *)
Definition documented_type (overrides : list (str * str)) (n : str) (numeric : bool) : ctype :=
  let default := if numeric then TBucketized else TString in
  match assoc n overrides with
  | None => default
  | Some t => if str_eqb t (lit "string") then TString
              else if str_eqb t (lit "float") || str_eqb t (lit "raw_float") then TRaw
              else if str_eqb t (lit "bucketized_float") then TBucketized else default
  end.
