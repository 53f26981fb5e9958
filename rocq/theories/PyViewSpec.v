(** PyViewSpec.v - vocabulary for indexing and repr. *)
From Coq Require Import SpecFloat.
From Verif Require Import Base F32 Column ColumnSpec DataStore Strings Driver Python PythonSpec.

(** The rows from [a] up to [b] *)
Definition rows_between (a b : nat) (vals : list value) : list value := firstn (b - a) (skipn a vals).
(** The second store has the columns of the first with the values [pick] chooses. *)
Definition viewed (pick : list value -> list value) (vals : str -> list value) (m : store) (d : pystore) : Prop :=
  forall n, match ds_get n m, py_col n d with
            | Some c, Some c' => col_type c' = col_type c /\ c_name c' = n /\
                exists shown, holds c' shown /\ same_values (col_type c) (pick (vals n)) shown
            | None, None => True
            | _, _ => False
            end.
Definition tame (m : store) (vals : str -> list value) : Prop :=
  forall n c, ds_get n m = Some c -> col_type c = TBucketized -> below_inf (floats_of (vals n)).

(** Values whose texts can be told apart: strings without quotation marks, floats with texts that are not empty and hold
    no comma, blank or bracket. *)
Definition plain (show : f32 -> str) (v : value) : Prop :=
  match v with
  | VString s => ~ In (ascii_of_nat 34) s
  | VFloat x => show x <> [] /\ forall c, In c (show x) -> c <> ","%char /\ c <> " "%char /\ c <> "]"%char
  end.
(** The text of a column with these values: the first ten, with commas between them, and three dots if there are more *)
Definition column_text (show : f32 -> str) (t : ctype) (vals : list value) : str :=
  let text v := match v with VString s => lit """" ++ s ++ lit """" | VFloat x => show x end in
  lit (match t with TString => "StringColumn([" | TRaw => "FloatColumn([" | TBucketized => "BucketizedFloatColumn([" end) ++
  match firstn 10 vals with [] => [] | v :: l => text v ++ concat (map (fun v => lit "," ++ text v) l) end ++
  lit (if (10 <? List.length vals)%nat then " ...])" else "])").
(** What the repr of a column tells about a value *)
Definition looks_alike (show : f32 -> str) (a b : value) : Prop :=
  match a, b with VString s, VString t => s = t | VFloat x, VFloat y => show x = show y | _, _ => False end.
(** The number of columns of a type *)
Definition has_columns (d : pystore) (t : ctype) (k : nat) : Prop :=
  exists names, NoDup names /\ List.length names = k /\
    forall n, In n names <-> exists c, py_col n d = Some c /\ col_type c = t.
