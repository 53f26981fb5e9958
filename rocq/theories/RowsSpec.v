(** RowsSpec.v - vocabulary: the rows of a table in another order. *)
From Verif Require Import Base F32 Column ColumnSpec DataStore Eval.

(** Row [a] of the first table is row [to a] of the second. *)
Definition rearranges (n : nat) (to : nat -> nat) : Prop :=
  (forall a, a < n -> to a < n) /\ forall a b, a < n -> b < n -> to a = to b -> a = b.
Definition moved {A} (n : nat) (to : nat -> nat) (l l' : list A) : Prop :=
  List.length l = n /\ List.length l' = n /\ forall a, a < n -> nth_error l' (to a) = nth_error l a.

(** Equal values are the same value: no +0 beside -0. *)
Definition plain (l : list f32) : Prop := forall x y, In x (flt_max :: l) -> In y (flt_max :: l) -> feqb x y = true -> x = y.
(** The strings in the order in which they appear first, behind those seen before. *)
Fixpoint appearing (seen l : list str) : list str :=
  match l with
  | [] => seen
  | s :: t => appearing (if in_dec str_eq_dec s seen then seen else seen ++ [s]) t
  end.

(** Two columns loaded from the same rows in different orders and blocks.  Numbers: few enough for the limits of the buckets to come from all of them;
    strings: they appear in the same order. *)
Definition rows_moved (n : nat) (to : nat -> nat) (c c' : column) : Prop :=
  c_name c' = c_name c /\
  match c_body c, c_body c' with
  | BodyB b, BodyB b' => exists nb blocks blocks', limit_ok nb /\ (zlen (concat blocks) <= 100 * nb)%Z /\ plain (concat blocks) /\
      moved n to (concat blocks) (concat blocks') /\ b_load nb blocks = Ret b /\ b_load nb blocks' = Ret b'
  | BodyS s, BodyS s' => exists blocks blocks', fits_32_bits (concat blocks) /\ moved n to (concat blocks) (concat blocks') /\
      s = string_column_of blocks /\ s' = string_column_of blocks' /\ appearing [missing_str] (concat blocks') = appearing [missing_str] (concat blocks)
  | BodyR r, BodyR r' => r_status r' = r_status r /\ moved n to (r_floats r) (r_floats r')
  | _, _ => False
  end.
