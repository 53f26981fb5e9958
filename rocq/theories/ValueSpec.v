(** ValueSpec.v - predictions in terms of the values of a table, without buckets, categories and stores. *)
From Coq Require Import SpecFloat.
From Verif Require Import Base F32 Column ColumnSpec DataStore Num Forest Python PythonSpec EvalSpec.

(** A table: the type and the values of each column *)
Definition frame := str -> option (ctype * list value).
Definition frame_of (cols : list (str * ctype * list value)) : frame := fun n => first_listed n cols.
(** A table of [k] rows that can be loaded without loss *)
Definition lossless (k : nat) (fr : frame) : Prop :=
  (Z.of_nat k < 60000)%Z /\
  forall n t vals, fr n = Some (t, vals) -> typed_for t vals /\ List.length vals = k /\
    (t = TBucketized -> below_inf (floats_of vals) /\ bucketizable (floats_of vals)).
(** A value a column of the type can have, +infinity excluded *)
Definition settable (t : ctype) (v : value) : Prop :=
  match t, v with
  | TString, VString _ | TRaw, VFloat _ => True
  | TBucketized, VFloat x => is_nan x = true \/ fleb x flt_max = true
  | _, _ => False
  end.
(** All rows get the value [v] in column [n]. *)
Definition with_value (fr : frame) (n : str) (v : value) (k : nat) : frame :=
  fun n' => if str_eq_dec n' n then match fr n with Some (t, _) => Some (t, repeat v k) | None => None end else fr n'.

Section Spec.
Context {N : Num}.

(** The decision of a split for a value: is it sent left? *)
Inductive decides : ctype -> value -> split N -> bool -> Prop :=
| DecMissing x sp t right : is_nan x = true -> sp_float sp = Some (t, right) -> decides TBucketized (VFloat x) sp (negb right)
| DecNumber x sp t right : is_nan x = false -> sp_float sp = Some (t, right) -> decides TBucketized (VFloat x) sp (fltb x t)
| DecName s sp names left : sp_cat sp = Some (names, []) -> (left = true <-> In s names) -> decides TString (VString s) sp left
| DecRaw x sp : decides TRaw (VFloat x) sp false.

(** The score of the leaf a row of the table ends in *)
Inductive leaf_of (fr : frame) (row : nat) : tree N -> N -> Prop :=
| LeafHere t : has_left t = false -> leaf_of fr row t (t_score t)
| LeafBelow s sp l r ty vals v left x : present l = true -> fr (sp_feature sp) = Some (ty, vals) -> nth_error vals row = Some v ->
    decides ty v sp left -> leaf_of fr row (if left then l else r) x -> leaf_of fr row (TNode s (Some sp) l r) x.

(** The score of a row: the sum over the trees, from the first to the last *)
Definition score_of (fr : frame) (f : forest N) (row : nat) (s : N) : Prop :=
  exists ls, Forall2 (leaf_of fr row) f ls /\ s = add_all n0 n0 ls.

(** The splits of a tree name columns of the table, of the right type; categories are given by name. *)
Fixpoint scorable (fr : frame) (t : tree N) : Prop :=
  match t with
  | TNone => True
  | TNode _ sp l r =>
      (forall s, sp = Some s -> exists ty vals, fr (sp_feature s) = Some (ty, vals) /\
         (present l = true -> match ty with
                              | TBucketized => sp_float s <> None
                              | TString => exists names, sp_cat s = Some (names, [])
                              | TRaw => True
                              end)) /\
      (present l = true -> sp <> None) /\ scorable fr l /\ scorable fr r
  end.

(** The value the effects of partial dependency are measured from *)
Definition start_value (t : ctype) (x0 : option value) (xs : list value) : option value :=
  match x0 with
  | Some v => Some v
  | None => match t with TBucketized => Some (VFloat fnan) | _ => hd_error xs end
  end.
(** The effect of the value [v] in column [n]: how much the scores of the [k] rows differ from those with the value [v0] *)
Definition effect (fr : frame) (n : str) (k : nat) (f : forest N) (v0 v : value) (p : value * list N) : Prop :=
  fst p = v /\ List.length (snd p) = k /\
  forall row s b, row < k -> score_of (with_value fr n v k) f row s -> score_of (with_value fr n v0 k) f row b ->
    nth_error (snd p) row = Some (nsub s b).
End Spec.
