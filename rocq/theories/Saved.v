(** Saved.v - model of loading a forest from its JSON form: JsonUtils::FromJson (src/utils/json_utils.cc:58-68) for the messages of src/proto/tree.proto,
    ForestPy's constructor (src/python/forest_py.cc:18-24) and Forest.__init__ (gbdt/_forest.py:6-12); the JSON form itself is in Draw.v.  Definitions only.
    Simplifications: the text is taken as the value it stands for, in which no object has two fields of one name; null is left out, and so are numbers
    written as strings, other than NaN and the infinities (the library accepts both).  The library's own code is not in the repository; the model follows
    its documentation. *)
From Coq Require Import SpecFloat.
From Verif Require Import Base F32 Num Strings Forest Driver Stopwatch Print Draw.

(** ** Numbers in the text
    The double that the [k] digits written for a double denote ("%.<k>g" and strtod) *)
Definition digits_read (k : Z) (x : f64) : f64 :=
  match x with
  | S754_finite s m e =>
      let '(a, b) := if (0 <=? e)%Z then ((Zpos m * 2 ^ e)%Z, 1%Z) else (Zpos m, (2 ^ (- e))%Z) in
      let w := exponent10 a b in
      nearest_double s (scaled a b (k - 1 - w)) (w - k + 1)
  | _ => x
  end.
(** The library writes six digits of a float if they read back as the float, otherwise [k]: eight in old versions, nine in new ones; fifteen digits of a
    double, if they read back, otherwise seventeen. *)
Definition float_text (k : Z) (x : f64) : f64 := let y := digits_read 6 x in if feqb (to_f32 y) (to_f32 x) then y else digits_read k x.
Definition double_text (x : f64) : f64 := let y := digits_read 15 x in if feqb y x then y else digits_read 17 x.

(** ** Fields *)
(** The value of the field with one of the given names, converted: [None] - refused, [Some None] - absent *)
Section Field.
Context {A : Type} (convert : json -> option A) (names : list str).
Fixpoint field (l : list (str * json)) : option (option A) :=
  match l with
  | [] => Some None
  | (k, v) :: t => if existsb (str_eqb k) names then match convert v with Some a => Some (Some a) | None => None end else field t
  end.
End Field.
(** Fields with other names are refused. *)
Definition known (names : list str) (l : list (str * json)) : bool := forallb (fun kv => existsb (str_eqb (fst kv)) names) l.
Definition otherwise {A} (d : A) (x : option A) : A := match x with Some a => a | None => d end.
Definition obind {A B} (x : option A) (k : A -> option B) : option B := match x with Some a => k a | None => None end.
Notation "'opt!' x := m 'in' k" := (obind m (fun x => k)) (at level 200, x name, m at level 100, k at level 200).
Section Elements.
Context {A : Type} (convert : json -> option A).
Fixpoint elements (l : list json) : option (list A) :=
  match l with [] => Some [] | j :: t => opt! a := convert j in opt! r := elements t in Some (a :: r) end.
End Elements.

(** ** Values *)
(** A double *)
Definition json_double (j : json) : option f64 :=
  match j with
  | JNum x => Some x
  | JStr s => if str_eqb s (lit "NaN") then Some S754_nan else if str_eqb s (lit "Infinity") then Some (S754_infinity false)
              else if str_eqb s (lit "-Infinity") then Some (S754_infinity true) else None
  | _ => None
  end.
(** A float: the double, unless it is finite and beyond the largest float, is converted. *)
Definition beyond (x : f64) : bool :=
  match x with
  | S754_finite _ _ _ => fltb (to_f64 flt_max) (SFabs x)
  | _ => false
  end.
Definition json_float (j : json) : option f32 := opt! x := json_double j in if beyond x then None else Some (to_f32 x).
Definition json_bool (j : json) : option bool := match j with JBool b => Some b | _ => None end.
Definition json_string (j : json) : option str := match j with JStr s => Some s | _ => None end.
(** An int32: a whole number *)
Definition whole (x : f64) : option Z :=
  match x with
  | S754_zero _ => Some 0%Z
  | S754_finite s m e =>
      let z := if (0 <=? e)%Z then (Zpos m * 2 ^ e)%Z else (Zpos m / 2 ^ (- e))%Z in
      if (if (0 <=? e)%Z then true else (z * 2 ^ (- e) =? Zpos m)%Z) then Some (if s then (- z)%Z else z) else None
  | _ => None
  end.
Definition json_int (j : json) : option Z :=
  match j with
  | JNum x => opt! z := whole x in if ((-2147483648 <=? z) && (z <=? 2147483647))%Z then Some z else None
  | _ => None
  end.
Definition json_list {A} (convert : json -> option A) (j : json) : option (list A) := match j with JList l => elements convert l | _ => None end.

(** ** Messages.  Fields of number, bool, string and list types that are absent have their default values; a zero that is written as -0 is the default
    value 0 (the message passes through its binary form, json_utils.cc:59-63, where fields with value 0 are left out). *)
Definition plain_zero (x : spec_float) : spec_float := match x with S754_zero _ => S754_zero false | _ => x end.
Section Messages.
Context {c_exp c_log : f64 -> f64}.
Notation N := (IEEE c_exp c_log).
(** tree.proto:27-31 *)
Definition float_split_of (j : json) : option (f32 * bool) :=
  match j with
  | JDict l =>
      if known [lit "threshold"; lit "missingToRightChild"; lit "missing_to_right_child"] l then
        opt! t := field json_float [lit "threshold"] l in
        opt! m := field json_bool [lit "missingToRightChild"; lit "missing_to_right_child"] l in
        Some (plain_zero (otherwise (S754_zero false) t), otherwise false m)
      else None
  | _ => None
  end.
(** tree.proto:20-24 *)
Definition cat_split_of (j : json) : option (list str * list Z) :=
  match j with
  | JDict l =>
      if known [lit "category"; lit "internalCategoricalIndex"; lit "internal_categorical_index"] l then
        opt! c := field (json_list json_string) [lit "category"] l in
        opt! i := field (json_list json_int) [lit "internalCategoricalIndex"; lit "internal_categorical_index"] l in
        Some (otherwise [] c, otherwise [] i)
      else None
  | _ => None
  end.
(** tree.proto:33-39 *)
Definition split_of (j : json) : option (split N) :=
  match j with
  | JDict l =>
      if known [lit "feature"; lit "floatSplit"; lit "float_split"; lit "catSplit"; lit "cat_split"; lit "gain"] l then
        opt! f := field json_string [lit "feature"] l in
        opt! x := field float_split_of [lit "floatSplit"; lit "float_split"] l in
        opt! c := field cat_split_of [lit "catSplit"; lit "cat_split"] l in
        opt! g := field json_double [lit "gain"] l in
        Some (mkSplit (otherwise [] f) x c (plain_zero (otherwise (S754_zero false) g) : N))
      else None
  | _ => None
  end.
(** tree.proto:41-46 *)
Fixpoint tree_of (j : json) : option (tree N) :=
  match j with
  | JDict l =>
      if known [lit "score"; lit "split"; lit "leftChild"; lit "left_child"; lit "rightChild"; lit "right_child"] l then
        opt! s := field json_float [lit "score"] l in
        opt! sp := field split_of [lit "split"] l in
        opt! a := field tree_of [lit "leftChild"; lit "left_child"] l in
        opt! b := field tree_of [lit "rightChild"; lit "right_child"] l in
        Some (TNode (to_f64 (plain_zero (otherwise (S754_zero false) s)) : N) sp (otherwise TNone a) (otherwise TNone b))
      else None
  | _ => None
  end.
(** tree.proto:48-51; the forest and its meta_info *)
Definition forest_of (j : json) : option (forest N * str) :=
  match j with
  | JDict l =>
      if known [lit "tree"; lit "metaInfo"; lit "meta_info"] l then
        opt! t := field (json_list tree_of) [lit "tree"] l in
        opt! m := field json_string [lit "metaInfo"; lit "meta_info"] l in
        Some (otherwise [] t, otherwise [] m)
      else None
  | _ => None
  end.
End Messages.
