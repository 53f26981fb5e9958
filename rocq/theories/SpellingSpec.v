(** SpellingSpec.v - vocabulary for the ways in which one message of src/proto/tree.proto can be written as JSON. *)
From Coq Require Import SpecFloat Permutation.
From Verif Require Import Base Draw.

(** Fields have the names declared in tree.proto:20-51 and names in camel case. *)
Definition camel : list (str * str) :=
  map (fun p => (lit (fst p), lit (snd p)))
    [("internalCategoricalIndex", "internal_categorical_index"); ("missingToRightChild", "missing_to_right_child"); ("catSplit", "cat_split"); ("floatSplit", "float_split");
     ("leftChild", "left_child"); ("rightChild", "right_child"); ("metaInfo", "meta_info")]%string.
(** The declared name *)
Definition declared (k : str) : str := match assoc k camel with Some d => d | None => k end.
(** The default value of the field of a declared name *)
Inductive by_default : str -> json -> Prop :=
| DefaultNumber k s : In k (map lit ["threshold"; "gain"; "score"]%string) -> by_default k (JNum (S754_zero s))
| DefaultBool : by_default (lit "missing_to_right_child") (JBool false)
| DefaultText k : In k (map lit ["feature"; "meta_info"]%string) -> by_default k (JStr [])
| DefaultList k : In k (map lit ["category"; "internal_categorical_index"; "tree"]%string) -> by_default k (JList []).

(** Fields, one by one, some with the other name, and some that have default values left out *)
Section Fields.
Context (R : json -> json -> Prop).
Inductive fields : list (str * json) -> list (str * json) -> Prop :=
| NoFields : fields [] []
| OneField k k' v v' l l' : declared k = declared k' -> R v v' -> fields l l' -> fields ((k, v) :: l) ((k', v') :: l')
| LeftOut k v l l' : by_default (declared k) v -> fields l l' -> fields ((k, v) :: l) l'.
End Fields.
(** The same message, written differently: the fields also may be in another order. *)
Inductive respelled : json -> json -> Prop :=
| SameText j : respelled j j
| SameList l l' : Forall2 respelled l l' -> respelled (JList l) (JList l')
| SameDict l m l' : NoDup (map (fun kv => declared (fst kv)) l) -> Permutation l m -> fields respelled m l' -> respelled (JDict l) (JDict l').
