(** Forest.v - the messages of src/proto/tree.proto.  Definitions only. *)
From Verif Require Import Base F32 Num.

(** Split: [sp_float] is float_split (threshold, missing_to_right_child), [sp_cat] is cat_split (category,
    internal_categorical_index); [None] when the sub-message is absent.  int32 indices are Z. *)
Record split (N : Num) := mkSplit {
  sp_feature : str;
  sp_float : option (f32 * bool);
  sp_cat : option (list str * list Z);
  sp_gain : N
}.
Arguments mkSplit {N}. Arguments sp_feature {N}. Arguments sp_float {N}. Arguments sp_cat {N}. Arguments sp_gain {N}.

(** TreeNode.  [TNone] is an absent child message; reading it gives the default message (score 0, no split,
    no children).  The float score is kept as the double it converts to. *)
Inductive tree (N : Num) :=
| TNone
| TNode (score : N) (sp : option (split N)) (left right : tree N).
Arguments TNone {N}. Arguments TNode {N}.

Section Forest.
Context {N : Num}.

Definition default_split : split N := mkSplit [] None None n0.

Definition t_score (t : tree N) : N := match t with TNone => n0 | TNode s _ _ _ => s end.
Definition t_split (t : tree N) : option (split N) := match t with TNone => None | TNode _ sp _ _ => sp end.
Definition t_left (t : tree N) : tree N := match t with TNone => TNone | TNode _ _ l _ => l end.
Definition t_right (t : tree N) : tree N := match t with TNone => TNone | TNode _ _ _ r => r end.
Definition present (t : tree N) : bool := match t with TNone => false | TNode _ _ _ _ => true end.
(** has_left_child, split() *)
Definition has_left (t : tree N) : bool := present (t_left t).
Definition the_split (sp : option (split N)) : split N := match sp with Some s => s | None => default_split end.

(** Forest: its trees in order; meta_info is text. *)
Definition forest := list (tree N).
End Forest.
Arguments forest : clear implicits.
