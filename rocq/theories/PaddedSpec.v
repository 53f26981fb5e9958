(** PaddedSpec.v - vocabulary: features that add nothing to those in front of them. *)
From Coq Require Import SpecFloat.
From Verif Require Import Base F32 Column DataStore Num Config Train.

(** The rows of the column do not differ: all are in the same bucket (missing ones have their own), or have the same text. *)
Definition one_valued (n : nat) (c : column) : Prop :=
  match c_body c with
  | BodyB b => forall i j, i < n -> j < n -> b_bucket b i = b_bucket b j
  | BodyS s => forall i j, i < n -> j < n -> str_row s i = str_row s j
  | BodyR _ => False
  end.

(** The second list is the third without some raw columns, columns whose rows do not differ, and copies (under other names) of columns in front of
    them.  The first list holds the columns that may be copied. *)
Inductive padded (n : nat) : list column -> list column -> list column -> Prop :=
| PadEnd seen : padded n seen [] []
| PadKeep seen c fs fs' : padded n (c :: seen) fs fs' -> padded n seen (c :: fs) (c :: fs')
| PadRaw seen c r fs fs' : c_body c = BodyR r -> padded n seen fs fs' -> padded n seen fs (c :: fs')
| PadOne seen c fs fs' : one_valued n c -> padded n seen fs fs' -> padded n seen fs (c :: fs')
| PadCopy seen c d fs fs' : In d seen -> c_body c = c_body d -> padded n seen fs fs' -> padded n seen fs (c :: fs').

Section Spec.
Context {N : Num}.

(** A loss that uses no random numbers: the position of the stream makes no difference. *)
Definition unrandom (lf : loss N) : Prop :=
  forall s pos pos' f gd x gd' s' p, l_round lf s pos f gd = Ret (x, gd', s', p) -> exists p', l_round lf s pos' f gd = Ret (x, gd', s', p').

(** The configuration with other features. *)
Definition with_features (float_features cat_features : list str) (c : config N) : config N :=
  mkConfig (cf_num_trees c) (cf_num_leaves c) (cf_shrinkage c) (cf_min_gain c) (cf_l2_lambda c) (cf_min_hessian c) (cf_example_rate c) (cf_feature_rate c)
    (cf_eval_interval c) float_features cat_features (cf_weight_column c) (cf_target_column c) (cf_binarize_target c) (cf_group_column c) (cf_loss_func c)
    (cf_pair_rate c) (cf_delta_target c) (cf_dcg_base c) (cf_equal_groups c).
End Spec.
