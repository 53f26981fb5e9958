(** TreeSpec.v - vocabulary for fitted trees. *)
From Coq Require Import SpecFloat.
From Verif Require Import Base F32 Column DataStore Num Forest Config Score ScoreSpec Split SplitSpec.

Section Spec.
Context {N : Num}.

(** A node of a tree: the way to it (true: left), its score and its split. *)
Inductive has_node : tree N -> list bool -> N -> option (split N) -> Prop :=
| NodeHere s sp l r : has_node (TNode s sp l r) [] s sp
| NodeLeft s sp l r p s' sp' : has_node l p s' sp' -> has_node (TNode s sp l r) (true :: p) s' sp'
| NodeRight s sp l r p s' sp' : has_node r p s' sp' -> has_node (TNode s sp l r) (false :: p) s' sp'.
Inductive has_leaf : tree N -> list bool -> N -> option (split N) -> Prop :=
| LeafHere s sp : has_leaf (TNode s sp TNone TNone) [] s sp
| LeafLeft s sp l r p s' sp' : has_leaf l p s' sp' -> has_leaf (TNode s sp l r) (true :: p) s' sp'
| LeafRight s sp l r p s' sp' : has_leaf r p s' sp' -> has_leaf (TNode s sp l r) (false :: p) s' sp'.

(** The nodes a row passes. *)
Inductive reaches (store : str -> option column) : tree N -> nat -> list bool -> Prop :=
| ReachHere t row : reaches store t row []
| ReachNext t row c left p :
    has_left t = true -> store (sp_feature (the_split (t_split t))) = Some c ->
    goes_left c (the_split (t_split t)) row left ->
    reaches store (if left then t_left t else t_right t) row p ->
    reaches store t row (left :: p).

(** Every node has no or two children; those with children have a split of positive gain on a given feature. *)
Inductive full (features : list column) : tree N -> Prop :=
| FullLeaf s sp : full features (TNode s sp TNone TNone)
| FullNode s sp l r col :
    In col features -> sp_feature sp = c_name col -> fits_kind col sp -> nltb (nZ 0) (sp_gain sp) = true ->
    full features l -> full features r -> full features (TNode s (Some sp) l r).

Fixpoint num_leaves (t : tree N) : nat :=
  match t with
  | TNone => 0
  | TNode _ _ TNone TNone => 1
  | TNode _ _ l r => num_leaves l + num_leaves r
  end.
Fixpoint num_internal (t : tree N) : nat :=
  match t with
  | TNone => 0
  | TNode _ _ TNone TNone => 0
  | TNode _ _ l r => 1 + num_internal l + num_internal r
  end.

(** One step of growth: the leaf at [p] gets two leaves as children. *)
Inductive expands : tree N -> list bool -> tree N -> Prop :=
| ExpandHere s sp sl spl sr spr :
    expands (TNode s sp TNone TNone) [] (TNode s sp (TNode sl spl TNone TNone) (TNode sr spr TNone TNone))
| ExpandLeft s sp l l' r p : expands l p l' -> expands (TNode s sp l r) (true :: p) (TNode s sp l' r)
| ExpandRight s sp l r r' p : expands r p r' -> expands (TNode s sp l r) (false :: p) (TNode s sp l r').
(** Best first: no other leaf has a larger gain (a leaf without split has gain 0). *)
Inductive best_first : tree N -> tree N -> Prop :=
| BestFirst t p t' s sp :
    has_leaf t p s (Some sp) -> nltb (nZ 0) (sp_gain sp) = true ->
    (forall q s' sp', has_leaf t q s' sp' -> nltb (sp_gain sp) (sp_gain (the_split sp')) = false) ->
    expands t p t' -> best_first t t'.
Inductive grown : tree N -> Prop :=
| GrownStart s sp : grown (TNode s sp TNone TNone)
| GrownStep t t' : grown t -> best_first t t' -> grown t'.

(** The best of several results of the split search ([None]: gain 0): the first of largest gain. *)
Definition gain_of (r : option (split N)) : N := sp_gain (the_split r).
Definition first_best (results : list (option (split N))) (i : nat) (sp : split N) : Prop :=
  nth_error results i = Some (Some sp) /\ nltb (nZ 0) (sp_gain sp) = true /\
  (forall j r, nth_error results j = Some r -> nltb (sp_gain sp) (gain_of r) = false) /\
  (forall j r, nth_error results j = Some r -> j < i -> nltb (gain_of r) (sp_gain sp) = true).

(** The same split, with the name of the feature and the names of the categories filled in. *)
Definition named (col : column) (sp sp' : split N) : Prop :=
  sp_feature sp' = c_name col /\ sp_float sp' = sp_float sp /\ sp_gain sp' = sp_gain sp /\
  match sp_cat sp with
  | None => sp_cat sp' = None
  | Some (_, idx) =>
      exists s names, c_body col = BodyS s /\ sp_cat sp' = Some (names, idx) /\
        Forall2 (fun k name => (u32 k < str_max_int s)%Z /\ str_cat_string s (Z.to_nat (u32 k)) = Ret name) idx names
  end.

(** The top of the priority queue is an element of largest gain. *)
Definition tops (top : nat -> list N -> nat) : Prop :=
  forall step gains, gains <> [] ->
    exists g, nth_error gains (top step gains) = Some g /\ forall g', In g' gains -> nltb g g' = false.

(** Such a choice: the first of them. *)
Fixpoint first_max (rest : list N) (i bi : nat) (best : N) : nat :=
  match rest with
  | [] => bi
  | g :: t => if nltb best g then first_max t (S i) i g else first_max t (S i) bi best
  end.
Definition first_top (step : nat) (gains : list N) : nat := match gains with [] => 0 | g :: t => first_max t 1 0 g end.

(** What a fit works with: some priority queue, some sorting function, at least one thread, features that are
    columns of the store with as many rows as there are gradients, a weight for every row. *)
Record setting (top : nat -> list N -> nat) (threads : nat) (srt : (nat -> nat -> bool) -> list nat -> list nat) (w : float_vector)
    (gd : list (grad N)) (features : list column) (store : str -> option column) (rg : nat -> grad N) : Prop := mkSetting {
  st_top : tops top;
  st_threads : 1 <= threads;
  st_sort : sorts srt;
  st_cols : forall col, In col features -> store (c_name col) = Some col /\ has_rows col (List.length gd);
  st_weights : weighted w gd rg (seq 0 (List.length gd))
}.

(** int32 to size_t *)
Definition as_size (z : Z) : Z := (z mod 18446744073709551616)%Z.
End Spec.
