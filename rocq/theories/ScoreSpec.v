(** ScoreSpec.v - vocabulary for routing and scoring. *)
From Verif Require Import Base F32 Column ColumnSpec DataStore Num Forest Par Score.

(** A column with [n] rows, as the library builds them. *)
Definition has_rows (c : column) (n : nat) : Prop :=
  match c_body c with
  | BodyB b => exists nb blocks, limit_ok nb /\ (zlen (concat blocks) < 4294967294)%Z /\
                 b_load nb blocks = Ret b /\ n = List.length (concat blocks)
  | BodyS s => exists blocks, fits_32_bits (concat blocks) /\ s = string_column_of blocks /\
                 n = List.length (concat blocks)
  | BodyR r => n = r_size r
  end.

Section Spec.
Context {N : Num}.

(** The split is of the kind the column needs. *)
Definition fits_kind (c : column) (sp : split N) : Prop :=
  match c_body c with
  | BodyB _ => sp_float sp <> None
  | BodyS _ => sp_cat sp <> None
  | BodyR _ => True
  end.

(** The decision of a split for a row.
    Numeric: a missing value goes right if the split says so, else left; other values go left if the upper limit of their bucket is below the threshold.
    Categorical: listed categories go left; a list of internal indices has priority over the list of names.
    Raw float columns send everything right. *)
Inductive goes_left : column -> split N -> nat -> bool -> Prop :=
| GoMissing n b sp row t to_right :
    sp_float sp = Some (t, to_right) -> b_missing b row = Ret true ->
    goes_left (mkCol n (BodyB b)) sp row (negb to_right)
| GoNumber n b sp row t to_right x :
    sp_float sp = Some (t, to_right) -> b_missing b row = Ret false -> b_row_max b row = Ret x ->
    goes_left (mkCol n (BodyB b)) sp row (fltb x t)
| GoName n s sp row names name (left : bool) :
    sp_cat sp = Some (names, []) -> str_row s row = Ret name -> (left = true <-> In name names) ->
    goes_left (mkCol n (BodyS s)) sp row left
| GoIndex n s sp row names i idx k (left : bool) :
    sp_cat sp = Some (names, i :: idx) -> icol_get (s_ints s) row = Ret k ->
    (left = true <-> In k (map u32 (i :: idx))) ->
    goes_left (mkCol n (BodyS s)) sp row left
| GoRaw n r sp row : goes_left (mkCol n (BodyR r)) sp row false.

(** Every internal node's feature is in the store, with [n] rows and of the right kind. *)
Fixpoint tree_fits (store : str -> option column) (n : nat) (t : tree N) : Prop :=
  match t with
  | TNone => True
  | TNode _ sp l r =>
      match l with
      | TNone => True
      | TNode _ _ _ _ =>
          (exists c, store (sp_feature (the_split sp)) = Some c /\ has_rows c n /\ fits_kind c (the_split sp)) /\
          tree_fits store n l /\ tree_fits store n r
      end
  end.

(** The score of the leaf a row ends in. *)
Inductive routes (store : str -> option column) : tree N -> nat -> N -> Prop :=
| RouteLeaf t row : has_left t = false -> routes store t row (t_score t)
| RouteNode t row c left s :
    has_left t = true -> store (sp_feature (the_split (t_split t))) = Some c ->
    goes_left c (the_split (t_split t)) row left ->
    routes store (if left then t_left t else t_right t) row s ->
    routes store t row s.

(** The sample vector holds [l] from position [start] on; the locations of such a slice. *)
Definition seg (m : mem sloc (@sval N)) (start : nat) (l : list nat) : Prop :=
  forall i s, nth_error l i = Some s -> m (inl (start + i)) = Some (inl s).
Definition in_seg (start len : nat) (x : sloc) : Prop := exists j, x = inl (start + j) /\ j < len.
End Spec.
