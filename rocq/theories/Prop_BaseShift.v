(** Prop_BaseShift.v - property C103 (what pairwise losses see of a base forest).  Statements only.
    Vocabulary: BaseShiftSpec.v, TargetsSpec.v, UnitsSpec.v, TrainSpec.v, EvalSpec.v.  Model: Pairwise.v, Train.v. *)
From Coq Require Import SpecFloat Reals.
From Verif Require Import Base F32 Column ColumnSpec DataStore Subsampling Num Par Forest Config Score Eval EvalSpec Split SplitSpec Tree Train TrainSpec Loss Pairwise PairSpec UnitsSpec
  TargetsSpec BaseShiftSpec BaseShift_proofs TreeSpec Split_proofs Prop_Score Prop_Split Prop_Tree Prop_Train Prop_Loss Prop_Pair Prop_PairStep.
Local Close Scope R_scope.

(** ** C103 - pairwise losses and base forests *)
(** In exact arithmetic: base forests whose predictions have the same distances inside every group get the same new trees, and the
    function values change alike. *)
Theorem C103_base v threads top draw pos srt names to_uint pick w y t col (c : config Exact) wr weight lossf (base base' : option (forest Exact)) r :
  let the := fun base : option (forest Exact) => match base with Some b => b | None => [] end in
  let lf := pairwise_loss (N := Exact) srt threads to_uint pick c wr weight lossf in
  training v threads top srt names w lf -> compares_only srt ->
  group_column c (v_get v) = Ret col -> proper_groups (v_rows v) col -> comparable y (seq 0 (v_rows v)) t ->
  forest_fits v (the base) -> forest_fits v (the base') -> predict_alike v col (the base) (the base') ->
  train v threads top draw pos srt names w y lf c base = Ret r ->
  exists r', train v threads top draw pos srt names w y lf c base' = Ret r' /\ tr_status r' = tr_status r /\
    (tr_status r <> SOk -> r' = r) /\
    (tr_status r = SOk -> exists k k' ts ts' new, tr_forest r = TNode k None TNone TNone :: ts ++ new /\ tr_forest r' = TNode k' None TNone TNone :: ts' ++ new /\
       kept (the base) ts /\ kept (the base') ts' /\ Z.of_nat (List.length new) = cf_num_trees c /\
       forall f f' j, predictions v (the base) f -> predictions v (the base') f' -> j < v_rows v ->
         (nth j (tr_f r) 0 - nth j f 0 = nth j (tr_f r') 0 - nth j f' 0)%R).
Proof. exact (base_gaps v threads top draw pos srt names to_uint pick w y t col c wr weight lossf base base' r). Qed.
Print Assumptions C103_base.
(** So a constant in front of the base forest ends up in the constant of the trained forest and changes nothing else. *)
Theorem C103_constant v threads top draw pos srt names to_uint pick w y t col (c : config Exact) wr weight lossf (base : option (forest Exact)) (s : R) r :
  let the := match base with Some b => b | None => [] end in
  let lf := pairwise_loss (N := Exact) srt threads to_uint pick c wr weight lossf in
  training v threads top srt names w lf -> compares_only srt ->
  group_column c (v_get v) = Ret col -> proper_groups (v_rows v) col -> comparable y (seq 0 (v_rows v)) t -> forest_fits v the ->
  train v threads top draw pos srt names w y lf c base = Ret r ->
  exists r', train v threads top draw pos srt names w y lf c (Some (TNode (s : Exact) None TNone TNone :: the)) = Ret r' /\
    tr_status r' = tr_status r /\ tr_forest r' = constant_plus s (tr_forest r) /\ tr_f r' = map (fun x : Exact => (x + s)%R : Exact) (tr_f r).
Proof. exact (base_constant v threads top draw pos srt names to_uint pick w y t col c wr weight lossf base s r). Qed.
Print Assumptions C103_constant.

(** The data of C100 with gbrank and three trees; the scores of the leaves of the trained forest *)
Fixpoint ex_leaf_scores (t : tree Ex) : list f64 :=
  match t with
  | TNone => []
  | TNode s _ TNone _ => [s]
  | TNode _ _ l r => ex_leaf_scores l ++ ex_leaf_scores r
  end.
Definition ex_based (base : forest Ex) : option (list f64) :=
  let c := mkConfig 3 2 f32_one (dbl 0) (dbl 0) (dbl 0) f32_one f32_one 0 [lit "x"] [] [] [] false (lit "g") (lit "gbrank") (binary_normalize 24 128 5 (-2) false) false f32_zero false : config Ex in
  match train ex_later_view 2 (fun _ => first_top) (fun _ => half) 0 insertion_sort [lit "x"] ones (ex_targets (map fl [10; 0; 0; 0; 1]%Z))
          (gbrank_loss (N := Ex) insertion_sort 2 double_to_uint ex_pick c) c (Some base) with
  | Ret r => Some (flat_map ex_leaf_scores (tr_forest r))
  | _ => None
  end.
Definition ex_agree (l l' : option (list f64)) : bool :=
  match l, l' with Some l, Some l' => (List.length l =? List.length l') && forallb (fun x => @neqb Ex (fst x) (snd x)) (combine l l') | _, _ => false end.
Definition ex_const (k : f64) : tree Ex := TNode (N := Ex) k None TNone TNone.
(** In doubles a large constant absorbs the scores of the trees: with 2^60 the later trees are different. *)
Theorem C103_doubles_refuted : option_map (@List.length f64) (ex_based [ex_const (binary_normalize 53 1024 1 60 false)]) = Some 7 /\
  ex_agree (option_map (@tl f64) (ex_based [])) (option_map (@tl f64) (ex_based [ex_const (binary_normalize 53 1024 1 60 false)])) = false.
Proof. split; vm_compute; reflexivity. Qed.
Print Assumptions C103_doubles_refuted.
(** Distances inside a group matter: a base tree that tells rows 4 and 0 to 3 apart. *)
Theorem C103_inside_refuted : option_map (@List.length f64) (ex_based ex_later_base) = Some 9 /\
  ex_agree (option_map (skipn 1) (ex_based [])) (option_map (skipn 3) (ex_based ex_later_base)) = false.
Proof. split; vm_compute; reflexivity. Qed.
Print Assumptions C103_inside_refuted.
(** A tree that tells the groups apart: the group column is used like a feature, rows 0 and 1 get 3, the others 5. *)
Definition ex_group_base : forest Ex :=
  [TNode (dbl 0) (Some (mkSplit (lit "g") None (Some ([lit "a"], [])) (dbl 0))) (ex_const (dbl 3)) (ex_const (dbl 5))].
Example C103_example : ex_agree (option_map (@tl f64) (ex_based [])) (option_map (@tl f64) (ex_based [ex_const (dbl 16)])) = true /\
  option_map (@hd f64 (dbl 0)) (ex_based [ex_const (dbl 16)]) = Some (dbl 16) /\
  ex_agree (option_map (skipn 1) (ex_based [])) (option_map (skipn 3) (ex_based ex_group_base)) = true /\
  option_map (firstn 3) (ex_based ex_group_base) = Some [dbl 0; dbl 3; dbl 5].
Proof. repeat split; vm_compute; reflexivity. Qed.
