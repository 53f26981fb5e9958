(** Prop_PairStep.v - property C100 (a round with a pairwise loss).  Statements only.
    Vocabulary: PairStepSpec.v, PairSpec.v, StepSpec.v, LossSpec.v, TrainSpec.v.  Model: Pairwise.v, Train.v, Tree.v. *)
From Coq Require Import SpecFloat Reals.
From Verif Require Import Base F32 Column ColumnSpec DataStore Subsampling Num Forest Config Score Eval EvalSpec Split SplitSpec Tree Train TrainSpec Loss LossSpec ConstantSpec
  StepSpec Pairwise PairSpec PairStepSpec PairStep_proofs TreeSpec Split_proofs Prop_Score Prop_Split Prop_Tree Prop_Train Prop_Loss Prop_Pair.
Local Close Scope R_scope.

(** ** C100 - what a round does to the loss of the sampled pairs (exact arithmetic, all rows sampled) *)
(** Every round samples pairs of the groups and adds to the function value of each row the shrunken Newton step of the rows in its
    leaf, for gradients of these pairs.  If all rows have the same weight, the loss of the sampled pairs does not rise when l2_lambda
    is at least twice the shrinkage times the weight of the pairs times the largest hessian of a pair, nor in the first round without
    base forest when the shrinkage is at most 2. *)
Theorem C100_rounds v threads top draw pos srt names to_uint pick wr weight lossf w y wv t col (c : config Exact) base r :
  training v threads top srt names w (pairwise_loss (N := Exact) srt threads to_uint pick c wr weight lossf) -> (forall b, base = Some b -> forest_fits v b) ->
  row_values (N := Exact) w (v_rows v) wv -> comparable y (seq 0 (v_rows v)) t -> picks pick -> pair_kind c wr weight lossf ->
  group_column c (v_get v) = Ret col -> proper_groups (v_rows v) col ->
  (forall rows, grouping (v_rows v) col rows -> forall rk, In rk rows -> exists count, samples_of to_uint c (v_rows v) rows t rk = Ret count /\ (num_pairs t rk = 0 -> count = 0)%nat) ->
  (forall i, fltb (draw i) (to_f64 (cf_example_rate c)) = true) ->
  train v threads top draw pos srt names w y (pairwise_loss srt threads to_uint pick c wr weight lossf) c base = Ret r -> tr_status r = SOk ->
  exists features p0 st0 k trees st fs, load_features (v_get v) (v_order v names) = (SOk, features) /\
    init_scores v threads = Ret st0 /\ init_with_base v threads (match base with Some b => b | None => [] end) n0 [] st0 = Ret (k, trees, st) /\
    values (N := Exact) v threads top draw srt w features c (pairwise_loss srt threads to_uint pick c wr weight lossf) (Z.to_nat (cf_num_trees c)) 0 st (repeat gzero (v_rows v)) p0 pos fs /\
    nth_error fs 0 = Some (snd st) /\ nth_error fs (Z.to_nat (cf_num_trees c)) = Some (tr_f r) /\
    forall i f f', nth_error fs i = Some f -> nth_error fs (S i) = Some f' -> List.length f = v_rows v /\
      exists rows p us, grouping (v_rows v) col rows /\ in_use (N := Exact) srt threads to_uint pick c wr weight lossf (v_rows v) w y col p /\
        sampled srt to_uint c wr weight lossf (v_rows v) y rows wv t p f us /\ pair_step wv us (real_of (cf_shrinkage c)) (cf_l2_lambda c) f f' /\
        forall factor largest w0, pair_scale lossf factor largest ->
          (forall i, (i < v_rows v)%nat -> a_float (t i) /\ finite_float (t i) = true /\ wv i = w0) -> (0 < w0)%R -> (0 <= real_of (cf_shrinkage c))%R ->
          (2 * real_of (cf_shrinkage c) * largest * w0 * pairs_weight us <= cf_l2_lambda c)%R \/
            (base = None /\ i = 0%nat /\ (real_of (cf_shrinkage c) <= 2)%R /\ (0 <= cf_l2_lambda c)%R) ->
          (pairs_loss lossf t us f' <= pairs_loss lossf t us f)%R.
Proof. exact (pair_train_falls v threads top draw pos srt names to_uint pick wr weight lossf w y wv t col c base r). Qed.
Print Assumptions C100_rounds.
(** It is enough that in every leaf the shrinkage times the weight of the pairs that meet it times the largest hessian is at most the
    regularised hessian. *)
Theorem C100_leaf srt to_uint c wr weight lossf n y col rows wv t p f f' us factor top k lambda w0 label s : List.length f = n ->
  grouping n col rows -> pair_kind (N := Exact) c wr weight lossf -> pair_scale lossf factor top -> comparable y (seq 0 n) t ->
  (forall i, i < n -> a_float (t i) /\ finite_float (t i) = true /\ wv i = w0) -> (0 < w0)%R ->
  sampled srt to_uint c wr weight lossf n y rows wv t p f us -> pair_tree wv us f lambda label s ->
  (forall i, i < n -> (nth i f' 0 = nth i f 0 + k * s i)%R) -> (0 <= k)%R ->
  (forall i, i < n -> (k * top * w0 * pair_leaf_w us f label i <= pair_leaf_h wv us f label i + lambda)%R) ->
  (pairs_loss lossf t us f' <= pairs_loss lossf t us f)%R.
Proof. exact (pair_leaf_falls srt to_uint c wr weight lossf n y col rows wv t p f f' us factor top k lambda w0 label s). Qed.
Print Assumptions C100_leaf.
(** That holds for a shrinkage of at most 2 when both rows of every sampled pair have the same function value. *)
Theorem C100_level srt to_uint c wr weight lossf n y col rows wv t p f f' us factor top k lambda w0 : List.length f = n ->
  grouping n col rows -> pair_kind (N := Exact) c wr weight lossf -> pair_scale lossf factor top -> comparable y (seq 0 n) t ->
  (forall i, i < n -> a_float (t i) /\ finite_float (t i) = true /\ wv i = w0) -> (0 < w0)%R ->
  sampled srt to_uint c wr weight lossf n y rows wv t p f us -> pair_step wv us k lambda f f' -> (0 <= k <= 2)%R -> (0 <= lambda)%R ->
  (forall u, In u us -> nth (pu_pos u) f 0 = nth (pu_neg u) f 0)%R ->
  (pairs_loss lossf t us f' <= pairs_loss lossf t us f)%R.
Proof.
  exact (fun L G K Sc Cy Fin Wp Sm St Kp Lp Ev => pair_round_falls srt to_uint c wr weight lossf n y col rows wv t p f f' us factor top k lambda w0
    L G K Sc Cy Fin Wp Sm St (proj1 Kp) (or_intror (conj (proj2 Kp) (conj Lp Ev)))).
Qed.
Print Assumptions C100_level.

(** Rows of different weight: the tree weights the gradients of the rows again, though the weights of the pairs contain them, and the
    first round can raise the loss.  gbrank, three rows with the targets 11, 1, 0, a feature that tells the second from the others, all
    three pairs sampled, shrinkage 1, no penalty. *)
Definition ex_pairs_view : view :=
  mkView (fun n => if str_eqb n (lit "x") then Some (mkCol (lit "x") (BodyB (ex_bcol [fl 1; fl 2; fl 1]))) else None) 3 (fun l => l).
Definition ex_pairs_cfg (rate : f32) (lambda : f64) (group : str) : config Ex :=
  mkConfig 1 2 f32_one (dbl 0) lambda (dbl 0) f32_one f32_one 0 [lit "x"] [] [] [] false group [] rate false f32_zero false.
(** The squared hinge loss of pairs, given as rows, weight and difference of targets *)
Definition ex_pairs_loss (pairs : list (Z * Z * Z * Z)) (f : list f64) : f64 :=
  fold_left (fun a p => match p with (i, j, w, d) => @nadd Ex a (@nmul Ex (dbl w) (p_loss (@squared_hinge Ex (dbl d) (@nsub Ex (nth (Z.to_nat i) f (dbl 0)) (nth (Z.to_nat j) f (dbl 0)))))) end)
    pairs (dbl 0).
Definition ex_pairs (w : list Z) (pairs : list (Z * Z * Z * Z)) : option (f64 * f64) :=
  let c := ex_pairs_cfg (fl 2) (dbl 0) [] in
  match train ex_pairs_view 2 (fun _ => first_top) (fun _ => half) 0 insertion_sort [lit "x"] (fun i => vget (map fl w) i) (ex_targets (map fl [11; 1; 0]%Z))
    (gbrank_loss (N := Ex) insertion_sort 2 double_to_uint ex_pick c) c None with
  | Ret r => Some (ex_pairs_loss pairs [], ex_pairs_loss pairs (tr_f r))
  | _ => None
  end.
Theorem C100_weights_refuted : exists before after, ex_pairs [1; 1; 5]%Z [(0, 1, 1, 10); (1, 2, 5, 1); (0, 2, 5, 11)]%Z = Some (before, after) /\ @nltb Ex before after = true.
Proof. eexists _, _. split; vm_compute; reflexivity. Qed.
Print Assumptions C100_weights_refuted.
(** With weights 1 it falls. *)
Example C100_first_example : exists before after, ex_pairs [1; 1; 1]%Z [(0, 1, 1, 10); (1, 2, 1, 1); (0, 2, 1, 11)]%Z = Some (before, after) /\ @nltb Ex after before = true.
Proof. eexists _, _. split; vm_compute; reflexivity. Qed.
(** Later rounds: without penalty they can raise the loss.  Groups {0,1} and {2,3,4}, targets 10, 0 and 0, 0, 1; the base forest
    satisfies the pairs of the second group, but the tree, which tells rows 0, 2, 3 from 1, 4, breaks them. *)
Definition ex_later_view : view :=
  mkView (fun n => if str_eqb n (lit "x") then Some (mkCol (lit "x") (BodyB (ex_bcol [fl 1; fl 2; fl 1; fl 1; fl 2])))
                   else if str_eqb n (lit "z") then Some (mkCol (lit "z") (BodyB (ex_bcol [fl 1; fl 1; fl 1; fl 1; fl 2])))
                   else if str_eqb n (lit "g") then Some (mkCol (lit "g") (BodyS (string_column_of [map lit ["a"; "a"; "b"; "b"; "b"]%string]))) else None) 5 (fun l => l).
Definition ex_later_base : forest Ex :=
  [TNode (dbl 0) (Some (mkSplit (lit "z") (Some (fl 2, false)) None (dbl 0))) (TNode (dbl 0) None TNone TNone) (TNode (dbl 1) None TNone TNone)].
Definition ex_later (lambda : f64) : option (f64 * f64) :=
  let c := ex_pairs_cfg (binary_normalize 24 128 5 (-2) false) lambda (lit "g") in
  let pairs := [(0, 1, 1, 10); (4, 2, 1, 1); (4, 3, 1, 1)]%Z in
  match train ex_later_view 2 (fun _ => first_top) (fun _ => half) 0 insertion_sort [lit "x"] ones (ex_targets (map fl [10; 0; 0; 0; 1]%Z))
    (gbrank_loss (N := Ex) insertion_sort 2 double_to_uint ex_pick c) c (Some ex_later_base) with
  | Ret r => Some (ex_pairs_loss pairs (map dbl [0; 0; 0; 0; 1]%Z), ex_pairs_loss pairs (tr_f r))
  | _ => None
  end.
Theorem C100_later_refuted : ex_later (dbl 0) = Some (dbl 100, dbl 200).
Proof. vm_compute. reflexivity. Qed.
Print Assumptions C100_later_refuted.
(** With l2_lambda 6, twice the weight of the three pairs, it falls. *)
Example C100_example : option_map (fun x => (@neqb Ex (fst x) (dbl 100), @nltb Ex (snd x) (dbl 100))) (ex_later (dbl 6)) = Some (true, true).
Proof. vm_compute. reflexivity. Qed.
