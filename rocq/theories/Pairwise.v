(** Pairwise.v - model of src/loss_func/group.{h,cc}, loss_func_pairwise.cc, loss_func_auc.h, loss_func_gbrank.h,
    loss_func_pairwise_logloss.h, loss_func_lambdamart.{h,cc} and loss_func_factory.cc.  Definitions only. *)
From Coq Require Import SpecFloat.
From Verif Require Import Base F32 Column Subsampling Num Par Config Tree Train Loss.

(** ** Group (group.h:31-69): [gr_rows] = group_, [gr_ranks] = ranks_, [gr_map] = pair_map_ in the order of its keys.
    The counts are uint64 and stay below 2^64 for groups that fit into memory. *)
Record group := mkGroup {
  gr_rows : list nat; gr_ranks : list nat; gr_pairs : nat; gr_map : list (nat * (nat * nat))
}.

Fixpoint read_all {A} (v : nat -> res A) (rows : list nat) : res (list A) :=
  match rows with
  | [] => Ret []
  | i :: rows => let! x := v i in let! l := read_all v rows in Ret (x :: l)
  end.

(** The loop over the boundaries (group.cc:36-45): [prev] is the target at position i - 1, [ys] those from i on. *)
Fixpoint boundaries (size i last pairs : nat) (prev : f32) (ys : list f32) : nat * list (nat * (nat * nat)) :=
  match ys with
  | [] => (pairs, [])
  | v :: ys =>
      if feqb prev v then boundaries size (S i) last pairs v ys
      else
        let block := i - last in
        let pairs := pairs + block * (size - i) in
        let (n, m) := boundaries size (S i) i pairs v ys in (n, (pairs, (block, i)) :: m)
  end.

(** The value a comparison function reads; only used for rows that can be read. *)
Definition value_at (y : nat -> res f32) (i : nat) : f32 := match y i with Ret v => v | _ => S754_nan end.

(** Group::Group (25-46).  With a NaN the comparison function is not an order and std::sort is undefined. *)
Definition group_new (srt : (nat -> nat -> bool) -> list nat -> list nat) (y : nat -> res f32) (rows : list nat) : res group :=
  let! ys := read_all y rows in
  if existsb is_nan ys then Undef
  else
    let rows := srt (fun i j => fltb (value_at y j) (value_at y i)) rows in
    let (pairs, m) := match map (value_at y) rows with
                      | [] => (0, [])
                      | v :: ys => boundaries (List.length rows) 1 0 0 v ys
                      end in
    Ret (mkGroup rows (seq 0 (List.length rows)) pairs m).

(** SamplePair (65-76) for the index drawn; dereferencing the end of the map is undefined. *)
Definition sample_pair (g : group) (index : nat) : res (nat * nat) :=
  match find (fun e => index + 1 <=? fst e) (gr_map g) with
  | None => Undef
  | Some (key, (block, start)) =>
      let local := key - index - 1 in
      Ret (start - 1 - local mod block, start + local / block)
  end.

Section Pairwise.
Context {N : Num}.
Local Open Scope num_scope.

(** Rerank (48-62) *)
Definition score_at (f : list N) (rows : list nat) (i : nat) : N := nth (nth i rows 0%nat) f n0.
Definition rerank (srt : (nat -> nat -> bool) -> list nat -> list nat) (f : list N) (g : group) : res group :=
  let! fs := read_all (vget f) (gr_rows g) in
  if forallb (fun x => x =? x) fs then
    let ranking := srt (fun i j => score_at f (gr_rows g) j <? score_at f (gr_rows g) i) (seq 0 (List.length (gr_rows g))) in
    let! ranks := fold_res (fun ranks x => vset ranks (snd x) (fst x)) (combine (seq 0 (List.length ranking)) ranking) (gr_ranks g) in
    Ret (mkGroup (gr_rows g) ranks (gr_pairs g) (gr_map g))
  else Undef.

(** ** Pairwise (loss_func_pairwise.h:36-72).  [pr_max] = min_num_pairs_. *)
Record pairwise := mkPairwise {
  pr_w : float_vector; pr_y : float_vector; pr_groups : list group; pr_slices : list (nat * nat); pr_max : nat; pr_prob : N
}.

(** The rows of every group (loss_func_pairwise.cc:66-78): without a column all rows are one group; else row i goes to
    groups[code - 1], which does not exist for the code 0 of "__missing__". *)
Definition rows_by_group (num_rows : nat) (col : option strcol) : res (list (list nat)) :=
  match col with
  | None => Ret [seq 0 num_rows]
  | Some s =>
      let! codes := icol_vec (s_ints s) in
      fold_res (fun gs x =>
          if (snd x =? 0)%Z then Undef
          else let k := Z.to_nat (snd x - 1) in let! g := vget gs k in vset gs k (g ++ [fst x]))
        (combine (seq 0 (List.length codes)) codes) (repeat [] (Z.to_nat (str_max_int s - 1)))
  end.

(** group.y(i) and the difference of two targets, as float *)
Definition group_y (y : float_vector) (g : group) (i : nat) : res N := let! r := vget (gr_rows g) i in let! v := y r in Ret (nfloat v).
Definition target_diff (y : float_vector) (g : group) (p : nat * nat) : res N :=
  let! a := group_y y g (fst p) in let! b := group_y y g (snd p) in Ret (nstore (a - b)).

(** PairWeightingFunc (loss_func_pairwise.cc:163-172) *)
Definition basic_weight (delta_target : bool) (y : float_vector) (g : group) (p : nat * nat) : res N :=
  if delta_target then target_diff y g p else Ret n1.

(** LambdaMART (loss_func_lambdamart.cc:33-71): log of a float is a float.  The table precomputed_discounts_ is only
    reserved and keeps the size 0, so it is never used. *)
Definition discount (base : N) (rank : nat) : N :=
  nstore (nstore (nlog base) / nstore (nlog (nstore (base + nZ (Z.of_nat rank))))).
Definition dcg_base (c : config N) : N := if fltb f32_zero (cf_dcg_base c) then nfloat (cf_dcg_base c) else nZ 2.
Definition lambda_weight (base : N) (y : float_vector) (g : group) (p : nat * nat) : res N :=
  let! d := target_diff y g p in
  let! r1 := vget (gr_ranks g) (fst p) in
  let! r2 := vget (gr_ranks g) (snd p) in
  Ret (d * nabs (discount base r1 - discount base r2)).
(** The writes of the constructor (42-46) as the C++ standard has them: element i of a vector of size 0. *)
Definition lambda_table (base : N) : res (list N) :=
  fold_res (fun t i => vset t i (discount base i)) (seq 0 100) [].

Section Object.
Variables (srt : (nat -> nat -> bool) -> list nat -> list nat) (threads : nat) (to_uint : N -> res nat)
  (pick : nat -> nat -> nat * nat) (c : config N) (with_rerank : bool)
  (weight : float_vector -> group -> nat * nat -> res N) (lossf : N -> N -> point N).

(** ComputePairSamplingProbability and Init (37-96).  [to_uint] converts a double to uint64. *)
Definition pair_init (num_rows : nat) (w y : float_vector) (col : option strcol) : res (code + pairwise) :=
  if nfloat (cf_pair_rate c) <=? @n0 N then Ret (inl INVALID_ARGUMENT)
  else
    let! rows := rows_by_group num_rows col in
    let! groups := read_all (fun i => let! r := vget rows i in group_new srt y r) (seq 0 (List.length rows)) in
    let most := fold_left Nat.max (map gr_pairs groups) 1%nat in
    let total := fold_left Nat.add (map gr_pairs groups) 0%nat in
    let prob := nfloat (cf_pair_rate c) * nZ (Z.of_nat num_rows) / nZ (Z.of_nat total) / nZ 2 in
    let! slices := divide_samples (List.length groups) (threads * 5) in
    Ret (inr (mkPairwise w y groups slices most prob)).

(** The shared memory of the tasks: gradients, losses and weight sums (kept together), and the random generator, of
    which the model knows the position in the stream. *)
Inductive wloc := WGrad (i : nat) | WTotal (j : nat) | WGen.
Inductive wval := WG (g : grad N) | WT (loss weights : N) | WS (pos : nat).
Definition wloc_dec : forall a b : wloc, {a = b} + {a <> b}.
Proof. decide equality; apply Nat.eq_dec. Defined.

(** x += v on one of the two fields of a GradientData *)
Definition add_g (i : nat) (v : N) : prog wloc wval unit :=
  PRead (WGrad i) (fun x => match x with WG d => PWrite (WGrad i) (WG (mkG (gg d + v) (gh d))) (PRet tt) | _ => PUndef end).
Definition sub_g (i : nat) (v : N) : prog wloc wval unit :=
  PRead (WGrad i) (fun x => match x with WG d => PWrite (WGrad i) (WG (mkG (gg d - v) (gh d))) (PRet tt) | _ => PUndef end).
Definition add_h (i : nat) (v : N) : prog wloc wval unit :=
  PRead (WGrad i) (fun x => match x with WG d => PWrite (WGrad i) (WG (mkG (gg d) (gh d + v))) (PRet tt) | _ => PUndef end).
Definition add_total (j : nat) (l v : N) : prog wloc wval unit :=
  PRead (WTotal j) (fun x => match x with WT a b => PWrite (WTotal j) (WT (a + l) (b + v)) (PRet tt) | _ => PUndef end).

(** One pair (129-147).  [pick pos n] is what uniform_int_distribution over 0..n-1 makes of the stream from [pos] on:
    the number and the position behind it. *)
Definition pair_once (w y : float_vector) (f : list N) (j : nat) (g : group) (factor : N) : prog wloc wval unit :=
  PRead WGen (fun x => match x with
    | WS pos =>
        let (index, pos) := pick pos (gr_pairs g) in
        PWrite WGen (WS pos) (
          do! p := pres (sample_pair g index) in
          do! a := pres (vget (gr_rows g) (fst p)) in
          do! b := pres (vget (gr_rows g) (snd p)) in
          do! wa := pres (w a) in
          do! wb := pres (w b) in
          do! pw := pres (weight y g p) in
          let wt := nstore (nfloat wa * nfloat wb) * pw * factor in
          do! ya := pres (y a) in
          do! yb := pres (y b) in
          do! fa := pres (vget f a) in
          do! fb := pres (vget f b) in
          let data := lossf (nstore (nfloat ya - nfloat yb)) (fa - fb) in
          do! _ := add_g a (wt * gg (p_grad data)) in
          do! _ := sub_g b (wt * gg (p_grad data)) in
          do! _ := add_h a (nZ 2 * wt * gh (p_grad data)) in
          do! _ := add_h b (nZ 2 * wt * gh (p_grad data)) in
          add_total j (wt * p_loss data) wt)
    | _ => PUndef
    end).
(** The counter of the loop is an int (loss_func_pairwise.cc): simplification, at most 2^31 - 1 sampled pairs per group. *)
Fixpoint pair_times w y f j g factor (todo : nat) : prog wloc wval unit :=
  match todo with
  | O => PRet tt
  | S todo => do! _ := pair_once w y f j g factor in pair_times w y f j g factor todo
  end.

(** One group (118-149) and one slice of groups. *)
Definition reranked (f : list N) (g : group) : res group := if with_rerank then rerank srt f g else Ret g.
Definition pair_group (p : pairwise) (f : list N) (j gi : nat) : prog wloc wval unit :=
  do! g := pres (vget (pr_groups p) gi) in
  do! g := pres (reranked f g) in
  do! n := pres (to_uint (nZ (Z.of_nat (gr_pairs g)) * pr_prob p)) in
  let factor := if cf_equal_groups c then nZ (Z.of_nat (pr_max p)) / nZ (Z.of_nat (gr_pairs g)) else n1 in
  pair_times (pr_w p) (pr_y p) f j g factor n.
Fixpoint pair_task (p : pairwise) (f : list N) (j : nat) (gis : list nat) : prog wloc wval unit :=
  match gis with
  | [] => PRet tt
  | gi :: gis => do! _ := pair_group p f j gi in pair_task p f j gis
  end.
Definition pair_tasks (p : pairwise) (f : list N) : list (prog wloc wval unit) :=
  map (fun x => pair_task p f (fst x) (range (snd x))) (combine (seq 0 (List.length (pr_slices p))) (pr_slices p)).

Definition pair_mem (rows slices pos : nat) : mem wloc wval :=
  fun l => match l with
           | WGrad i => if (i <? rows)%nat then Some (WG gzero) else None
           | WTotal j => if (j <? slices)%nat then Some (WT n0 n0) else None
           | WGen => Some (WS pos)
           end.
Fixpoint pair_grads (m : mem wloc wval) (i todo : nat) : list (grad N) :=
  match todo with
  | O => []
  | S k => match m (WGrad i) with Some (WG x) => x :: pair_grads m (S i) k | _ => [] end
  end.

(** ComputeFunctionalGradientsAndHessians (98-160): the constant, the gradients, the object with its ranks, and the
    position of the stream. *)
Definition pair_round (p : pairwise) (pos : nat) (f : list N) (gd : list (grad N)) : res (N * list (grad N) * pairwise * nat) :=
  let! m := run_tasks wloc_dec (pair_tasks p f) (pair_mem (List.length f) (List.length (pr_slices p)) pos) in
  let! groups := read_all (fun i => let! g := vget (pr_groups p) i in reranked f g) (seq 0 (List.length (pr_groups p))) in
  match m WGen with
  | Some (WS pos) =>
      Ret (n0, pair_grads m 0 (List.length f),
           mkPairwise (pr_w p) (pr_y p) groups (pr_slices p) (pr_max p) (pr_prob p), pos)
  | _ => Undef
  end.

Definition pairwise_loss : loss N := mkLoss pairwise pair_init pair_round.
End Object.

(** The four losses, and LossFuncFactory::CreateLossFunc (loss_func_factory.cc:32-50) *)
Section Factory.
Variables (srt : (nat -> nat -> bool) -> list nat -> list nat) (threads : nat) (to_uint : N -> res nat)
  (pick : nat -> nat -> nat * nat) (c : config N).
Definition auc_loss := pairwise_loss srt threads to_uint pick c false (basic_weight (cf_delta_target c)) (fun _ d => huberized_hinge n1 d).
Definition gbrank_loss := pairwise_loss srt threads to_uint pick c false (basic_weight (cf_delta_target c)) (fun t d => squared_hinge t d).
Definition pairwise_logloss_loss := pairwise_loss srt threads to_uint pick c false (basic_weight (cf_delta_target c)) (fun _ d => log_loss n1 d).
Definition lambdamart_loss := pairwise_loss srt threads to_uint pick c true (lambda_weight (dcg_base c)) (fun _ d => log_loss n1 d).
Definition create_loss : option (loss N) :=
  assoc (cf_loss_func c)
    [(lit "mse", mse_loss threads); (lit "logloss", logloss_loss threads); (lit "huberized_hinge", huberized_loss threads);
     (lit "auc", auc_loss); (lit "pairwise_logloss", pairwise_logloss_loss); (lit "gbrank", gbrank_loss); (lit "lambdamart", lambdamart_loss)].
End Factory.
End Pairwise.

(** Conversion of a double to uint64: towards zero; undefined if the value is not representable. *)
Definition double_to_uint (x : f64) : res nat :=
  match x with
  | S754_zero _ => Ret 0
  | S754_finite s m e =>
      let z := (match e with Zneg k => Zpos m / 2 ^ Zpos k | _ => Zpos m * 2 ^ e end)%Z in
      if s then (if (z =? 0)%Z then Ret 0 else Undef)
      else if (z <? 18446744073709551616)%Z then Ret (Z.to_nat z) else Undef
  | _ => Undef
  end.
