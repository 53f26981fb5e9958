(** PairSpec.v - vocabulary for the pairwise losses. *)
From Coq Require Import SpecFloat Reals.
From Verif Require Import Base F32 Column ColumnSpec Num Par Config Tree Train Loss LossSpec Pairwise.
Local Close Scope R_scope.

(** ** Groups *)

(** Every row has a target other than NaN. *)
Definition comparable (y : float_vector) (rows : list nat) (t : nat -> f32) : Prop :=
  forall i, In i rows -> y i = Ret (t i) /\ is_nan (t i) = false.
(** The pairs of rows, the one with the larger target first. *)
Definition better_pairs (t : nat -> f32) (rows : list nat) : list (nat * nat) :=
  filter (fun p => fltb (t (snd p)) (t (fst p))) (list_prod rows rows).
(** The rows at the two positions of a sampled pair. *)
Definition sampled_rows (g : group) (index : nat) : res (nat * nat) :=
  let! p := sample_pair g index in
  let! i := vget (gr_rows g) (fst p) in
  let! j := vget (gr_rows g) (snd p) in
  Ret (i, j).

(** The rows whose string is [s]. *)
Definition rows_with (data : list str) (s : str) : list nat :=
  filter (fun i => match nth_error data i with Some t => str_eqb t s | None => false end) (seq 0 (List.length data)).

(** ** Gradients *)
Section Push.
Context {N : Num}.
Local Open Scope num_scope.

(** What one sampled pair brings: the row with the larger and the one with the smaller target, the weight of the
    pair, and the loss of the pair with its derivatives. *)
Record push := mkPush { pu_pos : nat; pu_neg : nat; pu_weight : N; pu_point : point N }.
(** The two rows get opposite gradients and equal hessians, other rows nothing. *)
Definition push_row (r : nat) (d : grad N) (u : push) : grad N :=
  let g := pu_weight u * gg (p_grad (pu_point u)) in
  let h := nZ 2 * pu_weight u * gh (p_grad (pu_point u)) in
  if (pu_pos u =? r)%nat then mkG (gg d + g) (gh d + h)
  else if (pu_neg u =? r)%nat then mkG (gg d - g) (gh d + h)
  else d.
Definition pushed (us : list push) (r : nat) : grad N := fold_left (push_row r) us gzero.
(** Every pair adds its weighted loss and its weight to a pair of sums. *)
Definition push_total (x : N * N) (u : push) : N * N := (fst x + pu_weight u * p_loss (pu_point u), snd x + pu_weight u).

Variables (weight : float_vector -> group -> nat * nat -> res N) (lossf : N -> N -> point N)
  (y : float_vector) (wv : nat -> N) (t : nat -> f32) (f : list N).

(** A push by a pair of [g] in the right order: the weight is the product of the rows' weights, the pair's weight and a
    factor; the loss is that of the differences of targets and function values. *)
Definition is_push (g : group) (factor : N) (u : push) : Prop :=
  exists a b pw, nth_error (gr_rows g) a = Some (pu_pos u) /\ nth_error (gr_rows g) b = Some (pu_neg u) /\
    fltb (t (pu_neg u)) (t (pu_pos u)) = true /\ weight y g (a, b) = Ret pw /\
    pu_weight u = nstore (wv (pu_pos u) * wv (pu_neg u)) * pw * factor /\
    pu_point u = lossf (nstore (nfloat (t (pu_pos u)) - nfloat (t (pu_neg u)))) (nth (pu_pos u) f n0 - nth (pu_neg u) f n0).
End Push.
Arguments push : clear implicits.

(** The groups of the rows 0..n-1: without a group column all rows form one group; else there is one group for every
    string of the column. *)
Inductive grouping (n : nat) : option strcol -> list (list nat) -> Prop :=
| OneGroup : grouping n None [seq 0 n]
| ByString blocks names : List.length (concat blocks) = n -> NoDup names -> (forall s, In s names <-> In s (concat blocks)) ->
    grouping n (Some (string_column_of blocks)) (map (rows_with (concat blocks)) names).
Inductive proper_groups (n : nat) : option strcol -> Prop :=
| NoColumn : proper_groups n None
| NoneMissing blocks : fits_32_bits (concat blocks) -> List.length (concat blocks) = n -> ~ In missing_str (concat blocks) ->
    proper_groups n (Some (string_column_of blocks)).

Section Rounds.
Context {N : Num}.
Local Open Scope num_scope.
Variables (srt : (nat -> nat -> bool) -> list nat -> list nat) (threads : nat) (to_uint : N -> res nat)
  (pick : nat -> nat -> nat * nat) (c : config N) (with_rerank : bool)
  (weight : float_vector -> group -> nat * nat -> res N) (lossf : N -> N -> point N)
  (n : nat) (w y : float_vector) (col : option strcol).

(** The loss after Init and any number of rounds. *)
Inductive in_use : @pairwise N -> Prop :=
| AfterInit p : pair_init srt threads c n w y col = Ret (inr p) -> in_use p
| AfterRound p pos f gd x gd' p' pos' : in_use p -> List.length f = n ->
    pair_round srt to_uint pick c with_rerank weight lossf p pos f gd = Ret (x, gd', p', pos') -> in_use p'.

(** The generator gives numbers in the range asked for. *)
Definition picks : Prop := forall pos k, (0 < k)%nat -> (fst (pick pos k) < k)%nat.
(** The weight of pairs of rows that have targets can be computed. *)
Definition weight_defined (t : nat -> f32) : Prop :=
  forall g a b i j, List.length (gr_ranks g) = List.length (gr_rows g) ->
    nth_error (gr_rows g) a = Some i -> nth_error (gr_rows g) b = Some j -> y i = Ret (t i) -> y j = Ret (t j) ->
    exists pw, weight y g (a, b) = Ret pw.

Variables (rows : list (list nat)) (wv : nat -> N) (t : nat -> f32).
Definition num_pairs (rk : list nat) : nat := List.length (better_pairs t rk).
(** The share of the pairs to sample: rate * rows / all pairs / 2. *)
Definition probability : N :=
  nfloat (cf_pair_rate c) * nZ (Z.of_nat n) / nZ (Z.of_nat (list_sum (map num_pairs rows))) / nZ 2.
Definition samples_of (rk : list nat) : res nat := to_uint (nZ (Z.of_nat (num_pairs rk)) * probability).
(** With equal_group_weight, (largest number of pairs, at least 1) / (number of pairs). *)
Definition rescale (rk : list nat) : N :=
  if cf_equal_groups c then nZ (Z.of_nat (list_max (1%nat :: map num_pairs rows))) / nZ (Z.of_nat (num_pairs rk)) else n1.

(** The gradients [grad_at] come from sampled pairs, group by group: [samples_of] many for each group, whose positions
    and ranks are those of [g]. *)
Definition explained (p : @pairwise N) (f : list N) (grad_at : nat -> option (grad N)) : Prop :=
  forall rk, In rk rows -> exists g0 g us, In g0 (pr_groups p) /\ reranked srt with_rerank f g0 = Ret g /\
    Permutation rk (gr_rows g) /\
    samples_of rk = Ret (List.length us) /\ Forall (is_push weight lossf y wv t f g (rescale rk)) us /\
    forall r, In r rk -> grad_at r = Some (pushed us r).

(** The same with the pairs of all groups at hand, one list for every group ... *)
Definition drawn (p : @pairwise N) (f : list N) (pieces : list (list (push N))) : Prop :=
  Forall2 (fun rk piece => exists g0 g, In g0 (pr_groups p) /\ reranked srt with_rerank f g0 = Ret g /\ Permutation rk (gr_rows g) /\
    samples_of rk = Ret (List.length piece) /\ Forall (is_push weight lossf y wv t f g (rescale rk)) piece) rows pieces.
Definition brought (pieces : list (list (push N))) (grad_at : nat -> option (grad N)) : Prop :=
  Forall2 (fun rk piece => forall r, In r rk -> grad_at r = Some (pushed piece r)) rows pieces.
(** ... and for every slice of groups the sums of its pairs. *)
Definition counted (slices : list (nat * nat)) (pieces : list (list (push N))) (total_at : nat -> option (N * N)) : Prop :=
  forall j sl, nth_error slices j = Some sl ->
    total_at j = Some (fold_left push_total (flat_map (fun k => nth k pieces []) (seq (fst sl) (snd sl - fst sl))) (n0, n0)).
End Rounds.
Definition total_cell {N : Num} (m : mem wloc (@wval N)) (j : nat) : option (N * N) :=
  match m (WTotal j) with Some (WT a b) => Some (a, b) | _ => None end.

Definition grad_cell {N : Num} (m : mem wloc (@wval N)) (r : nat) : option (grad N) :=
  match m (WGrad r) with Some (WG d) => Some d | _ => None end.

(** Sum of reals over a list of rows. *)
Definition rows_sum (rows : list nat) (g : nat -> R) : R := fold_right Rplus 0%R (map g rows).
Definition exact_g (d : grad Exact) : R := gg d.
Definition exact_h (d : grad Exact) : R := gh d.
Definition exact_weight (u : push Exact) : R := pu_weight u.
Definition exact_hessian (u : push Exact) : R := gh (p_grad (pu_point u)).

(** The four pairwise losses, as reranking, weighting and loss function. *)
Inductive pair_kind {N : Num} (c : config N) : bool -> (float_vector -> group -> nat * nat -> res N) -> (N -> N -> point N) -> Prop :=
| KindAuc : pair_kind c false (basic_weight (cf_delta_target c)) (fun _ d => huberized_hinge n1 d)
| KindGbrank : pair_kind c false (basic_weight (cf_delta_target c)) (fun t d => squared_hinge t d)
| KindLogloss : pair_kind c false (basic_weight (cf_delta_target c)) (fun _ d => log_loss n1 d)
| KindLambda : pair_kind c true (lambda_weight (dcg_base c)) (fun _ d => log_loss n1 d).

(** A schedule: the task that makes the next step. *)
Definition exec_step {L V} (dec : forall a b : L, {a = b} + {a <> b}) (i : nat) (s : list (prog L V unit) * mem L V) : option (list (prog L V unit) * mem L V) :=
  match nth_error (fst s) i with
  | Some (PRead l k) => match snd s l with Some v => Some (set_nth i (k v) (fst s), snd s) | None => None end
  | Some (PWrite l v q) => match snd s l with Some _ => Some (set_nth i q (fst s), upd dec (snd s) l v) | None => None end
  | _ => None
  end.
Fixpoint exec {L V} (dec : forall a b : L, {a = b} + {a <> b}) (is : list nat) (s : list (prog L V unit) * mem L V) : option (list (prog L V unit) * mem L V) :=
  match is with
  | [] => Some s
  | i :: is => match exec_step dec i s with Some s => exec dec is s | None => None end
  end.
Definition finished {L V} (ps : list (prog L V unit)) : bool := forallb (fun p => match p with PRet _ => true | _ => false end) ps.
