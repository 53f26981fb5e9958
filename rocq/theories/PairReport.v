(** PairReport.v - model of the numbers in the progress messages of a training with a pairwise loss
    (src/loss_func/loss_func_pairwise.cc:98-182, src/gbdt_algo/gbdt_algo.cc:159-196).  The times and the formatting of the
    numbers are left out.  Definitions only. *)
From Coq Require Import SpecFloat.
From Verif Require Import Base F32 Column DataStore Num Par Subsampling Forest Config Score Eval Tree Train Loss Pairwise Report.

Section PairReport.
Context {N : Num}.
Local Open Scope num_scope.

(** The vectors losses and weight_sums (111-112) after all tasks have run, slice by slice *)
Fixpoint pair_totals (m : mem wloc (@wval N)) (j todo : nat) : list (N * N) :=
  match todo with
  | O => []
  | S k => match m (WTotal j) with Some (WT a b) => (a, b) :: pair_totals m (S j) k | _ => [] end
  end.
(** The two calls of std::accumulate and the division (153-156) *)
Definition mean_loss (totals : list (N * N)) : N := fold_left nadd (map fst totals) n0 / fold_left nadd (map snd totals) n0.

Section Messages.
Variables (v : view) (threads : nat) (top : nat -> nat -> list N -> nat) (draw : nat -> spec_float)
  (srt : (nat -> nat -> bool) -> list nat -> list nat) (to_uint : N -> res nat) (pick : nat -> nat -> nat * nat) (w : float_vector)
  (features : list column) (c : config N) (with_rerank : bool) (weight : float_vector -> group -> nat * nat -> res N) (lossf : N -> N -> point N).

(** ComputeFunctionalGradientsAndHessians (98-160), like [pair_round] of Pairwise.v, with the loss given to
    PrepareProgressMessage (158) *)
Definition pair_report (p : @pairwise N) (pos : nat) (f : list N) (gd : list (grad N)) : res (N * list (grad N) * @pairwise N * nat * N) :=
  let! m := run_tasks wloc_dec (pair_tasks srt to_uint pick c with_rerank weight lossf p f) (pair_mem (List.length f) (List.length (pr_slices p)) pos) in
  let! groups := read_all (fun i => let! g := vget (pr_groups p) i in reranked srt with_rerank f g) (seq 0 (List.length (pr_groups p))) in
  match m WGen with
  | Some (WS pos) =>
      Ret (n0, pair_grads m 0 (List.length f), mkPairwise (pr_w p) (pr_y p) groups (pr_slices p) (pr_max p) (pr_prob p), pos,
           mean_loss (pair_totals m 0 (List.length (pr_slices p))))
  | _ => Undef
  end.

(** The loop of TrainGBDT (gbdt_algo.cc:159-196), like [rounds] of Train.v, with the messages that are logged; [initial]
    is initial_loss_ (loss_func_pairwise.h) before the round.  [prepare_progress] is in Report.v: PrepareProgressMessage
    (174-182) has the same text for both kinds of losses. *)
Fixpoint pair_messages (todo i : nat) (initial : N) (st : list nat * list N) (gd : list (grad N)) (p : @pairwise N) (pos : nat) : res (list (N * N)) :=
  match todo with
  | O => Ret []
  | S todo =>
      let! (x, gd, p, pos, loss) := pair_report p pos (snd st) gd in
      let (initial, message) := prepare_progress initial loss in
      if nfinite x then
        let! (t, pos) := fit_tree (top i) draw threads srt w gd features c pos in
        let! st := add_tree_scores (v_get v) threads (apply_shrinkage (nfloat (cf_shrinkage c)) t) x st in
        let! rest := pair_messages todo (S i) initial st gd p pos in
        Ret (message :: rest)
      else Ret []
  end.
End Messages.

(** TrainGBDT (122-206), like [train] of Train.v, with the messages *)
Definition train_pair_messages (v : view) (threads : nat) (top : nat -> nat -> list N -> nat) (draw : nat -> spec_float) (pos : nat)
    (srt : (nat -> nat -> bool) -> list nat -> list nat) (names : list str) (to_uint : N -> res nat) (pick : nat -> nat -> nat * nat) (w y : float_vector)
    (with_rerank : bool) (weight : float_vector -> group -> nat * nat -> res N) (lossf : N -> N -> point N)
    (c : config N) (base : option (forest N)) : res (list (N * N)) :=
  match check_config c with
  | SErr e => Ret []
  | SOk =>
      match load_features (v_get v) (v_order v names) with
      | (SErr e, _) => Ret []
      | (SOk, features) =>
          let! group := group_column c (v_get v) in
          let! init := pair_init srt threads c (v_rows v) w y group in
          match init with
          | inl e => Ret []
          | inr p =>
              let! st := init_scores v threads in
              let! (constant, trees, st) := init_with_base v threads (match base with Some b => b | None => [] end) n0 [] st in
              pair_messages v threads top draw srt to_uint pick w features c with_rerank weight lossf (Z.to_nat (cf_num_trees c)) 0 no_initial st
                (repeat gzero (v_rows v)) p pos
          end
      end
  end.
End PairReport.
