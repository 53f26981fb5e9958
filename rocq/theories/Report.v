(** Report.v - model of the numbers in the progress messages of a training with a pointwise loss
    (src/loss_func/loss_func_pointwise.cc:64-102, src/gbdt_algo/gbdt_algo.cc:159-196).  The times and the formatting of
    the numbers are left out.  Definitions only. *)
From Coq Require Import SpecFloat.
From Verif Require Import Base F32 Column DataStore Num Forest Config Score Eval Tree Train Loss.

Section Report.
Context {N : Num}.
Local Open Scope num_scope.

(** initial_loss_ of a new object (loss_func_pointwise.h:45) *)
Definition no_initial : N := nZ (-1).

(** PrepareProgressMessage (loss_func_pointwise.cc:94-102; the same text in loss_func_pairwise.cc:174-182): the new
    initial_loss_ and the two numbers of the message, the loss and the percentage. *)
Definition prepare_progress (initial loss : N) : N * (N * N) :=
  let initial := if initial <? n0 then loss else initial in
  let relative := if initial =? n0 then n0 else (initial - loss) / initial in
  (initial, (loss, relative * nZ 100)).

(** The do-while loop (64-87) again, like [newton] of Loss.v, with the loss of the last pass (total.loss). *)
Fixpoint newton_loss lossf (p : @pointwise N) (f : list N) (todo : nat) (c : N) (gd : list (grad N)) (last : N) : res (N * list (grad N) * N) :=
  match todo with
  | O => Ret (c, gd, last)
  | S todo =>
      let! (gd, total) := point_pass lossf p f c gd in
      let delta := gscore n0 (snd total) in
      let c := c + delta in
      if (convergence_threshold <? nabs delta) && (0 <? todo)%nat then newton_loss lossf p f todo c gd (fst total) else Ret (c, gd, fst total)
  end.
(** ComputeFunctionalGradientsAndHessians (51-92) with the loss given to PrepareProgressMessage (90) *)
Definition pointwise_report lossf (p : @pointwise N) (f : list N) (gd : list (grad N)) : res (N * list (grad N) * N) :=
  let! (c, gd, loss) := newton_loss lossf p f max_iterations n0 (resize gd (List.length f)) n0 in
  Ret (c, gd, loss / pw_weight_sum p).

Section Messages.
Variables (v : view) (threads : nat) (top : nat -> nat -> list N -> nat) (draw : nat -> spec_float)
  (srt : (nat -> nat -> bool) -> list nat -> list nat) (w : float_vector) (features : list column) (c : config N)
  (lossf : N -> N -> point N).

(** The loop of TrainGBDT (gbdt_algo.cc:159-196), like [rounds] of Train.v, with the messages that are logged; [initial]
    is initial_loss_ before the round.  A run that stops because of the constant logs no message for that round. *)
Fixpoint messages (todo i : nat) (initial : N) (st : list nat * list N) (gd : list (grad N)) (p : @pointwise N) (pos : nat) : res (list (N * N)) :=
  match todo with
  | O => Ret []
  | S todo =>
      let! (x, gd, loss) := pointwise_report lossf p (snd st) gd in
      let (initial, message) := prepare_progress initial loss in
      if nfinite x then
        let! (t, pos) := fit_tree (top i) draw threads srt w gd features c pos in
        let! st := add_tree_scores (v_get v) threads (apply_shrinkage (nfloat (cf_shrinkage c)) t) x st in
        let! rest := messages todo (S i) initial st gd p pos in
        Ret (message :: rest)
      else Ret []
  end.
End Messages.

(** TrainGBDT (122-206), like [train] of Train.v, with the messages *)
Definition train_messages (v : view) (threads : nat) (top : nat -> nat -> list N -> nat) (draw : nat -> spec_float) (pos : nat)
    (srt : (nat -> nat -> bool) -> list nat -> list nat) (names : list str) (w y : float_vector) (binary : bool) (lossf : N -> N -> point N)
    (c : config N) (base : option (forest N)) : res (list (N * N)) :=
  match check_config c with
  | SErr e => Ret []
  | SOk =>
      match load_features (v_get v) (v_order v names) with
      | (SErr e, _) => Ret []
      | (SOk, features) =>
          let! group := group_column c (v_get v) in
          let! init := l_init (pointwise_loss threads binary lossf) (v_rows v) w y group in
          match init with
          | inl e => Ret []
          | inr p =>
              let! st := init_scores v threads in
              let! (constant, trees, st) := init_with_base v threads (match base with Some b => b | None => [] end) n0 [] st in
              messages v threads top draw srt w features c lossf (Z.to_nat (cf_num_trees c)) 0 no_initial st (repeat gzero (v_rows v)) p pos
          end
      end
  end.
End Report.
