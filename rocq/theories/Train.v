(** Train.v - model of src/gbdt_algo/gbdt_algo.cc.  Definitions only. *)
From Coq Require Import SpecFloat.
From Verif Require Import Base F32 Column DataStore Num Forest Config Score Eval Tree.

(** LossFunc (src/loss_func/loss_func.h:29-44) as TrainGBDT sees it: what Init returns (an error, or the state of the
    object), and what ComputeFunctionalGradientsAndHessians returns for the state, the position of the random stream,
    the function values and the old contents of the gradient vector: the constant, the new gradients, state and position.
    The progress text is not modelled. *)
Record loss (N : Num) := mkLoss {
  l_state : Type;
  l_init : nat -> float_vector -> float_vector -> option strcol -> res (code + l_state);
  l_round : l_state -> nat -> list N -> list (grad N) -> res (N * list (grad N) * l_state * nat)
}.
Arguments mkLoss {N}. Arguments l_state {N}. Arguments l_init {N}. Arguments l_round {N}.

Section Train.
Context {N : Num}.
Local Open Scope num_scope.

(** ApplyShrinkage (gbdt_algo.cc:50-58).  The product of two floats is exact in double, so storing it rounds once. *)
Fixpoint apply_shrinkage (shrinkage : N) (t : tree N) : tree N :=
  match t with
  | TNone => TNone
  | TNode s sp l r => TNode (nstore (s * shrinkage)) sp (apply_shrinkage shrinkage l) (apply_shrinkage shrinkage r)
  end.

(** ClearInternalFields (60-82) *)
Definition clear_split (sp : split N) : split N :=
  match sp_cat sp with
  | None => sp
  | Some (names, _) => mkSplit (sp_feature sp) (sp_float sp) (Some (names, [])) (sp_gain sp)
  end.
Fixpoint clear_internal (t : tree N) : tree N :=
  match t with
  | TNone => TNone
  | TNode s sp l r =>
      TNode s (if present l then option_map clear_split sp else None) (clear_internal l) (clear_internal r)
  end.

(** IsSingleNodeTree (utils.cc:130-132) *)
Definition single_node (t : tree N) : bool := negb (has_left t).

(** A tree that is only a score. *)
Definition constant_tree (s : N) : tree N := TNode s None TNone TNone.

(** InitializeWithBaseForest (84-101): the score of the constant tree (tree 0), the trees behind it and the function
    values.  The sum of two floats is taken in double and stored: one rounding in effect (double has more than twice
    the digits of float). *)
Fixpoint init_with_base (v : view) (threads : nat) (base : list (tree N)) (constant : N) (trees : list (tree N))
    (st : list nat * list N) : res (N * list (tree N) * (list nat * list N)) :=
  match base with
  | [] => Ret (constant, trees, st)
  | t :: base =>
      let! st := add_tree_scores (v_get v) threads t n0 st in
      if single_node t then init_with_base v threads base (nstore (constant + t_score t)) trees st
      else init_with_base v threads base constant (trees ++ [t]) st
  end.

(** What the training leaves behind: its status, the forest and the function values [f] (a local variable). *)
Record trained := mkTrained { tr_status : status; tr_forest : forest N; tr_f : list N }.

Section Rounds.
Variables (v : view) (threads : nat) (top : nat -> nat -> list N -> nat) (draw : nat -> spec_float)
  (srt : (nat -> nat -> bool) -> list nat -> list nat) (w : float_vector) (features : list column) (c : config N)
  (lf : loss N).

(** The loop (159-196).  [top i] is the priority queue of round [i]; tree 0 of the forest is kept apart as [constant]. *)
Fixpoint rounds (todo i : nat) (constant : N) (trees : list (tree N)) (st : list nat * list N) (gd : list (grad N))
    (ls : l_state lf) (pos : nat) : res trained :=
  match todo with
  | O => Ret (mkTrained SOk (map clear_internal (constant_tree constant :: trees)) (snd st))
  | S todo =>
      let! (x, gd, ls, pos) := l_round lf ls pos (snd st) gd in
      if nfinite x then
        let! (t, pos) := fit_tree (top i) draw threads srt w gd features c pos in
        let t := apply_shrinkage (nfloat (cf_shrinkage c)) t in
        let constant := nstore (constant + x) in
        let! st := add_tree_scores (v_get v) threads t x st in
        rounds todo (S i) constant (trees ++ [t]) st gd ls pos
      else Ret (mkTrained (SErr INTERNAL) (constant_tree constant :: trees) (snd st))
  end.
End Rounds.

(** TrainGBDT (122-206), with an empty forest to fill (as in all calls).  [names] is the set of feature names, [base]
    the base forest if there is one, [pos] the position of the random stream.  Log output and meta_info are text and
    left out. *)
Definition train (v : view) (threads : nat) (top : nat -> nat -> list N -> nat) (draw : nat -> spec_float) (pos : nat)
    (srt : (nat -> nat -> bool) -> list nat -> list nat) (names : list str) (w y : float_vector) (lf : loss N)
    (c : config N) (base : option (forest N)) : res trained :=
  match check_config c with
  | SErr e => Ret (mkTrained (SErr e) [] [])
  | SOk =>
      match load_features (v_get v) (v_order v names) with
      | (SErr e, _) => Ret (mkTrained (SErr e) [] [])
      | (SOk, features) =>
          let! group := group_column c (v_get v) in
          let! init := l_init lf (v_rows v) w y group in
          match init with
          | inl e => Ret (mkTrained (SErr e) [] [])
          | inr ls =>
              let! st := init_scores v threads in
              let! (constant, trees, st) := init_with_base v threads (match base with Some b => b | None => [] end) n0 [] st in
              rounds v threads top draw srt w features c lf (Z.to_nat (cf_num_trees c)) 0 constant trees st
                (repeat gzero (v_rows v)) ls pos
          end
      end
  end.
End Train.
Arguments trained : clear implicits.
