(** Eval.v - model of LoadFeatures, CollectAllFeatures (src/gbdt_algo/utils.cc) and evaluation.cc.  Definitions only. *)
From Verif Require Import Base F32 Column DataStore Num Forest Par Score.

(** Column::status (column.h:50, 112, 146, 187) *)
Definition col_status (c : column) : status :=
  match c_body c with BodyB b => b_status b | BodyR r => r_status r | BodyS s => s_status s end.

(** LoadFeatures (utils.cc:40-77).  [get] is GetColumn; [names] lists the unordered_set in its iteration order.
    The pool of lines 48-53 calls GetColumn on each name and drops the results: it only warms up lazily loading
    stores (properties C11 and C19), so it is left out. *)
Fixpoint load_features (get : str -> option column) (names : list str) : status * list column :=
  match names with
  | [] => (SOk, [])
  | n :: t =>
      match get n with
      | None => (SErr NOT_FOUND, [])
      | Some c =>
          match col_status c with
          | SErr e => (SErr e, [])
          | SOk => match load_features get t with
                   | (SOk, cs) => (SOk, c :: cs)
                   | (SErr e, _) => (SErr e, [])
                   end
          end
      end
  end.

(** Insertion into an unordered_set. *)
Definition set_insert (s : str) (l : list str) : list str := if existsb (str_eqb s) l then l else s :: l.

Section Eval.
Context {N : Num}.

(** CollectAllFeatures (utils.cc:110-128) *)
Fixpoint collect_tree (t : tree N) (acc : list str) : list str :=
  match t with
  | TNone => acc
  | TNode _ sp l r =>
      let acc := match sp with Some s => set_insert (sp_feature s) acc | None => acc end in
      collect_tree r (collect_tree l acc)
  end.
Definition collect_features (f : forest N) : list str := fold_left (fun acc t => collect_tree t acc) f [].

(** A data store as evaluation sees it: GetColumn and num_rows after loading.
    [order] is the iteration order of the unordered_set. *)
Record view := mkView { v_get : str -> option column; v_rows : nat; v_order : list str -> list str }.

(** The loop over trees (evaluation.cc:99-101) *)
Definition eval_trees (v : view) (threads : nat) (f : forest N) (st : list nat * list N) : res (list nat * list N) :=
  fold_res (fun st t => add_tree_scores (v_get v) threads t n0 st) f st.

(** ComputeTreeScores (compute_tree_scores.cc:51-55): DivideSamples runs in the constructor, even if there is no tree. *)
Definition init_scores (v : view) (threads : nat) : res (list nat * list N) :=
  let! _ := score_slices (v_rows v) threads in
  Ret (seq 0 (v_rows v), repeat n0 (v_rows v)).

(** EvaluateForest (evaluation.cc:89-103).  On failure [scores] is left alone: [None]. *)
Definition evaluate_forest (v : view) (threads : nat) (f : forest N) : res (status * option (list N)) :=
  match load_features (v_get v) (v_order v (collect_features f)) with
  | (SErr e, _) => Ret (SErr e, None)
  | (SOk, _) =>
      let! st := init_scores v threads in
      let! st := eval_trees v threads f st in
      Ret (SOk, Some (snd st))
  end.

(** while (!test_points.empty() && i+1 >= test_points.front()) pop_front (81-83) *)
Fixpoint drop_points (k : Z) (points : list Z) : list Z :=
  match points with
  | [] => []
  | p :: t => if (p <=? k)%Z then drop_points k t else points
  end.

(** The loop (70-84).  [can_write p] tells if the file for checkpoint [p] can be opened; the result lists the files
    written, with the scores they hold (formatting with six digits is not modelled), in order. *)
Fixpoint checkpoint_loop (v : view) (threads : nat) (can_write : Z -> bool) (trees : list (tree N)) (i : Z)
    (points : list Z) (st : list nat * list N) : res (status * list (Z * list N)) :=
  match trees, points with
  | [], _ | _, [] => Ret (SOk, [])
  | t :: ts, p :: _ =>
      let! st := add_tree_scores (v_get v) threads t n0 st in
      if (i + 1 =? p)%Z then
        if can_write p then
          let! (s, ws) := checkpoint_loop v threads can_write ts (i + 1) (drop_points (i + 1) points) st in
          Ret (s, (p, snd st) :: ws)
        else Ret (SErr ABORTED, [])
      else checkpoint_loop v threads can_write ts (i + 1) (drop_points (i + 1) points) st
  end.

(** EvaluateForest with checkpoints (57-87).  The result of mkdir is ignored by the code. *)
Definition evaluate_checkpoints (v : view) (threads : nat) (can_write : Z -> bool) (f : forest N) (points : list Z)
  : res (status * list (Z * list N)) :=
  match load_features (v_get v) (v_order v (collect_features f)) with
  | (SErr e, _) => Ret (SErr e, [])
  | (SOk, _) =>
      let! st := init_scores v threads in
      checkpoint_loop v threads can_write f 0 points st
  end.
End Eval.
