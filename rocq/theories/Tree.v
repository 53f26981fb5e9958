(** Tree.v - model of src/gbdt_algo/tree_algo.cc.  Definitions only. *)
From Coq Require Import SpecFloat.
From Verif Require Import Base F32 Column DataStore Subsampling Num Forest Par Config Score Split.

Section Tree.
Context {N : Num}.
Local Open Scope num_scope.

(** ** ComputeWeightedSum (tree_algo.cc:43-62) *)

(** One task (53-57): total += w(index) * gradient_data_vec[index]; the shared memory is the vector totals. *)
Fixpoint sum_task (w : float_vector) (gd : list (grad N)) (i : nat) (rows : list nat) : prog nat (grad N) unit :=
  match rows with
  | [] => PRet tt
  | r :: t =>
      do! d := pres (row_grad w gd r) in
      PRead i (fun x => PWrite i (gadd x d) (sum_task w gd i t))
  end.
Definition sum_tasks (w : float_vector) (gd : list (grad N)) (slices : list (list nat)) : list (prog nat (grad N) unit) :=
  map (fun p => sum_task w gd (fst p) (snd p)) (combine (seq 0 (List.length slices)) slices).

(** A vector as shared memory, and back. *)
Definition vec_mem {A} (v : list A) : mem nat A := fun i => nth_error v i.
Fixpoint read_vec {A} (m : mem nat A) (i todo : nat) : list A :=
  match todo with
  | O => []
  | S k => match m i with Some x => x :: read_vec m (S i) k | None => [] end
  end.

(** The whole function.  The tasks run one after the other here; property C59 shows that the schedule does not matter. *)
Definition weighted_sum (threads : nat) (w : float_vector) (gd : list (grad N)) (rows : list nat) : res (grad N) :=
  let! slices := divide_slice rows (threads * 5) in
  let g := List.length slices in
  let! m := run_tasks Nat.eq_dec (sum_tasks w gd slices) (vec_mem (repeat gzero g)) in
  Ret (fold_left gadd (read_vec m 0 g) gzero).

(** ** FindBestFeatureAndSplit (75-115) *)

(** One task (89-92); the shared memory is the vector splits.  [None]: the split stays as it is. *)
Definition search_task (srt : (nat -> nat -> bool) -> list nat -> list nat) (features : list column) (w : float_vector)
    (gd : list (grad N)) (rows : list nat) (c : config N) (total : grad N) (i feature : nat) : prog nat (split N) unit :=
  do! col := pres (vget features feature) in
  do! r := pres (find_best_split srt col w gd rows c total) in
  match r with None => PRet tt | Some sp => PWrite i sp (PRet tt) end.
Definition search_tasks srt features w gd rows c total (sampled : list nat) : list (prog nat (split N) unit) :=
  map (fun p => search_task srt features w gd rows c total (fst p) (snd p)) (combine (seq 0 (List.length sampled)) sampled).

(** The loop over the splits (96-101); [rest] are the splits from index [i] on, [best] is splits[best_index]. *)
Fixpoint best_index (rest : list (split N)) (i bi : nat) (best : split N) : nat * split N :=
  match rest with
  | [] => (bi, best)
  | sp :: t => if sp_gain best <? sp_gain sp then best_index t (S i) i sp else best_index t (S i) bi best
  end.

(** The names of the chosen categories (105-111); get_cat_string takes a uint. *)
Definition with_names (col : column) (sp : split N) : res (split N) :=
  match sp_cat sp with
  | None => Ret (mkSplit (c_name col) (sp_float sp) None (sp_gain sp))
  | Some (names, idx) =>
      match c_body col with
      | BodyS s =>
          let! names := fold_res (fun acc k => let! n := str_cat_string s (Z.to_nat (u32 k)) in Ret (acc ++ [n])) idx names in
          Ret (mkSplit (c_name col) (sp_float sp) (Some (names, idx)) (sp_gain sp))
      | _ => Undef
      end
  end.

(** The whole function: the split and the feature (a pointer, null if there is none), and the new position of the
    random stream.  The tasks run one after the other here; property C36 shows that the schedule does not matter. *)
Definition find_best_feature (draw : nat -> spec_float) (pos : nat) (srt : (nat -> nat -> bool) -> list nat -> list nat)
    (features : list column) (w : float_vector) (gd : list (grad N)) (rows : list nat) (total : grad N) (c : config N)
  : res (split N * option column * nat) :=
  let (sampled, pos) := uniform_subsample draw pos (List.length features) (to_f64 (cf_feature_rate c)) in
  let n := List.length sampled in
  let! m := run_tasks Nat.eq_dec (search_tasks srt features w gd rows c total sampled) (vec_mem (repeat default_split n)) in
  match read_vec m 0 n with
  | [] => Ret (default_split, None, pos)
  | sp0 :: t =>
      let (bi, best) := best_index t 1 0 sp0 in
      if n0 <? sp_gain best then
        let! k := vget sampled bi in
        let! col := vget features k in
        let! sp := with_names col best in
        Ret (sp, Some col, pos)
      else Ret (default_split, None, pos)
  end.

(** ** FitTreeToGradients (117-179) *)

(** NodeData (64-72).  The pointer to a node is its path from the root (true: left child). *)
Record node_data := mkNode { nd_path : list bool; nd_feature : option column; nd_start : nat; nd_len : nat }.

Fixpoint node_at (t : tree N) (p : list bool) : tree N :=
  match p with
  | [] => t
  | d :: p' => node_at (if d then t_left t else t_right t) p'
  end.
(** mutable_left_child and mutable_right_child of the node at [p] *)
Fixpoint set_children (t : tree N) (p : list bool) (l r : tree N) : tree N :=
  match t with
  | TNone => TNone
  | TNode s sp a b =>
      match p with
      | [] => TNode s sp l r
      | d :: p' => if d then TNode s sp (set_children a p' l r) b else TNode s sp a (set_children b p' l r)
      end
  end.

(** set_score and mutable_split (133-138, 156-162, 165-171) *)
Definition new_node (lambda : N) (total : grad N) (sp : split N) : tree N :=
  TNode (nstore (gscore lambda total)) (if n0 <? sp_gain sp then Some sp else None) TNone TNone.

Definition node_gain (t : tree N) (nd : node_data) : N := sp_gain (the_split (t_split (node_at t (nd_path nd)))).

(** node_queue.size() < config.num_leaves(): the int32 is converted to size_t. *)
Definition below_leaves (size : nat) (num_leaves : Z) : bool := (Z.of_nat size <? num_leaves mod 18446744073709551616)%Z.

(** std::priority_queue: [top step gains] is the position of the element that is on top at that step; which of the
    elements with largest gain it is depends on the heap. *)
Definition remove_nth {A} (i : nat) (l : list A) : list A := firstn i l ++ skipn (S i) l.

Section Fit.
Variables (top : nat -> list N -> nat) (draw : nat -> spec_float) (threads : nat)
  (srt : (nat -> nat -> bool) -> list nat -> list nat) (w : float_vector) (gd : list (grad N)) (features : list column)
  (c : config N).

(** The loop (142-176).  [fuel] is a bound on the number of rounds that is never reached (see property C33). *)
Fixpoint grow (fuel step pos : nat) (t : tree N) (queue : list node_data) (samples : list nat) : res (tree N * nat) :=
  match fuel with
  | O => Ret (t, pos)
  | S fuel =>
      match queue with
      | [] => Ret (t, pos)
      | _ =>
          if negb (below_leaves (List.length queue) (cf_num_leaves c)) then Ret (t, pos) else
          let i := top step (map (node_gain t) queue) in
          let! nd := vget queue i in
          match nd_feature nd with
          | None => Ret (t, pos)
          | Some col =>
              let! (k, m) := run sloc_dec (partition (N := N) col (the_split (t_split (node_at t (nd_path nd)))) (nd_start nd) (nd_len nd))
                               (score_mem samples []) in
              let samples := read_samples m 0 (List.length samples) in
              let mid := (nd_start nd + k)%nat in
              let left := slice samples (nd_start nd, mid) in
              let right := slice samples (mid, nd_start nd + nd_len nd)%nat in
              let! left_total := weighted_sum threads w gd left in
              let! right_total := weighted_sum threads w gd right in
              let! (lsp, lf, pos) := find_best_feature draw pos srt features w gd left left_total c in
              let! (rsp, rf, pos) := find_best_feature draw pos srt features w gd right right_total c in
              let t := set_children t (nd_path nd) (new_node (cf_l2_lambda c) left_total lsp)
                         (new_node (cf_l2_lambda c) right_total rsp) in
              grow fuel (S step) pos t
                (remove_nth i queue ++ [mkNode (nd_path nd ++ [true]) lf (nd_start nd) k;
                                        mkNode (nd_path nd ++ [false]) rf mid (nd_len nd - k)]) samples
          end
      end
  end.

(** The whole function; the new position of the random stream is returned too. *)
Definition fit_tree (pos : nat) : res (tree N * nat) :=
  let (samples, pos) := uniform_subsample draw pos (List.length gd) (to_f64 (cf_example_rate c)) in
  let! total := weighted_sum threads w gd samples in
  let! (sp, f, pos) := find_best_feature draw pos srt features w gd samples total c in
  grow (Z.to_nat (cf_num_leaves c mod 18446744073709551616)) 0 pos (new_node (cf_l2_lambda c) total sp)
    [mkNode [] f 0 (List.length samples)] samples.
End Fit.
End Tree.
