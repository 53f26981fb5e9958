(** Metrics.v - model of scripts/compute_metrics.py and scripts/compute_rmse.py (Python 2).  Definitions only.
    Simplifications: reading options and opening files, and the order and the text of the printed numbers are not modelled; scores are no NaN. *)
From Verif Require Import Base F32 Num Strings Convert.

(** ReadFlatFile (28-32) and the lists of compute_rmse.py (10-11): the lines with their line ends, without those that start with '#' *)
Definition flat_lines (content : str) : list str :=
  filter (fun l => match l with c :: _ => negb (is c "#"%char) | [] => true end) (input_lines [] content).

Section Metrics.
Context {N : Num} (read : str -> option N) (show : N -> str) (c_sqrt : N -> N).
Local Open Scope num_scope.
(** [read]: float(); [None] is ValueError.  [show]: '{0}'.format of a float.  [c_sqrt]: math.sqrt *)

(** ** compute_metrics.py *)
(** ReadByGroup (34-52): the groups it yields, and whether it ends without an exception.  The end of the scores or targets is StopIteration, which ends the
    generator.  Simplification: a group is only looked at when all have been yielded. *)
Fixpoint by_group (gids scores targets : list str) (prev : option str) (group : list (N * N)) : list (list (N * N)) * bool :=
  match gids with
  | [] => (match group with [] => [] | _ => [group] end, true)
  | gid :: gids =>
      match scores with
      | [] => ([], true)
      | s :: scores =>
          match read s with
          | None => ([], false)
          | Some score =>
              match targets with
              | [] => ([], true)
              | t :: targets =>
                  match read t with
                  | None => ([], false)
                  | Some target =>
                      if match prev with Some g => str_eqb gid g | None => true end
                      then by_group gids scores targets (Some gid) (group ++ [(score, target)])
                      else let '(groups, fine) := by_group gids scores targets (Some gid) [(score, target)] in (group :: groups, fine)
                  end
              end
          end
      end
  end.

(** discount (55-56) *)
Definition two_point_four : N := nZ 24 / nZ 10.
Definition discount (pos : nat) : N := nlog two_point_four / nlog (nZ (Z.of_nat pos) + two_point_four).

(** Python numbers: an int or a float *)
Definition value := (Z + N)%type.
Definition as_float (v : value) : N := match v with inl z => nZ z | inr x => x end.
Definition plus (a b : value) : value := match a, b with inl x, inl y => inl (x + y)%Z | _, _ => inr (as_float a + as_float b) end.
(** Division by an int: of ints, it is rounded down (Python 2). *)
Definition divide (a : value) (n : Z) : value := match a with inl x => inl (x / n)%Z | inr x => inr (x / nZ n) end.
(** collections.defaultdict(lambda: 0) and d[k] += v *)
Definition dict := list (str * value).
Fixpoint add_to (k : str) (v : value) (d : dict) : dict :=
  match d with
  | [] => [(k, plus (inl 0%Z) v)]
  | (k', v') :: t => if str_eqb k k' then (k', plus v' v) :: t else (k', v') :: add_to k v t
  end.

(** group.sort(key=operator.itemgetter(0), reverse=True) (80): stable, largest score first *)
Fixpoint insert (x : N * N) (l : list (N * N)) : list (N * N) :=
  match l with
  | [] => [x]
  | y :: t => if (fst x <? fst y) then y :: insert x t else x :: l
  end.
Definition ranked (group : list (N * N)) : list (N * N) := fold_right insert [] group.

(** computeMetrics (62-71) *)
Fixpoint compute_metrics (i : nat) (targets : list N) (d : dict) : dict :=
  match targets with
  | [] => d
  | target :: rest =>
      let utility := discount i * target in
      let d := add_to (lit "dcu_" ++ show target) (inr utility) d in
      let d := add_to (lit "dcu_total") (inr utility) d in
      let d := add_to (lit "count_" ++ show target) (inl 1%Z) d in
      let d := add_to (lit "count_total") (inl 1%Z) d in
      compute_metrics (S i) rest d
  end.
(** mergeMetrics (58-60) *)
Definition merge (sub summary : dict) : dict := fold_left (fun d kv => add_to (fst kv) (snd kv) d) sub summary.
(** The loop of main (79-81) *)
Definition all_metrics (groups : list (list (N * N))) : dict :=
  fold_left (fun d g => merge (compute_metrics 0 (map snd (ranked g)) []) d) groups [].
(** main (79-85): the printed names and numbers; [None] for an exception *)
Definition metrics_main (group_file score_file target_file : str) : option dict :=
  let '(groups, fine) := by_group (flat_lines group_file) (flat_lines score_file) (flat_lines target_file) None [] in
  if fine then Some (map (fun kv => (fst kv, divide (snd kv) (zlen groups))) (all_metrics groups)) else None.

(** ** compute_rmse.py *)
Fixpoint squares (scores responses : list N) : list N :=
  match scores, responses with s :: ss, r :: rs => (s - r) * (s - r) :: squares ss rs | _, _ => [] end.
(** ComputeMse (6-7); [None]: ZeroDivisionError *)
Definition compute_mse (scores responses : list N) : option N :=
  match scores with [] => None | _ => Some (c_sqrt (fold_left nadd (squares scores responses) (nZ 0) / nZ (zlen scores))) end.
Fixpoint read_all (lines : list str) : option (list N) :=
  match lines with
  | [] => Some []
  | l :: t => match read l, read_all t with Some x, Some xs => Some (x :: xs) | _, _ => None end
  end.
(** main (9-13): the number printed, and whether the script ends without an exception *)
Definition rmse_main (score_file response_file : str) : option N * bool :=
  match read_all (flat_lines score_file), read_all (flat_lines response_file) with
  | Some scores, Some responses =>
      match compute_mse scores responses with
      | Some x => (Some x, (List.length scores =? List.length responses)%nat)
      | None => (None, false)
      end
  | _, _ => (None, false)
  end.
End Metrics.
