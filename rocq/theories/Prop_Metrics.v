(** Prop_Metrics.v - property C85.  Statements only.  Model: Metrics.v; vocabulary: MetricsSpec.v. *)
From Coq Require Import SpecFloat Reals.
From Verif Require Import Base F32 Num Strings Metrics MetricsSpec Metrics_proofs Prop_Score.

(** ** C85 - the metrics scripts *)
(** The groups are the runs of rows with the same group line.  The numbers printed are, for all targets and for every target, the sum over the groups of the
    discounted targets, ranked by falling score, and the number of rows, by the number of groups - the latter rounded down. *)
Theorem C85_metrics (read : str -> option R) (show : R -> str) gf sf tf gids scores targets xs ts :
  (forall x, show x <> lit "total") -> data_file gf gids -> data_file sf scores -> data_file tf targets ->
  Forall2 (fun l x => read l = Some x) scores xs -> Forall2 (fun l t => read l = Some t) targets ts ->
  exists parts sorted out,
    runs (combine gids (combine xs ts)) parts /\
    Forall2 (fun p s => ranking (map snd p) s) (if (Nat.min (List.length scores) (List.length targets) <? List.length gids)%nat then removelast parts else parts) sorted /\
    metrics_main (N := Exact) read show gf sf tf = Some out /\ NoDup (map fst out) /\
    (forall k, In k (map fst out) -> exists w, (w = lit "total" \/ exists t, In t (concat (map (map snd) sorted)) /\ w = show t) /\ (k = lit "dcu_" ++ w \/ k = lit "count_" ++ w)) /\
    forall w, let counts := fun t => str_eqb w (lit "total") || str_eqb w (show t) in
      let counted := filter counts (concat (map (map snd) sorted)) in
      assoc (lit "dcu_" ++ w) out = match counted with [] => None | _ => Some (inr (total (map (fun s => discounted counts 0 (map snd s)) sorted) / INR (List.length sorted))%R) end /\
      assoc (lit "count_" ++ w) out = match counted with [] => None | _ => Some (inl (Z.of_nat (List.length counted) / Z.of_nat (List.length sorted))%Z) end.
Proof. exact (metrics_ok read show gf sf tf gids scores targets xs ts). Qed.
Print Assumptions C85_metrics.
(** Files have data lines, and only one list of them. *)
Theorem C85_files content : (exists lines, data_file content lines) /\ forall a b, data_file content a -> data_file content b -> a = b.
Proof. exact (conj (ex_intro _ _ (file_total content)) (fun a b Fa Fb => eq_trans (eq_sym (flat_of_file content a Fa)) (flat_of_file content b Fb))). Qed.
Print Assumptions C85_files.
(** No scores do better, in total, than the targets themselves. *)
Theorem C85_best (read : str -> option R) (show : R -> str) gf sf tf gids scores targets xs ts :
  (forall x, show x <> lit "total") -> data_file gf gids -> data_file sf scores -> data_file tf targets ->
  Forall2 (fun l x => read l = Some x) scores xs -> Forall2 (fun l t => read l = Some t) targets ts -> List.length scores = List.length targets ->
  exists out best, metrics_main (N := Exact) read show gf sf tf = Some out /\ metrics_main (N := Exact) read show gf tf tf = Some best /\
    match assoc (lit "dcu_total") out, assoc (lit "dcu_total") best with
    | Some (inr a), Some (inr b) => (a <= b)%R
    | None, None => True
    | _, _ => False
    end.
Proof. exact (metrics_best read show gf sf tf gids scores targets xs ts). Qed.
Print Assumptions C85_best.
(** Only the order of the scores matters: in any arithmetic, also that of doubles. *)
Theorem C85_order {N : Num} (read : str -> option N) (show : N -> str) gf sf sf' tf scores scores' xs xs' : data_file sf scores -> data_file sf' scores' ->
  Forall2 (fun l x => read l = Some x) scores xs -> Forall2 (fun l x => read l = Some x) scores' xs' -> List.length xs = List.length xs' ->
  (forall i j a b a' b', nth_error xs i = Some a -> nth_error xs j = Some b -> nth_error xs' i = Some a' -> nth_error xs' j = Some b' -> nltb a b = nltb a' b') ->
  metrics_main read show gf sf tf = metrics_main read show gf sf' tf.
Proof. exact (metrics_order read show gf sf sf' tf scores scores' xs xs'). Qed.
Print Assumptions C85_order.
(** compute_rmse.py prints the root of the mean squared difference, *)
Theorem C85_rmse (read : str -> option R) sf rf scores responses xs rs : data_file sf scores -> data_file rf responses ->
  Forall2 (fun l x => read l = Some x) scores xs -> Forall2 (fun l x => read l = Some x) responses rs -> xs <> [] -> List.length xs = List.length rs ->
  rmse_main (N := Exact) read sqrt sf rf = (Some (rmse xs rs), true).
Proof. exact (rmse_ok read sf rf scores responses xs rs). Qed.
Print Assumptions C85_rmse.
(** which is zero only for the responses themselves, *)
Theorem C85_zero xs rs : List.length xs = List.length rs -> xs <> [] -> (rmse xs rs = 0%R <-> xs = rs).
Proof. exact (rmse_zero xs rs). Qed.
Print Assumptions C85_zero.
(** and changes no more than the scores. *)
Theorem C85_near xs xs' rs eps : List.length xs = List.length rs -> Forall2 (fun s s' => (Rabs (s' - s) <= eps)%R) xs xs' -> xs <> [] ->
  (Rabs (rmse xs' rs - rmse xs rs) <= eps)%R.
Proof. exact (rmse_near xs xs' rs eps). Qed.
Print Assumptions C85_near.

(** Files of digits *)
Definition ex_read (l : str) : option Ex :=
  match l with c :: _ => let n := Z.of_N (N_of_ascii c) in if ((48 <=? n) && (n <=? 57))%Z then Some (dbl (n - 48)) else None | [] => None end.
Definition ex_digit (x : Ex) : str :=
  match find (fun n => SFeqb x (dbl (Z.of_nat n))) (seq 0 10) with Some n => [ascii_of_nat (48 + n)] | None => lit "?" end.
Fixpoint ex_file (end_of_last : bool) (l : list String.string) : str :=
  match l with [] => [] | [x] => if end_of_last then lit x ++ [line_end] else lit x | x :: t => lit x ++ line_end :: ex_file end_of_last t end.
Definition ex_metrics (groups scores targets : list String.string) : option dict :=
  metrics_main ex_read ex_digit (ex_file true groups) (ex_file true scores) (ex_file true targets).
Definition ex_get (d : option (@dict Ex)) (k : String.string) : option (@value Ex) := match d with Some d => assoc (lit k) d | None => None end.
(** Two groups of two rows; the logarithm of this arithmetic is its argument, so that the discounts are 1 and 2.4/3.4. *)
Example C85_metrics_ex :
  let out := ex_metrics ["#dtype=strings"; "a"; "a"; "b"; "b"]%string ["1"; "2"; "8"; "4"]%string ["0"; "3"; "5"; "3"]%string in
  ex_get out "count_total" = Some (inl 2%Z) /\ ex_get out "count_3" = Some (inl 1%Z) /\ ex_get out "count_0" = Some (inl 0%Z) /\ ex_get out "count_1" = None /\
  ex_get out "dcu_5" = Some (inr (SFdiv 53 1024 (dbl 5) (dbl 2))).
Proof. vm_compute. repeat split. Qed.
(** Scores, the same times two and plus one, and the targets as scores *)
Example C85_order_ex :
  ex_metrics ["a"; "a"; "a"]%string ["1"; "3"; "2"]%string ["5"; "1"; "2"]%string = ex_metrics ["a"; "a"; "a"]%string ["3"; "7"; "5"]%string ["5"; "1"; "2"]%string /\
  ex_metrics ["a"; "a"; "a"]%string ["1"; "3"; "2"]%string ["5"; "1"; "2"]%string <> ex_metrics ["a"; "a"; "a"]%string ["5"; "1"; "2"]%string ["5"; "1"; "2"]%string.
Proof. split; vm_compute; [reflexivity|discriminate]. Qed.
(** The mean of the squared differences 4, 9 and 0, and its root, by a function that knows the square of 6 *)
Example C85_rmse_ex :
  rmse_main ex_read (fun x => x) (ex_file true ["3"; "#x"; "5"; "6"]%string) (ex_file false ["1"; "2"; "6"]%string) = (Some (SFdiv 53 1024 (dbl 13) (dbl 3)), true) /\
  rmse_main ex_read (fun x => if SFeqb x (dbl 36) then dbl 6 else x) (ex_file true ["9"; "8"]%string) (ex_file true ["3"; "2"]%string) = (Some (dbl 6), true).
Proof. split; vm_compute; reflexivity. Qed.
(** Refuted: the average number of rows per group is printed: it is rounded down. *)
Theorem C85_average_refuted : exists groups scores targets : list String.string, List.length groups = 3%nat /\
  ex_get (ex_metrics groups scores targets) "count_total" = Some (inl 1%Z) /\ ex_get (ex_metrics groups scores targets) "count_1" = Some (inl 0%Z).
Proof. exists ["a"; "a"; "b"]%string, ["1"; "2"; "3"]%string, ["1"; "0"; "0"]%string. vm_compute. repeat split. Qed.
Print Assumptions C85_average_refuted.
(** Refuted: a missing score is an error.  The group it belongs to is left out, and nothing is said. *)
Theorem C85_missing_refuted : exists groups scores targets : list String.string,
  (List.length scores < List.length groups)%nat /\ ex_get (ex_metrics groups scores targets) "count_total" = Some (inl 1%Z) /\ ex_get (ex_metrics groups scores targets) "count_9" = None /\ In "9"%string targets.
Proof. exists ["a"; "b"; "b"]%string, ["1"; "2"]%string, ["1"; "9"; "0"]%string. vm_compute. repeat split; auto. Qed.
Print Assumptions C85_missing_refuted.
(** Refuted: the end of the last line does not matter.  Without it, the last row is a group of its own. *)
Theorem C85_last_line_refuted : exists (groups : list String.string) scores targets,
  metrics_main ex_read ex_digit (ex_file true groups) scores targets <> metrics_main ex_read ex_digit (ex_file false groups) scores targets.
Proof. exists ["a"; "a"]%string, (ex_file true ["1"; "2"]%string), (ex_file true ["1"; "0"]%string). vm_compute. discriminate. Qed.
Print Assumptions C85_last_line_refuted.
(** Refuted: the order of the rows of a group does not matter: it does when scores are equal. *)
Theorem C85_ties_refuted : exists a b t u : String.string,
  ex_get (ex_metrics ["g"; "g"]%string [a; b] [t; u]) "dcu_total" <> ex_get (ex_metrics ["g"; "g"]%string [b; a] [u; t]) "dcu_total".
Proof. exists "1"%string, "1"%string, "0"%string, "1"%string. vm_compute. discriminate. Qed.
Print Assumptions C85_ties_refuted.
(** Refuted: compute_rmse.py prints nothing for files of different lengths. *)
Theorem C85_lengths_refuted : exists scores responses : list String.string,
  rmse_main ex_read (fun x => x) (ex_file true scores) (ex_file true responses) = (Some (dbl 4), false).
Proof. exists ["3"; "5"]%string, ["1"; "3"; "9"]%string. vm_compute. reflexivity. Qed.
Print Assumptions C85_lengths_refuted.
