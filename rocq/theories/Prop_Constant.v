(** Prop_Constant.v - property C92 (the constant of a round).  Statements only.
    Vocabulary: ConstantSpec.v, LossSpec.v.  Model: Loss.v. *)
From Coq Require Import SpecFloat Reals.
From Verif Require Import Base F32 Num Subsampling Config Split SplitSpec Train Loss LossSpec ConstantSpec Constant_proofs Prop_Score Prop_Split Prop_Train Prop_Loss.
Local Close Scope R_scope.

(** ** C92 - the constant of a round and the loss (exact arithmetic) *)
(** A round visits constants from 0 on by Newton steps, at most ten; it returns the last one and the gradients at the last but
    one. *)
Theorem C92_way l wv yv f w y threads p gd : 1 <= threads ->
  row_values (N := Exact) w (List.length f) wv -> row_values (N := Exact) y (List.length f) yv -> inited (N := Exact) w y threads (List.length f) p ->
  exists cs a b, visited l wv yv f cs /\ ends cs a b /\ pointwise_round (N := Exact) l p f gd = Ret (b, row_gradients (N := Exact) l yv f a).
Proof. exact (walk_ok l wv yv f w y threads p gd). Qed.
Print Assumptions C92_way.
(** No step goes uphill.  A step is 0 exactly at a constant of least loss, if the sum of the hessians is not 0 there. *)
Theorem C92_downhill l wv yv f factor top cs k a b : known_loss l yv (List.length f) factor top -> (forall i, i < List.length f -> (0 <= wv i)%R) ->
  visited l wv yv f cs -> nth_error cs k = Some a -> nth_error cs (S k) = Some b ->
  (exists d, derivable_pt_lim (constant_loss l wv yv f) a d /\ d * (b - a) <= 0)%R /\
  (bend l wv yv f a <> 0%R -> (a = b <-> best_constant l wv yv f a)).
Proof.
  exact (fun K W V A B => conj (ex_intro _ _ (conj (total_derivative l wv yv f factor top K a) (turned _ _ (factor_pos l yv f factor top K) _ (proj1 (downhill l wv yv f factor top K W cs k a b V A B)))))
    (proj2 (downhill l wv yv f factor top K W cs k a b V A B))).
Qed.
Print Assumptions C92_downhill.
(** If fewer than ten steps are taken, the loss at the last constant but one is nearly the least: any other constant [c'] gains at
    most a ten-thousandth of the weights (a quarter of it for logloss, twice for mse) per unit of distance. *)
Theorem C92_settled l wv yv f factor top cs a b : known_loss l yv (List.length f) factor top -> (forall i, i < List.length f -> (0 <= wv i)%R) ->
  visited l wv yv f cs -> ends cs a b -> List.length cs < 11 -> bend l wv yv f a <> 0%R ->
  (Rabs (pull l wv yv f a) <= top * rsum (List.length f) wv / 10000 /\
  forall c', constant_loss l wv yv f a <= constant_loss l wv yv f c' + factor * top * rsum (List.length f) wv / 10000 * Rabs (c' - a))%R.
Proof. exact (fun K W => settled l wv yv f factor top K W cs a b). Qed.
Print Assumptions C92_settled.

(** Logloss from function values 0 (no base forest): the logarithm of the odds is the only best constant; the steps approach it
    from one side, never pass it, and never increase the loss. *)
Theorem C92_log_odds wv yv f : let P := weight_with wv yv (List.length f) 1 in let M := weight_with wv yv (List.length f) (-1) in
  (forall i, nth i f 0 = 0)%R -> (forall i, i < List.length f -> (yv i = 1 \/ yv i = -1)%R) -> (forall i, i < List.length f -> (0 <= wv i)%R) ->
  (0 < P)%R -> (0 < M)%R -> forall c, best_constant log_loss wv yv f c <-> c = ln (P / M).
Proof. exact (log_best wv yv f). Qed.
Print Assumptions C92_log_odds.
Theorem C92_log_way wv yv f cs : let P := weight_with wv yv (List.length f) 1 in let M := weight_with wv yv (List.length f) (-1) in
  (forall i, nth i f 0 = 0)%R -> (forall i, i < List.length f -> (yv i = 1 \/ yv i = -1)%R) -> (forall i, i < List.length f -> (0 <= wv i)%R) ->
  (0 < P)%R -> (0 < M)%R -> visited log_loss wv yv f cs -> forall k a, nth_error cs k = Some a -> between 0 a (ln (P / M)) /\
  forall b, nth_error cs (S k) = Some b -> between a b (ln (P / M)) /\ (constant_loss log_loss wv yv f b <= constant_loss log_loss wv yv f a)%R.
Proof. exact (fun Z S W => log_way wv yv f Z S W cs). Qed.
Print Assumptions C92_log_way.
(** With one class only all ten steps are taken; the constant ends between 10 and 20 (or -20 and -10). *)
Theorem C92_log_one_class wv yv f cs a b : let P := weight_with wv yv (List.length f) 1 in let M := weight_with wv yv (List.length f) (-1) in
  (forall i, nth i f 0 = 0)%R -> (forall i, i < List.length f -> (yv i = 1 \/ yv i = -1)%R) -> (forall i, i < List.length f -> (0 <= wv i)%R) ->
  visited log_loss wv yv f cs -> ends cs a b ->
  ((0 < P)%R /\ M = 0%R -> List.length cs = 11 /\ (10 < b <= 20)%R) /\ (P = 0%R /\ (0 < M)%R -> List.length cs = 11 /\ (-20 <= b < -10)%R).
Proof. exact (fun Z S W => log_one_class wv yv f Z S W cs a b). Qed.
Print Assumptions C92_log_one_class.
(** Huberized hinge from function values 0: the constant is the best one, 1 - M/P or P/M - 1, unless the first step, the mean
    of the targets, is short. *)
Theorem C92_hinge_start wv yv f cs a b : let P := weight_with wv yv (List.length f) 1 in let M := weight_with wv yv (List.length f) (-1) in
  (forall i, nth i f 0 = 0)%R -> (forall i, i < List.length f -> (yv i = 1 \/ yv i = -1)%R) -> (forall i, i < List.length f -> (0 <= wv i)%R) ->
  (0 < P + M)%R -> visited huberized_hinge wv yv f cs -> ends cs a b -> let c1 := ((P - M) / (P + M))%R in
  ((Rabs c1 <= 1 / 10000 -> b = c1) /\ (1 / 10000 < c1 -> b = 1 - M / P /\ best_constant huberized_hinge wv yv f b) /\
   (c1 < - (1 / 10000) -> b = P / M - 1 /\ best_constant huberized_hinge wv yv f b))%R.
Proof. exact (fun Z S W => hinge_start wv yv f Z S W cs a b). Qed.
Print Assumptions C92_hinge_start.

(** Huberized hinge from other function values (a base forest, later rounds): the steps can go too far and then stop where all
    hessians are 0, at a constant that is worse than none.  One row with target 1 and function value 1/2, one with 1 and -1,
    ten with -1 and -1: the round returns -8 and raises the loss from 13/8 to 35/2. *)
Definition ex_hinge (y : list f32) (f : list f64) : option (f64 * list (f64 * f64) * f64 * f64) :=
  match pointwise_init 2 (List.length f) ones (ex_targets y) with
  | Ret p => match pointwise_round (N := Ex) huberized_hinge p f [] with
             | Ret (c, gd) =>
                 let loss c := fold_left (fun a x => @nadd Ex a (p_loss (@huberized_hinge Ex (to_f64 (fst x)) (@nadd Ex (snd x) c)))) (combine y f) (dbl 0) in
                 Some (c, map (fun g => (gg g, gh g)) gd, loss (dbl 0), loss c)
             | _ => None
             end
  | _ => None
  end.
Theorem C92_hinge_refuted : exists y f gd, ex_hinge y f = Some (dbl (-8), gd, ratio 13 8, ratio 35 2) /\ map snd gd = repeat (dbl 0) (List.length f).
Proof.
  exists (repeat (fl 1) 2 ++ repeat (fl (-1)) 10), (ratio 1 2 :: repeat (dbl (-1)) 11). eexists. split; vm_compute; reflexivity.
Qed.
Print Assumptions C92_hinge_refuted.

(** Three targets 1 and one -1: the first step is 1/2, the second leads to 2/3; the loss falls from 2 to 4/3. *)
Example C92_example : option_map (fun x => match x with (c, _, before, after) => (c, before, after) end) (ex_hinge [fl 1; fl 1; fl (-1); fl 1] (repeat (dbl 0) 4)) =
  Some (ratio 2 3, dbl 2, ratio 4 3).
Proof. vm_compute. reflexivity. Qed.
