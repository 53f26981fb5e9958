(** Loss.v - model of src/loss_func/loss_func_math.cc, loss_func_pointwise.cc, loss_func_logloss.cc,
    loss_func_huberized_hinge.cc and loss_func_mse.h.  Definitions only. *)
From Verif Require Import Base F32 Column Subsampling Num Par Config Tree Train.

Section Math.
Context {N : Num}.
Local Open Scope num_scope.

(** Loss, negative gradient, hessian at target [y] and prediction [f] (loss_func_math.cc:24-52). *)
Definition point := (N * N * N)%type.
Definition p_loss (p : point) : N := fst (fst p).
Definition p_grad (p : point) : grad N := mkG (snd (fst p)) (snd p).

(** 0.5 and 1e-4 are the nearest doubles *)
Definition half_const : N := nZ 1 / nZ 2.
Definition convergence_threshold : N := nZ 1 / nZ 10000.
Definition max_iterations : nat := 10.

Definition mse (y f : N) : point := ((y - f) * (y - f), y - f, n1).
Definition log_loss (y f : N) : point :=
  let e := nexp (- y * f) in (nlog (n1 + e), y * e / (n1 + e), e / ((n1 + e) * (n1 + e))).
Definition huberized_hinge (y f : N) : point :=
  let e := y * f in
  if n1 <=? e then (n0, n0, n0)
  else if n0 <=? e then (half_const * (n1 - e) * (n1 - e), (n1 - e) * y, n1)
  else (half_const - e, y, n0).
Definition squared_hinge (y f : N) : point :=
  let e := y - f in if n0 <? e * y then (e * e, e, n1) else (n0, n0, n0).
End Math.
Arguments point : clear implicits.

Section Pointwise.
Context {N : Num}.
Local Open Scope num_scope.

(** The object after Init (loss_func_pointwise.cc:40-49).  initial_loss_ only serves the progress text. *)
Record pointwise := mkPointwise {
  pw_w : float_vector; pw_y : float_vector; pw_weight_sum : N; pw_slices : list (nat * nat)
}.
Definition pointwise_init (threads num_rows : nat) (w y : float_vector) : res pointwise :=
  let! sum := fold_res (fun s i => let! x := w i in Ret (s + nfloat x)) (seq 0 num_rows) n0 in
  let! slices := divide_samples num_rows (threads * 5) in
  Ret (mkPointwise w y sum slices).

(** The shared memory of the tasks: the gradient vector and the vector totals (LossFuncData: loss and gradient). *)
Definition ploc := (nat + nat)%type.
Definition pval := (grad N + N * grad N)%type.
Definition ploc_dec : forall a b : ploc, {a = b} + {a <> b}.
Proof. decide equality; apply Nat.eq_dec. Defined.

(** One round of the loop of a task (70-79) for row [i], in the task with total [j]. *)
Definition point_row (lossf : N -> N -> point N) (w y : float_vector) (f : list N) (c : N) (j i : nat) : prog ploc pval unit :=
  do! x := pres (vget f i) in
  do! yi := pres (y i) in
  let data := lossf (nfloat yi) (x + c) in
  do! wi := pres (w i) in
  PWrite (inl i) (inl (p_grad data))
    (PRead (inr j) (fun t => match t with
       | inr (total, tg) =>
           PRead (inl i) (fun d => match d with
             | inl d => PWrite (inr j) (inr (total + nfloat wi * p_loss data, gadd tg (gscale (nfloat wi) d))) (PRet tt)
             | inr _ => PUndef
             end)
       | inl _ => PUndef
       end)).
Fixpoint point_task lossf w y f c (j : nat) (rows : list nat) : prog ploc pval unit :=
  match rows with
  | [] => PRet tt
  | i :: rows => do! _ := point_row lossf w y f c j i in point_task lossf w y f c j rows
  end.
Definition range (r : nat * nat) : list nat := seq (fst r) (snd r - fst r).
Definition point_tasks lossf (p : pointwise) f c : list (prog ploc pval unit) :=
  map (fun x => point_task lossf (pw_w p) (pw_y p) f c (fst x) (range (snd x)))
    (combine (seq 0 (List.length (pw_slices p))) (pw_slices p)).

Definition point_mem (gd : list (grad N)) (totals : list (N * grad N)) : mem ploc pval :=
  fun l => match l with
           | inl i => option_map inl (nth_error gd i)
           | inr j => option_map inr (nth_error totals j)
           end.
Fixpoint read_grads (m : mem ploc pval) (i todo : nat) : list (grad N) :=
  match todo with
  | O => []
  | S k => match m (inl i) with Some (inl x) => x :: read_grads m (S i) k | _ => [] end
  end.
Fixpoint read_totals (m : mem ploc pval) (i todo : nat) : list (N * grad N) :=
  match todo with
  | O => []
  | S k => match m (inr i) with Some (inr x) => x :: read_totals m (S i) k | _ => [] end
  end.

(** One pass over the data (65-83).  The tasks run one after the other here; property C61 shows that the schedule
    does not matter. *)
Definition point_pass lossf (p : pointwise) (f : list N) (c : N) (gd : list (grad N)) : res (list (grad N) * (N * grad N)) :=
  let g := List.length (pw_slices p) in
  let! m := run_tasks ploc_dec (point_tasks lossf p f c) (point_mem gd (repeat (n0, gzero) g)) in
  Ret (read_grads m 0 (List.length gd),
       fold_left (fun a b => (fst a + fst b, gadd (snd a) (snd b))) (read_totals m 0 g) (n0, gzero)).

(** The do-while loop (64-87), with [todo] passes left. *)
Fixpoint newton lossf (p : pointwise) (f : list N) (todo : nat) (c : N) (gd : list (grad N)) : res (N * list (grad N)) :=
  match todo with
  | O => Ret (c, gd)
  | S todo =>
      let! (gd, total) := point_pass lossf p f c gd in
      let delta := gscore n0 (snd total) in
      let c := c + delta in
      if (convergence_threshold <? nabs delta) && (0 <? todo)%nat then newton lossf p f todo c gd else Ret (c, gd)
  end.

(** ComputeFunctionalGradientsAndHessians (51-92) *)
Definition resize (gd : list (grad N)) (n : nat) : list (grad N) := firstn n gd ++ repeat gzero (n - List.length gd).
Definition pointwise_round lossf (p : pointwise) (f : list N) (gd : list (grad N)) : res (N * list (grad N)) :=
  newton lossf p f max_iterations n0 (resize gd (List.length f)).

(** The check of LogLoss::Init (loss_func_logloss.cc:34-39) and HuberizedHinge::Init (loss_func_huberized_hinge.cc:32-37) *)
Fixpoint binary_targets (y : float_vector) (rows : list nat) : res bool :=
  match rows with
  | [] => Ret true
  | i :: rows =>
      let! x := y i in
      if negb (nfloat x =? @nZ N 1) && negb (nfloat x =? @nZ N (-1)) then Ret false else binary_targets y rows
  end.

(** A pointwise loss; [binary] tells if targets are checked.  The random stream is not used. *)
Definition pointwise_loss (threads : nat) (binary : bool) (lossf : N -> N -> point N) : loss N :=
  mkLoss pointwise
    (fun num_rows w y _ =>
       let! ok := (if binary then binary_targets y (seq 0 num_rows) else Ret true) in
       if ok then let! p := pointwise_init threads num_rows w y in Ret (inr p) else Ret (inl INVALID_ARGUMENT))
    (fun p pos f gd => let! (c, gd) := pointwise_round lossf p f gd in Ret (c, gd, p, pos)).
Definition mse_loss threads := pointwise_loss threads false mse.
Definition logloss_loss threads := pointwise_loss threads true log_loss.
Definition huberized_loss threads := pointwise_loss threads true huberized_hinge.
End Pointwise.
