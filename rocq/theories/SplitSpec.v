(** SplitSpec.v - vocabulary for the split search. *)
From Coq Require Import SpecFloat Reals.
From Verif Require Import Base F32 Column DataStore Num Forest Config.
From Coq Require Import Sorting.Permutation.

Section Spec.
Context {N : Num}.
Local Open Scope num_scope.

(** The comparisons behave like an order on the values equal to themselves (all but NaN). *)
Record ordered : Prop := mkOrdered {
  ord_irrefl : forall a : N, (a <? a) = false;
  ord_trans : forall a b c : N, (a <? b) = true -> (b <? c) = true -> (a <? c) = true;
  ord_between : forall a b c : N, (a <? b) = true -> (c =? c) = true -> (a <? c) = true \/ (c <? b) = true;
  ord_number : forall a b : N, (a <? b) = true -> (a =? a) = true /\ (b =? b) = true;
  ord_zero : (nZ 0 =? @nZ N 0) = true;
  ord_small : (nZ 0 <? @nZ N 1 / nZ 1000000) = true
}.

(** The sum of a list, from left to right. *)
Definition total_of (l : list (grad N)) : grad N := fold_left gadd l gzero.

(** Energy and score of a sum; zero if there is nothing to divide by. *)
Definition energy_of (lambda : N) (a : grad N) : N := if gh a + lambda =? n0 then n0 else gg a * gg a / (gh a + lambda).
Definition score_of (lambda : N) (a : grad N) : N := if gh a + lambda =? n0 then n0 else gg a / (gh a + lambda).

(** The energy gained by a division. *)
Definition reduction (lambda : N) (whole left right : grad N) : N :=
  energy_of lambda left + energy_of lambda right - energy_of lambda whole.

Section Candidates.
Variables (c : config N) (whole : grad N) (data : list (grad N)) (missing : option (grad N)).

Definition heavy (left right : grad N) : Prop := (cf_min_hessian c <? nmin (gh left) (gh right)) = true.

(** Cutting behind the first [i] buckets. *)
Definition first_part (i : nat) : grad N := total_of (firstn i data).
Definition rest_part (i : nat) : grad N := gsub whole (first_part i).

(** A candidate: the cut, whether missing rows move to the right, the gain.  The second alternative is not
    looked at when the gain of the first is NaN. *)
Inductive candidate : nat -> bool -> N -> Prop :=
| CandLeft i : 1 <= i < List.length data -> heavy (first_part i) (rest_part i) ->
    candidate i false (reduction (cf_l2_lambda c) whole (first_part i) (rest_part i))
| CandRight i m : 1 <= i < List.length data -> missing = Some m ->
    heavy (gsub (first_part i) m) (gadd (rest_part i) m) ->
    (heavy (first_part i) (rest_part i) ->
     let g := reduction (cf_l2_lambda c) whole (first_part i) (rest_part i) in (g =? g) = true) ->
    candidate i true (reduction (cf_l2_lambda c) whole (gsub (first_part i) m) (gadd (rest_part i) m)).
End Candidates.

(** The data of the missing rows (cell 0), if the scan may move them and there is any. *)
Definition movable (place : bool) (cells : list (grad N)) : option (grad N) :=
  if place then
    match cells with
    | d :: _ => if negb (gg d =? n0) || negb (gh d =? n0) then Some d else None
    | [] => None
    end
  else None.

Definition earlier (a b : nat * bool) : Prop := fst a < fst b \/ (fst a = fst b /\ snd a = false /\ snd b = true).

(** The gain to exceed: max(min_gain, 1e-6), or 0 if min_gain is NaN. *)
Definition gain_floor (c : config N) : N :=
  if cf_min_gain c =? cf_min_gain c then nmax (cf_min_gain c) (nZ 1 / nZ 1000000) else nZ 0.

(** [rg r] is weight times gradient of row [r]. *)
Definition weighted (w : float_vector) (gd : list (grad N)) (rg : nat -> grad N) (rows : list nat) : Prop :=
  forall r, In r rows -> exists wi d, w r = Ret wi /\ nth_error gd r = Some d /\
    rg r = mkG (nfloat wi * gg d) (nfloat wi * gh d).
Definition sum_of (rg : nat -> grad N) (rows : list nat) : grad N := total_of (map rg rows).
End Spec.

(** The rows whose bucket (or category) is [k]; a cut of the buckets below [j], the missing ones (0) placed. *)
Definition part (bk : nat -> nat) (k : nat) (rows : list nat) : list nat := filter (fun r => bk r =? k) rows.
Definition cut_left (j : nat) (missing_right : bool) (k : nat) : bool := if k =? 0 then negb missing_right else k <? j.
Definition left_rows (p : nat -> bool) (rows : list nat) : list nat := filter p rows.
Definition right_rows (p : nat -> bool) (rows : list nat) : list nat := filter (fun r => negb (p r)) rows.

(** std::sort: on a strict weak order it gives a rearrangement without inversions. *)
Definition weak_order (less : nat -> nat -> bool) (l : list nat) : Prop :=
  (forall a, In a l -> less a a = false) /\
  (forall a b c, In a l -> In b l -> In c l -> less a b = true -> less b c = true -> less a c = true) /\
  (forall a b c, In a l -> In b l -> In c l -> less a b = true -> less a c = true \/ less c b = true).
Definition sorts (srt : (nat -> nat -> bool) -> list nat -> list nat) : Prop :=
  forall less l, weak_order less l -> std_sorted less l (srt less l).

(** Buckets (categories) whose gradients do not cancel; and the condition that only such buckets have a hessian. *)
Definition with_data (rg : nat -> grad Exact) (bk : nat -> nat) (rows : list nat) (k : nat) : Prop :=
  gg (sum_of rg (part bk k rows)) <> 0%R.
Definition no_half_zero (rg : nat -> grad Exact) (bk : nat -> nat) (rows : list nat) : Prop :=
  forall k, gg (sum_of rg (part bk k rows)) = 0%R <-> gh (sum_of rg (part bk k rows)) = 0%R.

(** A value of type float (any mantissa and exponent that fit), and one neither NaN nor infinite. *)
Definition a_float (v : f32) : Prop := valid_binary 24 128 v = true.
Definition finite_float (v : f32) : bool := match v with S754_zero _ | S754_finite _ _ _ => true | _ => false end.

(** Threshold [t] divides the buckets with data between [kl] and [kr]. *)
Definition divides (b : bcol) (has_data : nat -> Prop) (t : f32) (kl kr : nat) : Prop :=
  forall k x, 1 <= k -> has_data k -> b_bucket_max b (Z.of_nat k) = Ret x ->
    (k <= kl -> fltb x t = true) /\ (kr <= k -> fltb x t = false).
Arguments ordered : clear implicits.
