(** Prop_Subsampling.v - properties C22 and C23.  Statements only.  Model: Subsampling.v. *)
From Coq Require Import SpecFloat.
From Verif Require Import Base F32 Subsampling Subsampling_proofs.

(** ** C22 - work division covers every sample exactly once *)
Theorem C22_ranges n g : 0 < g ->
  exists rs, divide_samples n g = Ret rs /\ List.length rs = g /\
    (forall r, In r rs -> fst r <= snd r <= n) /\
    concat (map (fun r => seq (fst r) (snd r - fst r)) rs) = seq 0 n /\
    (forall i j a b, i <= j -> nth_error rs i = Some a -> nth_error rs j = Some b ->
       snd b - fst b <= snd a - fst a <= S (snd b - fst b)).
Proof. exact (divide_spec n g). Qed.
Print Assumptions C22_ranges.

Theorem C22_slices samples g : 0 < g ->
  exists gs, divide_slice samples g = Ret gs /\ List.length gs = g /\ concat gs = samples /\
    (forall i j a b, i <= j -> nth_error gs i = Some a -> nth_error gs j = Some b ->
       List.length b <= List.length a <= S (List.length b)).
Proof. exact (divide_slice_spec samples g). Qed.
Print Assumptions C22_slices.

Theorem C22_no_groups n samples : divide_samples n 0 = Undef /\ divide_slice samples 0 = Undef.
Proof. exact (divide_zero n samples). Qed.
Print Assumptions C22_no_groups.

Example C22_example :
  divide_samples 7 3 = Ret [(0, 3); (3, 5); (5, 7)] /\
  divide_samples 2 4 = Ret [(0, 1); (1, 2); (2, 2); (2, 2)] /\
  divide_slice [9; 4; 6; 1; 5] 2 = Ret [[9; 4; 6]; [1; 5]].
Proof. repeat split. Qed.

(** ** C23 - uniform subsampling *)
Theorem C23_subsample draw pos n rate :
  let out := fst (uniform_subsample draw pos n rate) in
  StronglySorted lt out /\ (forall k, In k out <-> k < n /\ fltb (draw (pos + k)) rate = true) /\
  snd (uniform_subsample draw pos n rate) = pos + n.
Proof. exact (subsample_spec draw pos n rate). Qed.
Print Assumptions C23_subsample.

Definition double_one : spec_float := binary_normalize 53 1024 1 0 false.
(** Draws in [0, 1): rate 1 takes all, rate 0 takes none. *)
Theorem C23_extreme_rates draw pos n :
  (forall k, fleb (S754_zero false) (draw k) = true /\ fltb (draw k) double_one = true) ->
  fst (uniform_subsample draw pos n double_one) = seq 0 n /\
  fst (uniform_subsample draw pos n (S754_zero false)) = [].
Proof. exact (subsample_rates draw pos n double_one). Qed.
Print Assumptions C23_extreme_rates.

(** After reseeding, the samples do not depend on anything before. *)
Theorem C23_seed stream ops1 ops2 st seed :
  run_sub stream (ops1 ++ OpSeed seed :: ops2) st =
  run_sub stream ops1 st ++ run_sub stream ops2 (seed, 0).
Proof. exact (run_sub_app stream ops1 ops2 st seed). Qed.
Print Assumptions C23_seed.

Example C23_example :
  let half := binary_normalize 53 1024 1 (-1) false in
  let quarter := binary_normalize 53 1024 1 (-2) false in
  let draw k := if Nat.even k then half else quarter in
  uniform_subsample draw 0 5 half = ([1; 3], 5) /\ uniform_subsample draw 5 5 half = ([0; 2; 4], 10) /\
  run_sub (fun _ => draw) [OpSample 3 half; OpSample 2 half; OpSeed 7; OpSample 3 half] (1%Z, 0) =
    [[1]; [0]; [1]].
Proof. vm_compute. auto. Qed.
