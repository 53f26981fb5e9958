(** Prop_Pair.v - properties C45 to C49 and C62: the pairwise losses.  Statements only.  Model: Pairwise.v; vocabulary:
    PairSpec.v. *)
From Coq Require Import SpecFloat Reals.
From Flocq Require Core.Zaux IEEE754.BinarySingleNaN.
From Verif Require Import Base F32 Column ColumnSpec DataStore Subsampling Num Par Forest Config Score ScoreSpec Split SplitSpec
  Split_proofs Tree Train Loss LossSpec Pairwise PairSpec Group_proofs GroupCol_proofs Pairwise_proofs PairExact_proofs PairFinal_proofs
  Prop_Score Prop_Split Prop_Train Prop_Loss.
Local Close Scope R_scope.

(** ** C45 - pair indices enumerate the pairs *)
Theorem C45_pairs srt y rows t : sorts srt -> comparable y rows t ->
  exists g, group_new srt y rows = Ret g /\ Permutation rows (gr_rows g) /\
    gr_pairs g = List.length (better_pairs t rows) /\
    (forall k, k < gr_pairs g -> exists i j, sampled_rows g k = Ret (i, j) /\ In (i, j) (better_pairs t rows)) /\
    (NoDup rows -> forall i j, In (i, j) (better_pairs t rows) -> exists! k, k < gr_pairs g /\ sampled_rows g k = Ret (i, j)).
Proof. exact (group_pairs srt y rows t). Qed.
Print Assumptions C45_pairs.
Definition ex_pair_y : float_vector := ex_targets (map fl [1; 3; 1; 2; 3; 7; 7]%Z).
Definition ex_group : res group := group_new insertion_sort ex_pair_y [0; 1; 2; 3; 4].
Example C45_example :
  match ex_group with Ret g => (gr_rows g, gr_pairs g, map (sampled_rows g) (seq 0 9)) | _ => ([], 0, []) end =
    ([1; 4; 3; 0; 2], 8, map Ret [(1, 2); (4, 2); (1, 0); (4, 0); (1, 3); (4, 3); (3, 2); (3, 0)] ++ [Undef]).
Proof. vm_compute. reflexivity. Qed.

(** ** C46 - reranking *)
Theorem C46_rerank {N : Num} srt (f : list N) g : ordered N -> sorts srt -> List.length (gr_ranks g) = List.length (gr_rows g) ->
  (forall r, In r (gr_rows g) -> exists x, nth_error f r = Some x /\ neqb x x = true) ->
  exists g', rerank srt f g = Ret g' /\ gr_rows g' = gr_rows g /\ gr_pairs g' = gr_pairs g /\ gr_map g' = gr_map g /\
    Permutation (gr_ranks g') (seq 0 (List.length (gr_rows g))) /\
    (forall a b i j x z p q, nth_error (gr_rows g) a = Some i -> nth_error (gr_rows g) b = Some j ->
       nth_error f i = Some x -> nth_error f j = Some z -> nltb z x = true ->
       nth_error (gr_ranks g') a = Some p -> nth_error (gr_ranks g') b = Some q -> p < q).
Proof. exact (rerank_spec srt f g). Qed.
Print Assumptions C46_rerank.
(** The rows 1 4 3 0 2 have the function values 1 0 5 4 5. *)
Example C46_example :
  match ex_group with Ret g => match rerank (N := Ex) insertion_sort (map dbl [4; 1; 5; 5; 0]%Z) g with Ret g => gr_ranks g | _ => [] end | _ => [] end =
    [3; 4; 0; 2; 1].
Proof. vm_compute. reflexivity. Qed.

(** ** C47 - gradients of a round *)
(** Every schedule of the tasks runs without error and ends with gradients that are explained by sampled pairs; so does
    the sequential round, whose constant is 0. *)
Theorem C47_round {N : Num} srt threads to_uint pick (c : config N) wr weight lossf n w y col wv t p pos f :
  sorts srt -> 1 <= threads -> nleb (nfloat (cf_pair_rate c)) (@n0 N) = false -> proper_groups n col -> row_values w n wv ->
  comparable y (seq 0 n) t -> picks pick -> pair_kind c wr weight lossf ->
  in_use srt threads to_uint pick c wr weight lossf n w y col p -> List.length f = n ->
  (wr = true -> ordered N /\ forall x, In x f -> neqb x x = true) ->
  exists rows, grouping n col rows /\ rows_by_group n col = Ret rows /\
   ((forall rk, In rk rows -> exists count, samples_of to_uint c n rows t rk = Ret count /\ (num_pairs t rk = 0 -> count = 0)) ->
    (forall s, ireach wloc_dec (pair_tasks srt to_uint pick c wr weight lossf p f, pair_mem n (List.length (pr_slices p)) pos) s ->
       (forall q, In q (fst s) -> ~ pfail q (snd s)) /\ (all_done (fst s) \/ exists s', istep wloc_dec s s') /\
       (all_done (fst s) -> explained srt to_uint c wr weight lossf n y rows wv t p f (grad_cell (snd s)))) /\
    forall gd, exists grads p' pos', pair_round srt to_uint pick c wr weight lossf p pos f gd = Ret (n0, grads, p', pos') /\
       List.length grads = n /\ explained srt to_uint c wr weight lossf n y rows wv t p f (nth_error grads)).
Proof. exact (usable_round srt threads to_uint pick c wr weight lossf n w y col wv t p pos f). Qed.
Print Assumptions C47_round.
(** Such gradients add up to 0 in every group; hessians are not negative; groups without pairs get nothing. *)
Theorem C47_balance srt to_uint c wr weight lossf n y col rows wv t p f at_ : grouping n col rows ->
  explained (N := Exact) srt to_uint c wr weight lossf n y rows wv t p f at_ ->
  pair_kind c wr weight lossf -> comparable y (seq 0 n) t ->
  forall rk, In rk rows -> exists d, (forall r, In r rk -> at_ r = Some (d r)) /\ rows_sum rk (fun r => exact_g (d r)) = 0%R /\
    ((forall i, i < n -> a_float (t i) /\ finite_float (t i) = true /\ (0 <= wv i)%R) -> forall r, In r rk -> (0 <= exact_h (d r))%R) /\
    (num_pairs t rk = 0 -> forall r, In r rk -> d r = gzero).
Proof. exact (balanced srt to_uint c wr weight lossf n y col rows wv t p f at_). Qed.
Print Assumptions C47_balance.
(** Init succeeds. *)
Theorem C47_init {N : Num} srt threads (c : config N) n w y col t :
  sorts srt -> 1 <= threads -> nleb (nfloat (cf_pair_rate c)) (@n0 N) = false -> proper_groups n col ->
  comparable y (seq 0 n) t -> exists p, pair_init srt threads c n w y col = Ret (inr p).
Proof. exact (init_usable srt threads c n w y col t). Qed.
Print Assumptions C47_init.
(** The number of samples is the share of pairs rounded down; it is undefined where uint64 has no such number. *)
Theorem C47_count (x : f64) :
  (BinarySingleNaN.is_finite_SF x = true -> (-1 < BinarySingleNaN.SF2R Zaux.radix2 x < IZR 18446744073709551616)%R ->
     exists n, double_to_uint x = Ret n /\ (0 <= BinarySingleNaN.SF2R Zaux.radix2 x -> INR n <= BinarySingleNaN.SF2R Zaux.radix2 x < INR n + 1)%R /\ ((BinarySingleNaN.SF2R Zaux.radix2 x < 0)%R -> n = 0)) /\
  (BinarySingleNaN.is_finite_SF x = false \/ (BinarySingleNaN.SF2R Zaux.radix2 x <= -1)%R \/ (IZR 18446744073709551616 <= BinarySingleNaN.SF2R Zaux.radix2 x)%R -> double_to_uint x = Undef).
Proof. exact (truncated x). Qed.
Print Assumptions C47_count.
(** Groups a = {0,1,2}, b = {3,4}, c = {5,6}; the targets of c are equal. *)
Definition ex_groups : strcol := string_column_of [map lit ["a"; "a"; "a"; "b"; "b"; "c"; "c"]%string].
Definition ex_pair_cfg (rate : f32) (delta equal : bool) : config Ex :=
  mkConfig 1 2 f32_one (dbl 0) (dbl 0) (dbl 0) f32_one f32_one 0 [] [] [] [] false [] [] rate delta f32_zero equal.
Definition ex_pick (pos k : nat) : nat * nat := (pos mod k, S pos).
Definition ex_pair_start (c : config Ex) (y : float_vector) (n : nat) (col : option strcol) : option (@pairwise Ex) :=
  match pair_init (N := Ex) insertion_sort 2 c n ones y col with Ret (inr p) => Some p | _ => None end.
Definition ex_pair_round (c : config Ex) (y : float_vector) (n : nat) (col : option strcol) (f : list Z) : option (list (f64 * f64) * nat) :=
  match ex_pair_start c y n col with
  | Some p => match pair_round (N := Ex) insertion_sort double_to_uint ex_pick c false (basic_weight (cf_delta_target c)) (fun t d => squared_hinge t d) p 0 (map dbl f) [] with
              | Ret (_, g, _, pos) => Some (map (fun d => (gg d, gh d)) g, pos)
              | _ => None
              end
  | None => None
  end.
Example C47_example :
  ex_pair_round (ex_pair_cfg f32_one false false) ex_pair_y 7 (Some ex_groups) [0; 0; 0; 0; 0; 0; 0]%Z =
    Some ([(dbl (-2), dbl 2); (dbl 4, dbl 4); (dbl (-2), dbl 2); (dbl (-1), dbl 2); (dbl 1, dbl 2); (dbl 0, dbl 0); (dbl 0, dbl 0)], 3) /\
  ex_pair_round (ex_pair_cfg f32_one true true) ex_pair_y 7 (Some ex_groups) [0; 0; 0; 0; 0; 0; 0]%Z =
    Some ([(dbl (-4), dbl 4); (dbl 8, dbl 8); (dbl (-4), dbl 4); (dbl (-2), dbl 4); (dbl 2, dbl 4); (dbl 0, dbl 0); (dbl 0, dbl 0)], 3).
Proof. vm_compute. split; reflexivity. Qed.

(** ** C48 - groups from a column *)
(** With [fits_32_bits] as in C12: a row without a group makes Init undefined; else every string has its group. *)
Theorem C48_groups num_rows blocks : fits_32_bits (concat blocks) ->
  (In missing_str (concat blocks) -> rows_by_group num_rows (Some (string_column_of blocks)) = Undef) /\
  (~ In missing_str (concat blocks) -> exists names, NoDup names /\ (forall s, In s names <-> In s (concat blocks)) /\
     rows_by_group num_rows (Some (string_column_of blocks)) = Ret (map (rows_with (concat blocks)) names)).
Proof. exact (group_column_spec num_rows blocks). Qed.
Print Assumptions C48_groups.
(** Every row is in exactly one group. *)
Theorem C48_partition n col rows : grouping n col rows -> NoDup (concat rows) /\ forall r, In r (concat rows) <-> r < n.
Proof. exact (grouping_rows n col rows). Qed.
Print Assumptions C48_partition.
(** Targets that are all equal: the share of pairs is infinite, the number of samples is a NaN, its conversion to an
    integer undefined.  No round of training has a defined result. *)
Theorem C48_ties c_exp c_log srt threads pick (c : config (IEEE c_exp c_log)) wr weight lossf n w y col t p pos f gd :
  let N := IEEE c_exp c_log in
  sorts srt -> 1 <= threads -> nleb (nfloat (cf_pair_rate c)) (@n0 N) = false -> proper_groups n col -> 0 < n ->
  comparable y (seq 0 n) t -> (forall i j, i < n -> j < n -> fltb (t i) (t j) = false) ->
  in_use (N := N) srt threads double_to_uint pick c wr weight lossf n w y col p ->
  pair_round (N := N) srt double_to_uint pick c wr weight lossf p pos f gd = Undef.
Proof. exact (ties_undefined c_exp c_log srt threads pick c wr weight lossf n w y col t p pos f gd). Qed.
Print Assumptions C48_ties.
Example C48_example :
  rows_by_group 7 (Some ex_groups) = Ret [[0; 1; 2]; [3; 4]; [5; 6]] /\
  rows_by_group 3 (Some (string_column_of [map lit ["a"; "__missing__"; "b"]%string])) = Undef /\
  option_map (fun p => map gr_pairs (pr_groups p)) (ex_pair_start (ex_pair_cfg f32_one false false) (ex_targets (map fl [4; 4; 4]%Z)) 3 None) = Some [0] /\
  ex_pair_round (ex_pair_cfg f32_one false false) (ex_targets (map fl [4; 4; 4]%Z)) 3 None [0; 0; 0]%Z = None.
Proof. vm_compute. repeat split; reflexivity. Qed.

(** ** C49 - LambdaMART weights *)
Theorem C49_discount (b : R) : (1 < b)%R ->
  (discount (N := Exact) b 0 = 1)%R /\ (forall k, 0 < discount (N := Exact) b k)%R /\
  forall j k, j < k -> (discount (N := Exact) b k < discount (N := Exact) b j)%R.
Proof. exact (fun H => conj (discount_first b H) (conj (fun k => discount_positive b k H) (fun j k => discount_decreasing b j k H))). Qed.
Print Assumptions C49_discount.
(** The pair has its better target first. *)
Theorem C49_weight (base : R) y g g' a b i j va vb ra rb : (1 < base)%R ->
  nth_error (gr_rows g) a = Some i -> nth_error (gr_rows g) b = Some j -> y i = Ret va -> y j = Ret vb ->
  a_float va -> a_float vb -> finite_float va = true -> finite_float vb = true -> fltb va vb = false ->
  nth_error (gr_ranks g) a = Some ra -> nth_error (gr_ranks g) b = Some rb ->
  gr_rows g' = gr_rows g -> nth_error (gr_ranks g') a = Some rb -> nth_error (gr_ranks g') b = Some ra ->
  exists w : R, lambda_weight (N := Exact) base y g (a, b) = Ret w /\ lambda_weight (N := Exact) base y g' (a, b) = Ret w /\
    (0 <= w)%R /\ (w = 0%R <-> ra = rb \/ feqb va vb = true) /\
    w = ((real_of va - real_of vb) * Rabs (discount (N := Exact) base ra - discount (N := Exact) base rb))%R.
Proof. exact (lambda_weight_spec base y g g' a b i j va vb ra rb). Qed.
Print Assumptions C49_weight.
(** The constructor indexes a vector that has only been reserved. *)
Theorem C49_table_refuted {N : Num} (base : N) : lambda_table base = Undef.
Proof. exact (lambda_table_undefined base). Qed.
Print Assumptions C49_table_refuted.
(** A base of 1 gives NaN weights. *)
Theorem C49_base_one_refuted c_exp c_log : c_log (binary_normalize 53 1024 1 0 false) = S754_zero false ->
  discount (N := IEEE c_exp c_log) (binary_normalize 53 1024 1 0 false) 0 = S754_nan.
Proof. exact (base_one c_exp c_log). Qed.
Print Assumptions C49_base_one_refuted.
(** Base 2, ranks 0 and 2: log 2 / log 4 is 1/2. *)
Example C49_example : discount (N := Exact) 2%R 2 = (1 / 2)%R.
Proof. exact discount_example. Qed.

(** ** C62 - the random generator is shared without a lock *)
(** One group: every schedule ends in the same state. *)
Theorem C62_one_group {N : Num} srt threads to_uint pick (c : config N) wr weight lossf n w y t p pos f s1 s2 :
  sorts srt -> 1 <= threads -> nleb (nfloat (cf_pair_rate c)) (@n0 N) = false -> comparable y (seq 0 n) t ->
  in_use srt threads to_uint pick c wr weight lossf n w y None p ->
  ireach wloc_dec (pair_tasks srt to_uint pick c wr weight lossf p f, pair_mem n (List.length (pr_slices p)) pos) s1 ->
  ireach wloc_dec (pair_tasks srt to_uint pick c wr weight lossf p f, pair_mem n (List.length (pr_slices p)) pos) s2 ->
  all_done (fst s1) -> all_done (fst s2) -> snd s1 = snd s2.
Proof. exact (one_group_same srt threads to_uint pick c wr weight lossf n w y t p pos f s1 s2). Qed.
Print Assumptions C62_one_group.

(** Two groups: the gradients depend on the schedule, and tasks can draw the same number. *)
Definition ex_race_col : strcol := string_column_of [map lit ["a"; "a"; "a"; "b"; "b"; "b"]%string].
Definition ex_race_y : float_vector := ex_targets (map fl [1; 2; 3; 1; 2; 3]%Z).
Definition ex_race_cfg : config Ex := ex_pair_cfg f32_one false false.
Definition ex_race_weight : float_vector -> group -> nat * nat -> res Ex := basic_weight (cf_delta_target ex_race_cfg).
Definition ex_race_loss (t d : Ex) : point Ex := squared_hinge t d.
Definition ex_race_p : @pairwise Ex :=
  match ex_pair_start ex_race_cfg ex_race_y 6 (Some ex_race_col) with Some p => p | None => mkPairwise ones ones [] [] 0 (dbl 0) end.
Definition ex_race_state : list (prog wloc (@wval Ex) unit) * mem wloc (@wval Ex) :=
  (pair_tasks (N := Ex) insertion_sort double_to_uint ex_pick ex_race_cfg false ex_race_weight ex_race_loss ex_race_p (map dbl [0; 0; 0; 0; 0; 0]%Z), pair_mem 6 (List.length (pr_slices ex_race_p)) 0).
Definition ex_race (is : list nat) : option (bool * list (option (f64 * f64)) * option nat) :=
  match exec wloc_dec is ex_race_state with
  | Some s => Some (finished (fst s), map (fun r => option_map (fun d => (gg d, gh d)) (grad_cell (snd s) r)) (seq 0 6),
                    match snd s WGen with Some (WS k) => Some k | _ => None end)
  | None => None
  end.
Definition ex_first_a : list nat := repeat 0 12 ++ repeat 1 12.
Definition ex_both : list nat := [0; 1; 0; 1] ++ repeat 0 10 ++ repeat 1 10.
Example C62_example :
  ex_race ex_first_a = Some (true, [Some (dbl (-2), dbl 2); Some (dbl 0, dbl 0); Some (dbl 2, dbl 2); Some (dbl 0, dbl 0); Some (dbl (-1), dbl 2); Some (dbl 1, dbl 2)], Some 2) /\
  ex_race ex_both = Some (true, [Some (dbl (-2), dbl 2); Some (dbl 0, dbl 0); Some (dbl 2, dbl 2); Some (dbl (-2), dbl 2); Some (dbl 0, dbl 0); Some (dbl 2, dbl 2)], Some 1).
Proof. vm_compute. split; reflexivity. Qed.
Theorem C62_refuted : exists s1 s2,
  in_use (N := Ex) insertion_sort 2 double_to_uint ex_pick ex_race_cfg false ex_race_weight ex_race_loss 6 ones ex_race_y (Some ex_race_col) ex_race_p /\
  ireach wloc_dec ex_race_state s1 /\ ireach wloc_dec ex_race_state s2 /\ all_done (fst s1) /\ all_done (fst s2) /\
  grad_cell (snd s1) 3 <> grad_cell (snd s2) 3.
Proof.
  assert (T : forall is, ex_race is <> None -> exists s, exec wloc_dec is ex_race_state = Some s /\ ireach wloc_dec ex_race_state s /\
    ex_race is = Some (finished (fst s), map (fun r => option_map (fun d => (gg d, gh d)) (grad_cell (snd s) r)) (seq 0 6),
                       match snd s WGen with Some (WS k) => Some k | _ => None end)).
  { intros is H. unfold ex_race in *. destruct (exec wloc_dec is ex_race_state) as [s|] eqn:E; [|congruence].
    exists s. split; [reflexivity|]. split; [eapply exec_reach, E|reflexivity]. }
  destruct (T ex_first_a) as (s1 & _ & R1 & E1); [rewrite (proj1 C62_example); discriminate|].
  destruct (T ex_both) as (s2 & _ & R2 & E2); [rewrite (proj2 C62_example); discriminate|].
  rewrite (proj1 C62_example) in E1. rewrite (proj2 C62_example) in E2. exists s1, s2.
  pose proof (f_equal (option_map (fun x => fst (fst x))) E1) as F1. pose proof (f_equal (option_map (fun x => fst (fst x))) E2) as F2.
  pose proof (f_equal (option_map (fun x => nth 3 (snd (fst x)) None)) E1) as G1. pose proof (f_equal (option_map (fun x => nth 3 (snd (fst x)) None)) E2) as G2.
  cbn [option_map fst snd map seq nth] in F1, F2, G1, G2. injection F1 as F1. injection F2 as F2.
  assert (I : match pair_init (N := Ex) insertion_sort 2 ex_race_cfg 6 ones ex_race_y (Some ex_race_col) with Ret (inr _) => true | _ => false end = true)
    by (vm_compute; reflexivity).
  split; [constructor; unfold ex_race_p, ex_pair_start; destruct (pair_init _ _ _ _ _ _ _) as [[e|p]| |]; [discriminate|reflexivity|discriminate|discriminate]|]. split; [exact R1|]. split; [exact R2|].
  split; [apply finished_done; symmetry; exact F1|]. split; [apply finished_done; symmetry; exact F2|].
  intros X. rewrite X, <- G2 in G1. vm_compute in G1. discriminate G1.
Qed.
Print Assumptions C62_refuted.
