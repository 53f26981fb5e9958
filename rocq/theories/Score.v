(** Score.v - model of Partition (src/gbdt_algo/split_algo.cc:35-90), compute_tree_scores.cc and
    evaluation.cc.  Definitions only. *)
From Verif Require Import Base F32 Column DataStore Subsampling Num Forest Par.

Section Score.
Context {N : Num}.

(** Shared memory of a scoring run: the sample vector and the score vector. *)
Definition sloc := (nat + nat)%type.
Definition sval := (nat + N)%type.
Definition sloc_dec : forall a b : sloc, {a = b} + {a <> b}.
Proof. decide equality; apply Nat.eq_dec. Defined.
Notation prog := (prog sloc sval).

Definition get_sample (i : nat) : prog nat :=
  PRead (inl i) (fun v => match v with inl s => PRet s | inr _ => PUndef end).
Definition set_sample (i s : nat) : prog unit := PWrite (inl i) (inl s) (PRet tt).
Definition get_score (i : nat) : prog N :=
  PRead (inr i) (fun v => match v with inr x => PRet x | inl _ => PUndef end).
Definition set_score (i : nat) (x : N) : prog unit := PWrite (inr i) (inr x) (PRet tt).

(** The set `categories` (split_algo.cc:58-69): int32 indices become uint. *)
Definition split_categories (c : strcol) (cat : list str * list Z) : list Z :=
  match snd cat with
  | [] => flat_map (fun n => match str_cat_index c n with Some k => [k] | None => [] end) (fst cat)
  | idx => map u32 idx
  end.

(** CHECK on the kind of split (37, 54) and the dereference of col_ (41, 71). *)
Definition split_check (c : column) (sp : split N) : res unit :=
  match c_body c with
  | BodyB b => match sp_float sp with None => Fatal | Some _ => let! _ := icol_vec (b_ints b) in Ret tt end
  | BodyS s => match sp_cat sp with None => Fatal | Some _ => let! _ := icol_vec (s_ints s) in Ret tt end
  | BodyR _ => Ret tt
  end.

(** The condition of the loops (43-44, 74); a raw float column sends nothing left (88). *)
Definition go_left (c : column) (sp : split N) (row : nat) : res bool :=
  match c_body c with
  | BodyB b =>
      match sp_float sp with
      | None => Fatal
      | Some (threshold, missing_to_right) =>
          let! missing := b_missing b row in
          if missing then Ret (negb missing_to_right)
          else let! x := b_row_max b row in Ret (fltb x threshold)
      end
  | BodyS s =>
      match sp_cat sp with
      | None => Fatal
      | Some cat =>
          let! k := icol_get (s_ints s) row in Ret (existsb (Z.eqb k) (split_categories s cat))
      end
  | BodyR _ => Ret false
  end.

(** The loop (42-47, 73-76) on the slice of the sample vector that starts at [start]. *)
Fixpoint part_loop (goes : nat -> res bool) (start i todo left_size : nat) : prog nat :=
  match todo with
  | O => PRet left_size
  | S k =>
      do! s := get_sample (start + i) in
      do! b := pres (goes s) in
      if b then
        do! x := get_sample (start + i) in
        do! y := get_sample (start + left_size) in
        do! _ := set_sample (start + i) y in
        do! _ := set_sample (start + left_size) x in
        part_loop goes start (S i) k (S left_size)
      else part_loop goes start (S i) k left_size
  end.

(** Partition (81-90): the size of the left slice *)
Definition partition (c : column) (sp : split N) (start len : nat) : prog nat :=
  match c_body c with
  | BodyR _ => PRet 0
  | _ => do! _ := pres (split_check c sp) in part_loop (go_left c sp) start 0 len 0
  end.

(** for (index : samples) scores[index] += v (compute_tree_scores.cc:45-47) *)
Fixpoint leaf_loop (v : N) (start todo : nat) : prog unit :=
  match todo with
  | O => PRet tt
  | S k =>
      do! s := get_sample start in
      do! x := get_score s in
      do! _ := set_score s (nadd x v) in
      leaf_loop v (S start) k
  end.

(** AddSampleTreeScores (compute_tree_scores.cc:32-49).  [store] is GetColumn; the features are loaded before
    scoring starts (see property C19 for lazily loading stores). *)
Fixpoint add_sample_tree_scores (store : str -> option column) (t : tree N) (constant : N) (start len : nat)
  : prog unit :=
  match t with
  | TNone => leaf_loop (nadd n0 constant) start len
  | TNode score sp l r =>
      match l with
      | TNone => leaf_loop (nadd score constant) start len
      | TNode _ _ _ _ =>
          match store (sp_feature (the_split sp)) with
          | None => PFatal
          | Some c =>
              do! k := partition c (the_split sp) start len in
              do! _ := add_sample_tree_scores store l constant start k in
              add_sample_tree_scores store r constant (start + k) (len - k)
          end
      end
  end.

(** ComputeTreeScores (51-55): the sample vector and its slices; num_threads is an int, here not negative. *)
Definition score_slices (num_rows num_threads : nat) : res (list (nat * nat)) :=
  divide_samples num_rows (num_threads * 5).

(** AddTreeScores (57-68): one task per slice *)
Definition score_tasks (store : str -> option column) (t : tree N) (constant : N) (slices : list (nat * nat))
  : list (prog unit) :=
  map (fun r => add_sample_tree_scores store t constant (fst r) (snd r - fst r)) slices.

Definition score_mem (samples : list nat) (scores : list N) : mem sloc sval :=
  fun l => match l with
           | inl i => option_map inl (nth_error samples i)
           | inr i => option_map inr (nth_error scores i)
           end.

(** Reading the two vectors back. *)
Fixpoint read_samples (m : mem sloc sval) (i todo : nat) : list nat :=
  match todo with
  | O => []
  | S k => match m (inl i) with Some (inl s) => s :: read_samples m (S i) k | _ => [] end
  end.
Fixpoint read_scores (m : mem sloc sval) (i todo : nat) : list N :=
  match todo with
  | O => []
  | S k => match m (inr i) with Some (inr x) => x :: read_scores m (S i) k | _ => [] end
  end.

(** AddTreeScores as a function of the vectors (sequential schedule; property C26 shows that the schedule does not
    matter). *)
Definition add_tree_scores (store : str -> option column) (num_threads : nat) (t : tree N) (constant : N)
    (st : list nat * list N) : res (list nat * list N) :=
  let (samples, scores) := st in
  let! slices := score_slices (List.length samples) num_threads in
  let! m := run_tasks sloc_dec (score_tasks store t constant slices) (score_mem samples scores) in
  Ret (read_samples m 0 (List.length samples), read_scores m 0 (List.length scores)).
End Score.
