(** Subsampling.v - model of src/utils/subsampling.cc and vector_slice.h.  Definitions only. *)
From Coq Require Import SpecFloat.
From Verif Require Import Base F32.

(** CreateAllSamples (subsampling.cc:45-51) *)
Definition all_samples (n : nat) : list nat := seq 0 n.

(** ++group_sizes[i] for i < left (subsampling.cc:60-62) *)
Fixpoint bump (left : nat) (sizes : list nat) : res (list nat) :=
  match left with
  | O => Ret sizes
  | S k =>
      match sizes with
      | [] => Undef
      | s :: t => let! t' := bump k t in Ret (S s :: t')
      end
  end.

(** DivideSamplesHelper (subsampling.cc:53-64).  num_samples / num_groups is only evaluated inside the loop
    over the groups, num_samples % num_groups always: no groups is a division by zero.
    Simplification: num_samples >= 0 and num_groups >= 0 (a negative number of groups converts to a huge
    unsigned one and fails to allocate). *)
Definition divide_helper (num_samples num_groups : nat) : res (list nat) :=
  if num_groups =? 0 then Undef
  else bump (num_samples mod num_groups) (repeat (num_samples / num_groups) num_groups).

(** DivideSamples(int, int) (subsampling.cc:66-75): the loop over group_sizes *)
Fixpoint ranges (start : nat) (sizes : list nat) : list (nat * nat) :=
  match sizes with
  | [] => []
  | s :: t => (start, start + s) :: ranges (start + s) t
  end.
Definition divide_samples (num_samples num_groups : nat) : res (list (nat * nat)) :=
  let! sizes := divide_helper num_samples num_groups in Ret (ranges 0 sizes).

(** A VectorSlice (vector_slice.h:24-60) is a begin and an end position in an underlying vector; reading
    it yields that part of the vector. *)
Definition slice {A} (l : list A) (r : nat * nat) : list A := firstn (snd r - fst r) (skipn (fst r) l).

(** DivideSamples(VectorSlice, int) (subsampling.cc:77-89); the slices as lists of samples *)
Definition divide_slice (samples : list nat) (num_groups : nat) : res (list (list nat)) :=
  let! sizes := divide_helper (List.length samples) num_groups in
  Ret (map (slice samples) (ranges 0 sizes)).

(** VectorSliceToVector (src/utils/utils.cc:49-56) *)
Definition slice_to_vector (s : list nat) : list nat := fold_left (fun v i => v ++ [i]) s [].

(** UniformSubsample (subsampling.cc:34-43).  The generator and uniform_01_ are a stream of doubles, read from
    position [pos]; returns the samples and the new position.  The reserve call has no visible effect
    (its cast int(rate * n) is assumed not to overflow).  The draws and the rate are doubles. *)
Fixpoint subsample_loop (draw : nat -> spec_float) (pos : nat) (rate : spec_float) (i todo : nat) : list nat :=
  match todo with
  | O => []
  | S k =>
      if fltb (draw pos) rate then i :: subsample_loop draw (S pos) rate (S i) k
      else subsample_loop draw (S pos) rate (S i) k
  end.
Definition uniform_subsample (draw : nat -> spec_float) (pos n : nat) (rate : spec_float) : list nat * nat :=
  (subsample_loop draw pos rate 0 n, pos + n).

(** Reseed (subsampling.cc:30-32): the generator restarts; [stream seed] is the sequence of numbers drawn
    after seeding.  A sequence of calls: *)
Inductive sub_op := OpSeed (seed : Z) | OpSample (n : nat) (rate : spec_float).
Fixpoint run_sub (stream : Z -> nat -> spec_float) (ops : list sub_op) (st : Z * nat) : list (list nat) :=
  match ops with
  | [] => []
  | OpSeed s :: t => run_sub stream t (s, 0)
  | OpSample n rate :: t =>
      let (out, pos) := uniform_subsample (stream (fst st)) (snd st) n rate in
      out :: run_sub stream t (fst st, pos)
  end.
