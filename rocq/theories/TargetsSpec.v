(** TargetsSpec.v - vocabulary for changes of the targets that a pairwise loss does not see. *)
From Coq Require Import Reals.
From Verif Require Import Base F32 Column Num Score SplitSpec Pairwise PairSpec.
Local Close Scope R_scope.

(** A sort that looks at nothing but comparisons of the elements it is given, like std::sort. *)
Definition compares_only (srt : (nat -> nat -> bool) -> list nat -> list nat) : Prop :=
  forall less less' l, (forall i j, In i l -> In j l -> less i j = less' i j) -> srt less l = srt less' l.

(** Two rows in one group *)
Definition together (n : nat) (col : option strcol) (i j : nat) : Prop :=
  exists rows rk, grouping n col rows /\ In rk rows /\ In i rk /\ In j rk.
(** Inside every group the targets [t] and [t'] have the same order ... *)
Definition ranked_alike (n : nat) (col : option strcol) (t t' : nat -> f32) : Prop :=
  forall i j, together n col i j -> fltb (t i) (t j) = fltb (t' i) (t' j).
(** ... or the same distances. *)
Definition spaced_alike (n : nat) (col : option strcol) (t t' : nat -> f32) : Prop :=
  forall i j, together n col i j -> (real_of (t i) - real_of (t j) = real_of (t' i) - real_of (t' j))%R.
