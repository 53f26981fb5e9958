(** MetricsSpec.v - vocabulary for groups of rows and ranking metrics. *)
From Coq Require Import Reals.
From Verif Require Import Base F32 Num.

(** Cutting a list of rows into runs: consecutive rows with the same group, of greatest length. *)
Definition same_group {G A} (run : list (G * A)) : Prop := run <> [] /\ exists g, forall r, In r run -> fst r = g.
Definition runs {G A} (rows : list (G * A)) (parts : list (list (G * A))) : Prop :=
  concat parts = rows /\ Forall same_group parts /\
  forall before a b after x y, parts = before ++ a :: b :: after -> In x a -> In y b -> fst x <> fst y.

Local Open Scope R_scope.
(** The discount of rank [i], from 0 *)
Definition weight_of_rank (i : nat) : R := ln (12 / 5) / ln (INR i + 12 / 5).
(** The discounted sum, from rank [i], of the targets that count *)
Fixpoint discounted (counts : R -> bool) (i : nat) (targets : list R) : R :=
  match targets with [] => 0 | t :: ts => (if counts t then weight_of_rank i * t else 0) + discounted counts (S i) ts end.
Fixpoint total (l : list R) : R := match l with [] => 0 | x :: t => x + total t end.
(** A ranking: rows of a group by falling score; rows of equal score stay in their order. *)
Definition ranking (group sorted : list (R * R)) : Prop :=
  Permutation group sorted /\
  (forall i j a b, nth_error sorted i = Some a -> nth_error sorted j = Some b -> (i < j)%nat -> fst b <= fst a) /\
  (forall s, filter (fun x => if Req_EM_T (fst x) s then true else false) sorted = filter (fun x => if Req_EM_T (fst x) s then true else false) group).
(** The root of the mean squared difference *)
Definition rmse (scores responses : list R) : R :=
  sqrt (total (map (fun x => (fst x - snd x) * (fst x - snd x)) (combine scores responses)) / INR (List.length scores)).

(** The data lines of a file, with their line ends: without lines that start with '#' *)
Definition comment (l : str) : Prop := exists t, l = "#"%char :: t.
Definition line_end : ascii := ascii_of_nat 10.
Inductive data_file : str -> list str -> Prop :=
| FileEnd : data_file [] []
| FileLast l : l <> [] -> ~ In line_end l -> ~ comment l -> data_file l [l]
| FileLastComment l : ~ In line_end l -> comment l -> data_file l []
| FileLine l rest lines : ~ In line_end l -> ~ comment l -> data_file rest lines -> data_file (l ++ line_end :: rest) ((l ++ [line_end]) :: lines)
| FileComment l rest lines : ~ In line_end l -> comment l -> data_file rest lines -> data_file (l ++ line_end :: rest) lines.
