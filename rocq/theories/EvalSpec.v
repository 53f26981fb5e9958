(** EvalSpec.v - vocabulary for forest evaluation. *)
From Verif Require Import Base F32 Column DataStore Num Forest Score ScoreSpec Eval.

Section Spec.
Context {N : Num}.

(** Every tree of the forest can be evaluated on the store. *)
Definition forest_fits (v : view) (f : forest N) : Prop := Forall (tree_fits (v_get v) (v_rows v)) f.

(** The leaf scores of a row, tree by tree. *)
Definition leaves (v : view) (f : forest N) (row : nat) (ls : list N) : Prop :=
  Forall2 (fun t s => routes (v_get v) t row s) f ls.

(** x + (s_1 + c) + (s_2 + c) + ..., from left to right *)
Definition add_all (c x : N) (ls : list N) : N := fold_left (fun a s => nadd a (nadd s c)) ls x.

(** A vector holding the forest's predictions. *)
Definition predictions (v : view) (f : forest N) (scores : list N) : Prop :=
  List.length scores = v_rows v /\
  forall row ls, row < v_rows v -> leaves v f row ls -> nth_error scores row = Some (add_all n0 n0 ls).

(** [x] is the feature of a split of the tree (a split message of a leaf counts too). *)
Inductive named (x : str) : tree N -> Prop :=
| NamedHere s sp l r : sp_feature sp = x -> named x (TNode s (Some sp) l r)
| NamedLeft s sp l r : named x l -> named x (TNode s sp l r)
| NamedRight s sp l r : named x r -> named x (TNode s sp l r).

(** The store lists names in some order, without loss. *)
Definition reorders (v : view) : Prop := forall l x, In x (v_order v l) <-> In x l.
(** A name is a usable column. *)
Definition usable (v : view) (n : str) : Prop := exists c, v_get v n = Some c /\ col_status c = SOk.
(** The columns the splits of a forest name are usable. *)
Definition loads (v : view) (f : forest N) : Prop := forall t n, In t f -> named n t -> usable v n.
(** The error a column stands for. *)
Definition column_error (v : view) (n : str) (e : code) : Prop :=
  v_get v n = None /\ e = NOT_FOUND \/ exists c, v_get v n = Some c /\ col_status c = SErr e.

(** Checkpoint [p] of the list [points] is written for a forest of [T] trees: it is a tree count and larger than all
    checkpoints before it.  (After a checkpoint <= 0, checkpoint 1 is skipped.) *)
Definition written (points : list Z) (T : nat) (p : Z) : Prop :=
  (1 <= p <= Z.of_nat T)%Z /\
  exists before after, points = before ++ p :: after /\ (forall q, In q before -> (q < p)%Z) /\ (p = 1%Z -> before = []).
(** Nodes with children have a split. *)
Fixpoint nodes_split (t : tree N) : Prop :=
  match t with
  | TNone => True
  | TNode _ sp l r => (present l = true -> sp <> None) /\ nodes_split l /\ nodes_split r
  end.

End Spec.
