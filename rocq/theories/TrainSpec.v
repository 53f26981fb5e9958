(** TrainSpec.v - vocabulary for training. *)
From Coq Require Import SpecFloat Reals.
From Verif Require Import Base F32 Column DataStore Num Forest Config Score ScoreSpec Eval EvalSpec Split SplitSpec Tree TreeSpec Train.
Local Close Scope R_scope.

Section Spec.
Context {N : Num}.

(** What training works with: at least one thread, sorting functions and priority queues that do their job, a set
    that is iterated over completely, named columns with the rows of the store, a weight for every row, and a loss
    that keeps the size of the gradient vector. *)
Record training (v : view) (threads : nat) (top : nat -> nat -> list N -> nat)
    (srt : (nat -> nat -> bool) -> list nat -> list nat) (names : list str) (w : float_vector) (lf : loss N) : Prop := mkTraining {
  ts_threads : 1 <= threads;
  ts_tops : forall i, tops (top i);
  ts_sort : sorts srt;
  ts_order : forall l x, In x (v_order v l) <-> In x l;
  ts_cols : forall n col, In n names -> v_get v n = Some col -> c_name col = n /\ has_rows col (v_rows v);
  ts_weights : forall r, r < v_rows v -> exists x, w r = Ret x;
  ts_loss : forall s pos f gd x gd' s' pos', List.length f = v_rows v -> List.length gd = v_rows v ->
    l_round lf s pos f gd = Ret (x, gd', s', pos') -> List.length gd' = v_rows v
}.

(** A loss that can be used: Init returns, and every round returns, from the states that can arise. *)
Definition runs_through (rows : nat) (w y : float_vector) (lf : loss N) : Prop :=
  exists inv : l_state lf -> Prop,
    (forall group, exists r, l_init lf rows w y group = Ret r /\ forall s, r = inr s -> inv s) /\
    (forall s pos f gd, inv s -> List.length f = rows -> List.length gd = rows ->
       exists x gd' s' pos', l_round lf s pos f gd = Ret (x, gd', s', pos') /\ inv s').

(** No internal indices; splits only where there are children. *)
Definition no_index (sp : split N) : Prop := forall names idx, sp_cat sp = Some (names, idx) -> idx = [].
Fixpoint tidy (t : tree N) : Prop :=
  match t with
  | TNone => True
  | TNode _ sp l r => match sp with None => True | Some sp => present l = true /\ no_index sp end /\ tidy l /\ tidy r
  end.

(** The same split but for the internal indices; the same tree but for them and the splits of nodes without left child. *)
Definition same_split (a b : split N) : Prop :=
  sp_feature a = sp_feature b /\ sp_float a = sp_float b /\ sp_gain a = sp_gain b /\
  option_map fst (sp_cat a) = option_map fst (sp_cat b).
Inductive same_tree : tree N -> tree N -> Prop :=
| SameNone : same_tree TNone TNone
| SameNode s sp sp' l l' r r' :
    (present l = true -> match sp, sp' with Some a, Some b => same_split a b | None, None => True | _, _ => False end) ->
    same_tree l l' -> same_tree r r' -> same_tree (TNode s sp l r) (TNode s sp' l' r').

(** The trees of a base forest that are more than a constant. *)
Inductive kept : list (tree N) -> list (tree N) -> Prop :=
| KeptNil : kept [] []
| KeptConstant t base ts : t_left t = TNone -> kept base ts -> kept (t :: base) ts
| KeptTree t t' base ts : t_left t <> TNone -> same_tree t t' -> kept base ts -> kept (t :: base) (t' :: ts).

(** A base forest that can be evaluated on the store and does not depend on internal indices. *)
Fixpoint no_indices (t : tree N) : Prop :=
  match t with
  | TNone => True
  | TNode _ sp l r => match sp with None => True | Some sp => no_index sp end /\ no_indices l /\ no_indices r
  end.
Definition base_ok (v : view) (base : list (tree N)) : Prop :=
  forest_fits v base /\ (forall t, In t base -> no_indices t) /\
  forall t n, In t base -> EvalSpec.named n t -> exists c, v_get v n = Some c /\ col_status c = SOk.

(** The constants that the loss reports in the successive rounds from a state of the loop on, as long as rounds take place. *)
Section Trace.
Variables (v : view) (threads : nat) (top : nat -> nat -> list N -> nat) (draw : nat -> spec_float)
  (srt : (nat -> nat -> bool) -> list nat -> list nat) (w : float_vector) (features : list column) (c : config N)
  (lf : loss N).
Inductive reported : nat -> nat -> list nat * list N -> list (grad N) -> l_state lf -> nat -> list N -> Prop :=
| RepEnd i st gd ls pos : reported 0 i st gd ls pos []
| RepStop todo i st gd ls pos x gd' ls' pos' :
    l_round lf ls pos (snd st) gd = Ret (x, gd', ls', pos') -> nfinite x = false ->
    reported (S todo) i st gd ls pos [x]
| RepNext todo i st gd ls pos x gd' ls' pos1 t pos2 st' xs :
    l_round lf ls pos (snd st) gd = Ret (x, gd', ls', pos1) -> nfinite x = true ->
    fit_tree (top i) draw threads srt w gd' features c pos1 = Ret (t, pos2) ->
    add_tree_scores (v_get v) threads (apply_shrinkage (nfloat (cf_shrinkage c)) t) x st = Ret st' ->
    reported todo (S i) st' gd' ls' pos2 xs ->
    reported (S todo) i st gd ls pos (x :: xs).

(** The function values before the first and after every round, when all rounds take place. *)
Inductive values : nat -> nat -> list nat * list N -> list (grad N) -> l_state lf -> nat -> list (list N) -> Prop :=
| ValEnd i st gd ls pos : values 0 i st gd ls pos [snd st]
| ValNext todo i st gd ls pos x gd' ls' pos1 t pos2 st' fs :
    l_round lf ls pos (snd st) gd = Ret (x, gd', ls', pos1) -> nfinite x = true ->
    fit_tree (top i) draw threads srt w gd' features c pos1 = Ret (t, pos2) ->
    add_tree_scores (v_get v) threads (apply_shrinkage (nfloat (cf_shrinkage c)) t) x st = Ret st' ->
    values todo (S i) st' gd' ls' pos2 fs ->
    values (S todo) i st gd ls pos (snd st :: fs).
End Trace.
End Spec.
