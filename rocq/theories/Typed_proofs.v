(** Typed_proofs.v - programs that keep the type of every cell of the memory. *)
From Verif Require Import Base Par Score Num Forest Column DataStore Subsampling.

Section Typed.
Context {L V : Type}.
Variable dec : forall a b : L, {a = b} + {a <> b}.
Variable ty : L -> V -> Prop.

Inductive good {A} : prog L V A -> Prop :=
| GoodRet a : good (PRet a)
| GoodUndef : good PUndef
| GoodFatal : good PFatal
| GoodRead l k : (forall v, good (k v)) -> good (PRead l k)
| GoodWrite l v p : ty l v -> good p -> good (PWrite l v p).

Lemma good_bind {A B} (p : prog L V A) (k : A -> prog L V B) : good p -> (forall a, good (k a)) -> good (pbind p k).
Proof. induction 1; intros K; cbn [pbind]; try constructor; auto. Qed.
Lemma good_pres {A} (r : res A) : good (pres r).
Proof. destruct r; constructor. Qed.

Definition typed (m : mem L V) : Prop := forall l v, m l = Some v -> ty l v.

Lemma run_typed {A} (p : prog L V A) : good p -> forall m a m', typed m -> run dec p m = Ret (a, m') ->
  typed m' /\ forall l, m' l = None <-> m l = None.
Proof.
  induction 1 as [a0| | |l k _ IH|l v p T _ IH]; intros m a m' Tm E; cbn in E; try discriminate.
  - injection E as <- <-. split; [exact Tm|reflexivity].
  - destruct (m l) as [v|] eqn:M; [|discriminate]. eapply IH; eassumption.
  - destruct (m l) as [v0|] eqn:M; [|discriminate]. destruct (IH (upd dec m l v) a m') as [T' D]; [|exact E|].
    + intros x y. unfold upd. destruct (dec x l) as [->|]; [intros [= <-]; exact T|apply Tm].
    + split; [exact T'|]. intros x. rewrite D. unfold upd. destruct (dec x l) as [->|]; [rewrite M; split; discriminate|reflexivity].
Qed.

Lemma tasks_typed (ps : list (prog L V unit)) : Forall good ps -> forall m m', typed m -> run_tasks dec ps m = Ret m' ->
  typed m' /\ forall l, m' l = None <-> m l = None.
Proof.
  induction 1 as [|p ps G _ IH]; intros m m' T E; cbn in E; [injection E as <-; split; [exact T|reflexivity]|].
  destruct (run dec p m) as [[u m1]| |] eqn:R; [|discriminate..]. cbn [bind] in E.
  destruct (run_typed p G m u m1 T R) as [T1 D1]. destruct (IH m1 m' T1 E) as [T' D']. split; [exact T'|].
  intros l. rewrite D', D1. reflexivity.
Qed.
End Typed.

(** ** The programs of AddTreeScores *)
Section Score.
Context {N : Num}.
Definition score_ty (l : sloc) (x : @sval N) : Prop := match l, x with inl _, inl _ | inr _, inr _ => True | _, _ => False end.
Notation good := (good score_ty).

Lemma good_get_sample i : good (get_sample (N := N) i).
Proof. constructor. intros [s|x]; constructor. Qed.
Lemma good_set_sample i s : good (set_sample (N := N) i s).
Proof. repeat constructor. Qed.
Lemma good_get_score i : good (get_score (N := N) i).
Proof. constructor. intros [s|x]; constructor. Qed.
Lemma good_set_score i (x : N) : good (set_score i x).
Proof. repeat constructor. Qed.

Lemma good_part goes start todo : forall i k, good (part_loop (N := N) goes start i todo k).
Proof.
  induction todo as [|todo IH]; intros i k; cbn [part_loop]; [constructor|].
  apply good_bind; [apply good_get_sample|]. intros s. apply good_bind; [apply good_pres|]. intros [|]; [|apply IH].
  apply good_bind; [apply good_get_sample|]. intros x. apply good_bind; [apply good_get_sample|]. intros y.
  apply good_bind; [apply good_set_sample|]. intros _. apply good_bind; [apply good_set_sample|]. intros _. apply IH.
Qed.
Lemma good_partition c (sp : split N) start len : good (partition c sp start len).
Proof.
  unfold partition. destruct (c_body c); try constructor;
    (apply good_bind; [apply good_pres|intros _; apply good_part]).
Qed.
Lemma good_leaf (x : N) todo : forall start, good (leaf_loop x start todo).
Proof.
  induction todo as [|todo IH]; intros start; cbn [leaf_loop]; [constructor|].
  apply good_bind; [apply good_get_sample|]. intros s. apply good_bind; [apply good_get_score|]. intros y.
  apply good_bind; [apply good_set_score|]. intros _. apply IH.
Qed.
Lemma good_tree store (t : tree N) k : forall start len, good (add_sample_tree_scores store t k start len).
Proof.
  induction t as [|s sp l IHl r IHr]; intros start len; [apply good_leaf|].
  assert (forall c, good (do! j := partition c (the_split sp) start len in
    do! _ := add_sample_tree_scores store l k start j in add_sample_tree_scores store r k (start + j) (len - j))) as G.
  { intros c. apply good_bind; [apply good_partition|]. intros j. apply good_bind; [apply IHl|]. intros _. apply IHr. }
  cbn [add_sample_tree_scores]. destruct l; [apply good_leaf|].
  destruct (store (sp_feature (the_split sp))); [apply G|constructor].
Qed.

Lemma read_samples_length (m : mem sloc (@sval N)) : forall todo i, (forall j, i <= j < i + todo -> exists s, m (inl j) = Some (inl s)) ->
  List.length (read_samples m i todo) = todo.
Proof.
  induction todo as [|todo IH]; intros i H; cbn [read_samples]; [reflexivity|].
  destruct (H i ltac:(lia)) as [s ->]. cbn. rewrite IH; [reflexivity|]. intros j J. apply H. lia.
Qed.
Lemma read_scores_length (m : mem sloc (@sval N)) : forall todo i, (forall j, i <= j < i + todo -> exists s, m (inr j) = Some (inr s)) ->
  List.length (read_scores m i todo) = todo.
Proof.
  induction todo as [|todo IH]; intros i H; cbn [read_scores]; [reflexivity|].
  destruct (H i ltac:(lia)) as [s ->]. cbn. rewrite IH; [reflexivity|]. intros j J. apply H. lia.
Qed.

Lemma scores_length store threads (t : tree N) k st st' : add_tree_scores store threads t k st = Ret st' ->
  List.length (fst st') = List.length (fst st) /\ List.length (snd st') = List.length (snd st).
Proof.
  destruct st as [samples scores]. unfold add_tree_scores.
  destruct (score_slices (List.length samples) threads) as [slices| |]; [|discriminate..]. cbn [bind].
  destruct (run_tasks sloc_dec _ _) as [m| |] eqn:R; [|discriminate..]. cbn [bind]. intros [= <-]. cbn [fst snd].
  destruct (tasks_typed sloc_dec score_ty (score_tasks store t k slices)) with (m := score_mem samples scores) (m' := m) as [T D]; [| |exact R|].
  - apply Forall_forall. intros p I. apply in_map_iff in I. destruct I as (r & <- & _). apply good_tree.
  - intros [i|i] v; cbn; [destruct (nth_error samples i)|destruct (nth_error scores i)]; intros [= <-]; exact I.
  - split; [apply read_samples_length|apply read_scores_length]; intros j J.
    + destruct (m (inl j)) as [[s|x]|] eqn:M; [eauto|destruct (T _ _ M)|]. apply D in M. cbn in M.
      destruct (nth_error samples j) eqn:E; [discriminate|]. apply nth_error_None in E. lia.
    + destruct (m (inr j)) as [[s|x]|] eqn:M; [destruct (T _ _ M)|eauto|]. apply D in M. cbn in M.
      destruct (nth_error scores j) eqn:E; [discriminate|]. apply nth_error_None in E. lia.
Qed.
End Score.
