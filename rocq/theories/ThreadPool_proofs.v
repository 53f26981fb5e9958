From Verif Require Import Base Base_proofs ThreadPool.

(** *** counting workers *)
Definition cnt (f : worker -> nat) (ws : list worker) : nat := list_sum (map f ws).

Lemma cnt_cons f w ws : cnt f (w :: ws) = f w + cnt f ws.
Proof. reflexivity. Qed.
Lemma cnt_set f ws : forall i w w', nth_error ws i = Some w ->
  cnt f (set_nth i w' ws) + f w = cnt f ws + f w'.
Proof.
  induction ws as [|x ws IH]; intros [|i] w w' E; try discriminate; cbn [set_nth]; rewrite !cnt_cons.
  - injection E as ->. lia.
  - specialize (IH i w w' E). lia.
Qed.
Lemma cnt_zero f ws : cnt f ws = 0 <-> forall i w, nth_error ws i = Some w -> f w = 0.
Proof.
  induction ws as [|x ws IH].
  - split; auto. intros _ i w E. destruct i; discriminate.
  - rewrite cnt_cons. split.
    + intros H [|i] w E; [injection E as <-; lia|]. apply (proj1 IH ltac:(lia) i). exact E.
    + intros H. pose proof (H 0 x eq_refl). assert (cnt f ws = 0); [|lia].
      apply IH. intros i w E. exact (H (S i) w E).
Qed.
Lemma cnt_pos f ws i w : nth_error ws i = Some w -> f w <= cnt f ws.
Proof.
  revert i. induction ws as [|x ws IH]; intros [|i] E; try discriminate; rewrite cnt_cons.
  - injection E as ->. lia.
  - specialize (IH i E). lia.
Qed.

Definition isT (w : worker) : nat := match w with Testing => 1 | _ => 0 end.
Definition isW (w : worker) : nat := match w with Waiting => 1 | _ => 0 end.
Definition isX (w : worker) : nat := match w with Exited => 1 | _ => 0 end.
Definition runs_of (w : worker) : list task_id := match w with Runs t => [t] | _ => [] end.
Definition running (ws : list worker) : list task_id := concat (map runs_of ws).
Local Arguments running : simpl never.
Local Arguments cnt : simpl never.

Lemma running_set ws : forall i w w', nth_error ws i = Some w ->
  Permutation (runs_of w ++ running (set_nth i w' ws)) (runs_of w' ++ running ws).
Proof.
  unfold running. induction ws as [|x ws IH]; intros [|i] w w' E; try discriminate; cbn [set_nth map concat].
  - injection E as ->. apply Permutation_app_swap_app.
  - specialize (IH i w w' E).
    eapply perm_trans; [apply Permutation_app_swap_app|]. eapply perm_trans; [|apply Permutation_app_swap_app].
    apply Permutation_app_head. auto.
Qed.

Definition todo (o : owner) : list task_id :=
  match o with Enqueuing ts | Notifying ts => ts | _ => [] end.
Definition pend (o : owner) : nat := match o with Notifying _ => 1 | _ => 0 end.

(** The invariant: with [n] workers and all tasks [ts]. *)
Record pinv (n : nat) (ts : list task_id) (p : pool) : Prop := mkInv {
  i_len : List.length (p_workers p) = n;
  i_order : p_started p ++ p_queue p ++ todo (p_owner p) = ts;
  i_fin : Permutation (p_started p) (p_finished p ++ running (p_workers p));
  i_shut : p_shutdown p = match p_owner p with Enqueuing _ | Notifying _ => false | _ => true end;
  (* no lost wake-up *)
  i_wake : cnt isW (p_workers p) = 0 \/ List.length (p_queue p) <= cnt isT (p_workers p) + pend (p_owner p);
  (* after notify_all nobody waits *)
  i_awake : match p_owner p with Joining _ | Returned => cnt isW (p_workers p) = 0 | _ => True end;
  (* somebody exits only after the queue is drained *)
  i_exit : 0 < cnt isX (p_workers p) -> p_shutdown p = true /\ p_queue p = [];
  i_join : forall j, match p_owner p with
             | Joining i => j < i -> nth_error (p_workers p) j = Some Exited
             | Returned => j < n -> nth_error (p_workers p) j = Some Exited
             | _ => True end;
  i_joinlen : match p_owner p with Joining i => i <= n | _ => True end
}.

Lemma pinv_init n ts : pinv n ts (pool_init n ts).
Proof.
  assert (H0 : forall f, f Testing = 0 -> cnt f (repeat Testing n) = 0).
  { intros f H. apply cnt_zero. intros i w E. apply nth_error_In, repeat_spec in E. subst. auto. }
  constructor; cbn.
  - apply repeat_length.
  - auto.
  - assert (running (repeat Testing n) = []) as ->; auto. unfold running. clear. induction n; cbn; auto.
  - auto.
  - left. auto.
  - auto.
  - rewrite H0 by auto. lia.
  - auto.
  - auto.
Qed.

Lemma map_wake_cnt f ws : cnt f (map wake ws) = cnt (fun w => f (wake w)) ws.
Proof. unfold cnt. rewrite map_map. auto. Qed.
Lemma running_wake ws : running (map wake ws) = running ws.
Proof.
  unfold running. rewrite map_map. f_equal. apply map_ext. intros []; auto.
Qed.

Lemma cnt_ext f g ws : (forall w, f w = g w) -> cnt f ws = cnt g ws.
Proof. intros H. unfold cnt. f_equal. apply map_ext. auto. Qed.

Ltac pset H w' := pose proof (cnt_set isW _ _ _ w' H); pose proof (cnt_set isT _ _ _ w' H);
  pose proof (cnt_set isX _ _ _ w' H); pose proof (running_set _ _ _ w' H); cbn [isW isT isX runs_of app] in *.

Lemma exited_stays ws i w w' j : nth_error ws i = Some w -> w <> Exited ->
  nth_error ws j = Some Exited -> nth_error (set_nth i w' ws) j = Some Exited.
Proof.
  intros E N H. destruct (Nat.eq_dec i j) as [->|]; [congruence|]. rewrite nth_error_set_nth_ne; auto.
Qed.

Lemma pinv_step n ts p p' : pinv n ts p -> pstep p p' \/ pspurious p p' -> pinv n ts p'.
Proof.
  intros [I1 I2 I3 I4 I5 I6 I7 I8 I9] St.
  destruct St as [St|St]; [destruct St|destruct St]; cbn in *.
  - constructor; cbn; auto.
    + rewrite <- app_assoc. auto.
    + rewrite app_length. cbn. lia.
    + intros X. destruct (I7 X). congruence.
  - pset H Testing. constructor; cbn; auto.
    + rewrite set_nth_length. auto.
    + rewrite H3. auto.
    + right. pose proof (cnt_pos isW _ _ _ H). cbn in *. lia.
    + intros X. apply I7. lia.
  - constructor; cbn; auto. left. apply cnt_zero. intros i w E. destruct w; auto. destruct (H i E).
  - subst sd. constructor; cbn; auto.
    intros X. destruct (I7 X). congruence.
  - constructor; cbn; auto.
    + rewrite map_length. auto.
    + rewrite running_wake. auto.
    + left. rewrite map_wake_cnt. apply cnt_zero. intros i []; auto.
    + rewrite map_wake_cnt. apply cnt_zero. intros i []; auto.
    + rewrite map_wake_cnt. rewrite (cnt_ext _ isX) by (intros []; auto). auto.
    + intros j X. lia.
    + lia.
  - constructor; cbn; auto.
    + intros j L. destruct (Nat.eq_dec j i) as [->|]; auto. apply I8. lia.
    + assert (i < List.length ws) by (apply nth_error_Some; congruence). lia.
  - constructor; cbn; auto. intros j L. apply I8. lia.
  - pset H Waiting. constructor; cbn; auto.
    + rewrite set_nth_length. auto.
    + rewrite H3. auto.
    + right. lia.
    + destruct o; auto; discriminate.
    + intros X. apply I7. lia.
    + intros j. specialize (I8 j). destruct o; auto; intros L; eapply exited_stays; eauto; discriminate.
  - pset H Exited. constructor; cbn; auto.
    + rewrite set_nth_length. auto.
    + rewrite H3. auto.
    + right. lia.
    + destruct o; auto; lia.
    + intros j. specialize (I8 j). destruct o; auto; intros L; eapply exited_stays; eauto; discriminate.
  - pset H (Runs t). constructor; cbn; auto.
    + rewrite set_nth_length. auto.
    + rewrite <- app_assoc. auto.
    + rewrite H3, <- Permutation_middle, <- Permutation_middle, app_nil_r.
      apply perm_skip. auto.
    + destruct I5 as [I5|I5]; [left; lia|right; cbn in *; lia].
    + destruct o; auto; lia.
    + intros X. destruct (I7 ltac:(lia)). discriminate.
    + intros j. specialize (I8 j). destruct o; auto; intros L; eapply exited_stays; eauto; discriminate.
  - pset H Testing. constructor; cbn; auto.
    + rewrite set_nth_length. auto.
    + rewrite I3. rewrite <- app_assoc. cbn. apply Permutation_app_head, Permutation_sym. auto.
    + destruct I5 as [I5|I5]; [left; lia|right; cbn in *; lia].
    + destruct o; auto; lia.
    + intros X. apply I7. lia.
    + intros j. specialize (I8 j). destruct o; auto; intros L; eapply exited_stays; eauto; discriminate.
  - pset H Testing. constructor; cbn; auto.
    + rewrite set_nth_length. auto.
    + rewrite H3. auto.
    + destruct I5 as [I5|I5]; [left; lia|right; cbn in *; lia].
    + destruct o; auto; lia.
    + intros X. apply I7. lia.
    + intros j. specialize (I8 j). destruct o; auto; intros L; eapply exited_stays; eauto; discriminate.
Qed.

Lemma pinv_reach n ts s k p p' : pinv n ts p -> preach s k p p' -> pinv n ts p'.
Proof.
  intros I R. induction R as [|s k p1 p2 p3 R IH St|s k p1 p2 p3 R IH St]; auto;
    (eapply pinv_step; [exact (IH I)|auto]).
Qed.

Lemma pool_returned n ts s k p : 0 < n -> preach s k (pool_init n ts) p -> p_owner p = Returned ->
  p_started p = ts /\ Permutation (p_finished p) ts /\ p_queue p = [] /\
  forall w, In w (p_workers p) -> w = Exited.
Proof.
  intros N R E. destruct (pinv_reach _ _ _ _ _ _ (pinv_init n ts) R) as [I1 I2 I3 I4 I5 I6 I7 I8 I9].
  rewrite E in *. cbn in *.
  assert (Hw : forall w, In w (p_workers p) -> w = Exited).
  { intros w Hw. apply In_nth_error in Hw. destruct Hw as [j Hj].
    assert (j < n) by (rewrite <- I1; apply nth_error_Some; congruence).
    rewrite (I8 j H) in Hj. congruence. }
  assert (Hx : p_queue p = []).
  { apply I7. pose proof (cnt_pos isX _ _ _ (I8 0 N)). cbn in *. lia. }
  assert (Hr : running (p_workers p) = []).
  { unfold running. clear - Hw. induction (p_workers p) as [|w ws IH]; auto. cbn.
    rewrite (Hw w (or_introl eq_refl)). cbn. apply IH. intros; apply Hw; cbn; auto. }
  rewrite Hx, !app_nil_r in *. rewrite Hr, app_nil_r in I3. rewrite <- I2 in *.
  split; auto. split; auto. apply Permutation_sym. auto.
Qed.

Lemma pool_order n ts s k p : preach s k (pool_init n ts) p ->
  (exists rest, p_started p ++ rest = ts) /\
  exists cur, Permutation (p_started p) (p_finished p ++ cur) /\
    forall t, In t cur <-> exists i, nth_error (p_workers p) i = Some (Runs t).
Proof.
  intros R. destruct (pinv_reach _ _ _ _ _ _ (pinv_init n ts) R) as [I1 I2 I3 I4 I5 I6 I7 I8 I9]. split; eauto.
  exists (running (p_workers p)). split; auto. intros t. unfold running. rewrite in_concat. split.
  - intros (l & Hl & Ht). apply in_map_iff in Hl. destruct Hl as (w & <- & Hw).
    destruct w; cbn in Ht; try tauto. destruct Ht as [->|[]]. apply In_nth_error in Hw. auto.
  - intros [i E]. exists [t]. split; [|cbn; auto]. apply in_map_iff. exists (Runs t). split; auto.
    eapply nth_error_In; eauto.
Qed.

(** *** no deadlock *)
Lemma find_worker (f : worker -> bool) ws : (exists i w, nth_error ws i = Some w /\ f w = true) \/
  (forall i w, nth_error ws i = Some w -> f w = false).
Proof.
  induction ws as [|x ws IH].
  - right. intros i w E. destruct i; discriminate.
  - destruct (f x) eqn:E; [left; exists 0, x; auto|].
    destruct IH as [(i & w & H)|H]; [left; exists (S i), w; auto|].
    right. intros [|i] w Ew; [cbn in Ew; congruence|]. exact (H i w Ew).
Qed.

Lemma busy_steps p i w : nth_error (p_workers p) i = Some w -> w <> Waiting -> w <> Exited -> exists p', pstep p p'.
Proof.
  intros E N1 N2. destruct p as [o ws q sd st fi]. cbn in E. destruct w; try congruence.
  - destruct q as [|t q].
    + destruct sd; eexists; [eapply PWExit; eauto|eapply PWWait; eauto].
    + eexists. eapply PWTake; eauto.
  - eexists. eapply PWFinish; eauto.
Qed.

Lemma pool_no_deadlock n ts s k p : preach s k (pool_init n ts) p -> p_owner p <> Returned -> exists p', pstep p p'.
Proof.
  intros R N. destruct (pinv_reach _ _ _ _ _ _ (pinv_init n ts) R) as [I1 I2 I3 I4 I5 I6 I7 I8 I9].
  destruct p as [o ws q sd st fi]. cbn in *. destruct o as [[|t l]|l| |i|]; try congruence.
  - eexists. apply POShut.
  - eexists. apply POPush.
  - destruct (find_worker (fun w => match w with Waiting => true | _ => false end) ws) as [(i & w & E & F)|H].
    + destruct w; try discriminate. eexists. eapply PONotify; eauto.
    + eexists. apply PONotifyNone. intros i E. specialize (H i Waiting E). discriminate.
  - eexists. apply PONotifyAll.
  - destruct (Nat.eq_dec i n) as [->|Ne].
    + subst n. eexists. apply POReturn.
    + destruct (nth_error ws i) as [w|] eqn:E; [|apply nth_error_None in E; lia].
      destruct w.
      * eapply busy_steps; cbn; eauto; discriminate.
      * exfalso. pose proof (cnt_pos isW _ _ _ E). cbn in *. lia.
      * eapply busy_steps; cbn; eauto; discriminate.
      * eexists. eapply POJoin; eauto.
Qed.

(** If a task is queued, a worker sleeps only if every queued task has an awake worker that is about to look
    at the queue (or the owner is just about to wake one). *)
Lemma pool_no_lost_wakeup n ts s k p : 0 < n -> preach s k (pool_init n ts) p ->
  (exists i, nth_error (p_workers p) i = Some Waiting) ->
  List.length (p_queue p) <= List.length (filter (fun w => match w with Testing => true | _ => false end) (p_workers p))
    + match p_owner p with Notifying _ => 1 | _ => 0 end.
Proof.
  intros N R [i E]. destruct (pinv_reach _ _ _ _ _ _ (pinv_init n ts) R) as [I1 I2 I3 I4 I5 I6 I7 I8 I9].
  assert (Hc : cnt isT (p_workers p) = List.length (filter (fun w => match w with Testing => true | _ => false end) (p_workers p))).
  { clear. induction (p_workers p) as [|w ws IH]; auto. rewrite cnt_cons, IH. destruct w; auto. }
  rewrite <- Hc. destruct I5 as [I5|I5]; auto. pose proof (cnt_pos isW _ _ _ E). cbn in *. lia.
Qed.

(** *** termination *)
Definition wcost (w : worker) : nat := match w with Testing => 1 | Runs _ => 2 | _ => 0 end.
Definition ocost (n : nat) (o : owner) : nat :=
  match o with
  | Enqueuing ts => 2 * List.length ts + n + 3
  | Notifying ts => 2 * List.length ts + n + 4
  | NotifyingAll => n + 2
  | Joining i => S (n - i)
  | Returned => 0
  end.
Definition pmeasure (p : pool) : nat :=
  let n := List.length (p_workers p) in
  (n + 3) * ocost n (p_owner p) + 2 * List.length (p_queue p) + cnt wcost (p_workers p).

Lemma cnt_le f g ws c : (forall w, f w <= g w + c) -> cnt f ws <= cnt g ws + c * List.length ws.
Proof.
  intros H. induction ws as [|w ws IH]; [unfold cnt; cbn; lia|]. rewrite !cnt_cons. cbn [List.length]. specialize (H w). rewrite Nat.mul_succ_r. lia.
Qed.

Lemma mul_le_plus a b c : b < c -> a * b + a <= a * c.
Proof. nia. Qed.

Lemma pstep_measure p p' : pstep p p' -> (match p_owner p with Joining i => i <= List.length (p_workers p) | _ => True end) ->
  pmeasure p' < pmeasure p.
Proof.
  intros St I. destruct St; unfold pmeasure; cbn [p_owner p_workers p_queue] in *; rewrite ?set_nth_length, ?map_length, ?app_length;
    try (pose proof (cnt_set wcost _ _ _ Testing H));
    try (pose proof (cnt_set wcost _ _ _ Waiting H)); try (pose proof (cnt_set wcost _ _ _ Exited H));
    try (pose proof (cnt_set wcost _ _ _ (Runs t) H)); cbn [wcost List.length] in *; try lia.
  - set (m := List.length ws). pose proof (mul_le_plus (m + 3) (ocost m (Notifying ts)) (ocost m (Enqueuing (t :: ts)))).
    cbn [ocost List.length] in *. lia.
  - set (m := List.length ws) in *. pose proof (mul_le_plus (m + 3) (ocost m (Enqueuing ts)) (ocost m (Notifying ts))).
    cbn [ocost List.length] in *. lia.
  - set (m := List.length ws) in *. pose proof (mul_le_plus (m + 3) (ocost m (Enqueuing ts)) (ocost m (Notifying ts))).
    cbn [ocost List.length] in *. lia.
  - set (m := List.length ws) in *. pose proof (mul_le_plus (m + 3) (ocost m NotifyingAll) (ocost m (Enqueuing []))).
    cbn [ocost List.length] in *. lia.
  - set (m := List.length ws) in *. pose proof (mul_le_plus (m + 3) (ocost m (Joining 0)) (ocost m NotifyingAll)).
    rewrite map_wake_cnt. pose proof (cnt_le (fun w => wcost (wake w)) wcost ws 1) as Hc.
    cbn [ocost List.length] in *. assert (forall w, wcost (wake w) <= wcost w + 1) by (intros []; cbn; lia).
    specialize (Hc H0). fold m in Hc. lia.
  - set (m := List.length ws) in *. pose proof (mul_le_plus (m + 3) (ocost m (Joining (S i))) (ocost m (Joining i))).
    assert (i < m) by (apply nth_error_Some; congruence).
    cbn [ocost List.length] in *. lia.
  - set (m := List.length ws) in *. pose proof (mul_le_plus (m + 3) (ocost m Returned) (ocost m (Joining m))).
    cbn [ocost List.length] in *. lia.
Qed.

Lemma pspur_measure p p' : pspurious p p' -> pmeasure p' = S (pmeasure p).
Proof.
  intros St. destruct St. unfold pmeasure; cbn [p_owner p_workers p_queue] in *; rewrite ?set_nth_length.
  pose proof (cnt_set wcost _ _ _ Testing H). cbn [wcost] in *. lia.
Qed.

Lemma pool_terminates n ts s k p : preach s k (pool_init n ts) p ->
  s + pmeasure p <= pmeasure (pool_init n ts) + k.
Proof.
  intros R. assert (H : s + pmeasure p <= pmeasure (pool_init n ts) + k /\ pinv n ts p); [|tauto].
  remember (pool_init n ts) as p0 eqn:E0. revert E0.
  induction R as [|s k p1 p2 p3 R IH St|s k p1 p2 p3 R IH St]; intros E0.
  - subst. split; [lia|apply pinv_init].
  - destruct (IH E0) as [M I]. split; [|eapply pinv_step; eauto].
    assert (pmeasure p3 < pmeasure p2); [|lia]. apply pstep_measure; auto.
    destruct I as [I1 _ _ _ _ _ _ _ I9]. rewrite I1. auto.
  - destruct (IH E0) as [M I]. split; [|eapply pinv_step; eauto].
    rewrite (pspur_measure _ _ St). lia.
Qed.

Lemma pool_bound n ts : pmeasure (pool_init n ts) = (n + 3) * (2 * List.length ts + n + 3) + n.
Proof.
  unfold pmeasure, pool_init. cbn [p_owner p_workers p_queue List.length]. rewrite repeat_length.
  assert (cnt wcost (repeat Testing n) = n) as ->; [|cbn [ocost]; lia].
  induction n as [|n IH]; auto. cbn [repeat]. rewrite cnt_cons, IH. auto.
Qed.

Lemma pool_zero ts s k p : preach s k (pool_init 0 ts) p -> p_started p = [] /\ p_finished p = [].
Proof.
  intros R. destruct (pinv_reach _ _ _ _ _ _ (pinv_init 0 ts) R) as [I1 _ _ _ _ _ _ _ _].
  assert (H : p_workers p = [] -> p_started p = [] /\ p_finished p = []).
  { remember (pool_init 0 ts) as p0 eqn:E0. clear I1. revert E0.
    induction R as [|s k p1 p2 p3 R IH St|s k p1 p2 p3 R IH St]; intros E0 Hw; subst; auto.
    - specialize (IH eq_refl). destruct St; cbn in *; auto;
        try (apply IH; destruct ws; cbn in *; auto; try discriminate; fail);
        try (exfalso; destruct ws; [destruct i; discriminate|destruct i; discriminate]).
    - specialize (IH eq_refl). destruct St; cbn in *. destruct ws; [destruct i; discriminate|destruct i; discriminate]. }
  apply H. destruct (p_workers p); auto. discriminate.
Qed.
