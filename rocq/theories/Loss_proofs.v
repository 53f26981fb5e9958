(** Loss_proofs.v - the pointwise losses (for properties C43, C44 and C61). *)
From Coq Require Import SpecFloat.
From Verif Require Import Base Base_proofs F32 Column DataStore Subsampling Subsampling_proofs Num Forest Par Par_proofs
  Config Score Score_proofs Split SplitSpec Hist_proofs Tree Sum_proofs Typed_proofs Train TrainSpec Loss LossSpec.

Section Pass.
Context {N : Num}.
Variables (lossf : N -> N -> point N) (w y : float_vector) (wv yv : nat -> N) (f : list N) (c : N).
Hypothesis Wv : row_values w (List.length f) wv.
Hypothesis Yv : row_values y (List.length f) yv.
Notation pt := (row_point lossf yv f c).
Notation rw := (row_weighted lossf wv yv f c).
Notation mem := (mem ploc (@pval N)).

Definition point_foot (j : nat) (rows : list nat) (l : ploc) : Prop := l = inr j \/ exists i, In i rows /\ l = inl i.

Lemma row_runs j i (m : mem) a g d (F : ploc -> Prop) : i < List.length f -> F (inr j) -> F (inl i) ->
  m (inr j) = Some (inr (a, g)) -> m (inl i) = Some (inl d) ->
  exists m', runs ploc_dec F (point_row lossf w y f c j i) m tt m' /\
    m' (inl i) = Some (inl (p_grad (pt i))) /\ m' (inr j) = Some (inr (nadd a (nmul (wv i) (p_loss (pt i))), gadd g (rw i))) /\
    (forall l, l <> inl i -> l <> inr j -> m' l = m l).
Proof.
  intros L Fj Fi Mj Mi. destruct (Wv i L) as (wi & Ew & Dw). destruct (Yv i L) as (yi & Ey & Dy).
  unfold point_row, vget. rewrite (nth_error_nth' f n0 L), Ew, Ey. cbn [pres pbind]. rewrite Dw, Dy.
  fold (row_point lossf yv f c i).
  eexists. split; [|split; [|split]].
  - eapply RWrite; [exact Fi|exact Mi|]. eapply RRead; [exact Fj|rewrite upd_ne by discriminate; exact Mj|].
    eapply RRead; [exact Fi|apply upd_eq|]. eapply RWrite; [exact Fj|rewrite upd_ne by discriminate; exact Mj|]. constructor.
  - rewrite upd_ne by discriminate. apply upd_eq.
  - apply upd_eq.
  - intros l N1 N2. rewrite !upd_ne by assumption. reflexivity.
Qed.

Lemma task_runs j rows : NoDup rows -> (forall i, In i rows -> i < List.length f) -> forall (m : mem) a g (F : ploc -> Prop),
  F (inr j) -> (forall i, In i rows -> F (inl i)) ->
  m (inr j) = Some (inr (a, g)) -> (forall i, In i rows -> exists d, m (inl i) = Some (inl d)) ->
  exists m', runs ploc_dec F (point_task lossf w y f c j rows) m tt m' /\
    (forall i, In i rows -> m' (inl i) = Some (inl (p_grad (pt i)))) /\
    m' (inr j) = Some (inr (fold_left (fun a i => nadd a (nmul (wv i) (p_loss (pt i)))) rows a, fold_left gadd (map rw rows) g)) /\
    (forall i, ~ In i rows -> m' (inl i) = m (inl i)).
Proof.
  induction rows as [|i rows IH]; intros ND Lt m a g F Fj Fr Mj Mr; cbn [point_task].
  - exists m. split; [constructor|]. split; [intros i []|]. split; [exact Mj|auto].
  - destruct (Mr i (or_introl eq_refl)) as [d Md].
    destruct (row_runs j i m a g d F (Lt i (or_introl eq_refl)) Fj (Fr i (or_introl eq_refl)) Mj Md) as (m1 & R1 & A1 & B1 & C1).
    inversion ND as [|? ? NI ND']; subst.
    destruct (IH ND' (fun k I => Lt k (or_intror I)) m1 _ _ F Fj (fun k I => Fr k (or_intror I)) B1) as (m2 & R2 & A2 & B2 & C2).
    { intros k I. rewrite C1; [apply Mr; right; exact I|congruence|discriminate]. }
    exists m2. split; [eapply runs_bind; [exact R1|exact R2]|]. split; [|split; [exact B2|]].
    + intros k [<-|I]; [rewrite C2 by exact NI; exact A1|apply A2, I].
    + intros k NK. rewrite C2 by (intros I; apply NK; right; exact I). apply C1; [|discriminate].
      intros [= ->]. apply NK. left. reflexivity.
Qed.

Lemma range_in r i : In i (range r) <-> fst r <= i < snd r.
Proof. unfold range. rewrite in_seq. lia. Qed.

Lemma read_grads_ok (m : mem) l : forall i, (forall j x, nth_error l j = Some x -> m (inl (i + j)) = Some (inl x)) ->
  read_grads m i (List.length l) = l.
Proof.
  induction l as [|a l IH]; intros i H; cbn; [reflexivity|].
  pose proof (H 0 a eq_refl) as H0. rewrite Nat.add_0_r in H0. rewrite H0. f_equal. apply IH.
  intros j s E. cbn. rewrite <- Nat.add_succ_r. apply H, E.
Qed.
Lemma read_totals_ok (m : mem) l : forall i, (forall j x, nth_error l j = Some x -> m (inr (i + j)) = Some (inr x)) ->
  read_totals m i (List.length l) = l.
Proof.
  induction l as [|a l IH]; intros i H; cbn; [reflexivity|].
  pose proof (H 0 a eq_refl) as H0. rewrite Nat.add_0_r in H0. rewrite H0. f_equal. apply IH.
  intros j s E. cbn. rewrite <- Nat.add_succ_r. apply H, E.
Qed.

Lemma pass_ok (p : @pointwise N) groups gd :
  0 < groups -> divide_samples (List.length f) groups = Ret (pw_slices p) -> pw_w p = w -> pw_y p = y -> List.length gd = List.length f ->
  let tot := map (fun r => slice_total lossf wv yv f c (range r)) (pw_slices p) in
  (forall s, ireach ploc_dec (point_tasks lossf p f c, point_mem gd (repeat (n0, gzero) (List.length (pw_slices p)))) s ->
     (forall q, In q (fst s) -> ~ pfail q (snd s)) /\
     (all_done (fst s) \/ exists s', istep ploc_dec s s') /\
     (all_done (fst s) -> forall l, snd s l = point_mem (row_gradients lossf yv f c) tot l)) /\
  point_pass lossf p f c gd = Ret (row_gradients lossf yv f c, sum_totals tot).
Proof.
  intros G Hd Ew Ey Lg tot. unfold divide_samples in Hd. rewrite divide_helper_ok in Hd by exact G. cbn [bind] in Hd.
  pose proof (sizes_sum (List.length f) groups G) as Hs. injection Hd as Hd.
  match type of Hd with ranges 0 ?z = _ => set (sizes := z) in * end.
  set (rs := pw_slices p) in *. symmetry in Hd.
  set (m := point_mem gd (repeat (@n0 N, gzero) (List.length rs))).
  set (P := fun j (b : mem) => forall r, nth_error rs j = Some r ->
        runs ploc_dec (point_foot j (range r)) (point_task lossf w y f c j (range r)) m tt b /\
        (forall i, In i (range r) -> b (inl i) = Some (inl (p_grad (pt i)))) /\
        b (inr j) = Some (inr (slice_total lossf wv yv f c (range r)))).
  assert (Rv : forall j r, nth_error rs j = Some r -> fst r <= snd r <= List.length f).
  { intros j r E. apply nth_error_In in E. rewrite Hd in E. apply ranges_valid in E. lia. }
  assert (Ex : forall j, j < List.length rs -> exists b, P j b).
  { intros j Lj. apply nth_error_Some in Lj. destruct (nth_error rs j) as [r|] eqn:Er; [|congruence]. clear Lj.
    destruct (task_runs j (range r)) with (m := m) (a := @n0 N) (g := @gzero N) (F := point_foot j (range r)) as (b & R & A & B & _).
    - apply seq_NoDup.
    - intros i I. apply range_in in I. pose proof (Rv j r Er). lia.
    - left. reflexivity.
    - intros i I. right. eauto.
    - unfold m. cbn. rewrite nth_error_repeat; [reflexivity|]. apply nth_error_Some. congruence.
    - intros i I. apply range_in in I. pose proof (Rv j r Er). unfold m. cbn.
      destruct (nth_error gd i) as [d|] eqn:Ed; [exists d; reflexivity|]. apply nth_error_None in Ed. lia.
    - exists b. intros r' E'. assert (r' = r) by congruence. subst r'. split; [exact R|]. split; [exact A|exact B]. }
  destruct (list_choice m (List.length rs) P Ex) as [b Hb]. clear Ex.
  set (F := fun j l => exists r, nth_error rs j = Some r /\ point_foot j (range r) l).
  assert (Hrs : forall j r, nth_error rs j = Some r -> j < List.length rs) by (intros j r E; apply nth_error_Some; congruence).
  assert (Disj : forall i j l, F i l -> F j l -> i = j).
  { intros i j l (a & Ea & [->|(k & Ik & ->)]) (d & Ed & [X|(k' & Ik' & X)]); try discriminate; injection X as X; [exact X|]. subst k'.
    rewrite Hd in Ea, Ed. eapply (ranges_disjoint sizes 0 i j a d k); [exact Ea|exact Ed|apply range_in, Ik|apply range_in, Ik']. }
  assert (Tasks : forall j q, nth_error (point_tasks lossf p f c) j = Some q -> runs ploc_dec (F j) q m tt (b j)).
  { intros j q E. unfold point_tasks in E. fold rs in E. rewrite nth_error_map, combine_seq_nth in E.
    destruct (nth_error rs j) as [r|] eqn:Er; [|discriminate]. cbn in E. injection E as <-. rewrite Ew, Ey.
    destruct (Hb j (Hrs j r Er) r Er) as [R _]. eapply runs_weaken; [|exact R]. intros l X. exists r. auto. }
  assert (Ltasks : List.length (point_tasks lossf p f c) = List.length rs).
  { unfold point_tasks. fold rs. rewrite map_length, combine_seq_length. reflexivity. }
  assert (Fin : forall s, ireach ploc_dec (point_tasks lossf p f c, m) s -> all_done (fst s) ->
            forall l, snd s l = point_mem (row_gradients lossf yv f c) tot l).
  { intros s R A. destruct (interleave ploc_dec F b _ m s Disj Tasks R) as (_ & _ & D).
    destruct (D A) as [D1 D2]. rewrite Ltasks in D1, D2. clear D. intros [i|j]; cbn [point_mem].
    - destruct (Nat.lt_ge_cases i (List.length f)) as [Li|Li].
      + destruct (ranges_hit sizes 0 i) as (j & r & Er & Hi); [lia|]. rewrite <- Hd in Er.
        rewrite (D1 j); [|exact (Hrs j r Er)|exists r; split; [exact Er|right; exists i; split; [apply range_in, Hi|reflexivity]]].
        destruct (Hb j (Hrs j r Er) r Er) as (_ & A1 & _). rewrite (A1 i) by (apply range_in, Hi).
        unfold row_gradients. rewrite nth_error_map, (nth_error_nth' _ 0) by (rewrite seq_length; exact Li).
        rewrite seq_nth by exact Li. reflexivity.
      + rewrite D2.
        * unfold m. cbn. rewrite (proj2 (nth_error_None gd i)) by lia. unfold row_gradients.
          rewrite (proj2 (nth_error_None _ i)) by (rewrite map_length, seq_length; exact Li). reflexivity.
        * intros j Lj (r & Er & [X|(k & Ik & X)]); [discriminate|]. injection X as <-. apply range_in in Ik. pose proof (Rv j r Er). lia.
    - unfold tot. rewrite nth_error_map. destruct (nth_error rs j) as [r|] eqn:Er.
      + rewrite (D1 j); [|exact (Hrs j r Er)|exists r; split; [exact Er|left; reflexivity]]. cbn.
        apply (Hb j (Hrs j r Er) r Er).
      + rewrite D2.
        * unfold m. cbn. rewrite (proj2 (nth_error_None _ j)) by (rewrite repeat_length; apply nth_error_None, Er). reflexivity.
        * intros k Lk (r & Er' & [X|(k' & Ik & X)]); [|discriminate]. injection X as <-. congruence. }
  split.
  - intros s R. destruct (interleave ploc_dec F b _ m s Disj Tasks R) as (D1 & D2 & _).
    split; [exact D1|]. split; [exact D2|]. apply Fin, R.
  - destruct (sequential ploc_dec F b (point_tasks lossf p f c) [] m m Disj Tasks) as (m' & E & R); [reflexivity|].
    assert (A : all_done (map (fun _ => PRet tt) (point_tasks lossf p f c) : list (prog ploc (@pval N) unit))).
    { intros q I. apply in_map_iff in I. destruct I as (x & <- & _). reflexivity. }
    pose proof (Fin _ R A) as X. cbn [snd] in X.
    unfold point_pass. fold rs m. rewrite E. cbn [bind]. do 2 f_equal.
    + assert (List.length gd = List.length (row_gradients lossf yv f c)) as -> by (unfold row_gradients; rewrite map_length, seq_length; exact Lg).
      apply read_grads_ok. intros j x J. cbn [plus]. rewrite X. cbn. rewrite J. reflexivity.
    + unfold sum_totals. f_equal. rewrite <- (map_length (fun r => slice_total lossf wv yv f c (range r)) rs). fold tot.
      apply read_totals_ok. intros j x J. cbn [plus]. rewrite X. cbn. rewrite J. reflexivity.
Qed.
End Pass.

(** ** Newton steps *)
Lemma resize_length {N : Num} (gd : list (grad N)) n : List.length (resize gd n) = n.
Proof. unfold resize. rewrite app_length, firstn_length, repeat_length. lia. Qed.

Section Newton.
Context {N : Num}.
Variables (lossf : N -> N -> point N) (w y : float_vector) (wv yv : nat -> N).
Notation inited := (inited w y).

Notation grad_total := (grad_total lossf wv yv).
Notation steps := (steps lossf wv yv).

Lemma sum_totals_snd (l : list (N * grad N)) : snd (sum_totals l) = total_of (map snd l).
Proof.
  unfold sum_totals, total_of. enough (H : forall a, snd (fold_left (fun a b => (nadd (fst a) (fst b), gadd (snd a) (snd b))) l a) =
    fold_left gadd (map snd l) (snd a)) by apply H.
  induction l as [|b l IH]; intros a; cbn; [reflexivity|]. rewrite IH. reflexivity.
Qed.

Lemma newton_ok (p : @pointwise N) groups (f : list N) : row_values w (List.length f) wv -> row_values y (List.length f) yv ->
  0 < groups -> divide_samples (List.length f) groups = Ret (pw_slices p) -> pw_w p = w -> pw_y p = y ->
  forall todo c gd, List.length gd = List.length f ->
  exists ds, steps f (all_slices p) (S todo) c ds /\
    newton lossf p f (S todo) c gd = Ret (fold_left nadd ds c, row_gradients lossf yv f (fold_left nadd (removelast ds) c)).
Proof.
  intros Wv Yv G Hd Ew Ey. induction todo as [|todo IH]; intros c gd Lg.
  - destruct (pass_ok lossf w y wv yv f c Wv Yv p groups gd G Hd Ew Ey Lg) as [_ E]. cbn [newton]. rewrite E. cbn [bind].
    rewrite andb_false_r. rewrite sum_totals_snd, map_map. cbn [slice_total snd].
    set (d := gscore n0 _). exists [d]. split; [|reflexivity]. split; [cbn; lia|]. split; [|cbn; lia].
    intros [|[|k]] d0 E0; try discriminate. cbn in E0. injection E0 as <-. split; [|cbn; lia].
    unfold d, grad_total, all_slices. cbn [firstn fold_left]. rewrite map_map. reflexivity.
  - destruct (pass_ok lossf w y wv yv f c Wv Yv p groups gd G Hd Ew Ey Lg) as [_ E]. remember (S todo) as todo' eqn:Et. cbn [newton]. rewrite E. cbn [bind].
    rewrite sum_totals_snd, map_map. cbn [slice_total snd].
    assert ((0 <? todo')%nat = true) as -> by (subst; reflexivity). rewrite andb_true_r.
    set (d := gscore n0 _). destruct (nltb convergence_threshold (nabs d)) eqn:Big.
    + destruct (IH (nadd c d) (row_gradients lossf yv f c)) as (ds & (L & St & En) & En').
      { unfold row_gradients. rewrite map_length, seq_length. reflexivity. }
      exists (d :: ds). split; [|]. 2:{ rewrite En'. cbn [fold_left]. do 3 f_equal. destruct ds; [cbn in L; lia|reflexivity]. }
      split; [cbn; lia|]. split.
      * intros [|k] d0 E0; cbn in E0.
        -- injection E0 as <-. split; [|intros _; exact Big]. unfold d, grad_total, all_slices. cbn [firstn fold_left]. rewrite map_map. reflexivity.
        -- destruct (St k d0 E0) as [A B]. split; [cbn [firstn fold_left]; exact A|]. cbn. intros H. apply B. lia.
      * cbn [List.length]. intros H. replace (last (d :: ds) n0) with (last ds n0) by (destruct ds; [cbn in L; lia|reflexivity]). apply En. lia.
    + exists [d]. split; [|reflexivity]. split; [cbn; lia|]. split; [|intros _; exact Big].
      intros [|[|k]] d0 E0; try discriminate. cbn in E0. injection E0 as <-. split; [|cbn; lia].
      unfold d, grad_total, all_slices. cbn [firstn fold_left]. rewrite map_map. reflexivity.
Qed.

(** The object after Init. *)
Lemma init_ok threads rows : 1 <= threads -> row_values w rows wv ->
  exists p : @pointwise N, pointwise_init threads rows w y = Ret p /\ inited threads rows p /\ concat (all_slices p) = seq 0 rows /\
    List.length (all_slices p) = threads * 5.
Proof.
  clear lossf yv. intros T Wv. unfold pointwise_init.
  assert (S0 : forall l (s : N), (forall i, In i l -> i < rows) -> exists s', fold_res (fun s i => let! x := w i in Ret (nadd s (nfloat x))) l s = Ret s').
  { induction l as [|i l IH]; intros s H; [eexists; reflexivity|]. cbn [fold_res]. destruct (Wv i (H i (or_introl eq_refl))) as (a & -> & _). cbn [bind].
    apply IH. intros k I. apply H. right. exact I. }
  destruct (S0 (seq 0 rows) n0) as [s ->]; [intros i I; apply in_seq in I; lia|]. cbn [bind].
  destruct (divide_spec rows (threads * 5)) as (rs & E & L & _ & Cc & _); [lia|]. rewrite E. cbn [bind].
  eexists. split; [reflexivity|]. unfold inited, all_slices. cbn [pw_slices pw_w pw_y]. split; [auto|]. split; [exact Cc|]. rewrite map_length. exact L.
Qed.

Lemma round_ok threads (p : @pointwise N) f gd : 1 <= threads -> row_values w (List.length f) wv -> row_values y (List.length f) yv -> inited threads (List.length f) p ->
  exists ds, steps f (all_slices p) 10 n0 ds /\
    pointwise_round lossf p f gd = Ret (fold_left nadd ds n0, row_gradients lossf yv f (fold_left nadd (removelast ds) n0)).
Proof.
  intros T Wv Yv (Hd & Ew & Ey). unfold pointwise_round, max_iterations.
  eapply newton_ok; [exact Wv|exact Yv| |exact Hd|exact Ew|exact Ey|apply resize_length]. lia.
Qed.
End Newton.

(** ** Lengths, for any object *)
Section Lengths.
Context {N : Num}.
Definition point_ty (l : ploc) (x : @pval N) : Prop := match l, x with inl _, inl _ | inr _, inr _ => True | _, _ => False end.
Lemma good_row lossf w y (f : list N) c j i : good point_ty (point_row lossf w y f c j i).
Proof.
  unfold point_row. apply good_bind; [apply good_pres|]. intros x. apply good_bind; [apply good_pres|]. intros yi.
  apply good_bind; [apply good_pres|]. intros wi. constructor; [exact I|]. constructor. intros [d|[t g]]; [constructor|].
  constructor. intros [d|]; [|constructor]. repeat constructor.
Qed.
Lemma good_task lossf w y (f : list N) c j rows : good point_ty (point_task lossf w y f c j rows).
Proof. induction rows as [|i rows IH]; cbn [point_task]; [constructor|]. apply good_bind; [apply good_row|intros _; exact IH]. Qed.
Lemma read_grads_length (m : mem ploc (@pval N)) : forall todo i, (forall j, i <= j < i + todo -> exists s, m (inl j) = Some (inl s)) ->
  List.length (read_grads m i todo) = todo.
Proof.
  induction todo as [|todo IH]; intros i H; cbn [read_grads]; [reflexivity|].
  destruct (H i ltac:(lia)) as [s ->]. cbn. rewrite IH; [reflexivity|]. intros j J. apply H. lia.
Qed.
Lemma pass_length lossf (p : @pointwise N) f c gd gd' t : point_pass lossf p f c gd = Ret (gd', t) -> List.length gd' = List.length gd.
Proof.
  unfold point_pass. destruct (run_tasks ploc_dec _ _) as [m| |] eqn:R; [|discriminate..]. cbn [bind]. intros [= <- _].
  destruct (tasks_typed ploc_dec point_ty (point_tasks lossf p f c)) with (m := point_mem gd (repeat (@n0 N, gzero) (List.length (pw_slices p)))) (m' := m) as [T D]; [| |exact R|].
  - apply Forall_forall. intros q I0. apply in_map_iff in I0. destruct I0 as (r & <- & _). apply good_task.
  - intros [i|i] v; cbn; [destruct (nth_error gd i)|destruct (nth_error _ i)]; intros [= <-]; exact I.
  - apply read_grads_length. intros j J. destruct (m (inl j)) as [[s|x]|] eqn:M; [eauto|destruct (T _ _ M)|]. apply D in M. cbn in M.
    destruct (nth_error gd j) eqn:E; [discriminate|]. apply nth_error_None in E. lia.
Qed.
Lemma newton_length lossf (p : @pointwise N) f todo : forall c gd x gd', newton lossf p f todo c gd = Ret (x, gd') -> List.length gd' = List.length gd.
Proof.
  induction todo as [|todo IH]; intros c gd x gd' E; cbn [newton] in E; [injection E as <- <-; reflexivity|].
  destruct (point_pass lossf p f c gd) as [[gd1 t]| |] eqn:P; [|discriminate..]. cbn [bind] in E. apply pass_length in P.
  destruct (_ && _); [rewrite (IH _ _ _ _ E); exact P|injection E as <- <-; exact P].
Qed.

Lemma pointwise_keeps threads binary lossf s pos f gd x gd' s' pos' :
  l_round (pointwise_loss (N := N) threads binary lossf) s pos f gd = Ret (x, gd', s', pos') -> List.length gd' = List.length f.
Proof.
  intros H. change ((let! (c, gd) := pointwise_round lossf s f gd in Ret (c, gd, s, pos)) = Ret (x, gd', s', pos')) in H.
  destruct (pointwise_round lossf s f gd) as [[c gd1]| |] eqn:E; [|discriminate H..]. cbn [bind] in H.
  assert (gd' = gd1) as -> by congruence.
  unfold pointwise_round in E. apply newton_length in E. rewrite E. apply resize_length.
Qed.

Lemma binary_total y rows (yv : nat -> N) n : row_values y n yv -> (forall i, In i rows -> i < n) -> exists b, binary_targets (N := N) y rows = Ret b.
Proof.
  intros Yv. induction rows as [|i rows IH]; intros H; cbn [binary_targets]; [eauto|].
  destruct (Yv i (H i (or_introl eq_refl))) as (a & -> & _). cbn [bind]. destruct (_ && _); [eauto|]. apply IH. intros k I0. apply H. right. exact I0.
Qed.

Lemma pointwise_runs threads binary lossf rows w y (wv yv : nat -> N) : 1 <= threads -> row_values w rows wv -> row_values y rows yv ->
  runs_through rows w y (pointwise_loss (N := N) threads binary lossf).
Proof.
  intros T Wv Yv. exists (inited w y threads rows). split.
  - intros group. cbn.
    assert (B : exists b, (if binary then binary_targets (N := N) y (seq 0 rows) else Ret true) = Ret b).
    { destruct binary; [|eauto]. eapply binary_total; [exact Yv|]. intros i I0. apply in_seq in I0. lia. }
    destruct B as [b ->]. cbn [bind]. destruct b; [|eexists; split; [reflexivity|discriminate]].
    destruct (init_ok w y wv threads rows T Wv) as (p & -> & Ip & _). cbn [bind]. eexists. split; [reflexivity|]. intros s [= <-]. exact Ip.
  - intros p pos f gd Ip Lf Lg. subst rows. destruct (round_ok lossf w y wv yv threads p f gd T Wv Yv Ip) as (ds & _ & E).
    do 4 eexists. split; [|exact Ip]. change (l_round (pointwise_loss threads binary lossf) p pos f gd) with
      (let! (c, gd) := pointwise_round lossf p f gd in Ret (c, gd, p, pos)). rewrite E. reflexivity.
Qed.
End Lengths.

Lemma pass_schedules {N : Num} lossf w y (wv yv : nat -> N) f c p threads gd : row_values w (List.length f) wv -> row_values y (List.length f) yv ->
  1 <= threads -> inited w y threads (List.length f) p -> List.length gd = List.length f ->
  let tot := map (fun r => slice_total lossf wv yv f c (range r)) (pw_slices p) in
  (forall s, ireach ploc_dec (point_tasks lossf p f c, point_mem gd (repeat (n0, gzero) (List.length (pw_slices p)))) s ->
     (forall q, In q (fst s) -> ~ pfail q (snd s)) /\
     (all_done (fst s) \/ exists s', istep ploc_dec s s') /\
     (all_done (fst s) -> forall l, snd s l = point_mem (row_gradients lossf yv f c) tot l)) /\
  point_pass lossf p f c gd = Ret (row_gradients lossf yv f c, sum_totals tot).
Proof. intros Wv Yv T (Hd & Ew & Ey) L. apply (pass_ok lossf w y wv yv f c Wv Yv p (threads * 5) gd); try assumption. lia. Qed.

(** The logistic loss in doubles *)
Lemma log_loss_nan e l : e (binary_normalize 53 1024 1000 0 false) = S754_infinity false ->
  let p := @log_loss (IEEE e l) (binary_normalize 53 1024 1 0 false) (binary_normalize 53 1024 (-1000) 0 false) in
  gg (p_grad p) = S754_nan /\ gh (p_grad p) = S754_nan.
Proof.
  intros E. cbv zeta. unfold p_grad, log_loss. cbn [gg gh fst snd].
  match goal with |- context [@nexp (IEEE e l) ?x] => assert (A : @nexp (IEEE e l) x = S754_infinity false) end.
  { rewrite <- E. reflexivity. }
  rewrite A. split; reflexivity.
Qed.
