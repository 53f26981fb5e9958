(** Sum_proofs.v - parallel tasks that each fill one element of a vector; ComputeWeightedSum and
    FindBestFeatureAndSplit (for properties C36 and C59). *)
From Coq Require Import SpecFloat.
From Verif Require Import Base Base_proofs F32 Column DataStore Subsampling Subsampling_proofs Num Forest Par Par_proofs
  Config Score ScoreSpec Score_proofs Split SplitSpec Hist_proofs Tree.

Section Vec.
Context {A : Type}.
Notation mem := (mem nat A).
Notation prog := (prog nat A).

Lemma read_vec_ok (m : mem) l : forall i, (forall j x, nth_error l j = Some x -> m (i + j) = Some x) -> read_vec m i (List.length l) = l.
Proof.
  induction l as [|a l IH]; intros i H; cbn; [reflexivity|].
  pose proof (H 0 a eq_refl) as H0. rewrite Nat.add_0_r in H0. rewrite H0. f_equal. apply IH.
  intros j s E. cbn. rewrite <- Nat.add_succ_r. apply H, E.
Qed.

Lemma vec_tasks (ps : list (prog unit)) (v fin : list A) :
  List.length ps = List.length v -> List.length fin = List.length v ->
  (forall i p, nth_error ps i = Some p -> exists m', runs Nat.eq_dec (eq i) p (vec_mem v) tt m' /\ m' i = nth_error fin i) ->
  (forall s, ireach Nat.eq_dec (ps, vec_mem v) s ->
     (forall p, In p (fst s) -> ~ pfail p (snd s)) /\
     (all_done (fst s) \/ exists s', istep Nat.eq_dec s s') /\
     (all_done (fst s) -> forall i, snd s i = nth_error fin i)) /\
  exists m, run_tasks Nat.eq_dec ps (vec_mem v) = Ret m /\ forall i, m i = nth_error fin i.
Proof.
  intros Lp Lf H.
  assert (C : exists f : nat -> mem, forall i, i < List.length ps ->
            (forall p, nth_error ps i = Some p -> runs Nat.eq_dec (eq i) p (vec_mem v) tt (f i)) /\ f i i = nth_error fin i).
  { apply (list_choice (vec_mem v) (List.length ps) (fun i (b : mem) => (forall p, nth_error ps i = Some p -> runs Nat.eq_dec (eq i) p (vec_mem v) tt b) /\ b i = nth_error fin i)). intros i Li. apply nth_error_Some in Li.
    destruct (nth_error ps i) as [p|] eqn:E; [|congruence]. destruct (H i p E) as (m' & R & X).
    exists m'. split; [|exact X]. intros q Eq. congruence. }
  destruct C as [f Hf].
  assert (D : forall i j l : nat, i = l -> j = l -> i = j) by congruence.
  assert (Rn : forall i p, nth_error ps i = Some p -> runs Nat.eq_dec (eq i) p (vec_mem v) tt (f i)).
  { intros i p E. apply Hf; [|exact E]. apply nth_error_Some. congruence. }
  assert (S0 : forall s, ireach Nat.eq_dec (ps, vec_mem v) s ->
     (forall p, In p (fst s) -> ~ pfail p (snd s)) /\
     (all_done (fst s) \/ exists s', istep Nat.eq_dec s s') /\
     (all_done (fst s) -> forall i, snd s i = nth_error fin i)).
  { intros s R. destruct (interleave Nat.eq_dec (fun i => eq i) f ps _ s D Rn R) as (A1 & A2 & A3).
    split; [exact A1|]. split; [exact A2|]. intros Dn i. destruct (A3 Dn) as [B1 B2].
    destruct (Nat.lt_ge_cases i (List.length ps)) as [L|L].
    - rewrite (B1 i i L eq_refl). apply Hf, L.
    - rewrite B2 by (intros j Lj; lia). unfold vec_mem.
      rewrite (proj2 (nth_error_None v i)) by lia. symmetry. apply nth_error_None. lia. }
  split; [exact S0|].
  destruct (sequential Nat.eq_dec (fun i => eq i) f ps [] (vec_mem v) (vec_mem v) D) as (m & E & R).
  - intros i p E. cbn [List.length plus]. apply Rn, E.
  - reflexivity.
  - exists m. split; [exact E|]. cbn [app] in R. destruct (S0 _ R) as (_ & _ & X). apply X.
    intros p I. cbn in I. apply in_map_iff in I. destruct I as (q & <- & _). reflexivity.
Qed.

Lemma combine_seq_nth {B} (l : list B) : forall s i, nth_error (combine (seq s (List.length l)) l) i = option_map (fun x => (s + i, x)) (nth_error l i).
Proof.
  induction l as [|a l IH]; intros s [|i]; cbn; auto; [rewrite Nat.add_0_r; reflexivity|]. rewrite IH, Nat.add_succ_r. reflexivity.
Qed.
Lemma combine_seq_length {B} (l : list B) s : List.length (combine (seq s (List.length l)) l) = List.length l.
Proof. rewrite combine_length, seq_length. lia. Qed.
End Vec.

Section Sum.
Context {N : Num}.
Variables (w : float_vector) (gd : list (grad N)) (rg : nat -> grad N).

Lemma sum_task_runs i rows : forall (m : mem nat (grad N)) x, weighted w gd rg rows -> m i = Some x ->
  exists m', runs Nat.eq_dec (eq i) (sum_task w gd i rows) m tt m' /\ m' i = Some (fold_left gadd (map rg rows) x).
Proof.
  induction rows as [|r rows IH]; intros m x W E; cbn [sum_task map fold_left].
  - exists m. split; [constructor|exact E].
  - destruct (W r (or_introl eq_refl)) as (wi & d & Ew & Ed & Er).
    assert (Rg : row_grad w gd r = Ret (rg r)) by (unfold row_grad, vget; rewrite Ew; cbn; rewrite Ed, Er; reflexivity).
    rewrite Rg. cbn [pres pbind].
    destruct (IH (upd Nat.eq_dec m i (gadd x (rg r))) (gadd x (rg r))) as (m' & R & X).
    + intros r' I. apply W. right. exact I.
    + apply upd_eq.
    + exists m'. split; [|exact X]. eapply RRead; [reflexivity|exact E|]. eapply RWrite; [reflexivity|exact E|exact R].
Qed.

Lemma weighted_incl rows rows' : (forall r, In r rows' -> In r rows) -> weighted w gd rg rows -> weighted w gd rg rows'.
Proof. intros I W r H. apply W, I, H. Qed.

Lemma sum_schedule threads rows : 1 <= threads -> weighted w gd rg rows ->
  exists slices, divide_slice rows (threads * 5) = Ret slices /\ concat slices = rows /\
    (forall s, ireach Nat.eq_dec (sum_tasks w gd slices, vec_mem (repeat gzero (List.length slices))) s ->
       (forall p, In p (fst s) -> ~ pfail p (snd s)) /\
       (all_done (fst s) \/ exists s', istep Nat.eq_dec s s') /\
       (all_done (fst s) -> forall i, snd s i = nth_error (map (sum_of rg) slices) i)) /\
    weighted_sum threads w gd rows = Ret (total_of (map (sum_of rg) slices)).
Proof.
  intros T W. destruct (divide_slice_spec rows (threads * 5)) as (slices & E & Ls & Cc & _); [lia|].
  exists slices. split; [exact E|]. split; [exact Cc|].
  destruct (vec_tasks (sum_tasks w gd slices) (repeat gzero (List.length slices)) (map (sum_of rg) slices)) as [S0 (m & Em & Fm)].
  - unfold sum_tasks. rewrite map_length, combine_seq_length, repeat_length. reflexivity.
  - rewrite map_length, repeat_length. reflexivity.
  - intros i p Ep. unfold sum_tasks in Ep. rewrite nth_error_map, combine_seq_nth in Ep.
    destruct (nth_error slices i) as [sl|] eqn:Es; [|discriminate]. cbn in Ep. injection Ep as <-.
    destruct (sum_task_runs i sl (vec_mem (repeat gzero (List.length slices))) gzero) as (m' & R & X).
    + eapply weighted_incl; [|exact W]. intros r I. rewrite <- Cc. apply in_concat. exists sl. split; [eapply nth_error_In; exact Es|exact I].
    + unfold vec_mem. apply nth_error_repeat. apply nth_error_Some. congruence.
    + exists m'. split; [exact R|]. rewrite X, nth_error_map, Es. reflexivity.
  - split; [exact S0|]. unfold weighted_sum. rewrite E. cbn [bind]. rewrite Em. cbn [bind]. f_equal. unfold total_of. f_equal.
    rewrite <- (map_length (sum_of rg) slices). apply read_vec_ok. intros j x Ex. cbn. rewrite Fm. exact Ex.
Qed.
End Sum.

Lemma sum_exact w (gd : list (grad Exact)) rg threads rows : 1 <= threads -> weighted w gd rg rows ->
  weighted_sum threads w gd rows = Ret (sum_of rg rows).
Proof.
  intros T W. destruct (sum_schedule w gd rg threads rows T W) as (slices & _ & Cc & _ & ->). f_equal.
  rewrite <- Cc. clear. unfold sum_of at 2. induction slices as [|s l IH]; [reflexivity|].
  cbn [map concat]. rewrite map_app, total_app, total_cons, IH. reflexivity.
Qed.

Lemma sum_no_threads {N : Num} w (gd : list (grad N)) rows : weighted_sum 0 w gd rows = Undef.
Proof. unfold weighted_sum. cbn [Nat.mul]. rewrite (proj2 (divide_zero 0 rows)). reflexivity. Qed.
