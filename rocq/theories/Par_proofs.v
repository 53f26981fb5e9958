(** Par_proofs.v - programs with disjoint footprints do not interfere. *)
From Verif Require Import Base Par Base_proofs.

Section Par.
Context {L V : Type}.
Variable dec : forall a b : L, {a = b} + {a <> b}.
Notation mem := (mem L V).
Notation prog := (prog L V).
Notation upd := (upd dec).

Lemma upd_eq (m : mem) l v : upd m l v l = Some v.
Proof. unfold upd. destruct (dec l l); congruence. Qed.
Lemma upd_ne (m : mem) l v x : x <> l -> upd m l v x = m x.
Proof. unfold upd. destruct (dec x l); congruence. Qed.

(** Running with every access inside [F]. *)
Inductive runs {A} (F : L -> Prop) : prog A -> mem -> A -> mem -> Prop :=
| RRet a m : runs F (PRet a) m a m
| RRead l k m v a m' : F l -> m l = Some v -> runs F (k v) m a m' -> runs F (PRead l k) m a m'
| RWrite l v q m v0 a m' : F l -> m l = Some v0 -> runs F q (upd m l v) a m' -> runs F (PWrite l v q) m a m'.

Lemma runs_run {A} F (p : prog A) m a m' : runs F p m a m' -> run dec p m = Ret (a, m').
Proof. induction 1; cbn; [reflexivity|rewrite H0; assumption|rewrite H0; assumption]. Qed.

Lemma runs_bind {A B} F (p : prog A) (k : A -> prog B) m a m1 b m2 :
  runs F p m a m1 -> runs F (k a) m1 b m2 -> runs F (pbind p k) m b m2.
Proof. intros R. revert b m2. induction R; intros b m2 K; cbn; [exact K|econstructor; eauto|econstructor; eauto]. Qed.

Lemma runs_weaken {A} (F G : L -> Prop) (p : prog A) m a m' : (forall l, F l -> G l) -> runs F p m a m' -> runs G p m a m'.
Proof. intros W R. induction R; econstructor; eauto. Qed.

Lemma runs_frame {A} F (p : prog A) m a m' : runs F p m a m' -> forall l, ~ F l -> m' l = m l.
Proof.
  induction 1; intros x N; [reflexivity|auto|]. rewrite IHruns by exact N. apply upd_ne. congruence.
Qed.

(** A run only depends on, and only changes, memory inside its footprint. *)
Lemma runs_local {A} F (p : prog A) m a m' : runs F p m a m' -> forall n, (forall l, F l -> n l = m l) ->
  exists n', runs F p n a n' /\ (forall l, F l -> n' l = m' l).
Proof.
  induction 1 as [a m|l k m v a m' Fl E R IH|l v q m v0 a m' Fl E R IH]; intros n Ag.
  - exists n. split; [constructor|exact Ag].
  - destruct (IH n Ag) as (n' & R' & Ag'). exists n'. split; [|exact Ag'].
    econstructor; [exact Fl|rewrite Ag by exact Fl; exact E|exact R'].
  - destruct (IH (upd n l v)) as (n' & R' & Ag').
    { intros x Fx. destruct (dec x l) as [->|N]; [rewrite !upd_eq; reflexivity|rewrite !upd_ne; auto]. }
    exists n'. split; [|exact Ag'].
    econstructor; [exact Fl|rewrite Ag by exact Fl; exact E|exact R'].
Qed.

Lemma runs_step {A} F (p : prog A) m a m' p1 m1 : runs F p m a m' -> pstep dec p m p1 m1 ->
  runs F p1 m1 a m' /\ (forall l, ~ F l -> m1 l = m l).
Proof.
  intros R S. destruct S as [l k m v E|l v q m v0 E]; inversion R; subst.
  - replace v with v0 by congruence. auto.
  - split; [assumption|]. intros x N. apply upd_ne. congruence.
Qed.

Lemma runs_progress {A} F (p : prog A) m a m' : runs F p m a m' ->
  p = PRet a /\ m' = m \/ (exists p1 m1, pstep dec p m p1 m1) .
Proof.
  intros R. inversion R; subst; [left; auto| |]; right; eexists; eexists; [eapply PStepRead|eapply PStepWrite]; eassumption.
Qed.

Lemma runs_no_fail {A} F (p : prog A) m a m' : runs F p m a m' -> ~ pfail p m.
Proof. intros R. inversion R; subst; cbn; congruence. Qed.

(** ** Interleavings of tasks with disjoint footprints *)
Section Tasks.
Variable F : nat -> L -> Prop.          (* footprint of task i *)
Hypothesis Disjoint : forall i j l, F i l -> F j l -> i = j.
Variable fin : nat -> mem.                (* memory after task i when run alone *)

Definition itasks (m0 : mem) (s : list (prog unit) * mem) : Prop :=
  (forall i p, nth_error (fst s) i = Some p -> exists m', runs (F i) p (snd s) tt m' /\ forall l, F i l -> m' l = fin i l) /\
  (forall l, (forall i, i < List.length (fst s) -> ~ F i l) -> snd s l = m0 l).

Lemma itasks_step m0 s s' : itasks m0 s -> istep dec s s' -> itasks m0 s' /\ List.length (fst s') = List.length (fst s).
Proof.
  intros [T O] S. destruct S as [ps m i p p' m1 E St]. cbn in *. split; [|apply set_nth_length].
  destruct (T i p E) as (m' & R & Ag). destruct (runs_step _ _ _ _ _ _ _ R St) as [R1 Fr].
  split; cbn.
  - intros j q Ej. destruct (Nat.eq_dec j i) as [->|N].
    + rewrite nth_error_set_nth_eq in Ej by (apply nth_error_Some; congruence). injection Ej as <-. eauto.
    + rewrite nth_error_set_nth_ne in Ej by auto. destruct (T j q Ej) as (mj & Rj & Agj).
      destruct (runs_local _ _ _ _ _ Rj m1) as (nj & Rj' & Agj').
      { intros l Fl. apply Fr. intros Fi. apply N. eauto. }
      exists nj. split; [exact Rj'|]. intros l Fl. rewrite Agj' by exact Fl. apply Agj, Fl.
  - intros l Nl. rewrite set_nth_length in Nl. rewrite Fr; [apply O, Nl|].
    apply Nl. apply nth_error_Some. congruence.
Qed.

Lemma itasks_reach m0 s s' : itasks m0 s -> ireach dec s s' -> itasks m0 s' /\ List.length (fst s') = List.length (fst s).
Proof.
  intros I R. induction R as [s|s1 s2 s3 R IH St]; [auto|]. destruct (IH I) as [I2 E2].
  destruct (itasks_step _ _ _ I2 St) as [I3 E3]. split; [exact I3|congruence].
Qed.
End Tasks.

(** Tasks that would each succeed alone, on disjoint footprints: no interleaving fails, and when all are done the
    memory is what each task alone leaves in its footprint, and unchanged elsewhere. *)
Lemma interleave (F : nat -> L -> Prop) (fin : nat -> mem) ps m s :
  (forall i j l, F i l -> F j l -> i = j) ->
  (forall i p, nth_error ps i = Some p -> runs (F i) p m tt (fin i)) ->
  ireach dec (ps, m) s ->
  (forall p, In p (fst s) -> ~ pfail p (snd s)) /\
  (all_done (fst s) \/ exists s', istep dec s s') /\
  (all_done (fst s) -> (forall i l, i < List.length ps -> F i l -> snd s l = fin i l) /\
                       (forall l, (forall i, i < List.length ps -> ~ F i l) -> snd s l = m l)).
Proof.
  intros D H R.
  assert (I0 : itasks F fin m (ps, m)).
  { split; cbn; [intros i p E; exists (fin i); split; [apply H, E|reflexivity]|reflexivity]. }
  destruct (itasks_reach F D fin m _ _ I0 R) as [[T O] Len]. destruct s as [qs n]. cbn in *.
  split; [|split].
  - intros p I. apply In_nth_error in I. destruct I as [i E]. destruct (T i p E) as (m' & Ri & _).
    exact (runs_no_fail _ _ _ _ _ Ri).
  - assert (Dec : (exists i p, nth_error qs i = Some p /\ p <> PRet tt) \/ all_done qs).
    { clear - T Len. assert (P : forall p, In p qs -> p = PRet tt \/ exists p1 m1, pstep dec p n p1 m1).
      { intros p I. apply In_nth_error in I. destruct I as [i E]. destruct (T i p E) as (m' & Ri & _).
        destruct (runs_progress _ _ _ _ _ Ri) as [[-> _]|X]; auto. }
      clear T Len. induction qs as [|q qs IH]; [right; intros p []|].
      destruct (P q (or_introl eq_refl)) as [->|(p1 & m1 & S)].
      - destruct IH as [(i & p & E & N)|A]; [intros p I; apply P; right; exact I| |].
        + left. exists (S i), p. auto.
        + right. intros p [<-|I]; auto.
      - left. exists 0, q. split; [reflexivity|]. intros ->. inversion S. }
    destruct Dec as [(i & p & E & N)|A]; [right|left; exact A].
    destruct (T i p E) as (m' & Ri & _). destruct (runs_progress _ _ _ _ _ Ri) as [[-> _]|(p1 & m1 & S)]; [congruence|].
    eexists. econstructor; eassumption.
  - intros A. split.
    + intros i l Li Fl. rewrite <- Len in Li. apply nth_error_Some in Li.
      destruct (nth_error qs i) as [p|] eqn:E; [|congruence]. destruct (T i p E) as (m' & Ri & Ag).
      assert (p = PRet tt) by (apply A; eapply nth_error_In; exact E). subst p. inversion Ri; subst. apply Ag, Fl.
    + intros l N. rewrite Len in O. apply O, N.
Qed.

(** No interleaving goes on for ever: a step replaces a program by a proper part of it. *)
Inductive part {A} : prog A -> prog A -> Prop :=
| PartRead l k v : part (k v) (PRead l k)
| PartWrite l v q : part q (PWrite l v q).

Lemma part_wf {A} (p : prog A) : Acc part p.
Proof.
  induction p as [a| | |l k IH|l v q IH]; constructor; intros y Y; inversion Y; subst; auto.
Qed.

Definition onestep (qs ps : list (prog unit)) : Prop := exists i p p', nth_error ps i = Some p /\ part p' p /\ qs = set_nth i p' ps.

Lemma onestep_wf ps : Acc onestep ps.
Proof.
  induction ps as [|p ps IH]; [constructor; intros y (i & p & p' & E & _); destruct i; discriminate|].
  revert ps IH. induction (part_wf p) as [p _ IHp]. intros ps Ap. induction Ap as [ps Aps IHps].
  constructor. intros y (i & q & q' & E & P & ->). destruct i as [|i]; cbn in *.
  - injection E as ->. apply IHp; [exact P|]. constructor. exact Aps.
  - apply IHps. exists i, q, q'. auto.
Qed.

Lemma istep_wf s : Acc (fun b a : list (prog unit) * mem => istep dec a b) s.
Proof.
  destruct s as [ps m]. revert m. induction (onestep_wf ps) as [ps _ IH]. intros m. constructor.
  intros y S. inversion S as [ps' m' i p p' m1 E St]; subst. apply IH. exists i, p, p'. split; [exact E|]. split; [|reflexivity].
  inversion St; subst; constructor.
Qed.

(** The sequential schedule is one of them and succeeds. *)
Lemma ireach_trans s1 s2 s3 : ireach dec s1 s2 -> ireach (V := V) dec s2 s3 -> ireach dec s1 s3.
Proof. intros R1 R2. induction R2 as [|a b c R2 IH S]; [exact R1|]. exact (ITrans dec _ _ _ (IH R1) S). Qed.

Lemma runs_ireach F (p : prog unit) m a m' : runs F p m a m' -> forall ps i, nth_error ps i = Some p ->
  ireach dec (ps, m) (set_nth i (PRet a) ps, m').
Proof.
  intros R. induction R as [a m|l k m v a m' Fl E R IH|l v q m v0 a m' Fl E R IH]; intros ps i N.
  - assert (set_nth i (PRet a) ps = ps) as ->; [|constructor].
    clear - N. revert i N. induction ps as [|q ps IH]; intros [|i] N; cbn in *; try discriminate; [congruence|].
    f_equal. apply IH, N.
  - assert (S : istep dec (ps, m) (set_nth i (k v) ps, m)) by (econstructor; [exact N|constructor; exact E]).
    eapply ireach_trans; [exact (ITrans dec _ _ _ (IRefl dec _) S)|].
    replace (set_nth i (PRet a) ps) with (set_nth i (PRet a) (set_nth i (k v) ps)).
    + apply IH. apply nth_error_set_nth_eq. apply nth_error_Some. congruence.
    + clear. revert i. induction ps as [|q ps IH]; intros [|i]; cbn; congruence.
  - assert (S : istep dec (ps, m) (set_nth i q ps, upd m l v)) by (econstructor; [exact N|econstructor; exact E]).
    eapply ireach_trans; [exact (ITrans dec _ _ _ (IRefl dec _) S)|].
    replace (set_nth i (PRet a) ps) with (set_nth i (PRet a) (set_nth i q ps)).
    + apply IH. apply nth_error_set_nth_eq. apply nth_error_Some. congruence.
    + clear. revert i. induction ps as [|q' ps IH]; intros [|i]; cbn; congruence.
Qed.

Lemma sequential (F : nat -> L -> Prop) (fin : nat -> mem) todo : forall done m m0,
  (forall i j l, F i l -> F j l -> i = j) ->
  (forall i p, nth_error todo i = Some p -> runs (F (List.length done + i)) p m0 tt (fin i)) ->
  (forall l i, i < List.length todo -> F (List.length done + i) l -> m l = m0 l) ->
  exists m', run_tasks dec todo m = Ret m' /\
    ireach dec (done ++ todo, m) (done ++ map (fun _ => PRet tt) todo, m').
Proof.
  revert fin. induction todo as [|p todo IH]; intros fin done m m0 D H Ag; cbn [run_tasks map].
  - exists m. split; [reflexivity|constructor].
  - pose proof (H 0 p eq_refl) as R. rewrite Nat.add_0_r in R.
    destruct (runs_local _ _ _ _ _ R m) as (m1 & R1 & _).
    { intros l Fl. apply (Ag l 0); [cbn; lia|]. rewrite Nat.add_0_r. exact Fl. }
    rewrite (runs_run _ _ _ _ _ R1). cbn [bind].
    destruct (IH (fun i => fin (S i)) (done ++ [PRet tt]) m1 m0) as (m' & E & Re).
    + exact D.
    + intros i q N. rewrite app_length. cbn. rewrite <- Nat.add_assoc. exact (H (S i) q N).
    + intros l i Li Fl. rewrite app_length in Fl. cbn in Fl. rewrite <- Nat.add_assoc in Fl. cbn in Fl.
      rewrite (runs_frame _ _ _ _ _ R1).
      * apply (Ag l (S i)); [cbn; lia|exact Fl].
      * intros F0. pose proof (D _ _ _ F0 Fl). lia.
    + exists m'. split; [exact E|].
      eapply ireach_trans.
      * apply (runs_ireach _ _ _ _ _ R1 (done ++ p :: todo) (List.length done)).
        rewrite nth_error_app2, Nat.sub_diag by lia. reflexivity.
      * replace (set_nth (List.length done) (PRet tt) (done ++ p :: todo)) with ((done ++ [PRet tt]) ++ todo).
        -- replace (done ++ PRet tt :: map (fun _ => PRet tt) todo) with ((done ++ [PRet tt]) ++ map (fun _ : prog unit => @PRet L V unit tt) todo); [exact Re|].
           rewrite <- app_assoc. reflexivity.
        -- rewrite <- app_assoc. clear. induction done as [|d done IH]; cbn; [reflexivity|f_equal; exact IH].
Qed.
End Par.
