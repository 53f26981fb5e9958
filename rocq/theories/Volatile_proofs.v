(** Volatile_proofs.v - programs with disjoint footprints except for cells that all of them may read and write
    (used for the random generator, which all tasks share). *)
From Verif Require Import Base Par Base_proofs Par_proofs.

Section Vol.
Context {L V : Type}.
Variable dec : forall a b : L, {a = b} + {a <> b}.
Variables (vol : L -> Prop) (ok : V -> Prop).
Notation mem := (mem L V).
Notation prog := (prog L V).
Notation upd := (upd dec).

(** Whatever the shared cells hold when they are read, the program stays inside [F], does not fail, and ends in [Q]. *)
Inductive vwp {A} (F : L -> Prop) : prog A -> mem -> (A -> mem -> Prop) -> Prop :=
| VRet a m (Q : A -> mem -> Prop) : Q a m -> vwp F (PRet a) m Q
| VRead l k m v Q : F l -> m l = Some v -> vwp F (k v) m Q -> vwp F (PRead l k) m Q
| VWrite l v q m v0 Q : F l -> m l = Some v0 -> vwp F q (upd m l v) Q -> vwp F (PWrite l v q) m Q
| VSharedRead l k m Q : vol l -> (forall v, ok v -> vwp F (k v) m Q) -> vwp F (PRead l k) m Q
| VSharedWrite l v q m Q : vol l -> ok v -> vwp F q m Q -> vwp F (PWrite l v q) m Q.

Lemma vwp_weaken {A} F (p : prog A) m Q : vwp F p m Q -> forall (Q' : A -> mem -> Prop), (forall a m', Q a m' -> Q' a m') -> vwp F p m Q'.
Proof.
  induction 1 as [a m Q H|l k m v Q Fl E H IH|l v q m v0 Q Fl E H IH|l k m Q Vl H IH|l v q m Q Vl O H IH]; intros Q' W.
  - apply VRet. auto.
  - eapply VRead; eauto.
  - eapply VWrite; eauto.
  - apply VSharedRead; auto.
  - apply VSharedWrite; auto.
Qed.

Lemma vwp_bind {A B} F (p : prog A) (k : A -> prog B) m Q : vwp F p m (fun a m1 => vwp F (k a) m1 Q) -> vwp F (pbind p k) m Q.
Proof.
  intros H. remember (fun a m1 => vwp F (k a) m1 Q) as P eqn:EP. revert EP.
  induction H as [a m P H|l f m v P Fl E H IH|l v q m v0 P Fl E H IH|l f m P Vl H IH|l v q m P Vl O H IH]; intros ->; cbn.
  - exact H.
  - eapply VRead; eauto.
  - eapply VWrite; eauto.
  - apply VSharedRead; [exact Vl|]. intros v O. exact (IH v O eq_refl).
  - apply VSharedWrite; auto.
Qed.

Lemma vwp_local {A} F (p : prog A) m Q : vwp F p m Q -> forall n, (forall l, F l -> n l = m l) ->
  vwp F p n (fun a n' => exists m', Q a m' /\ forall l, F l -> n' l = m' l).
Proof.
  induction 1 as [a m Q H|l k m v Q Fl E H IH|l v q m v0 Q Fl E H IH|l k m Q Vl H IH|l v q m Q Vl O H IH]; intros n Ag.
  - apply VRet. eauto.
  - eapply VRead; [exact Fl|rewrite Ag by exact Fl; exact E|]. apply IH, Ag.
  - eapply VWrite; [exact Fl|rewrite Ag by exact Fl; exact E|]. apply IH.
    intros x Fx. destruct (dec x l) as [->|N]; [rewrite !upd_eq; reflexivity|rewrite !upd_ne; auto].
  - apply VSharedRead; auto.
  - apply VSharedWrite; auto.
Qed.

Section Tasks.
Variable F : nat -> L -> Prop.
Hypothesis Disjoint : forall i j l, F i l -> F j l -> i = j.
Hypothesis Apart : forall i l, F i l -> ~ vol l.
Variable Q : nat -> mem -> Prop.

Definition vshared (m : mem) : Prop := forall l, vol l -> exists v, m l = Some v /\ ok v.
Definition vinv (m0 : mem) (s : list (prog unit) * mem) : Prop :=
  vshared (snd s) /\
  (forall i p, nth_error (fst s) i = Some p -> vwp (F i) p (snd s) (fun _ m' => exists m'', Q i m'' /\ forall l, F i l -> m' l = m'' l)) /\
  (forall l, ~ vol l -> (forall i, i < List.length (fst s) -> ~ F i l) -> snd s l = m0 l).

Definition closed (G : L -> Prop) (P : unit -> mem -> Prop) : Prop :=
  forall a m n, P a m -> (forall l, G l -> n l = m l) -> P a n.
Lemma after_closed i : closed (F i) (fun _ m' => exists m'', Q i m'' /\ forall l, F i l -> m' l = m'' l).
Proof. intros a m n (m'' & H & Ag) Ag2. exists m''. split; [exact H|]. intros l Fl. rewrite Ag2 by exact Fl. apply Ag, Fl. Qed.

Lemma vwp_agree (G : L -> Prop) (p : prog unit) m n P : closed G P -> vwp G p m P -> (forall l, G l -> n l = m l) -> vwp G p n P.
Proof.
  intros C H Ag. eapply vwp_weaken; [eapply vwp_local; eassumption|]. intros a m' (m'' & Hm & Ag'). exact (C a m'' m' Hm Ag').
Qed.

Lemma vwp_step (G : L -> Prop) (p : prog unit) m P p1 m1 : (forall l, G l -> ~ vol l) -> closed G P -> vshared m -> vwp G p m P -> pstep dec p m p1 m1 ->
  vwp G p1 m1 P /\ vshared m1 /\ (forall l, ~ G l -> ~ vol l -> m1 l = m l).
Proof.
  intros Ap Cl Sh H St. destruct St as [l k m v E|l v q m v0 E]; inversion H; subst.
  - replace v with v0 by congruence. auto.
  - match goal with X : vol l |- _ => destruct (Sh l X) as (u & Eu & Ou) end. replace v with u by congruence. auto.
  - split; [assumption|]. split.
    + intros x Vx. rewrite upd_ne; [apply Sh, Vx|]. intros ->. eapply Ap; eassumption.
    + intros x Ng _. apply upd_ne. congruence.
  - split; [|split].
    + eapply vwp_agree; [exact Cl|eassumption|]. intros x Gx. apply upd_ne. intros ->. eapply Ap; eassumption.
    + intros x Vx. destruct (dec x l) as [->|N]; [rewrite upd_eq; eauto|rewrite upd_ne by exact N; apply Sh, Vx].
    + intros x _ Nv. apply upd_ne. congruence.
Qed.

Lemma vinv_step m0 s s' : (forall l, vol l \/ ~ vol l) -> vinv m0 s -> istep dec s s' -> vinv m0 s' /\ List.length (fst s') = List.length (fst s).
Proof.
  intros Vd (Sh & T & O) St. destruct St as [ps m i p p' m1 E St]. cbn in *. split; [|apply set_nth_length].
  destruct (vwp_step _ _ _ _ _ _ (Apart i) (after_closed i) Sh (T i p E) St) as (W & Sh1 & Fr).
  split; [exact Sh1|]. split; cbn.
  - intros j q Ej. destruct (Nat.eq_dec j i) as [->|N].
    + rewrite nth_error_set_nth_eq in Ej by (apply nth_error_Some; congruence). injection Ej as <-. exact W.
    + rewrite nth_error_set_nth_ne in Ej by auto. eapply vwp_agree; [apply after_closed|exact (T j q Ej)|].
      intros l Fl. apply Fr; [|exact (Apart j l Fl)]. intros Fi. apply N. eauto.
  - intros l Nv Nl. rewrite set_nth_length in Nl. rewrite Fr; [apply O; assumption| |exact Nv].
    apply Nl. apply nth_error_Some. congruence.
Qed.
Lemma vinv_reach m0 s s' : (forall l, vol l \/ ~ vol l) -> vinv m0 s -> ireach dec s s' -> vinv m0 s' /\ List.length (fst s') = List.length (fst s).
Proof.
  intros Vd I R. induction R as [s|s1 s2 s3 R IH St]; [auto|]. destruct (IH I) as [I2 E2].
  destruct (vinv_step _ _ _ Vd I2 St) as [I3 E3]. split; [exact I3|congruence].
Qed.

Lemma vwp_progress (G : L -> Prop) (p : prog unit) m P : vshared m -> vwp G p m P -> ~ pfail p m /\ (p = PRet tt \/ exists p1 m1, pstep dec p m p1 m1).
Proof.
  intros Sh H. inversion H; subst; cbn.
  - split; [auto|left]. destruct a. reflexivity.
  - split; [congruence|right]. eexists. eexists. eapply PStepRead. eassumption.
  - split; [congruence|right]. eexists. eexists. eapply PStepWrite. eassumption.
  - match goal with X : vol l |- _ => destruct (Sh l X) as (u & Eu & Ou) end.
    split; [congruence|right]. eexists. eexists. eapply PStepRead. eassumption.
  - match goal with X : vol l |- _ => destruct (Sh l X) as (u & Eu & Ou) end.
    split; [congruence|right]. eexists. eexists. eapply PStepWrite. eassumption.
Qed.
End Tasks.

(** No interleaving fails; all can be completed; and at the end each footprint is as its program alone may leave it. *)
Lemma vinterleave (F : nat -> L -> Prop) (Q : nat -> mem -> Prop) ps m s :
  (forall l, vol l \/ ~ vol l) ->
  (forall i j l, F i l -> F j l -> i = j) -> (forall i l, F i l -> ~ vol l) -> vshared m ->
  (forall i p, nth_error ps i = Some p -> vwp (F i) p m (fun _ => Q i)) ->
  ireach dec (ps, m) s ->
  (forall p, In p (fst s) -> ~ pfail p (snd s)) /\
  (all_done (fst s) \/ exists s', istep dec s s') /\
  vshared (snd s) /\
  (all_done (fst s) -> (forall i, i < List.length ps -> exists m', Q i m' /\ forall l, F i l -> snd s l = m' l) /\
                       (forall l, ~ vol l -> (forall i, i < List.length ps -> ~ F i l) -> snd s l = m l)).
Proof.
  intros Vd D Ap Sh H R.
  assert (I0 : vinv F Q m (ps, m)).
  { split; [exact Sh|]. split; cbn; [|reflexivity]. intros i p E. eapply vwp_weaken; [exact (H i p E)|]. cbn. intros _ m' Hm. eauto. }
  destruct (vinv_reach F D Ap Q m _ _ Vd I0 R) as [(Sh2 & T & O) Len]. destruct s as [qs n]. cbn in *.
  assert (P : forall p, In p qs -> ~ pfail p n /\ (p = PRet tt \/ exists p1 m1, pstep dec p n p1 m1)).
  { intros p I. apply In_nth_error in I. destruct I as [i E]. eapply vwp_progress; [exact Sh2|exact (T i p E)]. }
  split; [intros p I; exact (proj1 (P p I))|]. split; [|split; [exact Sh2|]].
  - assert (Dec : (exists i p p1 m1, nth_error qs i = Some p /\ pstep dec p n p1 m1) \/ all_done qs).
    { clear - P. induction qs as [|q qs IH]; [right; intros p []|].
      destruct (P q (or_introl eq_refl)) as [_ [->|(p1 & m1 & S)]].
      - destruct IH as [(i & p & p1 & m1 & E & S)|A]; [intros p I; apply P; right; exact I| |].
        + left. exists (Datatypes.S i), p, p1, m1. auto.
        + right. intros p [<-|I]; auto.
      - left. exists 0, q, p1, m1. auto. }
    destruct Dec as [(i & p & p1 & m1 & E & S)|A]; [right|left; exact A]. eexists. econstructor; eassumption.
  - intros A. split.
    + intros i Li. rewrite <- Len in Li. apply nth_error_Some in Li. destruct (nth_error qs i) as [p|] eqn:E; [|congruence].
      assert (p = PRet tt) by (apply A; eapply nth_error_In; exact E). subst p.
      pose proof (T i _ E) as W. inversion W; subst. assumption.
    + intros l Nv N. rewrite Len in O. apply O; assumption.
Qed.

(** Running the programs one after the other either succeeds or is an interleaving that fails. *)
Lemma run_reach (p : prog unit) : forall m ps i, nth_error ps i = Some p ->
  match run dec p m with
  | Ret (_, m') => ireach dec (ps, m) (set_nth i (PRet tt) ps, m')
  | _ => exists s q, ireach dec (ps, m) s /\ In q (fst s) /\ pfail q (snd s)
  end.
Proof.
  induction p as [a| | |l k IH|l v q IH]; intros m ps i N; cbn.
  - destruct a. assert (set_nth i (PRet tt) ps = ps) as ->; [|constructor].
    revert i N. induction ps as [|q ps IHp]; intros [|i] N; cbn in *; try discriminate; [congruence|]. f_equal. apply IHp, N.
  - exists (ps, m), PUndef. split; [constructor|]. split; [eapply nth_error_In, N|exact I].
  - exists (ps, m), PFatal. split; [constructor|]. split; [eapply nth_error_In, N|exact I].
  - destruct (m l) as [v|] eqn:E.
    2:{ exists (ps, m), (PRead l k). split; [constructor|]. split; [eapply nth_error_In, N|exact E]. }
    assert (S : istep dec (ps, m) (set_nth i (k v) ps, m)) by (econstructor; [exact N|constructor; exact E]).
    pose proof (ITrans dec _ _ _ (IRefl dec _) S) as R1.
    assert (N' : nth_error (set_nth i (k v) ps) i = Some (k v)) by (apply nth_error_set_nth_eq; apply nth_error_Some; congruence).
    pose proof (IH v m _ i N') as R2. destruct (run dec (k v) m) as [[u m']| |].
    + replace (set_nth i (PRet tt) ps) with (set_nth i (PRet tt) (set_nth i (k v) ps)).
      * eapply ireach_trans; eassumption.
      * clear. revert i. induction ps as [|q ps IH]; intros [|i]; cbn; congruence.
    + destruct R2 as (s & q & R2 & X). exists s, q. split; [eapply ireach_trans; eassumption|exact X].
    + destruct R2 as (s & q & R2 & X). exists s, q. split; [eapply ireach_trans; eassumption|exact X].
  - destruct (m l) as [v0|] eqn:E.
    2:{ exists (ps, m), (PWrite l v q). split; [constructor|]. split; [eapply nth_error_In, N|exact E]. }
    assert (S : istep dec (ps, m) (set_nth i q ps, upd m l v)) by (econstructor; [exact N|econstructor; exact E]).
    pose proof (ITrans dec _ _ _ (IRefl dec _) S) as R1.
    assert (N' : nth_error (set_nth i q ps) i = Some q) by (apply nth_error_set_nth_eq; apply nth_error_Some; congruence).
    pose proof (IH (upd m l v) _ i N') as R2. destruct (run dec q (upd m l v)) as [[u m']| |].
    + replace (set_nth i (PRet tt) ps) with (set_nth i (PRet tt) (set_nth i q ps)).
      * eapply ireach_trans; eassumption.
      * clear. revert i. induction ps as [|q' ps IH]; intros [|i]; cbn; congruence.
    + destruct R2 as (s & q' & R2 & X). exists s, q'. split; [eapply ireach_trans; eassumption|exact X].
    + destruct R2 as (s & q' & R2 & X). exists s, q'. split; [eapply ireach_trans; eassumption|exact X].
Qed.

Lemma run_tasks_reach (todo : list (prog unit)) : forall (done : list (prog unit)) (m : mem),
  match run_tasks dec todo m with
  | Ret m' => ireach dec (done ++ todo, m) (done ++ map (fun _ => PRet tt) todo, m')
  | _ => exists s q, ireach dec (done ++ todo, m) s /\ In q (fst s) /\ pfail q (snd s)
  end.
Proof.
  induction todo as [|p todo IH]; intros done m; cbn [run_tasks map]; [constructor|].
  assert (N : nth_error (done ++ p :: todo) (List.length done) = Some p) by (rewrite nth_error_app2, Nat.sub_diag by lia; reflexivity).
  pose proof (run_reach p m _ _ N) as R1. destruct (run dec p m) as [[u m1]| |]; cbn [bind]; [|exact R1|exact R1].
  replace (set_nth (List.length done) (PRet tt) (done ++ p :: todo)) with ((done ++ [PRet tt]) ++ todo) in R1
    by (rewrite <- app_assoc; clear; induction done as [|d done IH]; cbn; [reflexivity|f_equal; exact IH]).
  pose proof (IH (done ++ [PRet tt]) m1) as R2. destruct (run_tasks dec todo m1) as [m'| |].
  - rewrite <- !app_assoc in R2. cbn [app] in R2. rewrite <- app_assoc in R1. cbn [app] in R1. eapply ireach_trans; eassumption.
  - destruct R2 as (s & q & R2 & X). exists s, q. split; [eapply ireach_trans; eassumption|exact X].
  - destruct R2 as (s & q & R2 & X). exists s, q. split; [eapply ireach_trans; eassumption|exact X].
Qed.
End Vol.
