(** FlatConc_proofs.v - concurrent GetColumn on a flat file store (property C19). *)
From Verif Require Import Base F32 Column DataStore Strings Tsv Flatfiles FlatSpec Base_proofs DataStore_proofs.

(** What thread [t], started with the names [all], knows about the store. *)
Definition thread_ok (load : str -> option column) (m : list (str * nat)) (all : list str) (t : fthread) : Prop :=
  (forall n, In n (ft_todo t) -> In n all) /\
  match ft_pc t with
  | FIdle => True
  | FLoad n => In n all /\ assoc n m = None
  | FInsert n c => In n all /\ assoc n m = None /\ load n = Some c
  | FFetch n => In n all /\ exists id, assoc n m = Some id
  end /\
  (forall n id, In (n, Some id) (ft_results t) -> assoc n m = Some id).

Record finv (load : str -> option column) (names : list (list str)) (s : fstate) : Prop := {
  fi_threads : Forall2 (thread_ok load (f_map s)) names (f_threads s);
  fi_heap : forall n id, assoc n (f_map s) = Some id ->
              exists c, nth_error (f_heap s) id = Some (Some c) /\ load n = Some c
}.

Lemma finit_inv load names : finv load names (finit names).
Proof.
  split; cbn; [|discriminate]. induction names as [|l t IH]; cbn; constructor; [|exact IH].
  split; [auto|]. split; [exact I|]. intros n id [].
Qed.

Lemma Forall2_set {A B} (R : A -> B -> Prop) l1 : forall l2 i a b, Forall2 R l1 l2 -> nth_error l1 i = Some a -> R a b ->
  Forall2 R l1 (set_nth i b l2).
Proof.
  induction l1 as [|x l1 IH]; intros l2 i a b F N H; inversion F; subst; [destruct i; discriminate|].
  destruct i; cbn in *; [injection N as ->; constructor; assumption|]. constructor; [assumption|]. eauto.
Qed.

Lemma assoc_remove {B} n k (m : list (str * B)) :
  assoc k (filter (fun p => negb (str_eqb n (fst p))) m) = if str_eqb n k then None else assoc k m.
Proof.
  induction m as [|[a b] m IH]; cbn; [destruct (str_eqb n k); reflexivity|].
  destruct (str_eqb_spec n a) as [->|N]; cbn [negb].
  - rewrite IH. destruct (str_eqb_spec a k) as [->|K]; [reflexivity|].
    destruct (str_eqb_spec k a) as [->|]; [contradiction|reflexivity].
  - cbn. rewrite IH. destruct (str_eqb_spec k a) as [->|K]; [|reflexivity].
    destruct (str_eqb_spec n a) as [->|]; [contradiction|reflexivity].
Qed.

Lemma finsert_new n c s m h : finsert n c s = (m, h) -> assoc n (f_map s) = None ->
  h = f_heap s ++ [Some c] /\
  forall k, assoc k m = if str_eqb k n then Some (List.length (f_heap s)) else assoc k (f_map s).
Proof.
  unfold finsert. intros E N. rewrite N in E. injection E as <- <-. split; [reflexivity|]. intros k. cbn.
  destruct (str_eqb_spec k n) as [->|K]; [reflexivity|]. rewrite assoc_remove.
  destruct (str_eqb_spec n k) as [->|]; [contradiction|reflexivity].
Qed.

(** A new binding of [n] by thread [i] does not disturb the other threads. *)
Lemma thread_ok_grow load m m' all t n id : thread_ok load m all t -> ~ In n all -> assoc n m = None ->
  (forall k, assoc k m' = if str_eqb k n then Some id else assoc k m) -> thread_ok load m' all t.
Proof.
  intros (T & P & R) N Fr G. split; [exact T|].
  assert (Keep : forall k id', assoc k m = Some id' -> assoc k m' = Some id').
  { intros k id' A. rewrite G. destruct (str_eqb_spec k n) as [->|]; congruence. }
  assert (KeepN : forall k, In k all -> assoc k m = None -> assoc k m' = None).
  { intros k I A. rewrite G. destruct (str_eqb_spec k n) as [->|]; [contradiction|exact A]. }
  split; [|intros k id' I; eauto].
  destruct (ft_pc t) as [|k|k c|k]; [exact I| | |].
  - destruct P as [P1 P2]. auto.
  - destruct P as [P1 [P2 P3]]. auto.
  - destruct P as [P1 [id' P2]]. eauto.
Qed.

Lemma fstep_inv load names s s' : disjoint_names names -> finv load names s -> fstep load s s' -> finv load names s'.
Proof.
  intros D [T H] St.
  inversion St as [s0 i n todo rs id E A|s0 i n todo rs E A|s0 i n todo rs E A|s0 i n c todo rs E A|
    s0 i n c todo rs m id c' rows rows' E _ _ _ _ _ _|s0 i n c todo rs E _|s0 i n todo rs id E A]; subst s0; subst s'.
  all: assert (Ex : exists all, nth_error names i = Some all /\ thread_ok load (f_map s) all
         (match nth_error (f_threads s) i with Some t => t | None => mkFT [] FIdle [] end)) by
       (rewrite E; clear - T E; revert i E; induction T as [|a t la lt P T IH]; intros [|i] E; cbn in E; try discriminate;
        [injection E as ->; exists a; auto|apply IH, E]).
  all: destruct Ex as (all & Na & (Td & P & R)); rewrite E in Td, P, R; cbn in Td, P, R.
  - split; cbn [with_thread f_map f_threads f_heap]; [|exact H]. apply (Forall2_set _ _ _ _ all _ T Na).
    split; [|split]; cbn; auto. split; [auto|eauto].
  - split; cbn [with_thread f_map f_threads f_heap]; [|exact H]. apply (Forall2_set _ _ _ _ all _ T Na).
    split; [|split]; cbn; auto.
  - split; cbn [with_thread f_map f_threads f_heap]; [|exact H]. apply (Forall2_set _ _ _ _ all _ T Na).
    split; [|split]; cbn; auto. intros k id' [K|K]; [discriminate|auto].
  - split; cbn [with_thread f_map f_threads f_heap]; [|exact H]. apply (Forall2_set _ _ _ _ all _ T Na).
    destruct P. split; [|split]; cbn; auto.
  - split; cbn [with_thread f_map f_threads f_heap]; [|exact H]. apply (Forall2_set _ _ _ _ all _ T Na).
    split; [|split]; cbn; auto. intros k id' [K|K]; [discriminate|auto].
  - destruct P as [P1 [P2 P3]]. destruct (finsert n c s) as [m h] eqn:F.
    destruct (finsert_new _ _ _ _ _ F P2) as [-> G].
    split; cbn [f_map f_threads f_heap].
    + assert (T' : Forall2 (fun a t => thread_ok load (f_map s) a t) names (f_threads s)) by exact T.
      (* every thread but i *)
      assert (Oth : forall j a t, nth_error names j = Some a -> nth_error (f_threads s) j = Some t -> j <> i ->
                thread_ok load m a t).
      { intros j a t Ja Jt J. apply (thread_ok_grow load (f_map s) m a t n (List.length (f_heap s))); auto.
        - clear - T Ja Jt. revert j Ja Jt. induction T as [|x y lx ly Q T IH]; intros [|j] Ja Jt; cbn in *; try discriminate.
          + congruence.
          + exact (IH j Ja Jt).
        - intros I. apply J. exact (D j i a all n Ja Na I P1). }
      assert (Me : thread_ok load m all (mkFT todo (FFetch n) rs)).
      { split; [exact Td|]. split; cbn.
        - split; [exact P1|]. exists (List.length (f_heap s)). rewrite G, str_eqb_refl. reflexivity.
        - intros k id' I. rewrite G. destruct (str_eqb_spec k n) as [->|]; [rewrite (R _ _ I) in P2; discriminate|auto]. }
      clear - T Oth Me Na. revert i Na Oth. induction T as [|x y lx ly Q T IH]; intros i Na Oth; [destruct i; discriminate|].
      destruct i; cbn in *.
      * injection Na as ->. constructor; [exact Me|].
        assert (Z : forall j a t, nth_error lx j = Some a -> nth_error ly j = Some t -> thread_ok load m a t)
          by (intros j a t A B; exact (Oth (S j) a t A B ltac:(discriminate))).
        clear - T Z. induction T as [|x y lx ly Q T IH]; constructor; [exact (Z 0 x y eq_refl eq_refl)|].
        apply IH. intros j. exact (Z (S j)).
      * constructor; [exact (Oth 0 x y eq_refl eq_refl ltac:(discriminate))|]. apply IH; [exact Na|].
        intros j a t A B J. apply (Oth (S j) a t A B). congruence.
    + intros k id A. rewrite G in A. destruct (str_eqb_spec k n) as [->|K].
      * injection A as <-. exists c. split; [rewrite nth_error_app2, Nat.sub_diag by lia; reflexivity|exact P3].
      * destruct (H k id A) as (c' & C & L). exists c'. split; [rewrite nth_error_app1; [exact C|]|exact L].
        apply nth_error_Some. rewrite C. discriminate.
  - destruct P as [P1 P2]. split; cbn [with_thread f_map f_threads f_heap]; [|exact H].
    apply (Forall2_set _ _ _ _ all _ T Na).
    split; [|split]; cbn; auto. intros k id' [K|K]; [injection K as -> ->; exact A|auto].
Qed.

Lemma freach_inv load names s s' : disjoint_names names -> finv load names s -> freach load s s' -> finv load names s'.
Proof. intros D I R. induction R; [exact I|]. eapply fstep_inv; [exact D|exact (IHR I)|eassumption]. Qed.

Lemma concurrent_safe load names s : disjoint_names names -> freach load (finit names) s ->
  (forall t n id, In t (f_threads s) -> In (n, Some id) (ft_results t) ->
     exists c, nth_error (f_heap s) id = Some (Some c) /\ load n = Some c) /\
  (forall t t' n id id', In t (f_threads s) -> In t' (f_threads s) ->
     In (n, Some id) (ft_results t) -> In (n, Some id') (ft_results t') -> id = id').
Proof.
  intros D R. destruct (freach_inv load names _ _ D (finit_inv load names) R) as [T H].
  assert (K : forall t n id, In t (f_threads s) -> In (n, Some id) (ft_results t) -> assoc n (f_map s) = Some id).
  { intros t n id It. clear - T It. induction T as [|a u la lu (_ & _ & P) T IH]; [destruct It|].
    destruct It as [<-|It]; [apply P|apply IH, It]. }
  split.
  - intros t n id It Ir. apply H. eauto.
  - intros t t' n id id' A B C E. pose proof (K _ _ _ A C). pose proof (K _ _ _ B E). congruence.
Qed.

(** No call gets stuck: a thread that has started or has names left can take a step. *)
Lemma concurrent_progress load names s i t : disjoint_names names ->
  (forall n c, load n = Some c -> exists k, col_size c = Ret k) ->
  freach load (finit names) s -> nth_error (f_threads s) i = Some t ->
  (ft_pc t <> FIdle \/ ft_todo t <> []) -> exists s', fstep load s s'.
Proof.
  intros D Sz R E B. destruct (freach_inv load names _ _ D (finit_inv load names) R) as [T H].
  assert (Ok : exists all, thread_ok load (f_map s) all t).
  { clear - T E. revert i E. induction T as [|a u la lu P T IH]; intros [|i] E; cbn in E; try discriminate.
    - injection E as ->. eauto.
    - eapply IH; eassumption. }
  destruct Ok as (all & _ & P & _). destruct t as [todo pc rs]. cbn in *. destruct pc as [|n|n c|n].
  - destruct todo as [|n todo]; [intuition congruence|]. destruct (assoc n (f_map s)) as [id|] eqn:A.
    + eexists. eapply FCheckHit; eassumption.
    + eexists. eapply FCheckMiss; eassumption.
  - destruct (load n) as [c|] eqn:L; eexists; [eapply FRead|eapply FReadFail]; eassumption.
  - destruct P as (_ & A & L). destruct (f_map s) as [|[m id] rest] eqn:Em.
    + eexists. eapply FPut; [eassumption|]. left. exact Em.
    + destruct (H m id) as (c' & C' & L'); [cbn; rewrite str_eqb_refl; reflexivity|].
      destruct (Sz _ _ L) as (rows & Hr). destruct (Sz _ _ L') as (rows' & Hr').
      assert (I : In (m, id) (f_map s)) by (rewrite Em; left; reflexivity).
      destruct (Nat.eq_dec rows' 0) as [Z|Z]; [|destruct (Nat.eq_dec rows' rows) as [Q|Q]].
      * eexists. eapply FPut; [eassumption|]. right. exists m, id, c', rows, rows'. auto 10.
      * eexists. eapply FPut; [eassumption|]. right. exists m, id, c', rows, rows'. auto 10.
      * eexists. eapply (FMismatch load s i n c todo rs m id c' rows rows'); eauto. lia.
  - destruct P as (_ & id & A). eexists. eapply FGet; eassumption.
Qed.
