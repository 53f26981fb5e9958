(** Base_proofs.v - generic lemmas about the helpers of Base.v. *)
From Verif Require Import Base.

Global Arguments Z.add : simpl never.
Global Arguments Z.sub : simpl never.
Global Arguments Z.mul : simpl never.
Global Arguments Z.div : simpl never.
Global Arguments Z.modulo : simpl never.
Global Arguments Z.max : simpl never.
Global Arguments Z.to_nat : simpl never.
Global Arguments Z.of_nat : simpl never.

Lemma str_eqb_spec a b : reflect (a = b) (str_eqb a b).
Proof. unfold str_eqb. destruct (str_eq_dec a b); constructor; auto. Qed.

Lemma str_eqb_refl a : str_eqb a a = true.
Proof. destruct (str_eqb_spec a a); congruence. Qed.

Lemma set_nth_length {A} i (a : A) l : List.length (set_nth i a l) = List.length l.
Proof. revert i; induction l; destruct i; cbn; auto. Qed.

Lemma nth_error_set_nth_eq {A} i (a : A) l :
  i < List.length l -> nth_error (set_nth i a l) i = Some a.
Proof.
  revert i; induction l; destruct i; cbn; intros; try lia; auto.
  apply IHl; lia.
Qed.

Lemma nth_error_set_nth_ne {A} i j (a : A) l :
  i <> j -> nth_error (set_nth i a l) j = nth_error l j.
Proof.
  revert i j; induction l; destruct i, j; cbn; intros; try congruence; auto.
Qed.

Lemma bind_ret {A B} (r : res A) (k : A -> res B) b :
  bind r k = Ret b -> exists a, r = Ret a /\ k a = Ret b.
Proof. destruct r; cbn; intros; try discriminate; eauto. Qed.

Lemma vget_ret {A} (l : list A) i a : vget l i = Ret a <-> nth_error l i = Some a.
Proof. unfold vget. destruct (nth_error l i); split; congruence. Qed.

Lemma vset_ret {A} (l : list A) i a l' :
  vset l i a = Ret l' <-> i < List.length l /\ l' = set_nth i a l.
Proof.
  unfold vset. destruct (Nat.ltb_spec i (List.length l)); split.
  - intros [= <-]; auto.
  - intros [_ ->]; auto.
  - discriminate.
  - lia.
Qed.

Lemma fold_res_app {A B} (f : A -> B -> res A) l1 l2 a :
  fold_res f (l1 ++ l2) a = bind (fold_res f l1 a) (fold_res f l2).
Proof.
  revert a; induction l1; cbn; intros; auto.
  destruct (f a0 a); cbn; auto.
Qed.

Lemma nth_error_snoc {A} (l : list A) a i :
  nth_error (l ++ [a]) i =
  if i <? List.length l then nth_error l i else if i =? List.length l then Some a else None.
Proof.
  destruct (Nat.ltb_spec i (List.length l)).
  - apply nth_error_app1; auto.
  - rewrite nth_error_app2 by lia.
    destruct (Nat.eqb_spec i (List.length l)).
    + subst. rewrite Nat.sub_diag. reflexivity.
    + destruct (i - List.length l) eqn:E; [lia|]. cbn. apply nth_error_None. cbn. lia.
Qed.

Lemma Forall2_nth_error {A B} (R : A -> B -> Prop) l1 l2 :
  Forall2 R l1 l2 -> forall i b, nth_error l2 i = Some b ->
  exists a, nth_error l1 i = Some a /\ R a b.
Proof.
  induction 1; intros [|i] b; cbn; try discriminate.
  - intros [= <-]; eauto.
  - intros; eauto.
Qed.

Lemma Forall2_nth_error_l {A B} (R : A -> B -> Prop) l1 l2 :
  Forall2 R l1 l2 -> forall i a, nth_error l1 i = Some a ->
  exists b, nth_error l2 i = Some b /\ R a b.
Proof.
  induction 1; intros [|i] b; cbn; try discriminate.
  - intros [= <-]; eauto.
  - intros; eauto.
Qed.

Lemma zlen_app {A} (l1 l2 : list A) : zlen (l1 ++ l2) = (zlen l1 + zlen l2)%Z.
Proof. unfold zlen. rewrite app_length. lia. Qed.
Lemma zlen_nonneg {A} (l : list A) : (0 <= zlen l)%Z.
Proof. unfold zlen. lia. Qed.
Lemma zlen_cons {A} (a : A) l : (zlen (a :: l) = 1 + zlen l)%Z.
Proof. unfold zlen. cbn [List.length]. lia. Qed.
Lemma zlen_nil {A} : (zlen (@nil A) = 0)%Z.
Proof. reflexivity. Qed.

Lemma NoDup_snoc {A} (l : list A) a : NoDup l -> ~ In a l -> NoDup (l ++ [a]).
Proof.
  intros H1 H2. induction H1; cbn.
  - constructor; auto. constructor.
  - constructor.
    + rewrite in_app_iff. cbn in *. intuition congruence.
    + apply IHNoDup. cbn in H2; tauto.
Qed.

Lemma Forall2_weaken {A B} (R S : A -> B -> Prop) l1 l2 :
  (forall a b, R a b -> S a b) -> Forall2 R l1 l2 -> Forall2 S l1 l2.
Proof. induction 2; constructor; auto. Qed.

Lemma Forall2_len {A B} (R : A -> B -> Prop) l1 l2 :
  Forall2 R l1 l2 -> List.length l1 = List.length l2.
Proof. induction 1; cbn; auto. Qed.
