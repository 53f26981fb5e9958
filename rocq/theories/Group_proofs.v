(** Group_proofs.v - the pairs and ranks of a group (properties C45 and C46). *)
From Coq Require Import Sorting.Permutation SpecFloat.
From Verif Require Import Base Base_proofs F32 F32_proofs Column Num Config Split SplitSpec Loss Pairwise PairSpec.

Lemma read_all_ok {A} (v : nat -> res A) (t : nat -> A) rows : (forall i, In i rows -> v i = Ret (t i)) -> read_all v rows = Ret (map t rows).
Proof.
  induction rows as [|i rows IH]; intros H; cbn; [reflexivity|].
  rewrite (H i (or_introl eq_refl)). cbn. rewrite IH by (intros k I; apply H; right; exact I). reflexivity.
Qed.
Lemma read_all_ret {A} (v : nat -> res A) rows : forall l, read_all v rows = Ret l -> Forall2 (fun i x => v i = Ret x) rows l.
Proof.
  induction rows as [|i rows IH]; intros l E; cbn in E; [injection E as <-; constructor|].
  apply bind_ret in E. destruct E as (x & E1 & E2). apply bind_ret in E2. destruct E2 as (l' & E2 & E3). injection E3 as <-.
  constructor; auto.
Qed.

(** ** Counting *)
Lemma filter_length_perm {A} (p : A -> bool) l l' : Permutation l l' -> List.length (filter p l) = List.length (filter p l').
Proof.
  induction 1 as [|x l l' P IH|x z l|l l' l'' P1 IH1 P2 IH2]; cbn; [reflexivity| | |congruence].
  - destruct (p x); cbn; congruence.
  - destruct (p x), (p z); cbn; reflexivity.
Qed.
Lemma prod_count {A B} (p : A * B -> bool) l l' :
  List.length (filter p (list_prod l l')) = list_sum (map (fun a => List.length (filter (fun b => p (a, b)) l')) l).
Proof.
  induction l as [|a l IH]; [reflexivity|]. cbn [list_prod map list_sum fold_right].
  rewrite filter_app, app_length, IH. unfold list_sum. f_equal.
  clear IH. induction l' as [|b l' IH]; cbn; [reflexivity|]. destruct (p (a, b)); cbn; congruence.
Qed.
Lemma list_sum_perm l l' : Permutation l l' -> list_sum l = list_sum l'.
Proof. unfold list_sum. induction 1; cbn; lia. Qed.
Lemma prod_count_perm {A} (p : A * A -> bool) l l' : Permutation l l' ->
  List.length (filter p (list_prod l l)) = List.length (filter p (list_prod l' l')).
Proof.
  intros P. rewrite !prod_count. erewrite (map_ext (fun a => List.length (filter (fun b => p (a, b)) l))).
  - apply list_sum_perm, Permutation_map, P.
  - intros a. apply filter_length_perm, P.
Qed.

(** ** The boundaries *)
Section Chain.
Variables (size : nat) (v : nat -> f32).
Hypothesis Nan : forall i, i < size -> is_nan (v i) = false.
Hypothesis Sorted : forall i j, i <= j -> j < size -> fltb (v i) (v j) = false.

Inductive chain : nat -> nat -> list (nat * (nat * nat)) -> nat -> Prop :=
| CNil last pairs : (forall i, last <= i < size -> feqb (v last) (v i) = true) -> chain last pairs [] pairs
| CCons last pairs block m n : 0 < block -> last + block < size ->
    (forall i, last <= i < last + block -> feqb (v last) (v i) = true) ->
    feqb (v (last + block - 1)) (v (last + block)) = false ->
    chain (last + block) (pairs + block * (size - (last + block))) m n ->
    chain last pairs ((pairs + block * (size - (last + block)), (block, last + block)) :: m) n.

Lemma boundaries_chain ys : forall i last pairs, 0 < i -> last < i -> i + List.length ys = size ->
  (forall k x, nth_error ys k = Some x -> x = v (i + k)) -> (forall k, last <= k < i -> feqb (v last) (v k) = true) ->
  chain last pairs (snd (boundaries size i last pairs (v (i - 1)) ys)) (fst (boundaries size i last pairs (v (i - 1)) ys)).
Proof.
  induction ys as [|x ys IH]; intros i last pairs I0 L Len Nth Eq; cbn [boundaries].
  - cbn in *. apply CNil. intros k K. apply Eq. lia.
  - cbn in Len. pose proof (Nth 0 x eq_refl) as X. rewrite Nat.add_0_r in X. subst x.
    assert (Nth' : forall k x, nth_error ys k = Some x -> x = v (S i + k)).
    { intros k x E. rewrite Nat.add_succ_comm. apply Nth. exact E. }
    destruct (feqb (v (i - 1)) (v i)) eqn:E.
    + pose proof (IH (S i) last pairs ltac:(lia) ltac:(lia) ltac:(lia) Nth') as H.
      replace (S i - 1) with i in H by lia. apply H. intros k K. destruct (Nat.eq_dec k i) as [->|N]; [|apply Eq; lia].
      eapply feqb_trans; [apply (Eq (i - 1)); lia|exact E].
    + pose proof (IH (S i) i (pairs + (i - last) * (size - i)) ltac:(lia) ltac:(lia) ltac:(lia) Nth') as H.
      replace (S i - 1) with i in H by lia.
      destruct (boundaries size (S i) i (pairs + (i - last) * (size - i)) (v i) ys) as [n m]. cbn [fst snd] in *.
      replace i with (last + (i - last)) in * by lia. set (block := i - last) in *. clearbody block.
      replace (last + block - last) with block in * by lia. apply CCons; [lia|lia|exact Eq|exact E|].
      apply H. intros k K. replace k with (last + block) by lia. apply feqb_refl, Nan. lia.
Qed.

Lemma drop last block a b : 0 < block -> last + block < size -> (forall i, last <= i < last + block -> feqb (v last) (v i) = true) ->
  feqb (v (last + block - 1)) (v (last + block)) = false -> last <= a < last + block -> b < size ->
  (fltb (v b) (v a) = true <-> last + block <= b).
Proof.
  intros B0 S Eq Ne A Bs. pose proof (Eq a A) as Ea. split.
  - intros Lt. destruct (le_lt_dec (last + block) b) as [L|L]; [exact L|exfalso].
    destruct (le_lt_dec last b) as [L2|L2].
    + pose proof (Eq b ltac:(lia)). ford.
    + pose proof (Sorted b a ltac:(lia) ltac:(lia)). congruence.
  - intros L. pose proof (Eq (last + block - 1) ltac:(lia)) as E1.
    pose proof (Sorted (last + block - 1) (last + block) ltac:(lia) S) as S1.
    pose proof (Sorted (last + block) b L Bs) as S2.
    pose proof (Nan (last + block) S) as N1. pose proof (Nan b Bs) as N2.
    set (x := v (last + block - 1)) in *. set (z := v (last + block)) in *. clearbody x z. ford.
Qed.

Lemma chain_le last pairs m n : chain last pairs m n -> pairs <= n.
Proof. induction 1; [lia|]. eapply Nat.le_trans; [|eassumption]. apply Nat.le_add_r. Qed.

Definition sample_in (m : list (nat * (nat * nat))) (k : nat) := sample_pair (mkGroup [] [] 0 m) k.

Lemma sample_head last block rest k key : k < key -> sample_in ((key, (block, last + block)) :: rest) k =
  Ret (last + block - 1 - (key - k - 1) mod block, last + block + (key - k - 1) / block).
Proof. intros L. unfold sample_in, sample_pair. cbn [find gr_map fst]. rewrite (proj2 (Nat.leb_le _ _)) by lia. reflexivity. Qed.
Lemma sample_tail e rest k : fst e <= k -> sample_in (e :: rest) k = sample_in rest k.
Proof. intros L. unfold sample_in, sample_pair. cbn [find gr_map fst]. rewrite (proj2 (Nat.leb_gt _ _)) by lia. reflexivity. Qed.

Lemma local_bound block rest k key pairs : 0 < block -> pairs <= k < key -> key = pairs + block * rest ->
  (key - k - 1) mod block < block /\ (key - k - 1) / block < rest.
Proof.
  intros B K E. split; [apply Nat.mod_upper_bound; lia|]. apply Nat.div_lt_upper_bound; [lia|]. lia.
Qed.

(** Every index stands for a pair of positions. *)
Lemma chain_sound last pairs m n : chain last pairs m n -> forall k, pairs <= k < n ->
  exists a b, sample_in m k = Ret (a, b) /\ last <= a < size /\ b < size /\ fltb (v b) (v a) = true.
Proof.
  induction 1 as [last pairs Eq|last pairs block m n B0 S Eq Ne C IH]; intros k K; [lia|].
  pose proof (Nat.le_add_r pairs (block * (size - (last + block)))) as Pk.
  set (key := pairs + block * (size - (last + block))) in *.
  destruct (le_lt_dec key k) as [L|L].
  - rewrite sample_tail by exact L. destruct (IH k ltac:(lia)) as (a & b & E & A & Bs & Lt).
    exists a, b. repeat split; [exact E|lia|lia|exact Bs|exact Lt].
  - rewrite sample_head by exact L.
    destruct (local_bound block (size - (last + block)) k key pairs B0 (conj (proj1 K) L) eq_refl) as [M D].
    eexists. eexists. split; [reflexivity|]. split; [lia|]. split; [lia|].
    apply (drop last block); [exact B0|exact S|exact Eq|exact Ne|lia|lia|apply Nat.le_add_r].
Qed.

(** Every pair has an index. *)
Lemma chain_complete last pairs m n : chain last pairs m n -> forall a b, last <= a < size -> b < size -> fltb (v b) (v a) = true ->
  exists k, pairs <= k < n /\ sample_in m k = Ret (a, b).
Proof.
  induction 1 as [last pairs Eq|last pairs block m n B0 S Eq Ne C IH]; intros a b A Bs Lt.
  - exfalso. pose proof (Eq a A) as Ea. destruct (le_lt_dec last b) as [L|L].
    + pose proof (Eq b ltac:(lia)) as Eb. clear Eq. ford.
    + pose proof (Sorted b a ltac:(lia) ltac:(lia)). congruence.
  - pose proof (chain_le _ _ _ _ C) as Le. pose proof (Nat.le_add_r pairs (block * (size - (last + block)))) as Pk.
  set (key := pairs + block * (size - (last + block))) in *.
    destruct (le_lt_dec (last + block) a) as [L|L].
    + destruct (IH a b ltac:(lia) Bs Lt) as (k & K & E). exists k. split; [lia|]. rewrite sample_tail by (cbn; lia). exact E.
    + assert (Lb : last + block <= b) by (apply (drop last block a b); [exact B0|exact S|exact Eq|exact Ne|lia|exact Bs|exact Lt]).
      set (loc := (last + block - 1 - a) + block * (b - (last + block))).
      assert (Ll : loc < block * (size - (last + block))).
      { unfold loc. assert (block * (b - (last + block)) + block <= block * (size - (last + block))); [|lia].
        rewrite <- Nat.mul_succ_r. apply Nat.mul_le_mono_l. lia. }
      assert (Kl : pairs + loc < key) by (unfold key; apply Nat.add_lt_mono_l, Ll).
      exists (key - 1 - loc). split; [lia|]. rewrite sample_head by lia.
      replace (key - (key - 1 - loc) - 1) with loc by lia.
      assert (M : loc mod block = last + block - 1 - a).
      { unfold loc. rewrite (Nat.mul_comm block), Nat.mod_add by lia. apply Nat.mod_small. lia. }
      assert (D : loc / block = b - (last + block)).
      { unfold loc. rewrite (Nat.mul_comm block), Nat.div_add by lia. rewrite Nat.div_small by lia. lia. }
      rewrite M, D. f_equal. f_equal; lia.
Qed.

(** Only one. *)
Lemma chain_unique last pairs m n : chain last pairs m n -> forall k1 k2 p, pairs <= k1 < n -> pairs <= k2 < n ->
  sample_in m k1 = Ret p -> sample_in m k2 = Ret p -> k1 = k2.
Proof.
  induction 1 as [last pairs Eq|last pairs block m n B0 S Eq Ne C IH]; intros k1 k2 p K1 K2 E1 E2; [lia|].
  pose proof (Nat.le_add_r pairs (block * (size - (last + block)))) as Pk.
  set (key := pairs + block * (size - (last + block))) in *.
  assert (Cross : forall k k', pairs <= k < key -> key <= k' < n -> sample_in ((key, (block, last + block)) :: m) k = Ret p ->
                  sample_in ((key, (block, last + block)) :: m) k' = Ret p -> False).
  { intros k k' K K' E E'. rewrite sample_head in E by lia. rewrite sample_tail in E' by (cbn; lia).
    destruct (chain_sound _ _ _ _ C k' ltac:(lia)) as (a & b & E3 & A & _). rewrite E' in E3. injection E as <-. injection E3 as <- <-. lia. }
  destruct (le_lt_dec key k1) as [L1|L1], (le_lt_dec key k2) as [L2|L2].
  - rewrite sample_tail in E1, E2 by (cbn; lia). apply (IH k1 k2 p); auto; lia.
  - exfalso. apply (Cross k2 k1); auto; lia.
  - exfalso. apply (Cross k1 k2); auto; lia.
  - rewrite sample_head in E1, E2 by lia. rewrite <- E2 in E1. injection E1 as Ea Eb.
    destruct (local_bound block (size - (last + block)) k1 key pairs B0 (conj (proj1 K1) L1) eq_refl) as [M1 _].
    destruct (local_bound block (size - (last + block)) k2 key pairs B0 (conj (proj1 K2) L2) eq_refl) as [M2 _].
    pose proof (Nat.div_mod (key - k1 - 1) block ltac:(lia)) as D1.
    pose proof (Nat.div_mod (key - k2 - 1) block ltac:(lia)) as D2.
    assert (EM : (key - k1 - 1) mod block = (key - k2 - 1) mod block) by lia.
    assert (ED : (key - k1 - 1) / block = (key - k2 - 1) / block) by lia.
    rewrite EM, ED in D1. lia.
Qed.

Definition below (a : nat) : nat := List.length (filter (fun b => fltb (v b) (v a)) (seq 0 size)).

Lemma filter_count_ge c n s : s <= c <= s + n -> List.length (filter (fun b => c <=? b) (seq s n)) = s + n - c.
Proof.
  revert s. induction n as [|n IH]; intros s H; cbn; [lia|]. destruct (c <=? s) eqn:E; cbn.
  - apply Nat.leb_le in E. assert (c = s) by lia. subst c.
    clear IH E H.
    assert (G : forall n s', s <= s' -> List.length (filter (fun b => s <=? b) (seq s' n)) = n).
    { clear n. intros n. induction n as [|n IH]; intros s' L; cbn; [reflexivity|].
      rewrite (proj2 (Nat.leb_le _ _)) by lia. cbn. rewrite IH by lia. reflexivity. }
    rewrite G by lia. lia.
  - apply Nat.leb_gt in E. rewrite IH by lia. lia.
Qed.
Lemma below_block last block a : 0 < block -> last + block < size -> (forall i, last <= i < last + block -> feqb (v last) (v i) = true) ->
  feqb (v (last + block - 1)) (v (last + block)) = false -> last <= a < last + block -> below a = size - (last + block).
Proof.
  intros B0 S Eq Ne A. unfold below. change (size - (last + block)) with (0 + size - (last + block)). rewrite <- (filter_count_ge (last + block) size 0) by lia. f_equal.
  apply filter_ext_in. intros b I. apply in_seq in I. apply Bool.eq_true_iff_eq. rewrite Nat.leb_le.
  apply drop; [exact B0|exact S|exact Eq|exact Ne|exact A|lia].
Qed.
Lemma below_last last a : (forall i, last <= i < size -> feqb (v last) (v i) = true) -> last <= a < size -> below a = 0.
Proof.
  intros Eq A. unfold below. assert (G : forall l, incl l (seq 0 size) -> List.length (filter (fun b => fltb (v b) (v a)) l) = 0).
  { induction l as [|b l IH]; intros I; cbn; [reflexivity|]. assert (Bs : b < size) by (specialize (I b (or_introl eq_refl)); apply in_seq in I; lia).
    destruct (fltb (v b) (v a)) eqn:E; [exfalso|apply IH; intros x J; apply I; right; exact J].
    pose proof (Eq a A) as Ea. destruct (le_lt_dec last b) as [L|L].
    - pose proof (Eq b ltac:(lia)) as Eb. clear Eq. ford.
    - pose proof (Sorted b a ltac:(lia) ltac:(lia)). congruence. }
  apply G, incl_refl.
Qed.
Lemma sum_const c n s (h : nat -> nat) : (forall a, s <= a < s + n -> h a = c) -> list_sum (map h (seq s n)) = n * c.
Proof.
  revert s. induction n as [|n IH]; intros s H; [reflexivity|]. cbn [seq map list_sum fold_right].
  rewrite (H s) by lia. change (fold_right Init.Nat.add 0 (map h (seq (S s) n))) with (list_sum (map h (seq (S s) n))).
  rewrite IH by (intros a A; apply H; lia). lia.
Qed.
Lemma chain_count last pairs m n : chain last pairs m n -> last <= size -> n = pairs + list_sum (map below (seq last (size - last))).
Proof.
  induction 1 as [last pairs Eq|last pairs block m n B0 S Eq Ne C IH]; intros L.
  - rewrite (sum_const 0); [lia|]. intros a A. apply (below_last last); [exact Eq|lia].
  - replace (size - last) with (block + (size - (last + block))) by lia. rewrite seq_app, map_app, list_sum_app.
    rewrite (sum_const (size - (last + block)) block); [|intros a A; apply (below_block last block); assumption].
    rewrite IH by lia. lia.
Qed.
End Chain.

(** ** A new group *)
Lemma perm_seq_map (l : list nat) : map (fun k => nth k l 0) (seq 0 (List.length l)) = l.
Proof.
  apply nth_ext with (d := 0) (d' := 0); rewrite map_length, seq_length; [reflexivity|].
  intros i H. rewrite (nth_indep _ 0 (nth 0 l 0)) by (rewrite map_length, seq_length; exact H).
  rewrite (map_nth (fun k => nth k l 0)). rewrite seq_nth by exact H. reflexivity.
Qed.

Lemma group_spec srt y rows t : sorts srt -> comparable y rows t ->
  exists g, group_new srt y rows = Ret g /\ Permutation rows (gr_rows g) /\ gr_ranks g = seq 0 (List.length rows) /\
    (forall i j a b, i <= j -> nth_error (gr_rows g) i = Some a -> nth_error (gr_rows g) j = Some b -> fltb (t a) (t b) = false) /\
    gr_pairs g = List.length (better_pairs t rows) /\
    (forall k, k < gr_pairs g -> exists a b i j, sample_pair g k = Ret (a, b) /\ nth_error (gr_rows g) a = Some i /\
       nth_error (gr_rows g) b = Some j /\ fltb (t j) (t i) = true) /\
    (forall a b i j, nth_error (gr_rows g) a = Some i -> nth_error (gr_rows g) b = Some j -> fltb (t j) (t i) = true ->
       exists k, k < gr_pairs g /\ sample_pair g k = Ret (a, b)) /\
    (forall k1 k2 p, k1 < gr_pairs g -> k2 < gr_pairs g -> sample_pair g k1 = Ret p -> sample_pair g k2 = Ret p -> k1 = k2).
Proof.
  intros S C. unfold group_new. rewrite (read_all_ok y t) by (intros i I; apply C, I). cbn [bind].
  assert (Nan : existsb is_nan (map t rows) = false).
  { apply Bool.not_true_iff_false. rewrite existsb_exists. intros (x & I & E). apply in_map_iff in I. destruct I as (i & <- & I).
    destruct (C i I). congruence. }
  rewrite Nan.
  assert (Va : forall i, In i rows -> value_at y i = t i) by (intros i I; unfold value_at; rewrite (proj1 (C i I)); reflexivity).
  set (less := fun i j => fltb (value_at y j) (value_at y i)).
  assert (W : weak_order less rows).
  { unfold less. split; [|split].
    - intros a A. apply fltb_irrefl.
    - intros a b c _ _ _ H1 H2. eapply fltb_trans; eassumption.
    - intros a b c A B D H. rewrite !Va in * by assumption. destruct (C c D) as [_ N].
      destruct (fltb (t c) (t a)) eqn:E1; [left; reflexivity|right]. clear - H N E1. ford. }
  destruct (S less rows W) as [P Srt]. set (l := srt less rows) in *. clearbody l.
  assert (In' : forall i, In i l -> In i rows) by (intros i I; exact (Permutation_in _ (Permutation_sym P) I)).
  assert (Nl : forall i j a b, i <= j -> nth_error l i = Some a -> nth_error l j = Some b -> fltb (t a) (t b) = false).
  { intros i j a b L Ea Eb. destruct (Nat.eq_dec i j) as [->|N]; [replace b with a by congruence; apply fltb_irrefl|].
    pose proof (Srt i j a b ltac:(lia) Ea Eb) as H. unfold less in H. rewrite !Va in H by (apply In'; eapply nth_error_In; eassumption). exact H. }
  set (size := List.length l). set (v := fun i => t (nth i l 0)).
  assert (Nth : forall i, i < size -> nth_error l i = Some (nth i l 0)) by (intros i L; apply nth_error_nth'; exact L).
  assert (Vnan : forall i, i < size -> is_nan (v i) = false).
  { intros i L. apply C, In'. apply nth_In. exact L. }
  assert (Vsort : forall i j, i <= j -> j < size -> fltb (v i) (v j) = false).
  { intros i j L Lj. apply (Nl i j); [exact L|apply Nth; lia|apply Nth; exact Lj]. }
  assert (E : exists n m, match map (value_at y) l with [] => (0, []) | v :: ys => boundaries size 1 0 0 v ys end = (n, m) /\ chain size v 0 0 m n).
  { assert (Em : map (value_at y) l = map t l) by (apply map_ext_in; intros i I; apply Va, In', I). rewrite Em.
    destruct (map t l) as [|x ys] eqn:El.
    - exists 0, []. split; [reflexivity|]. apply CNil. apply (f_equal (@List.length f32)) in El. rewrite map_length in El. cbn in El. fold size in El. lia.
    - assert (X : forall k z, nth_error (x :: ys) k = Some z -> z = v k).
      { intros k z. rewrite <- El, nth_error_map. destruct (nth_error l k) as [i|] eqn:Ei; [|discriminate]. cbn. intros [= <-].
        unfold v. rewrite (nth_error_nth _ _ _ Ei). reflexivity. }
      assert (Ls : 1 + List.length ys = size) by (unfold size; rewrite <- (map_length t), El; reflexivity).
      pose proof (boundaries_chain size v Vnan Vsort ys 1 0 0 ltac:(lia) ltac:(lia) Ls) as H.
      replace (v (1 - 1)) with x in H by (exact (X 0 x eq_refl)).
      destruct (boundaries size 1 0 0 x ys) as [n m]. exists n, m. split; [reflexivity|]. cbn in H. apply H.
      + intros k z Ez. exact (X (Datatypes.S k) z Ez).
      + intros k K. replace k with 0 by lia. apply feqb_refl, Vnan. lia. }
  destruct E as (n & m & E & Ch). rewrite E. eexists. split; [reflexivity|]. cbn [gr_rows gr_ranks gr_pairs].
  assert (SP : forall k, sample_pair (mkGroup l (seq 0 (List.length l)) n m) k = sample_in m k) by reflexivity.
  split; [exact P|]. split; [rewrite (Permutation_length P); reflexivity|]. split; [exact Nl|]. split; [|split; [|split]].
  - rewrite (chain_count size v Vnan Vsort 0 0 m n Ch) by lia. unfold better_pairs. rewrite (prod_count_perm _ _ _ P), prod_count.
    rewrite Nat.add_0_l, Nat.sub_0_r. rewrite <- (perm_seq_map l) at 1. fold size. rewrite map_map. f_equal. apply map_ext. intros a.
    unfold below. cbn [fst snd]. rewrite <- (perm_seq_map l) at 1. fold size.
    generalize (seq 0 size). intros q. induction q as [|b q IH]; cbn; [reflexivity|]. fold (v a) (v b). destruct (fltb (v b) (v a)); cbn; rewrite IH; reflexivity.
  - intros k K. destruct (chain_sound size v Vnan Vsort 0 0 m n Ch k ltac:(lia)) as (a & b & Es & A & B & Lt).
    exists a, b, (nth a l 0), (nth b l 0). rewrite SP. repeat split; [exact Es|apply Nth; lia|apply Nth; lia|exact Lt].
  - intros a b i j Ea Eb Lt.
    assert (A : a < size) by (apply nth_error_Some; congruence). assert (B : b < size) by (apply nth_error_Some; congruence).
    destruct (chain_complete size v Vnan Vsort 0 0 m n Ch a b ltac:(lia) B) as (k & K & Es).
    + unfold v. rewrite (nth_error_nth _ _ _ Ea), (nth_error_nth _ _ _ Eb). exact Lt.
    + exists k. split; [lia|exact Es].
  - intros k1 k2 p K1 K2 E1 E2. exact (chain_unique size v Vnan Vsort 0 0 m n Ch k1 k2 p ltac:(lia) ltac:(lia) E1 E2).
Qed.

(** In terms of rows. *)
Lemma group_pairs srt y rows t : sorts srt -> comparable y rows t ->
  exists g, group_new srt y rows = Ret g /\ Permutation rows (gr_rows g) /\
    gr_pairs g = List.length (better_pairs t rows) /\
    (forall k, k < gr_pairs g -> exists i j, sampled_rows g k = Ret (i, j) /\ In (i, j) (better_pairs t rows)) /\
    (NoDup rows -> forall i j, In (i, j) (better_pairs t rows) -> exists! k, k < gr_pairs g /\ sampled_rows g k = Ret (i, j)).
Proof.
  intros S C. destruct (group_spec srt y rows t S C) as (g & E & P & _ & _ & Np & Sound & Compl & Uniq).
  exists g. split; [exact E|]. split; [exact P|]. split; [exact Np|]. split.
  - intros k K. destruct (Sound k K) as (a & b & i & j & Es & Ei & Ej & Lt). exists i, j. split.
    + unfold sampled_rows. rewrite Es. cbn. unfold vget. rewrite Ei. cbn. rewrite Ej. reflexivity.
    + unfold better_pairs. rewrite filter_In, in_prod_iff. cbn. apply nth_error_In in Ei, Ej.
      repeat split; [eapply Permutation_in; [apply Permutation_sym, P|exact Ei]|eapply Permutation_in; [apply Permutation_sym, P|exact Ej]|exact Lt].
  - intros ND i j I. unfold better_pairs in I. rewrite filter_In, in_prod_iff in I. cbn in I. destruct I as [[Ii Ij] Lt].
    pose proof (Permutation_in _ P Ii) as Gi. pose proof (Permutation_in _ P Ij) as Gj.
    apply In_nth_error in Gi. destruct Gi as [a Ea]. apply In_nth_error in Gj. destruct Gj as [b Eb].
    destruct (Compl a b i j Ea Eb Lt) as (k & K & Es). exists k. split.
    + split; [exact K|]. unfold sampled_rows. rewrite Es. cbn. unfold vget. rewrite Ea. cbn. rewrite Eb. reflexivity.
    + intros k' [K' E']. unfold sampled_rows in E'. apply bind_ret in E'. destruct E' as ([a' b'] & E1 & E2).
      apply bind_ret in E2. destruct E2 as (i' & E2 & E3). apply bind_ret in E3. destruct E3 as (j' & E3 & E4). injection E4 as -> ->.
      apply vget_ret in E2, E3. cbn in E2, E3.
      assert (NDl : NoDup (gr_rows g)) by (eapply Permutation_NoDup; [exact P|exact ND]).
      assert (U : forall p q r, nth_error (gr_rows g) p = Some r -> nth_error (gr_rows g) q = Some r -> p = q).
      { intros p q r Hp Hq. apply (proj1 (NoDup_nth_error (gr_rows g)) NDl); [apply nth_error_Some; congruence|congruence]. }
      apply (Uniq k k' (a, b) K K' Es). rewrite E1. f_equal. f_equal; [apply (U a' a i); assumption|apply (U b' b j); assumption].
Qed.

(** ** Reranking *)
Lemma inverse_writes (ranking : list nat) : NoDup ranking -> forall s ranks, (forall x, In x ranking -> x < List.length ranks) ->
  exists ranks', fold_res (fun r x => vset r (snd x) (fst x)) (combine (seq s (List.length ranking)) ranking) ranks = Ret ranks' /\
    List.length ranks' = List.length ranks /\
    (forall i x, nth_error ranking i = Some x -> nth_error ranks' x = Some (s + i)) /\
    (forall x, ~ In x ranking -> nth_error ranks' x = nth_error ranks x).
Proof.
  induction ranking as [|x t IH]; intros ND s ranks B; cbn [List.length seq combine fold_res].
  - exists ranks. repeat split; [intros [|i] x E; discriminate].
  - inversion ND as [|? ? NI ND']; subst. cbn [fst snd].
    assert (V : vset ranks x s = Ret (set_nth x s ranks)).
    { unfold vset. pose proof (B x (or_introl eq_refl)) as L. apply Nat.ltb_lt in L. rewrite L. reflexivity. }
    rewrite V. cbn [bind].
    destruct (IH ND' (S s) (set_nth x s ranks)) as (r' & E & L & A & O).
    { intros z I. rewrite set_nth_length. apply B. right. exact I. }
    exists r'. split; [exact E|]. rewrite set_nth_length in L. split; [exact L|]. split.
    + intros [|i] z Ez; cbn in Ez.
      * injection Ez as <-. rewrite O by exact NI. rewrite nth_error_set_nth_eq by (apply B; left; reflexivity). f_equal. lia.
      * rewrite (A i z Ez). f_equal. lia.
    + intros z NZ. rewrite O by (intros I; apply NZ; right; exact I). apply nth_error_set_nth_ne. intros ->. apply NZ. left. reflexivity.
Qed.

Lemma rerank_spec {N : Num} srt (f : list N) g : ordered N -> sorts srt -> List.length (gr_ranks g) = List.length (gr_rows g) ->
  (forall r, In r (gr_rows g) -> exists x, nth_error f r = Some x /\ neqb x x = true) ->
  exists g', rerank srt f g = Ret g' /\ gr_rows g' = gr_rows g /\ gr_pairs g' = gr_pairs g /\ gr_map g' = gr_map g /\
    Permutation (gr_ranks g') (seq 0 (List.length (gr_rows g))) /\
    (forall a b i j x z p q, nth_error (gr_rows g) a = Some i -> nth_error (gr_rows g) b = Some j ->
       nth_error f i = Some x -> nth_error f j = Some z -> nltb z x = true ->
       nth_error (gr_ranks g') a = Some p -> nth_error (gr_ranks g') b = Some q -> p < q).
Proof.
  intros O S L H. unfold rerank.
  rewrite (read_all_ok _ (fun r => nth r f n0)).
  2:{ intros r I. destruct (H r I) as (x & E & _). unfold vget. rewrite E. f_equal. symmetry. apply nth_error_nth, E. }
  cbn [bind].
  assert (A : forallb (fun x => neqb x x) (map (fun r => nth r f n0) (gr_rows g)) = true).
  { apply forallb_forall. intros x I. apply in_map_iff in I. destruct I as (r & <- & I). destruct (H r I) as (x & E & X).
    rewrite (nth_error_nth _ _ _ E). exact X. }
  rewrite A. set (n := List.length (gr_rows g)) in *.
  assert (SA : forall i, i < n -> neqb (score_at f (gr_rows g) i) (score_at f (gr_rows g) i) = true).
  { intros i Li. unfold score_at. destruct (H (nth i (gr_rows g) 0) (nth_In _ _ Li)) as (x & E & X). rewrite (nth_error_nth _ _ _ E). exact X. }
  set (less := fun i j => nltb (score_at f (gr_rows g) j) (score_at f (gr_rows g) i)).
  assert (W : weak_order less (seq 0 n)).
  { unfold less. split; [|split].
    - intros a _. apply ord_irrefl, O.
    - intros a b c _ _ _ H1 H2. eapply ord_trans; eassumption.
    - intros a b c _ _ I H1. apply in_seq in I. destruct (ord_between O _ _ _ H1 (SA c ltac:(lia))); auto. }
  destruct (S less (seq 0 n) W) as [P Srt]. set (ranking := srt less (seq 0 n)) in *. clearbody ranking.
  assert (Lr : List.length ranking = n) by (rewrite <- (Permutation_length P), seq_length; reflexivity).
  assert (ND : NoDup ranking) by (eapply Permutation_NoDup; [exact P|apply seq_NoDup]).
  destruct (inverse_writes ranking ND 0 (gr_ranks g)) as (rk & E & Lk & Inv & _).
  { intros x I. apply (Permutation_in _ (Permutation_sym P)) in I. apply in_seq in I. lia. }
  rewrite E. cbn [bind]. eexists. split; [reflexivity|]. cbn [gr_rows gr_pairs gr_map gr_ranks].
  split; [reflexivity|]. split; [reflexivity|]. split; [reflexivity|].
  assert (Rk : forall a p, nth_error rk a = Some p -> nth_error ranking p = Some a).
  { intros a p Ea. assert (La : a < n) by (rewrite <- L, <- Lk; apply nth_error_Some; congruence).
    assert (I : In a ranking) by (apply (Permutation_in _ P); apply in_seq; lia).
    apply In_nth_error in I. destruct I as [q Eq]. rewrite (Inv q a Eq) in Ea. injection Ea as <-. exact Eq. }
  split.
  - apply NoDup_Permutation_bis.
    + apply NoDup_nth_error. intros a b La Eab. destruct (nth_error rk a) as [p|] eqn:Ea; [|apply nth_error_Some in La; congruence].
      pose proof (Rk a p Ea) as R1. symmetry in Eab. pose proof (Rk b p Eab) as R2. congruence.
    + rewrite seq_length, Lk. lia.
    + intros p I. apply In_nth_error in I. destruct I as [a Ea]. pose proof (Rk a p Ea) as R1.
      apply in_seq. assert (p < List.length ranking) by (apply nth_error_Some; congruence). lia.
  - intros a b i j x z p q Ea Eb Ex Ez Lt Ep Eq. pose proof (Rk a p Ep) as R1. pose proof (Rk b q Eq) as R2.
    assert (Sa : score_at f (gr_rows g) a = x) by (unfold score_at; rewrite (nth_error_nth _ _ _ Ea), (nth_error_nth _ _ _ Ex); reflexivity).
    assert (Sb : score_at f (gr_rows g) b = z) by (unfold score_at; rewrite (nth_error_nth _ _ _ Eb), (nth_error_nth _ _ _ Ez); reflexivity).
    destruct (lt_eq_lt_dec p q) as [[Lpq| -> ]|Lqp]; [exact Lpq| |].
    + replace b with a in * by congruence. rewrite Sa in Sb. subst z. rewrite (ord_irrefl O) in Lt. discriminate.
    + pose proof (Srt q p b a Lqp R2 R1) as C. unfold less in C. rewrite Sa, Sb in C. congruence.
Qed.
