(** Split_proofs.v - proofs about the split search. *)
From Coq Require Import SpecFloat Reals Lra Psatz.
From Coq Require Import Sorting.Permutation.
From Verif Require Import Base F32 Column ColumnSpec DataStore Num Forest Config Split SplitSpec
  Base_proofs F32_proofs.

(** ** Both arithmetics are ordered *)
Lemma ieee_ordered e l : ordered (IEEE e l).
Proof.
  constructor; cbn [nt nltb neqb nZ ndiv IEEE].
  - intros a. forder.
  - intros a b c. forder.
  - intros a b c. forder.
  - intros a b. forder.
  - reflexivity.
  - vm_compute. reflexivity.
Qed.

Lemma Rltb_iff a b : Rltb a b = true <-> (a < b)%R.
Proof. unfold Rltb. destruct (Rlt_dec a b); split; intros; congruence || assumption || (exfalso; lra). Qed.
Lemma Rltb_false a b : Rltb a b = false <-> (b <= a)%R.
Proof. unfold Rltb. destruct (Rlt_dec a b); split; intros; congruence || lra. Qed.
Lemma Rleb_iff a b : Rleb a b = true <-> (a <= b)%R.
Proof. unfold Rleb. destruct (Rle_dec a b); split; intros; congruence || assumption || (exfalso; lra). Qed.
Lemma Reqb_iff a b : Reqb a b = true <-> a = b.
Proof. unfold Reqb. destruct (Req_EM_T a b); split; intros; congruence || assumption. Qed.
Lemma Reqb_false a b : Reqb a b = false <-> a <> b.
Proof. unfold Reqb. destruct (Req_EM_T a b); split; intros; congruence || assumption. Qed.

Lemma exact_ordered : ordered Exact.
Proof.
  constructor; cbn [nt nltb neqb nZ ndiv Exact].
  - intros a. apply Rltb_false. lra.
  - intros a b c. rewrite !Rltb_iff. lra.
  - intros a b c. rewrite !Rltb_iff. intros. destruct (Rlt_dec a c); [auto|right; lra].
  - intros. split; apply Reqb_iff; reflexivity.
  - apply Reqb_iff. reflexivity.
  - apply Rltb_iff. lra.
Qed.

(** ** The scan *)
Section Scan.
Context {N : Num}.
Hypothesis O : ordered N.
Local Open Scope num_scope.

Definition cur (c : config N) (p : split_point (N := N)) : N := if (0 <=? pt_left p)%Z then pt_gain p else gain_floor c.

Lemma floor_zero (c : config N) : (gain_floor c <? n0) = false.
Proof.
  destruct (gain_floor c <? n0) eqn:E; [|reflexivity]. exfalso. unfold gain_floor, nmax in E.
  destruct (cf_min_gain c =? cf_min_gain c) eqn:M.
  - destruct (cf_min_gain c <? nZ 1 / nZ 1000000) eqn:L.
    + pose proof (ord_trans O _ _ _ (ord_small O) E) as X. unfold n0 in X. rewrite (ord_irrefl O) in X. discriminate.
    + destruct (ord_between O _ _ _ (ord_small O) M) as [X|X]; [|congruence].
      pose proof (ord_trans O _ _ _ X E) as Y. unfold n0 in Y. rewrite (ord_irrefl O) in Y. discriminate.
  - unfold n0 in E. rewrite (ord_irrefl O) in E. discriminate.
Qed.

Lemma update_cond (c : config N) p g :
  (pt_left p < 0 /\ pt_gain p = n0)%Z \/ (0 <= pt_left p)%Z /\ (gain_floor c <? pt_gain p) = true ->
  (nmax (pt_gain p) (nmax (cf_min_gain c) tolerance) <? g) = (cur c p <? g).
Proof.
  intros H. unfold cur. destruct H as [[L E]|[L E]].
  - destruct (Z.leb_spec 0 (pt_left p)); [lia|]. rewrite E. unfold gain_floor. change (nZ 1 / nZ 1000000) with (@tolerance N).
    destruct (cf_min_gain c =? cf_min_gain c) eqn:M.
    + unfold nmax at 1. assert (X : (n0 <? nmax (cf_min_gain c) tolerance) = true); [|rewrite X; reflexivity].
      unfold nmax. destruct (cf_min_gain c <? tolerance) eqn:T; [exact (ord_small O)|].
      destruct (ord_between O _ _ _ (ord_small O) M) as [X|X]; [exact X|]. unfold tolerance in T. congruence.
    + assert (X : nmax (cf_min_gain c) tolerance = cf_min_gain c).
      { unfold nmax. destruct (cf_min_gain c <? tolerance) eqn:T; [|reflexivity].
        apply (ord_number O) in T. destruct T; congruence. }
      rewrite X. unfold nmax. destruct (n0 <? cf_min_gain c) eqn:T; [|reflexivity].
      apply (ord_number O) in T. destruct T; congruence.
  - destruct (Z.leb_spec 0 (pt_left p)); [|lia]. f_equal. unfold gain_floor in E. change (nZ 1 / nZ 1000000) with (@tolerance N) in E.
    destruct (cf_min_gain c =? cf_min_gain c) eqn:M.
    + unfold nmax at 1. destruct (pt_gain p <? nmax (cf_min_gain c) tolerance) eqn:T; [|reflexivity].
      pose proof (ord_trans O _ _ _ E T) as X. rewrite (ord_irrefl O) in X. discriminate.
    + assert (X : nmax (cf_min_gain c) tolerance = cf_min_gain c).
      { unfold nmax. destruct (cf_min_gain c <? tolerance) eqn:T; [|reflexivity].
        apply (ord_number O) in T. destruct T; congruence. }
      rewrite X. unfold nmax. destruct (pt_gain p <? cf_min_gain c) eqn:T; [|reflexivity].
      apply (ord_number O) in T. destruct T; congruence.
Qed.

Lemma cut_gain_heavy (c : config N) whole l r : cut_gain c whole l r =
  if cf_min_hessian c <? nmin (gh l) (gh r) then Some (reduction (cf_l2_lambda c) whole l r) else None.
Proof. reflexivity. Qed.

Definition missing_of (place : bool) (h : histogram (N := N)) : option (grad N) := movable place (h_data h).

Section Fixed.
Variables (c : config N) (h : histogram (N := N)) (whole : grad N) (place : bool) (data : list (grad N)).
Hypothesis Look : Forall2 (fun v d => nth_error (h_data h) v = Some d) (h_values h) data.
Notation cand := (candidate c whole data (missing_of place h)).

Lemma best_here_spec i : 1 <= i < List.length data ->
  exists g mr, best_here c h whole (first_part data i) place = Ret (g, mr) /\
    (cand i mr g \/ g = n0 /\ mr = false) /\
    (forall m' g', cand i m' g' -> (g <? g') = false) /\
    (forall m' g', cand i m' g' -> (g' =? g') = true -> (g =? g) = true) /\
    (mr = true -> forall g', cand i false g' -> (g' <? g) = true).
Proof.
  intros I. remember (missing_of place h) as mo eqn:M. symmetry in M. unfold best_here. rewrite cut_gain_heavy. change (gsub whole (first_part data i)) with (rest_part whole data i).
  set (lg := if cf_min_hessian c <? nmin (gh (first_part data i)) (gh (rest_part whole data i))
             then Some (reduction (cf_l2_lambda c) whole (first_part data i) (rest_part whole data i)) else None).
  set (gain := match lg with Some g => g | None => n0 end).
  assert (GL : candidate c whole data mo i false gain \/ gain = n0 /\ lg = None).
  { subst gain lg. destruct (cf_min_hessian c <? _) eqn:Hv; [left; apply CandLeft; assumption|right; auto]. }
  assert (GU : forall g', candidate c whole data mo i false g' -> g' = gain).
  { intros g' C. inversion C as [? ? Hv| ]; subst. unfold heavy in Hv. subst gain lg. rewrite Hv. reflexivity. }
  assert (N0 : (n0 =? @n0 N) = true) by exact (ord_zero O).
  assert (IR : forall x : N, (x <? x) = false) by exact (ord_irrefl O).
  destruct mo as [d|].
  - assert (E : has_missing h = Ret true /\ vget (h_data h) 0 = Ret d /\ place = true).
    { unfold missing_of, movable in M. destruct place; [|discriminate]. unfold has_missing. destruct (h_data h) as [|d0 hd]; [discriminate|].
      cbn. destruct (negb _ || negb _) eqn:X; [|discriminate]. injection M as ->. auto. }
    destruct E as (E1 & E2 & Ep). rewrite Ep, E1. cbn [bind]. rewrite E2. cbn [bind]. rewrite cut_gain_heavy.
    destruct (cf_min_hessian c <? nmin (gh (gsub (first_part data i) d)) (gh (gadd (rest_part whole data i) d))) eqn:Hv.
    + set (g := reduction _ _ _ _). destruct (gain <? g) eqn:Lt.
      * exists g, true. split; [reflexivity|]. destruct (ord_number O _ _ Lt) as [Ng Nh].
        assert (C : candidate c whole data (Some d) i true g).
        { apply CandRight; [assumption|reflexivity|exact Hv|]. intros Hv'. unfold heavy in Hv'. subst gain lg. rewrite Hv' in Ng. exact Ng. }
        split; [left; exact C|]. split; [|split].
        -- intros m' g' C'. destruct m'.
           ++ inversion C' as [|? m0 ? E0 ? ?]; subst. injection E0 as <-. apply IR.
           ++ rewrite (GU g' C'). destruct (g <? gain) eqn:X; [|reflexivity].
              pose proof (ord_trans O _ _ _ X Lt) as Y. rewrite IR in Y. discriminate.
        -- intros. exact Nh.
        -- intros _ g' C'. rewrite (GU g' C'). exact Lt.
      * exists gain, false. split; [reflexivity|]. split; [destruct GL as [C|[-> _]]; auto|]. split; [|split; [|discriminate]].
        -- intros m' g' C'. destruct m'; [|rewrite (GU g' C'); apply IR].
           inversion C' as [|? m0 ? E0 ? ?]; subst. injection E0 as <-. exact Lt.
        -- intros m' g' C' N'. destruct m'; [|rewrite <- (GU g' C'); exact N'].
           inversion C' as [|? m0 ? E0 ? K]; subst. destruct GL as [C|[-> _]]; [|exact N0].
           inversion C as [? ? Hv'|]; subst. exact (K Hv').
    + exists gain, false. split; [reflexivity|]. split; [destruct GL as [C|[-> _]]; auto|]. split; [|split; [|discriminate]].
      * intros m' g' C'. destruct m'; [|rewrite (GU g' C'); apply IR].
        inversion C' as [|? m0 ? E0 Hv' ?]; subst. injection E0 as <-. unfold heavy in Hv'. congruence.
      * intros m' g' C' N'. destruct m'; [|rewrite <- (GU g' C'); exact N'].
        inversion C' as [|? m0 ? E0 Hv' ?]; subst. injection E0 as <-. unfold heavy in Hv'. congruence.
  - assert (E : (if place then
        let! m := has_missing h in
        if m then
          let! d := vget (h_data h) 0 in
          match cut_gain c whole (gsub (first_part data i) d) (gadd (rest_part whole data i) d) with
          | Some g => if gain <? g then Ret (g, true) else Ret (gain, false)
          | None => Ret (gain, false)
          end
        else Ret (gain, false)
      else Ret (gain, false)) = Ret (gain, false)).
    { unfold missing_of, movable in M. destruct place; [|reflexivity]. unfold has_missing.
      destruct Look as [|v d0 vs ds Hd _]; [cbn in I; lia|].
      destruct (h_data h) as [|d1 hd]; [destruct v; discriminate|]. cbn. destruct (negb _ || negb _); [discriminate|reflexivity]. }
    exists gain, false. split; [exact E|]. split; [destruct GL as [C|[-> _]]; auto|]. split; [|split; [|discriminate]].
    + intros m' g' C'. destruct m'; [inversion C' as [|? m0 ? E0 ? ?]; subst; discriminate|rewrite (GU g' C'); apply IR].
    + intros m' g' C' N'. destruct m'; [inversion C' as [|? m0 ? E0 ? ?]; subst; discriminate|rewrite <- (GU g' C'); exact N'].
Qed.

Definition best_upto (k : nat) (p : split_point (N := N)) : Prop :=
  (pt_left p < 0 /\ pt_gain p = n0)%Z /\ (forall j m g, j < k -> cand j m g -> (gain_floor c <? g) = false) \/
  ((0 <= pt_left p)%Z /\ (gain_floor c <? pt_gain p) = true) /\
  cand (Z.to_nat (pt_left p + 1)) (pt_missing_right p) (pt_gain p) /\
  (forall j m g, j < k -> cand j m g -> (pt_gain p <? g) = false) /\
  (forall j m g, earlier (j, m) (Z.to_nat (pt_left p + 1), pt_missing_right p) -> cand j m g -> (g =? g) = true ->
     (g <? pt_gain p) = true).

Lemma best_upto_cond k p : best_upto k p ->
  (pt_left p < 0 /\ pt_gain p = n0)%Z \/ (0 <= pt_left p)%Z /\ (gain_floor c <? pt_gain p) = true.
Proof. intros [[H _]|[H _]]; auto. Qed.

Lemma cur_bound k p : best_upto k p -> forall j m g, j < k -> cand j m g -> (cur c p <? g) = false.
Proof.
  intros [[[L E] B]|[[L _] (_ & B & _)]] j m g J C; unfold cur.
  - destruct (Z.leb_spec 0 (pt_left p)); [lia|]. eapply B; eassumption.
  - destruct (Z.leb_spec 0 (pt_left p)); [|lia]. eapply B; eassumption.
Qed.

Lemma cur_floor k p : best_upto k p -> cur c p = gain_floor c \/ (gain_floor c <? cur c p) = true.
Proof.
  intros [[[L _] _]|[[L F] _]]; unfold cur; destruct (Z.leb_spec 0 (pt_left p)); try lia; auto.
Qed.

Lemma step_cut i p g mr : 1 <= i < List.length data -> best_upto i p ->
  (cand i mr g \/ g = n0 /\ mr = false) ->
  (forall m' g', cand i m' g' -> (g <? g') = false) ->
  (forall m' g', cand i m' g' -> (g' =? g') = true -> (g =? g) = true) ->
  (mr = true -> forall g', cand i false g' -> (g' <? g) = true) ->
  best_upto (S i) (if cur c p <? g then mkPoint (Z.of_nat i - 1) mr g else p).
Proof.
  intros I B C1 C2 C3 C4. destruct (cur c p <? g) eqn:U.
  - assert (FG : (gain_floor c <? g) = true).
    { destruct (cur_floor _ _ B) as [<-|F]; [exact U|]. exact (ord_trans O _ _ _ F U). }
    assert (C : cand i mr g).
    { destruct C1 as [C|[-> _]]; [exact C|]. rewrite floor_zero in FG. discriminate. }
    assert (D : forall j m g', j < S i -> cand j m g' -> (g <? g') = false).
    { intros j m g' J Cj. destruct (Nat.eq_dec j i) as [->|Ne]; [exact (C2 _ _ Cj)|].
      destruct (g <? g') eqn:X; [|reflexivity]. pose proof (cur_bound _ _ B j m g' ltac:(lia) Cj) as Y.
      rewrite (ord_trans O _ _ _ U X) in Y. discriminate. }
    right. cbn [pt_left pt_gain pt_missing_right]. replace (Z.to_nat (Z.of_nat i - 1 + 1)) with i by lia.
    split; [split; [lia|exact FG]|]. split; [exact C|]. split; [exact D|].
    intros j m g' [J|(J & Ej & Em)] Cj Nj; cbn [fst snd] in *; [|subst m].
    + destruct (ord_between O _ _ _ U Nj) as [X|X]; [|exact X].
      rewrite (cur_bound _ _ B j m g' ltac:(lia) Cj) in X. discriminate.
    + subst j mr. exact (C4 eq_refl _ Cj).
  - assert (D : forall m g', cand i m g' -> (cur c p <? g') = false).
    { intros m g' Cj. destruct (cur c p <? g') eqn:X; [|reflexivity]. destruct (ord_number O _ _ X) as [_ N'].
      destruct (ord_between O _ _ _ X (C3 _ _ Cj N')) as [Y|Y]; [congruence|]. rewrite (C2 _ _ Cj) in Y. discriminate. }
    destruct B as [[[L E] B]|[[L F] (C & B & Er)]].
    + left. split; [auto|]. intros j m g' J Cj. destruct (Nat.eq_dec j i) as [->|Ne]; [|apply (B j m g'); [lia|exact Cj]].
      specialize (D _ _ Cj). unfold cur in D. destruct (Z.leb_spec 0 (pt_left p)); [lia|exact D].
    + right. split; [auto|]. split; [exact C|]. split; [|exact Er].
      intros j m g' J Cj. destruct (Nat.eq_dec j i) as [->|Ne]; [|apply (B j m g'); [lia|exact Cj]].
      specialize (D _ _ Cj). unfold cur in D. destruct (Z.leb_spec 0 (pt_left p)); [exact D|lia].
Qed.

Lemma total_snoc (l : list (grad N)) d : total_of (l ++ [d]) = gadd (total_of l) d.
Proof. unfold total_of. rewrite fold_left_app. reflexivity. Qed.

Lemma scan_spec suf dsuf : forall dpre p, data = dpre ++ dsuf ->
  Forall2 (fun v d => nth_error (h_data h) v = Some d) suf dsuf ->
  best_upto (List.length dpre) p ->
  exists q, scan c h whole place suf (Z.of_nat (List.length dpre)) (total_of dpre) p = Ret q /\ best_upto (List.length data) q.
Proof.
  intros dpre p E F. revert dpre p E. induction F as [|v d suf dsuf Hd F IH]; intros dpre p E B.
  - exists p. split; [reflexivity|]. rewrite E, app_nil_r. exact B.
  - cbn [scan]. unfold vget. rewrite Hd. 
    assert (St : exists p', (if (Z.of_nat (List.length dpre) =? 0)%Z then Ret p
        else let! (gain, missing_right) := best_here c h whole (total_of dpre) place in
          if nmax (pt_gain p) (nmax (cf_min_gain c) tolerance) <? gain
          then Ret (mkPoint (Z.of_nat (List.length dpre) - 1) missing_right gain) else Ret p) = Ret p' /\
        best_upto (S (List.length dpre)) p').
    { destruct (Z.eqb_spec (Z.of_nat (List.length dpre)) 0) as [Z0|Z0].
      - exists p. split; [reflexivity|]. 
        assert (X : forall j m g, j < S (List.length dpre) -> cand j m g -> False).
        { intros j m g J Cj. inversion Cj; subst; lia. }
        destruct B as [[A B]|[A (C & B & Er)]]; [left|right].
        + split; [exact A|]. intros j m g J Cj. destruct (X _ _ _ J Cj).
        + split; [exact A|]. split; [exact C|]. split; [|exact Er]. intros j m g J Cj. destruct (X _ _ _ J Cj).
      - assert (I : 1 <= List.length dpre < List.length data) by (rewrite E, app_length; cbn; lia).
        destruct (best_here_spec _ I) as (g & mr & Eb & C1 & C2 & C3 & C4).
        assert (Ef : first_part data (List.length dpre) = total_of dpre).
        { unfold first_part. rewrite E, firstn_app, Nat.sub_diag, firstn_all. cbn. rewrite app_nil_r. reflexivity. }
        rewrite Ef in Eb. rewrite Eb. cbn [bind]. rewrite (update_cond c p g (best_upto_cond _ _ B)).
        eexists. split; [|exact (step_cut _ p g mr I B C1 C2 C3 C4)]. destruct (cur c p <? g); reflexivity. }
    destruct St as (p' & Ep & B'). rewrite Ep. cbn [bind]. rewrite <- total_snoc.
    replace (Z.of_nat (List.length dpre) + 1)%Z with (Z.of_nat (List.length (dpre ++ [d]))) by (rewrite app_length; cbn; lia).
    apply IH; [rewrite <- app_assoc; exact E|].
    rewrite app_length. cbn [List.length]. rewrite Nat.add_1_r. exact B'.
Qed.

Lemma split_point_spec : exists r, find_best_split_point c h whole place = Ret r /\
  match r with
  | None => forall i m g, cand i m g -> (gain_floor c <? g) = false
  | Some p => (0 <= pt_left p)%Z /\ cand (Z.to_nat (pt_left p + 1)) (pt_missing_right p) (pt_gain p) /\
      (gain_floor c <? pt_gain p) = true /\
      (forall i m g, cand i m g -> (pt_gain p <? g) = false) /\
      (forall i m g, cand i m g -> earlier (i, m) (Z.to_nat (pt_left p + 1), pt_missing_right p) -> (g =? g) = true ->
         (g <? pt_gain p) = true)
  end.
Proof.
  destruct (scan_spec _ _ [] (mkPoint (-1) false n0) eq_refl Look) as (q & Eq & B).
  { left. split; [cbn; split; [lia|reflexivity]|]. intros j m g J. cbn in J. lia. }
  unfold find_best_split_point. change (total_of []) with (@gzero N) in Eq. change (Z.of_nat (List.length (@nil (grad N)))) with 0%Z in Eq. rewrite Eq. cbn [bind].
  eexists. split; [reflexivity|].
  assert (R : forall i m g, cand i m g -> i < List.length data) by (intros i m g C; inversion C; subst; lia).
  destruct B as [[[L _] B]|[[L F] (C & B & Er)]].
  - destruct (Z.leb_spec 0 (pt_left q)); [lia|]. intros i m g Ci. exact (B i m g (R _ _ _ Ci) Ci).
  - destruct (Z.leb_spec 0 (pt_left q)); [|lia]. split; [exact L|]. split; [exact C|]. split; [exact F|]. split.
    + intros i m g Ci. exact (B i m g (R _ _ _ Ci) Ci).
    + intros i m g Ci Ea Ng. exact (Er i m g Ea Ci Ng).
Qed.
End Fixed.
End Scan.

(** ** A sorting function exists *)
Fixpoint insert (less : nat -> nat -> bool) (x : nat) (l : list nat) : list nat :=
  match l with [] => [x] | y :: t => if less y x then y :: insert less x t else x :: l end.
Definition insertion_sort (less : nat -> nat -> bool) (l : list nat) : list nat := fold_right (insert less) [] l.

Section Insertion.
Variables (less : nat -> nat -> bool) (U : list nat).
Hypothesis W : weak_order less U.
Notation R := (fun a b => less b a = false).

Lemma insert_perm x l : Permutation (x :: l) (insert less x l).
Proof.
  induction l as [|y t IH]; cbn; [apply Permutation_refl|]. destruct (less y x); [|apply Permutation_refl].
  eapply perm_trans; [apply perm_swap|]. constructor. exact IH.
Qed.
Lemma insert_sorted x l : In x U -> incl l U -> StronglySorted R l -> StronglySorted R (insert less x l).
Proof.
  destruct W as (W1 & W2 & W3). intros Ix Il S. induction S as [|y t S IH F]; cbn; [repeat constructor|].
  assert (Iy : In y U) by (apply Il; left; reflexivity). assert (It : incl t U) by (intros z I; apply Il; right; exact I).
  destruct (less y x) eqn:E.
  - constructor; [apply IH, It|]. apply Forall_forall. intros z I.
    apply (Permutation_in _ (Permutation_sym (insert_perm x t))) in I. destruct I as [<-|I].
    + destruct (less x y) eqn:E2; [|reflexivity]. pose proof (W2 y x y Iy Ix Iy E E2). rewrite W1 in H; auto.
    + rewrite Forall_forall in F. apply F, I.
  - constructor; [constructor; assumption|]. constructor; [exact E|]. apply Forall_forall. intros z I.
    rewrite Forall_forall in F. specialize (F z I). destruct (less z x) eqn:E2; [|reflexivity].
    destruct (W3 z x y (It _ I) Ix Iy E2); congruence.
Qed.
End Insertion.

Lemma insertion_sorts : sorts insertion_sort.
Proof.
  intros less l W. assert (G : forall l', incl l' l -> Permutation l' (insertion_sort less l') /\
      StronglySorted (fun a b => less b a = false) (insertion_sort less l')).
  { induction l' as [|x t IH]; intros I; [split; [constructor|constructor]|]. cbn [insertion_sort fold_right].
    destruct IH as [P S]; [intros z J; apply I; right; exact J|]. fold (insertion_sort less t). split.
    - eapply perm_trans; [constructor; exact P|]. apply insert_perm.
    - apply (insert_sorted less l W); [apply I; left; reflexivity| |exact S].
      intros z J. apply I. right. exact (Permutation_in _ (Permutation_sym P) J). }
  destruct (G l (incl_refl l)) as [P S]. split; [exact P|]. clear G P.
  induction S as [|y t S IH F]; intros i j a b L Ea Eb; [destruct i; discriminate|].
  destruct j as [|j]; [lia|]. cbn in Eb. destruct i as [|i]; cbn in Ea.
  - injection Ea as <-. rewrite Forall_forall in F. apply F. eapply nth_error_In; eassumption.
  - exact (IH i j a b ltac:(lia) Ea Eb).
Qed.
