(** Pairwise_proofs.v - the gradients of the pairwise losses (property C47). *)
From Coq Require Import Sorting.Permutation SpecFloat.
From Verif Require Import Base Base_proofs F32 F32_proofs Column Subsampling Subsampling_proofs Num Par Par_proofs Volatile_proofs
  Config Score_proofs Split SplitSpec Sum_proofs Tree Train Loss LossSpec Loss_proofs ColumnSpec Pairwise PairSpec Group_proofs GroupCol_proofs.

Lemma in_range r i : In i (range r) <-> fst r <= i < snd r.
Proof. unfold range. rewrite in_seq. lia. Qed.

Section Tasks.
Context {N : Num}.
Variables (srt : (nat -> nat -> bool) -> list nat -> list nat) (to_uint : N -> res nat) (pick : nat -> nat -> nat * nat)
  (c : config N) (with_rerank : bool) (weight : float_vector -> group -> nat * nat -> res N) (lossf : N -> N -> point N)
  (w y : float_vector) (wv : nat -> N) (t : nat -> f32) (f : list N).
Hypothesis Wv : row_values w (List.length f) wv.
Notation mem := (mem wloc (@wval N)).
Definition gen (l : wloc) : Prop := l = WGen.
Definition gen_ok (v : @wval N) : Prop := exists pos, v = WS pos.
Notation vwp := (vwp wloc_dec gen gen_ok).

(** A group whose pairs are there, and whose rows have all values. *)
Definition sound_group (g : group) : Prop :=
  (forall i, In i (gr_rows g) -> i < List.length f /\ y i = Ret (t i)) /\
  (forall k, k < gr_pairs g -> exists a b i j, sample_pair g k = Ret (a, b) /\ nth_error (gr_rows g) a = Some i /\
       nth_error (gr_rows g) b = Some j /\ fltb (t j) (t i) = true).
Definition weighs (g : group) : Prop :=
  forall a b i j, nth_error (gr_rows g) a = Some i -> nth_error (gr_rows g) b = Some j -> fltb (t j) (t i) = true ->
    exists pw, weight y g (a, b) = Ret pw.

Definition effect (j : nat) (us : list (push N)) (m m' : mem) : Prop :=
  (forall r d, m (WGrad r) = Some (WG d) -> m' (WGrad r) = Some (WG (fold_left (push_row r) us d))) /\
  (forall x, m (WTotal j) = Some (WT (fst x) (snd x)) -> m' (WTotal j) = Some (WT (fst (fold_left push_total us x)) (snd (fold_left push_total us x)))).

Notation isp := (is_push weight lossf y wv t f).

Lemma once_ok j g factor (m : mem) (F : wloc -> Prop) : picks pick -> sound_group g -> weighs g -> 0 < gr_pairs g ->
  F (WTotal j) -> (forall r, In r (gr_rows g) -> F (WGrad r)) ->
  (exists a b, m (WTotal j) = Some (WT a b)) -> (forall r, In r (gr_rows g) -> exists d, m (WGrad r) = Some (WG d)) ->
  vwp F (pair_once pick weight lossf w y f j g factor) m (fun _ m' => exists u, isp g factor u /\ effect j [u] m m').
Proof.
  intros Pk [Rows Smp] Wt Np Fj Fr (ta & tb & Mj) Mr. unfold pair_once.
  apply VSharedRead; [reflexivity|]. intros v (pos & ->).
  destruct (pick pos (gr_pairs g)) as [index pos'] eqn:Ep.
  assert (Li : index < gr_pairs g) by (pose proof (Pk pos _ Np) as X; rewrite Ep in X; exact X).
  apply VSharedWrite; [reflexivity|exists pos'; reflexivity|].
  destruct (Smp index Li) as (a & b & i & k & Es & Ea & Eb & Lt). rewrite Es. cbn [pres pbind fst snd].
  unfold vget. rewrite Ea, Eb. cbn [pres pbind].
  destruct (Rows i (nth_error_In _ _ Ea)) as [Fi Yi]. destruct (Rows k (nth_error_In _ _ Eb)) as [Fk Yk].
  destruct (Wv i Fi) as (wi & Ewi & Dwi). destruct (Wv k Fk) as (wk & Ewk & Dwk). rewrite Ewi, Ewk. cbn [pres pbind].
  destruct (Wt a b i k Ea Eb Lt) as (pw & Epw). rewrite Epw, Yi, Yk. cbn [pres pbind].
  rewrite (nth_error_nth' f n0 Fi), (nth_error_nth' f n0 Fk). cbn [pres pbind].
  rewrite Dwi, Dwk. set (wt := nmul (nmul (nstore (nmul (wv i) (wv k))) pw) factor).
  set (pt := lossf (nstore (nsub (nfloat (t i)) (nfloat (t k)))) (nsub (nth i f n0) (nth k f n0))).
  destruct (Mr i (nth_error_In _ _ Ea)) as (di & Mi). destruct (Mr k (nth_error_In _ _ Eb)) as (dk & Mk).
  assert (Nik : i <> k) by (intros ->; rewrite fltb_irrefl in Lt; discriminate).
  assert (N1 : WGrad i <> WGrad k) by congruence. assert (N2 : WGrad k <> WGrad i) by congruence.
  assert (Gi : F (WGrad i)) by (apply Fr; eapply nth_error_In; exact Ea).
  assert (Gk : F (WGrad k)) by (apply Fr; eapply nth_error_In; exact Eb).
  unfold add_g, sub_g, add_h, add_total. cbn [pbind].
  eapply VRead; [exact Gi|exact Mi|]. cbn [pbind]. eapply VWrite; [exact Gi|exact Mi|]. cbn [pbind].
  eapply VRead; [exact Gk|rewrite upd_ne by exact N2; exact Mk|]. cbn [pbind].
  eapply VWrite; [exact Gk|rewrite upd_ne by exact N2; exact Mk|]. cbn [pbind].
  eapply VRead; [exact Gi|rewrite upd_ne by exact N1; apply upd_eq|]. cbn [pbind].
  eapply VWrite; [exact Gi|rewrite upd_ne by exact N1; apply upd_eq|]. cbn [pbind].
  eapply VRead; [exact Gk|rewrite upd_ne by exact N2; apply upd_eq|]. cbn [pbind].
  eapply VWrite; [exact Gk|rewrite upd_ne by exact N2; apply upd_eq|]. cbn [pbind gg gh].
  eapply VRead; [exact Fj|rewrite !upd_ne by discriminate; exact Mj|].
  eapply VWrite; [exact Fj|rewrite !upd_ne by discriminate; exact Mj|]. apply VRet.
  exists (mkPush i k wt pt). split.
  - exists a, b, pw. cbn. repeat split; assumption.
  - split; [|intros [xa xb] Mx; cbn [fst snd] in Mx; rewrite upd_eq; assert (xa = ta) by congruence; assert (xb = tb) by congruence; subst xa xb; reflexivity].
    intros r d Mrd. cbn [fold_left]. unfold push_row. cbn [pu_pos pu_neg pu_weight pu_point].
    rewrite upd_ne by discriminate. destruct (Nat.eqb_spec i r) as [<-|Nr].
    + rewrite upd_ne by exact N1. rewrite upd_eq. replace di with d by congruence. reflexivity.
    + destruct (Nat.eqb_spec k r) as [<-|Nr2].
      * rewrite upd_eq. replace dk with d by congruence. reflexivity.
      * rewrite !upd_ne by congruence. exact Mrd.
Qed.

Lemma times_ok j g factor (F : wloc -> Prop) todo : picks pick -> sound_group g -> weighs g -> (0 < todo -> 0 < gr_pairs g) ->
  F (WTotal j) -> (forall r, In r (gr_rows g) -> F (WGrad r)) -> forall m : mem,
  (exists a b, m (WTotal j) = Some (WT a b)) -> (forall r, In r (gr_rows g) -> exists d, m (WGrad r) = Some (WG d)) ->
  vwp F (pair_times pick weight lossf w y f j g factor todo) m
    (fun _ m' => exists us, List.length us = todo /\ Forall (isp g factor) us /\ effect j us m m').
Proof.
  intros Pk Sd Wt Np Fj Fr. induction todo as [|todo IH]; intros m Mj Mr; cbn [pair_times].
  - apply VRet. exists []. split; [reflexivity|]. split; [constructor|]. split; auto.
  - apply vwp_bind. eapply vwp_weaken; [apply once_ok; try assumption; apply Np; lia|]. cbn.
    intros _ m1 (u & Hu & E1 & T1). eapply vwp_weaken; [apply IH|].
    + intros _. apply Np. lia.
    + destruct Mj as (ta & tb & Mj). eexists _, _. exact (T1 (ta, tb) Mj).
    + intros r I. destruct (Mr r I) as (d & Md). eexists. apply (E1 r d Md).
    + cbn. intros _ m2 (us & Lu & Fu & E2 & T2). exists (u :: us). cbn. split; [lia|]. split; [constructor; assumption|].
      split; [|intros x Mx; exact (T2 _ (T1 x Mx))]. intros r d Md. rewrite (E2 r _ (E1 r d Md)). reflexivity.
Qed.

(** A group of the object, and what becomes of it. *)
Definition factor_of (p : @pairwise N) (g : group) : N :=
  if cf_equal_groups c then ndiv (nZ (Z.of_nat (pr_max p))) (nZ (Z.of_nat (gr_pairs g))) else n1.
Definition usable (p : @pairwise N) (gi : nat) (g' : group) (count : nat) : Prop :=
  exists g, nth_error (pr_groups p) gi = Some g /\ reranked srt with_rerank f g = Ret g' /\
    to_uint (nmul (nZ (Z.of_nat (gr_pairs g'))) (pr_prob p)) = Ret count /\ (0 < count -> 0 < gr_pairs g') /\ sound_group g' /\ weighs g'.

Lemma group_ok p j gi g' count (F : wloc -> Prop) (m : mem) : picks pick -> pr_w p = w -> pr_y p = y -> usable p gi g' count ->
  F (WTotal j) -> (forall r, In r (gr_rows g') -> F (WGrad r)) ->
  (exists a b, m (WTotal j) = Some (WT a b)) -> (forall r, In r (gr_rows g') -> exists d, m (WGrad r) = Some (WG d)) ->
  vwp F (pair_group srt to_uint pick c with_rerank weight lossf p f j gi) m
    (fun _ m' => exists us, List.length us = count /\ Forall (isp g' (factor_of p g')) us /\ effect j us m m').
Proof.
  intros Pk Pw Py (g & Eg & Er & Ec & Cp & Sd & Wt) Fj Fr Mj Mr. unfold pair_group, vget. rewrite Eg. cbn [pres pbind].
  rewrite Er. cbn [pres pbind]. rewrite Ec. cbn [pres pbind]. rewrite Pw, Py. apply times_ok; assumption.
Qed.

Lemma flat_map_same {A B} (g h : A -> list B) l : (forall a, In a l -> g a = h a) -> flat_map g l = flat_map h l.
Proof. induction l as [|a l IH]; intros H; [reflexivity|]. cbn. rewrite (H a (or_introl eq_refl)), IH; [reflexivity|]. intros z I. apply H. right. exact I. Qed.
Lemma task_ok p j gis : picks pick -> pr_w p = w -> pr_y p = y -> forall (gs : nat -> group) (counts : nat -> nat) (F : wloc -> Prop),
  (forall gi, In gi gis -> usable p gi (gs gi) (counts gi)) -> F (WTotal j) -> (forall gi r, In gi gis -> In r (gr_rows (gs gi)) -> F (WGrad r)) ->
  NoDup gis -> (forall g1 g2 r, In g1 gis -> In g2 gis -> In r (gr_rows (gs g1)) -> In r (gr_rows (gs g2)) -> g1 = g2) ->
  forall m : mem,
  (exists a b, m (WTotal j) = Some (WT a b)) -> (forall gi r, In gi gis -> In r (gr_rows (gs gi)) -> exists d, m (WGrad r) = Some (WG d)) ->
  vwp F (pair_task srt to_uint pick c with_rerank weight lossf p f j gis) m
    (fun _ m' => exists uss : nat -> list (push N),
       (forall x, m (WTotal j) = Some (WT (fst x) (snd x)) ->
          m' (WTotal j) = Some (WT (fst (fold_left push_total (flat_map uss gis) x)) (snd (fold_left push_total (flat_map uss gis) x)))) /\
       (forall gi, In gi gis -> List.length (uss gi) = counts gi /\ Forall (isp (gs gi) (factor_of p (gs gi))) (uss gi) /\
          forall r d, In r (gr_rows (gs gi)) -> m (WGrad r) = Some (WG d) -> m' (WGrad r) = Some (WG (fold_left (push_row r) (uss gi) d))) /\
       (forall r d, (forall gi, In gi gis -> ~ In r (gr_rows (gs gi))) -> m (WGrad r) = Some (WG d) -> m' (WGrad r) = Some (WG d))).
Proof.
  intros Pk Pw Py gs counts F. induction gis as [|gi gis IH]; intros Us Fj Fr ND Dj m Mj Mr; cbn [pair_task].
  - apply VRet. exists (fun _ => []). split; [auto|]. split; [intros gi []|]. auto.
  - apply NoDup_cons_iff in ND. destruct ND as [NI ND']. apply vwp_bind.
    eapply vwp_weaken; [apply (group_ok p j gi (gs gi) (counts gi)); try reflexivity; try assumption|].
    + apply Us. left. reflexivity.
    + intros r I. apply (Fr gi); [left; reflexivity|exact I].
    + intros r I. apply (Mr gi); [left; reflexivity|exact I].
    + cbn. intros _ m1 (us & Lu & Fu & E1 & T1).
      assert (Out : forall r d, ~ In r (gr_rows (gs gi)) -> fold_left (push_row r) us d = d).
      { clear - Fu. intros r d NR. revert d. induction Fu as [|u us Hu Fu IH]; intros d; [reflexivity|]. cbn.
        destruct Hu as (a & b & pw & Ea & Eb & _). apply nth_error_In in Ea, Eb. unfold push_row at 2.
        destruct (Nat.eqb_spec (pu_pos u) r) as [<-|_]; [contradiction|].
        destruct (Nat.eqb_spec (pu_neg u) r) as [<-|_]; [contradiction|]. apply IH. }
      eapply vwp_weaken; [apply IH; try assumption|].
      * intros g I. apply Us. right. exact I.
      * intros g r I. apply Fr. right. exact I.
      * intros g1 g2 r I1 I2. apply Dj; right; assumption.
      * destruct Mj as (ta & tb & Mj). eexists _, _. exact (T1 (ta, tb) Mj).
      * intros g r I Ir. destruct (Mr g r (or_intror I) Ir) as (d & Md). eexists. exact (E1 r d Md).
      * cbn. intros _ m2 (uss & T2 & G2 & O2). exists (fun k => if Nat.eq_dec k gi then us else uss k).
        assert (Es : flat_map (fun k => if Nat.eq_dec k gi then us else uss k) gis = flat_map uss gis).
        { apply flat_map_same. intros k I. destruct (Nat.eq_dec k gi) as [->|]; [contradiction|reflexivity]. }
        split; [|split].
        -- intros x Mx. destruct (Nat.eq_dec gi gi) as [_|X]; [|contradiction]. rewrite Es, fold_left_app. exact (T2 _ (T1 x Mx)).
        -- intros g [<-|I].
           ++ destruct (Nat.eq_dec gi gi) as [_|X]; [|contradiction]. split; [exact Lu|]. split; [exact Fu|]. intros r d Ir Md. apply O2; [|exact (E1 r d Md)].
              intros g' I' Ir'. apply NI. rewrite (Dj gi g' r); [exact I'|left; reflexivity|right; exact I'|exact Ir|exact Ir'].
           ++ destruct (Nat.eq_dec g gi) as [->|_]; [contradiction|]. destruct (G2 g I) as (L2 & F2 & R2). split; [exact L2|]. split; [exact F2|].
              intros r d Ir Md. apply R2; [exact Ir|]. rewrite (E1 r d Md). rewrite Out; [reflexivity|].
              intros Ir'. apply NI. rewrite (Dj gi g r); [exact I|left; reflexivity|right; exact I|exact Ir'|exact Ir].
        -- intros r d NR Md. apply O2; [intros g I; apply NR; right; exact I|]. rewrite (E1 r d Md). rewrite Out; [reflexivity|].
           apply NR. left. reflexivity.
Qed.

(** ** All tasks *)
Lemma schedule_ok threads p (gs : nat -> group) (counts : nat -> nat) pos s : 1 <= threads -> picks pick -> pr_w p = w -> pr_y p = y ->
  divide_samples (List.length (pr_groups p)) (threads * 5) = Ret (pr_slices p) ->
  (forall k, k < List.length (pr_groups p) -> usable p k (gs k) (counts k)) ->
  (forall j k r, j < List.length (pr_groups p) -> k < List.length (pr_groups p) -> In r (gr_rows (gs j)) -> In r (gr_rows (gs k)) -> j = k) ->
  ireach wloc_dec (pair_tasks srt to_uint pick c with_rerank weight lossf p f, pair_mem (List.length f) (List.length (pr_slices p)) pos) s ->
  (forall q, In q (fst s) -> ~ pfail q (snd s)) /\
  (all_done (fst s) \/ exists s', istep wloc_dec s s') /\
  (exists pos', snd s WGen = Some (WS pos')) /\
  (all_done (fst s) ->
     (exists uss : nat -> list (push N), (forall k, k < List.length (pr_groups p) -> List.length (uss k) = counts k /\ Forall (isp (gs k) (factor_of p (gs k))) (uss k) /\
        forall r, In r (gr_rows (gs k)) -> snd s (WGrad r) = Some (WG (pushed (uss k) r))) /\
        forall j sl, nth_error (pr_slices p) j = Some sl -> total_cell (snd s) j = Some (fold_left push_total (flat_map uss (range sl)) (n0, n0))) /\
     (forall r, r < List.length f -> exists d, snd s (WGrad r) = Some (WG d))).
Proof.
  intros Th Pk Pw Py Hd Us Dj R. unfold divide_samples in Hd. assert (G : 0 < threads * 5) by lia.
  rewrite divide_helper_ok in Hd by exact G. cbn [bind] in Hd.
  set (n := List.length (pr_groups p)) in *. pose proof (sizes_sum n (threads * 5) G) as Hs. injection Hd as Hd.
  match type of Hd with ranges 0 ?z = _ => set (sizes := z) in * end.
  set (rs := pr_slices p) in *. symmetry in Hd.
  set (m := pair_mem (List.length f) (List.length rs) pos : mem) in *.
  assert (Rv : forall j r, nth_error rs j = Some r -> fst r <= snd r <= n).
  { intros j r E. apply nth_error_In in E. rewrite Hd in E. apply ranges_valid in E. lia. }
  set (F := fun j l => l = WTotal j \/ exists sl gi r, nth_error rs j = Some sl /\ In gi (range sl) /\ In r (gr_rows (gs gi)) /\ l = WGrad r).
  assert (Lrow : forall k r, k < n -> In r (gr_rows (gs k)) -> r < List.length f).
  { intros k r Lk I. destruct (Us k Lk) as (g & _ & _ & _ & _ & (X & _) & _). apply X, I. }
  assert (Mrow : forall r, r < List.length f -> m (WGrad r) = Some (WG gzero)).
  { intros r L. unfold m, pair_mem. rewrite (proj2 (Nat.ltb_lt _ _) L). reflexivity. }
  set (Q := fun j (m' : mem) => exists uss : nat -> list (push N), forall sl, nth_error rs j = Some sl ->
       total_cell m' j = Some (fold_left push_total (flat_map uss (range sl)) (n0, n0)) /\
       (forall gi, In gi (range sl) -> List.length (uss gi) = counts gi /\ Forall (isp (gs gi) (factor_of p (gs gi))) (uss gi) /\
          forall r d, In r (gr_rows (gs gi)) -> m (WGrad r) = Some (WG d) -> m' (WGrad r) = Some (WG (fold_left (push_row r) (uss gi) d)))).
  assert (Disj : forall i j l, F i l -> F j l -> i = j).
  { intros i j l [->|(a & k & r & Ea & Ik & Ir & ->)] [X|(d & k' & r' & Ed & Ik' & Ir' & X)]; try discriminate; injection X as X; [exact X|]. subst r'.
    pose proof (Rv _ _ Ea). pose proof (Rv _ _ Ed). pose proof (proj1 (in_range _ _) Ik). pose proof (proj1 (in_range _ _) Ik').
    assert (k = k') by (apply (Dj k k' r); [lia|lia|exact Ir|exact Ir']). subst k'.
    rewrite Hd in Ea, Ed. eapply (ranges_disjoint sizes 0 i j a d k); [exact Ea|exact Ed|assumption|assumption]. }
  assert (Tasks : forall j q, nth_error (pair_tasks srt to_uint pick c with_rerank weight lossf p f) j = Some q -> vwp (F j) q m (fun _ => Q j)).
  { intros j q E. unfold pair_tasks in E. fold rs in E. rewrite nth_error_map, combine_seq_nth in E.
    destruct (nth_error rs j) as [sl|] eqn:Er; [|discriminate]. cbn [option_map plus fst snd] in E. injection E as <-.
    pose proof (Rv j sl Er) as Rj.
    assert (Lk : forall gi, In gi (range sl) -> gi < n) by (intros gi I; apply in_range in I; lia).
    eapply vwp_weaken; [apply (task_ok p j (range sl) Pk Pw Py gs counts (F j))|].
    - intros gi I. apply Us, Lk, I.
    - left. reflexivity.
    - intros gi r I Ir. right. exists sl, gi, r. auto.
    - apply seq_NoDup.
    - intros g1 g2 r I1 I2. apply Dj; apply Lk; assumption.
    - unfold m, pair_mem. rewrite (proj2 (Nat.ltb_lt _ _)) by (apply nth_error_Some; congruence). eauto.
    - intros gi r I Ir. exists gzero. apply Mrow. exact (Lrow gi r (Lk gi I) Ir).
    - cbn. intros _ m' (uss & T & Gr & _). exists uss. intros sl' E'. replace sl' with sl by congruence. split; [|exact Gr].
      assert (M0 : m (WTotal j) = Some (WT n0 n0)).
      { unfold m, pair_mem. rewrite (proj2 (Nat.ltb_lt _ _)) by (apply nth_error_Some; congruence). reflexivity. }
      unfold total_cell. rewrite (T (n0, n0) M0). f_equal. symmetry. apply surjective_pairing. }
  assert (Sh : vshared gen gen_ok m) by (intros l ->; unfold m; cbn; eexists; split; [reflexivity|eexists; reflexivity]).
  destruct (vinterleave wloc_dec gen gen_ok F Q (pair_tasks srt to_uint pick c with_rerank weight lossf p f) m s) as (D1 & D2 & D3 & D4); [|exact Disj| |exact Sh|exact Tasks|exact R|].
  { intros l. destruct (wloc_dec l WGen); [left|right]; assumption. }
  { intros i l [->|(sl & gi & r & _ & _ & _ & ->)] X; discriminate X. }
  split; [exact D1|]. split; [exact D2|]. split.
  { destruct (D3 WGen eq_refl) as (v & Ev & pos' & ->). eauto. }
  intros A. destruct (D4 A) as [D5 D6]. clear D4.
  assert (Ltasks : List.length (pair_tasks srt to_uint pick c with_rerank weight lossf p f) = List.length rs).
  { unfold pair_tasks. fold rs. rewrite map_length, combine_seq_length. reflexivity. }
  rewrite Ltasks in D5, D6.
  destruct (list_choice (fun _ => []) (List.length rs) (fun j (uss : nat -> list (push N)) => exists m' : mem, (forall sl, nth_error rs j = Some sl ->
       total_cell m' j = Some (fold_left push_total (flat_map uss (range sl)) (n0, n0)) /\
       (forall gi, In gi (range sl) -> List.length (uss gi) = counts gi /\ Forall (isp (gs gi) (factor_of p (gs gi))) (uss gi) /\
          forall r d, In r (gr_rows (gs gi)) -> m (WGrad r) = Some (WG d) -> m' (WGrad r) = Some (WG (fold_left (push_row r) (uss gi) d)))) /\
       forall l, F j l -> snd s l = m' l)) as [U HU].
  { intros j Lj. destruct (D5 j Lj) as (m' & (uss & Qj) & Ag). exists uss, m'. split; [exact Qj|exact Ag]. }
  set (at_slice := fun k j => match nth_error rs j with Some sl => ((fst sl <=? k) && (k <? snd sl))%bool | None => false end).
  set (uss := fun k => match find (at_slice k) (seq 0 (List.length rs)) with Some j => U j k | None => [] end).
  assert (Here : forall k j sl, nth_error rs j = Some sl -> In k (range sl) -> uss k = U j k).
  { intros k j sl Er Ik. unfold uss. destruct (find (at_slice k) (seq 0 (List.length rs))) as [j'|] eqn:Ef.
    - apply find_some in Ef. destruct Ef as [_ Ef]. unfold at_slice in Ef. destruct (nth_error rs j') as [sl'|] eqn:Er'; [|discriminate].
      apply andb_prop in Ef. destruct Ef as [E1 E2]. apply Nat.leb_le in E1. apply Nat.ltb_lt in E2. apply in_range in Ik.
      replace j' with j; [reflexivity|]. rewrite Hd in Er, Er'. eapply (ranges_disjoint sizes 0 j j' sl sl' k); [exact Er|exact Er'|lia|lia].
    - exfalso. assert (Lj : j < List.length rs) by (apply nth_error_Some; congruence).
      pose proof (find_none _ _ Ef j) as X. rewrite in_seq in X. specialize (X ltac:(lia)). unfold at_slice in X. rewrite Er in X. apply in_range in Ik.
      rewrite (proj2 (Nat.leb_le _ _)), (proj2 (Nat.ltb_lt _ _)) in X by lia. discriminate. }
  assert (Gk : forall k, k < n -> List.length (uss k) = counts k /\ Forall (isp (gs k) (factor_of p (gs k))) (uss k) /\
        forall r, In r (gr_rows (gs k)) -> snd s (WGrad r) = Some (WG (pushed (uss k) r))).
  { intros k Lk. destruct (ranges_hit sizes 0 k) as (j & sl & Er & Hk); [lia|]. rewrite <- Hd in Er.
    destruct (HU j) as (m' & Qj & Ag); [apply nth_error_Some; congruence|].
    rewrite (Here k j sl Er (proj2 (in_range _ _) Hk)).
    destruct (proj2 (Qj sl Er) k (proj2 (in_range _ _) Hk)) as (Lu & Fu & Ru). split; [exact Lu|]. split; [exact Fu|].
    intros r Ir. rewrite Ag.
    - apply Ru; [exact Ir|]. apply Mrow. exact (Lrow k r Lk Ir).
    - right. exists sl, k, r. split; [exact Er|]. split; [apply in_range, Hk|]. auto. }
  split.
  { exists uss. split; [exact Gk|]. intros j sl Er. destruct (HU j) as (m' & Qj & Ag); [apply nth_error_Some; congruence|].
    unfold total_cell. rewrite Ag by (left; reflexivity). rewrite (flat_map_same uss (U j)); [exact (proj1 (Qj sl Er))|].
    intros k Ik. exact (Here k j sl Er Ik). }
  intros r Lr.
  assert (Dc : (exists k, k < n /\ In r (gr_rows (gs k))) \/ (forall k, k < n -> ~ In r (gr_rows (gs k)))).
  { clear - n. clearbody n. induction n as [|n IH]; [right; intros k K; lia|].
    destruct IH as [(k & Lk & I)|No]; [left; exists k; split; [lia|exact I]|].
    destruct (in_dec Nat.eq_dec r (gr_rows (gs n))) as [I|NI]; [left; exists n; split; [lia|exact I]|].
    right. intros k Lk. destruct (Nat.eq_dec k n) as [->|Ne]; [exact NI|apply No; lia]. }
  destruct Dc as [(k & Lk & I)|No].
  - destruct (Gk k Lk) as (_ & _ & Ru). eexists. apply Ru, I.
  - exists gzero. rewrite D6; [apply Mrow, Lr|discriminate|].
    intros j Lj [X|(sl & gi & r' & Er & Ig & Ir & X)]; [discriminate|]. injection X as <-.
    apply (No gi); [|exact Ir]. pose proof (Rv j sl Er). apply in_range in Ig. lia.
Qed.
End Tasks.

(** ** The object *)
Lemma rerank_keeps {N : Num} srt (f : list N) g g' : rerank srt f g = Ret g' ->
  gr_rows g' = gr_rows g /\ gr_pairs g' = gr_pairs g /\ gr_map g' = gr_map g /\ List.length (gr_ranks g') = List.length (gr_ranks g).
Proof.
  unfold rerank. intros E. apply bind_ret in E. destruct E as (fs & _ & E). destruct (forallb _ fs); [|discriminate].
  apply bind_ret in E. destruct E as (rk & E1 & E2). injection E2 as <-. cbn. repeat split.
  match type of E1 with fold_res _ ?l _ = _ => generalize dependent l end. generalize (gr_ranks g). intros r0 l E1. revert r0 E1.
  induction l as [|x l IH]; intros r0 E1; cbn in E1; [injection E1 as <-; reflexivity|].
  apply bind_ret in E1. destruct E1 as (r1 & E1 & E2). rewrite (IH r1 E2). unfold vset in E1.
  destruct (_ <? _); [|discriminate]. injection E1 as <-. apply set_nth_length.
Qed.

Lemma reranked_keeps {N : Num} srt wr (f : list N) g g' : reranked srt wr f g = Ret g' ->
  gr_rows g' = gr_rows g /\ gr_pairs g' = gr_pairs g /\ gr_map g' = gr_map g /\ List.length (gr_ranks g') = List.length (gr_ranks g).
Proof. unfold reranked. destruct wr; [apply rerank_keeps|]. intros [= <-]. auto. Qed.

Lemma fold_max l : forall a, fold_left Nat.max l a = Nat.max a (list_max l).
Proof. induction l as [|x l IH]; intros a; cbn; [lia|]. rewrite IH. unfold list_max. cbn. lia. Qed.
Lemma fold_add l : forall a, fold_left Nat.add l a = a + list_sum l.
Proof. induction l as [|x l IH]; intros a; cbn; [lia|]. rewrite IH. unfold list_sum. cbn. lia. Qed.

Lemma read_index {A B} (l : list A) (v : A -> res B) (R : A -> B -> Prop) : (forall a, In a l -> exists b, v a = Ret b /\ R a b) ->
  forall pre, exists bs, read_all (fun i => let! a := vget (pre ++ l) i in v a) (seq (List.length pre) (List.length l)) = Ret bs /\ Forall2 R l bs.
Proof.
  induction l as [|a l IH]; intros H pre; cbn; [exists []; split; [reflexivity|constructor]|].
  destruct (H a (or_introl eq_refl)) as (b & Eb & Rb). unfold vget at 1. rewrite nth_error_app2, Nat.sub_diag by lia. cbn. rewrite Eb. cbn.
  destruct (IH (fun x I => H x (or_intror I)) (pre ++ [a])) as (bs & E & F). rewrite app_length in E. cbn in E.
  rewrite Nat.add_1_r, <- app_assoc in E. cbn in E. rewrite E. cbn. exists (b :: bs). split; [reflexivity|constructor; assumption].
Qed.

Lemma Forall2_in_l {A B} (R : A -> B -> Prop) l1 l2 a : Forall2 R l1 l2 -> In a l1 -> exists b, In b l2 /\ R a b.
Proof. induction 1 as [|x z l1 l2 H F IH]; intros []; [subst; exists z; split; [left; reflexivity|exact H]|]. destruct (IH H0) as (b & I & Rb). exists b. split; [right; exact I|exact Rb]. Qed.

Lemma grouping_ok n col : proper_groups n col -> exists rows, grouping n col rows /\ rows_by_group n col = Ret rows.
Proof.
  intros [|blocks F L M]; [exists [seq 0 n]; split; [constructor|reflexivity]|].
  destruct (group_column_spec n blocks F) as [_ H]. destruct (H M) as (names & ND & Nm & E).
  exists (map (rows_with (concat blocks)) names). split; [constructor; assumption|exact E].
Qed.

Lemma grouping_rows n col rows : grouping n col rows -> NoDup (concat rows) /\ forall r, In r (concat rows) <-> r < n.
Proof.
  intros [|blocks names L ND Nm]; cbn.
  - rewrite app_nil_r. split; [apply seq_NoDup|]. intros r. rewrite in_seq. lia.
  - assert (In' : forall r, In r (concat (map (rows_with (concat blocks)) names)) <-> exists s, In s names /\ nth_error (concat blocks) r = Some s).
    { intros r. rewrite in_concat. split.
      - intros (x & I & J). apply in_map_iff in I. destruct I as (s & <- & I). exists s. split; [exact I|apply rows_with_in, J].
      - intros (s & I & E). exists (rows_with (concat blocks) s). split; [apply in_map, I|apply rows_with_in, E]. }
    split.
    + clear In' Nm L. induction ND as [|s names NI ND IH]; [constructor|]. cbn.
      assert (App : forall (l1 l2 : list nat), NoDup l1 -> NoDup l2 -> (forall x, In x l1 -> ~ In x l2) -> NoDup (l1 ++ l2)).
      { clear. intros l1 l2 N1 N2 D. induction N1 as [|x l1 NI N1 IH]; [exact N2|]. cbn. constructor.
        - rewrite in_app_iff. intros [I|I]; [contradiction|]. exact (D x (or_introl eq_refl) I).
        - apply IH. intros z I. apply D. right. exact I. }
      apply App; [apply NoDup_filter, seq_NoDup|exact IH|].
      intros r I J. apply rows_with_in in I. rewrite in_concat in J. destruct J as (x & J & K). apply in_map_iff in J.
      destruct J as (s' & <- & J). apply rows_with_in in K. assert (s' = s) by congruence. subst s'. contradiction.
    + intros r. rewrite In', <- L. split.
      * intros (s & _ & E). apply nth_error_Some. congruence.
      * intros Lr. apply nth_error_Some in Lr. destruct (nth_error (concat blocks) r) as [s|] eqn:E; [|congruence].
        exists s. split; [|reflexivity]. apply Nm. eapply nth_error_In, E.
Qed.

Lemma concat_disjoint {A} (l : list (list A)) : NoDup (concat l) -> forall i j a b r, nth_error l i = Some a -> nth_error l j = Some b ->
  In r a -> In r b -> i = j.
Proof.
  induction l as [|x l IH]; intros ND i j a b r Ei Ej Ia Ib; [destruct i; discriminate|]. cbn in ND.
  assert (Dx : forall z, In z x -> ~ In z (concat l)).
  { clear - ND. induction x as [|q x IH]; intros z I; [destruct I|]. cbn in ND. inversion ND as [|? ? NI ND']; subst.
    destruct I as [<-|I]; [intros J; apply NI, in_app_iff; right; exact J|apply IH; assumption]. }
  assert (NDl : NoDup (concat l)) by (clear - ND; induction x as [|q x IH]; [exact ND|]; cbn in ND; inversion ND; auto).
  destruct i as [|i], j as [|j]; cbn in Ei, Ej.
  - reflexivity.
  - exfalso. injection Ei as ->. apply (Dx r Ia). apply in_concat. exists b. split; [eapply nth_error_In, Ej|exact Ib].
  - exfalso. injection Ej as ->. apply (Dx r Ib). apply in_concat. exists a. split; [eapply nth_error_In, Ei|exact Ia].
  - f_equal. exact (IH NDl i j a b r Ei Ej Ia Ib).
Qed.

Section Object.
Context {N : Num}.
Variables (srt : (nat -> nat -> bool) -> list nat -> list nat) (threads : nat) (to_uint : N -> res nat)
  (pick : nat -> nat -> nat * nat) (c : config N) (with_rerank : bool)
  (weight : float_vector -> group -> nat * nat -> res N) (lossf : N -> N -> point N)
  (n : nat) (w y : float_vector) (col : option strcol) (rows : list (list nat)) (wv : nat -> N) (t : nat -> f32).
Hypothesis Srt : sorts srt.
Hypothesis Th : 1 <= threads.
Hypothesis Rate : nleb (nfloat (cf_pair_rate c)) (@n0 N) = false.
Hypothesis Rw : rows_by_group n col = Ret rows.
Hypothesis NDr : NoDup (concat rows).
Hypothesis Lr : forall r, In r (concat rows) <-> r < n.
Hypothesis Wv : row_values w n wv.
Hypothesis Yv : comparable y (seq 0 n) t.

Definition group_of (rk : list nat) (g : group) : Prop :=
  Permutation rk (gr_rows g) /\ gr_pairs g = num_pairs t rk /\ List.length (gr_ranks g) = List.length (gr_rows g) /\
  (forall k, k < gr_pairs g -> exists a b i j, sample_pair g k = Ret (a, b) /\ nth_error (gr_rows g) a = Some i /\
       nth_error (gr_rows g) b = Some j /\ fltb (t j) (t i) = true).
Definition ready (p : @pairwise N) : Prop :=
  pr_w p = w /\ pr_y p = y /\ divide_samples (List.length (pr_groups p)) (threads * 5) = Ret (pr_slices p) /\
  pr_max p = list_max (1 :: map (num_pairs t) rows) /\ pr_prob p = probability c n rows t /\ Forall2 group_of rows (pr_groups p).

Lemma row_lt rk r : In rk rows -> In r rk -> r < n.
Proof. intros I J. apply Lr. apply in_concat. eauto. Qed.

Lemma init_ready : exists p, pair_init srt threads c n w y col = Ret (inr p) /\ ready p.
Proof.
  unfold pair_init. rewrite Rate, Rw. cbn [bind].
  destruct (read_index rows (group_new srt y) group_of) with (pre := @nil (list nat)) as (gs & E & F).
  { intros rk I. destruct (group_spec srt y rk t Srt) as (g & Eg & P & Rk & _ & Np & Sd & _).
    - intros i J. apply Yv, in_seq. pose proof (row_lt rk i I J). lia.
    - exists g. split; [exact Eg|]. split; [exact P|]. split; [exact Np|]. split; [|exact Sd].
      rewrite Rk, seq_length. apply Permutation_length, P. }
  cbn [app List.length] in E. rewrite E. cbn [bind].
  destruct (divide_spec (List.length gs) (threads * 5)) as (sl & Es & _); [lia|]. rewrite Es. cbn [bind].
  eexists. split; [reflexivity|].
  assert (Np : map gr_pairs gs = map (num_pairs t) rows).
  { clear - F. induction F as [|rk g rows gs (_ & H & _) F IH]; [reflexivity|]. cbn. congruence. }
  unfold ready. cbn [pr_w pr_y pr_groups pr_slices pr_max pr_prob]. rewrite Np. repeat split; [exact Es| | |exact F].
  - rewrite fold_max. reflexivity.
  - rewrite fold_add. reflexivity.
Qed.

Lemma reranked_of (f : list N) rk g g' : reranked srt with_rerank f g = Ret g' -> group_of rk g -> group_of rk g'.
Proof.
  intros E (P & Np & L & S). destruct (reranked_keeps _ _ _ _ _ E) as (K1 & K2 & K3 & K4). unfold group_of.
  rewrite K1, K2, K4. split; [exact P|]. split; [exact Np|]. split; [exact L|].
  intros k Lk. destruct (S k Lk) as (a & b & i & j & E1 & X). exists a, b, i, j. split; [|exact X].
  unfold sample_pair in *. rewrite K3. exact E1.
Qed.

Lemma round_keeps p pos f gd x gd' p' pos' : ready p ->
  pair_round srt to_uint pick c with_rerank weight lossf p pos f gd = Ret (x, gd', p', pos') -> ready p'.
Proof.
  intros (E1 & E2 & E3 & E4 & E5 & F) E. unfold pair_round in E. apply bind_ret in E. destruct E as (m & _ & E).
  apply bind_ret in E. destruct E as (gs & Eg & E). destruct (m WGen) as [[]|]; try discriminate. injection E as _ _ <- _.
  unfold ready. cbn [pr_w pr_y pr_groups pr_slices pr_max pr_prob].
  assert (L : Forall2 (fun g g' => reranked srt with_rerank f g = Ret g') (pr_groups p) gs).
  { apply read_all_ret in Eg. clear - Eg. revert Eg. change (seq 0 (List.length (pr_groups p))) with (seq (@List.length group []) (List.length (pr_groups p))).
    change (pr_groups p) with ([] ++ pr_groups p) at 1. generalize (@nil group) as pre. generalize (pr_groups p) as l. intros l. revert gs.
    induction l as [|g l IH]; intros gs pre H; cbn in H; [inversion H; constructor|]. inversion H as [|? g' ? gs' H1 H2]; subst.
    constructor.
    - apply bind_ret in H1. destruct H1 as (z & H1 & H3). apply vget_ret in H1. rewrite nth_error_app2, Nat.sub_diag in H1 by lia. cbn in H1. injection H1 as <-. exact H3.
    - apply (IH gs' (pre ++ [g])). rewrite app_length, <- app_assoc. cbn. rewrite Nat.add_1_r. exact H2. }
  rewrite <- (Forall2_len _ _ _ L). repeat split; try assumption.
  clear - F L. revert gs L. induction F as [|rk g rows l Hg F IH]; intros gs L; inversion L; subst; constructor; [eapply reranked_of; eassumption|auto].
Qed.

Lemma in_use_ready p : in_use srt threads to_uint pick c with_rerank weight lossf n w y col p -> ready p.
Proof.
  induction 1 as [p E|p pos f gd x gd' p' pos' H IH L E]; [|eapply round_keeps; eassumption].
  destruct init_ready as (p0 & E0 & R). congruence.
Qed.

Lemma drawn_explained p f pieces at_ : drawn srt to_uint c with_rerank weight lossf n y rows wv t p f pieces -> brought rows pieces at_ ->
  explained srt to_uint c with_rerank weight lossf n y rows wv t p f at_.
Proof.
  intros D B rk I. apply In_nth_error in I. destruct I as [k E]. destruct (Forall2_nth_error_l _ _ _ D _ _ E) as (piece & Ep & g0 & g & X1 & X2 & X3 & X4 & X5).
  destruct (Forall2_nth_error_l _ _ _ B _ _ E) as (piece' & Ep' & X6). replace piece' with piece in X6 by congruence.
  exists g0, g, piece. repeat split; assumption.
Qed.
Lemma Forall2_seq {A B} (R : A -> B -> Prop) (u : nat -> B) (l : list A) : forall i, (forall k a, nth_error l k = Some a -> R a (u (i + k))) -> Forall2 R l (map u (seq i (List.length l))).
Proof.
  induction l as [|a l IH]; intros i H; cbn; [constructor|]. constructor; [specialize (H 0 a eq_refl); rewrite Nat.add_0_r in H; exact H|].
  apply IH. intros k b E. specialize (H (S k) b E). rewrite Nat.add_succ_r in H. exact H.
Qed.
Lemma pair_round_all p pos f : ready p -> List.length f = n -> picks pick -> weight_defined weight y t ->
  (with_rerank = true -> ordered N /\ forall x, In x f -> neqb x x = true) ->
  (forall rk, In rk rows -> exists count, samples_of to_uint c n rows t rk = Ret count /\ (num_pairs t rk = 0 -> count = 0)) ->
  (forall s, ireach wloc_dec (pair_tasks srt to_uint pick c with_rerank weight lossf p f, pair_mem n (List.length (pr_slices p)) pos) s ->
     (forall q, In q (fst s) -> ~ pfail q (snd s)) /\ (all_done (fst s) \/ exists s', istep wloc_dec s s') /\
     (all_done (fst s) -> exists pieces, drawn srt to_uint c with_rerank weight lossf n y rows wv t p f pieces /\
        brought rows pieces (grad_cell (snd s)) /\ counted (pr_slices p) pieces (total_cell (snd s)))) /\
  exists m' pieces, run_tasks wloc_dec (pair_tasks srt to_uint pick c with_rerank weight lossf p f) (pair_mem n (List.length (pr_slices p)) pos) = Ret m' /\
     drawn srt to_uint c with_rerank weight lossf n y rows wv t p f pieces /\ counted (pr_slices p) pieces (total_cell m') /\
     forall gd, exists grads p' pos', pair_round srt to_uint pick c with_rerank weight lossf p pos f gd = Ret (n0, grads, p', pos') /\
     List.length grads = n /\ brought rows pieces (nth_error grads).
Proof.
  intros Rd Lf Pk Wd Rr Cn. pose proof Rd as (E1 & E2 & E3 & E4 & E5 & F).
  assert (Rg : forall g, In g (pr_groups p) -> exists g', reranked srt with_rerank f g = Ret g').
  { intros g I. apply In_nth_error in I. destruct I as [k Ek]. destruct (Forall2_nth_error _ _ _ F _ _ Ek) as (rk & Erk & P & _ & L & _).
    unfold reranked. destruct with_rerank; [|eauto]. destruct (Rr eq_refl) as [O Nn].
    destruct (rerank_spec srt f g O Srt L) as (g' & Eg & _); [|eauto].
    intros r J. assert (Lt : r < List.length f).
    { rewrite Lf. apply (row_lt rk); [eapply nth_error_In, Erk|]. eapply Permutation_in; [apply Permutation_sym, P|exact J]. }
    exists (nth r f n0). split; [apply nth_error_nth', Lt|]. apply Nn, nth_In, Lt. }
  set (K := List.length (pr_groups p)) in *.
  set (P := fun k (x : group * nat) => forall rk g, nth_error rows k = Some rk -> nth_error (pr_groups p) k = Some g ->
        reranked srt with_rerank f g = Ret (fst x) /\ samples_of to_uint c n rows t rk = Ret (snd x) /\ (num_pairs t rk = 0 -> snd x = 0)).
  assert (Ex : forall k, k < K -> exists x, P k x).
  { intros k Lk. apply nth_error_Some in Lk. destruct (nth_error (pr_groups p) k) as [g|] eqn:Ek; [|congruence].
    destruct (Forall2_nth_error _ _ _ F _ _ Ek) as (rk & Erk & _). destruct (Rg g (nth_error_In _ _ Ek)) as (g' & Eg').
    destruct (Cn rk (nth_error_In _ _ Erk)) as (count & Ec & Z0). exists (g', count). intros rk' g0 Hrk Hg.
    replace rk' with rk by congruence. replace g0 with g by congruence. auto. }
  destruct (list_choice (mkGroup [] [] 0 [], 0) K P Ex) as [x Hx]. clear Ex.
  assert (Gk : forall k rk, nth_error rows k = Some rk -> exists g, k < K /\ nth_error (pr_groups p) k = Some g /\ group_of rk (fst (x k)) /\
            reranked srt with_rerank f g = Ret (fst (x k)) /\ samples_of to_uint c n rows t rk = Ret (snd (x k)) /\ (num_pairs t rk = 0 -> snd (x k) = 0)).
  { intros k rk Erk. destruct (Forall2_nth_error_l _ _ _ F _ _ Erk) as (g & Eg & Go).
    assert (Lk : k < K) by (apply nth_error_Some; congruence). destruct (Hx k Lk rk g Erk Eg) as (Er & Es & Z0).
    exists g. split; [exact Lk|]. split; [exact Eg|]. split; [eapply reranked_of; eassumption|auto]. }
  assert (Rk : forall k, k < K -> exists rk, nth_error rows k = Some rk).
  { intros k Lk. apply nth_error_Some in Lk. destruct (nth_error (pr_groups p) k) as [g|] eqn:Ek; [|congruence].
    destruct (Forall2_nth_error _ _ _ F _ _ Ek) as (rk & Erk & _). eauto. }
  assert (Us : forall k, k < K -> usable srt to_uint with_rerank weight y t f p k (fst (x k)) (snd (x k))).
  { intros k Lk. destruct (Rk k Lk) as (rk & Erk). destruct (Gk k rk Erk) as (g & _ & Eg & (Pm & Np & L & Sd) & Er & Es & Z0).
    exists g. split; [exact Eg|]. split; [exact Er|].
    assert (Yr : forall i, In i (gr_rows (fst (x k))) -> i < n /\ y i = Ret (t i)).
    { intros i I. assert (i < n) by (apply (row_lt rk); [eapply nth_error_In, Erk|eapply Permutation_in; [apply Permutation_sym, Pm|exact I]]).
      split; [assumption|]. apply Yv, in_seq. lia. }
    split; [|split; [|split]].
    - rewrite Np, E5. exact Es.
    - rewrite Np. intros C0. destruct (num_pairs t rk); [rewrite Z0 in C0 by reflexivity; lia|lia].
    - split; [|exact Sd]. rewrite Lf. exact Yr.
    - intros a b i j Ea Eb _. apply (Wd (fst (x k)) a b i j L Ea Eb); apply Yr; eapply nth_error_In; eassumption. }
  assert (Dj : forall j k r, j < K -> k < K -> In r (gr_rows (fst (x j))) -> In r (gr_rows (fst (x k))) -> j = k).
  { intros j k r Lj Lk Ij Ik. destruct (Rk j Lj) as (rj & Erj). destruct (Rk k Lk) as (rk & Erk).
    destruct (Gk j rj Erj) as (_ & _ & _ & (Pj & _) & _). destruct (Gk k rk Erk) as (_ & _ & _ & (Pm & _) & _).
    eapply (concat_disjoint rows NDr j k rj rk r Erj Erk); eapply Permutation_in; [apply Permutation_sym, Pj|exact Ij|apply Permutation_sym, Pm|exact Ik]. }
  pose proof Wv as Wv'. rewrite <- Lf in Wv'.
  assert (Fin : forall s, ireach wloc_dec (pair_tasks srt to_uint pick c with_rerank weight lossf p f, pair_mem n (List.length (pr_slices p)) pos) s ->
     ((forall q, In q (fst s) -> ~ pfail q (snd s)) /\ (all_done (fst s) \/ exists s', istep wloc_dec s s') /\
     (all_done (fst s) -> exists pieces, drawn srt to_uint c with_rerank weight lossf n y rows wv t p f pieces /\
        brought rows pieces (grad_cell (snd s)) /\ counted (pr_slices p) pieces (total_cell (snd s)))) /\
     (exists pos', snd s WGen = Some (WS pos')) /\ (all_done (fst s) -> forall r, r < n -> exists d, snd s (WGrad r) = Some (WG d))).
  { intros s R. rewrite <- Lf in R.
    destruct (schedule_ok srt to_uint pick c with_rerank weight lossf w y wv t f Wv' threads p (fun k => fst (x k)) (fun k => snd (x k)) pos s Th Pk E1 E2 E3 Us Dj R)
      as (D1 & D2 & D3 & D4).
    split; [|split; [exact D3|intros A; rewrite <- Lf; apply D4, A]]. split; [exact D1|]. split; [exact D2|].
    intros A. destruct (proj1 (D4 A)) as (uss & Du & Tu). exists (map uss (seq 0 (List.length rows))). split; [|split].
    - apply Forall2_seq. intros k rk Erk. cbn. destruct (Gk k rk Erk) as (g & Lk & Eg & (Pm & Np & _) & Er & Es & _).
      destruct (Du k Lk) as (Lu & Fu & _). exists g, (fst (x k)). split; [eapply nth_error_In, Eg|].
      split; [exact Er|]. split; [exact Pm|]. split; [rewrite Lu; exact Es|]. unfold factor_of in Fu. rewrite E4, Np in Fu. exact Fu.
    - apply Forall2_seq. intros k rk Erk. cbn. destruct (Gk k rk Erk) as (g & Lk & Eg & (Pm & Np & _) & Er & Es & _).
      destruct (Du k Lk) as (_ & _ & Ru). intros r J. unfold grad_cell. rewrite Ru; [reflexivity|]. exact (Permutation_in _ Pm J).
    - intros j sl Es. rewrite (Tu j sl Es). do 2 f_equal. unfold range. apply flat_map_same. intros k Ik. apply in_seq in Ik.
      assert (Lk : k < List.length rows).
      { rewrite (Forall2_len _ _ _ F). destruct (divide_spec K (threads * 5)) as (sl' & Es' & _ & Bd & _); [lia|]. fold K.
        assert (sl' = pr_slices p) by congruence. subst sl'. pose proof (Bd sl (nth_error_In _ _ Es)). lia. }
      rewrite (nth_indep _ [] (uss 0)) by (rewrite map_length, seq_length; exact Lk). rewrite map_nth, seq_nth by exact Lk. reflexivity. }
  split; [intros s R; apply Fin, R|].
  pose proof (run_tasks_reach wloc_dec (pair_tasks srt to_uint pick c with_rerank weight lossf p f) [] (pair_mem n (List.length (pr_slices p)) pos)) as Seq.
  destruct (run_tasks wloc_dec _ _) as [m'| |] eqn:Erun.
  2,3: destruct Seq as (s & q & R & I & Fl); destruct (Fin s R) as [[D1 _] _]; exfalso; exact (D1 q I Fl).
  cbn [app] in Seq. destruct (Fin _ Seq) as [[_ [_ Ex]] [(pos' & Eg) Ro]]. cbn [bind fst snd] in *.
  assert (A : all_done (map (fun _ => PRet tt) (pair_tasks srt to_uint pick c with_rerank weight lossf p f) : list (prog wloc (@wval N) unit))).
  { intros q I. apply in_map_iff in I. destruct I as (z & <- & _). reflexivity. }
  destruct (Ex A) as (pieces & Dr & Br & Ct). specialize (Ro A).
  exists m', pieces. split; [reflexivity|]. split; [exact Dr|]. split; [exact Ct|]. intros gd. unfold pair_round. rewrite Lf, Erun. cbn [bind].
  destruct (read_index (pr_groups p) (reranked srt with_rerank f) (fun _ _ => True)) with (pre := @nil group) as (gs & Egs & _).
  { intros g I. destruct (Rg g I) as (g' & Eg'). eauto. }
  cbn [app List.length] in Egs. rewrite Egs. cbn [bind]. rewrite Eg.
  eexists. eexists. eexists. split; [reflexivity|].
  assert (Gr : forall todo i, i + todo <= n -> List.length (pair_grads m' i todo) = todo /\
            forall r, r < todo -> nth_error (pair_grads m' i todo) r = grad_cell m' (i + r)).
  { induction todo as [|todo IH]; intros i Li; cbn; [split; [reflexivity|intros r Lr'; lia]|].
    destruct (Ro i ltac:(lia)) as (d & Ed). rewrite Ed. destruct (IH (S i) ltac:(lia)) as [IH1 IH2].
    cbn. split; [congruence|]. intros [|r] Lr'; cbn.
    - rewrite Nat.add_0_r. unfold grad_cell. rewrite Ed. reflexivity.
    - rewrite IH2 by lia. f_equal. lia. }
  destruct (Gr n 0 ltac:(lia)) as [G1 G2]. split; [exact G1|].
  assert (Lo : forall rk, In rk rows -> forall r, In r rk -> r < n) by (intros rk I r; apply row_lt, I).
  clear - Br G2 Lo. induction Br as [|rk piece rows0 pieces0 H Br IH]; constructor.
  - intros r J. rewrite G2 by (apply (Lo rk); [left; reflexivity|exact J]). apply H, J.
  - apply IH. intros rk' I. apply Lo. right. exact I.
Qed.

Lemma pair_round_ok p pos f : ready p -> List.length f = n -> picks pick -> weight_defined weight y t ->
  (with_rerank = true -> ordered N /\ forall x, In x f -> neqb x x = true) ->
  (forall rk, In rk rows -> exists count, samples_of to_uint c n rows t rk = Ret count /\ (num_pairs t rk = 0 -> count = 0)) ->
  (forall s, ireach wloc_dec (pair_tasks srt to_uint pick c with_rerank weight lossf p f, pair_mem n (List.length (pr_slices p)) pos) s ->
     (forall q, In q (fst s) -> ~ pfail q (snd s)) /\ (all_done (fst s) \/ exists s', istep wloc_dec s s') /\
     (all_done (fst s) -> explained srt to_uint c with_rerank weight lossf n y rows wv t p f (grad_cell (snd s)))) /\
  forall gd, exists grads p' pos', pair_round srt to_uint pick c with_rerank weight lossf p pos f gd = Ret (n0, grads, p', pos') /\
     List.length grads = n /\ explained srt to_uint c with_rerank weight lossf n y rows wv t p f (nth_error grads).
Proof.
  intros Rd Lf Pk Wd Rr Cn. destruct (pair_round_all p pos f Rd Lf Pk Wd Rr Cn) as (Sch & m' & pieces & _ & Dr & _ & Rnd). split.
  - intros s R. destruct (Sch s R) as (D1 & D2 & D3). split; [exact D1|]. split; [exact D2|]. intros A. destruct (D3 A) as (ps & X1 & X2 & _). exact (drawn_explained p f ps _ X1 X2).
  - intros gd. destruct (Rnd gd) as (grads & p' & pos' & E & L & B). exists grads, p', pos'. split; [exact E|]. split; [exact L|]. exact (drawn_explained p f pieces _ Dr B).
Qed.
End Object.
