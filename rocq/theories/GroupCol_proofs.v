(** GroupCol_proofs.v - the groups of a group column (property C48). *)
From Coq Require Import Sorting.Permutation.
From Verif Require Import Base Base_proofs F32 Column ColumnSpec ColumnStr_proofs Num Config Loss Pairwise PairSpec.

Definition place (gs : list (list nat)) (x : nat * Z) : res (list (list nat)) :=
  if (snd x =? 0)%Z then Undef
  else let k := Z.to_nat (snd x - 1) in let! g := vget gs k in vset gs k (g ++ [fst x]).

Lemma place_ok gs i c : (1 <= c <= zlen gs)%Z -> exists gs', place gs (i, c) = Ret gs' /\ List.length gs' = List.length gs /\
  forall k g, nth_error gs k = Some g -> nth_error gs' k = Some (g ++ if (c =? Z.of_nat k + 1)%Z then [i] else []).
Proof.
  intros H. unfold place, zlen in *. cbn [fst snd]. rewrite (proj2 (Z.eqb_neq _ _)) by lia.
  assert (L : Z.to_nat (c - 1) < List.length gs) by lia. unfold vget, vset.
  destruct (nth_error gs (Z.to_nat (c - 1))) as [g|] eqn:E; [|apply nth_error_Some in L; congruence]. cbn [bind].
  rewrite (proj2 (Nat.ltb_lt _ _) L). eexists. split; [reflexivity|]. split; [apply set_nth_length|].
  intros k h Ek. destruct (Z.eqb_spec c (Z.of_nat k + 1)) as [->|Ne].
  - replace (Z.to_nat (Z.of_nat k + 1 - 1)) with k in * by lia. rewrite nth_error_set_nth_eq by exact L. congruence.
  - rewrite nth_error_set_nth_ne by lia. rewrite app_nil_r. exact Ek.
Qed.

Lemma places_ok codes : forall s gs, (forall c, In c codes -> 1 <= c <= zlen gs)%Z ->
  exists gs', fold_res place (combine (seq s (List.length codes)) codes) gs = Ret gs' /\ List.length gs' = List.length gs /\
    forall k g, nth_error gs k = Some g ->
      nth_error gs' k = Some (g ++ map fst (filter (fun x => (snd x =? Z.of_nat k + 1)%Z) (combine (seq s (List.length codes)) codes))).
Proof.
  induction codes as [|c codes IH]; intros s gs H; cbn [List.length seq combine fold_res].
  - exists gs. split; [reflexivity|]. split; [reflexivity|]. intros k g E. cbn. rewrite app_nil_r. exact E.
  - destruct (place_ok gs s c (H c (or_introl eq_refl))) as (g1 & E1 & L1 & N1). rewrite E1. cbn [bind].
    destruct (IH (S s) g1) as (g2 & E2 & L2 & N2).
    { intros d I. unfold zlen. rewrite L1. apply H. right. exact I. }
    exists g2. split; [exact E2|]. split; [congruence|]. intros k g E. rewrite (N2 k _ (N1 k g E)). cbn [filter snd].
    destruct (Z.eqb_spec c (Z.of_nat k + 1)) as [->|Ne]; cbn [map fst]; rewrite <- app_assoc; reflexivity.
Qed.

Lemma places_fail codes : forall s gs, (forall c, In c codes -> 0 <= c <= zlen gs)%Z -> In 0%Z codes ->
  fold_res place (combine (seq s (List.length codes)) codes) gs = Undef.
Proof.
  induction codes as [|c codes IH]; intros s gs H I; [destruct I|]. cbn [List.length seq combine fold_res].
  destruct (Z.eq_dec c 0) as [->|Nc]; [reflexivity|]. destruct I as [->|I]; [congruence|].
  pose proof (H c (or_introl eq_refl)) as Hc.
  destruct (place_ok gs s c ltac:(lia)) as (g1 & E1 & L1 & _). rewrite E1. cbn [bind].
  apply IH; [|exact I]. intros d J. unfold zlen. rewrite L1. apply H. right. exact J.
Qed.

Lemma rows_filter {A} (p : A -> bool) data : forall s,
  map fst (filter (fun x => p (snd x)) (combine (seq s (List.length data)) data)) =
  filter (fun i => match nth_error data (i - s) with Some t => p t | None => false end) (seq s (List.length data)).
Proof.
  induction data as [|a data IH]; intros s; [reflexivity|]. cbn [List.length seq combine filter snd]. rewrite Nat.sub_diag. cbn [nth_error].
  assert (E : filter (fun i => match nth_error (a :: data) (i - s) with Some t => p t | None => false end) (seq (S s) (List.length data)) =
              filter (fun i => match nth_error data (i - S s) with Some t => p t | None => false end) (seq (S s) (List.length data))).
  { apply filter_ext_in. intros i I. apply in_seq in I. replace (i - s) with (S (i - S s)) by lia. reflexivity. }
  rewrite E, <- IH. destruct (p a); reflexivity.
Qed.

Lemma code_filter {A} (R : Z -> A -> Prop) (p : Z -> bool) (q : A -> bool) codes data : Forall2 R codes data ->
  (forall c a, R c a -> p c = q a) -> forall s,
  map fst (filter (fun x => p (snd x)) (combine (seq s (List.length codes)) codes)) =
  map fst (filter (fun x => q (snd x)) (combine (seq s (List.length data)) data)).
Proof.
  intros F H. induction F as [|c a codes data Rc F IH]; intros s; [reflexivity|]. cbn [List.length seq combine filter snd].
  rewrite (H c a Rc). destruct (q a); cbn [map]; rewrite IH; reflexivity.
Qed.

Lemma rows_with_in data s i : In i (rows_with data s) <-> nth_error data i = Some s.
Proof.
  unfold rows_with. rewrite filter_In, in_seq. split.
  - intros [_ E]. destruct (nth_error data i) as [t|]; [|discriminate]. destruct (str_eqb_spec t s); congruence.
  - intros E. rewrite E, str_eqb_refl. split; [|reflexivity]. split; [lia|]. apply nth_error_Some. congruence.
Qed.

Lemma group_column_spec num_rows blocks : fits_32_bits (concat blocks) ->
  (In missing_str (concat blocks) -> rows_by_group num_rows (Some (string_column_of blocks)) = Undef) /\
  (~ In missing_str (concat blocks) -> exists names, NoDup names /\ (forall s, In s names <-> In s (concat blocks)) /\
     rows_by_group num_rows (Some (string_column_of blocks)) = Ret (map (rows_with (concat blocks)) names)).
Proof.
  intros Fits. destruct (string_column_of_inv _ Fits) as (c & H & L & ->).
  destruct (str_finalize_view _ _ H L) as (V & S1 & S2 & S3).
  destruct H as (_ & _ & _ & _ & _ & Hnd & Hin & H0 & Hidx & Hcol & _).
  set (data := concat blocks) in *. set (codes := i32 (s_ints c)) in *.
  unfold rows_by_group, str_max_int. rewrite V, S1. cbn [bind].
  assert (Hmi : u32 (zlen (s_strings c)) = zlen (s_strings c)) by (unfold u32; apply Z.mod_small; split; [apply zlen_nonneg|exact L]).
  rewrite Hmi. destruct (s_strings c) as [|m0 names] eqn:Es; [discriminate|]. change (Some m0 = Some missing_str) in H0. injection H0 as ->.
  rewrite zlen_cons. replace (Z.to_nat (1 + zlen names - 1)) with (List.length names) by (unfold zlen; lia).
  change (fun gs x => _) with place.
  assert (Rg : forall d, In d codes -> (0 <= d <= zlen (repeat (@nil nat) (List.length names)))%Z).
  { intros d I. apply In_nth_error in I. destruct I as [i Ei]. destruct (Forall2_nth_error_l _ _ _ Hcol _ _ Ei) as (s & _ & A).
    apply Hidx in A. destruct A as [K A]. assert (X : Z.to_nat d < List.length (missing_str :: names)) by (apply nth_error_Some; congruence).
    cbn in X. unfold zlen. rewrite repeat_length. lia. }
  assert (Cd : forall k s, assoc s (s_index c) = Some k -> forall j s', nth_error (missing_str :: names) j = Some s' -> (k =? Z.of_nat j)%Z = str_eqb s s').
  { intros k s A j s' Ej. apply Hidx in A. destruct A as [K A]. apply Bool.eq_true_iff_eq. rewrite Z.eqb_eq.
    destruct (str_eqb_spec s s') as [->|Ne].
    - split; [reflexivity|]. intros _. assert (Z.to_nat k = j); [|lia].
      apply (proj1 (NoDup_nth_error _) Hnd); [apply nth_error_Some; congruence|congruence].
    - split; [|discriminate]. intros ->. rewrite Nat2Z.id in A. congruence. }
  inversion Hnd as [|? ? NI NDn]; subst. split.
  - intros M. apply places_fail; [exact Rg|]. apply In_nth_error in M. destruct M as [i Ei].
    destruct (Forall2_nth_error _ _ _ Hcol _ _ Ei) as (k & K & A).
    pose proof (Cd k _ A 0 missing_str eq_refl) as X. rewrite str_eqb_refl in X. apply Z.eqb_eq in X. cbn in X. subst k. eapply nth_error_In, K.
  - intros M. exists names. split; [exact NDn|]. split.
    + intros s. specialize (Hin s). cbn in Hin. split.
      * intros I. destruct (proj1 Hin (or_intror I)) as [->|J]; [contradiction|exact J].
      * intros I. destruct (proj2 Hin (or_intror I)) as [<-|J]; [contradiction|exact J].
    + destruct (places_ok codes 0 (repeat [] (List.length names))) as (gs & E & Lg & Ng).
      { intros d I. pose proof (Rg d I). enough (d <> 0%Z) by lia. intros ->. apply M.
        apply In_nth_error in I. destruct I as [i Ei]. destruct (Forall2_nth_error_l _ _ _ Hcol _ _ Ei) as (s & Es' & A).
        pose proof (Cd _ _ A 0 missing_str eq_refl) as X. change (true = str_eqb s missing_str) in X. destruct (str_eqb_spec s missing_str) as [->|]; [|discriminate].
        eapply nth_error_In, Es'. }
      rewrite E. f_equal. rewrite repeat_length in Lg.
      apply nth_ext with (d := []) (d' := []); [rewrite map_length; exact Lg|]. intros k K. rewrite Lg in K.
      destruct (nth_error names k) as [s|] eqn:Ek; [|apply nth_error_Some in K; congruence].
      rewrite (nth_error_nth (map (rows_with data) names) k [] (x := rows_with data s)) by (rewrite nth_error_map, Ek; reflexivity).
      apply nth_error_nth.
      assert (Rp : nth_error (repeat (@nil nat) (List.length names)) k = Some []).
      { destruct (nth_error (repeat (@nil nat) (List.length names)) k) as [g|] eqn:Eg.
        - f_equal. exact (repeat_spec _ _ _ (nth_error_In _ _ Eg)).
        - apply nth_error_None in Eg. rewrite repeat_length in Eg. lia. }
      rewrite (Ng k [] Rp). cbn [app]. f_equal.
      rewrite (code_filter (fun k s => assoc s (s_index c) = Some k) (fun z => (z =? Z.of_nat k + 1)%Z) (fun t => str_eqb t s) codes data Hcol).
      * rewrite (rows_filter (fun t => str_eqb t s)). unfold rows_with. apply filter_ext. intros i. rewrite Nat.sub_0_r. reflexivity.
      * intros z t A. rewrite <- (Cd z t A (S k) s Ek). f_equal. lia.
Qed.
