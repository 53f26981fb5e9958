From Coq Require Import SpecFloat.
From Verif Require Import Base Base_proofs F32 Subsampling.

Lemma bump_ok left : forall sizes, left <= List.length sizes ->
  bump left sizes = Ret (map S (firstn left sizes) ++ skipn left sizes).
Proof.
  induction left as [|k IH]; intros sizes L; cbn; auto.
  destruct sizes as [|s t]; cbn in *; [lia|]. rewrite IH by lia. auto.
Qed.

Lemma divide_helper_ok n g : 0 < g ->
  divide_helper n g = Ret (repeat (S (n / g)) (n mod g) ++ repeat (n / g) (g - n mod g)).
Proof.
  intros G. unfold divide_helper. destruct (Nat.eqb_spec g 0); [lia|].
  pose proof (Nat.mod_upper_bound n g n0). rewrite bump_ok by (rewrite repeat_length; lia).
  replace (repeat (n / g) g) with (repeat (n / g) (n mod g) ++ repeat (n / g) (g - n mod g)).
  2:{ rewrite <- repeat_app. f_equal. lia. }
  set (m := n mod g) in *.
  assert (Em : m = List.length (repeat (n / g) m)) by (rewrite repeat_length; auto).
  rewrite Em at 1 4. rewrite firstn_app, skipn_app, firstn_all, skipn_all, Nat.sub_diag. cbn.
  rewrite app_nil_r. do 2 f_equal. clear. induction m; cbn; congruence.
Qed.

Lemma sum_repeat k m : list_sum (repeat k m) = m * k.
Proof. induction m; cbn; auto. Qed.

Lemma sizes_sum n g : 0 < g -> list_sum (repeat (S (n / g)) (n mod g) ++ repeat (n / g) (g - n mod g)) = n.
Proof.
  intros G. rewrite list_sum_app, !sum_repeat.
  pose proof (Nat.mod_upper_bound n g ltac:(lia)). pose proof (Nat.div_mod n g ltac:(lia)).
  nia.
Qed.

Lemma ranges_cover sizes : forall start,
  concat (map (fun r => seq (fst r) (snd r - fst r)) (ranges start sizes)) = seq start (list_sum sizes).
Proof.
  induction sizes as [|s t IH]; intros start; cbn; auto.
  rewrite IH. replace (start + s - start) with s by lia. symmetry. apply seq_app.
Qed.
Lemma ranges_sizes sizes : forall start, map (fun r => snd r - fst r) (ranges start sizes) = sizes.
Proof. induction sizes as [|s t IH]; intros start; cbn; auto. f_equal; auto. lia. Qed.
Lemma ranges_valid sizes : forall start r, In r (ranges start sizes) ->
  start <= fst r <= snd r /\ snd r <= start + list_sum sizes.
Proof.
  induction sizes as [|s t IH]; intros start r; cbn [ranges In]; [tauto|].
  change (list_sum (s :: t)) with (s + list_sum t). intros [<-|I]; cbn [fst snd]; [lia|].
  specialize (IH _ _ I). lia.
Qed.

Lemma skipn_add {A} (l : list A) : forall a b, skipn (a + b) l = skipn b (skipn a l).
Proof. induction l; intros [|a0] b; cbn; auto. destruct b; auto. Qed.

Lemma slices_cover {A} (l : list A) sizes : forall start, start + list_sum sizes = List.length l ->
  concat (map (slice l) (ranges start sizes)) = skipn start l.
Proof.
  induction sizes as [|s t IH]; intros start H; cbn [ranges map concat].
  - cbn in H. symmetry. apply skipn_all2. lia.
  - change (list_sum (s :: t)) with (s + list_sum t) in H. rewrite IH by lia. unfold slice. cbn [fst snd]. replace (start + s - start) with s by lia.
    rewrite <- (firstn_skipn s (skipn start l)) at 2. f_equal.
    apply skipn_add.
Qed.
Lemma slice_length {A} (l : list A) sizes : forall start, start + list_sum sizes = List.length l ->
  map (@List.length A) (map (slice l) (ranges start sizes)) = sizes.
Proof.
  induction sizes as [|s t IH]; intros start H; cbn [ranges map]; auto.
  change (list_sum (s :: t)) with (s + list_sum t) in H. f_equal; [|apply IH; lia].
  unfold slice. cbn [fst snd]. rewrite firstn_length, skipn_length. lia.
Qed.

Definition fair (n g : nat) (sizes : list nat) : Prop :=
  sizes = repeat (S (n / g)) (n mod g) ++ repeat (n / g) (g - n mod g).

Lemma fair_length n g sizes : 0 < g -> fair n g sizes -> List.length sizes = g.
Proof.
  intros G ->. rewrite app_length, !repeat_length. pose proof (Nat.mod_upper_bound n g ltac:(lia)). lia.
Qed.
Lemma repeat_nth {A} (k : A) m i x : nth_error (repeat k m) i = Some x -> x = k.
Proof. intros H. apply nth_error_In in H. apply repeat_spec in H. auto. Qed.
Lemma fair_mono n g sizes i j a b : fair n g sizes -> i <= j -> nth_error sizes i = Some a ->
  nth_error sizes j = Some b -> b <= a <= S b.
Proof.
  intros -> L Ea Eb. set (m := n mod g) in *.
  destruct (Nat.lt_ge_cases i m) as [Hi|Hi].
  - rewrite nth_error_app1 in Ea by (rewrite repeat_length; auto). apply repeat_nth in Ea. subst a.
    destruct (Nat.lt_ge_cases j m) as [Hj|Hj].
    + rewrite nth_error_app1 in Eb by (rewrite repeat_length; auto). apply repeat_nth in Eb. lia.
    + rewrite nth_error_app2 in Eb by (rewrite repeat_length; auto). apply repeat_nth in Eb. lia.
  - rewrite nth_error_app2 in Ea by (rewrite repeat_length; auto). apply repeat_nth in Ea.
    rewrite nth_error_app2 in Eb by (rewrite repeat_length; lia). apply repeat_nth in Eb. lia.
Qed.

Lemma divide_spec n g : 0 < g ->
  exists rs, divide_samples n g = Ret rs /\ List.length rs = g /\
    (forall r, In r rs -> fst r <= snd r <= n) /\
    concat (map (fun r => seq (fst r) (snd r - fst r)) rs) = seq 0 n /\
    (forall i j a b, i <= j -> nth_error rs i = Some a -> nth_error rs j = Some b ->
       snd b - fst b <= snd a - fst a <= S (snd b - fst b)).
Proof.
  intros G. unfold divide_samples. rewrite divide_helper_ok by auto. cbn [bind].
  pose proof (sizes_sum n g G) as Hs.
  pose proof (fair_length n g _ G eq_refl) as Hl.
  pose proof (fun i j a b => fair_mono n g _ i j a b eq_refl) as Hf.
  set (sizes := repeat (S (n / g)) (n mod g) ++ repeat (n / g) (g - n mod g)) in *.
  exists (ranges 0 sizes). split; auto. pose proof (ranges_sizes sizes 0) as Hr. split; [|split; [|split]].
  - rewrite <- Hl. rewrite <- Hr at 2. rewrite map_length. auto.
  - intros r I. apply ranges_valid in I. lia.
  - rewrite ranges_cover, Hs. auto.
  - intros i j a b L Ea Eb. apply (Hf i j); auto; rewrite <- Hr.
    + apply (map_nth_error (fun r : nat * nat => snd r - fst r)) in Ea. auto.
    + apply (map_nth_error (fun r : nat * nat => snd r - fst r)) in Eb. auto.
Qed.

Lemma divide_slice_spec samples g : 0 < g ->
  exists gs, divide_slice samples g = Ret gs /\ List.length gs = g /\ concat gs = samples /\
    (forall i j a b, i <= j -> nth_error gs i = Some a -> nth_error gs j = Some b ->
       List.length b <= List.length a <= S (List.length b)).
Proof.
  intros G. unfold divide_slice. set (n := List.length samples). rewrite divide_helper_ok by auto. cbn [bind].
  pose proof (sizes_sum n g G) as Hs.
  pose proof (fair_length n g _ G eq_refl) as Hl.
  pose proof (fun i j a b => fair_mono n g _ i j a b eq_refl) as Hf.
  set (sizes := repeat (S (n / g)) (n mod g) ++ repeat (n / g) (g - n mod g)) in *.
  eexists. split; auto. pose proof (slice_length samples sizes 0 Hs) as Hr. split; [|split].
  - rewrite <- Hl. rewrite <- Hr at 2. rewrite !map_length. auto.
  - rewrite slices_cover by auto. auto.
  - intros i j a b L Ea Eb. apply (Hf i j); auto; rewrite <- Hr; apply map_nth_error; auto.
Qed.

Lemma divide_zero n samples : divide_samples n 0 = Undef /\ divide_slice samples 0 = Undef.
Proof. auto. Qed.

Lemma slice_to_vector_id s : slice_to_vector s = s.
Proof.
  unfold slice_to_vector.
  assert (H : forall l, fold_left (fun v i => v ++ [i]) s l = l ++ s).
  { induction s as [|a s IH]; intros l; cbn; [rewrite app_nil_r; auto|]. rewrite IH, <- app_assoc. auto. }
  apply (H []).
Qed.

(** ** subsampling *)
Lemma subsample_in draw rate todo : forall pos i k, In k (subsample_loop draw pos rate i todo) <->
  i <= k < i + todo /\ fltb (draw (pos + (k - i))) rate = true.
Proof.
  induction todo as [|m IH]; intros pos i k; cbn [subsample_loop]; [cbn; lia|].
  assert (H : In k (subsample_loop draw (S pos) rate (S i) m) <->
             S i <= k < i + S m /\ fltb (draw (pos + (k - i))) rate = true).
  { rewrite IH. split; intros [H1 H2]; (split; [lia|]).
    - replace (pos + (k - i)) with (S pos + (k - S i)) by lia. auto.
    - replace (S pos + (k - S i)) with (pos + (k - i)) by lia. auto. }
  destruct (fltb (draw pos) rate) eqn:E; cbn [In]; rewrite H.
  - split.
    + intros [<-|[H1 H2]]; [|split; auto; lia]. split; [lia|]. rewrite Nat.sub_diag, Nat.add_0_r. auto.
    + intros [H1 H2]. destruct (Nat.eq_dec i k); auto. right. split; auto. lia.
  - split; intros [H1 H2]; (split; [|auto]); [lia|].
    destruct (Nat.eq_dec i k) as [->|]; [|lia]. rewrite Nat.sub_diag, Nat.add_0_r in H2. congruence.
Qed.

Lemma subsample_sorted draw rate todo : forall pos i, StronglySorted lt (subsample_loop draw pos rate i todo).
Proof.
  induction todo as [|m IH]; intros pos i; cbn; [constructor|].
  destruct (fltb (draw pos) rate); auto. constructor; auto.
  apply Forall_forall. intros k Hk. apply subsample_in in Hk. lia.
Qed.

Lemma subsample_spec draw pos n rate :
  let out := fst (uniform_subsample draw pos n rate) in
  StronglySorted lt out /\ (forall k, In k out <-> k < n /\ fltb (draw (pos + k)) rate = true) /\
  snd (uniform_subsample draw pos n rate) = pos + n.
Proof.
  cbn. split; [apply subsample_sorted|]. split; auto. intros k. rewrite subsample_in, Nat.sub_0_r.
  split; intros [? ?]; split; auto; lia.
Qed.

Lemma subsample_all draw pos n rate : (forall k, k < n -> fltb (draw (pos + k)) rate = true) ->
  fst (uniform_subsample draw pos n rate) = seq 0 n.
Proof.
  cbn. revert pos. generalize 0 as i.
  induction n as [|n IH]; intros i pos H; cbn; auto.
  pose proof (H 0 ltac:(lia)) as H0. rewrite Nat.add_0_r in H0. rewrite H0. f_equal. apply IH.
  intros k Hk. replace (S pos + k) with (pos + S k) by lia. apply H. lia.
Qed.
Lemma subsample_none draw pos n rate : (forall k, k < n -> fltb (draw (pos + k)) rate = false) ->
  fst (uniform_subsample draw pos n rate) = [].
Proof.
  cbn. revert pos. generalize 0 as i.
  induction n as [|n IH]; intros i pos H; cbn; auto.
  pose proof (H 0 ltac:(lia)) as H0. rewrite Nat.add_0_r in H0. rewrite H0. apply IH.
  intros k Hk. replace (S pos + k) with (pos + S k) by lia. apply H. lia.
Qed.


Lemma run_sub_app stream ops1 : forall ops2 st seed,
  run_sub stream (ops1 ++ OpSeed seed :: ops2) st =
  run_sub stream ops1 st ++ run_sub stream ops2 (seed, 0).
Proof.
  induction ops1 as [|[s|n r] ops1 IH]; intros ops2 st seed; cbn; auto. f_equal. auto.
Qed.

Lemma subsample_rates draw pos n one : (forall k, fleb (S754_zero false) (draw k) = true /\ fltb (draw k) one = true) ->
  fst (uniform_subsample draw pos n one) = seq 0 n /\
  fst (uniform_subsample draw pos n (S754_zero false)) = [].
Proof.
  intros H. split.
  - apply subsample_all. intros. apply H.
  - apply subsample_none. intros k _. destruct (H (pos + k)) as [H1 _]. revert H1.
    unfold fleb, fltb. destruct (draw (pos + k)) as [[]|[]| |[] m e]; cbn; auto; discriminate.
Qed.
