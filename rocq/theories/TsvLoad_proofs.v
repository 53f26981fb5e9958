From Verif Require Import Base Base_proofs F32 Column ColumnSpec DataStore DataStore_proofs Strings
  Strings_proofs Tsv TsvSpec Tsv_proofs.

(** *** independent tasks *)
Lemma run_task_ret heap tk heap' : run_task heap tk = Ret heap' ->
  exists c b, nth_error heap (fst tk) = Some (Some c) /\ snd tk (c_body c) = Ret b /\
    heap' = set_nth (fst tk) (Some (mkCol (c_name c) b)) heap.
Proof.
  unfold run_task. destruct (nth_error heap (fst tk)) as [[c|]|]; try discriminate.
  intros H. apply bind_ret in H. destruct H as (b & Eb & H). injection H as <-. eauto.
Qed.

Lemma run_tasks_ret tasks : forall heap heap', NoDup (map fst tasks) ->
  fold_res run_task tasks heap = Ret heap' ->
  List.length heap' = List.length heap /\
  (forall id f, In (id, f) tasks -> exists c b, nth_error heap id = Some (Some c) /\
     f (c_body c) = Ret b /\ nth_error heap' id = Some (Some (mkCol (c_name c) b))) /\
  (forall id, ~ In id (map fst tasks) -> nth_error heap' id = nth_error heap id).
Proof.
  induction tasks as [|[id0 f0] tasks IH]; cbn [fold_res map fst]; intros heap heap' N E.
  - injection E as <-. split; auto. split; [intros ? ? []|auto].
  - apply bind_ret in E. destruct E as (h1 & E1 & E2).
    apply run_task_ret in E1. cbn in E1. destruct E1 as (c & b & H1 & H2 & ->).
    inversion N; subst.
    destruct (IH _ _ H4 E2) as (L & A & B). rewrite set_nth_length in L.
    assert (Lt : id0 < List.length heap) by (apply nth_error_Some; congruence).
    split; auto. split.
    + intros id f [[= <- <-]|I].
      * exists c, b. split; auto. split; auto.
        rewrite B by auto. apply nth_error_set_nth_eq. auto.
      * assert (id <> id0).
        { intros ->. apply H3. change id0 with (fst (id0, f)). apply in_map. auto. }
        destruct (A id f I) as (c' & b' & G1 & G2 & G3). exists c', b'.
        rewrite nth_error_set_nth_ne in G1 by auto. auto.
    + intros id Hn. cbn in Hn. rewrite B by tauto. apply nth_error_set_nth_ne. intros ->. tauto.
Qed.

Lemma run_tasks_dec tasks : forall heap, NoDup (map fst tasks) ->
  (exists heap', fold_res run_task tasks heap = Ret heap') \/
  (exists id f, In (id, f) tasks /\
     forall c b, nth_error heap id = Some (Some c) -> f (c_body c) <> Ret b).
Proof.
  induction tasks as [|[id0 f0] tasks IH]; cbn [fold_res map fst]; intros heap N.
  - left. cbn. eauto.
  - inversion N; subst. destruct (run_task heap (id0, f0)) as [h1| |] eqn:E1.
    + pose proof E1 as E0. apply run_task_ret in E1. cbn in E1. destruct E1 as (c & b & G1 & G2 & Eh).
      destruct (IH h1 H2) as [[h' E']|(id & f & I & Hf)].
      * left. exists h'. cbn [bind]. auto.
      * right. exists id, f. split; [right; auto|]. intros c' b' G.
        apply Hf. subst h1. rewrite nth_error_set_nth_ne; auto.
        intros ->. apply H1. change id with (fst (id, f)). apply in_map. auto.
    + right. exists id0, f0. split; [left; auto|]. intros c b G Hf. unfold run_task in E1. cbn in E1.
      rewrite G, Hf in E1. discriminate.
    + right. exists id0, f0. split; [left; auto|]. intros c b G Hf. unfold run_task in E1. cbn in E1.
      rewrite G, Hf in E1. discriminate.
Qed.

(** *** set-up *)
Record wf (t0 : tsv) : Prop := mkWf {
  wf_len : List.length (t_handles t0) = List.length (t_heap t0);
  wf_handle : forall j h, nth_error (t_handles t0) j = Some h ->
    exists k pos n i, h = (k, j, pos) /\ nth_error (t_heap t0) j = Some (Some (mkCol n (fresh k))) /\
      nth_error (match k with KS => t_sidx t0 | _ => t_fidx t0 end) pos = Some i /\
      assoc n (t_map t0) = Some j;
  wf_map : forall n id, In (n, id) (t_map t0) -> id < List.length (t_heap t0)
}.

Definition setup_inv (hdr : list (str * nat)) (done : list (kind * str)) (t : tsv) : Prop :=
  t_heap t = map (fun kn => Some (mkCol (snd kn) (fresh (fst kn)))) done /\
  List.length (t_handles t) = List.length done /\
  (forall n id, In (n, id) (t_map t) <-> exists k, nth_error done id = Some (k, n)) /\
  (forall n id, assoc n (t_map t) = Some id <-> exists k, nth_error done id = Some (k, n)) /\
  (forall j k n, nth_error done j = Some (k, n) ->
     exists pos i, nth_error (t_handles t) j = Some (k, j, pos) /\ assoc n hdr = Some i /\
       nth_error (match k with KS => t_sidx t | _ => t_fidx t end) pos = Some i).

Lemma nth_error_app_l {A} (l l' : list A) i a : nth_error l i = Some a -> nth_error (l ++ l') i = Some a.
Proof. intros H. rewrite nth_error_app1; auto. apply nth_error_Some. congruence. Qed.

Lemma setup_one_inv hdr done t k n : setup_inv hdr done t -> ~ In n (map snd done) ->
  match assoc n hdr with
  | None => setup_one hdr k t n = PErr NOT_FOUND
  | Some _ => exists t', setup_one hdr k t n = POk t' /\ setup_inv hdr (done ++ [(k, n)]) t'
  end.
Proof.
  intros (H1 & H2 & H3 & H4 & H5) N. unfold setup_one.
  destruct (assoc n hdr) as [i|] eqn:Eh; auto.
  assert (Hn : assoc n (t_map t) = None).
  { destruct (assoc n (t_map t)) as [id|] eqn:E; auto. exfalso. apply H4 in E.
    destruct E as [k' E]. apply nth_error_In in E. apply N. apply (in_map snd) in E. auto. }
  rewrite Hn.
  assert (Hl : List.length (t_heap t) = List.length done) by (rewrite H1, map_length; auto).
  assert (Hone : forall n' id, (exists k', nth_error (done ++ [(k, n)]) id = Some (k', n')) <->
            (exists k', nth_error done id = Some (k', n')) \/ (id = List.length done /\ n' = n)).
  { intros n' id. split.
    - intros [k' E]. destruct (Nat.lt_trichotomy id (List.length done)) as [L|[->|L]].
      + rewrite nth_error_app1 in E by auto. eauto.
      + rewrite nth_error_app2, Nat.sub_diag in E by auto. cbn in E. right. split; congruence.
      + assert (nth_error (done ++ [(k, n)]) id = None) by (apply nth_error_None; rewrite app_length; cbn; lia).
        congruence.
    - intros [[k' E]|[-> ->]].
      + exists k'. apply nth_error_app_l. auto.
      + exists k. rewrite nth_error_app2, Nat.sub_diag by auto. auto. }
  assert (Hmap : forall n' id, In (n', id) ((n, List.length (t_heap t)) :: t_map t) <->
            exists k', nth_error (done ++ [(k, n)]) id = Some (k', n')).
  { intros n' id. rewrite Hone. cbn [In]. rewrite H3. split.
    - intros [[= <- <-]|E]; auto.
    - intros [E|[-> ->]]; auto. }
  assert (Has : forall n' id, assoc n' ((n, List.length (t_heap t)) :: t_map t) = Some id <->
            exists k', nth_error (done ++ [(k, n)]) id = Some (k', n')).
  { intros n' id. rewrite Hone. cbn [assoc]. destruct (str_eqb_spec n' n) as [->|Ne].
    - split.
      + intros [= <-]. auto.
      + intros [[k' E]|[-> _]]; [|congruence]. exfalso. apply N. apply nth_error_In in E.
        apply (in_map snd) in E. auto.
    - rewrite H4. split; auto. intros [E|[_ E]]; auto. congruence. }
  assert (Hheap : t_heap t ++ [Some (mkCol n (fresh k))] =
            map (fun kn => Some (mkCol (snd kn) (fresh (fst kn)))) (done ++ [(k, n)])).
  { rewrite map_app, H1. auto. }
  assert (Hnew : forall j k' n', nth_error (done ++ [(k, n)]) j = Some (k', n') ->
            nth_error done j = Some (k', n') \/ (j = List.length done /\ k' = k /\ n' = n)).
  { intros j k' n' E. rewrite nth_error_snoc in E.
    destruct (j <? List.length done); auto. destruct (Nat.eqb_spec j (List.length done)); [|discriminate].
    injection E as <- <-. auto. }
  assert (Hlast : forall (A : Type) (l : list A) a, nth_error (l ++ [a]) (List.length l) = Some a).
  { intros. rewrite nth_error_app2, Nat.sub_diag by auto. auto. }
  destruct k; eexists; (split; [reflexivity|]); (split; [exact Hheap|]);
    (split; [cbn; rewrite !app_length; cbn; lia|]); (split; [exact Hmap|]); (split; [exact Has|]);
    intros j k' n' E; cbn [t_handles t_sidx t_fidx];
    (destruct (Hnew _ _ _ E) as [Eo|(-> & -> & ->)];
     [destruct (H5 j k' n' Eo) as (pos & i' & G1 & G2 & G3);
      exists pos, i'; split; [apply nth_error_app_l; auto|]; split; auto;
      destruct k'; auto; apply nth_error_app_l; auto
     |eexists _, i; rewrite Hl, <- H2; split; [apply Hlast|]; split; auto]).
Qed.

Lemma setup_all_inv hdr todo : forall done t, setup_inv hdr done t -> NoDup (map snd (done ++ todo)) ->
  (forall k n, In (k, n) todo -> assoc n hdr <> None) ->
  exists t', setup_all hdr todo t = POk t' /\ setup_inv hdr (done ++ todo) t'.
Proof.
  induction todo as [|[k n] todo IH]; intros done t I N P; cbn [setup_all].
  - rewrite app_nil_r. eauto.
  - assert (Hn : ~ In n (map snd done)).
    { rewrite map_app in N. cbn in N. apply NoDup_remove in N. destruct N as [_ N].
      rewrite in_app_iff in N. tauto. }
    pose proof (setup_one_inv hdr done t k n I Hn) as H.
    destruct (assoc n hdr) eqn:E; [|exfalso; apply (P k n); cbn; auto].
    destruct H as (t' & -> & I').
    replace (done ++ (k, n) :: todo) with ((done ++ [(k, n)]) ++ todo) in * by (rewrite <- app_assoc; auto).
    apply IH; auto. intros. apply (P k0). cbn; auto.
Qed.

Lemma setup_all_missing hdr todo : forall t, (exists k n, In (k, n) todo /\ assoc n hdr = None) ->
  setup_all hdr todo t = PErr NOT_FOUND.
Proof.
  induction todo as [|[k n] todo IH]; intros t (k0 & n0 & I & E); [destruct I|].
  cbn [setup_all]. unfold setup_one. destruct (assoc n hdr) eqn:E0; auto.
  destruct I as [[= -> ->]|I]; [congruence|].
  destruct k; apply IH; eauto.
Qed.

Lemma setup_init hdr : setup_inv hdr [] tsv_init.
Proof.
  split; auto. split; auto. split; [|split].
  - intros n id. cbn. split; [tauto|]. intros [k E]. destruct id; discriminate.
  - intros n id. cbn. split; [discriminate|]. intros [k E]. destruct id; discriminate.
  - intros j k n E. destruct j; discriminate.
Qed.

Lemma setup_wf hdr done t : setup_inv hdr done t -> wf t.
Proof.
  intros (H1 & H2 & H3 & H4 & H5).
  assert (Hl : List.length (t_heap t) = List.length done) by (rewrite H1, map_length; auto).
  constructor.
  - congruence.
  - intros j h E. destruct (nth_error done j) as [[k n]|] eqn:Ed.
    + destruct (H5 j k n Ed) as (pos & i & G1 & G2 & G3). rewrite G1 in E. injection E as <-.
      exists k, pos, n, i. split; auto. split.
      * rewrite H1. erewrite map_nth_error; [|eassumption]. auto.
      * split; auto. apply H4. eauto.
    + apply nth_error_None in Ed. assert (j < List.length (t_handles t)) by (apply nth_error_Some; congruence). lia.
  - intros n id I. apply H3 in I. destruct I as [k E]. rewrite Hl. apply nth_error_Some. congruence.
Qed.

(** *** one round of tasks over all handles *)
Definition holds (t0 : tsv) (P : kind -> nat -> body -> Prop) (heap : list (option column)) : Prop :=
  List.length heap = List.length (t_heap t0) /\
  forall j k pos, nth_error (t_handles t0) j = Some (k, j, pos) ->
    exists n b, nth_error (t_heap t0) j = Some (Some (mkCol n (fresh k))) /\
      nth_error heap j = Some (Some (mkCol n b)) /\ P k pos b.

Definition tasks_for (F : kind -> nat -> body -> res body) (hs : list (kind * nat * nat)) : list task :=
  map (fun h => (snd (fst h), F (fst (fst h)) (snd h))) hs.

Lemma wf_ids t0 : wf t0 -> map (fun h => snd (fst h)) (t_handles t0) = seq 0 (List.length (t_handles t0)).
Proof.
  intros W. apply nth_ext with (d := 0) (d' := 0); [rewrite map_length, seq_length; auto|].
  rewrite map_length. intros j L. rewrite seq_nth by auto. cbn.
  destruct (nth_error (t_handles t0) j) as [h|] eqn:E; [|apply nth_error_None in E; lia].
  destruct (wf_handle t0 W j h E) as (k & pos & n & i & -> & _).
  apply (map_nth_error (fun h : kind * nat * nat => snd (fst h))) in E. cbn in E.
  apply nth_error_nth. auto.
Qed.

Lemma tasks_nodup t0 F order : wf t0 -> Permutation order (tasks_for F (t_handles t0)) ->
  NoDup (map fst order).
Proof.
  intros W P. apply (Permutation_map fst) in P. unfold tasks_for in P. rewrite map_map in P. cbn in P.
  rewrite (wf_ids t0 W) in P. eapply Permutation_NoDup; [apply Permutation_sym; eassumption|apply seq_NoDup].
Qed.

Lemma tasks_step t0 P F heap order heap' : wf t0 -> holds t0 P heap ->
  Permutation order (tasks_for F (t_handles t0)) -> fold_res run_task order heap = Ret heap' ->
  holds t0 (fun k pos b' => exists b, P k pos b /\ F k pos b = Ret b') heap'.
Proof.
  intros W [L H] Pm E. destruct (run_tasks_ret _ _ _ (tasks_nodup _ _ _ W Pm) E) as (L' & A & _).
  split; [congruence|]. intros j k pos Ej. destruct (H j k pos Ej) as (n & b & G1 & G2 & Pb).
  destruct (A j (F k pos)) as (c & b' & G3 & G4 & G5).
  { eapply Permutation_in; [apply Permutation_sym; eassumption|]. unfold tasks_for. apply in_map_iff.
    exists (k, j, pos). split; auto. eapply nth_error_In. eauto. }
  rewrite G2 in G3. injection G3 as <-. cbn in *. exists n, b'. split; auto. split; eauto.
Qed.

Lemma tasks_dec t0 P F heap order : wf t0 -> holds t0 P heap ->
  Permutation order (tasks_for F (t_handles t0)) ->
  (exists heap', fold_res run_task order heap = Ret heap') \/
  (exists j k pos b, nth_error (t_handles t0) j = Some (k, j, pos) /\ P k pos b /\
     forall b', F k pos b <> Ret b').
Proof.
  intros W [L H] Pm. destruct (run_tasks_dec order heap (tasks_nodup _ _ _ W Pm)) as [?|(id & f & I & Hf)]; auto.
  right. apply (Permutation_in _ Pm) in I. unfold tasks_for in I. apply in_map_iff in I.
  destruct I as ([[k j] pos] & [= <- <-] & I). apply In_nth_error in I. destruct I as [j' E].
  destruct (wf_handle t0 W j' _ E) as (k' & pos' & n' & i' & [= <- -> <-] & _).
  destruct (H j' k pos E) as (n & b & G1 & G2 & Pb). exists j', k, pos, b. split; auto. split; auto.
  intros b'. apply (Hf _ b' G2).
Qed.

(** The converse: a handle whose task fails makes every round fail. *)
Lemma tasks_fail t0 P F heap order j k pos : wf t0 -> holds t0 P heap ->
  Permutation order (tasks_for F (t_handles t0)) -> nth_error (t_handles t0) j = Some (k, j, pos) ->
  (forall b b', P k pos b -> F k pos b <> Ret b') ->
  forall heap', fold_res run_task order heap <> Ret heap'.
Proof.
  intros W H Pm Ej Hf heap' E. destruct (tasks_step _ _ _ _ _ _ W H Pm E) as [_ H'].
  destruct (H' j k pos Ej) as (n & b' & _ & _ & b & Pb & Eb). exact (Hf b b' Pb Eb).
Qed.

Lemma wf_at t0 j : wf t0 -> j < List.length (t_heap t0) ->
  exists k pos, nth_error (t_handles t0) j = Some (k, j, pos).
Proof.
  intros W L. rewrite <- (wf_len t0 W) in L.
  destruct (nth_error (t_handles t0) j) as [h|] eqn:E; [|apply nth_error_None in E; lia].
  destruct (wf_handle t0 W j h E) as (k & pos & n & i & -> & _). eauto.
Qed.

Lemma holds_status t0 P heap : wf t0 -> holds t0 P heap ->
  (forall k pos b n, P k pos b -> col_status (mkCol n b) = SOk) ->
  first_not_ok [] (t_map t0) heap = Ret SOk.
Proof.
  intros W [L H] Hs. generalize (@nil str).
  assert (Hm : forall n id, In (n, id) (t_map t0) -> id < List.length (t_heap t0)) by apply (wf_map t0 W).
  induction (t_map t0) as [|[n id] m IH]; intros seen; auto. cbn [first_not_ok].
  destruct (in_dec str_eq_dec n seen); [apply IH; intros; eapply Hm; cbn; eauto|].
  destruct (wf_at t0 id W (Hm n id (or_introl eq_refl))) as (k & pos & E).
  destruct (H id k pos E) as (n' & b & _ & -> & Pb). rewrite (Hs _ _ _ n' Pb). cbn.
  apply IH. intros; eapply Hm; cbn; eauto.
Qed.

Lemma list_nth_ext {A} (l : list A) : forall l', (forall j, nth_error l j = nth_error l' j) -> l = l'.
Proof.
  induction l as [|a l IH]; intros [|a' l'] H; auto.
  - specialize (H 0). discriminate.
  - specialize (H 0). discriminate.
  - pose proof (H 0) as H0. cbn in H0. injection H0 as <-. f_equal. apply IH. intros j. apply (H (S j)).
Qed.

Lemma holds_det t0 P heap heap' : wf t0 -> holds t0 P heap -> holds t0 P heap' ->
  (forall k pos b b', P k pos b -> P k pos b' -> b = b') -> heap = heap'.
Proof.
  intros W [L H] [L' H'] D. apply list_nth_ext. intros j.
  destruct (Nat.lt_ge_cases j (List.length (t_heap t0))) as [Lt|Ge].
  - destruct (wf_at t0 j W Lt) as (k & pos & E).
    destruct (H j k pos E) as (n & b & G1 & G2 & Pb). destruct (H' j k pos E) as (n' & b' & G1' & G2' & Pb').
    rewrite G2, G2'. rewrite G1 in G1'. injection G1' as <-. rewrite (D _ _ _ _ Pb Pb'). auto.
  - assert (nth_error heap j = None) as -> by (apply nth_error_None; lia).
    symmetry. apply nth_error_None. lia.
Qed.

Lemma nth_error_firstn_lt {A} (l : list A) : forall i j, j < i -> nth_error (firstn i l) j = nth_error l j.
Proof. induction l; intros [|i] [|j] H; cbn; auto; try lia. apply IHl. lia. Qed.

(** *** the load *)
Definition blk_t := (list (list f32) * list (list str))%type.
Definition addF (blk : blk_t) (k : kind) (pos : nat) (b : body) : res body :=
  snd (add_task (fst blk) (snd blk) (k, 0, pos)) b.
Definition finF (k : kind) (pos : nat) (b : body) : res body := snd (fin_task (k, 0, pos)) b.
Definition accum (k : kind) (pos : nat) (bl : list blk_t) : res body :=
  fold_res (fun b blk => addF blk k pos b) bl (fresh k).

Lemma add_tasks fl sl hs : map (add_task fl sl) hs = tasks_for (addF (fl, sl)) hs.
Proof. unfold tasks_for. apply map_ext. intros [[k id] pos]. reflexivity. Qed.
Lemma fin_tasks hs : map fin_task hs = tasks_for finF hs.
Proof. unfold tasks_for. apply map_ext. intros [[k id] pos]. reflexivity. Qed.

Lemma accum_snoc k pos bl blk : accum k pos (bl ++ [blk]) = (let! b := accum k pos bl in addF blk k pos b).
Proof.
  unfold accum. rewrite fold_res_app. destruct (fold_res _ bl _) as [b| |]; cbn [bind fold_res]; auto.
  destruct (addF blk k pos b); auto.
Qed.
Lemma accum_prefix k pos bl bl' b : accum k pos (bl ++ bl') = Ret b -> exists b0, accum k pos bl = Ret b0.
Proof. unfold accum. rewrite fold_res_app. intros H. apply bind_ret in H. destruct H as (b0 & H & _). eauto. Qed.


Lemma add_bucketized_live raw c c' : add_bucketized raw c = Ret c' ->
  b_status c' = SOk /\ i_final (b_ints c') = i_final (b_ints c).
Proof.
  unfold add_bucketized. intros E. destruct (b_max_int c <=? kMaxUInt8)%Z; [|destruct (b_max_int c <=? kMaxUInt16)%Z];
    apply bind_ret in E; destruct E as ([col mins] & _ & [= <-]); auto.
Qed.
Lemma build_buckets_live c c' : b_status c = SOk -> i_final (b_ints c) = false -> build_buckets c = Ret c' ->
  b_status c' = SOk /\ i_final (b_ints c') = false.
Proof.
  intros H1 H2. unfold build_buckets. rewrite H1, H2. cbn [is_ok]. intros E.
  apply bind_ret in E. destruct E as (m & _ & E). apply bind_ret in E. destruct E as (c2 & E & [= <-]).
  apply add_bucketized_live in E. cbn in *. destruct E as [-> ->]. auto.
Qed.
Lemma b_add_live raw c c' : b_status c = SOk -> i_final (b_ints c) = false -> b_add raw c = Ret c' ->
  b_status c' = SOk /\ i_final (b_ints c') = false.
Proof.
  intros H1 H2. unfold b_add. rewrite H1, H2. cbn [is_ok].
  destruct (zlen (b_maxs c) =? 0)%Z.
  - destruct (_ || _); [discriminate|]. destruct (_ <? _)%Z.
    + apply build_buckets_live; auto.
    + intros [= <-]. auto.
  - intros E. apply add_bucketized_live in E. destruct E as [-> ->]. auto.
Qed.
Lemma b_finalize_live c c' : b_status c = SOk -> i_final (b_ints c) = false -> b_finalize c = Ret c' ->
  b_status c' = SOk.
Proof.
  intros H1 H2. unfold b_finalize. rewrite H1, H2. cbn [is_ok]. intros E.
  apply bind_ret in E. destruct E as (c1 & E1 & E).
  assert (b_status c1 = SOk) as Hs.
  { destruct (zlen (b_maxs c) =? 0)%Z; [eapply build_buckets_live in E1; tauto|congruence]. }
  rewrite Hs in E. cbn in E. injection E as <-. auto.
Qed.
Lemma str_add1_live c x : s_status (str_add1 c x) = s_status c /\
  i_final (s_ints (str_add1 c x)) = i_final (s_ints c).
Proof. unfold str_add1. destruct (assoc x (s_index c)); auto. Qed.
Lemma str_add_live raw : forall c, s_status c = SOk -> i_final (s_ints c) = false ->
  s_status (str_add raw c) = SOk /\ i_final (s_ints (str_add raw c)) = false.
Proof.
  intros c H1 H2. unfold str_add. rewrite H1. cbn [is_ok]. revert c H1 H2.
  induction raw as [|x raw IH]; cbn [fold_left]; auto. intros c H1 H2.
  destruct (str_add1_live c x). apply IH; congruence.
Qed.

Section Load.
Variables (fs : files_t) (strtof : strtof_t) (files : list str) (t0 : tsv).
Hypothesis W : wf t0.

Definition parse (i : nat) : option block :=
  match nth_error files i with
  | Some f => match read_tsv fs strtof f (t_fidx t0) (t_sidx t0) (i =? 0) with Ret b => Some b | _ => None end
  | None => None
  end.

Definition goods (m : nat) (bl : list blk_t) : Prop :=
  List.length bl = m /\ forall i blk, nth_error bl i = Some blk -> parse i = Some (POk blk).

Definition acc (bl : list blk_t) (k : kind) (pos : nat) (b : body) : Prop := accum k pos bl = Ret b.

Definition linv (s : lstate) : Prop :=
  match s with
  | Running proms next t =>
      exists bl heap, goods next bl /\ t = with_heap t0 heap /\ holds t0 (acc bl) heap /\
        List.length proms = List.length files /\ next <= List.length files /\
        forall i b, nth_error proms i = Some (Some b) -> parse i = Some b
  | Done SOk t =>
      exists bl heap, goods (List.length files) bl /\ t = with_heap t0 heap /\
        holds t0 (fun k pos b' => exists b, acc bl k pos b /\ finF k pos b = Ret b') heap
  | Done (SErr e) t =>
      exists m bl heap, goods m bl /\ t = with_heap t0 heap /\ holds t0 (acc bl) heap /\ m < List.length files /\
        parse m = Some (PErr e)
  | Crash =>
      exists m bl j k pos, goods m bl /\ nth_error (t_handles t0) j = Some (k, j, pos) /\
        ((exists blk, parse m = Some (POk blk) /\ forall b, accum k pos (bl ++ [blk]) <> Ret b) \/
         (m = List.length files /\ forall b, (let! b' := accum k pos bl in finF k pos b') <> Ret b))
  end.

Lemma read_tsv_total f fidx sidx skip : exists b, read_tsv fs strtof f fidx sidx skip = Ret b.
Proof.
  destruct (fs f) as [content|] eqn:E.
  - destruct (tsv_block fs strtof f content fidx sidx skip E) as (b & H & _). eauto.
  - exists (PErr NOT_FOUND). unfold read_tsv. rewrite E. auto.
Qed.

Lemma goods_snoc m bl blk : goods m bl -> parse m = Some (POk blk) -> goods (S m) (bl ++ [blk]).
Proof.
  intros [L H] E. split; [rewrite app_length; cbn; lia|]. intros i b. rewrite nth_error_snoc.
  destruct (i <? List.length bl) eqn:?; auto. destruct (Nat.eqb_spec i (List.length bl)); [|discriminate].
  intros [= <-]. subst. auto.
Qed.

Definition live (k : kind) (b : body) : Prop :=
  match k, b with
  | KB, BodyB c => b_status c = SOk /\ i_final (b_ints c) = false
  | KR, BodyR c => r_status c = SOk
  | KS, BodyS c => s_status c = SOk /\ i_final (s_ints c) = false
  | _, _ => False
  end.
Lemma accum_live k pos bl : forall b, accum k pos bl = Ret b -> live k b.
Proof.
  induction bl as [|blk bl IH] using rev_ind; intros b.
  - unfold accum. cbn. intros [= <-]. destruct k; cbn; auto.
  - rewrite accum_snoc. intros E. apply bind_ret in E. destruct E as (b0 & E & E1).
    specialize (IH b0 E). unfold addF in E1. destruct k, b0; cbn in IH; try tauto; cbn in E1.
    + apply bind_ret in E1. destruct E1 as (d & _ & E1). apply bind_ret in E1.
      destruct E1 as (c' & E1 & [= <-]). destruct IH as [I1 I2]. apply (b_add_live _ _ _ I1 I2 E1).
    + apply bind_ret in E1. destruct E1 as (d & _ & [= <-]). cbn. unfold r_add. rewrite IH. auto.
    + apply bind_ret in E1. destruct E1 as (d & _ & [= <-]). apply str_add_live; tauto.
Qed.
Lemma live_status k b n : live k b -> col_status (mkCol n b) = SOk.
Proof. unfold col_status. destruct k, b; cbn; tauto. Qed.
Lemma fin_status k pos b b' n : live k b -> finF k pos b = Ret b' -> col_status (mkCol n b') = SOk.
Proof.
  unfold finF, col_status. destruct k, b; cbn; try tauto; intros H E.
  - apply bind_ret in E. destruct E as (c' & E & [= <-]). destruct H. eapply b_finalize_live; eauto.
  - injection E as <-. auto.
  - injection E as <-. unfold str_finalize. destruct H as [H1 H2]. rewrite H1, H2. cbn. auto.
Qed.

Lemma with_heap_id t : with_heap t (t_heap t) = t.
Proof. destruct t; auto. Qed.

Lemma holds_start : holds t0 (acc []) (t_heap t0).
Proof.
  split; auto. intros j k pos E. destruct (wf_handle t0 W j _ E) as (k' & pos' & n & i & [= <- <-] & H & _).
  exists n, (fresh k). split; auto. split; auto. reflexivity.
Qed.

Lemma linv_start : linv (Running (map (fun _ => None) files) 0 t0).
Proof.
  exists [], (t_heap t0). split; [split; auto; intros [|] ? H; discriminate|]. rewrite with_heap_id.
  split; auto. split; [apply holds_start|]. rewrite map_length. split; auto. split; [lia|].
  intros i b E. apply nth_error_In in E. apply in_map_iff in E. destruct E as (? & ? & _). discriminate.
Qed.

Lemma linv_step s s' : linv s -> lstep fs strtof files s s' -> linv s'.
Proof.
  intros I St. destruct St as
    [i f b proms next t Ef Ep Er | i f proms next t Ef Ep Er | e proms next t Ep
    | fl sl order heap s proms next t Ep Pm Eh Es | fl sl order proms next t Ep Pm Eh
    | order heap s proms next t En Pm Eh Es | order proms next t En Pm Eh];
    destruct I as (bl & hp & G & -> & H & L & Ln & Hp).
  - exists bl, hp. split; auto. split; auto. split; auto. rewrite set_nth_length. split; auto. split; auto.
    intros i' b' E. destruct (Nat.eq_dec i i') as [<-|Ne].
    + rewrite nth_error_set_nth_eq in E by (apply nth_error_Some; congruence). injection E as <-.
      unfold parse. rewrite Ef. cbn in Er. rewrite Er. auto.
    + rewrite nth_error_set_nth_ne in E by auto. auto.
  - exfalso. destruct (read_tsv_total f (t_fidx (with_heap t0 hp)) (t_sidx (with_heap t0 hp)) (i =? 0)) as [b E].
    exact (Er b E).
  - exists next, bl, hp. split; auto. split; auto. split; auto. split.
    + rewrite <- L. apply nth_error_Some. intros C. pose proof (eq_trans (eq_sym Ep) C). discriminate.
    + apply Hp. auto.
  - cbn [t_handles t_heap t_map with_heap] in *. rewrite add_tasks in Pm.
    pose proof (tasks_step _ _ _ _ _ _ W H Pm Eh) as H'.
    assert (H2 : holds t0 (acc (bl ++ [(fl, sl)])) heap).
    { destruct H' as [L' H']. split; auto. intros j k pos E. destruct (H' j k pos E) as (n & b' & G1 & G2 & b & G3 & G4).
      exists n, b'. split; auto. split; auto. unfold acc in *. rewrite accum_snoc, G3. auto. }
    rewrite (holds_status _ _ _ W H2) in Es.
    2:{ intros k pos b n Hb. eapply live_status, accum_live, Hb. }
    injection Es as <-. exists (bl ++ [(fl, sl)]), heap.
    split; [apply goods_snoc; auto|]. split; auto. split; auto. split; auto. split; auto.
    assert (next < List.length files) by (rewrite <- L; apply nth_error_Some; intros C; pose proof (eq_trans (eq_sym Ep) C); discriminate). lia.
  - cbn [t_handles t_heap t_map with_heap] in *. rewrite add_tasks in Pm.
    destruct (tasks_dec _ _ _ _ _ W H Pm) as [[heap' E]|(j & k & pos & b & E & Pb & Hf)].
    + exfalso. apply (Eh heap' E SOk). pose proof (tasks_step _ _ _ _ _ _ W H Pm E) as H'.
      apply (holds_status _ _ _ W H'). intros k pos b n (b0 & H0 & E0).
      apply (live_status k). apply (accum_live k pos (bl ++ [(fl, sl)])). rewrite accum_snoc, H0. auto.
    + exists next, bl, j, k, pos. split; auto. split; auto. left. exists (fl, sl). split; [apply Hp; auto|].
      intros b'. rewrite accum_snoc. rewrite Pb. apply Hf.
  - cbn [t_handles t_heap t_map with_heap] in *. rewrite fin_tasks in Pm. subst next.
    pose proof (tasks_step _ _ _ _ _ _ W H Pm Eh) as H'. cbn beta in H'.
    rewrite (holds_status _ _ _ W H') in Es.
    2:{ intros k pos b n (b0 & H0 & E0). eapply fin_status; eauto. eapply accum_live; eauto. }
    injection Es as <-. exists bl, heap. auto.
  - cbn [t_handles t_heap t_map with_heap] in *. rewrite fin_tasks in Pm. subst next.
    destruct (tasks_dec _ _ _ _ _ W H Pm) as [[heap' E]|(j & k & pos & b & E & Pb & Hf)].
    + exfalso. apply (Eh heap' E SOk). pose proof (tasks_step _ _ _ _ _ _ W H Pm E) as H'.
      apply (holds_status _ _ _ W H'). intros k pos b n (b0 & H0 & E0).
      eapply fin_status; eauto. eapply accum_live; eauto.
    + exists (List.length files), bl, j, k, pos. split; auto. split; auto. right. split; auto.
      intros b'. rewrite Pb. apply Hf.
Qed.

Lemma linv_reach s s' : linv s -> lreach fs strtof files s s' -> linv s'.
Proof. intros I R. revert I. induction R as [|s1 s2 s3 R1 IH St]; auto. intros I. exact (linv_step _ _ (IH I) St). Qed.

Lemma goods_det m bl bl' : goods m bl -> goods m bl' -> bl = bl'.
Proof.
  intros [L H] [L' H']. apply list_nth_ext. intros j.
  destruct (nth_error bl j) as [a|] eqn:E.
  - destruct (nth_error bl' j) as [a'|] eqn:E'.
    + pose proof (H _ _ E). pose proof (H' _ _ E'). congruence.
    + apply nth_error_None in E'. assert (j < List.length bl) by (apply nth_error_Some; congruence). lia.
  - symmetry. apply nth_error_None. apply nth_error_None in E. lia.
Qed.
Lemma goods_lt m bl i : goods m bl -> i < m -> exists blk, parse i = Some (POk blk).
Proof.
  intros [L H] Li. destruct (nth_error bl i) as [a|] eqn:E; [eauto|]. apply nth_error_None in E. lia.
Qed.
Lemma goods_firstn m bl i : goods m bl -> i <= m -> goods i (firstn i bl).
Proof.
  intros [L H] Li. split; [rewrite firstn_length; lia|]. intros j b E.
  assert (j < i). { assert (j < List.length (firstn i bl)) by (apply nth_error_Some; congruence).
    rewrite firstn_length in *. lia. }
  rewrite nth_error_firstn_lt in E by auto. auto.
Qed.

Lemma goods_longest m bl m' bl' : goods m bl -> goods m' bl' -> m <= m' -> bl = firstn m bl'.
Proof. intros G G' L. exact (goods_det m _ _ G (goods_firstn _ _ _ G' L)). Qed.

Lemma crash_not m bl j k pos blk m' bl' heap : goods m bl -> parse m = Some (POk blk) ->
  nth_error (t_handles t0) j = Some (k, j, pos) -> (forall b, accum k pos (bl ++ [blk]) <> Ret b) ->
  goods m' bl' -> m < m' -> ~ holds t0 (acc bl') heap.
Proof.
  intros G P E Hf G' Lt [_ H]. destruct (H j k pos E) as (n & b & _ & _ & Hb). unfold acc in Hb.
  pose proof (goods_longest _ _ _ _ (goods_snoc _ _ _ G P) G' Lt) as Eb.
  rewrite <- (firstn_skipn (S m) bl'), <- Eb in Hb. destruct (accum_prefix _ _ _ _ _ Hb) as [b0 Hb0].
  exact (Hf b0 Hb0).
Qed.

Lemma fin_holds bl heap : holds t0 (fun k pos b' => exists b, acc bl k pos b /\ finF k pos b = Ret b') heap ->
  forall j k pos, nth_error (t_handles t0) j = Some (k, j, pos) ->
  exists b b', accum k pos bl = Ret b /\ finF k pos b = Ret b'.
Proof. intros [_ H] j k pos E. destruct (H j k pos E) as (n & b' & _ & _ & b & H1 & H2). eauto. Qed.

Lemma parse_inj i a b : parse i = Some a -> parse i = Some b -> a = b.
Proof. congruence. Qed.

Lemma linv_det s s' : lfinal s -> lfinal s' -> linv s -> linv s' -> s = s'.
Proof.
  assert (Herr : forall e t, linv (Done (SErr e) t) -> linv Crash -> False).
  { intros e t (m & bl & hp & G & -> & H & Lm & P) (m' & bl' & j & k & pos & G' & E & [(blk & P' & Hf)|[-> Hf]]).
    - destruct (Nat.lt_trichotomy m m') as [L|[->|L]].
      + destruct (goods_lt _ _ _ G' L) as [b Pb]. pose proof (parse_inj _ _ _ P Pb). discriminate.
      + pose proof (parse_inj _ _ _ P P'). discriminate.
      + exact (crash_not _ _ _ _ _ _ _ _ _ G' P' E Hf G L H).
    - destruct (goods_lt _ _ _ G' Lm) as [b Pb]. pose proof (parse_inj _ _ _ P Pb). discriminate. }
  assert (Hok : forall t, linv (Done SOk t) -> linv Crash -> False).
  { intros t (bl & hp & G & -> & H) (m' & bl' & j & k & pos & G' & E & [(blk & P' & Hf)|[-> Hf]]).
    - destruct (fin_holds _ _ H j k pos E) as (b & b' & Hb & _).
      assert (Lt : m' < List.length files).
      { destruct (Nat.lt_ge_cases m' (List.length files)); auto. unfold parse in P'.
        assert (nth_error files m' = None) as Hn by (apply nth_error_None; auto). rewrite Hn in P'. discriminate. }
      pose proof (goods_longest _ _ _ _ (goods_snoc _ _ _ G' P') G Lt) as Eb.
      rewrite <- (firstn_skipn (S m') bl), <- Eb in Hb. destruct (accum_prefix _ _ _ _ _ Hb) as [b0 Hb0].
      exact (Hf b0 Hb0).
    - rewrite (goods_det _ _ _ G' G) in Hf. destruct (fin_holds _ _ H j k pos E) as (b & b' & Hb & Hb').
      rewrite Hb in Hf. exact (Hf b' Hb'). }
  assert (Hoe : forall t e t', linv (Done SOk t) -> linv (Done (SErr e) t') -> False).
  { intros t e t' (bl & hp & G & -> & H) (m & bl' & hp' & G' & -> & H' & Lm & P).
    destruct (goods_lt _ _ _ G Lm) as [b Pb]. pose proof (parse_inj _ _ _ P Pb). discriminate. }
  intros F F' I I'. destruct s as [? ? ?|[|e] t|], s' as [? ? ?|[|e'] t'|]; try tauto;
    try (exfalso; eauto; fail).
  - f_equal. destruct I as (bl & hp & G & -> & H), I' as (bl' & hp' & G' & -> & H').
    rewrite (goods_det _ _ _ G' G) in H'. f_equal. apply (holds_det _ _ _ _ W H H').
    intros k pos b b' (b0 & A & A') (b1 & B & B'). unfold acc in *. congruence.
  - destruct I as (m & bl & hp & G & -> & H & Lm & P), I' as (m' & bl' & hp' & G' & -> & H' & Lm' & P').
    assert (m = m') as <-.
    { destruct (Nat.lt_trichotomy m m') as [L|[->|L]]; auto.
      - destruct (goods_lt _ _ _ G' L) as [b Pb]. pose proof (parse_inj _ _ _ P Pb). discriminate.
      - destruct (goods_lt _ _ _ G L) as [b Pb]. pose proof (parse_inj _ _ _ P' Pb). discriminate. }
    pose proof (parse_inj _ _ _ P P') as Ee. injection Ee as <-. f_equal. f_equal.
    rewrite (goods_det _ _ _ G' G) in H'. apply (holds_det _ _ _ _ W H H').
    intros k pos b b' A B. unfold acc in *. congruence.
Qed.

End Load.

(** *** progress and termination *)
Lemma progress fs strtof files proms next t : List.length proms = List.length files -> next <= List.length files ->
  exists s', lstep fs strtof files (Running proms next t) s'.
Proof.
  intros L Ln.
  destruct (nth_error proms next) as [[[e|[fl sl]]|]|] eqn:Ep.
  - eexists. eapply StBad. exact Ep.
  - idtac.
    destruct (fold_res run_task (map (add_task fl sl) (t_handles t)) (t_heap t)) as [heap| |] eqn:Eh.
    + destruct (first_not_ok [] (t_map t) heap) as [s| |] eqn:Es.
      * eexists. eapply StAdd; eauto.
      * exists Crash. eapply StAddCrash; [exact Ep|apply Permutation_refl|].
        intros h E s Es'. rewrite Eh in E. injection E as <-. rewrite Es in Es'. discriminate.
      * exists Crash. eapply StAddCrash; [exact Ep|apply Permutation_refl|].
        intros h E s Es'. rewrite Eh in E. injection E as <-. rewrite Es in Es'. discriminate.
    + exists Crash. eapply StAddCrash; [exact Ep|apply Permutation_refl|].
      intros h E. rewrite Eh in E. discriminate.
    + exists Crash. eapply StAddCrash; [exact Ep|apply Permutation_refl|].
      intros h E. rewrite Eh in E. discriminate.
  - assert (Li : next < List.length files).
    { rewrite <- L. apply nth_error_Some. intros C. pose proof (eq_trans (eq_sym Ep) C). discriminate. }
    destruct (nth_error files next) as [f|] eqn:Ef; [|apply nth_error_None in Ef; lia].
    destruct (read_tsv_total fs strtof f (t_fidx t) (t_sidx t) (next =? 0)) as [b Eb].
    eexists. eapply StWorker; eauto.
  - apply nth_error_None in Ep. assert (En : next = List.length files) by lia.
    idtac.
    destruct (fold_res run_task (map fin_task (t_handles t)) (t_heap t)) as [heap| |] eqn:Eh.
    + destruct (first_not_ok [] (t_map t) heap) as [s| |] eqn:Es.
      * eexists. eapply StEnd; eauto.
      * exists Crash. eapply StEndCrash; [exact En|apply Permutation_refl|].
        intros h E s Es'. rewrite Eh in E. injection E as <-. rewrite Es in Es'. discriminate.
      * exists Crash. eapply StEndCrash; [exact En|apply Permutation_refl|].
        intros h E s Es'. rewrite Eh in E. injection E as <-. rewrite Es in Es'. discriminate.
    + exists Crash. eapply StEndCrash; [exact En|apply Permutation_refl|].
      intros h E. rewrite Eh in E. discriminate.
    + exists Crash. eapply StEndCrash; [exact En|apply Permutation_refl|].
      intros h E. rewrite Eh in E. discriminate.
Qed.


Definition is_none {A} (o : option A) : bool := match o with None => true | _ => false end.
Definition lmeasure (s : lstate) : nat :=
  match s with
  | Running proms next _ => S (List.length (filter is_none proms) + (List.length proms - next))
  | _ => 0
  end.
Lemma fill_count (proms : list (option block)) : forall i b, nth_error proms i = Some None ->
  S (List.length (filter is_none (set_nth i (Some b) proms))) = List.length (filter is_none proms).
Proof.
  induction proms as [|p proms IH]; intros [|i] b E; try discriminate.
  - injection E as ->. auto.
  - cbn [set_nth filter]. cbn in E. destruct (is_none p); cbn [List.length]; rewrite <- (IH i b E); auto.
Qed.
Lemma sub_S_lt n m : m < n -> n - S m < n - m.
Proof. lia. Qed.
Lemma lstep_measure fs strtof files s s' : lstep fs strtof files s s' -> lmeasure s' < lmeasure s.
Proof.
  intros St. destruct St; cbn [lmeasure]; try lia.
  - rewrite set_nth_length. rewrite <- (fill_count proms i b H0). lia.
  - assert (next < List.length proms) by (apply nth_error_Some; intros C; pose proof (eq_trans (eq_sym H) C); discriminate).
    destruct s; cbn [lmeasure]; [|lia].
    apply le_n_S, Nat.add_lt_mono_l. exact (sub_S_lt _ _ H3).
Qed.
Lemma lstep_wf fs strtof files s : Acc (fun a b => lstep fs strtof files b a) s.
Proof.
  remember (lmeasure s) as m eqn:E. revert s E. induction m as [m IH] using lt_wf_ind. intros s E.
  constructor. intros s' St. apply (IH (lmeasure s')); auto. subst. apply (lstep_measure _ _ _ _ _ St).
Qed.
