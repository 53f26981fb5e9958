(** Threads_proofs.v - in exact arithmetic the number of threads does not matter (for property C73). *)
From Coq Require Import SpecFloat Reals Lra.
From Verif Require Import Base Base_proofs F32 Column DataStore Subsampling Subsampling_proofs Num Forest Par Par_proofs Config
  Score ScoreSpec Score_proofs Eval EvalSpec Eval_proofs Split SplitSpec Hist_proofs Tree TreeSpec Sum_proofs Split_proofs Train TrainSpec Train_proofs
  Loss LossSpec Loss_proofs.
Local Close Scope R_scope.

(** ** Sums *)
Lemma sum_task_defined {N : Num} w (gd : list (grad N)) i rows : forall m r, run Nat.eq_dec (sum_task w gd i rows) m = Ret r ->
  forall k, In k rows -> exists d, row_grad w gd k = Ret d.
Proof.
  induction rows as [|a rows IH]; intros m r E k I; [destruct I|]. cbn [sum_task] in E.
  destruct (row_grad w gd a) as [d| |] eqn:R; [|discriminate E..]. cbn [pres pbind run] in E.
  destruct (m i) as [x|] eqn:Mi; [|discriminate E]. cbn [run] in E. try rewrite Mi in E.
  destruct I as [<-|I]; [eauto|]. eapply IH; [exact E|exact I].
Qed.
Lemma run_tasks_each {A V} (dec : forall a b : A, {a = b} + {a <> b}) (ps : list (prog A V unit)) : forall m m', run_tasks dec ps m = Ret m' ->
  forall p, In p ps -> exists m0 r, run dec p m0 = Ret r.
Proof.
  induction ps as [|q ps IH]; intros m m' E p I; [destruct I|]. cbn [run_tasks] in E.
  destruct (run dec q m) as [[[] m1]| |] eqn:R; [|discriminate E..]. cbn [bind] in E.
  destruct I as [<-|I]; [eauto|]. eapply IH; [exact E|exact I].
Qed.
Lemma sum_defined {N : Num} t w (gd : list (grad N)) rows x : weighted_sum t w gd rows = Ret x ->
  exists rg, weighted w gd rg rows.
Proof.
  intros E. unfold weighted_sum in E. destruct (divide_slice rows (t * 5)) as [slices| |] eqn:D; [|discriminate E..]. cbn [bind] in E.
  destruct (run_tasks _ _ _) as [m| |] eqn:R; [|discriminate E..]. clear E.
  assert (P : 0 < t * 5).
  { destruct t; [|lia]. cbn [Nat.mul] in D. rewrite (proj2 (divide_zero 0 rows)) in D. discriminate D. }
  destruct (divide_slice_spec rows (t * 5) P) as (sl & D' & _ & Cc & _). rewrite D in D'. injection D' as <-.
  exists (fun r => match row_grad w gd r with Ret d => d | _ => gzero end). intros r I.
  assert (H : exists d, row_grad w gd r = Ret d).
  { rewrite <- Cc in I. apply in_concat in I. destruct I as (s & Is & Ir). apply In_nth_error in Is. destruct Is as [i Ei].
    destruct (run_tasks_each _ _ _ _ R (sum_task w gd i s)) as (m0 & q & Q).
    - unfold sum_tasks. apply in_map_iff. exists (i, s). split; [reflexivity|]. eapply nth_error_In with (n := i).
      rewrite combine_seq_nth, Ei. reflexivity.
    - eapply sum_task_defined; [exact Q|exact Ir]. }
  destruct H as [d H]. rewrite H. unfold row_grad, vget in H. destruct (w r) as [wi| |]; [|discriminate H..]. cbn [bind] in H.
  destruct (nth_error gd r) as [dd|] eqn:Eg; [|discriminate H]. cbn [bind] in H. injection H as <-. eauto.
Qed.
Lemma sum_threads t t' w (gd : list (grad Exact)) rows x : 1 <= t -> 1 <= t' -> weighted_sum t w gd rows = Ret x -> weighted_sum t' w gd rows = Ret x.
Proof.
  intros T T' E. destruct (sum_defined _ _ _ _ _ E) as [rg W]. rewrite (sum_exact w gd rg t rows T W) in E.
  rewrite (sum_exact w gd rg t' rows T' W). exact E.
Qed.

(** ** Trees *)
Section Grow.
Variables (top : nat -> list Exact -> nat) (draw : nat -> spec_float) (t t' : nat)
  (srt : (nat -> nat -> bool) -> list nat -> list nat) (w : float_vector) (gd : list (grad Exact)) (features : list column)
  (c : config Exact).
Hypotheses (T : 1 <= t) (T' : 1 <= t').

Lemma grow_threads fuel : forall step pos tr queue samples r,
  grow top draw t srt w gd features c fuel step pos tr queue samples = Ret r ->
  grow top draw t' srt w gd features c fuel step pos tr queue samples = Ret r.
Proof.
  induction fuel as [|fuel IH]; intros step pos tr queue samples r E; [exact E|]. cbn [grow] in E |- *.
  destruct queue as [|q0 queue]; [exact E|]. destruct (negb _); [exact E|].
  destruct (vget _ _) as [nd| |]; [|discriminate E..]. cbn [bind] in E |- *.
  destruct (nd_feature nd) as [col|]; [|exact E].
  destruct (run _ _ _) as [[k m]| |]; [|discriminate E..]. cbn [bind] in E |- *.
  destruct (weighted_sum t w gd (slice (read_samples m 0 (List.length samples)) (nd_start nd, nd_start nd + k))) as [lt| |] eqn:L; [|discriminate E..].
  rewrite (sum_threads t t' _ _ _ _ T T' L). cbn [bind] in E |- *.
  destruct (weighted_sum t w gd (slice (read_samples m 0 (List.length samples)) (nd_start nd + k, nd_start nd + nd_len nd))) as [rt| |] eqn:Rr; [|discriminate E..].
  rewrite (sum_threads t t' _ _ _ _ T T' Rr). cbn [bind] in E |- *.
  destruct (find_best_feature draw pos srt features w gd _ lt c) as [[[lsp lf] p1]| |]; [|discriminate E..]. cbn [bind] in E |- *.
  destruct (find_best_feature draw p1 srt features w gd _ rt c) as [[[rsp rf] p2]| |]; [|discriminate E..]. cbn [bind] in E |- *.
  apply IH. exact E.
Qed.
Lemma fit_threads pos r : fit_tree top draw t srt w gd features c pos = Ret r -> fit_tree top draw t' srt w gd features c pos = Ret r.
Proof.
  unfold fit_tree. destruct (uniform_subsample _ _ _ _) as [samples p]. intros E.
  destruct (weighted_sum t w gd samples) as [x| |] eqn:S0; [|discriminate E..]. rewrite (sum_threads t t' _ _ _ _ T T' S0). cbn [bind] in E |- *.
  destruct (find_best_feature _ _ _ _ _ _ _ _ _) as [[[sp f] p2]| |]; [|discriminate E..]. cbn [bind] in E |- *.
  apply grow_threads. exact E.
Qed.
End Grow.

(** ** Function values *)
Lemma add_threads {N : Num} v t t' (tr : tree N) x st st2 st' : 1 <= t -> 1 <= t' -> tree_fits (v_get v) (v_rows v) tr ->
  state_ok v st -> state_ok v st2 -> snd st2 = snd st -> add_tree_scores (v_get v) t tr x st = Ret st' ->
  state_ok v st' /\ exists st2', add_tree_scores (v_get v) t' tr x st2 = Ret st2' /\ state_ok v st2' /\ snd st2' = snd st'.
Proof.
  intros T T' F Ok Ok2 Sn E. destruct (one_tree v t tr x st T F Ok) as (s1 & E1 & Ok1 & H1). rewrite E in E1. injection E1 as <-.
  split; [exact Ok1|]. destruct (one_tree v t' tr x st2 T' F Ok2) as (s2 & E2 & Ok2' & H2).
  exists s2. split; [exact E2|]. split; [exact Ok2'|]. apply list_nth_ext. intros row. destruct (Nat.lt_ge_cases row (v_rows v)) as [L|L].
  - destruct (routes_total _ _ _ _ F L) as [s R0]. rewrite Sn in H2. rewrite <- (proj2 Ok) in L. pose proof (nth_error_nth' (snd st) n0 L) as X.
    rewrite (H1 row _ s X R0). apply (H2 row _ s X R0).
  - rewrite (proj2 (nth_error_None (snd s2) row)) by (rewrite (proj2 Ok2'); exact L). symmetry. apply nth_error_None. rewrite (proj2 Ok1). exact L.
Qed.

Lemma base_threads {N : Num} v t t' (base : list (tree N)) : 1 <= t -> 1 <= t' -> forest_fits v base -> forall k trees st st2 k' trees' st',
  state_ok v st -> state_ok v st2 -> snd st2 = snd st ->
  init_with_base v t base k trees st = Ret (k', trees', st') ->
  state_ok v st' /\ exists st2', init_with_base v t' base k trees st2 = Ret (k', trees', st2') /\ state_ok v st2' /\ snd st2' = snd st'.
Proof.
  intros T T'. induction base as [|b base IH]; intros Fb k trees st st2 k' trees' st' Ok Ok2 Sn E; cbn [init_with_base] in E |- *.
  - injection E as <- <- <-. split; [exact Ok|]. exists st2. auto.
  - inversion Fb as [|? ? Ft Fb']; subst. destruct (add_tree_scores (v_get v) t b n0 st) as [s1| |] eqn:A; [|discriminate E..]. cbn [bind] in E.
    destruct (add_threads v t t' b n0 st st2 s1 T T' Ft Ok Ok2 Sn A) as (Ok1 & s2 & A2 & Ok2' & Sn'). rewrite A2. cbn [bind].
    destruct (single_node b); exact (IH Fb' _ _ s1 s2 _ _ _ Ok1 Ok2' Sn' E).
Qed.

(** ** Losses that behave alike *)
Definition alike {N : Num} (rows : nat) (w y : float_vector) (lf lf' : loss N) : Prop :=
  exists R : l_state lf -> l_state lf' -> Prop,
    (forall group r, l_init lf rows w y group = Ret r -> exists r', l_init lf' rows w y group = Ret r' /\
       match r, r' with inl e, inl e' => e = e' | inr s, inr s' => R s s' | _, _ => False end) /\
    (forall s s' pos f gd x gd1 s1 pos1, R s s' -> List.length f = rows -> List.length gd = rows ->
       l_round lf s pos f gd = Ret (x, gd1, s1, pos1) -> exists s1', l_round lf' s' pos f gd = Ret (x, gd1, s1', pos1) /\ R s1 s1').

Section Rounds.
Variables (v : view) (t t' : nat) (top : nat -> nat -> list Exact -> nat) (draw : nat -> spec_float)
  (srt : (nat -> nat -> bool) -> list nat -> list nat) (names : list str) (w y : float_vector) (lf lf' : loss Exact)
  (features : list column) (c : config Exact).
Hypothesis Tr : training v t top srt names w lf.
Hypothesis T' : 1 <= t'.
Hypothesis Lo : load_features (v_get v) (v_order v names) = (SOk, features).
Variable R : l_state lf -> l_state lf' -> Prop.
Hypothesis Rr : forall s s' pos f gd x gd1 s1 pos1, R s s' -> List.length f = v_rows v -> List.length gd = v_rows v ->
       l_round lf s pos f gd = Ret (x, gd1, s1, pos1) -> exists s1', l_round lf' s' pos f gd = Ret (x, gd1, s1', pos1) /\ R s1 s1'.

Lemma rounds_threads todo : forall i k trees st st2 gd ls ls2 pos r, List.length gd = v_rows v ->
  @state_ok Exact v st -> state_ok v st2 -> snd st2 = snd st -> R ls ls2 ->
  rounds v t top draw srt w features c lf todo i k trees st gd ls pos = Ret r ->
  rounds v t' top draw srt w features c lf' todo i k trees st2 gd ls2 pos = Ret r.
Proof.
  induction todo as [|todo IH]; intros i k trees st st2 gd ls ls2 pos r L Ok Ok2 Sn Rl E; cbn [rounds] in E |- *.
  - rewrite Sn. exact E.
  - destruct (l_round lf ls pos (snd st) gd) as [[[[x gd'] ls'] pos']| |] eqn:R0; [|discriminate E..]. cbn [bind] in E.
    pose proof (ts_loss _ _ _ _ _ _ _ Tr _ _ _ _ _ _ _ _ (proj2 Ok) L R0) as L'.
    destruct (Rr _ ls2 _ _ _ _ _ _ _ Rl (proj2 Ok) L R0) as (ls2' & R2 & Rl'). rewrite Sn, R2. cbn [bind].
    destruct (nfinite x); [|exact E].
    destruct (fit_tree (top i) draw t srt w gd' features c pos') as [[tr p2]| |] eqn:Ft; [|discriminate E..]. cbn [bind] in E.
    rewrite (fit_threads _ _ t t' _ _ _ _ _ (ts_threads _ _ _ _ _ _ _ Tr) T' _ _ Ft). cbn [bind].
    destruct (add_tree_scores (v_get v) t (apply_shrinkage (nfloat (cf_shrinkage c)) tr) x st) as [st'| |] eqn:A; [|discriminate E..]. cbn [bind] in E.
    assert (Fi : tree_fits (v_get v) (v_rows v) (apply_shrinkage (nfloat (cf_shrinkage c)) tr)).
    { eapply fitted_fits; [exact exact_ordered|exact Tr|exact Lo|]. exists i, gd', pos', p2. split; [exact L'|exact Ft]. }
    destruct (add_threads v t t' _ x st st2 st' (ts_threads _ _ _ _ _ _ _ Tr) T' Fi Ok Ok2 Sn A) as (Ok1 & s2 & A2 & Ok2' & Sn').
    rewrite A2. cbn [bind]. exact (IH _ _ _ st' s2 _ _ _ _ _ L' Ok1 Ok2' Sn' Rl' E).
Qed.
End Rounds.

Lemma train_threads v t t' top draw pos srt names w y (lf lf' : loss Exact) c base r :
  training v t top srt names w lf -> 1 <= t' -> alike (v_rows v) w y lf lf' -> (forall b, base = Some b -> forest_fits v b) ->
  train v t top draw pos srt names w y lf c base = Ret r -> train v t' top draw pos srt names w y lf' c base = Ret r.
Proof.
  intros Tr T' (R & Hi & Hr) Fb E. unfold train in *. destruct (check_config c); [|exact E].
  destruct (load_features (v_get v) (v_order v names)) as [[|e] features] eqn:Lo; [|exact E].
  destruct (group_column c (v_get v)) as [group| |]; [|discriminate E..]. cbn [bind] in E |- *.
  destruct (l_init lf (v_rows v) w y group) as [i| |] eqn:I0; [|discriminate E..]. cbn [bind] in E.
  destruct (Hi _ _ I0) as (i' & -> & X). cbn [bind].
  destruct i as [e|ls], i' as [e'|ls']; try contradiction; [rewrite <- X; exact E|].
  destruct (Eval_proofs.init_ok (N := Exact) v t (ts_threads _ _ _ _ _ _ _ Tr)) as (st0 & Es & Ok & Q). rewrite Es in E. cbn [bind] in E.
  destruct (Eval_proofs.init_ok (N := Exact) v t' T') as (st2 & Es2 & Ok2 & Q2). rewrite Es2. cbn [bind].
  destruct (init_with_base v t _ n0 [] st0) as [[[k trees] st]| |] eqn:B; [|discriminate E..]. cbn [bind] in E.
  assert (Fb' : forest_fits v (match base with Some b => b | None => [] end)) by (destruct base as [b|]; [apply Fb; reflexivity|constructor]).
  assert (Sn : snd st2 = snd st0) by congruence.
  destruct (base_threads (N := Exact) v t t' _ (ts_threads _ _ _ _ _ _ _ Tr) T' Fb' _ _ st0 st2 _ _ _ Ok Ok2 Sn B) as (Ok1 & s2 & B2 & Ok2' & Sn').
  match goal with |- bind ?m _ = _ => assert (M : m = Ret (k, trees, s2)) by exact B2; rewrite M end. cbn [bind].
  exact (rounds_threads v t t' top draw srt names w lf lf' features c Tr T' Lo R Hr _ _ _ _ _ _ _ _ _ _ _ (repeat_length _ _) Ok1 Ok2' Sn' X E).
Qed.

(** ** The pointwise losses *)
Lemma total_concat (rg : nat -> grad Exact) slices : total_of (map (sum_of rg) slices) = sum_of rg (concat slices).
Proof.
  unfold sum_of at 2. induction slices as [|s l IH]; [reflexivity|].
  cbn [map concat]. rewrite map_app, total_app, total_cons, IH. reflexivity.
Qed.
Section Point.
Variables (lossf : Exact -> Exact -> point Exact) (w y : float_vector) (wv yv : nat -> Exact).

Lemma newton_sum (f : list Exact) (p : pointwise) groups : row_values w (List.length f) wv -> row_values y (List.length f) yv ->
  0 < groups -> divide_samples (List.length f) groups = Ret (pw_slices p) -> pw_w p = w -> pw_y p = y ->
  forall c gd, List.length gd = List.length f -> exists l : Exact,
    point_pass lossf p f c gd = Ret (row_gradients lossf yv f c, (l, sum_of (row_weighted lossf wv yv f c) (seq 0 (List.length f)))).
Proof.
  intros Wv Yv G Hd Ew Ey c gd Lg. destruct (pass_ok lossf w y wv yv f c Wv Yv p groups gd G Hd Ew Ey Lg) as [_ E]. rewrite E.
  match goal with |- exists l, Ret (_, ?x) = _ => exists (fst x); replace (sum_of (row_weighted lossf wv yv f c) (seq 0 (List.length f))) with (snd x) end;
    [rewrite <- surjective_pairing; reflexivity|].
  rewrite sum_totals_snd, map_map. cbn [slice_total snd].
  rewrite <- (map_map range (sum_of (row_weighted lossf wv yv f c))), total_concat. f_equal.
  destruct (divide_spec (List.length f) groups G) as (rs & E' & _ & _ & Cc & _). rewrite Hd in E'. injection E' as <-. exact Cc.
Qed.

Lemma newton_threads (f : list Exact) (p p' : pointwise) groups groups' : row_values w (List.length f) wv -> row_values y (List.length f) yv ->
  0 < groups -> divide_samples (List.length f) groups = Ret (pw_slices p) -> pw_w p = w -> pw_y p = y ->
  0 < groups' -> divide_samples (List.length f) groups' = Ret (pw_slices p') -> pw_w p' = w -> pw_y p' = y ->
  forall todo c gd, List.length gd = List.length f -> newton lossf p f todo c gd = newton lossf p' f todo c gd.
Proof.
  intros Wv Yv G Hd Ew Ey G' Hd' Ew' Ey'. induction todo as [|todo IH]; intros c gd L; [reflexivity|]. cbn [newton].
  destruct (newton_sum f p groups Wv Yv G Hd Ew Ey c gd L) as [l ->]. destruct (newton_sum f p' groups' Wv Yv G' Hd' Ew' Ey' c gd L) as [l' ->].
  cbn [bind snd]. destruct (_ && _); [|reflexivity]. apply IH. unfold row_gradients. rewrite map_length, seq_length. reflexivity.
Qed.

Lemma pointwise_alike rows t t' binary : 1 <= t -> 1 <= t' -> row_values w rows wv -> row_values y rows yv ->
  alike rows w y (pointwise_loss t binary lossf) (pointwise_loss t' binary lossf).
Proof.
  intros T T' Wv Yv.
  exists (fun p p' : @pointwise Exact => inited w y t rows p /\ inited w y t' rows p').
  split.
  - intros group r E. cbn in E |- *.
    destruct (if binary then _ else _) as [b| |]; [|discriminate E..]. cbn [bind] in E |- *. destruct b; [|exists r; split; [exact E|injection E as <-; reflexivity]].
    destruct (Loss_proofs.init_ok w y wv t rows T Wv) as (p & Ep & Ip & _). destruct (Loss_proofs.init_ok w y wv t' rows T' Wv) as (p' & Ep' & Ip' & _).
    rewrite Ep in E. rewrite Ep'. cbn [bind] in E |- *. exists (inr p'). split; [reflexivity|]. injection E as <-. auto.
  - intros s s' pos f gd x gd1 s1 pos1 [Ip Ip'] Lf Lg E. subst rows.
    change ((let! (c, gd) := pointwise_round lossf s f gd in Ret (c, gd, s, pos)) = Ret (x, gd1, s1, pos1)) in E.
    exists s'. destruct (pointwise_round lossf s f gd) as [[c0 g0]| |] eqn:P; [|discriminate E..]. cbn [bind] in E.
    assert (Q : (c0, g0, s, pos) = (x, gd1, s1, pos1)) by congruence. injection Q as -> -> <- ->.
    split; [|auto]. change ((let! (c, gd) := pointwise_round lossf s' f gd in Ret (c, gd, s', pos1)) = Ret (x, gd1, s', pos1)).
    destruct Ip as (Hd & Ew & Ey), Ip' as (Hd' & Ew' & Ey').
    unfold pointwise_round in P |- *. rewrite <- (newton_threads f s s' (t * 5) (t' * 5) Wv Yv ltac:(lia) Hd Ew Ey ltac:(lia) Hd' Ew' Ey' _ _ _ (resize_length gd _)).
    rewrite P. reflexivity.
Qed.
End Point.

Lemma pointwise_threads v t t' top draw pos srt names w y (wv yv : nat -> Exact) binary (lossf : Exact -> Exact -> point Exact) c base r :
  training v t top srt names w (pointwise_loss t binary lossf) -> 1 <= t' ->
  row_values w (v_rows v) wv -> row_values y (v_rows v) yv -> (forall b, base = Some b -> forest_fits v b) ->
  train v t top draw pos srt names w y (pointwise_loss t binary lossf) c base = Ret r ->
  train v t' top draw pos srt names w y (pointwise_loss t' binary lossf) c base = Ret r.
Proof.
  intros Tr T' Wv Yv Fb E.
  exact (train_threads v t t' top draw pos srt names w y _ _ c base r Tr T'
    (pointwise_alike lossf w y wv yv (v_rows v) t t' binary (ts_threads _ _ _ _ _ _ _ Tr) T' Wv Yv) Fb E).
Qed.
