(** Eval_proofs.v - forest evaluation (properties C25, C27, C28, C51, C54). *)
From Verif Require Import Base F32 Column ColumnSpec DataStore Subsampling Num Forest Par Score ScoreSpec Eval EvalSpec
  Base_proofs ColumnStr_proofs ColumnBucket_proofs ColumnProps_proofs Subsampling_proofs Par_proofs Score_proofs.

(** ** LoadFeatures *)
Lemma load_features_ok get names :
  (fst (load_features get names) = SOk <-> forall n, In n names -> exists c, get n = Some c /\ col_status c = SOk) /\
  (fst (load_features get names) = SOk -> map Some (snd (load_features get names)) = map get names) /\
  (fst (load_features get names) <> SOk -> snd (load_features get names) = []).
Proof.
  induction names as [|n t IH]; cbn [load_features].
  - cbn. split; [split; [intros _ x []|reflexivity]|split; [reflexivity|congruence]].
  - destruct IH as (I1 & I2 & I3). destruct (get n) as [c|] eqn:G.
    + destruct (col_status c) eqn:Sc.
      * destruct (load_features get t) as [[|e] cs]; cbn [fst snd] in *.
        -- split; [|split; [|congruence]].
           ++ split; [|reflexivity]. intros _ x [<-|I]; [eauto|]. apply I1; auto.
           ++ intros _. cbn. rewrite I2 by reflexivity. congruence.
        -- split; [|split; [discriminate|reflexivity]]. split; [discriminate|]. intros H.
           assert (SErr e = SOk) by (apply I1; intros x I; apply H; right; exact I). discriminate.
      * cbn. split; [|split; [discriminate|reflexivity]]. split; [discriminate|]. intros H.
        destruct (H n) as (c' & E & S); [left; reflexivity|]. congruence.
    + cbn. split; [|split; [discriminate|reflexivity]]. split; [discriminate|]. intros H.
      destruct (H n) as (c' & E & _); [left; reflexivity|]. congruence.
Qed.

(** The status when it fails: that of the first name that does not load. *)
Lemma load_features_err get names e : fst (load_features get names) = SErr e ->
  exists before n after, names = before ++ n :: after /\
    (forall m, In m before -> exists c, get m = Some c /\ col_status c = SOk) /\
    (get n = None /\ e = NOT_FOUND \/ exists c, get n = Some c /\ col_status c = SErr e).
Proof.
  induction names as [|n t IH]; cbn [load_features]; [discriminate|]. intros H.
  destruct (get n) as [c|] eqn:G.
  - destruct (col_status c) as [|e'] eqn:Sc.
    + destruct (load_features get t) as [[|e'] cs]; cbn [fst] in *; [discriminate|].
      destruct (IH H) as (b & m & a & -> & B & M). exists (n :: b), m, a. split; [reflexivity|]. split; [|exact M].
      intros x [<-|I]; eauto.
    + cbn in H. injection H as ->. exists [], n, t. split; [reflexivity|]. split; [intros m []|]. right. eauto.
  - cbn in H. injection H as <-. exists [], n, t. split; [reflexivity|]. split; [intros m []|]. left. auto.
Qed.

Section Eval.
Context {N : Num}.

(** ** Collecting features *)
Lemma set_insert_in s l x : In x (set_insert s l) <-> x = s \/ In x l.
Proof.
  unfold set_insert. destruct (existsb (str_eqb s) l) eqn:E; cbn; [|intuition congruence].
  apply existsb_exists in E. destruct E as (y & I & Y). destruct (str_eqb_spec s y) as [<-|]; [|discriminate]. intuition congruence.
Qed.
Lemma set_insert_nodup s l : NoDup l -> NoDup (set_insert s l).
Proof.
  unfold set_insert. destruct (existsb (str_eqb s) l) eqn:E; [auto|]. intros H. constructor; [|exact H].
  intros I. rewrite <- not_true_iff_false in E. apply E. apply existsb_exists. exists s. split; [exact I|].
  apply str_eqb_refl.
Qed.

Lemma collect_tree_in (t : tree N) : forall acc x, In x (collect_tree t acc) <-> named x t \/ In x acc.
Proof.
  induction t as [|s sp l IHl r IHr]; intros acc x; cbn [collect_tree].
  - split; [auto|]. intros [H|H]; [inversion H|exact H].
  - rewrite IHr, IHl. split.
    + intros [H|[H|H]]; [left; apply NamedRight, H|left; apply NamedLeft, H|].
      destruct sp as [sp|]; [|auto]. rewrite set_insert_in in H. destruct H as [->|H]; [left; constructor; reflexivity|auto].
    + intros [H|H].
      * inversion H; subst; [|auto|auto]. right. right. apply set_insert_in. auto.
      * right. right. destruct sp as [sp|]; [rewrite set_insert_in|]; auto.
Qed.
Lemma collect_tree_nodup (t : tree N) : forall acc, NoDup acc -> NoDup (collect_tree t acc).
Proof.
  induction t as [|s sp l IHl r IHr]; intros acc H; cbn [collect_tree]; [exact H|].
  apply IHr, IHl. destruct sp as [sp|]; [apply set_insert_nodup|]; exact H.
Qed.
Lemma collect_features_in (f : forest N) x : In x (collect_features f) <-> exists t, In t f /\ named x t.
Proof.
  unfold collect_features.
  assert (G : forall acc, In x (fold_left (fun acc t => collect_tree t acc) f acc) <-> (exists t, In t f /\ named x t) \/ In x acc).
  { induction f as [|t f IH]; intros acc; cbn [fold_left].
    - split; [auto|]. intros [(t & [] & _)|H]; exact H.
    - rewrite IH, collect_tree_in. split.
      + intros [(t' & I & M)|[H|H]]; [left; exists t'; cbn; auto|left; exists t; cbn; auto|auto].
      + intros [(t' & [<-|I] & M)|H]; [auto|left; eauto|auto]. }
  rewrite G. cbn. tauto.
Qed.
Lemma collect_features_nodup (f : forest N) : NoDup (collect_features f).
Proof.
  unfold collect_features. generalize (@NoDup_nil str). generalize (@nil str).
  induction f as [|t f IH]; intros acc H; cbn [fold_left]; [exact H|]. apply IH, collect_tree_nodup, H.
Qed.

(** ** Evaluating trees one after the other *)
Definition state_ok (v : view) (st : list nat * list N) : Prop :=
  Permutation (fst st) (seq 0 (v_rows v)) /\ List.length (snd st) = v_rows v.

Lemma one_tree v threads (t : tree N) constant st : 1 <= threads -> tree_fits (v_get v) (v_rows v) t -> state_ok v st ->
  exists st', add_tree_scores (v_get v) threads t constant st = Ret st' /\ state_ok v st' /\
    forall row x s, nth_error (snd st) row = Some x -> routes (v_get v) t row s ->
      nth_error (snd st') row = Some (nadd x (nadd s constant)).
Proof.
  intros Th Fit [P L]. destruct st as [samples scores]. cbn [fst snd] in *.
  assert (Rows : forall r, In r samples <-> r < v_rows v).
  { intros r. rewrite P, in_seq. lia. }
  destruct (list_choice n0 (v_rows v) (fun r s => routes (v_get v) t r s)) as [leaf Hl].
  { intros r R. exact (routes_total _ _ _ _ Fit R). }
  destruct (scoring (v_get v) (v_rows v) threads t constant samples scores leaf Fit Th) as (sl & samples' & scores' & _ & P' & L' & E & _ & A).
  - apply (Permutation_NoDup (Permutation_sym P)), seq_NoDup.
  - intros r I. apply Rows in I. lia.
  - intros r I. apply Hl, Rows, I.
  - exists (samples', scores'). split; [exact A|]. split; [split; cbn; [rewrite P'; exact P|congruence]|].
    cbn [snd]. intros row x s X R. rewrite (E row x X).
    assert (Lr : row < v_rows v) by (rewrite <- L; apply nth_error_Some; congruence).
    destruct (in_dec Nat.eq_dec row samples) as [_|NI]; [|exfalso; apply NI, Rows, Lr].
    rewrite (routes_fun _ _ _ _ _ _ Fit (Hl row Lr) R). reflexivity.
Qed.

Lemma all_trees v threads (f : forest N) : forall st, 1 <= threads -> forest_fits v f -> state_ok v st ->
  exists st', eval_trees v threads f st = Ret st' /\ state_ok v st' /\
    forall row x ls, nth_error (snd st) row = Some x -> leaves v f row ls ->
      nth_error (snd st') row = Some (add_all n0 x ls).
Proof.
  unfold eval_trees. induction f as [|t f IH]; intros st Th Fit Ok; cbn [fold_res].
  - exists st. split; [reflexivity|]. split; [exact Ok|]. intros row x ls X H. inversion H; subst. exact X.
  - inversion Fit as [|? ? Ft Ff]; subst. destruct (one_tree v threads t n0 st Th Ft Ok) as (st1 & E & Ok1 & H1).
    rewrite E. cbn [bind]. destruct (IH st1 Th Ff Ok1) as (st2 & E2 & Ok2 & H2).
    exists st2. split; [exact E2|]. split; [exact Ok2|]. intros row x ls X H. inversion H as [|? s ? ls' R Rs]; subst.
    exact (H2 row _ ls' (H1 row x s X R) Rs).
Qed.

Lemma init_ok v threads : 1 <= threads -> exists st : list nat * list N, init_scores v threads = Ret st /\ state_ok v st /\
  st = (seq 0 (v_rows v), repeat n0 (v_rows v)).
Proof.
  intros Th. unfold init_scores, score_slices. destruct (divide_spec (v_rows v) (threads * 5)) as (rs & E & _); [lia|].
  rewrite E. cbn [bind]. eexists. split; [reflexivity|]. split; [|reflexivity]. split; cbn; [reflexivity|apply repeat_length].
Qed.

Lemma loads_collected v (f : forest N) : reorders v ->
  (loads v f <-> forall n, In n (v_order v (collect_features f)) -> exists c, v_get v n = Some c /\ col_status c = SOk).
Proof.
  intros O. split.
  - intros H n I. apply O, collect_features_in in I. destruct I as (t & I & Hn). exact (H t n I Hn).
  - intros H t n I Hn. apply H, O, collect_features_in. eauto.
Qed.
Lemma load_ok v (f : forest N) : reorders v -> loads v f -> exists cs, load_features (v_get v) (v_order v (collect_features f)) = (SOk, cs).
Proof.
  intros O H. pose proof (proj1 (loads_collected v f O) H) as H0.
  destruct (load_features_ok (v_get v) (v_order v (collect_features f))) as [[_ H1] _].
  specialize (H1 H0). destruct (load_features _ _) as [[|e] cs]; [eauto|discriminate].
Qed.

Lemma evaluate_ok v threads (f : forest N) : 1 <= threads -> reorders v -> loads v f -> forest_fits v f ->
  exists scores, evaluate_forest v threads f = Ret (SOk, Some scores) /\ predictions v f scores.
Proof.
  intros Th Or Lo Fit. unfold evaluate_forest. destruct (load_ok v f Or Lo) as [cs ->].
  destruct (init_ok v threads Th) as (st & E & Ok & St). rewrite E. cbn [bind].
  destruct (all_trees v threads f st Th Fit Ok) as (st' & E' & Ok' & H'). rewrite E'. cbn [bind].
  exists (snd st'). split; [reflexivity|]. split; [apply Ok'|]. intros row ls R Hl. apply H'; [|exact Hl].
  rewrite St. cbn [snd]. rewrite (nth_error_nth' _ n0) by (rewrite repeat_length; exact R). f_equal. apply nth_repeat.
Qed.

Lemma evaluate_err v threads can_write (f : forest N) points : reorders v -> ~ loads v f ->
  exists e t n, In t f /\ named n t /\ column_error v n e /\
    evaluate_forest v threads f = Ret (SErr e, None) /\ evaluate_checkpoints v threads can_write f points = Ret (SErr e, []).
Proof.
  intros O H. rewrite (loads_collected v f O) in H. unfold evaluate_forest, evaluate_checkpoints.
  pose proof (load_features_ok (v_get v) (v_order v (collect_features f))) as [[H1 _] _].
  pose proof (load_features_err (v_get v) (v_order v (collect_features f))) as He.
  destruct (load_features _ _) as [[|e] cs]; cbn [fst] in *; [destruct H; auto|].
  destruct (He e eq_refl) as (b & n & a & E & _ & C). exists e.
  assert (I : In n (collect_features f)) by (apply O; rewrite E; apply in_elt).
  apply collect_features_in in I. destruct I as (t & I & Hn). exists t, n. repeat split; auto.
Qed.

(** Every row has a leaf in every tree, and only one. *)
Lemma leaves_total v (f : forest N) row : forest_fits v f -> row < v_rows v -> exists ls, leaves v f row ls.
Proof.
  intros Fit R. induction Fit as [|t f Ft Ff [ls IH]]; [exists []; constructor|].
  destruct (routes_total _ _ _ _ Ft R) as [s Hs]. exists (s :: ls). constructor; assumption.
Qed.
Lemma leaves_fun v (f : forest N) row a b : forest_fits v f -> leaves v f row a -> leaves v f row b -> a = b.
Proof.
  intros Fit A. revert b. induction A as [|t s f ls Rt A IH]; intros b B; inversion B as [|? s' ? ls' Rt' B']; subst; [reflexivity|].
  inversion Fit as [|? ? Ft Ff]; subst. f_equal; [exact (routes_fun _ _ _ _ _ _ Ft Rt Rt')|exact (IH Ff _ B')].
Qed.

(** ** Checkpoints *)
Definition wr (i : nat) (points : list Z) (T : nat) (p : Z) : Prop :=
  (Z.of_nat i < p <= Z.of_nat (i + T))%Z /\
  exists before after, points = before ++ p :: after /\ (forall q, In q before -> (q < p)%Z) /\
    (p = (Z.of_nat i + 1)%Z -> before = []).

Lemma drop_points_split k points : exists dropped, points = dropped ++ drop_points k points /\
  (forall q, In q dropped -> (q <= k)%Z) /\ (forall h t, drop_points k points = h :: t -> (k < h)%Z).
Proof.
  induction points as [|p t (d & E & D & H)]; cbn [drop_points].
  - exists []. split; [reflexivity|]. split; [intros q []|discriminate].
  - destruct (Z.leb_spec p k) as [L|L].
    + exists (p :: d). split; [cbn; congruence|]. split; [|exact H]. intros q [<-|I]; auto.
    + exists []. split; [reflexivity|]. split; [intros q []|]. intros h t' X. injection X as <- <-. exact L.
Qed.

Lemma wr_step i points T p : wr i points (S T) p <->
  (p = (Z.of_nat i + 1)%Z /\ hd_error points = Some p) \/ wr (S i) (drop_points (Z.of_nat i + 1) points) T p.
Proof.
  set (k := (Z.of_nat i + 1)%Z). destruct (drop_points_split k points) as (d & E & D & H).
  split.
  - intros (R & b & a & Eb & B & P1). destruct (Z.eq_dec p k) as [->|Ne].
    + left. split; [reflexivity|]. rewrite (P1 eq_refl) in Eb. rewrite Eb. reflexivity.
    + right. split; [lia|]. rewrite Eb. clear Eb E D H d P1. revert B.
      induction b as [|q b IH]; intros B; cbn [app drop_points].
      * assert (Lt : (p <=? k)%Z = false) by (apply Z.leb_gt; lia). rewrite Lt. exists [], a.
        split; [reflexivity|]. split; [intros q []|reflexivity].
      * destruct (Z.leb_spec q k) as [L|L]; [apply IH; intros x I; apply B; right; exact I|].
        exists (q :: b), a. split; [reflexivity|]. split; [exact B|]. intros X. exfalso.
        pose proof (B q (or_introl eq_refl)). lia.
  - intros [[-> Hd]|(R & b & a & Eb & B & _)].
    + split; [lia|]. destruct points as [|q t]; [discriminate|]. injection Hd as ->. exists [], t.
      split; [reflexivity|]. split; [intros q []|reflexivity].
    + split; [lia|]. exists (d ++ b), a. split; [rewrite E at 1; rewrite Eb, <- app_assoc; reflexivity|]. split.
      * intros q I. apply in_app_or in I. destruct I as [I|I]; [specialize (D q I); lia|apply B, I].
      * intros X. lia.
Qed.

Lemma leaves_app v (f g : forest N) row ls ls' : leaves v f row ls -> leaves v g row ls' -> leaves v (f ++ g) row (ls ++ ls').
Proof. apply Forall2_app. Qed.

(** The files a run writes if all of them can be written. *)
Definition files_ok (v : view) (x0 : nat -> N) (trees : forest N) (i : nat) (points : list Z) (W : list (Z * list N)) : Prop :=
  StronglySorted Z.lt (map fst W) /\
  (forall p, In p (map fst W) <-> wr i points (List.length trees) p) /\
  (forall p sc, In (p, sc) W -> List.length sc = v_rows v /\
     forall row ls, row < v_rows v -> leaves v (firstn (Z.to_nat p - i) trees) row ls ->
       nth_error sc row = Some (add_all n0 (x0 row) ls)).

Lemma loop_ok v threads can_write (trees : list (tree N)) : forall i points st (x0 : nat -> N), 1 <= threads ->
  forest_fits v trees -> state_ok v st -> (forall row, row < v_rows v -> nth_error (snd st) row = Some (x0 row)) ->
  exists W done rest s, files_ok v x0 trees i points W /\ W = done ++ rest /\
    checkpoint_loop v threads can_write trees (Z.of_nat i) points st = Ret (s, done) /\
    (forall p sc, In (p, sc) done -> can_write p = true) /\
    (rest = [] /\ s = SOk \/ exists p sc rest', rest = (p, sc) :: rest' /\ can_write p = false /\ s = SErr ABORTED).
Proof.
  induction trees as [|t ts IH]; intros i points st x0 Th Fit Ok X0.
  - exists [], [], [], SOk. split; [|cbn; intuition].
    split; [constructor|]. split; [|intros p sc []]. intros p. split; [intros []|]. intros [R _]. cbn in R. lia.
  - destruct points as [|p0 points].
    { exists [], [], [], SOk. split; [|cbn; intuition].
      split; [constructor|]. split; [|intros p sc []]. intros p. split; [intros []|].
      intros (_ & b & a & E & _). destruct b; discriminate. }
    cbn [checkpoint_loop]. inversion Fit as [|? ? Ft Ff]; subst.
    destruct (one_tree v threads t n0 st Th Ft Ok) as (st1 & E1 & Ok1 & H1). rewrite E1. cbn [bind].
    destruct (list_choice n0 (v_rows v) (fun r s => routes (v_get v) t r s)) as [leaf Hl].
    { intros r R. exact (routes_total _ _ _ _ Ft R). }
    set (x1 := fun row => nadd (x0 row) (nadd (leaf row) n0)).
    assert (X1 : forall row, row < v_rows v -> nth_error (snd st1) row = Some (x1 row)).
    { intros row R. exact (H1 row _ _ (X0 row R) (Hl row R)). }
    set (pts := drop_points (Z.of_nat i + 1) (p0 :: points)).
    destruct (IH (S i) pts st1 x1 Th Ff Ok1 X1) as (W & done & rest & s & FW & EW & Ec & Cw & Cr).
    rewrite Nat2Z.inj_succ, <- Z.add_1_r in Ec. fold pts.
    assert (Later : forall p sc, In (p, sc) W -> List.length sc = v_rows v /\
      forall row ls, row < v_rows v -> leaves v (firstn (Z.to_nat p - i) (t :: ts)) row ls ->
        nth_error sc row = Some (add_all n0 (x0 row) ls)).
    { intros p sc I. destruct FW as (_ & F2 & F3). destruct (F3 p sc I) as [Ls F4]. split; [exact Ls|].
      intros row ls R Hls. assert (Gt : (Z.of_nat (S i) < p)%Z).
      { apply (in_map fst) in I. apply F2 in I. destruct I as [I _]. exact (proj1 I). }
      replace (Z.to_nat p - i) with (S (Z.to_nat p - S i)) in Hls by lia. cbn [firstn] in Hls.
      inversion Hls as [|? s' ? ls' Rt Rs]; subst. rewrite (F4 row ls' R Rs). unfold x1.
      rewrite (routes_fun _ _ _ _ _ _ Ft (Hl row R) Rt). reflexivity. }
    destruct (Z.of_nat i + 1 =? p0)%Z eqn:Ep.
    + apply Z.eqb_eq in Ep.
      assert (Files : files_ok v x0 (t :: ts) i (p0 :: points) ((p0, snd st1) :: W)).
      { destruct FW as (F1 & F2 & F3). split; [|split].
        - cbn [map fst]. constructor; [exact F1|]. apply Forall_forall. intros p I. apply F2 in I. destruct I as [I _]. lia.
        - intros p. cbn [List.length]. rewrite wr_step. fold pts. rewrite <- F2. cbn [map fst In hd_error]. split.
          + intros [<-|I]; [left; split; [lia|reflexivity]|right; exact I].
          + intros [[-> Q]|I]; [left; congruence|right; exact I].
        - intros p sc [Q|I]; [|exact (Later p sc I)]. injection Q as <- <-. split; [apply Ok1|].
          intros row ls R Hls. replace (Z.to_nat p0 - i) with 1 in Hls by lia. cbn [firstn] in Hls.
          inversion Hls as [|? s' ? ls' Rt Rs]; subst. inversion Rs; subst. cbn.
          rewrite (X1 row R). unfold x1. rewrite (routes_fun _ _ _ _ _ _ Ft (Hl row R) Rt). reflexivity. }
      destruct (can_write p0) eqn:Cp.
      * rewrite Ec. cbn [bind]. exists ((p0, snd st1) :: W), ((p0, snd st1) :: done), rest, s.
        split; [exact Files|]. split; [cbn; congruence|]. split; [reflexivity|]. split; [|exact Cr].
        intros p sc [Q|I]; [congruence|exact (Cw p sc I)].
      * exists ((p0, snd st1) :: W), [], ((p0, snd st1) :: W), (SErr ABORTED).
        split; [exact Files|]. split; [reflexivity|]. split; [reflexivity|]. split; [intros p sc []|].
        right. eauto 10.
    + apply Z.eqb_neq in Ep. rewrite Ec. exists W, done, rest, s.
      split; [|auto]. destruct FW as (F1 & F2 & F3). split; [exact F1|]. split; [|exact Later].
      intros p. cbn [List.length]. rewrite wr_step. fold pts. rewrite <- F2. cbn [hd_error]. split; [auto|].
      intros [[-> Q]|I]; [congruence|exact I].
Qed.

Lemma checkpoints_ok v threads can_write (f : forest N) points : 1 <= threads -> reorders v -> loads v f -> forest_fits v f ->
  exists W done rest s,
    (StronglySorted Z.lt (map fst W) /\ (forall p, In p (map fst W) <-> written points (List.length f) p) /\
     (forall p sc, In (p, sc) W -> predictions v (firstn (Z.to_nat p) f) sc)) /\
    W = done ++ rest /\ evaluate_checkpoints v threads can_write f points = Ret (s, done) /\
    (forall p sc, In (p, sc) done -> can_write p = true) /\
    (rest = [] /\ s = SOk \/ exists p sc rest', rest = (p, sc) :: rest' /\ can_write p = false /\ s = SErr ABORTED).
Proof.
  intros Th Or Lo Fit. unfold evaluate_checkpoints. destruct (load_ok v f Or Lo) as [cs ->].
  destruct (init_ok v threads Th) as (st & E & Ok & St). rewrite E. cbn [bind].
  destruct (loop_ok v threads can_write f 0 points st (fun _ => n0) Th Fit Ok) as (W & done & rest & s & FW & R).
  { intros row R. rewrite St. cbn [snd]. rewrite (nth_error_nth' _ n0) by (rewrite repeat_length; exact R). f_equal. apply nth_repeat. }
  exists W, done, rest, s. split; [|exact R]. destruct FW as (F1 & F2 & F3). split; [exact F1|]. split; [|].
  - intros p. rewrite F2. unfold wr, written. cbn [plus Z.of_nat Z.add]. split.
    + intros (A & b & a & B). split; [lia|]. exists b, a. exact B.
    + intros (A & b & a & B). split; [lia|]. exists b, a. exact B.
  - intros p sc I. destruct (F3 p sc I) as [L P]. split; [exact L|]. intros row ls Lr Hl. apply P; [exact Lr|].
    rewrite Nat.sub_0_r. exact Hl.
Qed.

(** ** Evaluating a concatenation *)
Lemma eval_app v threads (f g : forest N) st :
  eval_trees v threads (f ++ g) st = (let! st1 := eval_trees v threads f st in eval_trees v threads g st1).
Proof.
  unfold eval_trees. revert st. induction f as [|t f IH]; intros st; cbn [app fold_res]; [reflexivity|].
  destruct (add_tree_scores _ _ _ _ st); cbn [bind]; [apply IH|reflexivity|reflexivity].
Qed.

(** ** Only the reported features are read *)
Lemma run_bind {L V} dec {A B} (p : Par.prog L V A) (k : A -> Par.prog L V B) : forall m,
  run dec (pbind p k) m = (let! (a, m') := run dec p m in run dec (k a) m').
Proof.
  induction p as [a| | |l f IH|l v p IH]; intros m; cbn [pbind run]; try reflexivity.
  - destruct (m l) as [x|]; [apply IH|reflexivity].
  - destruct (m l); [apply IH|reflexivity].
Qed.

Lemma same_run get1 get2 (t : tree N) constant : nodes_split t -> (forall x, named x t -> get1 x = get2 x) ->
  forall start len m, run sloc_dec (add_sample_tree_scores get1 t constant start len) m =
                      run sloc_dec (add_sample_tree_scores get2 t constant start len) m.
Proof.
  induction t as [|s sp l IHl r IHr]; intros W G start len m; [reflexivity|].
  destruct W as (W & Wl & Wr).
  destruct l as [|ls lsp ll lr] eqn:El; [reflexivity|]. rewrite <- El in *.
  assert (Sh : forall get, add_sample_tree_scores get (TNode s sp l r) constant start len =
            match get (sp_feature (the_split sp)) with
            | None => PFatal
            | Some c =>
                pbind (partition c (the_split sp) start len) (fun k =>
                pbind (add_sample_tree_scores get l constant start k) (fun _ =>
                add_sample_tree_scores get r constant (start + k) (len - k)))
            end).
  { intros get. rewrite El. reflexivity. }
  rewrite !Sh. destruct sp as [sp|]; [|exfalso; apply W; [rewrite El|]; reflexivity]. cbn [the_split].
  rewrite <- (G (sp_feature sp)) by (constructor; reflexivity). destruct (get1 (sp_feature sp)) as [c|]; [|reflexivity].
  rewrite !run_bind. destruct (run sloc_dec (partition c sp start len) m) as [[k m1]| |]; cbn [bind]; [|reflexivity|reflexivity].
  rewrite !run_bind. rewrite (IHl Wl) by (intros x X; apply G, NamedLeft, X).
  destruct (run sloc_dec (add_sample_tree_scores get2 l constant start k) m1) as [[u m2]| |]; cbn [bind]; [|reflexivity|reflexivity].
  apply (IHr Wr). intros x X. apply G, NamedRight, X.
Qed.

Lemma same_tree get1 get2 threads (t : tree N) constant st : nodes_split t -> (forall x, named x t -> get1 x = get2 x) ->
  add_tree_scores get1 threads t constant st = add_tree_scores get2 threads t constant st.
Proof.
  intros W G. destruct st as [samples scores]. unfold add_tree_scores.
  destruct (score_slices (List.length samples) threads) as [slices| |]; cbn [bind]; [|reflexivity|reflexivity].
  assert (E : forall sl m, run_tasks sloc_dec (score_tasks get1 t constant sl) m = run_tasks sloc_dec (score_tasks get2 t constant sl) m).
  { induction sl as [|r sl IH]; intros m; [reflexivity|]. unfold score_tasks. cbn [map run_tasks].
    rewrite (same_run get1 get2 t constant W G). destruct (run _ _ m) as [[u m1]| |]; cbn [bind]; [apply IH|reflexivity|reflexivity]. }
  rewrite E. reflexivity.
Qed.

Lemma same_load get1 get2 names : (forall x, In x names -> get1 x = get2 x) -> load_features get1 names = load_features get2 names.
Proof.
  induction names as [|n t IH]; intros G; [reflexivity|]. cbn [load_features]. rewrite <- (G n) by (left; reflexivity).
  rewrite IH by (intros x I; apply G; right; exact I). reflexivity.
Qed.

Lemma same_evaluation v1 v2 threads (f : forest N) : (forall t, In t f -> nodes_split t) -> v_rows v1 = v_rows v2 ->
  (forall l, Permutation (v_order v1 l) l) -> v_order v1 = v_order v2 ->
  (forall x, In x (collect_features f) -> v_get v1 x = v_get v2 x) ->
  evaluate_forest v1 threads f = evaluate_forest v2 threads f.
Proof.
  intros W R P O G. unfold evaluate_forest. rewrite <- O.
  rewrite (same_load (v_get v1) (v_get v2)).
  2:{ intros x I. apply G. rewrite P in I. exact I. }
  destruct (load_features (v_get v2) _) as [[|e] cs]; [|reflexivity].
  unfold init_scores. rewrite <- R. destruct (score_slices (v_rows v1) threads) as [sl| |]; cbn [bind]; [|reflexivity|reflexivity].
  assert (E : forall g st, incl g f -> eval_trees v1 threads g st = eval_trees v2 threads g st).
  { unfold eval_trees. induction g as [|t g IH]; intros st I; cbn [fold_res]; [reflexivity|].
    rewrite (same_tree (v_get v1) (v_get v2)).
    - destruct (add_tree_scores (v_get v2) threads t n0 st); cbn [bind]; [|reflexivity|reflexivity].
      apply IH. intros x X. apply I. right. exact X.
    - apply W, I. left. reflexivity.
    - intros x X. apply G. apply collect_features_in. exists t. split; [apply I; left; reflexivity|exact X]. }
  rewrite E by apply incl_refl. reflexivity.
Qed.
End Eval.

(** ** Clearing internal indices *)
Lemma cleared_goes_left {N : Num} n blocks (sp sp' : split N) names idx row left : fits_32_bits (concat blocks) ->
  let c := string_column_of blocks in
  sp_cat sp = Some (names, idx) -> sp_cat sp' = Some (names, []) ->
  Forall2 (fun k s => u32 k < str_max_int c /\ str_cat_string c (Z.to_nat (u32 k)) = Ret s)%Z idx names ->
  (row < List.length (concat blocks)) ->
  goes_left (mkCol n (BodyS c)) sp row left -> goes_left (mkCol n (BodyS c)) sp' row left.
Proof.
  intros F c S S' V R G. unfold c in *. clear c.
  assert (Mx : (str_max_int (string_column_of blocks) <= 4294967296)%Z).
  { unfold str_max_int, u32. pose proof (Z.mod_pos_bound (zlen (s_strings (string_column_of blocks))) 4294967296). lia. }
  inversion G as [| |nm s sp0 row0 nms name lf S0 R0 I0|nm s sp0 row0 nms i idx0 k lf S0 K I0|]; subst.
  - rewrite S in S0. injection S0 as -> ->. eapply GoName; [exact S'|exact R0|exact I0].
  - rewrite S in S0. injection S0 as -> ->.
    destruct (nth_error (concat blocks) row) as [name|] eqn:E; [|apply nth_error_None in E; lia].
    destruct (string_code blocks row name F E) as (k' & K' & X). assert (k' = k) by congruence. subst k'.
    eapply GoName; [exact S'|apply string_column_roundtrip; [exact F|exact E]|].
    rewrite I0. destruct (string_dictionary blocks F) as (D1 & _ & _ & D4 & _).
    destruct (D4 name k X) as [Rk Ck].
    rewrite in_map_iff. split.
    + intros (k0 & U & I). apply In_nth_error in I. destruct I as [j J].
      destruct (Forall2_nth_error_l _ _ _ V _ _ J) as (s' & J' & Rs & Cs).
      rewrite U in Cs.
      assert (s' = name) by congruence. subst s'. eapply nth_error_In. exact J'.
    + intros I. apply In_nth_error in I. destruct I as [j J].
      destruct (Forall2_nth_error _ _ _ V _ _ J) as (k0 & J' & Rs & Cs).
      exists k0. split; [|eapply nth_error_In; exact J']. assert (U0 : (0 <= u32 k0)%Z) by (unfold u32; apply Z.mod_pos_bound; lia).
      assert (Q : str_cat_index (string_column_of blocks) name = Some (Z.of_nat (Z.to_nat (u32 k0)))).
      { apply D1; [|exact Cs]. rewrite Z2Nat.id by lia. lia. }
      rewrite Z2Nat.id in Q by lia. congruence.
Qed.

(** ** Checkpoint lists *)
Lemma written_increasing points T : StronglySorted Z.lt points -> (forall p, In p points -> (1 <= p <= Z.of_nat T)%Z) ->
  forall p, written points T p <-> In p points.
Proof.
  intros S R p. split.
  - intros (_ & b & a & -> & _). apply in_or_app. right. left. reflexivity.
  - intros I. split; [apply R, I|]. apply in_split in I. destruct I as (b & a & ->). exists b, a. split; [reflexivity|].
    assert (B : forall q, In q b -> (q < p)%Z).
    { clear R. induction b as [|x b IH]; intros q I; [destruct I|]. cbn in S. inversion S as [|? ? S' F]; subst.
      rewrite Forall_forall in F. destruct I as [<-|I]; [|apply IH; assumption].
      apply F. apply in_or_app. right. left. reflexivity. }
    split; [exact B|]. intros ->. destruct b as [|q b]; [reflexivity|].
    pose proof (B q (or_introl eq_refl)). pose proof (R q (or_introl eq_refl)). lia.
Qed.

Lemma written_unsorted : exists p q T, (1 <= p <= Z.of_nat T)%Z /\ (1 <= q <= Z.of_nat T)%Z /\ ~ written [q; p] T p.
Proof.
  exists 2%Z, 3%Z, 3%nat. split; [lia|]. split; [lia|]. intros (_ & b & a & E & B & F).
  destruct b as [|x b]; [discriminate|]. cbn in E. injection E as <- _. pose proof (B 3%Z (or_introl eq_refl)). lia.
Qed.
