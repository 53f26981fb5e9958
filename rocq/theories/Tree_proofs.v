(** Tree_proofs.v - growth of a tree (for properties C33 to C35). *)
From Coq Require Import SpecFloat Reals.
From Verif Require Import Base Base_proofs F32 Column ColumnSpec DataStore Subsampling Subsampling_proofs Num Forest Par
  Par_proofs Config Score ScoreSpec Score_proofs Split SplitSpec Split_proofs Hist_proofs Tree TreeSpec Sum_proofs Feature_proofs Total_proofs.
Local Close Scope R_scope.

(** ** Trees, nodes and leaves *)
Section Shape.
Context {N : Num}.

Lemma leaf_node (t : tree N) p s sp : has_leaf t p s sp -> has_node t p s sp.
Proof. induction 1; constructor; assumption. Qed.
Lemma leaf_at (t : tree N) p s sp : has_leaf t p s sp -> node_at t p = TNode s sp TNone TNone.
Proof. induction 1; cbn; auto. Qed.
Lemma leaf_fun (t : tree N) p s sp s' sp' : has_leaf t p s sp -> has_leaf t p s' sp' -> s = s' /\ sp = sp'.
Proof. intros A B. apply leaf_at in A. apply leaf_at in B. rewrite A in B. injection B as -> ->. auto. Qed.
Lemma node_present (t : tree N) p s sp : has_node t p s sp -> t <> TNone.
Proof. intros H. inversion H; discriminate. Qed.

Section Expand.
Variables (sl sr : N) (spl spr : option (split N)).
Notation kl := (TNode sl spl TNone TNone).
Notation kr := (TNode sr spr TNone TNone).
Notation grown_at t p := (set_children t p kl kr).

Lemma set_expands (t : tree N) p s sp : has_leaf t p s sp -> expands t p (grown_at t p).
Proof. induction 1; cbn; constructor; assumption. Qed.

Lemma expand_nodes (t : tree N) p s sp : has_leaf t p s sp -> forall q s' sp', has_node (grown_at t p) q s' sp' <->
  has_node t q s' sp' \/ (q = p ++ [true] /\ s' = sl /\ sp' = spl) \/ (q = p ++ [false] /\ s' = sr /\ sp' = spr).
Proof.
  induction 1 as [s sp|s sp l r p s1 sp1 H IH|s sp l r p s1 sp1 H IH]; intros q s' sp'; cbn [set_children app].
  - split.
    + intros X. inversion X as [|? ? ? ? ? ? ? Y|? ? ? ? ? ? ? Y]; subst.
      * left. constructor.
      * inversion Y as [|? ? ? ? ? ? ? Z|? ? ? ? ? ? ? Z]; subst; [auto 6|inversion Z|inversion Z].
      * inversion Y as [|? ? ? ? ? ? ? Z|? ? ? ? ? ? ? Z]; subst; [auto 6|inversion Z|inversion Z].
    + intros [X|[(-> & -> & ->)|(-> & -> & ->)]].
      * inversion X as [|? ? ? ? ? ? ? Y|? ? ? ? ? ? ? Y]; subst; [constructor|inversion Y|inversion Y].
      * apply NodeLeft. constructor.
      * apply NodeRight. constructor.
  - split.
    + intros X. inversion X as [|? ? ? ? q' ? ? Y|? ? ? ? q' ? ? Y]; subst.
      * left. constructor.
      * apply IH in Y. destruct Y as [Y|[(-> & Y)|(-> & Y)]]; [left; constructor; exact Y|right; left; auto|right; right; auto].
      * left. apply NodeRight. exact Y.
    + intros [X|[(-> & E)|(-> & E)]].
      * inversion X as [|? ? ? ? ? ? ? Y|? ? ? ? ? ? ? Y]; subst; [constructor|apply NodeLeft, IH; auto|apply NodeRight; exact Y].
      * apply NodeLeft, IH. auto.
      * apply NodeLeft, IH. auto.
  - split.
    + intros X. inversion X as [|? ? ? ? q' ? ? Y|? ? ? ? q' ? ? Y]; subst.
      * left. constructor.
      * left. apply NodeLeft. exact Y.
      * apply IH in Y. destruct Y as [Y|[(-> & Y)|(-> & Y)]]; [left; apply NodeRight; exact Y|right; left; auto|right; right; auto].
    + intros [X|[(-> & E)|(-> & E)]].
      * inversion X as [|? ? ? ? ? ? ? Y|? ? ? ? ? ? ? Y]; subst; [constructor|apply NodeLeft; exact Y|apply NodeRight, IH; auto].
      * apply NodeRight, IH. auto.
      * apply NodeRight, IH. auto.
Qed.

Lemma set_present (t : tree N) p s sp : has_leaf t p s sp -> exists s' sp' l r, grown_at t p = TNode s' sp' l r /\ l <> TNone \/ grown_at t p = TNode s' sp' l r /\ r <> TNone.
Proof.
  induction 1 as [s sp|s sp l r p s1 sp1 H IH|s sp l r p s1 sp1 H IH]; cbn.
  - do 4 eexists. left. split; [reflexivity|discriminate].
  - do 4 eexists. left. split; [reflexivity|]. destruct IH as (? & ? & ? & ? & [[-> _]|[-> _]]); discriminate.
  - do 4 eexists. right. split; [reflexivity|]. destruct IH as (? & ? & ? & ? & [[-> _]|[-> _]]); discriminate.
Qed.

Lemma expand_leaves (t : tree N) p s sp : has_leaf t p s sp -> forall q s' sp', has_leaf (grown_at t p) q s' sp' <->
  (has_leaf t q s' sp' /\ q <> p) \/ (q = p ++ [true] /\ s' = sl /\ sp' = spl) \/ (q = p ++ [false] /\ s' = sr /\ sp' = spr).
Proof.
  induction 1 as [s sp|s sp l r p s1 sp1 H IH|s sp l r p s1 sp1 H IH]; intros q s' sp'; cbn [set_children app].
  - split.
    + intros X. inversion X as [|? ? ? ? ? ? ? Y|? ? ? ? ? ? ? Y]; subst.
      * inversion Y as [|? ? ? ? ? ? ? Z|? ? ? ? ? ? ? Z]; subst; [auto 6|inversion Z|inversion Z].
      * inversion Y as [|? ? ? ? ? ? ? Z|? ? ? ? ? ? ? Z]; subst; [auto 6|inversion Z|inversion Z].
    + intros [[X Ne]|[(-> & -> & ->)|(-> & -> & ->)]].
      * inversion X as [|? ? ? ? ? ? ? Y|? ? ? ? ? ? ? Y]; subst; [congruence|inversion Y|inversion Y].
      * apply LeafLeft. constructor.
      * apply LeafRight. constructor.
  - assert (Np : grown_at l p <> TNone) by (destruct (set_present _ _ _ _ H) as (? & ? & ? & ? & [[-> _]|[-> _]]); discriminate).
    assert (Nl : l <> TNone) by (intros ->; inversion H).
    split.
    + intros X. inversion X as [? ? E|? ? ? ? q' ? ? Y|? ? ? ? q' ? ? Y]; subst.
      * congruence.
      * apply IH in Y. destruct Y as [[Y Ne]|[(-> & Y)|(-> & Y)]]; [left; split; [constructor; exact Y|congruence]|right; left; auto|right; right; auto].
      * left. split; [apply LeafRight; exact Y|discriminate].
    + intros [[X Ne]|[(-> & E)|(-> & E)]].
      * inversion X as [|? ? ? ? ? ? ? Y|? ? ? ? ? ? ? Y]; subst; [congruence|apply LeafLeft, IH; left; split; [exact Y|congruence]|apply LeafRight; exact Y].
      * apply LeafLeft, IH. auto.
      * apply LeafLeft, IH. auto.
  - assert (Np : grown_at r p <> TNone) by (destruct (set_present _ _ _ _ H) as (? & ? & ? & ? & [[-> _]|[-> _]]); discriminate).
    assert (Nl : r <> TNone) by (intros ->; inversion H).
    split.
    + intros X. inversion X as [? ? E|? ? ? ? q' ? ? Y|? ? ? ? q' ? ? Y]; subst.
      * congruence.
      * left. split; [apply LeafLeft; exact Y|discriminate].
      * apply IH in Y. destruct Y as [[Y Ne]|[(-> & Y)|(-> & Y)]]; [left; split; [apply LeafRight; exact Y|congruence]|right; left; auto|right; right; auto].
    + intros [[X Ne]|[(-> & E)|(-> & E)]].
      * inversion X as [|? ? ? ? ? ? ? Y|? ? ? ? ? ? ? Y]; subst; [congruence|apply LeafLeft; exact Y|apply LeafRight, IH; left; split; [exact Y|congruence]].
      * apply LeafRight, IH. auto.
      * apply LeafRight, IH. auto.
Qed.

(** Rows pass the old nodes as before. *)
Lemma expand_reaches store (t : tree N) p s sp : has_leaf t p s sp -> forall q s' sp' row, has_node t q s' sp' ->
  (reaches store (grown_at t p) row q <-> reaches store t row q).
Proof.
  induction 1 as [s sp|s sp l r p s1 sp1 H IH|s sp l r p s1 sp1 H IH]; intros q s' sp' row Nd; cbn [set_children].
  - inversion Nd as [|? ? ? ? ? ? ? Y|? ? ? ? ? ? ? Y]; subst; [split; constructor|inversion Y|inversion Y].
  - assert (Nl : has_left (TNode s sp l r) = true) by (destruct l; [inversion H|reflexivity]).
    assert (Np : has_left (TNode s sp (grown_at l p) r) = true).
    { destruct (set_present _ _ _ _ H) as (? & ? & ? & ? & [[E _]|[E _]]); unfold has_left; cbn; rewrite E; reflexivity. }
    inversion Nd as [|? ? ? ? q' ? ? Y|? ? ? ? q' ? ? Y]; subst; [split; constructor| |].
    + split; intros R; inversion R as [|? ? c lf p' Hl Es G R']; subst; (eapply ReachNext; [eassumption|exact Es|exact G|]); eapply IH; eassumption.
    + split; intros R; inversion R as [|? ? c lf p' Hl Es G R']; subst; (eapply ReachNext; [eassumption|exact Es|exact G|]); exact R'.
  - inversion Nd as [|? ? ? ? q' ? ? Y|? ? ? ? q' ? ? Y]; subst; [split; constructor| |].
    + split; intros R; inversion R as [|? ? c lf p' Hl Es G R']; subst; (eapply ReachNext; [exact Hl|exact Es|exact G|]); exact R'.
    + split; intros R; inversion R as [|? ? c lf p' Hl Es G R']; subst; (eapply ReachNext; [exact Hl|exact Es|exact G|]); eapply IH; eassumption.
Qed.

Definition full_at (features : list column) (t : tree N) : Prop := full features t.

Lemma full_left features (s : N) sp l r : full features (TNode s sp l r) -> l <> TNone -> has_left (TNode s sp l r) = true.
Proof. intros _ H. destruct l; [congruence|reflexivity]. Qed.

Lemma expand_new store features (t : tree N) p s sp : full features t -> has_leaf t p s sp -> forall row d,
  reaches store (grown_at t p) row (p ++ [d]) <->
  reaches store t row p /\ exists c, store (sp_feature (the_split sp)) = Some c /\ goes_left c (the_split sp) row d.
Proof.
  intros F H. revert F. induction H as [s sp|s sp l r p s1 sp1 H IH|s sp l r p s1 sp1 H IH]; intros F row d; cbn [set_children app].
  - split.
    + intros R. inversion R as [|? ? c lf p' Hl Es G R']; subst. split; [constructor|eauto].
    + intros [_ (c & Es & G)]. eapply ReachNext; [reflexivity|exact Es|exact G|constructor].
  - assert (Nl : has_left (TNode s sp l r) = true) by (destruct l; [inversion H|reflexivity]).
    assert (Np : has_left (TNode s sp (grown_at l p) r) = true).
    { destruct (set_present _ _ _ _ H) as (? & ? & ? & ? & [[E _]|[E _]]); unfold has_left; cbn; rewrite E; reflexivity. }
    assert (Fl : full features l) by (inversion F; subst; [inversion H|assumption]).
    split.
    + intros R. inversion R as [|? ? c lf p' Hl Es G R']; subst. cbn [t_left] in R'. apply (IH Fl) in R'. destruct R' as [R' X].
      split; [|exact X]. eapply ReachNext; [exact Nl|exact Es|exact G|exact R'].
    + intros [R X]. inversion R as [|? ? c lf p' Hl Es G R']; subst. eapply ReachNext; [exact Np|exact Es|exact G|].
      cbn. apply (IH Fl). auto.
  - assert (Fr : full features r) by (inversion F; subst; [inversion H|assumption]).
    assert (Nl : has_left (TNode s sp l r) = true).
    { inversion F; subst; [inversion H|]. destruct l; [|reflexivity]. match goal with X : full _ TNone |- _ => inversion X end. }
    split.
    + intros R. inversion R as [|? ? c lf p' Hl Es G R']; subst. cbn [t_right] in R'. apply (IH Fr) in R'. destruct R' as [R' X].
      split; [|exact X]. eapply ReachNext; [exact Nl|exact Es|exact G|exact R'].
    + intros [R X]. inversion R as [|? ? c lf p' Hl Es G R']; subst. eapply ReachNext; [exact Nl|exact Es|exact G|].
      cbn. apply (IH Fr). auto.
Qed.

Lemma expand_full features (t : tree N) p s sp col : full features t -> has_leaf t p s (Some sp) ->
  In col features -> sp_feature sp = c_name col -> fits_kind col sp -> nltb (nZ 0) (sp_gain sp) = true ->
  full features (grown_at t p).
Proof.
  intros F H I Nm K G. remember (Some sp) as osp eqn:Eo. revert F. induction H as [s' sp'|s' sp' l r p s1 sp1 H IH|s' sp' l r p s1 sp1 H IH]; intros F; cbn [set_children].
  - subst sp'. eapply FullNode; eauto; constructor.
  - inversion F; subst; [inversion H|]. eapply FullNode; eauto.
  - inversion F; subst; [inversion H|]. eapply FullNode; eauto.
Qed.

Lemma num_leaves_node (s : N) sp l r : l <> TNone -> num_leaves (TNode s sp l r) = num_leaves l + num_leaves r.
Proof. destruct l; [congruence|]. intros _. cbn [num_leaves]. reflexivity. Qed.
Lemma num_internal_node (s : N) sp l r : l <> TNone -> num_internal (TNode s sp l r) = 1 + num_internal l + num_internal r.
Proof. destruct l; [congruence|]. intros _. cbn [num_internal]. reflexivity. Qed.
Lemma full_present features (t : tree N) : full features t -> t <> TNone.
Proof. intros F. inversion F; discriminate. Qed.

Lemma full_count features (t : tree N) : full features t -> num_leaves t = S (num_internal t).
Proof.
  induction 1 as [s sp|s sp l r col I Nm K G Fl IHl Fr IHr]; [reflexivity|].
  rewrite num_leaves_node, num_internal_node by (eapply full_present; eassumption). lia.
Qed.

Lemma expand_count features (t : tree N) p s sp : full features t -> has_leaf t p s sp -> num_leaves (grown_at t p) = S (num_leaves t).
Proof.
  intros F H. revert F. induction H as [s sp|s sp l r p s1 sp1 H IH|s sp l r p s1 sp1 H IH]; intros F; cbn [set_children].
  - reflexivity.
  - inversion F; subst; [inversion H|].
    rewrite num_leaves_node by (destruct (set_present _ _ _ _ H) as (? & ? & ? & ? & [[-> _]|[-> _]]); discriminate).
    rewrite num_leaves_node by (eapply full_present; eassumption). rewrite IH by assumption. reflexivity.
  - inversion F; subst; [inversion H|]. rewrite !num_leaves_node by (eapply full_present; eassumption). rewrite IH by assumption. lia.
Qed.
End Expand.

(** Every row ends in exactly one leaf. *)
Lemma reach_leaf store n features (t : tree N) row : (forall col, In col features -> store (c_name col) = Some col /\ has_rows col n) ->
  full features t -> row < n -> exists p s sp, (has_leaf t p s sp /\ reaches store t row p) /\
  forall p' s' sp', has_leaf t p' s' sp' -> reaches store t row p' -> p' = p.
Proof.
  intros Hf F L. induction F as [s sp|s sp l r col I Nm K G Fl IHl Fr IHr].
  - exists [], s, sp. split; [split; constructor|]. intros p' s' sp' Lf _. inversion Lf as [|? ? ? ? ? ? ? Y|? ? ? ? ? ? ? Y]; subst; [reflexivity|inversion Y|inversion Y].
  - destruct (Hf col I) as [St Hr]. destruct (goes_left_total col sp n row Hr K L) as [d D].
    assert (Hl : has_left (TNode s (Some sp) l r) = true) by (pose proof (full_present _ _ Fl); destruct l; [congruence|reflexivity]).
    assert (Det : forall d', goes_left col sp row d' -> d' = d) by (intros d' D'; eapply goes_left_fun; eassumption).
    assert (U : forall p' s' sp', has_leaf (TNode s (Some sp) l r) p' s' sp' -> reaches store (TNode s (Some sp) l r) row p' ->
              exists q, p' = d :: q /\ has_leaf (if d then l else r) q s' sp' /\ reaches store (if d then l else r) row q).
    { intros p' s' sp' Lf R. inversion R as [|? ? c0 lf q Hl0 Es G0 R']; subst.
      - exfalso. inversion Lf; subst. discriminate.
      - cbn [t_split the_split] in Es, G0. rewrite Nm, St in Es. injection Es as <-. rewrite (Det lf G0) in *. exists q. split; [reflexivity|].
        destruct d; inversion Lf; subst; auto. }
    destruct d; [destruct IHl as (p & s' & sp' & [Lf R] & Un)|destruct IHr as (p & s' & sp' & [Lf R] & Un)].
    + exists (true :: p), s', sp'. split; [split; [constructor; exact Lf|eapply ReachNext; [exact Hl|cbn; rewrite Nm; exact St|exact D|exact R]]|].
      intros p' s2 sp2 Lf2 R2. destruct (U _ _ _ Lf2 R2) as (q & -> & Lq & Rq). f_equal. eapply Un; eassumption.
    + exists (false :: p), s', sp'. split; [split; [apply LeafRight; exact Lf|eapply ReachNext; [exact Hl|cbn; rewrite Nm; exact St|exact D|exact R]]|].
      intros p' s2 sp2 Lf2 R2. destruct (U _ _ _ Lf2 R2) as (q & -> & Lq & Rq). f_equal. eapply Un; eassumption.
Qed.
End Shape.

(** ** Slices *)
Lemma nth_firstn {A} (l : list A) : forall i j, j < i -> nth_error (firstn i l) j = nth_error l j.
Proof. induction l as [|a l IH]; intros [|i] [|j] L; cbn; try lia; auto. apply IH. lia. Qed.
Lemma nth_skipn {A} (l : list A) : forall i j, nth_error (skipn i l) j = nth_error l (i + j).
Proof. induction l as [|a l IH]; intros [|i] j; cbn; auto. destruct j; reflexivity. Qed.
Lemma slice_at {A} (l : list A) r i : nth_error (slice l r) i = if i <? snd r - fst r then nth_error l (fst r + i) else None.
Proof.
  unfold slice. destruct (Nat.ltb_spec i (snd r - fst r)) as [L|L].
  - rewrite nth_firstn by exact L. apply nth_skipn.
  - apply nth_error_None. rewrite firstn_length. lia.
Qed.
Lemma slice_length {A} (l : list A) a b : b <= List.length l -> List.length (slice l (a, b)) = b - a.
Proof. intros L. unfold slice. cbn. rewrite firstn_length, skipn_length. lia. Qed.
Lemma slice_all {A} (l : list A) : slice l (0, List.length l) = l.
Proof. unfold slice. cbn. rewrite Nat.sub_0_r. apply firstn_all. Qed.
Lemma slice_cut {A} (l : list A) a b : a <= b -> l = firstn a l ++ slice l (a, b) ++ skipn b l.
Proof.
  intros L. unfold slice. cbn. replace b with (a + (b - a)) at 2 by lia. rewrite skipn_add, firstn_skipn, firstn_skipn. reflexivity.
Qed.
Lemma slice_same {A} (l l' : list A) a b : (forall i, a <= i < b -> nth_error l' i = nth_error l i) -> slice l' (a, b) = slice l (a, b).
Proof.
  intros H. apply list_nth_ext. intros j. rewrite !slice_at. cbn [fst snd]. destruct (Nat.ltb_spec j (b - a)); [|reflexivity]. apply H. lia.
Qed.
Lemma slice_part {A} (l : list A) a b k : k <= b - a -> slice l (a, a + k) = firstn k (slice l (a, b)).
Proof.
  intros L. apply list_nth_ext. intros j. rewrite slice_at. cbn [fst snd]. replace (a + k - a) with k by lia. destruct (Nat.ltb_spec j k).
  - rewrite nth_firstn by assumption. rewrite slice_at. cbn [fst snd]. destruct (Nat.ltb_spec j (b - a)); [reflexivity|lia].
  - symmetry. apply nth_error_None. rewrite firstn_length. lia.
Qed.
Lemma slice_rest {A} (l : list A) a b k : k <= b - a -> slice l (a + k, b) = skipn k (slice l (a, b)).
Proof.
  intros L. apply list_nth_ext. intros j. rewrite nth_skipn, !slice_at. cbn [fst snd].
  destruct (Nat.ltb_spec j (b - (a + k))), (Nat.ltb_spec (k + j) (b - a)); try lia; [|reflexivity]. f_equal. lia.
Qed.
Lemma NoDup_app_l {A} (l1 l2 : list A) : NoDup (l1 ++ l2) -> NoDup l1.
Proof.
  induction l1 as [|a l IH]; cbn; [constructor|]. intros H. inversion_clear H as [|? ? Ni D]. constructor; [|auto].
  intros I. apply Ni, in_app_iff. auto.
Qed.
Lemma NoDup_app_r {A} (l1 l2 : list A) : NoDup (l1 ++ l2) -> NoDup l2.
Proof. induction l1 as [|a l IH]; cbn; [auto|]. intros H. inversion_clear H. auto. Qed.
Lemma NoDup_app_intro {A} (l1 l2 : list A) : NoDup l1 -> NoDup l2 -> (forall x, In x l1 -> In x l2 -> False) -> NoDup (l1 ++ l2).
Proof.
  induction l1 as [|a l IH]; cbn; [auto|]. intros D1 D2 X. inversion_clear D1 as [|? ? Ni D]. constructor.
  - rewrite in_app_iff. intros [H|H]; [auto|]. apply (X a); auto.
  - apply IH; auto. intros x H. apply X. auto.
Qed.
Lemma NoDup_slice {A} (l : list A) a b : a <= b -> NoDup l -> NoDup (slice l (a, b)).
Proof.
  intros L D. rewrite (slice_cut l a b L) in D. apply NoDup_app_r in D. apply NoDup_app_l in D. exact D.
Qed.

(** The sample vector after Partition. *)
Lemma samples_after {N : Num} (m' : mem sloc (@sval N)) samples st len new : st + len <= List.length samples -> List.length new = len ->
  seg m' st new -> (forall x, ~ in_seg st len x -> m' x = score_mem samples [] x) ->
  read_samples m' 0 (List.length samples) = firstn st samples ++ new ++ skipn (st + len) samples.
Proof.
  intros L Ln S Fr. set (s' := firstn st samples ++ new ++ skipn (st + len) samples).
  assert (Le : List.length samples = List.length s').
  { unfold s'. rewrite !app_length, firstn_length, skipn_length. lia. }
  rewrite Le. apply read_samples_ok. intros j x E. cbn. unfold s' in E.
  assert (Lf : List.length (firstn st samples) = st) by (rewrite firstn_length; lia).
  destruct (Nat.lt_ge_cases j st) as [A|A].
  - rewrite nth_error_app1 in E by lia. rewrite nth_firstn in E by exact A. rewrite Fr.
    + cbn. rewrite E. reflexivity.
    + intros (i & Ei & _). injection Ei. lia.
  - rewrite nth_error_app2 in E by lia. rewrite Lf in E. destruct (Nat.lt_ge_cases (j - st) len) as [B|B].
    + rewrite nth_error_app1 in E by lia. apply S in E. replace (st + (j - st)) with j in E by lia. exact E.
    + rewrite nth_error_app2 in E by lia. rewrite nth_skipn in E. rewrite Fr.
      * cbn. replace (st + len + (j - st - List.length new)) with j in E by lia. rewrite E. reflexivity.
      * intros (i & Ei & Li). injection Ei. lia.
Qed.

(** ** Growth *)
Lemma remove_split {A} (q : list A) i x : nth_error q i = Some x -> exists l1 l2, q = l1 ++ x :: l2 /\ remove_nth i q = l1 ++ l2.
Proof.
  intros E. apply nth_error_split in E. destruct E as (l1 & l2 & -> & <-). exists l1, l2. split; [reflexivity|]. unfold remove_nth.
  rewrite firstn_app, firstn_all, Nat.sub_diag. cbn [firstn]. rewrite app_nil_r. f_equal.
  rewrite skipn_app, skipn_all2 by lia. replace (S (List.length l1) - List.length l1) with 1 by lia. reflexivity.
Qed.

Section Grow.
Context {N : Num}.
Variable O : ordered N.
Variables (top : nat -> list N -> nat) (draw : nat -> spec_float) (threads : nat)
  (srt : (nat -> nat -> bool) -> list nat -> list nat) (w : float_vector) (gd : list (grad N)) (features : list column)
  (c : config N) (store : str -> option column) (n : nat) (rg : nat -> grad N) (sampled : list nat).
Hypothesis Top : tops top.
Hypothesis Thr : 1 <= threads.
Hypothesis Srt : sorts srt.
Hypothesis Cols : forall col, In col features -> store (c_name col) = Some col /\ has_rows col n.
Hypothesis Wt : forall rows, (forall r, In r rows -> r < n) -> weighted w gd rg rows.
Hypothesis Smp : NoDup sampled /\ forall r, In r sampled -> r < n.

Notation lam := (cf_l2_lambda c).
Notation limit := (as_size (cf_num_leaves c)).
Notation best rows total pos := (find_best_feature draw pos srt features w gd rows total c).

(** What is known about a node. *)
Definition rows_of (t : tree N) (p : list bool) (rows : list nat) : Prop :=
  NoDup rows /\ forall r, In r rows <-> In r sampled /\ reaches store t r p.
Definition node_ok (t : tree N) (p : list bool) (s : N) (sp : option (split N)) : Prop :=
  exists rows total pos pos' b f, rows_of t p rows /\ weighted_sum threads w gd rows = Ret total /\
    s = nstore (gscore lam total) /\ best rows total pos = Ret (b, f, pos') /\
    sp = match f with None => None | Some _ => Some b end.

Record inv (t : tree N) (q : list node_data) (samples : list nat) : Prop := mkInv {
  i_perm : Permutation samples sampled;
  i_full : full features t;
  i_grown : grown t;
  i_len : List.length q = num_leaves t;
  i_paths : NoDup (map nd_path q);
  i_leaf : forall p, In p (map nd_path q) <-> exists s sp, has_leaf t p s sp;
  i_node : forall p s sp, has_node t p s sp -> node_ok t p s sp;
  i_entry : forall nd, In nd q -> nd_start nd + nd_len nd <= List.length samples /\
      rows_of t (nd_path nd) (slice samples (nd_start nd, nd_start nd + nd_len nd)) /\
      forall s sp, has_leaf t (nd_path nd) s sp ->
        match nd_feature nd with
        | None => sp = None
        | Some col => In col features /\ exists b, sp = Some b /\ sp_feature b = c_name col /\ fits_kind col b /\ nltb n0 (sp_gain b) = true
        end;
  i_apart : forall a b, In a q -> In b q -> nd_path a <> nd_path b ->
      nd_start a + nd_len a <= nd_start b \/ nd_start b + nd_len b <= nd_start a
}.

(** What a search tells. *)
Lemma search_results rows total pos b f pos' : best rows total pos = Ret (b, f, pos') ->
  exists results, Forall2 (fun k r => exists col, nth_error features k = Some col /\ find_best_split srt col w gd rows c total = Ret r)
            (fst (uniform_subsample draw pos (List.length features) (to_f64 (cf_feature_rate c)))) results.
Proof.
  unfold find_best_feature. destruct (uniform_subsample draw pos (List.length features) (to_f64 (cf_feature_rate c))) as [smp ps]. cbn [fst].
  destruct (run_tasks Nat.eq_dec (search_tasks srt features w gd rows c total smp) (vec_mem (repeat default_split (List.length smp)))) as [m| |] eqn:T; [|discriminate..].
  intros _. clear - T. unfold search_tasks in T. revert T.
  generalize (vec_mem (repeat (@default_split N) (List.length smp))). generalize 0.
  revert m. induction smp as [|k smp IH]; intros m i m0 T; [exists []; constructor|].
  cbn [List.length seq combine map run_tasks fst snd] in T.
  destruct (run Nat.eq_dec (search_task srt features w gd rows c total i k) m0) as [[[] m1]| |] eqn:R1; [|discriminate..]. cbn [bind] in T.
  destruct (IH _ _ _ T) as [rs F]. unfold search_task, vget in R1.
  destruct (nth_error features k) as [col|] eqn:Ec; cbn [pres pbind] in R1; [|discriminate].
  destruct (find_best_split srt col w gd rows c total) as [r| |] eqn:Ef; cbn [pres pbind] in R1; [|discriminate..].
  exists (r :: rs). constructor; [eauto|exact F].
Qed.

Lemma search_result rows total pos b f pos' : best rows total pos = Ret (b, f, pos') ->
  match f with
  | None => nltb n0 (sp_gain b) = false
  | Some col => In col features /\ sp_feature b = c_name col /\ fits_kind col b /\ nltb n0 (sp_gain b) = true
  end.
Proof.
  intros E. destruct (search_results _ _ _ _ _ _ E) as [results R].
  destruct (find_spec O draw pos srt features w gd rows total c n Srt (fun col I => proj2 (Cols col I)) results R) as (sp & f0 & E2 & S0).
  rewrite E in E2. injection E2 as -> -> ->. destruct f0 as [col|].
  - destruct S0 as (i & k & sp0 & (_ & G & _) & _ & Ec & _ & (Nm & _ & Gn & _) & K). split; [eapply nth_error_In; exact Ec|].
    split; [exact Nm|]. split; [exact K|]. rewrite Gn. exact G.
  - destruct S0 as [-> _]. apply (ord_irrefl O).
Qed.

(** The names of the categories are those of the indices. *)
Lemma search_names rows total pos b col pos' names idx : best rows total pos = Ret (b, Some col, pos') -> sp_cat b = Some (names, idx) ->
  In col features /\ exists s, c_body col = BodyS s /\
    Forall2 (fun k name => (u32 k < str_max_int s)%Z /\ str_cat_string s (Z.to_nat (u32 k)) = Ret name) idx names.
Proof.
  intros E C. destruct (search_results _ _ _ _ _ _ E) as [results R].
  destruct (find_spec O draw pos srt features w gd rows total c n Srt (fun col I => proj2 (Cols col I)) results R) as (sp & f0 & E2 & S0).
  rewrite E in E2. injection E2 as -> <- ->.
  destruct S0 as (i & k & sp0 & _ & _ & Ec & _ & (_ & _ & _ & Cn) & _). split; [eapply nth_error_In; exact Ec|].
  destruct (sp_cat sp0) as [[n0 idx0]|]; [|congruence].
  destruct Cn as (s & nm & B & C' & F). rewrite C in C'. injection C' as -> ->. eauto.
Qed.

Lemma sum_ok rows : (forall r, In r rows -> r < n) -> exists total, weighted_sum threads w gd rows = Ret total.
Proof. intros H. destruct (sum_schedule w gd rg threads rows Thr (Wt rows H)) as (sl & _ & _ & _ & E). eauto. Qed.

Lemma rows_lt t p rows : rows_of t p rows -> forall r, In r rows -> r < n.
Proof. intros [_ H] r I. apply Smp. apply H in I. tauto. Qed.

Lemma rows_same (t t' : tree N) p rows : (forall r, reaches store t' r p <-> reaches store t r p) -> rows_of t p rows -> rows_of t' p rows.
Proof. intros H [D I]. split; [exact D|]. intros r. rewrite I, H. reflexivity. Qed.

Lemma new_split rows total pos b f pos' : best rows total pos = Ret (b, f, pos') ->
  (if nltb n0 (sp_gain b) then Some b else None) = match f with None => None | Some _ => Some b end.
Proof. intros E. apply search_result in E. destruct f; [destruct E as (_ & _ & _ & ->)|rewrite E]; reflexivity. Qed.

Lemma path_app_ne (p : list bool) d : p ++ [d] <> p.
Proof. intros E. apply (f_equal (@List.length bool)) in E. rewrite app_length in E. cbn in E. lia. Qed.
Lemma leaf_no_child (t : tree N) p s sp d s' sp' : has_leaf t p s sp -> ~ has_leaf t (p ++ [d]) s' sp'.
Proof.
  induction 1 as [|? ? ? ? ? ? ? H IH|? ? ? ? ? ? ? H IH]; cbn; intros X.
  - inversion X as [|? ? ? ? ? ? ? Y|? ? ? ? ? ? ? Y]; subst; inversion Y.
  - inversion X; subst. auto.
  - inversion X; subst. auto.
Qed.

Lemma step_inv t q samples i nd col : inv t q samples -> nth_error q i = Some nd -> nd_feature nd = Some col ->
  (forall nd', In nd' q -> nltb (node_gain t nd) (node_gain t nd') = false) ->
  exists k m, run sloc_dec (partition (N := N) col (the_split (t_split (node_at t (nd_path nd)))) (nd_start nd) (nd_len nd))
      (score_mem samples []) = Ret (k, m) /\
    let samples' := read_samples m 0 (List.length samples) in
    let mid := nd_start nd + k in
    let left := slice samples' (nd_start nd, mid) in
    let right := slice samples' (mid, nd_start nd + nd_len nd) in
    (forall r, In r left -> r < n) /\ (forall r, In r right -> r < n) /\
    forall lt rt p1 p2 p3 lsp lf rsp rf,
      weighted_sum threads w gd left = Ret lt -> weighted_sum threads w gd right = Ret rt ->
      best left lt p1 = Ret (lsp, lf, p2) -> best right rt p2 = Ret (rsp, rf, p3) ->
      inv (set_children t (nd_path nd) (new_node lam lt lsp) (new_node lam rt rsp))
        (remove_nth i q ++ [mkNode (nd_path nd ++ [true]) lf (nd_start nd) k;
                            mkNode (nd_path nd ++ [false]) rf mid (nd_len nd - k)]) samples'.
Proof.
  intros I Ei Ef Mx. pose proof (nth_error_In _ _ Ei) as Iq. destruct (i_entry _ _ _ I nd Iq) as (Bd & [Dl Il] & Fe).
  set (p := nd_path nd) in *. set (st := nd_start nd) in *. set (len := nd_len nd) in *.
  destruct (proj1 (i_leaf _ _ _ I p) (in_map _ _ _ Iq)) as (s & sp & Lf).
  specialize (Fe s sp Lf). rewrite Ef in Fe. destruct Fe as (Ic & b & -> & Nm & K & G).
  destruct (Cols col Ic) as [St Hr].
  assert (Na : the_split (t_split (node_at t p)) = b) by (rewrite (leaf_at _ _ _ _ Lf); reflexivity). rewrite Na.
  set (l := slice samples (st, st + len)) in *.
  assert (Ll : List.length l = len) by (unfold l; rewrite slice_length; lia).
  assert (Lt : forall r, In r l -> r < n) by (intros r H; apply Il in H; apply Smp; tauto).
  destruct (partition_spec col b n st l (score_mem samples []) Hr K Lt) as (bf & right & m & Bf & Run & Sg & Pr & Fr).
  { intros j x E. unfold l in E. rewrite slice_at in E. cbn [fst snd] in E. destruct (j <? st + len - st); [|discriminate].
    cbn. rewrite E. reflexivity. }
  rewrite Ll in Run, Fr. exists (List.length (filter bf l)), m. split; [exact Run|].
  set (k := List.length (filter bf l)) in *.
  assert (Pn : Permutation (filter bf l ++ right) l) by (rewrite Pr; apply filter_split_perm).
  assert (Ln : List.length (filter bf l ++ right) = len) by (rewrite (Permutation_length Pn); exact Ll).
  assert (Kl : k <= len) by (rewrite app_length in Ln; unfold k; lia).
  pose proof (samples_after m samples st len _ Bd Ln Sg Fr) as Sa. rewrite Sa. cbv zeta.
  set (samples' := firstn st samples ++ (filter bf l ++ right) ++ skipn (st + len) samples).
  assert (Lf0 : List.length (firstn st samples) = st) by (rewrite firstn_length; lia).
  assert (Ls : List.length samples' = List.length samples).
  { unfold samples'. rewrite !app_length, Lf0, skipn_length. rewrite app_length in Ln. lia. }
  assert (Sl : slice samples' (st, st + len) = filter bf l ++ right).
  { unfold samples', slice. cbn [fst snd]. replace (st + len - st) with len by lia.
    rewrite <- Lf0 at 1. rewrite skipn_app, skipn_all, Nat.sub_diag. cbn [skipn app].
    rewrite <- Ln at 1. rewrite firstn_app, firstn_all, Nat.sub_diag. cbn [firstn]. apply app_nil_r. }
  assert (SL : slice samples' (st, st + k) = filter bf l).
  { rewrite (slice_part samples' st (st + len) k) by lia. rewrite Sl. unfold k. rewrite firstn_app, firstn_all, Nat.sub_diag. cbn [firstn]. apply app_nil_r. }
  assert (SR : slice samples' (st + k, st + len) = right).
  { rewrite slice_rest by lia. rewrite Sl. unfold k. rewrite skipn_app, skipn_all, Nat.sub_diag. reflexivity. }
  rewrite SL, SR.
  assert (Ir : forall r, In r right <-> In r l /\ bf r = false).
  { intros r. rewrite Pr, filter_In, negb_true_iff. reflexivity. }
  split; [intros r H; apply filter_In in H; apply Lt; tauto|]. split; [intros r H; apply Ir in H; apply Lt; tauto|].
  intros lt rt p1 p2 p3 lsp lf rsp rf El Er Bl Br.
  unfold new_node. rewrite (new_split _ _ _ _ _ _ Bl), (new_split _ _ _ _ _ _ Br).
  set (sl := nstore (gscore lam lt)). set (sr := nstore (gscore lam rt)).
  set (spl := match lf with Some _ => Some lsp | None => None end). set (spr := match rf with Some _ => Some rsp | None => None end).
  set (t' := set_children t p (TNode sl spl TNone TNone) (TNode sr spr TNone TNone)).
  pose proof (expand_nodes sl sr spl spr t p s (Some b) Lf) as EN. fold t' in EN.
  pose proof (expand_leaves sl sr spl spr t p s (Some b) Lf) as EL. fold t' in EL.
  pose proof (expand_reaches sl sr spl spr store t p s (Some b) Lf) as ER. fold t' in ER.
  pose proof (expand_new sl sr spl spr store features t p s (Some b) (i_full _ _ _ I) Lf) as EW. fold t' in EW.
  assert (Go : forall r d, In r l -> (goes_left col b r d <-> bf r = d)).
  { intros r d H. split; [|intros <-; apply Bf, H]. intros X. eapply goes_left_fun; [exact Hr|apply Bf, H|exact X]. }
  assert (New : forall d r, reaches store t' r (p ++ [d]) <-> reaches store t r p /\ goes_left col b r d).
  { intros d r. rewrite EW. cbn [the_split]. rewrite Nm, St. split; intros [A B]; (split; [exact A|]); [destruct B as (c0 & E0 & B); injection E0 as <-; exact B|eauto]. }
  assert (RL : rows_of t' (p ++ [true]) (filter bf l)).
  { split; [apply NoDup_filter, Dl|]. intros r. rewrite filter_In, New. split.
    - intros [A B]. pose proof A as A'. apply Il in A. split; [tauto|]. split; [tauto|]. apply Go; assumption.
    - intros (A & B & C). assert (H : In r l) by (apply Il; auto). split; [exact H|]. apply Go; assumption. }
  assert (RR : rows_of t' (p ++ [false]) right).
  { split.
    - eapply Permutation_NoDup; [apply Permutation_sym, Pr|]. apply NoDup_filter, Dl.
    - intros r. rewrite Ir, New. split.
      + intros [A B]. pose proof A as A'. apply Il in A. split; [tauto|]. split; [tauto|]. apply Go; assumption.
      + intros (A & B & C). assert (H : In r l) by (apply Il; auto). split; [exact H|]. apply Go; assumption. }
  destruct (remove_split q i nd Ei) as (q1 & q2 & Eq & Erm). rewrite Erm.
  pose proof (i_paths _ _ _ I) as Dp. rewrite Eq, map_app in Dp. cbn [map] in Dp.
  assert (Inq : forall x, In x (q1 ++ q2) <-> In x q /\ nd_path x <> p).
  { intros x. rewrite Eq, !in_app_iff. cbn [In]. pose proof (NoDup_remove_2 _ _ _ Dp) as Nin. rewrite in_app_iff in Nin.
    split.
    - intros H. split; [tauto|]. intros X. apply Nin. destruct H as [H|H]; [left|right]; apply in_map_iff; exists x; auto.
    - intros [[H|[H|H]] X]; auto. subst x. unfold p in X. congruence. }
  assert (Out : forall x, In x (q1 ++ q2) -> slice samples' (nd_start x, nd_start x + nd_len x) = slice samples (nd_start x, nd_start x + nd_len x)).
  { intros x H. apply Inq in H. destruct H as [H X]. destruct (i_apart _ _ _ I x nd H Iq X) as [D|D]; fold st len in D;
      apply slice_same; intros j Lj; unfold samples'.
    - rewrite nth_error_app1 by lia. apply nth_firstn. lia.
    - rewrite nth_error_app2 by lia. rewrite nth_error_app2 by lia. rewrite nth_skipn. f_equal. lia. }
  assert (Op : forall x, In x (q1 ++ q2) -> exists s' sp', has_leaf t (nd_path x) s' sp').
  { intros x H. apply Inq in H. apply (i_leaf _ _ _ I). apply in_map. tauto. }
  constructor.
  - transitivity samples; [|exact (i_perm _ _ _ I)]. rewrite (slice_cut samples st (st + len)) by lia. fold l. unfold samples'.
    apply Permutation_app_head, Permutation_app_tail. exact Pn.
  - eapply expand_full; [exact (i_full _ _ _ I)|exact Lf|exact Ic|exact Nm|exact K|exact G].
  - eapply GrownStep; [exact (i_grown _ _ _ I)|]. eapply BestFirst; [exact Lf|exact G| |].
    + intros p' s' sp' Lf'. assert (H : In p' (map nd_path q)) by (apply (i_leaf _ _ _ I); eauto).
      apply in_map_iff in H. destruct H as (nd' & <- & I'). specialize (Mx nd' I'). unfold node_gain in Mx. fold p in Mx.
      rewrite Na, (leaf_at _ _ _ _ Lf') in Mx. exact Mx.
    + eapply set_expands. exact Lf.
  - unfold t'. erewrite expand_count by (eauto using i_full). rewrite <- (i_len _ _ _ I), Eq. rewrite !app_length. cbn. lia.
  - rewrite map_app. cbn [map nd_path].
    apply NoDup_app_intro.
    + rewrite map_app. eapply NoDup_remove_1. exact Dp.
    + constructor; [|constructor; [intros []|constructor]]. intros [X|[]]. apply app_inj_tail in X. destruct X; discriminate.
    + intros x H1 H2. apply in_map_iff in H1. destruct H1 as (y & <- & H1). destruct (Op y H1) as (s' & sp' & Ly).
      destruct H2 as [E|[E|[]]]; rewrite <- E in Ly; exact (leaf_no_child _ _ _ _ _ _ _ Lf Ly).
  - intros x. rewrite map_app, in_app_iff. cbn [map nd_path In]. split.
    + intros [H|[<-|[<-|[]]]].
      * apply in_map_iff in H. destruct H as (y & <- & H). destruct (Op y H) as (s' & sp' & Ly). exists s', sp'. apply EL. left. split; [exact Ly|]. apply Inq in H. tauto.
      * exists sl, spl. apply EL. auto.
      * exists sr, spr. apply EL. auto.
    + intros (s' & sp' & Lx). apply EL in Lx. destruct Lx as [[Lx Ne]|[(-> & _)|(-> & _)]]; auto.
      left. assert (H : In x (map nd_path q)) by (apply (i_leaf _ _ _ I); eauto). apply in_map_iff in H. destruct H as (y & <- & H).
      apply in_map. apply Inq. auto.
  - intros x s' sp' Nx. apply EN in Nx. destruct Nx as [Nx|[(-> & -> & ->)|(-> & -> & ->)]].
    + destruct (i_node _ _ _ I x s' sp' Nx) as (rows & total & ps & ps' & b0 & f0 & R & X). exists rows, total, ps, ps', b0, f0.
      split; [|exact X]. eapply rows_same; [|exact R]. intros r. eapply ER. exact Nx.
    + exists (filter bf l), lt, p1, p2, lsp, lf. auto.
    + exists right, rt, p2, p3, rsp, rf. auto.
  - intros x H. rewrite Ls. apply in_app_iff in H. destruct H as [H|[<-|[<-|[]]]]; cbn [nd_path nd_start nd_len nd_feature].
    + destruct (i_entry _ _ _ I x) as (B1 & B2 & B3); [apply Inq in H; tauto|]. split; [exact B1|]. split.
      * rewrite (Out x H). destruct (Op x H) as (s' & sp' & Ly). eapply rows_same; [|exact B2]. intros r. eapply ER. apply leaf_node. exact Ly.
      * intros s' sp' Lx. apply EL in Lx. destruct Lx as [[Lx _]|[(E & _)|(E & _)]]; [apply (B3 s' sp' Lx)| |];
          destruct (Op x H) as (s2 & sp2 & Ly); rewrite E in Ly; exfalso; exact (leaf_no_child _ _ _ _ _ _ _ Lf Ly).
    + split; [lia|]. rewrite SL. split; [exact RL|]. intros s' sp' Lx. apply EL in Lx.
      destruct Lx as [[Lx _]|[(_ & _ & ->)|(E & _)]]; [exfalso; exact (leaf_no_child _ _ _ _ _ _ _ Lf Lx)| |apply app_inj_tail in E; destruct E; discriminate].
      apply search_result in Bl. unfold spl. destruct lf as [cl|]; [|reflexivity]. split; [tauto|]. exists lsp. tauto.
    + split; [lia|]. replace (st + k + (len - k)) with (st + len) by lia. rewrite SR. split; [exact RR|]. intros s' sp' Lx. apply EL in Lx.
      destruct Lx as [[Lx _]|[(E & _)|(_ & _ & ->)]]; [exfalso; exact (leaf_no_child _ _ _ _ _ _ _ Lf Lx)|apply app_inj_tail in E; destruct E; discriminate|].
      apply search_result in Br. unfold spr. destruct rf as [cr|]; [|reflexivity]. split; [tauto|]. exists rsp. tauto.
  - assert (Ap : forall x, In x (q1 ++ q2) -> nd_start x + nd_len x <= st \/ st + len <= nd_start x).
    { intros x H. apply Inq in H. exact (i_apart _ _ _ I x nd (proj1 H) Iq (proj2 H)). }
    intros a b0 Ia Ib Ne. apply in_app_iff in Ia, Ib.
    destruct Ia as [Ia|[<-|[<-|[]]]], Ib as [Ib|[<-|[<-|[]]]]; cbn [nd_path nd_start nd_len] in *; try congruence.
    + apply Inq in Ia, Ib. apply (i_apart _ _ _ I); tauto.
    + destruct (Ap a Ia); lia.
    + destruct (Ap a Ia); lia.
    + destruct (Ap b0 Ib); lia.
    + lia.
    + destruct (Ap b0 Ib); lia.
    + lia.
Qed.

Lemma first_slice (l : list nat) : slice l (0, 0 + List.length l) = l.
Proof. unfold slice. cbn [fst snd skipn]. rewrite Nat.sub_0_r. apply firstn_all. Qed.

Lemma start_inv total pos b f pos' : weighted_sum threads w gd sampled = Ret total -> best sampled total pos = Ret (b, f, pos') ->
  inv (new_node lam total b) [mkNode [] f 0 (List.length sampled)] sampled.
Proof.
  intros Et E. unfold new_node. rewrite (new_split _ _ _ _ _ _ E).
  assert (R : rows_of (TNode (nstore (gscore lam total)) match f with Some _ => Some b | None => None end TNone TNone) [] sampled).
  { split; [exact (proj1 Smp)|]. intros r. split; [intros I; split; [exact I|constructor]|tauto]. }
  constructor.
  - reflexivity.
  - constructor.
  - constructor.
  - reflexivity.
  - constructor; [intros []|constructor].
  - intros p. cbn. split.
    + intros [<-|[]]. eexists _, _. constructor.
    + intros (s & sp & L). left. inversion L as [|? ? ? ? ? ? ? Y|? ? ? ? ? ? ? Y]; subst; [reflexivity|inversion Y..].
  - intros p s sp L. inversion L as [|? ? ? ? ? ? ? Y|? ? ? ? ? ? ? Y]; subst; [|inversion Y..]. exists sampled, total, pos, pos', b, f. auto.
  - intros nd [<-|[]]. cbn [nd_path nd_start nd_len nd_feature]. split; [lia|]. rewrite first_slice. split; [exact R|].
    intros s sp L. inversion L as [|? ? ? ? ? ? ? Y|? ? ? ? ? ? ? Y]; subst. apply search_result in E.
    destruct f as [col|]; [|reflexivity]. split; [tauto|]. exists b. tauto.
  - intros a b0 [<-|[]] [<-|[]] Ne. congruence.
Qed.

Definition stopped (t : tree N) : Prop :=
  (limit <= Z.of_nat (num_leaves t))%Z \/ forall p s sp, has_leaf t p s sp -> sp = None.

Lemma top_none t q samples step nd : inv t q samples -> nth_error q (top step (map (node_gain t) q)) = Some nd -> nd_feature nd = None ->
  forall p s sp, has_leaf t p s sp -> sp = None.
Proof.
  intros I E F p s sp L.
  assert (X : In p (map nd_path q)) by (apply (i_leaf _ _ _ I); eauto). apply in_map_iff in X. destruct X as (nd' & <- & I').
  destruct (i_entry _ _ _ I nd' I') as (_ & _ & Fe). specialize (Fe _ _ L). destruct (nd_feature nd') as [col|]; [|exact Fe].
  exfalso. destruct Fe as (_ & b & -> & _ & _ & G).
  destruct (Top step (map (node_gain t) q)) as (g & Eg & Mx).
  { intros X. apply map_eq_nil in X. rewrite X in I'. exact I'. }
  rewrite nth_error_map, E in Eg. cbn in Eg. injection Eg as <-.
  pose proof (Mx (node_gain t nd') (in_map _ _ _ I')) as M. unfold node_gain in M at 2. rewrite (leaf_at _ _ _ _ L) in M. cbn [t_split the_split] in M.
  pose proof (nth_error_In _ _ E) as In0. destruct (i_entry _ _ _ I nd In0) as (_ & _ & F0).
  destruct (proj1 (i_leaf _ _ _ I (nd_path nd)) (in_map _ _ _ In0)) as (s0 & sp0 & L0). specialize (F0 _ _ L0). rewrite F in F0. subst sp0.
  unfold node_gain in M. rewrite (leaf_at _ _ _ _ L0) in M. cbn [t_split the_split default_split sp_gain] in M. rewrite G in M. discriminate.
Qed.

Lemma max_ok t q samples step nd : inv t q samples -> nth_error q (top step (map (node_gain t) q)) = Some nd ->
  forall nd', In nd' q -> nltb (node_gain t nd) (node_gain t nd') = false.
Proof.
  intros I E nd' I'. destruct (Top step (map (node_gain t) q)) as (g & Eg & Mx).
  { intros X. apply map_eq_nil in X. rewrite X in I'. exact I'. }
  rewrite nth_error_map, E in Eg. cbn in Eg. injection Eg as <-. apply Mx, in_map, I'.
Qed.

Lemma queue_len (t : tree N) q i (nd a b : node_data) : nth_error q i = Some nd -> List.length (remove_nth i q ++ [a; b]) = S (List.length q).
Proof. intros E. destruct (remove_split q i nd E) as (q1 & q2 & -> & ->). rewrite !app_length. cbn. lia. Qed.

Lemma grow_spec fuel : forall step pos t q samples t' pos', inv t q samples -> (limit + 1 <= Z.of_nat fuel + Z.of_nat (List.length q))%Z ->
  grow top draw threads srt w gd features c fuel step pos t q samples = Ret (t', pos') ->
  exists q' samples', inv t' q' samples' /\ stopped t' /\ (Z.of_nat (num_leaves t') <= Z.max (Z.of_nat (num_leaves t)) limit)%Z.
Proof.
  induction fuel as [|fuel IH]; intros step pos t q samples t' pos' I Fu E; cbn [grow] in E.
  - injection E as <- <-. exists q, samples. split; [exact I|]. split; [|lia]. left. rewrite <- (i_len _ _ _ I). lia.
  - destruct q as [|nd0 q0] eqn:Eq.
    + pose proof (i_len _ _ _ I) as X. pose proof (full_count features t (i_full _ _ _ I)) as Y. cbn in X. lia.
    + rewrite <- Eq in *. clear nd0 q0 Eq.
      unfold below_leaves in E. change (cf_num_leaves c mod 18446744073709551616)%Z with limit in E.
      destruct (Z.ltb_spec (Z.of_nat (List.length q)) limit) as [B|B]; cbn [negb] in E.
      2:{ injection E as <- <-. exists q, samples. split; [exact I|]. split; [|lia]. left. rewrite <- (i_len _ _ _ I). lia. }
      unfold vget in E. destruct (nth_error q (top step (map (node_gain t) q))) as [nd|] eqn:End; [|discriminate]. cbn [bind] in E.
      destruct (nd_feature nd) as [col|] eqn:Fe.
      2:{ injection E as <- <-. exists q, samples. split; [exact I|]. split; [|lia]. right. eapply top_none; eassumption. }
      destruct (step_inv t q samples _ nd col I End Fe (max_ok _ _ _ _ _ I End)) as (k & m & Run & LtL & LtR & Nx).
      rewrite Run in E. cbn [bind] in E. cbv zeta in E.
      set (samples1 := read_samples m 0 (List.length samples)) in *.
      destruct (weighted_sum threads w gd (slice samples1 (nd_start nd, nd_start nd + k))) as [lt| |] eqn:El in E; [|discriminate..]. cbn [bind] in E.
      destruct (weighted_sum threads w gd (slice samples1 (nd_start nd + k, nd_start nd + nd_len nd))) as [rt| |] eqn:Er in E; [|discriminate..]. cbn [bind] in E.
      destruct (best (slice samples1 (nd_start nd, nd_start nd + k)) lt pos) as [[[lsp lf] p2]| |] eqn:Bl in E; [|discriminate..]. cbn [bind] in E.
      destruct (best (slice samples1 (nd_start nd + k, nd_start nd + nd_len nd)) rt p2) as [[[rsp rf] p3]| |] eqn:Br in E; [|discriminate..]. cbn [bind] in E.
      pose proof (Nx _ _ _ _ _ _ _ _ _ El Er Bl Br) as I2. apply (IH _ _ _ _ _ _ _ I2) in E.
      * destruct E as (q' & s' & I' & St & Le). exists q', s'. split; [exact I'|]. split; [exact St|].
        rewrite <- (i_len _ _ _ I2) in Le. erewrite queue_len in Le by eassumption. lia.
      * erewrite queue_len by eassumption. lia.
Qed.

Lemma grow_total fuel : (forall rows total pos, (forall r, In r rows -> r < n) -> exists r, best rows total pos = Ret r) ->
  forall step pos t q samples, inv t q samples -> exists r, grow top draw threads srt w gd features c fuel step pos t q samples = Ret r.
Proof.
  intros Tot. induction fuel as [|fuel IH]; intros step pos t q samples I; cbn [grow]; [eauto|].
  destruct q as [|nd0 q0] eqn:Eq; [eauto|]. rewrite <- Eq in *. assert (Ne : q <> []) by (rewrite Eq; discriminate). clear nd0 q0 Eq.
  destruct (negb _); [eauto|]. unfold vget.
  destruct (Top step (map (node_gain t) q)) as (g & Eg & _); [intros X; apply map_eq_nil in X; contradiction|].
  rewrite nth_error_map in Eg.
  destruct (nth_error q (top step (map (node_gain t) q))) as [nd|] eqn:End; [|discriminate]. cbn [bind].
  destruct (nd_feature nd) as [col|] eqn:Fe; [|eauto].
  destruct (step_inv t q samples _ nd col I End Fe (max_ok _ _ _ _ _ I End)) as (k & m & Run & LtL & LtR & Nx).
  rewrite Run. cbn [bind]. cbv zeta.
  set (samples1 := read_samples m 0 (List.length samples)) in *.
  destruct (sum_ok _ LtL) as [lt El]. destruct (sum_ok _ LtR) as [rt Er]. rewrite El. cbn [bind]. rewrite Er. cbn [bind].
  destruct (Tot _ lt pos LtL) as [[[lsp lf] p2] Bl]. rewrite Bl. cbn [bind].
  destruct (Tot _ rt p2 LtR) as [[[rsp rf] p3] Br]. rewrite Br. cbn [bind].
  apply IH. exact (Nx _ _ _ _ _ _ _ _ _ El Er Bl Br).
Qed.
End Grow.

(** ** FitTreeToGradients *)
Section Fit.
Context {N : Num}.
Variable O : ordered N.
Variables (top : nat -> list N -> nat) (draw : nat -> spec_float) (threads : nat)
  (srt : (nat -> nat -> bool) -> list nat -> list nat) (w : float_vector) (gd : list (grad N)) (features : list column)
  (c : config N) (store : str -> option column) (rg : nat -> grad N) (pos : nat).
Notation sampled := (fst (uniform_subsample draw pos (List.length gd) (to_f64 (cf_example_rate c)))).
Hypothesis Top : tops top.
Hypothesis Thr : 1 <= threads.
Hypothesis Srt : sorts srt.
Hypothesis Cols : forall col, In col features -> store (c_name col) = Some col /\ has_rows col (List.length gd).
Hypothesis Wt : forall rows, (forall r, In r rows -> r < List.length gd) -> weighted w gd rg rows.

Lemma sampled_ok : NoDup sampled /\ forall r, In r sampled -> r < List.length gd.
Proof.
  destruct (subsample_spec draw pos (List.length gd) (to_f64 (cf_example_rate c))) as (S0 & I0 & _). cbv zeta in *. split.
  - clear - S0. induction S0 as [|a l S0 IH F]; constructor; [|exact IH]. intros I. rewrite Forall_forall in F. specialize (F _ I). lia.
  - intros r I. apply I0 in I. tauto.
Qed.

Lemma fit_spec t pos' : fit_tree top draw threads srt w gd features c pos = Ret (t, pos') ->
  full features t /\ grown t /\ stopped c t /\ (Z.of_nat (num_leaves t) <= Z.max 1 (as_size (cf_num_leaves c)))%Z /\
  forall p s sp, has_node t p s sp -> node_ok draw threads srt w gd features c store sampled t p s sp.
Proof.
  unfold fit_tree. pose proof sampled_ok as Smp. destruct (uniform_subsample draw pos (List.length gd) (to_f64 (cf_example_rate c))) as [smp p1]. cbn [fst] in *.
  intros E. destruct (weighted_sum threads w gd smp) as [total| |] eqn:Et; [|discriminate..]. cbn [bind] in E.
  destruct (find_best_feature draw p1 srt features w gd smp total c) as [[[sp f] p2]| |] eqn:Ef; [|discriminate..]. cbn [bind] in E.
  pose proof (start_inv O draw threads srt w gd features c store (List.length gd) rg smp Thr Srt Cols Wt Smp total p1 sp f p2 Et Ef) as I.
  pose proof (fun F => grow_spec O top draw threads srt w gd features c store (List.length gd) rg smp Top Thr Srt Cols Wt Smp _ _ _ _ _ _ _ _ I F E) as G.
  destruct G as (q' & s' & I' & St & Le).
  - unfold as_size. rewrite Z2Nat.id by (apply Z.mod_pos_bound; lia). cbn. lia.
  - split; [exact (i_full _ _ _ _ _ _ _ _ _ _ _ _ I')|]. split; [exact (i_grown _ _ _ _ _ _ _ _ _ _ _ _ I')|]. split; [exact St|]. split; [exact Le|].
    exact (i_node _ _ _ _ _ _ _ _ _ _ _ _ I').
Qed.

Lemma fit_total : (forall x : N, neqb x x = true) \/ (forall col s, In col features -> c_body col <> BodyS s) ->
  exists r, fit_tree top draw threads srt w gd features c pos = Ret r.
Proof.
  intros Q. unfold fit_tree. pose proof sampled_ok as Smp. destruct (uniform_subsample draw pos (List.length gd) (to_f64 (cf_example_rate c))) as [smp p1]. cbn [fst] in *.
  assert (Tot : forall rows total pos, (forall r, In r rows -> r < List.length gd) -> exists r, find_best_feature draw pos srt features w gd rows total c = Ret r).
  { intros rows total ps L. destruct (find_total O w gd rg rows c total (Wt rows L) srt draw ps features (List.length gd) Srt Q (fun col I => proj2 (Cols col I)) L)
      as (sp & f & E). eauto. }
  destruct (sum_ok threads w gd (List.length gd) rg Thr Wt smp (proj2 Smp)) as [total Et]. rewrite Et. cbn [bind].
  destruct (Tot smp total p1 (proj2 Smp)) as [[[sp f] p2] Ef]. rewrite Ef. cbn [bind].
  eapply (grow_total O top draw threads srt w gd features c store (List.length gd) rg smp Top Thr Srt Cols Wt Smp _ Tot).
  eapply (start_inv O draw threads srt w gd features c store (List.length gd) rg smp Thr Srt Cols Wt Smp); eassumption.
Qed.
End Fit.

(** ** In terms of a setting *)
Section Setting.
Context {N : Num}.
Variable O : ordered N.
Variables (top : nat -> list N -> nat) (draw : nat -> spec_float) (threads : nat)
  (srt : (nat -> nat -> bool) -> list nat -> list nat) (w : float_vector) (gd : list (grad N)) (features : list column)
  (c : config N) (store : str -> option column) (rg : nat -> grad N) (pos : nat).
Hypothesis St : setting top threads srt w gd features store rg.

Lemma setting_weights rows : (forall r, In r rows -> r < List.length gd) -> weighted w gd rg rows.
Proof. intros L r I. apply (st_weights _ _ _ _ _ _ _ _ St). apply in_seq. split; [apply Nat.le_0_l|]. apply L, I. Qed.

Lemma set_spec t pos' : fit_tree top draw threads srt w gd features c pos = Ret (t, pos') ->
  full features t /\ grown t /\ stopped c t /\ (Z.of_nat (num_leaves t) <= Z.max 1 (as_size (cf_num_leaves c)))%Z /\
  forall p s sp, has_node t p s sp ->
    node_ok draw threads srt w gd features c store (fst (uniform_subsample draw pos (List.length gd) (to_f64 (cf_example_rate c)))) t p s sp.
Proof. apply (fit_spec O) with (rg := rg); try apply St. exact setting_weights. Qed.

Lemma set_total : (forall x : N, neqb x x = true) \/ (forall col s, In col features -> c_body col <> BodyS s) ->
  exists r, fit_tree top draw threads srt w gd features c pos = Ret r.
Proof. apply (fit_total O) with (store := store) (rg := rg); try apply St. exact setting_weights. Qed.

Lemma set_shape t pos' : fit_tree top draw threads srt w gd features c pos = Ret (t, pos') ->
  full features t /\ num_leaves t = S (num_internal t) /\ (1 <= Z.of_nat (num_leaves t) <= Z.max 1 (as_size (cf_num_leaves c)))%Z.
Proof.
  intros E. destruct (set_spec t pos' E) as (F & _ & _ & L & _). split; [exact F|]. pose proof (full_count _ _ F) as C. split; [exact C|]. lia.
Qed.

Lemma set_grown t pos' : fit_tree top draw threads srt w gd features c pos = Ret (t, pos') -> grown t /\ stopped c t.
Proof. intros E. destruct (set_spec t pos' E) as (_ & G & S0 & _). auto. Qed.

Lemma set_leaf t pos' row : fit_tree top draw threads srt w gd features c pos = Ret (t, pos') -> row < List.length gd ->
  exists p s sp, (has_leaf t p s sp /\ reaches store t row p) /\
    forall p' s' sp', has_leaf t p' s' sp' -> reaches store t row p' -> p' = p.
Proof. intros E L. destruct (set_spec t pos' E) as (F & _). eapply reach_leaf; [apply St|exact F|exact L]. Qed.
End Setting.

Lemma set_score top draw threads srt w gd features (c : config Exact) store rg pos t pos' :
  setting top threads srt w gd features store rg -> fit_tree top draw threads srt w gd features c pos = Ret (t, pos') ->
  forall p s sp, has_node t p s sp -> exists rows,
    NoDup rows /\ (forall r, In r rows <-> In r (fst (uniform_subsample draw pos (List.length gd) (to_f64 (cf_example_rate c)))) /\ reaches store t r p) /\
    let total := sum_of rg rows in
    s = if Req_EM_T (gh total + cf_l2_lambda c) 0 then 0%R else (gg total / (gh total + cf_l2_lambda c))%R.
Proof.
  intros St E p s sp H. destruct (set_spec exact_ordered _ _ _ _ _ _ _ _ _ _ _ St _ _ E) as (_ & _ & _ & _ & Nd).
  destruct (Nd p s sp H) as (rows & total & p1 & p2 & b & f & (D & I) & Et & Es & _). exists rows. split; [exact D|]. split; [exact I|].
  cbv zeta. rewrite sum_exact with (rg := rg) in Et; [| apply St |].
  - injection Et as <-. rewrite Es. unfold gscore. cbn. unfold Reqb.
    destruct (Req_EM_T (gh (sum_of rg rows) + cf_l2_lambda c) 0); reflexivity.
  - eapply (setting_weights _ _ _ _ _ _ _ _ St). intros r Ir. apply I in Ir. destruct Ir as [Ir _].
    apply (subsample_spec draw pos (List.length gd) (to_f64 (cf_example_rate c))) in Ir. tauto.
Qed.

Lemma first_max_spec {N : Num} (O : ordered N) (all : list N) : forall rest pre bi best, all = pre ++ rest ->
  nth_error all bi = Some best -> (forall g, In g pre -> nltb best g = false) ->
  exists g, nth_error all (first_max rest (List.length pre) bi best) = Some g /\ forall g', In g' all -> nltb g g' = false.
Proof.
  induction rest as [|x rest IH]; intros pre bi best E B M; cbn [first_max].
  - exists best. split; [exact B|]. rewrite E, app_nil_r. exact M.
  - assert (L : S (List.length pre) = List.length (pre ++ [x])) by (rewrite app_length; cbn; lia). rewrite L.
    assert (E' : all = (pre ++ [x]) ++ rest) by (rewrite <- app_assoc; exact E).
    destruct (nltb best x) eqn:Lt.
    + apply IH; [exact E'| |].
      * rewrite E, nth_error_app2, Nat.sub_diag by lia. reflexivity.
      * intros g I. apply in_app_iff in I. destruct I as [I|[<-|[]]]; [|apply (ord_irrefl O)].
        destruct (nltb x g) eqn:X; [|reflexivity]. rewrite <- (M g I). symmetry. eapply (ord_trans O); eassumption.
    + apply IH; [exact E'|exact B|]. intros g I. apply in_app_iff in I. destruct I as [I|[<-|[]]]; [auto|exact Lt].
Qed.
Lemma first_top_ok {N : Num} (O : ordered N) : tops (first_top (N := N)).
Proof.
  intros step [|g t] Ne; [contradiction|]. cbn [first_top].
  apply (first_max_spec O (g :: t) t [g] 0 g); [reflexivity|reflexivity|]. intros x [<-|[]]. apply (ord_irrefl O).
Qed.
