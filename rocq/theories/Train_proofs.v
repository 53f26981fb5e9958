(** Train_proofs.v - proofs about Train.v. *)
From Coq Require Import SpecFloat Reals Lra.
From Verif Require Import Base Base_proofs F32 Column ColumnSpec DataStore Subsampling Num Forest Config Score ScoreSpec Score_proofs Eval EvalSpec Eval_proofs
  Split SplitSpec Split_proofs Tree TreeSpec Tree_proofs Typed_proofs Train TrainSpec.
Local Close Scope R_scope.

Section Trees.
Context {N : Num}.

Lemma clear_present (t : tree N) : present (clear_internal t) = present t.
Proof. destruct t; reflexivity. Qed.
Lemma clear_left (t : tree N) : has_left (clear_internal t) = has_left t.
Proof. destruct t as [|s sp l r]; [reflexivity|]. apply clear_present. Qed.
Lemma clear_score (t : tree N) : t_score (clear_internal t) = t_score t.
Proof. destruct t; reflexivity. Qed.
Lemma clear_no_index (sp : split N) : no_index (clear_split sp).
Proof.
  unfold no_index, clear_split. destruct (sp_cat sp) as [[names idx]|] eqn:E; intros n i H; cbn in H; congruence.
Qed.
Lemma clear_tidy (t : tree N) : tidy (clear_internal t).
Proof.
  induction t as [|s sp l IHl r IHr]; [exact I|]. cbn [clear_internal tidy]. split; [|split; assumption].
  destruct (present l) eqn:P; [|exact I]. destruct sp as [sp|]; [|exact I]. cbn [option_map].
  split; [rewrite clear_present; exact P|apply clear_no_index].
Qed.
Lemma clear_same_split (sp : split N) : same_split sp (clear_split sp).
Proof. unfold same_split, clear_split. destruct (sp_cat sp) as [[names idx]|] eqn:E; cbn; rewrite ?E; auto. Qed.
Lemma clear_same (t : tree N) : TrainSpec.same_tree t (clear_internal t).
Proof.
  induction t as [|s sp l IHl r IHr]; [constructor|]. cbn [clear_internal]. constructor; [|assumption..].
  intros ->. destruct sp; [apply clear_same_split|exact I].
Qed.
Lemma clear_kept (base : list (tree N)) : kept base (map clear_internal (filter has_left base)).
Proof.
  induction base as [|t base IH]; [constructor|]. cbn [filter]. destruct (has_left t) eqn:E.
  - cbn [map]. constructor; [|apply clear_same|exact IH]. unfold has_left in E. destruct (t_left t); discriminate.
  - constructor; [|exact IH]. unfold has_left in E. destruct (t_left t); [reflexivity|discriminate].
Qed.

(** ** Shrinkage *)
Lemma shrink_present k (t : tree N) : present (apply_shrinkage k t) = present t.
Proof. destruct t; reflexivity. Qed.
Lemma shrink_left k (t : tree N) : has_left (apply_shrinkage k t) = has_left t.
Proof. destruct t as [|s sp l r]; [reflexivity|]. apply shrink_present. Qed.
Lemma shrink_split k (t : tree N) : t_split (apply_shrinkage k t) = t_split t.
Proof. destruct t; reflexivity. Qed.
Lemma shrink_child k (t : tree N) (d : bool) : (if d then t_left (apply_shrinkage k t) else t_right (apply_shrinkage k t)) =
  apply_shrinkage k (if d then t_left t else t_right t).
Proof. destruct t as [|s sp l r], d; reflexivity. Qed.

Lemma shrink_node k (t : tree N) p s' sp : has_node (apply_shrinkage k t) p s' sp <->
  exists s, has_node t p s sp /\ s' = nstore (nmul s k).
Proof.
  revert p. induction t as [|s0 sp0 l IHl r IHr]; intros p; cbn [apply_shrinkage].
  - split; [intros H; inversion H|intros (s & H & _); inversion H].
  - split.
    + intros H. inversion H as [|? ? ? ? p0 ? ? H0|? ? ? ? p0 ? ? H0]; subst.
      * eexists. split; [constructor|reflexivity].
      * apply IHl in H0. destruct H0 as (s & H0 & ->). eexists. split; [constructor; exact H0|reflexivity].
      * apply IHr in H0. destruct H0 as (s & H0 & ->). eexists. split; [constructor; exact H0|reflexivity].
    + intros (s & H & ->). inversion H as [|? ? ? ? p0 ? ? H0|? ? ? ? p0 ? ? H0]; subst.
      * constructor.
      * constructor. apply IHl. eauto.
      * constructor. apply IHr. eauto.
Qed.

Lemma shrink_reaches store k (t : tree N) row p : reaches store (apply_shrinkage k t) row p <-> reaches store t row p.
Proof.
  revert t. induction p as [|d p IH]; intros t; [split; intros; constructor|].
  split; intros H; inversion H as [|t0 row0 c left p0 L C G R]; subst.
  - rewrite shrink_left in L. rewrite shrink_split in C, G. rewrite shrink_child in R. apply (proj1 (IH _)) in R. exact (ReachNext _ _ _ _ _ _ L C G R).
  - eapply ReachNext with (c := c); [rewrite shrink_left; exact L|rewrite shrink_split; exact C|rewrite shrink_split; exact G|].
    rewrite shrink_child. apply IH. exact R.
Qed.

Lemma shrink_fits k store n (t : tree N) : tree_fits store n t -> tree_fits store n (apply_shrinkage k t).
Proof.
  induction t as [|s sp l IHl r IHr]; [trivial|]. cbn [apply_shrinkage tree_fits].
  destruct l as [|ls lsp ll lr]; [trivial|]. cbn [apply_shrinkage]. intros (C & Fl & Fr).
  split; [exact C|]. split; [exact (IHl Fl)|exact (IHr Fr)].
Qed.

Lemma full_shrink features k (t : tree N) : full features t -> full features (apply_shrinkage k t).
Proof. induction 1; cbn; [constructor|econstructor; eassumption]. Qed.
Lemma clear_kind col (sp : split N) : fits_kind col sp -> fits_kind col (clear_split sp).
Proof. unfold fits_kind, clear_split. destruct (c_body col); destruct (sp_cat sp) as [[n i]|] eqn:E; cbn; congruence. Qed.
Lemma full_clear features (t : tree N) : full features t -> full features (clear_internal t).
Proof.
  induction 1 as [s sp|s sp l r col I Nm K G Fl IHl Fr IHr]; cbn; [constructor|].
  replace (present l) with true by (inversion Fl; reflexivity). cbn [option_map].
  destruct (clear_same_split sp) as (A & B & C & D).
  econstructor; [exact I|congruence|apply clear_kind; exact K|rewrite <- C; exact G|assumption..].
Qed.

(** Trees that can be cleared without changing where rows go. *)
Definition clearable (store : str -> option column) (n : nat) (t : tree N) : Prop :=
  forall p s sp c row left, has_node t p s (Some sp) -> store (sp_feature sp) = Some c -> row < n ->
    goes_left c sp row left -> goes_left c (clear_split sp) row left.

Lemma clearable_child store n s sp l r (d : bool) : clearable store n (TNode s sp l r) -> clearable store n (if d then l else r).
Proof. intros H p s' sp' c row left Nd. apply (H (d :: p) s'). destruct d; constructor; exact Nd. Qed.

Lemma clear_default : clear_split (@default_split N) = default_split.
Proof. reflexivity. Qed.
Lemma clear_feature (sp : split N) : sp_feature (clear_split sp) = sp_feature sp.
Proof. symmetry. apply clear_same_split. Qed.

Lemma clear_routes store n (t : tree N) row s : clearable store n t -> row < n -> routes store t row s -> routes store (clear_internal t) row s.
Proof.
  intros Cl Lt H. induction H as [t row L|t row c left s L C G R IH].
  - rewrite <- clear_score. constructor. rewrite clear_left. exact L.
  - destruct t as [|s0 sp l r]; [discriminate|]. cbn [t_left t_right t_split] in *. unfold has_left in L. cbn [t_left] in L.
    assert (E : the_split (t_split (clear_internal (TNode s0 sp l r))) = clear_split (the_split sp)).
    { cbn [clear_internal t_split]. rewrite L. destruct sp; reflexivity. }
    eapply RouteNode with (c := c) (left := left).
    + rewrite clear_left. exact L.
    + rewrite E, clear_feature. exact C.
    + rewrite E. destruct sp as [sp|]; [|exact G]. cbn [the_split] in *. apply (Cl [] s0); [constructor|assumption..].
    + cbn [clear_internal t_left t_right]. specialize (IH (clearable_child _ _ _ _ _ _ left Cl) Lt). destruct left; exact IH.
Qed.

Lemma clear_fits store n (t : tree N) : tree_fits store n t -> tree_fits store n (clear_internal t).
Proof.
  induction t as [|s sp l IHl r IHr]; [trivial|]. cbn [clear_internal tree_fits].
  destruct l as [|ls lsp ll lr]; [trivial|]. intros (C & Fl & Fr). split; [|split; [exact (IHl Fl)|exact (IHr Fr)]].
  destruct C as (c & C & Hr & K). exists c. cbn [present].
  replace (the_split (option_map clear_split sp)) with (clear_split (the_split sp)) by (destruct sp; reflexivity).
  rewrite clear_feature. split; [exact C|]. split; [exact Hr|]. apply clear_kind, K.
Qed.

Lemma clear_named x (t : tree N) : EvalSpec.named x (clear_internal t) -> EvalSpec.named x t.
Proof.
  induction t as [|s sp l IHl r IHr]; [intros H; inversion H|]. cbn [clear_internal]. intros H. inversion H; subst.
  - match goal with E : Some _ = _ |- _ => rename E into E1 end. destruct (present l); [|discriminate]. destruct sp as [sp|]; [|discriminate]. injection E1 as ->. rewrite clear_feature. constructor. reflexivity.
  - apply EvalSpec.NamedLeft. auto.
  - apply EvalSpec.NamedRight. auto.
Qed.

Lemma no_indices_node (t : tree N) : no_indices t -> forall p s sp, has_node t p s (Some sp) -> no_index sp.
Proof.
  intros H p s sp Nd. remember (Some sp) as o eqn:Eo. induction Nd as [s sp0 l r|s sp0 l r p s1 sp1 Nd IH|s sp0 l r p s1 sp1 Nd IH]; cbn in H.
  - subst sp0. apply H.
  - apply IH; [apply H|exact Eo].
  - apply IH; [apply H|exact Eo].
Qed.
Lemma clear_id (sp : split N) : no_index sp -> clear_split sp = sp.
Proof.
  unfold no_index, clear_split. destruct sp as [f fl ct g]. cbn. destruct ct as [[names idx]|]; [|reflexivity].
  intros H. rewrite (H names idx eq_refl). reflexivity.
Qed.
Lemma no_indices_clearable store n (t : tree N) : no_indices t -> clearable store n t.
Proof. intros H p s sp c row left Nd _ _. rewrite clear_id; [trivial|]. eapply no_indices_node; eassumption. Qed.

Lemma same_named (t t' : tree N) x : TrainSpec.same_tree t t' -> tidy t' -> EvalSpec.named x t' -> EvalSpec.named x t.
Proof.
  induction 1 as [|s sp sp' l l' r r' Sp Sl IHl Sr IHr]; intros Td H; [exact H|]. cbn in Td. inversion H; subst.
  - destruct Td as [[P _] _]. assert (P' : present l = true) by (inversion Sl; subst; [discriminate|reflexivity]).
    specialize (Sp P'). destruct sp as [a|]; [|contradiction]. destruct Sp as [<- _]. constructor. reflexivity.
  - apply EvalSpec.NamedLeft. apply IHl; tauto.
  - apply EvalSpec.NamedRight. apply IHr; tauto.
Qed.

(** Features of a full tree. *)
Lemma full_fits store n features (t : tree N) : (forall col, In col features -> store (c_name col) = Some col /\ has_rows col n) ->
  full features t -> tree_fits store n t.
Proof.
  intros Cols. induction 1 as [s sp|s sp l r col I Nm K G Fl IHl Fr IHr]; [exact Logic.I|].
  cbn [tree_fits]. destruct l as [|? ? ? ?]; [exact Logic.I|]. destruct (Cols col I) as [St Hr].
  split; [|split; assumption]. exists col. cbn [the_split]. rewrite Nm. auto.
Qed.
Lemma full_named features (t : tree N) x : full features t -> tidy t -> EvalSpec.named x t -> exists col, In col features /\ x = c_name col.
Proof.
  induction 1 as [s sp|s sp l r col I Nm K G Fl IHl Fr IHr]; intros Td H.
  - inversion H as [? ? ? ? E| |]; subst; [|match goal with H : EvalSpec.named _ TNone |- _ => inversion H end..].
    cbn in Td. destruct Td as [[P _] _]. discriminate.
  - cbn in Td. inversion H; subst; [eexists; split; [exact I|congruence]|apply IHl; tauto|apply IHr; tauto].
Qed.
End Trees.

Section Rounds.
Context {N : Num}.
Variable O : ordered N.
Variables (v : view) (threads : nat) (top : nat -> nat -> list N -> nat) (draw : nat -> spec_float)
  (srt : (nat -> nat -> bool) -> list nat -> list nat) (names : list str) (w : float_vector) (lf : loss N)
  (features : list column) (c : config N).
Hypothesis Tr : training v threads top srt names w lf.
Hypothesis Lo : load_features (v_get v) (v_order v names) = (SOk, features).

Notation shrink := (apply_shrinkage (nfloat (cf_shrinkage c))).

Lemma loaded_cols col : In col features -> In (c_name col) names /\ v_get v (c_name col) = Some col /\ col_status col = SOk /\ has_rows col (v_rows v).
Proof.
  intros I. destruct (load_features_ok (v_get v) (v_order v names)) as [H1 H2]. rewrite Lo in H1, H2. cbn in H1, H2.
  destruct H2 as [H2 _]. specialize (H2 eq_refl). apply (in_map Some) in I. rewrite H2 in I. apply in_map_iff in I.
  destruct I as (n & G & In1). destruct (proj1 H1 eq_refl n In1) as (col' & G' & St). rewrite G in G'. injection G' as <-.
  apply (proj1 (ts_order _ _ _ _ _ _ _ Tr _ _)) in In1.
  destruct (ts_cols _ _ _ _ _ _ _ Tr n col In1 G) as [<- Hr]. auto.
Qed.

Definition weighted_grad (gd : list (grad N)) (r : nat) : grad N :=
  match w r, nth_error gd r with Ret x, Some d => gscale (nfloat x) d | _, _ => gzero end.
Lemma round_setting i gd : List.length gd = v_rows v -> setting (top i) threads srt w gd features (v_get v) (weighted_grad gd).
Proof.
  intros L. constructor; [apply Tr|apply Tr|apply Tr| |].
  - intros col I. rewrite L. destruct (loaded_cols col I) as (_ & G & _ & Hr). auto.
  - intros r I. apply in_seq in I. destruct (ts_weights _ _ _ _ _ _ _ Tr r) as [x X]; [lia|].
    destruct (nth_error gd r) as [d|] eqn:E; [|apply nth_error_None in E; lia].
    exists x, d. split; [exact X|]. split; [reflexivity|]. unfold weighted_grad. rewrite X, E. reflexivity.
Qed.

(** A fitted tree, before shrinkage. *)
Definition fitted (t : tree N) : Prop := exists i gd pos pos',
  List.length gd = v_rows v /\ fit_tree (top i) draw threads srt w gd features c pos = Ret (t, pos').

Lemma fitted_full t : fitted t -> full features t.
Proof. intros (i & gd & p & p' & L & E). apply (set_spec O _ _ _ _ _ _ _ _ _ _ _ (round_setting i gd L) _ _ E). Qed.
Lemma fitted_clearable t : fitted t -> clearable (v_get v) (v_rows v) (shrink t).
Proof.
  intros (i & gd & p & p' & L & E). pose proof (round_setting i gd L) as St.
  destruct (set_spec O _ _ _ _ _ _ _ _ _ _ _ St _ _ E) as (_ & _ & _ & _ & Nd).
  intros q s sp col row left H G Lt Go. apply shrink_node in H. destruct H as (s0 & H & _).
  destruct (Nd q s0 _ H) as (rows & total & p1 & p2 & b & f & _ & _ & _ & Ef & Es).
  destruct f as [col'|]; [|discriminate]. injection Es as ->.
  destruct (sp_cat b) as [[nm idx]|] eqn:Cat; [|unfold clear_split; rewrite Cat; exact Go].
  pose proof (search_names O draw srt w gd features c (v_get v) (v_rows v) (ts_sort _ _ _ _ _ _ _ Tr)) as Sn.
  destruct (Sn (fun col I => let A := loaded_cols col I in conj (proj1 (proj2 A)) (proj2 (proj2 (proj2 A)))) rows total p1 b col' p2 nm idx Ef Cat) as (Ic & s1 & B & F).
  assert (Nm : sp_feature b = c_name col').
  { pose proof (search_result O draw srt w gd features c (v_get v) (v_rows v) (ts_sort _ _ _ _ _ _ _ Tr)
      (fun col I => let A := loaded_cols col I in conj (proj1 (proj2 A)) (proj2 (proj2 (proj2 A)))) rows total p1 b _ p2 Ef) as X. cbn in X. tauto. }
  destruct (loaded_cols col' Ic) as (_ & G' & _ & Hr). rewrite Nm, G' in G. injection G as <-.
  destruct col' as [cn body]. cbn in B. subst body. unfold has_rows in Hr. cbn in Hr. destruct Hr as (blocks & F32 & -> & Len).
  rewrite Len in Lt. eapply cleared_goes_left; [exact F32|exact Cat| |exact F|exact Lt|exact Go].
  unfold clear_split. rewrite Cat. reflexivity.
Qed.
Lemma fitted_fits t : fitted t -> tree_fits (v_get v) (v_rows v) (shrink t).
Proof.
  intros H. eapply shrink_fits, full_fits; [|apply fitted_full, H]. intros col I. destruct (loaded_cols col I) as (_ & G & _ & Hr). auto.
Qed.

Lemma rounds_shape todo : forall i k trees st gd ls pos r, List.length gd = v_rows v -> List.length (snd st) = v_rows v ->
  rounds v threads top draw srt w features c lf todo i k trees st gd ls pos = Ret r -> tr_status r = SOk ->
  exists k' fs, tr_forest r = map clear_internal (constant_tree k' :: trees ++ map shrink fs) /\ List.length fs = todo /\ Forall fitted fs.
Proof.
  induction todo as [|todo IH]; intros i k trees st gd ls pos r L Lf E S0; cbn [rounds] in E.
  - injection E as <-. exists k, []. cbn [map tr_forest]. rewrite app_nil_r. auto.
  - destruct (l_round lf ls pos (snd st) gd) as [[[[x gd'] ls'] pos']| |] eqn:R; [|discriminate..]. cbn [bind] in E.
    pose proof (ts_loss _ _ _ _ _ _ _ Tr _ _ _ _ _ _ _ _ Lf L R) as L'.
    destruct (nfinite x); [|injection E as <-; discriminate].
    destruct (fit_tree (top i) draw threads srt w gd' features c pos') as [[t p2]| |] eqn:Ft; [|discriminate..]. cbn [bind] in E.
    destruct (add_tree_scores (v_get v) threads (shrink t) x st) as [st'| |] eqn:A; [|discriminate..]. cbn [bind] in E.
    pose proof (proj2 (scores_length _ _ _ _ _ _ A)) as Lf'. rewrite Lf in Lf'.
    destruct (IH _ _ _ _ _ _ _ _ L' Lf' E S0) as (k' & fs & F & Ln & Fa).
    exists k', (t :: fs). split; [rewrite F, <- app_assoc; reflexivity|]. split; [cbn; congruence|].
    constructor; [|exact Fa]. exists i, gd', pos', p2. split; [exact L'|exact Ft].
Qed.

Lemma base_trees (base : list (tree N)) : forall k trees st k' trees' st', init_with_base v threads base k trees st = Ret (k', trees', st') ->
  trees' = trees ++ filter has_left base.
Proof.
  induction base as [|t base IH]; intros k trees st k' trees' st' E; cbn [init_with_base] in E.
  - injection E as <- <- <-. rewrite app_nil_r. reflexivity.
  - destruct (add_tree_scores (v_get v) threads t n0 st) as [st1| |]; [|discriminate..]. cbn [bind] in E.
    unfold single_node in E. cbn [filter]. destruct (has_left t); cbn [negb] in E; rewrite (IH _ _ _ _ _ _ E); [|reflexivity].
    rewrite <- app_assoc. reflexivity.
Qed.

(** The trace of constants. *)
Lemma base_length (base : list (tree N)) : forall k trees st k' trees' st', init_with_base v threads base k trees st = Ret (k', trees', st') ->
  List.length (snd st') = List.length (snd st).
Proof.
  induction base as [|t base IH]; intros k trees st k' trees' st' E; cbn [init_with_base] in E; [injection E as <- <- <-; reflexivity|].
  destruct (add_tree_scores (v_get v) threads t n0 st) as [st1| |] eqn:A; [|discriminate..]. cbn [bind] in E.
  rewrite <- (proj2 (scores_length _ _ _ _ _ _ A)). destruct (single_node t); eapply IH; exact E.
Qed.

Lemma rounds_trace todo : forall i k trees st gd ls pos r,
  rounds v threads top draw srt w features c lf todo i k trees st gd ls pos = Ret r ->
  exists xs, reported v threads top draw srt w features c lf todo i st gd ls pos xs /\
    ((tr_status r = SOk /\ List.length xs = todo /\ forall x, In x xs -> nfinite x = true) \/
     (tr_status r = SErr INTERNAL /\ exists ys x, xs = ys ++ [x] /\ nfinite x = false /\ (forall y, In y ys -> nfinite y = true) /\
        List.length (tr_forest r) = S (List.length trees + List.length ys))).
Proof.
  induction todo as [|todo IH]; intros i k trees st gd ls pos r E; cbn [rounds] in E.
  - injection E as <-. exists []. split; [constructor|]. left. split; [reflexivity|]. split; [reflexivity|]. intros x [].
  - destruct (l_round lf ls pos (snd st) gd) as [[[[x gd'] ls'] pos']| |] eqn:R; [|discriminate..]. cbn [bind] in E.
    destruct (nfinite x) eqn:Fx.
    + destruct (fit_tree (top i) draw threads srt w gd' features c pos') as [[t p2]| |] eqn:Ft; [|discriminate..]. cbn [bind] in E.
      destruct (add_tree_scores (v_get v) threads (shrink t) x st) as [st'| |] eqn:A; [|discriminate..]. cbn [bind] in E.
      destruct (IH _ _ _ _ _ _ _ _ E) as (xs & T & H). exists (x :: xs).
      split; [eapply RepNext; eassumption|]. destruct H as [(S0 & Ln & Fi)|(S0 & ys & y & -> & Fy & Fi & Ln)].
      * left. split; [exact S0|]. split; [cbn; congruence|]. intros z [<-|I]; auto.
      * right. split; [exact S0|]. exists (x :: ys), y. split; [reflexivity|]. split; [exact Fy|].
        split; [intros z [<-|I]; auto|]. rewrite Ln, app_length. cbn. lia.
    + injection E as <-. exists [x]. split; [eapply RepStop; eassumption|]. right. split; [reflexivity|]. exists [], x.
      split; [reflexivity|]. split; [exact Fx|]. split; [intros y []|]. cbn. lia.
Qed.
End Rounds.

(** ** The whole training *)
Section Whole.
Context {N : Num}.
Variables (v : view) (threads : nat) (top : nat -> nat -> list N -> nat) (draw : nat -> spec_float) (pos : nat)
  (srt : (nat -> nat -> bool) -> list nat -> list nat) (names : list str) (w y : float_vector) (lf : loss N) (c : config N)
  (base : option (forest N)).

Definition base_list : list (tree N) := match base with Some b => b | None => [] end.

Lemma train_inv r : train v threads top draw pos srt names w y lf c base = Ret r -> (tr_status r = SOk \/ tr_forest r <> []) ->
  exists features group ls st0 k trees st, check_config c = SOk /\ load_features (v_get v) (v_order v names) = (SOk, features) /\
    group_column c (v_get v) = Ret group /\ l_init lf (v_rows v) w y group = Ret (inr ls) /\
    init_scores v threads = Ret st0 /\ init_with_base v threads base_list n0 [] st0 = Ret (k, trees, st) /\
    rounds v threads top draw srt w features c lf (Z.to_nat (cf_num_trees c)) 0 k trees st (repeat gzero (v_rows v)) ls pos = Ret r.
Proof.
  unfold train. intros E S0. destruct (check_config c) eqn:Ck; [|injection E as <-; destruct S0; [discriminate|contradiction]].
  destruct (load_features (v_get v) (v_order v names)) as [[|e] features] eqn:Lo; [|injection E as <-; destruct S0; [discriminate|contradiction]].
  destruct (group_column c (v_get v)) as [group| |] eqn:Gr; [|discriminate..]. cbn [bind] in E.
  destruct (l_init lf (v_rows v) w y group) as [[e|ls]| |] eqn:In0; cbn [bind] in E; [injection E as <-; destruct S0; [discriminate|contradiction]| |discriminate..].
  destruct (init_scores v threads) as [st0| |] eqn:I0; [|discriminate..]. cbn [bind] in E.
  fold base_list in E. destruct (init_with_base v threads base_list n0 [] st0) as [[[k trees] st]| |] eqn:B; [|discriminate..]. cbn [bind] in E.
  exists features, group, ls, st0, k, trees, st. auto 10.
Qed.

Lemma train_shape (O : ordered N) r : training v threads top srt names w lf ->
  train v threads top draw pos srt names w y lf c base = Ret r -> tr_status r = SOk ->
  exists features k bs fs, load_features (v_get v) (v_order v names) = (SOk, features) /\
    tr_forest r = TNode k None TNone TNone :: bs ++ fs /\ kept base_list bs /\
    Z.of_nat (List.length fs) = cf_num_trees c /\ Forall (full features) fs /\ Forall tidy (tr_forest r).
Proof.
  intros Tr E S0. destruct (train_inv r E (or_introl S0)) as (features & group & ls & st0 & k & trees & st & Ck & Lo & _ & _ & I0 & B & R).
  pose proof (rounds_shape v threads top draw srt names w lf features c Tr) as Sh.
  assert (Lf : List.length (snd st) = v_rows v).
  { rewrite (base_length v threads base_list _ _ _ _ _ _ B). destruct (init_ok (N := N) v threads (ts_threads _ _ _ _ _ _ _ Tr)) as (st1 & E1 & Ok1 & _).
    rewrite E1 in I0. injection I0 as <-. apply Ok1. }
  destruct (Sh _ _ _ _ _ _ _ _ _ (repeat_length _ _) Lf R S0) as (k' & fs & F & Ln & Fa). clear Sh.
  rewrite (base_trees v threads base_list _ _ _ _ _ _ B) in F. cbn [app] in F.
  exists features, k', (map clear_internal (filter has_left base_list)), (map clear_internal (map (apply_shrinkage (nfloat (cf_shrinkage c))) fs)).
  split; [exact Lo|]. split; [rewrite F; cbn [map]; rewrite map_app; reflexivity|]. split; [apply clear_kept|].
  split; [|split].
  - rewrite !map_length, Ln, Z2Nat.id; [reflexivity|]. unfold check_config in Ck. destruct (Z.leb_spec (cf_num_trees c) 0); [discriminate|lia].
  - rewrite Forall_forall in Fa. apply Forall_forall. intros t I. apply in_map_iff in I. destruct I as (t1 & <- & I).
    apply in_map_iff in I. destruct I as (t2 & <- & I). apply full_clear, full_shrink. eapply fitted_full; [exact O|exact Tr|exact Lo|]. apply Fa, I.
  - rewrite F. apply Forall_forall. intros t I. apply in_map_iff in I. destruct I as (t1 & <- & _). apply clear_tidy.
Qed.

Lemma train_trace r : train v threads top draw pos srt names w y lf c base = Ret r -> (tr_status r = SOk \/ tr_forest r <> []) ->
  exists features group ls st0 k trees st xs, load_features (v_get v) (v_order v names) = (SOk, features) /\
    group_column c (v_get v) = Ret group /\ l_init lf (v_rows v) w y group = Ret (inr ls) /\
    init_scores v threads = Ret st0 /\ init_with_base v threads base_list n0 [] st0 = Ret (k, trees, st) /\
    reported v threads top draw srt w features c lf (Z.to_nat (cf_num_trees c)) 0 st (repeat gzero (v_rows v)) ls pos xs /\
    ((tr_status r = SOk /\ Z.of_nat (List.length xs) = cf_num_trees c /\ forall x, In x xs -> nfinite x = true) \/
     (tr_status r = SErr INTERNAL /\ exists ys x, xs = ys ++ [x] /\ nfinite x = false /\ (forall y, In y ys -> nfinite y = true) /\
        List.length (tr_forest r) = S (List.length trees + List.length ys))).
Proof.
  intros E S0. destruct (train_inv r E S0) as (features & group & ls & st0 & k & trees & st & Ck & Lo & Gr & In0 & I0 & B & R).
  destruct (rounds_trace v threads top draw srt w lf features c _ _ _ _ _ _ _ _ _ R) as (xs & T & H).
  exists features, group, ls, st0, k, trees, st, xs. repeat (split; [eassumption|]). destruct H as [(A & B0 & C)|H]; [left|right; exact H].
  split; [exact A|]. split; [|exact C]. rewrite B0, Z2Nat.id; [reflexivity|]. unfold check_config in Ck. destruct (Z.leb_spec (cf_num_trees c) 0); [discriminate|lia].
Qed.
End Whole.

(** ** Exact arithmetic *)
Section ExactTrain.
Local Open Scope R_scope.
Definition Rsum (l : list R) : R := fold_right Rplus 0 l.
Lemma Rsum_app a b : Rsum (a ++ b) = Rsum a + Rsum b.
Proof. unfold Rsum. induction a as [|x a IH]; cbn [app fold_right]; [lra|]. rewrite IH. lra. Qed.
Lemma add_all_sum (ls : list R) : forall x, @add_all Exact 0 x ls = x + Rsum ls.
Proof. unfold add_all, Rsum. induction ls as [|s ls IH]; intros x; cbn [fold_left fold_right]; [cbn; lra|]. rewrite IH. cbn. lra. Qed.

(** The vector holds a constant plus the trees' scores. *)
Definition holds (v : view) (k : R) (trees : list (tree Exact)) (scores : list R) : Prop :=
  forall row ls, (row < v_rows v)%nat -> @leaves Exact v trees row ls -> nth_error scores row = Some (k + Rsum ls).

Lemma leaves_snoc {N : Num} v (trees : list (tree N)) t row ls : leaves v (trees ++ [t]) row ls ->
  exists ls0 s, ls = ls0 ++ [s] /\ leaves v trees row ls0 /\ routes (v_get v) t row s.
Proof.
  unfold leaves. intros H. apply Forall2_app_inv_l in H. destruct H as (l1 & l2 & A & B & ->).
  inversion B as [|? s ? ls' R0 X]; subst. inversion X; subst. eauto.
Qed.

Lemma exact_shrink_routes store k (t : tree Exact) row s : routes store t row s -> routes store (apply_shrinkage k t) row (s * k).
Proof.
  induction 1 as [t row L|t row c left s L C G R IH].
  - replace (t_score t * k) with (t_score (apply_shrinkage k t)); [constructor; rewrite shrink_left; exact L|].
    destruct t; cbn; [|reflexivity]. unfold n0. cbn. lra.
  - eapply RouteNode; [rewrite shrink_left; exact L|rewrite shrink_split; exact C|rewrite shrink_split; exact G|].
    rewrite shrink_child. exact IH.
Qed.
Lemma exact_shrink_routes_inv store k (t : tree Exact) row s' : routes store (apply_shrinkage k t) row s' -> exists s, routes store t row s /\ s' = s * k.
Proof.
  intros H. remember (apply_shrinkage k t) as t' eqn:Et. revert t Et. induction H as [t' row L|t' row c left s L C G R IH]; intros t ->.
  - exists (t_score t). split; [constructor; rewrite shrink_left in L; exact L|]. destruct t; cbn; [unfold n0; cbn; lra|reflexivity].
  - destruct (IH _ (shrink_child k t left)) as (s0 & R0 & ->). exists s0. split; [|reflexivity].
    rewrite shrink_left in L. rewrite shrink_split in C, G. exact (RouteNode _ _ _ _ _ _ L C G R0).
Qed.

Lemma one_holds v threads t k x trees st st' : (1 <= threads)%nat -> tree_fits (v_get v) (v_rows v) t -> forest_fits v trees ->
  @state_ok Exact v st -> holds v k trees (snd st) -> add_tree_scores (v_get v) threads t x st = Ret st' ->
  state_ok v st' /\ holds v (k + x) (trees ++ [t]) (snd st').
Proof.
  intros Th Ft Fs Ok H E. destruct (one_tree v threads t x st Th Ft Ok) as (st1 & E1 & Ok1 & H1).
  rewrite E in E1. injection E1 as <-. split; [exact Ok1|]. intros row ls Lt L.
  destruct (leaves_snoc _ _ _ _ _ L) as (ls0 & s & -> & L0 & R0). eapply eq_trans; [exact (H1 row _ s (H row ls0 Lt L0) R0)|].
  f_equal. rewrite Rsum_app. unfold Rsum. cbn. lra.
Qed.
Lemma single_holds v threads t k trees st st' : (1 <= threads)%nat -> has_left t = false -> tree_fits (v_get v) (v_rows v) t ->
  @state_ok Exact v st -> holds v k trees (snd st) -> add_tree_scores (v_get v) threads t (@n0 Exact) st = Ret st' ->
  state_ok v st' /\ holds v (k + t_score t) trees (snd st').
Proof.
  intros Th L Ft Ok H E. destruct (one_tree v threads t (@n0 Exact) st Th Ft Ok) as (st1 & E1 & Ok1 & H1).
  rewrite E in E1. injection E1 as <-. split; [exact Ok1|]. intros row ls Lt Lv.
  eapply eq_trans; [exact (H1 row _ _ (H row ls Lt Lv) (RouteLeaf _ _ row L))|]. f_equal. unfold n0, Rsum. cbn. lra.
Qed.

Lemma base_holds v threads (base : forest Exact) : (1 <= threads)%nat -> forest_fits v base -> forall k trees st, forest_fits v trees ->
  @state_ok Exact v st -> holds v k trees (snd st) ->
  exists k' trees' st', init_with_base (N := Exact) v threads base k trees st = Ret (k', trees', st') /\
    forest_fits v trees' /\ state_ok v st' /\ holds v k' trees' (snd st') /\
    forall row x ls, nth_error (snd st) row = Some x -> leaves v base row ls -> nth_error (snd st') row = Some (nadd x (Rsum ls)).
Proof.
  intros Th. induction base as [|t base IH]; intros Fb k trees st Fs Ok H; cbn [init_with_base].
  - exists k, trees, st. split; [reflexivity|]. split; [exact Fs|]. split; [exact Ok|]. split; [exact H|].
    intros row x ls X L. inversion L; subst. eapply eq_trans; [exact X|]. f_equal. cbn. lra.
  - inversion Fb as [|? ? Ft Fb']; subst. destruct (one_tree v threads t (@n0 Exact) st Th Ft Ok) as (st1 & E1 & Ok1 & H1).
    rewrite E1. cbn [bind]. unfold single_node.
    assert (Fin : forall st' : list nat * list Exact, (forall row x ls, nth_error (snd st1) row = Some x -> leaves v base row ls -> nth_error (snd st') row = Some (nadd x (Rsum ls))) ->
      forall row x ls, nth_error (snd st) row = Some x -> leaves v (t :: base) row ls -> nth_error (snd st') row = Some (nadd x (Rsum ls))).
    { intros st' F row x ls X L. inversion L as [|? s ? ls' R0 L']; subst.
      eapply eq_trans; [exact (F row _ ls' (H1 row x s X R0) L')|]. f_equal. unfold n0, Rsum. cbn. lra. }
    destruct (has_left t) eqn:Hl; cbn [negb].
    + destruct (one_holds v threads t k (@n0 Exact) trees st st1 Th Ft Fs Ok H E1) as [_ H2].
      destruct (IH Fb' k (trees ++ [t]) st1) as (k' & trees' & st' & E' & Fs' & Ok' & H' & F').
      * apply Forall_app. split; [exact Fs|]. constructor; [exact Ft|constructor].
      * exact Ok1.
      * replace k with (k + @n0 Exact) by (unfold n0; cbn; lra). exact H2.
      * exists k', trees', st'. split; [exact E'|]. split; [exact Fs'|]. split; [exact Ok'|]. split; [exact H'|]. apply Fin. exact F'.
    + destruct (single_holds v threads t k trees st st1 Th Hl Ft Ok H E1) as [_ H2].
      destruct (IH Fb' (k + t_score t) trees st1 Fs Ok1 H2) as (k' & trees' & st' & E' & Fs' & Ok' & H' & F').
      exists k', trees', st'. split; [exact E'|]. split; [exact Fs'|]. split; [exact Ok'|]. split; [exact H'|]. apply Fin. exact F'.
Qed.

Lemma holds_predictions v k trees (scores : list R) : List.length scores = v_rows v -> holds v k trees scores ->
  predictions v (@constant_tree Exact k :: trees) scores.
Proof.
  intros L H. split; [exact L|]. intros row ls Lt Lv. inversion Lv as [|? s ? ls' R0 L']; subst.
  eapply eq_trans; [exact (H row ls' Lt L')|]. apply routes_leaf in R0; [|reflexivity]. subst s.
  f_equal. unfold n0. cbn [nZ Exact]. rewrite add_all_sum. unfold Rsum. cbn. f_equal. lra.
Qed.

Lemma start_holds v : holds v 0 [] (repeat (@n0 Exact) (v_rows v)).
Proof.
  intros row ls Lt L. inversion L; subst. rewrite (nth_error_nth' _ 0) by (rewrite repeat_length; exact Lt). f_equal.
  rewrite nth_repeat. unfold n0. cbn. lra.
Qed.

Lemma base_predictions v threads (base : forest Exact) : (1 <= threads)%nat -> forest_fits v base ->
  exists k trees st0 st, init_scores v threads = Ret st0 /\ init_with_base v threads base (@n0 Exact) [] st0 = Ret (k, trees, st) /\
    trees = filter has_left base /\
    predictions v base (snd st) /\ predictions v (TNode k None TNone TNone :: trees) (snd st).
Proof.
  intros Th Fb. destruct (@init_ok Exact v threads Th) as (st0 & E0 & Ok0 & ->).
  destruct (base_holds v threads base Th Fb (@n0 Exact) [] _ (Forall_nil _) Ok0 (start_holds v)) as (k & trees & st & E & Fs & Ok & H & F).
  exists k, trees, (seq 0 (v_rows v), repeat (@n0 Exact) (v_rows v)), st. split; [exact E0|]. split; [exact E|].
  split; [rewrite (base_trees v threads base _ _ _ _ _ _ E); reflexivity|]. split; [|apply holds_predictions; [apply Ok|exact H]].
  split; [apply Ok|]. intros row ls Lt Lv. eapply eq_trans; [refine (F row (@n0 Exact) ls _ Lv)|f_equal; unfold n0; cbn [nZ Exact]; rewrite add_all_sum; reflexivity].
  cbn [snd]. rewrite (nth_error_nth' _ (@n0 Exact)) by (rewrite repeat_length; exact Lt). f_equal. apply nth_repeat.
Qed.

Section Rounds2.
Variables (v : view) (threads : nat) (top : nat -> nat -> list Exact -> nat) (draw : nat -> spec_float)
  (srt : (nat -> nat -> bool) -> list nat -> list nat) (names : list str) (w : float_vector) (lf : loss Exact)
  (features : list column) (c : config Exact).
Hypothesis Tr : training v threads top srt names w lf.
Hypothesis Lo : load_features (v_get v) (v_order v names) = (SOk, features).

Definition sound (t : tree Exact) : Prop := tree_fits (v_get v) (v_rows v) t /\ clearable (v_get v) (v_rows v) t.

Lemma rounds_holds todo : forall i k trees st gd ls pos r, List.length gd = v_rows v ->
  Forall sound trees -> @state_ok Exact v st -> holds v k trees (snd st) ->
  rounds v threads top draw srt w features c lf todo i k trees st gd ls pos = Ret r -> tr_status r = SOk ->
  exists k' trees', tr_forest r = map clear_internal (constant_tree k' :: trees') /\ Forall sound trees' /\
    List.length (tr_f r) = v_rows v /\ holds v k' trees' (tr_f r).
Proof.
  induction todo as [|todo IH]; intros i k trees st gd ls pos r L Fs Ok H E S0; cbn [rounds] in E.
  - injection E as <-. exists k, trees. split; [reflexivity|]. split; [exact Fs|]. split; [apply Ok|exact H].
  - destruct (l_round lf ls pos (snd st) gd) as [[[[x gd'] ls'] pos']| |] eqn:R0; [|discriminate..]. cbn [bind] in E.
    pose proof (ts_loss _ _ _ _ _ _ _ Tr _ _ _ _ _ _ _ _ (proj2 Ok) L R0) as L'.
    destruct (nfinite x); [|injection E as <-; discriminate].
    destruct (fit_tree (top i) draw threads srt w gd' features c pos') as [[t p2]| |] eqn:Ft; [|discriminate..]. cbn [bind] in E.
    destruct (add_tree_scores (v_get v) threads (apply_shrinkage (nfloat (cf_shrinkage c)) t) x st) as [st'| |] eqn:A; [|discriminate..]. cbn [bind] in E.
    assert (Ft' : fitted v threads top draw srt w features c t) by (exists i, gd', pos', p2; split; [exact L'|exact Ft]).
    assert (St : sound (apply_shrinkage (nfloat (cf_shrinkage c)) t)).
    { split; [eapply fitted_fits|eapply fitted_clearable]; try exact exact_ordered; try exact Tr; try exact Lo; exact Ft'. }
    assert (Ff : forest_fits v trees) by (eapply Forall_impl; [|exact Fs]; intros ? X; apply X).
    destruct (one_holds v threads _ k x trees st st' (ts_threads _ _ _ _ _ _ _ Tr) (proj1 St) Ff Ok H A) as [Ok' H'].
    refine (IH _ _ _ _ _ _ _ _ L' _ Ok' H' E S0). apply Forall_app. split; [exact Fs|]. constructor; [exact St|constructor].
Qed.
End Rounds2.

Lemma routes_cleared v t row s : sound v t -> (row < v_rows v)%nat -> routes (v_get v) (clear_internal t) row s -> routes (v_get v) t row s.
Proof.
  intros [F C] Lt R0. destruct (routes_total _ _ _ _ F Lt) as [s' R']. pose proof (clear_routes _ _ _ _ _ C Lt R') as R1.
  rewrite (routes_fun _ _ _ _ _ _ (clear_fits _ _ _ F) R0 R1). exact R'.
Qed.
Lemma leaves_cleared v trees row ls : Forall (sound v) trees -> (row < v_rows v)%nat -> leaves v (map clear_internal trees) row ls -> leaves v trees row ls.
Proof.
  intros Fs Lt. revert ls. induction Fs as [|t trees S0 Fs IH]; intros ls H; inversion H as [|? s ? ls' R0 L]; subst; constructor.
  - apply routes_cleared; assumption.
  - apply IH. exact L.
Qed.

Lemma train_predicts v threads top draw pos srt names w y (lf : loss Exact) c base r :
  training v threads top srt names w lf -> (forall b, base = Some b -> base_ok v b) ->
  train v threads top draw pos srt names w y lf c base = Ret r -> tr_status r = SOk ->
  evaluate_forest v threads (tr_forest r) = Ret (SOk, Some (tr_f r)) /\ forest_fits v (tr_forest r) /\ predictions v (tr_forest r) (tr_f r).
Proof.
  intros Tr Bo E S0.
  destruct (train_inv v threads top draw pos srt names w y lf c base r E (or_introl S0)) as (features & group & ls & st0 & k & trees & st & Ck & Lo & _ & _ & I0 & B & R0).
  assert (Bo' : base_ok v (base_list base)).
  { unfold base_list. destruct base as [b|]; [apply Bo; reflexivity|]. split; [constructor|]. split; [intros t []|intros t n []]. }
  destruct Bo' as (Fb & Ni & Nm). pose proof (ts_threads _ _ _ _ _ _ _ Tr) as Th.
  destruct (@init_ok Exact v threads Th) as (st0' & E0 & Ok0 & Es). rewrite I0 in E0. injection E0 as <-.
  assert (H0 : holds v 0 [] (snd st0)) by (rewrite Es; apply start_holds).
  destruct (base_holds v threads _ Th Fb (@n0 Exact) [] _ (Forall_nil _) Ok0 H0) as (k1 & trees1 & st1 & E1 & Fs & Ok & H & _).
  rewrite B in E1. injection E1 as <- <- <-. pose proof (base_trees v threads (base_list base) _ _ _ _ _ _ B) as Et. cbn [app] in Et.
  assert (Snd : Forall (sound v) trees).
  { apply Forall_forall. intros t I. split; [unfold forest_fits in Fs; rewrite Forall_forall in Fs; apply Fs, I|].
    apply no_indices_clearable, Ni. rewrite Et in I. apply filter_In in I. tauto. }
  destruct (rounds_holds v threads top draw srt names w lf features c Tr Lo _ _ _ _ _ _ _ _ r (repeat_length _ _) Snd Ok H R0 S0) as (k' & trees' & F & Snd' & Ln & H').
  assert (Fit : forest_fits v (tr_forest r)).
  { rewrite F. apply Forall_forall. intros t I. apply in_map_iff in I. destruct I as (t0 & <- & I). apply clear_fits.
    destruct I as [<-|I]; [exact Logic.I|]. rewrite Forall_forall in Snd'. apply Snd', I. }
  assert (P : predictions v (tr_forest r) (tr_f r)).
  { rewrite F. cbn [map]. apply holds_predictions; [exact Ln|]. intros row l Lt L. apply H'; [exact Lt|]. apply leaves_cleared; assumption. }
  split; [|split; [exact Fit|exact P]].
  assert (Ld : loads v (tr_forest r)).
  { intros t n It In0.
    destruct (train_shape v threads top draw pos srt names w y lf c base exact_ordered r Tr E S0) as (features' & k2 & bs & fs & Lo' & F' & Kp & _ & Fu & Td).
    rewrite Lo in Lo'. injection Lo' as <-.
    pose proof It as It0. pose proof It as It'. rewrite F' in It'. destruct It' as [<-|It']; [inversion In0; match goal with H : EvalSpec.named _ TNone |- _ => inversion H end|].
    apply in_app_or in It'. destruct It' as [It'|It'].
    - assert (Hb : exists t0, In t0 (base_list base) /\ EvalSpec.named n t0).
      { assert (Tdt : tidy t) by (rewrite Forall_forall in Td; apply Td, It0). clear - Kp It' In0 Tdt. induction Kp as [|t1 b ts L0 K IH|t1 t1' b ts L0 Sm K IH]; [destruct It'| |].
        - destruct (IH It') as (t0 & I0 & N0). exists t0. split; [right; exact I0|exact N0].
        - destruct It' as [<-|It']; [|destruct (IH It') as (t0 & I0 & N0); exists t0; split; [right; exact I0|exact N0]].
          exists t1. split; [left; reflexivity|]. eapply same_named; [exact Sm|exact Tdt|exact In0]. }
      destruct Hb as (t0 & I0' & N0). exact (Nm t0 n I0' N0).
    - rewrite Forall_forall in Fu, Td. destruct (full_named features t n (Fu t It') (Td t It) In0) as (col & Ic & ->).
      destruct (loaded_cols v threads top srt names w lf features Tr Lo col Ic) as (_ & G & Cs & _). exists col. auto. }
  destruct (evaluate_ok v threads (tr_forest r) Th (ts_order _ _ _ _ _ _ _ Tr) Ld Fit) as (sc & Ev & P').
  rewrite Ev. do 3 f_equal. destruct P as [L1 P], P' as [L2 P']. apply Hist_proofs.list_nth_ext. intros j.
  destruct (lt_dec j (v_rows v)) as [Lt|Ge].
  - destruct (leaves_total v (tr_forest r) j Fit Lt) as [l Hl]. rewrite (P j l Lt Hl), (P' j l Lt Hl). reflexivity.
  - rewrite (proj2 (nth_error_None sc j)), (proj2 (nth_error_None (tr_f r) j)) by lia. reflexivity.
Qed.
End ExactTrain.

(** ** Training ends *)
Section Total.
Context {N : Num}.
Variable O : ordered N.
Variables (v : view) (threads : nat) (top : nat -> nat -> list N -> nat) (draw : nat -> spec_float)
  (srt : (nat -> nat -> bool) -> list nat -> list nat) (names : list str) (w : float_vector) (lf : loss N) (c : config N).
Hypothesis Tr : training v threads top srt names w lf.
Hypothesis Sc : (forall x : N, neqb x x = true) \/ (forall n col s, In n names -> v_get v n = Some col -> c_body col <> BodyS s).

Lemma rounds_total (inv : l_state lf -> Prop) features todo :
  (forall s pos f gd, inv s -> List.length f = v_rows v -> List.length gd = v_rows v ->
       exists x gd' s' pos', l_round lf s pos f gd = Ret (x, gd', s', pos') /\ inv s') -> load_features (v_get v) (v_order v names) = (SOk, features) ->
  forall i k trees st gd ls pos, inv ls -> List.length gd = v_rows v -> state_ok v st ->
  exists r, rounds v threads top draw srt w features c lf todo i k trees st gd ls pos = Ret r.
Proof.
  intros Rt Lo. induction todo as [|todo IH]; intros i k trees st gd ls pos Iv L Ok; cbn [rounds]; [eauto|].
  destruct (Rt ls pos (snd st) gd Iv (proj2 Ok) L) as (x & gd' & ls' & pos' & R0 & Iv'). rewrite R0. cbn [bind].
  pose proof (ts_loss _ _ _ _ _ _ _ Tr _ _ _ _ _ _ _ _ (proj2 Ok) L R0) as L'.
  destruct (nfinite x); [|eauto].
  pose proof (round_setting v threads top draw srt names w lf features Tr Lo i gd' L') as St.
  destruct (set_total O (top i) draw threads srt w gd' features c (v_get v) _ pos' St) as [[t p2] E].
  { destruct Sc as [Q|Q]; [left; exact Q|right]. intros col s I.
    destruct (loaded_cols v threads top srt names w lf features Tr Lo col I) as (Nm & G & _). exact (Q _ _ s Nm G). }
  rewrite E. cbn [bind].
  assert (Fit : tree_fits (v_get v) (v_rows v) (apply_shrinkage (nfloat (cf_shrinkage c)) t)).
  { eapply fitted_fits; [exact O|exact Tr|exact Lo|]. exists i, gd', pos', p2. split; [exact L'|exact E]. }
  destruct (one_tree v threads _ x st (ts_threads _ _ _ _ _ _ _ Tr) Fit Ok) as (st' & A & Ok' & _). rewrite A. cbn [bind].
  apply IH; assumption.
Qed.

Lemma base_total base : forest_fits v base -> forall k trees st, state_ok v st ->
  exists k' trees' st', init_with_base (N := N) v threads base k trees st = Ret (k', trees', st') /\ state_ok v st'.
Proof.
  pose proof (ts_threads _ _ _ _ _ _ _ Tr) as Th. induction 1 as [|t base Ft Fb IH]; intros k trees st Ok; cbn [init_with_base]; [eauto 6|].
  destruct (one_tree v threads t n0 st Th Ft Ok) as (st1 & E & Ok1 & _). rewrite E. cbn [bind].
  destruct (single_node t); apply IH; exact Ok1.
Qed.

Lemma train_total y pos base : (forall b, base = Some b -> forest_fits v b) ->
  (exists g, group_column c (v_get v) = Ret g) -> runs_through (v_rows v) w y lf ->
  exists r, train v threads top draw pos srt names w y lf c base = Ret r.
Proof.
  intros Fb [g G] (inv & In0 & Rt). unfold train. destruct (check_config c); [|eauto].
  destruct (load_features (v_get v) (v_order v names)) as [[|e] features] eqn:Lo; [|eauto]. rewrite G. cbn [bind].
  destruct (In0 g) as (r & -> & Iv). destruct r as [e|ls]; cbn [bind]; [eauto|]. specialize (Iv ls eq_refl).
  destruct (init_ok (N := N) v threads (ts_threads _ _ _ _ _ _ _ Tr)) as (st0 & -> & Ok & _). cbn [bind].
  fold (base_list base). assert (Fb' : forest_fits v (base_list base)) by (destruct base; [apply Fb; reflexivity|constructor]).
  destruct (base_total _ Fb' n0 [] st0 Ok) as (k & trees & st & E & Ok'). rewrite E. cbn [bind].
  apply (rounds_total inv features); [exact Rt|exact Lo|exact Iv|apply repeat_length|exact Ok'].
Qed.
End Total.

(** ** The first round *)
Lemma first_round v threads top draw pos srt names w y (lf : loss Exact) c base r : 1 <= threads -> (forall b, base = Some b -> forest_fits v b) ->
  train v threads top draw pos srt names w y lf c base = Ret r -> (tr_status r = SOk \/ tr_forest r <> []) ->
  exists group ls f x gd ls' pos', group_column c (v_get v) = Ret group /\ l_init lf (v_rows v) w y group = Ret (inr ls) /\
    predictions v (match base with Some b => b | None => [] end) f /\
    l_round lf ls pos f (repeat gzero (v_rows v)) = Ret (x, gd, ls', pos').
Proof.
  intros Th Fb E S0. destruct (train_inv v threads top draw pos srt names w y lf c base r E S0) as (features & group & ls & st0 & k & trees & st & Ck & Lo & Gr & In0 & I0 & B & R).
  destruct (base_predictions v threads (match base with Some b => b | None => [] end) Th) as (k' & trees' & st0' & st' & I0' & B' & _ & P & P').
  { destruct base as [b|]; [exact (Fb b eq_refl)|constructor]. }
  rewrite I0 in I0'. injection I0' as <-. pose proof (eq_trans (eq_sym B) B') as X. injection X as <- <- <-.
  destruct (Z.to_nat (cf_num_trees c)) as [|todo] eqn:Z.
  { unfold check_config in Ck. destruct (Z.leb_spec (cf_num_trees c) 0); [discriminate|lia]. }
  cbn [rounds] in R. destruct (l_round lf ls pos (snd st) (repeat gzero (v_rows v))) as [[[[x gd] ls'] pos']| |] eqn:Er; [|discriminate..]. cbn [bind] in R.
  exists group, ls, (snd st), x, gd, ls', pos'. split; [exact Gr|]. split; [exact In0|]. split; [exact P|exact Er].
Qed.
