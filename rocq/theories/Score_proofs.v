(** Score_proofs.v - partitioning and parallel scoring (properties C24-C26). *)
From Verif Require Import Base F32 Column ColumnSpec DataStore Subsampling Num Forest Par Score ScoreSpec
  Base_proofs ColumnStr_proofs ColumnBucket_proofs ColumnProps_proofs Subsampling_proofs Par_proofs.

(** ** The decision of a split *)
Lemma existsb_in k l : existsb (Z.eqb k) l = true <-> In k l.
Proof.
  rewrite existsb_exists. split; [intros (x & I & E); apply Z.eqb_eq in E; congruence|].
  intros I. exists k. split; [exact I|apply Z.eqb_refl].
Qed.

Lemma string_code blocks i s : fits_32_bits (concat blocks) -> nth_error (concat blocks) i = Some s ->
  exists k, icol_get (s_ints (string_column_of blocks)) i = Ret k /\ str_cat_index (string_column_of blocks) s = Some k.
Proof.
  intros F E. destruct (string_column_of_inv _ F) as (c & H & L & ->).
  destruct (str_finalize_view _ _ H L) as (V & S1 & S2 & S3).
  destruct H as (_ & _ & _ & _ & _ & _ & _ & _ & _ & Hcol & _).
  destruct (Forall2_nth_error _ _ _ Hcol _ _ E) as (k & K & A). exists k. unfold icol_get, str_cat_index.
  rewrite V, S2. cbn. split; [apply vget_ret, K|exact A].
Qed.

Lemma string_vec blocks : fits_32_bits (concat blocks) -> exists v, icol_vec (s_ints (string_column_of blocks)) = Ret v /\
  List.length v = List.length (concat blocks).
Proof.
  intros F. destruct (string_column_of_inv _ F) as (c & H & L & ->).
  destruct (str_finalize_view _ _ H L) as (V & _). exists (i32 (s_ints c)). split; [exact V|].
  destruct H as (_ & _ & _ & _ & _ & _ & _ & _ & _ & Hcol & _). exact (Forall2_len _ _ _ Hcol).
Qed.

Lemma string_row_inv blocks row name : fits_32_bits (concat blocks) ->
  str_row (string_column_of blocks) row = Ret name -> nth_error (concat blocks) row = Some name.
Proof.
  intros F R. destruct (string_column_roundtrip blocks F) as (_ & Sz & Rt).
  destruct (nth_error (concat blocks) row) as [s|] eqn:E.
  - rewrite (Rt row s E) in R. congruence.
  - apply nth_error_None in E. destruct (string_vec blocks F) as (v & V & Lv).
    unfold str_row, icol_get in R. rewrite V in R. cbn [bind] in R. unfold vget at 1 in R.
    destruct (nth_error v row) eqn:E2; [|discriminate].
    assert (row < List.length v) by (apply nth_error_Some; congruence). lia.
Qed.

Lemma name_listed blocks row name k names : fits_32_bits (concat blocks) ->
  nth_error (concat blocks) row = Some name -> icol_get (s_ints (string_column_of blocks)) row = Ret k ->
  In k (split_categories (string_column_of blocks) (names, [])) <-> In name names.
Proof.
  intros F R G. destruct (string_code blocks row name F R) as (k' & G' & Ik).
  assert (k' = k) by congruence. subst k'.
  destruct (string_dictionary blocks F) as (_ & _ & _ & D4 & _ & _).
  unfold split_categories. cbn [snd fst]. rewrite in_flat_map. split.
  - intros (n' & I & J). destruct (str_cat_index (string_column_of blocks) n') as [k'|] eqn:E; [|destruct J].
    destruct J as [->|[]]. destruct (D4 n' k E) as [_ C1]. destruct (D4 name k Ik) as [_ C2]. congruence.
  - intros I. exists name. split; [exact I|]. rewrite Ik. left. reflexivity.
Qed.

Lemma bucket_row nb blocks b row : limit_ok nb -> (zlen (concat blocks) < 4294967294)%Z -> b_load nb blocks = Ret b ->
  row < List.length (concat blocks) -> exists m x, b_missing b row = Ret m /\ b_row_max b row = Ret x.
Proof.
  intros L Z E R. destruct (b_load_finished nb blocks b L Z E) as (d0 & m & mid & H).
  destruct (nth_error (concat blocks) row) as [v|] eqn:Ev; [|apply nth_error_None in Ev; lia].
  destruct (bucketized_size_missing nb blocks b L Z E) as (_ & _ & M). pose proof (M row v Ev) as Mv.
  pose proof (fn_get _ _ _ _ _ _ _ _ H Ev) as G.
  exists (is_nan v). unfold b_row_max. rewrite G. cbn [bind]. unfold b_bucket_max, vget.
  assert (B : (0 <= idx m mid v < zlen (b_maxs b))%Z).
  { destruct (is_nan v) eqn:Nv; [|pose proof (fn_idx_range _ _ _ _ _ _ v Z H Nv); lia].
    rewrite idx_nan by exact Nv. split; [lia|].
    (* the limits are never empty: the last one is FLT_MAX *)
    pose proof (fn_limits _ _ _ _ _ _ H) as Li. unfold bucket_limits in Li.
    destruct (u64 nb =? 0)%Z; [discriminate|].
    destruct (take_heavy _ _ _ _) as [[maxs lo] rest].
    destruct (u64 (u64 nb - zlen maxs) =? 0)%Z; [discriminate|]. injection Li as Li. rewrite <- Li.
    unfold zlen. rewrite app_length. cbn. lia. }
  destruct (nth_error (b_maxs b) (Z.to_nat (idx m mid v))) as [x|] eqn:Ex; [eauto|].
  apply nth_error_None in Ex. unfold zlen in B. lia.
Qed.

Lemma bucket_vec nb blocks b : limit_ok nb -> (zlen (concat blocks) < 4294967294)%Z -> b_load nb blocks = Ret b ->
  exists v, icol_vec (b_ints b) = Ret v.
Proof.
  intros L Z E. destruct (b_load_finished nb blocks b L Z E) as (d0 & m & mid & H).
  eexists. exact (fn_vec _ _ _ _ _ _ H).
Qed.

Section Score.
Context {N : Num}.
Notation prog := (prog sloc (@sval N)).
Notation mem := (mem sloc (@sval N)).
Notation runs := (@runs sloc (@sval N) sloc_dec _).

Lemma goes_left_go c (sp : split N) n row left : has_rows c n -> goes_left c sp row left -> go_left c sp row = Ret left.
Proof.
  intros H G. destruct G as [nm b sp row t tr S M|nm b sp row t tr x S M X|nm s sp row names name left S R I|
    nm s sp row names i idx k left S K I|nm r sp row]; unfold go_left; cbn [c_body].
  - rewrite S, M. reflexivity.
  - rewrite S, M. cbn. rewrite X. reflexivity.
  - rewrite S. destruct H as (blocks & F & -> & ->). pose proof (string_row_inv _ _ _ F R) as E.
    destruct (string_code _ _ _ F E) as (k & G & _). rewrite G. cbn [bind]. f_equal.
    pose proof (name_listed _ _ _ _ names F E G) as Q. rewrite <- existsb_in in Q.
    destruct (existsb (Z.eqb k) _), left; intuition congruence.
  - rewrite S, K. cbn [bind]. f_equal. unfold split_categories. cbn [snd]. rewrite <- existsb_in in I.
    destruct (existsb (Z.eqb k) _), left; intuition congruence.
  - reflexivity.
Qed.

Lemma goes_left_total c (sp : split N) n row : has_rows c n -> fits_kind c sp -> row < n -> exists left, goes_left c sp row left.
Proof.
  destruct c as [nm [b|r|s]]; unfold has_rows, fits_kind; cbn [c_body].
  - intros (nb & blocks & L & Z & E & ->) K R. destruct (sp_float sp) as [[t tr]|] eqn:S; [|congruence].
    destruct (bucket_row nb blocks b row L Z E R) as (m & x & M & X). destruct m; eexists.
    + eapply GoMissing; eassumption.
    + eapply GoNumber; eassumption.
  - intros _ _ _. exists false. constructor.
  - intros (blocks & F & -> & ->) K R. destruct (sp_cat sp) as [[names idx]|] eqn:S; [|congruence].
    destruct (nth_error (concat blocks) row) as [name|] eqn:E; [|apply nth_error_None in E; lia].
    destruct (string_code blocks row name F E) as (k & G & _).
    destruct idx as [|i idx].
    + exists (if in_dec str_eq_dec name names then true else false). eapply GoName; [exact S| |].
      * apply string_column_roundtrip; [exact F|exact E].
      * destruct (in_dec str_eq_dec name names); intuition congruence.
    + exists (if in_dec Z.eq_dec k (map u32 (i :: idx)) then true else false). eapply GoIndex; [exact S|exact G|].
      destruct (in_dec Z.eq_dec k (map u32 (i :: idx))); intuition congruence.
Qed.

Lemma goes_left_fun c (sp : split N) n row a b : has_rows c n -> goes_left c sp row a -> goes_left c sp row b -> a = b.
Proof. intros H A B. pose proof (goes_left_go _ _ _ _ _ H A). pose proof (goes_left_go _ _ _ _ _ H B). congruence. Qed.

Lemma split_check_ok c (sp : split N) n : has_rows c n -> fits_kind c sp -> split_check c sp = Ret tt.
Proof.
  destruct c as [nm [b|r|s]]; unfold has_rows, fits_kind, split_check; cbn [c_body].
  - intros (nb & blocks & L & Z & E & ->) K. destruct (sp_float sp) as [[t tr]|] eqn:S; [|congruence].
    destruct (bucket_vec nb blocks b L Z E) as (v & ->). reflexivity.
  - reflexivity.
  - intros (blocks & F & -> & ->) K. destruct (sp_cat sp) as [cat|] eqn:S; [|congruence].
    destruct (string_vec blocks F) as (v & -> & _). reflexivity.
Qed.

(** ** Segments of the sample vector *)

Lemma seg_upd (m : mem) start l i v : seg m start l -> i < List.length l ->
  seg (upd sloc_dec m (inl (start + i)) (inl v)) start (set_nth i v l).
Proof.
  intros S L j s E. destruct (Nat.eq_dec j i) as [->|Ne].
  - rewrite nth_error_set_nth_eq in E by exact L. injection E as ->. apply upd_eq.
  - rewrite nth_error_set_nth_ne in E by auto. rewrite upd_ne; [apply S, E|].
    intros X. injection X. lia.
Qed.

Lemma seg_other (m m' : mem) start l : seg m start l -> (forall j, j < List.length l -> m' (inl (start + j)) = m (inl (start + j))) ->
  seg m' start l.
Proof. intros S H i s E. rewrite H; [apply S, E|]. apply nth_error_Some. congruence. Qed.

Lemma seg_app (m : mem) start l1 l2 : seg m start (l1 ++ l2) <-> seg m start l1 /\ seg m (start + List.length l1) l2.
Proof.
  split.
  - intros S. split; intros i s E.
    + apply S. rewrite nth_error_app1; [exact E|]. apply nth_error_Some. congruence.
    + rewrite <- Nat.add_assoc. apply S. rewrite nth_error_app2 by lia.
      replace (List.length l1 + i - List.length l1) with i by lia. exact E.
  - intros [S1 S2] i s E. destruct (Nat.lt_ge_cases i (List.length l1)) as [L|L].
    + rewrite nth_error_app1 in E by exact L. apply S1, E.
    + rewrite nth_error_app2 in E by exact L. replace (start + i) with (start + List.length l1 + (i - List.length l1)) by lia.
      apply S2, E.
Qed.

Lemma set_nth_app {A} (l1 : list A) x l2 v : set_nth (List.length l1) v (l1 ++ x :: l2) = l1 ++ v :: l2.
Proof. induction l1; cbn; congruence. Qed.

Lemma runs_get_sample (F : sloc -> Prop) (m : mem) i s : F (inl i) -> m (inl i) = Some (inl s) -> runs F (get_sample i) m s m.
Proof. intros Fi E. eapply RRead; [exact Fi|exact E|]. constructor. Qed.
Lemma runs_set_sample (F : sloc -> Prop) (m : mem) i s v : F (inl i) -> m (inl i) = Some s ->
  runs F (set_sample i v) m tt (upd sloc_dec m (inl i) (inl v)).
Proof. intros Fi E. eapply RWrite; [exact Fi|exact E|]. constructor. Qed.

Lemma part_loop_runs (goes : nat -> res bool) (bf : nat -> bool) start C : forall A B (m : mem),
  seg m start (A ++ B ++ C) -> (forall r, In r C -> goes r = Ret (bf r)) ->
  exists B' m', runs (in_seg start (List.length (A ++ B ++ C)))
      (part_loop goes start (List.length A + List.length B) (List.length C) (List.length A)) m
      (List.length A + List.length (filter bf C)) m' /\
    seg m' start (A ++ filter bf C ++ B') /\ Permutation B' (B ++ filter (fun r => negb (bf r)) C).
Proof.
  induction C as [|r C IH]; intros A B m S G.
  - exists B, m. rewrite app_nil_r in *. cbn. rewrite Nat.add_0_r. split; [constructor|]. split; [exact S|]. rewrite app_nil_r. reflexivity.
  - cbn [part_loop List.length].
    set (F := in_seg start (List.length (A ++ B ++ r :: C))).
    assert (LenF : forall j, j < List.length A + List.length B + Datatypes.S (List.length C) -> F (inl (start + j))).
    { intros j J. exists j. split; [reflexivity|]. rewrite !app_length. cbn. lia. }
    assert (Er : m (inl (start + (List.length A + List.length B))) = Some (inl r)).
    { apply S. rewrite app_assoc, nth_error_app2 by (rewrite app_length; lia).
      rewrite app_length, Nat.sub_diag. reflexivity. }
    assert (Gr : goes r = Ret (bf r)) by (apply G; left; reflexivity).
    assert (GC : forall x, In x C -> goes x = Ret (bf x)) by (intros x I; apply G; right; exact I).
    cbn [filter].
    destruct (bf r) eqn:Br; cbn [negb].
    + (* swap *)
      assert (Ey : exists y B2, m (inl (start + List.length A)) = Some (inl y) /\
                 set_nth (List.length A) r (set_nth (List.length A + List.length B) y (A ++ B ++ r :: C)) = (A ++ [r]) ++ B2 ++ C /\
                 List.length B2 = List.length B /\ Permutation B2 B).
      { destruct B as [|y B].
        - exists r, []. cbn [app List.length] in *. rewrite Nat.add_0_r in *. split; [exact Er|].
          rewrite !set_nth_app, <- app_assoc. cbn. auto.
        - exists y, (B ++ [y]). split.
          + apply S. rewrite nth_error_app2, Nat.sub_diag by lia. reflexivity.
          + split; [|split; [rewrite app_length; cbn; lia|symmetry; apply Permutation_cons_append]].
            replace (A ++ (y :: B) ++ r :: C) with ((A ++ y :: B) ++ r :: C) by (rewrite <- app_assoc; reflexivity).
            replace (List.length A + List.length (y :: B)) with (List.length (A ++ y :: B)) by apply app_length.
            rewrite set_nth_app. rewrite <- app_assoc. cbn [app]. rewrite set_nth_app. rewrite <- !app_assoc. reflexivity. }
      destruct Ey as (y & B2 & Ey & Eset & LB & PB).
      set (m1 := upd sloc_dec m (inl (start + (List.length A + List.length B))) (inl y)).
      set (m2 := upd sloc_dec m1 (inl (start + List.length A)) (inl r)).
      assert (S2 : seg m2 start ((A ++ [r]) ++ B2 ++ C)).
      { rewrite <- Eset. apply seg_upd; [apply seg_upd; [exact S|]|rewrite set_nth_length]; rewrite !app_length; cbn; lia. }
      destruct (IH (A ++ [r]) B2 m2 S2 GC) as (B' & m' & R & S' & P').
      exists B', m'. split; [|split].
      * eapply runs_bind; [apply runs_get_sample; [apply LenF; lia|exact Er]|].
        rewrite Gr. cbn [pres pbind].
        eapply runs_bind; [apply runs_get_sample; [apply LenF; lia|exact Er]|].
        eapply runs_bind; [apply runs_get_sample; [apply LenF; lia|exact Ey]|].
        eapply runs_bind; [eapply runs_set_sample; [apply LenF; lia|exact Er]|].
        fold m1.
        assert (E1 : exists s, m1 (inl (start + List.length A)) = Some s).
        { unfold m1, upd. destruct (sloc_dec _ _); eauto. }
        destruct E1 as [s1 E1].
        eapply runs_bind; [eapply runs_set_sample; [apply LenF; lia|exact E1]|]. fold m2.
        rewrite !app_length in R. cbn [List.length] in R. rewrite LB in R.
        replace (List.length A + 1 + List.length B) with (Datatypes.S (List.length A + List.length B)) in R by lia.
        replace (List.length A + 1) with (Datatypes.S (List.length A)) in R by lia. cbn [List.length].
        rewrite Nat.add_succ_r. eapply runs_weaken; [|exact R].
        intros x (j & -> & J). apply LenF. lia.
      * rewrite <- app_assoc in S'. exact S'.
      * rewrite P', PB. reflexivity.
    + destruct (IH A (B ++ [r]) m) as (B' & m' & R & S' & P').
      { rewrite <- app_assoc. exact S. }
      { exact GC. }
      exists B', m'. split; [|split].
      * eapply runs_bind; [apply runs_get_sample; [apply LenF; lia|exact Er]|].
        rewrite Gr. cbn [pres pbind].
        rewrite (app_length B [r]) in R. cbn [List.length] in R.
        replace (List.length A + (List.length B + 1)) with (Datatypes.S (List.length A + List.length B)) in R by lia.
        eapply runs_weaken; [|exact R]. intros x (j & -> & J). apply LenF. rewrite !app_length in J. cbn in J. lia.
      * exact S'.
      * rewrite P', <- app_assoc. reflexivity.
Qed.

(** Partition of a slice. *)
Lemma partition_runs c (sp : split N) n start l (m : mem) (bf : nat -> bool) : has_rows c n -> fits_kind c sp ->
  (forall r, In r l -> goes_left c sp r (bf r)) -> seg m start l ->
  exists right m', runs (in_seg start (List.length l)) (partition c sp start (List.length l)) m
      (List.length (filter bf l)) m' /\
    seg m' start (filter bf l ++ right) /\ Permutation right (filter (fun r => negb (bf r)) l).
Proof.
  intros H K G S.
  assert (D : (exists nm r, c = mkCol nm (BodyR r)) \/
              partition c sp start (List.length l) =
              (do! _ := pres (split_check c sp) in part_loop (go_left c sp) start 0 (List.length l) 0)).
  { destruct c as [nm [b|r|s]]; [right; reflexivity|left; eauto|right; reflexivity]. }
  destruct D as [(nm & r & ->)|E].
  - assert (Z : forall x, In x l -> bf x = false).
    { intros x I. pose proof (G x I) as X. inversion X. reflexivity. }
    assert (F1 : filter bf l = []).
    { clear - Z. induction l as [|a l IH]; cbn; [reflexivity|]. rewrite (Z a) by (left; reflexivity).
      apply IH. intros x I. apply Z. right. exact I. }
    assert (F2 : filter (fun x => negb (bf x)) l = l).
    { clear - Z. induction l as [|a l IH]; cbn; [reflexivity|]. rewrite (Z a) by (left; reflexivity). cbn. f_equal.
      apply IH. intros x I. apply Z. right. exact I. }
    exists l, m. rewrite F1, F2. cbn. split; [constructor|]. split; [exact S|reflexivity].
  - rewrite E, (split_check_ok _ _ _ H K). cbn [pres pbind].
    destruct (part_loop_runs (go_left c sp) bf start l [] [] m S) as (B' & m' & R & S' & P').
    { intros r I. exact (goes_left_go _ _ _ _ _ H (G r I)). }
    exists B', m'. auto.
Qed.

(** ** Leaves *)
Definition in_rows (l : list nat) (x : sloc) : Prop := exists r, x = inr r /\ In r l.

Lemma leaf_loop_runs v l : forall start (m : mem) (sc : nat -> N), seg m start l -> NoDup l ->
  (forall r, In r l -> m (inr r) = Some (inr (sc r))) ->
  exists m', runs (fun x => in_seg start (List.length l) x \/ in_rows l x) (leaf_loop v start (List.length l)) m tt m' /\
    seg m' start l /\ (forall r, In r l -> m' (inr r) = Some (inr (nadd (sc r) v))).
Proof.
  induction l as [|r l IH]; intros start m sc S ND Sc; cbn [leaf_loop List.length].
  - exists m. split; [constructor|]. split; [exact S|intros r []].
  - apply NoDup_cons_iff in ND. destruct ND as [Nr ND].
    set (m1 := upd sloc_dec m (inr r) (inr (nadd (sc r) v))).
    assert (S1 : seg m1 (Datatypes.S start) l).
    { intros i s E. unfold m1. rewrite upd_ne by discriminate. replace (Datatypes.S start + i) with (start + Datatypes.S i) by lia. apply S, E. }
    destruct (IH (Datatypes.S start) m1 sc S1 ND) as (m' & R & S' & Sc').
    { intros x I. unfold m1. rewrite upd_ne by congruence. apply Sc. right. exact I. }
    assert (Er : m (inl start) = Some (inl r)) by (rewrite <- (Nat.add_0_r start); apply S; reflexivity).
    assert (Esc : m (inr r) = Some (inr (sc r))) by (apply Sc; left; reflexivity).
    assert (F0 : in_seg start (Datatypes.S (List.length l)) (inl start)) by (exists 0; rewrite Nat.add_0_r; split; [reflexivity|lia]).
    assert (Fr : in_rows (r :: l) (inr r)) by (exists r; split; [reflexivity|left; reflexivity]).
    exists m'. split; [|split].
    + eapply runs_bind; [apply runs_get_sample; [left; exact F0|exact Er]|].
      eapply runs_bind; [eapply RRead; [right; exact Fr|exact Esc|constructor]|].
      eapply runs_bind; [eapply RWrite; [right; exact Fr|exact Esc|constructor]|]. fold m1.
      eapply runs_weaken; [|exact R]. intros x [(j & -> & J)|(q & -> & Q)].
      * left. exists (Datatypes.S j). split; [f_equal; lia|lia].
      * right. exists q. split; [reflexivity|right; exact Q].
    + intros i s E. destruct i as [|i].
      * cbn in E. injection E as <-. rewrite Nat.add_0_r.
        rewrite (runs_frame _ _ _ _ _ _ R); [unfold m1; rewrite upd_ne by discriminate; exact Er|].
        intros [(j & X & J)|(q & X & _)]; [injection X; lia|discriminate].
      * replace (start + Datatypes.S i) with (Datatypes.S start + i) by lia. apply S', E.
    + intros x [<-|I]; [|apply Sc', I].
      rewrite (runs_frame _ _ _ _ _ _ R); [unfold m1; apply upd_eq|].
      intros [(j & X & J)|(q & X & Q)]; [discriminate|]. injection X as ->. contradiction.
Qed.

(** ** A tree on a slice *)
Lemma routes_leaf store (t : tree N) row s : has_left t = false -> routes store t row s -> s = t_score t.
Proof. intros H R. destruct R as [t0 row0 H0|t0 row0 c0 b0 s0 H0]; [reflexivity|congruence]. Qed.

Lemma routes_total store n (t : tree N) row : tree_fits store n t -> row < n -> exists s, routes store t row s.
Proof.
  induction t as [|sc sp l IHl r IHr]; intros F R.
  - exists (t_score TNone). apply RouteLeaf. reflexivity.
  - destruct l as [|lsc lsp ll lr] eqn:El.
    + eexists. apply RouteLeaf. reflexivity.
    + destruct F as ((c & E & H & K) & Fl & Fr). destruct (goes_left_total c (the_split sp) n row H K R) as [b B].
      destruct b.
      * destruct (IHl Fl R) as [s Rs]. exists s. eapply RouteNode; [reflexivity|exact E|exact B|exact Rs].
      * destruct (IHr Fr R) as [s Rs]. exists s. eapply RouteNode; [reflexivity|exact E|exact B|exact Rs].
Qed.

Lemma routes_fun store n (t : tree N) row a b : tree_fits store n t -> routes store t row a -> routes store t row b -> a = b.
Proof.
  revert a b. induction t as [|sc sp l IHl r IHr]; intros a b F A B.
  - inversion A as [? ? HA|? ? ? ? ? HA]; subst; [|discriminate]. inversion B as [? ? HB|? ? ? ? ? HB]; subst; [reflexivity|discriminate].
  - destruct l as [|lsc lsp ll lr] eqn:El.
    + inversion A as [? ? HA|? ? ? ? ? HA]; subst; [|discriminate]. inversion B as [? ? HB|? ? ? ? ? HB]; subst; [reflexivity|discriminate].
    + destruct F as ((c & E & H & K) & Fl & Fr).
      inversion A as [? ? HA|? ? c1 b1 ? HA E1 G1 R1]; subst; [discriminate|].
      inversion B as [? ? HB|? ? c2 b2 ? HB E2 G2 R2]; subst; [discriminate|]. cbn in *.
      assert (c1 = c) by congruence. assert (c2 = c) by congruence. subst c1 c2.
      assert (b1 = b2) by exact (goes_left_fun _ _ _ _ _ _ H G1 G2). subst b2. destruct b1.
      * exact (IHl a b Fl R1 R2).
      * exact (IHr a b Fr R1 R2).
Qed.

Lemma filter_split_perm {A} (f : A -> bool) l : Permutation (filter f l ++ filter (fun r => negb (f r)) l) l.
Proof.
  induction l as [|a l IH]; cbn; [constructor|]. destruct (f a); cbn; [constructor; exact IH|].
  rewrite <- Permutation_middle. constructor. exact IH.
Qed.

Lemma choice_bool (P : nat -> bool -> Prop) l : (forall r, In r l -> exists b, P r b) -> exists f, forall r, In r l -> P r (f r).
Proof.
  induction l as [|a l IH]; intros H.
  - exists (fun _ => false). intros r [].
  - destruct IH as [f F]; [intros r I; apply H; right; exact I|]. destruct (H a) as [b B]; [left; reflexivity|].
    exists (fun r => if Nat.eq_dec r a then b else f r). intros r I. destruct (Nat.eq_dec r a) as [->|Ne]; [exact B|].
    apply F. destruct I as [->|I]; [congruence|exact I].
Qed.

Definition foot (start : nat) (l : list nat) (x : sloc) : Prop := in_seg start (List.length l) x \/ in_rows l x.

Lemma add_runs store n constant (t : tree N) : tree_fits store n t -> forall start l (m : mem) (sc leaf : nat -> N),
  seg m start l -> NoDup l -> (forall r, In r l -> r < n) ->
  (forall r, In r l -> m (inr r) = Some (inr (sc r))) ->
  (forall r, In r l -> routes store t r (leaf r)) ->
  exists l' m', runs (foot start l) (add_sample_tree_scores store t constant start (List.length l)) m tt m' /\
    seg m' start l' /\ Permutation l' l /\
    (forall r, In r l -> m' (inr r) = Some (inr (nadd (sc r) (nadd (leaf r) constant)))).
Proof.
  induction t as [|score sp lt IHl rt IHr]; intros Fit start l m sc leaf S ND Lt Sc Ro.
  - destruct (leaf_loop_runs (nadd n0 constant) l start m sc S ND Sc) as (m' & R & S' & Sc').
    exists l, m'. split; [exact R|]. split; [exact S'|]. split; [reflexivity|].
    intros r I. rewrite (Sc' r I). pose proof (Ro r I) as X. apply routes_leaf in X; [|reflexivity]. rewrite X. reflexivity.
  - destruct lt as [|lsc lsp ll lr] eqn:El.
    + destruct (leaf_loop_runs (nadd score constant) l start m sc S ND Sc) as (m' & R & S' & Sc').
      exists l, m'. split; [exact R|]. split; [exact S'|]. split; [reflexivity|].
      intros r I. rewrite (Sc' r I). pose proof (Ro r I) as X. apply routes_leaf in X; [|reflexivity]. rewrite X. reflexivity.
    + destruct Fit as ((c & E & H & K) & Fl & Fr).
      destruct (choice_bool (goes_left c (the_split sp)) l) as [bf Bf].
      { intros r I. exact (goes_left_total c (the_split sp) n r H K (Lt r I)). }
      destruct (partition_runs c (the_split sp) n start l m bf H K Bf S) as (right & m1 & R1 & S1 & P1).
      set (lft := filter bf l) in *.
      assert (Lr : List.length right = List.length l - List.length lft).
      { pose proof (Permutation_length (filter_split_perm bf l)) as Q. rewrite app_length in Q.
        rewrite (Permutation_length P1). unfold lft. lia. }
      assert (Ll : List.length lft <= List.length l).
      { pose proof (Permutation_length (filter_split_perm bf l)) as Q. rewrite app_length in Q. fold lft in Q. lia. }
      apply seg_app in S1. destruct S1 as [S1l S1r].
      assert (Inl : forall r, In r lft -> In r l /\ bf r = true) by (intros r I; apply filter_In in I; exact I).
      assert (Inr : forall r, In r right -> In r l /\ bf r = false).
      { intros r I. rewrite P1 in I. apply filter_In in I. destruct (bf r); cbn in I; intuition congruence. }
      assert (Fr1 : forall r, m1 (inr r) = m (inr r)).
      { intros r. apply (runs_frame _ _ _ _ _ _ R1). intros (j & X & _). discriminate. }
      assert (Sub : forall r, In r l -> routes store (if bf r then TNode lsc lsp ll lr else rt) r (leaf r)).
      { intros r I. pose proof (Ro r I) as X. inversion X as [? ? HA|? ? c1 b1 ? HA E1 G1 R2]; subst; [discriminate|]. cbn in *.
        assert (c1 = c) by congruence. subst c1. pose proof (goes_left_fun _ _ _ _ _ _ H G1 (Bf r I)). subst b1. exact R2. }
      destruct (IHl Fl start lft m1 sc leaf S1l) as (l2 & m2 & R2 & S2 & P2 & Sc2).
      { apply NoDup_filter, ND. }
      { intros r I. apply Lt, Inl, I. }
      { intros r I. rewrite Fr1. apply Sc, Inl, I. }
      { intros r I. destruct (Inl r I) as [I1 B1]. pose proof (Sub r I1) as X. rewrite B1 in X. exact X. }
      assert (S2r : seg m2 (start + List.length lft) right).
      { eapply seg_other; [exact S1r|]. intros j J. apply (runs_frame _ _ _ _ _ _ R2).
        intros [(i & X & Ji)|(r & X & _)]; [injection X; lia|discriminate]. }
      assert (NDr : NoDup right).
      { apply (Permutation_NoDup (Permutation_sym P1)). apply NoDup_filter, ND. }
      assert (Disj : forall r, In r right -> ~ In r lft).
      { intros r I J. destruct (Inl r J), (Inr r I). congruence. }
      destruct (IHr Fr (start + List.length lft) right m2 sc leaf S2r NDr) as (r2 & m3 & R3 & S3 & P3 & Sc3).
      { intros r I. apply Lt, Inr, I. }
      { intros r I. rewrite (runs_frame _ _ _ _ _ _ R2).
        - rewrite Fr1. apply Sc, Inr, I.
        - intros [(i & X & _)|(q & X & Q)]; [discriminate|]. injection X as ->. exact (Disj q I Q). }
      { intros r I. destruct (Inr r I) as [I1 B1]. pose proof (Sub r I1) as X. rewrite B1 in X. exact X. }
      exists (l2 ++ r2), m3. split; [|split; [|split]].
      * change (add_sample_tree_scores store (TNode score sp (TNode lsc lsp ll lr) rt) constant start (List.length l))
          with (match store (sp_feature (the_split sp)) with
                | None => PFatal
                | Some c =>
                    do! k := partition c (the_split sp) start (List.length l) in
                    do! _ := add_sample_tree_scores store (TNode lsc lsp ll lr) constant start k in
                    add_sample_tree_scores store rt constant (start + k) (List.length l - k)
                end : prog unit).
        rewrite E. eapply runs_bind; [eapply runs_weaken; [|exact R1]; intros x X; left; exact X|].
        eapply runs_bind.
        -- eapply runs_weaken; [|exact R2]. intros x [(j & -> & J)|(q & -> & Q)].
           ++ left. exists j. split; [reflexivity|]. unfold lft in *. lia.
           ++ right. exists q. split; [reflexivity|apply Inl, Q].
        -- rewrite <- Lr. eapply runs_weaken; [|exact R3]. intros x [(j & -> & J)|(q & -> & Q)].
           ++ left. exists (List.length lft + j). split; [f_equal; lia|]. lia.
           ++ right. exists q. split; [reflexivity|apply Inr, Q].
      * apply seg_app. split.
        -- eapply seg_other; [exact S2|]. intros j J. apply (runs_frame _ _ _ _ _ _ R3).
           rewrite (Permutation_length P2) in J.
           intros [(i & X & Ji)|(r & X & _)]; [injection X; lia|discriminate].
        -- rewrite (Permutation_length P2). exact S3.
      * rewrite P2, P3, P1. apply filter_split_perm.
      * intros r I. destruct (bf r) eqn:B.
        -- assert (Il : In r lft) by (apply filter_In; auto).
           rewrite (runs_frame _ _ _ _ _ _ R3); [apply Sc2, Il|].
           intros [(i & X & _)|(q & X & Q)]; [discriminate|]. injection X as ->. exact (Disj q Q Il).
        -- apply Sc3. rewrite P1. apply filter_In. rewrite B. auto.
Qed.

(** ** All slices *)
Lemma list_choice {B} (d : B) n : forall P : nat -> B -> Prop, (forall i, i < n -> exists b, P i b) ->
  exists f, forall i, i < n -> P i (f i).
Proof.
  induction n as [|n IH]; intros P H; [exists (fun _ => d); intros i I; lia|].
  destruct (IH P) as [f Hf]; [intros i I; apply H; lia|]. destruct (H n) as [b Hb]; [lia|].
  exists (fun i => if Nat.eq_dec i n then b else f i). intros i I. destruct (Nat.eq_dec i n) as [->|Ne]; [exact Hb|].
  apply Hf. lia.
Qed.

Lemma ranges_disjoint sizes : forall start i j a b p, nth_error (ranges start sizes) i = Some a ->
  nth_error (ranges start sizes) j = Some b -> fst a <= p < snd a -> fst b <= p < snd b -> i = j.
Proof.
  induction sizes as [|s t IH]; intros start i j a b p Ea Eb Pa Pb; [destruct i; discriminate|].
  cbn [ranges] in *. destruct i as [|i], j as [|j]; [reflexivity| | |f_equal; eapply IH; eassumption].
  - cbn in Ea, Eb. injection Ea as <-. apply nth_error_In, ranges_valid in Eb. cbn in *. lia.
  - cbn in Ea, Eb. injection Eb as <-. apply nth_error_In, ranges_valid in Ea. cbn in *. lia.
Qed.
Lemma ranges_length sizes start : List.length (ranges start sizes) = List.length sizes.
Proof. rewrite <- (ranges_sizes sizes start) at 2. rewrite map_length. reflexivity. Qed.
Lemma ranges_hit sizes : forall start p, start <= p < start + list_sum sizes ->
  exists i r, nth_error (ranges start sizes) i = Some r /\ fst r <= p < snd r.
Proof.
  induction sizes as [|s t IH]; intros start p H; [cbn in H; lia|].
  change (list_sum (s :: t)) with (s + list_sum t) in H. cbn [ranges].
  destruct (Nat.lt_ge_cases p (start + s)) as [L|L].
  - exists 0. eexists. split; [reflexivity|]. cbn. lia.
  - destruct (IH (start + s) p) as (i & r & E & R); [lia|]. exists (S i), r. auto.
Qed.

Lemma seg_ranges (m : mem) sizes : forall start (f : nat -> list nat),
  (forall i r, nth_error (ranges start sizes) i = Some r -> seg m (fst r) (f i) /\ List.length (f i) = snd r - fst r) ->
  seg m start (concat (map f (seq 0 (List.length sizes)))).
Proof.
  induction sizes as [|s t IH]; intros start f H; [intros i x E; destruct i; discriminate|].
  cbn [List.length seq map concat]. rewrite <- seq_shift, map_map.
  destruct (H 0 (start, start + s) eq_refl) as [S0 L0]. cbn in S0, L0.
  apply seg_app. split; [exact S0|]. rewrite L0. replace (start + s - start) with s by lia.
  apply (IH (start + s)). intros i r E. apply (H (S i) r). exact E.
Qed.

Lemma perm_ranges (samples : list nat) sizes : forall start (f : nat -> list nat),
  (forall i r, nth_error (ranges start sizes) i = Some r -> Permutation (f i) (slice samples r)) ->
  Permutation (concat (map f (seq 0 (List.length sizes)))) (concat (map (slice samples) (ranges start sizes))).
Proof.
  induction sizes as [|s t IH]; intros start f H; [constructor|].
  cbn [List.length seq map concat ranges]. rewrite <- seq_shift, map_map.
  apply Permutation_app; [apply (H 0); reflexivity|]. apply IH. intros i r E. apply (H (S i)). exact E.
Qed.

Lemma slice_nth {A} (l : list A) r i x : nth_error (slice l r) i = Some x -> nth_error l (fst r + i) = Some x /\ fst r + i < snd r.
Proof.
  unfold slice. intros E. assert (L : i < snd r - fst r).
  { assert (i < List.length (firstn (snd r - fst r) (skipn (fst r) l))) by (apply nth_error_Some; congruence).
    rewrite firstn_length in H. lia. }
  split; [|lia].
  assert (E2 : nth_error (skipn (fst r) l) i = Some x).
  { rewrite <- (firstn_skipn (snd r - fst r) (skipn (fst r) l)). rewrite nth_error_app1; [exact E|apply nth_error_Some; congruence]. }
  clear E. revert l E2. generalize (fst r). clear. induction n as [|n IH]; intros l E; [exact E|].
  destruct l; [destruct i; discriminate|]. cbn in *. apply IH, E.
Qed.

Fixpoint mapi {A B} (f : nat -> A -> B) (i : nat) (l : list A) : list B :=
  match l with [] => [] | a :: t => f i a :: mapi f (S i) t end.
Lemma mapi_nth {A B} (f : nat -> A -> B) l : forall i j, nth_error (mapi f i l) j = option_map (f (i + j)) (nth_error l j).
Proof.
  induction l as [|a l IH]; intros i [|j]; cbn; auto; [rewrite Nat.add_0_r; reflexivity|]. rewrite IH, Nat.add_succ_r. reflexivity.
Qed.
Lemma mapi_length {A B} (f : nat -> A -> B) l : forall i, List.length (mapi f i l) = List.length l.
Proof. induction l; intros i; cbn; auto. Qed.

Lemma read_samples_ok (m : mem) l : forall i, (forall j s, nth_error l j = Some s -> m (inl (i + j)) = Some (inl s)) ->
  read_samples m i (List.length l) = l.
Proof.
  induction l as [|a l IH]; intros i H; cbn; [reflexivity|].
  pose proof (H 0 a eq_refl) as H0. rewrite Nat.add_0_r in H0. rewrite H0. f_equal. apply IH.
  intros j s E. cbn. rewrite <- Nat.add_succ_r. apply H, E.
Qed.
Lemma read_scores_ok (m : mem) l : forall i, (forall j s, nth_error l j = Some s -> m (inr (i + j)) = Some (inr s)) ->
  read_scores m i (List.length l) = l.
Proof.
  induction l as [|a l IH]; intros i H; cbn; [reflexivity|].
  pose proof (H 0 a eq_refl) as H0. rewrite Nat.add_0_r in H0. rewrite H0. f_equal. apply IH.
  intros j s E. cbn. rewrite <- Nat.add_succ_r. apply H, E.
Qed.

Lemma scoring store n threads (t : tree N) constant samples (scores : list N) (leaf : nat -> N) :
  tree_fits store n t -> 1 <= threads -> NoDup samples ->
  (forall r, In r samples -> r < n /\ r < List.length scores) ->
  (forall r, In r samples -> routes store t r (leaf r)) ->
  exists slices samples' scores',
    score_slices (List.length samples) threads = Ret slices /\
    Permutation samples' samples /\ List.length scores' = List.length scores /\
    (forall r x, nth_error scores r = Some x ->
       nth_error scores' r = Some (if in_dec Nat.eq_dec r samples then nadd x (nadd (leaf r) constant) else x)) /\
    (forall s, ireach sloc_dec (score_tasks store t constant slices, score_mem samples scores) s ->
       (forall p, In p (fst s) -> ~ pfail p (snd s)) /\
       (all_done (fst s) \/ exists s', istep sloc_dec s s') /\
       (all_done (fst s) -> forall x, snd s x = score_mem samples' scores' x)) /\
    add_tree_scores store threads t constant (samples, scores) = Ret (samples', scores').
Proof.
  intros Fit Th ND Lt Ro. assert (G : 0 < threads * 5) by lia.
  pose proof (sizes_sum (List.length samples) (threads * 5) G) as Hs.
  assert (Hdiv : exists sizes, divide_samples (List.length samples) (threads * 5) = Ret (ranges 0 sizes) /\
                   list_sum sizes = List.length samples).
  { unfold divide_samples. rewrite divide_helper_ok by exact G. cbn [bind]. eexists. split; [reflexivity|exact Hs]. }
  clear Hs. destruct Hdiv as (sizes & Hdiv & Hs).
  set (rs := ranges 0 sizes) in *.
  set (f := fun r x => if in_dec Nat.eq_dec r samples then nadd x (nadd (leaf r) constant) else x).
  set (m := score_mem samples scores).
  (* every task alone *)
  set (P := fun i (b : list nat * mem) => forall r, nth_error rs i = Some r ->
        let l := slice samples r in
        runs (foot (fst r) l) (add_sample_tree_scores store t constant (fst r) (snd r - fst r)) m tt (snd b) /\
        seg (snd b) (fst r) (fst b) /\ Permutation (fst b) l /\
        forall q x, In q l -> nth_error scores q = Some x -> snd b (inr q) = Some (inr (f q x))).
  assert (Ex : forall i, i < List.length rs -> exists b, P i b).
  { intros i Li. apply nth_error_Some in Li. destruct (nth_error rs i) as [r|] eqn:Er; [|congruence]. clear Li.
    set (l := slice samples r).
    assert (Lr : fst r <= snd r <= List.length samples).
    { pose proof (nth_error_In _ _ Er) as I. apply ranges_valid in I. lia. }
    assert (Ll : List.length l = snd r - fst r).
    { unfold l, slice. rewrite firstn_length, skipn_length. lia. }
    assert (Il : forall q, In q l -> In q samples).
    { intros q I. apply In_nth_error in I. destruct I as [j J]. apply slice_nth in J. eapply nth_error_In. apply J. }
    destruct (add_runs store n constant t Fit (fst r) l m (fun q => nth q scores n0) leaf) as (l' & m' & R & S' & P' & Sc').
    - intros j q J. apply slice_nth in J. unfold m. cbn. destruct J as [-> _]. reflexivity.
    - apply NoDup_nth_error. intros i1 i2 L1 E1. apply nth_error_Some in L1.
      destruct (nth_error l i1) as [x|] eqn:X1; [|congruence]. symmetry in E1. apply slice_nth in X1. apply slice_nth in E1.
      destruct X1 as [X1 _], E1 as [E1 _].
      assert (fst r + i1 = fst r + i2); [|lia].
      apply (proj1 (NoDup_nth_error samples)); [exact ND|apply nth_error_Some; congruence|congruence].
    - intros q I. apply Lt, Il, I.
    - intros q I. unfold m. cbn. rewrite (nth_error_nth' scores n0); [reflexivity|]. apply Lt, Il, I.
    - intros q I. apply Ro, Il, I.
    - exists (l', m'). intros r' E'. assert (r' = r) by congruence. subst r'. cbn zeta. cbn [fst snd]. fold l. rewrite <- Ll.
      split; [exact R|]. split; [exact S'|]. split; [exact P'|]. intros q x I X. rewrite (Sc' q I).
      rewrite (nth_error_nth scores q n0 X). unfold f. destruct (in_dec Nat.eq_dec q samples) as [_|NI]; [reflexivity|].
      exfalso. apply NI, Il, I. }
  destruct (list_choice ([], m) (List.length rs) P Ex) as [b Hb]. clear Ex.
  set (samples' := concat (map (fun i => fst (b i)) (seq 0 (List.length sizes)))).
  set (scores' := mapi f 0 scores).
  set (F := fun i x => exists r, nth_error rs i = Some r /\ foot (fst r) (slice samples r) x).
  assert (Lrs : List.length rs = List.length sizes) by apply ranges_length.
  assert (Hrs : forall i r, nth_error rs i = Some r -> i < List.length rs) by (intros i r E; apply nth_error_Some; congruence).
  assert (Lsl : forall i r, nth_error rs i = Some r -> List.length (slice samples r) = snd r - fst r /\ fst r <= snd r <= List.length samples).
  { intros i r E. apply nth_error_In, ranges_valid in E. unfold slice. rewrite firstn_length, skipn_length. lia. }
  assert (Disj : forall i j x, F i x -> F j x -> i = j).
  { intros i j x (a & Ea & Fa) (c & Ec & Fc).
    destruct (Lsl i a Ea) as [La _]. destruct (Lsl j c Ec) as [Lc _].
    destruct Fa as [(p & -> & Pa)|(q & -> & Qa)], Fc as [(p' & X & Pc)|(q' & X & Qc)]; try discriminate.
    - injection X as X. eapply (ranges_disjoint sizes 0 i j a c (fst a + p)); [exact Ea|exact Ec|lia|lia].
    - injection X as <-. apply In_nth_error in Qa. destruct Qa as [ia Qa]. apply In_nth_error in Qc. destruct Qc as [ic Qc].
      apply slice_nth in Qa. apply slice_nth in Qc. destruct Qa as [Qa Ra], Qc as [Qc Rc].
      assert (fst a + ia = fst c + ic).
      { apply (proj1 (NoDup_nth_error samples)); [exact ND|apply nth_error_Some; congruence|congruence]. }
      eapply (ranges_disjoint sizes 0 i j a c (fst a + ia)); [exact Ea|exact Ec|lia|lia]. }
  assert (Tasks : forall i p, nth_error (score_tasks store t constant rs) i = Some p -> runs (F i) p m tt (snd (b i))).
  { intros i p E. unfold score_tasks in E. rewrite nth_error_map in E. destruct (nth_error rs i) as [r|] eqn:Er; [|discriminate].
    cbn in E. injection E as <-. destruct (Hb i (Hrs i r Er) r Er) as [R _].
    eapply runs_weaken; [|exact R]. intros x X. exists r. auto. }
  assert (Ltasks : List.length (score_tasks store t constant rs) = List.length rs) by apply map_length.
  assert (Psam : Permutation samples' samples).
  { unfold samples'. rewrite (perm_ranges samples sizes 0).
    - rewrite slices_cover by lia. reflexivity.
    - intros i r E. apply (Hb i (Hrs i r E) r E). }
  assert (Fin : forall s, ireach sloc_dec (score_tasks store t constant rs, m) s -> all_done (fst s) ->
            forall x, snd s x = score_mem samples' scores' x).
  { intros s R A. destruct (interleave sloc_dec F (fun i => snd (b i)) _ m s Disj Tasks R) as (_ & _ & D).
    destruct (D A) as [D1 D2]. rewrite Ltasks in D1, D2. clear D.
    assert (Sg : seg (snd s) 0 samples').
    { apply seg_ranges. intros i r E. destruct (Hb i (Hrs i r E) r E) as (_ & S1 & S2 & _).
      destruct (Lsl i r E) as [L1 _]. pose proof (Permutation_length S2) as Lp. split; [|congruence].
      intros j q J. rewrite (D1 i); [apply S1, J|exact (Hrs i r E)|]. exists r. split; [exact E|]. left. exists j. split; [reflexivity|].
      rewrite <- Lp. apply nth_error_Some. congruence. }
    intros [p|q]; cbn [score_mem].
    - destruct (nth_error samples' p) as [x|] eqn:E; [exact (Sg p x E)|]. cbn.
      rewrite D2.
      + unfold m. cbn. apply nth_error_None in E. rewrite (Permutation_length Psam) in E.
        apply nth_error_None in E. rewrite E. reflexivity.
      + intros i Li (r & Er & [(j & X & J)|(q & X & _)]); [|discriminate]. injection X as ->.
        destruct (Lsl i r Er). apply nth_error_None in E. rewrite (Permutation_length Psam) in E. lia.
    - unfold scores'. rewrite mapi_nth. cbn [plus]. destruct (in_dec Nat.eq_dec q samples) as [I|NI].
      + destruct (Lt q I) as [_ Lq]. apply nth_error_Some in Lq. destruct (nth_error scores q) as [x|] eqn:Ex; [|congruence].
        cbn. apply In_nth_error in I. destruct I as [p Ep].
        destruct (ranges_hit sizes 0 p) as (i & r & Er & Hp).
        { cbn. rewrite Hs. split; [lia|]. apply nth_error_Some. congruence. }
        assert (Iq : In q (slice samples r)).
        { unfold slice. assert (nth_error (skipn (fst r) samples) (p - fst r) = Some q).
          { rewrite <- Ep. clear - Hp. destruct Hp as [Hp _]. revert p Hp. generalize (fst r). intros k. revert samples.
            induction k as [|k IH]; intros l p Hp; [rewrite Nat.sub_0_r; reflexivity|].
            destruct l as [|a l]; [cbn [skipn]; rewrite !(proj2 (nth_error_None _ _)) by (cbn; lia); reflexivity|]. destruct p as [|p]; [lia|]. cbn. apply IH. lia. }
          eapply nth_error_In with (n := p - fst r).
          rewrite <- (firstn_skipn (snd r - fst r) (skipn (fst r) samples)) in H.
          rewrite nth_error_app1 in H; [exact H|]. destruct (Lsl i r Er) as [L1 _]. unfold slice in L1. lia. }
        rewrite (D1 i); [|exact (Hrs i r Er)|exists r; split; [exact Er|right; exists q; auto]].
        destruct (Hb i (Hrs i r Er) r Er) as (_ & _ & _ & S3). exact (S3 q x Iq Ex).
      + rewrite D2.
        * unfold m. cbn. destruct (nth_error scores q); cbn; [|reflexivity]. unfold f.
          destruct (in_dec Nat.eq_dec q samples); [contradiction|reflexivity].
        * intros i Li (r & Er & [(j & X & J)|(q' & X & Q)]); [discriminate|]. injection X as <-.
          apply NI. apply In_nth_error in Q. destruct Q as [j Q]. apply slice_nth in Q. eapply nth_error_In. apply Q. }
  exists rs, samples', scores'. split; [exact Hdiv|]. split; [exact Psam|]. split; [apply mapi_length|].
  split; [intros r x E; unfold scores'; rewrite mapi_nth, E; reflexivity|].
  split.
  - intros s R. destruct (interleave sloc_dec F (fun i => snd (b i)) _ m s Disj Tasks R) as (D1 & D2 & _).
    split; [exact D1|]. split; [exact D2|]. apply Fin, R.
  - destruct (sequential sloc_dec F (fun i => snd (b i)) (score_tasks store t constant rs) [] m m Disj Tasks) as (m' & E & R).
    { reflexivity. }
    assert (A : all_done (map (fun _ : prog unit => PRet tt) (score_tasks store t constant rs) : list (prog unit))).
    { intros p I. apply in_map_iff in I. destruct I as (x & <- & _). reflexivity. }
    pose proof (Fin _ R A) as X. cbn [snd] in X.
    unfold add_tree_scores, score_slices. rewrite Hdiv. cbn [bind]. fold m. rewrite E. cbn [bind]. f_equal. f_equal.
    + rewrite <- (Permutation_length Psam). apply read_samples_ok. intros j s J. cbn [plus]. rewrite X. cbn. rewrite J. reflexivity.
    + rewrite <- (mapi_length f scores 0). apply read_scores_ok. intros j s J. cbn [plus]. rewrite X. cbn. fold scores' in J. rewrite J. reflexivity.
Qed.

(** ** Statements for the property file *)
Lemma partition_spec c (sp : split N) n start l (m : mem) : has_rows c n -> fits_kind c sp ->
  (forall r, In r l -> r < n) -> seg m start l ->
  exists bf right m', (forall r, In r l -> goes_left c sp r (bf r)) /\
    run sloc_dec (partition c sp start (List.length l)) m = Ret (List.length (filter bf l), m') /\
    seg m' start (filter bf l ++ right) /\ Permutation right (filter (fun r => negb (bf r)) l) /\
    (forall x, ~ in_seg start (List.length l) x -> m' x = m x).
Proof.
  intros H K Lt S. destruct (choice_bool (goes_left c sp) l) as [bf Bf].
  { intros r I. exact (goes_left_total c sp n r H K (Lt r I)). }
  destruct (partition_runs c sp n start l m bf H K Bf S) as (right & m' & R & S' & P).
  exists bf, right, m'. split; [exact Bf|]. split; [exact (runs_run _ _ _ _ _ _ R)|]. split; [exact S'|]. split; [exact P|].
  exact (runs_frame _ _ _ _ _ _ R).
Qed.

Lemma partition_wrong_kind c (sp : split N) start len (m : mem) : ~ fits_kind c sp ->
  run sloc_dec (partition c sp start len) m = Fatal.
Proof.
  destruct c as [nm [b|r|s]]; unfold fits_kind, partition, split_check; cbn [c_body].
  - intros K. destruct (sp_float sp) as [x|]; [exfalso; apply K; discriminate|reflexivity].
  - tauto.
  - intros K. destruct (sp_cat sp) as [x|]; [exfalso; apply K; discriminate|reflexivity].
Qed.

Lemma scoring_all store n threads (t : tree N) constant samples (scores : list N) :
  tree_fits store n t -> 1 <= threads -> Permutation samples (seq 0 n) -> List.length scores = n ->
  exists slices samples' scores',
    score_slices (List.length samples) threads = Ret slices /\
    Permutation samples' (seq 0 n) /\ List.length scores' = n /\
    (forall row x s, nth_error scores row = Some x -> routes store t row s ->
       nth_error scores' row = Some (nadd x (nadd s constant))) /\
    (forall s, ireach sloc_dec (score_tasks store t constant slices, score_mem samples scores) s ->
       (forall p, In p (fst s) -> ~ pfail p (snd s)) /\
       (all_done (fst s) \/ exists s', istep sloc_dec s s') /\
       (all_done (fst s) -> forall x, snd s x = score_mem samples' scores' x)) /\
    add_tree_scores store threads t constant (samples, scores) = Ret (samples', scores').
Proof.
  intros Fit Th P L. assert (Rows : forall r, In r samples <-> r < n) by (intros r; rewrite P, in_seq; lia).
  destruct (list_choice n0 n (fun r s => routes store t r s)) as [leaf Hl].
  { intros r R. exact (routes_total _ _ _ _ Fit R). }
  destruct (scoring store n threads t constant samples scores leaf Fit Th) as (sl & samples' & scores' & S & P' & L' & E & R & A).
  - apply (Permutation_NoDup (Permutation_sym P)), seq_NoDup.
  - intros r I. apply Rows in I. lia.
  - intros r I. apply Hl, Rows, I.
  - exists sl, samples', scores'. split; [exact S|]. split; [rewrite P'; exact P|]. split; [congruence|]. split; [|auto].
    intros row x s X Ro. rewrite (E row x X). assert (Lr : row < n) by (rewrite <- L; apply nth_error_Some; congruence).
    destruct (in_dec Nat.eq_dec row samples) as [_|NI]; [|exfalso; apply NI, Rows, Lr].
    rewrite (routes_fun _ _ _ _ _ _ Fit (Hl row Lr) Ro). reflexivity.
Qed.

Lemma routes_unique store n (t : tree N) row : tree_fits store n t -> row < n -> exists! s, routes store t row s.
Proof.
  intros F R. destruct (routes_total _ _ _ _ F R) as [s S]. exists s. split; [exact S|].
  intros s' S'. exact (routes_fun _ _ _ _ _ _ F S S').
Qed.
End Score.
