(** PyTsv_proofs.v - loading TSV files from Python. *)
From Coq Require Import SpecFloat.
From Verif Require Import Base Base_proofs F32 F32_proofs Column ColumnSpec ColumnStr_proofs ColumnProps_proofs DataStore DataStore_proofs Strings StringsSpec
  Tsv TsvSpec Tsv_proofs TsvLoad_proofs TsvProps_proofs Python PythonSpec Python_proofs Slice_proofs TextSpec Text_proofs PyTsv PyTsvSpec.
Notation holds := PythonSpec.holds.

Lemma apart {A} (l1 l2 : list A) : NoDup (l1 ++ l2) -> NoDup l2 /\ forall x, In x l1 -> ~ In x l2.
Proof.
  induction l1 as [|a l1 IH]; cbn; intros N; [auto|]. inversion_clear N as [|? ? Ni N']. destruct (IH N') as [N2 D]. split; [exact N2|].
  intros x [<-|I]; [|exact (D x I)]. intros X. apply Ni. apply in_app_iff. auto.
Qed.
Lemma in_forall2_r {A B} (P : A -> B -> Prop) l l' b : Forall2 P l l' -> In b l' -> exists a, In a l /\ P a b.
Proof. induction 1 as [|x y l l' H F IH]; intros I; [destruct I|]. destruct I as [<-|I]; [exists x; cbn; auto|]. destruct (IH I) as (a & Ia & Pa). exists a. cbn. auto. Qed.

Section S.
Context (fs : files_t) (strtof : strtof_t) (q : request).
Definition cfg : columns_config := py_tsv_config (rq_buckets q) (rq_raws q) (rq_strings q).
Lemma cfg_names : all_names cfg = asked_names q.
Proof. unfold all_names, float_column_names, string_column_names, cfg, py_tsv_config, asked_names. cbn. rewrite app_nil_r, app_assoc. reflexivity. Qed.
Lemma cfg_role n k : role_of cfg n k <-> asked q n (type_for k).
Proof. unfold role_of, cfg, py_tsv_config, asked. destruct k; cbn; split; tauto. Qed.
Lemma type_kind t : exists k, t = type_for k.
Proof. destruct t; [exists KB|exists KR|exists KS]; reflexivity. Qed.
Lemma asked_in n : In n (asked_names q) <-> exists t, asked q n t.
Proof.
  unfold asked_names. rewrite !in_app_iff. split.
  - intros [H|[H|H]]; [exists TBucketized|exists TRaw|exists TString]; exact H.
  - intros [[| |] H]; cbn in H; tauto.
Qed.
Lemma sensible_present first : sensible fs first q -> names_present fs first cfg /\ NoDup (all_names cfg).
Proof. intros (H & N & P). unfold names_present. rewrite cfg_names. auto. Qed.

Lemma setup_keys hdr todo : forall t t', setup_all hdr todo t = POk t' -> map fst (t_map t') = rev (map snd todo) ++ map fst (t_map t).
Proof.
  induction todo as [|[k n] todo IH]; intros t t' E; cbn in E; [injection E as <-; reflexivity|].
  destruct (setup_one hdr k t n) as [e|t1] eqn:E1; [discriminate|]. rewrite (IH _ _ E). cbn. rewrite <- app_assoc. f_equal.
  unfold setup_one in E1. destruct (assoc n hdr); [|discriminate]. destruct k; injection E1 as <-; reflexivity.
Qed.

(** The store of a loaded object *)
Lemma store_get t n : NoDup (map fst (t_map t)) -> ds_get n (tsv_store t) = tsv_get n t.
Proof.
  unfold tsv_get, tsv_store, ds_get. generalize (t_map t). intros m. induction m as [|[a id] m IH]; intros N; [reflexivity|].
  inversion_clear N as [|? ? Ni N']. cbn [flat_map fst snd assoc].
  assert (Hn : forall n, ~ In n (map fst m) -> assoc n (flat_map (fun p => match nth_error (t_heap t) (snd p) with Some (Some c) => [(fst p, c)] | _ => [] end) m) = None).
  { clear. intros n. induction m as [|[b i] m IH]; intros H; [reflexivity|]. cbn [flat_map fst snd]. cbn in H.
    destruct (nth_error (t_heap t) i) as [[c|]|]; cbn; try (apply IH; tauto). destruct (str_eqb_spec n b) as [E|E]; [subst; tauto|apply IH; tauto]. }
  destruct (str_eqb n a) eqn:E.
  - assert (n = a) as -> by (destruct (str_eqb_spec n a); congruence). destruct (nth_error (t_heap t) id) as [[c|]|]; cbn [app]; [cbn; rewrite str_eqb_refl; reflexivity|apply Hn; exact Ni..].
  - destruct (nth_error (t_heap t) id) as [[c|]|]; cbn [app]; [cbn; rewrite E|..]; apply IH; exact N'.
Qed.
Lemma store_keys t : NoDup (map fst (t_map t)) -> NoDup (map fst (tsv_store t)).
Proof.
  unfold tsv_store. generalize (t_map t). intros m. induction m as [|[a id] m IH]; intros N; [constructor|]. inversion_clear N as [|? ? Ni N'].
  cbn [flat_map fst snd]. destruct (nth_error (t_heap t) id) as [[c|]|]; cbn; [|exact (IH N')..]. constructor; [|exact (IH N')].
  intros H. apply Ni. apply in_map_iff in H. destruct H as ([b c'] & E & H). cbn in E. subst b.
  apply in_flat_map in H. destruct H as ([b i] & H & X). cbn in X. destruct (nth_error (t_heap t) i) as [[c1|]|]; [|contradiction..]. destruct X as [X|[]]. injection X as -> _.
  apply in_map_iff. exists (a, i). auto.
Qed.

Lemma load_keys files first more s0 t : files = first :: more -> sensible fs first q -> load_start fs files cfg = Ret s0 ->
  lreach fs strtof files s0 (Done SOk t) -> NoDup (map fst (t_map t)) /\ forall n, In n (map fst (t_map t)) <-> In n (asked_names q).
Proof.
  intros Ef S E0 R. destruct (sensible_present first S) as [P N].
  destruct (setup_ok fs first cfg P N) as (headers & t0 & fp & sp & Es & I & _).
  pose proof (setup_wf _ _ _ I) as W.
  assert (s0 = Running (map (fun _ => None) files) 0 t0) as ->.
  { subst files. unfold load_start in E0. rewrite Es in E0. cbn [bind] in E0. injection E0 as <-. auto. }
  destruct (linv_reach fs strtof files t0 W _ _ (linv_start fs strtof files t0 W) R) as (bl & hp & _ & -> & _). cbn [with_heap t_map].
  assert (map fst (t_map t0) = rev (asked_names q)) as ->.
  { clear R W I. unfold setup_columns in Es. destruct (fs first) as [content|]; [|discriminate]. destruct (file_lines content) as [|line rest]; [discriminate|].
    apply bind_ret in Es. destruct Es as (h & _ & Es). injection Es as Es. rewrite (setup_keys _ _ _ _ Es). cbn [tsv_init t_map map]. rewrite app_nil_r, role_names, cfg_names. reflexivity. }
  split; [apply NoDup_rev; rewrite <- cfg_names; exact N|]. intros n. symmetry. apply in_rev.
Qed.

(** A loaded column holds its cells. *)
Lemma value_floats t i lines vs : t <> TString -> Forall2 (fun line v => exists x, cell line i = Some x /\ float_value strtof x = Some v) lines vs ->
  Forall2 (value_at strtof t i) lines (map (fun x => VFloat x) vs).
Proof.
  intros T F. induction F as [|l v ls vs (x & C & V) F IH]; cbn; constructor; [|exact IH]. exists x. split; [exact C|]. destruct t; [eauto..|congruence].
Qed.
Lemma value_strings i lines vs : Forall2 (fun line x => cell line i = Some x) lines vs -> Forall2 (value_at strtof TString i) lines (map (fun x => VString x) vs).
Proof. intros F. induction F as [|l v ls vs C F IH]; cbn; constructor; [|exact IH]. exists v. auto. Qed.
Lemma floats_vfloat l : floats_of (map (fun x => VFloat x) l) = l.
Proof. induction l as [|x l IH]; [reflexivity|]. unfold floats_of in *. cbn. f_equal. exact IH. Qed.

Lemma held_made k i lines b n : column_holds strtof k i lines b -> (zlen (concat lines) < 2147483648)%Z ->
  exists cells, Forall2 (value_at strtof (type_for k) i) (concat lines) cells /\ made n (type_for k) cells (mkCol n b).
Proof.
  intros H L. destruct k, b as [b|b|b]; cbn in H; try tauto; destruct H as (blocks & F & E).
  - apply float_rows in F. pose proof (rows_length _ _ _ F) as LB. exists (map (fun x => VFloat x) (concat blocks)). split; [apply value_floats; [discriminate|exact F]|].
    split; [reflexivity|]. split; [reflexivity|]. assert (zlen (concat blocks) < 4294967294)%Z as LF by (unfold zlen in *; lia).
    destruct (bucketized_size_missing default_buckets blocks b limit_default LF E) as (_ & Sz & _).
    pose proof (rows_loaded default_buckets blocks b limit_default LF E) as RD.
    destruct (list_of_rows (fun i v => exists x, v = VFloat x /\ b_row_min b i = Ret x) (List.length (concat blocks))) as (shown & SL & Sh).
    { intros j J. destruct (nth_error (concat blocks) j) as [v|] eqn:Ej; [|apply nth_error_None in Ej; lia]. destruct (RD j v Ej) as (x & X & _). eauto. }
    exists shown. rewrite map_length. split; [|split; [exact SL|]].
    { cbn. rewrite SL. split; [exact Sz|exact Sh]. }
    intros [X|[L6 BI]]; [cbn in X; congruence|]. rewrite floats_vfloat in BI. unfold zlen in L6. rewrite map_length in L6. cbn. apply forall2_nth; [rewrite map_length; lia|].
    intros j a w Ea Ew. destruct (Sh j w Ew) as (x & -> & X). rewrite nth_error_map in Ea. destruct (nth_error (concat blocks) j) as [v|] eqn:Ej; [|discriminate]. injection Ea as <-. cbn.
    destruct (is_nan v) eqn:Nv.
    + right. destruct (RD j v Ej) as (x' & X' & Nx). assert (x' = x) as -> by congruence. auto.
    + left. destruct (bucketized_lossless default_buckets blocks b limit_default) with (i := j) (v := v) as (lo & hi & Lo & _ & Fl & _); try assumption.
      assert (lo = x) as -> by congruence. ford.
  - apply float_rows in F. subst b. exists (map (fun x => VFloat x) (concat blocks)). split; [apply value_floats; [discriminate|exact F]|].
    split; [reflexivity|]. split; [reflexivity|]. exists (map (fun x => VFloat x) (concat blocks)). split; [|split; [reflexivity|intros _; reflexivity]].
    cbn. rewrite map_length. split; [reflexivity|]. intros j v Ev. rewrite nth_error_map in Ev. destruct (nth_error (concat blocks) j) as [x|] eqn:X; [|discriminate].
    injection Ev as <-. exists x. split; [reflexivity|]. unfold r_get. cbn. apply vget_some. exact X.
  - apply string_rows in F. pose proof (rows_length _ _ _ F) as LB. exists (map (fun x => VString x) (concat blocks)). split; [apply value_strings; exact F|].
    split; [reflexivity|]. split; [reflexivity|]. exists (map (fun x => VString x) (concat blocks)). split; [|split; [reflexivity|intros _; reflexivity]].
    assert (fits_32_bits (concat blocks)) as Ft.
    { unfold fits_32_bits. assert (List.length (nodup str_eq_dec (missing_str :: concat blocks)) <= List.length (missing_str :: concat blocks)) as X.
      { apply NoDup_incl_length; [apply NoDup_nodup|]. intros x Ix. apply nodup_In in Ix. exact Ix. }
      cbn [List.length] in X. unfold zlen in *. lia. }
    destruct (string_column_roundtrip blocks Ft) as (_ & Sz & Rw). subst b. cbn. rewrite map_length. split; [exact Sz|].
    intros j v Ev. rewrite nth_error_map in Ev. destruct (nth_error (concat blocks) j) as [x|] eqn:X; [|discriminate]. injection Ev as <-.
    exists x. split; [reflexivity|]. apply Rw. exact X.
Qed.

Lemma reach_first a b c : lreach fs strtof a b c -> forall z, lstep fs strtof a z b -> lreach fs strtof a z c.
Proof. induction 1 as [s|s1 s2 s3 H IH X]; intros z Z; [eapply LStep; [apply LRefl|exact Z]|]. eapply LStep; [apply IH; exact Z|exact X]. Qed.
Lemma complete_run files c s0 : load_start fs files c = Ret s0 -> exists s, lreach fs strtof files s0 s /\ lfinal s.
Proof.
  intros E. assert (forall s, lreach fs strtof files s0 s -> exists s', lreach fs strtof files s s' /\ lfinal s') as H; [|exact (H s0 (LRefl _ _ _ _))].
  intros s. pattern s. apply (well_founded_ind (lstep_wf fs strtof files)). clear s. intros s IH R.
  destruct (load_progress fs strtof files c s0 s E R) as [F|(s' & S)]; [exists s; split; [apply LRefl|exact F]|].
  destruct (IH s' S) as (f & Rf & Ff); [eapply LStep; eassumption|]. exists f. split; [eapply reach_first; eassumption|exact Ff].
Qed.

Lemma err_unreadable fp sp h f e : read_tsv fs strtof f fp sp h = Ret (PErr e) -> exists x, throws (SErr e) = Some x /\ unreadable fs strtof fp sp h f x.
Proof.
  intros E. destruct (fs f) as [content|] eqn:Ec.
  - destruct (tsv_block fs strtof f content fp sp h Ec) as (b & Eb & H). rewrite E in Eb. injection Eb as <-.
    destruct H as (pre & line & post & D & G & _ & [[-> C]|[-> [_ C]]]).
    + exists OutOfRange. split; [reflexivity|]. right. exists content, pre, line, post. auto 10.
    + exists InvalidArgument. split; [reflexivity|]. right. exists content, pre, line, post. auto 10.
  - unfold read_tsv in E. rewrite Ec in E. injection E as <-. exists IosFailure. split; [reflexivity|]. left. auto.
Qed.
Lemma ok_readable fp sp h f blk : read_tsv fs strtof f fp sp h = Ret (POk blk) -> readable fs strtof fp sp h f.
Proof.
  intros E. destruct (fs f) as [content|] eqn:Ec; [|unfold read_tsv in E; rewrite Ec in E; discriminate].
  exists content. split; [exact Ec|]. apply (tsv_block_success fs strtof f content fp sp h _ Ec E). destruct blk. eauto.
Qed.

Definition goes (tsvs : list str) (first : str) (d : pystore) (out : res (option exc * pystore)) : Prop :=
  match out with
  | Ret (None, d') => exists lines, lines_of fs true tsvs lines /\
      ((zlen (concat lines) < 2147483648)%Z -> text_held fs strtof first q (concat lines) d')
  | Ret (Some e, d') => d' = d /\ first_unreadable fs strtof tsvs first q e
  | Undef => exists n i, In n (rq_buckets q) /\ header_position fs first n i /\ bucketizing_fails fs strtof tsvs i
  | Fatal => False
  end.
Theorem load_outcome tsvs first more d : tsvs = first :: more -> sensible fs first q ->
  exists out, py_load fs strtof tsvs (rq_buckets q) (rq_raws q) (rq_strings q) d out /\
  (forall out', py_load fs strtof tsvs (rq_buckets q) (rq_raws q) (rq_strings q) d out' -> out' = out) /\ goes tsvs first d out.
Proof.
  intros Ef S. destruct (sensible_present first S) as [P N]. destruct (load_result fs strtof tsvs first more cfg Ef P N) as (s0 & E0 & H).
  destruct (complete_run tsvs cfg s0 E0) as (s & R & F). exists (py_after_load s d). unfold py_load. fold cfg. rewrite E0. split; [eauto|]. split.
  { intros out' (s' & R' & F' & ->). f_equal. exact (load_deterministic fs strtof tsvs first more cfg s0 s' s Ef P N E0 R' R F' F). }
  specialize (H s R F). destruct s as [? ? ?|[|e] t|]; [contradiction|..].
  - destruct H as (lines & Hl & Hc). cbn. exists lines. split; [exact Hl|]. intros L.
    destruct (load_keys tsvs first more s0 t Ef S E0 R) as [ND Ks]. split.
    + intros n t' A. destruct (type_kind t') as [k ->]. destruct (Hc n k) as (i & b & Hp & G & Hb); [apply cfg_role; exact A|].
      destruct (held_made k i lines b n Hb L) as (cells & V & M). exists i, cells, (mkCol n b). split; [exact Hp|]. split; [exact V|]. split; [|exact M].
      cbn. rewrite store_get by exact ND. exact G.
    + intros n A. cbn. rewrite store_get by exact ND. unfold tsv_get. destruct (assoc n (t_map t)) as [id|] eqn:Ea; [|reflexivity].
      exfalso. apply A. apply Ks. apply assoc_in in Ea. apply in_map_iff. exists (n, id). auto.
  - destruct H as (fp & sp & m & f & Pf & Ps & Em & Er & G). destruct (err_unreadable _ _ _ _ _ Er) as (x & T & U). cbn [py_after_load]. rewrite T. split; [reflexivity|].
    unfold float_positions, string_positions, float_column_names, string_column_names, cfg, py_tsv_config in Pf, Ps. cbn in Pf, Ps. rewrite app_nil_r in Pf.
    exists fp, sp, m, f. split; [exact Pf|]. split; [exact Ps|]. split; [exact Em|]. split; [exact U|].
    intros i g Li Eg. destruct (G i g Li Eg) as (blk & Eb). exact (ok_readable _ _ _ _ _ Eb).
  - exact H.
Qed.

(** ** The data frame *)
Lemma loaded_store tsvs first more d d' : tsvs = first :: more -> sensible fs first q ->
  py_load fs strtof tsvs (rq_buckets q) (rq_raws q) (rq_strings q) d (Ret (None, d')) ->
  exists m lines, d' = Some m /\ NoDup (map fst m) /\ lines_of fs true tsvs lines /\
    ((zlen (concat lines) < 2147483648)%Z -> text_held fs strtof first q (concat lines) (Some m)).
Proof.
  intros Ef S L. destruct (load_outcome tsvs first more d Ef S) as (out & _ & U & G). pose proof (U _ L) as <-. cbn in G. destruct G as (lines & Hl & T).
  destruct (sensible_present first S) as [P N]. destruct (load_result fs strtof tsvs first more cfg Ef P N) as (s0 & E0 & H).
  unfold py_load in L. fold cfg in L. rewrite E0 in L. destruct L as (s & R & F & E). specialize (H s R F).
  destruct s as [? ? ?|[|e] t|]; [contradiction|..]; cbn in E.
  - injection E as ->. exists (tsv_store t), lines. split; [reflexivity|]. split; [|auto]. apply store_keys. apply (load_keys tsvs first more s0 t Ef S E0 R).
  - exfalso. destruct H as (fp & sp & m & f & _ & _ & _ & Er & _). destruct (err_unreadable _ _ _ _ _ Er) as (x & X & _). cbn in X. destruct e; congruence.
  - discriminate.
Qed.
Lemma forall2_map {A B C} (P : B -> C -> Prop) (f : A -> B) (g : A -> C) l : (forall a, In a l -> P (f a) (g a)) -> Forall2 P (map f l) (map g l).
Proof. induction l as [|a l IH]; intros H; cbn; constructor; [apply H; left; reflexivity|apply IH; intros b Hb; apply H; right; exact Hb]. Qed.

Lemma table_of_text first m lines : NoDup (map fst m) -> text_held fs strtof first q lines (Some m) -> 
  forall n c, ds_get n m = Some c -> c_name c = n /\ exists t i cells, asked q n t /\ header_position fs first n i /\ Forall2 (value_at strtof t i) lines cells /\ made n t cells c.
Proof.
  intros ND [T1 T2] n c G. destruct (in_dec str_eq_dec n (asked_names q)) as [A|A].
  - apply asked_in in A. destruct A as [t A]. destruct (T1 n t A) as (i & cells & c' & Hp & V & G' & M). cbn in G'. rewrite G in G'. injection G' as <-.
    split; [apply M|]. exists t, i, cells. auto.
  - apply T2 in A. cbn in A. congruence.
Qed.
Lemma header_unique first n i j : header_position fs first n i -> header_position fs first n j -> i = j.
Proof.
  intros (c1 & l1 & r1 & F1 & T1 & (x1 & C1 & X1) & M1) (c2 & l2 & r2 & F2 & T2 & (x2 & C2 & X2) & M2).
  rewrite F1 in F2. injection F2 as <-. rewrite T1 in T2. injection T2 as <- <-. pose proof (M1 _ _ C2 X2). pose proof (M2 _ _ C1 X1). lia.
Qed.
Lemma asked_type n t t' : NoDup (asked_names q) -> asked q n t -> asked q n t' -> t = t'.
Proof.
  unfold asked_names, asked. intros ND. apply apart in ND. destruct ND as (ND & D1). apply apart in ND. destruct ND as (_ & D2).
  assert (forall n, In n (rq_buckets q) -> ~ In n (rq_raws q) /\ ~ In n (rq_strings q)) as D3 by (intros x X; pose proof (D1 x X) as Y; rewrite in_app_iff in Y; tauto).
  intros A B. destruct t, t'; try reflexivity; exfalso; try (destruct (D3 _ A); tauto); try (destruct (D3 _ B); tauto); try exact (D2 _ A B); try exact (D2 _ B A).
Qed.

Theorem load_frame tsvs first more d d' : tsvs = first :: more -> sensible fs first q ->
  py_load fs strtof tsvs (rq_buckets q) (rq_raws q) (rq_strings q) d (Ret (None, d')) ->
  exists lines, lines_of fs true tsvs lines /\
  ((zlen (concat lines) < 2147483648)%Z ->
   (asked_names q <> [] -> forall beg, py_num_rows beg d' = Ret (List.length (concat lines))) /\
   exists l, py_frame d' l /\ (forall l', py_frame d' l' -> l' = l) /\ frame_held fs strtof first q (concat lines) l).
Proof.
  intros Ef S L. destruct (loaded_store tsvs first more d d' Ef S L) as (m & lines & -> & ND & Hl & T). exists lines. split; [exact Hl|]. intros Lt. specialize (T Lt).
  pose proof (table_of_text first m (concat lines) ND T) as Tb.
  assert (K : forall n c, ds_get n m = Some c -> c_name c = n) by (intros n c G; exact (proj1 (Tb n c G))).
  split.
  { intros Ne beg. cbn. assert (m <> []) as Nm.
    { intros ->. destruct (asked_names q) as [|n l] eqn:Ea; [congruence|]. assert (In n (asked_names q)) as A by (rewrite Ea; left; reflexivity).
      apply asked_in in A. destruct A as [t A]. destruct (proj1 T n t A) as (i & cells & c & _ & _ & G & _). discriminate. }
    destruct (num_rows_in beg m Nm) as (n & c & I & ->). apply in_assoc in I; [|exact ND].
    destruct (Tb n c I) as (_ & t & i & cells & _ & _ & V & (_ & _ & shown & Hs & Ls & _)). rewrite (holds_size c shown Hs), Ls, (rows_length _ _ _ V). reflexivity. }
  assert (Sh : forall c, In c (py_cols (Some m)) -> exists t i cells shown, asked q (c_name c) t /\ header_position fs first (c_name c) i /\
     Forall2 (value_at strtof t i) (concat lines) cells /\ holds c shown /\ List.length shown = List.length (concat lines) /\
     (t <> TBucketized \/ ((zlen cells < 60000)%Z /\ below_inf (floats_of cells)) -> same_values t cells shown)).
  { intros c I. apply (in_cols m c ND K) in I. destruct (Tb _ c I) as (_ & t & i & cells & A & Hp & V & (_ & _ & shown & Hs & Ls & Sm)).
    exists t, i, cells, shown. rewrite Ls, (rows_length _ _ _ V). auto 10. }
  assert (Ex : exists l, Forall2 (fun c kv => fst kv = c_name c /\ py_iter c 0 (snd kv) /\ exists t i cells, asked q (c_name c) t /\ header_position fs first (c_name c) i /\
     Forall2 (value_at strtof t i) (concat lines) cells /\ List.length (snd kv) = List.length (concat lines) /\
     (t <> TBucketized \/ ((zlen cells < 60000)%Z /\ below_inf (floats_of cells)) -> same_values t cells (snd kv))) (py_cols (Some m)) l).
  { clear - Sh Lt. revert Sh. generalize (py_cols (Some m)). intros cs. induction cs as [|c cs IH]; intros Sh; [exists []; constructor|].
    destruct IH as [l F]; [intros x X; apply Sh; right; exact X|]. destruct (Sh c (or_introl eq_refl)) as (t & i & cells & shown & A & Hp & V & Hs & Ls & Sm).
    exists ((c_name c, shown) :: l). constructor; [|exact F]. cbn [fst snd]. split; [reflexivity|]. split; [|exists t, i, cells; auto 10].
    apply (iter_list c shown shown Hs); [unfold zlen in *; lia|reflexivity]. }
  destruct Ex as [l F]. exists l. split; [|split].
  - unfold py_frame. clear - F. induction F as [|c kv cs l (A & B & _) F IH]; constructor; auto.
  - intros l' F'. unfold py_frame in F'. clear - F F'. revert l F. induction F' as [|c kv cs l' (A & B) F' IH]; intros l F; inversion F as [|c' kv' cs' l0 (A' & B' & _) F0]; subst; [reflexivity|].
    f_equal; [|exact (IH _ F0)]. destruct kv as [k v], kv' as [k' v']. cbn in *. subst. f_equal. exact (iter_det c _ _ B _ B').
  - assert (Nm : map fst l = map c_name (py_cols (Some m))).
    { clear - F. induction F as [|c kv cs l (A & _) F IH]; [reflexivity|]. cbn. congruence. }
    split; [rewrite Nm; exact (cols_nodup m ND K)|]. split.
    + intros n. rewrite Nm, in_map_iff. split.
      * intros (c & <- & I). destruct (Sh c I) as (t & _ & _ & _ & A & _). apply asked_in. eauto.
      * intros A. apply asked_in in A. destruct A as [t A]. destruct (proj1 T n t A) as (i & cells & c & _ & _ & G & _). exists c. cbn in G.
        pose proof (K _ _ G) as Kc. split; [exact Kc|]. apply (in_cols m c ND K). rewrite Kc. exact G.
    + intros n t vals I A. destruct (in_forall2_r _ _ _ _ F I) as (c & _ & E & _ & t' & i & cells & A' & Hp & V & Lv & Sm). cbn [fst snd] in *. subst n.
      destruct S as (_ & NDq & _). pose proof (asked_type _ _ _ NDq A A') as <-. exists i, cells. auto.
Qed.
End S.

(** ** Requests that fail at once *)
Lemma stays fs strtof files e t s : lreach fs strtof files (Done e t) s -> s = Done e t.
Proof.
  intros R. remember (Done e t) as s0 eqn:E0. rewrite E0. revert E0. induction R as [x|s1 s2 s3 R IH X]; intros E0; [exact E0|].
  rewrite (IH E0) in X. inversion X.
Qed.
Lemma no_files fs strtof b r s d out : py_load fs strtof [] b r s d out <-> out = Ret (Some InvalidArgument, d).
Proof.
  unfold py_load. cbn. split.
  - intros (st & R & _ & ->). rewrite (stays _ _ _ _ _ _ R). reflexivity.
  - intros ->. eexists. split; [apply LRefl|]. split; [exact I|reflexivity].
Qed.
Lemma no_title fs strtof tsvs first more q d out : tsvs = first :: more -> has_header fs first ->
  (exists n, In n (asked_names q) /\ forall i, ~ header_position fs first n i) ->
  (py_load fs strtof tsvs (rq_buckets q) (rq_raws q) (rq_strings q) d out <-> out = Ret (Some IosFailure, d)).
Proof.
  intros Ef H M. pose proof (missing_name fs tsvs first more (cfg q) Ef H) as X. rewrite cfg_names in X. specialize (X M). unfold py_load. fold (cfg q). rewrite X. split.
  - intros (s & R & _ & ->). rewrite (stays _ _ _ _ _ _ R). reflexivity.
  - intros ->. eexists. split; [apply LRefl|]. split; [exact I|reflexivity].
Qed.
Lemma no_first fs strtof tsvs first more b r s d out : tsvs = first :: more -> fs first = None ->
  (py_load fs strtof tsvs b r s d out <-> out = Ret (Some IosFailure, d)).
Proof.
  intros -> H. unfold py_load, load_start, setup_columns. rewrite H. cbn [bind]. split.
  - intros (st & R & _ & ->). rewrite (stays _ _ _ _ _ _ R). reflexivity.
  - intros ->. eexists. split; [apply LRefl|]. split; [exact I|reflexivity].
Qed.
Lemma repeated fs strtof tsvs first more q d content out : tsvs = first :: more -> fs first = Some content -> has_header fs first ->
  (forall n, In n (asked_names q) -> exists i, header_position fs first n i) -> ~ NoDup (asked_names q) ->
  (forall fp sp, Forall2 (header_position fs first) (rq_buckets q ++ rq_raws q) fp -> Forall2 (header_position fs first) (rq_strings q) sp ->
     forall l, In l (data_lines true content) -> line_ok strtof fp sp l) ->
  (py_load fs strtof tsvs (rq_buckets q) (rq_raws q) (rq_strings q) d out <-> out = Undef).
Proof.
  intros Ef Ec H P D O. destruct (duplicate_crash fs strtof tsvs first more (cfg q) content Ef Ec) as (s0 & E0 & A & B).
  - split; [exact H|]. rewrite cfg_names. exact P.
  - rewrite cfg_names. exact D.
  - unfold float_positions, string_positions, float_column_names, string_column_names, cfg, py_tsv_config. cbn. rewrite app_nil_r. exact O.
  - unfold py_load. fold (cfg q). rewrite E0. split.
    + intros (s & R & F & ->). rewrite (A s R F). reflexivity.
    + intros ->. exists Crash. split; [exact B|]. split; [exact I|reflexivity].
Qed.
