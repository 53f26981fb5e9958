From Verif Require Import Base Base_proofs F32 Column ColumnSpec DataStore DataStore_proofs Strings StringsSpec
  Strings_proofs StringsText_proofs Tsv TsvSpec Tsv_proofs TsvLoad_proofs.

(** *** header positions *)
Lemma header_map_snoc l a : header_map (l ++ [a]) = (trim a, List.length l) :: header_map l.
Proof.
  unfold header_map. rewrite app_length, map_app. cbn [List.length map].
  rewrite seq_app. cbn [seq plus].
  assert (H : forall (A B : Type) (x : list A) (y : list B) p q, List.length x = List.length y ->
            combine (x ++ [p]) (y ++ [q]) = combine x y ++ [(p, q)]).
  { intros A B x. induction x; intros [|b y] p q L; cbn in *; try discriminate; auto. f_equal. auto. }
  rewrite H by (rewrite map_length, seq_length; auto). rewrite rev_app_distr. auto.
Qed.

Lemma header_map_spec l n i : assoc n (header_map l) = Some i <->
  (exists x, nth_error l i = Some x /\ trim x = n) /\
  (forall j x, nth_error l j = Some x -> trim x = n -> j <= i).
Proof.
  induction l as [|a l IH] using rev_ind.
  - cbn. split; [discriminate|]. intros [(x & E & _) _]. destruct i; discriminate.
  - rewrite header_map_snoc. cbn [assoc]. destruct (str_eqb_spec n (trim a)) as [->|Ne].
    + split.
      * intros [= <-]. split.
        -- exists a. rewrite nth_error_app2, Nat.sub_diag by auto. auto.
        -- intros j x E _. assert (j < List.length (l ++ [a])) by (apply nth_error_Some; congruence).
           rewrite app_length in *. cbn in *. lia.
      * intros [(x & E & T) H]. f_equal.
        assert (i < List.length (l ++ [a])) by (apply nth_error_Some; congruence).
        rewrite app_length in *. cbn in *.
        assert (List.length l <= i); [|lia]. apply (H _ a); auto.
        rewrite nth_error_app2, Nat.sub_diag by auto. auto.
    + rewrite IH. split.
      * intros [(x & E & T) H]. split; [exists x; split; auto; apply nth_error_app_l; auto|].
        intros j y E' T'. rewrite nth_error_snoc in E'. destruct (j <? List.length l); eauto.
        destruct (j =? List.length l); [|discriminate]. injection E' as <-. congruence.
      * intros [(x & E & T) H]. rewrite nth_error_snoc in E.
        destruct (Nat.ltb_spec i (List.length l)).
        -- split; eauto. intros j y E' T'. apply (H j y); auto. apply nth_error_app_l. auto.
        -- destruct (i =? List.length l); [|discriminate]. injection E as <-. congruence.
Qed.

Section Header.
Variables (fs : files_t) (first : str) (content line : str) (rest headers : list str).
Hypothesis Hfs : fs first = Some content.
Hypothesis Hlines : text_lines content = line :: rest.
Hypothesis Hsplit : split line [tab] = Ret headers.

Lemma header_position_map n i : header_position fs first n i <-> assoc n (header_map headers) = Some i.
Proof.
  rewrite header_map_spec. unfold header_position. split.
  - intros (c' & l' & r' & E1 & E2 & (x & E3 & E4) & H). rewrite Hfs in E1. injection E1 as <-.
    rewrite Hlines in E2. injection E2 as <- <-. rewrite (cell_row _ _ _ Hsplit) in E3.
    apply trimmed_iff in E4. split; eauto.
    intros j y Ey Ty. apply (H j y); [|apply trimmed_iff; auto]. rewrite (cell_row _ _ _ Hsplit). auto.
  - intros [(x & E3 & E4) H]. exists content, line, rest. split; auto. split; auto. split.
    + exists x. rewrite (cell_row _ _ _ Hsplit), trimmed_iff. auto.
    + intros j y Ey. rewrite (cell_row _ _ _ Hsplit) in Ey. rewrite trimmed_iff. eauto.
Qed.

Lemma setup_columns_eq c : setup_columns fs first c = Ret (setup_all (header_map headers) (roles c) tsv_init).
Proof. unfold setup_columns. rewrite Hfs, file_lines_text_lines, Hlines, Hsplit. auto. Qed.
End Header.

Lemma given_opt n : given n = opt_name n.
Proof. destruct n; reflexivity. Qed.
Lemma float_column_names_eq c : float_column_names c = cc_float_feature c ++ raw_names c.
Proof. unfold float_column_names. rewrite !given_opt. reflexivity. Qed.
Lemma string_column_names_eq c : string_column_names c = string_names c.
Proof. unfold string_column_names. rewrite !given_opt. reflexivity. Qed.
Lemma all_names_eq c : all_names c = cc_float_feature c ++ raw_names c ++ string_names c.
Proof. unfold all_names. rewrite float_column_names_eq, string_column_names_eq, app_assoc. reflexivity. Qed.

Lemma role_in c n k : role_of c n k <-> In (k, n) (roles c).
Proof.
  assert (Ho : forall m, In n (opt_name m) <-> n <> [] /\ n = m).
  { intros [|a m]; cbn; split.
    - tauto.
    - intros [H ->]. congruence.
    - intros [<-|[]]. split; congruence.
    - intros [_ ->]. auto. }
  assert (Hp : forall k' l, In (k, n) (map (pair k') l) <-> k = k' /\ In n l).
  { intros k' l. rewrite in_map_iff. split; [intros (x & [= <- <-] & ?); auto|]. intros [-> ?]. eauto. }
  unfold roles. rewrite !in_app_iff, !Hp. unfold raw_names, string_names. rewrite !in_app_iff, !Ho.
  destruct k; cbn; intuition congruence.
Qed.

Lemma role_names c : map snd (roles c) = all_names c.
Proof.
  rewrite (all_names_eq c).
  unfold roles. rewrite !map_app, !map_map. cbn. rewrite !map_id. auto.
Qed.

(** *** positions of all configured columns, without the distinctness hypothesis *)
Definition is_float (kn : kind * str) : bool := match fst kn with KS => false | _ => true end.
Definition float_names (todo : list (kind * str)) := map snd (filter is_float todo).
Definition str_names (todo : list (kind * str)) := map snd (filter (fun x => negb (is_float x)) todo).

Lemma setup_positions hdr todo : forall t t', setup_all hdr todo t = POk t' ->
  exists fp sp, t_fidx t' = t_fidx t ++ fp /\ t_sidx t' = t_sidx t ++ sp /\
    Forall2 (fun n i => assoc n hdr = Some i) (float_names todo) fp /\
    Forall2 (fun n i => assoc n hdr = Some i) (str_names todo) sp.
Proof.
  induction todo as [|[k n] todo IH]; intros t t' E; cbn [setup_all] in E.
  - injection E as <-. exists [], []. rewrite !app_nil_r. split; auto. split; auto. split; constructor.
  - destruct (setup_one hdr k t n) as [e|t1] eqn:E1; [discriminate|].
    destruct (IH _ _ E) as (fp & sp & H1 & H2 & H3 & H4).
    unfold setup_one in E1. destruct (assoc n hdr) as [i|] eqn:Ea; [|discriminate].
    destruct k; injection E1 as <-; cbn [t_fidx t_sidx] in *.
    + exists (i :: fp), sp. rewrite H1, H2, <- app_assoc. split; auto. split; auto. split; auto.
      constructor; auto.
    + exists (i :: fp), sp. rewrite H1, H2, <- app_assoc. split; auto. split; auto. split; auto.
      constructor; auto.
    + exists fp, (i :: sp). rewrite H1, H2, <- app_assoc. split; auto. split; auto. split; auto.
      constructor; auto.
Qed.

Lemma filter_map_pair k (l : list str) (f : kind * str -> bool) b : (forall n, f (k, n) = b) ->
  filter f (map (pair k) l) = if b then map (pair k) l else [].
Proof.
  intros H. induction l as [|a l IH]; cbn; [destruct b; auto|]. rewrite H, IH. destruct b; auto.
Qed.

Lemma float_names_roles c : float_names (roles c) = float_column_names c.
Proof.
  rewrite float_column_names_eq.
  unfold float_names, roles. rewrite !filter_app, (filter_map_pair KB _ _ true), (filter_map_pair KR _ _ true),
    (filter_map_pair KS _ _ false) by auto.
  rewrite app_nil_r, map_app, !map_map. cbn. rewrite !map_id. auto.
Qed.
Lemma str_names_roles c : str_names (roles c) = string_column_names c.
Proof.
  rewrite string_column_names_eq.
  unfold str_names, roles. rewrite !filter_app, (filter_map_pair KB _ _ false), (filter_map_pair KR _ _ false),
    (filter_map_pair KS _ _ true) by auto.
  cbn. rewrite !map_map. cbn. rewrite !map_id. auto.
Qed.

(** *** contents of the accumulated columns *)
Lemma accum_KB pos bl : forall c0, (forall blk, In blk bl -> pos < List.length (fst blk)) ->
  exists blocks, Forall2 (fun (blk : blk_t) d => nth_error (fst blk) pos = Some d) bl blocks /\
  fold_res (fun b blk => addF blk KB pos b) bl (BodyB c0) =
  (let! c := fold_res (fun c raw => b_add raw c) blocks c0 in Ret (BodyB c)).
Proof.
  induction bl as [|blk bl IH]; intros c0 H.
  - exists []. split; auto.
  - destruct (nth_error (fst blk) pos) as [d|] eqn:E.
    2:{ apply nth_error_None in E. specialize (H blk (or_introl eq_refl)). lia. }
    assert (Ea : addF blk KB pos (BodyB c0) = (let! c := b_add d c0 in Ret (BodyB c))).
    { unfold addF. cbn. unfold vget. rewrite E. auto. }
    destruct (b_add d c0) as [c1| |] eqn:E1.
    + destruct (IH c1) as (blocks & F & Ef); [intros; apply H; right; auto|].
      exists (d :: blocks). split; [constructor; auto|]. cbn [fold_res]. rewrite Ea, E1. cbn [bind]. auto.
    + destruct (IH c0) as (blocks & F & _); [intros; apply H; right; auto|].
      exists (d :: blocks). split; [constructor; auto|]. cbn [fold_res]. rewrite Ea, E1. auto.
    + destruct (IH c0) as (blocks & F & _); [intros; apply H; right; auto|].
      exists (d :: blocks). split; [constructor; auto|]. cbn [fold_res]. rewrite Ea, E1. auto.
Qed.

Lemma accum_KR pos bl : forall l0, (forall blk, In blk bl -> pos < List.length (fst blk)) ->
  exists blocks, Forall2 (fun (blk : blk_t) d => nth_error (fst blk) pos = Some d) bl blocks /\
  fold_res (fun b blk => addF blk KR pos b) bl (BodyR (mkR SOk l0)) = Ret (BodyR (mkR SOk (l0 ++ concat blocks))).
Proof.
  induction bl as [|blk bl IH]; intros l0 H.
  - exists []. cbn. rewrite app_nil_r. split; auto.
  - destruct (nth_error (fst blk) pos) as [d|] eqn:E.
    2:{ apply nth_error_None in E. specialize (H blk (or_introl eq_refl)). lia. }
    assert (Ea : addF blk KR pos (BodyR (mkR SOk l0)) = Ret (BodyR (mkR SOk (l0 ++ d)))).
    { unfold addF. cbn. unfold vget. rewrite E. auto. }
    destruct (IH (l0 ++ d)) as (blocks & F & Ef); [intros; apply H; right; auto|].
    exists (d :: blocks). split; [constructor; auto|]. cbn [fold_res concat]. rewrite Ea. cbn [bind].
    rewrite Ef, app_assoc. auto.
Qed.

Lemma accum_KS pos bl : forall c0, (forall blk, In blk bl -> pos < List.length (snd blk)) ->
  exists blocks, Forall2 (fun (blk : blk_t) d => nth_error (snd blk) pos = Some d) bl blocks /\
  fold_res (fun b blk => addF blk KS pos b) bl (BodyS c0) = Ret (BodyS (fold_left (fun c b => str_add b c) blocks c0)).
Proof.
  induction bl as [|blk bl IH]; intros c0 H.
  - exists []. split; auto.
  - destruct (nth_error (snd blk) pos) as [d|] eqn:E.
    2:{ apply nth_error_None in E. specialize (H blk (or_introl eq_refl)). lia. }
    assert (Ea : addF blk KS pos (BodyS c0) = Ret (BodyS (str_add d c0))).
    { unfold addF. cbn. unfold vget. rewrite E. auto. }
    destruct (IH (str_add d c0)) as (blocks & F & Ef); [intros; apply H; right; auto|].
    exists (d :: blocks). split; [constructor; auto|]. cbn [fold_res fold_left]. rewrite Ea. cbn [bind]. auto.
Qed.

(** *** blocks and file lines *)
Lemma lines_of_snoc fs files f content lines : forall header, lines_of fs header files lines -> fs f = Some content ->
  lines_of fs header (files ++ [f])
    (lines ++ [data_lines (match files with [] => header | _ => false end) content]).
Proof.
  revert lines. induction files as [|g files IH]; intros [|l lines] header H E.
  - cbn. eauto.
  - destruct H.
  - destruct H.
  - cbn [app lines_of] in *. destruct H as [H1 H2]. split; auto.
    specialize (IH lines false H2 E). destruct files; auto.
Qed.

Lemma firstn_snoc {A} (l : list A) m a : nth_error l m = Some a -> firstn (S m) l = firstn m l ++ [a].
Proof. revert m. induction l; intros [|m] E; try discriminate; cbn in *; [congruence|]. f_equal. auto. Qed.

Lemma goods_lines fs strtof files t0 bl : forall m, goods fs strtof files t0 m bl ->
  m <= List.length files /\
  exists lines, lines_of fs true (firstn m files) lines /\
  Forall2 (fun ls (blk : blk_t) => Forall2 (fun i col => float_cells strtof i ls col) (t_fidx t0) (fst blk) /\
                       Forall2 (fun i col => string_cells i ls col) (t_sidx t0) (snd blk)) lines bl.
Proof.
  induction bl as [|blk bl IH] using rev_ind; intros m [L G].
  - cbn in L. subst m. split; [lia|]. exists []. split; [destruct files; cbn; auto|constructor].
  - rewrite app_length in L. cbn in L. destruct m as [|m]; [lia|].
    destruct (IH m) as (Lm & lines & Hl & F).
    { split; [lia|]. intros i b E. apply G. apply nth_error_app_l. auto. }
    assert (Em : nth_error (bl ++ [blk]) m = Some blk).
    { replace m with (List.length bl) by lia. rewrite nth_error_app2, Nat.sub_diag by auto. auto. }
    apply G in Em. unfold parse in Em. destruct (nth_error files m) as [f|] eqn:Ef; [|discriminate].
    destruct (read_tsv fs strtof f (t_fidx t0) (t_sidx t0) (m =? 0)) as [b| |] eqn:Er; try discriminate.
    injection Em as ->. assert (m < List.length files) by (apply nth_error_Some; congruence).
    split; [lia|]. destruct (fs f) as [content|] eqn:Efs.
    2:{ unfold read_tsv in Er. rewrite Efs in Er. discriminate. }
    destruct (tsv_block fs strtof f content (t_fidx t0) (t_sidx t0) (m =? 0) Efs) as (b & Eb & Hb).
    rewrite Er in Eb. injection Eb as <-. destruct blk as [fl sl].
    exists (lines ++ [data_lines (m =? 0) content]). split.
    + rewrite (firstn_snoc _ _ _ Ef).
      pose proof (lines_of_snoc fs (firstn m files) f content lines true Hl Efs) as Hs.
      destruct m as [|m]; cbn [Nat.eqb]; auto. destruct files as [|g files]; [discriminate|]. auto.
    + apply Forall2_app; auto.
Qed.

Lemma Forall2_pos {A B} (R : A -> B -> Prop) l1 l2 pos a b : Forall2 R l1 l2 ->
  nth_error l1 pos = Some a -> nth_error l2 pos = Some b -> R a b.
Proof.
  intros F E1 E2. destruct (Forall2_nth_error_l _ _ _ F _ _ E1) as (b' & E & H). congruence.
Qed.

Lemma blocks_cells {X} (P : list str -> X -> Prop) (Q : blk_t -> X -> Prop)
    (R : list str -> blk_t -> Prop) lines bl blocks :
  (forall ls blk d, R ls blk -> Q blk d -> P ls d) ->
  Forall2 R lines bl -> Forall2 Q bl blocks -> Forall2 P lines blocks.
Proof.
  intros H F. revert blocks. induction F; intros blocks G; inversion G; subst; constructor; eauto.
Qed.

Lemma accum_cells fs strtof files t0 m bl k pos i :
  goods fs strtof files t0 m bl -> nth_error (match k with KS => t_sidx t0 | _ => t_fidx t0 end) pos = Some i ->
  exists lines, m <= List.length files /\ lines_of fs true (firstn m files) lines /\
  match k with
  | KB => exists blocks, Forall2 (float_cells strtof i) lines blocks /\
      accum KB pos bl = (let! c := fold_res (fun c raw => b_add raw c) blocks (b_init default_buckets) in Ret (BodyB c))
  | KR => exists blocks, Forall2 (float_cells strtof i) lines blocks /\
      accum KR pos bl = Ret (BodyR (mkR SOk (concat blocks)))
  | KS => exists blocks, Forall2 (string_cells i) lines blocks /\
      accum KS pos bl = Ret (BodyS (fold_left (fun c b => str_add b c) blocks str_init))
  end.
Proof.
  intros G E. destruct (goods_lines _ _ _ _ _ _ G) as (Lm & lines & Hl & F). exists lines. split; auto. split; auto.
  destruct k.
  - destruct (accum_KB pos bl (b_init default_buckets)) as (blocks & Fb & Ea).
    { intros blk I. destruct (Forall2_in_r _ _ _ _ F I) as (ls & _ & [F1 _]). apply Forall2_len in F1.
      rewrite <- F1. apply nth_error_Some. congruence. }
    exists blocks. split; auto. eapply (blocks_cells _ _ _ _ _ _ _ F Fb). Unshelve.
    cbn. intros ls blk d [F1 _] Ed. exact (Forall2_pos _ _ _ _ _ _ F1 E Ed).
  - destruct (accum_KR pos bl []) as (blocks & Fb & Ea).
    { intros blk I. destruct (Forall2_in_r _ _ _ _ F I) as (ls & _ & [F1 _]). apply Forall2_len in F1.
      rewrite <- F1. apply nth_error_Some. congruence. }
    exists blocks. split; auto. eapply (blocks_cells _ _ _ _ _ _ _ F Fb). Unshelve.
    cbn. intros ls blk d [F1 _] Ed. exact (Forall2_pos _ _ _ _ _ _ F1 E Ed).
  - destruct (accum_KS pos bl str_init) as (blocks & Fb & Ea).
    { intros blk I. destruct (Forall2_in_r _ _ _ _ F I) as (ls & _ & [_ F1]). apply Forall2_len in F1.
      rewrite <- F1. apply nth_error_Some. congruence. }
    exists blocks. split; auto. eapply (blocks_cells _ _ _ _ _ _ _ F Fb). Unshelve.
    cbn. intros ls blk d [_ F1] Ed. exact (Forall2_pos _ _ _ _ _ _ F1 E Ed).
Qed.

(** *** the theorems *)
Lemma setup_ok fs first c : names_present fs first c -> NoDup (all_names c) ->
  exists headers t fp sp, setup_columns fs first c = Ret (POk t) /\ setup_inv (header_map headers) (roles c) t /\
    (forall n i, header_position fs first n i <-> assoc n (header_map headers) = Some i) /\
    t_fidx t = fp /\ t_sidx t = sp /\ float_positions fs first c fp /\ string_positions fs first c sp.
Proof.
  intros [(content & line & rest & Hfs & Hlines) P] N. destruct (split_tab line) as [headers Hs].
  pose proof (header_position_map fs first content line rest headers Hfs Hlines Hs) as HP.
  destruct (setup_all_inv (header_map headers) (roles c) [] tsv_init (setup_init _)) as (t & Et & I).
  - cbn. rewrite role_names. auto.
  - intros k n Hin. destruct (P n) as [i Hi].
    { rewrite <- role_names. apply (in_map snd) in Hin. auto. }
    apply HP in Hi. congruence.
  - destruct (setup_positions _ _ _ _ Et) as (fp & sp & Ef & Es & Ff & Fs). cbn in Ef, Es.
    exists headers, t, fp, sp. rewrite (setup_columns_eq fs first content line rest headers Hfs Hlines Hs), Et.
    split; auto. split; auto. split; auto. split; auto. split; auto. split.
    + unfold float_positions. rewrite <- float_names_roles. eapply Forall2_weaken; [|exact Ff]. intros. apply HP. auto.
    + unfold string_positions. rewrite <- str_names_roles. eapply Forall2_weaken; [|exact Fs]. intros. apply HP. auto.
Qed.

Lemma load_result fs strtof files first more c : files = first :: more -> names_present fs first c ->
  NoDup (all_names c) ->
  exists s0, load_start fs files c = Ret s0 /\
  forall s, lreach fs strtof files s0 s -> lfinal s ->
  match s with
  | Running _ _ _ => False
  | Done SOk t =>
      exists lines, lines_of fs true files lines /\
      forall n k, role_of c n k -> exists i b, header_position fs first n i /\
        tsv_get n t = Some (mkCol n b) /\ column_holds strtof k i lines b
  | Done (SErr e) _ =>
      exists fp sp m f, float_positions fs first c fp /\ string_positions fs first c sp /\
        nth_error files m = Some f /\ read_tsv fs strtof f fp sp (m =? 0) = Ret (PErr e) /\
        forall i g, i < m -> nth_error files i = Some g ->
          exists blk, read_tsv fs strtof g fp sp (i =? 0) = Ret (POk blk)
  | Crash => exists n i, In n (cc_float_feature c) /\ header_position fs first n i /\
               bucketizing_fails fs strtof files i
  end.
Proof.
  intros Ef P N. destruct (setup_ok fs first c P N) as (headers & t0 & fp & sp & Es & I & HP & Hf & Hs & Pf & Ps).
  pose proof (setup_wf _ _ _ I) as W. destruct I as (I1 & I2 & I3 & I4 & I5).
  exists (Running (map (fun _ => None) files) 0 t0). split.
  { unfold load_start. rewrite Ef, Es. cbn. auto. }
  intros s R F. pose proof (linv_reach fs strtof files t0 W _ _ (linv_start fs strtof files t0 W) R) as L.
  destruct s as [? ? ?|[|e] t|]; auto.
  - destruct L as (bl & hp & G & -> & H). destruct (goods_lines _ _ _ _ _ _ G) as (_ & lines & Hl & _).
    rewrite firstn_all in Hl. exists lines. split; auto. intros n k Hr. apply role_in in Hr.
    apply In_nth_error in Hr. destruct Hr as [j Ej]. destruct (I5 j k n Ej) as (pos & i & Eh & Ea & Ep).
    destruct H as [_ H]. destruct (H j k pos Eh) as (n' & b' & Hn & Hb & b & Hacc & Hfin).
    rewrite I1 in Hn. erewrite map_nth_error in Hn; [|exact Ej]. cbn in Hn. injection Hn as <-.
    exists i, b'. split; [apply HP; auto|]. split.
    + unfold tsv_get. cbn [t_map t_heap with_heap]. assert (assoc n (t_map t0) = Some j) as -> by (apply I4; eauto).
      rewrite Hb. auto.
    + destruct (accum_cells fs strtof files t0 _ bl k pos i G Ep) as (lines' & _ & Hl' & Hc).
      rewrite firstn_all in Hl'. unfold acc in Hacc.
      assert (lines' = lines) as ->.
      { clear - Hl Hl'. revert Hl Hl'. generalize true. revert lines lines'.
        induction files as [|f fl IH]; intros [|l ls] [|l' ls'] h H H'; cbn in *; try tauto.
        destruct H as [(c1 & E1 & ->) H2], H' as [(c2 & E2 & ->) H2']. rewrite E1 in E2. injection E2 as <-.
        f_equal. eapply IH; eauto. }
      destruct k; destruct Hc as (blocks & Fb & Ea'); rewrite Ea' in Hacc.
      * apply bind_ret in Hacc. destruct Hacc as (c0 & E0 & [= <-]). unfold finF in Hfin. cbn in Hfin.
        apply bind_ret in Hfin. destruct Hfin as (c1 & E1 & [= <-]). exists blocks. split; auto.
        unfold b_load. rewrite E0. auto.
      * injection Hacc as <-. cbn in Hfin. injection Hfin as <-. exists blocks. auto.
      * injection Hacc as <-. cbn in Hfin. injection Hfin as <-. exists blocks. auto.
  - destruct L as (m & bl & hp & G & -> & H & Lm & Pm). exists fp, sp, m.
    unfold parse in Pm. destruct (nth_error files m) as [f|] eqn:Em; [|discriminate].
    rewrite Hf, Hs in Pm.
    destruct (read_tsv fs strtof f fp sp (m =? 0)) as [b| |] eqn:Er; try discriminate. injection Pm as ->.
    exists f. split; auto. split; auto. split; auto. split; auto. intros i g Li Eg.
    destruct (goods_lt _ _ _ _ _ _ _ G Li) as [blk Pb]. unfold parse in Pb. rewrite Eg, Hf, Hs in Pb.
    destruct (read_tsv fs strtof g fp sp (i =? 0)); try discriminate. injection Pb as ->. eauto.
  - destruct L as (m & bl & j & k & pos & G & Ej & C).
    destruct (wf_handle t0 W j _ Ej) as (k' & pos' & n & i & [= <- <-] & Hh & Ep & Ea).
    assert (Hn : In (k, n) (roles c) /\ assoc n (header_map headers) = Some i).
    { apply I4 in Ea. destruct Ea as [k1 E1]. destruct (I5 j k1 n E1) as (pos1 & i1 & G1 & G2 & G3).
      rewrite Ej in G1. injection G1 as <- <-. split; [eapply nth_error_In; eauto|]. congruence. }
    destruct Hn as [Hin Hhdr].
    assert (Hgo : exists m' bl', goods fs strtof files t0 m' bl' /\
              forall b, (let! b' := accum k pos bl' in finF k pos b') <> Ret b).
    { destruct C as [(blk & Pb & Hb)|[-> Hb]].
      - exists (S m), (bl ++ [blk]). split; [apply goods_snoc; auto|]. intros b E. apply bind_ret in E.
        destruct E as (b0 & E & _). exact (Hb b0 E).
      - exists (List.length files), bl. auto. }
    destruct Hgo as (m' & bl' & G' & Hb).
    destruct (accum_cells fs strtof files t0 _ bl' k pos i G' Ep) as (lines & Lm & Hl & Hc).
    destruct k; destruct Hc as (blocks & Fb & Ea'); rewrite Ea' in Hb.
    + exists n, i. split; [apply role_in in Hin; auto|]. split; [apply HP; auto|].
      exists m', lines, blocks. split; auto. split; auto. split; auto. intros b E. unfold b_load in E.
      apply bind_ret in E. destruct E as (c0 & E0 & E1). rewrite E0 in Hb. cbn in Hb. rewrite E1 in Hb.
      exact (Hb _ eq_refl).
    + exfalso. exact (Hb _ eq_refl).
    + exfalso. exact (Hb _ eq_refl).
Qed.

Lemma load_deterministic fs strtof files first more c s0 s1 s2 : files = first :: more ->
  names_present fs first c -> NoDup (all_names c) -> load_start fs files c = Ret s0 ->
  lreach fs strtof files s0 s1 -> lreach fs strtof files s0 s2 -> lfinal s1 -> lfinal s2 -> s1 = s2.
Proof.
  intros Ef P N E0 R1 R2 F1 F2.
  destruct (setup_ok fs first c P N) as (headers & t0 & fp & sp & Es & I & _).
  pose proof (setup_wf _ _ _ I) as W.
  assert (s0 = Running (map (fun _ => None) files) 0 t0) as ->.
  { subst files. unfold load_start in E0. rewrite Es in E0. cbn [bind] in E0. injection E0 as <-. auto. }
  apply (linv_det fs strtof files t0 W); auto;
    eapply linv_reach; eauto; apply linv_start; auto.
Qed.

Definition lengths_ok (files : list str) (s : lstate) : Prop :=
  match s with
  | Running proms next _ => List.length proms = List.length files /\ next <= List.length files
  | _ => True
  end.
Lemma lengths_step fs strtof files s s' : lengths_ok files s -> lstep fs strtof files s s' -> lengths_ok files s'.
Proof.
  intros I St. destruct St; cbn in *; auto.
  - rewrite set_nth_length. auto.
  - destruct s; cbn; auto. destruct I as [L I]. split; auto.
    rewrite <- L. apply nth_error_Some. intros C. pose proof (eq_trans (eq_sym H) C). discriminate.
Qed.
Lemma lengths_reach fs strtof files s s' : lengths_ok files s -> lreach fs strtof files s s' -> lengths_ok files s'.
Proof. intros I R. revert I. induction R as [|s1 s2 s3 R1 IH St]; auto. intros I. exact (lengths_step _ _ _ _ _ (IH I) St). Qed.

Lemma load_progress fs strtof files c s0 s : load_start fs files c = Ret s0 -> lreach fs strtof files s0 s ->
  lfinal s \/ exists s', lstep fs strtof files s s'.
Proof.
  intros E0 R. assert (L0 : lengths_ok files s0).
  { destruct files as [|f fl]; cbn in E0; [injection E0 as <-; exact I|].
    apply bind_ret in E0. destruct E0 as ([e|t] & _ & E0); injection E0 as <-; [exact I|].
    split; [cbn; rewrite map_length; auto|lia]. }
  pose proof (lengths_reach _ _ _ _ _ L0 R) as L. destruct s as [proms next t|? ?|]; cbn; auto.
  right. destruct L. apply progress; auto.
Qed.

Lemma lreach_trans fs strtof files s1 s2 s3 : lreach fs strtof files s1 s2 -> lreach fs strtof files s2 s3 ->
  lreach fs strtof files s1 s3.
Proof. intros R1 R2. induction R2 as [|a b d Ra IH St]; auto. exact (LStep _ _ _ _ _ _ (IH R1) St). Qed.

Lemma load_finishes fs strtof files c s0 s : load_start fs files c = Ret s0 -> lreach fs strtof files s0 s ->
  exists s', lreach fs strtof files s s' /\ lfinal s'.
Proof.
  intros E0. induction (lstep_wf fs strtof files s) as [s _ IH]. intros R.
  destruct (load_progress fs strtof files c s0 s E0 R) as [F|[s' St]].
  - exists s. split; auto. constructor.
  - destruct (IH s' St) as (s2 & R2 & F2); [econstructor; eauto|]. exists s2. split; auto.
    eapply lreach_trans; [|eassumption]. econstructor; [constructor|auto].
Qed.

(** *** duplicate names *)
Definition dead (t : tsv) : Prop :=
  exists k id pos, In (k, id, pos) (t_handles t) /\ nth_error (t_heap t) id = Some None.
Definition bound (t : tsv) : Prop :=
  forall n id, assoc n (t_map t) = Some id -> id < List.length (t_heap t) /\
    exists k pos, In (k, id, pos) (t_handles t).

Lemma set_nth_none {A} (l : list (option A)) j id : nth_error l id = Some None ->
  nth_error (set_nth j None l) id = Some None.
Proof.
  intros E. destruct (Nat.eq_dec j id) as [->|Ne].
  - apply nth_error_set_nth_eq. apply nth_error_Some. congruence.
  - rewrite nth_error_set_nth_ne; auto.
Qed.

Lemma setup_one_dup hdr k t n t' : setup_one hdr k t n = POk t' -> bound t ->
  bound t' /\ assoc n (t_map t') <> None /\
  (forall m, assoc m (t_map t) <> None -> assoc m (t_map t') <> None) /\
  ((dead t \/ assoc n (t_map t) <> None) -> dead t').
Proof.
  intros E B. unfold setup_one in E. destruct (assoc n hdr) as [i|]; [|discriminate].
  set (heap0 := match assoc n (t_map t) with Some old => set_nth old None (t_heap t) | None => t_heap t end) in *.
  assert (L0 : List.length heap0 = List.length (t_heap t)).
  { unfold heap0. destruct (assoc n (t_map t)); auto. apply set_nth_length. }
  assert (Et : exists pos, t_heap t' = heap0 ++ [Some (mkCol n (fresh k))] /\
            t_map t' = (n, List.length (t_heap t)) :: t_map t /\
            t_handles t' = t_handles t ++ [(k, List.length (t_heap t), pos)]).
  { destruct k; injection E as <-; eexists; cbn [t_heap t_map t_handles]; auto. }
  destruct Et as (pos & Eh & Em & Ed). clear E. split; [|split; [|split]].
  - intros m id. rewrite Em, Eh, Ed, app_length. cbn [assoc List.length]. destruct (str_eqb m n).
    + intros [= <-]. split; [lia|]. exists k, pos. apply in_app_iff. cbn. auto.
    + intros E. destruct (B m id E) as (L & k' & pos' & I). split; [lia|]. exists k', pos'. apply in_app_iff. auto.
  - rewrite Em. cbn [assoc]. rewrite str_eqb_refl. discriminate.
  - intros m. rewrite Em. cbn [assoc]. destruct (str_eqb m n); [discriminate|auto].
  - intros H. assert (D : exists k id pos, In (k, id, pos) (t_handles t) /\ nth_error heap0 id = Some None).
    { destruct H as [(k' & id & pos' & I & E)|H].
      - exists k', id, pos'. split; auto. unfold heap0. destruct (assoc n (t_map t)); auto. apply set_nth_none. auto.
      - destruct (assoc n (t_map t)) as [old|] eqn:E; [|congruence].
        destruct (B n old E) as (L & k' & pos' & I). exists k', old, pos'. split; auto.
        apply nth_error_set_nth_eq. auto. }
    destruct D as (k' & id & pos' & I & E). exists k', id, pos'. rewrite Eh, Ed. split; [apply in_app_iff; auto|].
    apply nth_error_app_l. auto.
Qed.

Lemma setup_all_dup hdr todo : forall t t', setup_all hdr todo t = POk t' -> bound t ->
  (dead t \/ ~ NoDup (map snd todo) \/ exists n, In n (map snd todo) /\ assoc n (t_map t) <> None) -> dead t'.
Proof.
  induction todo as [|[k n] todo IH]; intros t t' E B H; cbn [setup_all] in E.
  - injection E as <-. destruct H as [D|[H|(n & [] & _)]]; auto. exfalso. apply H. constructor.
  - destruct (setup_one hdr k t n) as [e|t1] eqn:E1; [discriminate|].
    destruct (setup_one_dup _ _ _ _ _ E1 B) as (B1 & A1 & A2 & A3).
    apply (IH t1 t' E B1). destruct H as [D|[H|(m & I & A)]].
    + auto.
    + cbn in H. destruct (in_dec str_eq_dec n (map snd todo)) as [I|I].
      * right. right. exists n. auto.
      * right. left. intros N. apply H. constructor; auto.
    + cbn in I. destruct I as [<-|I]; auto. right. right. exists m. auto.
Qed.

Lemma run_task_none heap tk heap' id : run_task heap tk = Ret heap' -> nth_error heap id = Some None ->
  fst tk <> id /\ nth_error heap' id = Some None.
Proof.
  intros E N. apply run_task_ret in E. destruct E as (c & b & E1 & _ & ->).
  assert (fst tk <> id) by congruence. split; auto. rewrite nth_error_set_nth_ne; auto.
Qed.
Lemma run_tasks_dead order id : forall heap heap', fold_res run_task order heap = Ret heap' ->
  nth_error heap id = Some None -> ~ In id (map fst order).
Proof.
  induction order as [|tk order IH]; intros heap heap' E N; [intros []|].
  cbn [fold_res] in E. apply bind_ret in E. destruct E as (h1 & E1 & E2).
  destruct (run_task_none _ _ _ _ E1 N) as [Ne N1]. cbn. intros [?|I]; auto. exact (IH _ _ E2 N1 I).
Qed.

Lemma names_pos (fs : files_t) first names fp i : Forall2 (header_position fs first) names fp -> In i fp ->
  exists n, In n names /\ header_position fs first n i.
Proof. intros F I. destruct (Forall2_in_r _ _ _ _ F I) as (n & ? & ?). eauto. Qed.

Lemma setup_present fs first c : names_present fs first c ->
  exists t, setup_columns fs first c = Ret (POk t) /\ float_positions fs first c (t_fidx t) /\
    string_positions fs first c (t_sidx t) /\ (~ NoDup (all_names c) -> dead t).
Proof.
  intros [(content & line & rest & Hfs & Hlines) P]. destruct (split_tab line) as [headers Hs].
  pose proof (header_position_map fs first content line rest headers Hfs Hlines Hs) as HP.
  rewrite (setup_columns_eq fs first content line rest headers Hfs Hlines Hs).
  assert (Hall : forall t, exists t', setup_all (header_map headers) (roles c) t = POk t').
  { assert (Hr : forall k n, In (k, n) (roles c) -> assoc n (header_map headers) <> None).
    { intros k n I. destruct (P n) as [i Hi]; [|apply HP in Hi; congruence].
      rewrite <- role_names. apply (in_map snd) in I. auto. }
    induction (roles c) as [|[k n] l IH]; intros t; cbn [setup_all]; eauto.
    unfold setup_one at 1. destruct (assoc n (header_map headers)) eqn:E; [|exfalso; apply (Hr k n); cbn; auto].
    destruct k; apply IH; intros; eapply Hr; cbn; eauto. }
  destruct (Hall tsv_init) as [t Et]. exists t. rewrite Et. split; auto.
  destruct (setup_positions _ _ _ _ Et) as (fp & sp & Ef & Es & Ff & Fs). cbn in Ef, Es. subst fp sp.
  split; [|split].
  - unfold float_positions. rewrite <- float_names_roles. eapply Forall2_weaken; [|exact Ff]. intros. apply HP. auto.
  - unfold string_positions. rewrite <- str_names_roles. eapply Forall2_weaken; [|exact Fs]. intros. apply HP. auto.
  - intros N. apply (setup_all_dup _ _ _ _ Et).
    + intros n id E. discriminate.
    + right. left. rewrite role_names. auto.
Qed.

Lemma duplicate_crash fs strtof files first more c content : files = first :: more -> fs first = Some content ->
  names_present fs first c -> ~ NoDup (all_names c) ->
  (forall fp sp, float_positions fs first c fp -> string_positions fs first c sp ->
     forall l, In l (data_lines true content) -> line_ok strtof fp sp l) ->
  exists s0, load_start fs files c = Ret s0 /\
    (forall s, lreach fs strtof files s0 s -> lfinal s -> s = Crash) /\
    lreach fs strtof files s0 Crash.
Proof.
  intros Ef Hfs P N Hl. destruct (setup_present fs first c P) as (t0 & Es & Pf & Ps & D). specialize (D N).
  destruct D as (k & id & pos & Ih & Ed).
  set (s0 := Running (map (fun _ => None) files) 0 t0).
  assert (E0 : load_start fs files c = Ret s0).
  { subst files. unfold load_start. rewrite Es. auto. }
  exists s0. split; auto.
  assert (Hp0 : exists blk, read_tsv fs strtof first (t_fidx t0) (t_sidx t0) true = Ret (POk blk)).
  { destruct (tsv_block fs strtof first content (t_fidx t0) (t_sidx t0) true Hfs) as (b & Eb & _).
    destruct (tsv_block_success fs strtof first content (t_fidx t0) (t_sidx t0) true b Hfs Eb) as [_ H].
    destruct (H (Hl _ _ Pf Ps)) as (fl & sl & ->). eauto. }
  destruct Hp0 as [blk Eblk].
  assert (Hfail : forall mk order heap', (forall h, fst (mk h) = snd (fst h)) ->
            Permutation order (map mk (t_handles t0)) -> fold_res run_task order (t_heap t0) <> Ret heap').
  { intros mk order heap' Hm Pm E. apply (run_tasks_dead order id _ _ E Ed).
    eapply Permutation_in; [apply Permutation_sym, Permutation_map; eassumption|].
    rewrite map_map. apply in_map_iff. exists (k, id, pos). rewrite Hm. auto. }
  assert (Inv0 : forall s1 s, lreach fs strtof files s1 s -> s1 = s0 -> s = Crash \/
            exists proms, s = Running proms 0 t0 /\ forall b, nth_error proms 0 = Some (Some b) -> b = POk blk).
  { intros s1 s R. induction R as [|s1 s2 s3 R1 IH St]; intros E1.
    - right. exists (map (fun _ => None) files). split; [exact E1|]. rewrite Ef. cbn. discriminate.
    - destruct (IH E1) as [->|(proms & -> & Hp)]; [inversion St|].
      clear IH E1 R1. inversion St; subst.
      + right. eexists. split; auto. intros b' Eb'. destruct i as [|i].
        * cbn in H2. injection H2 as <-. rewrite nth_error_set_nth_eq in Eb'
            by (apply nth_error_Some; intros C; pose proof (eq_trans (eq_sym H4) C); discriminate).
          injection Eb' as <-. cbn [Nat.eqb] in H5. rewrite Eblk in H5. congruence.
        * rewrite nth_error_set_nth_ne in Eb' by auto. auto.
      + auto.
      + match goal with H : nth_error proms 0 = Some (Some (PErr _)) |- _ => specialize (Hp _ H) end. discriminate.
      + exfalso. eapply Hfail; [|eassumption|eassumption]. intros [[? ?] ?]. auto.
      + auto.
      + discriminate.
      + auto. }
  assert (Inv := fun s R => Inv0 s0 s R eq_refl). clear Inv0.
  split.
  - intros s R F. destruct (Inv s R) as [->|(proms & -> & _)]; auto. destruct F.
  - destruct (load_finishes fs strtof files c s0 s0 E0) as (s & R & F); [constructor|].
    destruct (Inv s R) as [->|(proms & -> & _)]; auto. destruct F.
Qed.

Lemma missing_name fs files first more c : files = first :: more -> has_header fs first ->
  (exists n, In n (all_names c) /\ forall i, ~ header_position fs first n i) ->
  load_start fs files c = Ret (Done (SErr NOT_FOUND) tsv_init).
Proof.
  intros Ef (content & line & rest & Hfs & Hlines) (n & I & H). destruct (split_tab line) as [headers Hs].
  pose proof (header_position_map fs first content line rest headers Hfs Hlines Hs) as HP.
  subst files. unfold load_start. rewrite (setup_columns_eq fs first content line rest headers Hfs Hlines Hs).
  rewrite setup_all_missing; auto.
  rewrite <- role_names in I. apply in_map_iff in I. destruct I as ([k n'] & E & I). cbn in E. subst n'.
  exists k, n. split; auto. destruct (assoc n (header_map headers)) as [i|] eqn:E; auto. exfalso. apply (H i), HP, E.
Qed.

Lemma distinct_setup fs first c : names_present fs first c -> NoDup (all_names c) ->
  exists t, setup_columns fs first c = Ret (POk t) /\
    (forall k id pos, In (k, id, pos) (t_handles t) -> exists n, role_of c n k /\
       nth_error (t_heap t) id = Some (Some (mkCol n (fresh k)))) /\
    (forall n k, role_of c n k -> tsv_get n t = Some (mkCol n (fresh k))).
Proof.
  intros P N. destruct (setup_ok fs first c P N) as (headers & t & fp & sp & Es & I & HP & _).
  pose proof (setup_wf _ _ _ I) as W. destruct I as (I1 & I2 & I3 & I4 & I5). exists t. split; auto. split.
  - intros k id pos Ih. apply In_nth_error in Ih. destruct Ih as [j E].
    destruct (wf_handle t W j _ E) as (k' & pos' & n & i & [= <- -> <-] & Hh & _).
    exists n. split; auto. apply role_in. rewrite I1 in Hh.
    destruct (nth_error (roles c) j) as [[k1 n1]|] eqn:E1.
    + erewrite map_nth_error in Hh; [|exact E1]. cbn in Hh. injection Hh as -> Hk.
      destruct (I5 j k1 n E1) as (p & i1 & G1 & _). rewrite E in G1. injection G1 as -> ->.
      eapply nth_error_In; eauto.
    + apply nth_error_None in E1. assert (j < List.length (t_handles t)) by (apply nth_error_Some; congruence). lia.
  - intros n k Hr. apply role_in in Hr. apply In_nth_error in Hr. destruct Hr as [j Ej].
    unfold tsv_get. assert (assoc n (t_map t) = Some j) as -> by (apply I4; eauto).
    rewrite I1. erewrite map_nth_error; [|exact Ej]. auto.
Qed.
