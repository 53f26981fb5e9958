(** Feature_proofs.v - the choice of feature (for property C36). *)
From Coq Require Import SpecFloat.
From Verif Require Import Base Base_proofs F32 Column ColumnSpec ColumnStr_proofs DataStore Subsampling Subsampling_proofs Num Forest Par
  Par_proofs Config Score ScoreSpec Score_proofs Split SplitSpec Split_proofs Category_proofs Tree TreeSpec Sum_proofs.

Section Feature.
Context {N : Num}.
Variable O : ordered N.
Local Open Scope num_scope.

Lemma lt_num_l (a b : N) : (a <? b) = true -> (a =? a) = true.
Proof. intros H. exact (proj1 (ord_number O _ _ H)). Qed.
Lemma lt_num_r (a b : N) : (a <? b) = true -> (b =? b) = true.
Proof. intros H. exact (proj2 (ord_number O _ _ H)). Qed.
Lemma lt_asym (a b : N) : (a <? b) = true -> (b <? a) = false.
Proof.
  intros H. destruct (b <? a) eqn:E; [|reflexivity]. pose proof (ord_trans O _ _ _ H E) as X. rewrite (ord_irrefl O) in X. discriminate.
Qed.

(** ** Gains of found splits are positive *)
Definition zero_or_pos (g : N) : Prop := g = n0 \/ (n0 <? g) = true.
Lemma nmax_pos (a b g : N) : zero_or_pos a -> (nmax a b <? g) = true -> (n0 <? g) = true.
Proof.
  intros Z H. unfold nmax in H. destruct (a <? b) eqn:E.
  - destruct Z as [->|Z]; eauto using (ord_trans O).
  - destruct Z as [->|Z]; eauto using (ord_trans O).
Qed.

Lemma scan_pos c h total place values : forall i left best p, zero_or_pos (pt_gain best) ->
  ((pt_left best < 0)%Z \/ (n0 <? pt_gain best) = true) -> (0 <= i)%Z ->
  scan (N := N) c h total place values i left best = Ret p ->
  zero_or_pos (pt_gain p) /\ ((pt_left p < 0)%Z \/ (n0 <? pt_gain p) = true) /\
  ((pt_left p < 0)%Z \/ pt_left p = pt_left best \/ (i <= pt_left p + 1 < i + Z.of_nat (List.length values))%Z).
Proof.
  induction values as [|v t IH]; intros i left best p Z P I E; cbn [scan] in E.
  - injection E as <-. auto.
  - assert (I1 : (0 <= i + 1)%Z) by lia. destruct (i =? 0)%Z eqn:I0.
    + cbn [bind] in E. destruct (vget (h_data h) v) as [d| |]; [|discriminate..]. cbn [bind] in E.
      destruct (IH _ _ _ _ Z P I1 E) as (A & B & C). split; [exact A|]. split; [exact B|]. cbn [List.length]. lia.
    + destruct (best_here c h total left place) as [[g mr]| |]; [|discriminate..]. cbn [bind] in E.
      destruct (nmax (pt_gain best) (nmax (cf_min_gain c) tolerance) <? g) eqn:Lt; cbn [bind] in E;
        (destruct (vget (h_data h) v) as [d| |]; [|discriminate..]); cbn [bind] in E.
      * pose proof (nmax_pos _ _ _ Z Lt) as G.
        destruct (IH _ _ (mkPoint (i - 1) mr g) p (or_intror G) (or_intror G) I1 E) as (A & B & C). split; [exact A|]. split; [exact B|].
        cbn [pt_left] in C. cbn [List.length]. lia.
      * destruct (IH _ _ _ _ Z P I1 E) as (A & B & C). split; [exact A|]. split; [exact B|]. cbn [List.length]. lia.
Qed.

Lemma point_pos c h total place p : find_best_split_point (N := N) c h total place = Ret (Some p) ->
  (n0 <? pt_gain p) = true /\ (0 <= pt_left p)%Z /\ (pt_left p + 1 < Z.of_nat (List.length (h_values h)))%Z.
Proof.
  unfold find_best_split_point. intros E.
  destruct (scan c h total place (h_values h) 0 gzero (mkPoint (-1) false n0)) as [q| |] eqn:S; [|discriminate..]. cbn [bind] in E.
  destruct (Z.leb_spec 0 (pt_left q)) as [L|L]; [|discriminate]. injection E as <-.
  destruct (scan_pos c h total place (h_values h) 0 gzero (mkPoint (-1) false n0) q) as (A & B & C);
    [left; reflexivity|left; cbn; lia|lia|exact S|]. cbn in C.
  destruct B as [B|B]; [lia|]. split; [exact B|]. lia.
Qed.

(** What the search returns. *)
Lemma found_float b w gd rows c total sp : find_best_float_split (N := N) b w gd rows c total = Ret (Some sp) ->
  (n0 <? sp_gain sp) = true /\ sp_feature sp = [] /\ sp_float sp <> None /\ sp_cat sp = None.
Proof.
  unfold find_best_float_split. intros E. destruct (icol_vec (b_ints b)); [|discriminate..]. cbn [bind] in E.
  destruct (compute_histogram (b_bucket b) (b_max_int b) w gd rows) as [h| |]; [|discriminate..]. cbn [bind] in E.
  destruct (find_best_split_point c h total true) as [[p|]| |] eqn:P; [|discriminate..]. cbn [bind] in E.
  destruct (point_pos _ _ _ _ _ P) as (G & _).
  repeat match type of E with bind ?r _ = _ => destruct r; [|discriminate..]; cbn [bind] in E end.
  injection E as <-. cbn. split; [exact G|]. repeat split. discriminate.
Qed.

Lemma skipn_nonempty {A} k (l : list A) : k < List.length l -> skipn k l <> [].
Proof. intros L E. pose proof (skipn_length k l) as X. rewrite E in X. cbn in X. lia. Qed.
Lemma firstn_nonempty {A} k (l : list A) : 0 < k -> k < List.length l -> firstn k l <> [].
Proof. intros P L E. pose proof (firstn_length k l) as X. rewrite E in X. cbn in X. lia. Qed.

Lemma found_string srt s w gd rows c total sp : sorts srt -> (0 <= str_max_int s < 4294967296)%Z ->
  find_best_string_split (N := N) srt s w gd rows c total = Ret (Some sp) ->
  (n0 <? sp_gain sp) = true /\ sp_feature sp = [] /\ sp_float sp = None /\
  exists idx, sp_cat sp = Some ([], idx) /\ idx <> [] /\ forall k, In k idx -> (0 <= u32 k < str_max_int s)%Z.
Proof.
  unfold find_best_string_split. intros Srt Mx E. destruct (icol_vec (s_ints s)); [|discriminate..]. cbn [bind] in E.
  destruct (compute_histogram (icol_get (s_ints s)) (str_max_int s) w gd rows) as [h| |] eqn:Ch; [|discriminate..]. cbn [bind] in E.
  destruct (sort_on_node_score srt (cf_l2_lambda c) h) as [h'| |] eqn:So; [|discriminate..]. cbn [bind] in E.
  destruct (find_best_split_point c h' total false) as [[p|]| |] eqn:P; [|discriminate..]. cbn [bind] in E.
  destruct (point_pos _ _ _ _ _ P) as (G & L0 & L1). injection E as <-. cbn. split; [exact G|]. split; [reflexivity|]. split; [reflexivity|].
  assert (Vh : forall v, In v (h_values h') -> (Z.of_nat v < str_max_int s)%Z).
  { intros v I. unfold sort_on_node_score in So. destruct (_ || forallb _ _) eqn:Fb in So; [|discriminate]. injection So as <-. cbn [h_values] in I.
    assert (Q : Permutation (h_values h) (srt (fun a b => node_score (cf_l2_lambda c) h a <? node_score (cf_l2_lambda c) h b) (h_values h))).
    { apply Srt. split; [|split].
      - intros x _. apply (ord_irrefl O).
      - intros x y z _ _ _. apply (ord_trans O).
      - intros x y z Ia Ib Id H. apply orb_true_iff in Fb. destruct Fb as [Fb|Fb].
        + apply Nat.leb_le in Fb. destruct (h_values h) as [|v1 [|v2 vs]]; [destruct Ia| |cbn in Fb; lia].
          destruct Ia as [<-|[]], Ib as [<-|[]]. rewrite (ord_irrefl O) in H. discriminate.
        + rewrite forallb_forall in Fb. apply (ord_between O); [exact H|apply Fb, Id]. }
    apply (Permutation_in _ (Permutation_sym Q)) in I. unfold compute_histogram in Ch.
    destruct (fold_res _ rows _) as [hd| |]; [|discriminate..]. cbn [bind] in Ch. injection Ch as <-. cbn in I.
    apply filter_In in I. destruct I as [I _]. apply in_seq in I. lia. }
  eexists. split; [reflexivity|].
  assert (Ch2 : forall l, (forall v, In v l -> In v (h_values h')) -> forall k, In k (map (fun v => s32 (Z.of_nat v)) l) -> (0 <= u32 k < str_max_int s)%Z).
  { intros l H k I. apply in_map_iff in I. destruct I as (v & <- & I). pose proof (Vh v (H v I)). rewrite u32_s32 by lia. lia. }
  destruct (_ <=? _)%Z; (split; [|apply Ch2]).
  - intros X. apply map_eq_nil in X. revert X. apply firstn_nonempty; lia.
  - intros v I. rewrite <- (firstn_skipn (Z.to_nat (pt_left p + 1)) (h_values h')). apply in_or_app. auto.
  - intros X. apply map_eq_nil in X. revert X. apply skipn_nonempty; lia.
  - intros v I. rewrite <- (firstn_skipn (Z.to_nat (pt_left p + 1)) (h_values h')). apply in_or_app. auto.
Qed.

Lemma names_fold s idx : forall acc, (forall k, In k idx -> exists n, str_cat_string s (Z.to_nat (u32 k)) = Ret n) ->
  exists names, fold_res (fun acc k => let! n := str_cat_string s (Z.to_nat (u32 k)) in Ret (acc ++ [n])) idx acc = Ret (acc ++ names) /\
    Forall2 (fun k name => str_cat_string s (Z.to_nat (u32 k)) = Ret name) idx names.
Proof.
  induction idx as [|k idx IH]; intros acc H; cbn [fold_res].
  - exists []. rewrite app_nil_r. split; [reflexivity|constructor].
  - destruct (H k (or_introl eq_refl)) as [n E]. rewrite E. cbn [bind].
    destruct (IH (acc ++ [n])) as (names & E2 & F); [intros k' I; apply H; right; exact I|].
    exists (n :: names). rewrite E2, <- app_assoc. split; [reflexivity|]. constructor; assumption.
Qed.

Lemma Forall2_and_l {A B} (P : A -> Prop) (Q : A -> B -> Prop) l l' : (forall a, In a l -> P a) -> Forall2 Q l l' -> Forall2 (fun a b => P a /\ Q a b) l l'.
Proof.
  intros H F. induction F as [|a b l l' Q0 F IH]; constructor; [split; [apply H; left; reflexivity|exact Q0]|].
  apply IH. intros a' I. apply H. right. exact I.
Qed.

Lemma found_named srt col n w gd rows c total sp : sorts srt -> has_rows col n ->
  find_best_split (N := N) srt col w gd rows c total = Ret (Some sp) ->
  (n0 <? sp_gain sp) = true /\ exists sp', with_names col sp = Ret sp' /\ named col sp sp' /\ fits_kind col sp'.
Proof.
  intros Srt H E. destruct col as [nm [b|r|s]]; unfold find_best_split in E; cbn [c_body] in E; [| discriminate|].
  - destruct (found_float _ _ _ _ _ _ _ E) as (G & F & K & C). split; [exact G|].
    unfold with_names. rewrite C. eexists. split; [reflexivity|]. split; [|exact K]. unfold named. rewrite C. cbn. auto.
  - destruct (string_facts _ _ _ H) as (_ & Mx & _). destruct (found_string _ _ _ _ _ _ _ _ Srt Mx E) as (G & F & K & idx & C & Ne & R).
    split; [exact G|]. destruct H as (blocks & Fb & -> & ->). destruct (string_dictionary blocks Fb) as (_ & D2 & _).
    unfold with_names. rewrite C. cbn [c_body].
    destruct (names_fold (string_column_of blocks) idx []) as (names & -> & F2).
    { intros k I. destruct (D2 (Z.to_nat (u32 k))) as [x X]; [specialize (R k I); rewrite Z2Nat.id by lia; lia|eauto]. }
    cbn [bind app]. eexists. split; [reflexivity|]. split; [|cbn; discriminate].
    unfold named. rewrite C. cbn. repeat split. exists (string_column_of blocks), names. repeat split.
    apply Forall2_and_l; [|exact F2]. intros k I. apply R in I. lia.
Qed.

(** ** The loop over the splits *)
Lemma best_index_spec (l : list (split N)) (Num : forall sp, In sp l -> (sp_gain sp =? sp_gain sp) = true) rest : forall pre bi best k sp,
  l = pre ++ rest -> nth_error l bi = Some best -> bi < List.length pre ->
  (forall j x, j < List.length pre -> nth_error l j = Some x -> (sp_gain best <? sp_gain x) = false) ->
  (forall j x, j < bi -> nth_error l j = Some x -> (sp_gain x <? sp_gain best) = true) ->
  best_index rest (List.length pre) bi best = (k, sp) ->
  nth_error l k = Some sp /\ (forall j x, nth_error l j = Some x -> (sp_gain sp <? sp_gain x) = false) /\
  (forall j x, j < k -> nth_error l j = Some x -> (sp_gain x <? sp_gain sp) = true).
Proof.
  induction rest as [|y rest IH]; intros pre bi best k sp El Eb Lb M S E; cbn [best_index] in E.
  - injection E as <- <-. split; [exact Eb|]. split; [|exact S]. intros j x Ej. apply (M j x); [|exact Ej].
    rewrite El, app_nil_r in Ej. apply nth_error_Some. congruence.
  - assert (Ey : nth_error l (List.length pre) = Some y) by (rewrite El, nth_error_app2, Nat.sub_diag by lia; reflexivity).
    assert (El' : l = (pre ++ [y]) ++ rest) by (rewrite <- app_assoc; exact El).
    assert (Lp : List.length (pre ++ [y]) = Datatypes.S (List.length pre)) by (rewrite app_length; cbn; lia).
    destruct (sp_gain best <? sp_gain y) eqn:C; rewrite <- Lp in E.
    + eapply (IH (pre ++ [y]) (List.length pre) y); [exact El'|exact Ey|lia| | |exact E].
      * intros j x Lj Ej. destruct (Nat.eq_dec j (List.length pre)) as [->|Ne].
        -- replace x with y by congruence. apply (ord_irrefl O).
        -- pose proof (M j x ltac:(lia) Ej) as Mx. destruct (sp_gain y <? sp_gain x) eqn:D; [|reflexivity].
           rewrite (ord_trans O _ _ _ C D) in Mx. discriminate.
      * intros j x Lj Ej. pose proof (M j x Lj Ej) as Mx.
        destruct (ord_between O _ _ (sp_gain x) C) as [X|X]; [apply Num; eapply nth_error_In; exact Ej|congruence|exact X].
    + eapply (IH (pre ++ [y]) bi best); [exact El'|exact Eb|lia| |exact S|exact E].
      intros j x Lj Ej. destruct (Nat.eq_dec j (List.length pre)) as [->|Ne].
      * replace x with y by congruence. exact C.
      * apply (M j x); [lia|exact Ej].
Qed.

Section Find.
Variables (draw : nat -> spec_float) (pos : nat) (srt : (nat -> nat -> bool) -> list nat -> list nat) (features : list column)
  (w : float_vector) (gd : list (grad N)) (rows : list nat) (total : grad N) (c : config N) (n : nat).
Hypothesis Srt : sorts srt.
Hypothesis Rows : forall col, In col features -> has_rows col n.
Notation sampled := (fst (uniform_subsample draw pos (List.length features) (to_f64 (cf_feature_rate c)))).
Variable results : list (option (split N)).
Hypothesis Res : Forall2 (fun k r => exists col, nth_error features k = Some col /\ find_best_split srt col w gd rows c total = Ret r)
  sampled results.

Lemma search_schedule :
  (forall s, ireach Nat.eq_dec (search_tasks srt features w gd rows c total sampled, vec_mem (repeat default_split (List.length sampled))) s ->
     (forall p, In p (fst s) -> ~ pfail p (snd s)) /\
     (all_done (fst s) \/ exists s', istep Nat.eq_dec s s') /\
     (all_done (fst s) -> forall i, snd s i = nth_error (map the_split results) i)) /\
  exists m, run_tasks Nat.eq_dec (search_tasks srt features w gd rows c total sampled) (vec_mem (repeat default_split (List.length sampled))) = Ret m /\
    forall i, m i = nth_error (map the_split results) i.
Proof.
  apply vec_tasks.
  - unfold search_tasks. rewrite map_length, combine_seq_length, repeat_length. reflexivity.
  - rewrite map_length, repeat_length. symmetry. exact (Forall2_len _ _ _ Res).
  - intros i p Ep. unfold search_tasks in Ep. rewrite nth_error_map, combine_seq_nth in Ep.
    destruct (nth_error sampled i) as [k|] eqn:Es; [|discriminate]. cbn in Ep. injection Ep as <-.
    destruct (Forall2_nth_error_l _ _ _ Res _ _ Es) as (r & Er & col & Ec & Ef).
    unfold search_task, vget. rewrite Ec. cbn [pres pbind]. rewrite Ef. cbn [pres pbind].
    assert (D : vec_mem (repeat (@default_split N) (List.length sampled)) i = Some default_split).
    { unfold vec_mem. apply nth_error_repeat. apply nth_error_Some. congruence. }
    rewrite nth_error_map, Er. destruct r as [sp|]; cbn [option_map the_split].
    + eexists. split; [eapply RWrite; [reflexivity|exact D|constructor]|]. apply upd_eq.
    + eexists. split; [constructor|exact D].
Qed.

Lemma result_col i r : nth_error results i = Some r -> exists k col, nth_error sampled i = Some k /\ nth_error features k = Some col /\
  find_best_split srt col w gd rows c total = Ret r.
Proof. intros E. destruct (Forall2_nth_error _ _ _ Res _ _ E) as (k & Ek & col & Ec & Ef). eauto 6. Qed.

Lemma result_gain r : In r results -> (gain_of r =? gain_of r) = true /\ (forall sp, r = Some sp -> (n0 <? sp_gain sp) = true).
Proof.
  intros I. apply In_nth_error in I. destruct I as [i E]. destruct (result_col i r E) as (k & col & _ & Ec & Ef).
  destruct r as [sp|]; [|split; [exact (ord_zero O)|discriminate]].
  destruct (found_named srt col n _ _ _ _ _ _ Srt (Rows col (nth_error_In _ _ Ec)) Ef) as [G _].
  split; [exact (lt_num_r _ _ G)|]. intros sp' X. injection X as <-. exact G.
Qed.

Lemma find_spec : exists sp f, find_best_feature draw pos srt features w gd rows total c = Ret (sp, f, (pos + List.length features)%nat) /\
  match f with
  | None => sp = default_split /\ forall r, In r results -> r = None
  | Some col => exists i k sp0, first_best results i sp0 /\ nth_error sampled i = Some k /\ nth_error features k = Some col /\
      find_best_split srt col w gd rows c total = Ret (Some sp0) /\ named col sp0 sp /\ fits_kind col sp
  end.
Proof.
  pose proof search_schedule as (_ & m & Em & Fm). pose proof (Forall2_len _ _ _ Res) as Len. pose proof result_col as RC.
  pose proof result_gain as RG. clear Res.
  unfold find_best_feature. destruct (uniform_subsample draw pos (List.length features) (to_f64 (cf_feature_rate c))) as [smp pos'] eqn:U.
  assert (Pos : (pos' = pos + List.length features)%nat) by (unfold uniform_subsample in U; injection U as _ <-; reflexivity).
  cbn [fst] in Em, Len, RC |- *. rewrite Em. cbn [bind].
  assert (Rv : read_vec m 0 (List.length smp) = map the_split results).
  { rewrite Len, <- (map_length the_split results). apply read_vec_ok. intros j x E. cbn. rewrite Fm. exact E. }
  rewrite Rv. clear Rv Fm Em Len. destruct results as [|r0 rs]; cbn [map].
  - exists default_split, None. rewrite Pos. split; [reflexivity|]. split; [reflexivity|]. intros r [].
  - 
    destruct (best_index (map the_split rs) 1 0 (the_split r0)) as [bi best] eqn:B.
    destruct (best_index_spec (map the_split (r0 :: rs))) with (rest := map the_split rs) (pre := [the_split r0]) (bi := 0) (best := the_split r0) (k := bi) (sp := best)
      as (Nb & Mb & Sb); try reflexivity; try exact B.
    + intros sp I. apply in_map_iff in I. destruct I as (r & <- & I). apply RG in I. exact (proj1 I).
    + cbn. lia.
    + intros j x Lj Ej. cbn in Lj. assert (j = 0) by lia. subst j. cbn in Ej. injection Ej as <-. apply (ord_irrefl O).
    + intros j x Lj. lia.
    + rewrite nth_error_map in Nb. destruct (nth_error (r0 :: rs) bi) as [r|] eqn:Eb; [|discriminate]. cbn in Nb. injection Nb as <-.
      destruct (RG r (nth_error_In _ _ Eb)) as [_ Gp].
      destruct r as [sp0|].
      * pose proof (Gp sp0 eq_refl) as G. cbn [the_split]. rewrite G.
        destruct (RC bi (Some sp0) Eb) as (k & col & Ek & Ec & Ef). unfold vget. rewrite Ek. cbn [bind]. rewrite Ec. cbn [bind].
        destruct (found_named srt col n _ _ _ _ _ _ Srt (Rows col (nth_error_In _ _ Ec)) Ef) as (_ & sp' & Wn & Nm & Fk).
        rewrite Wn. cbn [bind]. exists sp', (Some col). rewrite Pos. split; [reflexivity|].
        exists bi, k, sp0. split; [|auto]. split; [exact Eb|]. split; [exact G|]. split.
        -- intros j r Ej. apply (Mb j (the_split r)). rewrite nth_error_map, Ej. reflexivity.
        -- intros j r Ej Lj. apply (Sb j (the_split r) Lj). rewrite nth_error_map, Ej. reflexivity.
      * cbn [the_split sp_gain default_split]. rewrite (ord_irrefl O n0). exists default_split, None. rewrite Pos. split; [reflexivity|]. split; [reflexivity|].
        intros r I. destruct r as [sp|]; [|reflexivity]. exfalso. destruct (RG (Some sp) I) as [_ G].
        apply In_nth_error in I. destruct I as [j Ej]. pose proof (Mb j sp ltac:(rewrite nth_error_map, Ej; reflexivity)) as X.
        cbn [the_split sp_gain default_split] in X. rewrite (G sp eq_refl) in X. discriminate.
Qed.
End Find.
End Feature.
