From Verif Require Import Base Base_proofs F32 Column DataStore Strings StringsSpec Strings_proofs
  StringsText_proofs Tsv TsvSpec.

Definition get_cell {A} (f : str -> parsed A) (line : str) (i : nat) : parsed A :=
  match cell line i with None => PErr OUT_OF_RANGE | Some x => f x end.

Lemma split_tab line : exists row, split line [tab] = Ret row.
Proof. destruct (split_join line [tab]) as (ws & E & _); [discriminate|eauto]. Qed.

Lemma cell_row line row i : split line [tab] = Ret row -> cell line i = nth_error row i.
Proof.
  rewrite (split_cut tab line). intros [= <-]. unfold cell. change tab with tabulator. destruct line; [destruct i|]; reflexivity.
Qed.

Lemma push_cells_ok {A} (f : str -> parsed A) line row cols r : split line [tab] = Ret row ->
  push_cells f row cols = POk r ->
  Forall2 (fun p q => fst q = fst p /\ exists v, get_cell f line (fst p) = POk v /\ snd q = snd p ++ [v])
    cols r.
Proof.
  intros E. revert r. induction cols as [|[i col] cols IH]; cbn; intros r H.
  - injection H as <-. constructor.
  - destruct (nth_error row i) as [x|] eqn:Ex; [|discriminate].
    destruct (f x) as [e|v] eqn:Ef; [discriminate|].
    destruct (push_cells f row cols) as [e|r']; [discriminate|]. injection H as <-.
    constructor; auto. cbn. split; auto. exists v. split; auto.
    unfold get_cell. rewrite (cell_row _ _ _ E), Ex. auto.
Qed.

Lemma push_cells_err {A} (f : str -> parsed A) line row cols e : split line [tab] = Ret row ->
  push_cells f row cols = PErr e -> exists p, In p cols /\ get_cell f line (fst p) = PErr e.
Proof.
  intros E. induction cols as [|[i col] cols IH]; cbn; intros H; [discriminate|].
  destruct (nth_error row i) as [x|] eqn:Ex.
  - destruct (f x) as [e'|v] eqn:Ef.
    + injection H as ->. exists (i, col). split; auto. unfold get_cell. cbn.
      rewrite (cell_row _ _ _ E), Ex. auto.
    + destruct (push_cells f row cols) as [e'|r'] eqn:Ep; [|discriminate]. injection H as ->.
      destruct (IH eq_refl) as (p & I & G). exists p. auto.
  - injection H as <-. exists (i, col). split; auto. unfold get_cell. cbn.
    rewrite (cell_row _ _ _ E), Ex. auto.
Qed.

Definition grown {A} (f : str -> parsed A) (lines : list str) (p q : nat * list A) : Prop :=
  fst q = fst p /\ exists vs, snd q = snd p ++ vs /\
    Forall2 (fun line v => get_cell f line (fst p) = POk v) lines vs.

Lemma Forall2_refl {A} (R : A -> A -> Prop) l : (forall a, R a a) -> Forall2 R l l.
Proof. intros H. induction l; constructor; auto. Qed.

Lemma Forall2_trans {A} (R S T : A -> A -> Prop) l1 : forall l2 l3,
  (forall a b c, R a b -> S b c -> T a c) -> Forall2 R l1 l2 -> Forall2 S l2 l3 -> Forall2 T l1 l3.
Proof.
  induction l1; intros l2 l3 H H1 H2; inversion H1; subst; inversion H2; subst; constructor; eauto.
Qed.

Lemma Forall2_in_l {A B} (R : A -> B -> Prop) l1 l2 a : Forall2 R l1 l2 -> In a l1 ->
  exists b, In b l2 /\ R a b.
Proof.
  induction 1; cbn; [tauto|]. intros [->|I]; eauto. destruct (IHForall2 I) as (b & Ib & Rb). eauto.
Qed.
Lemma Forall2_in_r {A B} (R : A -> B -> Prop) l1 l2 b : Forall2 R l1 l2 -> In b l2 ->
  exists a, In a l1 /\ R a b.
Proof.
  induction 1; cbn; [tauto|]. intros [->|I]; eauto. destruct (IHForall2 I) as (a & Ia & Ra). eauto.
Qed.

Lemma read_lines_spec strtof lines : forall scols fcols,
  exists r, read_lines strtof lines scols fcols = Ret r /\
  match r with
  | POk (f, s) =>
      Forall2 (grown (float_cell strtof) (filter nonempty lines)) fcols f /\
      Forall2 (grown string_cell (filter nonempty lines)) scols s
  | PErr e =>
      exists pre line post, filter nonempty lines = pre ++ line :: post /\
        (forall l p, In l pre -> In p scols -> exists v, get_cell string_cell l (fst p) = POk v) /\
        (forall l p, In l pre -> In p fcols -> exists v, get_cell (float_cell strtof) l (fst p) = POk v) /\
        ((exists p, In p scols /\ get_cell string_cell line (fst p) = PErr e) \/
         ((forall p, In p scols -> exists v, get_cell string_cell line (fst p) = POk v) /\
          exists p, In p fcols /\ get_cell (float_cell strtof) line (fst p) = PErr e))
  end.
Proof.
  assert (Hg : forall A (f : str -> parsed A) p, grown f [] p p).
  { intros. split; auto. exists []. rewrite app_nil_r. auto. }
  induction lines as [|line lines IH]; intros scols fcols; cbn [read_lines filter].
  - eexists. split; [reflexivity|]. split; apply Forall2_refl; auto.
  - destruct line as [|c line']; [cbn; apply IH|]. cbn [nonempty]. set (line := c :: line') in *.
    destruct (split_tab line) as [row E]. rewrite E. cbn [bind].
    destruct (push_cells string_cell row scols) as [e|scols'] eqn:Es.
    + eexists. split; [reflexivity|]. exists [], line, (filter nonempty lines).
      split; auto. split; [intros ? ? []|]. split; [intros ? ? []|].
      left. eapply push_cells_err; eauto.
    + pose proof (push_cells_ok _ _ _ _ _ E Es) as Hs.
      destruct (push_cells (float_cell strtof) row fcols) as [e|fcols'] eqn:Ef.
      * eexists. split; [reflexivity|]. exists [], line, (filter nonempty lines).
        split; auto. split; [intros ? ? []|]. split; [intros ? ? []|]. right. split.
        -- intros p I. destruct (Forall2_in_l _ _ _ _ Hs I) as (q & _ & _ & v & G & _). eauto.
        -- eapply push_cells_err; eauto.
      * pose proof (push_cells_ok _ _ _ _ _ E Ef) as Hf.
        destruct (IH scols' fcols') as (r & Er & H). exists r. split; auto.
        destruct r as [e|[f s]].
        -- destruct H as (pre & l & post & Epre & H1 & H2 & H3).
           exists (line :: pre), l, post. rewrite Epre. split; auto. split; [|split].
           ++ intros x p [<-|I] Ip; destruct (Forall2_in_l _ _ _ _ Hs Ip) as (q & Iq & Eq & v & G & _); eauto.
              rewrite <- Eq. eauto.
           ++ intros x p [<-|I] Ip; destruct (Forall2_in_l _ _ _ _ Hf Ip) as (q & Iq & Eq & v & G & _); eauto.
              rewrite <- Eq. eauto.
           ++ destruct H3 as [(q & Iq & G)|[H3 (q & Iq & G)]].
              ** left. destruct (Forall2_in_r _ _ _ _ Hs Iq) as (p & Ip & Ep & _). exists p. rewrite <- Ep. auto.
              ** right. split.
                 { intros p Ip. destruct (Forall2_in_l _ _ _ _ Hs Ip) as (q' & Iq' & Eq & _). rewrite <- Eq. auto. }
                 destruct (Forall2_in_r _ _ _ _ Hf Iq) as (p & Ip & Ep & _). exists p. rewrite <- Ep. auto.
        -- destruct H as [H1 H2].
           assert (Hcomp : forall A (f : str -> parsed A) (a b c : nat * list A),
             (fst b = fst a /\ exists v, get_cell f line (fst a) = POk v /\ snd b = snd a ++ [v]) ->
             grown f (filter nonempty lines) b c -> grown f (line :: filter nonempty lines) a c).
           { intros A0 f0 a b c0 (E1 & v & G & E2) (E3 & vs & E4 & G'). split; [congruence|].
             exists (v :: vs). rewrite E4, E2, <- app_assoc. split; auto. constructor; auto.
             rewrite <- E1. auto. }
           split; [exact (Forall2_trans _ _ _ _ _ _ (Hcomp _ _) Hf H1)|exact (Forall2_trans _ _ _ _ _ _ (Hcomp _ _) Hs H2)].
Qed.

Lemma get_string line i v : get_cell string_cell line i = POk v <-> cell line i = Some v.
Proof.
  unfold get_cell, string_cell. destruct (cell line i); split; congruence.
Qed.
Lemma get_string_err line i e : get_cell string_cell line i = PErr e -> e = OUT_OF_RANGE /\ cell line i = None.
Proof. unfold get_cell, string_cell. destruct (cell line i); [discriminate|]. intros [= <-]. auto. Qed.
Lemma float_cell_value strtof x :
  float_cell strtof x = match float_value strtof x with Some v => POk v | None => PErr INVALID_ARGUMENT end.
Proof.
  unfold float_cell, float_value. rewrite string_cast_number. destruct (number strtof x); auto.
  unfold nan_tokens. destruct (in_dec _ x _); auto.
Qed.
Lemma get_float strtof line i v : get_cell (float_cell strtof) line i = POk v <->
  exists x, cell line i = Some x /\ float_value strtof x = Some v.
Proof.
  unfold get_cell. destruct (cell line i) as [x|].
  - rewrite float_cell_value. destruct (float_value strtof x) eqn:E.
    + split; [intros [= ->]; eauto|]. intros (y & [= <-] & H). congruence.
    + split; [discriminate|]. intros (y & [= <-] & H). congruence.
  - split; [discriminate|]. intros (y & H & _). discriminate.
Qed.
Lemma get_float_err strtof line i e : get_cell (float_cell strtof) line i = PErr e ->
  (e = OUT_OF_RANGE /\ cell line i = None) \/
  (e = INVALID_ARGUMENT /\ exists x, cell line i = Some x /\ float_value strtof x = None).
Proof.
  unfold get_cell. destruct (cell line i) as [x|].
  - rewrite float_cell_value. destruct (float_value strtof x) eqn:E; [discriminate|].
    intros [= <-]. right. eauto.
  - intros [= <-]. auto.
Qed.

Lemma Forall2_map_l {A B C} (R : B -> C -> Prop) (f : A -> B) l : forall l',
  Forall2 R (map f l) l' -> Forall2 (fun a => R (f a)) l l'.
Proof. induction l; cbn; intros l' H; inversion H; subst; constructor; auto. Qed.
Lemma Forall2_map_r {A B C} (R : A -> C -> Prop) (f : B -> C) l : forall l',
  Forall2 (fun a b => R a (f b)) l l' -> Forall2 R l (map f l').
Proof. induction l; cbn; intros l' H; inversion H; subst; constructor; auto. Qed.

Lemma fresh_grown {A} (f : str -> parsed A) lines idxs cols :
  Forall2 (grown f lines) (map (fun i => (i, [])) idxs) cols ->
  Forall2 (fun i col => Forall2 (fun line v => get_cell f line i = POk v) lines col) idxs (map snd cols).
Proof.
  intros H. apply Forall2_map_l in H. apply Forall2_map_r. eapply Forall2_weaken; [|eassumption].
  cbn. intros i [j col] (E & vs & Ev & G). cbn in *. subst. auto.
Qed.

Lemma tsv_block fs strtof file content fidx sidx skip : fs file = Some content ->
  let lines := data_lines skip content in
  exists b, read_tsv fs strtof file fidx sidx skip = Ret b /\
  match b with
  | POk (fl, sl) =>
      Forall2 (fun i col => float_cells strtof i lines col) fidx fl /\
      Forall2 (fun i col => string_cells i lines col) sidx sl
  | PErr e =>
      exists pre line post, lines = pre ++ line :: post /\
        (forall l, In l pre -> line_ok strtof fidx sidx l) /\ ~ line_ok strtof fidx sidx line /\
        ((e = OUT_OF_RANGE /\ exists i, In i (sidx ++ fidx) /\ cell line i = None) \/
         (e = INVALID_ARGUMENT /\ (forall i, In i sidx -> exists x, cell line i = Some x) /\
          exists i x, In i fidx /\ cell line i = Some x /\ float_value strtof x = None))
  end.
Proof.
  intros E lines. unfold read_tsv. rewrite E.
  rewrite file_lines_text_lines.
  set (ls := if skip then tl (text_lines content) else text_lines content) in *.
  destruct (read_lines_spec strtof ls (map (fun i => (i, [])) sidx) (map (fun i => (i, [])) fidx))
    as (r & -> & H). cbn [bind].
  assert (Hlines : filter nonempty ls = lines) by reflexivity. rewrite Hlines in H.
  destruct r as [e|[f s]].
  - eexists. split; [reflexivity|].
    destruct H as (pre & line & post & Ep & H1 & H2 & H3).
    assert (IS : forall i, In i sidx -> In (i, @nil str) (map (fun i => (i, [])) sidx)) by
      (intros i I; apply in_map_iff; eauto).
    assert (IF : forall i, In i fidx -> In (i, @nil f32) (map (fun i => (i, [])) fidx)) by
      (intros i I; apply in_map_iff; eauto).
    exists pre, line, post. split; auto. split; [|split].
    + intros l I. split.
      * intros i Ii. destruct (H1 l _ I (IS i Ii)) as [v G]. cbn in G. apply get_string in G. eauto.
      * intros i Ii. destruct (H2 l _ I (IF i Ii)) as [v G]. cbn in G. apply get_float in G.
        destruct G as (x & ? & ?). eauto.
    + intros [O1 O2]. destruct H3 as [(p & Ip & G)|[_ (p & Ip & G)]]; apply in_map_iff in Ip;
        destruct Ip as (i & <- & Ii); cbn in G.
      * apply get_string_err in G. destruct (O1 i Ii) as [x Ex]. destruct G. congruence.
      * destruct (O2 i Ii) as (x & v & Ex & Ev). apply get_float_err in G.
        destruct G as [[_ G]|(_ & y & Ey & Ev')]; congruence.
    + destruct H3 as [(p & Ip & G)|[H3 (p & Ip & G)]]; apply in_map_iff in Ip;
        destruct Ip as (i & <- & Ii); cbn in G.
      * apply get_string_err in G. left. split; [tauto|]. exists i. rewrite in_app_iff. tauto.
      * apply get_float_err in G. destruct G as [[-> G]|(-> & y & Ey & Ev')].
        -- left. split; auto. exists i. rewrite in_app_iff. auto.
        -- right. split; auto. split; [|eauto]. intros j Ij.
           destruct (H3 _ (IS j Ij)) as [v G]. cbn in G. apply get_string in G. eauto.
  - eexists. split; [reflexivity|]. destruct H as [Hf Hs]. apply fresh_grown in Hf, Hs. split.
    + eapply Forall2_weaken; [|exact Hf]. cbn. intros i col G. eapply Forall2_weaken; [|exact G].
      cbn. intros l v. apply get_float.
    + eapply Forall2_weaken; [|exact Hs]. cbn. intros i col G. eapply Forall2_weaken; [|exact G].
      cbn. intros l v. apply get_string.
Qed.

Lemma tsv_block_success fs strtof file content fidx sidx skip b : fs file = Some content ->
  read_tsv fs strtof file fidx sidx skip = Ret b ->
  ((exists fl sl, b = POk (fl, sl)) <->
   forall l, In l (data_lines skip content) -> line_ok strtof fidx sidx l).
Proof.
  intros E R. destruct (tsv_block fs strtof file content fidx sidx skip E) as (b' & R' & H).
  rewrite R in R'. injection R' as <-. destruct b as [e|[fl sl]].
  - destruct H as (pre & line & post & El & _ & N & _). split.
    + intros (? & ? & ?). discriminate.
    + intros A. exfalso. apply N, A. rewrite El. apply in_app_iff. cbn. auto.
  - split; eauto. intros _ l I. destruct H as [Hf Hs]. split.
    + intros i Ii. destruct (Forall2_in_l _ _ _ _ Hs Ii) as (col & _ & G).
      destruct (Forall2_in_l _ _ _ _ G I) as (x & _ & Ex). eauto.
    + intros i Ii. destruct (Forall2_in_l _ _ _ _ Hf Ii) as (col & _ & G).
      destruct (Forall2_in_l _ _ _ _ G I) as (v & _ & x & Ex). eauto.
Qed.
