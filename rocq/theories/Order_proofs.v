(** Order_proofs.v - columns whose splits route alike (property C82). *)
From Coq Require Import SpecFloat FunctionalExtensionality.
From Verif Require Import Base Base_proofs F32 Column ColumnSpec DataStore Subsampling Num Forest Par Config Score Eval Split SplitSpec Tree TreeSpec Train
  TrainSpec OrderSpec.

(** ** Results related by a relation *)
Definition rrel {A B} (R : A -> B -> Prop) (r : res A) (r' : res B) : Prop :=
  match r, r' with Ret a, Ret b => R a b | Undef, Undef | Fatal, Fatal => True | _, _ => False end.
Lemma rrel_eq {A} (r : res A) : rrel eq r r.
Proof. destruct r; exact I || reflexivity. Qed.
Lemma rrel_bind {A B C D} (R : A -> B -> Prop) (Q : C -> D -> Prop) r r' k k' : rrel R r r' -> (forall a b, R a b -> rrel Q (k a) (k' b)) ->
  rrel Q (bind r k) (bind r' k').
Proof. destruct r, r'; cbn; try contradiction; auto. Qed.
Lemma rrel_same {A C D} (Q : C -> D -> Prop) (r : res A) k k' : (forall a, r = Ret a -> rrel Q (k a) (k' a)) -> rrel Q (bind r k) (bind r k').
Proof. destruct r; cbn; auto. Qed.

Lemma Forall2_length {A B} (R : A -> B -> Prop) l l' : Forall2 R l l' -> List.length l = List.length l'.
Proof. induction 1; cbn; congruence. Qed.

Lemma Forall2_nth {A B} (R : A -> B -> Prop) l l' : Forall2 R l l' ->
  forall i, match nth_error l i, nth_error l' i with Some a, Some b => R a b | None, None => True | _, _ => False end.
Proof. induction 1 as [|a b l l' H F IH]; intros [|i]; cbn; auto. apply IH. Qed.

(** ** Programs on related memories *)
Section Sim.
Context {L V : Type} (dec : forall a b : L, {a = b} + {a <> b}) (R : L -> V -> V -> Prop).
Definition mrel (m m' : mem L V) : Prop := forall l, match m l, m' l with Some v, Some v' => R l v v' | None, None => True | _, _ => False end.
Inductive prel : prog L V unit -> prog L V unit -> Prop :=
| RelRet : prel (PRet tt) (PRet tt)
| RelUndef : prel PUndef PUndef
| RelFatal : prel PFatal PFatal
| RelWrite l v v' : R l v v' -> prel (PWrite l v (PRet tt)) (PWrite l v' (PRet tt)).
Lemma run_rel p p' : prel p p' -> forall m m', mrel m m' -> rrel (fun a b => mrel (snd a) (snd b)) (run dec p m) (run dec p' m').
Proof.
  intros H m m' M. destruct H as [| | |l v v' H]; cbn [run rrel snd]; auto. pose proof (M l) as Ml. destruct (m l), (m' l); try contradiction; [|exact I].
  cbn [rrel snd]. intros x. unfold upd. destruct (dec x l) as [->|]; [exact H|apply M].
Qed.
Lemma tasks_rel ps ps' : Forall2 prel ps ps' -> forall m m', mrel m m' -> rrel mrel (run_tasks dec ps m) (run_tasks dec ps' m').
Proof.
  induction 1 as [|p p' ps ps' H F IH]; intros m m' M; cbn [run_tasks]; [exact M|].
  apply (rrel_bind _ _ _ _ _ _ (run_rel p p' H m m' M)). intros [[] a] [[] b] Hab. apply IH. exact Hab.
Qed.
End Sim.

Lemma read_rel {A} (R : nat -> A -> A -> Prop) m m' : mrel R m m' -> forall k i,
  List.length (read_vec m' i k) = List.length (read_vec m i k) /\
  forall j a b, nth_error (read_vec m i k) j = Some a -> nth_error (read_vec m' i k) j = Some b -> R (i + j) a b.
Proof.
  intros M k. induction k as [|k IH]; intros i; cbn [read_vec]; [split; [reflexivity|intros [|j] a b E; discriminate]|].
  pose proof (M i) as Mi. destruct (m i) as [v|], (m' i) as [v'|]; try contradiction; [|split; [reflexivity|intros [|j] a b E; discriminate]].
  destruct (IH (S i)) as [E1 E2]. split; [cbn; congruence|].
  intros [|j] a b Ea Eb; cbn in Ea, Eb; [rewrite Nat.add_0_r; congruence|]. replace (i + S j) with (S i + j) by lia. exact (E2 j a b Ea Eb).
Qed.

Section Any.
Context {N : Num}.

(** ** Columns on which splits route alike *)
(** The threshold of a split between two buckets *)
Definition cut (b : bcol) (lv rv : nat) : res f32 :=
  let! left_limit := b_bucket_max b (Z.of_nat lv) in
  let! right_limit := b_bucket_min b (Z.of_nat rv) in
  if is_nan left_limit then let! x := b_bucket_min b 1 in Ret (below x) else Ret (middle left_limit right_limit).
Definition thresholds_like (b b' : bcol) (t t' : f32) : Prop :=
  forall r, (let! x := b_row_max b r in Ret (fltb x t)) = (let! x := b_row_max b' r in Ret (fltb x t')).
Definition blike (b b' : bcol) : Prop :=
  b_ints b' = b_ints b /\ b_max_int b' = b_max_int b /\ forall lv rv, lv < rv -> rrel (thresholds_like b b') (cut b lv rv) (cut b' lv rv).
Definition clike (c c' : column) : Prop :=
  c_name c' = c_name c /\ col_status c' = col_status c /\
  match c_body c, c_body c' with
  | BodyB b, BodyB b' => blike b b'
  | BodyS s, BodyS s' => s' = s
  | BodyR _, BodyR _ => True
  | _, _ => False
  end.

(** Two splits, on two columns, that route every row alike *)
Definition way (c c' : column) (sp sp' : split N) : Prop :=
  split_check c' sp' = split_check c sp /\ go_left c' sp' = go_left c sp /\ match c_body c, c_body c' with BodyR _, BodyR _ => True | BodyR _, _ | _, BodyR _ => False | _, _ => True end.
Lemma way_partition c c' sp sp' start len : way c c' sp sp' -> partition (N := N) c' sp' start len = partition c sp start len.
Proof.
  intros (E & F & K). unfold partition. rewrite E, F. destruct (c_body c), (c_body c'); try contradiction; reflexivity.
Qed.
(** A split and another that differs in the threshold only, and the thresholds route alike *)
Definition found (c c' : column) (sp sp' : split N) : Prop := but_threshold sp sp' /\
  forall b b' t t' m m', c_body c = BodyB b -> c_body c' = BodyB b' -> sp_float sp = Some (t, m) -> sp_float sp' = Some (t', m') -> thresholds_like b b' t t'.
Lemma found_way c c' (sp sp' : split N) : clike c c' -> found c c' sp sp' -> way c c' sp sp'.
Proof.
  intros (_ & _ & B) ((_ & Ec & _ & Ef) & T). unfold way, split_check, go_left.
  destruct (c_body c) as [b|x|s] eqn:Eb, (c_body c') as [b'|x'|s'] eqn:Eb'; try contradiction.
  - destruct B as (Bi & Bm & _). rewrite Bi.
    destruct (sp_float sp) as [[t m]|] eqn:Es, (sp_float sp') as [[t' m']|] eqn:Es'; try discriminate; [|auto].
    split; [reflexivity|]. split; [|exact I]. apply functional_extensionality. intros r. unfold b_missing. rewrite Bi. injection Ef as ->.
    destruct (icol_missing (b_ints b) r) as [[]| |]; [reflexivity| |reflexivity..]. cbn [bind]. symmetry. exact (T b b' t t' m m eq_refl eq_refl eq_refl eq_refl r).
  - auto.
  - subst s'. rewrite Ec. auto.
Qed.

(** ** The search *)
Section Search.
Variables (srt : (nat -> nat -> bool) -> list nat -> list nat) (w : float_vector) (gd : list (grad N)) (c : config N).

Lemma filter_seq_nth (f : nat -> bool) : forall n a i x y, nth_error (filter f (seq a n)) i = Some x -> nth_error (filter f (seq a n)) (S i) = Some y -> x < y.
Proof.
  intros n. induction n as [|n IH]; intros a i x y; cbn [seq filter]; [destruct i; discriminate|].
  destruct (f a); [|apply IH]. destruct i as [|i]; [|apply (IH (S a) i)]. cbn [nth_error]. intros [= <-] H.
  assert (I : In y (filter f (seq (S a) n))) by (destruct (filter f (seq (S a) n)); [discriminate|]; cbn in H; injection H as ->; left; reflexivity).
  apply filter_In in I as [I _]. apply in_seq in I. lia.
Qed.

Definition orel {A} (R : A -> A -> Prop) (a b : option A) : Prop := match a, b with Some x, Some y => R x y | None, None => True | _, _ => False end.

Definition float_rest (b : bcol) (h : @histogram N) (p : option (@split_point N)) : res (option (split N)) :=
  match p with
  | None => Ret None
  | Some p =>
      let! lv := vget (h_values h) (Z.to_nat (pt_left p)) in
      let! rv := vget (h_values h) (Z.to_nat (pt_left p + 1)) in
      let! t := cut b lv rv in
      Ret (Some (mkSplit [] (Some (t, pt_missing_right p)) None (pt_gain p)))
  end.
Lemma float_unfold b rows total : find_best_float_split b w gd rows c total =
  (let! _ := icol_vec (b_ints b) in
   let! h := compute_histogram (b_bucket b) (b_max_int b) w gd rows in
   let! p := find_best_split_point c h total true in
   float_rest b h p).
Proof.
  unfold find_best_float_split, float_rest. destruct (icol_vec (b_ints b)); [|reflexivity..]. cbn [bind].
  destruct (compute_histogram (b_bucket b) (b_max_int b) w gd rows) as [h| |]; [|reflexivity..]. cbn [bind].
  destruct (find_best_split_point c h total true) as [[p|]| |]; [|reflexivity..]. cbn [bind].
  destruct (vget (h_values h) (Z.to_nat (pt_left p))) as [lv| |]; [|reflexivity..]. cbn [bind].
  destruct (vget (h_values h) (Z.to_nat (pt_left p + 1))) as [rv| |]; [|reflexivity..]. cbn [bind]. unfold cut.
  destruct (b_bucket_max b (Z.of_nat lv)) as [x| |]; [|reflexivity..]. cbn [bind].
  destruct (b_bucket_min b (Z.of_nat rv)) as [y| |]; [|reflexivity..]. cbn [bind]. destruct (is_nan x); [|reflexivity].
  destruct (b_bucket_min b 1); reflexivity.
Qed.

Lemma search_rel col col' rows total : clike col col' ->
  rrel (orel (found col col')) (find_best_split srt col w gd rows c total) (find_best_split srt col' w gd rows c total).
Proof.
  intros Cl. pose proof Cl as (Cn & Cs & Cb). unfold find_best_split. destruct (c_body col) as [b|x|s] eqn:Eb, (c_body col') as [b'|x'|s'] eqn:Eb'; try contradiction; [| exact I|].
  - pose proof Cb as (Bi & Bm & Bc). rewrite !float_unfold. rewrite Bi, Bm. replace (b_bucket b') with (b_bucket b) by (unfold b_bucket; rewrite Bi; reflexivity).
    apply rrel_same. intros _ _. apply rrel_same. intros h Eh. apply rrel_same. intros p Ep. unfold float_rest. destruct p as [p|]; [|exact I].
    apply rrel_same. intros lv El. apply rrel_same. intros rv Er.
    assert (L : lv < rv).
    { unfold find_best_split_point in Ep. destruct (scan c h total true (h_values h) 0 gzero (mkPoint (-1) false n0)) as [q| |]; [|discriminate..].
      cbn [bind] in Ep. injection Ep as Ep. destruct (0 <=? pt_left q)%Z eqn:Z0; [|discriminate]. injection Ep as ->.
      unfold compute_histogram in Eh. destruct (fold_res _ rows _) as [hd| |]; [|discriminate..]. cbn [bind] in Eh. injection Eh as <-.
      cbn [h_values] in *. unfold vget in El, Er.
      replace (Z.to_nat (pt_left p + 1)) with (S (Z.to_nat (pt_left p))) in Er by lia.
      destruct (nth_error _ (Z.to_nat (pt_left p))) as [a|] eqn:Ea; [|discriminate]. destruct (nth_error _ (S (Z.to_nat (pt_left p)))) as [d|] eqn:Ed; [|discriminate].
      injection El as <-. injection Er as <-. exact (filter_seq_nth _ _ _ _ _ _ Ea Ed). }
    apply (rrel_bind _ _ _ _ _ _ (Bc lv rv L)). intros t t' T. cbn [rrel orel].
    assert (Bt : but_threshold (mkSplit [] (Some (t, pt_missing_right p)) None (pt_gain p)) (mkSplit [] (Some (t', pt_missing_right p)) None (pt_gain p) : split N))
      by (repeat split).
    split; [exact Bt|]. intros b0 b0' t0 t0' m0 m0' F F' G G'. rewrite Eb in F. rewrite Eb' in F'. injection F as <-. injection F' as <-. injection G as <- _. injection G' as <- _. exact T.
  - subst s'. destruct (find_best_string_split srt s w gd rows c total) as [[sp|]| |] eqn:E; cbn; auto.
    assert (Bt : but_threshold sp sp) by (repeat split). split; [exact Bt|]. intros b0 b0' ? ? ? ? F. rewrite Eb in F. discriminate.
Qed.

Lemma found_other c0 c0' (sp sp' q q' : split N) : found c0 c0' sp sp' -> but_threshold q q' -> sp_float q = sp_float sp -> sp_float q' = sp_float sp' ->
  found c0 c0' q q'.
Proof. intros [_ T] B E E'. split; [exact B|]. rewrite E, E'. exact T. Qed.
Lemma names_rel col col' sp sp' : clike col col' -> found col col' sp sp' ->
  rrel (fun a b => found col col' a b /\ sp_feature a = c_name col) (with_names col sp) (with_names col' sp').
Proof.
  intros Cl F. pose proof F as ((Ef & Ec & Eg & Et) & _). pose proof Cl as (Cn & _ & Cb). unfold with_names. rewrite Ec.
  assert (K : forall cat, found col col' (mkSplit (c_name col) (sp_float sp) cat (sp_gain sp)) (mkSplit (c_name col') (sp_float sp') cat (sp_gain sp'))).
  { intros cat. apply (found_other _ _ _ _ _ _ F); [|reflexivity..]. repeat split; cbn; assumption. }
  destruct (sp_cat sp) as [[names idx]|]; [|split; [apply K|reflexivity]].
  destruct (c_body col) as [b|x|s], (c_body col') as [b'|x'|s']; try contradiction; try exact I. subst s'.
  apply rrel_same. intros l _. split; [apply K|reflexivity].
Qed.

Variables (features features' : list column).
Hypothesis Fl : Forall2 clike features features'.
Lemma features_at k : match nth_error features k, nth_error features' k with Some a, Some b => clike a b | None, None => True | _, _ => False end.
Proof using Fl.
  exact (Forall2_nth _ _ _ Fl k).
Qed.

Definition at_task (sampled : list nat) (i : nat) (sp sp' : split N) : Prop := but_threshold sp sp' /\
  forall k col col', nth_error sampled i = Some k -> nth_error features k = Some col -> nth_error features' k = Some col' -> found col col' sp sp'.
Lemma default_rel sampled i : at_task sampled i default_split default_split.
Proof. split; [repeat split|]. intros k col col' _ _ _. split; [repeat split|]. intros b b' t t' m m' _ _ E. discriminate. Qed.

Lemma combine_nth {A} (l : list A) : forall a i x, In (i, x) (combine (seq a (List.length l)) l) -> a <= i /\ nth_error l (i - a) = Some x.
Proof.
  induction l as [|y l IH]; intros a i x; cbn; [contradiction|]. intros [[= <- <-]|H].
  - split; [lia|]. rewrite Nat.sub_diag. reflexivity.
  - apply IH in H as [H1 H2]. split; [lia|]. replace (i - a) with (S (i - S a)) by lia. exact H2.
Qed.
Lemma Forall2_map2 {A B C} (R : B -> C -> Prop) (f : A -> B) (g : A -> C) l : (forall a, In a l -> R (f a) (g a)) -> Forall2 R (map f l) (map g l).
Proof. induction l as [|x l IH]; intros H; constructor; [apply H; left; reflexivity|]. apply IH. intros a I. apply H. right. exact I. Qed.

Lemma tasks_like rows total sampled : Forall2 (prel (at_task sampled)) (search_tasks srt features w gd rows c total sampled)
  (search_tasks srt features' w gd rows c total sampled).
Proof using Fl.
  unfold search_tasks. apply Forall2_map2. intros [i k] I. apply combine_nth in I as [_ I]. rewrite Nat.sub_0_r in I. cbn [fst snd]. unfold search_task, vget.
  pose proof (features_at k) as F. destruct (nth_error features k) as [col|] eqn:E, (nth_error features' k) as [col'|] eqn:E'; try contradiction; [|constructor].
  cbn [pres pbind]. pose proof (search_rel col col' rows total F) as S.
  destruct (find_best_split srt col w gd rows c total) as [[sp|]| |], (find_best_split srt col' w gd rows c total) as [[sp'|]| |]; try contradiction; try constructor.
  split; [exact (proj1 S)|]. intros k0 c0 c0' Ek Ec Ec'. replace c0 with col by congruence. replace c0' with col' by congruence. exact S.
Qed.

Lemma index_rel : forall (l l' : list (split N)) i bi (best best' : split N), List.length l' = List.length l -> 
  (forall j a b, nth_error l j = Some a -> nth_error l' j = Some b -> but_threshold a b) -> but_threshold best best' ->
  let r := best_index l i bi best in let r' := best_index l' i bi best' in
  fst r' = fst r /\ ((r = (bi, best) /\ r' = (bi, best')) \/
    exists j, fst r = i + j /\ nth_error l j = Some (snd r) /\ nth_error l' j = Some (snd r')).
Proof.
  induction l as [|a l IH]; intros l' i bi best best' L H B; destruct l' as [|b l']; try discriminate; cbn [best_index].
  - split; [reflexivity|]. left. auto.
  - pose proof (H 0 a b eq_refl eq_refl) as Hab. destruct B as (B1 & B2 & B3 & B4). pose proof Hab as (_ & _ & H3 & _). rewrite B3, H3.
    injection L as L.
    assert (H' : forall j x y, nth_error l j = Some x -> nth_error l' j = Some y -> but_threshold x y) by (intros j x y; apply (H (S j))).
    destruct (sp_gain best <? sp_gain a)%num.
    + destruct (IH l' (S i) i a b L H' Hab) as (E & [[R R']|(j & Ej & Aj & Bj)]).
      * split; [exact E|]. right. exists 0. rewrite R, R'. cbn. split; [lia|auto].
      * split; [exact E|]. right. exists (S j). split; [lia|]. auto.
    + destruct (IH l' (S i) bi best best' L H' (conj B1 (conj B2 (conj B3 B4)))) as (E & [[R R']|(j & Ej & Aj & Bj)]).
      * split; [exact E|]. left. auto.
      * split; [exact E|]. right. exists (S j). split; [lia|]. auto.
Qed.

Definition frel (r r' : split N * option column * nat) : Prop :=
  snd r' = snd r /\ but_threshold (fst (fst r)) (fst (fst r')) /\
  match snd (fst r), snd (fst r') with
  | Some col, Some col' => clike col col' /\ found col col' (fst (fst r)) (fst (fst r')) /\ sp_feature (fst (fst r)) = c_name col /\ In (col, col') (combine features features')
  | None, None => fst (fst r) = default_split /\ fst (fst r') = default_split
  | _, _ => False
  end.
Lemma in_combine_nth {A B} (l : list A) : forall (l' : list B) k a b, nth_error l k = Some a -> nth_error l' k = Some b -> In (a, b) (combine l l').
Proof.
  induction l as [|x l IH]; intros [|y l'] [|k] a b; cbn; try discriminate.
  - intros [= ->] [= ->]. left. reflexivity.
  - intros H H'. right. exact (IH l' k a b H H').
Qed.
Lemma feature_rel draw pos rows total : rrel frel (find_best_feature draw pos srt features w gd rows total c) (find_best_feature draw pos srt features' w gd rows total c).
Proof using Fl.
  unfold find_best_feature. assert (EL : List.length features' = List.length features) by (symmetry; exact (Forall2_length _ _ _ Fl)).
  rewrite EL. destruct (uniform_subsample draw pos (List.length features) (to_f64 (cf_feature_rate c))) as [sampled pos'].
  assert (M0 : mrel (at_task sampled) (vec_mem (repeat default_split (List.length sampled))) (vec_mem (repeat default_split (List.length sampled)))).
  { intros i. unfold vec_mem. destruct (nth_error (repeat default_split (List.length sampled)) i) as [x|] eqn:E; [|exact I].
    apply nth_error_In, repeat_spec in E. subst x. apply default_rel. }
  apply (rrel_bind _ _ _ _ _ _ (tasks_rel Nat.eq_dec _ _ _ (tasks_like rows total sampled) _ _ M0)). intros m m' M.
  destruct (read_rel _ m m' M (List.length sampled) 0) as [RL RR].
  destruct (read_vec m 0 (List.length sampled)) as [|sp0 t], (read_vec m' 0 (List.length sampled)) as [|sp0' t']; try discriminate.
  - split; [reflexivity|]. split; [repeat split|]. split; reflexivity.
  - injection RL as RL. pose proof (RR 0 sp0 sp0' eq_refl eq_refl) as R0.
    pose proof (index_rel t t' 1 0 sp0 sp0' RL (fun j a b Ea Eb => proj1 (RR (S j) a b Ea Eb)) (proj1 R0)) as IR. cbn zeta in IR.
    destruct (best_index t 1 0 sp0) as [bi best], (best_index t' 1 0 sp0') as [bi' best']. cbn [fst snd] in IR. destruct IR as (-> & IR).
    assert (AT : at_task sampled bi best best').
    { destruct IR as [[[= -> ->] [= ->]]|(j & Ej & Aj & Bj)]; [exact R0|]. replace bi with (0 + S j) by lia. exact (RR (S j) best best' Aj Bj). }
    pose proof (proj1 AT) as (_ & _ & Eg & _). rewrite Eg. destruct (n0 <? sp_gain best)%num.
    + apply rrel_same. intros k Ek. unfold vget in Ek |- *. destruct (nth_error sampled bi) as [k0|] eqn:Es; [|discriminate]. injection Ek as ->.
      pose proof (features_at k) as Fk. destruct (nth_error features k) as [col|] eqn:Ec, (nth_error features' k) as [col'|] eqn:Ec'; try contradiction; [|exact I].
      cbn [bind]. pose proof (proj2 AT k col col' Es Ec Ec') as Fd. apply (rrel_bind _ _ _ _ _ _ (names_rel col col' best best' Fk Fd)).
      intros a b [Fab En]. cbn. split; [reflexivity|]. split; [exact (proj1 Fab)|]. split; [exact Fk|]. split; [exact Fab|]. split; [exact En|].
      exact (in_combine_nth _ _ _ _ _ Ec Ec').
    + split; [reflexivity|]. split; [repeat split|]. split; reflexivity.
Qed.
End Search.

(** ** Trees *)
Section Store.
Variables (store store' : str -> option column).
(** Splits that route alike on the columns of the stores, and trees with such splits *)
Definition srel (sp sp' : split N) : Prop := but_threshold sp sp' /\
  forall c c', store (sp_feature sp) = Some c -> store' (sp_feature sp) = Some c' -> found c c' sp sp'.
Inductive trel : tree N -> tree N -> Prop :=
| TrNone : trel TNone TNone
| TrNode s sp sp' l l' r r' : orel srel sp sp' -> trel l l' -> trel r r' -> trel (TNode s sp l r) (TNode s sp' l' r').

Lemma trel_node t t' : trel t t' -> forall p, trel (node_at t p) (node_at t' p).
Proof.
  intros T p. revert t t' T. induction p as [|d p IH]; intros t t' T; [exact T|]. cbn [node_at]. apply IH.
  destruct T as [|s sp sp' l l' r r' S L R]; destruct d; cbn; try constructor; assumption.
Qed.
Lemma trel_gain t t' : trel t t' -> sp_gain (the_split (t_split t')) = sp_gain (the_split (t_split t)).
Proof. intros [|s sp sp' l l' r r' S _ _]; [reflexivity|]. cbn. destruct sp, sp'; try contradiction; [|reflexivity]. destruct S as ((_ & _ & E & _) & _). exact E. Qed.
Lemma trel_children t t' l l' r r' : trel l l' -> trel r r' -> trel t t' -> forall p, trel (set_children t p l r) (set_children t' p l' r').
Proof.
  intros L R T. induction T as [|s sp sp' a a' b b' S A IHA B IHB]; intros p; cbn [set_children]; [constructor|].
  destruct p as [|d p]; [constructor; assumption|]. destruct d; constructor; auto.
Qed.
Lemma trel_shrink x t t' : trel t t' -> trel (apply_shrinkage x t) (apply_shrinkage x t').
Proof. induction 1; cbn; constructor; assumption. Qed.
Lemma trel_clear t t' : trel t t' -> trel (clear_internal t) (clear_internal t').
Proof.
  induction 1 as [|s sp sp' l l' r r' S A IHA B IHB]; cbn [clear_internal]; [constructor|].
  assert (E : present l' = present l) by (inversion A; reflexivity). constructor; [|exact IHA|exact IHB]. rewrite E. destruct (present l); [|exact I].
  destruct sp as [sp|], sp' as [sp'|]; try contradiction; [|exact I]. cbn. destruct S as (Bt & K). pose proof Bt as (E1 & E2 & E3 & E4). unfold clear_split. rewrite E2.
  destruct (sp_cat sp) as [[names idx]|] eqn:Ec; [|split; assumption].
  assert (Q : but_threshold (mkSplit (sp_feature sp) (sp_float sp) (Some (names, [])) (sp_gain sp)) (mkSplit (sp_feature sp') (sp_float sp') (Some (names, [])) (sp_gain sp')))
    by (repeat split; cbn; assumption).
  split; [exact Q|]. cbn [sp_feature]. intros c c' F F'. apply (found_other _ _ sp sp' _ _ (K c c' F F') Q); reflexivity.
Qed.

(** Scoring *)
Hypothesis Cols : forall n, match store n, store' n with Some c, Some c' => clike c c' | None, None => True | _, _ => False end.
Lemma split_partition sp sp' : orel srel sp sp' ->
  sp_feature (the_split sp') = sp_feature (the_split sp) /\
  forall c c' start len, store (sp_feature (the_split sp)) = Some c -> store' (sp_feature (the_split sp)) = Some c' ->
    partition c' (the_split sp') start len = partition c (the_split sp) start len.
Proof using Cols.
  intros S. destruct sp as [sp|], sp' as [sp'|]; try contradiction; cbn [the_split].
  - destruct S as (Bt & K). split; [exact (proj1 Bt)|]. intros c c' start len F F'. apply way_partition, found_way; [|exact (K c c' F F')].
    specialize (Cols (sp_feature sp)). rewrite F, F' in Cols. exact Cols.
  - split; [reflexivity|]. intros c c' start len F F'. apply way_partition, found_way.
    + specialize (Cols (sp_feature (@default_split N))). rewrite F, F' in Cols. exact Cols.
    + split; [repeat split|]. intros b b' t t' m m' _ _ E. discriminate.
Qed.
Lemma score_rel t t' : trel t t' -> forall x start len, add_sample_tree_scores store' t' x start len = add_sample_tree_scores store t x start len.
Proof using Cols.
  induction 1 as [|s sp sp' l l' r r' S A IHA B IHB]; intros x start len; cbn [add_sample_tree_scores]; [reflexivity|].
  assert (E : present l' = present l) by (inversion A; reflexivity). destruct l as [|ls lsp la lb], l' as [|ls' lsp' la' lb']; try discriminate; [reflexivity|].
  destruct (split_partition sp sp' S) as [Ef Ep]. rewrite Ef. pose proof (Cols (sp_feature (the_split sp))) as C.
  destruct (store (sp_feature (the_split sp))) as [c|] eqn:F, (store' (sp_feature (the_split sp))) as [c'|] eqn:F'; try contradiction; [|reflexivity].
  rewrite (Ep c c' start len eq_refl eq_refl). f_equal. apply functional_extensionality. intros k. rewrite IHA. f_equal. apply functional_extensionality. intros u. apply IHB.
Qed.
Lemma add_rel threads t t' x st : trel t t' -> add_tree_scores store' threads t' x st = add_tree_scores store threads t x st.
Proof using Cols.
  intros T. unfold add_tree_scores. destruct st as [samples scores]. destruct (score_slices (List.length samples) threads) as [sl| |]; [|reflexivity..]. cbn [bind].
  replace (score_tasks store' t' x sl) with (score_tasks store t x sl); [reflexivity|]. unfold score_tasks. apply map_ext. intros r. symmetry. apply score_rel. exact T.
Qed.

(** ** Growing *)
Section Grow.
Variables (top : nat -> list N -> nat) (draw : nat -> spec_float) (threads : nat)
  (srt : (nat -> nat -> bool) -> list nat -> list nat) (w : float_vector) (gd : list (grad N)) (features features' : list column)
  (c : config N).
Hypothesis Fl : Forall2 clike features features'.
Hypothesis Fs : forall col col', In (col, col') (combine features features') -> store (c_name col) = Some col /\ store' (c_name col') = Some col'.

(** Leaves in the queue: present, without children, all different *)
Definition is_leaf (t : tree N) (p : list bool) : Prop := exists s sp, node_at t p = TNode s sp TNone TNone.
Definition queue_ok (t : tree N) (q : list node_data) : Prop := NoDup (map nd_path q) /\ forall nd, In nd q -> is_leaf t (nd_path nd).
Definition nrel (t t' : tree N) (nd nd' : node_data) : Prop :=
  nd_path nd' = nd_path nd /\ nd_start nd' = nd_start nd /\ nd_len nd' = nd_len nd /\
  match nd_feature nd, nd_feature nd' with
  | Some col, Some col' => way col col' (the_split (t_split (node_at t (nd_path nd)))) (the_split (t_split (node_at t' (nd_path nd))))
  | None, None => True
  | _, _ => False
  end.

Lemma node_none p : node_at (@TNone N) p = TNone.
Proof. induction p as [|[] p IH]; cbn; assumption || reflexivity. Qed.
Lemma children_other t l r : forall p q, is_leaf t p -> is_leaf t q -> p <> q -> node_at (set_children t p l r) q = node_at t q.
Proof.
  induction t as [|s sp a IHa b IHb]; intros p q P Q D.
  - destruct P as (s & sp & P). rewrite node_none in P. discriminate.
  - destruct p as [|d p].
    + destruct P as (s0 & sp0 & P). cbn in P. injection P as <- <- -> ->. destruct q as [|d q]; [congruence|].
      destruct Q as (s1 & sp1 & Q). destruct d; cbn in Q; rewrite node_none in Q; discriminate.
    + destruct q as [|d' q].
      * destruct Q as (s1 & sp1 & Q). cbn in Q. injection Q as <- <- -> ->. destruct P as (s0 & sp0 & P). destruct d; cbn in P; rewrite node_none in P; discriminate.
      * destruct d, d'; cbn [set_children node_at t_left t_right]; try reflexivity.
        -- apply IHa; [exact P|exact Q|congruence].
        -- apply IHb; [exact P|exact Q|congruence].
Qed.
Lemma children_new t l r d : forall p, is_leaf t p -> node_at (set_children t p l r) (p ++ [d]) = if d then l else r.
Proof.
  induction t as [|s sp a IHa b IHb]; intros p P.
  - destruct P as (s & sp & P). rewrite node_none in P. discriminate.
  - destruct p as [|e p]; [destruct d; reflexivity|]. destruct e; cbn [app set_children node_at t_left t_right]; [apply IHa|apply IHb]; exact P.
Qed.
Lemma leaf_not_above t p d : is_leaf t p -> ~ is_leaf t (p ++ [d]).
Proof.
  intros (s & sp & P) (s' & sp' & Q). revert t P Q. induction p as [|e p IH]; intros t P Q.
  - cbn in P. subst t. destruct d; discriminate.
  - cbn [app node_at] in *. exact (IH _ P Q).
Qed.
Lemma remove_incl {A} i (l : list A) x : In x (remove_nth i l) -> In x l.
Proof.
  unfold remove_nth. rewrite in_app_iff. intros [H|H].
  - rewrite <- (firstn_skipn i l). apply in_app_iff. left. exact H.
  - rewrite <- (firstn_skipn (S i) l). apply in_app_iff. right. exact H.
Qed.
Lemma remove_nodup {A} i (l : list A) : NoDup l -> NoDup (remove_nth i l).
Proof.
  unfold remove_nth. revert i. induction l as [|x l IH]; intros i D; [destruct i; cbn; constructor|]. inversion D as [|? ? Nx Dl]; subst.
  destruct i as [|i]; cbn; [exact Dl|]. constructor; [|apply IH; exact Dl]. intros Hx. apply Nx. apply (remove_incl i). exact Hx.
Qed.
Lemma map_remove {A B} (f : A -> B) i l : map f (remove_nth i l) = remove_nth i (map f l).
Proof. unfold remove_nth. rewrite map_app, firstn_map, skipn_map. reflexivity. Qed.
Lemma removed {A} i (l : list A) x y : NoDup l -> nth_error l i = Some x -> In y (remove_nth i l) -> y <> x.
Proof.
  unfold remove_nth. revert i. induction l as [|z l IH]; intros i D E I; [destruct i; discriminate|]. inversion D as [|? ? Nx Dl]; subst.
  destruct i as [|i]; cbn in E, I; [injection E as ->; intros ->; contradiction|]. destruct I as [->|I]; [|exact (IH i Dl E I)].
  intros ->. apply Nx. exact (nth_error_In _ _ E).
Qed.
Lemma Forall2_remove {A} (R : A -> A -> Prop) l l' : Forall2 R l l' -> forall i, Forall2 R (remove_nth i l) (remove_nth i l').
Proof.
  unfold remove_nth. induction 1 as [|a b l l' H F IH]; intros i; [destruct i; cbn; constructor|]. destruct i as [|i]; cbn; [exact F|]. constructor; [exact H|apply IH].
Qed.

Lemma queue_step t q i nd l r n1 n2 : queue_ok t q -> nth_error q i = Some nd -> is_leaf l [] -> is_leaf r [] ->
  nd_path n1 = nd_path nd ++ [true] -> nd_path n2 = nd_path nd ++ [false] ->
  queue_ok (set_children t (nd_path nd) l r) (remove_nth i q ++ [n1; n2]).
Proof.
  intros [D L] E Ll Lr E1 E2. assert (Lp : is_leaf t (nd_path nd)) by (apply L, (nth_error_In _ _ E)).
  assert (O : forall x, In x (remove_nth i q) -> is_leaf t (nd_path x) /\ nd_path x <> nd_path nd).
  { intros x X. split; [apply L, (remove_incl i), X|]. apply (removed i (map nd_path q)); [exact D|rewrite nth_error_map, E; reflexivity|].
    rewrite <- map_remove. apply in_map. exact X. }
  split.
  - rewrite map_app. cbn [map]. rewrite E1, E2, map_remove.
    assert (Nn : forall d, ~ In (nd_path nd ++ [d]) (remove_nth i (map nd_path q))).
    { intros d. rewrite <- map_remove. rewrite in_map_iff. intros (x & Ex & X). apply (leaf_not_above t (nd_path nd) d Lp). rewrite <- Ex. apply O. exact X. }
    apply NoDup_rev in D.
    assert (D2 : NoDup (remove_nth i (map nd_path q))) by (apply remove_nodup; rewrite <- (rev_involutive (map nd_path q)); apply NoDup_rev; exact D).
    clear - D2 Nn. revert D2 Nn. generalize (remove_nth i (map nd_path q)). intros m D2 Nn.
    induction m as [|x m IH]; cbn.
    + constructor; [|constructor; [intros []|constructor]]. intros [F|[]]. apply app_inv_head in F. discriminate.
    + inversion D2 as [|? ? Nx Dm]; subst. constructor; [|apply IH; [exact Dm|intros d I; apply (Nn d); right; exact I]].
      rewrite in_app_iff. intros [F|[F|[F|[]]]]; [contradiction|apply (Nn true)|apply (Nn false)]; left; symmetry; exact F.
  - intros x X. apply in_app_iff in X as [X|[<-|[<-|[]]]].
    + destruct (O x X) as [Lx Nx]. unfold is_leaf. rewrite (children_other t l r _ _ Lp Lx) by congruence. exact Lx.
    + rewrite E1. unfold is_leaf. rewrite children_new by exact Lp. exact Ll.
    + rewrite E2. unfold is_leaf. rewrite children_new by exact Lp. exact Lr.
Qed.

Lemma new_leaf lambda total sp : is_leaf (new_node lambda total sp) [].
Proof. unfold is_leaf, new_node. cbn. eauto. Qed.
Lemma leaf_like t t' p : trel t t' -> is_leaf t p -> is_leaf t' p.
Proof.
  intros T (s & sp & E). pose proof (trel_node t t' T p) as H. rewrite E in H. inversion H as [|? ? sp' ? l' ? r' S A B]; subst. inversion A; inversion B; subst.
  unfold is_leaf. eauto.
Qed.

Lemma frel_srel r r' : frel features features' r r' -> srel (fst (fst r)) (fst (fst r')).
Proof using Fs Cols.
  destruct r as [[sp f] pos], r' as [[sp' f'] pos']. cbn. intros (_ & Bt & H). split; [exact Bt|]. intros c0 c0' F F'.
  destruct f as [col|], f' as [col'|]; try contradiction.
  - destruct H as (Cl & Fd & En & I). destruct (Fs col col' I) as [S S']. pose proof Cl as (Cn & _). cbn [fst snd] in *. rewrite En in F, F'. rewrite Cn in S'.
    replace c0 with col by congruence. replace c0' with col' by congruence. exact Fd.
  - destruct H as [H H']. cbn [fst snd] in *. subst sp sp'. split; [repeat split|]. intros b b' t t' m m' _ _ E. discriminate.
Qed.
Lemma new_rel lambda total r r' : frel features features' r r' ->
  trel (new_node lambda total (fst (fst r))) (new_node lambda total (fst (fst r'))).
Proof using Fs Cols.
  intros F. pose proof (frel_srel r r' F) as S. unfold new_node. pose proof S as ((_ & _ & E & _) & _). rewrite E.
  constructor; [|constructor..]. destruct (n0 <? sp_gain (fst (fst r)))%num; [exact S|exact I].
Qed.
Lemma new_way lambda total r r' : frel features features' r r' ->
  match snd (fst r), snd (fst r') with
  | Some col, Some col' => way col col' (the_split (t_split (new_node lambda total (fst (fst r))))) (the_split (t_split (new_node lambda total (fst (fst r')))))
  | None, None => True
  | _, _ => False
  end.
Proof.
  intros (_ & Bt & H). unfold new_node. cbn [t_split]. destruct (snd (fst r)) as [col|], (snd (fst r')) as [col'|]; try contradiction; [|exact I].
  pose proof Bt as (_ & _ & E & _). rewrite E. destruct H as (Cl & Fd & _). destruct (n0 <? sp_gain (fst (fst r)))%num; cbn [the_split].
  - exact (found_way _ _ _ _ Cl Fd).
  - apply found_way; [exact Cl|]. split; [repeat split|]. intros b b' t t' m m' _ _ F. discriminate.
Qed.

Lemma node_same t t' l l' r r' p x x' : trel t t' -> is_leaf t p -> is_leaf t (nd_path x) -> nd_path x <> p -> nrel t t' x x' ->
  nrel (set_children t p l r) (set_children t' p l' r') x x'.
Proof.
  intros T P X D (E1 & E2 & E3 & K). repeat split; try assumption.
  rewrite (children_other t l r p _ P X) by congruence. rewrite (children_other t' l' r' p _ (leaf_like _ _ _ T P) (leaf_like _ _ _ T X)) by congruence. exact K.
Qed.

Lemma grow_rel fuel : forall step pos t t' q q' samples, trel t t' -> queue_ok t q -> Forall2 (nrel t t') q q' ->
  rrel (fun a b => trel (fst a) (fst b) /\ snd b = snd a) (grow top draw threads srt w gd features c fuel step pos t q samples)
    (grow top draw threads srt w gd features' c fuel step pos t' q' samples).
Proof using Fl Fs Cols.
  induction fuel as [|fuel IH]; intros step pos t t' q q' samples T Q F; [split; [exact T|reflexivity]|]. cbn [grow].
  destruct q as [|nd0 q0], q' as [|nd0' q0']; try (inversion F; fail); [split; [exact T|reflexivity]|].
  remember (nd0 :: q0) as q eqn:Eq. remember (nd0' :: q0') as q' eqn:Eq'. clear Eq Eq' nd0 q0 nd0' q0'.
  assert (EL : List.length q' = List.length q) by (symmetry; exact (Forall2_length _ _ _ F)). rewrite EL.
  destruct (negb (below_leaves (List.length q) (cf_num_leaves c))); [split; [exact T|reflexivity]|].
  assert (EG : map (node_gain t') q' = map (node_gain t) q).
  { clear - F T. revert F. generalize q q'. intros l l' F. induction F as [|a b l l' H F IH]; [reflexivity|]. cbn. f_equal; [|exact IH].
    unfold node_gain. destruct H as (-> & _). apply trel_gain, trel_node, T. }
  rewrite EG. set (i := top step (map (node_gain t) q)).
  assert (At : match nth_error q i, nth_error q' i with Some a, Some b => nrel t t' a b | None, None => True | _, _ => False end).
  { exact (Forall2_nth _ _ _ F i). }
  unfold vget. destruct (nth_error q i) as [nd|] eqn:En, (nth_error q' i) as [nd'|] eqn:En'; try contradiction; [|exact I]. cbn [bind].
  pose proof At as (P1 & P2 & P3 & P4). destruct (nd_feature nd) as [col|], (nd_feature nd') as [col'|]; try contradiction; [|split; [exact T|reflexivity]].
  rewrite P1, P2, P3, (way_partition _ _ _ _ _ _ P4). apply rrel_same. intros [k m] _.
  apply rrel_same. intros lt _. apply rrel_same. intros rt _.
  apply (rrel_bind _ _ _ _ _ _ (feature_rel srt w gd c features features' Fl draw pos _ lt)). intros [[lsp lf] p1] [[lsp' lf'] p1'] Hl.
  pose proof (proj1 Hl) as Ep. cbn [snd] in Ep. subst p1'.
  apply (rrel_bind _ _ _ _ _ _ (feature_rel srt w gd c features features' Fl draw p1 _ rt)). intros [[rsp rf] p2] [[rsp' rf'] p2'] Hr.
  pose proof (proj1 Hr) as Ep. cbn [snd] in Ep. subst p2'.
  pose proof (new_rel (cf_l2_lambda c) lt _ _ Hl) as Nl. pose proof (new_rel (cf_l2_lambda c) rt _ _ Hr) as Nr. cbn [fst snd] in Nl, Nr.
  assert (Lp : is_leaf t (nd_path nd)) by (apply (proj2 Q), (nth_error_In _ _ En)).
  assert (Lp' : is_leaf t' (nd_path nd)) by exact (leaf_like _ _ _ T Lp).
  apply IH.
  - apply trel_children; assumption.
  - apply (queue_step t q i nd); try reflexivity; [exact Q|exact En|apply new_leaf..].
  - apply Forall2_app.
    + assert (O : forall x, In x (remove_nth i q) -> is_leaf t (nd_path x) /\ nd_path x <> nd_path nd).
      { intros x X. split; [apply (proj2 Q), (remove_incl i), X|]. apply (removed i (map nd_path q)); [exact (proj1 Q)|rewrite nth_error_map, En; reflexivity|].
        rewrite <- map_remove. apply in_map. exact X. }
      pose proof (Forall2_remove _ _ _ F i) as Fr. revert Fr O. generalize (remove_nth i q) (remove_nth i q'). intros l l' Fr O.
      induction Fr as [|a b l l' H Fr IHf]; constructor.
      * destruct (O a (or_introl eq_refl)) as [La Na]. apply node_same; assumption.
      * apply IHf. intros x X. apply O. right. exact X.
    + pose proof (new_way (cf_l2_lambda c) lt _ _ Hl) as Wl. pose proof (new_way (cf_l2_lambda c) rt _ _ Hr) as Wr. cbn [fst snd] in Wl, Wr.
      constructor; [|constructor; [|constructor]]; repeat split; cbn [nd_feature nd_path]; rewrite !children_new by assumption; assumption.
Qed.

Lemma fit_rel pos : rrel (fun a b => trel (fst a) (fst b) /\ snd b = snd a) (fit_tree top draw threads srt w gd features c pos)
  (fit_tree top draw threads srt w gd features' c pos).
Proof using Fl Fs Cols.
  unfold fit_tree. destruct (uniform_subsample draw pos (List.length gd) (to_f64 (cf_example_rate c))) as [samples pos1].
  apply rrel_same. intros total _.
  apply (rrel_bind _ _ _ _ _ _ (feature_rel srt w gd c features features' Fl draw pos1 samples total)). intros [[sp f] p1] [[sp' f'] p1'] H.
  pose proof (proj1 H) as Ep. cbn [snd] in Ep. subst p1'. apply grow_rel.
  - exact (new_rel (cf_l2_lambda c) total _ _ H).
  - split; [constructor; [intros []|constructor]|]. intros nd [<-|[]]. apply new_leaf.
  - constructor; [|constructor]. repeat split. exact (new_way (cf_l2_lambda c) total _ _ H).
Qed.
End Grow.
End Store.

(** ** Training *)
Section Train.
Variables (v v' : view) (threads : nat) (top : nat -> nat -> list N -> nat) (draw : nat -> spec_float)
  (srt : (nat -> nat -> bool) -> list nat -> list nat) (w y : float_vector) (lf : loss N) (c : config N) (names : list str).
Hypothesis Cols : forall n, match v_get v n, v_get v' n with Some a, Some b => clike a b | None, None => True | _, _ => False end.
Hypothesis Rows : v_rows v' = v_rows v.
Hypothesis Ord : v_order v' names = v_order v names.
Hypothesis Named : forall n col, v_get v n = Some col -> c_name col = n.
Notation trl := (trel (v_get v) (v_get v')).

Lemma load_rel l : let r := load_features (v_get v) l in let r' := load_features (v_get v') l in fst r' = fst r /\ Forall2 clike (snd r) (snd r') /\
  forall a b, In (a, b) (combine (snd r) (snd r')) -> v_get v (c_name a) = Some a /\ v_get v' (c_name b) = Some b.
Proof using Cols Named.
  cbn zeta. induction l as [|n l IH]; cbn [load_features]; [repeat split; [constructor|contradiction..]|].
  pose proof (Cols n) as Cn. destruct (v_get v n) as [a|] eqn:E, (v_get v' n) as [b|] eqn:E'; try contradiction; [|repeat split; [constructor|contradiction..]].
  pose proof Cn as (E1 & E2 & _). rewrite E2. destruct (col_status a); [|repeat split; [constructor|contradiction..]].
  destruct (load_features (v_get v) l) as [s cs], (load_features (v_get v') l) as [s' cs']. cbn [fst snd] in IH. destruct IH as (-> & F & I).
  destruct s; [|repeat split; [constructor|contradiction..]]. cbn [fst snd]. split; [reflexivity|]. split; [constructor; assumption|].
  intros x z [[= <- <-]|X]; [|exact (I x z X)]. rewrite E1, (Named n a E). auto.
Qed.

Definition drel (r r' : trained N) : Prop := tr_status r' = tr_status r /\ Forall2 trl (tr_forest r) (tr_forest r') /\ tr_f r' = tr_f r.
Lemma constant_rel x : trl (constant_tree x) (constant_tree x).
Proof. repeat constructor. Qed.
Lemma rounds_rel features features' : Forall2 clike features features' ->
  (forall a b, In (a, b) (combine features features') -> v_get v (c_name a) = Some a /\ v_get v' (c_name b) = Some b) ->
  forall todo i constant trees trees' st gd ls pos, Forall2 trl trees trees' ->
  rrel drel (rounds v threads top draw srt w features c lf todo i constant trees st gd ls pos)
    (rounds v' threads top draw srt w features' c lf todo i constant trees' st gd ls pos).
Proof using Cols.
  intros Fl Fs. induction todo as [|todo IH]; intros i constant trees trees' st gd ls pos T; cbn [rounds].
  - split; [reflexivity|]. split; [|reflexivity]. cbn [tr_forest map]. constructor; [apply trel_clear, constant_rel|].
    clear -T. induction T; cbn; constructor; [apply trel_clear; assumption|assumption].
  - apply rrel_same. intros [[[x gd1] ls1] pos1] _. destruct (nfinite x).
    + apply (rrel_bind _ _ _ _ _ _ (fit_rel (v_get v) (v_get v') Cols (top i) draw threads srt w gd1 features features' c Fl Fs pos1)). intros [t p1] [t' p1'] [Ht Ep].
      cbn [fst snd] in Ht, Ep. subst p1'. apply (trel_shrink _ _ (nfloat (cf_shrinkage c))) in Ht. rewrite (add_rel _ _ Cols threads _ _ x st Ht).
      apply rrel_same. intros st1 _. apply IH. apply Forall2_app; [exact T|]. constructor; [exact Ht|constructor].
    + split; [reflexivity|]. split; [constructor; [apply constant_rel|exact T]|reflexivity].
Qed.

Lemma base_rel : forall base base' constant trees trees' st, Forall2 trl base base' -> Forall2 trl trees trees' ->
  rrel (fun a b => fst (fst b) = fst (fst a) /\ Forall2 trl (snd (fst a)) (snd (fst b)) /\ snd b = snd a)
    (init_with_base v threads base constant trees st) (init_with_base v' threads base' constant trees' st).
Proof using Cols.
  intros base base' constant trees trees' st B. revert constant trees trees' st. induction B as [|t t' base base' H B IH]; intros constant trees trees' st T; cbn [init_with_base].
  - cbn. auto.
  - rewrite (add_rel _ _ Cols threads t t' n0 st H). apply rrel_same. intros st1 _.
    assert (E : single_node t' = single_node t /\ t_score t' = t_score t).
    { inversion H as [|s sp sp' l l' r r' S L R]; subst; [auto|]. cbn. inversion L; auto. }
    destruct E as [-> ->]. destruct (single_node t); apply IH; [exact T|]. apply Forall2_app; [exact T|]. constructor; [exact H|constructor].
Qed.

Lemma group_rel : group_column c (v_get v') = group_column c (v_get v).
Proof using Cols.
  unfold group_column. destruct (cf_group_column c) as [|a l]; [reflexivity|]. specialize (Cols (a :: l)).
  destruct (v_get v (a :: l)) as [x|], (v_get v' (a :: l)) as [z|]; try contradiction; [|reflexivity]. destruct Cols as (_ & _ & B).
  destruct (c_body x), (c_body z); try contradiction; try reflexivity. subst. reflexivity.
Qed.

Theorem train_rel pos base base' : Forall2 trl (match base with Some b => b | None => [] end) (match base' with Some b => b | None => [] end) ->
  rrel drel (train v threads top draw pos srt names w y lf c base) (train v' threads top draw pos srt names w y lf c base').
Proof using Cols Rows Ord Named.
  intros B. unfold train. destruct (check_config c); [|split; [reflexivity|split; [constructor|reflexivity]]].
  rewrite Ord. destruct (load_rel (v_order v names)) as (E1 & E2 & E3).
  destruct (load_features (v_get v) (v_order v names)) as [s cs], (load_features (v_get v') (v_order v names)) as [s' cs']. cbn [fst snd] in E1, E2, E3. subst s'.
  destruct s; [|split; [reflexivity|split; [constructor|reflexivity]]]. rewrite group_rel, Rows. apply rrel_same. intros group _. apply rrel_same. intros [e|ls] _;
    [split; [reflexivity|split; [constructor|reflexivity]]|].
  unfold init_scores. rewrite Rows. apply rrel_same. intros st _.
  apply (rrel_bind _ _ _ _ _ _ (base_rel _ _ n0 [] [] st B (Forall2_nil _))). intros [[k trees] st1] [[k' trees'] st1'] (Ek & Et & Es). cbn [fst snd] in *. subst k' st1'.
  apply rounds_rel; assumption.
Qed.
End Train.
End Any.
