(** Draw_proofs.v - lemmas for C84. *)
From Coq Require Import SpecFloat Reals Lra.
From Flocq Require Import Core IEEE754.BinarySingleNaN.
From Verif Require Import Base F32 Num Strings Forest Driver Stopwatch StopwatchSpec FlatSpec Print PrintSpec PairExact_proofs Print_proofs Draw DrawSpec FloatReal_proofs.
Local Open Scope R_scope.
Local Notation val := (SF2R radix2).
Local Notation ten k := (bpow radix10 k).

(** ** Rounding to decimals *)
Lemma near_half y n : Rabs (IZR (ZnearestE y) - y) <= /2 /\ (n <> ZnearestE y -> /2 <= Rabs (IZR n - y)).
Proof.
  pose proof (Znearest_half (fun z => negb (Z.even z)) y) as H. rewrite Rabs_minus_sym in H. split; [exact H|]. intros D.
  assert (1 <= Rabs (IZR n - IZR (ZnearestE y))).
  { rewrite <- minus_IZR, <- abs_IZR. apply IZR_le. lia. }
  replace (IZR n - IZR (ZnearestE y)) with ((IZR n - y) - (IZR (ZnearestE y) - y)) in H0 by ring.
  pose proof (Rabs_triang (IZR n - y) (- (IZR (ZnearestE y) - y))) as T. rewrite Rabs_Ropp in T. unfold Rminus at 1 in H0. lra.
Qed.
Lemma near_tie y : Rabs (IZR (ZnearestE y) - y) = /2 -> Z.Even (ZnearestE y).
Proof.
  unfold Znearest. pose proof (Zfloor_lb y) as L. pose proof (Zceil_ub y) as U. destruct (Rcompare_spec (y - IZR (Zfloor y)) (/2)) as [C|C|C]; intros E.
  - rewrite Rabs_minus_sym, Rabs_pos_eq in E by lra. lra.
  - assert (Zceil y = Zfloor y + 1)%Z as Z1. { apply Zceil_floor_neq. intros X. rewrite X in C. lra. }
    destruct (Z.even (Zfloor y)) eqn:Ev; cbn [negb].
    + apply Z.even_spec, Ev.
    + rewrite Z1. apply Z.even_spec. rewrite Z.even_add, Ev. reflexivity.
  - assert (Zceil y = Zfloor y + 1)%Z as Z1. { apply Zceil_floor_neq. intros X. pose proof (Zfloor_ub y). rewrite X in C. lra. }
    rewrite Rabs_pos_eq in E by lra. rewrite Z1, plus_IZR in E. lra.
Qed.
Lemma near_best k x n : n = ZnearestE (x * ten (Z.of_nat k)) ->
  (forall n', Rabs (thousandth k n - x) <= Rabs (thousandth k n' - x)) /\
  (Z.Even n \/ forall n', n' <> n -> Rabs (thousandth k n - x) < Rabs (thousandth k n' - x)).
Proof.
  intros ->. set (y := x * ten (Z.of_nat k)). pose proof (bpow_gt_0 radix10 (Z.of_nat k)) as P.
  assert (forall m, Rabs (thousandth k m - x) = Rabs (IZR m - y) * / ten (Z.of_nat k)) as T.
  { intros m. unfold thousandth. change 10 with (IZR radix10). rewrite <- bpow_powerRZ, bpow_opp.
    replace (IZR m * / ten (Z.of_nat k) - x) with ((IZR m - y) * / ten (Z.of_nat k)) by (unfold y; field; lra).
    rewrite Rabs_mult. f_equal. apply Rabs_pos_eq. apply Rlt_le, Rinv_0_lt_compat, P. }
  pose proof (Rinv_0_lt_compat _ P) as Q. split.
  - intros n'. rewrite !T. apply Rmult_le_compat_r; [lra|]. destruct (Z.eq_dec n' (ZnearestE y)) as [->|D]; [lra|]. destruct (near_half y n') as [A B]. specialize (B D). lra.
  - destruct (near_half y 0) as [[A|A] _].
    + right. intros n' D. rewrite !T. apply Rmult_lt_compat_r; [exact Q|]. destruct (near_half y n') as [_ B]. specialize (B D). lra.
    + left. apply near_tie, A.
Qed.
Lemma near_sg s y : ZnearestE (sg s * y) = (if s then - ZnearestE y else ZnearestE y)%Z.
Proof.
  destruct s; cbn [sg]; [|rewrite Rmult_1_l; reflexivity]. replace (-1 * y) with (- y) by ring. rewrite Znearest_opp. f_equal. unfold Znearest.
  destruct (Rcompare (y - IZR (Zfloor y)) (/2)); [|reflexivity|reflexivity]. rewrite Z.even_opp, Z.even_add. destruct (Z.even (Zfloor y)); reflexivity.
Qed.
Lemma fixed_digits_ok s k n : (0 < k)%nat -> (0 <= n)%Z ->
  denotes (sign_text s ++ fixed_digits k n) (thousandth k (if s then - n else n)) /\
  (exists w f, fixed_digits k n = w ++ lit "." ++ f /\ List.length f = k /\ Forall decimal_digit f /\ w <> [] /\ Forall decimal_digit w).
Proof.
  intros K P. unfold fixed_digits. set (u := (10 ^ Z.of_nat k)%Z). assert (0 < u)%Z as U by (apply Z.pow_pos_nonneg; lia).
  set (q := (n / u)%Z). set (r := (n mod u)%Z). assert (0 <= q)%Z as Q by (apply Z.div_pos; lia). assert (0 <= r < u)%Z as Rr by (apply Z.mod_pos_bound; exact U).
  set (j := Z.to_nat (Z.max 1 (digits q))). destruct (digits_ok q Q) as (D1 & D2 & _).
  destruct (padded_ok j q Q) as (Lw & Dw & _). destruct (padded_ok k r ltac:(lia)) as (Lf & Df & _).
  assert (decimal (padded j q) = q) as Vw.
  { apply padded_id. split; [exact Q|]. apply (Z.lt_le_trans _ _ _ D2). apply Z.pow_le_mono_r; [lia|]. unfold j. lia. }
  assert (decimal (padded k r) = r) as Vf by (apply padded_id; exact Rr).
  assert (padded j q <> []) as Nw by (intros Z; apply (f_equal (@List.length ascii)) in Z; rewrite Lw in Z; cbn in Z; unfold j in Z; lia).
  split.
  - pose proof (Denotes s (padded j q) (padded k r) None Nw ltac:(apply Forall_app; split; assumption) I) as D. cbn [app] in D. rewrite app_nil_r in D.
    assert (match padded k r with [] => [] | _ :: _ => lit "." ++ padded k r end = lit "." ++ padded k r) as Z.
    { destruct (padded k r) eqn:E; [|reflexivity]. cbn in Lf. lia. }
    rewrite Z in D. unfold sign_text. refine (eq_ind _ (denotes _) D _ _). unfold thousandth. rewrite decimal_app, Vw, Vf.
    assert (zlen (padded k r) = Z.of_nat k) as Zl by (unfold zlen; rewrite Lf; reflexivity). rewrite Zl. fold u.
    assert (q * u + r = n)%Z as Dm by (unfold q, r; rewrite (Z.div_mod n u) at 3 by lia; lia). rewrite Dm.
    replace (0 - Z.of_nat k)%Z with (- Z.of_nat k)%Z by lia. destruct s; [rewrite opp_IZR|]; ring.
  - exists (padded j q), (padded k r). repeat split; assumption.
Qed.
(** The text of a number *)
Lemma digit_first s k n : (0 < k)%nat -> (0 <= n)%Z -> (if ascii_dec (hd " "%char (sign_text s ++ fixed_digits k n)) "-"%char then true else false) = s.
Proof.
  intros K P. destruct (fixed_digits_ok s k n K P) as (_ & w & f & -> & _ & _ & Nw & Dw). destruct s; cbn; [reflexivity|].
  destruct w as [|c w]; [contradiction|]. cbn [app hd]. inversion Dw; subst. apply digit_spec in H1. destruct (ascii_dec c "-"%char) as [->|]; [discriminate H1|reflexivity].
Qed.
Lemma fixed_ok plus k x : (0 < k)%nat -> finite_number x ->
  exists b, fixed plus k x = (if ascii_dec (hd " "%char b) "-"%char then [] else plus) ++ b /\ fixed_text k (real_of x) b.
Proof.
  intros K F. rewrite real_val.
  assert (forall (s : bool) n, (0 <= n)%Z -> (if s then - n else n)%Z = ZnearestE (val x * ten (Z.of_nat k)) ->
    exists b, (if s then lit "-" else plus) ++ fixed_digits k n = (if ascii_dec (hd " "%char b) "-"%char then [] else plus) ++ b /\ fixed_text k (val x) b) as G.
  { intros s n P E. exists (sign_text s ++ fixed_digits k n). split.
    - pose proof (digit_first s k n K P) as H. destruct (ascii_dec (hd " "%char (sign_text s ++ fixed_digits k n)) "-"%char), s; try discriminate H; reflexivity.
    - destruct (fixed_digits_ok s k n K P) as (D & w & f & Ef & Lf & Df & _). exists (if s then - n else n)%Z, (sign_text s ++ w), f. split; [exact D|].
      rewrite Ef, app_assoc. split; [reflexivity|]. split; [exact Lf|]. split; [exact Df|]. apply near_best, E. }
  destruct x as [s|s| |s m e]; try (exfalso; exact F).
  - cbn [fixed]. apply (G s 0%Z); [lia|]. replace (val (S754_zero s) * ten (Z.of_nat k)) with (IZR 0) by (cbn; ring). rewrite Zrnd_IZR by apply valid_rnd_N. destruct s; reflexivity.
  - pose proof (fraction_ok m e) as Fr. unfold fraction_of in Fr. cbn [fixed]. rewrite val_finite in *.
    set (n := if (0 <=? e)%Z then scaled (Zpos m * 2 ^ e) 1 (Z.of_nat k) else scaled (Zpos m) (2 ^ (- e)) (Z.of_nat k)).
    assert (n = ZnearestE (IZR (Zpos m) * bpow radix2 e * ten (Z.of_nat k))) as En.
    { unfold n. destruct (0 <=? e)%Z; destruct Fr as (A & B & <-); rewrite scaled_ok by exact B; reflexivity. }
    assert (0 <= n)%Z as Pn.
    { rewrite En. rewrite <- (@Zrnd_IZR ZnearestE (valid_rnd_N _) 0). apply Zrnd_le; [apply valid_rnd_N|]. pose proof (bpow_gt_0 radix2 e). pose proof (bpow_gt_0 radix10 (Z.of_nat k)).
      apply Rmult_le_pos; [|lra]. apply Rmult_le_pos; [|lra]. apply IZR_le. lia. }
    apply (G s n Pn). rewrite Rmult_assoc, near_sg, <- En. reflexivity.
Qed.

(** ** Dictionaries *)
Lemma joined_words l : listed_words l (joined (lit ", ") l).
Proof.
  induction l as [|w l IH]; [constructor|]. destruct l as [|v l]; [constructor|].
  change (joined (lit ", ") (w :: v :: l)) with (w ++ lit ", " ++ joined (lit ", ") (v :: l)). apply MoreWords; [discriminate|exact IH].
Qed.
Lemma texts_of l : as_texts (map JStr l) = inr l.
Proof. induction l as [|s l IH]; [reflexivity|]. cbn. rewrite IH. reflexivity. Qed.
Lemma letters_app p q : letters (p ++ q) = letters p ++ letters q.
Proof. apply map_app. Qed.
Lemma letters_inj p : forall q, letters p = letters q -> p = q.
Proof.
  induction p as [|b p IH]; intros [|c q] E; try discriminate E; [reflexivity|]. cbn in E. injection E as E1 E2. f_equal; [|apply IH, E2]. destruct b, c; try discriminate E1; reflexivity.
Qed.
Definition names_of (d : list shape) : list str := flat_map (fun x => match x with ANode n _ => [n] | AnEdge _ _ => [] end) d.
Definition arrows_of (d : list shape) : list (str * str) := flat_map (fun x => match x with AnEdge a b => [(a, b)] | ANode _ _ => [] end) d.
Lemma in_names d n : In n (names_of d) <-> exists l, In (ANode n l) d.
Proof.
  unfold names_of. rewrite in_flat_map. split.
  - intros ([m l|a b] & I & J); cbn in J; [|contradiction]. destruct J as [<-|[]]. exists l. exact I.
  - intros [l I]. exists (ANode n l). split; [exact I|left; reflexivity].
Qed.
Lemma in_arrows d a b : In (a, b) (arrows_of d) <-> In (AnEdge a b) d.
Proof.
  unfold arrows_of. rewrite in_flat_map. split.
  - intros ([m l|x y] & I & J); cbn in J; [contradiction|]. destruct J as [J|[]]. injection J as -> ->. exact I.
  - intros I. exists (AnEdge a b). split; [exact I|left; reflexivity].
Qed.
Lemma NoDup_parts {A} (x y : list A) : NoDup x -> NoDup y -> (forall a, In a x -> ~ In a y) -> NoDup (x ++ y).
Proof.
  induction x as [|a x IH]; intros X Y D; [exact Y|]. inversion X; subst. cbn. constructor.
  - rewrite in_app_iff. intros [I|I]; [contradiction|]. exact (D a (or_introl eq_refl) I).
  - apply IH; [assumption|exact Y|]. intros b I. apply D. right. exact I.
Qed.

Section Trees.
Context {c_exp c_log : f64 -> f64} (reread regain : f64 -> f64) (Fine : forall x, finite_number x -> finite_number (reread x)).
Notation N := (IEEE c_exp c_log).
Notation js := (tree_json (c_exp := c_exp) (c_log := c_log) reread regain).
Implicit Types (s : N) (sp : option (split N)) (l r t : tree N).

Lemma item_score s sp l r : item (lit "score") (js (TNode s sp l r)) = inr (number reread s).
Proof. reflexivity. Qed.
Lemma item_split s sp l r : item (lit "split") (js (TNode s sp l r)) = match sp with Some x => inr (split_json reread regain x) | None => inl KeyError end.
Proof. destruct sp, l, r; reflexivity. Qed.
Lemma has_left_key s sp l r : has_key (lit "leftChild") (js (TNode s sp l r)) = present l.
Proof. destruct sp, l, r; reflexivity. Qed.
Definition fields s sp l r : list (str * json) :=
  [(lit "score", number reread s)] ++ match sp with Some x => [(lit "split", split_json reread regain x)] | None => [] end ++
  (if present l then [(lit "leftChild", js l)] else []) ++ (if present r then [(lit "rightChild", js r)] else []).
Lemma js_fields s sp l r : js (TNode s sp l r) = JDict (fields s sp l r).
Proof. reflexivity. Qed.
Lemma item_left {A} (f : json -> A) s sp l r : item_with f (lit "leftChild") (fields s sp l r) = if present l then inr (f (js l)) else inl KeyError.
Proof. unfold fields. destruct sp, l, r; reflexivity. Qed.
Lemma item_right {A} (f : json -> A) s sp l r : item_with f (lit "rightChild") (fields s sp l r) = if present r then inr (f (js r)) else inl KeyError.
Proof. unfold fields. destruct sp, l, r; reflexivity. Qed.
Lemma split_feature (x : split N) : item (lit "feature") (split_json reread regain x) = inr (JStr (sp_feature x)).
Proof. reflexivity. Qed.
Lemma split_float (x : split N) : item (lit "floatSplit") (split_json reread regain x) = match sp_float x with Some y => inr (float_split_json reread y) | None => inl KeyError end.
Proof. unfold split_json. destruct (sp_float x), (sp_cat x); reflexivity. Qed.
Lemma split_cat (x : split N) : item (lit "catSplit") (split_json reread regain x) = match sp_cat x with Some y => inr (cat_split_json y) | None => inl KeyError end.
Proof. unfold split_json. destruct (sp_float x), (sp_cat x); reflexivity. Qed.

(** ** Labels *)
Lemma format_number plus k x : (0 < k)%nat -> finite_number x ->
  exists b, format_fixed plus k (number reread x) = inr ((if ascii_dec (hd " "%char b) "-"%char then [] else plus) ++ b) /\ fixed_text k (real_of (reread x)) b.
Proof.
  intros K F. destruct (fixed_ok plus k (reread x) K (Fine x F)) as (b & E & T). exists b. split; [|exact T].
  destruct x; try (exfalso; exact F); cbn [number format_fixed]; rewrite E; reflexivity.
Qed.
Lemma format_refused plus k x b : format_fixed plus k (number reread x) = inr b -> finite_number x.
Proof. destruct x; cbn; intros E; try exact I; discriminate E. Qed.
Lemma no_gap (b : str) : (if ascii_dec (hd " "%char b) "-"%char then [] else []) ++ b = b.
Proof. destruct (ascii_dec _ _); reflexivity. Qed.

Lemma leaf_label_ok s sp : finite_number s -> exists b, node_label (js (TNode s sp TNone TNone)) = inr b /\ node_text reread (TNode s sp TNone TNone) b.
Proof.
  intros F. unfold node_label. rewrite has_left_key. cbn [present]. unfold leaf_label. rewrite item_score. cbn [py_bind].
  destruct (format_number [] 6 s ltac:(lia) F) as (b & E & T). exists b. split; [etransitivity; [exact E|rewrite no_gap; reflexivity]|]. constructor. exact T.
Qed.
Lemma float_label_ok (x : split N) thr right : sp_float x = Some (thr, right) -> finite_number (to_f64 thr) ->
  exists a, float_label (split_json reread regain x) = inr a /\ split_text reread x a.
Proof.
  intros E F. unfold float_label. rewrite split_float, E, split_feature. cbn [py_bind as_text].
  destruct (format_number [] 3 (to_f64 thr) ltac:(lia) F) as (a & Ea & Ta). rewrite no_gap in Ea.
  exists (sp_feature x ++ lit " " ++ (if right then lit "<=*" else lit "*<=") ++ lit " " ++ a). split; [|eapply NumberText; eassumption].
  change (item (lit "threshold") (float_split_json reread (thr, right))) with (@inr py_error json (number reread (to_f64 thr))).
  change (has_key (lit "missingToRightChild") (float_split_json reread (thr, right))) with true.
  change (item (lit "missingToRightChild") (float_split_json reread (thr, right))) with (@inr py_error json (JBool right)).
  cbv iota. cbn [py_bind]. rewrite Ea. reflexivity.
Qed.
Lemma cat_label_ok (x : split N) names idx : sp_float x = None -> sp_cat x = Some (names, idx) ->
  exists a, cat_label (split_json reread regain x) = inr a /\ split_text reread x a.
Proof.
  intros E C. unfold cat_label. rewrite split_cat, C, split_feature. cbn [py_bind as_text].
  exists (sp_feature x ++ lit " in {" ++ joined (lit ", ") names ++ lit "}"). split; [|eapply NamesText; [exact E|exact C|apply joined_words]].
  change (item (lit "category") (cat_split_json (names, idx))) with (@inr py_error json (JList (map JStr names))). cbn [py_bind as_list]. rewrite texts_of. reflexivity.
Qed.
Lemma fork_label_ok s (x : split N) l r : l <> TNone -> finite_number s -> (forall thr m, sp_float x = Some (thr, m) -> finite_number (to_f64 thr)) ->
  (sp_float x <> None \/ sp_cat x <> None) -> exists b, node_label (js (TNode s (Some x) l r)) = inr b /\ node_text reread (TNode s (Some x) l r) b.
Proof.
  intros Nl F Ft K. unfold node_label. rewrite has_left_key. destruct l as [|s' sp' l' r']; [contradiction|]. cbn [present]. unfold branch_label. rewrite item_split, item_score. cbn [py_bind].
  assert (exists a, (if has_key (lit "floatSplit") (split_json reread regain x) then float_label (split_json reread regain x) else cat_label (split_json reread regain x)) = inr a /\ split_text reread x a) as (a & Ea & Ta).
  { unfold has_key. rewrite split_float. destruct (sp_float x) as [[thr m]|] eqn:E.
    - destruct (float_label_ok x thr m E (Ft _ _ eq_refl)) as (a & A & B). exists a. split; assumption.
    - destruct (sp_cat x) as [[names idx]|] eqn:C; [|destruct K; contradiction]. destruct (cat_label_ok x names idx E C) as (a & A & B). exists a. split; assumption. }
  rewrite Ea. cbn [py_bind]. destruct (format_number (lit " ") 6 s ltac:(lia) F) as (b & Eb & Tb). rewrite Eb. cbn [py_bind].
  eexists. split; [reflexivity|]. eapply ForkText; [discriminate|exact Ta|exact Tb|reflexivity].
Qed.
Lemma label_finite s sp l r b : node_label (js (TNode s sp l r)) = inr b ->
  finite_number s /\ (l <> TNone -> forall x thr m, sp = Some x -> sp_float x = Some (thr, m) -> finite_number (to_f64 thr)).
Proof.
  unfold node_label. rewrite has_left_key. destruct l as [|s' sp' l' r']; cbn [present].
  - unfold leaf_label. rewrite item_score. cbn [py_bind]. intros E. split; [exact (format_refused _ _ _ _ E)|intros X; contradiction].
  - unfold branch_label. rewrite item_split, item_score. destruct sp as [x|]; [|discriminate]. cbn [py_bind]. unfold has_key. rewrite split_float.
    destruct (sp_float x) as [[thr m]|] eqn:E.
    + unfold float_label. rewrite split_float, E, split_feature. cbn [py_bind as_text].
      change (item (lit "threshold") (float_split_json reread (thr, m))) with (@inr py_error json (number reread (to_f64 thr))).
      change (has_key (lit "missingToRightChild") (float_split_json reread (thr, m))) with true.
      change (item (lit "missingToRightChild") (float_split_json reread (thr, m))) with (@inr py_error json (JBool m)).
      cbv iota. cbn [py_bind]. destruct (format_fixed [] 3 (number reread (to_f64 thr))) as [e|a] eqn:Ea; [discriminate|]. cbn [py_bind].
      destruct (format_fixed (lit " ") 6 (number reread s)) as [e|c] eqn:Eb; [discriminate|]. intros _. split; [exact (format_refused _ _ _ _ Eb)|].
      intros _ y thr' m' [= <-] E'. rewrite E in E'. injection E' as <- <-. exact (format_refused _ _ _ _ Ea).
    + destruct (cat_label (split_json reread regain x)) as [e|a]; [discriminate|]. cbn [py_bind].
      destruct (format_fixed (lit " ") 6 (number reread s)) as [e|c] eqn:Eb; [discriminate|]. intros _. split; [exact (format_refused _ _ _ _ Eb)|].
      intros _ y thr' m' [= <-] E'. rewrite E in E'. discriminate.
Qed.

(** ** Drawings *)
Lemma finite_parts s sp l r : all_finite (TNode s sp l r) <->
  (finite_number s /\ (l <> TNone -> forall x thr m, sp = Some x -> sp_float x = Some (thr, m) -> finite_number (to_f64 thr))) /\ all_finite l /\ all_finite r.
Proof.
  split.
  - intros A. split; [exact (A [] s sp l r eq_refl)|]. split; intros p; [exact (A (true :: p))|exact (A (false :: p))].
  - intros (H & L & R) [|[] p] s' sp' l' r' E; cbn in E; [|exact (L p _ _ _ _ E)|exact (R p _ _ _ _ E)]. injection E as <- <- <- <-. exact H.
Qed.
Definition picture t (name : str) (d : list shape) : Prop :=
  (forall p sub, subtree t p = Some sub -> exists lab, In (ANode (name ++ letters p) lab) d /\ node_text reread sub lab) /\
  (forall n lab, In (ANode n lab) d -> exists p sub, subtree t p = Some sub /\ n = name ++ letters p /\ node_text reread sub lab) /\
  NoDup (names_of d) /\
  (forall a b, In (AnEdge a b) d <-> exists p side sub, subtree t (p ++ [side]) = Some sub /\ a = name ++ letters p /\ b = name ++ letters (p ++ [side])) /\
  NoDup (arrows_of d).
Lemma visualize_leaf s sp name : visualize (js (TNode s sp TNone TNone)) name = pylet b := node_label (js (TNode s sp TNone TNone)) in inr [ANode name b].
Proof.
  rewrite js_fields. cbn [visualize]. rewrite <- js_fields. destruct (node_label _); [reflexivity|]. cbn [py_bind]. rewrite has_left_key. reflexivity.
Qed.
Lemma visualize_fork s sp l r name : l <> TNone -> r <> TNone -> visualize (js (TNode s sp l r)) name =
  pylet label := node_label (js (TNode s sp l r)) in
  pylet a := visualize (js l) (name ++ lit "l") in
  pylet b := visualize (js r) (name ++ lit "r") in
  inr (ANode name label :: a ++ b ++ [AnEdge name (name ++ lit "l"); AnEdge name (name ++ lit "r")]).
Proof.
  intros Nl Nr. rewrite js_fields. cbn [visualize]. rewrite <- js_fields. destruct (node_label _); [reflexivity|]. cbn [py_bind]. rewrite has_left_key, item_left, item_right.
  destruct l; [contradiction|]. destruct r; [contradiction|]. cbn [present py_bind]. reflexivity.
Qed.
Lemma forked_some t : forked t -> t <> TNone.
Proof. intros []; discriminate. Qed.
Lemma picture_names t name d n : picture t name d -> In n (names_of d) -> exists p, n = name ++ letters p.
Proof. intros (_ & P & _) I. apply in_names in I. destruct I as [l I]. destruct (P n l I) as (p & _ & _ & E & _). exists p. exact E. Qed.
Lemma name_step name b p : name ++ letters (b :: p) = (name ++ letters [b]) ++ letters p.
Proof. rewrite <- app_assoc. reflexivity. Qed.
Lemma side_differs name p q : (name ++ lit "l") ++ letters p <> (name ++ lit "r") ++ letters q.
Proof. intros E. rewrite <- !app_assoc in E. apply app_inv_head in E. discriminate E. Qed.
Lemma step_not name b p : name <> (name ++ letters [b]) ++ letters p.
Proof. intros E. rewrite <- app_assoc in E. rewrite <- (app_nil_r name) in E at 1. apply app_inv_head in E. discriminate E. Qed.
Lemma drawn t : forked t -> forall name, all_finite t -> exists d, visualize (js t) name = inr d /\ picture t name d.
Proof.
  intros F. induction F as [s sp|s x l r K Fl IHl Fr IHr]; intros name A.
  - apply finite_parts in A. destruct A as ((F & _) & _ & _). destruct (leaf_label_ok s sp F) as (b & E & T). rewrite visualize_leaf, E. cbn [py_bind]. eexists. split; [reflexivity|].
    repeat split.
    + intros [|[] p] sub; cbn; intros H; try discriminate H. injection H as <-. exists b. split; [left; rewrite app_nil_r; reflexivity|exact T].
    + intros n lab [I|[]]. injection I as <- <-. exists [], (TNode s sp TNone TNone). split; [reflexivity|]. split; [rewrite app_nil_r; reflexivity|exact T].
    + constructor; [intros []|constructor].
    + intros [I|[]]. discriminate I.
    + intros (p & side & sub & H & _). destruct p as [|[] p]; cbn in H; [destruct side|..]; discriminate H.
    + constructor.
  - pose proof (forked_some l Fl) as Nl. pose proof (forked_some r Fr) as Nr.
    apply finite_parts in A. destruct A as ((F & Ft) & Al & Ar). destruct (fork_label_ok s x l r Nl F ltac:(intros thr m H; exact (Ft Nl x thr m eq_refl H)) K) as (lab & El & Tl).
    destruct (IHl (name ++ lit "l") Al) as (a & Ea & Pa). destruct (IHr (name ++ lit "r") Ar) as (b & Eb & Pb).
    rewrite visualize_fork, El, Ea, Eb by assumption. cbn [py_bind]. eexists. split; [reflexivity|].
    pose proof (fun n => picture_names l _ _ n Pa) as Na. pose proof (fun n => picture_names r _ _ n Pb) as Nb.
    destruct Pa as (A1 & A2 & A3 & A4 & A5). destruct Pb as (B1 & B2 & B3 & B4 & B5).
    assert (forall p sub, subtree (TNode s (Some x) l r) p = Some sub -> p = [] /\ sub = TNode s (Some x) l r \/ exists b q, p = b :: q /\ subtree (if b : bool then l else r) q = Some sub) as Cases.
    { intros [|c p] sub H; cbn in H; [left|right; exists c, p]; [injection H as <-|]; auto. }
    repeat split.
    + intros p sub H. destruct (Cases p sub H) as [[-> ->]|(c & q & -> & G)].
      * exists lab. split; [left; rewrite app_nil_r; reflexivity|exact Tl].
      * rewrite name_step. destruct c; [destruct (A1 q sub G) as (m & I & T)|destruct (B1 q sub G) as (m & I & T)]; exists m; (split; [|exact T]); right; rewrite !in_app_iff; auto.
    + intros n m [I|I].
      * injection I as <- <-. exists [], (TNode s (Some x) l r). split; [reflexivity|]. split; [rewrite app_nil_r; reflexivity|exact Tl].
      * rewrite !in_app_iff in I. destruct I as [I|[I|[I|[I|[]]]]]; try discriminate I.
        -- destruct (A2 n m I) as (p & sub & S & -> & T). exists (true :: p), sub. split; [exact S|]. split; [rewrite name_step; reflexivity|exact T].
        -- destruct (B2 n m I) as (p & sub & S & -> & T). exists (false :: p), sub. split; [exact S|]. split; [rewrite name_step; reflexivity|exact T].
    + unfold names_of. cbn [flat_map]. rewrite !flat_map_app. cbn [flat_map app]. rewrite app_nil_r. fold (names_of a) (names_of b). constructor.
      * rewrite in_app_iff. intros [I|I]; [destruct (Na _ I) as [p E]; exact (step_not name true p E)|destruct (Nb _ I) as [p E]; exact (step_not name false p E)].
      * apply NoDup_parts; [assumption..|]. intros n I J. destruct (Na _ I) as [p ->]. destruct (Nb _ J) as [q E]. exact (side_differs _ _ _ E).
    + rename a into da, b into db. intros [I|I]; [discriminate I|]. rewrite !in_app_iff in I. destruct I as [I|[I|[I|[I|[]]]]].
      * apply A4 in I. destruct I as (p & side & sub & S & -> & ->). exists (true :: p), side, sub. split; [exact S|]. change ((true :: p) ++ [side]) with (true :: (p ++ [side])). rewrite (name_step name true p), (name_step name true (p ++ [side])). split; reflexivity.
      * apply B4 in I. destruct I as (p & side & sub & S & -> & ->). exists (false :: p), side, sub. split; [exact S|]. change ((false :: p) ++ [side]) with (false :: (p ++ [side])). rewrite (name_step name false p), (name_step name false (p ++ [side])). split; reflexivity.
      * injection I as <- <-. exists [], true. destruct l as [|ls lsp ll lr]; [contradiction|]. eexists. split; [reflexivity|]. split; [rewrite app_nil_r|]; reflexivity.
      * injection I as <- <-. exists [], false. destruct r as [|ls lsp ll lr]; [contradiction|]. eexists. split; [reflexivity|]. split; [rewrite app_nil_r|]; reflexivity.
    + rename a into da, b into db. intros (p & side & sub & S & -> & ->). right. rewrite !in_app_iff. destruct p as [|c p].
      * rewrite app_nil_r. destruct side; right; right; [left|right; left]; reflexivity.
      * cbn [app subtree] in S. change ((c :: p) ++ [side]) with (c :: (p ++ [side])). rewrite (name_step name c p), (name_step name c (p ++ [side])). destruct c; [left; apply A4|right; left; apply B4]; exists p, side, sub; repeat split; exact S.
    + unfold arrows_of. cbn [flat_map]. rewrite !flat_map_app. cbn [flat_map app]. fold (arrows_of a) (arrows_of b).
      assert (forall n m, In (n, m) (arrows_of a) -> exists p, n = name ++ letters (true :: p)) as Xa.
      { intros n m I. apply in_arrows, A4 in I. destruct I as (p & side & sub & S & -> & _). exists p. rewrite name_step. reflexivity. }
      assert (forall n m, In (n, m) (arrows_of b) -> exists p, n = name ++ letters (false :: p)) as Xb.
      { intros n m I. apply in_arrows, B4 in I. destruct I as (p & side & sub & S & -> & _). exists p. rewrite name_step. reflexivity. }
      apply NoDup_parts; [exact A5|apply NoDup_parts; [exact B5|..]|].
      * constructor; [|constructor; [intros []|constructor]]. intros [I|[]]. injection I as I. apply app_inv_head in I. discriminate I.
      * intros [n m] I [J|[J|[]]]; injection J as <- <-; destruct (Xb _ _ I) as [p E]; rewrite name_step in E; exact (step_not _ _ _ E).
      * intros [n m] I J. destruct (Xa _ _ I) as [p ->]. rewrite in_app_iff in J. destruct J as [J|[J|[J|[]]]].
        -- destruct (Xb _ _ J) as [q E]. apply app_inv_head in E. discriminate E.
        -- injection J as E _. rewrite <- (app_nil_r name) in E at 1. apply app_inv_head in E. discriminate E.
        -- injection J as E _. rewrite <- (app_nil_r name) in E at 1. apply app_inv_head in E. discriminate E.
Qed.
Lemma refused t : forked t -> forall name d, visualize (js t) name = inr d -> all_finite t.
Proof.
  intros F. induction F as [s sp|s x l r K Fl IHl Fr IHr]; intros name d E.
  - rewrite visualize_leaf in E. destruct (node_label _) as [e|b] eqn:B; [discriminate E|]. apply finite_parts. split; [exact (label_finite _ _ _ _ _ B)|].
    split; intros p s' sp' l' r' H; destruct p; discriminate H.
  - rewrite visualize_fork in E by (apply forked_some; assumption). destruct (node_label _) as [e|b] eqn:B; [discriminate E|]. cbn [py_bind] in E.
    destruct (visualize (js l) _) as [e|da] eqn:Ea; [discriminate E|]. destruct (visualize (js r) _) as [e|db] eqn:Eb; [discriminate E|].
    apply finite_parts. split; [exact (label_finite _ _ _ _ _ B)|]. split; [exact (IHl _ _ Ea)|exact (IHr _ _ Eb)].
Qed.
Lemma same_shape t u name d : forked t -> forked u -> visualize (js t) name = inr d -> visualize (js u) name = inr d ->
  forall p, subtree t p <> None <-> subtree u p <> None.
Proof.
  assert (forall t u, forked t -> forked u -> visualize (js t) name = inr d -> visualize (js u) name = inr d -> forall p, subtree t p <> None -> subtree u p <> None) as G.
  { clear t u. intros t u Ft Fu Et Eu p H. destruct (drawn t Ft name (refused t Ft name d Et)) as (d' & E' & P'). rewrite Et in E'. injection E' as <-.
    destruct (drawn u Fu name (refused u Fu name d Eu)) as (d' & E' & Q'). rewrite Eu in E'. injection E' as <-.
    destruct (subtree t p) as [sub|] eqn:S; [|contradiction]. destruct P' as (P1 & _). destruct (P1 p sub S) as (lab & I & _). destruct Q' as (_ & Q2 & _).
    destruct (Q2 _ _ I) as (q & sub' & S' & E & _). apply app_inv_head, letters_inj in E. subst q. rewrite S'. discriminate. }
  intros Ft Fu Et Eu p. split; apply G; assumption.
Qed.
(** ** Forests *)
Lemma forest_tree (f : forest N) meta i : visualize_tree (forest_json reread regain f meta) i =
  let k := if (i <? 0)%Z then (zlen f + i)%Z else i in
  if (k <? 0)%Z then inl IndexError else match nth_error f (Z.to_nat k) with Some t => visualize (js t) (lit "tree" ++ dec i) | None => inl IndexError end.
Proof.
  unfold visualize_tree. change (item (lit "tree") (forest_json reread regain f meta)) with (@inr py_error json (JList (map js f))). cbn [py_bind as_list]. unfold index_of.
  assert (zlen (map js f) = zlen f) as -> by (unfold zlen; rewrite map_length; reflexivity). cbv zeta. destruct (i <? 0)%Z.
  - destruct (zlen f + i <? 0)%Z; [reflexivity|]. rewrite nth_error_map. destruct (nth_error f _); reflexivity.
  - destruct (i <? 0)%Z; [reflexivity|]. rewrite nth_error_map. destruct (nth_error f _); reflexivity.
Qed.
End Trees.

(** ** The script *)
Section Script.
Context {c_exp c_log : f64 -> f64} (reread regain : f64 -> f64).
Notation N := (IEEE c_exp c_log).
Notation js := (tree_json (c_exp := c_exp) (c_log := c_log) reread regain).
Implicit Types (s : N) (sp : option (split N)) (l r t : tree N).
Lemma traverse_node s sp l r name : traverse (js (TNode s sp l r)) name =
  if present l then
    pylet label := branch_string (js (TNode s sp l r)) in
    pylet a := traverse (js l) (name ++ lit "l") in
    pylet b := (if present r then traverse (js r) (name ++ lit "r") else inl KeyError) in
    inr (statement name label ++ arrow name (name ++ lit "l") ++ arrow name (name ++ lit "r") ++ hidden_arrow (name ++ lit "l") (name ++ lit "r") ++ a ++ b)
  else pylet label := leaf_label (js (TNode s sp l r)) in inr (statement name label).
Proof.
  rewrite js_fields. cbn [traverse]. rewrite <- js_fields, has_left_key, item_left, item_right. destruct l; [reflexivity|]. cbn [present]. destruct (branch_string _); [reflexivity|].
  cbn [py_bind]. destruct r; reflexivity.
Qed.
Lemma branch_text s sp l r : branch_string (js (TNode s sp l r)) =
  match sp with
  | None => inl KeyError
  | Some x =>
      match sp_float x with
      | Some (thr, _) =>
          pylet a := format_fixed [] 3 (number reread (to_f64 thr)) in
          pylet b := format_fixed [] 6 (number reread s) in
          inr (sp_feature x ++ lit " " ++ lit "<=*" ++ lit " " ++ a ++ lit " " ++ backslash_n ++ b)
      | None =>
          match sp_cat x with
          | Some (names, _) => inr (sp_feature x ++ lit " in " ++ repr_list names)
          | None => inl TypeError
          end
      end
  end.
Proof.
  unfold branch_string. rewrite item_split, item_score. destruct sp as [x|]; [|reflexivity]. cbn [py_bind]. unfold has_key at 1. rewrite split_float. destruct (sp_float x) as [[thr m]|] eqn:E.
  - rewrite split_feature. cbn [py_bind as_text].
    change (item (lit "threshold") (float_split_json reread (thr, m))) with (@inr py_error json (number reread (to_f64 thr))).
    change (has_key (lit "missingToRightChild") (float_split_json reread (thr, m))) with true. cbv iota. cbn [py_bind]. reflexivity.
  - unfold has_key. rewrite split_cat. destruct (sp_cat x) as [[names idx]|]; [|reflexivity]. rewrite split_feature. cbn [py_bind as_text].
    change (item (lit "category") (cat_split_json (names, idx))) with (@inr py_error json (JList (map JStr names))). cbn [py_bind as_list]. rewrite texts_of. reflexivity.
Qed.
Lemma leaf_label_same s sp l r sp' l' r' : leaf_label (js (TNode s sp l r)) = leaf_label (js (TNode s sp' l' r')).
Proof. unfold leaf_label. rewrite !item_score. reflexivity. Qed.
Lemma redirect_same side t : forall name, traverse (js (redirected side t)) name = traverse (js t) name.
Proof.
  induction t as [|s sp l IHl r IHr]; intros name; [reflexivity|]. cbn [redirected]. rewrite !traverse_node.
  assert (forall u : tree N, present (redirected side u) = present u) as P by (intros []; reflexivity). rewrite !P, IHl, IHr.
  rewrite (leaf_label_same s _ _ _ sp l r). rewrite !branch_text. destruct sp as [x|]; [|reflexivity]. cbn [sp_float sp_cat sp_feature]. destruct (sp_float x) as [[thr m]|]; reflexivity.
Qed.

Lemma simple_escaped w : simple_word w -> repr w = lit "u'" ++ w ++ lit "'".
Proof.
  intros S. assert (contains apostrophe w = false) as C.
  { unfold contains. apply not_true_iff_false. intros E. apply existsb_exists in E. destruct E as (c & I & E). destruct (ascii_dec c apostrophe) as [->|]; [|discriminate E].
    destruct (S _ I) as [_ B]. apply B. right. left. reflexivity. }
  unfold repr. rewrite C. cbn [andb]. assert (flat_map (escaped apostrophe) w = w) as E; [|rewrite E; reflexivity].
  clear C. induction w as [|c w IH]; [reflexivity|]. cbn [flat_map]. rewrite IH by (intros d I; apply S; right; exact I).
  assert (escaped apostrophe c = [c]) as X; [|rewrite X; reflexivity]. destruct (S c (or_introl eq_refl)) as [B1 B2]. unfold escaped.
  destruct (Nat.eqb_spec (nat_of_ascii c) 92) as [A|A]; [exfalso; apply B2; right; right; left; symmetry; exact A|].
  destruct (ascii_dec c apostrophe) as [->|_]; [exfalso; apply B2; right; left; reflexivity|]. cbn [orb].
  destruct (Nat.eqb_spec (nat_of_ascii c) 9) as [A1|_]; [lia|]. destruct (Nat.eqb_spec (nat_of_ascii c) 10) as [A1|_]; [lia|]. destruct (Nat.eqb_spec (nat_of_ascii c) 13) as [A1|_]; [lia|].
  destruct (Nat.ltb_spec (nat_of_ascii c) 32) as [A1|_]; [lia|]. destruct (Nat.leb_spec 127 (nat_of_ascii c)) as [A1|_]; [lia|]. reflexivity.
Qed.
Lemma simple_list names : Forall simple_word names -> repr_list names = lit "[" ++ joined (lit ", ") (map (fun w => lit "u'" ++ w ++ lit "'") names) ++ lit "]".
Proof.
  intros F. unfold repr_list. do 3 f_equal. apply map_ext_in. intros w I. apply simple_escaped. rewrite Forall_forall in F. apply F, I.
Qed.
Context (Fine : forall x, finite_number x -> finite_number (reread x)).
Lemma script_leaf s sp : finite_number s -> exists b, leaf_label (js (TNode s sp TNone TNone)) = inr b /\ script_text reread (TNode s sp TNone TNone) b.
Proof.
  intros F. unfold leaf_label. rewrite item_score. cbn [py_bind]. destruct (format_number reread Fine [] 6 s ltac:(lia) F) as (b & E & T).
  exists b. split; [etransitivity; [exact E|rewrite no_gap; reflexivity]|]. constructor. exact T.
Qed.
Lemma script_fork s (x : split N) l r : l <> TNone -> finite_number s -> (forall thr m, sp_float x = Some (thr, m) -> finite_number (to_f64 thr)) ->
  (sp_float x <> None \/ sp_cat x <> None) -> (forall names idx, sp_cat x = Some (names, idx) -> Forall simple_word names) ->
  exists b, branch_string (js (TNode s (Some x) l r)) = inr b /\ script_text reread (TNode s (Some x) l r) b.
Proof.
  intros Nl F Ft K W. rewrite branch_text. destruct (sp_float x) as [[thr m]|] eqn:E.
  - destruct (format_number reread Fine [] 3 (to_f64 thr) ltac:(lia) (Ft _ _ eq_refl)) as (a & Ea & Ta). destruct (format_number reread Fine [] 6 s ltac:(lia) F) as (b & Eb & Tb).
    rewrite no_gap in Ea, Eb. rewrite Ea, Eb. cbn [py_bind]. eexists. split; [reflexivity|].
    change (sp_feature x ++ lit " " ++ lit "<=*" ++ lit " " ++ a ++ lit " " ++ backslash_n ++ b) with (sp_feature x ++ lit " <=* " ++ a ++ lit " " ++ [ascii_of_nat 92; "n"%char] ++ b).
    eapply ScriptNumber; eassumption.
  - destruct (sp_cat x) as [[names idx]|] eqn:C; [|destruct K; contradiction]. eexists. split; [reflexivity|]. rewrite simple_list by (eapply W; reflexivity).
    exact (ScriptNames reread s x l r names idx _ Nl E C (joined_words _)).
Qed.
Definition script t (name : str) (lines : list str) : Prop :=
  (forall p sub, subtree t p = Some sub -> exists lab, In (node_line (name ++ letters p) lab) lines /\ script_text reread sub lab) /\
  (forall p side sub, subtree t (p ++ [side]) = Some sub -> In (arrow_line (name ++ letters p) (name ++ letters (p ++ [side]))) lines) /\
  (forall line, In line lines ->
     (exists p sub lab, subtree t p = Some sub /\ script_text reread sub lab /\ line = node_line (name ++ letters p) lab) \/
     (exists p side sub, subtree t (p ++ [side]) = Some sub /\ line = arrow_line (name ++ letters p) (name ++ letters (p ++ [side]))) \/
     (exists p sub, subtree t (p ++ [true]) = Some sub /\ line = hidden_line (name ++ letters (p ++ [true])) (name ++ letters (p ++ [false])))).
Definition ended (lines : list str) : str := concat (map (fun x : str => x ++ [nl]) lines).
Lemma scripted t : forked t -> forall name, all_finite t -> simple_words t -> exists lines, traverse (js t) name = inr (ended lines) /\ script t name lines.
Proof.
  intros F. induction F as [s sp|s x l r K Fl IHl Fr IHr]; intros name A W.
  - apply finite_parts in A. destruct A as ((F & _) & _ & _). destruct (script_leaf s sp F) as (b & E & T). rewrite traverse_node. cbn [present]. rewrite E. cbn [py_bind].
    exists [node_line name b]. split.
    { f_equal. unfold ended, statement, node_line. cbn [map concat]. rewrite app_nil_r, <- !app_assoc. reflexivity. }
    split; [|split].
    + intros [|[] p] sub H; cbn in H; try discriminate H. injection H as <-. exists b. split; [left; rewrite app_nil_r; reflexivity|exact T].
    + intros [|[] p] [] sub H; discriminate H.
    + intros line [<-|[]]. left. exists [], (TNode s sp TNone TNone), b. split; [reflexivity|]. split; [exact T|]. rewrite app_nil_r. reflexivity.
  - pose proof (forked_some l Fl) as Nl. pose proof (forked_some r Fr) as Nr.
    apply finite_parts in A. destruct A as ((F & Ft) & Al & Ar).
    destruct (script_fork s x l r Nl F ltac:(intros thr m H; exact (Ft Nl x thr m eq_refl H)) K ltac:(intros names idx H; exact (W [] s x l r names idx eq_refl H))) as (lab & El & Tl).
    destruct (IHl (name ++ lit "l") Al ltac:(intros p; exact (W (true :: p)))) as (a & Ea & A1 & A2 & A3).
    destruct (IHr (name ++ lit "r") Ar ltac:(intros p; exact (W (false :: p)))) as (b & Eb & B1 & B2 & B3).
    rewrite traverse_node, El, Ea, Eb. assert (present l = true) as Pl by (destruct l; [contradiction|reflexivity]). assert (present r = true) as Pr by (destruct r; [contradiction|reflexivity]).
    rewrite Pl, Pr. cbn [py_bind].
    exists ([node_line name lab; arrow_line name (name ++ lit "l"); arrow_line name (name ++ lit "r"); hidden_line (name ++ lit "l") (name ++ lit "r")] ++ a ++ b). split.
    { f_equal. unfold ended. rewrite !map_app, !concat_app. cbn [map concat]. unfold statement, arrow, hidden_arrow, node_line, arrow_line, hidden_line. rewrite app_nil_r, <- !app_assoc. reflexivity. }
    assert (exists sl, subtree l [] = Some sl) as [sl Sl] by (destruct l; [contradiction|eexists; reflexivity]).
    assert (exists sr, subtree r [] = Some sr) as [sr Sr] by (destruct r; [contradiction|eexists; reflexivity]).
    split; [|split].
    + intros [|c p] sub H; cbn [subtree] in H.
      * injection H as <-. exists lab. split; [left; rewrite app_nil_r; reflexivity|exact Tl].
      * rewrite (name_step name c p). destruct c; [destruct (A1 p sub H) as (m & I & T)|destruct (B1 p sub H) as (m & I & T)]; exists m; (split; [|exact T]); apply in_or_app; right; apply in_or_app; [left|right]; exact I.
    + intros [|c p] side sub H.
      * rewrite app_nil_r. destruct side; [right; left|right; right; left]; reflexivity.
      * cbn [app subtree] in H. change ((c :: p) ++ [side]) with (c :: (p ++ [side])). rewrite (name_step name c p), (name_step name c (p ++ [side])). apply in_or_app. right. apply in_or_app.
        destruct c; [left; exact (A2 p side sub H)|right; exact (B2 p side sub H)].
    + intros line I. apply in_app_or in I. destruct I as [I|I]; [|apply in_app_or in I; destruct I as [I|I]].
      * destruct I as [<-|[<-|[<-|[<-|[]]]]].
        -- left. exists [], (TNode s (Some x) l r), lab. split; [reflexivity|]. split; [exact Tl|]. rewrite app_nil_r. reflexivity.
        -- right. left. exists [], true, sl. split; [exact Sl|]. rewrite app_nil_r. reflexivity.
        -- right. left. exists [], false, sr. split; [exact Sr|]. rewrite app_nil_r. reflexivity.
        -- right. right. exists [], sl. split; [exact Sl|]. reflexivity.
      * destruct (A3 line I) as [(p & sub & m & H & T & ->)|[(p & side & sub & H & ->)|(p & sub & H & ->)]].
        -- left. exists (true :: p), sub, m. split; [exact H|]. split; [exact T|]. rewrite (name_step name true p). reflexivity.
        -- right. left. exists (true :: p), side, sub. split; [exact H|]. change ((true :: p) ++ [side]) with (true :: (p ++ [side])). rewrite (name_step name true p), (name_step name true (p ++ [side])). reflexivity.
        -- right. right. exists (true :: p), sub. split; [exact H|]. change ((true :: p) ++ [true]) with (true :: (p ++ [true])). change ((true :: p) ++ [false]) with (true :: (p ++ [false])).
           rewrite (name_step name true (p ++ [true])), (name_step name true (p ++ [false])). reflexivity.
      * destruct (B3 line I) as [(p & sub & m & H & T & ->)|[(p & side & sub & H & ->)|(p & sub & H & ->)]].
        -- left. exists (false :: p), sub, m. split; [exact H|]. split; [exact T|]. rewrite (name_step name false p). reflexivity.
        -- right. left. exists (false :: p), side, sub. split; [exact H|]. change ((false :: p) ++ [side]) with (false :: (p ++ [side])). rewrite (name_step name false p), (name_step name false (p ++ [side])). reflexivity.
        -- right. right. exists (false :: p), sub. split; [exact H|]. change ((false :: p) ++ [true]) with (false :: (p ++ [true])). change ((false :: p) ++ [false]) with (false :: (p ++ [false])).
           rewrite (name_step name false (p ++ [true])), (name_step name false (p ++ [false])). reflexivity.
Qed.
End Script.

Lemma flat_once {A B} (g : A -> list B) d : NoDup (flat_map g d) -> forall i j x y k, nth_error d i = Some x -> nth_error d j = Some y -> In k (g x) -> In k (g y) -> i = j.
Proof.
  induction d as [|a d IH]; intros H i j x y k Ei Ej Ix Iy; [destruct i; discriminate Ei|]. cbn [flat_map] in H.
  assert (forall i z, nth_error d i = Some z -> In k (g z) -> In k (g a) -> False) as No.
  { clear - H. intros i z E I J. apply nth_error_In in E. assert (In k (flat_map g d)) as T by (apply in_flat_map; exists z; split; assumption).
    apply in_split in J. destruct J as (u & v & E'). rewrite E' in H. rewrite <- app_assoc in H. cbn in H. apply NoDup_remove_2 in H. apply H. rewrite !in_app_iff. auto. }
  assert (NoDup (flat_map g d)) as Hd.
  { clear - H. induction (g a) as [|b l IH]; [exact H|]. cbn in H. inversion H; subst. apply IH. assumption. }
  destruct i as [|i], j as [|j]; cbn in Ei, Ej.
  - reflexivity.
  - injection Ei as <-. exfalso. exact (No j y Ej Iy Ix).
  - injection Ej as <-. exfalso. exact (No i x Ei Ix Iy).
  - f_equal. exact (IH Hd i j x y k Ei Ej Ix Iy).
Qed.
Lemma drawn_once {c_exp c_log : f64 -> f64} reread regain (t : tree (IEEE c_exp c_log)) name : (forall x, finite_number x -> finite_number (reread x)) -> forked t -> all_finite t ->
  exists d, visualize (tree_json reread regain t) name = inr d /\
    (forall p sub, subtree t p = Some sub -> exists lab, In (ANode (name ++ letters p) lab) d /\ node_text reread sub lab) /\
    (forall n lab, In (ANode n lab) d -> exists p sub, subtree t p = Some sub /\ n = name ++ letters p /\ node_text reread sub lab) /\
    (forall a b, In (AnEdge a b) d <-> exists p side sub, subtree t (p ++ [side]) = Some sub /\ a = name ++ letters p /\ b = name ++ letters (p ++ [side])) /\
    (forall i j n lab lab', nth_error d i = Some (ANode n lab) -> nth_error d j = Some (ANode n lab') -> i = j) /\
    (forall i j a b, nth_error d i = Some (AnEdge a b) -> nth_error d j = Some (AnEdge a b) -> i = j).
Proof.
  intros Fine F A. destruct (drawn reread regain Fine t F name A) as (d & E & P1 & P2 & P3 & P4 & P5). exists d. repeat (split; [assumption|]). split.
  - intros i j n l l' Ei Ej. eapply (flat_once _ d P3 i j _ _ n Ei Ej); left; reflexivity.
  - intros i j a b Ei Ej. eapply (flat_once _ d P5 i j _ _ (a, b) Ei Ej); left; reflexivity.
Qed.
Lemma drawn_iff {c_exp c_log : f64 -> f64} reread regain (t : tree (IEEE c_exp c_log)) name : (forall x, finite_number x -> finite_number (reread x)) -> forked t ->
  ((exists d, visualize (tree_json reread regain t) name = inr d) <-> all_finite t).
Proof.
  intros Fine F. split; [intros [d E]; exact (refused reread regain t F name d E)|]. intros A. destruct (drawn reread regain Fine t F name A) as (d & E & _). exists d. exact E.
Qed.
Lemma scripted_text {c_exp c_log : f64 -> f64} reread regain (t : tree (IEEE c_exp c_log)) name : (forall x, finite_number x -> finite_number (reread x)) -> forked t -> all_finite t -> simple_words t ->
  exists lines, traverse (tree_json reread regain t) name = inr (FlatSpec.text lines []) /\ script reread t name lines.
Proof.
  intros Fine F A W. destruct (scripted reread regain Fine t F name A W) as (lines & E & S). exists lines. split; [|exact S]. rewrite E. unfold ended, FlatSpec.text. rewrite app_nil_r. reflexivity.
Qed.
