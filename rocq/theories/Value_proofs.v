(** Value_proofs.v - stores show tables, and predictions follow the values. *)
From Coq Require Import SpecFloat.
From Verif Require Import Base Base_proofs F32 F32_proofs Column ColumnSpec ColumnStr_proofs ColumnProps_proofs ColumnCount_proofs DataStore DataStoreSpec
  DataStore_proofs Num Forest Par Score ScoreSpec Score_proofs Eval EvalSpec Eval_proofs Python PythonSpec Python_proofs Slice_proofs
  PyTrain_proofs PyPlot ValueSpec.

(** ** Columns that show values *)
Definition col_shows (t : ctype) (vals : list value) (c : column) : Prop :=
  col_status c = SOk /\ has_rows c (List.length vals) /\ col_size c = Ret (List.length vals) /\ col_type c = t /\
  match c_body c with
  | BodyB b => forall i v, nth_error vals i = Some v -> exists x, v = VFloat x /\ b_missing b i = Ret (is_nan x) /\
      exists lo hi, b_row_min b i = Ret lo /\ b_row_max b i = Ret hi /\ (is_nan x = true -> is_nan lo = true) /\
        (is_nan x = false -> feqb lo x = true /\ feqb hi x = true)
  | BodyS s => forall i v, nth_error vals i = Some v -> exists x, v = VString x /\ str_row s i = Ret x
  | BodyR r => forall i v, nth_error vals i = Some v -> exists x, v = VFloat x /\ r_get r i = Ret x
  end.

Lemma load_shows n blocks b vals : vals = map (fun x => VFloat x) (concat blocks) -> (zlen vals < 60000)%Z -> below_inf (concat blocks) ->
  b_load default_buckets blocks = Ret b -> col_shows TBucketized vals (mkCol n (BodyB b)).
Proof.
  intros T L BI Eb. assert (List.length vals = List.length (concat blocks)) as LV by (rewrite T, map_length; reflexivity).
  assert (zlen (concat blocks) < 4294967294)%Z as LF by (unfold zlen in *; lia).
  destruct (bucketized_size_missing default_buckets blocks b limit_default LF Eb) as (St & Sz & Mi).
  split; [exact St|]. split.
  { exists default_buckets, blocks. rewrite LV. exact (conj limit_default (conj LF (conj Eb eq_refl))). }
  split; [cbn; rewrite LV; exact Sz|]. split; [reflexivity|]. cbn [c_body]. intros i v Ev.
  rewrite T, nth_error_map in Ev. destruct (nth_error (concat blocks) i) as [x|] eqn:Ei; [|discriminate]. injection Ev as <-.
  exists x. split; [reflexivity|]. split; [exact (Mi i x Ei)|].
  destruct (is_nan x) eqn:Nx.
  + destruct (rows_loaded default_buckets blocks b limit_default LF Eb i x Ei) as (lo & Lo & Nlo).
    destruct (bucket_row default_buckets blocks b i limit_default LF Eb) as (m & hi & _ & Hi).
    { apply nth_error_Some. congruence. }
    exists lo, hi. repeat split; auto; discriminate.
  + destruct (bucketized_lossless default_buckets blocks b limit_default) with (i := i) (v := x) as (lo & hi & Lo & Hi & F1 & F2); try assumption.
    { unfold default_buckets. unfold zlen in *. lia. }
    exists lo, hi. repeat split; auto; discriminate.
Qed.
Lemma create_shows n t vals : typed_for t vals -> (zlen vals < 60000)%Z ->
  (t = TBucketized -> below_inf (floats_of vals) /\ bucketizable (floats_of vals)) ->
  exists c, py_create n t vals = Ret c /\ c_name c = n /\ col_shows t vals c.
Proof.
  intros T L B. destruct (py_create_cases n t vals) as [U|[c E]];
    [lia|destruct (create_total n t vals T ltac:(lia) (fun e => proj2 (B e)) U)|].
  exists c. split; [exact E|]. destruct t; cbn in T; unfold py_create in E.
  - destruct (B eq_refl) as [BI _]. clear B. rewrite T in E. rewrite floats_map in E. set (fs := floats_of vals) in *. clearbody fs.
    assert (List.length vals = List.length fs) as LV by (rewrite T, map_length; reflexivity).
    destruct (create_bucketized default_buckets fs) as [b| |] eqn:Eb; [|discriminate..]. cbn [bind] in E. injection E as <-.
    split; [reflexivity|]. assert (concat [fs] = fs) as C by (cbn; apply app_nil_r). rewrite create_load in Eb.
    apply (load_shows n [fs] b vals); rewrite ?C; try assumption.
  - rewrite T in E. rewrite floats_map in E. set (fs := floats_of vals) in *. clearbody fs. injection E as <-.
    assert (List.length vals = List.length fs) as LV by (rewrite T, map_length; reflexivity).
    split; [reflexivity|]. split; [reflexivity|]. split; [exact LV|]. split; [cbn; rewrite LV; reflexivity|]. split; [reflexivity|].
    cbn [c_body]. intros i v Ev. rewrite T, nth_error_map in Ev. destruct (nth_error fs i) as [x|] eqn:Ei; [|discriminate]. injection Ev as <-.
    exists x. split; [reflexivity|]. unfold r_get, create_raw, r_finalize, r_add, r_init. cbn. apply vget_some. exact Ei.
  - rewrite T in E. rewrite strings_map in E. set (ss := strings_of vals) in *. clearbody ss. injection E as <-.
    assert (List.length vals = List.length ss) as LV by (rewrite T, map_length; reflexivity).
    assert (fits_32_bits (concat [ss])) as F.
    { unfold fits_32_bits. cbn [concat]. rewrite app_nil_r.
      assert (List.length (nodup str_eq_dec (missing_str :: ss)) <= List.length (missing_str :: ss)) as X.
      { apply NoDup_incl_length; [apply NoDup_nodup|]. intros x I. apply nodup_In in I. exact I. }
      cbn [List.length] in X. unfold zlen in *. lia. }
    destruct (string_column_roundtrip [ss] F) as (St & Sz & Rw).
    assert (concat [ss] = ss) as C by (cbn; apply app_nil_r). rewrite C in Sz, Rw.
    split; [reflexivity|]. split; [exact St|]. split.
    { exists [ss]. rewrite C. rewrite LV. rewrite C in F. exact (conj F (conj eq_refl eq_refl)). }
    split; [cbn; rewrite LV; exact Sz|]. split; [reflexivity|]. cbn [c_body]. intros i v Ev.
    rewrite T, nth_error_map in Ev. destruct (nth_error ss i) as [x|] eqn:Ei; [|discriminate]. injection Ev as <-.
    exists x. split; [reflexivity|]. apply Rw. exact Ei.
Qed.

(** Values that are alike can be exchanged. *)
Lemma alike_nan x y : alike (VFloat y) (VFloat x) -> is_nan x = is_nan y.
Proof.
  cbn. intros [A|[A1 A2]]; [|congruence].
  destruct (is_nan x) eqn:Nx, (is_nan y) eqn:Ny; try reflexivity; exfalso; ford.
Qed.
Lemma shows_alike t vals vals' c : same_values t vals vals' -> col_shows t vals' c -> col_shows t vals c.
Proof.
  destruct t; cbn [same_values]; try (intros ->; tauto).
  intros F (St & HR & Sz & Ty & V). assert (List.length vals = List.length vals') as L by (clear - F; induction F; cbn; congruence). unfold col_shows. rewrite L.
  split; [exact St|]. split; [exact HR|]. split; [exact Sz|]. split; [exact Ty|].
  assert (forall i v, nth_error vals i = Some v -> exists w, nth_error vals' i = Some w /\ alike v w) as X.
  { clear - F. induction F as [|a b l l' H F IH]; intros [|i] v E; try discriminate; cbn in *; [|eauto].
    injection E as <-. eauto. }
  unfold col_type in Ty. destruct (c_body c) as [b|r|s]; [|discriminate..].
  intros i v E. destruct (X i v E) as (w & Ew & A). destruct (V i w Ew) as (x & -> & M & lo & hi & Lo & Hi & N1 & N2).
  destruct v as [s|y]; [destruct A|]. exists y. split; [reflexivity|]. rewrite <- (alike_nan x y A). split; [exact M|].
  exists lo, hi. split; [exact Lo|]. split; [exact Hi|]. split; [exact N1|].
  intros Nx. destruct (N2 Nx) as [F1 F2]. cbn in A. destruct A as [A|[A1 A2]]; [|congruence]. split; ford.
Qed.

(** ** Stores that show tables *)
Definition shows (d : pystore) (k : nat) (fr : frame) : Prop :=
  NoDup (map fst (contents d)) /\
  forall n, match fr n with
            | Some (t, vals) => List.length vals = k /\ exists c, py_col n d = Some c /\ c_name c = n /\ col_shows t vals c
            | None => py_col n d = None
            end.
Lemma shows_ext d k fr fr' : (forall n, fr n = fr' n) -> shows d k fr -> shows d k fr'.
Proof. intros E [ND H]. split; [exact ND|]. intros n. rewrite <- E. apply H. Qed.
Lemma shows_size d k fr : shows d k fr -> all_size k (contents d).
Proof.
  intros [ND H] n c I. apply in_assoc in I; [|exact ND]. specialize (H n). rewrite col_contents in H. unfold ds_get in H. rewrite I in H.
  destruct (fr n) as [[t vals]|]; [|discriminate]. destruct H as (L & c' & E & _ & _ & _ & Sz & _). injection E as <-. rewrite Sz, L. reflexivity.
Qed.
Lemma shows_rows beg d k fr n x : shows d k fr -> fr n = Some x -> py_num_rows beg d = Ret k.
Proof.
  intros S E. rewrite rows_contents, (rows_all k _ beg (shows_size d k fr S)). destruct S as [_ H]. specialize (H n). rewrite E in H.
  destruct x as [t vals]. destruct H as (_ & c & C & _). rewrite col_contents in C. destruct (contents d); [discriminate|reflexivity].
Qed.
Lemma assoc_none_notin {B} n (m : list (str * B)) : assoc n m = None -> ~ In n (map fst m).
Proof.
  induction m as [|[k b] m IH]; cbn; [tauto|]. destruct (str_eqb_spec n k) as [->|N]; [discriminate|]. intros E [X|X]; [congruence|]. exact (IH E X).
Qed.

Definition put (fr : frame) (n : str) (t : ctype) (vals : list value) : frame := fun n' => if str_eqb n' n then Some (t, vals) else fr n'.
Lemma add_shows beg c d k fr t vals : shows d k fr -> fr (c_name c) = None -> List.length vals = k -> col_shows t vals c ->
  exists d', py_add beg c d = Ret (None, d') /\ shows d' k (put fr (c_name c) t vals).
Proof.
  intros S F L C. pose proof S as [ND H]. pose proof (H (c_name c)) as G. rewrite F in G.
  assert (col_size c = Ret k) as K by (destruct C as (_ & _ & Sz & _); congruence).
  eexists. split; [exact (add_fresh beg c d k (shows_size d k fr S) K G)|]. split.
  - cbn. constructor; [|exact ND]. apply assoc_none_notin. rewrite col_contents in G. exact G.
  - intros n. unfold put. rewrite col_contents. cbn [contents]. unfold ds_get. cbn [assoc]. destruct (str_eqb_spec n (c_name c)) as [->|N].
    + split; [exact L|]. exists c. auto.
    + specialize (H n). rewrite col_contents in H. exact H.
Qed.

(** from_dict *)
Lemma add_all_shows beg k : (Z.of_nat k < 60000)%Z -> forall cols d fr, shows d k fr -> well_typed k cols ->
  (forall n vals, fr n = None -> first_listed n cols = Some (TBucketized, vals) -> below_inf (floats_of vals)) ->
  exists d', py_add_all beg cols d = py_ret d' /\ shows d' k (fun n => match fr n with Some x => Some x | None => first_listed n cols end).
Proof.
  intros Hk. induction cols as [|[[n t] vals] cols IH]; intros d fr S W B.
  - exists d. split; [reflexivity|]. apply (shows_ext d k fr); [|exact S]. intros n. cbn. destruct (fr n); reflexivity.
  - destruct (W n t vals (or_introl eq_refl)) as (T & L & Bz).
    assert (well_typed k cols) as W' by (intros n' t' v' I; exact (W n' t' v' (or_intror I))).
    cbn [py_add_all]. destruct (fr n) as [x|] eqn:Fn.
    + destruct (create_made n t vals T) as (c & E & M & K); [unfold zlen; lia|exact Bz|]. rewrite L in K. assert (c_name c = n) as Nm by apply M.
      rewrite E. cbn [bind]. pose proof S as [_ H]. specialize (H n). rewrite Fn in H. destruct x as [t0 v0]. destruct H as (_ & c0 & G & _).
      rewrite <- Nm in G. rewrite (add_present beg c d k c0 (shows_size d k fr S) K G). cbn [bind].
      destruct (IH (Some (contents d)) fr) as (d' & E' & S').
      { destruct S as [ND H]. split; [exact ND|]. intros n'. specialize (H n'). rewrite col_contents in *. exact H. }
      { exact W'. }
      { intros n' v' F' I'. apply (B n' v' F'). unfold first_listed in *. cbn [find fst].
        destruct (str_eqb_spec n' n) as [X|X]; [rewrite X in F'; congruence|exact I']. }
      exists d'. split; [exact E'|]. revert S'. apply shows_ext. intros n'.
      destruct (fr n') eqn:F'; [reflexivity|]. unfold first_listed. cbn [find fst]. destruct (str_eqb_spec n' n) as [X|X]; [rewrite X in F'; congruence|reflexivity].
    + destruct (create_shows n t vals T) as (c & E & Nm & C).
      { unfold zlen. lia. }
      { intros ->. split; [|exact (Bz eq_refl)]. apply (B n vals Fn). unfold first_listed. cbn [find fst]. rewrite str_eqb_refl. reflexivity. }
      rewrite E. cbn [bind]. rewrite <- Nm in Fn. destruct (add_shows beg c d k fr t vals S Fn L C) as (d1 & E1 & S1). rewrite E1. cbn [bind].
      rewrite Nm in Fn, S1.
      destruct (IH d1 (put fr n t vals) S1 W') as (d' & E' & S').
      { intros n' v' F' I'. unfold put in F'. destruct (str_eqb n' n) eqn:Y; [discriminate|].
        apply (B n' v' F'). unfold first_listed in *. cbn [find fst]. rewrite Y. exact I'. }
      exists d'. split; [exact E'|]. revert S'. apply shows_ext. intros n'.
      unfold put. destruct (str_eqb n' n) eqn:Y.
      * assert (n' = n) as -> by (destruct (str_eqb_spec n' n); [assumption|discriminate]). rewrite Fn. unfold first_listed. cbn [find fst]. rewrite str_eqb_refl. reflexivity.
      * destruct (fr n'); [reflexivity|]. unfold first_listed. cbn [find fst]. rewrite Y. reflexivity.
Qed.
Lemma dict_shows beg k cols : well_typed k cols -> lossless k (frame_of cols) ->
  exists d, py_add_all beg cols None = py_ret d /\ shows d k (frame_of cols).
Proof.
  intros W [Hk H]. destruct (add_all_shows beg k Hk cols None (fun _ => None)) as (d & E & S).
  - split; [constructor|]. intros n. reflexivity.
  - exact W.
  - intros n vals _ F. exact (proj1 (proj2 (proj2 (H n _ vals F)) eq_refl)).
  - exists d. split; [exact E|exact S].
Qed.

(** ** Setting a column to a value *)
Lemma repeat_typed t v k : settable t v -> typed_for t (repeat v k).
Proof. intros S. apply typed_all. intros w I. apply repeat_spec in I. subst w. destruct t, v; cbn in *; tauto. Qed.
Lemma floats_repeat x k : floats_of (repeat (VFloat x) k) = repeat x k.
Proof. induction k; cbn; [reflexivity|]. unfold floats_of in *. congruence. Qed.
Lemma repeat_below x k : is_nan x = true \/ fleb x flt_max = true -> below_inf (repeat x k).
Proof. intros H v I. apply repeat_spec in I. subst v. intros N. destruct H; congruence. Qed.
Lemma repeat_bucketizable x k : bucketizable (repeat x k).
Proof.
  intros hv (H & P & _). assert (List.length hv <= 1) as L; [|unfold zlen; lia].
  destruct P as [|a hv F P]; [cbn; lia|]. destruct F as [|b hv E F]; [cbn; lia|]. exfalso.
  destruct (H a) as (Ia & Na & _); [left; reflexivity|]. destruct (H b) as (Ib & _); [right; left; reflexivity|].
  apply repeat_spec in Ia, Ib. subst a b. rewrite feqb_refl in E by exact Na. discriminate.
Qed.
Lemma replace_shows beg d k fr n t vals v : (Z.of_nat k < 60000)%Z -> shows d k fr -> fr n = Some (t, vals) -> settable t v ->
  exists d', replace_feature beg n t v d = py_ret d' /\ shows d' k (with_value fr n v k).
Proof.
  intros Hk S F Sv. unfold replace_feature. rewrite (shows_rows beg d k fr n _ S F). cbn [bind].
  destruct (create_shows n t (repeat v k) (repeat_typed t v k Sv)) as (c & E & Nm & C).
  { unfold zlen. rewrite repeat_length. exact Hk. }
  { intros ->. destruct v as [s|x]; [destruct Sv|]. rewrite floats_repeat. split; [apply repeat_below; exact Sv|apply repeat_bucketizable]. }
  rewrite E. cbn [bind].
  assert (shows (py_erase n d) k (fun n' => if str_eqb n' n then None else fr n')) as Se.
  { destruct S as [ND H]. assert (contents (py_erase n d) = ds_remove n (contents d)) as Ce by (destruct d; reflexivity). split.
    - rewrite Ce. unfold ds_remove. clear - ND. induction (contents d) as [|[a b] m IH]; cbn in *; [constructor|].
      inversion ND as [|? ? NI ND']; subst. destruct (negb (str_eqb n a)); [|exact (IH ND')]. cbn. constructor; [|exact (IH ND')].
      intros I. apply NI. apply in_map_iff in I. destruct I as (p & Ep & I). apply filter_In in I. rewrite <- Ep. apply in_map. apply I.
    - intros n'. specialize (H n'). rewrite col_contents in H |- *. rewrite Ce.
      assert (ds_get n' (ds_remove n (contents d)) = if str_eqb n' n then None else ds_get n' (contents d)) as G.
      { clear. unfold ds_get, ds_remove. induction (contents d) as [|[a b] m IH]; cbn; [destruct (str_eqb n' n); reflexivity|].
        destruct (str_eqb_spec n a) as [->|N]; cbn.
        - rewrite IH. destruct (str_eqb n' a); reflexivity.
        - rewrite IH. destruct (str_eqb_spec n' a) as [->|N']; [|reflexivity]. destruct (str_eqb_spec a n); [congruence|reflexivity]. }
      rewrite G. destruct (str_eqb n' n); [reflexivity|]. exact H. }
  destruct (add_shows beg c (py_erase n d) k _ t (repeat v k) Se) as (d' & Ea & Sa).
  { rewrite Nm, str_eqb_refl. reflexivity. }
  { apply repeat_length. }
  { exact C. }
  rewrite Ea. cbn [bind]. exists d'. split; [reflexivity|]. rewrite Nm in Sa. revert Sa. apply shows_ext. intros n'.
  unfold put, with_value. rewrite F. unfold str_eqb. destruct (str_eq_dec n' n); reflexivity.
Qed.

Lemma short_bucketizable l : (zlen l < 29999)%Z -> bucketizable l.
Proof.
  intros L hv (H & P & _). assert (List.length hv <= List.length l); [|unfold zlen in *; lia]. apply NoDup_incl_length.
  - assert (forall v, In v hv -> is_nan v = false) as Nn by (intros v I; apply (H v I)). clear - P Nn.
    induction P as [|a hv F P IH]; [constructor|]. constructor; [|apply IH; intros v I; apply Nn; right; exact I].
    intros I. rewrite Forall_forall in F. specialize (F a I). rewrite feqb_refl in F by (apply Nn; left; reflexivity). discriminate.
  - intros v I. apply (H v I).
Qed.

(** ** Copies *)
Lemma col_values t vals c : col_shows t vals c -> (zlen vals <= 2147483648)%Z ->
  exists shown, py_values c (map Z.of_nat (seq 0 (List.length vals))) = py_ret shown /\ same_values t vals shown.
Proof.
  intros (St & HR & Sz & Ty & V) L.
  assert (forall i v, nth_error vals i = Some v -> exists w, py_get c (Z.of_nat i) = py_ret w /\ match t with TBucketized => alike v w | _ => v = w end) as G.
  { intros i v E. assert (i < List.length vals) as I by (apply nth_error_Some; congruence).
    unfold py_get. rewrite Sz. cbn [bind]. assert (u32 (Z.of_nat i) = Z.of_nat i) as U by (unfold u32; rewrite Z.mod_small; unfold zlen in *; lia).
    rewrite U, Nat2Z.id. destruct (Z.leb_spec (Z.of_nat (List.length vals)) (Z.of_nat i)); [lia|]. cbn iota.
    unfold col_type in Ty. unfold col_row. destruct (c_body c) as [b|r|s]; subst t.
    - destruct (V i v E) as (x & -> & M & lo & hi & Lo & Hi & N1 & N2). rewrite Lo. cbn. exists (VFloat lo). split; [reflexivity|]. cbn.
      destruct (is_nan x) eqn:Nx; [right; auto|]. left. destruct (N2 eq_refl) as [F _]. rewrite feqb_sym. exact F.
    - destruct (V i v E) as (x & -> & R). rewrite R. cbn. exists (VFloat x). split; reflexivity.
    - destruct (V i v E) as (x & -> & R). rewrite R. cbn. exists (VString x). split; reflexivity. }
  assert (forall l s, s ++ l = vals -> exists shown, py_values c (map Z.of_nat (seq (List.length s) (List.length l))) = py_ret shown /\ same_values t l shown) as X.
  { induction l as [|v l IH]; intros s E.
    - exists []. split; [reflexivity|]. destruct t; [constructor|reflexivity..].
    - destruct (G (List.length s) v) as (w & Gw & Aw).
      { rewrite <- E, nth_error_app2, Nat.sub_diag by lia. reflexivity. }
      destruct (IH (s ++ [v])) as (shown & Es & Ss); [rewrite <- app_assoc; exact E|].
      rewrite app_length in Es. cbn [List.length] in Es. rewrite Nat.add_1_r in Es.
      exists (w :: shown). split.
      + cbn [List.length seq map py_values]. rewrite Gw. cbn [py_bind py_ret bind]. rewrite Es. reflexivity.
      + destruct t; cbn [same_values] in *; [constructor; assumption|congruence..]. }
  exact (X vals [] eq_refl).
Qed.

Lemma alike_floats vals vals' : Forall2 alike vals vals' ->
  Forall2 (fun x y => feqb x y = true \/ (is_nan x = true /\ is_nan y = true)) (floats_of vals) (floats_of vals').
Proof.
  induction 1 as [|v w l l' A F IH]; [constructor|]. destruct v, w; cbn in *; try tauto. constructor; assumption.
Qed.
Lemma alike_below l l' : Forall2 (fun x y => feqb x y = true \/ (is_nan x = true /\ is_nan y = true)) l l' -> below_inf l -> below_inf l'.
Proof.
  induction 1 as [|x y l l' A F IH]; intros B v; [intros []|]. intros [<-|I] N.
  - destruct A as [A|[_ A]]; [|congruence]. assert (is_nan x = false) as Nx by (destruct (is_nan x) eqn:Z; [exfalso; ford|reflexivity]).
    pose proof (B x (or_introl eq_refl) Nx) as Fx. ford.
  - apply IH; [|exact I|exact N]. intros w J. apply B. right. exact J.
Qed.
Lemma alike_occurrences v w l l' : Forall2 (fun x y => feqb x y = true \/ (is_nan x = true /\ is_nan y = true)) l l' -> feqb v w = true ->
  occurrences v l = occurrences w l'.
Proof.
  intros F E. unfold occurrences, zlen. f_equal. induction F as [|x y l l' A F IH]; [reflexivity|]. cbn.
  assert (feqb v x = feqb w y) as ->.
  { destruct A as [A|[A1 A2]].
    - destruct (feqb v x) eqn:X, (feqb w y) eqn:Y; try reflexivity; exfalso; ford.
    - destruct (feqb v x) eqn:X, (feqb w y) eqn:Y; try reflexivity; exfalso; ford. }
  destruct (feqb w y); cbn; congruence.
Qed.
Lemma alike_in l l' y : Forall2 (fun x y => feqb x y = true \/ (is_nan x = true /\ is_nan y = true)) l l' -> In y l' -> is_nan y = false ->
  exists x, In x l /\ feqb x y = true /\ is_nan x = false.
Proof.
  induction 1 as [|x0 y0 l l' A F IH]; [intros []|]. intros [<-|I] N.
  - destruct A as [A|[_ A]]; [|congruence]. exists x0. split; [left; reflexivity|]. split; [exact A|]. destruct (is_nan x0) eqn:Z; [exfalso; ford|reflexivity].
  - destruct (IH I N) as (x & J & E). exists x. split; [right; exact J|exact E].
Qed.
Lemma alike_sym l l' : Forall2 (fun x y => feqb x y = true \/ (is_nan x = true /\ is_nan y = true)) l l' ->
  Forall2 (fun x y => feqb x y = true \/ (is_nan x = true /\ is_nan y = true)) l' l.
Proof. induction 1; constructor; [|assumption]. rewrite feqb_sym. tauto. Qed.
Lemma alike_bucketizable l l' : Forall2 (fun x y => feqb x y = true \/ (is_nan x = true /\ is_nan y = true)) l l' -> bucketizable l -> bucketizable l'.
Proof.
  intros F B hv (H & P & C).
  assert (zlen l = zlen l') as L by (unfold zlen; f_equal; clear - F; induction F; cbn; congruence).
  assert (exists hv', Forall2 (fun v w => feqb v w = true /\ In v l /\ is_nan v = false) hv' hv) as [hv' Q].
  { clear - F H. induction hv as [|w hv IH]; [exists []; constructor|]. destruct IH as [hv' Q]; [intros v I; apply H; right; exact I|].
    destruct (H w (or_introl eq_refl)) as (I & N & _). destruct (alike_in l l' w F I N) as (x & J & E & Nx). exists (x :: hv'). constructor; auto. }
  assert (zlen hv' = zlen hv) as Lh by (unfold zlen; f_equal; clear - Q; induction Q; cbn; congruence).
  rewrite <- Lh. apply B. split; [|split].
  - intros v I. assert (exists w, In w hv /\ feqb v w = true /\ In v l /\ is_nan v = false) as (w & Iw & E & J & N).
    { clear - Q I. induction Q as [|a b hv' hv X Q IH]; [destruct I|]. destruct I as [->|I]; [exists b; split; [left; reflexivity|tauto]|].
      destruct (IH I) as (w & Iw & R). exists w. split; [right; exact Iw|exact R]. }
    split; [exact J|]. split; [exact N|]. rewrite L, (alike_occurrences v w l l' F E). apply H. exact Iw.
  - clear - Q P. induction Q as [|a b hv' hv (E & _) Q IH]; [constructor|]. inversion P as [|? ? Fb P']; subst. constructor; [|exact (IH P')].
    clear - E Q Fb. induction Q as [|a' b' hv' hv (E' & _) Q IH]; constructor.
    + inversion Fb; subst. destruct (feqb a a') eqn:Z; [exfalso; ford|reflexivity].
    + apply IH. inversion Fb; assumption.
  - intros v I N O. rewrite L in O. destruct (alike_in l' l v (alike_sym l l' F) I N) as (y & J & E & Ny).
    assert (feqb v y = true) as E' by (rewrite feqb_sym; exact E).
    rewrite (alike_occurrences v y l l' F E') in O. destruct (C y J Ny O) as (w & Iw & Ew).
    assert (exists u, In u hv' /\ feqb u w = true) as (u & Iu & Eu).
    { clear - Q Iw. induction Q as [|a b hv' hv X Q IH]; [destruct Iw|]. destruct Iw as [->|I]; [exists a; split; [left; reflexivity|tauto]|].
      destruct (IH I) as (u & Iu & R). exists u. split; [right; exact Iu|exact R]. }
    exists u. split; [exact Iu|]. ford.
Qed.

Lemma add_nodup beg c d e d' : NoDup (map fst (contents d)) -> py_add beg c d = Ret (e, d') -> NoDup (map fst (contents d')).
Proof.
  intros ND E. unfold py_add in E. replace (match d with Some m => m | None => empty_store end) with (contents d) in E by (destruct d; reflexivity).
  apply bind_ret in E. destruct E as ([s m] & E & X). injection X as _ <-. unfold ds_add in E.
  destruct (assoc (c_name c) (contents d)) eqn:A; [injection E as _ <-; exact ND|].
  assert (NoDup (map fst ((c_name c, c) :: contents d))) as ND' by (cbn; constructor; [apply assoc_none_notin; exact A|exact ND]).
  apply bind_ret in E. destruct E as (r & _ & E). destruct (0 <? r); [|injection E as _ <-; exact ND'].
  apply bind_ret in E. destruct E as (k & _ & E). destruct (r =? k); injection E as _ <-; assumption.
Qed.
Lemma slice_nodup beg index : forall cols d d', NoDup (map fst (contents d)) -> slice_cols beg cols index d = py_ret d' -> NoDup (map fst (contents d')).
Proof.
  induction cols as [|c cols IH]; intros d d' ND E.
  - injection E as <-. exact ND.
  - cbn [slice_cols] in E. unfold py_bind in E. apply bind_ret in E. destruct E as ([x|vals] & _ & E); [discriminate|].
    apply bind_ret in E. destruct E as (c' & _ & E). apply bind_ret in E. destruct E as ([e d1] & Ea & E).
    destruct e; [discriminate|]. exact (IH d1 d' (add_nodup beg c' d None d1 ND Ea) E).
Qed.

Lemma copy_shows beg d k fr n x : shows d k fr -> lossless k fr -> fr n = Some x ->
  exists d', py_copy beg d = py_ret d' /\ shows d' k fr.
Proof.
  intros S [Hk Ls] Fn. unfold py_copy. rewrite (shows_rows beg d k fr n x S Fn). cbn [bind]. unfold py_slice.
  pose proof S as [ND H].
  destruct d as [m|].
  2:{ specialize (H n). rewrite Fn in H. destruct x as [ty vs]. destruct H as (_ & cc & C & _). discriminate. }
  assert (forall n c, ds_get n m = Some c -> c_name c = n /\ exists t vals, fr n = Some (t, vals) /\ List.length vals = k /\ col_shows t vals c) as K.
  { intros n' c G. specialize (H n'). cbn in H. rewrite G in H. destruct (fr n') as [[t vals]|]; [|discriminate].
    destruct H as (L & c' & E & Nm & C). injection E as <-. split; [exact Nm|]. exists t, vals. auto. }
  assert (forall n c, ds_get n m = Some c -> c_name c = n) as K1 by (intros n' c G; apply (K n' c G)).
  set (R := fun c c' : column => c_name c' = c_name c /\ exists t vals, fr (c_name c) = Some (t, vals) /\ col_shows t vals c').
  destruct (slice_cols_ok beg (map Z.of_nat (seq 0 k)) k R (py_cols (Some m)) None) as [[U (c & sel & I & V & C)]|(d' & E & A & B)].
  - apply cols_nodup; assumption.
  - reflexivity.
  - intros n' c [].
  - intros c I. apply (in_cols m c ND K1) in I. destruct (K _ c I) as (_ & t & vals & F & L & C).
    destruct (Ls _ t vals F) as (T & _ & B).
    destruct (col_values t vals c C) as (sel & V & Sm); [unfold zlen; lia|]. rewrite L in V. exists sel. split; [exact V|]. right.
    assert (col_type c = t) as -> by apply C.
    assert (List.length sel = k /\ typed_for t sel /\ (t = TBucketized -> below_inf (floats_of sel) /\ bucketizable (floats_of sel))) as (Ls' & T' & B').
    { destruct t; cbn [same_values] in Sm; [|subst sel; repeat split; auto; discriminate..]. destruct (B eq_refl) as [B1 B2].
      split; [clear - Sm L; revert k L; induction Sm; intros k L; cbn in *; [exact L|destruct k; [discriminate|]; f_equal; apply IHSm; lia]|].
      split.
      - apply typed_all. intros w J. pose proof (proj1 (typed_all TBucketized vals) T) as T2. clear - Sm J T2.
        induction Sm as [|a b l l' X Sm IH]; [destruct J|]. destruct J as [->|J].
        + specialize (T2 a (or_introl eq_refl)). destruct a, w; cbn in *; tauto.
        + apply IH; [exact J|]. intros v Iv. apply T2. right. exact Iv.
      - intros _. pose proof (alike_floats _ _ Sm) as Fa. split; [exact (alike_below _ _ Fa B1)|exact (alike_bucketizable _ _ Fa B2)]. }
    destruct (create_shows (c_name c) t sel T') as (c' & E' & Nm' & C'); [unfold zlen; lia|exact B'|].
    exists c'. split; [exact E'|]. split; [exact Nm'|]. split; [destruct C' as (_ & _ & Sz & _); rewrite Sz, Ls'; reflexivity|].
    split; [exact Nm'|]. exists t, vals. split; [exact F|]. exact (shows_alike t vals sel c' Sm C').
  - exfalso. apply (in_cols m c ND K1) in I. destruct (K _ c I) as (_ & t & vals & F & L & Cs).
    destruct (Ls _ t vals F) as (T & _ & B).
    destruct (col_values t vals c Cs) as (sel' & V' & Sm); [unfold zlen; lia|]. rewrite L, V in V'. injection V' as <-.
    assert (col_type c = t) as X by apply Cs. rewrite X in C.
    assert (List.length sel = k /\ typed_for t sel /\ (t = TBucketized -> below_inf (floats_of sel) /\ bucketizable (floats_of sel))) as (Ls' & T' & B').
    { destruct t; cbn [same_values] in Sm; [|subst sel; repeat split; auto; discriminate..]. destruct (B eq_refl) as [B1 B2].
      split; [clear - Sm L; revert k L; induction Sm; intros k L; cbn in *; [exact L|destruct k; [discriminate|]; f_equal; apply IHSm; lia]|].
      split.
      - apply typed_all. intros w J. pose proof (proj1 (typed_all TBucketized vals) T) as T2. clear - Sm J T2.
        induction Sm as [|a b l l' X Sm IH]; [destruct J|]. destruct J as [->|J].
        + specialize (T2 a (or_introl eq_refl)). destruct a, w; cbn in *; tauto.
        + apply IH; [exact J|]. intros v Iv. apply T2. right. exact Iv.
      - intros _. pose proof (alike_floats _ _ Sm) as Fa. split; [exact (alike_below _ _ Fa B1)|exact (alike_bucketizable _ _ Fa B2)]. }
    destruct (create_shows (c_name c) t sel T') as (c' & E' & _); [unfold zlen; lia|exact B'|]. congruence.
  - exists d'. split; [exact E|]. split; [exact (slice_nodup beg _ _ None d' (NoDup_nil _) E)|].
    intros n'. specialize (H n'). cbn in H. destruct (fr n') as [[t vals]|] eqn:F.
    + destruct H as (L & c & G & Nm & C). split; [exact L|].
      destruct (A c) as (c' & G' & Nm' & t' & vals' & F' & C').
      { apply (in_cols m c ND K1). rewrite Nm. exact G. }
      rewrite Nm in *. rewrite F in F'. injection F' as <- <-. exists c'. auto.
    + rewrite B; [reflexivity|]. intros I. apply in_map_iff in I. destruct I as (c & Nc & I). apply (in_cols m c ND K1) in I. rewrite Nc, H in I. discriminate.
Qed.

(** ** Predictions *)
Section Predict.
Context {N : Num}.

Lemma decides_goes t vals c (sp : split N) row v left : col_shows t vals c -> nth_error vals row = Some v -> decides t v sp left ->
  goes_left c sp row left.
Proof.
  intros (St & HR & Sz & Ty & V) E D. unfold col_type in Ty. destruct c as [nm body]. cbn [c_body] in *.
  destruct D as [x sp t0 right Nx F|x sp t0 right Nx F|s sp names left F I|x sp]; destruct body as [b|r|s0]; try discriminate.
  - destruct (V row _ E) as (x' & X & M & _). injection X as <-. eapply GoMissing; [exact F|]. rewrite M, Nx. reflexivity.
  - destruct (V row _ E) as (x' & X & M & lo & hi & Lo & Hi & _ & N2). injection X as <-. destruct (N2 Nx) as [_ F2].
    replace (fltb x t0) with (fltb hi t0) by (destruct (fltb hi t0) eqn:A, (fltb x t0) eqn:B; try reflexivity; exfalso; ford).
    eapply GoNumber; [exact F| |exact Hi]. rewrite M, Nx. reflexivity.
  - destruct (V row _ E) as (x' & X & R). injection X as <-. eapply GoName; eassumption.
  - constructor.
Qed.

Lemma decides_total t v (sp : split N) : typed_for t [v] -> match t with
    | TBucketized => sp_float sp <> None | TString => exists names, sp_cat sp = Some (names, []) | TRaw => True end ->
  exists left, decides t v sp left.
Proof.
  intros T K. pose proof (proj1 (typed_all t [v]) T v (or_introl eq_refl)) as X. destruct t, v; try tauto.
  - destruct (sp_float sp) as [[t r]|] eqn:F; [|congruence]. destruct (is_nan v) eqn:Nv; eexists; [eapply DecMissing|eapply DecNumber]; eassumption.
  - eexists. constructor.
  - destruct K as [names F]. exists (if in_dec str_eq_dec s names then true else false). eapply DecName; [exact F|].
    destruct (in_dec str_eq_dec s names); intuition congruence.
Qed.
Lemma decides_fun t v (sp : split N) a b : decides t v sp a -> decides t v sp b -> a = b.
Proof.
  intros A B. destruct A as [x sp t0 right Nx F|x sp t0 right Nx F|s sp names left F I|x sp]; inversion B; subst; try congruence.
  assert (names0 = names) by congruence. subst. destruct left, b; intuition congruence.
Qed.

Variables (beg : begin_choice) (order : list str -> list str) (threads : nat).
Hypothesis Order : forall l x, In x (order l) <-> In x l.
Hypothesis Threads : 1 <= threads.

(** A store gives the columns of a table. *)
Definition gives (get : str -> option column) (k : nat) (fr : frame) : Prop :=
  forall n t vals, fr n = Some (t, vals) -> List.length vals = k /\ exists c, get n = Some c /\ col_shows t vals c.
Lemma shows_gives d k fr : shows d k fr -> gives (fun n => py_col n d) k fr.
Proof.
  intros [_ H] n t vals F. specialize (H n). rewrite F in H. destruct H as (L & c & G & _ & C). split; [exact L|]. exists c. auto.
Qed.
Lemma gives_fits get k fr (t : tree N) : gives get k fr -> scorable fr t -> tree_fits get k t.
Proof.
  intros S. induction t as [|s sp l IHl r IHr]; [intros; exact I|]. intros (Hs & Hp & Hl & Hr). cbn. destruct l as [|s' sp' l1 l2]; [exact I|].
  split; [|split; [exact (IHl Hl)|exact (IHr Hr)]].
  destruct sp as [sp|]; [|destruct (Hp eq_refl eq_refl)]. cbn [the_split]. destruct (Hs sp eq_refl) as (ty & vals & F & K). specialize (K eq_refl).
  destruct (S _ _ _ F) as (L & c & G & St & HR & Sz & Ty & V).
  exists c. split; [exact G|]. split; [rewrite <- L; exact HR|]. unfold fits_kind. unfold col_type in Ty. destruct (c_body c); subst ty.
  - exact K.
  - exact I.
  - destruct K as [names ->]. discriminate.
Qed.
Lemma shows_fits d k fr (t : tree N) : shows d k fr -> scorable fr t ->
  tree_fits (fun n => py_col n d) k t.
Proof. intros S. apply gives_fits. apply shows_gives. exact S. Qed.

Definition typed_frame (k : nat) (fr : frame) : Prop := forall n t vals, fr n = Some (t, vals) -> typed_for t vals /\ List.length vals = k.
Lemma leaf_total k fr (t : tree N) row : typed_frame k fr -> scorable fr t -> row < k -> exists s, leaf_of fr row t s.
Proof.
  intros T. revert t. fix IH 1. intros [|s sp l r] Sc R; [exists (t_score TNone); constructor; reflexivity|].
  destruct (present l) eqn:P; [|exists (t_score (TNode s sp l r)); constructor; destruct l; [reflexivity|discriminate]].
  destruct Sc as (Hs & Hp & Hl & Hr). destruct sp as [sp|]; [|destruct (Hp P eq_refl)].
  destruct (Hs sp eq_refl) as (ty & vals & F & K). specialize (K P). destruct (T _ _ _ F) as [Ty L].
  destruct (nth_error vals row) as [v|] eqn:E; [|apply nth_error_None in E; lia].
  destruct (decides_total ty v sp) as [left D]; [|exact K|].
  { apply typed_all. intros w [<-|[]]. apply (proj1 (typed_all ty vals) Ty). eapply nth_error_In. exact E. }
  destruct (IH (if left then l else r)) as [x X]; [destruct left; assumption|exact R|].
  exists x. eapply LeafBelow; eassumption.
Qed.
Lemma leaf_fun fr (t : tree N) row a b : leaf_of fr row t a -> leaf_of fr row t b -> a = b.
Proof.
  intros A. revert b. induction A as [t H|s sp l r ty vals v left x P F E D A IH]; intros b B.
  - inversion B as [|s sp l r ty vals v left x P F E D B' X]; subst; [reflexivity|]. destruct l; discriminate.
  - inversion B as [t H X|s' sp' l' r' ty' vals' v' left' x' P' F' E' D' B' X]; subst; [destruct l; discriminate|].
    rewrite F in F'. injection F' as <- <-. rewrite E in E'. injection E' as <-. rewrite <- (decides_fun _ _ _ _ _ D D') in B'. exact (IH b B').
Qed.
Lemma gives_routes get k fr (t : tree N) row s : gives get k fr -> leaf_of fr row t s -> routes get t row s.
Proof.
  intros S A. induction A as [t H|s sp l r ty vals v left x P F E D A IH]; [constructor; exact H|].
  destruct (S _ _ _ F) as (L & c & G & C).
  eapply (RouteNode _ (TNode s (Some sp) l r)); [destruct l; [discriminate|reflexivity]|exact G|eapply decides_goes; eassumption|exact IH].
Qed.
Lemma leaf_routes d k fr (t : tree N) row s : shows d k fr -> leaf_of fr row t s -> routes (fun n => py_col n d) t row s.
Proof. intros S. apply (gives_routes _ k). apply shows_gives. exact S. Qed.
Lemma score_total k fr (f : forest N) row : typed_frame k fr -> Forall (scorable fr) f -> row < k -> exists s, score_of fr f row s.
Proof.
  intros T Sc R. assert (exists ls, Forall2 (leaf_of fr row) f ls) as [ls H].
  { induction Sc as [|t f St Sc [ls IH]]; [exists []; constructor|]. destruct (leaf_total k fr t row T St R) as [s X]. exists (s :: ls). constructor; assumption. }
  eexists. exists ls. split; [exact H|reflexivity].
Qed.
Lemma score_fun fr (f : forest N) row a b : score_of fr f row a -> score_of fr f row b -> a = b.
Proof.
  intros (la & A & ->) (lb & B & ->). f_equal. revert lb B. induction A as [|t s f la X A IH]; intros lb B; inversion B as [|? s' ? lb' X' B']; subst; [reflexivity|].
  f_equal; [exact (leaf_fun _ _ _ _ _ X X')|exact (IH _ B')].
Qed.
Lemma scorable_named fr (t : tree N) n : scorable fr t -> named n t -> exists x, fr n = Some x.
Proof.
  intros Sc M. induction M as [s sp l r E|s sp l r M IH|s sp l r M IH]; destruct Sc as (Hs & _ & Hl & Hr); [|exact (IH Hl)|exact (IH Hr)].
  subst n. destruct (Hs sp eq_refl) as (ty & vals & F & _). eexists. exact F.
Qed.

Lemma predict_shows d k fr (f : forest N) n x : shows d k fr -> typed_frame k fr -> Forall (scorable fr) f -> fr n = Some x ->
  exists scores, forest_predict beg order threads f d = py_ret scores /\ List.length scores = k /\
    forall row s, row < k -> score_of fr f row s -> nth_error scores row = Some s.
Proof.
  intros S T Sc Fn. pose proof S as [ND H]. destruct d as [m|].
  2:{ specialize (H n). rewrite Fn in H. destruct x as [ty vs]. destruct H as (_ & cc & C & _). discriminate. }
  unfold forest_predict, py_predict. pose proof (shows_rows beg _ _ _ _ _ S Fn) as R. cbn in R. rewrite R. cbn [bind].
  assert (forest_fits (store_view order m k) f) as Ff.
  { apply Forall_forall. intros t I. apply (shows_fits (Some m) k fr t S). rewrite Forall_forall in Sc. exact (Sc t I). }
  destruct (evaluate_ok (store_view order m k) threads f) as (scores & E & L & P).
  - exact Threads.
  - exact Order.
  - intros t n' I M. rewrite Forall_forall in Sc. destruct (scorable_named fr t n' (Sc t I) M) as [[ty vs] F].
    pose proof (H n') as G. rewrite F in G. destruct G as (_ & c & G & _ & C). exists c. split; [exact G|apply C].
  - exact Ff.
  - rewrite E. cbn [bind py_throw]. exists scores. split; [reflexivity|]. split; [exact L|]. intros row s Rw (ls & Hl & ->).
    apply P; [exact Rw|]. clear - Hl S. unfold leaves. induction Hl as [|t s f ls X Hl IH]; constructor; [exact (leaf_routes _ _ _ _ _ _ S X)|exact IH].
Qed.

(** ** Partial dependency *)
Lemma forall2_impl {A B} (P Q : A -> B -> Prop) : (forall a b, P a b -> Q a b) -> forall l l', Forall2 P l l' -> Forall2 Q l l'.
Proof. intros H l l' F. induction F; constructor; auto. Qed.
Lemma scorable_ext fr fr' : (forall n t vals, fr n = Some (t, vals) -> exists vals', fr' n = Some (t, vals')) ->
  forall t : tree N, scorable fr t -> scorable fr' t.
Proof.
  intros E. induction t as [|s sp l IHl r IHr]; [intros; exact I|]. intros (Hs & Hp & Hl & Hr). split; [|split; [exact Hp|split; auto]].
  intros sp0 X. destruct (Hs sp0 X) as (ty & vals & F & K). destruct (E _ _ _ F) as [vals' F']. exists ty, vals'. auto.
Qed.
Lemma with_types fr n v k : forall n' t vals, fr n' = Some (t, vals) -> exists vals', with_value fr n v k n' = Some (t, vals').
Proof. intros n' t vals F. unfold with_value. destruct (str_eq_dec n' n) as [->|X]; [rewrite F|]; eauto. Qed.
Lemma with_twice fr n v w k n' : with_value (with_value fr n v k) n w k n' = with_value fr n w k n'.
Proof.
  unfold with_value. destruct (str_eq_dec n' n) as [->|X]; [|reflexivity]. destruct (str_eq_dec n n); [|congruence].
  destruct (fr n) as [[t vals]|]; reflexivity.
Qed.
Lemma with_typed fr n t vals v k : typed_frame k fr -> fr n = Some (t, vals) -> settable t v -> typed_frame k (with_value fr n v k).
Proof.
  intros T F Sv n' t' vals' F'. unfold with_value in F'. destruct (str_eq_dec n' n) as [->|X]; [|exact (T _ _ _ F')].
  rewrite F in F'. injection F' as <- <-. split; [apply repeat_typed; exact Sv|apply repeat_length].
Qed.
Lemma differences_nth : forall (a b : list N) i, nth_error (differences a b) i =
  match nth_error a i, nth_error b i with Some x, Some y => Some (nsub x y) | _, _ => None end.
Proof.
  induction a as [|x a IH]; intros [|y b] [|i]; cbn; try reflexivity.
  - destruct (nth_error a i); reflexivity.
  - apply IH.
Qed.
Lemma differences_length : forall a b : list N, List.length a = List.length b -> List.length (differences a b) = List.length a.
Proof. induction a as [|x a IH]; intros [|y b] E; cbn in *; try congruence. f_equal. apply IH. congruence. Qed.

Lemma leaf_ext fr fr' row : (forall n, fr n = fr' n) -> forall (t : tree N) s, leaf_of fr row t s -> leaf_of fr' row t s.
Proof.
  intros E t s A. induction A as [t H|s sp l r ty vals v left x P F G D A IH]; [constructor; exact H|].
  rewrite E in F. eapply LeafBelow; eassumption.
Qed.
Lemma curve_shows k n t (f : forest N) base frame0 : (Z.of_nat k < 60000)%Z -> forall xs d fr vals, shows d k fr -> typed_frame k fr ->
  fr n = Some (t, vals) -> Forall (scorable fr) f -> Forall (settable t) xs -> (forall w n', with_value fr n w k n' = with_value frame0 n w k n') ->
  List.length base = k ->
  exists ls, curve beg order threads f n t base xs d = py_ret ls /\
    Forall2 (fun v p => fst p = v /\ List.length (snd p) = k /\
      forall row s b, row < k -> score_of (with_value frame0 n v k) f row s -> nth_error base row = Some b -> nth_error (snd p) row = Some (nsub s b)) xs ls.
Proof.
  intros Hk. induction xs as [|v xs IH]; intros d fr vals S T F Sc Sx W Lb.
  - exists []. split; [reflexivity|constructor].
  - inversion Sx as [|? ? Sv Sx']; subst. cbn [curve].
    destruct (replace_shows beg d (List.length base) fr n t vals v Hk S F Sv) as (d1 & E1 & S1). rewrite E1. cbn [py_bind py_ret bind].
    set (k := List.length base) in *.
    assert (Forall (scorable (with_value fr n v k)) f) as Sc1.
    { eapply Forall_impl; [|exact Sc]. apply scorable_ext. apply with_types. }
    assert (with_value fr n v k n = Some (t, repeat v k)) as F1.
    { unfold with_value. destruct (str_eq_dec n n); [rewrite F; reflexivity|congruence]. }
    pose proof (with_typed fr n t vals v k T F Sv) as T1.
    destruct (predict_shows d1 k _ f n _ S1 T1 Sc1 F1) as (scores & E2 & L2 & P2). rewrite E2. cbn [py_bind py_ret bind].
    destruct (IH d1 (with_value fr n v k) _ S1 T1 F1 Sc1 Sx') as (ls & E3 & H3).
    { intros w n'. rewrite with_twice. apply W. }
    { reflexivity. }
    fold k in E3, H3. rewrite E3. cbn [py_bind py_ret bind]. eexists. split; [reflexivity|]. constructor; [|exact H3]. cbn [fst snd].
    split; [reflexivity|]. split; [rewrite differences_length; [exact L2|rewrite L2; reflexivity]|].
    intros row s b Rw Ss Eb. rewrite differences_nth, Eb, (P2 row s Rw); [reflexivity|].
    destruct Ss as (l & Hl & ->). exists l. split; [|reflexivity].
    eapply forall2_impl; [|exact Hl]. intros t0 s0. apply leaf_ext. intros n'. symmetry. apply W.
Qed.
Lemma lossless_typed k fr : lossless k fr -> typed_frame k fr.
Proof. intros [_ H] n t vals F. destruct (H n t vals F) as (T & L & _). auto. Qed.

Lemma partial_shows k fr d n t vals sorted (f : forest N) xs x0 v0 : shows d k fr -> lossless k fr -> fr n = Some (t, vals) ->
  Forall (scorable fr) f -> t <> TRaw -> Forall (settable t) xs -> start_value t x0 xs = Some v0 -> settable t v0 -> Permutation (sorted xs) xs ->
  exists ls, partial_dependency beg order threads sorted f n xs x0 d = py_ret ls /\
    Forall2 (effect fr n k f v0) (match t with TBucketized => sorted xs | _ => xs end) ls.
Proof.
  intros S Ls F Sc NR Sx Sv0 Set0 Pm. unfold partial_dependency.
  destruct (copy_shows beg d k fr n _ S Ls F) as (d1 & E1 & S1). rewrite E1. cbn [py_bind py_ret bind].
  pose proof S1 as [_ H]. specialize (H n). rewrite F in H. destruct H as (L & c & G & Nm & C). rewrite G.
  assert (col_type c = t) as Ty by apply C. pose proof (lossless_typed k fr Ls) as T.
  assert (forall ys, Forall (settable t) ys -> exists ls,
    py_bind (replace_feature beg n t v0 d1) (fun d => py_bind (forest_predict beg order threads f d) (fun base => curve beg order threads f n t base ys d)) = py_ret ls /\
    Forall2 (effect fr n k f v0) ys ls) as D.
  { intros ys Sy. destruct (replace_shows beg d1 k fr n t vals v0 (proj1 Ls) S1 F Set0) as (d2 & E2 & S2). rewrite E2. cbn [py_bind py_ret bind].
    assert (Forall (scorable (with_value fr n v0 k)) f) as Sc2.
    { eapply Forall_impl; [|exact Sc]. apply scorable_ext. apply with_types. }
    assert (with_value fr n v0 k n = Some (t, repeat v0 k)) as F2.
    { unfold with_value. destruct (str_eq_dec n n); [rewrite F; reflexivity|congruence]. }
    pose proof (with_typed fr n t vals v0 k T F Set0) as T2.
    destruct (predict_shows d2 k _ f n _ S2 T2 Sc2 F2) as (base & E3 & L3 & P3). rewrite E3. cbn [py_bind py_ret bind].
    destruct (curve_shows k n t f base fr (proj1 Ls) ys d2 _ _ S2 T2 F2 Sc2 Sy) as (ls & E4 & H4).
    { intros w n'. apply with_twice. }
    { exact L3. }
    exists ls. split; [exact E4|]. eapply forall2_impl; [|exact H4]. intros v p (A & B & D). split; [exact A|]. split; [exact B|].
    intros row s b Rw Ss Sb. exact (D row s b Rw Ss (P3 row b Rw Sb)). }
  rewrite Ty. destruct t.
  - unfold start_value in Sv0. destruct x0 as [w|]; injection Sv0 as ->; (apply D; eapply Permutation_Forall; [apply Permutation_sym; exact Pm|exact Sx]).
  - congruence.
  - unfold start_value in Sv0. destruct x0 as [w|]; [injection Sv0 as ->; apply D; exact Sx|]. destruct xs as [|w xs]; [discriminate|]. injection Sv0 as ->. apply D. exact Sx.
Qed.

(** ** The theorems *)
Lemma leaf_same fr fr' i j : (forall n ty vals, fr n = Some (ty, vals) -> exists vals', fr' n = Some (ty, vals') /\ nth_error vals' j = nth_error vals i) ->
  forall (t : tree N) s, leaf_of fr i t s -> leaf_of fr' j t s.
Proof.
  intros E t s A. induction A as [t H|s sp l r ty vals v left x P F G D A IH]; [constructor; exact H|].
  destruct (E _ _ _ F) as (vals' & F' & G'). rewrite G in G'. eapply LeafBelow; eassumption.
Qed.
Lemma score_same fr fr' i j (f : forest N) s :
  (forall n ty vals, fr n = Some (ty, vals) -> exists vals', fr' n = Some (ty, vals') /\ nth_error vals' j = nth_error vals i) ->
  score_of fr f i s -> score_of fr' f j s.
Proof.
  intros E (ls & H & ->). exists ls. split; [|reflexivity]. eapply forall2_impl; [|exact H]. intros t s. apply leaf_same. exact E.
Qed.
Lemma predict_values k cols d (f : forest N) : well_typed k cols -> lossless k (frame_of cols) -> cols <> [] -> Forall (scorable (frame_of cols)) f ->
  py_add_all beg cols None = py_ret d ->
  exists scores, forest_predict beg order threads f d = py_ret scores /\ List.length scores = k /\
    forall row s, row < k -> nth_error scores row = Some s <-> score_of (frame_of cols) f row s.
Proof.
  intros W Ls NE Sc E. destruct (dict_shows beg k cols W Ls) as (d' & E' & S). assert (d' = d) as -> by (unfold py_ret in *; congruence).
  destruct cols as [|[[n t] vals] cols]; [congruence|]. set (fr := frame_of ((n, t, vals) :: cols)) in *.
  assert (fr n = Some (t, vals)) as F by (unfold fr, frame_of, first_listed; cbn [find fst]; rewrite str_eqb_refl; reflexivity).
  pose proof (lossless_typed k fr Ls) as T.
  destruct (predict_shows d k fr f n _ S T Sc F) as (scores & E2 & L & P). exists scores. split; [exact E2|]. split; [exact L|].
  intros row s R. split; [|apply P; exact R]. intros G. destruct (score_total k fr f row T Sc R) as [s' X]. rewrite (P row s' R X) in G.
  injection G as <-. exact X.
Qed.
Lemma predict_unknown k cols d (f : forest N) n t : well_typed k cols -> lossless k (frame_of cols) -> cols <> [] ->
  py_add_all beg cols None = py_ret d -> In t f -> named n t -> frame_of cols n = None -> forest_predict beg order threads f d = py_raise IosFailure.
Proof.
  intros W Ls NE E I M Fn. destruct (dict_shows beg k cols W Ls) as (d' & E' & S). assert (d' = d) as -> by (unfold py_ret in *; congruence).
  destruct cols as [|[[m ty] vals] cols]; [congruence|]. set (fr := frame_of ((m, ty, vals) :: cols)) in *.
  assert (fr m = Some (ty, vals)) as F by (unfold fr, frame_of, first_listed; cbn [find fst]; rewrite str_eqb_refl; reflexivity).
  pose proof S as [ND H]. destruct d as [st|].
  2:{ specialize (H m). rewrite F in H. destruct H as (_ & cc & C & _). discriminate. }
  unfold forest_predict, py_predict. pose proof (shows_rows beg _ _ _ _ _ S F) as R. cbn in R. rewrite R. cbn [bind].
  destruct (evaluate_err (store_view order st k) threads (fun _ => true) f []) as (e & t' & n' & I' & M' & Ce & Ev & _).
  - exact Order.
  - intros L. destruct (L t n I M) as (c & G & _). specialize (H n). rewrite Fn in H. cbn in G, H. congruence.
  - rewrite Ev. cbn [bind]. assert (e = NOT_FOUND) as ->; [|reflexivity].
    destruct Ce as [[_ X]|(c & G & St)]; [exact X|]. exfalso. specialize (H n'). destruct (fr n') as [[ty' vs]|]; cbn in G, H; [|congruence].
    destruct H as (_ & c' & G' & _ & C). assert (c' = c) as -> by congruence. destruct C as [C _]. congruence.
Qed.
Lemma partial_values k cols d n t vals sorted (f : forest N) xs x0 v0 : well_typed k cols -> lossless k (frame_of cols) ->
  Forall (scorable (frame_of cols)) f -> frame_of cols n = Some (t, vals) -> t <> TRaw -> Forall (settable t) xs ->
  start_value t x0 xs = Some v0 -> settable t v0 -> Permutation (sorted xs) xs -> py_add_all beg cols None = py_ret d ->
  exists ls, partial_dependency beg order threads sorted f n xs x0 d = py_ret ls /\
    Forall2 (effect (frame_of cols) n k f v0) (match t with TBucketized => sorted xs | _ => xs end) ls.
Proof.
  intros W Ls Sc F NR Sx Sv0 Set0 Pm E. destruct (dict_shows beg k cols W Ls) as (d' & E' & S). assert (d' = d) as -> by (unfold py_ret in *; congruence).
  eapply partial_shows; eassumption.
Qed.
Lemma partial_raises k cols d n sorted (f : forest N) xs x0 : well_typed k cols -> lossless k (frame_of cols) -> cols <> [] ->
  py_add_all beg cols None = py_ret d ->
  match frame_of cols n with
  | None | Some (TRaw, _) => partial_dependency beg order threads sorted f n xs x0 d = py_raise InvalidArgument
  | Some (t, _) => start_value t x0 xs = None -> partial_dependency beg order threads sorted f n xs x0 d = py_raise OutOfRange
  end.
Proof.
  intros W Ls Ne E. destruct (dict_shows beg k cols W Ls) as (d' & E' & S). assert (d' = d) as -> by (unfold py_ret in *; congruence).
  assert (exists n0 x, frame_of cols n0 = Some x) as (n0 & x & F0).
  { destruct cols as [|[[n0 t0] v0] cols]; [congruence|]. exists n0. eexists. unfold frame_of, first_listed. cbn [find fst]. rewrite str_eqb_refl. reflexivity. }
  unfold partial_dependency. destruct (copy_shows beg d k (frame_of cols) n0 x S Ls F0) as (d1 & E1 & [_ H]). rewrite E1. cbn [py_bind py_ret bind].
  specialize (H n). destruct (frame_of cols n) as [[t vals]|] eqn:F.
  - destruct H as (L & c & G & Nm & C). rewrite G. assert (col_type c = t) as -> by apply C. destruct t.
    + destruct x0; discriminate.
    + reflexivity.
    + destruct x0; [discriminate|]. destruct xs; [reflexivity|discriminate].
  - rewrite H. reflexivity.
Qed.
End Predict.
