(** Slice_proofs.v - adding columns from Python, slices, dictionaries and data frames. *)
From Coq Require Import SpecFloat.
From Verif Require Import Base Base_proofs F32 F32_proofs Column ColumnSpec ColumnCount_proofs DataStore DataStoreSpec
  DataStore_proofs Python PythonSpec Python_proofs.

(** ** Adding *)
Definition contents (d : pystore) : store := match d with Some m => m | None => [] end.
Lemma col_contents n d : py_col n d = ds_get n (contents d).
Proof. destruct d; reflexivity. Qed.
Lemma rows_contents beg d : py_num_rows beg d = ds_num_rows beg (contents d).
Proof. destruct d; [reflexivity|]. cbn. unfold ds_num_rows. cbn. destruct (beg []); reflexivity. Qed.

Lemma add_outcome beg c d rows k : py_num_rows beg d = Ret rows -> col_size c = Ret k ->
  exists e m', py_add beg c d = Ret (e, Some m') /\
  match py_col (c_name c) d with
  | Some _ => e = None /\ m' = contents d
  | None => if (0 <? rows) && negb (rows =? k) then e = Some OutOfRange /\ m' = contents d
            else e = None /\ m' = (c_name c, c) :: contents d
  end.
Proof.
  intros R K. rewrite rows_contents in R. unfold py_add.
  replace (match d with Some m => m | None => empty_store end) with (contents d) by (destruct d; reflexivity).
  unfold ds_add. rewrite col_contents. unfold ds_get. destruct (assoc (c_name c) (contents d)) as [c0|].
  - cbn. eauto.
  - rewrite R. cbn [bind]. destruct (0 <? rows); cbn [andb]; [|cbn; eauto]. rewrite K. cbn [bind].
    destruct (rows =? k); cbn; eauto.
Qed.

Lemma add_spec beg c d rows k : py_num_rows beg d = Ret rows -> col_size c = Ret k ->
  exists e d', py_add beg c d = Ret (e, d') /\ (e = None \/ e = Some OutOfRange) /\
  (e = Some OutOfRange <-> py_col (c_name c) d = None /\ 0 < rows /\ rows <> k) /\
  (forall n, py_col n d' = if str_eqb n (c_name c) then
      match py_col n d with Some c0 => Some c0 | None => match e with None => Some c | Some _ => None end end
      else py_col n d).
Proof.
  intros R K. destruct (add_outcome beg c d rows k R K) as (e & m' & E & H). exists e, (Some m'). split; [exact E|].
  rewrite (col_contents (c_name c)) in *. unfold ds_get in *.
  assert (forall n, assoc n (contents d) = if str_eqb n (c_name c) then assoc n (contents d) else assoc n (contents d)) as Sm
    by (intros n; destruct (str_eqb n _); reflexivity).
  destruct (assoc (c_name c) (contents d)) as [c0|] eqn:A.
  - destruct H as [-> ->]. split; [auto|]. split; [split; [discriminate|intros [X _]; discriminate]|].
    intros n. rewrite !col_contents. cbn [contents]. unfold ds_get. destruct (str_eqb_spec n (c_name c)) as [->|]; [|reflexivity].
    rewrite A. reflexivity.
  - destruct ((0 <? rows) && negb (rows =? k)) eqn:B; destruct H as [-> ->].
    + apply andb_true_iff in B. destruct B as [B1 B2]. apply Nat.ltb_lt in B1. apply negb_true_iff, Nat.eqb_neq in B2.
      split; [auto|]. split; [split; [auto|reflexivity]|].
      intros n. rewrite !col_contents. cbn [contents]. unfold ds_get. destruct (str_eqb_spec n (c_name c)) as [->|]; [|reflexivity].
      rewrite A. reflexivity.
    + split; [auto|]. split.
      * split; [discriminate|]. intros (_ & B1 & B2). exfalso. apply andb_false_iff in B. destruct B as [B|B].
        -- apply Nat.ltb_ge in B. lia.
        -- apply negb_false_iff, Nat.eqb_eq in B. contradiction.
      * intros n. rewrite !col_contents. cbn [contents]. unfold ds_get. cbn [assoc].
        destruct (str_eqb_spec n (c_name c)) as [->|]; [|reflexivity]. rewrite A. reflexivity.
Qed.

Lemma throws_none s : throws s = None <-> s = SOk \/ s = SErr ALREADY_EXISTS \/ s = SErr ABORTED.
Proof. destruct s as [|[]]; cbn; intuition (try discriminate; try congruence). Qed.

(** ** Adding columns of equal size *)
Definition all_size (k : nat) (m : store) : Prop := forall n c, In (n, c) m -> col_size c = Ret k.
Lemma rows_all k m beg : all_size k m -> ds_num_rows beg m = Ret (match m with [] => 0 | _ => k end).
Proof.
  intros A. destruct m as [|p m].
  - unfold ds_num_rows. cbn. destruct (beg []); reflexivity.
  - destruct (num_rows_in beg (p :: m)) as (n & c & I & ->); [discriminate|]. exact (A n c I).
Qed.
Lemma add_fresh beg c d k : all_size k (contents d) -> col_size c = Ret k -> py_col (c_name c) d = None ->
  py_add beg c d = Ret (None, Some ((c_name c, c) :: contents d)).
Proof.
  intros A K F. pose proof (rows_all k _ beg A) as R. rewrite <- rows_contents in R.
  destruct (add_outcome beg c d _ k R K) as (e & m' & E & H). rewrite F in H. rewrite E.
  destruct ((0 <? _) && negb _) eqn:B.
  - exfalso. apply andb_true_iff in B. destruct B as [B1 B2]. destruct (contents d); [discriminate|].
    rewrite Nat.eqb_refl in B2. discriminate.
  - destruct H as [-> ->]. reflexivity.
Qed.
Lemma add_present beg c d k c0 : all_size k (contents d) -> col_size c = Ret k -> py_col (c_name c) d = Some c0 ->
  py_add beg c d = Ret (None, Some (contents d)).
Proof.
  intros A K F. pose proof (rows_all k _ beg A) as R. rewrite <- rows_contents in R.
  destruct (add_outcome beg c d _ k R K) as (e & m' & E & H). rewrite F in H. destruct H as [-> ->]. exact E.
Qed.
Lemma all_size_cons k c m : all_size k m -> col_size c = Ret k -> all_size k ((c_name c, c) :: m).
Proof. intros A K n x [E|I]; [injection E as <- <-; exact K|exact (A n x I)]. Qed.

(** ** Slices *)
Lemma values_picks c vals index : holds c vals -> (zlen vals <= 2147483648)%Z ->
  Forall (fun i => (0 <= i < zlen vals)%Z) index ->
  exists sel, picks vals index sel /\ py_values c index = py_ret sel.
Proof.
  intros H L F. induction F as [|i index [I0 I1] F (sel & P & E)].
  - exists []. split; [constructor|reflexivity].
  - destruct (nth_error vals (Z.to_nat i)) as [v|] eqn:V; [|apply nth_error_None in V; unfold zlen in *; lia].
    exists (v :: sel). split; [constructor; auto|]. cbn [py_values].
    rewrite (get_checked c vals i H L) by (unfold int32; unfold zlen in *; lia).
    destruct (Z.leb_spec 0 i); [|lia]. rewrite V. cbn. rewrite E. reflexivity.
Qed.
Lemma picks_length vals index sel : picks vals index sel -> List.length sel = List.length index.
Proof. induction 1; cbn; congruence. Qed.
Lemma picks_in vals index sel v : picks vals index sel -> In v sel -> In v vals.
Proof.
  induction 1 as [|i x index sel [_ X] _ IH]; [intros []|]. intros [<-|I]; [|auto]. eapply nth_error_In; eassumption.
Qed.
Lemma typed_all t vals : typed_for t vals <->
  forall v, In v vals -> match t, v with TString, VString _ => True | TString, _ => False | _, VFloat _ => True | _, _ => False end.
Proof.
  assert (forall l, l = map VFloat (floats_of l) <-> forall v, In v l -> match v with VFloat _ => True | _ => False end) as XF.
  { induction l as [|[s|x] l IH]; cbn.
    - split; [intros _ v []|reflexivity].
    - split; [|intros H; destruct (H (VString s)); left; reflexivity]. intros E.
      exfalso. unfold floats_of in E. assert (List.length (floats_of l) <= List.length l) as X.
      { clear. unfold floats_of. induction l as [|[s|x] l IH]; cbn; lia. }
      apply (f_equal (@List.length value)) in E. cbn in E. rewrite map_length in E. unfold floats_of, strings_of in *. lia.
    - split.
      + intros E v [<-|I]; [exact Logic.I|]. apply IH; [injection E; intros E1; exact E1|exact I].
      + intros H. f_equal. apply IH. intros v I. apply H. right. exact I. }
  assert (forall l, l = map VString (strings_of l) <-> forall v, In v l -> match v with VString _ => True | _ => False end) as XS.
  { induction l as [|[s|x] l IH]; cbn.
    - split; [intros _ v []|reflexivity].
    - split.
      + intros E v [<-|I]; [exact Logic.I|]. apply IH; [injection E; intros E1; exact E1|exact I].
      + intros H. f_equal. apply IH. intros v I. apply H. right. exact I.
    - split; [|intros H; destruct (H (VFloat x)); left; reflexivity]. intros E.
      exfalso. unfold strings_of in E. assert (List.length (strings_of l) <= List.length l) as X.
      { clear. unfold strings_of. induction l as [|[s|x] l IH]; cbn; lia. }
      apply (f_equal (@List.length value)) in E. cbn in E. rewrite map_length in E. unfold floats_of, strings_of in *. lia. }
  destruct t; cbn; [apply XF|apply XF|apply XS].
Qed.
Lemma holds_typed c vals : holds c vals -> typed_for (col_type c) vals.
Proof.
  intros H. apply typed_all. intros v I. apply In_nth_error in I. destruct I as [i E].
  unfold holds, col_type in *. destruct (c_body c); destruct H as [_ H]; destruct (H i v E) as (x & -> & _); exact Logic.I.
Qed.
Lemma picks_typed t vals index sel : typed_for t vals -> picks vals index sel -> typed_for t sel.
Proof. rewrite !typed_all. intros T P v I. apply T. eapply picks_in; eassumption. Qed.

Lemma py_create_cases n t vals : (zlen vals < 4294967294)%Z ->
  py_create n t vals = Undef \/ exists c, py_create n t vals = Ret c.
Proof.
  intros L. unfold py_create. destruct t; [|right; eauto|right; eauto].
  destruct (create_cases default_buckets (map (fun v => match v with VFloat x => x | VString _ => fnan end) vals) limit_default) as [->|[b ->]].
  - unfold zlen in *. rewrite map_length. exact L.
  - left. reflexivity.
  - right. cbn. eauto.
Qed.

Lemma slice_cols_ok beg index k (R : column -> column -> Prop) : forall cols d,
  NoDup (map c_name cols) -> (forall c, In c cols -> py_col (c_name c) d = None) -> all_size k (contents d) ->
  (forall c, In c cols -> exists sel, py_values c index = py_ret sel /\
     (py_create (c_name c) (col_type c) sel = Undef \/
      exists c', py_create (c_name c) (col_type c) sel = Ret c' /\ c_name c' = c_name c /\ col_size c' = Ret k /\ R c c')) ->
  (slice_cols beg cols index d = Undef /\
     exists c sel, In c cols /\ py_values c index = py_ret sel /\ py_create (c_name c) (col_type c) sel = Undef) \/
  (exists d', slice_cols beg cols index d = py_ret d' /\
     (forall c, In c cols -> exists c', py_col (c_name c) d' = Some c' /\ R c c') /\
     (forall n, ~ In n (map c_name cols) -> py_col n d' = py_col n d)).
Proof.
  induction cols as [|c cols IH]; intros d ND Fr Sz H.
  - right. exists d. split; [reflexivity|]. split; [intros c []|reflexivity].
  - destruct (H c (or_introl eq_refl)) as (sel & V & [U|(c' & E & Nm & K & Rc)]).
    + left. split.
      * cbn [slice_cols]. rewrite V. cbn [py_bind py_ret bind]. rewrite U. reflexivity.
      * exists c, sel. split; [left; reflexivity|auto].
    + cbn [slice_cols]. rewrite V. cbn [py_bind py_ret bind]. rewrite E. cbn [bind].
      rewrite (add_fresh beg c' d k Sz K) by (rewrite Nm; apply Fr; left; reflexivity). cbn [bind].
      cbn [map] in ND. inversion ND as [|? ? NI ND']; subst.
      destruct (IH (Some ((c_name c', c') :: contents d)) ND') as [[U (c1 & s1 & I1 & V1 & U1)]|(d' & E' & A & B)].
      * intros x I. rewrite col_contents. cbn [contents]. unfold ds_get. cbn [assoc].
        destruct (str_eqb_spec (c_name x) (c_name c')) as [X|X].
        -- exfalso. apply NI. rewrite <- Nm, <- X. apply in_map. exact I.
        -- rewrite <- (Fr x (or_intror I)), col_contents. reflexivity.
      * apply all_size_cons; assumption.
      * intros x I. apply H. right. exact I.
      * left. split; [exact U|]. exists c1, s1. split; [right; exact I1|auto].
      * right. exists d'. split; [exact E'|]. split.
        -- intros x [<-|I]; [|apply A; exact I]. exists c'. split; [|exact Rc].
           rewrite B by exact NI. rewrite col_contents. cbn [contents]. unfold ds_get. cbn [assoc].
           rewrite Nm, str_eqb_refl. reflexivity.
        -- intros n N. cbn [map] in N. rewrite B by (intros X; apply N; right; exact X).
           rewrite !col_contents. cbn [contents]. unfold ds_get. cbn [assoc].
           destruct (str_eqb_spec n (c_name c')) as [X|X]; [|reflexivity].
           exfalso. apply N. left. congruence.
Qed.

Lemma in_cols m c : NoDup (map fst m) -> (forall n c, ds_get n m = Some c -> c_name c = n) ->
  In c (py_cols (Some m)) <-> ds_get (c_name c) m = Some c.
Proof.
  intros ND K. destruct (typed_listings m) as [P _].
  assert (In c (py_cols (Some m)) <-> In c (stored_columns m)) as ->.
  { cbn. split; intros I.
    - eapply Permutation_in; [exact P|]. rewrite !in_app_iff in *. tauto.
    - eapply Permutation_in in I; [|apply Permutation_sym; exact P]. rewrite !in_app_iff in *. tauto. }
  unfold stored_columns. rewrite in_map_iff. split.
  - intros ((n & c') & E & I). cbn in E. subst c'. apply in_assoc in I; [|exact ND]. unfold ds_get in *.
    rewrite (K n c I). exact I.
  - intros E. apply assoc_in in E. exists (c_name c, c). auto.
Qed.
Lemma cols_nodup m : NoDup (map fst m) -> (forall n c, ds_get n m = Some c -> c_name c = n) ->
  NoDup (map c_name (py_cols (Some m))).
Proof.
  intros ND K. destruct (typed_listings m) as [P _].
  assert (Permutation (py_cols (Some m)) (stored_columns m)) as P'.
  { eapply Permutation_trans; [|exact P]. cbn. apply Permutation_app_head. apply Permutation_app_comm. }
  eapply Permutation_NoDup; [apply Permutation_map, Permutation_sym; exact P'|].
  unfold stored_columns. rewrite map_map. replace (map (fun p => c_name (snd p)) m) with (map fst m); [exact ND|].
  apply map_ext_in. intros [n c] I. cbn. symmetry. apply K. apply in_assoc; assumption.
Qed.

Lemma slice_general beg m rows vals index : table m rows vals -> (Z.of_nat rows <= 2147483648)%Z ->
  (zlen index < 4294967294)%Z ->
  Forall (fun i => (0 <= i < Z.of_nat rows)%Z) index ->
  (py_slice beg (Some m) index = Undef /\
     exists n c sel, ds_get n m = Some c /\ picks (vals n) index sel /\ py_create n (col_type c) sel = Undef) \/
  (exists d', py_slice beg (Some m) index = py_ret d' /\
     (forall n c, ds_get n m = Some c -> exists c', py_col n d' = Some c' /\ c_name c' = n /\ col_type c' = col_type c /\
        exists sel shown, picks (vals n) index sel /\ holds c' shown /\ List.length shown = List.length index /\
          (col_type c <> TBucketized \/ ((zlen index < 60000)%Z /\ below_inf (floats_of sel)) ->
           same_values (col_type c) sel shown)) /\
     (forall n, ds_get n m = None -> py_col n d' = None)).
Proof.
  intros [ND T] Hr Hl F.
  assert (forall n c, ds_get n m = Some c -> c_name c = n) as K by (intros n c E; apply (T n c E)).
  set (R := fun c c' : column => col_type c' = col_type c /\ c_name c' = c_name c /\
        exists sel shown, picks (vals (c_name c)) index sel /\ holds c' shown /\ List.length shown = List.length index /\
          (col_type c <> TBucketized \/ ((zlen index < 60000)%Z /\ below_inf (floats_of sel)) ->
           same_values (col_type c) sel shown)).
  assert (forall c, In c (py_cols (Some m)) -> ds_get (c_name c) m = Some c) as IC.
  { intros c I. apply (in_cols m c ND K). exact I. }
  destruct (slice_cols_ok beg index (List.length index) R (py_cols (Some m)) None) as [[U (c & sel & I & V & C)]|(d' & E & A & B)].
  - apply cols_nodup; assumption.
  - reflexivity.
  - intros n c [].
  - intros c I. specialize (IC c I). destruct (T _ _ IC) as (_ & H & L).
    destruct (values_picks c (vals (c_name c)) index H) as (sel & P & V); [unfold zlen; lia|unfold zlen; rewrite L; exact F|].
    exists sel. split; [exact V|]. pose proof (picks_length _ _ _ P) as PL.
    destruct (py_create_cases (c_name c) (col_type c) sel) as [U|[c' E]]; [unfold zlen in *; lia|left; exact U|right].
    exists c'. split; [exact E|].
    pose proof (picks_typed _ _ _ _ (holds_typed _ _ H) P) as TS.
    destruct (create_holds (c_name c) (col_type c) sel c' TS) as (N' & T' & shown & Sh & SL & Sm); [unfold zlen in *; lia|exact E|].
    split; [exact N'|]. split; [rewrite (holds_size _ _ Sh); f_equal; lia|].
    split; [exact T'|]. split; [exact N'|]. exists sel, shown. split; [exact P|]. split; [exact Sh|]. split; [lia|].
    intros X. apply Sm. unfold zlen in *. rewrite PL. exact X.
  - left. split; [exact U|]. specialize (IC c I). exists (c_name c), c, sel. split; [exact IC|]. split; [|exact C].
    destruct (T _ _ IC) as (_ & H & L).
    destruct (values_picks c (vals (c_name c)) index H) as (sel' & P & V'); [unfold zlen; lia|unfold zlen; rewrite L; exact F|].
    rewrite V in V'. unfold py_ret in V'. injection V' as ->. exact P.
  - right. exists d'. split; [exact E|]. split.
    + intros n c G. pose proof (K n c G) as X. subst n. destruct (A c) as (c' & G' & T' & N' & Y).
      { apply (in_cols m c ND K). exact G. }
      exists c'. split; [exact G'|]. split; [exact N'|]. split; [exact T'|exact Y].
    + intros n G. rewrite B; [reflexivity|]. intros I. apply in_map_iff in I. destruct I as (c & <- & I).
      rewrite (IC c I) in G. discriminate.
Qed.

(** The values that occur often exist. *)
Lemma dedupe (l : list f32) : Forall (fun v => is_nan v = false) l ->
  exists r, incl r l /\ ForallOrdPairs (fun a b => feqb a b = false) r /\ forall v, In v l -> exists w, In w r /\ feqb v w = true.
Proof.
  induction 1 as [|v l Nv F (r & I & P & C)].
  - exists []. split; [intros x []|]. split; [constructor|intros v []].
  - destruct (existsb (feqb v) r) eqn:X.
    + exists r. split; [intros x Ix; right; auto|]. split; [exact P|].
      intros w [<-|Iw]; [|auto]. apply existsb_exists in X. destruct X as (w & Iw & E). eauto.
    + exists (v :: r). split; [intros x [<-|Ix]; [left; reflexivity|right; auto]|]. split.
      * constructor; [|exact P]. apply Forall_forall. intros w Iw.
        destruct (feqb v w) eqn:E; [|reflexivity]. rewrite <- X. symmetry. apply existsb_exists. eauto.
      * intros w [<-|Iw]; [exists v; split; [left; reflexivity|apply feqb_refl; exact Nv]|].
        destruct (C w Iw) as (u & Iu & E). exists u. split; [right; exact Iu|exact E].
Qed.
Lemma frequent_exists nb data : exists hv, frequent_values nb data hv.
Proof.
  set (often := Z.max 1 (zlen data / nb)).
  destruct (dedupe (filter (fun v => negb (is_nan v) && (often <=? occurrences v data)%Z) data)) as (r & I & P & C).
  - apply Forall_forall. intros v Iv. apply filter_In in Iv. destruct Iv as [_ B]. apply andb_true_iff in B.
    destruct B as [B _]. apply negb_true_iff in B. exact B.
  - exists r. unfold frequent_values. fold often. split; [|split].
    + intros v Iv. apply I, filter_In in Iv. destruct Iv as [Id B]. apply andb_true_iff in B. destruct B as [B1 B2].
      apply negb_true_iff in B1. apply Z.leb_le in B2. auto.
    + exact P.
    + intros v Iv Nv O. apply C. apply filter_In. split; [exact Iv|]. rewrite Nv. cbn. apply Z.leb_le. exact O.
Qed.

Lemma create_total n t vals : typed_for t vals -> (zlen vals < 2147483648)%Z ->
  (t = TBucketized -> bucketizable (floats_of vals)) -> py_create n t vals <> Undef.
Proof.
  intros T L B U. destruct t; [|discriminate..]. unfold py_create in U. cbn in T. rewrite T in U. rewrite floats_map in U.
  set (fs := floats_of vals) in *.
  assert (zlen fs = zlen vals) as LF by (rewrite T; unfold zlen; rewrite map_length; reflexivity).
  destruct (create_bucketized default_buckets fs) as [b| |] eqn:E; [discriminate| |discriminate].
  destruct (frequent_exists default_buckets fs) as [hv F].
  apply (bucketized_div_zero default_buckets fs hv limit_default) in E; [|lia|exact F].
  apply (B eq_refl hv F). unfold default_buckets in E. lia.
Qed.

Lemma slice_ok beg m rows vals index : table m rows vals -> (Z.of_nat rows <= 2147483648)%Z -> (zlen index < 60000)%Z ->
  Forall (fun i => (0 <= i < Z.of_nat rows)%Z) index ->
  (forall n c sel, ds_get n m = Some c -> col_type c = TBucketized -> picks (vals n) index sel ->
     below_inf (floats_of sel) /\ bucketizable (floats_of sel)) ->
  exists d, py_slice beg (Some m) index = py_ret d /\ sliced vals m index d.
Proof.
  intros T Hr Hl F Bk.
  destruct (slice_general beg m rows vals index T Hr ltac:(lia) F) as [[_ (n & c & sel & G & P & U)]|(d & E & A & B)].
  - exfalso. destruct T as [_ T]. destruct (T n c G) as (_ & H & _).
    refine (create_total n (col_type c) sel _ _ _ U).
    + exact (picks_typed _ _ _ _ (holds_typed _ _ H) P).
    + pose proof (picks_length _ _ _ P). unfold zlen in *. lia.
    + intros Ty. apply (Bk n c sel G Ty P).
  - exists d. split; [exact E|]. intros n. destruct (ds_get n m) as [c|] eqn:G.
    + destruct (A n c G) as (c' & G' & N' & T' & sel & shown & P & Sh & _ & Sm). rewrite G'.
      split; [exact T'|]. split; [exact N'|]. exists sel, shown. split; [exact P|]. split; [exact Sh|]. apply Sm.
      destruct (col_type c) eqn:Ty; [right|left; discriminate|left; discriminate].
      split; [exact Hl|]. apply (Bk n c sel G Ty P).
    + rewrite (B n G). exact Logic.I.
Qed.

Lemma slice_any beg m rows vals index d : table m rows vals -> (Z.of_nat rows <= 2147483648)%Z ->
  (zlen index < 4294967294)%Z -> Forall (fun i => (0 <= i < Z.of_nat rows)%Z) index ->
  py_slice beg (Some m) index = py_ret d ->
  (forall n, py_col n d = None <-> ds_get n m = None) /\
  forall n c, ds_get n m = Some c -> exists c', py_col n d = Some c' /\ col_type c' = col_type c /\
    col_size c' = Ret (List.length index) /\
    (col_type c <> TBucketized -> exists sel, picks (vals n) index sel /\ holds c' sel).
Proof.
  intros T Hr Hl F E.
  destruct (slice_general beg m rows vals index T Hr Hl F) as [[U _]|(d' & E' & A & B)].
  - rewrite U in E. discriminate.
  - rewrite E in E'. unfold py_ret in E'. injection E' as <-. split.
    + intros n. split; [|apply B]. intros X. destruct (ds_get n m) as [c|] eqn:G; [|reflexivity].
      destruct (A n c G) as (c' & G' & _). congruence.
    + intros n c G. destruct (A n c G) as (c' & G' & _ & T' & sel & shown & P & Sh & SL & Sm).
      exists c'. split; [exact G'|]. split; [exact T'|]. split; [rewrite (holds_size _ _ Sh); congruence|].
      intros X. exists sel. split; [exact P|]. specialize (Sm (or_introl X)).
      destruct (col_type c); [congruence|cbn in Sm; subst; exact Sh..].
Qed.

Lemma values_out c vals : holds c vals -> (zlen vals <= 2147483648)%Z -> forall index, Forall int32 index ->
  ~ Forall (fun i => (0 <= i < zlen vals)%Z) index -> py_values c index = py_raise OutOfRange.
Proof.
  intros H L index I. induction I as [|i index Ii I IH]; intros N; [destruct N; constructor|].
  cbn [py_values]. rewrite (get_checked c vals i H L Ii). destruct (Z.leb_spec 0 i) as [P|P]; [|reflexivity].
  destruct (nth_error vals (Z.to_nat i)) as [v|] eqn:V; [|reflexivity]. cbn [py_bind py_ret bind].
  rewrite IH; [reflexivity|]. intros X. apply N. constructor; [|exact X].
  assert (nth_error vals (Z.to_nat i) <> None) as Y by congruence. apply nth_error_Some in Y. unfold zlen. lia.
Qed.
Lemma slice_out beg m rows vals index : table m rows vals -> (Z.of_nat rows <= 2147483648)%Z -> m <> [] ->
  Forall int32 index -> ~ Forall (fun i => (0 <= i < Z.of_nat rows)%Z) index ->
  py_slice beg (Some m) index = py_raise OutOfRange.
Proof.
  intros [ND T] Hr NE I N. assert (forall n c, ds_get n m = Some c -> c_name c = n) as K by (intros n c E; apply (T n c E)).
  unfold py_slice. destruct (py_cols (Some m)) as [|c cols] eqn:C.
  - exfalso. destruct m as [|[n c] m]; [congruence|].
    assert (ds_get n ((n, c) :: m) = Some c) as G by (unfold ds_get; cbn; rewrite str_eqb_refl; reflexivity).
    pose proof (K n c G) as X. assert (In c []) as Y; [|exact Y].
    rewrite <- C. apply (in_cols _ c ND K). rewrite X. exact G.
  - assert (In c (py_cols (Some m))) as Ic by (rewrite C; left; reflexivity). apply (in_cols m c ND K) in Ic.
    destruct (T _ _ Ic) as (_ & H & L). cbn [slice_cols].
    rewrite (values_out c (vals (c_name c)) H) by (try assumption; unfold zlen; rewrite L; assumption). reflexivity.
Qed.

Lemma copy_ok beg m rows vals : table m rows vals -> m <> [] -> (Z.of_nat rows < 60000)%Z ->
  (forall n c, ds_get n m = Some c -> col_type c = TBucketized ->
     below_inf (floats_of (vals n)) /\ bucketizable (floats_of (vals n))) ->
  exists d, py_copy beg (Some m) = py_ret d /\
  forall n, match ds_get n m, py_col n d with
            | Some c, Some c' => col_type c' = col_type c /\
                exists shown, holds c' shown /\ same_values (col_type c) (vals n) shown
            | None, None => True
            | _, _ => False
            end.
Proof.
  intros T NE Hr Bk. unfold py_copy.
  assert (ds_num_rows beg m = Ret rows) as R.
  { destruct (num_rows_in beg m NE) as (n & c & I & ->). destruct T as [ND T].
    apply in_assoc in I; [|exact ND]. destruct (T n c I) as (_ & H & <-). apply holds_size. exact H. }
  cbn [py_num_rows]. rewrite R. cbn [bind].
  assert (forall n c sel, ds_get n m = Some c -> picks (vals n) (map Z.of_nat (seq 0 rows)) sel -> sel = vals n) as Id.
  { intros n c sel G P. destruct T as [_ T]. destruct (T n c G) as (_ & _ & L). clear - P L.
    assert (forall k l s, List.length l = k -> Forall2 (fun i v => (0 <= i)%Z /\ nth_error (s ++ l) (Z.to_nat i) = Some v)
       (map Z.of_nat (seq (List.length s) k)) sel -> sel = l) as X.
    { clear. intros k. revert sel. induction k as [|k IH]; intros sel l s L F.
      - destruct l; [|discriminate]. inversion F. reflexivity.
      - destruct l as [|x l]; [discriminate|]. cbn in F. inversion F as [|? v ? sel' [_ V] F']; subst.
        rewrite Nat2Z.id, nth_error_app2, Nat.sub_diag in V by lia. injection V as <-. f_equal.
        apply (IH sel' l (s ++ [x])); [cbn in L; lia|].
        rewrite app_length. cbn [List.length]. rewrite Nat.add_1_r. rewrite <- app_assoc. exact F'. }
    exact (X rows (vals n) [] L P). }
  destruct (slice_ok beg m rows vals (map Z.of_nat (seq 0 rows)) T) as (d & E & Sl).
  - lia.
  - unfold zlen. rewrite map_length, seq_length. exact Hr.
  - apply Forall_forall. intros i I. apply in_map_iff in I. destruct I as (j & <- & I). apply in_seq in I. lia.
  - intros n c sel G Ty P. rewrite (Id n c sel G P). exact (Bk n c G Ty).
  - exists d. split; [exact E|]. intros n. specialize (Sl n). destruct (ds_get n m) as [c|] eqn:G; [|exact Sl].
    destruct (py_col n d) as [c'|]; [|exact Sl]. destruct Sl as (T' & _ & sel & shown & P & Sh & Sm).
    rewrite (Id n c sel G P) in Sm. eauto.
Qed.
