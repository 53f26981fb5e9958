(** PyTrain_proofs.v - column handles, dictionaries, data frames and training from Python. *)
From Coq Require Import SpecFloat.
From Verif Require Import Base Base_proofs F32 F32_proofs Column ColumnSpec DataStore DataStoreSpec DataStore_proofs Num
  Forest Eval Eval_proofs Config Tree Train Loss Python PythonSpec Python_proofs Slice_proofs.

(** ** from_dict *)
Lemma create_made n t vals : typed_for t vals -> (zlen vals < 2147483648)%Z ->
  (t = TBucketized -> bucketizable (floats_of vals)) ->
  exists c, py_create n t vals = Ret c /\ made n t vals c /\ col_size c = Ret (List.length vals).
Proof.
  intros T L B. destruct (py_create_cases n t vals) as [U|[c E]]; [lia|destruct (create_total n t vals T L B U)|].
  exists c. split; [exact E|]. destruct (create_holds n t vals c T ltac:(lia) E) as (N & Ty & shown & Sh & SL & Sm).
  split; [|rewrite (holds_size _ _ Sh), SL; reflexivity]. split; [exact N|]. split; [exact Ty|]. exists shown. auto.
Qed.

Lemma add_all_ok beg k : (Z.of_nat k < 2147483648)%Z -> forall cols d, well_typed k cols -> all_size k (contents d) ->
  exists d', py_add_all beg cols d = py_ret d' /\ all_size k (contents d') /\
  forall n, match py_col n d, first_listed n cols with
            | Some c, _ => py_col n d' = Some c
            | None, Some (t, vals) => exists c, py_col n d' = Some c /\ made n t vals c
            | None, None => py_col n d' = None
            end.
Proof.
  intros Hk. induction cols as [|[[n t] vals] cols IH]; intros d W A.
  - exists d. split; [reflexivity|]. split; [exact A|]. intros n. cbn. destruct (py_col n d); reflexivity.
  - destruct (W n t vals (or_introl eq_refl)) as (T & L & B).
    destruct (create_made n t vals T) as (c & E & M & K); [unfold zlen; lia|exact B|]. rewrite L in K.
    assert (well_typed k cols) as W' by (intros n' t' v' I; exact (W n' t' v' (or_intror I))).
    assert (c_name c = n) as Nm by apply M.
    cbn [py_add_all]. rewrite E. cbn [bind]. destruct (py_col (c_name c) d) as [c0|] eqn:G.
    + rewrite (add_present beg c d k c0 A K G). cbn [bind].
      destruct (IH (Some (contents d)) W' A) as (d' & E' & A' & H'). exists d'. split; [exact E'|]. split; [exact A'|].
      intros n'. specialize (H' n'). replace (py_col n' (Some (contents d))) with (py_col n' d) in H' by (rewrite col_contents; reflexivity).
      unfold first_listed in *. cbn [find fst]. destruct (str_eqb_spec n' n) as [->|_]; [|exact H'].
      rewrite <- Nm in *. rewrite G in *. exact H'.
    + rewrite (add_fresh beg c d k A K G). cbn [bind].
      destruct (IH (Some ((c_name c, c) :: contents d)) W') as (d' & E' & A' & H'); [apply all_size_cons; assumption|].
      exists d'. split; [exact E'|]. split; [exact A'|].
      intros n'. specialize (H' n'). rewrite (col_contents n' (Some _)) in H'. cbn [contents] in H'. unfold ds_get in H'. cbn [assoc] in H'.
      rewrite (col_contents n' d). unfold ds_get. unfold first_listed in *. cbn [find fst].
      rewrite Nm in H'. destruct (str_eqb_spec n' n) as [Q|Q]; [|exact H']. rewrite Q in *.
      rewrite col_contents in G. unfold ds_get in G. rewrite Nm in G. rewrite G. eauto.
Qed.

Lemma from_dict_ok beg k cols : (Z.of_nat k < 2147483648)%Z -> well_typed k cols ->
  exists d, py_add_all beg cols None = py_ret d /\
  forall n, match first_listed n cols with
            | Some (t, vals) => exists c, py_col n d = Some c /\ made n t vals c
            | None => py_col n d = None
            end.
Proof.
  intros Hk W. destruct (add_all_ok beg k Hk cols None W) as (d & E & _ & H); [intros n c []|].
  exists d. split; [exact E|]. intros n. specialize (H n). cbn in H. exact H.
Qed.

Lemma add_all_app beg a b : forall d, py_add_all beg (a ++ b) d =
  match py_add_all beg a d with Ret (inr d') => py_add_all beg b d' | r => r end.
Proof.
  induction a as [|[[n t] vals] a IH]; intros d; [reflexivity|]. cbn [app py_add_all].
  destruct (py_create n t vals) as [c| |]; [|reflexivity|reflexivity]. cbn [bind].
  destruct (py_add beg c d) as [[[e|] d']| |]; [reflexivity|apply IH|reflexivity|reflexivity].
Qed.
Lemma from_dict_length beg k pre n t vals post : (Z.of_nat k < 2147483648)%Z -> well_typed k pre -> pre <> [] -> 0 < k ->
  typed_for t vals -> (zlen vals < 2147483648)%Z -> (t = TBucketized -> bucketizable (floats_of vals)) -> List.length vals <> k ->
  (forall t' vals', ~ In (n, t', vals') pre) -> py_add_all beg (pre ++ (n, t, vals) :: post) None = py_raise OutOfRange.
Proof.
  intros Hk W Ne K0 T L B Lk Fr. rewrite add_all_app.
  destruct (add_all_ok beg k Hk pre None W) as (d & E & A & H); [intros n' c []|]. rewrite E. cbn [py_ret].
  destruct (create_made n t vals T L B) as (c & Ec & M & K). cbn [py_add_all]. rewrite Ec. cbn [bind].
  assert (Nm : c_name c = n) by apply M.
  assert (G : py_col n d = None).
  { specialize (H n). cbn in H. unfold first_listed in H. destruct (find _ pre) as [[[n' t'] v']|] eqn:F; [|exact H].
    apply find_some in F. destruct F as [I Eq]. cbn in Eq. destruct (str_eqb_spec n n') as [->|]; [destruct (Fr _ _ I)|discriminate]. }
  assert (C : contents d <> []).
  { destruct pre as [|[[n0 t0] v0] pre]; [congruence|]. specialize (H n0). unfold first_listed in H. cbn [py_col find fst] in H. rewrite str_eqb_refl in H.
    destruct H as (c0 & H & _). rewrite col_contents in H. destruct (contents d); discriminate. }
  pose proof (rows_all k _ beg A) as R. rewrite <- rows_contents in R.
  destruct (contents d) as [|p m] eqn:Cd; [congruence|].
  destruct (add_outcome beg c d k (List.length vals) R K) as (e & m' & Ea & Ha). rewrite Ea. cbn [bind].
  rewrite Nm, G in Ha. rewrite (proj2 (Nat.ltb_lt 0 k) K0), (proj2 (Nat.eqb_neq _ _) (not_eq_sym Lk)) in Ha.
  cbn in Ha. destruct Ha as [-> _]. reflexivity.
Qed.

Lemma find_app {A} (f : A -> bool) l1 l2 : find f (l1 ++ l2) = match find f l1 with Some a => Some a | None => find f l2 end.
Proof. induction l1 as [|a l1 IH]; cbn; [reflexivity|]. destruct (f a); [reflexivity|exact IH]. Qed.

Lemma df_find overrides df n : NoDup (map (fun p => fst (fst p)) df) ->
  first_listed n (df_numeric overrides df ++ df_other df) =
  match first_listed n df with
  | Some (true, vals) => if raw_override overrides n then Some (TRaw, vals)
                         else if string_override overrides n then None else Some (TBucketized, vals)
  | Some (false, vals) => Some (TString, vals)
  | None => None
  end.
Proof.
  unfold first_listed. intros ND. rewrite find_app. unfold df_numeric, df_other.
  set (f := fun p : str * ctype * list value => str_eqb n (fst (fst p))).
  assert (forall df', ~ In n (map (fun p => fst (fst p)) df') -> find f (df_numeric overrides df') = None /\ find f (df_other df') = None) as Out.
  { unfold df_numeric, df_other, f. induction df' as [|[[n' num] vals] df' IH]; intros NI; [split; reflexivity|]. cbn in NI.
    destruct IH as [I1 I2]; [intros X; apply NI; right; exact X|]. cbn [flat_map]. rewrite !find_app, I1, I2.
    destruct (str_eqb_spec n n') as [->|NE]; [destruct NI; left; reflexivity|].
    assert (str_eqb n n' = false) as EN by (destruct (str_eqb_spec n n'); congruence).
    destruct num; cbn [negb]; [destruct (raw_override overrides n'); [|destruct (string_override overrides n')]|]; cbn; rewrite ?EN; split; reflexivity. }
  unfold df_numeric, df_other in Out.
  induction df as [|[[n' num] vals] df IH]; [reflexivity|]. cbn [map] in ND. inversion ND as [|? ? NI ND']; subst.
  cbn [flat_map]. rewrite !find_app. cbn [find fst]. cbn [fst] in NI.
  destruct (str_eqb_spec n n') as [->|NE].
  - destruct (Out df NI) as [O1 O2]. rewrite O1, O2.
    destruct num; cbn [negb]; [destruct (raw_override overrides n'); [|destruct (string_override overrides n')]|]; cbn; unfold f; cbn;
      rewrite ?str_eqb_refl; reflexivity.
  - specialize (IH ND'). assert (str_eqb n n' = false) as EN by (destruct (str_eqb_spec n n'); congruence).
    replace (find f (if negb num then [] else if raw_override overrides n' then [(n', TRaw, vals)]
       else if negb (string_override overrides n') then [(n', TBucketized, vals)] else [])) with (@None (str * ctype * list value)).
    2:{ destruct num; cbn [negb]; [destruct (raw_override overrides n'); [|destruct (string_override overrides n')]|]; cbn; unfold f; cbn; rewrite ?EN; reflexivity. }
    replace (find f (if num then [] else [(n', TString, vals)])) with (@None (str * ctype * list value)) by (destruct num; cbn; unfold f; cbn; rewrite ?EN; reflexivity).
    exact IH.
Qed.

Lemma in_first {A} (n : str) (cols : list (str * A * list value)) a : NoDup (map (fun p => fst (fst p)) cols) -> In (n, fst a, snd a) cols ->
  first_listed n cols = Some a.
Proof.
  unfold first_listed. induction cols as [|[[n' x] v] cols IH]; [intros _ []|]. cbn [map find fst]. intros ND [E|I].
  - injection E as -> -> ->. rewrite str_eqb_refl. destruct a; reflexivity.
  - inversion ND as [|? ? NI ND']; subst. destruct (str_eqb_spec n n') as [->|_]; [|auto].
    exfalso. apply NI. change n' with (fst (fst (n', fst a, snd a))). apply (in_map (fun p => fst (fst p))). exact I.
Qed.
Lemma first_in {A} (n : str) (cols : list (str * A * list value)) a : first_listed n cols = Some a -> In (n, fst a, snd a) cols.
Proof.
  unfold first_listed. destruct (find _ cols) as [[[n' x] v]|] eqn:F; [|discriminate]. intros [= <-].
  apply find_some in F. destruct F as [I E]. cbn in E. destruct (str_eqb_spec n n') as [->|]; [exact I|discriminate].
Qed.

Definition lowered (overrides : list (str * str)) (n : str) (numeric : bool) : option ctype :=
  if numeric then if raw_override overrides n then Some TRaw else if string_override overrides n then None else Some TBucketized
  else Some TString.

Lemma frame_ok beg overrides df k : (Z.of_nat k < 2147483648)%Z -> NoDup (map (fun p => fst (fst p)) df) ->
  (forall n (numeric : bool) vals, In (n, numeric, vals) df -> List.length vals = k /\
     typed_for (if numeric then TBucketized else TString) vals /\ (numeric = true -> bucketizable (floats_of vals))) ->
  exists d, py_from_df beg overrides df = py_ret d /\
  (forall n, ~ In n (map (fun p => fst (fst p)) df) -> py_col n d = None) /\
  forall n (numeric : bool) vals, In (n, numeric, vals) df ->
    match lowered overrides n numeric with
    | Some t => exists c, py_col n d = Some c /\ made n t vals c
    | None => py_col n d = None
    end.
Proof.
  intros Hk ND W. unfold py_from_df.
  destruct (from_dict_ok beg k (df_numeric overrides df ++ df_other df) Hk) as (d & E & H).
  - intros n t vals I. apply in_app_iff in I. destruct I as [I|I]; apply in_flat_map in I; destruct I as ([[n' num] v'] & I & J).
    + destruct num; cbn [negb] in J; [|destruct J].
      destruct (W n' true v' I) as (L & T & B).
      destruct (raw_override overrides n'); [|destruct (negb _); [|destruct J]]; destruct J as [J|[]]; injection J as <- <- <-.
      * split; [exact T|]. split; [exact L|discriminate].
      * split; [exact T|]. split; [exact L|]. intros _. apply B. reflexivity.
    + destruct num; [destruct J|]. destruct J as [J|[]]. injection J as <- <- <-. destruct (W n' false v' I) as (L & T & B).
      split; [exact T|]. split; [exact L|discriminate].
  - exists d. split; [exact E|]. split.
    + intros n NI. specialize (H n). rewrite (df_find overrides df n ND) in H.
      destruct (first_listed n df) as [a|] eqn:F; [|exact H].
      exfalso. apply NI. apply first_in in F. apply (in_map (fun p => fst (fst p))) in F. exact F.
    + intros n num vals I. specialize (H n). rewrite (df_find overrides df n ND) in H.
      rewrite (in_first n df (num, vals) ND I) in H. unfold lowered. destruct num; [|exact H].
      destruct (raw_override overrides n); [exact H|]. destruct (string_override overrides n); exact H.
Qed.

Lemma lowered_documented overrides n (numeric : bool) :
  (if numeric then documented_type overrides n numeric <> TString else documented_type overrides n numeric = TString) ->
  lowered overrides n numeric = Some (documented_type overrides n numeric).
Proof.
  unfold lowered, documented_type, raw_override, string_override. destruct numeric.
  - destruct (assoc n overrides) as [t|]; [|reflexivity].
    destruct (str_eqb_spec t (lit "string")) as [->|]; [intros []; reflexivity|].
    destruct (str_eqb t (lit "float") || str_eqb t (lit "raw_float")); [reflexivity|].
    destruct (str_eqb t (lit "bucketized_float")); reflexivity.
  - intros ->. reflexivity.
Qed.

Lemma frame_documented beg overrides df k : (Z.of_nat k < 2147483648)%Z -> NoDup (map (fun p => fst (fst p)) df) ->
  (forall n (numeric : bool) vals, In (n, numeric, vals) df -> List.length vals = k /\
     typed_for (if numeric then TBucketized else TString) vals /\ (numeric = true -> bucketizable (floats_of vals))) ->
  exists d, py_from_df beg overrides df = py_ret d /\
  (forall n, ~ In n (map (fun p => fst (fst p)) df) -> py_col n d = None) /\
  forall n (numeric : bool) vals, In (n, numeric, vals) df ->
    (if numeric then documented_type overrides n numeric <> TString else documented_type overrides n numeric = TString) ->
    exists c, py_col n d = Some c /\ made n (documented_type overrides n numeric) vals c.
Proof.
  intros Hk ND W. destruct (frame_ok beg overrides df k Hk ND W) as (d & E & O & H). exists d. split; [exact E|]. split; [exact O|].
  intros n num vals I D. specialize (H n num vals I). rewrite (lowered_documented _ _ _ D) in H. exact H.
Qed.
Lemma frame_dropped beg overrides df k : (Z.of_nat k < 2147483648)%Z -> NoDup (map (fun p => fst (fst p)) df) ->
  (forall n (numeric : bool) vals, In (n, numeric, vals) df -> List.length vals = k /\
     typed_for (if numeric then TBucketized else TString) vals /\ (numeric = true -> bucketizable (floats_of vals))) ->
  exists d, py_from_df beg overrides df = py_ret d /\
  (forall n vals, In (n, true, vals) df -> assoc n overrides = Some (lit "string") -> py_col n d = None) /\
  (forall n vals, In (n, false, vals) df -> exists c, py_col n d = Some c /\ col_type c = TString).
Proof.
  intros Hk ND W. destruct (frame_ok beg overrides df k Hk ND W) as (d & E & O & H). exists d. split; [exact E|]. split.
  - intros n vals I A. specialize (H n true vals I). unfold lowered, raw_override, string_override in H. rewrite A in H.
    replace (str_eqb (lit "string") (lit "float") || str_eqb (lit "string") (lit "raw_float")) with false in H by reflexivity.
    rewrite str_eqb_refl in H. exact H.
  - intros n vals I. specialize (H n false vals I). cbn in H. destruct H as (c & G & M). exists c. split; [exact G|apply M].
Qed.

(** ** Handles *)
Definition owner_inv (o : owner) : Prop := NoDup (map fst (o_cols o)) /\ Forall (fun p => fst p < o_next o) (o_cols o).

Lemma filter_nodup {A} (f : nat * A -> bool) l : NoDup (map fst l) -> NoDup (map fst (filter f l)).
Proof.
  induction l as [|[a x] l IH]; cbn; [auto|]. intros ND. inversion ND as [|? ? NI ND']; subst. destruct (f (a, x)); cbn; [|auto].
  constructor; [|auto]. intros I. apply NI. apply in_map_iff in I. destruct I as (p & E & I). apply filter_In in I.
  apply in_map_iff. exists p. tauto.
Qed.

Lemma step_next beg o x r o' : hstep beg o x = Ret (r, o') -> o_next o <= o_next o'.
Proof.
  destruct x; cbn; intros E.
  - destruct (ds_add beg c (owner_store o)) as [[[|e] m]| |]; cbn in E; try discriminate; injection E as <- <-; cbn; lia.
  - injection E as <- <-. cbn. lia.
  - injection E as <- <-. cbn. lia.
  - injection E as <- <-. lia.
  - destruct (find _ _) as [[a c]|]; [|discriminate]. destruct (py_get c i); [|discriminate..]. injection E as <- <-. lia.
Qed.
Lemma step_owner beg o x r o' : owner_inv o -> hstep beg o x = Ret (r, o') -> owner_inv o'.
Proof.
  intros [ND F] E. destruct x; cbn in E.
  - destruct (ds_add beg c (owner_store o)) as [[[|e] m]| |]; cbn in E; try discriminate; injection E as <- <-; [|split; assumption].
    split; cbn.
    + constructor; [|exact ND]. intros I. apply in_map_iff in I. destruct I as (p & E & I). rewrite Forall_forall in F.
      specialize (F p I). lia.
    + constructor; [cbn; lia|]. eapply Forall_impl; [|exact F]. cbn. intros; lia.
  - injection E as <- <-. split; cbn; [apply filter_nodup; exact ND|]. apply Forall_forall. intros p I. apply filter_In in I.
    rewrite Forall_forall in F. apply F. tauto.
  - injection E as <- <-. split; constructor.
  - injection E as <- <-. split; assumption.
  - destruct (find _ _) as [[a c]|]; [|discriminate]. destruct (py_get c i); [|discriminate..]. injection E as <- <-. split; assumption.
Qed.
Lemma run_owner beg : forall ops o rs o', owner_inv o -> hrun beg o ops = Ret (rs, o') -> owner_inv o'.
Proof.
  induction ops as [|x ops IH]; intros o rs o' I E; cbn in E.
  - injection E as <- <-. exact I.
  - destruct (hstep beg o x) as [[r o1]| |] eqn:S1; [|discriminate..]. cbn in E.
    destruct (hrun beg o1 ops) as [[rs1 o2]| |] eqn:R; [|discriminate..]. cbn in E. injection E as <- <-.
    eapply IH; [|exact R]. eapply step_owner; eassumption.
Qed.

Lemma step_keeps beg o x r o' a c n : c_name c = n -> ~ deletes n x -> In (a, c) (o_cols o) -> hstep beg o x = Ret (r, o') ->
  In (a, c) (o_cols o').
Proof.
  intros Nm D I E. destruct x; cbn in E.
  - destruct (ds_add beg c0 (owner_store o)) as [[[|e] m]| |]; cbn in E; try discriminate; injection E as <- <-; [right|]; exact I.
  - injection E as <- <-. cbn. apply filter_In. split; [exact I|]. cbn. destruct (str_eqb_spec n0 (c_name c)) as [->|]; [|reflexivity].
    destruct D. left. congruence.
  - destruct D. right. reflexivity.
  - injection E as <- <-. exact I.
  - destruct (find _ _) as [[a1 c1]|]; [|discriminate]. destruct (py_get c1 i); [|discriminate..]. injection E as <- <-. exact I.
Qed.
Lemma run_keeps beg a c n : c_name c = n -> forall ops o rs o', (forall x, In x ops -> ~ deletes n x) -> In (a, c) (o_cols o) ->
  hrun beg o ops = Ret (rs, o') -> In (a, c) (o_cols o').
Proof.
  intros Nm. induction ops as [|x ops IH]; intros o rs o' D I E; cbn in E.
  - injection E as <- <-. exact I.
  - destruct (hstep beg o x) as [[r o1]| |] eqn:S1; [|discriminate..]. cbn in E.
    destruct (hrun beg o1 ops) as [[rs1 o2]| |] eqn:R; [|discriminate..]. cbn in E. injection E as <- <-.
    eapply IH; [|eapply step_keeps; [exact Nm|apply D; left; reflexivity|exact I|exact S1]|exact R].
    intros y Iy. apply D. right. exact Iy.
Qed.

(** An address that is used up and gone stays gone. *)
Lemma step_gone beg o x r o' a : a < o_next o -> ~ In a (map fst (o_cols o)) -> hstep beg o x = Ret (r, o') ->
  ~ In a (map fst (o_cols o')).
Proof.
  intros L G E. destruct x; cbn in E.
  - destruct (ds_add beg c (owner_store o)) as [[[|e] m]| |]; cbn in E; try discriminate; injection E as <- <-; [|exact G].
    cbn. intros [X|X]; [lia|contradiction].
  - injection E as <- <-. cbn. intros X. apply G. apply in_map_iff in X. destruct X as (p & E & X). apply filter_In in X.
    apply in_map_iff. exists p. tauto.
  - injection E as <- <-. intros [].
  - injection E as <- <-. exact G.
  - destruct (find _ _) as [[a1 c1]|]; [|discriminate]. destruct (py_get c1 i); [|discriminate..]. injection E as <- <-. exact G.
Qed.
Lemma run_gone beg a : forall ops o rs o', a < o_next o -> ~ In a (map fst (o_cols o)) -> hrun beg o ops = Ret (rs, o') ->
  ~ In a (map fst (o_cols o')).
Proof.
  induction ops as [|x ops IH]; intros o rs o' L G E; cbn in E.
  - injection E as <- <-. exact G.
  - destruct (hstep beg o x) as [[r o1]| |] eqn:S1; [|discriminate..]. cbn in E.
    destruct (hrun beg o1 ops) as [[rs1 o2]| |] eqn:R; [|discriminate..]. cbn in E. injection E as <- <-.
    eapply IH; [|eapply step_gone; eassumption|exact R]. pose proof (step_next _ _ _ _ _ S1). lia.
Qed.
Lemma run_deletes beg a c n : c_name c = n -> forall ops o rs o', owner_inv o -> (exists x, In x ops /\ deletes n x) ->
  In (a, c) (o_cols o) -> hrun beg o ops = Ret (rs, o') -> ~ In a (map fst (o_cols o')).
Proof.
  intros Nm. induction ops as [|x ops IH]; intros o rs o' Iv (y & Iy & D) I E; [destruct Iy|]. cbn [hrun] in E.
  destruct (hstep beg o x) as [[r o1]| |] eqn:S1; [|discriminate..]. cbn [bind] in E.
  destruct (hrun beg o1 ops) as [[rs1 o2]| |] eqn:R; [|discriminate..]. cbn [bind] in E. injection E as <- <-.
  assert (a < o_next o) as La.
  { destruct Iv as [_ F]. rewrite Forall_forall in F. exact (F _ I). }
  pose proof (step_next _ _ _ _ _ S1) as Le.
  assert (deletes n x \/ ~ deletes n x) as [Dx|Dx].
  { unfold deletes. destruct x; try (right; intros [X|X]; discriminate).
    - destruct (str_eqb_spec n0 n) as [->|Ne]; [left; left; reflexivity|right; intros [X|X]; congruence].
    - left. right. reflexivity. }
  - eapply run_gone; [|clear R|exact R]; [lia|]. destruct Dx as [->| ->]; cbn in S1; injection S1 as <- <-; [|intros []].
    cbn. intros X. apply in_map_iff in X. destruct X as ([a' c'] & Ea & X). cbn in Ea. subst a'. apply filter_In in X. destruct X as [X Y].
    destruct Iv as [ND _].
    assert (c' = c) as ->.
    { clear - ND X I. induction (o_cols o) as [|[b d] l IH]; [destruct X|]. cbn in ND. inversion ND as [|? ? NI ND']; subst.
      destruct X as [X|X], I as [I|I].
      - congruence.
      - injection X as -> ->. destruct NI. apply (in_map fst) in I. exact I.
      - injection I as -> ->. destruct NI. apply (in_map fst) in X. exact X.
      - apply IH; assumption. }
    cbn in Y. rewrite Nm, str_eqb_refl in Y. discriminate.
  - eapply IH; [eapply step_owner; eassumption| |eapply step_keeps; eassumption|exact R].
    exists y. destruct Iy as [->|Iy]; [contradiction|]. auto.
Qed.

Lemma handles beg before outs o n a : hrun beg (mkOwner [] 0) before = Ret (outs, o) ->
  hstep beg o (HGet n) = Ret (HHandle a, o) ->
  exists c, In (a, c) (o_cols o) /\ c_name c = n /\
  forall later outs' o', hrun beg o later = Ret (outs', o') -> forall i,
    ((forall x, In x later -> ~ deletes n x) ->
       hstep beg o' (HUse a i) = let! r := py_get c i in Ret (match r with inl e => HExc e | inr v => HValue v end, o')) /\
    ((exists x, In x later /\ deletes n x) -> hstep beg o' (HUse a i) = Undef).
Proof.
  intros R G. assert (owner_inv o) as Iv.
  { eapply run_owner; [|exact R]. split; constructor. }
  cbn in G. unfold handle_of in G. destruct (find _ (o_cols o)) as [[a' c]|] eqn:F; [|discriminate]. cbn in G. injection G as ->.
  apply find_some in F. destruct F as [I E]. cbn in E. destruct (str_eqb_spec n (c_name c)) as [Nm|]; [|discriminate].
  exists c. split; [exact I|]. split; [congruence|]. intros later outs' o' R' i. symmetry in Nm. split.
  - intros D. pose proof (run_keeps beg a c n Nm later o outs' o' D I R') as I'. pose proof (run_owner beg later o outs' o' Iv R') as [ND' _].
    cbn. replace (find (fun p => fst p =? a) (o_cols o')) with (Some (a, c)); [reflexivity|].
    clear - ND' I'. induction (o_cols o') as [|[b d] l IH]; [destruct I'|]. cbn in *. inversion ND' as [|? ? NI ND]; subst.
    destruct I' as [X|X].
    + injection X as -> ->. rewrite Nat.eqb_refl. reflexivity.
    + destruct (Nat.eqb_spec b a) as [->|]; [|apply IH; assumption]. destruct NI. apply (in_map fst) in X. exact X.
  - intros D. pose proof (run_deletes beg a c n Nm later o outs' o' Iv D I R') as I'. cbn.
    destruct (find (fun p => fst p =? a) (o_cols o')) as [[b d]|] eqn:F; [|reflexivity].
    apply find_some in F. destruct F as [X Y]. cbn in Y. apply Nat.eqb_eq in Y. subst b. destruct I'. apply (in_map fst) in X. exact X.
Qed.

(** ** Training *)
Section Train.
Context {N : Num}.
Variable beg : begin_choice.
Variable loss_of : config N -> option (loss N).
Variable fit : store -> list str -> float_vector -> float_vector -> loss N -> config N -> res (trained N).

Lemma train_calls d rows y w c f : py_num_rows beg d = Ret rows ->
  (forall n col, py_col n d = Some col -> col_size col = Ret rows) ->
  py_train beg d y w (SOk, c) loss_of fit = py_ret f ->
  exists m lf names wh yh t, d = Some m /\ loss_of c = Some lf /\ fit m names wh yh lf c = Ret t /\
    throws (tr_status t) = None /\ f = tr_forest t /\
    names <> [] /\ NoDup names /\ (forall n, In n names <-> In n (cf_float_features c) \/ In n (cf_cat_features c)) /\
    (forall i, i < rows -> exists a b, wh i = Ret a /\ yh i = Ret b) /\
    (if List.length w =? 0 then forall i, wh i = Ret f32_one else List.length w = rows /\ forall i, wh i = vget w i) /\
    (if List.length y =? 0 then exists col r, ds_get (cf_target_column c) m = Some col /\ c_body col = BodyR r /\ forall i, yh i = r_get r i
     else List.length y = rows /\ forall i, yh i = vget y i).
Proof.
  intros R Sz E. unfold py_train in E. cbn [fst snd py_throw throws] in E. rewrite R in E. cbn [bind] in E.
  destruct (negb (List.length y =? 0) && negb (rows =? List.length y)) eqn:C1; [discriminate|].
  destruct (negb (List.length w =? 0) && negb (rows =? List.length w)) eqn:C2; [discriminate|].
  set (wh := (if List.length w =? 0 then fun _ => Ret f32_one else fun i => vget w i) : float_vector) in *.
  assert (if List.length w =? 0 then forall i, wh i = Ret f32_one else List.length w = rows /\ forall i, wh i = vget w i) as Wh.
  { unfold wh. destruct (List.length w =? 0); [reflexivity|]. cbn [negb andb] in C2. apply negb_false_iff, Nat.eqb_eq in C2. auto. }
  assert (forall i, i < rows -> exists a, wh i = Ret a) as Wd.
  { intros i I. destruct (List.length w =? 0); [eauto|]. destruct Wh as [L ->].
    destruct (nth_error w i) as [a|] eqn:A; [exists a; apply vget_some; exact A|apply nth_error_None in A; lia]. }
  clearbody wh.
  assert (exists yh : float_vector, (forall i, i < rows -> exists b, yh i = Ret b) /\
    (if List.length y =? 0 then exists m col r, d = Some m /\ ds_get (cf_target_column c) m = Some col /\ c_body col = BodyR r /\ forall i, yh i = r_get r i
     else List.length y = rows /\ forall i, yh i = vget y i) /\
    match loss_of c with
    | None => py_raise IosFailure
    | Some lf =>
        if List.length (nodup str_eq_dec (cf_cat_features c ++ cf_float_features c)) =? 0 then py_raise InvalidArgument
        else match d with
             | None => Undef
             | Some m => let! t := fit m (nodup str_eq_dec (cf_cat_features c ++ cf_float_features c)) wh yh lf c in
                         py_throw (tr_status t) (py_ret (tr_forest t))
             end
    end = py_ret f) as (yh & Yd & Yh & E').
  { destruct (List.length y =? 0) eqn:Y.
    - destruct (List.length (cf_target_column c) =? 0); [discriminate|].
      destruct d as [m|]; [|discriminate]. cbn [raw_target bind] in E.
      destruct (ds_get (cf_target_column c) m) as [col|] eqn:G; [|discriminate].
      destruct (c_body col) as [b|r|s] eqn:B; [discriminate| |discriminate]. cbn [py_bind py_ret bind] in E.
      exists (fun i => r_get r i). split; [|split; [|exact E]].
      + intros i I. specialize (Sz (cf_target_column c) col G). unfold col_size in Sz. rewrite B in Sz. injection Sz as Sz.
        unfold r_get. unfold r_size in Sz. destruct (nth_error (r_floats r) i) as [a|] eqn:A; [exists a; apply vget_some; exact A|].
        apply nth_error_None in A. lia.
      + exists m, col, r. auto.
    - cbn [py_bind py_ret bind] in E. cbn [negb andb] in C1. apply negb_false_iff, Nat.eqb_eq in C1.
      exists (fun i => vget y i). split; [|split; [auto|exact E]]. intros i I.
      destruct (nth_error y i) as [a|] eqn:A; [exists a; apply vget_some; exact A|apply nth_error_None in A; lia]. }
  destruct (loss_of c) as [lf|] eqn:Lf; [|discriminate].
  set (names := nodup str_eq_dec (cf_cat_features c ++ cf_float_features c)) in *.
  destruct (List.length names =? 0) eqn:NE; [discriminate|].
  destruct d as [m|]; [|discriminate]. destruct (fit m names wh yh lf c) as [t| |] eqn:Ft; [|discriminate..]. cbn [bind] in E'.
  unfold py_throw in E'. destruct (throws (tr_status t)) as [e|] eqn:Th; [discriminate|]. unfold py_ret in E'. injection E' as <-.
  exists m, lf, names, wh, yh, t. split; [reflexivity|]. split; [reflexivity|]. split; [exact Ft|]. split; [exact Th|]. split; [reflexivity|].
  split; [intros X; rewrite X in NE; discriminate|]. split; [apply NoDup_nodup|]. split.
  { intros n. unfold names. rewrite nodup_In, in_app_iff. tauto. }
  split.
  { intros i I. destruct (Wd i I) as [a A], (Yd i I) as [b B]. eauto. }
  split; [exact Wh|]. destruct (List.length y =? 0); [|exact Yh].
  destruct Yh as (m' & col & r & X & Y). injection X as <-. exists col, r. exact Y.
Qed.

(** A store that was never filled *)
Lemma train_null y w c : py_train beg None y w (SOk, c) loss_of fit =
  match y, w, cf_target_column c with
  | [], [], _ :: _ => Undef
  | _, _, _ => py_raise InvalidArgument
  end.
Proof.
  unfold py_train. cbn. destruct y as [|y0 y]; cbn; [|reflexivity]. destruct w as [|w0 w]; cbn; [|reflexivity].
  destruct (cf_target_column c); reflexivity.
Qed.

(** Bad input is rejected before anything is trained. *)
Lemma train_rejects d rows y w c : py_num_rows beg d = Ret rows ->
  (y <> [] /\ List.length y <> rows) \/ (w <> [] /\ List.length w <> rows) \/ (y = [] /\ cf_target_column c = []) \/
  (exists m, d = Some m /\ y = [] /\ forall col r, ds_get (cf_target_column c) m = Some col -> c_body col <> BodyR r) ->
  py_train beg d y w (SOk, c) loss_of fit = py_raise InvalidArgument.
Proof.
  intros R H. unfold py_train. cbn [fst snd py_throw throws]. rewrite R. cbn [bind].
  destruct (negb (List.length y =? 0) && negb (rows =? List.length y)) eqn:C1; [reflexivity|].
  destruct (negb (List.length w =? 0) && negb (rows =? List.length w)) eqn:C2; [reflexivity|].
  destruct H as [[Y L]|[[W L]|[[-> T]|(m & -> & -> & T)]]].
  - exfalso. destruct y as [|y0 y]; [congruence|]. cbn [List.length Nat.eqb negb andb] in C1. apply negb_false_iff, Nat.eqb_eq in C1. cbn in L. lia.
  - exfalso. destruct w as [|w0 w]; [congruence|]. cbn [List.length Nat.eqb negb andb] in C2. apply negb_false_iff, Nat.eqb_eq in C2. cbn in L. lia.
  - cbn [List.length Nat.eqb]. rewrite T. reflexivity.
  - cbn [List.length Nat.eqb]. destruct (List.length (cf_target_column c) =? 0); [reflexivity|]. cbn [raw_target bind].
    destruct (ds_get (cf_target_column c) m) as [col|]; [|reflexivity]. specialize (T col).
    destruct (c_body col) as [b|r|s]; [reflexivity| |reflexivity]. destruct (T r eq_refl eq_refl).
Qed.

Lemma mem_in n l : mem n l = true <-> In n l.
Proof.
  unfold mem. rewrite existsb_exists. split.
  - intros (x & I & E). destruct (str_eqb_spec n x) as [->|]; [exact I|discriminate].
  - intros I. exists n. split; [exact I|apply str_eqb_refl].
Qed.

Lemma names_in t m n : NoDup (map fst m) -> (forall n c, ds_get n m = Some c -> c_name c = n) ->
  In n (names_typed t (Some m)) <-> exists c, ds_get n m = Some c /\ col_type c = t.
Proof.
  intros ND K. cbn. rewrite in_map_iff. unfold ds_list_typed. split.
  - intros (c & <- & I). apply in_map_iff in I. destruct I as ([n' c'] & E & I). cbn in E. subst c'. apply filter_In in I. destruct I as [I T].
    apply in_assoc in I; [|exact ND]. cbn in T. exists c. rewrite (K n' c I). split; [exact I|]. destruct (col_type c), t; cbn in T; congruence.
  - intros (c & G & T). exists c. split; [apply K; exact G|]. apply in_map_iff. exists (n, c). split; [reflexivity|].
    apply filter_In. split; [apply assoc_in; exact G|]. cbn. rewrite T. destruct t; reflexivity.
Qed.

Lemma wrapper_missing m features y w conf parse : NoDup (map fst m) -> (forall n c, ds_get n m = Some c -> c_name c = n) ->
  (exists n, In n features /\ forall c, ds_get n m = Some c -> col_type c = TRaw) ->
  train_wrapper beg (Some m) features y w conf parse loss_of fit = py_raise InvalidArgument.
Proof.
  intros ND K (n & I & H). unfold train_wrapper.
  destruct (forallb _ features) eqn:F; [|reflexivity]. exfalso. rewrite forallb_forall in F. specialize (F n I).
  apply mem_in in F. apply in_app_iff in F.
  destruct F as [F|F]; apply filter_In in F; destruct F as [F _]; apply (names_in _ m n ND K) in F; destruct F as (c & G & T);
    specialize (H c G); congruence.
Qed.

Lemma wrapper_trains m features y w conf parse : NoDup (map fst m) -> (forall n c, ds_get n m = Some c -> c_name c = n) ->
  (forall n, In n features -> exists c, ds_get n m = Some c /\ col_type c <> TRaw) ->
  exists floats cats,
    train_wrapper beg (Some m) features y w conf parse loss_of fit =
      py_train beg (Some m) y w (parse (with_features floats cats conf)) loss_of fit /\
    (forall n, In n floats <-> In n features /\ exists c, ds_get n m = Some c /\ col_type c = TBucketized) /\
    (forall n, In n cats <-> In n features /\ exists c, ds_get n m = Some c /\ col_type c = TString).
Proof.
  intros ND K H. unfold train_wrapper.
  exists (filter (fun n => mem n features) (names_typed TBucketized (Some m))),
         (filter (fun n => mem n features) (names_typed TString (Some m))).
  split; [|split].
  - destruct (forallb _ features) eqn:F; [reflexivity|]. exfalso. assert (forall b : bool, b = false -> b = true -> False) as X by congruence.
    apply (X _ F). apply forallb_forall. intros n I. apply mem_in, in_app_iff. destruct (H n I) as (c & G & T).
    destruct (col_type c) eqn:Ty; [left|congruence|right]; apply filter_In; (split; [apply (names_in _ m n ND K); eauto|apply mem_in; exact I]).
  - intros n. rewrite filter_In, (names_in _ m n ND K), mem_in. tauto.
  - intros n. rewrite filter_In, (names_in _ m n ND K), mem_in. tauto.
Qed.
End Train.

(** Loading the features never fails in a training started by the wrapper. *)
Lemma wrapper_loads {N : Num} beg m rows features y w (conf : config N) loss_of fit f :
  NoDup (map fst m) -> (forall n c, ds_get n m = Some c -> c_name c = n /\ col_size c = Ret rows /\ col_status c = SOk) ->
  py_num_rows beg (Some m) = Ret rows ->
  train_wrapper beg (Some m) features y w conf (fun c => (SOk, c)) loss_of fit = py_ret f ->
  exists names wh yh lf c t, fit m names wh yh lf c = Ret t /\ f = tr_forest t /\ features <> [] /\
    (forall n, In n names <-> In n features) /\
    forall order, (forall n, In n (order names) <-> In n names) -> fst (load_features (fun n => ds_get n m) (order names)) = SOk.
Proof.
  intros ND K R E. assert (forall n c, ds_get n m = Some c -> c_name c = n) as K' by (intros n c G; apply (K n c G)).
  assert (forall n, In n features -> exists c, ds_get n m = Some c /\ col_type c <> TRaw) as H.
  { intros n I. destruct (ds_get n m) as [c|] eqn:G.
    - destruct (col_type c) eqn:Ty; [exists c; split; [reflexivity|congruence]| |exists c; split; [reflexivity|congruence]].
      rewrite (wrapper_missing beg loss_of fit m features y w conf _ ND K') in E; [discriminate|].
      exists n. split; [exact I|]. intros c' G'. congruence.
    - rewrite (wrapper_missing beg loss_of fit m features y w conf _ ND K') in E; [discriminate|].
      exists n. split; [exact I|]. intros c' G'. congruence. }
  destruct (wrapper_trains beg loss_of fit m features y w conf (fun c => (SOk, c)) ND K' H) as (floats & cats & E' & Fl & Ct).
  rewrite E in E'. symmetry in E'.
  assert (forall n col, py_col n (Some m) = Some col -> col_size col = Ret rows) as Sz by (intros n col G; apply (K n col G)).
  destruct (train_calls beg loss_of fit (Some m) rows y w _ f R Sz E') as (m' & lf & names & wh & yh & t & Dm & Lf & Ft & Th & Ef & NE & NDn & Nm & _).
  injection Dm as <-. exists names, wh, yh, lf, (with_features floats cats conf), t. split; [exact Ft|]. split; [exact Ef|].
  assert (forall n, In n names <-> In n features) as NF.
  { intros n. rewrite Nm. cbn. rewrite Fl, Ct. split; [tauto|]. intros I. destruct (H n I) as (c & G & T).
    destruct (col_type c) eqn:Ty; [left|congruence|right]; eauto. }
  split; [intros X; apply NE; destruct names as [|n l]; [reflexivity|]; exfalso; specialize (NF n); rewrite X in NF; apply NF; left; reflexivity|].
  split; [exact NF|]. intros order O. apply load_features_ok. intros n I. apply O, NF, H in I. destruct I as (c & G & _).
  exists c. split; [exact G|apply (K n c G)].
Qed.
