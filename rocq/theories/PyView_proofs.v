(** PyView_proofs.v - indexing and repr in Python. *)
From Coq Require Import SpecFloat DecimalString.
From Verif Require Import Base Base_proofs F32 F32_proofs Column ColumnSpec DataStore DataStore_proofs Strings Strings_proofs Driver Driver_proofs
  Python PythonSpec Python_proofs Slice_proofs PyView PyViewSpec.

(** ** Indexing *)
Lemma short_bucketizable l : (zlen l < 29999)%Z -> bucketizable l.
Proof.
  intros L hv (H1 & H2 & _) E. assert (NoDup hv) as ND.
  { clear E. assert (forall v, In v hv -> is_nan v = false) as Nn by (intros v I; apply (H1 v I)). clear H1. induction H2 as [|a hv F H IH]; constructor.
    - intros I. rewrite Forall_forall in F. pose proof (F a I) as X. assert (is_nan a = false) as Y by (apply Nn; left; reflexivity). revert X. assert (feqb a a = true) as -> by ford. discriminate.
    - apply IH. intros v I. apply Nn. right. exact I. }
  pose proof (NoDup_incl_length ND (fun v I => proj1 (H1 v I))) as X. unfold zlen in *. lia.
Qed.
Lemma picks_range vals a b : (0 <= a)%Z -> (b <= zlen vals)%Z -> forall sel, picks vals (py_range a b) sel <-> sel = rows_between (Z.to_nat a) (Z.to_nat b) vals.
Proof.
  intros A B. unfold picks, py_range, rows_between.
  assert (forall sel k j, (Z.to_nat a + j + k <= List.length vals)%nat -> Forall2 (fun i v => (0 <= i)%Z /\ nth_error vals (Z.to_nat i) = Some v) (map (fun k => (a + Z.of_nat k)%Z) (seq j k)) sel <->
            sel = firstn k (skipn (Z.to_nat a + j) vals)) as H.
  { intros sel k. revert sel. induction k as [|k IH]; intros sel j L; cbn [seq map].
    - cbn. split; [intros F; inversion F; reflexivity|intros ->; constructor].
    - destruct (skipn (Z.to_nat a + j) vals) as [|v t] eqn:E.
      { assert (List.length (skipn (Z.to_nat a + j) vals) = 0)%nat as X by (rewrite E; reflexivity). rewrite skipn_length in X. lia. }
      assert (nth_error vals (Z.to_nat a + j) = Some v) as Nv.
      { rewrite <- (firstn_skipn (Z.to_nat a + j) vals), E. rewrite nth_error_app2 by (rewrite firstn_length; lia). rewrite firstn_length, Nat.min_l by lia. rewrite Nat.sub_diag. reflexivity. }
      assert (skipn (Z.to_nat a + S j) vals = t) as Et.
      { replace (Z.to_nat a + S j)%nat with (S (Z.to_nat a + j)) by lia. clear - E. revert E. generalize (Z.to_nat a + j)%nat. intros k. revert vals. induction k as [|k IH]; intros [|x vals] E; cbn in *; try discriminate; [injection E as -> ->; reflexivity|].
        exact (IH _ E). }
      assert (Z.to_nat (a + Z.of_nat j) = Z.to_nat a + j)%nat as Zj by lia. cbn [firstn]. rewrite <- Et. specialize (fun sel => IH sel (S j) ltac:(lia)). split.
      + intros F. inversion F as [|i w l l' [_ W] F']; subst. rewrite Zj, Nv in W. injection W as <-. f_equal. apply IH. exact F'.
      + intros ->. constructor; [rewrite Zj; split; [lia|exact Nv]|]. apply IH. reflexivity. }
  intros sel. destruct (Z_le_gt_dec a b) as [L|L].
  - rewrite (H sel (Z.to_nat (b - a)) 0%nat) by (unfold zlen in *; lia). rewrite Nat.add_0_r. replace (Z.to_nat b - Z.to_nat a)%nat with (Z.to_nat (b - a)) by lia. reflexivity.
  - replace (Z.to_nat (b - a)) with 0%nat by lia. replace (Z.to_nat b - Z.to_nat a)%nat with 0%nat by lia. cbn. split; [intros F; inversion F; reflexivity|intros ->; constructor].
Qed.
Lemma range_in a b i : In i (py_range a b) <-> (a <= i < b)%Z.
Proof.
  unfold py_range. rewrite in_map_iff. split.
  - intros (k & <- & I). apply in_seq in I. lia.
  - intros H. exists (Z.to_nat (i - a)). split; [lia|]. apply in_seq. lia.
Qed.
Lemma range_length a b : zlen (py_range a b) = Z.max 0 (b - a).
Proof. unfold py_range, zlen. rewrite map_length, seq_length. lia. Qed.
Lemma floats_sub (vals sel : list value) : (forall v, In v sel -> In v vals) -> below_inf (floats_of vals) -> below_inf (floats_of sel).
Proof.
  intros I B v Iv. apply B. unfold floats_of in *. apply in_flat_map in Iv. destruct Iv as (x & Ix & X). apply in_flat_map. exists x. auto.
Qed.
Lemma floats_short vals : (zlen (floats_of vals) <= zlen vals)%Z.
Proof. unfold floats_of, zlen. induction vals as [|[s|x] vals IH]; cbn; lia. Qed.

Lemma slice_rows beg m rows vals a b : table m rows vals -> (Z.of_nat rows <= 2147483648)%Z -> tame m vals ->
  (0 <= a)%Z -> (b <= Z.of_nat rows)%Z -> (b - a < 29999)%Z ->
  exists d, py_slice beg (Some m) (py_range a b) = py_ret d /\ viewed (rows_between (Z.to_nat a) (Z.to_nat b)) vals m d.
Proof.
  intros T L Tm A B S. destruct (slice_ok beg m rows vals (py_range a b) T L) as (d & E & Sl).
  - rewrite range_length. lia.
  - rewrite Forall_forall. intros i I. apply range_in in I. lia.
  - intros n c sel G Ty P. destruct T as [_ T]. destruct (T n c G) as (_ & _ & Ln). apply picks_range in P; [|lia|unfold zlen; lia]. split.
    + apply (floats_sub (vals n)); [|exact (Tm n c G Ty)]. intros v I. subst sel. unfold rows_between in I.
      rewrite <- (firstn_skipn (Z.to_nat a) (vals n)), <- (firstn_skipn (Z.to_nat b - Z.to_nat a) (skipn (Z.to_nat a) (vals n))). rewrite !in_app_iff. auto.
    + apply short_bucketizable. eapply Z.le_lt_trans; [apply floats_short|]. subst sel. unfold rows_between, zlen. rewrite firstn_length, skipn_length. lia.
  - exists d. split; [exact E|]. intros n. specialize (Sl n). destruct (ds_get n m) as [c|] eqn:G, (py_col n d) as [c'|]; auto.
    destruct Sl as (T1 & T2 & sel & shown & P & H & Sm). split; [exact T1|]. split; [exact T2|]. exists shown. split; [exact H|].
    destruct T as [_ T]. destruct (T n c G) as (_ & _ & Ln). apply picks_range in P; [|lia|unfold zlen; lia]. subst sel. exact Sm.
Qed.
Lemma item_range beg m rows vals a b : table m rows vals -> (Z.of_nat rows <= 2147483648)%Z -> tame m vals -> (0 <= a)%Z -> (b <= Z.of_nat rows)%Z -> (b - a < 29999)%Z ->
  exists d, py_item beg (Some m) (FromTo a b) = py_ret (inl d) /\ viewed (rows_between (Z.to_nat a) (Z.to_nat b)) vals m d.
Proof. intros T L Tm A B S. destruct (slice_rows beg m rows vals a b T L Tm A B S) as (d & E & V). exists d. split; [|exact V]. unfold py_item. rewrite E. reflexivity. Qed.
Lemma item_row beg m rows vals i : table m rows vals -> (Z.of_nat rows <= 2147483648)%Z -> tame m vals -> (0 <= i < Z.of_nat rows)%Z ->
  exists d, py_item beg (Some m) (AtRow i) = py_ret (inl d) /\ viewed (rows_between (Z.to_nat i) (Z.to_nat i + 1)) vals m d.
Proof.
  intros T L Tm I. destruct (slice_rows beg m rows vals i (i + 1) T L Tm) as (d & E & V); [lia..|].
  exists d. split; [|replace (Z.to_nat i + 1)%nat with (Z.to_nat (i + 1)) by lia; exact V]. unfold py_item. unfold py_range in E.
  replace (Z.to_nat (i + 1 - i)) with 1%nat in E by lia. cbn [seq map] in E. rewrite Z.add_0_r in E. rewrite E. reflexivity.
Qed.
Lemma item_out beg m rows vals k l : table m rows vals -> (Z.of_nat rows <= 2147483648)%Z -> m <> [] ->
  match k with AtRow i => l = [i] | FromTo a b => l = py_range a b | AtRows l' => l = l' | Named _ => False end ->
  Forall int32 l -> ~ Forall (fun i => (0 <= i < Z.of_nat rows)%Z) l -> py_item beg (Some m) k = py_raise OutOfRange.
Proof.
  intros T L Ne K I O. pose proof (slice_out beg m rows vals l T L Ne I O) as X. destruct k; try contradiction; subst l; unfold py_item; rewrite X; reflexivity.
Qed.

(** ** Texts *)
Lemma split_at (stop : ascii -> Prop) a : forall b x y (r r' : str), (forall c, In c a -> ~ stop c) -> (forall c, In c b -> ~ stop c) -> stop x -> stop y ->
  a ++ x :: r = b ++ y :: r' -> a = b /\ x = y /\ r = r'.
Proof.
  induction a as [|c a IH]; intros [|c' b] x y r r' A B X Y E; cbn in E.
  - injection E as -> ->. auto.
  - injection E as -> _. exfalso. exact (B c' (or_introl eq_refl) X).
  - injection E as -> _. exfalso. exact (A y (or_introl eq_refl) Y).
  - injection E as -> E. destruct (IH b x y r r') as (-> & -> & ->); auto; intros z Z; [apply A|apply B]; right; exact Z.
Qed.
Definition tail_text (more : bool) : str := (if more then lit " ..." else []) ++ lit "])".
Lemma join_cons' w ws d t : join (w :: ws) d ++ t = w ++ match ws with [] => t | _ => d ++ join ws d ++ t end.
Proof. destruct ws as [|w' ws]; [rewrite join_cons; cbn; rewrite app_nil_r; reflexivity|]. rewrite join_cons2, <- !app_assoc. reflexivity. Qed.
Lemma strings_text show l : forall l' more more', (forall v, In v l -> plain show v) -> (forall v, In v l' -> plain show v) ->
  (forall v, In v l -> exists s, v = VString s) -> (forall v, In v l' -> exists s, v = VString s) ->
  join (map (value_text show) l) (lit ",") ++ tail_text more = join (map (value_text show) l') (lit ",") ++ tail_text more' -> Forall2 (looks_alike show) l l' /\ more = more'.
Proof.
  induction l as [|v l IH]; intros [|v' l'] more more' P P' S S' E.
  - split; [constructor|]. cbn in E. destruct more, more'; try reflexivity; discriminate.
  - exfalso. destruct (S' v' (or_introl eq_refl)) as [s ->]. cbn [map] in E. rewrite join_cons' in E. cbn in E. destruct more; discriminate.
  - exfalso. destruct (S v (or_introl eq_refl)) as [s ->]. cbn [map] in E. rewrite join_cons' in E. cbn in E. destruct more'; discriminate.
  - destruct (S v (or_introl eq_refl)) as [s ->]. destruct (S' v' (or_introl eq_refl)) as [s' ->]. cbn [map] in E. rewrite !join_cons' in E. cbn [value_text] in E.
    cbn [app] in E. injection E as E. rewrite <- !app_assoc in E. cbn [app] in E.
    assert (forall c, In c s -> c <> quotation_mark) as Q by (intros c I X; subst c; exact (P _ (or_introl eq_refl) I)).
    assert (forall c, In c s' -> c <> quotation_mark) as Q' by (intros c I X; subst c; exact (P' _ (or_introl eq_refl) I)).
    destruct (split_at (fun c => c = quotation_mark) s s' _ _ _ _ Q Q' eq_refl eq_refl E) as (-> & _ & R).
    assert (Forall2 (looks_alike show) l l' /\ more = more') as [F ->]; [|split; [constructor; [reflexivity|exact F]|reflexivity]].
    destruct l as [|v l], l' as [|v' l']; cbn [map] in R.
    + split; [constructor|]. destruct more, more'; try reflexivity; discriminate.
    + destruct more; discriminate.
    + destruct more'; discriminate.
    + injection R as R. apply IH; try (intros z Z; first [apply P; right; exact Z|apply P'; right; exact Z|apply S; right; exact Z|apply S'; right; exact Z]). exact R.
Qed.
Lemma floats_text show l : forall l' more more', (forall v, In v l -> plain show v) -> (forall v, In v l' -> plain show v) ->
  (forall v, In v l -> exists s, v = VFloat s) -> (forall v, In v l' -> exists s, v = VFloat s) ->
  join (map (value_text show) l) (lit ",") ++ tail_text more = join (map (value_text show) l') (lit ",") ++ tail_text more' -> Forall2 (looks_alike show) l l' /\ more = more'.
Proof.
  assert (Hd : forall ws more, exists c r, (match ws with [] => tail_text more | _ => lit "," ++ join ws (lit ",") ++ tail_text more end) = c :: r /\ (c = ","%char \/ c = " "%char \/ c = "]"%char) /\
                 (ws <> [] <-> c = ","%char) /\ (ws = [] -> c :: r = tail_text more)).
  { intros [|w ws] more; [destruct more; cbn; do 2 eexists; (split; [reflexivity|]); split; auto; split; auto; split; intros X; congruence|].
    cbn. do 2 eexists. split; [reflexivity|]. split; [auto|]. split; [split; [reflexivity|discriminate]|discriminate]. }
  induction l as [|v l IH]; intros [|v' l'] more more' P P' S S' E.
  - split; [constructor|]. cbn in E. destruct more, more'; try reflexivity; discriminate.
  - exfalso. destruct (S' v' (or_introl eq_refl)) as [x ->]. destruct (P' _ (or_introl eq_refl)) as [Ne Pl]. cbn [map] in E. rewrite join_cons' in E. cbn [value_text] in E.
    destruct (show x) as [|c r]; [congruence|]. destruct (Pl c (or_introl eq_refl)) as (X & Y & Z). cbn in E. destruct more; cbn in E; injection E; congruence.
  - exfalso. destruct (S v (or_introl eq_refl)) as [x ->]. destruct (P _ (or_introl eq_refl)) as [Ne Pl]. cbn [map] in E. rewrite join_cons' in E. cbn [value_text] in E.
    destruct (show x) as [|c r]; [congruence|]. destruct (Pl c (or_introl eq_refl)) as (X & Y & Z). cbn in E. destruct more'; cbn in E; injection E; congruence.
  - destruct (S v (or_introl eq_refl)) as [x ->]. destruct (S' v' (or_introl eq_refl)) as [x' ->]. cbn [map] in E. rewrite !join_cons' in E. cbn [value_text] in E.
    destruct (Hd (map (value_text show) l) more) as (c & r & E1 & Sc & Nc & Tc). destruct (Hd (map (value_text show) l') more') as (c' & r' & E2 & Sc' & Nc' & Tc').
    assert (show x ++ c :: r = show x' ++ c' :: r') as E0 by (rewrite <- E1, <- E2; exact E). clear E. rename E0 into E.
    destruct (split_at (fun c => c = ","%char \/ c = " "%char \/ c = "]"%char) (show x) (show x') c c' r r') as (X & Y & Z); auto.
    { intros z I J. destruct (P _ (or_introl eq_refl)) as [_ Pl]. destruct (Pl z I) as (? & ? & ?). tauto. } { intros z I J. destruct (P' _ (or_introl eq_refl)) as [_ Pl]. destruct (Pl z I) as (? & ? & ?). tauto. }
    subst c' r'. assert (Forall2 (looks_alike show) l l' /\ more = more') as [F ->]; [|split; [constructor; [exact X|exact F]|reflexivity]].
    destruct l as [|v l], l' as [|v' l']; cbn [map] in E1, E2.
    + split; [constructor|]. rewrite <- E1 in E2. destruct more, more'; try reflexivity; discriminate.
    + rewrite <- E1 in E2. destruct more; discriminate.
    + rewrite <- E1 in E2. destruct more'; discriminate.
    + rewrite <- E1 in E2. injection E2 as E2. symmetry in E2. apply IH; try (intros z Z; first [apply P; right; exact Z|apply P'; right; exact Z|apply S; right; exact Z|apply S'; right; exact Z]). exact E2.
Qed.
Lemma values_first c vals k : holds c vals -> (zlen vals < 2147483648)%Z -> (k <= List.length vals)%nat -> py_values c (map Z.of_nat (seq 0 k)) = py_ret (firstn k vals).
Proof.
  intros H L. assert (forall k j, (j + k <= List.length vals)%nat -> py_values c (map Z.of_nat (seq j k)) = py_ret (firstn k (skipn j vals))) as X; [|intros K; exact (X k 0%nat K)].
  clear k. induction k as [|k IH]; intros j K; [reflexivity|]. cbn [seq map py_values]. rewrite (get_checked c vals); [|assumption|lia|unfold int32, zlen in *; lia].
  replace (0 <=? Z.of_nat j)%Z with true by lia. rewrite Nat2Z.id. destruct (nth_error vals j) as [v|] eqn:E; [|apply nth_error_None in E; lia].
  cbn [py_bind py_ret bind]. unfold py_ret at 1. cbn [py_bind bind]. rewrite IH by lia. unfold py_ret, py_bind. cbn [bind]. do 2 f_equal.
  clear - E. revert j E. induction vals as [|x vals IH]; intros [|j] E; cbn in *; try discriminate; [injection E as ->; reflexivity|]. exact (IH j E).
Qed.
Lemma repr_text show c vals : holds c vals -> (zlen vals < 2147483648)%Z ->
  column_repr show c = py_ret (class_text (col_type c) ++ lit "([" ++ join (map (value_text show) (firstn 10 vals)) (lit ",") ++ (if (10 <? List.length vals)%nat then lit " ..." else []) ++ lit "])").
Proof.
  intros H L. unfold column_repr. rewrite (holds_size c vals H). cbn [bind]. rewrite (values_first c vals) by (auto; lia). unfold py_ret, py_bind. cbn [bind]. unfold shown_rows.
  assert (firstn (Nat.min (List.length vals) 10) vals = firstn 10 vals) as ->.
  { destruct (Nat.le_gt_cases (List.length vals) 10); [rewrite Nat.min_l, !firstn_all2 by lia; reflexivity|rewrite Nat.min_r by lia; reflexivity]. }
  assert ((Nat.min (List.length vals) 10 <? List.length vals)%nat = (10 <? List.length vals)%nat) as ->; [|reflexivity].
  destruct (Nat.ltb_spec 10 (List.length vals)), (Nat.ltb_spec (Nat.min (List.length vals) 10) (List.length vals)); try reflexivity; lia.
Qed.
Lemma repr_shown show c vals : holds c vals -> (zlen vals < 2147483648)%Z -> column_repr show c = py_ret (column_text show (col_type c) vals).
Proof.
  intros H L. rewrite (repr_text show c vals H L). f_equal. unfold column_text.
  assert (forall l, join (map (value_text show) l) (lit ",") = match l with [] => [] | v :: l => value_text show v ++ concat (map (fun v => lit "," ++ value_text show v) l) end) as ->.
  { intros [|v l]; [reflexivity|]. cbn [map]. rewrite join_cons, map_map. reflexivity. }
  destruct (firstn 10 vals), (col_type c), (10 <? List.length vals)%nat; reflexivity.
Qed.
Lemma held_kind c vals : holds c vals -> match col_type c with TString => forall v, In v vals -> exists s, v = VString s | _ => forall v, In v vals -> exists s, v = VFloat s end.
Proof.
  unfold holds, col_type. destruct (c_body c); intros [_ H]; intros v I; apply In_nth_error in I; destruct I as [i I]; destruct (H i v I) as (x & X & _); eauto.
Qed.
Lemma in_first {A} k (l : list A) x : In x (firstn k l) -> In x l.
Proof. intros I. rewrite <- (firstn_skipn k l). apply in_app_iff. auto. Qed.
Lemma ret_inj {A} (a b : A) : py_ret a = py_ret b -> a = b.
Proof. unfold py_ret. intros E. injection E as E. exact E. Qed.
Theorem repr_readable show c c' vals vals' t : holds c vals -> holds c' vals' -> (zlen vals < 2147483648)%Z -> (zlen vals' < 2147483648)%Z ->
  (forall v, In v (firstn 10 vals ++ firstn 10 vals') -> plain show v) -> column_repr show c = py_ret t -> column_repr show c' = py_ret t ->
  col_type c = col_type c' /\ Forall2 (looks_alike show) (firstn 10 vals) (firstn 10 vals') /\ (10 < List.length vals <-> 10 < List.length vals')%nat.
Proof.
  intros H H' L L' P E E'. rewrite (repr_text show c vals H L) in E. rewrite (repr_text show c' vals' H' L') in E'.
  rewrite <- E in E'. clear E t. apply ret_inj in E'. rename E' into E.
  assert (col_type c = col_type c') as T by (destruct (col_type c), (col_type c'); try reflexivity; discriminate). split; [exact T|].
  rewrite T in E. apply app_inv_head in E. apply app_inv_head in E.
  assert (Forall2 (looks_alike show) (firstn 10 vals) (firstn 10 vals') /\ (10 <? List.length vals)%nat = (10 <? List.length vals')%nat) as [F M].
  { pose proof (held_kind c vals H) as K. pose proof (held_kind c' vals' H') as K'. rewrite T in K.
    destruct (col_type c').
    - apply floats_text; [| | | |symmetry; exact E]; intros v I; [apply P; apply in_app_iff; auto..|apply K; eapply in_first; exact I|apply K'; eapply in_first; exact I].
    - apply floats_text; [| | | |symmetry; exact E]; intros v I; [apply P; apply in_app_iff; auto..|apply K; eapply in_first; exact I|apply K'; eapply in_first; exact I].
    - apply strings_text; [| | | |symmetry; exact E]; intros v I; [apply P; apply in_app_iff; auto..|apply K; eapply in_first; exact I|apply K'; eapply in_first; exact I]. }
  split; [exact F|]. rewrite <- !Nat.ltb_lt, M. reflexivity.
Qed.

(** ** The text of the store *)
Lemma digits_no_blank u c : In c (list_ascii_of_string (NilEmpty.string_of_uint u)) -> c <> " "%char.
Proof. induction u; cbn; intros I; try contradiction; destruct I as [<-|I]; try discriminate; auto. Qed.
Lemma dec_no_blank z c : In c (dec z) -> c <> " "%char.
Proof.
  assert (forall u, In c (list_ascii_of_string (NilZero.string_of_uint u)) -> c <> " "%char) as H.
  { intros u I. destruct u; try exact (digits_no_blank _ c I). cbn in I. destruct I as [<-|[]]. discriminate. }
  unfold dec, NilZero.string_of_int. destruct (Z.to_int z); cbn; intros I; [exact (H _ I)|]. destruct I as [<-|I]; [discriminate|exact (H _ I)].
Qed.
Lemma count_text a b (r r' : str) : dec a ++ " "%char :: r = dec b ++ " "%char :: r' -> a = b /\ r = r'.
Proof.
  intros E. destruct (split_at (fun c => c = " "%char) (dec a) (dec b) _ _ _ _ (dec_no_blank a) (dec_no_blank b) eq_refl eq_refl E) as (X & _ & Y).
  split; [exact (dec_inj _ _ X)|exact Y].
Qed.
Lemma typed_columns m t : NoDup (map fst m) -> has_columns (Some m) t (List.length (ds_list_typed t m)).
Proof.
  intros ND. exists (map fst (filter (fun p => ctype_eqb (col_type (snd p)) t) m)). split; [|split].
  - clear -ND. induction m as [|[n c] m IH]; cbn in *; [constructor|]. inversion ND; subst. destruct (ctype_eqb (col_type c) t); [|auto]. cbn. constructor; [|auto].
    intros I. apply in_map_iff in I. destruct I as ([n' c'] & E & I). apply filter_In in I. cbn in E. subst n'. apply H1. apply in_map_iff. exists (n, c'). tauto.
  - unfold ds_list_typed. rewrite !map_length. reflexivity.
  - intros n. rewrite in_map_iff. cbn [py_col]. unfold ds_get. split.
    + intros ([n' c] & E & I). cbn in E. subst n'. apply filter_In in I. destruct I as [I T]. cbn in T. exists c. split; [apply in_assoc; assumption|]. destruct (col_type c), t; try discriminate; reflexivity.
    + intros (c & G & T). exists (n, c). split; [reflexivity|]. apply filter_In. split; [apply assoc_in; exact G|]. cbn. subst t. destruct (col_type c); reflexivity.
Qed.
Lemma columns_unique d t k k' : has_columns d t k -> has_columns d t k' -> k = k'.
Proof.
  intros (l & N & L & H) (l' & N' & L' & H'). subst. apply Nat.le_antisymm; apply NoDup_incl_length; auto; intros n I.
  - apply H', H, I. - apply H, H', I.
Qed.
Lemma store_rows beg m rows vals : table m rows vals -> m <> [] -> ds_num_rows beg m = Ret rows.
Proof.
  intros [ND T] Ne. destruct (num_rows_in beg m Ne) as (n & c & I & ->). destruct (T n c (in_assoc _ _ _ ND I)) as (_ & H & <-). apply (holds_size c (vals n) H).
Qed.
Lemma store_text beg m rows vals : table m rows vals -> m <> [] ->
  exists b r s, has_columns (Some m) TBucketized b /\ has_columns (Some m) TRaw r /\ has_columns (Some m) TString s /\
  store_repr beg (Some m) = Ret (lit "DataStore with " ++ dec (Z.of_nat b) ++ lit " bucketized float, " ++ dec (Z.of_nat r) ++ lit " raw float and " ++
    dec (Z.of_nat s) ++ lit " string columns, each with " ++ dec (Z.of_nat rows) ++ lit " rows.").
Proof.
  intros T Ne. do 3 eexists. split; [apply typed_columns, T|]. split; [apply typed_columns, T|]. split; [apply typed_columns, T|].
  unfold store_repr. rewrite (store_rows beg m rows vals T Ne). reflexivity.
Qed.
Lemma res_inj {A} (a b : A) : Ret a = Ret b -> a = b.
Proof. intros E. injection E as E. exact E. Qed.
Theorem store_readable beg beg' m m' rows rows' vals vals' t : table m rows vals -> table m' rows' vals' -> m <> [] -> m' <> [] ->
  store_repr beg (Some m) = Ret t -> store_repr beg' (Some m') = Ret t ->
  rows = rows' /\ forall ty k, has_columns (Some m) ty k <-> has_columns (Some m') ty k.
Proof.
  intros T T' Ne Ne' E E'. destruct (store_text beg m rows vals T Ne) as (b & r & s & B & R & S & X). destruct (store_text beg' m' rows' vals' T' Ne') as (b' & r' & s' & B' & R' & S' & X').
  rewrite X in E. rewrite X' in E'. rewrite <- E in E'. clear E X X' t. apply res_inj in E'. apply app_inv_head in E'.
  cbn [lit list_ascii_of_string app] in E'.
  apply count_text in E'. destruct E' as [E1 E']. injection E' as E'. apply count_text in E'. destruct E' as [E2 E']. injection E' as E'.
  apply count_text in E'. destruct E' as [E3 E']. injection E' as E'. apply count_text in E'. destruct E' as [E4 _].
  apply Nat2Z.inj in E1, E2, E3, E4. subst. split; [reflexivity|].
  assert (forall ty q k, has_columns (Some m) ty q -> has_columns (Some m') ty q -> has_columns (Some m) ty k <-> has_columns (Some m') ty k) as H.
  { intros ty q k H H'. split; intros K; [rewrite (columns_unique _ _ _ _ K H)|rewrite (columns_unique _ _ _ _ K H')]; assumption. }
  intros [| |] k; eauto.
Qed.
Lemma empty_text beg d : store_repr beg d = Ret (lit "Empty data store.") <-> d = None.
Proof.
  split; [|intros ->; reflexivity]. destruct d as [m|]; [|reflexivity]. unfold store_repr. destruct (ds_num_rows beg m); cbn [bind]; intros E; [apply res_inj in E|discriminate..]. discriminate.
Qed.
Lemma item_named beg m rows vals n c : table m rows vals -> py_item beg (Some m) (Named n) = py_ret (inr c) <-> In c (py_cols (Some m)) /\ c_name c = n.
Proof.
  intros [ND T]. assert (forall n c, ds_get n m = Some c -> c_name c = n) as K by (intros; eapply T; eauto).
  rewrite (in_cols m c ND K). cbn [py_item py_col]. split.
  - destruct (ds_get n m) as [c'|] eqn:G; unfold py_ret, py_raise; intros E; [|discriminate]. injection E as <-. rewrite (K _ _ G). auto.
  - intros [G <-]. rewrite G. reflexivity.
Qed.
Lemma item_unnamed beg m rows vals n : table m rows vals -> py_item beg (Some m) (Named n) = py_raise InvalidArgument <-> ~ In n (map c_name (py_cols (Some m))).
Proof.
  intros [ND T]. assert (forall n c, ds_get n m = Some c -> c_name c = n) as K by (intros; eapply T; eauto).
  cbn [py_item py_col]. rewrite in_map_iff. split.
  - intros E (c & <- & I). apply (in_cols m c ND K) in I. rewrite I in E. unfold py_ret, py_raise in E. discriminate.
  - intros H. destruct (ds_get n m) as [c|] eqn:G; [|reflexivity]. exfalso. apply H. exists c. pose proof (K _ _ G). split; [assumption|]. apply (in_cols m c ND K). subst n. exact G.
Qed.
Lemma item_empty beg m rows vals a b : table m rows vals -> (Z.of_nat rows <= 2147483648)%Z -> (b <= a)%Z ->
  exists d, py_item beg (Some m) (FromTo a b) = py_ret (inl d) /\ viewed (fun _ => []) vals m d.
Proof.
  intros T L A. assert (py_range a b = py_range 0 0) as E by (unfold py_range; replace (Z.to_nat (b - a)) with 0%nat by lia; reflexivity).
  destruct (slice_ok beg m rows vals [] T L) as (d & X & Sl); [reflexivity|constructor| |].
  - intros n c sel G Ty P. inversion P; subst. split; [intros v []|apply short_bucketizable; reflexivity].
  - exists d. split; [unfold py_item; rewrite E; change (py_range 0 0) with (@nil Z); rewrite X; reflexivity|]. intros n. specialize (Sl n). destruct (ds_get n m) as [c|] eqn:G, (py_col n d) as [c'|]; auto.
    destruct Sl as (T1 & T2 & sel & shown & P & H & Sm). split; [exact T1|]. split; [exact T2|]. exists shown. split; [exact H|]. inversion P; subst. exact Sm.
Qed.
