(** Flat_proofs.v - reading flat files (property C18). *)
From Verif Require Import Base F32 Column ColumnSpec DataStore Strings StringsSpec Tsv Flatfiles FlatSpec Base_proofs Strings_proofs
  StringsText_proofs
  ColumnStr_proofs.

Lemma getlines_app l : ~ In nl l -> forall cur rest, getlines cur (l ++ rest) = getlines (rev l ++ cur) rest.
Proof.
  induction l as [|c l IH]; intros N cur rest; cbn [getlines app rev]; [reflexivity|].
  destruct (ascii_dec c nl) as [->|_]; [destruct N; left; reflexivity|].
  rewrite IH by (intros I; apply N; right; exact I). rewrite <- app_assoc. reflexivity.
Qed.

Lemma getlines_text ls final : (forall l, In l (final :: ls) -> ~ In nl l) -> getlines [] (text ls final) = ls ++ [final].
Proof.
  unfold text. induction ls as [|l ls IH]; cbn [map concat app]; intros N.
  - rewrite <- (app_nil_r final) at 1. rewrite getlines_app by (apply N; left; reflexivity). cbn [getlines].
    rewrite app_nil_r, rev_involutive. reflexivity.
  - rewrite <- !app_assoc. rewrite getlines_app by (apply N; right; left; reflexivity). cbn [getlines app].
    destruct (ascii_dec nl nl) as [_|F]; [|destruct F; reflexivity].
    rewrite app_nil_r, rev_involutive. f_equal. apply IH. intros k [K|K]; apply N; cbn; auto.
Qed.

Lemma drop_while_all f p s : forallb f p = true -> (forall c t, s = c :: t -> f c = false) -> drop_while f (p ++ s) = s.
Proof.
  induction p as [|c p IH]; cbn; intros P N.
  - destruct s as [|c t]; [reflexivity|]. cbn. rewrite (N c t eq_refl). reflexivity.
  - apply andb_true_iff in P. destruct P as [-> P]. auto.
Qed.

Lemma is_eol_spec c : is_eol c = true <-> c = nl \/ c = cr.
Proof. unfold is_eol. destruct (ascii_dec c nl), (ascii_dec c cr); subst; cbn; intuition congruence. Qed.

Lemma strip_stripped l s : ~ In nl l -> stripped l s -> strip_eol l = s.
Proof.
  intros N (post & -> & P & E). unfold strip_eol. rewrite rev_app_distr, drop_while_all; [apply rev_involutive| |].
  - rewrite forallb_rev. apply forallb_forall. intros c I. apply is_eol_spec. right. auto.
  - intros c t R. destruct (is_eol c) eqn:Q; [|reflexivity]. exfalso.
    assert (S : s = rev t ++ [c]) by (rewrite <- (rev_involutive s), R; reflexivity).
    apply is_eol_spec in Q. destruct Q as [->| ->].
    + apply N. rewrite S. rewrite !in_app_iff. cbn. auto.
    + exact (E _ S).
Qed.

Lemma strip_list ls ls' : (forall l, In l ls -> ~ In nl l) -> Forall2 stripped ls ls' -> map strip_eol ls = ls'.
Proof.
  intros N F. induction F as [|l s ls ls' S F IH]; [reflexivity|]. cbn. f_equal.
  - apply strip_stripped; [apply N; left; reflexivity|exact S].
  - apply IH. intros k K. apply N. right. exact K.
Qed.

Lemma file_lines_text ls final ls' final' : (forall l, In l (final :: ls) -> ~ In nl l) ->
  Forall2 stripped ls ls' -> stripped final final' -> file_lines (text ls final) = ls' ++ [final'].
Proof.
  intros N F S. unfold file_lines. rewrite getlines_text by exact N. rewrite map_app. cbn [map].
  f_equal; [apply strip_list; [|exact F]|f_equal; apply strip_stripped; [|exact S]]; intros; apply N; cbn; auto.
Qed.

Lemma is_comment_spec l : is_comment l = true <-> starts_with_hash l.
Proof.
  unfold starts_with_hash. destruct l as [|c t]; cbn [is_comment]; [split; [discriminate|intros (t & T); discriminate]|].
  destruct (ascii_dec c hash) as [->|N]; split; intros H; eauto; try discriminate.
  destruct H as (t' & T). injection T as -> _. destruct N. reflexivity.
Qed.

Lemma flat_rows_spec ls final : flat_rows (ls ++ [final]) =
  filter (fun l => negb (is_comment l)) (ls ++ match final with [] => [] | _ => [final] end).
Proof.
  induction ls as [|l ls IH].
  - cbn [app flat_rows]. destruct final as [|c t]; [reflexivity|]. cbn [filter].
    destruct (is_comment (c :: t)); reflexivity.
  - cbn [app filter]. rewrite <- IH.
    destruct (ls ++ [final]) as [|a t] eqn:E; [destruct ls; discriminate|].
    change (flat_rows (l :: a :: t)) with (if is_comment l then flat_rows (a :: t) else l :: flat_rows (a :: t)).
    destruct (is_comment l); reflexivity.
Qed.

Lemma kept_rows all keep : Forall2 (fun l (k : bool) => k = false <-> starts_with_hash l) all keep ->
  map fst (filter snd (combine all keep)) = filter (fun l => negb (is_comment l)) all.
Proof.
  induction 1 as [|l k all keep K F IH]; [reflexivity|]. cbn.
  assert (E : negb (is_comment l) = k).
  { rewrite <- is_comment_spec in K. destruct (is_comment l), k; cbn; intuition congruence. }
  rewrite E. destruct k; cbn; rewrite IH; reflexivity.
Qed.

Lemma flat_rows_of ls final rows : rows_of ls final rows -> flat_rows (ls ++ [final]) = rows.
Proof. intros (keep & F & ->). rewrite flat_rows_spec. symmetry. apply kept_rows, F. Qed.

Lemma rows_of_exists ls final : exists rows, rows_of ls final rows.
Proof.
  exists (filter (fun l => negb (is_comment l)) (ls ++ match final with [] => [] | _ => [final] end)).
  exists (map (fun l => negb (is_comment l)) (ls ++ match final with [] => [] | _ => [final] end)).
  cbv zeta. set (all := ls ++ _).
  assert (F : Forall2 (fun l (k : bool) => k = false <-> starts_with_hash l) all (map (fun l => negb (is_comment l)) all)).
  { induction all as [|l t IH]; cbn; constructor; [|exact IH]. rewrite <- is_comment_spec.
    destruct (is_comment l); cbn; intuition discriminate. }
  split; [exact F|]. symmetry. apply kept_rows, F.
Qed.

Lemma find_flatfile_spec fs dirs name content : find_flatfile fs dirs name = Some content <->
  found_in fs dirs name content.
Proof.
  unfold found_in. induction dirs as [|d t IH]; cbn.
  - split; [discriminate|]. intros ([|] & ? & ? & E & _); discriminate.
  - destruct (fs (d ++ "/"%char :: name)) as [c|] eqn:F.
    + split.
      * intros [= <-]. exists [], d, t. cbn. intuition.
      * intros ([|b before] & d' & after & E & G & N); cbn in E; inversion E; subst.
        -- congruence.
        -- rewrite (N b) in F by (left; reflexivity). discriminate.
    + rewrite IH. split.
      * intros (before & d' & after & -> & G & N). exists (d :: before), d', after. cbn. intuition (subst; auto).
      * intros ([|b before] & d' & after & E & G & N); cbn in E; inversion E; subst.
        -- congruence.
        -- exists before, d', after. split; [reflexivity|]. split; [exact G|]. intros b' I. apply N. right. exact I.
Qed.

Lemma find_flatfile_none fs dirs name : find_flatfile fs dirs name = None <->
  forall d, In d dirs -> fs (d ++ "/"%char :: name) = None.
Proof.
  induction dirs as [|d t IH]; cbn; [intuition|].
  destruct (fs (d ++ "/"%char :: name)) as [c|] eqn:F.
  - split; [discriminate|]. intros H. rewrite H in F by auto. discriminate.
  - rewrite IH. intuition (subst; auto).
Qed.

Section Load.
Variables (fs : files_t) (strtof : strtof_t) (dirs : list str) (name : str).
Variables (ls : list str) (final : str) (ls' : list str) (final' : str) (rows : list str).
Hypothesis Found : found_in fs dirs name (text ls final).
Hypothesis NoNl : forall l, In l (final :: ls) -> ~ In nl l.
Hypothesis Ls : Forall2 stripped ls ls'.
Hypothesis Final : stripped final final'.
Hypothesis Rows : rows_of ls' final' rows.

Lemma load_eq first more : ls' ++ [final'] = first :: more -> load_flat fs strtof dirs name =
  if str_eqb first (lit "# dtype=strings") then Ret (Some (mkCol name (BodyS (create_string_column rows))))
  else if str_eqb first (lit "# dtype=raw_floats") then
    Ret (Some (mkCol name (BodyR (create_raw (map (flat_float strtof) rows)))))
  else if str_eqb first (lit "# dtype=bucketized_floats") then
    let! c := create_bucketized default_buckets (map (flat_float strtof) rows) in Ret (Some (mkCol name (BodyB c)))
  else Ret None.
Proof.
  intros E. unfold load_flat. apply find_flatfile_spec in Found. rewrite Found.
  rewrite (file_lines_text ls final ls' final') by assumption.
  rewrite (flat_rows_of _ _ _ Rows), E. reflexivity.
Qed.

Lemma load_strings : hd_error (ls' ++ [final']) = Some (lit "# dtype=strings") -> fits_32_bits rows ->
  exists c, load_flat fs strtof dirs name = Ret (Some (mkCol name (BodyS c))) /\
    s_status c = SOk /\ str_size c = Ret (List.length rows) /\
    forall i s, nth_error rows i = Some s -> str_row c i = Ret s.
Proof.
  intros H F. destruct (ls' ++ [final']) as [|first more] eqn:E; [discriminate|]. cbn in H. injection H as ->.
  rewrite (load_eq _ _ E). change (str_eqb (lit "# dtype=strings") (lit "# dtype=strings")) with true. cbv iota.
  exists (create_string_column rows). split; [reflexivity|].
  assert (Q : create_string_column rows = string_column_of [rows]) by reflexivity. rewrite Q.
  pose proof (string_column_roundtrip [rows]) as R. cbn [concat] in R. rewrite app_nil_r in R. auto.
Qed.

Lemma load_raw : hd_error (ls' ++ [final']) = Some (lit "# dtype=raw_floats") ->
  exists c, load_flat fs strtof dirs name = Ret (Some (mkCol name (BodyR c))) /\
    r_status c = SOk /\ r_size c = List.length rows /\
    forall i s, nth_error rows i = Some s ->
      r_get c i = Ret (match number strtof s with Some v => v | None => fnan end).
Proof.
  intros H. destruct (ls' ++ [final']) as [|first more] eqn:E; [discriminate|]. cbn in H. injection H as ->.
  rewrite (load_eq _ _ E). cbn [str_eqb]. eexists. split; [reflexivity|].
  split; [reflexivity|]. split; [unfold r_size; cbn; apply map_length|].
  intros i s N. unfold r_get, create_raw. cbn. unfold vget. rewrite (map_nth_error _ _ _ N).
  unfold flat_float. rewrite string_cast_number. reflexivity.
Qed.

Lemma load_bucketized : hd_error (ls' ++ [final']) = Some (lit "# dtype=bucketized_floats") ->
  load_flat fs strtof dirs name =
    (let! c := create_bucketized default_buckets
                 (map (fun s => match number strtof s with Some v => v | None => fnan end) rows) in
     Ret (Some (mkCol name (BodyB c)))).
Proof.
  intros H. destruct (ls' ++ [final']) as [|first more] eqn:E; [discriminate|]. cbn in H. injection H as ->.
  rewrite (load_eq _ _ E).
  rewrite (map_ext (fun s => match number strtof s with Some v => v | None => fnan end) (flat_float strtof));
    [reflexivity|]. intros s. unfold flat_float. rewrite string_cast_number. reflexivity.
Qed.

Lemma load_unknown first : hd_error (ls' ++ [final']) = Some first ->
  first <> lit "# dtype=strings" -> first <> lit "# dtype=raw_floats" -> first <> lit "# dtype=bucketized_floats" ->
  load_flat fs strtof dirs name = Ret None.
Proof.
  intros H N1 N2 N3. destruct (ls' ++ [final']) as [|f more] eqn:E; [discriminate|]. cbn in H. injection H as ->.
  rewrite (load_eq _ _ E).
  destruct (str_eqb_spec first (lit "# dtype=strings")); [contradiction|].
  destruct (str_eqb_spec first (lit "# dtype=raw_floats")); [contradiction|].
  destruct (str_eqb_spec first (lit "# dtype=bucketized_floats")); [contradiction|]. reflexivity.
Qed.
End Load.

Lemma load_missing fs strtof dirs name : (forall d, In d dirs -> fs (d ++ "/"%char :: name) = None) ->
  load_flat fs strtof dirs name = Ret None.
Proof. intros H. unfold load_flat. apply find_flatfile_none in H. rewrite H. reflexivity. Qed.

Lemma stripped_refl l : (forall s', l <> s' ++ [cr]) -> stripped l l.
Proof. intros H. exists []. rewrite app_nil_r. cbn. intuition. Qed.

Lemma load_roundtrip fs strtof dirs name rows :
  found_in fs dirs name (text (lit "# dtype=strings" :: rows) []) ->
  (forall r, In r rows -> ~ In nl r /\ ~ starts_with_hash r /\ (forall p, r <> p ++ [cr])) ->
  fits_32_bits rows ->
  exists c, load_flat fs strtof dirs name = Ret (Some (mkCol name (BodyS c))) /\
    str_size c = Ret (List.length rows) /\
    forall i s, nth_error rows i = Some s -> str_row c i = Ret s.
Proof.
  intros F R B.
  destruct (load_strings fs strtof dirs name (lit "# dtype=strings" :: rows) [] (lit "# dtype=strings" :: rows) [] rows)
    as (c & L & _ & S & G); auto.
  - intros l [<-|[<-|I]]; [intros []| |apply R, I]. cbn. intuition discriminate.
  - constructor.
    + apply stripped_refl. intros s' E. apply (f_equal (@rev ascii)) in E. rewrite rev_app_distr in E. cbn in E. discriminate.
    + clear F B. induction rows as [|r rows IH]; constructor.
      * apply stripped_refl, R. left. reflexivity.
      * apply IH. intros; apply R; right; assumption.
  - apply stripped_refl. intros [|]; discriminate.
  - exists (false :: map (fun _ => true) rows). cbv zeta. rewrite app_nil_r. split.
    + constructor; [split; [intros _; exists (tl (lit "# dtype=strings")); reflexivity|reflexivity]|].
      clear F B. induction rows as [|r rows IH]; cbn; constructor.
      * split; [discriminate|]. intros H. destruct (R r) as (_ & K & _); [left; reflexivity|contradiction].
      * apply IH. intros; apply R; right; assumption.
    + cbn. clear. induction rows; cbn; congruence.
  - eauto.
Qed.

(** The reading of HasPrefix at the end of an empty line does not matter for a real comment mark. *)
Lemma is_comment_has_prefix l : l <> [] -> has_prefix l [hash] = Ret (is_comment l).
Proof.
  destruct l as [|c t]; [congruence|]. intros _. unfold has_prefix, is_comment. cbn [mismatch_all].
  destruct (ascii_dec hash c), (ascii_dec c hash); congruence.
Qed.
