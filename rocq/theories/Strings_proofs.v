From Verif Require Import Base Base_proofs F32 Strings.

Definition contains (d w : str) : Prop := exists a b, w = a ++ d ++ b.

Lemma prefixb_spec p : forall s, prefixb p s = true <-> exists r, s = p ++ r.
Proof.
  induction p as [|a p IH]; intros s; cbn.
  - split; eauto.
  - destruct s as [|b s]; [split; [discriminate|intros [r E]; discriminate]|].
    destruct (ascii_dec a b) as [->|N].
    + rewrite IH. split; intros [r E]; exists r; congruence.
    + split; [discriminate|intros [r E]; congruence].
Qed.

Lemma find_sub_some d s : forall pos, find_sub d s = Some pos ->
  s = firstn pos s ++ d ++ skipn (pos + List.length d) s /\
  (d <> [] -> ~ contains d (firstn pos s)) /\ pos + List.length d <= List.length s /\
  (forall q, q < pos -> prefixb d (skipn q s) = false).
Proof.
  induction s as [|c s IH]; intros pos; cbn [find_sub].
  - destruct (prefixb d []) eqn:E; [|discriminate]. intros [= <-]. cbn.
    apply prefixb_spec in E. destruct E as [r E]. destruct d; [|discriminate]. cbn in *.
    split; auto. split; [intros; congruence|]. split; auto. intros; lia.
  - destruct (prefixb d (c :: s)) eqn:E.
    + intros [= <-]. cbn [firstn Nat.add]. apply prefixb_spec in E. destruct E as [r E]. rewrite E.
      split; [cbn; f_equal; rewrite skipn_app, skipn_all, Nat.sub_diag; auto|].
      split; [|split; [rewrite app_length; lia|intros; lia]].
      intros Hd (a & b & H). destruct a, d; try discriminate; congruence.
    + destruct (find_sub d s) as [p|] eqn:F; [|discriminate]. cbn. intros [= <-].
      destruct (IH p eq_refl) as (H1 & H2 & H3 & H4). cbn [firstn skipn Nat.add].
      split; [cbn; congruence|]. split; [|split; [cbn; lia|]].
      * intros Hd (a & b & H). destruct a as [|x a].
        -- cbn in H. assert (prefixb d (c :: s) = true); [|congruence].
           apply prefixb_spec. rewrite H1. exists (b ++ d ++ skipn (p + List.length d) s).
           change (c :: firstn p s ++ d ++ skipn (p + List.length d) s)
             with ((c :: firstn p s) ++ d ++ skipn (p + List.length d) s).
           rewrite H, <- !app_assoc. auto.
        -- cbn in H. apply (H2 Hd). exists a, b. congruence.
      * intros q Hq. destruct q as [|q]; cbn; auto. apply H4. lia.
Qed.

Lemma find_sub_none d s : find_sub d s = None -> ~ contains d s.
Proof.
  induction s as [|c s IH]; cbn [find_sub].
  - destruct (prefixb d []) eqn:E; [discriminate|]. intros _ (a & b & H).
    destruct a; [|discriminate]. cbn in H. assert (prefixb d [] = true); [|congruence].
    apply prefixb_spec. eauto.
  - destruct (prefixb d (c :: s)) eqn:E; [discriminate|].
    destruct (find_sub d s); [discriminate|]. intros _ (a & b & H). destruct a as [|x a]; cbn in H.
    + assert (prefixb d (c :: s) = true); [|congruence]. apply prefixb_spec. eauto.
    + apply IH; auto. exists a, b. congruence.
Qed.

(** join, recursively *)
Lemma join_nil d : join [] d = [].
Proof. auto. Qed.

Lemma join_fold ws d : forall out,
  fst (fold_left (fun (st : str * bool) w =>
         let '(out, first) := st in
         ((if first then out else out ++ d) ++ w, false)) ws (out, false)) =
  out ++ concat (map (fun w => d ++ w) ws).
Proof.
  induction ws as [|w ws IH]; intros out; cbn.
  - rewrite app_nil_r. auto.
  - rewrite IH, <- !app_assoc. auto.
Qed.

Lemma join_cons w ws d : join (w :: ws) d = w ++ concat (map (fun w => d ++ w) ws).
Proof. unfold join. cbn. apply join_fold. Qed.

Lemma join_cons2 w w' ws d : join (w :: w' :: ws) d = w ++ d ++ join (w' :: ws) d.
Proof. rewrite !join_cons. cbn. rewrite <- !app_assoc. auto. Qed.

Lemma split_loop_ok d : d <> [] -> forall turns s, List.length s < turns ->
  exists w ws, split_loop turns d s = Ret (w :: ws) /\ join (w :: ws) d = s /\
    (forall x, In x (w :: ws) -> ~ contains d x).
Proof.
  intros Hd. induction turns as [|k IH]; intros s Hs; [lia|]. cbn [split_loop].
  destruct (find_sub d s) as [pos|] eqn:F.
  - destruct (find_sub_some _ _ _ F) as (E & Hc & Hl & _).
    assert (Hk : List.length (skipn (pos + List.length d) s) < k).
    { rewrite skipn_length. destruct d; [congruence|]. cbn in *. lia. }
    destruct (IH _ Hk) as (w & ws & E1 & E2 & E3). rewrite E1. cbn.
    eexists. eexists. split; [reflexivity|]. split.
    + rewrite join_cons2, E2. auto.
    + intros x [<-|H]; auto.
  - exists s, []. split; auto. split; [rewrite join_cons; cbn; apply app_nil_r|].
    intros x [<-|[]]. apply find_sub_none; auto.
Qed.

Lemma split_join s d : d <> [] ->
  exists ws, split s d = Ret ws /\ join ws d = s /\ (forall w, In w ws -> ~ contains d w) /\
    (ws = [] <-> s = []).
Proof.
  intros Hd. destruct s as [|c s].
  - exists []. split; auto. split; auto. split; [intros ? []|tauto].
  - destruct (split_loop_ok d Hd (S (List.length (c :: s))) (c :: s) ltac:(lia)) as (w & ws & E & J & C).
    exists (w :: ws). split; auto. split; auto. split; auto. split; discriminate.
Qed.

Lemma split_empty d : split [] d = Ret [].
Proof. auto. Qed.

Lemma contains_one (c : ascii) w : contains [c] w <-> In c w.
Proof.
  split.
  - intros (a & b & ->). apply in_app_iff. cbn. auto.
  - intros I. apply in_split in I. destruct I as (a & b & ->). exists a, b. auto.
Qed.

(** Uniqueness of the decomposition for one-character delimiters. *)
Lemma join_inj (c : ascii) : forall ws vs, ws <> [] -> vs <> [] ->
  (forall w, In w ws -> ~ In c w) -> (forall w, In w vs -> ~ In c w) ->
  join ws [c] = join vs [c] -> ws = vs.
Proof.
  assert (X : forall (a b : str) r s, ~ In c a -> ~ In c b -> a ++ c :: r = b ++ c :: s -> a = b /\ r = s).
  { induction a as [|x a IH]; intros [|y b] r s Ha Hb E; cbn in E.
    - split; congruence.
    - exfalso. apply Hb. left. congruence.
    - exfalso. apply Ha. left. congruence.
    - injection E as -> E. destruct (IH b r s) as [-> ->]; auto; intro; [apply Ha|apply Hb]; right; auto. }
  assert (Y : forall (a b : str) s, ~ In c a -> a <> b ++ c :: s).
  { intros a b s Ha ->. apply Ha. apply in_app_iff. cbn. auto. }
  induction ws as [|w ws IH]; intros vs Hw Hv Pw Pv E; [congruence|].
  destruct vs as [|v vs]; [congruence|].
  assert (Nw : ~ In c w) by (apply Pw; cbn; auto). assert (Nv : ~ In c v) by (apply Pv; cbn; auto).
  destruct ws as [|w' ws], vs as [|v' vs].
  - rewrite !join_cons in E. cbn in E. rewrite !app_nil_r in E. congruence.
  - exfalso. rewrite join_cons2 in E. rewrite join_cons in E. cbn [concat map] in E.
    rewrite app_nil_r in E. cbn in E. exact (Y _ _ _ Nw E).
  - exfalso. rewrite join_cons2 in E. rewrite (join_cons v) in E. cbn [concat map] in E.
    rewrite app_nil_r in E. cbn in E. exact (Y _ _ _ Nv (eq_sym E)).
  - rewrite !join_cons2 in E. cbn [app] in E. destruct (X _ _ _ _ Nw Nv E) as [-> E'].
    f_equal. apply IH; try congruence.
    + intros x Hx. apply Pw. right. auto.
    + intros x Hx. apply Pv. right. auto.
    + auto.
Qed.

Lemma join_split (c : ascii) ws : (forall w, In w ws -> ~ In c w) -> ws <> [[]] ->
  split (join ws [c]) [c] = Ret ws.
Proof.
  intros P N. destruct ws as [|w ws]; [reflexivity|].
  destruct (split_join (join (w :: ws) [c]) [c]) as (vs & E & J & C & Z); [congruence|].
  rewrite E. f_equal. apply (join_inj c); auto; try congruence.
  - intros Hv. apply Z in Hv. rewrite join_cons in Hv. apply app_eq_nil in Hv.
    destruct Hv as [-> Hv]. destruct ws; [congruence|]. discriminate.
  - intros x Hx I. apply (C x Hx). apply contains_one; auto.
Qed.

Lemma split_empty_delim s : s <> [] -> split s [] = Fatal.
Proof.
  intros N. assert (H : forall k s, split_loop k [] s = Fatal).
  { induction k as [|k IH]; intros t; cbn; auto. destruct t; cbn; rewrite ?IH; auto. }
  destruct s; [congruence|]. apply H.
Qed.

(** *** trimming *)
Lemma drop_while_spec f s : exists pre, s = pre ++ drop_while f s /\ forallb f pre = true /\
  match drop_while f s with [] => True | c :: _ => f c = false end.
Proof.
  induction s as [|c s IH]; cbn.
  - exists []. auto.
  - destruct (f c) eqn:E.
    + destruct IH as (pre & H1 & H2 & H3). exists (c :: pre). cbn. rewrite E, H2. split; [congruence|auto].
    + exists []. auto.
Qed.

Lemma forallb_rev {A} (f : A -> bool) l : forallb f (rev l) = forallb f l.
Proof.
  induction l; cbn; auto. rewrite forallb_app, IHl. cbn. rewrite andb_true_r, andb_comm. auto.
Qed.

Lemma trim_spec s : exists pre post, s = pre ++ trim s ++ post /\
  forallb is_space pre = true /\ forallb is_space post = true /\
  (forall c t, trim s = c :: t -> is_space c = false) /\
  (forall c t, trim s = t ++ [c] -> is_space c = false).
Proof.
  destruct (drop_while_spec is_space s) as (pre & E1 & F1 & G1).
  destruct (drop_while_spec is_space (rev (ltrim s))) as (post & E2 & F2 & G2).
  fold (ltrim s) in *. exists pre, (rev post).
  assert (E3 : ltrim s = trim s ++ rev post).
  { unfold trim, rtrim. rewrite <- rev_app_distr, <- E2, rev_involutive. auto. }
  split; [rewrite E1 at 1; rewrite E3; auto|]. split; auto. split; [rewrite forallb_rev; auto|]. split.
  - intros c t H. rewrite E3, H in G1. cbn in G1. auto.
  - intros c t H. unfold trim, rtrim in H. apply (f_equal (@rev ascii)) in H.
    rewrite rev_involutive, rev_app_distr in H. cbn in H. rewrite H in G2. auto.
Qed.

(** *** prefixes *)
Lemma mismatch_spec p : forall s,
  (mismatch_all p s = Undef <-> exists x, x <> [] /\ p = s ++ x) /\
  (mismatch_all p s = Ret true <-> exists r, s = p ++ r) /\ mismatch_all p s <> Fatal.
Proof.
  induction p as [|a p IH]; intros s; cbn.
  - split; [|split; [|discriminate]].
    + split; [discriminate|]. intros (x & N & E). symmetry in E. apply app_eq_nil in E. tauto.
    + split; eauto.
  - destruct s as [|b s].
    + split; [|split; [|discriminate]].
      * split; auto. intros _. exists (a :: p). split; [congruence|auto].
      * split; [discriminate|]. intros [r E]. discriminate.
    + destruct (ascii_dec a b) as [->|N].
      * destruct (IH s) as (I1 & I2 & I3). split; [|split; [|auto]].
        -- rewrite I1. split; intros (x & Hx & E); exists x; split; auto; cbn in *; congruence.
        -- rewrite I2. split; intros (r & E); exists r; congruence.
      * split; [|split; [|discriminate]].
        -- split; [discriminate|]. intros (x & _ & E). cbn in E. congruence.
        -- split; [discriminate|]. intros (r & E). congruence.
Qed.

Lemma has_suffix_spec s p :
  (has_suffix s p = Undef <-> exists x, x <> [] /\ p = x ++ s) /\
  (has_suffix s p = Ret true <-> exists r, s = r ++ p) /\ has_suffix s p <> Fatal.
Proof.
  unfold has_suffix. destruct (mismatch_spec (rev p) (rev s)) as (I1 & I2 & I3).
  split; [|split; auto].
  - rewrite I1. split; intros (x & Hx & E).
    + exists (rev x). split; [intros H; apply (f_equal (@rev ascii)) in H; rewrite rev_involutive in H; auto|].
      apply (f_equal (@rev ascii)) in E. rewrite rev_app_distr, !rev_involutive in E. auto.
    + exists (rev x). split; [intros H; apply (f_equal (@rev ascii)) in H; rewrite rev_involutive in H; auto|].
      rewrite E, rev_app_distr. auto.
  - rewrite I2. split; intros (r & E).
    + exists (rev r). apply (f_equal (@rev ascii)) in E. rewrite rev_app_distr, !rev_involutive in E. auto.
    + exists (rev r). rewrite E, rev_app_distr. auto.
Qed.

(** *** lines *)
Lemma getlines_split cur rest : getlines cur rest <> [].
Proof.
  revert cur. induction rest as [|c r IH]; intros cur; cbn [getlines]; [congruence|].
  destruct (ascii_dec c nl); [congruence|auto].
Qed.

Lemma getlines_join rest : forall cur, join (getlines cur rest) [nl] = rev cur ++ rest.
Proof.
  induction rest as [|c r IH]; intros cur; cbn [getlines].
  - rewrite join_cons. cbn. rewrite !app_nil_r. auto.
  - destruct (ascii_dec c nl) as [->|N].
    + destruct (getlines [] r) as [|w ws] eqn:E; [destruct (getlines_split [] r E)|].
      rewrite join_cons2, <- E, IH. auto.
    + rewrite IH. cbn. rewrite <- app_assoc. auto.
Qed.

Lemma getlines_no_nl rest : forall cur, ~ In nl cur -> forall l, In l (getlines cur rest) -> ~ In nl l.
Proof.
  induction rest as [|c r IH]; intros cur Hc l; cbn [getlines].
  - intros [<-|[]]. rewrite <- in_rev. auto.
  - destruct (ascii_dec c nl) as [->|N].
    + intros [<-|I]; [rewrite <- in_rev; auto|]. apply (IH [] (fun x => x) l I).
    + apply IH. intros [E|I]; auto.
Qed.
