(** Metrics_proofs.v - lemmas for C85. *)
From Coq Require Import Reals Lra Lia Psatz.
From Verif Require Import Base Base_proofs F32 Num Strings Convert Metrics MetricsSpec.

(** ** Lines *)
Lemma input_char cur l rest : ~ In nl l -> input_lines cur (l ++ rest) = input_lines (rev l ++ cur) rest.
Proof.
  revert cur. induction l as [|c l IH]; intros cur H; [reflexivity|]. cbn [app input_lines]. destruct (ascii_dec c nl) as [->|_]; [exfalso; apply H; left; reflexivity|].
  rewrite IH by (intros I; apply H; right; exact I). cbn [rev]. rewrite <- app_assoc. reflexivity.
Qed.
Lemma input_line l rest : ~ In nl l -> input_lines [] (l ++ nl :: rest) = (l ++ [nl]) :: input_lines [] rest.
Proof.
  intros H. rewrite input_char by exact H. rewrite app_nil_r. cbn [input_lines]. destruct (ascii_dec nl nl) as [_|X]; [|contradiction]. cbn [rev]. rewrite rev_involutive. reflexivity.
Qed.
Lemma comment_dec l : {comment l} + {~ comment l}.
Proof. destruct l as [|c l]; [right; intros [t E]; discriminate E|]. destruct (ascii_dec c "#"%char) as [->|D]; [left; exists l; reflexivity|right; intros [t E]; congruence]. Qed.
Lemma flat_of_file content lines : data_file content lines -> flat_lines content = lines.
Proof.
  unfold flat_lines. intros F.
  assert (forall l, comment l -> (match l with c :: _ => negb (is c "#"%char) | [] => true end) = false) as Yes by (intros l [t ->]; reflexivity).
  assert (forall l, ~ comment l -> (match l with c :: _ => negb (is c "#"%char) | [] => true end) = true) as No.
  { intros [|c l] H; [reflexivity|]. unfold is. destruct (ascii_dec c "#"%char) as [->|_]; [exfalso; apply H; exists l; reflexivity|reflexivity]. }
  assert (forall l, comment l -> comment (l ++ [nl])) as Cc by (intros l [t ->]; eexists; reflexivity).
  assert (forall l, ~ comment l -> ~ comment (l ++ [nl])) as Cn by (intros [|c l] H [t E]; [discriminate E|]; apply H; injection E as -> _; eexists; reflexivity).
  induction F as [|l Hl Hn Hc|l Hn Hc|l rest lines Hn Hc F IH|l rest lines Hn Hc F IH].
  - reflexivity.
  - rewrite <- (app_nil_r l) at 1. rewrite input_char by exact Hn. cbn [input_lines]. rewrite app_nil_r, rev_involutive. destruct (rev l) eqn:E.
    + exfalso. apply Hl. rewrite <- (rev_involutive l), E. reflexivity.
    + cbn [filter]. rewrite No by exact Hc. reflexivity.
  - rewrite <- (app_nil_r l). rewrite input_char by exact Hn. cbn [input_lines]. rewrite app_nil_r, rev_involutive. destruct (rev l) eqn:E; [reflexivity|].
    cbn [filter]. rewrite Yes by exact Hc. reflexivity.
  - change line_end with nl. rewrite input_line by exact Hn. cbn [filter]. rewrite No by (apply Cn; exact Hc). rewrite IH. reflexivity.
  - change line_end with nl. rewrite input_line by exact Hn. cbn [filter]. rewrite Yes by (apply Cc; exact Hc). exact IH.
Qed.
Lemma file_total content : data_file content (flat_lines content).
Proof.
  assert (forall n content, List.length content <= n -> exists lines, data_file content lines) as G.
  { clear content. induction n as [|n IH]; intros content L; [destruct content; [exists []; constructor|cbn in L; lia]|].
    destruct (in_dec ascii_dec line_end content) as [I|I].
    - assert (exists l rest, content = l ++ line_end :: rest /\ ~ In line_end l) as (l & rest & -> & Hn).
      { clear - I. induction content as [|c content IH]; [destruct I|]. destruct (ascii_dec c line_end) as [->|D]; [exists [], content; split; [reflexivity|intros []]|].
        destruct IH as (l & rest & -> & H); [destruct I as [E|I]; [contradiction|exact I]|]. exists (c :: l), rest. split; [reflexivity|]. intros [E|J]; [congruence|exact (H J)]. }
      destruct (IH rest) as [lines F]; [rewrite app_length in L; cbn in L; lia|].
      destruct (comment_dec l) as [C|C]; eexists; [apply FileComment|apply FileLine]; eassumption.
    - destruct (comment_dec content) as [C|C]; [exists []; apply FileLastComment; assumption|]. destruct content as [|c content]; [exists []; constructor|].
      exists [c :: content]. apply FileLast; [discriminate|exact I|exact C]. }
  destruct (G _ content (Nat.le_refl _)) as [lines F]. rewrite (flat_of_file _ _ F). exact F.
Qed.

(** ** Groups *)
Section Groups.
Context {N : Num} (read : str -> option N).
Notation row := (str * (N * N))%type.
Definition reads (lines : list str) (xs : list N) : Prop := Forall2 (fun l x => read l = Some x) lines xs.
Definition with_group (g : str) (l : list (N * N)) : list row := map (fun x => (g, x)) l.
Definition kept (short : bool) {A} (l : list A) : list A := if short then removelast l else l.
Lemma first_part {G A} (x : G * A) rows parts : runs (x :: rows) parts -> exists a rest, parts = a :: rest /\ In x a.
Proof.
  intros (E & F & _). destruct parts as [|a rest]; [discriminate E|]. exists a, rest. split; [reflexivity|]. inversion F as [|? ? [Na _] _]; subst. destruct a as [|y a]; [contradiction|].
  cbn in E. injection E as -> _. left. reflexivity.
Qed.
Lemma groups_ok gids : forall scores targets xs ts, reads scores xs -> reads targets ts -> forall g group, group <> [] ->
  exists parts, runs (with_group g group ++ combine gids (combine xs ts)) parts /\
    by_group read gids scores targets (Some g) group = (map (map snd) (kept (Nat.min (List.length scores) (List.length targets) <? List.length gids) parts), true).
Proof.
  assert (forall g (group : list (N * N)), group <> [] -> runs (with_group g group) [with_group g group]) as One.
  { intros g group Ng. split; [cbn; apply app_nil_r|]. split.
    - constructor; [|constructor]. split; [destruct group; [contradiction|discriminate]|]. exists g. intros r I. unfold with_group in I. apply in_map_iff in I. destruct I as (x & <- & _). reflexivity.
    - intros before a b after x y E. exfalso. destruct before as [|c before]; [discriminate E|]. injection E as _ E. destruct before; discriminate E. }
  assert (forall g (group : list (N * N)), map snd (with_group g group) = group) as Snd by (intros; unfold with_group; rewrite map_map; apply map_id).
  induction gids as [|gid gids IH]; intros scores targets xs ts Rs Rt g group Ng.
  - cbn [combine app by_group]. rewrite app_nil_r. exists [with_group g group]. split; [apply One, Ng|]. destruct (Nat.min _ _ <? _) eqn:E; [apply Nat.ltb_lt in E; cbn in E; lia|].
    cbn [kept map]. rewrite Snd. destruct group; [contradiction|reflexivity].
  - destruct Rs as [|s x scores xs Es Rs].
    { cbn [combine by_group List.length Nat.min]. exists [with_group g group]. destruct gids; cbn [combine]; rewrite app_nil_r; (split; [apply One, Ng|reflexivity]). }
    cbn [by_group]. rewrite Es. destruct Rt as [|t y targets ts Et Rt].
    { cbn [combine List.length]. rewrite Nat.min_0_r. exists [with_group g group]. rewrite app_nil_r. split; [apply One, Ng|reflexivity]. }
    rewrite Et. cbn [combine List.length Nat.min].
    assert ((S (Nat.min (List.length scores) (List.length targets)) <? S (List.length gids)) = (Nat.min (List.length scores) (List.length targets) <? List.length gids)) as -> by reflexivity.
    destruct (str_eqb gid g) eqn:Eg.
    + destruct (str_eqb_spec gid g) as [->|]; [|discriminate Eg]. destruct (IH scores targets xs ts Rs Rt g (group ++ [(x, y)]) ltac:(intros X; destruct group; discriminate X)) as (parts & R & B).
      exists parts. split; [|exact B]. unfold with_group in R. rewrite map_app, <- app_assoc in R. exact R.
    + destruct (IH scores targets xs ts Rs Rt gid [(x, y)] ltac:(discriminate)) as (parts & R & B). rewrite B. change (with_group gid [(x, y)]) with [(gid, (x, y))] in R. cbn [app] in R.
      destruct (first_part _ _ _ R) as (a & rest & -> & Ia). exists (with_group g group :: a :: rest). split.
      * destruct R as (C & F & D). split; [cbn [concat] in *; rewrite C; reflexivity|]. destruct (One g group Ng) as (_ & Fg & _). split; [constructor; [inversion Fg; assumption|exact F]|].
        intros before p q after u v E Iu Iv. destruct before as [|b before].
        -- injection E as <- <- _. unfold with_group in Iu. apply in_map_iff in Iu. destruct Iu as (z & <- & _). inversion F as [|? ? [_ [ga Ga]] _]; subst.
           cbn [fst]. rewrite (Ga v Iv), <- (Ga _ Ia). cbn [fst]. intros X. subst. rewrite str_eqb_refl in Eg. discriminate Eg.
        -- injection E as _ E. exact (D before p q after u v E Iu Iv).
      * unfold kept. destruct (_ <? _); [|rewrite <- (Snd g group) at 1; reflexivity]. cbn [removelast map]. rewrite Snd. reflexivity.
Qed.
Lemma by_group_ok gids scores targets xs ts : reads scores xs -> reads targets ts ->
  exists parts, runs (combine gids (combine xs ts)) parts /\
    by_group read gids scores targets None [] = (map (map snd) (kept (Nat.min (List.length scores) (List.length targets) <? List.length gids) parts), true).
Proof.
  intros Rs Rt. assert (runs (@nil row) []) as Nil.
  { split; [reflexivity|]. split; [constructor|]. intros before a b after x y E. destruct before; discriminate E. }
  destruct gids as [|gid gids].
  - exists []. split; [exact Nil|]. unfold kept. destruct (_ <? _); reflexivity.
  - destruct Rs as [|s x scores xs Es Rs]; [exists []; split; [exact Nil|reflexivity]|]. cbn [by_group]. rewrite Es.
    destruct Rt as [|t y targets ts Et Rt]; [exists []; split; [exact Nil|rewrite Nat.min_0_r; reflexivity]|]. rewrite Et.
    destruct (groups_ok gids scores targets xs ts Rs Rt gid [(x, y)] ltac:(discriminate)) as (parts & R & B). exists parts. split; [exact R|]. exact B.
Qed.
End Groups.

(** ** Dictionaries *)
Section Dict.
Context {N : Num}.
Definition dv (o : option (@value N)) : value := match o with Some v => v | None => inl 0%Z end.
Lemma assoc_add k k' v (d : dict) : assoc k (add_to k' v d) = if str_eqb k k' then Some (plus (dv (assoc k d)) v) else assoc k d.
Proof.
  induction d as [|[q u] d IH]; cbn [add_to assoc].
  - destruct (str_eqb k k'); reflexivity.
  - destruct (str_eqb_spec k' q) as [<-|D].
    + cbn [assoc]. destruct (str_eqb k k'); reflexivity.
    + cbn [assoc]. rewrite IH. destruct (str_eqb_spec k q) as [->|_]; [|reflexivity]. destruct (str_eqb_spec q k') as [->|_]; [contradiction|reflexivity].
Qed.
Definition keys (d : @dict N) : list str := map fst d.
Lemma add_keys k v (d : dict) : NoDup (keys d) -> NoDup (keys (add_to k v d)).
Proof.
  unfold keys. induction d as [|[q u] d IH]; cbn [add_to map]; intros H; [constructor; [intros []|constructor]|]. inversion H as [|? ? Nq Hd]; subst.
  destruct (str_eqb_spec k q) as [<-|D]; cbn [map fst]; [constructor; assumption|]. constructor; [|apply IH, Hd]. intros I. apply Nq.
  assert (forall l : dict, In q (map fst (add_to k v l)) -> In q (map fst l)) as G; [|exact (G _ I)].
  clear - D. induction l as [|[a b] l IH]; cbn [add_to map fst]; [intros [E|[]]; contradiction|]. destruct (str_eqb k a); cbn [map fst]; [auto|]. intros [E|I]; [left; exact E|right; exact (IH I)].
Qed.
Lemma merge_assoc k (sub : dict) : forall d, NoDup (keys sub) -> assoc k (merge sub d) = match assoc k sub with Some v => Some (plus (dv (assoc k d)) v) | None => assoc k d end.
Proof.
  unfold merge. induction sub as [|[q u] sub IH]; intros d H; [reflexivity|]. unfold keys in H. cbn [map fst] in H. inversion H as [|? ? Nq Hs]; subst. cbn [fold_left fst snd]. rewrite IH by exact Hs.
  rewrite assoc_add. cbn [assoc]. destruct (str_eqb_spec k q) as [->|_]; [|reflexivity].
  assert (assoc q sub = None) as ->; [|reflexivity]. clear - Nq. induction sub as [|[a b] sub IH]; [reflexivity|]. cbn. destruct (str_eqb_spec q a) as [->|_]; [exfalso; apply Nq; left; reflexivity|].
  apply IH. intros I. apply Nq. right. exact I.
Qed.
Lemma assoc_mapped {A} (f : A -> A) k (d : list (str * A)) : assoc k (map (fun kv => (fst kv, f (snd kv))) d) = option_map f (assoc k d).
Proof. induction d as [|[q u] d IH]; [reflexivity|]. cbn. destruct (str_eqb k q); [reflexivity|exact IH]. Qed.
End Dict.

Local Open Scope R_scope.
(** ** Metrics of exact numbers *)
Section Numbers.
Variable show : R -> str.
Hypothesis Total : forall x, show x <> lit "total".
Notation dict := (@dict Exact).
Notation val := (@value Exact).
Definition counts (w : str) (t : R) : bool := str_eqb w (lit "total") || str_eqb w (show t).
Lemma discount_weight i : discount (N := Exact) i = weight_of_rank i.
Proof.
  unfold discount, two_point_four, weight_of_rank. cbn. rewrite <- INR_IZR_INZ. replace (24 / 10) with (12 / 5) by lra. reflexivity.
Qed.
Lemma key_same (p a b : str) : str_eqb (p ++ a) (p ++ b) = str_eqb a b.
Proof.
  destruct (str_eqb_spec a b) as [->|D]; [apply str_eqb_refl|]. destruct (str_eqb_spec (p ++ a) (p ++ b)) as [E|_]; [apply app_inv_head in E; contradiction|reflexivity].
Qed.
Lemma key_dcu w q : str_eqb (lit "dcu_" ++ w) (lit "count_" ++ q) = false.
Proof. destruct (str_eqb_spec (lit "dcu_" ++ w) (lit "count_" ++ q)) as [E|]; [discriminate E|reflexivity]. Qed.
Lemma key_count w q : str_eqb (lit "count_" ++ w) (lit "dcu_" ++ q) = false.
Proof. destruct (str_eqb_spec (lit "count_" ++ w) (lit "dcu_" ++ q)) as [E|]; [discriminate E|reflexivity]. Qed.
Lemma as_float_plus (a b : val) : as_float (plus a b) = as_float a + as_float b.
Proof. destruct a, b; cbn; rewrite ?plus_IZR; reflexivity. Qed.
Lemma plus_real (a : val) x : plus a (inr x) = inr (as_float a + x).
Proof. destruct a; reflexivity. Qed.
Lemma dcu_group w ts : forall i (d : dict), assoc (lit "dcu_" ++ w) (compute_metrics (N := Exact) show i ts d) =
  if existsb (counts w) ts then Some (inr (as_float (dv (assoc (lit "dcu_" ++ w) d)) + discounted (counts w) i ts)) else assoc (lit "dcu_" ++ w) d.
Proof.
  induction ts as [|t ts IH]; intros i d; [reflexivity|]. cbn [compute_metrics existsb discounted]. rewrite IH.
  assert (assoc (lit "dcu_" ++ w) (add_to (lit "count_total") (inl 1%Z) (add_to (lit "count_" ++ show t) (inl 1%Z) (add_to (lit "dcu_total") (@inr Z (nt Exact) (@nmul Exact (@discount Exact i) t))
    (add_to (lit "dcu_" ++ show t) (@inr Z (nt Exact) (@nmul Exact (@discount Exact i) t)) d)))) =
    if counts w t then Some (inr (as_float (dv (assoc (lit "dcu_" ++ w) d)) + weight_of_rank i * t)) else assoc (lit "dcu_" ++ w) d) as ->.
  { change (lit "count_total") with (lit "count_" ++ lit "total"). change (lit "dcu_total") with (lit "dcu_" ++ lit "total"). rewrite !assoc_add, !key_dcu, !key_same. unfold counts.
    cbn [nmul Exact]. rewrite discount_weight. destruct (str_eqb_spec w (lit "total")) as [->|D].
    - destruct (str_eqb_spec (lit "total") (show t)) as [E|_]; [exfalso; exact (Total t (eq_sym E))|]. cbn [orb]. rewrite plus_real. reflexivity.
    - cbn [orb]. destruct (str_eqb w (show t)); [rewrite plus_real|]; reflexivity. }
  destruct (counts w t); cbn [orb].
  - destruct (existsb (counts w) ts) eqn:E; cbn [dv as_float]; [f_equal; f_equal; ring|]. f_equal. f_equal.
    assert (forall l j, existsb (counts w) l = false -> discounted (counts w) j l = 0) as Z0.
    { clear. induction l as [|x l IH]; intros j H; [reflexivity|]. cbn in *. apply orb_false_iff in H. destruct H as [-> H]. rewrite IH by exact H. ring. }
    rewrite Z0 by exact E. ring.
  - destruct (existsb (counts w) ts); [|reflexivity]. f_equal. f_equal. ring.
Qed.
Definition number_of (w : str) (ts : list R) : Z := Z.of_nat (List.length (filter (counts w) ts)).
Lemma count_group w ts : forall i (d : dict) z, dv (assoc (lit "count_" ++ w) d) = inl z -> assoc (lit "count_" ++ w) (compute_metrics (N := Exact) show i ts d) =
  if existsb (counts w) ts then Some (inl (z + number_of w ts)%Z) else assoc (lit "count_" ++ w) d.
Proof.
  induction ts as [|t ts IH]; intros i d z Hz; [reflexivity|]. cbn [compute_metrics existsb].
  set (d' := add_to (lit "count_total") (inl 1%Z) (add_to (lit "count_" ++ show t) (inl 1%Z) (add_to (lit "dcu_total") (@inr Z (nt Exact) (@nmul Exact (@discount Exact i) t))
    (add_to (lit "dcu_" ++ show t) (@inr Z (nt Exact) (@nmul Exact (@discount Exact i) t)) d)))).
  assert (assoc (lit "count_" ++ w) d' = if counts w t then Some (inl (z + 1)%Z) else assoc (lit "count_" ++ w) d) as E'.
  { unfold d'. change (lit "count_total") with (lit "count_" ++ lit "total"). change (lit "dcu_total") with (lit "dcu_" ++ lit "total"). rewrite !assoc_add, !key_count, !key_same. unfold counts.
    destruct (str_eqb_spec w (lit "total")) as [->|D].
    - destruct (str_eqb_spec (lit "total") (show t)) as [E|_]; [exfalso; exact (Total t (eq_sym E))|]. cbn [orb]. rewrite Hz. reflexivity.
    - cbn [orb]. destruct (str_eqb w (show t)); [rewrite Hz|]; reflexivity. }
  rewrite (IH (S i) d' (if counts w t then z + 1 else z)%Z) by (rewrite E'; destruct (counts w t); [reflexivity|exact Hz]). rewrite E'.
  unfold number_of. cbn [filter]. destruct (counts w t) eqn:C; cbn [orb List.length].
  - destruct (existsb (counts w) ts) eqn:E; [f_equal; f_equal; lia|]. assert (filter (counts w) ts = []) as ->; [|reflexivity].
    clear - E. induction ts as [|x ts IH]; [reflexivity|]. cbn in *. apply orb_false_iff in E. destruct E as [-> E]. apply IH, E.
  - destruct (existsb (counts w) ts); reflexivity.
Qed.
Lemma group_keys ts : forall i (d : dict), NoDup (keys d) -> NoDup (keys (compute_metrics (N := Exact) show i ts d)).
Proof. induction ts as [|t ts IH]; intros i d H; [exact H|]. cbn [compute_metrics]. apply IH. do 4 apply add_keys. exact H. Qed.
Definition some_counts (w : str) (groups : list (list R)) : bool := existsb (fun ts => existsb (counts w) ts) groups.
Definition merged (groups : list (list R)) (d : dict) : dict := fold_left (fun d ts => merge (compute_metrics (N := Exact) show 0 ts []) d) groups d.
Lemma dcu_all w groups : forall d, assoc (lit "dcu_" ++ w) (merged groups d) =
  if some_counts w groups then Some (inr (as_float (dv (assoc (lit "dcu_" ++ w) d)) + total (map (discounted (counts w) 0) groups))) else assoc (lit "dcu_" ++ w) d.
Proof.
  induction groups as [|ts groups IH]; intros d; [reflexivity|]. unfold merged in *. cbn [fold_left]. rewrite IH. rewrite merge_assoc by (apply group_keys; constructor). rewrite dcu_group.
  unfold some_counts. cbn [existsb map total]. fold (some_counts w groups). destruct (existsb (counts w) ts) eqn:E; cbn [orb].
  - rewrite plus_real. cbn [assoc dv as_float]. change (nZ 0) with 0. destruct (some_counts w groups) eqn:S.
    + cbn [dv as_float]. f_equal. f_equal. cbn. ring.
    + f_equal. f_equal. assert (total (map (discounted (counts w) 0) groups) = 0) as ->; [|cbn; ring].
      assert (forall l j, existsb (counts w) l = false -> discounted (counts w) j l = 0) as Z0.
      { clear. induction l as [|x l IH]; intros j H; [reflexivity|]. cbn in *. apply orb_false_iff in H. destruct H as [-> H]. rewrite IH by exact H. ring. }
      clear - S Z0. unfold some_counts in S. induction groups as [|g groups IH]; [reflexivity|]. cbn in *. apply orb_false_iff in S. destruct S as [S1 S2]. rewrite Z0 by exact S1. rewrite IH by exact S2. ring.
  - cbn [assoc]. assert (discounted (counts w) 0 ts = 0) as ->.
    { assert (forall l j, existsb (counts w) l = false -> discounted (counts w) j l = 0) as Z0; [|apply Z0, E].
      clear. induction l as [|x l IH]; intros j H; [reflexivity|]. cbn in *. apply orb_false_iff in H. destruct H as [-> H]. rewrite IH by exact H. ring. }
    rewrite Rplus_0_l. reflexivity.
Qed.
Lemma count_all w groups : forall d z, dv (assoc (lit "count_" ++ w) d) = inl z -> assoc (lit "count_" ++ w) (merged groups d) =
  if some_counts w groups then Some (inl (z + number_of w (concat groups))%Z) else assoc (lit "count_" ++ w) d.
Proof.
  assert (forall ts, existsb (counts w) ts = false -> number_of w ts = 0%Z) as Z0.
  { unfold number_of. induction ts as [|x ts IH]; intros H; [reflexivity|]. cbn in *. apply orb_false_iff in H. destruct H as [-> H]. apply IH, H. }
  assert (forall a b, number_of w (a ++ b) = (number_of w a + number_of w b)%Z) as App.
  { intros a b. unfold number_of. rewrite filter_app, app_length. lia. }
  induction groups as [|ts groups IH]; intros d z Hz; [reflexivity|]. unfold merged in *. cbn [fold_left concat]. unfold some_counts. cbn [existsb]. fold (some_counts w groups).
  assert (assoc (lit "count_" ++ w) (merge (compute_metrics (N := Exact) show 0 ts []) d) = if existsb (counts w) ts then Some (inl (z + number_of w ts)%Z) else assoc (lit "count_" ++ w) d) as E.
  { rewrite merge_assoc by (apply group_keys; constructor). rewrite (count_group w ts 0 [] 0%Z eq_refl). destruct (existsb (counts w) ts); [|reflexivity]. rewrite Hz. reflexivity. }
  rewrite (IH _ (z + number_of w ts)%Z).
  - rewrite E, App. destruct (existsb (counts w) ts) eqn:C; cbn [orb].
    + destruct (some_counts w groups) eqn:S; [f_equal; f_equal; lia|]. f_equal. f_equal.
      assert (number_of w (concat groups) = 0)%Z as ->; [|lia]. apply Z0. clear - S. unfold some_counts in S. induction groups as [|g groups IH]; [reflexivity|].
      cbn in *. rewrite existsb_app. apply orb_false_iff in S. destruct S as [-> S]. apply IH, S.
    + rewrite (Z0 ts C). destruct (some_counts w groups); [f_equal; f_equal; lia|reflexivity].
  - rewrite E. destruct (existsb (counts w) ts) eqn:C; [reflexivity|]. rewrite (Z0 ts C), Z.add_0_r. exact Hz.
Qed.
End Numbers.

(** ** Ranking *)
Lemma insert_step (x y : R * R) l : insert (N := Exact) x (y :: l) = if Rlt_dec (fst x) (fst y) then y :: insert (N := Exact) x l else x :: y :: l.
Proof. cbn [insert nltb Exact]. unfold Rltb. change (nt Exact) with R. destruct (Rlt_dec (fst x) (fst y)); reflexivity. Qed.
Lemma insert_perm (x : R * R) l : Permutation (x :: l) (insert (N := Exact) x l).
Proof.
  induction l as [|y l IH]; [reflexivity|]. rewrite insert_step. destruct (Rlt_dec (fst x) (fst y)); [|reflexivity]. rewrite perm_swap. constructor. exact IH.
Qed.
Definition falling (l : list (R * R)) : Prop := StronglySorted (fun a b => fst b <= fst a) l.
Lemma insert_falling (x : R * R) l : falling l -> falling (insert (N := Exact) x l).
Proof.
  unfold falling. induction l as [|y l IH]; intros H; [repeat constructor|]. inversion H as [|? ? Hs Hf]; subst. rewrite insert_step. destruct (Rlt_dec (fst x) (fst y)) as [L|L].
  - constructor; [apply IH, Hs|]. apply Forall_forall. intros z I. apply (Permutation_in z (Permutation_sym (insert_perm x l))) in I. destruct I as [<-|I]; [lra|]. rewrite Forall_forall in Hf. apply Hf, I.
  - constructor; [exact H|]. constructor; [lra|]. apply Forall_forall. intros z I. rewrite Forall_forall in Hf. specialize (Hf z I). lra.
Qed.
Definition same_score (s : R) (x : R * R) : bool := if Req_EM_T (fst x) s then true else false.
Lemma insert_filter s (x : R * R) (l : list (R * R)) : filter (same_score s) (insert (N := Exact) x l) = filter (same_score s) (x :: l).
Proof.
  induction l as [|y l IH]; [reflexivity|]. rewrite insert_step. destruct (Rlt_dec (fst x) (fst y)) as [L|L]; [|reflexivity].
  cbn [filter] in *. rewrite IH. unfold same_score. destruct (Req_EM_T (fst x) s), (Req_EM_T (fst y) s); try reflexivity. lra.
Qed.
Lemma ranked_ranking g : ranking g (ranked (N := Exact) g).
Proof.
  split; [|split].
  - induction g as [|x g IH]; [reflexivity|]. cbn. rewrite <- insert_perm. constructor. exact IH.
  - assert (falling (ranked (N := Exact) g)) as F by (induction g as [|x g IH]; [constructor|]; apply insert_falling, IH).
    intros i j a b Ei Ej L. unfold falling in F. revert i j Ei Ej L. induction F as [|y l F IH Hf]; intros i j Ei Ej L; [destruct i; discriminate Ei|].
    destruct j as [|j]; [lia|]. cbn in Ej. destruct i as [|i]; [injection Ei as <-; rewrite Forall_forall in Hf; apply Hf, (nth_error_In _ _ Ej)|]. apply (IH i j Ei Ej). lia.
  - intros s. change (filter (same_score s) (ranked (N := Exact) g) = filter (same_score s) g). induction g as [|x g IH]; [reflexivity|]. cbn [ranked fold_right].
    etransitivity; [apply insert_filter|]. cbn [filter]. fold (ranked (N := Exact) g). rewrite IH. reflexivity.
Qed.
(** The best ranking *)
Lemma weight_falls i j : (i <= j)%nat -> weight_of_rank j <= weight_of_rank i.
Proof.
  intros L. unfold weight_of_rank. apply le_INR in L. pose proof (pos_INR i) as P. assert (0 < ln (12 / 5)) as A by (rewrite <- ln_1; apply ln_increasing; lra).
  assert (ln (12 / 5) <= ln (INR i + 12 / 5)) as B by (destruct (Req_EM_T (INR i) 0) as [->|D]; [rewrite Rplus_0_l; lra|apply Rlt_le, ln_increasing; lra]).
  assert (ln (INR i + 12 / 5) <= ln (INR j + 12 / 5)) as C by (destruct (Req_EM_T (INR i) (INR j)) as [->|D]; [lra|apply Rlt_le, ln_increasing; lra]).
  unfold Rdiv. apply Rmult_le_compat_l; [lra|]. apply Rinv_le_contravar; lra.
Qed.
Local Notation all := (fun _ : R => true).
Fixpoint place (x : R) (l : list R) : list R := match l with [] => [x] | y :: t => if Rlt_dec x y then y :: place x t else x :: l end.
Lemma place_better x l : forall i, discounted all i (x :: l) <= discounted all i (place x l).
Proof.
  induction l as [|y l IH]; intros i; [cbn; lra|]. cbn [place]. destruct (Rlt_dec x y) as [L|L]; [|lra].
  apply Rle_trans with (discounted all i (y :: x :: l)).
  - cbn [discounted]. pose proof (weight_falls i (S i) ltac:(lia)). nra.
  - change (discounted all i (y :: x :: l)) with (weight_of_rank i * y + discounted all (S i) (x :: l)). change (discounted all i (y :: place x l)) with (weight_of_rank i * y + discounted all (S i) (place x l)).
    specialize (IH (S i)). lra.
Qed.
Definition placed (l : list R) : list R := fold_right place [] l.
Lemma place_perm x l : Permutation (x :: l) (place x l).
Proof. induction l as [|y l IH]; [reflexivity|]. cbn [place]. destruct (Rlt_dec x y); [|reflexivity]. rewrite perm_swap. constructor. exact IH. Qed.
Lemma place_sorted x l : StronglySorted Rge l -> StronglySorted Rge (place x l).
Proof.
  induction l as [|y l IH]; intros H; [repeat constructor|]. inversion H as [|? ? Hs Hf]; subst. cbn [place]. destruct (Rlt_dec x y) as [L|L].
  - constructor; [apply IH, Hs|]. apply Forall_forall. intros z I. apply (Permutation_in z (Permutation_sym (place_perm x l))) in I. destruct I as [<-|I]; [lra|]. rewrite Forall_forall in Hf. apply Hf, I.
  - constructor; [exact H|]. constructor; [lra|]. apply Forall_forall. intros z I. rewrite Forall_forall in Hf. specialize (Hf z I). lra.
Qed.
Lemma placed_sorted l : StronglySorted Rge (placed l).
Proof. induction l as [|x l IH]; [constructor|]. apply place_sorted, IH. Qed.
Lemma placed_perm l : Permutation (placed l) l.
Proof. induction l as [|x l IH]; [reflexivity|]. cbn [placed fold_right]. fold (placed l). rewrite <- place_perm. constructor. exact IH. Qed.
Lemma placed_better l : forall i, discounted all i l <= discounted all i (placed l).
Proof.
  induction l as [|x l IH]; intros i; [cbn; lra|]. cbn [placed fold_right]. fold (placed l). eapply Rle_trans; [|apply place_better]. cbn [discounted]. specialize (IH (S i)). lra.
Qed.
Lemma sorted_one a : forall b, StronglySorted Rge a -> StronglySorted Rge b -> Permutation a b -> a = b.
Proof.
  induction a as [|x a IH]; intros b Sa Sb P; [apply Permutation_nil in P; subst; reflexivity|]. destruct b as [|y b]; [apply Permutation_sym, Permutation_nil in P; discriminate P|].
  inversion Sa as [|? ? Sa' Fa]; subst. inversion Sb as [|? ? Sb' Fb]; subst.
  assert (x = y) as ->.
  { assert (In x (y :: b)) as Ix by (apply (Permutation_in x P); left; reflexivity). assert (In y (x :: a)) as Iy by (apply (Permutation_in y (Permutation_sym P)); left; reflexivity).
    rewrite Forall_forall in Fa, Fb. destruct Ix as [->|Ix]; [reflexivity|]. destruct Iy as [->|Iy]; [reflexivity|]. specialize (Fa y Iy). specialize (Fb x Ix). lra. }
  f_equal. apply IH; [assumption..|]. exact (Permutation_cons_inv P).
Qed.
Lemma best_ranking g sorted best : ranking g sorted -> ranking (map (fun x => (snd x, snd x)) g) best -> discounted all 0 (map snd sorted) <= discounted all 0 (map snd best).
Proof.
  intros (P & _) (Q & F & _). assert (Permutation (map snd sorted) (map snd best)) as PQ.
  { rewrite <- P, <- Q, map_map. reflexivity. }
  assert (forall x, In x best -> fst x = snd x) as D.
  { intros x I. apply (Permutation_in x (Permutation_sym Q)) in I. apply in_map_iff in I. destruct I as (y & <- & _). reflexivity. }
  assert (placed (map snd sorted) = map snd best) as E.
  { apply sorted_one.
    - apply placed_sorted.
    - clear - F D. induction best as [|x best IH]; [constructor|]. cbn. constructor.
      + apply IH; [|intros y I; apply D; right; exact I]. intros i j a b Ei Ej L. apply (F (S i) (S j) a b Ei Ej). lia.
      + apply Forall_forall. intros z I. apply in_map_iff in I. destruct I as (y & <- & I). apply In_nth_error in I. destruct I as [j Ej].
        pose proof (F 0%nat (S j) x y eq_refl Ej ltac:(lia)) as L. rewrite !D in L; [lra|left; reflexivity|right; exact (nth_error_In _ _ Ej)].
    - rewrite <- PQ. apply placed_perm. }
  rewrite <- E. apply placed_better.
Qed.

(** ** The root of the mean squared error *)
Fixpoint dot (a b : list R) : R := match a, b with x :: a, y :: b => x * y + dot a b | _, _ => 0 end.
Lemma dot_pos a : 0 <= dot a a.
Proof. induction a as [|x a IH]; cbn; [lra|nra]. Qed.
Lemma cauchy a : forall b, dot a b <= sqrt (dot a a) * sqrt (dot b b).
Proof.
  induction a as [|x a IH]; intros [|y b]; try (cbn; rewrite sqrt_0; lra). cbn [dot].
  pose proof (dot_pos a) as A. pose proof (dot_pos b) as B. specialize (IH b). set (p := sqrt (dot a a)) in *. set (q := sqrt (dot b b)) in *.
  assert (dot a a = p * p) as Ea by (symmetry; apply sqrt_sqrt; exact A). assert (dot b b = q * q) as Eb by (symmetry; apply sqrt_sqrt; exact B).
  pose proof (sqrt_pos (dot a a)) as P. pose proof (sqrt_pos (dot b b)) as Q. fold p in P. fold q in Q. rewrite Ea, Eb.
  rewrite <- sqrt_mult by nra. destruct (Rle_or_lt (x * y + dot a b) 0) as [L|L]; [apply Rle_trans with 0; [exact L|apply sqrt_pos]|].
  rewrite <- (sqrt_square (x * y + dot a b)) by lra. apply sqrt_le_1_alt.
  assert (0 <= x * y + p * q) by lra. apply Rle_trans with ((x * y + p * q) * (x * y + p * q)); [nra|]. pose proof (Rle_0_sqr (x * q - y * p)) as S. unfold Rsqr in S. nra.
Qed.
Fixpoint minus (a b : list R) : list R := match a, b with x :: a, y :: b => (x - y) :: minus a b | _, _ => [] end.
Lemma minkowski a : forall b, List.length a = List.length b -> sqrt (dot a a) <= sqrt (dot b b) + sqrt (dot (minus a b) (minus a b)).
Proof.
  intros b L. assert (dot a a = dot b b + 2 * dot b (minus a b) + dot (minus a b) (minus a b)) as E.
  { revert b L. induction a as [|x a IH]; intros [|y b] L; try discriminate L; [cbn; lra|]. cbn. rewrite (IH b) by (injection L; auto). ring. }
  set (d := minus a b) in *. pose proof (cauchy b d) as C. pose proof (dot_pos b) as B. pose proof (dot_pos d) as D. pose proof (sqrt_pos (dot b b)) as P. pose proof (sqrt_pos (dot d d)) as Q.
  rewrite <- (sqrt_square (sqrt (dot b b) + sqrt (dot d d))) by lra. apply sqrt_le_1_alt. rewrite E.
  pose proof (sqrt_sqrt (dot b b) B). pose proof (sqrt_sqrt (dot d d) D). nra.
Qed.
Lemma dot_bound eps a : 0 <= eps -> (forall x, In x a -> Rabs x <= eps) -> dot a a <= INR (List.length a) * (eps * eps).
Proof.
  intros E. induction a as [|x a IH]; intros H; [cbn; lra|]. cbn [dot List.length]. rewrite S_INR. specialize (IH ltac:(intros y I; apply H; right; exact I)).
  pose proof (H x (or_introl eq_refl)) as X. assert (x * x <= eps * eps); [|nra]. rewrite <- (Rabs_pos_eq (x * x)) by nra. rewrite Rabs_mult. pose proof (Rabs_pos x). nra.
Qed.
Lemma rmse_dot scores responses : List.length scores = List.length responses -> rmse scores responses = sqrt (dot (minus scores responses) (minus scores responses) / INR (List.length scores)).
Proof.
  intros L. unfold rmse. do 2 f_equal. clear - L. revert responses L. induction scores as [|s scores IH]; intros [|r responses] L; try discriminate L; [reflexivity|].
  cbn. rewrite IH by (injection L; auto). reflexivity.
Qed.
Lemma minus_length a : forall b, List.length a = List.length b -> List.length (minus a b) = List.length a.
Proof. induction a as [|x a IH]; intros [|y b] L; try discriminate L; [reflexivity|]. cbn. rewrite IH by (injection L; auto). reflexivity. Qed.
Lemma rmse_near scores scores' responses eps : List.length scores = List.length responses -> Forall2 (fun s s' => Rabs (s' - s) <= eps) scores scores' ->
  scores <> [] -> Rabs (rmse scores' responses - rmse scores responses) <= eps.
Proof.
  intros L F Ns. assert (List.length scores = List.length scores') as L' by (clear - F; induction F; cbn; congruence).
  assert (0 < INR (List.length scores)) as Pn by (apply lt_0_INR; destruct scores; [contradiction|cbn; lia]).
  assert (0 <= eps) as E0. { destruct F as [|s s' ? ? H _]; [contradiction|]. pose proof (Rabs_pos (s' - s)). lra. }
  assert (forall a b, List.length a = List.length responses -> List.length b = List.length responses -> Forall2 (fun x y => Rabs (x - y) <= eps) a b -> rmse a responses <= rmse b responses + eps) as G.
  { clear - E0 Pn L. intros a b La Lb F. set (n := INR (List.length scores)) in *. assert (INR (List.length a) = n /\ INR (List.length b) = n) as [Na Nb] by (unfold n; rewrite La, Lb, L; auto).
    rewrite !rmse_dot, Na, Nb by assumption. set (u := minus a responses). set (v := minus b responses).
    assert (List.length u = List.length v) as Luv by (unfold u, v; rewrite !minus_length by assumption; congruence).
    rewrite !sqrt_div_alt by exact Pn. pose proof (minkowski u v Luv) as M.
    assert (sqrt (dot (minus u v) (minus u v)) <= sqrt n * eps) as Bd.
    { rewrite <- (sqrt_square eps) by exact E0. rewrite <- sqrt_mult by nra. apply sqrt_le_1_alt.
      replace n with (INR (List.length (minus u v))) by (rewrite minus_length by exact Luv; unfold u; rewrite minus_length by exact La; exact Na).
      apply dot_bound; [exact E0|]. unfold u, v. clear - F La Lb. revert responses La Lb. induction F as [|x y a b H F IH]; intros [|r rs] La Lb z I; try discriminate La; try (destruct I; fail).
      cbn in I. destruct I as [<-|I]; [replace (x - r - (y - r)) with (x - y) by ring; exact H|]. apply (IH rs); [injection La; auto|injection Lb; auto|exact I]. }
    pose proof (sqrt_lt_R0 n Pn) as Sn. apply (Rmult_le_reg_r (sqrt n)); [exact Sn|]. rewrite Rmult_plus_distr_r.
    replace (sqrt (dot u u) / sqrt n * sqrt n) with (sqrt (dot u u)) by (field; lra). replace (sqrt (dot v v) / sqrt n * sqrt n) with (sqrt (dot v v)) by (field; lra). lra. }
  pose proof (G scores' scores ltac:(congruence) L ltac:(clear - F; induction F; constructor; assumption)) as G1.
  assert (Forall2 (fun x y => Rabs (x - y) <= eps) scores scores') as F' by (clear - F; induction F; constructor; [rewrite Rabs_minus_sym|]; assumption).
  pose proof (G scores scores' L ltac:(congruence) F') as G2. apply Rabs_le. lra.
Qed.
Lemma rmse_zero scores : forall responses, List.length scores = List.length responses -> scores <> [] -> (rmse scores responses = 0 <-> scores = responses).
Proof.
  intros responses L Ns. assert (0 < INR (List.length scores)) as Pn by (apply lt_0_INR; destruct scores; [contradiction|cbn; lia]).
  rewrite rmse_dot by exact L. pose proof (dot_pos (minus scores responses)) as P. split.
  - intros Z. apply sqrt_eq_0 in Z; [|apply Rmult_le_pos; [exact P|apply Rlt_le, Rinv_0_lt_compat, Pn]].
    assert (dot (minus scores responses) (minus scores responses) = 0) as D.
    { apply (Rmult_eq_reg_r (/ INR (List.length scores))); [rewrite Rmult_0_l; exact Z|]. apply Rinv_neq_0_compat. lra. }
    clear - L D. revert responses L D. induction scores as [|s scores IH]; intros [|r responses] L D; try discriminate L; [reflexivity|]. cbn in D.
    pose proof (dot_pos (minus scores responses)) as P. assert ((s - r) * (s - r) = 0) as E by (pose proof (Rle_0_sqr (s - r)) as Q; unfold Rsqr in Q; lra). assert (s - r = 0) as Z by (apply Rmult_integral in E; destruct E; assumption). f_equal; [lra|]. apply IH; [injection L; auto|lra].
  - intros <-. assert (dot (minus scores scores) (minus scores scores) = 0) as ->; [|unfold Rdiv; rewrite Rmult_0_l; apply sqrt_0].
    clear. induction scores as [|s scores IH]; [reflexivity|]. cbn. rewrite IH. ring.
Qed.

(** ** The scripts *)
Lemma keys_of_group (show : R -> str) (Q : str -> Prop) ts : (forall w, w = lit "total" \/ (exists t, In t ts /\ w = show t) -> Q (lit "dcu_" ++ w) /\ Q (lit "count_" ++ w)) ->
  forall i (d : @dict Exact), (forall k, In k (keys d) -> Q k) -> forall k, In k (keys (compute_metrics (N := Exact) show i ts d)) -> Q k.
Proof.
  assert (forall k v (d : @dict Exact), (forall q, In q (keys d) -> Q q) -> Q k -> forall q, In q (keys (add_to k v d)) -> Q q) as A.
  { intros k v d. unfold keys. induction d as [|[a b] d IH]; intros H Hk q I; cbn [add_to map fst] in *; [destruct I as [<-|[]]; exact Hk|].
    destruct (str_eqb k a); cbn [map fst] in I; [apply H, I|]. destruct I as [<-|I]; [apply H; left; reflexivity|]. apply IH; [|exact Hk|exact I]. intros u J. apply H. right. exact J. }
  induction ts as [|t ts IH]; intros HQ i d Hd k I; [apply Hd, I|]. cbn [compute_metrics] in I. revert k I. apply IH.
  - intros w [->|(u & Iu & ->)]; [apply HQ; left; reflexivity|]. apply HQ. right. exists u. split; [right; exact Iu|reflexivity].
  - destruct (HQ (lit "total") (or_introl eq_refl)) as [Qt Qc]. destruct (HQ (show t) (or_intror (ex_intro _ t (conj (or_introl eq_refl) eq_refl)))) as [Qt' Qc'].
    change (lit "count_total") with (lit "count_" ++ lit "total"). change (lit "dcu_total") with (lit "dcu_" ++ lit "total"). repeat (apply A; [|assumption]). exact Hd.
Qed.
Lemma keys_merge (Q : str -> Prop) (sub : @dict Exact) : (forall k, In k (keys sub) -> Q k) -> forall d, (forall k, In k (keys d) -> Q k) -> forall k, In k (keys (merge sub d)) -> Q k.
Proof.
  assert (forall k v (d : @dict Exact), (forall q, In q (keys d) -> Q q) -> Q k -> forall q, In q (keys (add_to k v d)) -> Q q) as A.
  { intros k v d. unfold keys. induction d as [|[a b] d IH]; intros H Hk q I; cbn [add_to map fst] in *; [destruct I as [<-|[]]; exact Hk|].
    destruct (str_eqb k a); cbn [map fst] in I; [apply H, I|]. destruct I as [<-|I]; [apply H; left; reflexivity|]. apply IH; [|exact Hk|exact I]. intros u J. apply H. right. exact J. }
  unfold merge, keys. induction sub as [|[a b] sub IH]; intros Hs d Hd k I; [apply Hd, I|]. cbn [fold_left fst snd] in I. revert k I. apply IH; [intros k I; apply Hs; right; exact I|].
  apply A; [exact Hd|]. apply Hs. left. reflexivity.
Qed.
Lemma merge_nodup (sub : @dict Exact) : forall d, NoDup (keys d) -> NoDup (keys (merge sub d)).
Proof. unfold merge. induction sub as [|[a b] sub IH]; intros d H; [exact H|]. cbn [fold_left]. apply IH, add_keys, H. Qed.
Lemma fold_left_map_gen {A B D} (f : D -> B -> D) (h : A -> B) l : forall d, fold_left f (map h l) d = fold_left (fun d x => f d (h x)) l d.
Proof. induction l as [|x l IH]; intros d; [reflexivity|]. apply IH. Qed.
Lemma all_merged (show : R -> str) groups : all_metrics (N := Exact) show groups = merged show (map (fun g => map snd (ranked (N := Exact) g)) groups) [].
Proof.
  unfold all_metrics, merged. symmetry. apply (fold_left_map_gen).
Qed.
Lemma merged_keys (show : R -> str) (Q : str -> Prop) groups : (forall w, w = lit "total" \/ (exists t, In t (concat groups) /\ w = show t) -> Q (lit "dcu_" ++ w) /\ Q (lit "count_" ++ w)) ->
  forall d, NoDup (keys d) -> (forall k, In k (keys d) -> Q k) -> NoDup (keys (merged show groups d)) /\ forall k, In k (keys (merged show groups d)) -> Q k.
Proof.
  unfold merged. induction groups as [|g groups IH]; intros HQ d Hn Hd; [split; assumption|]. cbn [fold_left]. apply IH.
  - intros w [->|(u & Iu & ->)]; [apply HQ; left; reflexivity|]. apply HQ. right. exists u. split; [cbn; apply in_or_app; right; exact Iu|reflexivity].
  - apply merge_nodup, Hn.
  - apply keys_merge; [|exact Hd]. apply keys_of_group; [|intros k []]. intros w [->|(u & Iu & ->)]; [apply HQ; left; reflexivity|]. apply HQ. right. exists u. split; [cbn; apply in_or_app; left; exact Iu|reflexivity].
Qed.

Lemma some_filter show w (gs : list (list R)) : some_counts show w gs = match filter (counts show w) (concat gs) with [] => false | _ => true end.
Proof.
  unfold some_counts. induction gs as [|g l IH]; [reflexivity|]. cbn [existsb concat]. rewrite filter_app.
  assert (existsb (counts show w) g = match filter (counts show w) g with [] => false | _ => true end) as -> by (clear; induction g as [|t g IH]; [reflexivity|]; cbn; destruct (counts show w t); [reflexivity|exact IH]).
  destruct (filter (counts show w) g); [exact IH|reflexivity].
Qed.
Lemma metrics_ok (read : str -> option R) (show : R -> str) gf sf tf gids scores targets xs ts :
  (forall x, show x <> lit "total") -> data_file gf gids -> data_file sf scores -> data_file tf targets ->
  Forall2 (fun l x => read l = Some x) scores xs -> Forall2 (fun l t => read l = Some t) targets ts ->
  exists parts sorted out,
    runs (combine gids (combine xs ts)) parts /\
    Forall2 (fun p s => ranking (map snd p) s) (if (Nat.min (List.length scores) (List.length targets) <? List.length gids)%nat then removelast parts else parts) sorted /\
    metrics_main (N := Exact) read show gf sf tf = Some out /\ NoDup (map fst out) /\
    (forall k, In k (map fst out) -> exists w, (w = lit "total" \/ exists t, In t (concat (map (map snd) sorted)) /\ w = show t) /\ (k = lit "dcu_" ++ w \/ k = lit "count_" ++ w)) /\
    forall w, let counts := fun t => str_eqb w (lit "total") || str_eqb w (show t) in
      let counted := filter counts (concat (map (map snd) sorted)) in
      assoc (lit "dcu_" ++ w) out = match counted with [] => None | _ => Some (inr (total (map (fun s => discounted counts 0 (map snd s)) sorted) / INR (List.length sorted))) end /\
      assoc (lit "count_" ++ w) out = match counted with [] => None | _ => Some (inl (Z.of_nat (List.length counted) / Z.of_nat (List.length sorted))%Z) end.
Proof.
  intros Tot Fg Fs Ft Rs Rt. destruct (by_group_ok (N := Exact) read gids scores targets xs ts Rs Rt) as (parts & Runs & B).
  set (groups := map (map snd) (kept (Nat.min (List.length scores) (List.length targets) <? List.length gids)%nat parts)) in *.
  set (sorted := map (ranked (N := Exact)) groups). set (gs := map (map snd) sorted).
  exists parts, sorted, (map (fun kv => (fst kv, divide (snd kv) (zlen groups))) (merged show gs [])).
  assert (zlen groups = Z.of_nat (List.length sorted)) as Lg by (unfold zlen, sorted; rewrite map_length; reflexivity).
  split; [exact Runs|]. split; [|split; [|split; [|split]]].
  - assert (forall l : list (list (str * (R * R))), Forall2 (fun p s => ranking (map snd p) s) l (map (ranked (N := Exact)) (map (map snd) l))) as G; [|apply G].
    induction l as [|p l IH]; [constructor|]. constructor; [apply ranked_ranking|exact IH].
  - unfold metrics_main. rewrite (flat_of_file _ _ Fg), (flat_of_file _ _ Fs), (flat_of_file _ _ Ft). unfold reads in *. rewrite B. rewrite all_merged. unfold gs, sorted. rewrite map_map. reflexivity.
  - rewrite map_map. cbn [fst]. apply (merged_keys show (fun _ => True) gs); [auto|constructor|auto].
  - rewrite map_map. cbn [fst]. apply (merged_keys show (fun k => exists w, (w = lit "total" \/ exists t, In t (concat gs) /\ w = show t) /\ (k = lit "dcu_" ++ w \/ k = lit "count_" ++ w)) gs); [|constructor|intros k []].
    intros w H. split; exists w; auto.
  - intros w cnt counted. rewrite !(assoc_mapped (fun v : @value Exact => divide v (zlen groups))).
    assert (some_counts show w gs = match counted with [] => false | _ => true end) as Sc.
    { apply some_filter. }
    rewrite (dcu_all show Tot), (count_all show Tot w gs [] 0%Z eq_refl), Sc. destruct counted as [|c cs] eqn:Ec; [split; reflexivity|]. cbn [option_map]. split.
    + cbn [divide assoc dv as_float]. f_equal. f_equal. cbn [ndiv nZ Exact]. rewrite Lg, <- INR_IZR_INZ. unfold gs. rewrite map_map. cbn [Exact nZ]. rewrite Rplus_0_l. reflexivity.
    + cbn [divide]. rewrite Lg. do 3 f_equal. unfold number_of. change (filter (counts show w) (concat gs)) with counted. rewrite Ec. reflexivity.
Qed.

(** Ranking by the targets themselves *)
Definition twice (x : R * R) : R * R := (snd x, snd x).
Lemma by_targets (read : str -> option R) gids : forall scores targets xs ts prev group, Forall2 (fun l x => read l = Some x) scores xs -> Forall2 (fun l t => read l = Some t) targets ts ->
  List.length scores = List.length targets ->
  exists groups, by_group (N := Exact) read gids scores targets prev group = (groups, true) /\ by_group (N := Exact) read gids targets targets prev (map twice group) = (map (map twice) groups, true).
Proof.
  induction gids as [|gid gids IH]; intros scores targets xs ts prev group Rs Rt L.
  - cbn. exists (match group with [] => [] | _ => [group] end). split; destruct group; reflexivity.
  - destruct Rs as [|s x scores xs Es Rs].
    { exists []. destruct targets; [split; reflexivity|discriminate L]. }
    destruct Rt as [|t y targets ts Et Rt]; [discriminate L|]. cbn [by_group]. rewrite Es, Et. injection L as L. destruct (match prev with Some g => str_eqb gid g | None => true end).
    + destruct (IH scores targets xs ts (Some gid) (group ++ [(x, y)]) Rs Rt L) as (groups & A & B). exists groups. split; [exact A|]. rewrite map_app in B. exact B.
    + destruct (IH scores targets xs ts (Some gid) [(x, y)] Rs Rt L) as (groups & A & B). exists (group :: groups). change (map twice [(x, y)]) with [(y, y)] in B. change (nt Exact) with R in *. rewrite A, B. split; reflexivity.
Qed.
Lemma metrics_best (read : str -> option R) (show : R -> str) gf sf tf gids scores targets xs ts :
  (forall x, show x <> lit "total") -> data_file gf gids -> data_file sf scores -> data_file tf targets ->
  Forall2 (fun l x => read l = Some x) scores xs -> Forall2 (fun l t => read l = Some t) targets ts -> List.length scores = List.length targets ->
  exists out best, metrics_main (N := Exact) read show gf sf tf = Some out /\ metrics_main (N := Exact) read show gf tf tf = Some best /\
    match assoc (lit "dcu_total") out, assoc (lit "dcu_total") best with
    | Some (inr a), Some (inr b) => a <= b
    | None, None => True
    | _, _ => False
    end.
Proof.
  intros Tot Fg Fs Ft Rs Rt L. destruct (by_targets read gids scores targets xs ts None [] Rs Rt L) as (groups & A & B). cbn [map] in B.
  unfold metrics_main. rewrite (flat_of_file _ _ Fg), (flat_of_file _ _ Fs), (flat_of_file _ _ Ft). change (nt Exact) with R in *. rewrite A, B. do 2 eexists. split; [reflexivity|]. split; [reflexivity|].
  rewrite !all_merged, (assoc_mapped (fun v : @value Exact => divide v (zlen groups))), (assoc_mapped (fun v : @value Exact => divide v (zlen (map (map twice) groups)))). change (lit "dcu_total") with (lit "dcu_" ++ lit "total"). rewrite !(dcu_all show Tot).
  assert (forall gs, some_counts show (lit "total") gs = existsb (fun g => match g with [] => false | _ => true end) gs) as Sc.
  { intros gs. unfold some_counts. induction gs as [|g gs IH]; [reflexivity|]. cbn [existsb]. rewrite IH. destruct g; reflexivity. }
  rewrite !Sc.
  assert (forall g : list (R * R), List.length (map snd (ranked (N := Exact) g)) = List.length g) as Len.
  { intros g. rewrite map_length. symmetry. apply Permutation_length. apply ranked_ranking. }
  assert (existsb (fun g : list R => match g with [] => false | _ => true end) (map (fun g => map snd (ranked (N := Exact) g)) (map (map twice) groups)) =
    existsb (fun g : list R => match g with [] => false | _ => true end) (map (fun g => map snd (ranked (N := Exact) g)) groups)) as ->.
  { clear - Len. induction groups as [|g groups IH]; [reflexivity|]. cbn [map existsb]. rewrite IH. f_equal. pose proof (Len g) as Lg. pose proof (Len (map twice g)) as Lh. pose proof (map_length twice g) as Lt. rewrite Lt in Lh.
    destruct (map snd (ranked (N := Exact) g)), (map snd (ranked (N := Exact) (map twice g))); cbn [List.length] in Lg, Lh; try reflexivity; rewrite <- Lh in Lg; discriminate Lg. }
  destruct (existsb _ _) eqn:E; [|exact I]. cbn [option_map divide dv assoc as_float]. cbn [ndiv nZ Exact].
  assert (zlen (map (map twice) groups) = zlen groups) as -> by (unfold zlen; rewrite map_length; reflexivity).
  assert (0 < IZR (zlen groups)) as P.
  { apply IZR_lt. unfold zlen. destruct groups; [discriminate E|cbn; lia]. }
  unfold Rdiv. apply Rmult_le_compat_r; [apply Rlt_le, Rinv_0_lt_compat, P|]. rewrite !Rplus_0_l, !map_map.
  clear. induction groups as [|g groups IH]; [cbn; lra|]. cbn [map total]. apply Rplus_le_compat; [|exact IH].
  assert (forall i l, discounted (counts show (lit "total")) i l = discounted (fun _ => true) i l) as Dt.
  { intros i l. revert i. induction l as [|t l IH']; intros i; [reflexivity|]. cbn [discounted]. rewrite IH'. reflexivity. }
  rewrite !Dt. apply (best_ranking g); apply ranked_ranking.
Qed.

(** Only the order of the scores *)
Section Order.
Context {N : Num} (read : str -> option N).
Notation trip := (N * N * N)%type.
Definition one (p : trip) : N * N := (fst (fst p), snd p).
Definition other (p : trip) : N * N := (snd (fst p), snd p).
Definition alike (p q : trip) : Prop := nltb (fst (fst p)) (fst (fst q)) = nltb (snd (fst p)) (snd (fst q)).
Lemma insert_alike (p : trip) l : (forall q, In q l -> alike p q) -> exists l', insert (one p) (map one l) = map one l' /\ insert (other p) (map other l) = map other l' /\ forall q, In q l' -> q = p \/ In q l.
Proof.
  induction l as [|q l IH]; intros H; [exists [p]; split; [|split]; [reflexivity..|intros q [->|[]]; left; reflexivity]|]. cbn [map insert].
  pose proof (H q (or_introl eq_refl)) as A. unfold alike in A. change (fst (one p)) with (fst (fst p)). change (fst (one q)) with (fst (fst q)). change (fst (other p)) with (snd (fst p)).
  change (fst (other q)) with (snd (fst q)). rewrite <- A. destruct (nltb (fst (fst p)) (fst (fst q))).
  - destruct IH as (l' & E1 & E2 & I); [intros r J; apply H; right; exact J|]. exists (q :: l'). cbn [map]. rewrite E1, E2. split; [reflexivity|]. split; [reflexivity|].
    intros r [->|J]; [right; left; reflexivity|]. destruct (I r J) as [->|K]; [left; reflexivity|right; right; exact K].
  - exists (p :: q :: l). split; [reflexivity|]. split; [reflexivity|]. intros r [->|J]; [left; reflexivity|right; exact J].
Qed.
Lemma ranked_alike (l : list trip) : (forall p q, In p l -> In q l -> alike p q) -> map snd (ranked (map one l)) = map snd (ranked (map other l)).
Proof.
  intros H. assert (exists l', ranked (map one l) = map one l' /\ ranked (map other l) = map other l' /\ forall q, In q l' -> In q l) as (l' & -> & -> & _); [|rewrite !map_map; reflexivity].
  induction l as [|p l IH]; [exists []; split; [|split]; [reflexivity..|intros q []]|].
  destruct IH as (l' & E1 & E2 & I); [intros a b Ia Ib; apply H; right; assumption|]. unfold ranked in *. cbn [map fold_right]. rewrite E1, E2.
  destruct (insert_alike p l') as (l'' & F1 & F2 & J); [intros q K; apply H; [left; reflexivity|right; apply I, K]|]. exists l''. split; [exact F1|]. split; [exact F2|].
  intros q K. destruct (J q K) as [->|M]; [left; reflexivity|right; apply I, M].
Qed.
Lemma groups_alike (P : trip -> Prop) gids : forall scores scores' targets xs xs' prev (group : list trip), reads read scores xs -> reads read scores' xs' ->
  (forall p, In p group -> P p) -> Forall2 (fun x x' => forall t, P (x, x', t)) xs xs' ->
  exists groups fine, by_group read gids scores targets prev (map one group) = (map (map one) groups, fine) /\
    by_group read gids scores' targets prev (map other group) = (map (map other) groups, fine) /\ forall g, In g groups -> forall p, In p g -> P p.
Proof.
  induction gids as [|gid gids IH]; intros scores scores' targets xs xs' prev group Rs Rs' Hg F.
  - exists (match group with [] => [] | _ => [group] end), true. cbn. destruct group; [split; [|split]; [reflexivity..|intros g []]|]. split; [reflexivity|]. split; [reflexivity|]. intros g [<-|[]]. exact Hg.
  - destruct F as [|x x' xs xs' Hx F].
    + inversion Rs; inversion Rs'; subst. exists [], true. split; [reflexivity|]. split; [reflexivity|]. intros g [].
    + inversion Rs as [|s ? scores0 ? Es Rs0]; subst. inversion Rs' as [|s' ? scores0' ? Es' Rs0']; subst. cbn [by_group]. rewrite Es, Es'.
      destruct targets as [|t targets]; [exists [], true; split; [reflexivity|]; split; [reflexivity|]; intros g []|].
      destruct (read t) as [y|]; [|exists [], false; split; [reflexivity|]; split; [reflexivity|]; intros g []].
      destruct (match prev with Some g => str_eqb gid g | None => true end).
      * destruct (IH scores0 scores0' targets xs xs' (Some gid) (group ++ [(x, x', y)]) Rs0 Rs0') as (groups & fine & A & B & C); [|exact F|].
        { intros p I. apply in_app_or in I. destruct I as [I|[<-|[]]]; [apply Hg, I|apply Hx]. }
        exists groups, fine. rewrite map_app in A, B. split; [exact A|]. split; [exact B|exact C].
      * destruct (IH scores0 scores0' targets xs xs' (Some gid) [(x, x', y)] Rs0 Rs0') as (groups & fine & A & B & C); [intros p [<-|[]]; apply Hx|exact F|].
        change (map one [(x, x', y)]) with [(x, y)] in A. change (map other [(x, x', y)]) with [(x', y)] in B. exists (group :: groups), fine. rewrite A, B. split; [reflexivity|]. split; [reflexivity|].
        intros g [<-|I]; [exact Hg|exact (C g I)].
Qed.
Lemma metrics_order (show : N -> str) gf sf sf' tf scores scores' xs xs' : data_file sf scores -> data_file sf' scores' ->
  Forall2 (fun l x => read l = Some x) scores xs -> Forall2 (fun l x => read l = Some x) scores' xs' -> List.length xs = List.length xs' ->
  (forall i j a b a' b', nth_error xs i = Some a -> nth_error xs j = Some b -> nth_error xs' i = Some a' -> nth_error xs' j = Some b' -> nltb a b = nltb a' b') ->
  metrics_main read show gf sf tf = metrics_main read show gf sf' tf.
Proof.
  intros Fs Fs' Rs Rs' L H. set (P := fun p : trip => exists i, nth_error xs i = Some (fst (fst p)) /\ nth_error xs' i = Some (snd (fst p))).
  assert (Forall2 (fun x x' => forall t, P (x, x', t)) xs xs') as F.
  { assert (forall a a' k, List.length a = List.length a' -> (forall i, nth_error a i = nth_error xs (k + i)) -> (forall i, nth_error a' i = nth_error xs' (k + i)) -> Forall2 (fun x x' => forall t, P (x, x', t)) a a') as G.
    { induction a as [|x a IH]; intros [|x' a'] k La Ha Ha'; try discriminate La; constructor.
      - intros t. exists k. cbn [fst snd]. specialize (Ha 0%nat). specialize (Ha' 0%nat). rewrite Nat.add_0_r in Ha, Ha'. cbn in Ha, Ha'. split; symmetry; assumption.
      - apply (IH a' (S k)); [injection La; auto|intros i; rewrite Nat.add_succ_comm; apply (Ha (S i))|intros i; rewrite Nat.add_succ_comm; apply (Ha' (S i))]. }
    apply (G xs xs' 0%nat L); reflexivity. }
  unfold metrics_main. rewrite (flat_of_file _ _ Fs), (flat_of_file _ _ Fs').
  destruct (groups_alike P (flat_lines gf) scores scores' (flat_lines tf) xs xs' None [] Rs Rs' ltac:(intros p []) F) as (groups & fine & A & B & C). cbn [map] in A, B. rewrite A, B.
  destruct fine; [|reflexivity]. f_equal. assert (zlen (map (map one) groups) = zlen (map (map other) groups)) as -> by (unfold zlen; rewrite !map_length; reflexivity). f_equal.
  unfold all_metrics. rewrite !fold_left_map_gen.
  assert (forall l d, (forall g, In g l -> In g groups) -> fold_left (fun (d : dict) g => merge (compute_metrics show 0 (map snd (ranked (map one g))) []) d) l d =
    fold_left (fun (d : dict) g => merge (compute_metrics show 0 (map snd (ranked (map other g))) []) d) l d) as G; [|apply G; auto].
  induction l as [|g l IH]; intros d Hl; [reflexivity|]. cbn [fold_left]. rewrite (ranked_alike g).
  - apply IH. intros g' I. apply Hl. right. exact I.
  - intros p q Ip Iq. specialize (Hl g (or_introl eq_refl)). destruct (C g Hl p Ip) as (i & Ei & Ei'). destruct (C g Hl q Iq) as (j & Ej & Ej'). exact (H i j _ _ _ _ Ei Ej Ei' Ej').
Qed.
End Order.

Lemma read_all_ok {N : Num} (read : str -> option N) lines xs : Forall2 (fun l x => read l = Some x) lines xs -> read_all read lines = Some xs.
Proof. induction 1 as [|l x lines xs E _ IH]; [reflexivity|]. cbn. rewrite E, IH. reflexivity. Qed.
Lemma rmse_ok (read : str -> option R) sf rf scores responses xs rs : data_file sf scores -> data_file rf responses ->
  Forall2 (fun l x => read l = Some x) scores xs -> Forall2 (fun l x => read l = Some x) responses rs -> xs <> [] -> List.length xs = List.length rs ->
  rmse_main (N := Exact) read sqrt sf rf = (Some (rmse xs rs), true).
Proof.
  intros Fs Fr Rs Rr Nx L. unfold rmse_main. rewrite (flat_of_file _ _ Fs), (flat_of_file _ _ Fr), (read_all_ok (N := Exact) _ _ _ Rs), (read_all_ok (N := Exact) _ _ _ Rr).
  assert ((List.length xs =? List.length rs)%nat = true) as E by (apply Nat.eqb_eq; exact L).
  unfold compute_mse. destruct xs as [|x xs]; [contradiction|]. change (nt Exact) with R in *. rewrite E. do 3 f_equal. unfold rmse. f_equal. cbn [ndiv nZ Exact]. unfold zlen. rewrite <- INR_IZR_INZ. f_equal.
  generalize (x :: xs) as a. clear. assert (forall (l : list R) z, fold_left (@nadd Exact) l z = z + total l :> R) as G.
  { induction l as [|y l IH]; intros z; cbn [fold_left total]; [symmetry; apply Rplus_0_r|]. etransitivity; [apply IH|]. apply Rplus_assoc. }
  intros a. etransitivity; [apply G|]. etransitivity; [apply Rplus_0_l|]. revert rs. induction a as [|y a IH]; intros [|r rs]; try reflexivity. cbn. rewrite IH. reflexivity.
Qed.
