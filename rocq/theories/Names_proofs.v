(** Names_proofs.v - new names and strings only rename the forest. *)
From Coq Require Import SpecFloat FunctionalExtensionality.
From Verif Require Import Base F32 Column ColumnSpec DataStore Subsampling Num Par Forest Config Score Eval Split Tree Train Loss Pairwise Base_proofs NamesSpec.

Definition rmap {A B} (f : A -> B) (r : res A) : res B := match r with Ret a => Ret (f a) | Undef => Undef | Fatal => Fatal end.
Lemma rmap_bind {A B C} (f : B -> C) (r : res A) (k : A -> res B) : rmap f (bind r k) = bind r (fun a => rmap f (k a)).
Proof. destruct r; reflexivity. Qed.
Lemma bind_rmap {A B C} (f : A -> B) (r : res A) (k : B -> res C) : bind (rmap f r) k = bind r (fun a => k (f a)).
Proof. destruct r; reflexivity. Qed.
Lemma bind_eq {A B} (r : res A) (k k' : A -> res B) : (forall a, r = Ret a -> k a = k' a) -> bind r k = bind r k'.
Proof. destruct r; cbn; auto. Qed.
Lemma vget_map {A B} (f : A -> B) l i : vget (map f l) i = rmap f (vget l i).
Proof. unfold vget. rewrite nth_error_map. destruct (nth_error l i); reflexivity. Qed.
Lemma zlen_map {A B} (f : A -> B) l : zlen (map f l) = zlen l.
Proof. unfold zlen. rewrite map_length. reflexivity. Qed.
Lemma str_eqb_inj (f : str -> str) a b : (forall a b, f a = f b -> a = b) -> str_eqb (f a) (f b) = str_eqb a b.
Proof.
  intros I. destruct (str_eqb_spec a b) as [->|D]; [apply str_eqb_refl|]. destruct (str_eqb_spec (f a) (f b)) as [E|_]; [|reflexivity]. destruct D. apply I, E.
Qed.
Lemma assoc_inj {B} (f : str -> str) k (m : list (str * B)) : (forall a b, f a = f b -> a = b) -> assoc (f k) (map (fun x => (f (fst x), snd x)) m) = assoc k m.
Proof. intros I. induction m as [|[a b] m IH]; [reflexivity|]. cbn. rewrite (str_eqb_inj f k a I), IH. reflexivity. Qed.

(** ** String columns *)
Section Str.
Variable f : str -> str.
Hypothesis Inj : forall a b, f a = f b -> a = b.
Hypothesis Mis : f missing_str = missing_str.
Definition ren_str (s : strcol) : strcol := mkStr (s_status s) (s_ints s) (map f (s_strings s)) (map (fun x => (f (fst x), snd x)) (s_index s)).
Lemma ren_max s : str_max_int (ren_str s) = str_max_int s.
Proof. unfold str_max_int. cbn. rewrite zlen_map. reflexivity. Qed.
Lemma ren_cat_index s x : str_cat_index (ren_str s) (f x) = str_cat_index s x.
Proof. apply assoc_inj, Inj. Qed.
Lemma ren_add1 s x : str_add1 (ren_str s) (f x) = ren_str (str_add1 s x).
Proof.
  unfold str_add1. cbn [ren_str s_index s_ints s_strings s_status]. rewrite (assoc_inj f x _ Inj), zlen_map.
  destruct (assoc x (s_index s)); unfold ren_str; cbn; [reflexivity|]. rewrite map_app. reflexivity.
Qed.
Lemma ren_add l s : str_add (map f l) (ren_str s) = ren_str (str_add l s).
Proof.
  unfold str_add. cbn [ren_str s_status]. destruct (is_ok (s_status s)); [|reflexivity].
  revert s. induction l as [|x l IH]; intros s; [reflexivity|]. cbn [map fold_left]. rewrite ren_add1. apply IH.
Qed.
Lemma ren_finalize s : str_finalize (ren_str s) = ren_str (str_finalize s).
Proof.
  unfold str_finalize. rewrite ren_max. cbn [ren_str s_status s_ints s_strings s_index].
  destruct (is_ok (s_status s)); [|reflexivity]. destruct (i_final (s_ints s)); reflexivity.
Qed.
Lemma ren_load blocks : string_column_of (map (map f) blocks) = ren_str (string_column_of blocks).
Proof.
  unfold string_column_of. rewrite <- ren_finalize. f_equal.
  assert (G : forall s, fold_left (fun c b => str_add b c) (map (map f) blocks) (ren_str s) = ren_str (fold_left (fun c b => str_add b c) blocks s)).
  { induction blocks as [|b blocks IH]; intros s; [reflexivity|]. cbn [map fold_left]. rewrite ren_add. apply IH. }
  rewrite <- G. f_equal. unfold ren_str, str_init. cbn [s_status s_ints s_strings s_index map fst snd]. rewrite Mis. reflexivity.
Qed.
End Str.

Section Names.
Variables (rho : str -> str) (sigma : str -> str -> str).
Hypothesis Ren : renaming rho sigma.
Lemma rho_inj a b : rho a = rho b -> a = b.
Proof. apply Ren. Qed.
Lemma rho_nil : rho [] = [].
Proof. apply Ren. Qed.
Lemma sigma_inj n a b : sigma n a = sigma n b -> a = b.
Proof. apply Ren. Qed.

Definition ren_body (n : str) (b : body) : body := match b with BodyS s => BodyS (ren_str (sigma n) s) | _ => b end.
Definition ren_col (c : column) : column := mkCol (rho (c_name c)) (ren_body (c_name c) (c_body c)).

Lemma renamed_is n c c' : renamed_column rho sigma n c c' -> c_name c = n /\ c' = ren_col c.
Proof.
  intros H. destruct H as [blocks|bd Hb]; (split; [reflexivity|]); unfold ren_col; cbn [c_name c_body].
  - cbn [ren_body]. rewrite ren_load; [reflexivity|apply sigma_inj|apply Ren].
  - destruct bd as [b|r|s]; [reflexivity|reflexivity|exfalso; eapply Hb; reflexivity].
Qed.

Context {N : Num}.
Notation ren_split := (ren_split rho sigma (N := N)).
Notation ren_tree := (ren_tree rho sigma (N := N)).
Notation ren_config := (ren_config rho (N := N)).

Lemma ren_default : ren_split default_split = default_split.
Proof. unfold NamesSpec.ren_split, default_split. cbn. rewrite rho_nil. reflexivity. Qed.
Lemma ren_the sp : the_split (option_map ren_split sp) = ren_split (the_split sp).
Proof. destruct sp; [reflexivity|]. symmetry. exact ren_default. Qed.

(** ** The split search *)
Lemma ren_scan (c : config N) h total pm : forall values i left best, scan (ren_config c) h total pm values i left best = scan c h total pm values i left best.
Proof.
  induction values as [|x values IH]; intros i left best; [reflexivity|]. cbn [scan].
  change (best_here (ren_config c) h total left pm) with (best_here c h total left pm). change (cf_min_gain (ren_config c)) with (cf_min_gain c).
  destruct (if (i =? 0)%Z then _ else _); [|reflexivity..]. cbn [bind]. destruct (vget _ _); [|reflexivity..]. apply IH.
Qed.
Lemma ren_point (c : config N) h total pm : find_best_split_point (ren_config c) h total pm = find_best_split_point c h total pm.
Proof. unfold find_best_split_point. rewrite ren_scan. reflexivity. Qed.
Lemma ren_search srt col w gd samples (c : config N) total : find_best_split srt (ren_col col) w gd samples (ren_config c) total = find_best_split srt col w gd samples c total.
Proof.
  unfold find_best_split, ren_col. cbn [c_body]. destruct (c_body col) as [b|r|s]; [|reflexivity|].
  - cbn [ren_body]. unfold find_best_float_split. destruct (icol_vec _); [|reflexivity..]. cbn [bind]. destruct (compute_histogram _ _ _ _ _) as [h| |]; [|reflexivity..]. cbn [bind]. rewrite ren_point. reflexivity.
  - cbn [ren_body]. unfold find_best_string_split. rewrite ren_max. cbn [ren_str s_ints]. destruct (icol_vec _); [|reflexivity..]. cbn [bind].
    destruct (compute_histogram _ _ _ _ _) as [h| |]; [|reflexivity..]. cbn [bind]. change (cf_l2_lambda (ren_config c)) with (cf_l2_lambda c).
    destruct (sort_on_node_score _ _ _) as [h'| |]; [|reflexivity..]. cbn [bind]. rewrite ren_point. reflexivity.
Qed.

(** Splits found have no names yet; with names, they have as many as indices. *)
Definition no_names (sp : split N) : Prop := forall names idx, sp_cat sp = Some (names, idx) -> names = [].
Definition local_ok (sp : split N) : Prop := forall names, sp_cat sp = Some (names, []) -> names = [].
Lemma found_no_names srt col w gd samples (c : config N) total sp : find_best_split srt col w gd samples c total = Ret (Some sp) -> no_names sp.
Proof.
  unfold find_best_split. destruct (c_body col) as [b|r|s]; [|discriminate|].
  - unfold find_best_float_split. destruct (icol_vec _); [|discriminate..]. cbn [bind]. destruct (compute_histogram _ _ _ _ _); [|discriminate..]. cbn [bind].
    destruct (find_best_split_point _ _ _ _) as [[p|]| |]; [|discriminate..]. cbn [bind]. repeat (match goal with |- bind ?r _ = _ -> _ => destruct r; [|discriminate..] end; cbn [bind]).
    intros E. injection E as <-. intros ? ? H. discriminate H.
  - unfold find_best_string_split. destruct (icol_vec _); [|discriminate..]. cbn [bind]. destruct (compute_histogram _ _ _ _ _); [|discriminate..]. cbn [bind].
    destruct (sort_on_node_score _ _ _); [|discriminate..]. cbn [bind].
    destruct (find_best_split_point _ _ _ _) as [[p|]| |]; [|discriminate..]. cbn [bind].
    intros E. injection E as <-. intros ? ? H. cbn in H. congruence.
Qed.

Lemma ren_task srt features w gd rows (c : config N) total i k :
  search_task srt (map ren_col features) w gd rows (ren_config c) total i k = search_task srt features w gd rows c total i k.
Proof.
  unfold search_task. rewrite vget_map. destruct (vget features k) as [col| |]; [|reflexivity..]. cbn [rmap pres pbind]. rewrite ren_search. reflexivity.
Qed.
Lemma ren_tasks srt features w gd rows (c : config N) total sampled :
  search_tasks srt (map ren_col features) w gd rows (ren_config c) total sampled = search_tasks srt features w gd rows c total sampled.
Proof. apply map_ext. intros [i k]. apply ren_task. Qed.

Lemma tasks_no_names srt features w gd rows (c : config N) total l : forall m m',
  (forall i sp, m i = Some sp -> no_names sp) ->
  run_tasks Nat.eq_dec (map (fun p => search_task srt features w gd rows c total (fst p) (snd p)) l) m = Ret m' ->
  forall i sp, m' i = Some sp -> no_names sp.
Proof.
  induction l as [|[i k] l IH]; intros m m' P E; cbn [map run_tasks] in E; [injection E as <-; exact P|].
  destruct (run Nat.eq_dec _ m) as [[u m1]| |] eqn:R; [|discriminate..]. cbn [bind] in E. refine (IH m1 m' _ E). clear E IH.
  cbn [fst snd] in R. unfold search_task in R. destruct (vget features k) as [col| |]; [|discriminate..]. cbn [pres pbind] in R.
  destruct (find_best_split srt col w gd rows c total) as [[sp|]| |] eqn:F; [| |discriminate..]; cbn [pres pbind run] in R.
  - destruct (m i); [|discriminate]. injection R as _ <-. intros j sp' H. unfold upd in H. destruct (Nat.eq_dec j i); [|exact (P j sp' H)].
    injection H as <-. eapply found_no_names, F.
  - injection R as _ <-. exact P.
Qed.
Lemma read_no_names (m : mem nat (split N)) : (forall i sp, m i = Some sp -> no_names sp) -> forall todo i, Forall no_names (read_vec m i todo).
Proof.
  intros P. induction todo as [|k IH]; intros i; cbn; [constructor|]. destruct (m i) eqn:E; [|constructor]. constructor; [exact (P _ _ E)|apply IH].
Qed.
Lemma best_no_names : forall (rest : list (split N)) i bi best, Forall no_names rest -> no_names best -> no_names (snd (best_index rest i bi best)).
Proof.
  induction rest as [|sp rest IH]; intros i bi best F B; cbn; [exact B|]. inversion F; subst. destruct (nltb _ _); apply IH; assumption.
Qed.

Lemma ren_with_names col (sp : split N) : no_names sp -> with_names (ren_col col) sp = rmap ren_split (with_names col sp).
Proof.
  intros P. unfold with_names. destruct (sp_cat sp) as [[names idx]|] eqn:E; [|unfold NamesSpec.ren_split; reflexivity].
  cbn [ren_col c_body c_name]. destruct (c_body col) as [b|r|s]; [reflexivity|reflexivity|]. cbn [ren_body].
  rewrite (P names idx E).
  assert (G : forall l acc, fold_res (fun acc k => let! n := str_cat_string (ren_str (sigma (c_name col)) s) (Z.to_nat (u32 k)) in Ret (acc ++ [n])) l (map (sigma (c_name col)) acc) =
    rmap (map (sigma (c_name col))) (fold_res (fun acc k => let! n := str_cat_string s (Z.to_nat (u32 k)) in Ret (acc ++ [n])) l acc)).
  { induction l as [|k l IH]; intros acc; [reflexivity|]. cbn [fold_res]. unfold str_cat_string at 1 3. cbn [ren_str s_strings]. rewrite vget_map.
    destruct (vget (s_strings s) _) as [x| |]; [|reflexivity..]. cbn [rmap bind]. rewrite <- IH, map_app. reflexivity. }
  rewrite (G idx [] : fold_res _ idx [] = _). destruct (fold_res _ idx []) as [l| |]; reflexivity.
Qed.
Lemma with_names_ok col (sp sp' : split N) : no_names sp -> with_names col sp = Ret sp' -> local_ok sp'.
Proof.
  intros P. unfold with_names. destruct (sp_cat sp) as [[names idx]|] eqn:E.
  - destruct (c_body col) as [b|r|s]; [discriminate..|]. rewrite (P names idx E).
    destruct (fold_res _ idx []) as [l| |] eqn:F; [|discriminate..]. cbn [bind]. intros H. injection H as <-. intros l' H. cbn in H. injection H as <- ->.
    cbn in F. congruence.
  - intros H. injection H as <-. intros l' H. discriminate H.
Qed.

Definition ren_found (x : split N * option column * nat) : split N * option column * nat := (ren_split (fst (fst x)), option_map ren_col (snd (fst x)), snd x).
Lemma ren_feature draw pos srt features w gd rows total (c : config N) :
  find_best_feature draw pos srt (map ren_col features) w gd rows total (ren_config c) = rmap ren_found (find_best_feature draw pos srt features w gd rows total c) /\
  forall sp f pos', find_best_feature draw pos srt features w gd rows total c = Ret (sp, f, pos') -> local_ok sp.
Proof.
  unfold find_best_feature. rewrite map_length. change (cf_feature_rate (ren_config c)) with (cf_feature_rate c). destruct (uniform_subsample _ _ _ _) as [sampled pos1]. rewrite ren_tasks.
  destruct (run_tasks _ _ _) as [m| |] eqn:R; [|split; [reflexivity|discriminate]..]. cbn [bind].
  assert (P0 : forall i sp, vec_mem (repeat (@default_split N) (List.length sampled)) i = Some sp -> no_names sp).
  { intros i sp H. apply nth_error_In in H. apply repeat_spec in H. subst sp. intros ? ? H. discriminate H. }
  pose proof (read_no_names m (tasks_no_names _ _ _ _ _ _ _ _ _ _ P0 R) (List.length sampled) 0) as F. clear R P0.
  assert (Dk : local_ok (@default_split N)) by (intros ? H; discriminate H).
  assert (Rd : ren_found (default_split, None, pos1) = (default_split, None, pos1)) by (unfold ren_found; cbn [fst snd option_map]; rewrite ren_default; reflexivity).
  destruct (read_vec m 0 (List.length sampled)) as [|sp0 t]; [split; [cbn [rmap]; rewrite Rd; reflexivity|intros ? ? ? X; injection X as <- _ _; exact Dk]|].
  inversion F as [|? ? F0 F1]; subst. pose proof (best_no_names t 1 0 sp0 F1 F0) as B. destruct (best_index t 1 0 sp0) as [bi best]. cbn [snd] in B.
  destruct (nltb n0 (sp_gain best)); [|split; [cbn [rmap]; rewrite Rd; reflexivity|intros ? ? ? X; injection X as <- _ _; exact Dk]].
  destruct (vget sampled bi) as [k| |]; [|split; [reflexivity|discriminate]..]. cbn [bind]. rewrite vget_map.
  destruct (vget features k) as [col| |]; [|split; [reflexivity|discriminate]..]. cbn [rmap bind]. rewrite (ren_with_names col best B).
  destruct (with_names col best) as [sp| |] eqn:W; [|split; [reflexivity|discriminate]..]. split; [reflexivity|].
  intros sp' f pos' H. cbn [bind] in H. injection H as <- <- <-. exact (with_names_ok _ _ _ B W).
Qed.

(** ** Growing a tree *)
Lemma ren_categories col s (sp : split N) cat : local_ok sp -> sp_cat sp = Some cat ->
  split_categories (ren_str (sigma col) s) (map (sigma (sp_feature sp)) (fst cat), snd cat) = split_categories s cat.
Proof.
  intros P E. destruct cat as [names idx]. unfold split_categories. cbn [fst snd]. destruct idx; [|reflexivity]. rewrite (P names E). reflexivity.
Qed.
Lemma ren_partition col (sp : split N) start len : local_ok sp -> partition (ren_col col) (ren_split sp) start len = partition col sp start len.
Proof.
  intros P. unfold partition, ren_col. cbn [c_body].
  assert (G : go_left (mkCol (rho (c_name col)) (ren_body (c_name col) (c_body col))) (ren_split sp) = go_left col sp).
  { apply functional_extensionality. intros row. unfold go_left. cbn [c_body]. destruct (c_body col) as [b|r|s]; [reflexivity|reflexivity|]. cbn [ren_body].
    unfold NamesSpec.ren_split. cbn [sp_cat]. destruct (sp_cat sp) as [[names idx]|] eqn:E; [|reflexivity]. cbn [ren_str s_ints].
    destruct (icol_get (s_ints s) row); [|reflexivity..]. cbn [bind].
    rewrite <- (ren_categories (c_name col) s sp (names, idx) P E). reflexivity. }
  assert (Ck : split_check (mkCol (rho (c_name col)) (ren_body (c_name col) (c_body col))) (ren_split sp) = split_check col sp).
  { unfold split_check. cbn [c_body]. destruct (c_body col) as [b|r|s]; [reflexivity|reflexivity|]. cbn [ren_body].
    unfold NamesSpec.ren_split. cbn [sp_cat]. destruct (sp_cat sp) as [[names idx]|]; reflexivity. }
  destruct (c_body col) as [b|r|s] eqn:E; cbn [ren_body] in *; [rewrite Ck, G; reflexivity|reflexivity|rewrite Ck, G; reflexivity].
Qed.

Fixpoint tree_ok (t : tree N) : Prop :=
  match t with TNone => True | TNode _ sp l r => (forall s, sp = Some s -> local_ok s) /\ tree_ok l /\ tree_ok r end.
Lemma node_ok : forall p t, tree_ok t -> tree_ok (node_at t p).
Proof. induction p as [|d p IH]; intros t H; [exact H|]. cbn. apply IH. destruct t as [|s sp l r]; [destruct d; exact I|]. destruct d; apply H. Qed.
Lemma split_ok t : tree_ok t -> local_ok (the_split (t_split t)).
Proof.
  destruct t as [|s [sp|] l r]; intros H; cbn.
  - intros ? E. discriminate E.
  - apply H. reflexivity.
  - intros ? E. discriminate E.
Qed.
Lemma children_ok l r : tree_ok l -> tree_ok r -> forall t p, tree_ok t -> tree_ok (set_children t p l r).
Proof.
  intros L R. induction t as [|s sp a IHa b IHb]; intros p H; [exact I|]. cbn [set_children]. destruct H as (H & Ha & Hb).
  destruct p as [|[|] p]; cbn; auto.
Qed.
Lemma new_ok lambda total (sp : split N) : local_ok sp -> tree_ok (new_node lambda total sp).
Proof. intros P. unfold new_node. cbn. split; [|auto]. intros s E. destruct (nltb n0 (sp_gain sp)); [|discriminate]. injection E as <-. exact P. Qed.
Lemma ren_new lambda total (sp : split N) : new_node lambda total (ren_split sp) = ren_tree (new_node lambda total sp).
Proof. unfold new_node. cbn. destruct (nltb n0 (sp_gain sp)); reflexivity. Qed.
Lemma ren_left t : t_left (ren_tree t) = ren_tree (t_left t).
Proof. destruct t; reflexivity. Qed.
Lemma ren_right t : t_right (ren_tree t) = ren_tree (t_right t).
Proof. destruct t; reflexivity. Qed.
Lemma ren_t_split t : t_split (ren_tree t) = option_map ren_split (t_split t).
Proof. destruct t; reflexivity. Qed.
Lemma ren_node : forall p t, node_at (ren_tree t) p = ren_tree (node_at t p).
Proof. induction p as [|d p IH]; intros t; [reflexivity|]. cbn. destruct d; rewrite ?ren_left, ?ren_right; apply IH. Qed.
Lemma ren_children l r : forall t p, set_children (ren_tree t) p (ren_tree l) (ren_tree r) = ren_tree (set_children t p l r).
Proof.
  induction t as [|s sp a IHa b IHb]; intros p; [reflexivity|]. cbn [NamesSpec.ren_tree set_children]. destruct p as [|[|] p]; cbn [NamesSpec.ren_tree]; rewrite ?IHa, ?IHb; reflexivity.
Qed.
Definition ren_nd (nd : node_data) : node_data := mkNode (nd_path nd) (option_map ren_col (nd_feature nd)) (nd_start nd) (nd_len nd).
Lemma ren_gain t nd : node_gain (ren_tree t) (ren_nd nd) = node_gain t nd.
Proof. unfold node_gain. cbn [ren_nd nd_path]. rewrite ren_node, ren_t_split, ren_the. reflexivity. Qed.
Definition ren_grown (x : tree N * nat) : tree N * nat := (ren_tree (fst x), snd x).

Section Fit.
Variables (top : nat -> list N -> nat) (draw : nat -> spec_float) (threads : nat)
  (srt : (nat -> nat -> bool) -> list nat -> list nat) (w : float_vector) (gd : list (grad N)) (features : list column) (c : config N).
Lemma remove_map {A B} (f : A -> B) i l : remove_nth i (map f l) = map f (remove_nth i l).
Proof. unfold remove_nth. rewrite firstn_map, map_app. f_equal. revert i. induction l as [|a l IH]; intros [|i]; try reflexivity. apply (IH i). Qed.
Lemma ren_grow : forall fuel step pos t queue samples, tree_ok t ->
  grow top draw threads srt w gd (map ren_col features) (ren_config c) fuel step pos (ren_tree t) (map ren_nd queue) samples =
  rmap ren_grown (grow top draw threads srt w gd features c fuel step pos t queue samples).
Proof.
  induction fuel as [|fuel IH]; intros step pos t queue samples Ok; [reflexivity|]. cbn [grow].
  destruct queue as [|q0 queue0]; [reflexivity|]. change (map ren_nd (q0 :: queue0)) with (ren_nd q0 :: map ren_nd queue0) at 1. cbv iota.
  set (queue := q0 :: queue0). rewrite map_length. change (cf_num_leaves (ren_config c)) with (cf_num_leaves c). change (cf_l2_lambda (ren_config c)) with (cf_l2_lambda c). destruct (below_leaves (List.length queue) (cf_num_leaves c)); [|reflexivity]. cbn [negb].
  assert (Gn : map (node_gain (ren_tree t)) (map ren_nd queue) = map (node_gain t) queue) by (rewrite map_map; apply map_ext; intros nd; apply ren_gain).
  rewrite Gn. set (i := top step (map (node_gain t) queue)). cbv zeta. rewrite vget_map.
  destruct (vget queue i) as [nd| |]; [|reflexivity..]. cbn [rmap bind]. cbn [ren_nd nd_feature nd_path nd_start nd_len].
  destruct (nd_feature nd) as [col|]; cbn [option_map]; [|reflexivity]. rewrite ren_node, ren_t_split, ren_the.
  rewrite (ren_partition col _ (nd_start nd) (nd_len nd) (split_ok _ (node_ok (nd_path nd) t Ok))).
  destruct (run sloc_dec _ _) as [[k m]| |]; [|reflexivity..]. cbn [bind].
  destruct (weighted_sum threads w gd (slice _ (nd_start nd, _))) as [lt0| |]; [|reflexivity..]. cbn [bind].
  destruct (weighted_sum threads w gd _) as [rt0| |]; [|reflexivity..]. cbn [bind].
  destruct (ren_feature draw pos srt features w gd (slice (read_samples m 0 (List.length samples)) (nd_start nd, nd_start nd + k)%nat) lt0 c) as [-> Okl].
  destruct (find_best_feature _ pos _ _ _ _ _ lt0 c) as [[[lsp lf] pos1]| |]; [|reflexivity..]. cbn [rmap bind ren_found fst snd].
  destruct (ren_feature draw pos1 srt features w gd (slice (read_samples m 0 (List.length samples)) (nd_start nd + k, nd_start nd + nd_len nd)%nat) rt0 c) as [-> Okr].
  destruct (find_best_feature _ pos1 _ _ _ _ _ rt0 c) as [[[rsp rf] pos2]| |]; [|reflexivity..]. cbn [rmap bind ren_found fst snd].
  rewrite !ren_new, ren_children, remove_map.
  rewrite <- IH.
  - f_equal. rewrite map_app. reflexivity.
  - apply children_ok; [apply new_ok; eapply Okl; reflexivity|apply new_ok; eapply Okr; reflexivity|exact Ok].
Qed.
Lemma ren_fit pos : fit_tree top draw threads srt w gd (map ren_col features) (ren_config c) pos = rmap ren_grown (fit_tree top draw threads srt w gd features c pos).
Proof.
  unfold fit_tree. change (cf_example_rate (ren_config c)) with (cf_example_rate c). change (cf_l2_lambda (ren_config c)) with (cf_l2_lambda c). change (cf_num_leaves (ren_config c)) with (cf_num_leaves c). destruct (uniform_subsample _ _ _ _) as [samples pos1]. destruct (weighted_sum _ _ _ _) as [total| |]; [|reflexivity..]. cbn [bind].
  destruct (ren_feature draw pos1 srt features w gd samples total c) as [-> Ok]. destruct (find_best_feature _ _ _ _ _ _ _ _ _) as [[[sp f] pos2]| |]; [|reflexivity..].
  cbn [rmap bind ren_found fst snd]. rewrite ren_new. rewrite <- ren_grow; [reflexivity|]. apply new_ok. eapply Ok. reflexivity.
Qed.
End Fit.

(** ** Scoring *)
Section Scores.
Variables store store' : str -> option column.
Hypothesis St : forall n, store' (rho n) = option_map ren_col (store n).
Hypothesis Nm : forall n c, store n = Some c -> c_name c = n.

Lemma ren_route col (sp : split N) start len : c_name col = sp_feature sp -> partition (ren_col col) (ren_split sp) start len = partition col sp start len.
Proof.
  intros E0. unfold partition, ren_col. cbn [c_body].
  assert (G : go_left (mkCol (rho (c_name col)) (ren_body (c_name col) (c_body col))) (ren_split sp) = go_left col sp).
  { apply functional_extensionality. intros row. unfold go_left. cbn [c_body]. destruct (c_body col) as [b|r|s]; [reflexivity|reflexivity|]. cbn [ren_body].
    unfold NamesSpec.ren_split. cbn [sp_cat]. destruct (sp_cat sp) as [[names idx]|] eqn:E; [|reflexivity]. cbn [ren_str s_ints].
    destruct (icol_get (s_ints s) row); [|reflexivity..]. cbn [bind]. do 2 f_equal. unfold split_categories. cbn [fst snd]. destruct idx; [|reflexivity].
    rewrite E0. clear E. induction names as [|x names IH]; [reflexivity|]. cbn [map flat_map]. rewrite IH, (ren_cat_index _ (sigma_inj (sp_feature sp))). reflexivity. }
  assert (Ck : split_check (mkCol (rho (c_name col)) (ren_body (c_name col) (c_body col))) (ren_split sp) = split_check col sp).
  { unfold split_check. cbn [c_body]. destruct (c_body col) as [b|r|s]; [reflexivity|reflexivity|]. cbn [ren_body].
    unfold NamesSpec.ren_split. cbn [sp_cat]. destruct (sp_cat sp) as [[names idx]|]; reflexivity. }
  destruct (c_body col) as [b|r|s] eqn:E; cbn [ren_body] in *; [rewrite Ck, G; reflexivity|reflexivity|rewrite Ck, G; reflexivity].
Qed.
Lemma ren_scores constant : forall t start len, add_sample_tree_scores store' (ren_tree t) constant start len = add_sample_tree_scores store t constant start len.
Proof.
  induction t as [|s sp l IHl r IHr]; intros start len; [reflexivity|]. cbn [NamesSpec.ren_tree add_sample_tree_scores].
  destruct l as [|ls lsp ll lr] eqn:El; [reflexivity|]. rewrite <- El in *. replace (match ren_tree l with TNone => _ | TNode _ _ _ _ => _ end) with
    (match store' (sp_feature (the_split (option_map ren_split sp))) with
     | None => PFatal
     | Some c =>
         do! k := partition c (the_split (option_map ren_split sp)) start len in
         do! _ := add_sample_tree_scores store' (ren_tree l) constant start k in
         add_sample_tree_scores store' (ren_tree r) constant (start + k) (len - k)
     end) by (rewrite El; reflexivity).
  rewrite ren_the. change (sp_feature (ren_split (the_split sp))) with (rho (sp_feature (the_split sp))). rewrite St.
  destruct (store (sp_feature (the_split sp))) as [col|] eqn:E; cbn [option_map]; [|reflexivity].
  rewrite (ren_route col (the_split sp) start len (Nm _ _ E)). f_equal. apply functional_extensionality. intros k. rewrite IHl. f_equal. apply functional_extensionality. intros u. apply IHr.
Qed.
Lemma ren_add_scores threads t constant st : add_tree_scores store' threads (ren_tree t) constant st = add_tree_scores store threads t constant st.
Proof.
  unfold add_tree_scores. destruct st as [samples scores]. destruct (score_slices _ _) as [slices| |]; [|reflexivity..]. cbn [bind].
  replace (score_tasks store' (ren_tree t) constant slices) with (score_tasks store t constant slices); [reflexivity|].
  unfold score_tasks. apply map_ext. intros r. symmetry. apply ren_scores.
Qed.
Lemma ren_load_features names : load_features store' (map rho names) = (fst (load_features store names), map ren_col (snd (load_features store names))).
Proof.
  induction names as [|n names IH]; [reflexivity|]. cbn [map load_features]. rewrite St. destruct (store n) as [col|]; cbn [option_map]; [|reflexivity].
  replace (col_status (ren_col col)) with (col_status col) by (unfold col_status, ren_col; cbn [c_body]; destruct (c_body col); reflexivity).
  destruct (col_status col); [|reflexivity]. rewrite IH. destruct (load_features store names) as [[|e] cs]; reflexivity.
Qed.
End Scores.
Lemma ren_shrink k (t : tree N) : apply_shrinkage k (ren_tree t) = ren_tree (apply_shrinkage k t).
Proof. induction t as [|s sp l IHl r IHr]; [reflexivity|]. cbn. rewrite IHl, IHr. reflexivity. Qed.
Lemma ren_present t : present (ren_tree t) = present t.
Proof. destruct t; reflexivity. Qed.
Lemma ren_has_left t : has_left (ren_tree t) = has_left t.
Proof. unfold has_left. rewrite ren_left. apply ren_present. Qed.
Lemma ren_clear (t : tree N) : clear_internal (ren_tree t) = ren_tree (clear_internal t).
Proof.
  induction t as [|s sp l IHl r IHr]; [reflexivity|]. cbn. rewrite IHl, IHr, ren_present. destruct (present l); [|reflexivity]. destruct sp as [sp|]; [|reflexivity].
  cbn. do 2 f_equal. unfold clear_split. cbn. destruct (sp_cat sp) as [[names idx]|] eqn:E; unfold NamesSpec.ren_split; cbn; rewrite ?E; reflexivity.
Qed.

(** ** Training *)
Section Train.
Variables v v' : view.
Hypothesis Vw : renamed_view rho sigma v v'.
Lemma view_get n : v_get v' (rho n) = option_map ren_col (v_get v n).
Proof.
  destruct Vw as (_ & _ & H). specialize (H n). destruct (v_get v n) as [c|], (v_get v' (rho n)) as [c'|]; try contradiction; [|reflexivity].
  cbn. f_equal. apply (renamed_is n). exact H.
Qed.
Lemma view_name n c : v_get v n = Some c -> c_name c = n.
Proof.
  intros E. destruct Vw as (_ & _ & H). specialize (H n). rewrite E in H. destruct (v_get v' (rho n)) as [c'|]; [|contradiction]. apply (renamed_is n c c'). exact H.
Qed.
Lemma view_scores threads t constant st : add_tree_scores (v_get v') threads (ren_tree t) constant st = add_tree_scores (v_get v) threads t constant st.
Proof. apply ren_add_scores; [exact view_get|exact view_name]. Qed.

Lemma ren_base threads base : forall constant trees st,
  init_with_base v' threads (map ren_tree base) constant (map ren_tree trees) st =
  rmap (fun x => (fst (fst x), map ren_tree (snd (fst x)), snd x)) (init_with_base v threads base constant trees st).
Proof.
  induction base as [|t base IH]; intros constant trees st; [reflexivity|]. cbn [map init_with_base]. rewrite view_scores.
  destruct (add_tree_scores _ _ _ _ _) as [st1| |]; [|reflexivity..]. cbn [bind]. unfold single_node. rewrite ren_has_left.
  destruct (has_left t); cbn [negb].
  - rewrite <- IH, map_app. reflexivity.
  - rewrite IH. destruct t; reflexivity.
Qed.

Lemma ren_rounds threads top draw srt w features (c : config N) (lf : loss N) : forall todo i constant trees st gd ls pos,
  rounds v' threads top draw srt w (map ren_col features) (ren_config c) lf todo i constant (map ren_tree trees) st gd ls pos =
  ren_result rho sigma (rounds v threads top draw srt w features c lf todo i constant trees st gd ls pos).
Proof.
  induction todo as [|todo IH]; intros i constant trees st gd ls pos.
  - cbn [rounds ren_result tr_status tr_forest tr_f]. do 2 f_equal. unfold ren_forest. rewrite !map_map. cbn [map]. f_equal. rewrite !map_map. apply map_ext. intros t. apply ren_clear.
  - cbn [rounds]. destruct (l_round lf ls pos (snd st) gd) as [[[[x gd'] ls'] pos1]| |]; [|reflexivity..]. cbn [bind].
    destruct (nfinite x); [|reflexivity].
    rewrite ren_fit. destruct (fit_tree _ _ _ _ _ _ _ _ _) as [[t pos2]| |]; [|reflexivity..]. cbn [rmap bind ren_grown fst snd].
    change (cf_shrinkage (ren_config c)) with (cf_shrinkage c). rewrite ren_shrink, view_scores. destruct (add_tree_scores _ _ _ _ _) as [st1| |]; [|reflexivity..]. cbn [bind].
    rewrite <- IH, map_app. reflexivity.
Qed.

(** A loss that looks at the numbers of the groups only. *)
Definition names_free (lf : loss N) : Prop :=
  forall n rows w y g, l_init lf rows w y (option_map (ren_str (sigma n)) g) = l_init lf rows w y g.

Lemma rho_empty n : rho n = [] <-> n = [].
Proof. split; [|intros ->; exact rho_nil]. intros E. rewrite <- rho_nil in E. apply rho_inj, E. Qed.
Lemma ren_group (c : config N) : group_column (ren_config c) (v_get v') = rmap (option_map (ren_str (sigma (cf_group_column c)))) (group_column c (v_get v)).
Proof.
  unfold group_column. cbn [NamesSpec.ren_config cf_group_column]. destruct (cf_group_column c) as [|a n] eqn:E; [rewrite rho_nil; reflexivity|].
  destruct (rho (a :: n)) as [|a' n'] eqn:E'; [apply (proj1 (rho_empty _)) in E'; discriminate|]. rewrite <- E', view_get.
  destruct (v_get v (a :: n)) as [col|] eqn:G; [|reflexivity]. cbn [option_map ren_col c_body]. rewrite (view_name _ _ G). destruct (c_body col); reflexivity.
Qed.

Lemma train_renamed threads top draw pos srt names w y (lf : loss N) (c : config N) base : names_free lf ->
  train v' threads top draw pos srt (map rho names) w y lf (ren_config c) (option_map (ren_forest rho sigma) base) =
  ren_result rho sigma (train v threads top draw pos srt names w y lf c base).
Proof.
  intros Nf. unfold train. change (check_config (ren_config c)) with (check_config c). destruct (check_config c); [|reflexivity].
  destruct Vw as (Rw & Or & _). rewrite Or, (ren_load_features (v_get v) (v_get v') view_get).
  destruct (load_features (v_get v) (v_order v names)) as [[|e] features]; cbn [fst snd]; [|reflexivity]. rewrite ren_group.
  destruct (group_column c (v_get v)) as [g| |]; [|reflexivity..]. cbn [rmap bind]. rewrite Nf, Rw.
  destruct (l_init lf (v_rows v) w y g) as [[e|ls]| |]; [reflexivity| |reflexivity..]. cbn [bind].
  unfold init_scores. rewrite Rw. destruct (score_slices (v_rows v) threads); [|reflexivity..]. cbn [bind].
  match goal with |- bind (init_with_base _ _ ?b _ _ _) _ = _ => replace b with (map ren_tree (match base with Some x => x | None => [] end)) by (destruct base; reflexivity) end.
  match goal with |- bind (init_with_base _ _ _ _ _ ?st) _ = _ => rewrite (ren_base threads _ (@n0 N) [] st : init_with_base v' threads _ n0 [] _ = _) end.
  destruct (init_with_base _ _ _ _ _ _) as [[[k trees] st]| |]; [|reflexivity..]. cbn [rmap bind fst snd].
  change (cf_num_trees (ren_config c)) with (cf_num_trees c). apply ren_rounds.
Qed.

Lemma ren_insert x l : set_insert (rho x) (map rho l) = map rho (set_insert x l).
Proof.
  unfold set_insert. replace (existsb (str_eqb (rho x)) (map rho l)) with (existsb (str_eqb x) l); [destruct (existsb _ _); reflexivity|].
  induction l as [|a l IH]; [reflexivity|]. cbn. rewrite IH, (str_eqb_inj rho x a rho_inj). reflexivity.
Qed.
Lemma ren_collect_tree : forall t acc, collect_tree (ren_tree t) (map rho acc) = map rho (collect_tree t acc).
Proof.
  induction t as [|s sp l IHl r IHr]; intros acc; [reflexivity|]. cbn [NamesSpec.ren_tree collect_tree]. destruct sp as [sp|]; cbn [option_map]; [|rewrite IHl, IHr; reflexivity].
  change (sp_feature (ren_split sp)) with (rho (sp_feature sp)). rewrite ren_insert, IHl, IHr. reflexivity.
Qed.
Lemma ren_collect (f : forest N) : collect_features (ren_forest rho sigma f) = map rho (collect_features f).
Proof.
  unfold collect_features. assert (G : forall acc, fold_left (fun acc t => collect_tree t acc) (ren_forest rho sigma f) (map rho acc) = map rho (fold_left (fun acc t => collect_tree t acc) f acc)).
  { induction f as [|t f IH]; intros acc; [reflexivity|]. cbn [ren_forest map fold_left]. rewrite ren_collect_tree. apply IH. }
  exact (G []).
Qed.
Lemma ren_order (f : forest N) : load_features (v_get v') (v_order v' (collect_features (ren_forest rho sigma f))) =
  (fst (load_features (v_get v) (v_order v (collect_features f))), map ren_col (snd (load_features (v_get v) (v_order v (collect_features f))))).
Proof. destruct Vw as (_ & Or & _). rewrite ren_collect, Or. apply ren_load_features, view_get. Qed.
Lemma ren_init threads : @init_scores N v' threads = init_scores v threads.
Proof. unfold init_scores. destruct Vw as (-> & _). reflexivity. Qed.
Lemma evaluate_renamed threads (f : forest N) : evaluate_forest v' threads (ren_forest rho sigma f) = evaluate_forest v threads f.
Proof.
  unfold evaluate_forest. rewrite ren_order, ren_init. destruct (load_features _ _) as [[|e] cs]; [|reflexivity]. cbn [fst snd].
  destruct (init_scores v threads) as [st| |]; [|reflexivity..]. cbn [bind]. f_equal. unfold eval_trees. clear cs. revert st.
  induction f as [|t f IH]; intros st; [reflexivity|]. cbn [ren_forest map fold_res]. rewrite view_scores. destruct (add_tree_scores _ _ _ _ _); [|reflexivity..]. apply IH.
Qed.
Lemma checkpoints_renamed threads can_write (f : forest N) points :
  evaluate_checkpoints v' threads can_write (ren_forest rho sigma f) points = evaluate_checkpoints v threads can_write f points.
Proof.
  unfold evaluate_checkpoints. rewrite ren_order, ren_init. destruct (load_features _ _) as [[|e] cs]; [|reflexivity]. cbn [fst snd].
  destruct (init_scores v threads) as [st| |]; [|reflexivity..]. cbn [bind]. clear cs. generalize 0%Z. revert points st.
  induction f as [|t f IH]; intros points st i; [reflexivity|]. cbn [ren_forest map checkpoint_loop]. destruct points as [|p points]; [reflexivity|].
  rewrite view_scores. destruct (add_tree_scores _ _ _ _ _) as [st1| |]; [|reflexivity..]. cbn [bind]. fold (ren_forest rho sigma f).
  destruct (i + 1 =? p)%Z; [destruct (can_write p); [|reflexivity]|]; rewrite IH; reflexivity.
Qed.

Lemma ren_raw n : get_raw (v_get v') (rho n) = get_raw (v_get v) n.
Proof. unfold get_raw. rewrite view_get. destruct (v_get v n) as [col|]; [|reflexivity]. cbn. destruct (c_body col); reflexivity. Qed.
Lemma weights_renamed (c : config N) : sample_weights (ren_config c) (v_get v') = sample_weights c (v_get v).
Proof.
  unfold sample_weights. cbn [NamesSpec.ren_config cf_weight_column]. destruct (cf_weight_column c) as [|a n] eqn:E; [rewrite rho_nil; reflexivity|].
  destruct (rho (a :: n)) as [|a' n'] eqn:E'; [apply (proj1 (rho_empty _)) in E'; discriminate|]. rewrite <- E', ren_raw. reflexivity.
Qed.
Lemma targets_renamed (c : config N) : targets (ren_config c) (v_get v') = targets c (v_get v).
Proof.
  unfold targets. cbn [NamesSpec.ren_config cf_target_column cf_binarize_target]. destruct (cf_target_column c) as [|a n] eqn:E; [rewrite rho_nil; reflexivity|].
  destruct (rho (a :: n)) as [|a' n'] eqn:E'; [apply (proj1 (rho_empty _)) in E'; discriminate|]. rewrite <- E', ren_raw. reflexivity.
Qed.
Lemma features_renamed (c : config N) : config_features (ren_config c) = map rho (config_features c).
Proof.
  unfold config_features. cbn [NamesSpec.ren_config cf_float_features cf_cat_features]. rewrite <- map_app. change (@nil str) with (map rho []) at 1. generalize (@nil str).
  generalize (cf_float_features c ++ cf_cat_features c). intros l. induction l as [|x l IH]; intros acc; [reflexivity|]. cbn [map fold_left]. rewrite ren_insert. apply IH.
Qed.
End Train.

(** ** Feature importance *)
Definition ren_entry (e : str * N) : str * N := (rho (fst e), snd e).
Lemma ren_map_add k x m : map_add (rho k) x (map ren_entry m) = map ren_entry (map_add k x m).
Proof. induction m as [|[k' y] m IH]; [reflexivity|]. cbn. rewrite (str_eqb_inj rho k k' rho_inj). destruct (str_eqb k k'); [reflexivity|]. cbn. rewrite IH. reflexivity. Qed.
Lemma ren_importance_tree : forall t m, importance_tree (ren_tree t) (map ren_entry m) = map ren_entry (importance_tree t m).
Proof.
  induction t as [|s sp l IHl r IHr]; intros m; [reflexivity|]. cbn [NamesSpec.ren_tree importance_tree]. rewrite ren_present. destruct (present l); [|reflexivity].
  rewrite ren_the. change (sp_feature (ren_split (the_split sp))) with (rho (sp_feature (the_split sp))). change (sp_gain (ren_split (the_split sp))) with (sp_gain (the_split sp)).
  cbv zeta. rewrite ren_map_add, IHl, IHr. reflexivity.
Qed.
Lemma ren_importance (f : forest N) : importance_map (ren_forest rho sigma f) = map ren_entry (importance_map f).
Proof.
  unfold importance_map. change (@nil (str * N)) with (map ren_entry []) at 1. generalize (@nil (str * N)).
  induction f as [|t f IH]; intros m; [reflexivity|]. cbn [ren_forest map fold_left]. rewrite ren_importance_tree. apply IH.
Qed.
Lemma importance_renamed (f : forest N) out : feature_importance f out -> feature_importance (ren_forest rho sigma f) (map ren_entry out).
Proof.
  intros (l & [Pm So] & ->). exists (map ren_entry l). split.
  - rewrite ren_importance. split; [apply Permutation_map, Pm|]. intros i j a b Lt A B. rewrite nth_error_map in A, B.
    destruct (nth_error l i) as [x|] eqn:X; [|discriminate]. destruct (nth_error l j) as [y|] eqn:Y; [|discriminate]. injection A as <-. injection B as <-. exact (So i j x y Lt X Y).
  - destruct l as [|[k x] l]; [reflexivity|]. cbn. f_equal. rewrite !map_map. reflexivity.
Qed.

(** ** The losses *)
Lemma ren_rows_by_group n rows g : rows_by_group rows (option_map (ren_str (sigma n)) g) = rows_by_group rows g.
Proof. destruct g as [s|]; [|reflexivity]. unfold rows_by_group. cbn [option_map ren_str s_ints]. rewrite ren_max. reflexivity. Qed.
Lemma created_free srt threads to_uint pick (c : config N) lf : create_loss srt threads to_uint pick c = Some lf -> names_free lf.
Proof.
  intros E n rows w y g. unfold create_loss in E. cbn [assoc] in E.
  repeat (match type of E with (if ?b then _ else _) = _ => destruct b end); try discriminate E; injection E as <-;
    cbn; unfold pair_init; rewrite ?ren_rows_by_group; reflexivity.
Qed.
Lemma create_renamed srt threads to_uint pick (c : config N) : create_loss srt threads to_uint pick (ren_config c) = create_loss srt threads to_uint pick c.
Proof. reflexivity. Qed.
End Names.
