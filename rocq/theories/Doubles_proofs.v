(** Doubles_proofs.v - a set of numbers that is closed under arithmetic is closed under training (property C95). *)
From Coq Require Import SpecFloat Lia ZArith.
From Verif Require Import Base F32 Column DataStore Subsampling Num Forest Par Config Score Eval Split SplitSpec Tree Train Loss Pairwise Base_proofs.

(** ** Programs that write only values with a property *)
Section Writes.
Context {L V : Type} (dec : forall a b : L, {a = b} + {a <> b}) (Q : V -> Prop).
Fixpoint writes_ok {A} (p : prog L V A) : Prop :=
  match p with
  | PRet _ | PUndef | PFatal => True
  | PRead _ k => forall v, Q v -> writes_ok (k v)
  | PWrite _ v q => Q v /\ writes_ok q
  end.
Definition mem_ok (m : mem L V) : Prop := forall l v, m l = Some v -> Q v.
Lemma upd_ok m l v : mem_ok m -> Q v -> mem_ok (upd dec m l v).
Proof. intros M Hv x y. unfold upd. destruct (dec x l); [intros [= <-]; exact Hv|apply M]. Qed.
Lemma run_ok {A} (p : prog L V A) : forall m a m', mem_ok m -> writes_ok p -> run dec p m = Ret (a, m') -> mem_ok m'.
Proof.
  induction p as [x| | |l k IH|l v q IH]; cbn [run writes_ok]; intros m a m' M W E; try discriminate.
  - injection E as _ <-. exact M.
  - destruct (m l) as [v|] eqn:E1; [|discriminate]. exact (IH v _ _ _ M (W v (M _ _ E1)) E).
  - destruct (m l); [|discriminate]. destruct W as [W1 W2]. exact (IH _ _ _ (upd_ok m l v M W1) W2 E).
Qed.
Lemma run_tasks_ok ps : Forall writes_ok ps -> forall m m', mem_ok m -> run_tasks dec ps m = Ret m' -> mem_ok m'.
Proof.
  induction 1 as [|p ps W _ IH]; cbn [run_tasks]; intros m m' M E; [injection E as <-; exact M|].
  destruct (run dec p m) as [[u m1]| |] eqn:R; try discriminate. cbn [bind] in E. exact (IH _ _ (run_ok p _ _ _ M W R) E).
Qed.
Lemma writes_bind {A B} (p : prog L V A) (k : A -> prog L V B) : writes_ok p -> (forall a, writes_ok (k a)) -> writes_ok (pbind p k).
Proof. induction p as [x| | |l f IH|l v q IH]; cbn [writes_ok pbind]; intros W H; [apply H|exact I|exact I|intros v Hv; apply IH; auto|split; [apply W|apply IH; [apply W|exact H]]]. Qed.
Lemma writes_pres {A B} (r : res A) (k : A -> prog L V B) : (forall a, r = Ret a -> writes_ok (k a)) -> writes_ok (pbind (pres r) k).
Proof. destruct r as [a| |]; cbn; intros H; [apply H; reflexivity|exact I|exact I]. Qed.
End Writes.

Lemma vget_in {A} (P : A -> Prop) l i x : Forall P l -> vget l i = Ret x -> P x.
Proof. intros F E. apply vget_ret, nth_error_In in E. rewrite Forall_forall in F. exact (F _ E). Qed.
Lemma set_nth_in {A} (P : A -> Prop) l : forall i x, Forall P l -> P x -> Forall P (set_nth i x l).
Proof. induction l as [|a l IH]; intros i x F H; [destruct i; constructor|]. inversion F; subst. destruct i; cbn; constructor; auto. Qed.
Lemma vset_in {A} (P : A -> Prop) l i x l' : Forall P l -> P x -> vset l i x = Ret l' -> Forall P l'.
Proof. intros F H E. apply vset_ret in E. destruct E as [_ ->]. apply set_nth_in; assumption. Qed.
Lemma fold_res_in {A B} (P : A -> Prop) (f : A -> B -> res A) l : (forall a b a', In b l -> P a -> f a b = Ret a' -> P a') -> forall a r, P a -> fold_res f l a = Ret r -> P r.
Proof.
  induction l as [|b l IH]; cbn [fold_res]; intros H a r Pa E; [injection E as <-; exact Pa|]. destruct (f a b) as [a'| |] eqn:F; try discriminate. cbn [bind] in E.
  apply (IH (fun a b a' I => H a b a' (or_intror I)) a' r); [exact (H a b a' (or_introl eq_refl) Pa F)|exact E].
Qed.
Lemma fold_left_in {A B} (P : A -> Prop) (f : A -> B -> A) l : (forall a b, In b l -> P a -> P (f a b)) -> forall a, P a -> P (fold_left f l a).
Proof. induction l as [|b l IH]; cbn [fold_left]; intros H a Pa; [exact Pa|]. apply IH; [intros; apply H; [right|]; assumption|]. apply H; [left; reflexivity|exact Pa]. Qed.

Section Closed.
Context {N : Num} (V : N -> Prop) (T : f32 -> Prop).
Local Open Scope num_scope.
Record closed : Prop := {
  cl_add : forall a b, V a -> V b -> V (a + b);
  cl_sub : forall a b, V a -> V b -> V (a - b);
  cl_mul : forall a b, V a -> V b -> V (a * b);
  cl_div : forall a b, V a -> V b -> V (a / b);
  cl_opp : forall a, V a -> V (- a);
  cl_abs : forall a, V a -> V (nabs a);
  cl_exp : forall a, V a -> V (nexp a);
  cl_log : forall a, V a -> V (nlog a);
  cl_Z : forall z, V (nZ z);
  cl_float : forall x, V (nfloat x);
  cl_store : forall a, V (nstore a);
  cl_thr : forall x, T (to_f32 x) }.
Context (C : closed).
Definition VG (g : grad N) : Prop := V (gg g) /\ V (gh g).
Lemma zero_in : V n0. Proof. apply (cl_Z C). Qed.
Lemma one_in : V n1. Proof. apply (cl_Z C). Qed.
Lemma gzero_in : VG gzero. Proof. split; apply zero_in. Qed.
Lemma gadd_in a b : VG a -> VG b -> VG (gadd a b). Proof. intros [] []. split; apply (cl_add C); assumption. Qed.
Lemma gsub_in a b : VG a -> VG b -> VG (gsub a b). Proof. intros [] []. split; apply (cl_sub C); assumption. Qed.
Lemma gscale_in w a : V w -> VG a -> VG (gscale w a). Proof. intros H []. split; apply (cl_mul C); assumption. Qed.
Lemma energy_in k a : V k -> VG a -> V (energy k a).
Proof. intros H []. unfold energy. destruct (_ =? _); [apply zero_in|]. apply (cl_div C); [apply (cl_mul C)|apply (cl_add C)]; assumption. Qed.
Lemma gscore_in k a : V k -> VG a -> V (gscore k a).
Proof. intros H []. unfold gscore. destruct (_ =? _); [apply zero_in|]. apply (cl_div C); [|apply (cl_add C)]; assumption. Qed.

(** *** Splits *)
Definition SG (sp : split N) : Prop := V (sp_gain sp) /\ forall t m, sp_float sp = Some (t, m) -> T t.
Lemma default_in : SG default_split. Proof. split; [apply zero_in|discriminate]. Qed.
Section Weighted.
Context (w : float_vector) (gd : list (grad N)) (G : Forall VG gd).
Lemma row_grad_in r g : row_grad w gd r = Ret g -> VG g.
Proof.
  unfold row_grad. destruct (w r) as [x| |]; try discriminate. cbn [bind]. destruct (vget gd r) as [d| |] eqn:E; try discriminate. cbn [bind]. intros [= <-].
  apply gscale_in; [apply (cl_float C)|exact (vget_in _ _ _ _ G E)].
Qed.
Lemma hist_in code mx rows h : compute_histogram code mx w gd rows = Ret h -> Forall VG (h_data h).
Proof.
  unfold compute_histogram. destruct (fold_res _ _ _) as [l| |] eqn:E; try discriminate. cbn [bind]. intros [= <-]. cbn [h_data].
  apply (fold_res_in (Forall VG)) in E; [exact E| |apply Forall_forall; intros x I; apply repeat_spec in I; subst x; apply gzero_in].
  clear l E. intros l r l' _ F. unfold hist_row. destruct (code r) as [k| |]; try discriminate. cbn [bind]. destruct (vget l _) as [d| |] eqn:Ed; try discriminate. cbn [bind].
  destruct (row_grad w gd r) as [g| |] eqn:Eg; try discriminate. cbn [bind]. apply vset_in; [exact F|]. apply gadd_in; [exact (vget_in _ _ _ _ F Ed)|exact (row_grad_in _ _ Eg)].
Qed.
Context (c : config N) (Lc : V (cf_l2_lambda c)).
Lemma cut_in t l r g : VG t -> VG l -> VG r -> cut_gain c t l r = Some g -> V g.
Proof. unfold cut_gain. intros Ht Hl Hr. destruct (_ <? _); [|discriminate]. intros [= <-]. apply (cl_sub C); [apply (cl_add C)|]; apply energy_in; assumption. Qed.
Lemma best_here_in h t l pm g b : Forall VG (h_data h) -> VG t -> VG l -> best_here c h t l pm = Ret (g, b) -> V g.
Proof.
  intros H Ht Hl. unfold best_here. set (gain := match cut_gain c t l (gsub t l) with Some g => g | None => n0 end).
  assert (V gain) as Hg.
  { unfold gain. destruct (cut_gain c t l (gsub t l)) eqn:E; [|apply zero_in]. exact (cut_in _ _ _ _ Ht Hl (gsub_in _ _ Ht Hl) E). }
  clearbody gain. destruct pm; [|intros [= <- <-]; exact Hg]. destruct (has_missing h) as [[]| |]; try discriminate; cbn [bind]; [|intros [= <- <-]; exact Hg].
  destruct (vget (h_data h) 0) as [d| |] eqn:Ed; try discriminate. cbn [bind]. pose proof (vget_in _ _ _ _ H Ed) as Hd.
  destruct (cut_gain c t (gsub l d) _) as [g'|] eqn:Ec; [|intros [= <- <-]; exact Hg]. destruct (_ <? _); intros [= <- <-]; [|exact Hg].
  refine (cut_in _ _ _ _ Ht _ _ Ec); [apply gsub_in|apply gadd_in; [apply gsub_in|]]; assumption.
Qed.
Lemma scan_in h t pm values : Forall VG (h_data h) -> VG t -> forall i l best p, VG l -> V (pt_gain best) -> scan c h t pm values i l best = Ret p -> V (pt_gain p).
Proof.
  intros H Ht. induction values as [|v values IH]; cbn [scan]; intros i l best p Hl Hb; [intros [= <-]; exact Hb|].
  match goal with |- context [bind ?r _] => destruct r as [best'| |] eqn:E end; try discriminate. cbn [bind].
  destruct (vget (h_data h) v) as [d| |] eqn:Ed; try discriminate. cbn [bind]. intros E2.
  refine (IH _ _ _ _ _ _ E2); [apply gadd_in; [exact Hl|exact (vget_in _ _ _ _ H Ed)]|].
  destruct (i =? 0)%Z; [injection E as <-; exact Hb|]. destruct (best_here c h t l pm) as [[g b]| |] eqn:Eb; try discriminate. cbn [bind] in E.
  destruct (_ <? g); injection E as <-; [|exact Hb]. exact (best_here_in _ _ _ _ _ _ H Ht Hl Eb).
Qed.
Lemma best_point_in h t pm p : Forall VG (h_data h) -> VG t -> find_best_split_point c h t pm = Ret (Some p) -> V (pt_gain p).
Proof.
  intros H Ht. unfold find_best_split_point. destruct (scan _ _ _ _ _ _ _ _) as [q| |] eqn:E; try discriminate. cbn [bind]. destruct (0 <=? _)%Z; [|discriminate]. intros [= <-].
  refine (scan_in _ _ _ _ H Ht _ _ _ _ gzero_in _ E). apply zero_in.
Qed.
Lemma split_in srt col rows t sp : VG t -> find_best_split srt col w gd rows c t = Ret (Some sp) -> SG sp.
Proof.
  intros Ht. unfold find_best_split. destruct (c_body col) as [b|r|s]; [|discriminate|]; swap 1 2.
  - unfold find_best_string_split. destruct (icol_vec _) as [u| |]; try discriminate. cbn [bind].
    destruct (compute_histogram _ _ _ _ _) as [h| |] eqn:Eh; try discriminate. cbn [bind].
    destruct (sort_on_node_score _ _ _) as [h'| |] eqn:Es; try discriminate. cbn [bind].
    destruct (find_best_split_point _ _ _ _) as [[p|]| |] eqn:Ep; try discriminate; cbn [bind]; try discriminate. intros [= <-]. split; [|discriminate]. cbn [sp_gain].
    refine (best_point_in _ _ _ _ _ Ht Ep). unfold sort_on_node_score in Es. destruct (_ || _); [|discriminate]. injection Es as <-. exact (hist_in _ _ _ _ Eh).
  - unfold find_best_float_split. destruct (icol_vec _) as [u| |]; try discriminate. cbn [bind].
    destruct (compute_histogram _ _ _ _ _) as [h| |] eqn:Eh; try discriminate. cbn [bind].
    destruct (find_best_split_point _ _ _ _) as [[p|]| |] eqn:Ep; try discriminate; cbn [bind]; try discriminate.
    destruct (vget (h_values h) _) as [lv| |]; try discriminate. cbn [bind]. destruct (vget (h_values h) _) as [rv| |]; try discriminate. cbn [bind].
    destruct (b_bucket_max _ _) as [ll| |]; try discriminate. cbn [bind]. destruct (b_bucket_min _ (Z.of_nat rv)) as [rl| |]; try discriminate. cbn [bind].
    match goal with |- context [bind ?r _] => destruct r as [thr| |] eqn:Et end; try discriminate. cbn [bind]. intros [= <-]. split; cbn [sp_gain sp_float].
    + exact (best_point_in _ _ _ _ (hist_in _ _ _ _ Eh) Ht Ep).
    + intros t0 m [= <- _]. destruct (is_nan ll); [destruct (b_bucket_min b 1) as [x| |]; try discriminate; cbn [bind] in Et|]; injection Et as <-; apply (cl_thr C).
Qed.

(** *** Sums over rows *)
Lemma read_vec_in {A} (P : A -> Prop) (m : mem nat A) : mem_ok P m -> forall k i, Forall P (read_vec m i k).
Proof. intros M. induction k as [|k IH]; cbn [read_vec]; intros i; [constructor|]. destruct (m i) eqn:E; [|constructor]. constructor; [exact (M _ _ E)|apply IH]. Qed.
Lemma vec_mem_ok {A} (P : A -> Prop) l : Forall P l -> mem_ok P (vec_mem l).
Proof. intros F i x E. apply nth_error_In in E. rewrite Forall_forall in F. exact (F _ E). Qed.
Lemma repeat_in {A} (P : A -> Prop) (x : A) k : P x -> Forall P (repeat x k).
Proof. intros H. apply Forall_forall. intros y I. apply repeat_spec in I. subst y. exact H. Qed.
Lemma sum_in threads rows g : weighted_sum threads w gd rows = Ret g -> VG g.
Proof.
  unfold weighted_sum. destruct (divide_slice _ _) as [sl| |]; try discriminate. cbn [bind]. destruct (run_tasks _ _ _) as [m| |] eqn:E; try discriminate. cbn [bind]. intros [= <-].
  apply (run_tasks_ok _ VG) in E; [| |apply vec_mem_ok, repeat_in, gzero_in].
  - pose proof (read_vec_in VG m E (List.length sl) 0) as F. apply fold_left_in; [|apply gzero_in]. intros a b I H. apply gadd_in; [exact H|]. rewrite Forall_forall in F. exact (F _ I).
  - apply Forall_forall. intros p I. unfold sum_tasks in I. apply in_map_iff in I. destruct I as ([i rs] & <- & _). cbn [fst snd].
    clear E. induction rs as [|r rs IH]; [exact Logic.I|]. cbn [sum_task]. apply writes_pres. intros d Ed. cbn. intros x Hx. split; [apply gadd_in; [exact Hx|exact (row_grad_in _ _ Ed)]|exact IH].
Qed.
Lemma best_in : forall rest i bi best k sp, Forall SG rest -> SG best -> best_index rest i bi best = (k, sp) -> SG sp.
Proof.
  induction rest as [|x rest IH]; cbn [best_index]; intros i bi best k sp F B; [intros [= _ <-]; exact B|]. inversion F; subst. destruct (_ <? _); apply IH; assumption.
Qed.
Lemma names_in col sp sp' : SG sp -> with_names col sp = Ret sp' -> SG sp'.
Proof.
  intros [Hg Hf]. unfold with_names. destruct (sp_cat sp) as [[n i]|].
  - destruct (c_body col); try discriminate. destruct (fold_res _ _ _) as [x| |]; try discriminate. cbn [bind]. intros [= <-]. split; assumption.
  - intros [= <-]. split; assumption.
Qed.
Lemma feature_in draw pos srt features rows t sp f pos' : VG t -> find_best_feature draw pos srt features w gd rows t c = Ret (sp, f, pos') -> SG sp.
Proof.
  intros Ht. unfold find_best_feature. destruct (uniform_subsample _ _ _ _) as [sampled pos1]. destruct (run_tasks _ _ _) as [m| |] eqn:E; try discriminate. cbn [bind].
  apply (run_tasks_ok _ SG) in E; [| |apply vec_mem_ok, repeat_in, default_in].
  - pose proof (read_vec_in SG m E (List.length sampled) 0) as F. destruct (read_vec m 0 _) as [|sp0 rest]; [intros [= <- _ _]; apply default_in|].
    inversion F as [|? ? F0 F1]; subst. destruct (best_index rest 1 0 sp0) as [bi best] eqn:Eb. pose proof (best_in _ _ _ _ _ _ F1 F0 Eb) as Hb.
    destruct (_ <? _); [|intros [= <- _ _]; apply default_in]. destruct (vget sampled bi) as [k| |]; try discriminate. cbn [bind]. destruct (vget features k) as [col| |]; try discriminate. cbn [bind].
    destruct (with_names col best) as [x| |] eqn:En; try discriminate. cbn [bind]. intros [= <- _ _]. exact (names_in _ _ _ Hb En).
  - apply Forall_forall. intros p I. unfold search_tasks in I. apply in_map_iff in I. destruct I as ([i k] & <- & _). cbn [fst snd]. unfold search_task.
    apply writes_pres. intros col _. apply writes_pres. intros [sp0|] Es; [|exact Logic.I]. cbn. split; [exact (split_in _ _ _ _ _ Ht Es)|exact Logic.I].
Qed.
End Weighted.

(** *** Trees *)
Fixpoint TV (t : tree N) : Prop :=
  match t with
  | TNone => True
  | TNode s sp l r => V s /\ (forall x, sp = Some x -> SG x) /\ TV l /\ TV r
  end.
Lemma new_node_in k t sp : SG sp -> TV (new_node k t sp).
Proof. intros H. split; [apply (cl_store C)|]. split; [|split; exact I]. intros x. destruct (_ <? _); [intros [= <-]; exact H|discriminate]. Qed.
Lemma set_children_in : forall t p l r, TV t -> TV l -> TV r -> TV (set_children t p l r).
Proof.
  induction t as [|s sp a IHa b IHb]; intros p l r Ht Hl Hr; [exact I|]. destruct Ht as (H1 & H2 & H3 & H4). destruct p as [|d p]; cbn [set_children]; [cbn; auto|].
  destruct d; cbn; auto.
Qed.
Lemma set_children_node (t : tree N) p l r : t <> TNone -> set_children t p l r <> TNone.
Proof. destruct t as [|s sp a b]; [congruence|]. intros _. destruct p as [|[] p]; cbn; discriminate. Qed.
Section Fit.
Context (top : nat -> list N -> nat) (draw : nat -> spec_float) (threads : nat) (srt : (nat -> nat -> bool) -> list nat -> list nat) (w : float_vector) (gd : list (grad N))
  (features : list column) (c : config N) (G : Forall VG gd) (Lc : V (cf_l2_lambda c)).
Lemma grow_in : forall fuel step pos t queue samples t' pos', TV t -> t <> TNone -> grow top draw threads srt w gd features c fuel step pos t queue samples = Ret (t', pos') -> TV t' /\ t' <> TNone.
Proof.
  induction fuel as [|fuel IH]; cbn [grow]; intros step pos t queue samples t' pos' Ht Nt; [intros [= <- <-]; auto|].
  destruct queue as [|q0 queue]; [intros [= <- <-]; auto|]. destruct (negb _); [intros [= <- <-]; auto|].
  destruct (vget _ _) as [nd| |]; try discriminate. cbn [bind]. destruct (nd_feature nd) as [col|]; [|intros [= <- <-]; auto].
  destruct (run _ _ _) as [[k m]| |]; try discriminate. cbn [bind]. destruct (weighted_sum _ _ _ _) as [lt| |] eqn:El; try discriminate. cbn [bind].
  destruct (weighted_sum _ _ _ (slice _ (_, (_ + nd_len nd)%nat))) as [rt| |] eqn:Er; try discriminate. cbn [bind].
  destruct (find_best_feature _ _ _ _ _ _ _ lt _) as [[[lsp lf] p1]| |] eqn:E1; try discriminate. cbn [bind].
  destruct (find_best_feature _ _ _ _ _ _ _ rt _) as [[[rsp rf] p2]| |] eqn:E2; try discriminate. cbn [bind].
  apply sum_in in El; [|exact G]. apply sum_in in Er; [|exact G].
  apply feature_in in E1; [|exact G|exact Lc|exact El]. apply feature_in in E2; [|exact G|exact Lc|exact Er].
  apply IH; [apply set_children_in; [exact Ht|apply new_node_in; exact E1|apply new_node_in; exact E2]|apply set_children_node; exact Nt].
Qed.
Lemma fit_in pos t pos' : fit_tree top draw threads srt w gd features c pos = Ret (t, pos') -> TV t /\ t <> TNone.
Proof.
  unfold fit_tree. destruct (uniform_subsample _ _ _ _) as [samples p0]. destruct (weighted_sum _ _ _ _) as [tt| |] eqn:El; try discriminate. cbn [bind].
  destruct (find_best_feature _ _ _ _ _ _ _ _ _) as [[[sp f] p1]| |] eqn:E1; try discriminate. cbn [bind].
  apply sum_in in El; [|exact G]. apply feature_in in E1; [|exact G|exact Lc|exact El]. apply grow_in; [apply new_node_in; exact E1|discriminate].
Qed.
End Fit.
Lemma shrink_in k : forall t, TV t -> TV (apply_shrinkage k t).
Proof. induction t as [|s sp l IHl r IHr]; cbn; [trivial|]. intros (A & B & D & E). split; [apply (cl_store C)|auto]. Qed.
Lemma shrink_node k (t : tree N) : t <> TNone -> apply_shrinkage k t <> TNone.
Proof. destruct t; [congruence|discriminate]. Qed.
Lemma clear_in : forall t, TV t -> TV (clear_internal t).
Proof.
  induction t as [|s sp l IHl r IHr]; [trivial|]. cbn [clear_internal TV]. intros (A & B & D & E). split; [exact A|]. split; [|split; auto].
  intros x. destruct (present l); [|discriminate]. destruct sp as [y|]; [|discriminate]. cbn. intros [= <-]. specialize (B y eq_refl). unfold clear_split. destruct (sp_cat y) as [[n i]|]; [|exact B].
  exact B.
Qed.
Lemma clear_node (t : tree N) : t <> TNone -> clear_internal t <> TNone.
Proof. destruct t; [congruence|discriminate]. Qed.

(** *** Scores *)
Definition SVal (x : sval (N := N)) : Prop := match x with inl _ => True | inr v => V v end.
Lemma part_writes goes start : forall todo i k, writes_ok SVal (part_loop (N := N) goes start i todo k).
Proof.
  induction todo as [|todo IH]; cbn [part_loop]; intros i k; [exact I|]. apply writes_bind; [intros [x|x] _; exact I|]. intros s. apply writes_pres. intros [] _; [|apply IH].
  repeat (apply writes_bind; [intros [x|x] _; exact I|intros ?]). repeat (apply writes_bind; [split; exact I|intros ?]). apply IH.
Qed.
Lemma partition_writes c sp start len : writes_ok SVal (partition (N := N) c sp start len).
Proof. unfold partition. destruct (c_body c); [|exact I|]; apply writes_pres; intros u _; apply part_writes. Qed.
Lemma leaf_writes v : V v -> forall todo start, writes_ok SVal (leaf_loop (N := N) v start todo).
Proof.
  intros Hv. induction todo as [|todo IH]; cbn [leaf_loop]; intros start; [exact I|]. apply writes_bind; [intros [x|x] _; exact I|]. intros s. cbn. intros [x|x] Hx; [exact I|]. cbn.
  split; [apply (cl_add C); [exact Hx|exact Hv]|apply IH].
Qed.
Lemma tree_writes store k : V k -> forall t start len, TV t -> writes_ok SVal (add_sample_tree_scores store t k start len).
Proof.
  intros Hk. induction t as [|s sp l IHl r IHr]; intros start len Ht; [apply leaf_writes, (cl_add C); [apply zero_in|exact Hk]|].
  destruct Ht as (A & _ & B & D). cbn [add_sample_tree_scores]. destruct l as [|s1 sp1 l1 r1]; [apply leaf_writes, (cl_add C); assumption|].
  destruct (store _) as [col|]; [|exact I]. apply writes_bind; [apply partition_writes|]. intros n. apply writes_bind; [apply IHl; exact B|]. intros u. apply IHr. exact D.
Qed.
Lemma scores_in store threads t k st st' : V k -> TV t -> Forall V (snd st) -> add_tree_scores store threads t k st = Ret st' -> Forall V (snd st').
Proof.
  intros Hk Ht F. destruct st as [samples scores]. unfold add_tree_scores. destruct (score_slices _ _) as [sl| |]; try discriminate. cbn [bind].
  destruct (run_tasks _ _ _) as [m| |] eqn:E; try discriminate. cbn [bind]. intros [= <-]. cbn [snd] in *.
  apply (run_tasks_ok _ SVal) in E.
  - generalize (List.length scores) as n, 0%nat as i. clear - E. induction n as [|n IH]; intros i; cbn [read_scores]; [constructor|].
    destruct (m (inr i)) as [[x|x]|] eqn:Em; try constructor; [exact (E _ _ Em)|apply IH].
  - apply Forall_forall. intros p I. unfold score_tasks in I. apply in_map_iff in I. destruct I as (r & <- & _). apply tree_writes; assumption.
  - intros [i|i] v; cbn; [destruct (nth_error samples i); [intros [= <-]; exact I|discriminate]|].
    destruct (nth_error scores i) eqn:En; [|discriminate]. intros [= <-]. apply nth_error_In in En. rewrite Forall_forall in F. exact (F _ En).
Qed.

(** *** Training *)
(** A loss whose constants and gradients are in the set *)
Definition loss_in (rows : nat) (w y : float_vector) (lf : loss N) : Prop := exists inv : l_state lf -> Prop,
  (forall group s, l_init lf rows w y group = Ret (inr s) -> inv s) /\
  (forall s pos f gd x gd' s' pos', inv s -> Forall V f -> Forall VG gd -> l_round lf s pos f gd = Ret (x, gd', s', pos') -> V x /\ Forall VG gd' /\ inv s').
Definition good_trees (l : list (tree N)) : Prop := Forall (fun t => TV t /\ t <> TNone) l.
Lemma base_in v threads base : Forall TV base -> forall k trees st k' trees' st', V k -> good_trees trees -> Forall V (snd st) ->
  init_with_base v threads base k trees st = Ret (k', trees', st') -> V k' /\ good_trees trees' /\ Forall V (snd st').
Proof.
  induction 1 as [|t base Ht _ IH]; cbn [init_with_base]; intros k trees st k' trees' st' Hk Ft Fs; [intros [= <- <- <-]; auto|].
  destruct (add_tree_scores _ _ _ _ _) as [st1| |] eqn:E; try discriminate. cbn [bind]. apply scores_in in E; [|apply zero_in|exact Ht|exact Fs].
  destruct (single_node t) eqn:Es; apply IH; [apply (cl_store C)|exact Ft|exact E|exact Hk| |exact E]. apply Forall_app. split; [exact Ft|]. constructor; [|constructor].
  split; [exact Ht|]. intros ->. discriminate Es.
Qed.
Section Rounds.
Context (v : view) (threads : nat) (top : nat -> nat -> list N -> nat) (draw : nat -> spec_float) (srt : (nat -> nat -> bool) -> list nat -> list nat) (w : float_vector) (c : config N)
  (Lc : V (cf_l2_lambda c)) (lf : loss N).
Lemma rounds_in features (inv : l_state lf -> Prop) :
  (forall s pos f gd x gd' s' pos', inv s -> Forall V f -> Forall VG gd -> l_round lf s pos f gd = Ret (x, gd', s', pos') -> V x /\ Forall VG gd' /\ inv s') ->
  forall todo i k trees st gd ls pos r, V k -> good_trees trees -> Forall V (snd st) -> Forall VG gd -> inv ls ->
  rounds v threads top draw srt w features c lf todo i k trees st gd ls pos = Ret r -> good_trees (tr_forest r) /\ Forall V (tr_f r).
Proof.
  intros HR. assert (forall k : N, V k -> TV (constant_tree k) /\ constant_tree k <> TNone) as Cs by (intros k Hk; split; [split; [exact Hk|split; [discriminate|split; exact I]]|discriminate]).
  induction todo as [|todo IH]; cbn [rounds]; intros i k trees st gd ls pos r Hk Ft Fs Fg Hi.
  - intros [= <-]. cbn [tr_forest tr_f]. split; [|exact Fs]. constructor; [split; [exact (clear_in _ (proj1 (Cs k Hk)))|discriminate]|].
    apply Forall_map. eapply Forall_impl; [|exact Ft]. intros t [A B]. split; [apply clear_in; exact A|apply clear_node; exact B].
  - destruct (l_round _ _ _ _ _) as [[[[x gd'] ls'] pos']| |] eqn:El; try discriminate. cbn [bind]. apply HR in El; [|assumption..]. destruct El as (Hx & Fg' & Hi').
    destruct (nfinite x); [|intros [= <-]; cbn [tr_forest tr_f]; split; [constructor; [apply Cs, Hk|exact Ft]|exact Fs]].
    destruct (fit_tree _ _ _ _ _ _ _ _ _) as [[t p2]| |] eqn:Et; try discriminate. cbn [bind]. apply fit_in in Et; [|exact Fg'|exact Lc]. destruct Et as [Ht Nt].
    destruct (add_tree_scores _ _ _ _ _) as [st1| |] eqn:Ea; try discriminate. cbn [bind]. apply scores_in in Ea; [|exact Hx|apply shrink_in; exact Ht|exact Fs].
    apply IH; [apply (cl_store C)| |exact Ea|exact Fg'|exact Hi']. apply Forall_app. split; [exact Ft|]. constructor; [|constructor]. split; [apply shrink_in; exact Ht|apply shrink_node; exact Nt].
Qed.
Lemma train_in pos names y base r : loss_in (v_rows v) w y lf -> (forall b, base = Some b -> Forall TV b) ->
  train v threads top draw pos srt names w y lf c base = Ret r -> good_trees (tr_forest r) /\ Forall V (tr_f r).
Proof.
  intros (inv & HI & HR) Fb E. unfold train in E. destruct (check_config c); [|injection E as <-; split; constructor].
  destruct (load_features _ _) as [[|e] features]; [|injection E as <-; split; constructor].
  destruct (group_column _ _) as [group| |]; [|discriminate E..]. cbn [bind] in E.
  destruct (l_init _ _ _ _ _) as [[e|ls]| |] eqn:Ei; [| |discriminate E..]; cbn [bind] in E; [injection E as <-; split; constructor|].
  destruct (init_scores v threads) as [st0| |] eqn:E0; [|discriminate E..]. cbn [bind] in E.
  assert (Forall V (snd st0)) as F0 by (unfold init_scores in E0; destruct (score_slices _ _); try discriminate; cbn [bind] in E0; injection E0 as <-; apply repeat_in, zero_in).
  destruct (init_with_base _ _ _ _ _ _) as [[[k trees] st]| |] eqn:B; [|discriminate E..]. cbn [bind] in E.
  apply base_in in B; [|destruct base as [b|]; [apply Fb; reflexivity|constructor]|apply zero_in|constructor|exact F0]. destruct B as (Bk & Bt & Bs).
  eapply (rounds_in features inv HR); [exact Bk|exact Bt|exact Bs|apply repeat_in, gzero_in|exact (HI _ _ Ei)|exact E].
Qed.
End Rounds.

(** *** Losses *)
Definition point_in (p : point N) : Prop := V (p_loss p) /\ VG (p_grad p).
Definition lossf_in (lossf : N -> N -> point N) : Prop := forall y f, V y -> V f -> point_in (lossf y f).
Ltac closing := repeat first [assumption|apply zero_in|apply one_in|apply (cl_float C)|apply (cl_store C)|apply (cl_Z C)|apply (cl_add C)|apply (cl_sub C)|apply (cl_mul C)|apply (cl_div C)|apply (cl_opp C)
  |apply (cl_abs C)|apply (cl_exp C)|apply (cl_log C)].
Lemma mse_in : lossf_in mse.
Proof. intros y f Hy Hf. split; [|split]; cbn; closing. Qed.
Lemma log_in : lossf_in log_loss.
Proof. intros y f Hy Hf. split; [|split]; cbn; closing. Qed.
Lemma hinge_in : lossf_in huberized_hinge.
Proof. intros y f Hy Hf. unfold huberized_hinge, half_const. destruct (_ <=? _); [|destruct (_ <=? _)]; (split; [|split]); cbn; closing. Qed.
Lemma squared_in : lossf_in squared_hinge.
Proof. intros y f Hy Hf. unfold squared_hinge. destruct (_ <? _); (split; [|split]); cbn; closing. Qed.

Definition PVal (x : pval (N := N)) : Prop := match x with inl g => VG g | inr (l, g) => V l /\ VG g end.
Lemma point_row_writes lossf w y f k j i : lossf_in lossf -> V k -> Forall V f -> writes_ok PVal (point_row lossf w y f k j i).
Proof.
  intros HL Hk Ff. unfold point_row. apply writes_pres. intros x Ex. apply writes_pres. intros yi _. apply writes_pres. intros wi _.
  assert (point_in (lossf (nfloat yi) (x + k))) as [A B] by (apply HL; [apply (cl_float C)|apply (cl_add C); [exact (vget_in _ _ _ _ Ff Ex)|exact Hk]]).
  cbn. split; [exact B|]. intros [g|[l g]]; cbn; [trivial|]. intros [Hl Hg] [d|[? ?]] Hd; cbn in *; [|exact I].
  split; [|exact I]. split; [closing|]. apply gadd_in; [exact Hg|]. apply gscale_in; [apply (cl_float C)|exact Hd].
Qed.
Lemma pass_in lossf p f k gd gd' total : lossf_in lossf -> V k -> Forall V f -> Forall VG gd -> point_pass lossf p f k gd = Ret (gd', total) -> Forall VG gd' /\ VG (snd total).
Proof.
  intros HL Hk Ff Fg. unfold point_pass. destruct (run_tasks _ _ _) as [m| |] eqn:E; try discriminate. cbn [bind]. intros [= <- <-].
  apply (run_tasks_ok _ PVal) in E.
  - split.
    + generalize (List.length gd) as n, 0%nat as i. clear - E. induction n as [|n IH]; intros i; cbn [read_grads]; [constructor|].
      destruct (m (inl i)) as [[x|x]|] eqn:Em; try constructor; [exact (E _ _ Em)|apply IH].
    + assert (forall n i, Forall (fun a : N * grad N => V (fst a) /\ VG (snd a)) (read_totals m i n)) as F.
      { clear - E. induction n as [|n IH]; intros i; cbn [read_totals]; [constructor|].
        destruct (m (inr i)) as [[x|[a b]]|] eqn:Em; try constructor; [exact (E _ _ Em)|apply IH]. }
      specialize (F (List.length (pw_slices p)) 0%nat). apply (fold_left_in (fun a : N * grad N => V (fst a) /\ VG (snd a))); [|split; [apply zero_in|apply gzero_in]].
      intros a b I [A B]. rewrite Forall_forall in F. destruct (F _ I) as [A' B']. split; [apply (cl_add C)|apply gadd_in]; assumption.
  - apply Forall_forall. intros q I. unfold point_tasks in I. apply in_map_iff in I. destruct I as ([j r] & <- & _). cbn [fst snd]. generalize (range r) as rows. clear - HL Hk Ff C.
    induction rows as [|i rows IH]; [exact I|]. cbn [point_task]. apply writes_bind; [apply point_row_writes; assumption|]. intros _. exact IH.
  - intros [i|i] v; cbn.
    + destruct (nth_error gd i) eqn:En; [|discriminate]. intros [= <-]. apply nth_error_In in En. rewrite Forall_forall in Fg. exact (Fg _ En).
    + destruct (nth_error _ i) eqn:En; [|discriminate]. intros [= <-]. apply nth_error_In, repeat_spec in En. subst. split; [apply zero_in|apply gzero_in].
Qed.
Lemma newton_in lossf p f : lossf_in lossf -> Forall V f -> forall todo k gd k' gd', V k -> Forall VG gd -> newton lossf p f todo k gd = Ret (k', gd') -> V k' /\ Forall VG gd'.
Proof.
  intros HL Ff. induction todo as [|todo IH]; cbn [newton]; intros k gd k' gd' Hk Fg; [intros [= <- <-]; auto|].
  destruct (point_pass _ _ _ _ _) as [[gd1 total]| |] eqn:E; try discriminate. cbn [bind]. apply pass_in in E; [|assumption..]. destruct E as [F1 Ht].
  assert (V (k + gscore n0 (snd total))) as Hk' by (apply (cl_add C); [exact Hk|apply gscore_in; [apply zero_in|exact Ht]]).
  destruct (_ && _); [apply IH; assumption|intros [= <- <-]; auto].
Qed.
Lemma pointwise_in rows w y threads binary lossf : lossf_in lossf -> loss_in rows w y (pointwise_loss threads binary lossf).
Proof.
  intros HL. exists (fun _ => True). split; [trivial|]. intros s pos f gd x gd' s' pos' _ Ff Fg. cbn [l_round pointwise_loss]. unfold pointwise_round.
  destruct (newton _ _ _ _ _ _) as [[k g]| |] eqn:E; try discriminate. cbn [bind]. intros [= <- <- _ _]. apply newton_in in E; [|exact HL|exact Ff|apply zero_in|].
  - destruct E; auto.
  - unfold resize. apply Forall_app. split; [|apply repeat_in, gzero_in]. apply Forall_forall. intros g0 I. rewrite Forall_forall in Fg. apply Fg. rewrite <- (firstn_skipn (List.length f) gd).
    apply in_or_app. left. exact I.
Qed.

Definition WVal (x : wval (N := N)) : Prop := match x with WG g => VG g | WT a b => V a /\ V b | WS _ => True end.
Definition weight_in (weight : float_vector -> group -> nat * nat -> res N) : Prop := forall y g p x, weight y g p = Ret x -> V x.
Lemma diff_in y g p x : target_diff (N := N) y g p = Ret x -> V x.
Proof. unfold target_diff. destruct (group_y y g (fst p)); try discriminate. cbn [bind]. destruct (group_y y g (snd p)); try discriminate. cbn [bind]. intros [= <-]. apply (cl_store C). Qed.
Lemma basic_in b : weight_in (basic_weight b).
Proof. intros y g p x. unfold basic_weight. destruct b; [apply diff_in|intros [= <-]; apply one_in]. Qed.
Lemma lambda_in base : weight_in (lambda_weight base).
Proof.
  intros y g p x. unfold lambda_weight. destruct (target_diff y g p) as [d| |] eqn:E; try discriminate. cbn [bind]. destruct (vget _ _) as [r1| |]; try discriminate. cbn [bind].
  destruct (vget _ (snd p)) as [r2| |]; try discriminate. cbn [bind]. intros [= <-]. apply diff_in in E. unfold discount. closing.
Qed.
Section Pairs.
Context (srt : (nat -> nat -> bool) -> list nat -> list nat) (threads : nat) (to_uint : N -> res nat) (pick : nat -> nat -> nat * nat) (c : config N) (with_rerank : bool)
  (weight : float_vector -> group -> nat * nat -> res N) (lossf : N -> N -> point N) (HW : weight_in weight) (HL : lossf_in lossf).
Lemma pair_once_writes w y f j g factor : Forall V f -> V factor -> writes_ok WVal (pair_once pick weight lossf w y f j g factor).
Proof.
  intros Ff Hf. unfold pair_once. cbn [writes_ok]. intros [?|? ?|pos] Hv; try exact I. destruct (pick pos (gr_pairs g)) as [index pos']. cbn [writes_ok]. split; [exact I|].
  apply writes_pres. intros p _. apply writes_pres. intros a _. apply writes_pres. intros b _. apply writes_pres. intros wa _. apply writes_pres. intros wb _.
  apply writes_pres. intros pw Ep. apply HW in Ep. apply writes_pres. intros ya _. apply writes_pres. intros yb _. apply writes_pres. intros fa Ea. apply writes_pres. intros fb Eb.
  pose proof (vget_in _ _ _ _ Ff Ea) as Ha. pose proof (vget_in _ _ _ _ Ff Eb) as Hb.
  assert (point_in (lossf (nstore (nfloat ya - nfloat yb)) (fa - fb))) as [A [B D]] by (apply HL; closing).
  assert (V (nstore (nfloat wa * nfloat wb) * pw * factor)) as Hw by closing. cbn zeta.
  set (data := lossf _ _) in *. set (wt := nstore _ * pw * factor) in *. clearbody data wt.
  repeat (apply writes_bind; [intros [d|? ?|?] Hd; try exact I; destruct Hd as [D1 D2]; split; [split; cbn [gg gh]; closing|exact I]|intros ?]).
  intros [?|u1 u2|?] Hd; try exact I. destruct Hd as [D1 D2]. split; [split; closing|exact I].
Qed.
Lemma pair_group_writes p f j gi : Forall V f -> writes_ok WVal (pair_group srt to_uint pick c with_rerank weight lossf p f j gi).
Proof.
  intros Ff. unfold pair_group. apply writes_pres. intros g0 _. apply writes_pres. intros g _. apply writes_pres. intros n _.
  assert (V (if cf_equal_groups c then nZ (Z.of_nat (pr_max p)) / nZ (Z.of_nat (gr_pairs g)) else n1)) as Hf by (destruct (cf_equal_groups c); closing).
  cbn zeta. revert Hf. generalize (if cf_equal_groups c then nZ (Z.of_nat (pr_max p)) / nZ (Z.of_nat (gr_pairs g)) else n1 : N) as factor. intros factor Hf. induction n as [|n IH]; [exact I|]. cbn [pair_times]. apply writes_bind; [apply pair_once_writes; assumption|]. intros _. exact IH.
Qed.
Lemma pairwise_in rows w y : loss_in rows w y (pairwise_loss srt threads to_uint pick c with_rerank weight lossf).
Proof.
  exists (fun _ => True). split; [trivial|]. intros s pos f gd x gd' s' pos' _ Ff Fg. cbn [l_round pairwise_loss]. unfold pair_round.
  destruct (run_tasks _ _ _) as [m| |] eqn:E; try discriminate. cbn [bind]. destruct (read_all _ _) as [gs| |]; try discriminate. cbn [bind].
  destruct (m WGen) as [[?|? ?|p1]|]; try discriminate. intros [= <- <- _ _]. split; [apply zero_in|]. split; [|exact I].
  apply (run_tasks_ok _ WVal) in E.
  - generalize (List.length f) as n, 0%nat as i. clear - E. induction n as [|n IH]; intros i; cbn [pair_grads]; [constructor|].
    destruct (m (WGrad i)) as [[g|? ?|?]|] eqn:Em; try constructor; [exact (E _ _ Em)|apply IH].
  - apply Forall_forall. intros q I. unfold pair_tasks in I. apply in_map_iff in I. destruct I as ([j r] & <- & _). cbn [fst snd]. generalize (range r) as l. clear - Ff HW HL C.
    induction l as [|i l IH]; [exact I|]. cbn [pair_task]. apply writes_bind; [apply pair_group_writes; assumption|]. intros _. exact IH.
  - intros [i|j|] v; cbn [pair_mem]; [destruct (i <? List.length f)%nat; [|discriminate]|destruct (j <? List.length (pr_slices s))%nat; [|discriminate]|]; intros [= <-]; [apply gzero_in|split; apply zero_in|exact I].
Qed.
Lemma constant_lossf_in (g : N -> point N) : (forall f, V f -> point_in (g f)) -> lossf_in (fun _ d => g d).
Proof. intros H y f _ Hf. exact (H f Hf). Qed.
End Pairs.
Lemma created_in srt threads to_uint pick c rows w y lf : create_loss srt threads to_uint pick c = Some lf -> loss_in rows w y lf.
Proof.
  unfold create_loss. cbn [assoc].
  repeat match goal with |- (if ?b then _ else _) = _ -> _ => destruct b; [intros [= <-]|] end; [..|discriminate].
  - apply pointwise_in, mse_in.
  - apply pointwise_in, log_in.
  - apply pointwise_in, hinge_in.
  - apply pairwise_in; [apply basic_in|]. intros t d _ Hd. apply hinge_in; [apply one_in|exact Hd].
  - apply pairwise_in; [apply basic_in|]. intros t d _ Hd. apply log_in; [apply one_in|exact Hd].
  - apply pairwise_in; [apply basic_in|]. intros t d Ht Hd. apply squared_in; assumption.
  - apply pairwise_in; [apply lambda_in|]. intros t d _ Hd. apply log_in; [apply one_in|exact Hd].
Qed.
End Closed.
