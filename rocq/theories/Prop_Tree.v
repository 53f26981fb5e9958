(** Prop_Tree.v - properties C33 to C36 and C59.  Statements only.  Model: Tree.v; vocabulary: TreeSpec.v, SplitSpec.v. *)
From Coq Require Import SpecFloat Reals.
From Verif Require Import Base F32 Column DataStore Subsampling Num Forest Par Config Score ScoreSpec Split SplitSpec Split_proofs
  Tree TreeSpec Sum_proofs Feature_proofs Tree_proofs Prop_Score Prop_Split.
Local Close Scope R_scope.

(** ** C33 - the shape of a tree *)
Theorem C33_shape (N : Num) (O : ordered N) top draw threads srt w gd features (c : config N) store rg pos t pos' :
  setting top threads srt w gd features store rg -> fit_tree top draw threads srt w gd features c pos = Ret (t, pos') ->
  full features t /\ num_leaves t = S (num_internal t) /\ (1 <= Z.of_nat (num_leaves t) <= Z.max 1 (as_size (cf_num_leaves c)))%Z.
Proof. exact (fun St E => set_shape O top draw threads srt w gd features c store rg pos St t pos' E). Qed.
Print Assumptions C33_shape.

(** A tree is returned: always in exact arithmetic, and without string features in any arithmetic (a NaN score of a
    category breaks the precondition of std::sort). *)
Theorem C33_returns (N : Num) (O : ordered N) top draw threads srt w gd features (c : config N) store rg pos :
  setting top threads srt w gd features store rg ->
  (forall x : N, neqb x x = true) \/ (forall col s, In col features -> c_body col <> BodyS s) ->
  exists r, fit_tree top draw threads srt w gd features c pos = Ret r.
Proof. exact (fun St => set_total O top draw threads srt w gd features c store rg pos St). Qed.
Print Assumptions C33_returns.

(** Five rows, a float and a string feature. *)
Definition half : spec_float := binary_normalize 53 1024 1 (-1) false.
Definition ex_tree_cfg (leaves : Z) : config Ex :=
  mkConfig 1 leaves f32_one (dbl 0) (dbl 0) (dbl 0) f32_one f32_one 0 [lit "x"] [lit "s"] [] [] false [] [] f32_zero false f32_zero false.
Definition ex_x : column := mkCol (lit "x") (BodyB (ex_bcol [fl 1; fl 2; fl 3; fl 4; fl 5])).
Definition ex_s : column := mkCol (lit "s") (BodyS (ex_cats ["a"; "b"; "a"; "b"; "a"]%string)).
Definition ex_gd : list (grad Ex) := [dg 8 1; dg 8 1; dg 4 1; dg 2 1; dg 4 1].
Fixpoint show_tree (t : tree Ex) (p : list bool) : list (list bool * f64 * option (str * f64)) :=
  match t with
  | TNone => []
  | TNode s sp l r =>
      (rev p, s, match sp with Some sp => Some (sp_feature sp, sp_gain sp) | None => None end)
        :: show_tree l (true :: p) ++ show_tree r (false :: p)
  end.
Definition ex_fit (leaves : Z) (features : list column) (gd : list (grad Ex)) : list (list bool * f64 * option (str * f64)) :=
  match fit_tree first_top (fun _ => half) 2 insertion_sort ones gd features (ex_tree_cfg leaves) 0 with
  | Ret (t, _) => show_tree t []
  | _ => []
  end.
Definition paths (l : list (list bool * f64 * option (str * f64))) : list (list bool) := map (fun x => fst (fst x)) l.
Definition scores (l : list (list bool * f64 * option (str * f64))) : list f64 := map (fun x => snd (fst x)) l.
Definition splits (l : list (list bool * f64 * option (str * f64))) : list (option str) := map (fun x => option_map fst (snd x)) l.
Example C33_example :
  paths (ex_fit 3 [ex_x; ex_s] ex_gd) = [[]; [true]; [false]; [false; true]; [false; false]] /\
  (* num_leaves = 1 *) paths (ex_fit 1 [ex_x; ex_s] ex_gd) = [[]] /\
  (* num_leaves = 0 *) paths (ex_fit 0 [ex_x; ex_s] ex_gd) = [[]] /\
  (* 4 leaves, although 5 are allowed *) List.length (paths (ex_fit 5 [ex_x] ex_gd)) = 7.
Proof. vm_compute. repeat split; reflexivity. Qed.

(** ** C34 - scores *)
(** Every node: its score and its split are those of the sampled rows that reach it in the finished tree. *)
Theorem C34_node (N : Num) (O : ordered N) top draw threads srt w gd features (c : config N) store rg pos t pos' :
  setting top threads srt w gd features store rg -> fit_tree top draw threads srt w gd features c pos = Ret (t, pos') ->
  full features t /\ grown t /\
  ((as_size (cf_num_leaves c) <= Z.of_nat (num_leaves t))%Z \/ (forall p s sp, has_leaf t p s sp -> sp = None)) /\
  (Z.of_nat (num_leaves t) <= Z.max 1 (as_size (cf_num_leaves c)))%Z /\
  forall p s sp, has_node t p s sp -> exists rows total pos1 pos2 b f,
    (NoDup rows /\ forall r, In r rows <-> In r (fst (uniform_subsample draw pos (List.length gd) (to_f64 (cf_example_rate c)))) /\ reaches store t r p) /\
    weighted_sum threads w gd rows = Ret total /\ s = nstore (score_of (cf_l2_lambda c) total) /\
    find_best_feature draw pos1 srt features w gd rows total c = Ret (b, f, pos2) /\
    sp = match f with None => None | Some _ => Some b end.
Proof. exact (fun St E => set_spec O top draw threads srt w gd features c store rg pos St t pos' E). Qed.
Print Assumptions C34_node.

(** Every row, sampled or not, reaches exactly one leaf. *)
Theorem C34_one_leaf (N : Num) (O : ordered N) top draw threads srt w gd features (c : config N) store rg pos t pos' row :
  setting top threads srt w gd features store rg -> fit_tree top draw threads srt w gd features c pos = Ret (t, pos') ->
  row < List.length gd ->
  exists p s sp, (has_leaf t p s sp /\ reaches store t row p) /\
    forall p' s' sp', has_leaf t p' s' sp' -> reaches store t row p' -> p' = p.
Proof. exact (fun St E L => set_leaf O top draw threads srt w gd features c store rg pos St t pos' row E L). Qed.
Print Assumptions C34_one_leaf.

(** In exact arithmetic the score is the Newton step of these rows. *)
Theorem C34_score top draw threads srt w gd features (c : config Exact) store rg pos t pos' :
  setting top threads srt w gd features store rg -> fit_tree top draw threads srt w gd features c pos = Ret (t, pos') ->
  forall p s sp, has_node t p s sp -> exists rows,
    NoDup rows /\ (forall r, In r rows <-> In r (fst (uniform_subsample draw pos (List.length gd) (to_f64 (cf_example_rate c)))) /\ reaches store t r p) /\
    let total := sum_of rg rows in
    s = if Req_EM_T (gh total + cf_l2_lambda c) 0 then 0%R else (gg total / (gh total + cf_l2_lambda c))%R.
Proof. exact (set_score top draw threads srt w gd features c store rg pos t pos'). Qed.
Print Assumptions C34_score.

Example C34_example : scores (ex_fit 3 [ex_x; ex_s] ex_gd) =
  [to_f64 (to_f32 (ndiv (dbl 26) (dbl 5))); dbl 8; to_f64 (to_f32 (ndiv (dbl 10) (dbl 3))); dbl 2; dbl 4].
Proof. vm_compute. reflexivity. Qed.

(** Neighbouring floats: a leaf without rows, and the other child looks for the same split again, down to num_leaves. *)
Theorem C34_empty_leaf_refuted : exists features gd,
  paths (ex_fit 4 features gd) = [[]; [true]; [false]; [false; true]; [false; false]; [false; false; true]; [false; false; false]] /\
  scores (ex_fit 4 features gd) = repeat (dbl 0) 7.
Proof. exists [mkCol (lit "x") (BodyB (ex_bcol [fl 1; next_one]))], [dg 1 1; dg (-1) 1]. vm_compute. split; reflexivity. Qed.
Print Assumptions C34_empty_leaf_refuted.

(** ** C35 - best first *)
Theorem C35_best_first (N : Num) (O : ordered N) top draw threads srt w gd features (c : config N) store rg pos t pos' :
  setting top threads srt w gd features store rg -> fit_tree top draw threads srt w gd features c pos = Ret (t, pos') ->
  grown t /\ ((as_size (cf_num_leaves c) <= Z.of_nat (num_leaves t))%Z \/ (forall p s sp, has_leaf t p s sp -> sp = None)).
Proof. exact (fun St E => set_grown O top draw threads srt w gd features c store rg pos St t pos' E). Qed.
Print Assumptions C35_best_first.
(** Such queues exist. *)
Theorem C35_queue (N : Num) (O : ordered N) : tops (first_top (N := N)).
Proof. exact (first_top_ok O). Qed.
Print Assumptions C35_queue.
(** The left child gains more than the right one: it is divided first. *)
Example C35_example :
  paths (ex_fit 3 [mkCol (lit "x") (BodyB (ex_bcol [fl 1; fl 2; fl 3; fl 4]))] [dg 9 1; dg 5 1; dg (-6) 1; dg (-7) 1]) =
    [[]; [true]; [true; true]; [true; false]; [false]].
Proof. vm_compute. reflexivity. Qed.

(** ** C36 - the choice of the feature *)
Theorem C36_feature (N : Num) (O : ordered N) draw pos srt features w gd rows total (c : config N) n results :
  sorts srt -> (forall col, In col features -> has_rows col n) ->
  let sampled := fst (uniform_subsample draw pos (List.length features) (to_f64 (cf_feature_rate c))) in
  Forall2 (fun k r => exists col, nth_error features k = Some col /\ find_best_split srt col w gd rows c total = Ret r) sampled results ->
  exists sp f, find_best_feature draw pos srt features w gd rows total c = Ret (sp, f, (pos + List.length features)%nat) /\
  match f with
  | None => sp = default_split /\ forall r, In r results -> r = None
  | Some col => exists i k sp0, first_best results i sp0 /\ nth_error sampled i = Some k /\ nth_error features k = Some col /\
      find_best_split srt col w gd rows c total = Ret (Some sp0) /\ named col sp0 sp /\ fits_kind col sp
  end.
Proof. exact (fun Srt Hr => find_spec O draw pos srt features w gd rows total c n Srt Hr results). Qed.
Print Assumptions C36_feature.

(** Every interleaving of the tasks runs to its end and leaves the same splits, namely those of [results]. *)
Theorem C36_schedule (N : Num) draw pos srt features w gd rows total (c : config N) results :
  let sampled := fst (uniform_subsample draw pos (List.length features) (to_f64 (cf_feature_rate c))) in
  Forall2 (fun k r => exists col, nth_error features k = Some col /\ find_best_split srt col w gd rows c total = Ret r) sampled results ->
  (forall s, ireach Nat.eq_dec (search_tasks srt features w gd rows c total sampled, vec_mem (repeat default_split (List.length sampled))) s ->
     (forall p, In p (fst s) -> ~ pfail p (snd s)) /\
     (all_done (fst s) \/ exists s', istep Nat.eq_dec s s') /\
     (all_done (fst s) -> forall i, snd s i = nth_error (map the_split results) i)) /\
  exists m, run_tasks Nat.eq_dec (search_tasks srt features w gd rows c total sampled) (vec_mem (repeat default_split (List.length sampled))) = Ret m /\
    forall i, m i = nth_error (map the_split results) i.
Proof. exact (search_schedule draw pos srt features w gd rows total c results). Qed.
Print Assumptions C36_schedule.

(** Two columns with the same values: the first is chosen; with the first left out by the sampling, the second. *)
Definition ex_find (draw : nat -> spec_float) (features : list column) (gd : list (grad Ex)) : option (str * option str) :=
  match find_best_feature draw 0 insertion_sort features ones gd (seq 0 (List.length gd)) (sum_of (ex_rg gd) (seq 0 (List.length gd))) (ex_tree_cfg 3) with
  | Ret (sp, f, _) => Some (sp_feature sp, option_map c_name f)
  | _ => None
  end.
Example C36_example :
  ex_find (fun _ => half) [ex_s; ex_x; mkCol (lit "y") (c_body ex_x)] ex_gd = Some (lit "x", Some (lit "x")) /\
  ex_find (fun k => if k =? 1 then dbl 1 else half) [ex_s; ex_x; mkCol (lit "y") (c_body ex_x)] ex_gd = Some (lit "y", Some (lit "y")) /\
  ex_find (fun _ => dbl 1) [ex_s; ex_x] ex_gd = Some ([], None).
Proof. vm_compute. repeat split; reflexivity. Qed.

(** ** C59 - weighted sums *)
Theorem C59_schedule (N : Num) w (gd : list (grad N)) rg threads rows : 1 <= threads -> weighted w gd rg rows ->
  exists slices, divide_slice rows (threads * 5) = Ret slices /\ concat slices = rows /\
    (forall s, ireach Nat.eq_dec (sum_tasks w gd slices, vec_mem (repeat gzero (List.length slices))) s ->
       (forall p, In p (fst s) -> ~ pfail p (snd s)) /\
       (all_done (fst s) \/ exists s', istep Nat.eq_dec s s') /\
       (all_done (fst s) -> forall i, snd s i = nth_error (map (sum_of rg) slices) i)) /\
    weighted_sum threads w gd rows = Ret (total_of (map (sum_of rg) slices)).
Proof. exact (sum_schedule w gd rg threads rows). Qed.
Print Assumptions C59_schedule.
Theorem C59_exact w (gd : list (grad Exact)) rg threads rows : 1 <= threads -> weighted w gd rg rows ->
  weighted_sum threads w gd rows = Ret (sum_of rg rows).
Proof. exact (sum_exact w gd rg threads rows). Qed.
Print Assumptions C59_exact.

(** Weight 1 each; one thread, five slices.  In doubles the number of threads matters. *)
Definition big : Z := 9007199254740992.
Definition ex_sum (threads : nat) (gd : list (grad Ex)) : option (f64 * f64) :=
  match weighted_sum threads ones gd (seq 0 (List.length gd)) with Ret d => Some (gg d, gh d) | _ => None end.
Example C59_example : ex_sum 1 ex_gd = Some (dbl 26, dbl 5) /\ ex_sum 3 ex_gd = Some (dbl 26, dbl 5).
Proof. vm_compute. split; reflexivity. Qed.
Theorem C59_threads_refuted : exists gd a b, ex_sum 1 gd = Some a /\ ex_sum 2 gd = Some b /\ feqb (fst a) (fst b) = false.
Proof.
  exists (repeat (dg 0 1) 8 ++ [dg big 1] ++ repeat (dg 1 1) 3), (dbl (big + 2), dbl 12), (dbl big, dbl 12).
  split; [|split]; vm_compute; reflexivity.
Qed.
Print Assumptions C59_threads_refuted.
(** No threads: division by zero. *)
Theorem C59_no_threads_refuted (N : Num) w (gd : list (grad N)) rows : weighted_sum 0 w gd rows = Undef.
Proof. exact (sum_no_threads w gd rows). Qed.
Print Assumptions C59_no_threads_refuted.
