(** Prop_Saved.v - a forest survives saving and loading (property C94). *)
From Coq Require Import SpecFloat Reals Permutation.
From Verif Require Import Base F32 Column DataStore Num Forest Score ScoreSpec Eval EvalSpec SplitSpec Stopwatch StopwatchSpec Print PrintSpec Draw Saved SavedSpec SpellingSpec Saved_proofs Spelling_proofs Prop_Score Prop_Draw.
Local Close Scope R_scope.

(** What is loaded is what was saved, except that a zero has lost its sign. *)
Theorem C94_loaded {c_exp c_log : f64 -> f64} reread regain (f : forest (IEEE c_exp c_log)) meta :
  float_writer reread -> double_writer regain -> Forall writable_tree f -> ~ In TNone f ->
  exists f', forest_of (forest_json reread regain f meta) = Some (f', meta) /\ Forall2 like f f' /\ Forall no_minus_zero f'.
Proof. exact (fun W G => forest_read reread regain W G f meta). Qed.
Print Assumptions C94_loaded.

(** It does the same in every store: the same scores, or the same failure. *)
Theorem C94_predictions {c_exp c_log : f64 -> f64} reread regain (f : forest (IEEE c_exp c_log)) meta :
  float_writer reread -> double_writer regain -> Forall writable_tree f -> ~ In TNone f ->
  exists f', forest_of (c_exp := c_exp) (c_log := c_log) (forest_json reread regain f meta) = Some (f', meta) /\ forall v threads, evaluate_forest v threads f' = evaluate_forest v threads f.
Proof. exact (saved_predicts reread regain f meta). Qed.
Print Assumptions C94_predictions.

(** Saving and loading it again changes nothing. *)
Theorem C94_again {c_exp c_log : f64 -> f64} reread regain (f f' : forest (IEEE c_exp c_log)) meta meta' :
  float_writer reread -> double_writer regain -> Forall writable_tree f -> ~ In TNone f ->
  forest_of (forest_json reread regain f meta) = Some (f', meta') -> forest_of (forest_json reread regain f' meta') = Some (f', meta').
Proof. exact (saved_again reread regain f f' meta meta'). Qed.
Print Assumptions C94_again.

(** The digits the library writes are enough: nine for a float, seventeen for a double. *)
Theorem C94_digits : float_writer (float_text 9) /\ double_writer double_text /\
  (forall reread x, a_float x -> finite_float x = true -> (Rabs (real_of x) < max_float)%R -> writes_digits 9 reread (to_f64 x) -> reads_back reread x) /\
  (forall regain x, a_double x -> writes_digits 17 regain x -> same_number (regain x) x).
Proof. exact (conj float_text_ok (conj double_text_ok (conj nine_digits seventeen_digits))). Qed.
Print Assumptions C94_digits.

(** Eight digits are not: a score becomes the next float. *)
Theorem C94_eight_digits_refuted : (forall reread, writes_digits 8 reread (to_f64 ex_float) -> ~ reads_back reread ex_float) /\
  match forest_of (c_exp := fun x => x) (c_log := fun x => x) (forest_json (float_text 8) double_text [TNode (to_f64 ex_float : Ex) None TNone TNone] []) with
  | Some ([TNode s None TNone TNone], []) => Some (s : f64)
  | _ => None
  end = Some (to_f64 (S754_finite false 10240022 (-10))).
Proof. split; [exact eight_digits|vm_compute; reflexivity]. Qed.
Print Assumptions C94_eight_digits_refuted.

(** A forest with the largest float is saved, but not loaded: its nine digits stand for a larger number. *)
Theorem C94_largest_refuted {c_exp c_log : f64 -> f64} reread regain meta : writes_digits 9 reread (to_f64 flt_max) ->
  forest_of (c_exp := c_exp) (c_log := c_log) (forest_json reread regain [TNode (to_f64 flt_max : IEEE c_exp c_log) None TNone TNone] meta) = None.
Proof. exact (largest_forest reread regain meta). Qed.
Print Assumptions C94_largest_refuted.

(** Fields of other names are refused, in the forest and in its trees; an object without fields is a forest without trees. *)
Theorem C94_stray {c_exp c_log : f64 -> f64} :
  (forall l k v, In (k, v) l -> ~ In k (map lit ["tree"; "metaInfo"; "meta_info"]%string) -> forest_of (c_exp := c_exp) (c_log := c_log) (JDict l) = None) /\
  (forall meta trees l k v, In (JDict l) trees -> In (k, v) l ->
     ~ In k (map lit ["score"; "split"; "leftChild"; "left_child"; "rightChild"; "right_child"]%string) ->
     forest_of (c_exp := c_exp) (c_log := c_log) (JDict [(lit "tree", JList trees); (lit "metaInfo", JStr meta)]) = None) /\
  forest_of (c_exp := c_exp) (c_log := c_log) (JDict []) = Some ([], []).
Proof. exact stray_fields. Qed.
Print Assumptions C94_stray.

(** Fields may have their declared names or names in camel case, come in any order, and be left out if they have default values. *)
Theorem C94_spellings {c_exp c_log : f64 -> f64} j j' r : respelled j j' ->
  forest_of (c_exp := c_exp) (c_log := c_log) j = Some r -> forest_of (c_exp := c_exp) (c_log := c_log) j' = Some r.
Proof. exact (respelled_kept j j' r). Qed.
Print Assumptions C94_spellings.

(** 1/3 as a float is written as 0.333333343, another double, and loaded as the same float; -0 is loaded as 0. *)
Definition ex_third32 : f32 := to_f32 (SFdiv 53 1024 (dbl 1) (dbl 3)).
Definition ex_kept : forest Ex :=
  [TNode (dbl 0) (Some (mkSplit (lit "x") (Some (ex_third32, true)) None (SFdiv 53 1024 (dbl 1) (dbl 3) : Ex))) (ex_leaf_of (to_f64 ex_third32)) (ex_leaf_of (S754_zero true));
   TNode (dbl 0) (Some (mkSplit (lit "color") None (Some ([lit "red"; lit "blue"], [2; -1]%Z)) (dbl 1))) (ex_leaf_of S754_nan) (ex_leaf_of (S754_infinity true))].
(** The fields of all nodes, in prefix order, with the numbers of children *)
Definition ex_fields (sp : split Ex) : str * option (f32 * bool) * option (list str * list Z) * f64 := (sp_feature sp, sp_float sp, sp_cat sp, sp_gain sp : f64).
Fixpoint ex_nodes (t : tree Ex) : list (nat * f64 * option (str * option (f32 * bool) * option (list str * list Z) * f64)) :=
  match t with
  | TNone => []
  | TNode s sp l r => ((if present l then 1 else 0) + (if present r then 1 else 0), s : f64, option_map ex_fields sp) :: ex_nodes l ++ ex_nodes r
  end.
Definition ex_loaded : option (list (list (nat * f64 * option (str * option (f32 * bool) * option (list str * list Z) * f64))) * str) :=
  option_map (fun r => (map ex_nodes (fst r), snd r)) (forest_of (c_exp := fun x => x) (c_log := fun x => x) (forest_json (float_text 9) double_text ex_kept (lit "note"))).
Example C94_example :
  Forall writable_tree ex_kept /\
  float_text 9 (to_f64 ex_third32) = nearest_double false 333333343 (-9) /\ feqb (float_text 9 (to_f64 ex_third32)) (to_f64 ex_third32) = false /\
  ex_loaded = Some ([[(2, S754_zero false, Some (lit "x", Some (ex_third32, true), None, SFdiv 53 1024 (dbl 1) (dbl 3))); (0, to_f64 ex_third32, None); (0, S754_zero false, None)];
                     [(2, S754_zero false, Some (lit "color", None, Some ([lit "red"; lit "blue"], [2; -1]%Z), dbl 1 : f64)); (0, S754_nan, None); (0, S754_infinity true, None)]], lit "note").
Proof.
  split; [|vm_compute; repeat split; reflexivity].
  constructor; [|constructor; [|constructor]].
  - apply fork_writable; [apply split_writable; [apply writable_small; vm_compute; repeat split; discriminate|exact I|vm_compute; reflexivity]|apply leaf_writable|apply (leaf_writable (S754_zero true))];
      apply writable_small; vm_compute; repeat split; discriminate.
  - apply fork_writable; [apply split_writable; [exact I|repeat constructor; discriminate|vm_compute; reflexivity]|apply (leaf_writable S754_nan)|apply (leaf_writable (S754_infinity true))];
      apply writable_small; vm_compute; repeat split; discriminate.
Qed.

(** A short text, and what the library writes for the same forest *)
Definition ex_short : json :=
  JDict [(lit "tree", JList [JDict [(lit "right_child", JDict []); (lit "left_child", JDict [(lit "score", JNum (dbl 1))]); (lit "split", JDict [(lit "feature", JStr (lit "x")); (lit "float_split", JDict [])])]])].
Definition ex_long : json :=
  forest_json (float_text 9) double_text
    [TNode (dbl 0 : Ex) (Some (mkSplit (lit "x") (Some (S754_zero false, false)) None (dbl 0 : Ex))) (ex_leaf_of (dbl 1)) (ex_leaf_of (dbl 0))] [].
Definition ex_read (j : json) := option_map (fun r => (map ex_nodes (fst r), snd r)) (forest_of (c_exp := fun x => x) (c_log := fun x => x) j).
Example C94_short : respelled ex_long ex_short /\ ex_read ex_long = ex_read ex_short /\
  ex_read ex_short = Some ([[(2, dbl 0 : f64, Some (lit "x", Some (S754_zero false, false), None, dbl 0 : f64)); (0, dbl 1 : f64, None); (0, dbl 0 : f64, None)]], []).
Proof.
  split; [|vm_compute; repeat split; reflexivity].
  eapply SameDict; [solve_distinct|apply Permutation_refl|]. apply OneField; [reflexivity| |solve_left_out].
  apply SameList. constructor; [|constructor].
  eapply SameDict; [solve_distinct|apply Permutation_rev|]. apply OneField; [reflexivity| |apply OneField; [reflexivity|apply SameText|apply OneField; [reflexivity| |solve_left_out]]].
  - eapply SameDict; [solve_distinct|apply Permutation_refl|solve_left_out].
  - eapply SameDict; [solve_distinct|apply Permutation_refl|]. apply OneField; [reflexivity|apply SameText|]. apply OneField; [reflexivity| |solve_left_out].
    eapply SameDict; [solve_distinct|apply Permutation_refl|solve_left_out].
Qed.
