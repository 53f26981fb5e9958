(** Prop_Draw.v - property C84.  Statements only.  Model: Draw.v; vocabulary: DrawSpec.v, PrintSpec.v. *)
From Coq Require Import SpecFloat Reals.
From Verif Require Import Base F32 Column DataStore Num Strings Forest Score Driver FlatSpec Print PrintSpec Draw DrawSpec Draw_proofs Prop_Score Prop_Split.

(** ** C84 - drawings of trees *)
(** The drawing has one shape for every node, named after the path to it, and one arrow from every node to each of its children.  The label holds the
    feature, the rounded threshold or the categories, the side of missing values, and the rounded score. *)
Theorem C84_picture {c_exp c_log : f64 -> f64} reread regain (t : tree (IEEE c_exp c_log)) name : (forall x, finite_number x -> finite_number (reread x)) -> forked t -> all_finite t ->
  exists d, visualize (tree_json reread regain t) name = inr d /\
    (forall p sub, subtree t p = Some sub -> exists lab, In (ANode (name ++ letters p) lab) d /\ node_text reread sub lab) /\
    (forall n lab, In (ANode n lab) d -> exists p sub, subtree t p = Some sub /\ n = name ++ letters p /\ node_text reread sub lab) /\
    (forall a b, In (AnEdge a b) d <-> exists p side sub, subtree t (p ++ [side]) = Some sub /\ a = name ++ letters p /\ b = name ++ letters (p ++ [side])) /\
    (forall i j n lab lab', nth_error d i = Some (ANode n lab) -> nth_error d j = Some (ANode n lab') -> i = j) /\
    (forall i j a b, nth_error d i = Some (AnEdge a b) -> nth_error d j = Some (AnEdge a b) -> i = j).
Proof. exact (drawn_once reread regain t name). Qed.
Print Assumptions C84_picture.
(** Infinite numbers and NaN, and nothing else, make it fail: JSON has them as strings. *)
Theorem C84_finite {c_exp c_log : f64 -> f64} reread regain (t : tree (IEEE c_exp c_log)) name : (forall x, finite_number x -> finite_number (reread x)) -> forked t ->
  ((exists d, visualize (tree_json reread regain t) name = inr d) <-> all_finite t).
Proof. exact (drawn_iff reread regain t name). Qed.
Print Assumptions C84_finite.
(** Trees with the same drawing have the same shape. *)
Theorem C84_shape {c_exp c_log : f64 -> f64} reread regain (t u : tree (IEEE c_exp c_log)) name d : (forall x, finite_number x -> finite_number (reread x)) -> forked t -> forked u ->
  visualize (tree_json reread regain t) name = inr d -> visualize (tree_json reread regain u) name = inr d -> forall p, subtree t p <> None <-> subtree u p <> None.
Proof. exact (fun Fine => same_shape reread regain Fine t u name d). Qed.
Print Assumptions C84_shape.
(** Tree number [i] is drawn; negative numbers count from the end. *)
Theorem C84_forest {c_exp c_log : f64 -> f64} reread regain (f : forest (IEEE c_exp c_log)) meta i : visualize_tree (forest_json reread regain f meta) i =
  let k := if (i <? 0)%Z then (zlen f + i)%Z else i in
  if (k <? 0)%Z then inl IndexError
  else match nth_error f (Z.to_nat k) with Some t => visualize (tree_json reread regain t) (lit "tree" ++ dec i) | None => inl IndexError end.
Proof. exact (forest_tree reread regain f meta i). Qed.
Print Assumptions C84_forest.
(** The text of the script draw_trees.py: a line for every node, one for every arrow, and an invisible arrow between siblings. *)
Theorem C84_script {c_exp c_log : f64 -> f64} reread regain (t : tree (IEEE c_exp c_log)) name : (forall x, finite_number x -> finite_number (reread x)) ->
  forked t -> all_finite t -> simple_words t ->
  exists lines, traverse (tree_json reread regain t) name = inr (text lines []) /\
    (forall p sub, subtree t p = Some sub -> exists lab, In (node_line (name ++ letters p) lab) lines /\ script_text reread sub lab) /\
    (forall p side sub, subtree t (p ++ [side]) = Some sub -> In (arrow_line (name ++ letters p) (name ++ letters (p ++ [side]))) lines) /\
    (forall line, In line lines ->
       (exists p sub lab, subtree t p = Some sub /\ script_text reread sub lab /\ line = node_line (name ++ letters p) lab) \/
       (exists p side sub, subtree t (p ++ [side]) = Some sub /\ line = arrow_line (name ++ letters p) (name ++ letters (p ++ [side]))) \/
       (exists p sub, subtree t (p ++ [true]) = Some sub /\ line = hidden_line (name ++ letters (p ++ [true])) (name ++ letters (p ++ [false])))).
Proof. exact (fun Fine F A W => scripted_text reread regain t name Fine F A W). Qed.
Print Assumptions C84_script.
(** The script draws the same whatever the sides of missing values: JSON always has the key it looks for. *)
Theorem C84_missing_refuted {c_exp c_log : f64 -> f64} reread regain side (t : tree (IEEE c_exp c_log)) name :
  traverse (tree_json reread regain (redirected side t)) name = traverse (tree_json reread regain t) name.
Proof. exact (redirect_same reread regain side t name). Qed.
Print Assumptions C84_missing_refuted.

(** A tree with a threshold and a list of categories *)
Definition ex_leaf_of (x : f64) : tree Ex := TNode (x : Ex) None TNone TNone.
Definition ex_number (feature : String.string) (thr : f32) (right : bool) : split Ex := mkSplit (lit feature) (Some (thr, right)) None (dbl 1).
Definition ex_names (feature : String.string) (names : list String.string) : split Ex := mkSplit (lit feature) None (Some (map lit names, [])) (dbl 1).
Definition ex_third : f64 := SFdiv 53 1024 (dbl 1) (dbl (-3)).
Definition ex_drawn : tree Ex :=
  TNode (dbl 0) (Some (ex_number "x" (fl 2) false)) (ex_leaf_of ex_third)
    (TNode (dbl 1) (Some (ex_names "color" ["red"; "blue"]%string)) (ex_leaf_of (dbl 2)) (ex_leaf_of (dbl (-4)))).
Definition ex_show (s : shape) : list String.string := match s with ANode n l => map string_of_list_ascii [n; l] | AnEdge a b => map string_of_list_ascii [a; lit "->"; b] end.
Definition ex_shows (r : py (list shape)) : py (list (list String.string)) := pylet d := r in inr (map ex_show d).
Definition ex_same (x : f64) : f64 := x.
Example C84_example : forked ex_drawn /\ all_finite ex_drawn /\
  ex_shows (visualize_tree (forest_json ex_same ex_same [ex_leaf_of (dbl 1); ex_drawn] []) 1) = inr (
    [["tree1"; "x *<= 2.000\n 0.000000"]; ["tree1l"; "-0.333333"]; ["tree1r"; "color in {red, blue}\n 1.000000"]; ["tree1rl"; "2.000000"]; ["tree1rr"; "-4.000000"];
     ["tree1r"; "->"; "tree1rl"]; ["tree1r"; "->"; "tree1rr"]; ["tree1"; "->"; "tree1l"]; ["tree1"; "->"; "tree1r"]]%string) /\
  traverse (tree_json ex_same ex_same ex_drawn) (lit "n") = inr (text (map lit
    ["n [label=""x <=* 2.000 \n0.000000"" color=blue];"; "n -> nl;"; "n -> nr;"; "nl -> nr[style=invis constraint=false];"; "nl [label=""-0.333333"" color=blue];";
     "nr [label=""color in [u'red', u'blue']"" color=blue];"; "nr -> nrl;"; "nr -> nrr;"; "nrl -> nrr[style=invis constraint=false];";
     "nrl [label=""2.000000"" color=blue];"; "nrr [label=""-4.000000"" color=blue];"]%string) []).
Proof.
  split; [apply ForkedNode; [left; discriminate|apply ForkedLeaf|apply ForkedNode; [right; discriminate|apply ForkedLeaf|apply ForkedLeaf]]|]. split; [|split; vm_compute; reflexivity].
  intros [|[] [|[] [|[] p]]] s sp l r E; try discriminate E; injection E as <- <- <- <-; (split; [exact I|]); intros Nl x thr m X Y; try (exfalso; apply Nl; reflexivity); injection X as <-; try discriminate Y;
    injection Y as <- <-; exact I.
Qed.

(** A value equal to the threshold goes right, although the label reads "<=". *)
Theorem C84_less_refuted : ex_shows (visualize (tree_json ex_same ex_same ex_drawn) []) = inr ([[""; "x *<= 2.000\n 0.000000"]; ["l"; "-0.333333"]; ["r"; "color in {red, blue}\n 1.000000"];
    ["rl"; "2.000000"]; ["rr"; "-4.000000"]; ["r"; "->"; "rl"]; ["r"; "->"; "rr"]; [""; "->"; "l"]; [""; "->"; "r"]]%string) /\
  map (go_left (mkCol (lit "x") (BodyB (ex_bcol [fl 1; fl 2; fl 3]))) (ex_number "x" (fl 2) false)) [0; 1; 2] = map Ret [true; false; false].
Proof. split; vm_compute; reflexivity. Qed.
Print Assumptions C84_less_refuted.
(** Different trees have the same drawing: thresholds that agree in three decimals, and names with commas. *)
Definition ex_fork (sp : split Ex) : tree Ex := TNode (dbl 0) (Some sp) (ex_leaf_of (dbl 1)) (ex_leaf_of (dbl 2)).
Theorem C84_labels_refuted : exists a b c d, a <> b /\ c <> d /\
  visualize (tree_json ex_same ex_same (ex_fork (ex_number "x" a false))) [] = visualize (tree_json ex_same ex_same (ex_fork (ex_number "x" b false))) [] /\
  visualize (tree_json ex_same ex_same (ex_fork (ex_names "c" c))) [] = visualize (tree_json ex_same ex_same (ex_fork (ex_names "c" d))) [].
Proof.
  exists (S754_finite false 13000000 (-37)), (S754_finite false 14000000 (-37)), ["a, b"]%string, ["a"; "b"]%string.
  split; [discriminate|]. split; [discriminate|]. split; vm_compute; reflexivity.
Qed.
Print Assumptions C84_labels_refuted.
(** The program _forest_visualizer.py draws tree number 1 and fails on a forest of one tree. *)
Theorem C84_program_refuted {c_exp c_log : f64 -> f64} reread regain (t : tree (IEEE c_exp c_log)) meta : visualize_tree (forest_json reread regain [t] meta) 1 = inl IndexError.
Proof. exact (forest_tree reread regain [t] meta 1). Qed.
Print Assumptions C84_program_refuted.
(** In the script, a category with an apostrophe ends the label early: it is quoted with the quotation mark. *)
Theorem C84_quotes_refuted : exists rest, traverse (tree_json ex_same ex_same (ex_fork (ex_names "c" ["it's"]%string))) (lit "n") = inr (lit "n [label=""c in [u""it's""]"" color=blue];" ++ rest).
Proof. eexists. vm_compute. reflexivity. Qed.
Print Assumptions C84_quotes_refuted.
