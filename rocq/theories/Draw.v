(** Draw.v - model of the drawing code: gbdt/_forest_visualizer.py, scripts/draw_trees.py, and the JSON form of a forest they read
    (JsonUtils::ToJson, src/utils/json_utils.cc:49-56, then json.loads).  Definitions only.
    Simplifications: names are ASCII; Graphviz itself, files and the command line are not modelled. *)
From Coq Require Import SpecFloat.
From Verif Require Import Base F32 Num Strings Forest Driver Stopwatch Print.

(** ** Python values made by json.loads *)
Inductive json := JBool (b : bool) | JNum (x : f64) | JStr (s : str) | JList (l : list json) | JDict (l : list (str * json)).

(** ** ToJson
    Field names are in lower camel case; always_print_primitive_fields makes numbers, booleans, strings and lists appear even if they have default values;
    sub-messages appear if they are present.  NaN and infinities are written as strings.  [reread]: the number Python reads for a finite number written
    by the library (the decimal text of a float usually denotes another double); [regain]: the same for fields of type double. *)
Definition number (reread : f64 -> f64) (x : f64) : json :=
  match x with
  | S754_nan => JStr (lit "NaN")
  | S754_infinity s => JStr ((if s then lit "-" else []) ++ lit "Infinity")
  | _ => JNum (reread x)
  end.
Section Json.
Context {c_exp c_log : f64 -> f64} (reread regain : f64 -> f64).
Notation N := (IEEE c_exp c_log).
(** src/proto/tree.proto:27-31 *)
Definition float_split_json (s : f32 * bool) : json :=
  JDict [(lit "threshold", number reread (to_f64 (fst s))); (lit "missingToRightChild", JBool (snd s))].
(** tree.proto:20-24 *)
Definition cat_split_json (s : list str * list Z) : json :=
  JDict [(lit "category", JList (map JStr (fst s)));
         (lit "internalCategoricalIndex", JList (map (fun z => JNum (of_int z)) (snd s)))].
(** tree.proto:33-39 *)
Definition split_json (s : split N) : json :=
  JDict ([(lit "feature", JStr (sp_feature s))] ++
         match sp_float s with Some x => [(lit "floatSplit", float_split_json x)] | None => [] end ++
         match sp_cat s with Some x => [(lit "catSplit", cat_split_json x)] | None => [] end ++
         [(lit "gain", number regain (sp_gain s))]).
(** tree.proto:41-46 *)
Fixpoint tree_json (t : tree N) : json :=
  match t with
  | TNone => JDict [(lit "score", number reread (S754_zero false))]
  | TNode s sp l r =>
      JDict ([(lit "score", number reread s)] ++
             match sp with Some x => [(lit "split", split_json x)] | None => [] end ++
             (if present l then [(lit "leftChild", tree_json l)] else []) ++
             (if present r then [(lit "rightChild", tree_json r)] else []))
  end.
(** tree.proto:48-51 *)
Definition forest_json (f : forest N) (meta_info : str) : json :=
  JDict [(lit "tree", JList (map tree_json f)); (lit "metaInfo", JStr meta_info)].
End Json.

(** ** Python *)
Inductive py_error := KeyError | ValueError | TypeError | IndexError.
Definition py (A : Type) := (py_error + A)%type.
Definition py_bind {A B} (m : py A) (k : A -> py B) : py B := match m with inl e => inl e | inr a => k a end.
Notation "'pylet' x := m 'in' k" := (py_bind m (fun x => k)) (at level 200, x name, m at level 100, k at level 200).

(** d[k], with a function applied to the value *)
Section Item.
Context {A : Type} (f : json -> A) (k : str).
Fixpoint item_with (l : list (str * json)) : py A :=
  match l with [] => inl KeyError | (k', v) :: t => if str_eqb k k' then inr (f v) else item_with t end.
End Item.
Definition item (k : str) (d : json) : py json := match d with JDict l => item_with (fun v => v) k l | _ => inl TypeError end.
(** k in d *)
Definition has_key (k : str) (d : json) : bool := match item k d with inr _ => true | inl _ => false end.
(** The truth of a value *)
Definition truth (j : json) : bool :=
  match j with JBool b => b | JNum x => negb (match x with S754_zero _ => true | _ => false end) | JStr s => negb (str_eqb s []) | JList l => negb (zlen l =? 0)%Z | JDict l => negb (zlen l =? 0)%Z end.
(** "{}".format of a string; other values do not occur there. *)
Definition as_text (j : json) : py str := match j with JStr s => inr s | _ => inl TypeError end.
Fixpoint as_texts (l : list json) : py (list str) :=
  match l with [] => inr [] | j :: t => pylet s := as_text j in pylet ss := as_texts t in inr (s :: ss) end.
Definition as_list (j : json) : py (list json) := match j with JList l => inr l | _ => inl TypeError end.

(** "{:.<k>f}".format(x): the exact value rounded to k decimals, ties to even; [plus] stands before numbers without minus sign. *)
Definition fixed_digits (k : nat) (n : Z) : str :=
  let unit := (10 ^ Z.of_nat k)%Z in
  padded (Z.to_nat (Z.max 1 (digits (n / unit)))) (n / unit) ++ lit "." ++ padded k (n mod unit).
Definition fixed (plus : str) (k : nat) (x : f64) : str :=
  match x with
  | S754_nan => plus ++ lit "nan"
  | S754_infinity s => (if s then lit "-" else plus) ++ lit "inf"
  | S754_zero s => (if s then lit "-" else plus) ++ fixed_digits k 0
  | S754_finite s m e =>
      let n := if (0 <=? e)%Z then scaled (Zpos m * 2 ^ e) 1 (Z.of_nat k) else scaled (Zpos m) (2 ^ (- e)) (Z.of_nat k) in
      (if s then lit "-" else plus) ++ fixed_digits k n
  end.
(** The format refuses strings. *)
Definition format_fixed (plus : str) (k : nat) (j : json) : py str :=
  match j with JNum x => inr (fixed plus k x) | JBool b => inr (fixed plus k (if b then of_int 1 else S754_zero false)) | _ => inl ValueError end.

(** ", ".join *)
Fixpoint joined (sep : str) (l : list str) : str :=
  match l with [] => [] | [s] => s | s :: t => s ++ sep ++ joined sep t end.

(** ** gbdt/_forest_visualizer.py *)
(** A backslash and the letter n, as in the source *)
Definition backslash_n : str := [ascii_of_nat 92; "n"%char].
(** __floatSplit__ (30-35) *)
Definition float_label (sp : json) : py str :=
  pylet fs := item (lit "floatSplit") sp in
  pylet missing := (if has_key (lit "missingToRightChild") fs then pylet v := item (lit "missingToRightChild") fs in inr (truth v) else inr false) in
  pylet feature := (pylet j := item (lit "feature") sp in as_text j) in
  pylet threshold := (pylet j := item (lit "threshold") fs in format_fixed [] 3 j) in
  inr (feature ++ lit " " ++ (if missing then lit "<=*" else lit "*<=") ++ lit " " ++ threshold).
(** __catSplit__ (37-40) *)
Definition cat_label (sp : json) : py str :=
  pylet feature := (pylet j := item (lit "feature") sp in as_text j) in
  pylet cs := item (lit "catSplit") sp in
  pylet categories := (pylet j := item (lit "category") cs in pylet l := as_list j in as_texts l) in
  inr (feature ++ lit " in " ++ lit "{" ++ joined (lit ", ") categories ++ lit "}").
(** __branchNodeLabel__ (42-46) *)
Definition branch_label (node : json) : py str :=
  pylet sp := item (lit "split") node in
  pylet d := (if has_key (lit "floatSplit") sp then float_label sp else cat_label sp) in
  pylet s := (pylet j := item (lit "score") node in format_fixed (lit " ") 6 j) in
  inr (d ++ backslash_n ++ s).
(** __leafNodeLabel__ (48-49) *)
Definition leaf_label (node : json) : py str := pylet j := item (lit "score") node in format_fixed [] 6 j.
(** __nodeLabel__ (51-55) *)
Definition node_label (node : json) : py str := if has_key (lit "leftChild") node then branch_label node else leaf_label node.

(** The calls digraph.node and digraph.edge *)
Inductive shape := ANode (name label : str) | AnEdge (from to : str).
(** __visualizeTreeInternal__ (57-65) *)
Fixpoint visualize (node : json) (name : str) : py (list shape) :=
  pylet label := node_label node in
  match node with
  | JDict l =>
      if has_key (lit "leftChild") node then
        pylet a := (pylet r := item_with (fun v => visualize v (name ++ lit "l")) (lit "leftChild") l in r) in
        pylet b := (pylet r := item_with (fun v => visualize v (name ++ lit "r")) (lit "rightChild") l in r) in
        inr (ANode name label :: a ++ b ++ [AnEdge name (name ++ lit "l"); AnEdge name (name ++ lit "r")])
      else inr [ANode name label]
  | _ => inl TypeError
  end.
(** l[i]: negative indices count from the end. *)
Definition index_of {A} (l : list A) (i : Z) : py A :=
  let k := if (i <? 0)%Z then (zlen l + i)%Z else i in
  if (k <? 0)%Z then inl IndexError else match nth_error l (Z.to_nat k) with Some x => inr x | None => inl IndexError end.
(** visualize_tree (18-28) *)
Definition visualize_tree (forest : json) (i : Z) : py (list shape) :=
  pylet t := (pylet j := item (lit "tree") forest in pylet l := as_list j in index_of l i) in
  visualize t (lit "tree" ++ dec i).

(** ** scripts/draw_trees.py (Python 2) *)
(** repr of a unicode string: quoted with the apostrophe, unless it contains one and no quote; backslashes, the chosen quote and control characters escaped *)
Definition apostrophe : ascii := ascii_of_nat 39.
Definition quotation : ascii := ascii_of_nat 34.
Definition hex_digit (n : nat) : ascii := ascii_of_nat (if n <? 10 then 48 + n else 87 + n).
Definition escaped (q c : ascii) : str :=
  let n := nat_of_ascii c in
  let bs := ascii_of_nat 92 in
  if (n =? 92) || (if ascii_dec c q then true else false) then [bs; c]
  else if n =? 9 then [bs; "t"%char] else if n =? 10 then [bs; "n"%char] else if n =? 13 then [bs; "r"%char]
  else if (n <? 32) || (127 <=? n) then [bs; "x"%char; hex_digit (n / 16); hex_digit (n mod 16)]
  else [c].
Definition contains (c : ascii) (s : str) : bool := existsb (fun x => if ascii_dec x c then true else false) s.
Definition repr (s : str) : str :=
  let q := if contains apostrophe s && negb (contains quotation s) then quotation else apostrophe in
  lit "u" ++ [q] ++ flat_map (escaped q) s ++ [q].
(** str of a list of strings *)
Definition repr_list (l : list str) : str := lit "[" ++ joined (lit ", ") (map repr l) ++ lit "]".

(** branchNodeToString (16-29) *)
Definition branch_string (node : json) : py str :=
  pylet sp := item (lit "split") node in
  if has_key (lit "floatSplit") sp then
    pylet fs := item (lit "floatSplit") sp in
    pylet feature := (pylet j := item (lit "feature") sp in as_text j) in
    pylet threshold := (pylet j := item (lit "threshold") fs in format_fixed [] 3 j) in
    pylet s := (pylet j := item (lit "score") node in format_fixed [] 6 j) in
    inr (feature ++ lit " " ++ (if has_key (lit "missingToRightChild") fs then lit "<=*" else lit "*<=") ++ lit " " ++ threshold ++ lit " " ++ backslash_n ++ s)
  else if has_key (lit "catSplit") sp then
    pylet feature := (pylet j := item (lit "feature") sp in as_text j) in
    pylet cs := item (lit "catSplit") sp in
    pylet categories := (pylet j := item (lit "category") cs in pylet l := as_list j in as_texts l) in
    inr (feature ++ lit " in " ++ repr_list categories)
  else inl TypeError.
Definition statement (name label : str) : str := name ++ lit " [label=" ++ [quotation] ++ label ++ [quotation] ++ lit " color=blue];" ++ [nl].
Definition arrow (from to : str) : str := from ++ lit " -> " ++ to ++ lit ";" ++ [nl].
Definition hidden_arrow (from to : str) : str := from ++ lit " -> " ++ to ++ lit "[style=invis constraint=false];" ++ [nl].
(** traverse (34-53) *)
Fixpoint traverse (node : json) (name : str) : py str :=
  match node with
  | JDict l =>
      if has_key (lit "leftChild") node then
        pylet label := branch_string node in
        pylet a := (pylet r := item_with (fun v => traverse v (name ++ lit "l")) (lit "leftChild") l in r) in
        pylet b := (pylet r := item_with (fun v => traverse v (name ++ lit "r")) (lit "rightChild") l in r) in
        inr (statement name label ++ arrow name (name ++ lit "l") ++ arrow name (name ++ lit "r") ++
             hidden_arrow (name ++ lit "l") (name ++ lit "r") ++ a ++ b)
      else pylet label := leaf_label node in inr (statement name label)
  | _ => inl TypeError
  end.
(** The text written to forest.dot (main, 65-69); print ends it with a newline. *)
Fixpoint traverse_all (l : list json) (i : Z) : py (list str) :=
  match l with
  | [] => inr []
  | t :: rest =>
      pylet s := traverse t (lit "node" ++ dec i) in
      pylet ss := traverse_all rest (i + 1) in
      inr ((lit "digraph tree {" ++ [nl] ++ s ++ [nl] ++ lit "}") :: ss)
  end.
Definition dot_file (forest : json) : py str :=
  pylet l := (pylet j := item (lit "tree") forest in as_list j) in
  pylet ss := traverse_all l 0 in inr (joined [nl] ss ++ [nl]).
