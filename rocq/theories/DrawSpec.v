(** DrawSpec.v - vocabulary for drawn trees. *)
From Coq Require Import SpecFloat Reals.
From Verif Require Import Base F32 Num Forest StopwatchSpec PrintSpec.

(** A decimal number with [k] decimals, the closest to [x]; of two, the even one *)
Definition thousandth (k : nat) (n : Z) : R := (IZR n * powerRZ 10 (- Z.of_nat k))%R.
Definition fixed_text (k : nat) (x : R) (s : str) : Prop :=
  exists n w f, denotes s (thousandth k n) /\ s = w ++ lit "." ++ f /\ List.length f = k /\ Forall decimal_digit f /\
    (forall n', Rabs (thousandth k n - x) <= Rabs (thousandth k n' - x))%R /\
    (Z.Even n \/ forall n', n' <> n -> Rabs (thousandth k n - x) < Rabs (thousandth k n' - x))%R.
(** The name of the node at the end of a path (true: left) *)
Definition letters (p : list bool) : str := map (fun b : bool => if b then "l"%char else "r"%char) p.
(** Words with commas between them *)
Inductive listed_words : list str -> str -> Prop :=
| NoWord : listed_words [] []
| OneWord w : listed_words [w] w
| MoreWords w ws s : ws <> [] -> listed_words ws s -> listed_words (w :: ws) (w ++ lit ", " ++ s).

Section Spec.
Context {c_exp c_log : f64 -> f64} (reread : f64 -> f64).
Notation N := (IEEE c_exp c_log).

(** The node at the end of a path *)
Fixpoint subtree (t : tree N) (p : list bool) : option (tree N) :=
  match t, p with
  | TNone, _ => None
  | TNode _ _ _ _, [] => Some t
  | TNode _ _ l r, b :: p => subtree (if b then l else r) p
  end.
(** Neither NaN nor infinite *)
Definition finite_number (x : f64) : Prop := match x with S754_zero _ | S754_finite _ _ _ => True | _ => False end.
(** Every node has no or two children; those with children have a split with a threshold or with categories. *)
Inductive forked : tree N -> Prop :=
| ForkedLeaf s sp : forked (TNode s sp TNone TNone)
| ForkedNode s sp l r : (sp_float sp <> None \/ sp_cat sp <> None) -> forked l -> forked r -> forked (TNode s (Some sp) l r).
(** The scores of all nodes, and the thresholds of those with children, are numbers. *)
Definition all_finite (t : tree N) : Prop :=
  forall p s sp l r, subtree t p = Some (TNode s sp l r) ->
    finite_number s /\ (l <> TNone -> forall x thr m, sp = Some x -> sp_float x = Some (thr, m) -> finite_number (to_f64 thr)).

(** The text of a split.  A star marks the side that missing values take. *)
Inductive split_text : split N -> str -> Prop :=
| NumberText sp thr (right : bool) a : sp_float sp = Some (thr, right) -> fixed_text 3 (real_of (reread (to_f64 thr))) a ->
    split_text sp (sp_feature sp ++ lit " " ++ (if right then lit "<=*" else lit "*<=") ++ lit " " ++ a)
| NamesText sp names idx a : sp_float sp = None -> sp_cat sp = Some (names, idx) -> listed_words names a ->
    split_text sp (sp_feature sp ++ lit " in {" ++ a ++ lit "}").
(** The label of a node: the split, a backslash and an n, and the score; just the score of a leaf.  A score that is not negative has a blank before it in nodes with children. *)
Inductive node_text : tree N -> str -> Prop :=
| LeafText (s : N) sp a : fixed_text 6 (real_of (reread s)) a -> node_text (TNode s sp TNone TNone) a
| ForkText (s : N) sp l r a b gap : l <> TNone -> split_text sp a -> fixed_text 6 (real_of (reread s)) b ->
    gap = (if ascii_dec (hd " "%char b) "-"%char then [] else lit " ") ->
    node_text (TNode s (Some sp) l r) (a ++ [ascii_of_nat 92; "n"%char] ++ gap ++ b).

(** The same tree, with missing values sent to given sides *)
Fixpoint redirected (side : str -> bool) (t : tree N) : tree N :=
  match t with
  | TNone => TNone
  | TNode s sp l r =>
      TNode s (match sp with
               | Some x => Some (mkSplit (sp_feature x) (match sp_float x with Some (thr, _) => Some (thr, side (sp_feature x)) | None => None end) (sp_cat x) (sp_gain x))
               | None => None
               end) (redirected side l) (redirected side r)
  end.
End Spec.

(** A printable word without quotes and backslashes *)
Definition simple_word (w : str) : Prop := forall c, In c w -> (32 <= nat_of_ascii c < 127)%nat /\ ~ In (nat_of_ascii c) [34; 39; 92].
Section Script.
Context {c_exp c_log : f64 -> f64} (reread : f64 -> f64).
Notation N := (IEEE c_exp c_log).
Definition simple_words (t : tree N) : Prop :=
  forall p s sp l r names idx, subtree t p = Some (TNode s (Some sp) l r) -> sp_cat sp = Some (names, idx) -> Forall simple_word names.
(** The labels of the script: every threshold has its star on the right; nodes with categories have no score. *)
Inductive script_text : tree N -> str -> Prop :=
| ScriptLeaf (s : N) sp a : fixed_text 6 (real_of (reread s)) a -> script_text (TNode s sp TNone TNone) a
| ScriptNumber (s : N) sp l r thr right a b : l <> TNone -> sp_float sp = Some (thr, right) ->
    fixed_text 3 (real_of (reread (to_f64 thr))) a -> fixed_text 6 (real_of (reread s)) b ->
    script_text (TNode s (Some sp) l r) (sp_feature sp ++ lit " <=* " ++ a ++ lit " " ++ [ascii_of_nat 92; "n"%char] ++ b)
| ScriptNames (s : N) sp l r names idx a : l <> TNone -> sp_float sp = None -> sp_cat sp = Some (names, idx) ->
    listed_words (map (fun w => lit "u'" ++ w ++ lit "'") names) a ->
    script_text (TNode s (Some sp) l r) (sp_feature sp ++ lit " in [" ++ a ++ lit "]").
(** The lines of the script *)
Definition node_line (name label : str) : str := name ++ lit " [label=" ++ [ascii_of_nat 34] ++ label ++ [ascii_of_nat 34] ++ lit " color=blue];".
Definition arrow_line (a b : str) : str := a ++ lit " -> " ++ b ++ lit ";".
Definition hidden_line (a b : str) : str := a ++ lit " -> " ++ b ++ lit "[style=invis constraint=false];".
End Script.
