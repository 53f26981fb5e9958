(** Bagging.v - model of scripts/bagged.py, which trains one forest per bag and averages scores.  Definitions only.
    Not modelled: the commands it runs (they are Driver.v), directories, and the listing of the score files. *)
From Verif Require Import Base F32 Strings Num Driver.

(** Splitting into lines, as readlines() of Python 2 does (bagged.py:36): only "\n" ends a line; an empty rest is no line. *)
Fixpoint py_lines (cur rest : str) : list str :=
  match rest with
  | [] => match cur with [] => [] | _ => [rev cur] end
  | c :: t => if ascii_dec c nl then rev cur :: py_lines [] t else py_lines (c :: cur) t
  end.
(** not line.startswith('#') and line.strip() (36) *)
Definition counts (line : str) : bool :=
  match line with
  | c :: _ => if ascii_dec c "#"%char then false else match trim line with [] => false | _ => true end
  | [] => false
  end.
(** self._opts.num_rows (33-36), from the text of the first file that is listed *)
Definition count_rows (text : str) : nat := List.length (filter counts (py_lines [] text)).

Section Bags.
(** hash(str(row_number)), and num_bags *)
Variables (hash : nat -> Z) (bags : nat).

(** inBag, outOfBag (41-45).  % of Python has the sign of its right side. *)
Definition in_bag (row k : nat) : bool := negb (Z.modulo (hash row) (Z.of_nat bags) =? Z.of_nat k)%Z.
Definition out_of_bag (row k : nat) : bool := negb (in_bag row k).

(** The file bagging_weights (83-85); print ends the last line. *)
Definition weight_lines (rows k : nat) : list str :=
  lit "# dtype=raw_floats" :: map (fun i => if in_bag i k then lit "1" else lit "0") (seq 0 rows).
Definition weight_text (rows k : nat) : str := concat (map (fun l => l ++ [nl]) (weight_lines rows k)).

(** Exceptions of Python *)
Inductive failure := IndexError | ZeroDivisionError | KeyError | TypeError.

Context {N : Num}.
Local Open Scope num_scope.
(** bagged_scores[k][i] for k in xrange(num_bags) if ... (129-130, 134-135) *)
Fixpoint pick_scores (chosen : nat -> bool) (scores : list (list N)) (i : nat) (ks : list nat) : failure + list N :=
  match ks with
  | [] => inr []
  | k :: ks =>
      if chosen k then
        match nth_error scores k with
        | None => inl IndexError
        | Some l =>
            match nth_error l i with
            | None => inl IndexError
            | Some x => match pick_scores chosen scores i ks with inl e => inl e | inr xs => inr (x :: xs) end
            end
        end
      else pick_scores chosen scores i ks
  end.
(** sum(scores) / len(scores) (131, 136) *)
Definition average (r : failure + list N) : failure + N :=
  match r with
  | inl e => inl e
  | inr [] => inl ZeroDivisionError
  | inr xs => inr (fold_left nadd xs n0 / nZ (zlen xs))
  end.
Definition in_bag_score (scores : list (list N)) (i : nat) : failure + N :=
  average (pick_scores (in_bag i) scores i (seq 0 bags)).
Definition out_of_bag_score (scores : list (list N)) (i : nat) : failure + N :=
  average (pick_scores (out_of_bag i) scores i (seq 0 bags)).
End Bags.

(** ** The configuration (80) *)
(** JSON values, as far as the script looks into them *)
Inductive json := JObject (fields : list (str * json)) | JOther.
Fixpoint put_field (n : str) (v : json) (fields : list (str * json)) : list (str * json) :=
  match fields with
  | [] => [(n, v)]
  | (m, x) :: t => if str_eqb m n then (n, v) :: t else (m, x) :: put_field n v t
  end.
(** config['data_config']['sample_weight_column'] = 'bagging_weights' *)
Definition bag_config (config : json) : failure + json :=
  match config with
  | JOther => inl TypeError
  | JObject fields =>
      match assoc (lit "data_config") fields with
      | None => inl KeyError
      | Some JOther => inl TypeError
      | Some (JObject inner) =>
          inr (JObject (put_field (lit "data_config") (JObject (put_field (lit "sample_weight_column") JOther inner)) fields))
      end
  end.
(** The fields of message Config (src/proto/config.proto:21-69), by which the JSON library knows them: as declared, or in lower camel case *)
Definition declared_fields : list str := map lit
  ["num_trees"; "num_leaves"; "shrinkage"; "min_gain"; "l2_lambda"; "min_hessian"; "example_sampling_rate"; "feature_sampling_rate"; "eval_interval";
   "loss_func"; "pair_sampling_rate"; "pair_weight_by_delta_target"; "lambdamart_dcg_base"; "equal_group_weight"; "float_feature"; "categorical_feature";
   "weight_column"; "target_column"; "binarize_target"; "group_column"; "additional_float_column"; "additional_string_column"]%string.
Definition upper (c : ascii) : ascii :=
  let n := nat_of_ascii c in if (97 <=? n) && (n <=? 122) then ascii_of_nat (n - 32) else c.
Fixpoint camel (s : str) : str :=
  match s with
  | c :: t => if ascii_dec c "_"%char then match t with d :: t => upper d :: camel t | [] => [] end else c :: camel t
  | [] => []
  end.
Definition config_fields : list str := declared_fields ++ map camel declared_fields.
