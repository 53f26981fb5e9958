(** Prop_PyScores.v - property C78.  Statements only.  Model: PyScores.v; vocabulary: PyScoresSpec.v, EvalSpec.v, ValueSpec.v. *)
From Coq Require Import SpecFloat DecimalString.
From Verif Require Import Base F32 Column DataStore StringsSpec Num Forest Eval EvalSpec Python PythonSpec PyPlot ValueSpec Driver DriverSpec PyScores PyScoresSpec PyScores_proofs
  Prop_Score Prop_Value Prop_Eval Prop_Driver.

(** ** C78 - predictions at checkpoints from Python *)
(** Increasing checkpoints between 1 and the number of trees: the iteration gives, for each checkpoint in order, the scores of the rows under the first
    trees, as they come back from their decimal text; whatever was on the disk before, and whatever happens to other files meanwhile. *)
Theorem C78_increasing (N : Num) beg order threads show parse can_open tmp k cols d (f : forest N) points D :
  (forall l x, In x (order l) <-> In x l) -> 1 <= threads ->
  well_typed k cols -> lossless k (frame_of cols) -> cols <> [] -> Forall (scorable (frame_of cols)) f -> py_add_all beg cols None = py_ret d ->
  StronglySorted Z.lt points -> (forall p, In p points -> (1 <= p <= zlen f)%Z /\ can_open (score_name tmp p) = true) -> (forall x, exists y, survives show parse x y) ->
  let next := next beg order threads show parse can_open tmp in
  (exists items, iterates next eq D (GNew f d points) items Stops) /\
  forall (others : disk -> disk -> Prop) items last, (forall D D', others D D' -> spares (score_name tmp) points D D') ->
    iterates next others D (GNew f d points) items last ->
    last = Stops /\ Forall2 (fun p it => fst it = p /\ rows_scored show parse (frame_of cols) k (firstn (Z.to_nat p) f) (snd it)) points items.
Proof. exact (fun O T => increasing_iterate beg order threads show parse can_open tmp O T k cols d f points D). Qed.
Print Assumptions C78_increasing.

(** Any list of checkpoints: items come in the order of the list, up to the first checkpoint that can not be read, which is one that was not written
    (see C28); and the items for checkpoints that were written are right. *)
Theorem C78_any (N : Num) beg order threads show parse can_open tmp k cols d (f : forest N) points (others : disk -> disk -> Prop) D items last :
  (forall l x, In x (order l) <-> In x l) -> 1 <= threads ->
  well_typed k cols -> lossless k (frame_of cols) -> cols <> [] -> Forall (scorable (frame_of cols)) f -> py_add_all beg cols None = py_ret d ->
  (forall p, written points (List.length f) p -> can_open (score_name tmp p) = true) -> (forall x, exists y, survives show parse x y) ->
  (forall D D', others D D' -> spares (score_name tmp) points D D') ->
  iterates (next beg order threads show parse can_open tmp) others D (GNew f d points) items last ->
  (exists rest, points = map fst items ++ rest /\
     (last = Stops /\ rest = [] \/ exists p rest', rest = p :: rest' /\ ~ written points (List.length f) p /\ (last = NoFile p \/ last = NoNumber p))) /\
  forall p sc, In (p, sc) items -> written points (List.length f) p -> rows_scored show parse (frame_of cols) k (firstn (Z.to_nat p) f) sc.
Proof.
  exact (fun O T => checkpoints_iterate beg order threads show parse can_open tmp O T k cols d f points others D items last).
Qed.
Print Assumptions C78_any.

(** A forest that names a column the table does not have: the first call raises an exception and writes no file. *)
Theorem C78_missing (N : Num) beg order threads show parse can_open tmp k cols d (f : forest N) points D n t :
  (forall l x, In x (order l) <-> In x l) -> well_typed k cols -> lossless k (frame_of cols) -> cols <> [] -> py_add_all beg cols None = py_ret d ->
  In t f -> EvalSpec.named n t -> frame_of cols n = None ->
  next beg order threads show parse can_open tmp D (GNew f d points) = Ret (Throws IosFailure, GEnd, D).
Proof. exact (fun O => missing_iterate beg order threads show parse can_open tmp O k cols d f points D n t). Qed.
Print Assumptions C78_missing.
(** A line that is no number: no item, however many lines before it are numbers. *)
Theorem C78_bad_line (N : Num) beg order threads show parse can_open tmp D p points ws w : D (score_name tmp p) = Some (separated ws) ->
  (forall x, In x ws -> x <> [] /\ forall c, In c x -> ~ blank c) -> In w ws -> parse w = None ->
  next (N := N) beg order threads show parse can_open tmp D (GRead (p :: points)) = Ret (NoNumber p, GEnd, D).
Proof. exact (fun E W => bad_iterate beg order threads show parse can_open tmp D p points ws w E (proj2 (Forall_forall _ _) W)). Qed.
Print Assumptions C78_bad_line.
(** A generator that has given no item is finished: all further calls stop the iteration and touch no file. *)
Theorem C78_finished (N : Num) beg order threads show parse can_open tmp D (g : gen N) x g' D' :
  next beg order threads show parse can_open tmp D g = Ret (x, g', D') -> (forall p l, x <> Yields p l) ->
  forall D2, next beg order threads show parse can_open tmp D2 g' = Ret (Stops, g', D2).
Proof. exact (finished_iterate beg order threads show parse can_open tmp D g x g' D'). Qed.
Print Assumptions C78_finished.

(** Examples: the table of C71, two forests, and calls of next() on two generators in a given order. *)
Definition ex_number (s : str) : option Ex := option_map (fun i => dbl (Z.of_int i)) (NilZero.int_of_string (string_of_list_ascii s)).
Definition ex_frame_store : pystore := match py_add_all (fun _ => 1) ex_table None with Ret (inr d) => d | _ => None end.
Definition ex_next (can_open : str -> bool) := next (N := Ex) (fun _ => 2) (fun l => rev l) 3 ex_show ex_number can_open (lit "/tmp").
(** What a call gives, without the type of the numbers *)
Inductive seen := Item (p : Z) (scores : list f64) | Stop | Exception (e : exc) | IOError (p : Z) | ValueError (p : Z).
Definition ex_see (x : item Ex) : seen :=
  match x with Yields p l => Item p l | Stops => Stop | Throws e => Exception e | NoFile p => IOError p | NoNumber p => ValueError p end.
Fixpoint ex_calls (can_open : str -> bool) (D : disk) (a b : gen Ex) (calls : list bool) : res (list seen) :=
  match calls with
  | [] => Ret []
  | first :: calls =>
      let! (x, g, D) := ex_next can_open D (if first : bool then a else b) in
      let! l := if first then ex_calls can_open D g b calls else ex_calls can_open D a g calls in Ret (ex_see x :: l)
  end.
Definition ex_gen (f : forest Ex) (points : list Z) : gen Ex := GNew f ex_frame_store points.
Definition ex_item (p : Z) (l : list Z) : seen := Item p (map dbl l).
Definition all_open : str -> bool := fun _ => true.
Definition no_files : disk := fun _ => None.
Example C78_example :
  ex_calls all_open no_files (ex_gen [ex_tree; ex_constant; ex_tree] [1; 3]%Z) GEnd [true; true; true; true] =
    Ret [ex_item 1 [2; 3; 1; 1]%Z; ex_item 3 [54; 56; 52; 52]%Z; Stop; Stop] /\
  survives (N := Ex) ex_show ex_number (dbl 54) (dbl 54) /\
  ex_calls all_open no_files (ex_gen [TNode (dbl 1) (Some (mkSplit (lit "q") None None n0)) TNone TNone] [1]%Z) GEnd [true; true] = Ret [Exception IosFailure; Stop].
Proof.
  split; [vm_compute; reflexivity|]. split; [|vm_compute; reflexivity].
  split; [vm_compute; discriminate|]. split; [|vm_compute; reflexivity]. intros c I.
  change (ex_show (dbl 54)) with (lit "54") in I. destruct I as [<-|[<-|[]]]; vm_compute; intuition discriminate.
Qed.

(** Checkpoints that are not increasing: the scores of an earlier call, of another forest, are given for checkpoint 1; without an earlier call an
    exception is raised. *)
Theorem C78_unsorted_refuted :
  ex_calls all_open no_files (ex_gen [ex_constant] [1]%Z) (ex_gen [ex_tree; ex_tree] [2; 1]%Z) [true; false; false] =
    Ret [ex_item 1 [50; 50; 50; 50]%Z; ex_item 2 [4; 6; 2; 2]%Z; ex_item 1 [50; 50; 50; 50]%Z] /\
  ex_calls all_open no_files GEnd (ex_gen [ex_tree; ex_tree] [2; 1]%Z) [false; false] = Ret [ex_item 2 [4; 6; 2; 2]%Z; IOError 1].
Proof. split; vm_compute; reflexivity. Qed.
Print Assumptions C78_unsorted_refuted.

(** Files that can not be written are no error: the old scores are given, because ABORTED is no exception (C56). *)
Theorem C78_unwritable_refuted :
  let D := put no_files (lit "/tmp/forest.1.score") (lit "50") in
  ex_calls (fun _ => false) D (ex_gen [ex_tree; ex_tree] [1]%Z) GEnd [true; true] = Ret [ex_item 1 [50]%Z; Stop].
Proof. vm_compute. reflexivity. Qed.
Print Assumptions C78_unwritable_refuted.

(** Two iterations at once share their files: the first forest's second item has the scores of the second forest. *)
Theorem C78_interleaved_refuted :
  ex_calls all_open no_files (ex_gen [ex_tree; ex_tree] [1; 2]%Z) (ex_gen [ex_constant; ex_constant] [1; 2]%Z) [true; false; true; false] =
    Ret [ex_item 1 [2; 3; 1; 1]%Z; ex_item 1 [50; 50; 50; 50]%Z; ex_item 2 [100; 100; 100; 100]%Z; ex_item 2 [100; 100; 100; 100]%Z].
Proof. vm_compute. reflexivity. Qed.
Print Assumptions C78_interleaved_refuted.
