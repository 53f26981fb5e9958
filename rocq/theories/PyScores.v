(** PyScores.v - model of Forest.predict_at_checkpoints (gbdt/_forest.py:18-30), a generator that goes through files.  Definitions only. *)
From Verif Require Import Base F32 Column DataStore Strings Num Forest Score Eval Python PyPlot Driver.

(** The contents of the files of the machine. *)
Definition disk := str -> option str.
Definition put (D : disk) (name text : str) : disk := fun n => if str_eqb n name then Some text else D n.

(** The pieces of a text between line ends (_forest.py:29).  Python's text mode takes "\n", "\r" and "\r\n" for the end of a line; the empty piece
    in the middle of "\r\n" is blank, so it is dropped below anyway. *)
Fixpoint pieces (cur rest : str) : list str :=
  match rest with
  | [] => [rev cur]
  | c :: t => if is_eol c then rev cur :: pieces [] t else pieces (c :: cur) t
  end.
(** for line in file, if line.strip(), without the white space around them (_forest.py:29-30), which float() ignores.
    Simplification: white space is that of ASCII (C locale). *)
Definition score_file_lines (text : str) : list str :=
  filter (fun l => match l with [] => false | _ => true end) (map trim (pieces [] text)).

Section Generator.
Context {N : Num}.
(** As in PyPlot.v; [show] is operator<< for doubles and [parse] is float() ([None]: ValueError); [can_open] tells which files can be written and
    [tmp] is tempfile.gettempdir(). *)
Variables (beg : begin_choice) (order : list str -> list str) (threads : nat) (show : N -> str) (parse : str -> option N)
  (can_open : str -> bool) (tmp : str).

(** [float(line) for line in ...] *)
Fixpoint parse_all (lines : list str) : option (list N) :=
  match lines with
  | [] => Some []
  | l :: t => match parse l, parse_all t with Some x, Some xs => Some (x :: xs) | _, _ => None end
  end.

(** The files that were written (evaluation.cc:70-84) *)
Definition put_scores (D : disk) (ws : list (Z * list N)) : disk :=
  fold_left (fun D w => put D (score_name tmp (fst w)) (score_text show (snd w))) ws D.

(** self._forest.predict_and_output(data_store, checkpoints, output_dir) (27) *)
Definition write_checkpoints (f : forest N) (d : pystore) (points : list Z) : py (list (Z * list N)) :=
  py_predict_and_output d (fun m =>
    let! rows := ds_num_rows beg m in
    evaluate_checkpoints (store_view order m rows) threads (fun p => can_open (score_name tmp p)) f points).

(** The generator: not started, reading files, finished *)
Inductive gen :=
| GNew (f : forest N) (d : pystore) (points : list Z)
| GRead (points : list Z)
| GEnd.
(** What next() gives: an item, StopIteration, an exception of the library, IOError, ValueError *)
Inductive item :=
| Yields (p : Z) (scores : list N)
| Stops
| Throws (e : exc)
| NoFile (p : Z)
| NoNumber (p : Z).

(** One turn of the loop (28-30) *)
Definition read_next (D : disk) (points : list Z) : item * gen :=
  match points with
  | [] => (Stops, GEnd)
  | p :: points =>
      match D (score_name tmp p) with
      | None => (NoFile p, GEnd)
      | Some text =>
          match parse_all (score_file_lines text) with
          | None => (NoNumber p, GEnd)
          | Some scores => (Yields p scores, GRead points)
          end
      end
  end.
(** next(g): runs to the next yield.  The files are written at the first call only. *)
Definition next (D : disk) (g : gen) : res (item * gen * disk) :=
  match g with
  | GNew f d points =>
      let! r := write_checkpoints f d points in
      match r with
      | inl e => Ret (Throws e, GEnd, D)
      | inr ws => let D := put_scores D ws in Ret (read_next D points, D)
      end
  | GRead points => Ret (read_next D points, D)
  | GEnd => Ret (Stops, GEnd, D)
  end.
End Generator.
Arguments gen : clear implicits. Arguments item : clear implicits.
