(** FlatSpec.v - vocabulary for the flat file properties. *)
From Verif Require Import Base F32 Column DataStore Strings Tsv Flatfiles.

(** A text file: lines each ended by a newline, then what follows the last newline. *)
Definition text (ls : list str) (final : str) : str := concat (map (fun l => l ++ [nl]) ls) ++ final.

(** [s] is [l] without the carriage returns at its end. *)
Definition stripped (l s : str) : Prop :=
  exists post, l = s ++ post /\ (forall c, In c post -> c = cr) /\ (forall s', s <> s' ++ [cr]).

Definition starts_with_hash (l : str) : Prop := exists t, l = "#"%char :: t.

(** The data rows of a file whose lines are [ls] and [final] once stripped: every line that does not start
    with '#'; a missing final newline makes the last piece a line, unless it is empty. *)
Definition rows_of (ls : list str) (final : str) (rows : list str) : Prop :=
  exists keep : list bool,
    let all := ls ++ match final with [] => [] | _ => [final] end in
    Forall2 (fun l (k : bool) => k = false <-> starts_with_hash l) all keep /\
    rows = map fst (filter snd (combine all keep)).

(** A name is found in the first directory that has such a file. *)
Definition found_in (fs : files_t) (dirs : list str) (name content : str) : Prop :=
  exists before d after, dirs = before ++ d :: after /\ fs (d ++ "/"%char :: name) = Some content /\
    forall b, In b before -> fs (b ++ "/"%char :: name) = None.

(** No name is asked for by two threads. *)
Definition disjoint_names (names : list (list str)) : Prop :=
  forall i j a b n, nth_error names i = Some a -> nth_error names j = Some b -> In n a -> In n b -> i = j.
