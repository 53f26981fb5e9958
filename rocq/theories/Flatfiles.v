(** Flatfiles.v - model of src/data_store/flatfiles_data_store.cc.  Definitions only. *)
From Verif Require Import Base F32 Column DataStore Strings Tsv.

Definition hash : ascii := "#"%char.

(** HasPrefix(line, "#") (flatfiles_data_store.cc:91, 106).  On an empty line HasPrefix reads the character
    at line.end(); that is formally undefined (property C60), but in every implementation it is the terminating
    NUL, so the answer is false.  The model takes that reading here. *)
Definition is_comment (line : str) : bool :=
  match line with [] => false | c :: _ => if ascii_dec c hash then true else false end.

(** The loops of LoadStringColumn and LoadFloatColumn (89-95, 104-115) over the lines ReadLine returns:
    in.good() is false exactly for the last one. *)
Fixpoint flat_rows (lines : list str) : list str :=
  match lines with
  | [] => []
  | [last] => if is_comment last then [] else match last with [] => [] | _ => [last] end
  | l :: t => if is_comment l then flat_rows t else l :: flat_rows t
  end.

(** StringCast or NAN (110-114) *)
Definition flat_float (strtof : strtof_t) (line : str) : f32 :=
  match string_cast strtof line with Some v => v | None => fnan end.

(** FindFlatfile (33-41) *)
Fixpoint find_flatfile (fs : files_t) (dirs : list str) (name : str) : option str :=
  match dirs with
  | [] => None
  | d :: t =>
      let f := d ++ lit "/" ++ name in
      match fs f with Some content => Some content | None => find_flatfile fs t name end
  end.

(** LoadColumn up to the lock (43-74): [None] when it logs an error and returns false.
    seekg(0) puts the stream back to the start (eofbit is cleared; failbit is only set for an empty file, whose
    type line is unknown).  CreateStringColumn / CreateRawFloatColumn always succeed,
    CreateBucketizedFloatColumn may divide by zero (property C09). *)
Definition load_flat (fs : files_t) (strtof : strtof_t) (dirs : list str) (name : str) : res (option column) :=
  match find_flatfile fs dirs name with
  | None => Ret None
  | Some content =>
      let lines := file_lines content in
      let rows := flat_rows lines in
      match lines with
      | [] => Undef
      | first :: _ =>
          if str_eqb first (lit "# dtype=strings") then
            Ret (Some (mkCol name (BodyS (create_string_column rows))))
          else if str_eqb first (lit "# dtype=raw_floats") then
            Ret (Some (mkCol name (BodyR (create_raw (map (flat_float strtof) rows)))))
          else if str_eqb first (lit "# dtype=bucketized_floats") then
            let! c := create_bucketized default_buckets (map (flat_float strtof) rows) in
            Ret (Some (mkCol name (BodyB c)))
          else Ret None
      end
  end.

(** ** Concurrent GetColumn calls (121-140, 76-84)

    Each thread performs GetColumn for a list of names, one after the other.  The store is column_map_ (names to
    objects) and a heap of column objects ([None]: destroyed).  A critical section of mutex_ is one step.
    [load n] is the result of reading the file of [n] (lines 43-74), a function because files do not
    change. *)
Inductive fpc :=
| FIdle                        (* between calls *)
| FLoad (n : str)              (* line 129: the name was not in the map *)
| FInsert (n : str) (c : column)  (* line 76 *)
| FFetch (n : str).            (* line 137 *)

Record fthread := mkFT {
  ft_todo : list str;
  ft_pc : fpc;
  ft_results : list (str * option nat)   (* returned pointers, latest first; [None]: nullptr *)
}.

Record fstate := mkFS { f_map : list (str * nat); f_heap : list (option column); f_threads : list fthread }.

Definition finit (names : list (list str)) : fstate := mkFS [] [] (map (fun l => mkFT l FIdle []) names).

Definition with_thread (s : fstate) (i : nat) (t : fthread) : fstate :=
  mkFS (f_map s) (f_heap s) (set_nth i t (f_threads s)).

(** column_map_[n] = move(column) (82): the old object, if any, is destroyed. *)
Definition finsert (n : str) (c : column) (s : fstate) : list (str * nat) * list (option column) :=
  let heap := match assoc n (f_map s) with Some old => set_nth old None (f_heap s) | None => f_heap s end in
  ((n, List.length heap) :: filter (fun p => negb (str_eqb n (fst p))) (f_map s), heap ++ [Some c]).

Inductive fstep (load : str -> option column) : fstate -> fstate -> Prop :=
(** the look-up under the lock (123-126) *)
| FCheckHit s i n todo rs id :
    nth_error (f_threads s) i = Some (mkFT (n :: todo) FIdle rs) -> assoc n (f_map s) = Some id ->
    fstep load s (with_thread s i (mkFT todo (FFetch n) rs))
| FCheckMiss s i n todo rs :
    nth_error (f_threads s) i = Some (mkFT (n :: todo) FIdle rs) -> assoc n (f_map s) = None ->
    fstep load s (with_thread s i (mkFT todo (FLoad n) rs))
(** reading the file (44-74), outside the lock *)
| FReadFail s i n todo rs :
    nth_error (f_threads s) i = Some (mkFT todo (FLoad n) rs) -> load n = None ->
    fstep load s (with_thread s i (mkFT todo FIdle ((n, None) :: rs)))
| FRead s i n c todo rs :
    nth_error (f_threads s) i = Some (mkFT todo (FLoad n) rs) -> load n = Some c ->
    fstep load s (with_thread s i (mkFT todo (FInsert n c) rs))
(** the row count check fails (77-81): begin() is any entry of the map *)
| FMismatch s i n c todo rs m id c' rows rows' :
    nth_error (f_threads s) i = Some (mkFT todo (FInsert n c) rs) ->
    In (m, id) (f_map s) -> nth_error (f_heap s) id = Some (Some c') ->
    col_size c' = Ret rows' -> col_size c = Ret rows -> 0 < rows' -> rows' <> rows ->
    fstep load s (with_thread s i (mkFT todo FIdle ((n, None) :: rs)))
(** it succeeds (82-84) *)
| FPut s i n c todo rs :
    nth_error (f_threads s) i = Some (mkFT todo (FInsert n c) rs) ->
    (f_map s = [] \/
     exists m id c' rows rows', In (m, id) (f_map s) /\ nth_error (f_heap s) id = Some (Some c') /\
       col_size c' = Ret rows' /\ col_size c = Ret rows /\ (rows' = 0 \/ rows' = rows)) ->
    fstep load s (let (m, h) := finsert n c s in
                  mkFS m h (set_nth i (mkFT todo (FFetch n) rs) (f_threads s)))
(** the final look-up (136-139) *)
| FGet s i n todo rs id :
    nth_error (f_threads s) i = Some (mkFT todo (FFetch n) rs) -> assoc n (f_map s) = Some id ->
    fstep load s (with_thread s i (mkFT todo FIdle ((n, Some id) :: rs))).

Inductive freach (load : str -> option column) : fstate -> fstate -> Prop :=
| FRefl s : freach load s s
| FStep s1 s2 s3 : freach load s1 s2 -> fstep load s2 s3 -> freach load s1 s3.
